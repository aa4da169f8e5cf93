(** Polygons built from pieces of another one: rotations and caps. *)
From Coq Require Import List ZArith QArith Lqa Lia Arith ZifyBool.
From Verif Require Import BigUIntModel GeoModel GeoSpec GeoProofs GeoPlaneProofs GeoPluckerProofs CvxSpec CvxProofs CvxSeqProofs CvxCapProofs PolyModel PolySpec PolyBridgeProofs PolyInfoProofs.
Import ListNotations.
Open Scope Q_scope.
(** ** Lists from functions *)
Lemma fmap_nth {B} (f : nat -> B) n i : (i < n)%nat -> nth_error (map f (seq 0 n)) i = Some (f i).
Proof. intros L. rewrite nth_error_map, (nth_error_nth' _ 0%nat) by (rewrite seq_length; exact L). rewrite seq_nth by exact L. reflexivity. Qed.
Lemma fmap_nth_inv {B} (f : nat -> B) n i x : nth_error (map f (seq 0 n)) i = Some x -> (i < n)%nat /\ x = f i.
Proof.
  intros E. assert (L : (i < n)%nat). { pose proof (proj1 (nth_error_Some (map f (seq 0 n)) i) ltac:(congruence)) as L. rewrite map_length, seq_length in L. exact L. }
  split; [exact L|]. rewrite fmap_nth in E by exact L. congruence.
Qed.
Lemma fmap_length {B} (f : nat -> B) n : length (map f (seq 0 n)) = n.
Proof. rewrite map_length. apply seq_length. Qed.
Lemma nth_error_ext {B} (l l' : list B) : (forall i, nth_error l i = nth_error l' i) -> l = l'.
Proof.
  revert l'. induction l as [|x l IH]; intros [|y l'] E; [reflexivity|discriminate (E 0%nat)|discriminate (E 0%nat)|]. pose proof (E 0%nat) as E0. cbn in E0. injection E0 as <-. f_equal. apply IH. intros i. exact (E (S i)).
Qed.
Lemma list_as_fmap {B} (x : B) l : l = map (cyc x l) (seq 0 (length l)).
Proof.
  apply nth_error_ext. intros i. destruct (Nat.lt_ge_cases i (length l)) as [L|L].
  - rewrite fmap_nth by exact L. apply cyc_nth_error. exact L.
  - rewrite (proj2 (nth_error_None l i) L). symmetry. apply nth_error_None. rewrite fmap_length. exact L.
Qed.
Lemma cvx_mod n s P i : cvx n s P -> P (i mod n) = P i.
Proof. intros C. pose proof (c_n _ _ _ C). symmetry. rewrite <- (period_mult n s P C (i mod n) (i / n)). f_equal. pose proof (Nat.div_mod i n ltac:(lia)). lia. Qed.
Lemma mod_succ n i : (0 < n)%nat -> (S (i mod n) mod n = S i mod n)%nat.
Proof. intros N. replace (S (i mod n)) with (i mod n + 1)%nat by lia. rewrite Nat.add_mod_idemp_l by lia. f_equal. lia. Qed.
(** A convex sequence as a convex cycle. *)
Lemma cvx_cycle_of n s P : cvx n s P -> convex_cycle s (map P (seq 0 n)).
Proof.
  intros C. pose proof (c_n _ _ _ C) as N. split; [|split].
  - intros i j k a b c Hij Hjk Ea Eb Ec. apply fmap_nth_inv in Ea as [_ ->]. apply fmap_nth_inv in Eb as [_ ->]. apply fmap_nth_inv in Ec as [L ->]. apply (c_triple _ _ _ C); lia.
  - intros i a b Ea Eb. rewrite fmap_length in Eb. apply fmap_nth_inv in Ea as [_ ->]. apply fmap_nth_inv in Eb as [_ ->]. rewrite (cvx_mod n s P _ C). apply (c_edge _ _ _ C).
  - destruct (c_full _ _ _ C) as (i & j & k & F). exists (P i), (P j), (P k).
    assert (I : forall m, In (P m) (map P (seq 0 n))). { intros m. rewrite <- (cvx_mod n s P m C). apply in_map. apply in_seq. pose proof (Nat.mod_upper_bound m n ltac:(lia)). lia. }
    repeat split; auto.
Qed.
Lemma fmap_polygon n s P q : cvx n s P -> in_polygon s (map P (seq 0 n)) q <-> forall i, (i < n)%nat -> 0 <= s * turn (P i) (P (S i)) q.
Proof.
  intros C. pose proof (c_n _ _ _ C) as N. split.
  - intros Hq i L. apply (Hq i); [apply fmap_nth; exact L|]. rewrite fmap_length, <- (cvx_mod n s P (S i) C). apply fmap_nth. apply Nat.mod_upper_bound. lia.
  - intros Hq i a b Ea Eb. rewrite fmap_length in Eb. apply fmap_nth_inv in Ea as [L ->]. apply fmap_nth_inv in Eb as [_ ->]. rewrite (cvx_mod n s P _ C). apply Hq. exact L.
Qed.
Lemma cvx_shift n s P k : cvx n s P -> cvx n s (fun i => P (k + i)%nat).
Proof.
  intros [N S0 Pe T E (i & j & l & F)]. split; [exact N|exact S0| | | |].
  - intros m. rewrite Nat.add_assoc. apply Pe.
  - intros a b c Hab Hbc Hc. apply T; lia.
  - intros m. rewrite <- plus_n_Sm. apply E.
  - assert (Rep : forall m, exists m', P (k + m')%nat = P m).
    { intros m. exists (m + k * (n - 1))%nat. replace (k + (m + k * (n - 1)))%nat with (m + k * n)%nat by nia. clear - Pe. induction k as [|t IH]; [f_equal; lia|]. replace (m + S t * n)%nat with (m + t * n + n)%nat by lia. rewrite Pe. exact IH. }
    destruct (Rep i) as (i' & Ei). destruct (Rep j) as (j' & Ej). destruct (Rep l) as (l' & El). rewrite <- Ei, <- Ej, <- El in F. exists i', j', l'. exact F.
Qed.
(** ** Edges *)
(** The line l goes from x in the direction of y. *)
Definition edge_on (l : pline) (x y : qpoint) : Prop := line_points l x /\ exists k, 0 < k /\ qp_eq (qpt (ld l)) (qscale k (qsub y x)).
Lemma edge_on_comp l x y x' y' : qp_eq x x' -> qp_eq y y' -> edge_on l x y -> edge_on l x' y'.
Proof.
  intros (X1 & X2 & X3) (Y1 & Y2 & Y3) ((A & B & C) & (k & K & D1 & D2 & D3)). split.
  - unfold line_points, qp_eq, qcross in *. cbn [qx qy qz] in *. rewrite <- X1, <- X2, <- X3. auto.
  - exists k. split; [exact K|]. unfold qp_eq, qscale, qsub in *. cbn [qx qy qz] in *. rewrite <- X1, <- X2, <- X3, <- Y1, <- Y2, <- Y3. auto.
Qed.
Lemma edge_on_point l x y t : edge_on l x y -> line_points l (between x y t).
Proof.
  intros ((A & B & C) & (k & K & (D1 & D2 & D3))). unfold line_points, qp_eq, qcross, between, qadd, qscale, qsub, qpt in *. cbn [qx qy qz] in *. rewrite D2, D3 in A. rewrite D1, D3 in B. rewrite D1, D2 in C. rewrite <- A, <- B, <- C, D1, D2, D3. repeat split; ring.
Qed.
Lemma edge_on_end l x y t : 0 < t -> edge_on l x y -> edge_on l x (between x y t).
Proof.
  intros T (A & (k & K & (D1 & D2 & D3))). split; [exact A|]. exists (k / t). split; [apply Qlt_shift_div_l; lra|]. unfold qp_eq, between, qadd, qscale, qsub, qpt in *. cbn [qx qy qz] in *. rewrite D1, D2, D3. repeat split; field; lra.
Qed.
Lemma edge_on_start l x y t : t < 1 -> edge_on l x y -> edge_on l (between x y t) y.
Proof.
  intros T H. split; [exact (edge_on_point l x y t H)|]. destruct H as (_ & (k & K & (D1 & D2 & D3))). exists (k / (1 - t)). split; [apply Qlt_shift_div_l; lra|]. unfold qp_eq, between, qadd, qscale, qsub, qpt in *. cbn [qx qy qz] in *. rewrite D1, D2, D3. repeat split; field; lra.
Qed.
Lemma between_one a b t : t == 1 -> qp_eq (between a b t) b.
Proof. intros T. unfold between, qadd, qscale, qsub, qp_eq. cbn [qx qy qz]. rewrite T. repeat split; ring. Qed.
Lemma qdrop_between d a b t : qdrop d (between a b t) = lerp (qdrop d a) (qdrop d b) t.
Proof. destruct d as [|[|d]]; reflexivity. Qed.
(** ** A polygon from its vertices *)
Lemma poly_ok_intro {A} (h : hspace3) d (es : list (pedge A)) (f : nat -> qpoint) n :
  length es = n -> (0 < n)%nat -> (d < 3)%nat -> comp (hn h) d <> 0%Z -> (forall i, (i < n)%nat -> side h (f i) == 0) ->
  (forall i, (i < n)%nat -> exists e, nth_error es i = Some e /\ denotes (pv e) (f i) /\ edge_on (pl e) (f i) (f (S i mod n))) ->
  convex_cycle (inject_Z (comp (hn h) d)) (map (qdrop d) (map f (seq 0 n))) -> poly_ok (Poly h d es) (map f (seq 0 n)).
Proof.
  intros Le N Dl Dn On Ed Cx. split; cbn [pedges pdrop pplane]; unfold pnormal_drop; cbn [pplane pdrop].
  - assert (G : forall i, nth_error es i = None /\ nth_error (map f (seq 0 n)) i = None \/ exists e, nth_error es i = Some e /\ nth_error (map f (seq 0 n)) i = Some (f i) /\ denotes (pv e) (f i)).
    { intros i. destruct (Nat.lt_ge_cases i n) as [L|L]; [right; destruct (Ed i L) as (e & E & D & _); exists e; rewrite fmap_nth by exact L; auto|]. left. split; apply nth_error_None; [lia|rewrite fmap_length; exact L]. }
    revert G. generalize (map f (seq 0 n)) as l'. clear. revert f. induction es as [|e es IH]; intros f l' G.
    + destruct l' as [|y l']; [constructor|]. destruct (G 0%nat) as [[_ Z]|(e & Z & _)]; discriminate Z.
    + destruct (G 0%nat) as [[Z _]|(e0 & E1 & E2 & D)]; [discriminate Z|]. destruct l' as [|y l']; [discriminate E2|]. cbn in E1, E2. injection E1 as <-. injection E2 as ->. constructor; [exact D|]. apply (IH (fun i => f (S i))). intros i. exact (G (S i)).
  - split; assumption.
  - apply Forall_forall. intros q I. apply in_map_iff in I as (i & <- & I). apply in_seq in I. apply On. lia.
  - intros i e a b Ee Ea Eb. rewrite fmap_length in Eb. apply fmap_nth_inv in Ea as [L ->]. apply fmap_nth_inv in Eb as [_ ->]. destruct (Ed i L) as (e' & Ee' & _ & X). rewrite Ee in Ee'. injection Ee' as <-. exact X.
  - exact Cx.
Qed.
(** ** Rotating the edges *)
Definition rotate {B} (k : nat) (l : list B) : list B := skipn k l ++ firstn k l.
Lemma rotate_length {B} k (l : list B) : length (rotate k l) = length l.
Proof. unfold rotate. rewrite app_length, Nat.add_comm, <- app_length, firstn_skipn. reflexivity. Qed.
Lemma nth_error_skipn' {B} k (l : list B) i : nth_error (skipn k l) i = nth_error l (k + i).
Proof. revert l. induction k as [|k IH]; intros l; [reflexivity|]. destruct l; [destruct i; reflexivity|]. apply IH. Qed.
Lemma nth_error_firstn' {B} k (l : list B) i : (i < k)%nat -> nth_error (firstn k l) i = nth_error l i.
Proof. revert l i. induction k as [|k IH]; intros l i L; [lia|]. destruct l as [|y l]; [reflexivity|]. destruct i; [reflexivity|]. cbn. apply IH. lia. Qed.
Lemma rotate_nth {B} k (l : list B) i : (k <= length l)%nat -> (i < length l)%nat -> nth_error (rotate k l) i = nth_error l ((k + i) mod length l).
Proof.
  intros K L. unfold rotate. destruct (Nat.lt_ge_cases i (length l - k)) as [X|X].
  - rewrite nth_error_app1 by (rewrite skipn_length; exact X). rewrite nth_error_skipn', Nat.mod_small by lia. reflexivity.
  - rewrite nth_error_app2 by (rewrite skipn_length; exact X). rewrite skipn_length. rewrite nth_error_firstn' by lia. f_equal.
    replace (k + i)%nat with ((i - (length l - k)) + 1 * length l)%nat by lia. rewrite Nat.mod_add by lia. rewrite Nat.mod_small by lia. reflexivity.
Qed.
Lemma rotate_fmap {B} (x : B) k l : (k <= length l)%nat -> rotate k l = map (fun i => cyc x l (k + i)) (seq 0 (length l)).
Proof.
  intros K. apply nth_error_ext. intros i. destruct (Nat.lt_ge_cases i (length l)) as [L|L].
  - rewrite rotate_nth, fmap_nth by assumption. apply cyc_nth_error_mod. lia.
  - rewrite (proj2 (nth_error_None (rotate k l) i)) by (rewrite rotate_length; exact L). symmetry. apply nth_error_None. rewrite fmap_length. exact L.
Qed.
Lemma poly_ok_rotate {A} (p : poly A) qs k : poly_ok p qs -> (k <= length qs)%nat -> poly_ok (Poly (pplane p) (pdrop p) (rotate k (pedges p))) (rotate k qs).
Proof.
  intros H K. pose proof (ok_length p qs H) as Ln. pose proof (ok_n p qs H) as N. destruct (po_drop p qs H) as [Dl Dn]. rewrite (rotate_fmap o3 k qs K). rewrite Ln in *.
  apply poly_ok_intro; [rewrite rotate_length; reflexivity|exact N|exact Dl|exact Dn| | |].
  - intros i L. apply (ok_on_plane p qs H).
  - intros i L. rewrite rotate_nth by assumption. fold (pcount p).
    destruct (ok_edge p qs H ((k + i) mod pcount p) ltac:(apply Nat.mod_upper_bound; lia)) as (e & E & D & Ed). exists e. split; [exact E|]. rewrite <- Ln in *. rewrite cyc_mod in * by lia. split; [exact D|].
    replace (cyc o3 qs (k + S i mod length qs)) with (cyc o3 qs (S ((k + i) mod length qs))); [exact Ed|].
    rewrite <- (cyc_mod o3 qs (S _)), <- (cyc_mod o3 qs (k + _)) by lia. f_equal. rewrite mod_succ by lia. rewrite Nat.add_mod_idemp_r by lia. f_equal. lia.
  - rewrite map_map. apply (cvx_cycle_of _ _ (fun i => flat_at p qs (k + i))). apply (cvx_shift _ _ _ k (ok_cvx p qs H)).
Qed.
Lemma polygon_rotate {A} (p : poly A) qs k q : poly_ok p qs -> (k <= length qs)%nat -> polygon_point (pplane p) (pdrop p) (rotate k qs) q <-> polygon_point (pplane p) (pdrop p) qs q.
Proof.
  intros H K. pose proof (ok_length p qs H) as Ln. pose proof (ok_n p qs H) as N. pose proof (ok_cvx p qs H) as C. unfold polygon_point. apply and_iff_compat_l.
  rewrite (rotate_fmap o3 k qs K). rewrite (list_as_fmap o3 qs) at 2. rewrite !map_map, Ln.
  change (comp (hn (pplane p)) (pdrop p)) with (pnormal_drop p).
  rewrite (fmap_polygon _ _ (fun i => flat_at p qs i) _ C). rewrite (fmap_polygon _ _ (fun i => flat_at p qs (k + i)) _ (cvx_shift _ _ _ k C)).
  assert (Red : forall P, cvx (pcount p) (inject_Z (pnormal_drop p)) P -> (forall i, (i < pcount p)%nat -> 0 <= inject_Z (pnormal_drop p) * turn (P i) (P (S i)) (qdrop (pdrop p) q)) -> forall i, 0 <= inject_Z (pnormal_drop p) * turn (P i) (P (S i)) (qdrop (pdrop p) q)).
  { intros P CP Hi i. specialize (Hi (i mod pcount p)%nat ltac:(apply Nat.mod_upper_bound; lia)). rewrite (cvx_mod _ _ _ i CP) in Hi. rewrite <- (cvx_mod _ _ _ (S (_ mod _)) CP), mod_succ, (cvx_mod _ _ _ _ CP) in Hi by exact N. exact Hi. }
  split; intros Hi i L.
  - pose proof (Red _ (cvx_shift _ _ _ k C) Hi (i + k * (pcount p - 1))%nat) as X. cbv beta in X. rewrite <- plus_n_Sm in X.
    replace (k + (i + k * (pcount p - 1)))%nat with (i + k * pcount p)%nat in X by nia. rewrite (period_mult _ _ _ C) in X. rewrite <- Nat.add_succ_l, (period_mult _ _ _ C) in X. exact X.
  - pose proof (Red _ C Hi (k + i)%nat) as X. rewrite plus_n_Sm in X. exact X.
Qed.
