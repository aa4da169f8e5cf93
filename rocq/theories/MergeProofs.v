(** Merging polygons: from convex cycles to stored polygons. *)
From Coq Require Import List Bool Arith ZArith QArith Lqa Lia ZifyBool Morphisms Setoid.
From Verif Require Import BigUIntModel GeoModel GeoSpec GeoProofs GeoPlaneProofs GeoDirProofs GeoPluckerProofs CvxSpec CvxProofs CvxSeqProofs CvxCapProofs PolyModel PolySpec PolyBridgeProofs PolySearchProofs PolyInfoProofs PolyExtremeProofs PolyCapProofs PolyChildProofs CvxMergeProofs PolyOpsModel.
Import ListNotations.
Open Scope Q_scope.
#[export] Instance qp_equiv : Equivalence qp_eq.
Proof.
  split.
  - intros p. repeat split; reflexivity.
  - intros p q (X & Y & Z). repeat split; symmetry; assumption.
  - intros p q r (X & Y & Z) (X' & Y' & Z'). repeat split; etransitivity; eassumption.
Qed.
#[export] Instance qdrop_proper d : Proper (qp_eq ==> qp2_eq) (qdrop d).
Proof. intros p q (X & Y & Z). destruct d as [|[|d]]; split; assumption. Qed.
#[export] Instance side_proper h : Proper (qp_eq ==> Qeq) (side h).
Proof. intros p q (X & Y & Z). unfold side, qdot. rewrite X, Y, Z. reflexivity. Qed.
#[export] Instance qcomp_proper : Proper (qp_eq ==> eq ==> Qeq) qcomp.
Proof. intros p q (X & Y & Z) i j <-. destruct i as [|[|i]]; assumption. Qed.
(** Points of a plane are known by two coordinates. *)
Lemma plane_point h d a b : (d < 3)%nat -> comp (hn h) d <> 0%Z -> side h a == 0 -> side h b == 0 -> qp2_eq (qdrop d a) (qdrop d b) -> qp_eq a b.
Proof.
  intros L N Sa Sb E. pose proof (plane_same h d 0 a b L ltac:(lia) N Sa Sb E) as [Y Z]. pose proof (plane_same h d 1 a b L ltac:(lia) N Sa Sb E) as [_ X]. repeat split; assumption.
Qed.
Lemma side_between h a b t : side h a == 0 -> side h b == 0 -> side h (between a b t) == 0.
Proof. intros Sa Sb. assert (E : side h (between a b t) == (1 - t) * side h a + t * side h b) by (unfold side, between, qdot, qadd, qscale, qsub; cbn [qx qy qz]; ring). rewrite E, Sa, Sb. ring. Qed.
Lemma plane_between h d a b c t : (d < 3)%nat -> comp (hn h) d <> 0%Z -> side h a == 0 -> side h b == 0 -> side h c == 0 -> qp2_eq (qdrop d c) (lerp (qdrop d a) (qdrop d b) t) -> qp_eq c (between a b t).
Proof. intros L N Sa Sb Sc E. apply (plane_point h d); try assumption; [apply side_between; assumption|]. rewrite qdrop_between. exact E. Qed.
Lemma qcomp_between a b t i : qcomp (between a b t) i == qcomp a i + t * (qcomp b i - qcomp a i).
Proof. destruct i as [|[|i]]; cbn; reflexivity. Qed.
(** An edge leads on to what lies behind its end. *)
Lemma edge_on_beyond l x y z t : 0 < t -> qp_eq z (between x y t) -> edge_on l x y -> edge_on l x z.
Proof.
  intros T E [P (k & K & D)]. split; [exact P|]. exists (k / t). split; [apply Qlt_shift_div_l; lra|]. destruct E as (X & Y & Z). destruct D as (DX & DY & DZ).
  unfold between, qadd, qscale, qsub in *. cbn [qx qy qz] in *. repeat split; cbn [qx qy qz]; [rewrite DX, X|rewrite DY, Y|rewrite DZ, Z]; field; lra.
Qed.
(** ** Lists *)
Lemma firstn_rotate {B} (l : list B) k : (k < length l)%nat -> firstn (length l - 1) (rotate (S k) l) = skipn (S k) l ++ firstn k l.
Proof.
  intros L. unfold rotate. rewrite firstn_app, skipn_length. rewrite firstn_all2 by (rewrite skipn_length; lia). f_equal. replace (length l - 1 - (length l - S k))%nat with k by lia. rewrite firstn_firstn. f_equal. lia.
Qed.
Lemma rotate_app {B} (l l' : list B) : rotate (length l) (l ++ l') = l' ++ l.
Proof. unfold rotate. rewrite skipn_app, firstn_app, skipn_all, firstn_all, Nat.sub_diag. cbn. rewrite app_nil_r. reflexivity. Qed.
Lemma firstn_cyc {B} (x : B) l k : (k <= length l)%nat -> firstn k l = map (cyc x l) (seq 0 k).
Proof.
  intros K. apply nth_error_ext. intros i. destruct (Nat.lt_ge_cases i k) as [L|L].
  - rewrite nth_error_firstn', fmap_nth by exact L. apply cyc_nth_error. lia.
  - rewrite (proj2 (nth_error_None (firstn k l) i)) by (rewrite firstn_length; lia). symmetry. apply nth_error_None. rewrite fmap_length. exact L.
Qed.
Lemma map_cyc {B} (f : qpoint -> B) l : forall n, map f (map (cyc o3 l) (seq 0 n)) = map (fun i => f (cyc o3 l i)) (seq 0 n).
Proof. intros n. apply map_map. Qed.
(** The data of the edges do not matter. *)
Definition shape {A} (e : pedge A) : hpoint3 * pline := (pv e, pl e).
Lemma poly_ok_shape {A B} (p : poly A) qs (es : list (pedge B)) : poly_ok p qs -> map shape es = map shape (pedges p) -> poly_ok (Poly (pplane p) (pdrop p) es) qs.
Proof.
  intros [V D Pl Li Cx] E. split; cbn [pplane pdrop pedges]; [|exact D|exact Pl| |exact Cx].
  - clear - V E. revert es E. induction V as [|e q l l' Dq V IH]; intros es E; destruct es as [|e' es]; try discriminate E; [constructor|]. cbn in E. injection E as E1 E2 E3. constructor; [rewrite E1; exact Dq|exact (IH es E3)].
  - intros i e a b Ee Ea Eb. apply (map_nth_error shape) in Ee. rewrite E, nth_error_map in Ee. destruct (nth_error (pedges p) i) as [e'|] eqn:Ee'; [|discriminate]. cbn in Ee. injection Ee as E1 E2. rewrite <- E2. apply (Li i e' a b Ee' Ea Eb).
Qed.
Section Ok.
Context {A : Type} (p : poly A) (qs : list qpoint) (H : poly_ok p qs).
Lemma ok_edge_on i : (i < pcount p)%nat -> exists e, nth_error (pedges p) i = Some e /\ denotes (pv e) (cyc o3 qs i) /\ edge_on (pl e) (cyc o3 qs i) (cyc o3 qs (S i)).
Proof using All. intros L. destruct (ok_edge p qs H i L) as (e & E & D & X). exists e. auto. Qed.
Lemma ok_points q : polygon_point (pplane p) (pdrop p) qs q <-> side (pplane p) q == 0 /\ in_polygon (inject_Z (pnormal_drop p)) (map (flat_at p qs) (seq 0 (pcount p))) (qdrop (pdrop p) q).
Proof using All.
  unfold polygon_point, pnormal_drop. apply and_iff_compat_l. rewrite (list_as_fmap o3 qs) at 1. rewrite map_map, (ok_length p qs H). reflexivity.
Qed.
(** ** Removing a straight last vertex *)
Lemma remove_last : turn (flat_at p qs (pcount p - 2)) (flat_at p qs (pcount p - 1)) (flat_at p qs 0) == 0 ->
  poly_ok (Poly (pplane p) (pdrop p) (firstn (pcount p - 1) (pedges p))) (firstn (pcount p - 1) qs) /\
  forall q, polygon_point (pplane p) (pdrop p) (firstn (pcount p - 1) qs) q <-> polygon_point (pplane p) (pdrop p) qs q.
Proof using All.
  intros Z. pose proof (ok_cvx p qs H) as C. pose proof (cvx_three _ _ _ C) as N. pose proof (ok_length p qs H) as Ln. destruct (po_drop p qs H) as [Dl Dn]. set (n := pcount p) in *.
  assert (Le : length (firstn (n - 1) (pedges p)) = (n - 1)%nat) by (rewrite firstn_length; unfold n, pcount; lia).
  assert (Eq : firstn (n - 1) qs = map (cyc o3 qs) (seq 0 (n - 1))) by (apply firstn_cyc; lia). rewrite Eq. split.
  - apply poly_ok_intro; [exact Le|lia|exact Dl|exact Dn| | |].
    + intros i L. apply (ok_on_plane p qs H).
    + intros i L. rewrite nth_error_firstn' by exact L. destruct (ok_edge_on i ltac:(fold n; lia)) as (e & E & D & On). exists e. split; [exact E|]. split; [exact D|].
      destruct (Nat.eq_dec (S i) (n - 1)) as [Y|Y]; [|rewrite Nat.mod_small by lia; exact On]. rewrite Y, Nat.mod_same by lia. rewrite Y in On. replace i with (n - 2)%nat in * by lia.
      destruct (straight_place _ _ _ C Z) as (t & T & Et). apply (edge_on_beyond _ _ (cyc o3 qs (n - 1)) _ t); [lra| |exact On].
      apply (plane_between (pplane p) (pdrop p)); try assumption; try apply (ok_on_plane p qs H).
    + rewrite map_map. apply (straight_cycle _ _ _ C Z).
  - intros q. rewrite ok_points. unfold polygon_point, pnormal_drop. apply and_iff_compat_l. rewrite map_map. exact (straight_polygon _ _ _ C Z (qdrop (pdrop p) q)).
Qed.
End Ok.
(** ** Removing any straight vertex *)
Lemma rotated_at {A} (p : poly A) qs k i : poly_ok p qs -> (k <= length qs)%nat -> flat_at (Poly (pplane p) (pdrop p) (rotate k (pedges p))) (rotate k qs) i = flat_at p qs (k + i).
Proof.
  intros H K. unfold flat_at. cbn [pdrop]. f_equal. pose proof (ok_length p qs H) as Ln. pose proof (ok_n p qs H) as N. unfold cyc. rewrite rotate_length. apply nth_error_nth.
  rewrite rotate_nth by (try exact K; apply Nat.mod_upper_bound; lia). rewrite Nat.add_mod_idemp_r by lia. rewrite (cyc_nth_error_mod o3) by lia. reflexivity.
Qed.
Definition without {B} (j : nat) (l : list B) : list B := firstn j l ++ skipn (S j) l.
Lemma without_rotate {B} (l : list B) j : (j < length l)%nat -> without j l = rotate (length l - S j) (firstn (length l - 1) (rotate (S j) l)).
Proof. intros L. rewrite firstn_rotate by exact L. replace (length l - S j)%nat with (length (skipn (S j) l)) by (rewrite skipn_length; lia). rewrite rotate_app. reflexivity. Qed.
Lemma remove_vertex {A} (p : poly A) qs k : poly_ok p qs -> (k < pcount p)%nat -> let j := (S k mod pcount p)%nat in
  turn (flat_at p qs k) (flat_at p qs (S k)) (flat_at p qs (S (S k))) == 0 ->
  poly_ok (Poly (pplane p) (pdrop p) (without j (pedges p))) (without j qs) /\ forall q, polygon_point (pplane p) (pdrop p) (without j qs) q <-> polygon_point (pplane p) (pdrop p) qs q.
Proof.
  intros H K j Z. pose proof (ok_length p qs H) as Ln. pose proof (ok_cvx p qs H) as C. pose proof (cvx_three _ _ _ C) as N. set (n := pcount p) in *. assert (Lj : (j < n)%nat) by (apply Nat.mod_upper_bound; lia).
  pose proof (poly_ok_rotate p qs (S j) H ltac:(lia)) as R. set (r := Poly (pplane p) (pdrop p) (rotate (S j) (pedges p))) in *.
  assert (Cr : pcount r = n) by (unfold pcount, r; cbn [pedges]; rewrite rotate_length; reflexivity).
  assert (At : forall i, flat_at r (rotate (S j) qs) i = flat_at p qs (S j + i)) by (intros i; apply rotated_at; [exact H|lia]).
  assert (Mj : forall i, flat_at p qs (j + i) = flat_at p qs (S k + i)). { intros i. rewrite <- (cvx_mod _ _ _ (j + i) C), <- (cvx_mod _ _ _ (S k + i) C). f_equal. unfold j. rewrite Nat.add_mod_idemp_l by lia. reflexivity. }
  destruct (remove_last r (rotate (S j) qs) R) as [R1 R2].
  { rewrite Cr, !At. replace (S j + (n - 2))%nat with (j + (n - 1))%nat by lia. replace (S j + (n - 1))%nat with (j + n)%nat by lia. replace (S j + 0)%nat with (j + 1)%nat by lia. rewrite !Mj.
    replace (S k + (n - 1))%nat with (k + n)%nat by lia. rewrite !(c_period _ _ _ C). rewrite Nat.add_1_r. exact Z. }
  rewrite Cr in R1, R2. unfold r in R1, R2. cbn [pplane pdrop pedges] in R1, R2.
  assert (E1 : without j (pedges p) = rotate (n - S j) (firstn (n - 1) (rotate (S j) (pedges p)))) by (unfold n, pcount; apply without_rotate; exact Lj).
  assert (E2 : without j qs = rotate (n - S j) (firstn (n - 1) (rotate (S j) qs))) by (rewrite <- Ln; apply without_rotate; lia).
  rewrite E1, E2. assert (L2 : (n - S j <= length (firstn (n - 1) (rotate (S j) qs)))%nat) by (rewrite firstn_length, rotate_length; lia). split.
  - exact (poly_ok_rotate _ _ (n - S j) R1 L2).
  - intros q. etransitivity; [exact (polygon_rotate _ _ (n - S j) q R1 L2)|]. cbn [pplane pdrop]. rewrite R2. apply polygon_rotate; [exact H|lia].
Qed.
(** ** Joining along the last edges *)
Section Join.
Context {A : Type} (p o : poly A) (qs os : list qpoint) (H : poly_ok p qs) (O : poly_ok o os) (Hp : pplane o = pplane p) (Hd : pdrop o = pdrop p).
Let n := pcount p. Let m := pcount o.
Context (Ea : qp_eq (cyc o3 os 0) (cyc o3 qs (n - 1))) (Eb : qp_eq (cyc o3 os (m - 1)) (cyc o3 qs 0)).
Let s := inject_Z (pnormal_drop p).
Lemma same_normal : pnormal_drop o = pnormal_drop p.
Proof using Hp Hd. clear - Hp Hd. unfold pnormal_drop. rewrite Hp, Hd. reflexivity. Qed.
Lemma other_cvx : cvx m s (flat_at o os).
Proof using All. pose proof (ok_cvx o os O) as C. rewrite same_normal in C. exact C. Qed.
Lemma flat_ends : qp2_eq (flat_at o os 0) (flat_at p qs (n - 1)) /\ qp2_eq (flat_at o os (m - 1)) (flat_at p qs 0).
Proof using All. unfold flat_at. rewrite Hd, Ea, Eb. split; reflexivity. Qed.
Definition joined_at (i : nat) : qpoint := if (i <? n - 1)%nat then cyc o3 qs i else cyc o3 os (i - (n - 1)).
Lemma joined_vertices : firstn (n - 1) qs ++ firstn (m - 1) os = map joined_at (seq 0 (n + m - 2)).
Proof using All.
  pose proof (cvx_three _ _ _ (ok_cvx p qs H)) as N. pose proof (cvx_three _ _ _ other_cvx) as M. fold n in N. pose proof (ok_length p qs H) as Lq. pose proof (ok_length o os O) as Lo. fold n in Lq. fold m in Lo.
  apply nth_error_ext. intros i. destruct (Nat.lt_ge_cases i (n + m - 2)) as [L|L].
  - rewrite fmap_nth by exact L. unfold joined_at. destruct (Nat.ltb_spec i (n - 1)) as [X|X].
    + rewrite nth_error_app1 by (rewrite firstn_length; lia). rewrite nth_error_firstn' by exact X. apply cyc_nth_error. lia.
    + rewrite nth_error_app2 by (rewrite firstn_length; lia). rewrite firstn_length. replace (Nat.min (n - 1) (length qs)) with (n - 1)%nat by lia. rewrite nth_error_firstn' by lia. apply cyc_nth_error. lia.
  - transitivity (@None qpoint); [|symmetry]; apply nth_error_None; [rewrite app_length, !firstn_length; lia|rewrite fmap_length; exact L].
Qed.
Lemma joined_flat : map (qdrop (pdrop p)) (map joined_at (seq 0 (n + m - 2))) = joined_list n m (flat_at p qs) (flat_at o os).
Proof using All.
  rewrite map_map. unfold joined_list. apply map_ext. intros i. unfold joined_at, joined, flat_at. rewrite Hd. destruct (i <? n - 1)%nat; reflexivity.
Qed.
Definition joints : Prop := joint n s (flat_at p qs) (flat_at o os) /\ joint m s (flat_at o os) (flat_at p qs).
Lemma join_ok : joints -> poly_ok (Poly (pplane p) (pdrop p) (firstn (n - 1) (pedges p) ++ firstn (m - 1) (pedges o))) (firstn (n - 1) qs ++ firstn (m - 1) os) /\
  forall q, polygon_point (pplane p) (pdrop p) (firstn (n - 1) qs ++ firstn (m - 1) os) q <-> polygon_point (pplane p) (pdrop p) qs q \/ polygon_point (pplane p) (pdrop p) os q.
Proof using All.
  intros [J1 J2]. pose proof (ok_cvx p qs H) as CP. pose proof other_cvx as CQ. fold n s in CP. destruct flat_ends as [Fa Fb]. destruct (po_drop p qs H) as [Dl Dn].
  pose proof (cvx_three _ _ _ CP) as N. pose proof (cvx_three _ _ _ CQ) as M. rewrite joined_vertices. split.
  - apply poly_ok_intro; [rewrite app_length, !firstn_length; unfold n, m, pcount in *; lia|lia|exact Dl|exact Dn| | |].
    + intros i L. unfold joined_at. destruct (i <? n - 1)%nat; [apply (ok_on_plane p qs H)|rewrite <- Hp; apply (ok_on_plane o os O)].
    + intros i L. unfold joined_at at 1 2. destruct (Nat.ltb_spec i (n - 1)) as [X|X].
      * destruct (ok_edge_on p qs H i ltac:(fold n; lia)) as (e & E & D & On). exists e. split; [rewrite nth_error_app1 by (rewrite firstn_length; fold (pcount p); fold n; lia); rewrite nth_error_firstn' by exact X; exact E|]. split; [exact D|].
        unfold joined_at. rewrite Nat.mod_small by lia. destruct (Nat.ltb_spec (S i) (n - 1)) as [Y|Y]; [exact On|]. replace (S i - (n - 1))%nat with 0%nat by lia. replace (S i) with (n - 1)%nat in On by lia. apply (edge_on_comp _ (cyc o3 qs i) (cyc o3 qs (n - 1))); [reflexivity|symmetry; exact Ea|exact On].
      * destruct (ok_edge_on o os O (i - (n - 1)) ltac:(fold m; lia)) as (e & E & D & On). exists e. split; [rewrite nth_error_app2 by (rewrite firstn_length; fold (pcount p); fold n; lia); rewrite firstn_length; fold (pcount p); fold n; replace (Nat.min (n - 1) n) with (n - 1)%nat by lia; rewrite nth_error_firstn' by lia; exact E|]. split; [exact D|].
        unfold joined_at. destruct (Nat.eq_dec (S i) (n + m - 2)) as [Y|Y].
        -- rewrite Y, Nat.mod_same by lia. destruct (Nat.ltb_spec 0 (n - 1)); [|lia]. replace (S (i - (n - 1))) with (m - 1)%nat in On by lia. apply (edge_on_comp _ (cyc o3 os (i - (n - 1))) (cyc o3 os (m - 1))); [reflexivity|exact Eb|exact On].
        -- rewrite Nat.mod_small by lia. destruct (Nat.ltb_spec (S i) (n - 1)); [lia|]. replace (S i - (n - 1))%nat with (S (i - (n - 1))) by lia. exact On.
    + rewrite joined_flat. apply (joined_cycle s n m (flat_at p qs) (flat_at o os) CP CQ Fa Fb J1 J2).
  - intros q. pose proof (ok_points p qs H q) as E1. pose proof (ok_points o os O q) as E2. rewrite Hp, Hd in E2. rewrite E1, E2. unfold polygon_point. rewrite joined_flat. change (comp (hn (pplane p)) (pdrop p)) with (pnormal_drop p). rewrite same_normal. fold s n m.
    rewrite (joined_polygon s n m (flat_at p qs) (flat_at o os) CP CQ Fa Fb J1 J2). tauto.
Qed.
(** Conversely, the joints are as they should be if the result is convex. *)
Lemma join_converse : convex_cycle s (map (qdrop (pdrop p)) (firstn (n - 1) qs ++ firstn (m - 1) os)) -> joints.
Proof using All.
  intros Cx. pose proof (ok_cvx p qs H) as CP. pose proof other_cvx as CQ. fold n s in CP. destruct flat_ends as [Fa Fb]. pose proof (cvx_three _ _ _ CP) as N. pose proof (cvx_three _ _ _ CQ) as M.
  rewrite joined_vertices, joined_flat in Cx. assert (Ns : ~ s == 0) by exact (c_s _ _ _ CP). pose proof (cycle_cvx s _ Ns Cx) as C. unfold joined_list in C. rewrite fmap_length in C. set (R := cyc o2 _) in C.
  assert (At : forall i, (i < n + m - 2)%nat -> R i = joined n (flat_at p qs) (flat_at o os) i).
  { intros i L. unfold R. pose proof (fmap_nth (joined n (flat_at p qs) (flat_at o os)) (n + m - 2) i L) as E. rewrite (cyc_nth_error o2) in E by (rewrite fmap_length; exact L). congruence. }
  assert (T : forall i, 0 <= s * turn (R i) (R (S i)) (R (S (S i)))) by (intros i; apply (c_triple _ _ _ C); lia).
  assert (U1 : R (n - 2)%nat = flat_at p qs (n - 2)) by (rewrite At by lia; unfold joined; destruct (Nat.ltb_spec (n - 2) (n - 1)); [reflexivity|lia]).
  assert (U2 : R (S (n - 2))%nat = flat_at o os 0) by (rewrite At by lia; unfold joined; destruct (Nat.ltb_spec (S (n - 2)) (n - 1)); [lia|f_equal; lia]).
  assert (U3 : R (S (S (n - 2)))%nat = flat_at o os 1) by (rewrite At by lia; unfold joined; destruct (Nat.ltb_spec (S (S (n - 2))) (n - 1)); [lia|f_equal; lia]).
  assert (V1 : R (n + m - 3)%nat = flat_at o os (m - 2)) by (rewrite At by lia; unfold joined; destruct (Nat.ltb_spec (n + m - 3) (n - 1)); [lia|f_equal; lia]).
  assert (V2 : R (S (n + m - 3))%nat = flat_at p qs 0). { replace (S (n + m - 3)) with (0 + (n + m - 2))%nat by lia. rewrite (c_period _ _ _ C). rewrite At by lia. unfold joined. destruct (Nat.ltb_spec 0 (n - 1)); [reflexivity|lia]. }
  assert (V3 : R (S (S (n + m - 3)))%nat = flat_at p qs 1). { replace (S (S (n + m - 3))) with (1 + (n + m - 2))%nat by lia. rewrite (c_period _ _ _ C). rewrite At by lia. unfold joined. destruct (Nat.ltb_spec 1 (n - 1)); [reflexivity|lia]. }
  split; split.
  - rewrite <- Fa. rewrite <- U1, <- U2, <- U3. apply T.
  - intros t E. rewrite <- Fa in E. rewrite <- U1, <- U2, <- U3 in E. apply Qlt_le_weak. exact (forward _ _ _ _ t C E).
  - rewrite Fb. rewrite <- V1, <- V2, <- V3. apply T.
  - intros t E. rewrite Fb in E. rewrite <- V1, <- V2, <- V3 in E. apply Qlt_le_weak. exact (forward _ _ _ _ t C E).
Qed.
End Join.
