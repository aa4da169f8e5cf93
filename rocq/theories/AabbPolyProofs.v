(** Proofs about AABBConvexPolygon. *)
From Coq Require Import ZArith QArith List Bool Lia Lqa.
From Verif Require Import BigUIntModel GeoModel GeoSpec GeoProofs AabbModel AabbSpec AabbProofs AabbTrackerProofs PolyModel PolySpec PolyOpsModel PolyInfoProofs PolyBridgeProofs MergeTopProofs MergeProofs AabbPolyModel AabbPolySpec.
Import ListNotations.

Lemma ok_finite {A} (p : poly A) qs : poly_ok p qs -> finite (map pv (pedges p)).
Proof. intros H. pose proof (po_vertices p qs H) as F. clear H. unfold finite. induction F as [|e q es qs' D F IH]; [constructor|]. cbn [map]. constructor; [apply D|exact IH]. Qed.
Lemma value_denotes v q : denotes v q -> qp_eq (value v) q.
Proof.
  intros (W & X & Y & Z). assert (W' : ~ inject_Z (hw v) == 0) by (intros C; apply W, inject_Z_injective; exact C).
  unfold value. repeat split; cbn [qx qy qz]; apply (Qmult_inj_l _ _ _ W'); rewrite Qmult_div_r by exact W'; lra.
Qed.
Lemma rotate_vertices {A} (a : apoly A) k b : ap_rotate a k = Ok b -> ap_poly b = rotate_edges (ap_poly a) k /\ ap_vertices b = skipn k (ap_vertices a) ++ firstn k (ap_vertices a).
Proof.
  unfold ap_rotate. intros E. apply rbind_ok in E as (t & _ & E). injection E as <-. split; [reflexivity|]. unfold ap_vertices, rotate_edges. cbn [ap_poly pedges]. rewrite map_app, firstn_map, skipn_map. reflexivity.
Qed.
Lemma rotate_right {A} (a : apoly A) k : box_right a -> (k <= length (ap_vertices a))%nat -> exists b, ap_rotate a k = Ok b /\ box_right b.
Proof.
  intros [F T] K. destruct (tr_rotate_spec _ _ k T K) as (t & E & R). unfold ap_rotate.
  assert (L : pcount (rotate_edges (ap_poly a) k) = length (ap_vertices a)).
  { unfold pcount, rotate_edges, ap_vertices. cbn [pedges]. rewrite app_length, skipn_length, firstn_length, map_length. unfold ap_vertices in K. rewrite map_length in K. lia. }
  rewrite L, E. cbn [rbind]. eexists. split; [reflexivity|]. unfold box_right, ap_vertices, rotate_edges in *. cbn [ap_poly ap_box pedges]. rewrite map_app, <- skipn_map, <- firstn_map. split; [|exact R].
  unfold finite in *. rewrite Forall_forall in *. intros v V. apply F. apply (rotate_in _ k). exact V.
Qed.
Lemma new_right {A} (p : poly A) a : finite (map pv (pedges p)) -> pedges p <> [] -> ap_new p = Ok a -> ap_poly a = p /\ box_right a.
Proof.
  intros F N E. unfold ap_new in E. apply rbind_ok in E as (t & E & X). injection X as <-. split; [reflexivity|]. split; [exact F|]. apply track_spec; [exact F| |exact E]. unfold ap_vertices. cbn [ap_poly]. destruct (pedges p); [congruence|discriminate].
Qed.
Lemma tight {A} (a : apoly A) : box_right a -> box_exact a -> forall i, (i < 3)%nat ->
  exists lo hi, In lo (ap_vertices a) /\ In hi (ap_vertices a) /\ (qcomp (value lo) i == box_lo (tbox (ap_box a)) i)%Q /\ (qcomp (value hi) i == box_hi (tbox (ap_box a)) i)%Q /\
    forall v, In v (ap_vertices a) -> (qcomp (value lo) i <= qcomp (value v) i)%Q /\ (qcomp (value v) i <= qcomp (value hi) i)%Q.
Proof.
  intros [F [W T]] X i I. destruct (T i I) as (lo & hi & L & H & M & [L1 L2] & [H1 H2]). apply nth_error_In in L, H. exists lo, hi. split; [exact L|]. split; [exact H|].
  assert (D : (0 < inject_Z (bden (tbox (ap_box a))))%Q) by (change 0%Q with (inject_Z 0); rewrite <- Zlt_Qlt; exact W).
  assert (Le : forall x y, (x <= y)%Z -> (inject_Z x / inject_Z (bden (tbox (ap_box a))) <= inject_Z y / inject_Z (bden (tbox (ap_box a))))%Q).
  { intros x y Z. unfold Qdiv. apply Qmult_le_compat_r; [rewrite <- Zle_Qle; exact Z|apply Qlt_le_weak, Qinv_lt_0_compat, D]. }
  split; [|split; [|exact M]].
  - destruct (X lo i L I) as (m & E). apply Qle_antisym; [|exact L1]. rewrite E. apply Le, L2. rewrite E. apply Qle_refl.
  - destruct (X hi i H I) as (m & E). apply Qle_antisym; [exact H1|]. rewrite E. apply Le, H2. rewrite E. apply Qle_refl.
Qed.
Lemma same_box {A} (a b : apoly A) : box_right a -> box_right b -> box_exact a -> box_exact b ->
  (forall u, In u (ap_vertices a) -> exists v, In v (ap_vertices b) /\ qp_eq (value u) (value v)) ->
  (forall v, In v (ap_vertices b) -> exists u, In u (ap_vertices a) /\ qp_eq (value v) (value u)) -> bx_eq (tbox (ap_box a)) (tbox (ap_box b)) = true.
Proof.
  intros A1 B1 A2 B2 AB BA. apply bx_eq_spec; [apply A1|apply B1|]. intros i I. destruct (tight a A1 A2 i I) as (l & h & L & H & El & Eh & M). destruct (tight b B1 B2 i I) as (l' & h' & L' & H' & El' & Eh' & M').
  rewrite <- El, <- Eh, <- El', <- Eh'.
  destruct (AB l L) as (x & X & Ex). destruct (BA l' L') as (x' & X' & Ex'). destruct (AB h H) as (y & Y & Ey). destruct (BA h' H') as (y' & Y' & Ey').
  split; apply Qle_antisym.
  - rewrite Ex'. apply (M x' X').
  - rewrite Ex. apply (M' x X).
  - rewrite Ey. apply (M' y Y).
  - rewrite Ey'. apply (M y' Y').
Qed.
(** The vertex with index i, and the point it stands for. *)
Lemma vertex_at {A} (p : poly A) qs i : poly_ok p qs -> exists v, In v (map pv (pedges p)) /\ qp_eq (value v) (cyc o3 qs i).
Proof.
  intros H. destruct (ok_edge_mod p qs i H) as (e & E & D & _). exists (pv e). split; [apply in_map, nth_error_In with (1 := E)|]. apply value_denotes. exact D.
Qed.
Lemma vertex_index {A} (p : poly A) qs v : poly_ok p qs -> In v (map pv (pedges p)) -> exists i, (i < length qs)%nat /\ qp_eq (value v) (cyc o3 qs i).
Proof.
  intros H I. apply in_map_iff in I as (e & <- & I). apply In_nth_error in I as (i & E). assert (L : (i < pcount p)%nat) by (apply nth_error_Some; rewrite E; discriminate).
  pose proof (ok_length p qs H) as Lq. exists i. split; [lia|]. destruct (ok_edge_mod p qs i H) as (e' & E' & D & _). rewrite Nat.mod_small in E' by lia. rewrite E in E'. injection E' as <-. apply value_denotes. exact D.
Qed.
Lemma same_weights {A} (p : poly A) d a : (0 < d)%Z -> pedges p <> [] -> Forall (fun v => Z.abs (hw v) = d) (map pv (pedges p)) -> ap_new p = Ok a -> box_exact a.
Proof.
  intros D N W E. assert (F : finite (map pv (pedges p))) by (unfold finite; eapply Forall_impl; [|exact W]; cbn beta; lia).
  assert (Ne : map pv (pedges p) <> []) by (destruct (pedges p); [congruence|discriminate]).
  assert (B : ap_vertices a = map pv (pedges p) /\ bden (tbox (ap_box a)) = d).
  { unfold ap_new in E. apply rbind_ok in E as (t & E & X). injection X as <-. split; [reflexivity|]. cbn [ap_box]. rewrite (track_nonempty _ Ne) in E. pose proof (scan_idx_ok _ F Ne) as [O1 O2]. destruct (scan _) as [mins maxs]. cbn [fst snd] in *.
    apply rbind_ok in E as (den & E1 & E). apply rbind_ok in E as (b & E2 & E). injection E as <-. cbn [tbox]. destruct (max_denominator_spec _ _ _ _ F O1 O2 E1) as (P & v & V & ->). destruct (approximate_extremes_spec _ _ _ _ _ F O1 O2 P E2) as [-> _]. rewrite Forall_forall in W. apply W, V. }
  destruct B as [B1 B2]. intros v i V I. rewrite B1 in V. rewrite B2, qcomp_value. rewrite Forall_forall in W. pose proof (W v V) as X.
  assert (Dq : ~ inject_Z d == 0) by (intros C; apply (proj1 (inject_Z_injective _ _)) in C; lia).
  destruct (Z.abs_eq_or_opp (hw v)) as [Y|Y]; rewrite X in Y.
  - exists (comp (hv v) i). rewrite <- Y. reflexivity.
  - exists (- comp (hv v) i)%Z. replace (hw v) with (- d)%Z by lia. rewrite !inject_Z_opp. field. exact Dq.
Qed.

(** ** SplitEdge *)
Lemma between_le lo x y t : lo <= x -> lo <= y -> 0 <= t -> t <= 1 -> lo <= x + t * (y - x).
Proof.
  intros X Y T U. assert (P : 0 <= (1 - t) * (x - lo)) by (apply Qmult_le_0_compat; lra). assert (Q : 0 <= t * (y - lo)) by (apply Qmult_le_0_compat; lra). lra.
Qed.
Lemma between_ge hi x y t : x <= hi -> y <= hi -> 0 <= t -> t <= 1 -> x + t * (y - x) <= hi.
Proof.
  intros X Y T U. assert (P : 0 <= (1 - t) * (hi - x)) by (apply Qmult_le_0_compat; lra). assert (Q : 0 <= t * (hi - y)) by (apply Qmult_le_0_compat; lra). lra.
Qed.
Lemma between_comp x y t i : qcomp (between x y t) i == qcomp x i + t * (qcomp y i - qcomp x i).
Proof. unfold between, qadd, qscale, qsub. destruct i as [|[|i]]; cbn [qcomp qx qy qz]; ring. Qed.
Lemma split_edge_box {A} dbg (E : einfo A) a qs k t m mq r v : poly_ok (ap_poly a) qs -> box_right a -> 0 < t -> t < 1 -> denotes m mq -> qp_eq mq (between (cyc o3 qs k) (cyc o3 qs (S k)) t) ->
  ap_split_edge dbg E a k m = Ok r -> In v (ap_vertices r) -> in_box (tbox (ap_box r)) (value v).
Proof.
  intros H [F T] T0 T1 D M Eq V. unfold ap_split_edge in Eq. apply rbind_ok in Eq as (p & Ep & X). injection X as <-. cbn [ap_box].
  unfold split_edge in Ep. apply rbind_ok in Ep as (e & _ & Ep). apply rbind_ok in Ep as (c1 & _ & Ep). apply rbind_ok in Ep as (c2 & _ & Ep). apply rbind_ok in Ep as (c3 & _ & Ep). injection Ep as <-.
  change (In v (map pv (firstn (S k) (pedges (ap_poly a)) ++ edge_source E e m :: skipn (S k) (pedges (ap_poly a))))) in V. rewrite map_app, map_cons, <- firstn_map, <- skipn_map in V.
  assert (O : In v (ap_vertices a) -> in_box (tbox (ap_box a)) (value v)) by (apply tracks_box; exact T).
  apply in_app_or in V as [V|[V|V]].
  - apply O. unfold ap_vertices. rewrite <- (firstn_skipn (S k) (map pv _)). apply in_or_app. left. exact V.
  - change (pv (edge_source E e m)) with m in V. subst v. destruct (vertex_at _ qs k H) as (x & Ix & X). destruct (vertex_at _ qs (S k) H) as (y & Iy & Y).
    pose proof (tracks_box _ _ x T Ix) as Bx. pose proof (tracks_box _ _ y T Iy) as By. intros i I. specialize (Bx i I). specialize (By i I). rewrite X in Bx. rewrite Y in By.
    rewrite (value_denotes m mq D), M, between_comp. split; [apply between_le|apply between_ge]; lra.
  - apply O. unfold ap_vertices. rewrite <- (firstn_skipn (S k) (map pv _)). apply in_or_app. right. exact V.
Qed.
