(** Planes and polygons: what the partition needs. *)
From Coq Require Import List Bool Arith ZArith QArith Lqa Lia ZifyBool Morphisms Setoid.
From Verif Require Import BigUIntModel GeoModel GeoSpec GeoProofs AabbSpec CvxSpec CvxProofs CvxCapProofs CvxMergeProofs PolyModel PolySpec PolyBridgeProofs PolyInfoProofs PolyCapProofs PolyChildProofs PolyTopProofs MergeProofs RTransModel FilterModel BspModel BspSpec.
Import ListNotations.
Open Scope Q_scope.
(** ** The vertices of a stored polygon are determined *)
Lemma F2_length {A B} (R : A -> B -> Prop) l l' : Forall2 R l l' -> length l = length l'.
Proof. intros F. induction F; cbn; [reflexivity|f_equal; assumption]. Qed.
Lemma ok_unique {A} (p : poly A) qs qs' : poly_ok p qs -> poly_ok p qs' -> Forall2 qp_eq qs qs'.
Proof.
  intros H H'. pose proof (po_vertices p qs H) as V. pose proof (po_vertices p qs' H') as V'. clear H H'.
  revert qs' V'. induction V as [|e q l l' D V IH]; intros qs' V'; inversion V'; subst; constructor; [eapply denotes_unique; eassumption|apply IH; assumption].
Qed.
Lemma same_nth l l' i a : Forall2 qp_eq l l' -> nth_error l' i = Some a -> exists b, nth_error l i = Some b /\ qp_eq b a.
Proof. intros F. revert i. induction F as [|x y l l' E F IH]; intros [|i] X; cbn in X; try discriminate; [injection X as <-; exists x; split; [reflexivity|exact E]|exact (IH i X)]. Qed.
Lemma same_points h d qs qs' q : Forall2 qp_eq qs qs' -> polygon_point h d qs q -> polygon_point h d qs' q.
Proof.
  intros F [On I]. split; [exact On|]. intros i a b Ea Eb. rewrite map_length in Eb. rewrite <- (F2_length _ _ _ F) in Eb. rewrite nth_error_map in Ea, Eb.
  destruct (nth_error qs' i) as [a'|] eqn:Ea'; [|discriminate]. destruct (nth_error qs' (S i mod length qs)) as [b'|] eqn:Eb'; [|discriminate]. cbn in Ea, Eb. injection Ea as <-. injection Eb as <-.
  destruct (same_nth _ _ _ _ F Ea') as (a0 & Ea0 & Qa). destruct (same_nth _ _ _ _ F Eb') as (b0 & Eb0 & Qb).
  specialize (I i (qdrop d a0) (qdrop d b0)). rewrite map_length, !nth_error_map, Ea0, Eb0 in I. specialize (I eq_refl eq_refl). rewrite <- Qa, <- Qb. exact I.
Qed.
Lemma Forall2_sym l l' : Forall2 qp_eq l l' -> Forall2 qp_eq l' l.
Proof. intros F. induction F; constructor; [symmetry; assumption|assumption]. Qed.
Lemma point_iff {A} (p : poly A) qs q : poly_ok p qs -> poly_point p q <-> polygon_point (pplane p) (pdrop p) qs q.
Proof.
  intros H. split; [|intros P; exists qs; split; assumption]. intros (qs' & H' & P). exact (same_points _ _ _ _ _ (ok_unique _ _ _ H' H) P).
Qed.
Lemma same_cyc qs qs' i : Forall2 qp_eq qs qs' -> qp_eq (cyc o3 qs i) (cyc o3 qs' i).
Proof.
  intros F. unfold cyc. rewrite <- (F2_length _ _ _ F). generalize (i mod length qs)%nat. clear i.
  induction F as [|x y l l' E F IH]; intros [|i]; cbn; [reflexivity|reflexivity|exact E|exact (IH i)].
Qed.
(** An edge of the polygon, with its given vertices. *)
Lemma edge_iff {A} (p : poly A) qs i u v d : poly_ok p qs -> has_edge p i u v d -> exists e, nth_error (pedges p) i = Some e /\ pd e = d /\ qp_eq u (cyc o3 qs i) /\ qp_eq v (cyc o3 qs (S i)).
Proof.
  intros H (qs' & e & H' & Ee & Ed & Eu & Ev). exists e. split; [exact Ee|]. split; [exact Ed|]. pose proof (ok_unique _ _ _ H' H) as F.
  assert (L : (i < length qs')%nat) by (apply nth_error_Some; congruence).
  rewrite (cyc_nth_error o3 qs' i L) in Eu. rewrite (cyc_nth_error_mod o3 qs' (S i)) in Ev by lia. injection Eu as <-. injection Ev as <-. split; apply same_cyc; exact F.
Qed.
Lemma has_edge_at {A} (p : poly A) qs i e : poly_ok p qs -> nth_error (pedges p) i = Some e -> has_edge p i (cyc o3 qs i) (cyc o3 qs (S i)) (pd e).
Proof.
  intros H Ee. exists qs, e. pose proof (ok_length p qs H) as Ln. pose proof (ok_n p qs H) as N. assert (L : (i < pcount p)%nat) by (apply nth_error_Some; congruence).
  repeat (split; [assumption||reflexivity|]). split; [apply cyc_nth_error; lia|apply cyc_nth_error_mod; lia].
Qed.
Lemma vertex_point {A} (p : poly A) qs q : poly_ok p qs -> In q qs -> polygon_point (pplane p) (pdrop p) qs q.
Proof.
  intros H I. pose proof (po_plane p qs H) as Pl. rewrite Forall_forall in Pl. pose proof (ok_length p qs H) as Ln. pose proof (ok_n p qs H) as N. pose proof (ok_cvx p qs H) as C.
  split; [exact (Pl q I)|]. assert (E : map (qdrop (pdrop p)) qs = map (flat_at p qs) (seq 0 (pcount p))) by (rewrite (list_as_fmap o3 qs) at 1; rewrite map_map, Ln; reflexivity).
  rewrite E. apply (fmap_polygon _ _ _ _ C). intros i L. apply (In_cyc o3) in I as (j & Lj & ->). fold (flat_at p qs j). 
  destruct (in_window _ _ _ C i j) as (m & t & u & M1 & M2 & M3). rewrite <- (same_rep _ _ _ C _ _ _ _ M3).
  destruct (Nat.eq_dec m i) as [->|]; [unfold turn, qcross2, qsub2; cbn; ring_simplify; discriminate|]. destruct (Nat.eq_dec m (S i)) as [->|]; [unfold turn, qcross2, qsub2; cbn; ring_simplify; discriminate|].
  apply (c_triple _ _ _ C); lia.
Qed.
(** ** Planes *)
Lemma side_all_neg {A} (p : poly A) qs h : poly_ok p qs -> (forall q, In q qs -> side h q <= 0) -> forall q, polygon_point (pplane p) (pdrop p) qs q -> side h q <= 0.
Proof. intros H N q Q. assert (X : 0 <= side (hs_neg h) q); [|rewrite side_hs_neg in X; lra]. apply (side_all p qs (hs_neg h) H); [|exact Q]. intros q' I. rewrite side_hs_neg. specialize (N q' I). lra. Qed.
(** A plane with h that vanishes on pp is a multiple of it. *)
Lemma plane_multiple pp h d : (d < 3)%nat -> comp (hn pp) d <> 0%Z -> (forall q, side pp q == 0 -> side h q == 0) ->
  forall q, inject_Z (comp (hn pp) d) * side h q == inject_Z (comp (hn h) d) * side pp q.
Proof.
  intros L N Z q. assert (Nq : ~ inject_Z (comp (hn pp) d) == 0) by (change 0 with (inject_Z 0); rewrite inject_Z_injective; exact N).
  set (m := side pp q / inject_Z (comp (hn pp) d)).
  set (q' := match d with O => QP (qx q - m) (qy q) (qz q) | S O => QP (qx q) (qy q - m) (qz q) | _ => QP (qx q) (qy q) (qz q - m) end).
  assert (G : forall x, side x q' == side x q - m * inject_Z (comp (hn x) d)).
  { intros x. unfold q', side, qdot, qpt. destruct d as [|[|[|d]]]; cbn [comp qx qy qz]; [ring|ring|ring|lia]. }
  assert (P : side pp q' == 0) by (rewrite G; unfold m; field; exact Nq). specialize (Z q' P). rewrite G in Z. unfold m in Z.
  assert (K : inject_Z (comp (hn pp) d) * (side h q - side pp q / inject_Z (comp (hn pp) d) * inject_Z (comp (hn h) d)) == inject_Z (comp (hn pp) d) * side h q - inject_Z (comp (hn h) d) * side pp q) by (field; exact Nq).
  rewrite Z in K. lra.
Qed.
(** Normals of proportional planes. *)
Lemma normal_multiple a b (x y : Q) : (forall q, x * side a q == y * side b q) -> qp_eq (qscale x (qpt (hn a))) (qscale y (qpt (hn b))).
Proof.
  intros E. pose proof (E (QP 0 0 0)) as E0. pose proof (E (QP 1 0 0)) as E1. pose proof (E (QP 0 1 0)) as E2. pose proof (E (QP 0 0 1)) as E3.
  destruct a as [[a1 a2 a3] da], b as [[b1 b2 b3] db]. unfold side, qdot, qpt, qscale in *. cbn [hn hd vx vy vz qx qy qz] in *. repeat split; cbn [qx qy qz]; lra.
Qed.
Lemma valid_comp h : hs_valid h = true -> exists d, (d < 3)%nat /\ comp (hn h) d <> 0%Z.
Proof.
  destruct h as [[a b c] d]. unfold hs_valid, v3_is_zero. cbn [hn vx vy vz]. intros V.
  destruct (Z.eq_dec a 0); [|exists 0%nat; split; [lia|exact n]]. destruct (Z.eq_dec b 0); [|exists 1%nat; split; [lia|exact n]]. exists 2%nat. split; [lia|]. cbn. lia.
Qed.
Section Plane.
Context {A : Type} (p : poly A) (qs : list qpoint) (H : poly_ok p qs).
(** A plane through all vertices vanishes on the plane of the polygon. *)
Lemma vertices_plane h : (forall q, In q qs -> side h q == 0) -> forall q, side (pplane p) q == 0 -> side h q == 0.
Proof.
  intros Z q Q. destruct (po_drop p qs H) as [Dl Dn]. pose proof (po_plane p qs H) as Pl. rewrite Forall_forall in Pl.
  destruct (po_convex p qs H) as (_ & _ & (a & b & c & Ia & Ib & Ic & T)).
  apply in_map_iff in Ia as (a' & <- & Ia). apply in_map_iff in Ib as (b' & <- & Ib). apply in_map_iff in Ic as (c' & <- & Ic).
  set (f := flat_side (pplane p) h (pdrop p)).
  assert (F : forall x, In x qs -> ev f (qdrop (pdrop p) x) == 0) by (intros x I; unfold f; rewrite flat_side_ok; [apply Z; exact I|exact Dl|exact Dn|apply Pl; exact I]).
  assert (Ne : ~ qp2_eq (qdrop (pdrop p) a') (qdrop (pdrop p) b')) by (intros E; apply T; rewrite E; unfold turn, qcross2, qsub2; cbn; ring).
  destruct (flat_multiple f _ _ Ne) as (k & K); [rewrite !F by assumption; reflexivity|]. pose proof (K (qdrop (pdrop p) c')) as Kc. rewrite !F in Kc by assumption.
  assert (k == 0) as K0. { destruct (Qeq_dec k 0) as [E|E]; [exact E|]. exfalso. apply T. apply (Qmult_integral_l k); [exact E|]. rewrite <- Kc. ring. }
  specialize (K (qdrop (pdrop p) q)). rewrite (F a' Ia), K0 in K. unfold f in K. rewrite flat_side_ok in K by assumption. lra.
Qed.
Lemma plane_of_vertices h : hs_valid h = true -> (forall q, In q qs -> side h q == 0) -> same_plane h (pplane p) /\ comp (hn h) (pdrop p) <> 0%Z /\
  qp_eq (qscale (inject_Z (pnormal_drop p)) (qpt (hn h))) (qscale (inject_Z (comp (hn h) (pdrop p))) (qpt (hn (pplane p)))).
Proof.
  intros V Z. pose proof (vertices_plane h Z) as G. destruct (po_drop p qs H) as [Dl Dn]. pose proof (plane_multiple (pplane p) h (pdrop p) Dl Dn G) as M.
  assert (Nq : ~ inject_Z (comp (hn (pplane p)) (pdrop p)) == 0) by (change 0 with (inject_Z 0); rewrite inject_Z_injective; exact Dn).
  assert (Nh : comp (hn h) (pdrop p) <> 0%Z).
  { intros E. destruct (valid_comp h V) as (d & Ld & Nd). pose proof (normal_multiple _ _ _ _ M) as (E1 & E2 & E3). rewrite E in E1, E2, E3. unfold qscale, qpt in E1, E2, E3. cbn [qx qy qz] in E1, E2, E3.
    assert (C : inject_Z (comp (hn h) d) == 0).
    { apply (Qmult_integral_l (inject_Z (comp (hn (pplane p)) (pdrop p)))); [exact Nq|]. destruct d as [|[|[|d]]]; cbn [comp]; [rewrite E1; ring|rewrite E2; ring|rewrite E3; ring|lia]. }
    apply Nd. apply inject_Z_injective. exact C. }
  assert (Nhq : ~ inject_Z (comp (hn h) (pdrop p)) == 0) by (change 0 with (inject_Z 0); rewrite inject_Z_injective; exact Nh).
  split; [|split; [exact Nh|exact (normal_multiple _ _ _ _ M)]].
  intros q. specialize (M q). split; intros E; rewrite E, Qmult_0_r in M; (eapply Qmult_integral_l; [|eassumption || (symmetry; eassumption)]; eassumption).
Qed.
Lemma on_plane_vertices h : same_plane h (pplane p) -> forall q, In q qs -> side h q == 0.
Proof. intros S q I. pose proof (po_plane p qs H) as Pl. rewrite Forall_forall in Pl. apply S. apply Pl. exact I. Qed.
(** The line X, Y on h that separates two points of the polygon: a plane that has
    the polygon on one side and contains X and Y contains all of it. *)
Lemma crossing h s X Y a b : side (pplane p) X == 0 -> side (pplane p) Y == 0 -> ~ qp2_eq (qdrop (pdrop p) X) (qdrop (pdrop p) Y) -> side h X == 0 -> side h Y == 0 ->
  side (pplane p) a == 0 -> side (pplane p) b == 0 -> side h a < 0 -> 0 < side h b ->
  (0 <= side s a /\ 0 <= side s b \/ side s a <= 0 /\ side s b <= 0) -> side s X == 0 -> side s Y == 0 -> forall q, side (pplane p) q == 0 -> side s q == 0.
Proof.
  intros PX PY Ne HX HY Pa Pb Ha Hb One SX SY q Pq. destruct (po_drop p qs H) as [Dl Dn].
  pose proof (fun g x (Px : side (pplane p) x == 0) => flat_side_ok (pplane p) g (pdrop p) x Dl Dn Px) as F.
  destruct (flat_multiple (flat_side (pplane p) s (pdrop p)) _ _ Ne) as (k & K); [rewrite !F by assumption; rewrite SX, SY; reflexivity|].
  destruct (flat_multiple (flat_side (pplane p) h (pdrop p)) _ _ Ne) as (m & M); [rewrite !F by assumption; rewrite HX, HY; reflexivity|].
  pose proof (K (qdrop (pdrop p) a)) as Ka. pose proof (K (qdrop (pdrop p) b)) as Kb. pose proof (M (qdrop (pdrop p) a)) as Ma. pose proof (M (qdrop (pdrop p) b)) as Mb. specialize (K (qdrop (pdrop p) q)).
  rewrite !F in Ka, Kb, Ma, Mb, K by assumption. rewrite SX in *. rewrite HX in *.
  set (ta := turn (qdrop (pdrop p) X) (qdrop (pdrop p) Y) (qdrop (pdrop p) a)) in *. set (tb := turn (qdrop (pdrop p) X) (qdrop (pdrop p) Y) (qdrop (pdrop p) b)) in *.
  assert (Ta : m * ta < 0) by lra. assert (Tb : 0 < m * tb) by lra.
  assert (O : ta < 0 /\ 0 < tb \/ 0 < ta /\ tb < 0) by (destruct (Qlt_le_dec 0 m); [left|right]; split; destruct (Qlt_le_dec ta 0), (Qlt_le_dec 0 tb), (Qlt_le_dec 0 ta), (Qlt_le_dec tb 0); try assumption; try nra).
  assert (k == 0) as K0 by (destruct (Qlt_le_dec 0 k), (Qlt_le_dec k 0); destruct O as [[? ?]|[? ?]], One as [[? ?]|[? ?]]; nra).
  rewrite K0 in K. lra.
Qed.
End Plane.
(** ** Insides *)
Lemma inner_mono h (S T : qpoint -> Prop) q : (forall q, S q -> T q) -> inner h S q -> inner h T q.
Proof. intros I [P E]. split; [apply I; exact P|]. intros x X. destruct (E x X) as (t & L & Q). exists t. split; [exact L|apply I; exact Q]. Qed.
(** Parts on different sides of a plane that crosses. *)
Lemma inner_sides pp h (S T : qpoint -> Prop) a : (forall q, S q -> side h q <= 0) -> (forall q, T q -> 0 <= side h q) -> side pp a == 0 -> side h a < 0 -> forall q, ~ (inner pp S q /\ inner pp T q).
Proof.
  intros Hs Ht Pa Ha q [[Sq Is] [Tq It]]. pose proof (Hs q Sq). pose proof (Ht q Tq). destruct (Is a Pa) as (t & L & Q). specialize (Hs _ Q). rewrite PolyInfoProofs.side_between in Hs. nra.
Qed.
(** ** Segments *)
Lemma segment_refl a b : on_segment a b a /\ on_segment a b b.
Proof. split; [exists 0|exists 1]; (split; [split; discriminate|]); unfold qadd, qscale, qsub; repeat split; cbn [qx qy qz]; ring. Qed.
Lemma segment_eq a b q a' b' q' : qp_eq a a' -> qp_eq b b' -> qp_eq q q' -> on_segment a b q -> on_segment a' b' q'.
Proof.
  intros (A1 & A2 & A3) (B1 & B2 & B3) (C1 & C2 & C3) (t & T & (X & Y & Z)). exists t. split; [exact T|]. unfold qadd, qscale, qsub in *. cbn [qx qy qz] in *.
  repeat split; cbn [qx qy qz]; [rewrite <- C1, <- A1, <- B1; exact X|rewrite <- C2, <- A2, <- B2; exact Y|rewrite <- C3, <- A3, <- B3; exact Z].
Qed.
Lemma segment_trans a b u v q : on_segment a b u -> on_segment a b v -> on_segment u v q -> on_segment a b q.
Proof.
  intros (t & T & (X1 & Y1 & Z1)) (r & R & (X2 & Y2 & Z2)) (k & K & (X & Y & Z)). exists (t + k * (r - t)). split.
  - split; nra.
  - unfold qadd, qscale, qsub in *. cbn [qx qy qz] in *. repeat split; cbn [qx qy qz]; [rewrite X, X1, X2|rewrite Y, Y1, Y2|rewrite Z, Z1, Z2]; ring.
Qed.
Lemma segment_between a b t : 0 <= t -> t <= 1 -> on_segment a b (between a b t).
Proof. intros T0 T1. exists t. split; [split; assumption|]. repeat split; reflexivity. Qed.
