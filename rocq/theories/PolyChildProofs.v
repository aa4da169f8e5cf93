(** The two parts a polygon is split into. *)
From Coq Require Import List ZArith QArith Lqa Lia Arith ZifyBool.
From Verif Require Import BigUIntModel GeoModel GeoSpec GeoProofs GeoPlaneProofs GeoPluckerProofs CvxSpec CvxProofs CvxSeqProofs CvxCapProofs PolyModel PolySpec PolyBridgeProofs PolyInfoProofs PolyCapProofs.
Import ListNotations.
Open Scope Q_scope.
(** On the plane of the polygon, the side of another plane is an affine function
    of the remaining two coordinates. *)
Definition flat_side (pp h : hspace3) (d : nat) : aff :=
  let l := pl_project2d (pl_of_planes pp h) d in let c := inject_Z (comp (hn pp) d) in
  Aff (- inject_Z (x2 (hn2 l)) / c) (- inject_Z (y2 (hn2 l)) / c) (inject_Z (hd2 l) / c).
Lemma flat_side_ok pp h d q : (d < 3)%nat -> comp (hn pp) d <> 0%Z -> side pp q == 0 -> ev (flat_side pp h d) (qdrop d q) == side h q.
Proof.
  intros L N S. pose proof (project_side pp h d q L S) as P. apply inject_Z_neq0 in N. unfold side2 in P. unfold flat_side, ev. cbn [fa fb fc].
  set (c := inject_Z (comp (hn pp) d)) in *. rewrite <- (Qmult_inj_l _ _ (- c)) by lra. rewrite <- P. field. exact N.
Qed.
Definition qvcross2 (a b : qpoint2) : Q := qx2 a * qy2 b - qy2 a * qx2 b.
Lemma new_line_cross pp h d x u : (d < 3)%nat -> side pp x == 0 -> side pp u == 0 -> side h x == 0 ->
  qcross2 (qdrop d (qpt (ld (pl_of_planes pp h)))) (qdrop d (qsub u x)) == - inject_Z (comp (hn pp) d) * side h u.
Proof.
  intros L Sx Su Hx. destruct pp as [[a b c] pd], h as [[e f g] hd0], x as [x y z], u as [ux uy uz].
  unfold side, qdot, qpt in *. cbn [hn hd vx vy vz qx qy qz] in *.
  assert (P : inject_Z a * (ux - x) + inject_Z b * (uy - y) + inject_Z c * (uz - z) == 0) by lra.
  setoid_replace (inject_Z e * ux + inject_Z f * uy + inject_Z g * uz - inject_Z hd0) with (inject_Z e * (ux - x) + inject_Z f * (uy - y) + inject_Z g * (uz - z)) by lra. clear Sx Su Hx.
  unfold pl_of_planes, qcross2, qsub, v3_cross. cbn [ld vx vy vz hn hd].
  set (dx := ux - x) in *. set (dy := uy - y) in *. set (dz := uz - z) in *.
  destruct d as [|[|[|d]]]; [| | |lia]; cbn [qdrop qx2 qy2 qx qy qz comp vx vy vz]; unfold Z.sub; rewrite !inject_Z_plus, !inject_Z_opp, !inject_Z_mult; fold dx dy dz; clearbody dx dy dz.
  - transitivity (- inject_Z a * (inject_Z e * dx + inject_Z f * dy + inject_Z g * dz) + inject_Z e * (inject_Z a * dx + inject_Z b * dy + inject_Z c * dz)); [ring|rewrite P; ring].
  - transitivity (- inject_Z b * (inject_Z e * dx + inject_Z f * dy + inject_Z g * dz) + inject_Z f * (inject_Z a * dx + inject_Z b * dy + inject_Z c * dz)); [ring|rewrite P; ring].
  - transitivity (- inject_Z c * (inject_Z e * dx + inject_Z f * dy + inject_Z g * dz) + inject_Z g * (inject_Z a * dx + inject_Z b * dy + inject_Z c * dz)); [ring|rewrite P; ring].
Qed.
Lemma parallel2 a b : ~ qp2_eq b (QP2 0 0) -> qcross2 a b == 0 -> exists k, qp2_eq a (QP2 (k * qx2 b) (k * qy2 b)).
Proof.
  intros N E. unfold qcross2, qp2_eq in *. cbn [qx2 qy2] in *. destruct (Qeq_dec (qx2 b) 0) as [X|X].
  - assert (Y : ~ qy2 b == 0) by tauto. exists (qy2 a / qy2 b). split; [|field; exact Y]. rewrite X in *. assert (Z : qx2 a * qy2 b == 0) by lra. apply Qmult_integral in Z as [Z|Z]; [rewrite Z; ring|contradiction].
  - exists (qx2 a / qx2 b). split; [field; exact X|]. setoid_replace (qx2 a / qx2 b * qy2 b) with ((qx2 a * qy2 b) / qx2 b) by (field; exact X). setoid_replace (qx2 a * qy2 b) with (qy2 a * qx2 b) by lra. field. exact X.
Qed.
Lemma qsub_drop d a b : qdrop d (qsub a b) = qsub2 (qdrop d a) (qdrop d b).
Proof. destruct d as [|[|d]]; reflexivity. Qed.
(** A vector along a plane is known from two of its coordinates. *)
Lemma plane_vector pp d u w : (d < 3)%nat -> comp (hn pp) d <> 0%Z -> qdot (qpt (hn pp)) u == 0 -> qdot (qpt (hn pp)) w == 0 -> qp2_eq (qdrop d u) (qdrop d w) -> qp_eq u w.
Proof.
  intros L N U W E. apply inject_Z_neq0 in N. destruct pp as [[a b c] pd], u as [ux uy uz], w as [wx wy wz]. unfold qdot, qpt in *. cbn [hn vx vy vz qx qy qz] in *.
  assert (C : forall k x y, ~ k == 0 -> k * (x - y) == 0 -> x == y) by (intros k x y K E0; apply Qmult_integral in E0 as [E0|E0]; [contradiction|lra]).
  destruct d as [|[|[|d]]]; [| | |lia]; unfold qp2_eq, qp_eq in *; cbn [qdrop qx2 qy2 qx qy qz comp vx vy vz] in *; destruct E as [E1 E2]; rewrite E1, E2 in *; repeat split; try reflexivity; apply (C _ _ _ N); lra.
Qed.
(** The new edge goes from X to Y. *)
Lemma new_edge pp h d X Y u : (d < 3)%nat -> comp (hn pp) d <> 0%Z -> side pp X == 0 -> side pp Y == 0 -> side pp u == 0 -> side h X == 0 -> side h Y == 0 -> side h u < 0 ->
  ~ qp2_eq (qdrop d X) (qdrop d Y) -> pl_valid (pl_of_planes pp h) = true -> 0 < inject_Z (comp (hn pp) d) * turn (qdrop d X) (qdrop d Y) (qdrop d u) -> edge_on (pl_of_planes pp h) X Y.
Proof.
  intros L N PX PY Pu HX HY Hu NE V T. split; [apply (pl_of_planes_points pp h X V); split; assumption|].
  pose proof (new_line_cross pp h d X Y L PX PY HX) as C1. rewrite HY in C1. pose proof (new_line_cross pp h d X u L PX Pu HX) as C2. set (c := inject_Z (comp (hn pp) d)) in *.
  rewrite qsub_drop in C1, C2. set (D := qdrop d (qpt (ld (pl_of_planes pp h)))) in *.
  destruct (parallel2 D (qsub2 (qdrop d Y) (qdrop d X))) as (k & K).
  { intros [E1 E2]. apply NE. unfold qsub2, qp2_eq in *. cbn [qx2 qy2] in *. split; lra. }
  { rewrite C1. ring. }
  assert (C3 : k * turn (qdrop d X) (qdrop d Y) (qdrop d u) == - c * side h u).
  { rewrite <- C2. unfold turn. destruct K as [K1 K2]. unfold qcross2 at 2. rewrite K1, K2. unfold qcross2, qsub2. cbn [qx2 qy2]. ring. }
  assert (Kp : 0 < k).
  { set (t := turn _ _ _) in *. pose proof (inject_Z_neq0 _ N) as N'. fold c in N'. assert (c * (k * t) == - (c * c) * side h u) by (rewrite C3; ring). assert (0 < c * c) by (destruct (Qlt_le_dec 0 c); [nra|destruct (proj1 (Qle_lteq _ _) q); [nra|contradiction]]). assert (0 < k * (c * t)) by nra. destruct (Qlt_le_dec 0 k) as [Z|Z]; [exact Z|]. nra. }
  exists k. split; [exact Kp|]. apply (plane_vector pp d _ _ L N).
  - unfold pl_of_planes, qdot, qpt, v3_cross. cbn [ld vx vy vz qx qy qz]. unfold Z.sub. rewrite !inject_Z_plus, !inject_Z_opp, !inject_Z_mult. ring.
  - transitivity (k * (side pp Y - side pp X)); [unfold qdot, qscale, qsub, side, qdot; cbn [qx qy qz]; ring|]. rewrite PX, PY. ring.
  - fold D. destruct K as [K1 K2]. destruct d as [|[|[|d]]]; [| | |lia]; unfold qp2_eq, qdrop, qscale, qsub, qsub2 in *; cbn [qx qy qz qx2 qy2] in *; split; assumption.
Qed.
Lemma pl_of_planes_neg a b : pl_of_planes a (hs_neg b) = pl_neg (pl_of_planes a b).
Proof.
  destruct a as [[a1 a2 a3] ad], b as [[b1 b2 b3] bd]. unfold pl_of_planes, pl_neg, hs_neg, v3_neg, v3_cross, zdet. cbn [hn hd vx vy vz ld lm].
  f_equal; (f_equal; ring).
Qed.
Lemma side_hs_neg h q : side (hs_neg h) q == - side h q.
Proof. destruct h as [[a b c] d], q as [x y z]. unfold side, hs_neg, v3_neg, qdot, qpt. cbn [hn hd vx vy vz qx qy qz]. rewrite !inject_Z_opp. ring. Qed.
(** ** The cap of a polygon *)
Section Cap3.
Context {A : Type} (p : poly A) (qs : list qpoint) (H : poly_ok p qs) (h : hspace3).
Notation n := (pcount p).
Notation q_ := (cyc o3 qs).
Context (V : pl_valid (pl_of_planes (pplane p) h) = true).
Context (a b d : nat) (t u : Q) (Hab : (a < b)%nat) (Ht : 0 < t /\ t <= 1) (Hu : 0 < u /\ u <= 1).
Context (Hd : (d = a + n)%nat /\ u < 1 \/ (S d = a + n)%nat /\ u == 1).
Definition cx : qpoint := between (q_ (b - 1)) (q_ b) t.
Definition cy : qpoint := between (q_ (d - 1)) (q_ d) u.
Context (Neg : forall j, (a <= j)%nat -> (j < b)%nat -> side h (q_ j) < 0) (PosD : 0 < side h (q_ (d - 1))) (X0 : side h cx == 0) (Y0 : side h cy == 0).
Notation f := (flat_side (pplane p) h (pdrop p)).
Notation m := (b - a)%nat.
Definition cap3 (i : nat) : qpoint := if (i <? m)%nat then q_ (a + i) else if (i =? m)%nat then cx else cy.
Lemma flat_ev i : ev f (flat_at p qs i) == side h (q_ i).
Proof using H. apply flat_side_ok; [apply (po_drop p qs H)|apply (po_drop p qs H)|apply (ok_on_plane p qs H)]. Qed.
Lemma plane_between x y v : side (pplane p) x == 0 -> side (pplane p) y == 0 -> side (pplane p) (between x y v) == 0.
Proof using. intros X Y. rewrite side_between, X, Y. ring. Qed.
Lemma cap_bd : (b < d)%nat.
Proof using All.
  pose proof (ok_n p qs H) as N. destruct (Nat.lt_ge_cases b d) as [L|L]; [exact L|exfalso]. destruct (Nat.lt_ge_cases (d - 1) a) as [L2|L2].
  - assert (n = 1%nat) as N1 by (destruct Hd as [[E _]|[E _]]; lia). pose proof (Neg a ltac:(lia) Hab) as Na.
    assert (E : forall i, q_ i = q_ 0%nat) by (intros i; unfold cyc; rewrite (ok_length p qs H), N1, !Nat.mod_1_r; reflexivity).
    rewrite (E (d - 1)%nat) in PosD. rewrite (E a) in Na. lra.
  - destruct (Nat.eq_dec (d - 1) (b - 1)) as [E|E]; [|pose proof (Neg (d - 1)%nat L2 ltac:(lia)); lra]. pose proof (Neg (b - 1)%nat ltac:(lia) ltac:(lia)). rewrite E in PosD. lra.
Qed.
Lemma cap_pts : map (qdrop (pdrop p)) (map cap3 (seq 0 (m + 2))) = cap_list (flat_at p qs) a b d t u.
Proof using.
  rewrite map_map. unfold cap_list. apply map_ext. intros i. unfold cap3, cap_at. destruct (i <? m)%nat; [reflexivity|]. destruct (i =? m)%nat; unfold cx, cy, cap_x, cap_y; rewrite qdrop_between; reflexivity.
Qed.
Lemma hyp_neg : forall j, (a <= j)%nat -> (j < b)%nat -> ev f (flat_at p qs j) < 0.
Proof using H Neg. intros j J1 J2. rewrite flat_ev. apply Neg; assumption. Qed.
Lemma hyp_pos : 0 < ev f (flat_at p qs (d - 1)).
Proof using H PosD. rewrite flat_ev. exact PosD. Qed.
Lemma cx_on : side (pplane p) cx == 0.
Proof using H. apply plane_between; apply (ok_on_plane p qs H). Qed.
Lemma cy_on : side (pplane p) cy == 0.
Proof using H. apply plane_between; apply (ok_on_plane p qs H). Qed.
Lemma hyp_x : ev f (cap_x (flat_at p qs) b t) == 0.
Proof using H X0.
  replace (cap_x (flat_at p qs) b t) with (qdrop (pdrop p) cx) by (unfold cx; apply qdrop_between). destruct (po_drop p qs H). rewrite flat_side_ok by (try assumption; apply cx_on). exact X0.
Qed.
Lemma hyp_y : ev f (cap_y (flat_at p qs) d u) == 0.
Proof using H Y0.
  replace (cap_y (flat_at p qs) d u) with (qdrop (pdrop p) cy) by (unfold cy; apply qdrop_between). destruct (po_drop p qs H). rewrite flat_side_ok by (try assumption; apply cy_on). exact Y0.
Qed.
Lemma cap3_region q : side (pplane p) q == 0 -> in_polygon (inject_Z (pnormal_drop p)) (map (qdrop (pdrop p)) (map cap3 (seq 0 (m + 2)))) (qdrop (pdrop p) q) <->
  in_polygon (inject_Z (pnormal_drop p)) (map (qdrop (pdrop p)) qs) (qdrop (pdrop p) q) /\ side h q <= 0.
Proof using All.
  intros On. rewrite cap_pts. pose proof (ok_cvx p qs H) as C.
  rewrite (cap_polygon n _ (flat_at p qs) C f a b d t u Hab cap_bd Ht Hu Hd hyp_neg hyp_pos hyp_x hyp_y).
  destruct (po_drop p qs H). rewrite (flat_side_ok (pplane p) h (pdrop p) q) by assumption. apply and_iff_compat_r.
  assert (E : map (qdrop (pdrop p)) qs = map (flat_at p qs) (seq 0 n)) by (rewrite (list_as_fmap o3 qs) at 1; rewrite map_map, (ok_length p qs H); reflexivity). rewrite E. symmetry. apply (fmap_polygon n _ (flat_at p qs) _ C).
Qed.
(** Edges with these vertices and lines are a polygon. *)
Lemma cap3_ok (es : list (pedge A)) e2 e1 : length es = m -> (forall i, (i < m)%nat -> nth_error es i = nth_error (pedges p) ((a + i) mod n)) ->
  denotes (pv e2) cx -> pl e2 = pl_of_planes (pplane p) h -> denotes (pv e1) cy -> edge_on (pl e1) cy (q_ a) ->
  poly_ok (Poly (pplane p) (pdrop p) (es ++ [e2; e1])) (map cap3 (seq 0 (m + 2))).
Proof using All.
  intros Le Es D2 L2 D1 L1. destruct (po_drop p qs H) as [Dl Dn]. pose proof (ok_length p qs H) as Ln. pose proof (ok_n p qs H) as N. pose proof cap_bd as Hbd. pose proof (ok_cvx p qs H) as C.
  pose proof (cap_cycle n _ (flat_at p qs) C f a b d t u Hab Hbd Ht Hu Hd hyp_neg hyp_pos hyp_x hyp_y) as Cy.
  apply poly_ok_intro; [rewrite app_length, Le; reflexivity|lia|exact Dl|exact Dn| | |].
  - intros i L. unfold cap3. destruct (i <? m)%nat; [apply (ok_on_plane p qs H)|]. destruct (i =? m)%nat; [apply cx_on|apply cy_on].
  - intros i L.
    assert (Nx : cap3 (S i mod (m + 2)) = if (S i <? m + 2)%nat then cap3 (S i) else q_ a).
    { destruct (Nat.ltb_spec (S i) (m + 2)) as [X|X]; [rewrite Nat.mod_small by exact X; reflexivity|]. replace (S i) with (m + 2)%nat by lia. rewrite Nat.mod_same by lia. unfold cap3. replace (0 <? m)%nat with true by lia. f_equal. lia. }
    rewrite Nx. clear Nx. unfold cap3. destruct (Nat.ltb_spec i m) as [L3|L3].
    + destruct (ok_edge p qs H ((a + i) mod n) ltac:(apply Nat.mod_upper_bound; lia)) as (e & E & D & Ed). exists e.
      rewrite nth_error_app1 by lia. split; [rewrite Es by exact L3; exact E|].
      assert (Q0 : q_ ((a + i) mod n) = q_ (a + i)%nat) by (rewrite <- Ln; apply cyc_mod; lia). assert (Q1 : q_ (S ((a + i) mod n)) = q_ (S (a + i))) by (rewrite <- Ln; rewrite <- (cyc_mod o3 qs (S (a + i))), <- (cyc_mod o3 qs (S ((a + i) mod length qs))), mod_succ by lia; reflexivity).
      rewrite Q0, Q1 in *. split; [exact D|]. replace (S i <? m + 2)%nat with true by lia. destruct (Nat.ltb_spec (S i) m) as [L4|L4]; [rewrite <- plus_n_Sm; exact Ed|]. replace (S i =? m)%nat with true by lia.
      unfold cx. replace (a + i)%nat with (b - 1)%nat in * by lia. replace (S (b - 1)) with b in Ed by lia. apply edge_on_end; [lra|exact Ed].
    + destruct (Nat.eqb_spec i m) as [L5|L5].
      * exists e2. rewrite nth_error_app2 by lia. replace (i - length es)%nat with 0%nat by lia. split; [reflexivity|]. split; [exact D2|]. rewrite L2.
        replace (S i <? m + 2)%nat with true by lia. replace (S i <? m)%nat with false by lia. replace (S i =? m)%nat with false by lia.
        pose proof (Neg a ltac:(lia) Hab) as Na.
        destruct (cap_new_side n _ (flat_at p qs) C f a b d t u Hab Hbd Ht Hu Hd hyp_neg hyp_pos hyp_x hyp_y) as (k & K & New).
        pose proof (cap_distinct n _ (flat_at p qs) C f a b d t u Hab Hbd Ht Hu Hd hyp_neg hyp_pos hyp_x hyp_y) as NE.
        replace (cap_x (flat_at p qs) b t) with (qdrop (pdrop p) cx) in * by (unfold cx; apply qdrop_between). replace (cap_y (flat_at p qs) d u) with (qdrop (pdrop p) cy) in * by (unfold cy; apply qdrop_between).
        apply (new_edge (pplane p) h (pdrop p) cx cy (q_ a)); try assumption; try apply cx_on; try apply cy_on; try apply (ok_on_plane p qs H).
        change (comp (hn (pplane p)) (pdrop p)) with (pnormal_drop p). change (qdrop (pdrop p) (q_ a)) with (flat_at p qs a). rewrite New, flat_ev. nra.
      * exists e1. rewrite nth_error_app2 by lia. replace (i - length es)%nat with 1%nat by lia. split; [reflexivity|]. split; [exact D1|]. replace (S i <? m + 2)%nat with false by lia. exact L1.
  - rewrite cap_pts. exact Cy.
Qed.
End Cap3.
(** ** FillInSplitChildren *)
Lemma copy_edges_ok {A} (p : poly A) k : (0 < pcount p)%nat -> forall i, exists l, copy_edges p i k = Ok l /\ length l = k /\ forall j, (j < k)%nat -> nth_error l j = nth_error (pedges p) ((i + j) mod pcount p).
Proof.
  intros N. induction k as [|k IH]; intros i; cbn [copy_edges]; [exists []; repeat split; intros j L; lia|].
  unfold pedge_at. destruct (nth_error (pedges p) (i mod pcount p)) as [e|] eqn:E.
  - cbn [rbind]. destruct (IH (S i)) as (l & El & Ll & Hl). rewrite El. cbn [rbind]. exists (e :: l). split; [reflexivity|]. split; [cbn; lia|]. intros [|j] L; cbn [nth_error]; [rewrite Nat.add_0_r; symmetry; exact E|]. rewrite Hl by lia. f_equal. f_equal. lia.
  - apply nth_error_None in E. pose proof (Nat.mod_upper_bound i (pcount p) ltac:(lia)). unfold pcount in *. lia.
Qed.
Lemma back_ok {A} (l : list (pedge A)) : (0 < length l)%nat -> exists e, back l = Ok e /\ nth_error l (length l - 1) = Some e.
Proof.
  intros L. destruct l as [|x l]; [cbn in L; lia|]. exists (last (x :: l) x). split; [reflexivity|]. clear L.
  assert (G : forall (l : list (pedge A)) x y, nth_error (x :: l) (length l) = Some (last (x :: l) y)).
  { induction l0 as [|z l0 IH]; intros x0 y0; [reflexivity|]. change (nth_error (x0 :: z :: l0) (length (z :: l0))) with (nth_error (z :: l0) (length l0)). rewrite (IH z y0). reflexivity. }
  cbn [length]. replace (S (length l) - 1)%nat with (length l) by lia. apply G.
Qed.
Lemma shared_point h qs b c o : shared h qs b c o -> exists t, 0 < t /\ t <= 1 /\ side h (between (cyc o3 qs (b - 1)) (cyc o3 qs b) t) == 0 /\
  match o with
  | None => t == 1 /\ (S b mod length qs = c mod length qs)%nat
  | Some pt => t < 1 /\ (b mod length qs = c mod length qs)%nat /\ denotes pt (between (cyc o3 qs (b - 1)) (cyc o3 qs b) t)
  end.
Proof.
  unfold shared. destruct o as [pt|].
  - intros (E & t & T0 & T1 & D & Z). exists t. repeat split; auto; try lra; apply D.
  - intros (Z & E). exists 1. split; [lra|]. split; [lra|]. split; [|split; [reflexivity|exact E]]. rewrite (side_eq h _ (cyc o3 qs b)); [exact Z|]. apply between_one. reflexivity.
Qed.
(** The edges of the two children.  X is shared where the boundary goes from the
    negative to the positive side, Y where it comes back; eb and ed are the edges
    of p from the vertex there (or after it), eb1 and ed1 the ones before. *)
Record split_shape {A} (E : einfo A) (p : poly A) (qs : list qpoint) (h : hspace3) (i : split_info) (neg pos : poly A) (X Y : qpoint) : Prop := SplitShape {
  sh_edges : exists neg1 pos1 x1 x2 y1 y2 eb eb1 ed ed1 t u,
    let a := fst (neg_range (si_ranges i)) in let b := snd (neg_range (si_ranges i)) in
    let c := fst (pos_range (si_ranges i)) in let d := snd (pos_range (si_ranges i)) in
    (a < b /\ b <= a + pcount p /\ c < d /\ d <= c + pcount p)%nat /\
    pedges neg = neg1 ++ [x2; y2] /\ pedges pos = x1 :: pos1 ++ [y1] /\
    length neg1 = (b - a)%nat /\ (forall k, (k < b - a)%nat -> nth_error neg1 k = nth_error (pedges p) ((a + k) mod pcount p)) /\
    length pos1 = (d - c)%nat /\ (forall k, (k < d - c)%nat -> nth_error pos1 k = nth_error (pedges p) ((c + k) mod pcount p)) /\
    nth_error (pedges p) (b mod pcount p) = Some eb /\ nth_error (pedges p) ((b - 1) mod pcount p) = Some eb1 /\
    nth_error (pedges p) (d mod pcount p) = Some ed /\ nth_error (pedges p) ((d - 1) mod pcount p) = Some ed1 /\
    0 < t /\ X = between (cyc o3 qs (b - 1)) (cyc o3 qs b) t /\ 0 < u /\ Y = between (cyc o3 qs (d - 1)) (cyc o3 qs d) u /\
    match si_point2 i with
    | None => t == 1 /\ (S b mod pcount p = c mod pcount p)%nat /\ x2 = edge_line E eb (si_line i) /\ x1 = eb
    | Some pt => t < 1 /\ (b mod pcount p = c mod pcount p)%nat /\ x2 = edge_both E eb1 pt (si_line i) /\ x1 = edge_source E eb1 pt
    end /\
    match si_point1 i with
    | None => u == 1 /\ (S d mod pcount p = a mod pcount p)%nat /\ y1 = edge_line E ed (pl_neg (si_line i)) /\ y2 = ed
    | Some pt => u < 1 /\ (d mod pcount p = a mod pcount p)%nat /\ y1 = edge_both E ed1 pt (pl_neg (si_line i)) /\ y2 = edge_source E ed1 pt
    end }.
Section Children.
Context {A : Type} (dbg : bool) (E : einfo A) (p : poly A) (qs : list qpoint) (H : poly_ok p qs).
Notation n := (pcount p).
Notation q_ := (cyc o3 qs).
Lemma q_same i j : (i mod n = j mod n)%nat -> q_ i = q_ j.
Proof using H. intros X. pose proof (ok_n p qs H). rewrite <- (cyc_mod o3 qs i), <- (cyc_mod o3 qs j) by (rewrite (ok_length p qs H); lia). rewrite (ok_length p qs H), X. reflexivity. Qed.
Lemma edge_at i : exists e, nth_error (pedges p) (i mod n) = Some e /\ denotes (pv e) (q_ i) /\ edge_on (pl e) (q_ i) (q_ (S i)).
Proof using H.
  pose proof (ok_n p qs H) as N. destruct (ok_edge p qs H (i mod n) ltac:(apply Nat.mod_upper_bound; lia)) as (e & Ee & D & Ed). exists e. split; [exact Ee|].
  rewrite (q_same (i mod n) i) in * by (apply Nat.mod_mod; lia). rewrite (q_same (S (i mod n)) (S i)) in Ed by (apply mod_succ; exact N). split; assumption.
Qed.
(** One of the two parts: the vertices a, ..., b - 1 on the negative side of h,
    then the two points on it. *)
Lemma part_ok h a b c d o2 o1 : pl_valid (pl_of_planes (pplane p) h) = true -> (a < b)%nat -> (c < d)%nat -> (forall j, (a <= j)%nat -> (j < b)%nat -> side h (q_ j) < 0) -> (forall j, (c <= j)%nat -> (j < d)%nat -> 0 < side h (q_ j)) ->
  forall t u, 0 < t -> t <= 1 -> 0 < u -> u <= 1 -> side h (between (q_ (b - 1)) (q_ b) t) == 0 -> side h (between (q_ (d - 1)) (q_ d) u) == 0 ->
  match o2 with None => t == 1 | Some pt => t < 1 /\ denotes pt (between (q_ (b - 1)) (q_ b) t) end ->
  match o1 with None => u == 1 /\ (S d mod n = a mod n)%nat | Some pt => u < 1 /\ (d mod n = a mod n)%nat /\ denotes pt (between (q_ (d - 1)) (q_ d) u) end ->
  forall es e2 e1 eb ed, length es = (b - a)%nat -> (forall i, (i < b - a)%nat -> nth_error es i = nth_error (pedges p) ((a + i) mod n)) ->
  nth_error (pedges p) (b mod n) = Some eb -> nth_error (pedges p) (match o1 with None => d mod n | Some _ => (d - 1) mod n end)%nat = Some ed ->
  pv e2 = match o2 with None => pv eb | Some pt => pt end -> pl e2 = pl_of_planes (pplane p) h ->
  pv e1 = match o1 with None => pv ed | Some pt => pt end -> pl e1 = pl ed ->
  let qs' := map q_ (seq a (b - a)) ++ [between (q_ (b - 1)) (q_ b) t; between (q_ (d - 1)) (q_ d) u] in
  poly_ok (Poly (pplane p) (pdrop p) (es ++ [e2; e1])) qs' /\
  (forall q, polygon_point (pplane p) (pdrop p) qs' q <-> polygon_point (pplane p) (pdrop p) qs q /\ side h q <= 0).
Proof using H.
  intros V Hab Hcd Neg Pos t u T0 T1 U0 U1 ZX ZY O2 O1 es e2 e1 eb ed Le Es Eb Ed V2 L2 V1 L1 qs'. pose proof (ok_n p qs H) as N.
  assert (N2 : (2 <= n)%nat). { destruct (Nat.lt_ge_cases n 2) as [X|X]; [|exact X]. exfalso. pose proof (Neg a ltac:(lia) Hab) as Na. pose proof (Pos c ltac:(lia) Hcd) as Pc. rewrite (q_same c a) in Pc by (replace n with 1%nat by lia; rewrite !Nat.mod_1_r; reflexivity). lra. }
  set (d0 := match o1 with None => (a + n - 1)%nat | Some _ => (a + n)%nat end).
  assert (Hd : (d0 = a + n)%nat /\ u < 1 \/ (S d0 = a + n)%nat /\ u == 1) by (unfold d0; destruct o1; [left; split; [reflexivity|apply O1]|right; split; [lia|apply O1]]).
  assert (Md : (d0 mod n = d mod n)%nat).
  { unfold d0. destruct o1 as [pt|]; [destruct O1 as (_ & -> & _); replace (a + n)%nat with (a + 1 * n)%nat by lia; apply Nat.mod_add; lia|]. destruct O1 as (_ & Ea).
    replace (a + n - 1)%nat with (a + (n - 1))%nat by lia. rewrite <- Nat.add_mod_idemp_l, <- Ea, Nat.add_mod_idemp_l by lia. replace (S d + (n - 1))%nat with (d + 1 * n)%nat by lia. apply Nat.mod_add. lia. }
  assert (Md1 : ((d0 - 1) mod n = (d - 1) mod n)%nat) by (apply mod_pred; [exact N|unfold d0; destruct o1; lia|lia|exact Md]).
  assert (Qd : q_ d0 = q_ d) by (apply q_same; exact Md). assert (Qd1 : q_ (d0 - 1)%nat = q_ (d - 1)%nat) by (apply q_same; exact Md1).
  assert (Cx : cx qs b t = between (q_ (b - 1)) (q_ b) t) by reflexivity. assert (Cy : cy qs d0 u = between (q_ (d - 1)) (q_ d) u) by (unfold cy; rewrite Qd, Qd1; reflexivity).
  assert (Eq : qs' = map (cap3 qs a b d0 t u) (seq 0 (b - a + 2))).
  { unfold qs'. rewrite seq_app, map_app. f_equal.
    - apply nth_error_ext. intros i. destruct (Nat.lt_ge_cases i (b - a)) as [L|L].
      + rewrite fmap_nth by exact L. rewrite nth_error_map, (nth_error_nth' _ 0%nat) by (rewrite seq_length; exact L). rewrite seq_nth by exact L. unfold cap3. replace (i <? b - a)%nat with true by lia. reflexivity.
      + rewrite !(proj2 (nth_error_None _ _)); [reflexivity| |]; rewrite map_length, seq_length; exact L.
    - cbn [seq map]. unfold cap3. replace (0 + (b - a) <? b - a)%nat with false by lia. replace (0 + (b - a) =? b - a)%nat with true by lia. replace (S (0 + (b - a)) <? b - a)%nat with false by lia. replace (S (0 + (b - a)) =? b - a)%nat with false by lia. rewrite Cx, Cy. reflexivity. }
  assert (PosD : 0 < side h (q_ (d0 - 1))) by (rewrite Qd1; apply Pos; lia).
  rewrite <- Cx in ZX, O2. rewrite <- Cy in ZY, O1.
  assert (D2 : denotes (pv e2) (cx qs b t)).
  { rewrite V2. destruct o2 as [pt|]; [apply O2|]. destruct (edge_at b) as (e' & Ee' & De' & _). rewrite Eb in Ee'. injection Ee' as <-. apply (denotes_eq _ (q_ b)); [|exact De']. apply qp_eq_sym. apply between_one. exact O2. }
  assert (D1 : denotes (pv e1) (cy qs d0 u) /\ edge_on (pl e1) (cy qs d0 u) (q_ a)).
  { rewrite V1, L1. destruct o1 as [pt|].
    - split; [apply O1|]. destruct (edge_at (d - 1)) as (e' & Ee' & _ & Oe'). rewrite Ed in Ee'. injection Ee' as <-. replace (S (d - 1)) with d in Oe' by lia. destruct O1 as (U2 & Ea & _).
      rewrite (q_same a d) by (symmetry; exact Ea). rewrite Cy. apply edge_on_start; [exact U2|exact Oe'].
    - destruct (edge_at d) as (e' & Ee' & De' & Oe'). rewrite Ed in Ee'. injection Ee' as <-. destruct O1 as (U2 & Ea).
      assert (Y : qp_eq (q_ d) (cy qs d0 u)) by (rewrite Cy; apply qp_eq_sym; apply between_one; exact U2).
      split; [apply (denotes_eq _ (q_ d)); assumption|]. rewrite (q_same a (S d)) by (symmetry; exact Ea). apply (edge_on_comp _ (q_ d) (q_ (S d))); [exact Y|repeat split; reflexivity|exact Oe']. }
  destruct D1 as [D1 O1'].
  split.
  - rewrite Eq. apply (cap3_ok p qs H h V a b d0 t u Hab (conj T0 T1) (conj U0 U1) Hd Neg PosD ZX ZY); assumption.
  - intros q. rewrite Eq. unfold polygon_point. split.
    + intros [On I]. pose proof (cap3_region p qs H h V a b d0 t u Hab (conj T0 T1) (conj U0 U1) Hd Neg PosD ZX ZY q On) as R. apply R in I. tauto.
    + intros [[On I] Sd]. split; [exact On|]. apply (cap3_region p qs H h V a b d0 t u Hab (conj T0 T1) (conj U0 U1) Hd Neg PosD ZX ZY q On). tauto.
Qed.
Lemma in_range_vertices (G : qpoint -> Prop) a b : (b <= a + n)%nat -> (forall i, (i < n)%nat -> G (q_ i) <-> in_cyclic_range n (a, b) i) -> forall q, In q (map q_ (seq a (b - a))) <-> In q qs /\ G q.
Proof using H.
  intros B R q. pose proof (ok_n p qs H) as N. pose proof (ok_length p qs H) as Ln. rewrite in_map_iff. split.
  - intros (j & <- & I). apply in_seq in I. split; [apply cyc_In; lia|]. rewrite (q_same j (j mod n)) by (symmetry; apply Nat.mod_mod; lia). apply R; [apply Nat.mod_upper_bound; lia|]. exists j. cbn [fst snd]. repeat split; lia.
  - intros [I Gq]. apply (In_cyc o3) in I as (i & L & ->). rewrite Ln in L. apply (R i L) in Gq as (j & J1 & J2 & J3). cbn [fst snd] in *. exists j. split; [apply q_same; rewrite J3; symmetry; apply Nat.mod_small; exact L|]. apply in_seq. lia.
Qed.
Lemma split_children_shape h i : info_ok p qs h i -> emit_neg (si_ranges i) = true -> emit_pos (si_ranges i) = true ->
  exists neg pos X Y, split_children dbg E p i = Ok (neg, pos) /\ split_shape E p qs h i neg pos X Y /\
    let a := fst (neg_range (si_ranges i)) in let b := snd (neg_range (si_ranges i)) in
    let c := fst (pos_range (si_ranges i)) in let d := snd (pos_range (si_ranges i)) in
    (forall j, (a <= j)%nat -> (j < b)%nat -> side h (q_ j) < 0) /\ (forall j, (c <= j)%nat -> (j < d)%nat -> 0 < side h (q_ j)) /\ side h X == 0 /\ side h Y == 0 /\
    split_ok p qs h neg pos (map q_ (seq a (b - a)) ++ [X; Y]) (X :: map q_ (seq c (d - c)) ++ [Y]).
Proof using H.
  intros [R Li _ Both] En Ep. destruct (Both En Ep) as (V & Sh2 & Sh1). clear Both. rewrite Li in V. pose proof (ok_length p qs H) as Ln. rewrite Ln in R.
  pose proof (ok_n p qs H) as N. pose proof (side_uni p qs H h) as U.
  unfold split_children. rewrite En, Ep. replace (check dbg (true && true)) with (Ok tt) by (destruct dbg; reflexivity). cbn [rbind].
  pose proof (proj1 (emit_neg_lt _ _ _ R) En) as Lab. pose proof (proj1 (emit_pos_lt _ _ _ R) Ep) as Lcd.
  pose proof (neg_at _ _ _ U R) as Neg. pose proof (pos_at _ _ _ U R) as Pos. destruct R as [Rn Rp In1 In2].
  destruct (si_ranges i) as [[a b] [c d]] eqn:SR. cbn [neg_range pos_range fst snd] in *. unfold range_ok in *. cbn [fst snd] in *.
  replace (check dbg (b - a <=? n)%nat) with (Ok tt) by (replace (b - a <=? n)%nat with true by lia; destruct dbg; reflexivity). cbn [rbind].
  destruct (copy_edges_ok p (b - a) N a) as (neg1 & E1 & Ln1 & Hn1). destruct (copy_edges_ok p (d - c) N c) as (pos1 & E2 & Lp1 & Hp1). rewrite E1. cbn [rbind].
  destruct (edge_at b) as (eb & Eb & _). destruct (edge_at d) as (ed & Ed & _). destruct (edge_at (b - 1)) as (eb1 & Eb1 & _). destruct (edge_at (d - 1)) as (ed1 & Ed1 & _).
  destruct (shared_point _ _ _ _ _ Sh2) as (t & T0 & T1 & ZX & O2). destruct (shared_point _ _ _ _ _ Sh1) as (u & U0 & U1 & ZY & O1). rewrite Ln in O1, O2. clear Sh1 Sh2.
  set (X := between (q_ (b - 1)) (q_ b) t) in *. set (Y := between (q_ (d - 1)) (q_ d) u) in *.
  (* the four new edges *)
  set (x2 := match si_point2 i with None => edge_line E eb (si_line i) | Some pt => edge_both E eb1 pt (si_line i) end).
  set (x1 := match si_point2 i with None => eb | Some pt => edge_source E eb1 pt end).
  set (y2 := match si_point1 i with None => ed | Some pt => edge_source E ed1 pt end).
  set (y1 := match si_point1 i with None => edge_line E ed (pl_neg (si_line i)) | Some pt => edge_both E ed1 pt (pl_neg (si_line i)) end).
  assert (B1 : back neg1 = Ok eb1).
  { destruct (back_ok neg1 ltac:(lia)) as (e & Be & Ne). rewrite Be. f_equal. rewrite Hn1 in Ne by lia. replace (a + (length neg1 - 1))%nat with (b - 1)%nat in Ne by lia. congruence. }
  assert (B2 : forall w, back (w ++ pos1) = Ok ed1).
  { intros w. destruct (back_ok (w ++ pos1) ltac:(rewrite app_length; lia)) as (e & Be & Ne). rewrite Be. f_equal. rewrite app_length, nth_error_app2 in Ne by lia. replace (length w + length pos1 - 1 - length w)%nat with (length pos1 - 1)%nat in Ne by lia. rewrite Hp1 in Ne by lia. replace (c + (length pos1 - 1))%nat with (d - 1)%nat in Ne by lia. congruence. }
  match goal with |- exists neg pos X Y, rbind ?x ?f = _ /\ _ => replace x with (Ok (neg1 ++ [x2], [x1])) end.
  2: { unfold x1, x2. destruct (si_point2 i); [rewrite B1; reflexivity|unfold pedge_at; rewrite Eb; reflexivity]. }
  cbn [rbind fst snd]. rewrite E2. cbn [rbind].
  match goal with |- exists neg pos X Y, rbind ?x ?f = _ /\ _ => replace x with (Ok ((neg1 ++ [x2]) ++ [y2], ([x1] ++ pos1) ++ [y1])) end.
  2: { unfold y1, y2. destruct (si_point1 i); [rewrite B2; reflexivity|unfold pedge_at; rewrite Ed; reflexivity]. }
  cbn [rbind fst snd]. do 2 eexists. exists X, Y. split; [reflexivity|]. rewrite <- !app_assoc. cbn [app].
  split.
  { constructor. exists neg1, pos1, x1, x2, y1, y2, eb, eb1, ed, ed1, t, u. cbn zeta. rewrite SR. cbn [neg_range pos_range fst snd]. split; [lia|]. split; [reflexivity|]. split; [reflexivity|]. do 12 (split; [first [assumption|reflexivity]|]).
    split; [unfold x1, x2; destruct (si_point2 i); tauto|unfold y1, y2; destruct (si_point1 i); tauto]. }
  split; [exact Neg|]. split; [exact Pos|]. split; [exact ZX|]. split; [exact ZY|].
  (* the negative part *)
  destruct (part_ok h a b c d (si_point2 i) (si_point1 i) V Lab Lcd Neg Pos t u T0 T1 U0 U1 ZX ZY) with (es := neg1) (e2 := x2) (e1 := y2) (eb := eb) (ed := match si_point1 i with None => ed | Some _ => ed1 end) as [On Pn].
  { destruct (si_point2 i); tauto. } { exact O1. } { exact Ln1. } { exact Hn1. } { exact Eb. } { destruct (si_point1 i); assumption. }
  { unfold x2. destruct (si_point2 i); reflexivity. } { unfold x2. destruct (si_point2 i); exact Li. } { unfold y2. destruct (si_point1 i); reflexivity. } { unfold y2. destruct (si_point1 i); reflexivity. }
  (* the positive part *)
  destruct (part_ok (hs_neg h) c d a b (si_point1 i) (si_point2 i)) with (t := u) (u := t) (es := pos1) (e2 := y1) (e1 := x1) (eb := ed) (ed := match si_point2 i with None => eb | Some _ => eb1 end) as [Op Pp]; try assumption.
  { rewrite pl_of_planes_neg. revert V. unfold pl_valid, v3_is_zero, pl_neg. destruct (pl_of_planes (pplane p) h) as [[l1 l2 l3] [m1 m2 m3]]. unfold v3_neg. cbn [ld vx vy vz]. lia. }
  { intros j J1 J2. rewrite side_hs_neg. specialize (Pos j J1 J2). lra. } { intros j J1 J2. rewrite side_hs_neg. specialize (Neg j J1 J2). lra. }
  { rewrite side_hs_neg. fold Y. rewrite ZY. reflexivity. } { rewrite side_hs_neg. fold X. rewrite ZX. reflexivity. }
  { destruct (si_point1 i); tauto. } { destruct (si_point2 i); assumption. }
  { unfold y1. destruct (si_point1 i); reflexivity. } { unfold y1. rewrite pl_of_planes_neg, <- Li. destruct (si_point1 i); reflexivity. }
  { unfold x1. destruct (si_point2 i); reflexivity. } { unfold x1. destruct (si_point2 i); reflexivity. }
  fold X Y in On, Pn, Op, Pp. set (ns := map q_ (seq a (b - a))) in *. set (ps := map q_ (seq c (d - c))) in *.
  assert (Lps : length ps = (d - c)%nat) by (unfold ps; rewrite map_length; apply seq_length).
  assert (Rot : forall (B : Type) (l : list B) (x y : B), rotate (length l + 1) (l ++ [y; x]) = x :: l ++ [y]).
  { intros B l x y. replace (l ++ [y; x]) with ((l ++ [y]) ++ [x]) by (rewrite <- app_assoc; reflexivity). unfold rotate. replace (length l + 1)%nat with (length (l ++ [y])) by (rewrite app_length; reflexivity).
    rewrite skipn_app, skipn_all, Nat.sub_diag. cbn [skipn app]. rewrite firstn_app, Nat.sub_diag, firstn_all. cbn [firstn]. rewrite app_nil_r. reflexivity. }
  assert (Kb : (length ps + 1 <= length (ps ++ [Y; X]))%nat) by (rewrite app_length; cbn; lia).
  split; cbn [pplane pdrop].
  - exact On.
  - pose proof (poly_ok_rotate _ _ _ Op Kb) as Q. cbn [pplane pdrop pedges] in Q. rewrite Rot in Q. replace (length ps + 1)%nat with (length pos1 + 1)%nat in Q by lia. rewrite Rot in Q. exact Q.
  - split; reflexivity.
  - split; reflexivity.
  - exact Pn.
  - intros q. pose proof (polygon_rotate _ _ _ q Op Kb) as Q. cbn [pplane pdrop] in Q. rewrite Rot in Q. rewrite Q, Pp, side_hs_neg. split; intros [A1 A2]; (split; [exact A1|lra]).
  - exists X, Y, ns, ps. split; [reflexivity|]. split; [reflexivity|]. split; [exact ZX|]. split; [exact ZY|]. split.
    + intros q. apply (in_range_vertices (fun q => side h q < 0)); [lia|exact In1].
    + intros q. apply (in_range_vertices (fun q => 0 < side h q)); [lia|exact In2].
Qed.
Lemma split_children_ok h i : info_ok p qs h i -> emit_neg (si_ranges i) = true -> emit_pos (si_ranges i) = true ->
  exists neg pos, split_children dbg E p i = Ok (neg, pos) /\ exists qn qp, split_ok p qs h neg pos qn qp.
Proof using H. intros I En Ep. destruct (split_children_shape h i I En Ep) as (neg & pos & X & Y & Es & _ & _ & _ & _ & _ & So). exists neg, pos. split; [exact Es|]. do 2 eexists. exact So. Qed.
End Children.
