(** Properties C16 to C18: planes and lines. *)
From Coq Require Import ZArith QArith List Bool Lia Lqa.
From Verif Require Import BigUIntModel GeoModel GeoSpec GeoProofs GeoDirProofs GeoAngleProofs GeoPlaneProofs
  GeoLineProofs GeoPluckerProofs GeoReduceProofs GeoSidesProofs GeoBridge.
Import ListNotations.
Open Scope Z_scope.

(** ** C16 *)
(** The sign returned by Compare is the side of the triangle p1 p2 p3 the
    point is on: 1 when it sees p1, p2, p3 counter-clockwise. *)
Theorem C16_points_side : forall p1 p2 p3 v,
  hs_compare_pt (hs_of_points p1 p2 p3) v = qsign (side_of_triangle (qpt p1) (qpt p2) (qpt p3) (qpt v)).
Proof. exact hs_of_points_side_sign. Qed.
Print Assumptions C16_points_side.
Theorem C16_homo_points_side : forall p1 p2 p3 q1 q2 q3 h v qv, denotes p1 q1 -> denotes p2 q2 -> denotes p3 q3 -> denotes v qv ->
  hs_of_hpoints p1 p2 p3 = Ok h -> hs_compare h v = qsign (side_of_triangle q1 q2 q3 qv).
Proof. exact hs_of_hpoints_side_sign. Qed.
Print Assumptions C16_homo_points_side.
Theorem C16_points_coincident : forall p1 p2 p3, let h := hs_of_points p1 p2 p3 in
  (side h (qpt p1) == 0 /\ side h (qpt p2) == 0 /\ side h (qpt p3) == 0)%Q.
Proof. intros p1 p2 p3 h. unfold h. rewrite !hs_of_points_side. unfold side_of_triangle, qdot, qcross, qsub; cbn [qx qy qz]. repeat split; ring. Qed.
Print Assumptions C16_points_coincident.
Theorem C16_homo_points_coincident : forall p1 p2 p3 q1 q2 q3 h, denotes p1 q1 -> denotes p2 q2 -> denotes p3 q3 ->
  hs_of_hpoints p1 p2 p3 = Ok h -> hs_compare h p1 = 0 /\ hs_compare h p2 = 0 /\ hs_compare h p3 = 0.
Proof.
  intros p1 p2 p3 q1 q2 q3 h H1 H2 H3 H.
  rewrite (hs_of_hpoints_side_sign p1 p2 p3 q1 q2 q3 h p1 q1 H1 H2 H3 H1 H), (hs_of_hpoints_side_sign p1 p2 p3 q1 q2 q3 h p2 q2 H1 H2 H3 H2 H),
    (hs_of_hpoints_side_sign p1 p2 p3 q1 q2 q3 h p3 q3 H1 H2 H3 H3 H), !qsign_zero.
  unfold side_of_triangle, qdot, qcross, qsub; cbn [qx qy qz]. repeat split; ring.
Qed.
Print Assumptions C16_homo_points_coincident.
Theorem C16_points_valid : forall p1 p2 p3, hs_valid (hs_of_points p1 p2 p3) = true <-> ~ collinear (qpt p1) (qpt p2) (qpt p3).
Proof. exact hs_of_points_valid. Qed.
Print Assumptions C16_points_valid.
Theorem C16_homo_points_valid : forall p1 p2 p3 q1 q2 q3 h, denotes p1 q1 -> denotes p2 q2 -> denotes p3 q3 ->
  hs_of_hpoints p1 p2 p3 = Ok h -> (hs_valid h = true <-> ~ collinear q1 q2 q3).
Proof. exact hs_of_hpoints_valid. Qed.
Print Assumptions C16_homo_points_valid.
Theorem C16_homo_points_returns : forall p1 p2 p3, hw p2 <> - 2 ^ 63 -> exists h, hs_of_hpoints p1 p2 p3 = Ok h.
Proof. exact hs_of_hpoints_total. Qed.
Print Assumptions C16_homo_points_returns.
(** abs() of the middle weight is undefined for INT64_MIN. *)
Theorem C16_middle_weight_int64_min_refuted : forall p1 v p3, hs_of_hpoints p1 (HP v (- 2 ^ 63)) p3 = UB.
Proof. reflexivity. Qed.
Print Assumptions C16_middle_weight_int64_min_refuted.
(** Planes from a normal and a point, extrusion of a 2D half-space, axis
    aligned planes, projection onto a plane, coincidence. *)
Theorem C16_normal_and_point : forall n p q v qv, denotes p q -> denotes v qv ->
  hs_compare (hs_of_normal_point n p) v = qsign (qdot (qpt n) (qsub qv q)).
Proof. exact hs_of_normal_point_sign. Qed.
Print Assumptions C16_normal_and_point.
Theorem C16_extrude : forall h d v q, (d < 3)%nat -> denotes v q -> hs_compare (hs_extrude h d) v = qsign (side2 h (qdrop d q)).
Proof. exact hs_extrude_sign. Qed.
Print Assumptions C16_extrude.
Theorem C16_axis_aligned : forall d num den v q, (d < 3)%nat -> den <> 0 -> denotes v q ->
  hs_compare (hs_axis_aligned d num den) v = qsign (qcomp q d - inject_Z num / inject_Z den) * Z.sgn den.
Proof. exact hs_axis_aligned_sign. Qed.
Print Assumptions C16_axis_aligned.
Theorem C16_project_onto_plane : forall h p d q, (d < 3)%nat -> comp (hn h) d <> 0 -> denotes2 p q ->
  exists r, denotes (hs_project_onto h p d) r /\ (side h r == 0)%Q /\ qp2_eq (qdrop d r) q.
Proof. exact hs_project_onto_spec. Qed.
Print Assumptions C16_project_onto_plane.
Theorem C16_compare : forall h v q, denotes v q -> hs_compare h v = qsign (side h q).
Proof. exact hs_compare_spec. Qed.
Print Assumptions C16_compare.
Theorem C16_compare_2d : forall h v q, denotes2 v q -> hs2_compare h v = qsign (side2 h q).
Proof. exact hs2_compare_spec. Qed.
Print Assumptions C16_compare_2d.
Example C16_case : let p1 := HP (V3 0 0 (-2)) (-2) in let p2 := HP (V3 3 0 3) 3 in let p3 := HP (V3 0 (-1) (-1)) (-1) in
  denotes p1 (QP 0 0 1) /\ denotes p2 (QP 1 0 1) /\ denotes p3 (QP 0 1 1) /\ ~ collinear (QP 0 0 1) (QP 1 0 1) (QP 0 1 1) /\
  exists h, hs_of_hpoints p1 p2 p3 = Ok h /\ hs_compare h (HP (V3 0 0 (-7)) (-2)) = 1 /\ hs_compare h (HP (V3 0 0 0) 1) = -1.
Proof.
  unfold denotes; cbn. repeat split; try discriminate; try reflexivity; [|eexists; repeat split].
  rewrite collinear_cross. intros (_ & _ & H). cbn in H. discriminate H.
Qed.

(** ** C17 *)
(** == holds exactly when the two half-spaces contain the same points. *)
Theorem C17_equality : forall a b r, hs_valid a = true -> hs_valid b = true -> hs_eq a b = Ok r ->
  (r = true <-> forall q, qsign (side a q) = qsign (side b q)).
Proof. intros a b r Va Vb H. rewrite <- (same_direction_sides a b Va Vb). exact (hs_eq_spec a b r H). Qed.
Print Assumptions C17_equality.
Theorem C17_equality_returns : forall a b, no_min (l4 a) -> no_min (l4 b) -> exists r, hs_eq a b = Ok r.
Proof. exact hs_eq_total. Qed.
Print Assumptions C17_equality_returns.
Theorem C17_same_or_opposite : forall a b, hs_valid a = true -> hs_valid b = true ->
  (hs_same_or_opposite a b = true <-> forall q, (side a q == 0)%Q <-> (side b q == 0)%Q).
Proof. intros a b Va Vb. rewrite <- (parallel_sides a b Va Vb). exact (hs_same_or_opposite_spec a b). Qed.
Print Assumptions C17_same_or_opposite.
Theorem C17_equality_2d : forall a b r, hs2_eq a b = Ok r -> (r = true <-> same_direction (l2d a) (l2d b)).
Proof. exact hs2_eq_spec. Qed.
Print Assumptions C17_equality_2d.
Theorem C17_same_line_2d : forall a b, hs2_same_line a b = true <-> parallel (l2d a) (l2d b).
Proof. exact hs2_same_line_spec. Qed.
Print Assumptions C17_same_line_2d.
(** HalfSpace3Compare, on planes whose normal components do not add up to 0. *)
Theorem C17_set_order_partial : strict_weak_order map_domain (fun a b => hs_map_lt a b = Ok true).
Proof. exact map_lt_swo. Qed.
Print Assumptions C17_set_order_partial.
Theorem C17_set_order_equivalence_partial : forall a b, map_domain a -> map_domain b ->
  (hs_map_lt a b = Ok false /\ hs_map_lt b a = Ok false <-> forall q, qsign (side a q) = qsign (side b q)).
Proof.
  intros a b Da Db. rewrite (map_lt_equiv a b Da Db). apply same_direction_sides.
  - unfold hs_valid, v3_is_zero. destruct Da as [Da _]. unfold nsum in Da. apply not_false_iff_true. intros H. apply negb_false_iff, andb_true_iff in H. destruct H as [H Hz]. apply andb_true_iff in H. destruct H as [Hx Hy]. lia.
  - unfold hs_valid, v3_is_zero. destruct Db as [Db _]. unfold nsum in Db. apply not_false_iff_true. intros H. apply negb_false_iff, andb_true_iff in H. destruct H as [H Hz]. apply andb_true_iff in H. destruct H as [Hx Hy]. lia.
Qed.
Print Assumptions C17_set_order_equivalence_partial.
(** Planes whose normal components add up to 0 are never less than each other,
    so a std::set keyed by this order drops all but one of them. *)
Theorem C17_set_order_refuted : forall a b, nsum a = 0 -> nsum b = 0 -> hs_map_lt a b = Ok false /\ hs_map_lt b a = Ok false.
Proof. intros a b Ha Hb. split; apply map_lt_degenerate; assumption. Qed.
Print Assumptions C17_set_order_refuted.
Theorem C17_set_order_drops_plane_refuted : let a := HS (V3 1 (-1) 0) 0 in let b := HS (V3 1 (-1) 0) 5 in
  hs_valid a = true /\ hs_valid b = true /\ hs_map_lt a b = Ok false /\ hs_map_lt b a = Ok false /\ hs_eq a b = Ok false.
Proof. repeat split. Qed.
Print Assumptions C17_set_order_drops_plane_refuted.
(** With such a plane the relation is not even a strict weak order:
    equivalence is not transitive. *)
Theorem C17_set_order_not_weak_refuted : exists a b c, hs_valid a = true /\ hs_valid b = true /\ hs_valid c = true /\
  hs_map_lt a c = Ok false /\ hs_map_lt c a = Ok false /\ hs_map_lt a b = Ok true /\ hs_map_lt b c = Ok true.
Proof. exists (HS (V3 (-1) 1 0) 0), (HS (V3 0 0 1) 0), (HS (V3 1 (-1) 0) 0). repeat split. Qed.
Print Assumptions C17_set_order_not_weak_refuted.
(** HalfSpace2SidelessCompare, on half-spaces whose normal has x <> 0. *)
Theorem C17_sideless_order_partial : strict_weak_order (fun h => x2 (hn2 h) <> 0) (fun a b => hs2_sideless_lt a b = true).
Proof. exact sideless_swo. Qed.
Print Assumptions C17_sideless_order_partial.
Theorem C17_sideless_equivalence_partial : forall h1 h2, x2 (hn2 h1) <> 0 -> x2 (hn2 h2) <> 0 ->
  (hs2_sideless_lt h1 h2 = false /\ hs2_sideless_lt h2 h1 = false <-> parallel (l2d h1) (l2d h2)).
Proof. exact sideless_equiv. Qed.
Print Assumptions C17_sideless_equivalence_partial.
(** With x = 0 and normals of opposite sign it is symmetric, so it is not an
    order; it even claims both a < b and b < a. *)
Theorem C17_sideless_order_refuted : forall h1 h2, x2 (hn2 h1) = 0 -> x2 (hn2 h2) = 0 -> 0 < y2 (hn2 h1) -> y2 (hn2 h2) < 0 ->
  hs2_sideless_lt h1 h2 = hs2_sideless_lt h2 h1.
Proof. exact sideless_symmetric. Qed.
Print Assumptions C17_sideless_order_refuted.
Theorem C17_sideless_both_less_refuted : let a := HS2 (V2 0 1) 2 in let b := HS2 (V2 0 (-1)) (-1) in
  hs2_sideless_lt a b = true /\ hs2_sideless_lt b a = true.
Proof. split; reflexivity. Qed.
Print Assumptions C17_sideless_both_less_refuted.
(** Compare(parallel plane): the opposite of the side its points are on. *)
Theorem C17_compare_parallel : forall h p i q, (i < 3)%nat -> comp (hn h) i <> 0 -> comp (hn p) i <> 0 ->
  parallel (l3 (hn h)) (l3 (hn p)) -> (side p q == 0)%Q -> hs_compare_parallel h p i = - qsign (side h q).
Proof. exact hs_compare_parallel_spec. Qed.
Print Assumptions C17_compare_parallel.
Theorem C17_reduce : forall gcd h r, gcd_ok gcd -> ~ Forall (fun c => c = 0) (l4 h) -> hs_reduce gcd h = Ok r -> reduced_form (l4 h) (l4 r).
Proof. exact hs_reduce_spec. Qed.
Print Assumptions C17_reduce.
Theorem C17_reduce_returns : forall gcd h, gcd_ok gcd -> ~ Forall (fun c => c = 0) (l4 h) -> Forall (fun c => 0 <= c) (tl (l4 h)) ->
  exists r, hs_reduce gcd h = Ok r.
Proof. exact hs_reduce_total. Qed.
Print Assumptions C17_reduce_returns.
Example C17_case : let a := HS (V3 2 (-4) 0) 6 in let b := HS (V3 3 (-6) 0) 9 in let c := HS (V3 (-1) 2 0) (-3) in
  map_domain a /\ map_domain c /\ no_min (l4 a) /\ hs_valid a = true /\ hs_eq a b = Ok true /\ hs_eq a c = Ok false /\
  hs_same_or_opposite a c = true /\ hs_map_lt a b = Ok false /\ hs_map_lt b a = Ok false /\ hs_map_lt c a = Ok true /\
  hs_reduce zgcd b = Ok (HS (V3 1 (-2) 0) 3) /\ hs_compare_parallel a (HS (V3 1 (-2) 0) 7) 0 = -1.
Proof. unfold map_domain, no_min, l4; cbn -[Z.pow]. repeat split; try discriminate; repeat constructor; discriminate. Qed.

(** ** C18 *)
Theorem C18_through_points : forall p1 p2 q1 q2 p q, denotes p1 q1 -> denotes p2 q2 -> ~ qp_eq q1 q2 -> denotes p q ->
  (pl_coincident (pl_of_hpoints p1 p2) p = true <-> on_line q1 q2 q).
Proof. exact pl_of_hpoints_coincident. Qed.
Print Assumptions C18_through_points.
Theorem C18_through_integer_points : forall p1 p2 p, ~ qp_eq (qpt p1) (qpt p2) ->
  (pl_coincident_pt (pl_of_points p1 p2) p = true <-> on_line (qpt p1) (qpt p2) (qpt p)).
Proof. exact pl_of_points_coincident. Qed.
Print Assumptions C18_through_integer_points.
Theorem C18_points_valid : forall p1 p2 q1 q2, denotes p1 q1 -> denotes p2 q2 ->
  (pl_valid (pl_of_hpoints p1 p2) = true <-> ~ qp_eq q1 q2).
Proof. exact pl_of_hpoints_valid. Qed.
Print Assumptions C18_points_valid.
Theorem C18_shared_by_planes : forall a b p q, pl_valid (pl_of_planes a b) = true -> denotes p q ->
  (pl_coincident (pl_of_planes a b) p = true <-> (side a q == 0)%Q /\ (side b q == 0)%Q).
Proof. intros a b p q V D. rewrite (pl_coincident_spec _ _ _ D). exact (pl_of_planes_points a b q V). Qed.
Print Assumptions C18_shared_by_planes.
Theorem C18_planes_valid : forall a b, hs_valid a = true -> hs_valid b = true ->
  (pl_valid (pl_of_planes a b) = true <-> ~ parallel (l3 (hn a)) (l3 (hn b))).
Proof. exact pl_of_planes_valid. Qed.
Print Assumptions C18_planes_valid.
(** Every constructor yields a well-formed line. *)
Theorem C18_constructors_well_formed : forall p1 p2 q1 q2 a b i j,
  (denotes p1 q1 -> denotes p2 q2 -> ~ qp_eq q1 q2 -> line_wf (pl_of_hpoints p1 p2)) /\
  (pl_valid (pl_of_planes a b) = true -> line_wf (pl_of_planes a b)) /\
  (~ qp_eq (qpt i) (qpt j) -> line_wf (pl_of_points i j)).
Proof. intros. split; [apply pl_of_hpoints_wf|]. split; [apply pl_of_planes_wf|apply pl_of_points_wf]. Qed.
Print Assumptions C18_constructors_well_formed.
Theorem C18_intersection : forall l h, line_wf l -> hw (pl_intersect l h) <> 0 ->
  exists r, denotes (pl_intersect l h) r /\ line_points l r /\ (side h r == 0)%Q /\
            forall r', line_points l r' -> (side h r' == 0)%Q -> qp_eq r' r.
Proof. exact pl_intersect_spec. Qed.
Print Assumptions C18_intersection.
(** Weight zero: the line is parallel to the plane, inside it or disjoint. *)
Theorem C18_no_intersection : forall l h, line_wf l -> hw (pl_intersect l h) = 0 ->
  (forall r, line_points l r -> (side h r == 0)%Q) \/ (forall r, line_points l r -> ~ (side h r == 0)%Q).
Proof. exact pl_intersect_none. Qed.
Print Assumptions C18_no_intersection.
Theorem C18_line_in_plane : forall l h, line_wf l -> (pl_on_plane l h = true <-> forall q, line_points l q -> (side h q == 0)%Q).
Proof. exact pl_on_plane_spec. Qed.
Print Assumptions C18_line_in_plane.
Theorem C18_coincident : forall l p q, denotes p q -> (pl_coincident l p = true <-> line_points l q).
Proof. exact pl_coincident_spec. Qed.
Print Assumptions C18_coincident.
(** == : same points and same direction. *)
Theorem C18_equality : forall a b, line_wf a -> line_wf b ->
  (pl_eq a b = true <-> same_direction (l3 (ld a)) (l3 (ld b)) /\ forall q, line_points a q <-> line_points b q).
Proof. exact pl_eq_lines. Qed.
Print Assumptions C18_equality.
(** The projected line has on its positive side the points left of it. *)
Theorem C18_projection : forall p1 p2 q1 q2 d v, (d < 3)%nat -> denotes p1 q1 -> denotes p2 q2 ->
  qsign (side2 (pl_project2d (pl_of_hpoints p1 p2) d) v) = qsign (turn (qdrop d q1) (qdrop d q2) v).
Proof. exact pl_project2d_turn. Qed.
Print Assumptions C18_projection.
Theorem C18_reduce : forall gcd l r, gcd_ok gcd -> ~ Forall (fun c => c = 0) (l6 l) -> pl_reduce gcd l = Ok r -> reduced_form (l6 l) (l6 r).
Proof. exact pl_reduce_spec. Qed.
Print Assumptions C18_reduce.
Example C18_case : let l := pl_of_hpoints (HP (V3 1 0 0) 1) (HP (V3 0 (-4) (-2)) (-2)) in
  ~ qp_eq (QP 1 0 0) (QP 0 2 1) /\ pl_valid l = true /\ line_wf l /\ pl_coincident l (HP (V3 1 2 1) 2) = true /\
  pl_coincident l (HP (V3 1 2 2) 2) = false /\ pl_intersect l (HS (V3 0 0 1) 3) = HP (V3 (-4) 12 6) 2 /\
  pl_eq l (pl_of_hpoints (HP (V3 2 (-2) (-1)) 1) (HP (V3 1 2 1) 2)) = true.
Proof.
  cbn. unfold line_wf. repeat split; try reflexivity. unfold qp_eq; cbn. intros [H _]. discriminate H.
Qed.
