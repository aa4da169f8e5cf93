(** Properties C11 to C15: rationals, angles, directions and homogeneous
    points.  Statements are about the rational points of GeoSpec.v. *)
From Coq Require Import ZArith QArith List Bool Lia.
From Verif Require Import BigUIntModel GeoModel GeoSpec GeoProofs GeoDirProofs GeoAngleProofs GeoPlaneProofs
  GeoPluckerProofs GeoReduceProofs GeoBridge BigIntSpec BigIntModel.
Import ListNotations.
Open Scope Z_scope.

(** ** C11 *)
Theorem C11_less_than : forall n1 d1 n2 d2, d1 <> 0 -> d2 <> 0 ->
  (rat_lt n1 d1 n2 d2 = true <-> (inject_Z n1 / inject_Z d1 < inject_Z n2 / inject_Z d2)%Q).
Proof. exact rat_lt_spec. Qed.
Print Assumptions C11_less_than.
Theorem C11_equals : forall n1 d1 n2 d2, d1 <> 0 -> d2 <> 0 ->
  (rat_eq n1 d1 n2 d2 = true <-> (inject_Z n1 / inject_Z d1 == inject_Z n2 / inject_Z d2)%Q).
Proof. exact rat_eq_spec. Qed.
Print Assumptions C11_equals.
(** RoundUp returns the numerator of the smallest fraction over [nd] that is
    not below num/od; RoundDown the largest that is not above. *)
Theorem C11_round_up : forall num od nd, od <> 0 -> nd <> 0 -> ~ (num * nd = - 2 ^ 63 /\ od = -1) ->
  exists r, round_up num od nd = Ok r /\ (inject_Z num / inject_Z od <= inject_Z r / inject_Z nd)%Q /\
    forall k, (inject_Z num / inject_Z od <= inject_Z k / inject_Z nd)%Q -> (inject_Z r / inject_Z nd <= inject_Z k / inject_Z nd)%Q.
Proof. exact round_up_spec. Qed.
Print Assumptions C11_round_up.
Theorem C11_round_down : forall num od nd, od <> 0 -> nd <> 0 -> ~ (num * nd = - 2 ^ 63 /\ od = -1) ->
  exists r, round_down num od nd = Ok r /\ (inject_Z r / inject_Z nd <= inject_Z num / inject_Z od)%Q /\
    forall k, (inject_Z k / inject_Z nd <= inject_Z num / inject_Z od)%Q -> (inject_Z k / inject_Z nd <= inject_Z r / inject_Z nd)%Q.
Proof. exact round_down_spec. Qed.
Print Assumptions C11_round_down.
(** The exception is undefined behaviour inherited from the division (C05). *)
Theorem C11_round_overflow_refuted : forall num nd, num * nd = - 2 ^ 63 ->
  round_up num (-1) nd = UB /\ round_down num (-1) nd = UB.
Proof. intros num nd H. unfold round_up, round_down. rewrite H. split; reflexivity. Qed.
Print Assumptions C11_round_overflow_refuted.
Example C11_case : rat_lt 1 (-2) (-1) 3 = true /\ rat_lt (-1) 3 1 (-2) = false /\ rat_eq 2 (-6) (-1) 3 = true /\
  round_up 7 (-2) 1 = Ok (-3) /\ round_down 7 (-2) 1 = Ok (-4) /\ round_down 7 2 (-3) = Ok (-10) /\ round_up 7 2 (-3) = Ok (-11).
Proof. repeat split. Qed.

(** ** C12 *)
(** A direction and its opposite have the same half rotation.  [normalized v n]
    says n is whichever of v, -v is in the upper half plane. *)
Theorem C12_half_rotation : forall u v nu nv, normalized u nu -> normalized v nv ->
  (v2_half_rotation_lt u v = true <-> upper_angle_lt nu nv).
Proof. exact half_rotation_spec. Qed.
Print Assumptions C12_half_rotation.
Theorem C12_normalized_exists : forall v, nonzero2 v -> exists n, normalized v n /\ forall m, normalized v m -> m = n.
Proof. intros v H. destruct (normalized_exists v H) as [n N]. exists n. split; [exact N|]. intros m M. exact (normalized_unique v m n M N). Qed.
Print Assumptions C12_normalized_exists.
Theorem C12_half_rotation_strict_weak_order : strict_weak_order nonzero2 (fun u v => v2_half_rotation_lt u v = true).
Proof. exact half_rotation_swo. Qed.
Print Assumptions C12_half_rotation_strict_weak_order.
Theorem C12_half_rotation_scale_independent : forall u v k m, k <> 0 -> m <> 0 ->
  v2_half_rotation_lt (v2_scale u k) (v2_scale v m) = v2_half_rotation_lt u v.
Proof. exact half_rotation_scale. Qed.
Print Assumptions C12_half_rotation_scale_independent.
(** The full-turn comparison orders by the angle in [0, 360). *)
Theorem C12_full_rotation : forall u v, nonzero2 u -> nonzero2 v -> (v2_rotation_lt u v = true <-> rotation_lt u v).
Proof. exact rotation_spec. Qed.
Print Assumptions C12_full_rotation.
Example C12_case : nonzero2 (V2 (-1) (-2)) /\ v2_half_rotation_lt (V2 3 1) (V2 (-1) (-2)) = true /\
  normalized (V2 (-1) (-2)) (V2 1 2) /\ v2_rotation_lt (V2 (-1) 1) (V2 (-1) (-2)) = true.
Proof. unfold nonzero2, normalized, upper, opposite; cbn. repeat split; auto; lia. Qed.

(** ** C13 *)
Theorem C13_same_dir_3d : forall a b r, v3_same_dir a b = Ok r -> (r = true <-> same_direction (l3 a) (l3 b)).
Proof. exact v3_same_dir_spec. Qed.
Print Assumptions C13_same_dir_3d.
Theorem C13_same_dir_2d : forall a b r, v2_same_dir a b = Ok r -> (r = true <-> same_direction [x2 a; y2 a] [x2 b; y2 b]).
Proof. exact v2_same_dir_spec. Qed.
Print Assumptions C13_same_dir_2d.
Theorem C13_same_dir_returns : forall a b u v, no_min (l3 a) -> no_min (l3 b) -> no_min [x2 u; y2 u] -> no_min [x2 v; y2 v] ->
  (exists r, v3_same_dir a b = Ok r) /\ (exists r, v2_same_dir u v = Ok r).
Proof. intros. split; [apply v3_same_dir_total|apply v2_same_dir_total]; assumption. Qed.
Print Assumptions C13_same_dir_returns.
Theorem C13_same_or_opposite_dir_3d : forall a b, v3_same_or_opposite_dir a b = true <-> parallel (l3 a) (l3 b).
Proof. exact v3_same_or_opposite_spec. Qed.
Print Assumptions C13_same_or_opposite_dir_3d.
Theorem C13_same_or_opposite_dir_2d : forall a b, v2_same_or_opposite_dir a b = true <-> parallel [x2 a; y2 a] [x2 b; y2 b].
Proof. exact v2_same_or_opposite_spec. Qed.
Print Assumptions C13_same_or_opposite_dir_2d.
(** For non-zero tuples [same_direction] is "positive multiple". *)
Theorem C13_same_direction_meaning : forall us vs, length us = length vs -> Exists (fun u => u <> 0) us -> Exists (fun v => v <> 0) vs ->
  (same_direction us vs <-> exists a b, 0 < a /\ 0 < b /\ List.map (Z.mul a) us = List.map (Z.mul b) vs).
Proof. exact same_direction_nonzero. Qed.
Print Assumptions C13_same_direction_meaning.
(** abs(INT64_MIN) makes the test itself undefined. *)
Theorem C13_int64_min_refuted : forall y z b, v3_same_dir (V3 (- 2 ^ 63) y z) b = UB.
Proof. reflexivity. Qed.
Print Assumptions C13_int64_min_refuted.
Example C13_case : no_min (l3 (V3 0 (-4) 6)) /\ v3_same_dir (V3 0 (-4) 6) (V3 0 (-6) 9) = Ok true /\
  v3_same_dir (V3 0 (-4) 6) (V3 0 6 (-9)) = Ok false /\ v3_same_or_opposite_dir (V3 0 (-4) 6) (V3 0 6 (-9)) = true /\
  v3_same_or_opposite_dir (V3 0 (-4) 6) (V3 1 6 (-9)) = false.
Proof. split; [unfold no_min, l3; cbn; repeat constructor; discriminate|]. repeat split. Qed.

(** ** C14 *)
Theorem C14_equality : forall a b qa qb, denotes a qa -> denotes b qb -> (hp_eq a b = true <-> qp_eq qa qb).
Proof. exact hp_eq_spec. Qed.
Print Assumptions C14_equality.
Theorem C14_equality_point3 : forall a v qa, denotes a qa -> (hp_eq_pt a v = true <-> qp_eq qa (qpt v)).
Proof. exact hp_eq_pt_spec. Qed.
Print Assumptions C14_equality_point3.
Theorem C14_equality_2d : forall a b p q, denotes2 a p -> denotes2 b q -> (hp2_eq a b = true <-> qp2_eq p q).
Proof. exact hp2_eq_spec. Qed.
Print Assumptions C14_equality_2d.
Theorem C14_compare_component : forall i a b qa qb, denotes a qa -> denotes b qb ->
  hp_compare_comp i a b = qsign (qcomp qa i - qcomp qb i).
Proof. exact hp_compare_comp_spec. Qed.
Print Assumptions C14_compare_component.
Theorem C14_less_component : forall i a b qa qb, denotes a qa -> denotes b qb ->
  (hp_lt_comp i a b = true <-> (qcomp qa i < qcomp qb i)%Q).
Proof. exact hp_lt_comp_spec. Qed.
Print Assumptions C14_less_component.
Theorem C14_equivalent_component : forall i a b qa qb, denotes a qa -> denotes b qb ->
  (hp_equiv_comp i a b = true <-> (qcomp qa i == qcomp qb i)%Q).
Proof. exact hp_equiv_comp_spec. Qed.
Print Assumptions C14_equivalent_component.
Theorem C14_lexicographic_order : forall a b qa qb, denotes a qa -> denotes b qb -> (hp_lex_lt a b = true <-> qlex_lt qa qb).
Proof. exact hp_lex_lt_spec. Qed.
Print Assumptions C14_lexicographic_order.
Theorem C14_topness_order : forall a b qa qb, denotes a qa -> denotes b qb -> (hp_topness_lt a b = true <-> qtop_lt qa qb).
Proof. exact hp_topness_lt_spec. Qed.
Print Assumptions C14_topness_order.
(** Reduce keeps the point, makes the weight positive and the components
    coprime.  It does not return when the division by -1 meets INT64_MIN. *)
Theorem C14_reduce : forall gcd p q r, gcd_ok gcd -> denotes p q -> hp_reduce gcd p = Ok r ->
  denotes r q /\ 0 < hw r /\ coprime (lp r).
Proof. exact hp_reduce_spec. Qed.
Print Assumptions C14_reduce.
Theorem C14_reduce_returns : forall gcd p, gcd_ok gcd -> 0 < hw p -> Forall (fun c => 0 <= c) [vx (hv p); vy (hv p); vz (hv p)] ->
  exists r, hp_reduce gcd p = Ok r.
Proof. exact hp_reduce_total. Qed.
Print Assumptions C14_reduce_returns.
(** The gcd of the word level model is such a gcd. *)
Theorem C14_gcd_of_code : gcd_ok zgcd.
Proof. exact zgcd_ok. Qed.
Print Assumptions C14_gcd_of_code.
Theorem C14_reduce_int64_min_refuted : forall gcd p, gcd_ok gcd -> hw p < 0 -> coprime (lp p) -> In (- 2 ^ 63) (lp p) ->
  forall r, hp_reduce gcd p <> Ok r.
Proof. exact hp_reduce_ub. Qed.
Print Assumptions C14_reduce_int64_min_refuted.
(** 2D lexicographic order: right when the weights have the same sign and
    exactly reversed when they differ. *)
Theorem C14_lexicographic_order_2d_same_sign_partial : forall a b p q, denotes2 a p -> denotes2 b q -> 0 < hw2 a * hw2 b ->
  (hp2_lex_lt a b = true <-> qlex2_lt p q).
Proof. exact hp2_lex_lt_same_sign. Qed.
Print Assumptions C14_lexicographic_order_2d_same_sign_partial.
Theorem C14_lexicographic_order_2d_refuted : forall a b p q, denotes2 a p -> denotes2 b q -> hw2 a * hw2 b < 0 ->
  (hp2_lex_lt a b = true <-> qlex2_lt q p).
Proof. exact hp2_lex_lt_opposite_sign. Qed.
Print Assumptions C14_lexicographic_order_2d_refuted.
Theorem C14_denotes_exists_unique : forall p, hw p <> 0 -> exists q, denotes p q /\ forall q', denotes p q' -> qp_eq q q'.
Proof. intros p H. destruct (denotes_exists p H) as [q Q]. exists q. split; [exact Q|]. intros q' Q'. exact (denotes_unique p q q' Q Q'). Qed.
Print Assumptions C14_denotes_exists_unique.
Example C14_case : denotes (HP (V3 (-2) 4 3) (-2)) (QP 1 (-2) (-3 # 2)) /\ denotes (HP (V3 3 (-6) 1) 3) (QP 1 (-2) (1 # 3)) /\
  hp_eq (HP (V3 (-2) 4 3) (-2)) (HP (V3 2 (-4) (-3)) 2) = true /\ hp_lex_lt (HP (V3 (-2) 4 3) (-2)) (HP (V3 3 (-6) 1) 3) = true /\
  hp_topness_lt (HP (V3 (-2) 4 3) (-2)) (HP (V3 3 (-6) 1) 3) = true /\
  hp2_lex_lt (HP2 (V2 (-1) 0) (-1)) (HP2 (V2 2 0) 1) = false /\
  hp_reduce zgcd (HP (V3 (-6) 9 12) (-3)) = Ok (HP (V3 2 (-3) (-4)) 1).
Proof. unfold denotes; cbn. repeat split; try discriminate; reflexivity. Qed.

(** ** C15 *)
Theorem C15_point2_twist : forall c p1 p3, Z.sgn (p2_twist c p1 p3) = qsign (turn (qpt2 c) (qpt2 p1) (qpt2 p3)).
Proof. exact p2_twist_spec. Qed.
Print Assumptions C15_point2_twist.
Theorem C15_point3_twist : forall d c p1 p3, (d < 3)%nat ->
  Z.sgn (p3_twist d c p1 p3) = qsign (turn (qdrop d (qpt c)) (qdrop d (qpt p1)) (qdrop d (qpt p3))).
Proof. exact p3_twist_spec. Qed.
Print Assumptions C15_point3_twist.
Theorem C15_reduced_twist : forall t, reduce_sign t = Z.sgn t.
Proof. exact reduce_sign_spec. Qed.
Print Assumptions C15_reduced_twist.
(** Homogeneous points: right when the weights of p1 and p3 have the same
    sign. *)
Theorem C15_homo_twist_partial : forall d c p1 p3 qc q1 q3, (d < 3)%nat -> denotes c qc -> denotes p1 q1 -> denotes p3 q3 ->
  0 < hw p1 * hw p3 -> Z.sgn (hp_twist d c p1 p3) = qsign (turn (qdrop d qc) (qdrop d q1) (qdrop d q3)).
Proof. exact hp_twist_spec. Qed.
Print Assumptions C15_homo_twist_partial.
(** When they differ, every collinear triple is reported as a turn; the
    result is negative exactly when the true turn is not positive. *)
Theorem C15_homo_twist_refuted : forall d c p1 p3 qc q1 q3, (d < 3)%nat -> denotes c qc -> denotes p1 q1 -> denotes p3 q3 ->
  hw p1 * hw p3 < 0 ->
  (hp_twist d c p1 p3 < 0 <-> (turn (qdrop d qc) (qdrop d q1) (qdrop d q3) <= 0)%Q) /\
  ((turn (qdrop d qc) (qdrop d q1) (qdrop d q3) == 0)%Q -> hp_twist d c p1 p3 = -1).
Proof. exact hp_twist_opposite. Qed.
Print Assumptions C15_homo_twist_refuted.
(** A left turn reported as straight: p1 = (1,0,0), p3 = (0,1,0) around the
    origin, p3 written with weight -1. *)
Theorem C15_homo_twist_zero_refuted : denotes (HP (V3 1 0 0) 1) (QP 1 0 0) /\ denotes (HP (V3 0 (-1) 0) (-1)) (QP 0 1 0) /\
  denotes (HP (V3 0 0 0) 1) (QP 0 0 0) /\ (turn (QP2 0 0) (QP2 1 0) (QP2 0 1) == 1)%Q /\
  hp_twist 2 (HP (V3 0 0 0) 1) (HP (V3 1 0 0) 1) (HP (V3 0 (-1) 0) (-1)) = 0.
Proof. unfold denotes; cbn. repeat split; try discriminate; reflexivity. Qed.
Print Assumptions C15_homo_twist_zero_refuted.
Example C15_case : denotes (HP (V3 0 0 5) (-5)) (QP 0 0 (-1)) /\ denotes (HP (V3 (-3) 0 1) (-3)) (QP 1 0 (-1 # 3)) /\
  denotes (HP (V3 0 (-2) 0) (-2)) (QP 0 1 0) /\ 0 < -3 * -2 /\
  Z.sgn (hp_twist 2 (HP (V3 0 0 5) (-5)) (HP (V3 (-3) 0 1) (-3)) (HP (V3 0 (-2) 0) (-2))) = 1.
Proof. unfold denotes; cbn. repeat split; try discriminate; reflexivity. Qed.
