(** Proofs about GeoModel: half-spaces. *)
From Coq Require Import ZArith QArith Qfield List Bool Lia Lqa ZifyBool.
From Verif Require Import BigUIntModel GeoModel GeoSpec GeoProofs GeoDirProofs GeoAngleProofs.
Import ListNotations.
Open Scope Z_scope.

(** ** Sides *)
Lemma hs_compare_spec h v q : denotes v q -> hs_compare h v = qsign (side h q).
Proof.
  intros (Hw & Hx & Hy & Hz). unfold hs_compare. rewrite zcompare_sgn, zabs_mult_sgn by exact Hw.
  rewrite (sgn_of_q _ (hw v) (side h q)).
  - destruct (sgn_pm _ Hw) as [-> | ->]; ring.
  - unfold v3_dot, side, qdot, qpt; cbn [qx qy qz]. qpush. rewrite Hx, Hy, Hz. ring.
Qed.
Lemma hs_compare_pt_spec h v : hs_compare_pt h v = qsign (side h (qpt v)).
Proof.
  unfold hs_compare_pt. rewrite zcompare_sgn. rewrite (sgn_of_q _ 1 (side h (qpt v))); [cbn; lia|].
  unfold v3_dot, side, qdot, qpt; cbn [qx qy qz]. qpush. change (inject_Z 1) with 1%Q. ring.
Qed.
Lemma hs2_compare_spec h v q : denotes2 v q -> hs2_compare h v = qsign (side2 h q).
Proof.
  intros (Hw & Hx & Hy). unfold hs2_compare. rewrite zcompare_sgn, zabs_mult_sgn by exact Hw.
  rewrite (sgn_of_q _ (hw2 v) (side2 h q)).
  - destruct (sgn_pm _ Hw) as [-> | ->]; ring.
  - unfold v2_dot, side2. qpush. rewrite Hx, Hy. ring.
Qed.
Lemma hs2_compare_pt_spec h v : hs2_compare_pt h v = qsign (side2 h (qpt2 v)).
Proof.
  unfold hs2_compare_pt. rewrite zcompare_sgn. rewrite (sgn_of_q _ 1 (side2 h (qpt2 v))); [cbn; lia|].
  unfold v2_dot, side2, qpt2; cbn [qx2 qy2]. qpush. change (inject_Z 1) with 1%Q. ring.
Qed.
Lemma qsign_scale_pos r s (k : Q) : (0 < k)%Q -> (r == s * k)%Q -> qsign r = qsign s.
Proof. intros Hk E. rewrite (qsign_comp _ _ E), qsign_mult. apply qsign_pos in Hk. rewrite Hk. ring. Qed.
Lemma inject_Z_pos z : 0 < z -> (0 < inject_Z z)%Q.
Proof. intros H. unfold Qlt; cbn. lia. Qed.

(** ** Construction from points *)
Lemma hs_of_points_side p1 p2 p3 v :
  (side (hs_of_points p1 p2 p3) v == side_of_triangle (qpt p1) (qpt p2) (qpt p3) v)%Q.
Proof.
  unfold side, hs_of_points, side_of_triangle, qdot, qcross, qsub, qpt, v3_cross, v3_sub, v3_dot.
  cbn [hn hd vx vy vz qx qy qz]. qpush. ring.
Qed.
Lemma hs_of_hpoints_total p1 p2 p3 : hw p2 <> - 2 ^ 63 -> exists h, hs_of_hpoints p1 p2 p3 = Ok h.
Proof. intros H. unfold hs_of_hpoints. rewrite zabs_ok by exact H. eexists; reflexivity. Qed.
Lemma hs_of_hpoints_side p1 p2 p3 q1 q2 q3 h : denotes p1 q1 -> denotes p2 q2 -> denotes p3 q3 ->
  hs_of_hpoints p1 p2 p3 = Ok h ->
  let k := inject_Z (Z.abs (hw p1 * hw p3) * (hw p2 * hw p2) * Z.abs (hw p2)) in
  (0 < k)%Q /\ (forall v, (side h v == side_of_triangle q1 q2 q3 v * k)%Q) /\
  qp_eq (qpt (hn h)) (qscale k (qcross (qsub q2 q1) (qsub q3 q1))).
Proof.
  intros (W1 & X1 & Y1 & Z1) (W2 & X2 & Y2 & Z2) (W3 & X3 & Y3 & Z3) H k.
  assert (Hk : (0 < k)%Q). { apply inject_Z_pos. assert (0 < Z.abs (hw p1 * hw p3)) by nia. assert (0 < hw p2 * hw p2) by nia. apply Z.mul_pos_pos; [apply Z.mul_pos_pos; assumption|lia]. }
  split; [exact Hk|].
  unfold hs_of_hpoints in H. destruct (zabs (hw p2)) as [a| | |] eqn:A; try discriminate H. cbn [rbind] in H.
  apply zabs_inv in A. subst a. injection H as <-.
  assert (F : (k == inject_Z (Z.sgn (hw p1)) * inject_Z (Z.sgn (hw p3)) * inject_Z (hw p1) * inject_Z (hw p3) *
       (inject_Z (hw p2) * inject_Z (hw p2)) * (inject_Z (Z.sgn (hw p2)) * inject_Z (hw p2)))%Q).
  { unfold k. qpush. rewrite !inject_Z_abs. rewrite Z.sgn_mul. qpush. ring. }
  split.
  - intros v. rewrite F. unfold side, side_of_triangle, qdot, qcross, qsub, qpt, v3_scale, v3_cross, v3_sub, v3_dot.
    cbn [hn hd vx vy vz qx qy qz]. rewrite zabs_mult_sgn, zabs_mult2_sgn by assumption. qpush. rewrite !inject_Z_abs.
    rewrite X1, Y1, Z1, X2, Y2, Z2, X3, Y3, Z3. ring.
  - unfold qp_eq, qscale, qcross, qsub, qpt, v3_scale, v3_cross, v3_sub. cbn [hn vx vy vz qx qy qz].
    rewrite zabs_mult2_sgn by assumption. qpush. rewrite !inject_Z_abs. rewrite F.
    rewrite X1, Y1, Z1, X2, Y2, Z2, X3, Y3, Z3. repeat split; ring.
Qed.
(** Cross product zero <-> one vector is a multiple of the other. *)
Lemma qcross_zero u e : ~ qp_eq e (QP 0 0 0) -> qp_eq (qcross u e) (QP 0 0 0) -> exists t, qp_eq u (qscale t e).
Proof.
  unfold qp_eq, qcross, qscale; cbn [qx qy qz]. intros He (A & B & C).
  destruct (Qeq_dec (qx e) 0) as [Ex|Ex]; [destruct (Qeq_dec (qy e) 0) as [Ey|Ey]; [destruct (Qeq_dec (qz e) 0) as [Ez|Ez]|]|].
  - exfalso. apply He. auto.
  - exists (qz u / qz e)%Q. rewrite Ex, Ey in *. repeat split; try (field; assumption).
    + assert (Y : (qx u * qz e == 0)%Q) by lra. apply Qmult_integral in Y. destruct Y as [Y|Y]; [rewrite Y; field; assumption|contradiction].
    + assert (Y : (qy u * qz e == 0)%Q) by lra. apply Qmult_integral in Y. destruct Y as [Y|Y]; [rewrite Y; field; assumption|contradiction].
  - exists (qy u / qy e)%Q. repeat split; try (field; assumption).
    + apply (Qmult_inj_r _ _ (qy e) Ey). transitivity (qy u * qx e)%Q; [lra|field; exact Ey].
    + apply (Qmult_inj_r _ _ (qy e) Ey). transitivity (qy u * qz e)%Q; [lra|field; exact Ey].
  - exists (qx u / qx e)%Q. repeat split; try (field; assumption).
    + apply (Qmult_inj_r _ _ (qx e) Ex). transitivity (qx u * qy e)%Q; [lra|field; exact Ex].
    + apply (Qmult_inj_r _ _ (qx e) Ex). transitivity (qx u * qz e)%Q; [lra|field; exact Ex].
Qed.
Lemma qp_eq_dec a b : {qp_eq a b} + {~ qp_eq a b}.
Proof.
  unfold qp_eq. destruct (Qeq_dec (qx a) (qx b)); [|right; tauto]. destruct (Qeq_dec (qy a) (qy b)); [|right; tauto].
  destruct (Qeq_dec (qz a) (qz b)); [left; tauto|right; tauto].
Qed.
Lemma collinear_cross a b c : collinear a b c <-> qp_eq (qcross (qsub b a) (qsub c a)) (QP 0 0 0).
Proof.
  split.
  - intros (o & d & s & t & u & (A1 & A2 & A3) & (B1 & B2 & B3) & (C1 & C2 & C3)).
    unfold qp_eq, qcross, qsub in *; unfold qadd, qscale in *; cbn [qx qy qz] in *.
    rewrite A1, A2, A3, B1, B2, B3, C1, C2, C3. repeat split; ring.
  - intros H. destruct (qp_eq_dec (qsub c a) (QP 0 0 0)) as [E|E].
    + exists a, (qsub b a), 0%Q, 1%Q, 0%Q. unfold qp_eq, qsub, qadd, qscale in *; cbn [qx qy qz] in *. repeat split; try ring; lra.
    + destruct (qcross_zero (qsub b a) (qsub c a) E H) as [t T].
      exists a, (qsub c a), 0%Q, t, 1%Q. unfold qp_eq, qsub, qadd, qscale in *; cbn [qx qy qz] in *. repeat split; try ring; lra.
Qed.
Lemma hs_valid_false h : hs_valid h = false <-> qp_eq (qpt (hn h)) (QP 0 0 0).
Proof.
  unfold hs_valid, v3_is_zero, qp_eq, qpt. cbn [qx qy qz]. rewrite negb_false_iff, !andb_true_iff, !Z.eqb_eq.
  unfold Qeq; cbn. lia.
Qed.
Lemma hs_of_hpoints_valid p1 p2 p3 q1 q2 q3 h : denotes p1 q1 -> denotes p2 q2 -> denotes p3 q3 ->
  hs_of_hpoints p1 p2 p3 = Ok h -> (hs_valid h = true <-> ~ collinear q1 q2 q3).
Proof.
  intros H1 H2 H3 H. destruct (hs_of_hpoints_side p1 p2 p3 q1 q2 q3 h H1 H2 H3 H) as (Hk & _ & N).
  rewrite collinear_cross. set (k := inject_Z _) in *. clearbody k.
  assert (Hk0 : ~ (k == 0)%Q) by lra.
  rewrite <- not_false_iff_true, hs_valid_false. apply not_iff_compat.
  destruct N as (N1 & N2 & N3). unfold qp_eq in *. unfold qscale in *; cbn [qx qy qz] in *. rewrite N1, N2, N3. split.
  - intros (A & B & C). repeat split; (apply Qmult_integral in A; apply Qmult_integral in B; apply Qmult_integral in C); tauto.
  - intros (A & B & C). rewrite A, B, C. repeat split; ring.
Qed.
Lemma hs_of_points_valid p1 p2 p3 : hs_valid (hs_of_points p1 p2 p3) = true <-> ~ collinear (qpt p1) (qpt p2) (qpt p3).
Proof.
  rewrite collinear_cross, <- not_false_iff_true, hs_valid_false. apply not_iff_compat.
  unfold hs_of_points, qp_eq, qpt, qcross, qsub, v3_cross, v3_sub; cbn [hn vx vy vz qx qy qz]. qpush.
  split; intros (A & B & C); repeat split; lra.
Qed.
Lemma hs_of_points_side_sign p1 p2 p3 v : 
  hs_compare_pt (hs_of_points p1 p2 p3) v = qsign (side_of_triangle (qpt p1) (qpt p2) (qpt p3) (qpt v)).
Proof. rewrite hs_compare_pt_spec. apply qsign_comp, hs_of_points_side. Qed.
Lemma hs_of_hpoints_side_sign p1 p2 p3 q1 q2 q3 h v qv : denotes p1 q1 -> denotes p2 q2 -> denotes p3 q3 -> denotes v qv ->
  hs_of_hpoints p1 p2 p3 = Ok h -> hs_compare h v = qsign (side_of_triangle q1 q2 q3 qv).
Proof.
  intros H1 H2 H3 Hv H. rewrite (hs_compare_spec h v qv Hv).
  destruct (hs_of_hpoints_side p1 p2 p3 q1 q2 q3 h H1 H2 H3 H) as (Hk & S & _).
  apply (qsign_scale_pos _ _ _ Hk). apply S.
Qed.
(** Plane from normal and point. *)
Lemma hs_of_normal_point_side n p q v : denotes p q ->
  (side (hs_of_normal_point n p) v == qdot (qpt n) (qsub v q) * inject_Z (Z.abs (hw p)))%Q.
Proof.
  intros (W & X & Y & Z). unfold side, hs_of_normal_point, qdot, qsub, qpt, v3_scale, v3_dot. cbn [hn hd vx vy vz qx qy qz].
  assert (E : (if hw p <? 0 then - (vx n * vx (hv p) + vy n * vy (hv p) + vz n * vz (hv p)) else vx n * vx (hv p) + vy n * vy (hv p) + vz n * vz (hv p))
     = Z.sgn (hw p) * (vx n * vx (hv p) + vy n * vy (hv p) + vz n * vz (hv p))).
  { destruct (hw p <? 0) eqn:S; [rewrite (Z.sgn_neg (hw p)) by lia|rewrite (Z.sgn_pos (hw p)) by lia]; ring. }
  rewrite E. qpush. rewrite !inject_Z_abs, X, Y, Z. ring.
Qed.
Lemma hs_of_normal_point_sign n p q v qv : denotes p q -> denotes v qv ->
  hs_compare (hs_of_normal_point n p) v = qsign (qdot (qpt n) (qsub qv q)).
Proof.
  intros H Hv. rewrite (hs_compare_spec _ v qv Hv). apply (qsign_scale_pos _ _ (inject_Z (Z.abs (hw p)))).
  - apply inject_Z_pos. destruct H as [H _]. lia.
  - apply hs_of_normal_point_side. exact H.
Qed.
(** Extruded and axis aligned planes. *)
Lemma hs_extrude_sign h d v q : (d < 3)%nat -> denotes v q -> hs_compare (hs_extrude h d) v = qsign (side2 h (qdrop d q)).
Proof.
  intros Hd Hv. rewrite (hs_compare_spec _ v q Hv). apply qsign_comp. unfold side, side2, hs_extrude, qdot, qpt.
  destruct d as [|[|[|d]]]; [| | |lia]; cbn [hn hd Nat.add Nat.modulo Nat.divmod Nat.sub fst snd set_comp vx vy vz qx qy qz qdrop qx2 qy2]; change (inject_Z 0) with 0%Q; ring.
Qed.
Lemma hs_axis_aligned_sign d num den v q : (d < 3)%nat -> den <> 0 -> denotes v q ->
  hs_compare (hs_axis_aligned d num den) v = qsign (qcomp q d - inject_Z num / inject_Z den) * Z.sgn den.
Proof.
  intros Hd Hn Hv. rewrite (hs_compare_spec _ v q Hv), <- (qsign_inject den), <- qsign_mult. apply qsign_comp.
  pose proof (inject_Z_neq0 _ Hn). unfold side, hs_axis_aligned, qdot, qpt.
  destruct d as [|[|[|d]]]; [| | |lia]; cbn [hn hd set_comp vx vy vz qx qy qz qcomp]; change (inject_Z 0) with 0%Q; field; assumption.
Qed.
(** Projection onto the plane. *)
Lemma hs_project_onto_spec h p d q : (d < 3)%nat -> comp (hn h) d <> 0 -> denotes2 p q ->
  exists r, denotes (hs_project_onto h p d) r /\ (side h r == 0)%Q /\ qp2_eq (qdrop d r) q.
Proof.
  intros Hd Hc (W & X & Y).
  assert (HW : hw (hs_project_onto h p d) <> 0) by (unfold hs_project_onto; cbn [hw]; nia).
  destruct (denotes_exists _ HW) as [r Hr]. exists r. split; [exact Hr|].
  pose proof (inject_Z_neq0 _ Hc) as Hc'. pose proof (inject_Z_neq0 _ W) as W'. pose proof (inject_Z_neq0 _ HW) as HW'.
  destruct Hr as (_ & Rx & Ry & Rz). unfold hs_project_onto in *. 
  destruct d as [|[|[|d]]]; [| | |lia]; cbn [hv hw set_comp comp_after_drop comp Nat.add Nat.modulo Nat.divmod Nat.sub fst snd vx vy vz x2 y2] in *;
  qpush_in Rx; qpush_in Ry; qpush_in Rz; qpush_in HW'; repeat first [rewrite X in Rx|rewrite Y in Rx]; repeat first [rewrite X in Ry|rewrite Y in Ry]; repeat first [rewrite X in Rz|rewrite Y in Rz];
  unfold side, qp2_eq, qdot, qpt; cbn [qx qy qz qdrop qx2 qy2].
  - assert (E1 : (qy r == qx2 q)%Q). { apply (Qmult_inj_r _ _ (inject_Z (hw2 p) * inject_Z (vx (hn h)))); [exact HW'|]. rewrite <- Ry. ring. }
    assert (E2 : (qz r == qy2 q)%Q). { apply (Qmult_inj_r _ _ (inject_Z (hw2 p) * inject_Z (vx (hn h)))); [exact HW'|]. rewrite <- Rz. ring. }
    split; [|split; assumption]. rewrite E1, E2. apply (Qmult_inj_r _ _ (inject_Z (hw2 p)) W').
    transitivity (qx r * (inject_Z (hw2 p) * inject_Z (vx (hn h))) + (inject_Z (vy (hn h)) * qx2 q + inject_Z (vz (hn h)) * qy2 q - inject_Z (hd h)) * inject_Z (hw2 p))%Q; [ring|].
    rewrite <- Rx. ring.
  - assert (E1 : (qz r == qx2 q)%Q). { apply (Qmult_inj_r _ _ (inject_Z (hw2 p) * inject_Z (vy (hn h)))); [exact HW'|]. rewrite <- Rz. ring. }
    assert (E2 : (qx r == qy2 q)%Q). { apply (Qmult_inj_r _ _ (inject_Z (hw2 p) * inject_Z (vy (hn h)))); [exact HW'|]. rewrite <- Rx. ring. }
    split; [|split; assumption]. rewrite E1, E2. apply (Qmult_inj_r _ _ (inject_Z (hw2 p)) W').
    transitivity (qy r * (inject_Z (hw2 p) * inject_Z (vy (hn h))) + (inject_Z (vx (hn h)) * qy2 q + inject_Z (vz (hn h)) * qx2 q - inject_Z (hd h)) * inject_Z (hw2 p))%Q; [ring|].
    rewrite <- Ry. ring.
  - assert (E1 : (qx r == qx2 q)%Q). { apply (Qmult_inj_r _ _ (inject_Z (hw2 p) * inject_Z (vz (hn h)))); [exact HW'|]. rewrite <- Rx. ring. }
    assert (E2 : (qy r == qy2 q)%Q). { apply (Qmult_inj_r _ _ (inject_Z (hw2 p) * inject_Z (vz (hn h)))); [exact HW'|]. rewrite <- Ry. ring. }
    split; [|split; assumption]. rewrite E1, E2. apply (Qmult_inj_r _ _ (inject_Z (hw2 p)) W').
    transitivity (qz r * (inject_Z (hw2 p) * inject_Z (vz (hn h))) + (inject_Z (vx (hn h)) * qx2 q + inject_Z (vy (hn h)) * qy2 q - inject_Z (hd h)) * inject_Z (hw2 p))%Q; [ring|].
    rewrite <- Rz. ring.
Qed.
