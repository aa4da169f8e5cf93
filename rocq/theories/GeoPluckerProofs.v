(** Proofs about GeoModel: Pluecker lines and Reduce. *)
From Coq Require Import ZArith QArith Qfield List Bool Lia Lqa ZifyBool Znumtheory.
From Verif Require Import BigUIntModel GeoModel GeoSpec GeoProofs GeoDirProofs GeoAngleProofs GeoPlaneProofs.
Import ListNotations.
Open Scope Z_scope.

Lemma v3_eq_true a b : v3_eq a b = true <-> vx a = vx b /\ vy a = vy b /\ vz a = vz b.
Proof. unfold v3_eq. rewrite !andb_true_iff, !Z.eqb_eq. tauto. Qed.
Lemma inject_eq a b : (inject_Z a == inject_Z b)%Q <-> a = b.
Proof. unfold Qeq; cbn. lia. Qed.
Lemma q_eq_scaled (e f : Z) (r s : Q) k : k <> 0 -> (inject_Z e == r * inject_Z k)%Q -> (inject_Z f == s * inject_Z k)%Q -> (e = f <-> (r == s)%Q).
Proof.
  intros Hk E F. pose proof (inject_Z_neq0 _ Hk). rewrite <- inject_eq, E, F. split.
  - intros X. apply (Qmult_inj_r _ _ (inject_Z k)); assumption.
  - intros ->. reflexivity.
Qed.
Lemma pl_coincident_spec l p q : denotes p q -> (pl_coincident l p = true <-> line_points l q).
Proof.
  intros (W & X & Y & Z). unfold pl_coincident, line_points. rewrite v3_eq_true. unfold qp_eq, qcross, qpt, v3_cross, v3_scale; cbn [vx vy vz qx qy qz].
  rewrite (q_eq_scaled _ _ (qy q * inject_Z (vz (ld l)) - qz q * inject_Z (vy (ld l))) (inject_Z (vx (lm l))) (hw p) W);
    [|qpush; rewrite Y, Z; ring|qpush; ring].
  rewrite (q_eq_scaled _ _ (qz q * inject_Z (vx (ld l)) - qx q * inject_Z (vz (ld l))) (inject_Z (vy (lm l))) (hw p) W);
    [|qpush; rewrite X, Z; ring|qpush; ring].
  rewrite (q_eq_scaled _ _ (qx q * inject_Z (vy (ld l)) - qy q * inject_Z (vx (ld l))) (inject_Z (vz (lm l))) (hw p) W);
    [|qpush; rewrite X, Y; ring|qpush; ring].
  reflexivity.
Qed.
Lemma pl_coincident_pt_spec l p : pl_coincident_pt l p = true <-> line_points l (qpt p).
Proof.
  unfold pl_coincident_pt, line_points. rewrite v3_eq_true. unfold qp_eq, qcross, qpt, v3_cross; cbn [vx vy vz qx qy qz].
  rewrite <- !inject_eq. qpush. reflexivity.
Qed.
Lemma pl_valid_true l : pl_valid l = true <-> ~ qp_eq (qpt (ld l)) (QP 0 0 0).
Proof.
  unfold pl_valid, v3_is_zero, qp_eq, qpt; cbn [qx qy qz]. rewrite negb_true_iff, <- not_true_iff_false, !andb_true_iff, !Z.eqb_eq.
  apply not_iff_compat. unfold Qeq; cbn. lia.
Qed.
(** A point o of the line determines the others: o + t d. *)
Lemma line_points_param l o : pl_valid l = true -> line_points l o ->
  forall v, line_points l v <-> exists t, qp_eq v (qadd o (qscale t (qpt (ld l)))).
Proof.
  rewrite pl_valid_true. unfold line_points. intros V (O1 & O2 & O3) v. split.
  - intros (V1 & V2 & V3). destruct (qcross_zero (qsub v o) (qpt (ld l)) V) as [t (T1 & T2 & T3)].
    + unfold qp_eq, qcross, qsub, qpt in *; cbn [qx qy qz] in *. repeat split; lra.
    + exists t. unfold qp_eq, qadd, qscale, qsub, qpt in *; cbn [qx qy qz] in *. repeat split; lra.
  - intros [t (T1 & T2 & T3)]. unfold qp_eq, qcross, qadd, qscale, qpt in *; cbn [qx qy qz] in *.
    rewrite T1, T2, T3, <- O1, <- O2, <- O3. repeat split; ring.
Qed.
(** Every direction/moment pair with d.m = 0 and d <> 0 has a point. *)
Lemma qnorm_pos (a b c : Q) : ~ (a == 0 /\ b == 0 /\ c == 0)%Q -> (0 < a * a + b * b + c * c)%Q.
Proof.
  intros H. assert (Pa : (0 <= a * a)%Q) by nra. assert (Pb : (0 <= b * b)%Q) by nra. assert (Pc : (0 <= c * c)%Q) by nra.
  destruct (Qlt_le_dec 0 (a * a + b * b + c * c)) as [L|L]; [exact L|]. exfalso. apply H.
  assert (Z1 : (a * a == 0)%Q) by lra. assert (Z2 : (b * b == 0)%Q) by lra. assert (Z3 : (c * c == 0)%Q) by lra.
  apply Qmult_integral in Z1, Z2, Z3. tauto.
Qed.
Lemma line_wf_point l : line_wf l -> exists o, line_points l o.
Proof.
  intros [V D]. rewrite pl_valid_true in V. unfold qp_eq in V. apply qnorm_pos in V. unfold qpt in V; cbn [qx qy qz] in V.
  destruct l as [[a b c] [p q r]]; unfold v3_dot in D; cbn [ld lm vx vy vz] in *.
  apply (f_equal inject_Z) in D. qpush_in D. change (inject_Z 0) with 0%Q in D.
  set (n := (inject_Z a * inject_Z a + inject_Z b * inject_Z b + inject_Z c * inject_Z c)%Q) in *.
  exists (qscale (/ n) (qcross (QP (inject_Z a) (inject_Z b) (inject_Z c)) (QP (inject_Z p) (inject_Z q) (inject_Z r)))).
  unfold line_points, qp_eq, qcross, qscale, qpt; cbn [ld lm vx vy vz qx qy qz].
  generalize dependent (inject_Z a); generalize dependent (inject_Z b); generalize dependent (inject_Z c);
  generalize dependent (inject_Z p); generalize dependent (inject_Z q); generalize dependent (inject_Z r). clear. intros r q p c b a n V D.
  assert (Hn : ~ (n == 0)%Q) by lra. assert (E : (n == a * a + b * b + c * c)%Q) by reflexivity. clearbody n.
  assert (DD : (a * p + b * q + c * r == 0)%Q) by (rewrite D; reflexivity). clear D.
  repeat split; (apply (Qmult_inj_r _ _ n Hn)).
  - transitivity ((a * a + b * b + c * c) * p - a * (a * p + b * q + c * r))%Q; [field; exact Hn|]. rewrite DD, E. ring.
  - transitivity ((a * a + b * b + c * c) * q - b * (a * p + b * q + c * r))%Q; [field; exact Hn|]. rewrite DD, E. ring.
  - transitivity ((a * a + b * b + c * c) * r - c * (a * p + b * q + c * r))%Q; [field; exact Hn|]. rewrite DD, E. ring.
Qed.

(** ** Line through two points *)
Lemma pl_of_hpoints_repr p1 p2 q1 q2 : denotes p1 q1 -> denotes p2 q2 ->
  let k := inject_Z (hw p1 * hw p1 * (hw p2 * hw p2) * 1) in
  exists k, (0 < k)%Q /\ qp_eq (qpt (ld (pl_of_hpoints p1 p2))) (qscale k (qsub q2 q1)) /\ line_points (pl_of_hpoints p1 p2) q1.
Proof.
  intros (W1 & X1 & Y1 & Z1) (W2 & X2 & Y2 & Z2) _.
  exists (inject_Z (Z.abs (hw p1) * Z.abs (hw p2))). split; [apply inject_Z_pos; nia|].
  unfold pl_of_hpoints, line_points, qp_eq, qscale, qcross, qsub, qpt, v3_scale, v3_sub, v3_cross; cbn [ld lm vx vy vz qx qy qz].
  rewrite zabs_mult2_sgn by assumption. qpush. rewrite !inject_Z_abs, X1, Y1, Z1, X2, Y2, Z2. repeat split; ring.
Qed.
Lemma qp_scale_zero k e : (0 < k)%Q -> (qp_eq (qscale k e) (QP 0 0 0) <-> qp_eq e (QP 0 0 0)).
Proof.
  intros Hk. unfold qp_eq, qscale; cbn [qx qy qz]. assert (K : ~ (k == 0)%Q) by lra. split; intros (A & B & C).
  - apply Qmult_integral in A, B, C. tauto.
  - rewrite A, B, C. repeat split; ring.
Qed.
Lemma qsub_zero a b : qp_eq (qsub b a) (QP 0 0 0) <-> qp_eq a b.
Proof. unfold qp_eq, qsub; cbn [qx qy qz]. split; intros (A & B & C); repeat split; lra. Qed.
Lemma qp_eq_trans a b c : qp_eq a b -> qp_eq b c -> qp_eq a c.
Proof. unfold qp_eq. intros (A & B & C) (D & E & F). repeat split; etransitivity; eassumption. Qed.
Lemma qp_eq_sym a b : qp_eq a b -> qp_eq b a.
Proof. unfold qp_eq. intros (A & B & C). repeat split; symmetry; assumption. Qed.
Lemma pl_of_hpoints_valid p1 p2 q1 q2 : denotes p1 q1 -> denotes p2 q2 ->
  (pl_valid (pl_of_hpoints p1 p2) = true <-> ~ qp_eq q1 q2).
Proof.
  intros H1 H2. destruct (pl_of_hpoints_repr p1 p2 q1 q2 H1 H2) as (k & Hk & D & _).
  rewrite pl_valid_true. apply not_iff_compat. rewrite <- (qsub_zero q1 q2), <- (qp_scale_zero k (qsub q2 q1)) by exact Hk.
  split; intros X; [apply (qp_eq_trans _ (qpt (ld (pl_of_hpoints p1 p2)))); [apply qp_eq_sym|]; assumption|eapply qp_eq_trans; eassumption].
Qed.
Lemma on_line_repr l q1 q2 k : (0 < k)%Q -> qp_eq (qpt (ld l)) (qscale k (qsub q2 q1)) -> line_points l q1 -> pl_valid l = true ->
  forall v, line_points l v <-> on_line q1 q2 v.
Proof.
  intros Hk (D1 & D2 & D3) O V v. rewrite (line_points_param l q1 V O v). unfold on_line, qp_eq, qadd, qscale, qsub, qpt in *; cbn [qx qy qz] in *.
  assert (K : ~ (k == 0)%Q) by lra. split.
  - intros [t (T1 & T2 & T3)]. exists (t * k)%Q. rewrite T1, T2, T3, D1, D2, D3. repeat split; ring.
  - intros [t (T1 & T2 & T3)]. exists (t / k)%Q. rewrite T1, T2, T3, D1, D2, D3. repeat split; field; exact K.
Qed.
Lemma pl_of_hpoints_coincident p1 p2 q1 q2 p q : denotes p1 q1 -> denotes p2 q2 -> ~ qp_eq q1 q2 -> denotes p q ->
  (pl_coincident (pl_of_hpoints p1 p2) p = true <-> on_line q1 q2 q).
Proof.
  intros H1 H2 N H. rewrite (pl_coincident_spec _ _ q H).
  destruct (pl_of_hpoints_repr p1 p2 q1 q2 H1 H2) as (k & Hk & D & O).
  apply (on_line_repr _ q1 q2 k Hk D O). apply (pl_of_hpoints_valid p1 p2 q1 q2); assumption.
Qed.
Lemma pl_of_points_repr p1 p2 : qp_eq (qpt (ld (pl_of_points p1 p2))) (qscale 1 (qsub (qpt p2) (qpt p1))) /\ line_points (pl_of_points p1 p2) (qpt p1).
Proof.
  unfold pl_of_points, line_points, qp_eq, qscale, qcross, qsub, qpt, v3_sub, v3_cross; cbn [ld lm vx vy vz qx qy qz]. qpush. repeat split; ring.
Qed.
Lemma pl_of_points_valid p1 p2 : pl_valid (pl_of_points p1 p2) = true <-> ~ qp_eq (qpt p1) (qpt p2).
Proof.
  rewrite pl_valid_true. apply not_iff_compat. unfold pl_of_points, qp_eq, qpt, v3_sub; cbn [ld vx vy vz qx qy qz]. unfold Qeq; cbn. lia.
Qed.
Lemma pl_of_points_coincident p1 p2 p : ~ qp_eq (qpt p1) (qpt p2) ->
  (pl_coincident_pt (pl_of_points p1 p2) p = true <-> on_line (qpt p1) (qpt p2) (qpt p)).
Proof.
  intros N. rewrite pl_coincident_pt_spec. destruct (pl_of_points_repr p1 p2) as [D O].
  apply (on_line_repr _ _ _ 1%Q eq_refl D O). apply pl_of_points_valid. exact N.
Qed.
Lemma pl_of_hpoints_wf p1 p2 q1 q2 : denotes p1 q1 -> denotes p2 q2 -> ~ qp_eq q1 q2 -> line_wf (pl_of_hpoints p1 p2).
Proof.
  intros H1 H2 N. split; [apply (pl_of_hpoints_valid p1 p2 q1 q2); assumption|].
  unfold pl_of_hpoints, v3_dot, v3_scale, v3_sub, v3_cross; cbn [ld lm vx vy vz]. ring.
Qed.
Lemma pl_of_points_wf p1 p2 : ~ qp_eq (qpt p1) (qpt p2) -> line_wf (pl_of_points p1 p2).
Proof.
  intros N. split; [apply pl_of_points_valid; exact N|].
  unfold pl_of_points, v3_dot, v3_sub, v3_cross; cbn [ld lm vx vy vz]. ring.
Qed.

(** ** Line shared by two planes *)
Lemma pl_of_planes_wf a b : pl_valid (pl_of_planes a b) = true -> line_wf (pl_of_planes a b).
Proof. intros V. split; [exact V|]. unfold pl_of_planes, v3_dot, v3_cross, zdet; cbn [ld lm vx vy vz]. ring. Qed.
Lemma pl_of_planes_valid a b : hs_valid a = true -> hs_valid b = true ->
  (pl_valid (pl_of_planes a b) = true <-> ~ parallel (l3 (hn a)) (l3 (hn b))).
Proof.
  intros Va Vb. unfold pl_valid. rewrite negb_true_iff, <- not_true_iff_false. apply not_iff_compat.
  unfold v3_is_zero, pl_of_planes, v3_cross; cbn [ld vx vy vz]. rewrite !andb_true_iff, !Z.eqb_eq.
  unfold hs_valid, v3_is_zero in Va, Vb. destruct a as [[ax ay az] ad], b as [[bx by_ bz] bd]; unfold l3; cbn [hn hd vx vy vz] in *.
  split.
  - intros [[X Y] Z].
    destruct (Z.eq_dec ax 0) as [Ex|Ex]; [destruct (Z.eq_dec ay 0) as [Ey|Ey]|].
    + assert (Ez : az <> 0) by lia. exists bz, az. split; [right; lia|]. cbn [List.map]. rewrite !cons_eq. subst. repeat split; nia.
    + exists by_, ay. split; [right; lia|]. cbn [List.map]. rewrite !cons_eq. repeat split; nia.
    + exists bx, ax. split; [right; lia|]. cbn [List.map]. rewrite !cons_eq. repeat split; nia.
  - intros (s & t & Hst & M). cbn [List.map] in M. rewrite !cons_eq in M. destruct M as (M1 & M2 & M3 & _).
    assert (Cx : forall u1 u2 v1 v2, s * u1 = t * v1 -> s * u2 = t * v2 -> u1 * v2 - u2 * v1 = 0).
    { clear -Hst. intros u1 u2 v1 v2 A B. destruct Hst as [H|H].
      - apply (Z.mul_reg_l _ _ s H). transitivity ((s * u1) * v2 - (s * u2) * v1); [ring|]. rewrite A, B. ring.
      - apply (Z.mul_reg_l _ _ t H). transitivity (u1 * (t * v2) - u2 * (t * v1)); [ring|]. rewrite <- A, <- B. ring. }
    split; [split|]; apply Cx; assumption.
Qed.
Lemma pl_of_planes_points a b v : pl_valid (pl_of_planes a b) = true ->
  (line_points (pl_of_planes a b) v <-> (side a v == 0)%Q /\ (side b v == 0)%Q).
Proof.
  rewrite pl_valid_true. unfold line_points, pl_of_planes, side, qdot, qp_eq, qcross, qpt, v3_cross, zdet; cbn [ld lm vx vy vz qx qy qz].
  destruct a as [[ax ay az] ad], b as [[bx by_ bz] bd], v as [x y z]; cbn [hn hd vx vy vz qx qy qz]. qpush.
  generalize (inject_Z ax) (inject_Z ay) (inject_Z az) (inject_Z ad) (inject_Z bx) (inject_Z by_) (inject_Z bz) (inject_Z bd).
  clear. intros ax ay az ad bx by_ bz bd V.
  set (A := (ax * x + ay * y + az * z - ad)%Q). set (B := (bx * x + by_ * y + bz * z - bd)%Q).
  split.
  - intros (E1 & E2 & E3).
    assert (F1 : (ax * B == bx * A)%Q) by (unfold A, B; lra).
    assert (F2 : (ay * B == by_ * A)%Q) by (unfold A, B; lra).
    assert (F3 : (az * B == bz * A)%Q) by (unfold A, B; lra).
    clearbody A B.
    assert (Q1 : forall u v u' v' : Q, (u * B == u' * A)%Q -> (v * B == v' * A)%Q -> ((u * v' - v * u') * A == 0 /\ (u * v' - v * u') * B == 0)%Q).
    { clear. intros u v u' v' H1 H2. split.
      - transitivity (u * (v' * A) - v * (u' * A))%Q; [ring|]. rewrite <- H1, <- H2. ring.
      - transitivity ((u * B) * v' - (v * B) * u')%Q; [ring|]. rewrite H1, H2. ring. }
    pose proof (Q1 _ _ _ _ F2 F3) as [P1 P1']. pose proof (Q1 _ _ _ _ F3 F1) as [P2 P2']. pose proof (Q1 _ _ _ _ F1 F2) as [P3 P3'].
    split.
    + destruct (Qeq_dec A 0) as [Z|Z]; [exact Z|]. exfalso. apply V.
      apply Qmult_integral in P1, P2, P3. repeat split; tauto.
    + destruct (Qeq_dec B 0) as [Z|Z]; [exact Z|]. exfalso. apply V.
      apply Qmult_integral in P1', P2', P3'. repeat split; tauto.
  - intros [E1 E2]. assert (Ad : (ad == ax * x + ay * y + az * z)%Q) by (unfold A in E1; lra).
    assert (Bd : (bd == bx * x + by_ * y + bz * z)%Q) by (unfold B in E2; lra). rewrite Ad, Bd. repeat split; ring.
Qed.

(** ** Line and plane *)
Lemma pl_intersect_spec l h : line_wf l -> hw (pl_intersect l h) <> 0 ->
  exists r, denotes (pl_intersect l h) r /\ line_points l r /\ (side h r == 0)%Q /\
            forall r', line_points l r' -> (side h r' == 0)%Q -> qp_eq r' r.
Proof.
  intros [V D] HW. destruct (line_wf_point l (conj V D)) as [o O].
  pose proof (line_points_param l o V O) as P. rewrite pl_valid_true in V.
  destruct (denotes_exists _ HW) as [r R]. exists r. split; [exact R|].
  destruct R as (_ & R1 & R2 & R3). pose proof (inject_Z_neq0 _ HW) as HW'.
  unfold line_points in O. destruct O as (O1 & O2 & O3).
  unfold pl_intersect in *; cbn [hv hw] in *. unfold v3_dot, v3_add, v3_cross, v3_scale in *; cbn [vx vy vz] in *.
  qpush_in R1; qpush_in R2; qpush_in R3; qpush_in HW'.
  unfold qcross, qpt in O1, O2, O3; cbn [qx qy qz] in O1, O2, O3. rewrite <- ?O1, <- ?O2, <- ?O3 in R1.
  rewrite <- ?O1, <- ?O2, <- ?O3 in R2. rewrite <- ?O1, <- ?O2, <- ?O3 in R3.
  unfold side, qdot, qpt; cbn [qx qy qz].
  set (nd := (inject_Z (vx (hn h)) * inject_Z (vx (ld l)) + inject_Z (vy (hn h)) * inject_Z (vy (ld l)) + inject_Z (vz (hn h)) * inject_Z (vz (ld l)))%Q) in *.
  set (s := (inject_Z (hd h) - (inject_Z (vx (hn h)) * qx o + inject_Z (vy (hn h)) * qy o + inject_Z (vz (hn h)) * qz o))%Q).
  assert (T1 : (qx r == qx o + s / nd * inject_Z (vx (ld l)))%Q).
  { apply (Qmult_inj_r _ _ nd HW'). rewrite <- R1. unfold s. field_simplify; [|exact HW']. unfold nd. field. }
  assert (T2 : (qy r == qy o + s / nd * inject_Z (vy (ld l)))%Q).
  { apply (Qmult_inj_r _ _ nd HW'). rewrite <- R2. unfold s. field_simplify; [|exact HW']. unfold nd. field. }
  assert (T3 : (qz r == qz o + s / nd * inject_Z (vz (ld l)))%Q).
  { apply (Qmult_inj_r _ _ nd HW'). rewrite <- R3. unfold s. field_simplify; [|exact HW']. unfold nd. field. }
  split; [|split].
  - apply P. exists (s / nd)%Q. unfold qp_eq, qadd, qscale, qpt; cbn [qx qy qz]. auto.
  - rewrite T1, T2, T3. transitivity (s / nd * nd - s)%Q; [unfold s, nd; ring|]. field. exact HW'.
  - intros r' L S. apply P in L. destruct L as [t (A1 & A2 & A3)]. unfold qadd, qscale, qpt in A1, A2, A3; cbn [qx qy qz] in A1, A2, A3.
    rewrite A1, A2, A3 in S.
    assert (E : (t == s / nd)%Q).
    { apply (Qmult_inj_r _ _ nd HW'). transitivity s; [|field; exact HW']. unfold s. unfold nd. 
      match type of S with (?a == 0)%Q => transitivity (a + s)%Q; [unfold s; ring|rewrite S; unfold s; ring] end. }
    unfold qp_eq. rewrite A1, A2, A3, T1, T2, T3, E. repeat split; reflexivity.
Qed.
Lemma pl_intersect_none l h : line_wf l -> hw (pl_intersect l h) = 0 ->
  (forall r, line_points l r -> (side h r == 0)%Q) \/ (forall r, line_points l r -> ~ (side h r == 0)%Q).
Proof.
  intros [V D] HW. destruct (line_wf_point l (conj V D)) as [o O].
  pose proof (line_points_param l o V O) as P.
  assert (C : forall r, line_points l r -> (side h r == side h o)%Q).
  { intros r L. apply P in L. destruct L as [t (A1 & A2 & A3)]. unfold qadd, qscale, qpt in A1, A2, A3; cbn [qx qy qz] in A1, A2, A3.
    unfold pl_intersect, v3_dot in HW; cbn [hw] in HW. apply (f_equal inject_Z) in HW. qpush_in HW. change (inject_Z 0) with 0%Q in HW.
    unfold side, qdot, qpt; cbn [qx qy qz]. rewrite A1, A2, A3.
    match type of HW with ?nd = _ => transitivity (inject_Z (vx (hn h)) * qx o + inject_Z (vy (hn h)) * qy o + inject_Z (vz (hn h)) * qz o - inject_Z (hd h) + t * nd)%Q; [ring|] end.
    rewrite HW. ring. }
  destruct (Qeq_dec (side h o) 0) as [E|E]; [left|right]; intros r L; rewrite (C r L); assumption.
Qed.
Lemma pl_on_plane_spec l h : line_wf l -> (pl_on_plane l h = true <-> forall q, line_points l q -> (side h q == 0)%Q).
Proof.
  intros [V D]. destruct (line_wf_point l (conj V D)) as [o O].
  pose proof (line_points_param l o V O) as P. rewrite pl_valid_true in V.
  assert (O' := O). unfold line_points in O'. destruct O' as (O1 & O2 & O3). unfold qcross, qpt in O1, O2, O3; cbn [qx qy qz] in O1, O2, O3.
  unfold pl_on_plane. rewrite andb_true_iff, Z.eqb_eq, v3_eq_true. unfold v3_dot, v3_scale, v3_cross; cbn [vx vy vz].
  rewrite <- !inject_eq. qpush. rewrite <- O1, <- O2, <- O3. change (inject_Z 0) with 0%Q.
  unfold side, qdot, qpt in *; cbn [qx qy qz] in *. 
  set (s := (inject_Z (vx (hn h)) * qx o + inject_Z (vy (hn h)) * qy o + inject_Z (vz (hn h)) * qz o)%Q).
  unfold qp_eq in V; cbn [qx qy qz] in V. clear D O1 O2 O3. 
  set (a := inject_Z (vx (ld l))) in *. set (b := inject_Z (vy (ld l))) in *. set (c := inject_Z (vz (ld l))) in *.
  split.
  - intros [N (E1 & E2 & E3)] q L. apply P in L. destruct L as [t (A1 & A2 & A3)]. unfold qadd, qscale in A1, A2, A3; cbn [qx qy qz] in A1, A2, A3. fold a b c in A1, A2, A3.
    assert (S : (s == inject_Z (hd h))%Q).
    { assert (Ha : (a * (s - inject_Z (hd h)) == 0)%Q).
      { transitivity (a * s - a * inject_Z (hd h))%Q; [ring|]. rewrite E1. unfold s. transitivity (qx o * (a * inject_Z (vx (hn h)) + b * inject_Z (vy (hn h)) + c * inject_Z (vz (hn h))))%Q; [ring|]. rewrite N; ring. }
      assert (Hb : (b * (s - inject_Z (hd h)) == 0)%Q).
      { transitivity (b * s - b * inject_Z (hd h))%Q; [ring|]. rewrite E2. unfold s. transitivity (qy o * (a * inject_Z (vx (hn h)) + b * inject_Z (vy (hn h)) + c * inject_Z (vz (hn h))))%Q; [ring|]. rewrite N; ring. }
      assert (Hc : (c * (s - inject_Z (hd h)) == 0)%Q).
      { transitivity (c * s - c * inject_Z (hd h))%Q; [ring|]. rewrite E3. unfold s. transitivity (qz o * (a * inject_Z (vx (hn h)) + b * inject_Z (vy (hn h)) + c * inject_Z (vz (hn h))))%Q; [ring|]. rewrite N; ring. }
      clearbody s. apply Qmult_integral in Ha, Hb, Hc.
      destruct (Qeq_dec (s - inject_Z (hd h)) 0) as [Z|Z]; [lra|]. exfalso. apply V. tauto. }
    rewrite A1, A2, A3. transitivity (s - inject_Z (hd h) + t * (a * inject_Z (vx (hn h)) + b * inject_Z (vy (hn h)) + c * inject_Z (vz (hn h))))%Q; [unfold s; ring|].
    rewrite N, S. ring.
  - intros H.
    assert (S : (s == inject_Z (hd h))%Q).
    { specialize (H o O). unfold s. lra. }
    assert (N : (a * inject_Z (vx (hn h)) + b * inject_Z (vy (hn h)) + c * inject_Z (vz (hn h)) == 0)%Q).
    { specialize (H (QP (qx o + a) (qy o + b) (qz o + c))). cbn [qx qy qz] in H.
      assert (L : line_points l (QP (qx o + a) (qy o + b) (qz o + c))).
      { apply P. exists 1%Q. unfold qp_eq, qadd, qscale; cbn [qx qy qz]. fold a b c. repeat split; ring. }
      specialize (H L). unfold s in S. lra. }
    split; [exact N|]. rewrite <- S.
    assert (M : forall u v, (v * (a * inject_Z (vx (hn h)) + b * inject_Z (vy (hn h)) + c * inject_Z (vz (hn h))) == 0)%Q /\ (u == u)%Q) by (intros; rewrite N; split; ring).
    repeat split; unfold s.
    + destruct (M 0%Q (qx o)) as [K _]. lra.
    + destruct (M 0%Q (qy o)) as [K _]. lra.
    + destruct (M 0%Q (qz o)) as [K _]. lra.
Qed.
(** ** Projection *)
Lemma pl_project2d_side l d o v : (d < 3)%nat -> line_points l o ->
  (side2 (pl_project2d l d) v == qcross2 (qdrop d (qpt (ld l))) (qsub2 v (qdrop d o)))%Q.
Proof.
  intros Hd (O1 & O2 & O3). unfold qcross, qpt in O1, O2, O3; cbn [qx qy qz] in O1, O2, O3.
  unfold side2, pl_project2d, qcross2, qsub2, qpt, v2_perp, drop_dim.
  destruct d as [|[|[|d]]]; [| | |lia]; cbn [hn2 hd2 comp Nat.add Nat.modulo Nat.divmod Nat.sub fst snd x2 y2 qx qy qz qdrop qx2 qy2]; qpush.
  - rewrite <- O1. ring.
  - rewrite <- O2. ring.
  - rewrite <- O3. ring.
Qed.
Lemma pl_project2d_turn p1 p2 q1 q2 d v : (d < 3)%nat -> denotes p1 q1 -> denotes p2 q2 ->
  qsign (side2 (pl_project2d (pl_of_hpoints p1 p2) d) v) = qsign (turn (qdrop d q1) (qdrop d q2) v).
Proof.
  intros Hd H1 H2. destruct (pl_of_hpoints_repr p1 p2 q1 q2 H1 H2) as (k & Hk & (D1 & D2 & D3) & O).
  apply (qsign_scale_pos _ _ k Hk). rewrite (pl_project2d_side _ d q1 v Hd O).
  unfold turn, qcross2, qsub2, qpt, qscale, qsub in *. destruct d as [|[|[|d]]]; [| | |lia]; cbn [qx qy qz qdrop qx2 qy2] in *;
  repeat (rewrite D1 || rewrite D2 || rewrite D3); ring.
Qed.
(** ** Equality *)
Lemma pl_eq_spec a b : pl_valid a = true -> (pl_eq a b = true <-> same_direction (l6 a) (l6 b)).
Proof.
  intros V. unfold pl_valid, v3_is_zero in V. unfold pl_eq, l6. rewrite !andb_true_iff, !Z.eqb_eq.
  destruct a as [[a1 a2 a3] [a4 a5 a6]], b as [[b1 b2 b3] [b4 b5 b6]]; cbn [ld lm vx vy vz] in *.
  set (us := [a1; a2; a3; a4; a5; a6]). set (vs := [b1; b2; b3; b4; b5; b6]).
  assert (K : forall c c', In (c, c') (combine us vs) -> c <> 0 ->
     ((((((a1 * Z.abs c' = b1 * Z.abs c /\ a2 * Z.abs c' = b2 * Z.abs c) /\ a3 * Z.abs c' = b3 * Z.abs c) /\ a4 * Z.abs c' = b4 * Z.abs c) /\
       a5 * Z.abs c' = b5 * Z.abs c) /\ a6 * Z.abs c' = b6 * Z.abs c) <-> same_direction us vs)).
  { intros c c' Hin Hc. rewrite <- (same_dir_generic us vs c c' eq_refl Hin) by (intros; lia).
    unfold us, vs; cbn [List.map]. rewrite !cons_eq. tauto. }
  destruct (a1 =? 0) eqn:E1; cbn [negb].
  - destruct (a2 =? 0) eqn:E2; cbn [negb].
    + apply K; [cbn; auto|lia].
    + apply K; [cbn; auto|lia].
  - apply K; [cbn; auto|lia].
Qed.
Lemma pl_eq_lines a b : line_wf a -> line_wf b ->
  (pl_eq a b = true <-> same_direction (l3 (ld a)) (l3 (ld b)) /\ forall q, line_points a q <-> line_points b q).
Proof.
  intros Wa Wb. pose proof Wa as [Va Da]. pose proof Wb as [Vb Db]. rewrite pl_eq_spec by exact Va.
  assert (Ea : Exists (fun u => u <> 0) (l6 a) /\ Exists (fun u => u <> 0) (l3 (ld a))).
  { unfold pl_valid, v3_is_zero in Va. unfold l6, l3. destruct (Z.eq_dec (vx (ld a)) 0); [destruct (Z.eq_dec (vy (ld a)) 0)|];
      split; [apply Exists_cons_tl, Exists_cons_tl, Exists_cons_hd; lia|apply Exists_cons_tl, Exists_cons_tl, Exists_cons_hd; lia
             |apply Exists_cons_tl, Exists_cons_hd; lia|apply Exists_cons_tl, Exists_cons_hd; lia|apply Exists_cons_hd; lia|apply Exists_cons_hd; lia]. }
  assert (Eb : Exists (fun u => u <> 0) (l6 b) /\ Exists (fun u => u <> 0) (l3 (ld b))).
  { unfold pl_valid, v3_is_zero in Vb. unfold l6, l3. destruct (Z.eq_dec (vx (ld b)) 0); [destruct (Z.eq_dec (vy (ld b)) 0)|];
      split; [apply Exists_cons_tl, Exists_cons_tl, Exists_cons_hd; lia|apply Exists_cons_tl, Exists_cons_tl, Exists_cons_hd; lia
             |apply Exists_cons_tl, Exists_cons_hd; lia|apply Exists_cons_tl, Exists_cons_hd; lia|apply Exists_cons_hd; lia|apply Exists_cons_hd; lia]. }
  rewrite (same_direction_nonzero (l6 a) (l6 b)) by (reflexivity || tauto).
  rewrite (same_direction_nonzero (l3 (ld a)) (l3 (ld b))) by (reflexivity || tauto).
  unfold l6, l3; cbn [List.map]. split.
  - intros (s & t & Hs & Ht & M). rewrite !cons_eq in M. destruct M as (M1 & M2 & M3 & M4 & M5 & M6 & _). split.
    + exists s, t. rewrite !cons_eq. repeat split; assumption.
    + assert (Ps : ~ (inject_Z s == 0)%Q) by (unfold Qeq; cbn; lia). assert (Pt : ~ (inject_Z t == 0)%Q) by (unfold Qeq; cbn; lia).
      apply (f_equal inject_Z) in M1, M2, M3, M4, M5, M6. qpush_in M1; qpush_in M2; qpush_in M3; qpush_in M4; qpush_in M5; qpush_in M6.
      intros q. unfold line_points, qp_eq, qcross, qpt; cbn [qx qy qz].
      generalize dependent (inject_Z (vx (ld a))); generalize dependent (inject_Z (vy (ld a))); generalize dependent (inject_Z (vz (ld a)));
      generalize dependent (inject_Z (vx (ld b))); generalize dependent (inject_Z (vy (ld b))); generalize dependent (inject_Z (vz (ld b)));
      generalize dependent (inject_Z (vx (lm a))); generalize dependent (inject_Z (vy (lm a))); generalize dependent (inject_Z (vz (lm a)));
      generalize dependent (inject_Z (vx (lm b))); generalize dependent (inject_Z (vy (lm b))); generalize dependent (inject_Z (vz (lm b))).
      revert Ps Pt. generalize (inject_Z s) (inject_Z t). clear. intros s t Ps Pt b6 b5 b4 a6 M6 a5 M5 a4 M4 b3 b2 b1 a3 M3 a2 M2 a1 M1.
      assert (K : forall u v m u' v' m' x y : Q, (s * u = t * u')%Q -> (s * v = t * v')%Q -> (s * m = t * m')%Q -> (x * u - y * v == m <-> x * u' - y * v' == m')%Q).
      { intros u v m u' v' m' x y Hu Hv Hm. split; intros H.
        - apply (Qmult_inj_l _ _ t Pt). rewrite <- Hm, <- H. transitivity (x * (t * u') - y * (t * v'))%Q; [ring|]. rewrite <- Hu, <- Hv. ring.
        - apply (Qmult_inj_l _ _ s Ps). rewrite Hm, <- H. transitivity (x * (s * u) - y * (s * v))%Q; [ring|]. rewrite Hu, Hv. ring. }
      rewrite (K _ _ _ _ _ _ (qy q) (qz q) M3 M2 M4), (K _ _ _ _ _ _ (qz q) (qx q) M1 M3 M5), (K _ _ _ _ _ _ (qx q) (qy q) M2 M1 M6). reflexivity.
  - intros [(s & t & Hs & Ht & M) HL]. rewrite !cons_eq in M. destruct M as (M1 & M2 & M3 & _).
    exists s, t. split; [exact Hs|]. split; [exact Ht|]. rewrite !cons_eq.
    destruct (line_wf_point a Wa) as [o O]. pose proof (proj1 (HL o) O) as O'.
    destruct O as (O1 & O2 & O3), O' as (O1' & O2' & O3'). unfold qcross, qpt in O1, O2, O3, O1', O2', O3'; cbn [qx qy qz] in O1, O2, O3, O1', O2', O3'.
    assert (N1 := M1). assert (N2 := M2). assert (N3 := M3).
    apply (f_equal inject_Z) in M1, M2, M3. qpush_in M1; qpush_in M2; qpush_in M3.
    repeat split; try assumption; apply inject_eq; qpush.
    + rewrite <- O1, <- O1'. transitivity (qy o * (inject_Z s * inject_Z (vz (ld a))) - qz o * (inject_Z s * inject_Z (vy (ld a))))%Q; [ring|]. rewrite M2, M3. ring.
    + rewrite <- O2, <- O2'. transitivity (qz o * (inject_Z s * inject_Z (vx (ld a))) - qx o * (inject_Z s * inject_Z (vz (ld a))))%Q; [ring|]. rewrite M1, M3. ring.
    + rewrite <- O3, <- O3'. transitivity (qx o * (inject_Z s * inject_Z (vy (ld a))) - qy o * (inject_Z s * inject_Z (vx (ld a))))%Q; [ring|]. rewrite M1, M2. ring.
Qed.
