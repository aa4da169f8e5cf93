(** Half-space equality in terms of the points on each side. *)
From Coq Require Import ZArith QArith Qfield List Bool Lia Lqa ZifyBool.
From Verif Require Import BigUIntModel GeoModel GeoSpec GeoProofs GeoDirProofs GeoAngleProofs GeoPlaneProofs GeoPluckerProofs.
Import ListNotations.
Open Scope Z_scope.

Lemma hs_valid_true h : hs_valid h = true <-> ~ qp_eq (qpt (hn h)) (QP 0 0 0).
Proof. rewrite <- hs_valid_false. destruct (hs_valid h); intuition congruence. Qed.
(** Planes with the same points: the coefficients are proportional. *)
Lemma same_plane_proportional a b : hs_valid a = true -> (forall q, (side a q == 0)%Q -> (side b q == 0)%Q) ->
  exists t, qp_eq (qpt (hn b)) (qscale t (qpt (hn a))) /\ (inject_Z (hd b) == t * inject_Z (hd a))%Q.
Proof.
  rewrite hs_valid_true. intros Va H.
  destruct a as [[ax ay az] ad], b as [[bx by_ bz] bd]. unfold side, qdot, qpt, qp_eq, qscale in *; cbn [hn hd vx vy vz qx qy qz] in *.
  generalize dependent (inject_Z ax); generalize dependent (inject_Z ay); generalize dependent (inject_Z az); generalize dependent (inject_Z ad);
  generalize dependent (inject_Z bx); generalize dependent (inject_Z by_); generalize dependent (inject_Z bz); generalize dependent (inject_Z bd).
  clear. intros bd bz by_ bx ad az ay ax Va H.
  assert (P := qnorm_pos _ _ _ Va). set (n := (ax * ax + ay * ay + az * az)%Q) in *. assert (Hn : ~ (n == 0)%Q) by lra.
  pose (o := QP (ad / n * ax) (ad / n * ay) (ad / n * az)).
  assert (So : forall u v w, (ax * u + ay * v + az * w == 0)%Q -> (bx * (qx o + u) + by_ * (qy o + v) + bz * (qz o + w) - bd == 0)%Q).
  { intros u v w E. apply (H (QP (qx o + u) (qy o + v) (qz o + w))). cbn [qx qy qz o].
    transitivity (ad / n * n + (ax * u + ay * v + az * w) - ad)%Q; [unfold n; ring|]. rewrite E. field. exact Hn. }
  assert (S0 := So 0%Q 0%Q 0%Q ltac:(ring)). 
  assert (S1 := So 0%Q az (- ay)%Q ltac:(ring)). assert (S2 := So (- az)%Q 0%Q ax ltac:(ring)). assert (S3 := So ay (- ax)%Q 0%Q ltac:(ring)).
  destruct (qcross_zero (QP bx by_ bz) (QP ax ay az)) as [t (T1 & T2 & T3)].
  - unfold qp_eq; cbn [qx qy qz]. exact Va.
  - unfold qp_eq, qcross; cbn [qx qy qz]. repeat split; lra.
  - unfold qscale in T1, T2, T3; cbn [qx qy qz] in T1, T2, T3. exists t. split; [auto|].
    assert (E : (bd == bx * qx o + by_ * qy o + bz * qz o)%Q) by lra. rewrite E, T1, T2, T3. cbn [qx qy qz o].
    transitivity (t * (ad / n * n))%Q; [unfold n; ring|]. field. exact Hn.
Qed.
Lemma proportional_int (t : Q) (u v : Z) : (inject_Z v == t * inject_Z u)%Q <-> Qnum t * u = Zpos (Qden t) * v.
Proof. unfold Qeq, Qmult, inject_Z; cbn [Qnum Qden]. rewrite Pos.mul_1_r. lia. Qed.
Lemma parallel_sides a b : hs_valid a = true -> hs_valid b = true ->
  (parallel (l4 a) (l4 b) <-> forall q, (side a q == 0)%Q <-> (side b q == 0)%Q).
Proof.
  intros Va Vb. split.
  - intros (s & t & Hst & M). unfold l4 in M; cbn [List.map] in M. rewrite !cons_eq in M. destruct M as (M1 & M2 & M3 & M4 & _).
    assert (K : s <> 0 /\ t <> 0).
    { unfold hs_valid, v3_is_zero in Va, Vb. split; intros ->.
      - assert (Ht : t <> 0) by tauto. assert (vx (hn b) = 0) by nia. assert (vy (hn b) = 0) by nia. assert (vz (hn b) = 0) by nia. lia.
      - assert (Ht : s <> 0) by tauto. assert (vx (hn a) = 0) by nia. assert (vy (hn a) = 0) by nia. assert (vz (hn a) = 0) by nia. lia. }
    destruct K as [Ks Kt]. apply inject_Z_neq0 in Ks, Kt. apply (f_equal inject_Z) in M1, M2, M3, M4. qpush_in M1; qpush_in M2; qpush_in M3; qpush_in M4.
    intros q.
    assert (E : (inject_Z s * side a q == inject_Z t * side b q)%Q).
    { unfold side, qdot, qpt; cbn [qx qy qz].
      transitivity ((inject_Z s * inject_Z (vx (hn a))) * qx q + (inject_Z s * inject_Z (vy (hn a))) * qy q + (inject_Z s * inject_Z (vz (hn a))) * qz q - inject_Z s * inject_Z (hd a))%Q; [ring|].
      rewrite M1, M2, M3, M4. ring. }
    split; intros Z; rewrite Z in E.
    + assert (X : (inject_Z t * side b q == 0)%Q) by (rewrite <- E; ring). apply Qmult_integral in X. tauto.
    + assert (X : (inject_Z s * side a q == 0)%Q) by (rewrite E; ring). apply Qmult_integral in X. tauto.
  - intros H. destruct (same_plane_proportional a b Va (fun q => proj1 (H q))) as [t ((T1 & T2 & T3) & T4)].
    unfold qscale, qpt in T1, T2, T3; cbn [qx qy qz] in T1, T2, T3. apply proportional_int in T1, T2, T3, T4.
    exists (Qnum t), (Zpos (Qden t)). split; [right; discriminate|]. unfold l4; cbn [List.map]. rewrite !cons_eq. auto.
Qed.
Lemma same_direction_sides a b : hs_valid a = true -> hs_valid b = true ->
  (same_direction (l4 a) (l4 b) <-> forall q, qsign (side a q) = qsign (side b q)).
Proof.
  intros Va Vb. split.
  - intros (s & t & Hs & Ht & Hst & M) q. unfold l4 in M; cbn [List.map] in M. rewrite !cons_eq in M. destruct M as (M1 & M2 & M3 & M4 & _).
    assert (K : 0 < s /\ 0 < t).
    { unfold hs_valid, v3_is_zero in Va, Vb. destruct (Z.eq_dec s 0) as [->|]; [|destruct (Z.eq_dec t 0) as [->|]; [|lia]].
      - assert (vx (hn b) = 0) by nia. assert (vy (hn b) = 0) by nia. assert (vz (hn b) = 0) by nia. lia.
      - assert (vx (hn a) = 0) by nia. assert (vy (hn a) = 0) by nia. assert (vz (hn a) = 0) by nia. lia. }
    destruct K as [Ks Kt]. apply inject_Z_pos in Ks, Kt. apply (f_equal inject_Z) in M1, M2, M3, M4. qpush_in M1; qpush_in M2; qpush_in M3; qpush_in M4.
    assert (E : (inject_Z s * side a q == inject_Z t * side b q)%Q).
    { unfold side, qdot, qpt; cbn [qx qy qz].
      transitivity ((inject_Z s * inject_Z (vx (hn a))) * qx q + (inject_Z s * inject_Z (vy (hn a))) * qy q + (inject_Z s * inject_Z (vz (hn a))) * qz q - inject_Z s * inject_Z (hd a))%Q; [ring|].
      rewrite M1, M2, M3, M4. ring. }
    rewrite <- (qsign_scale_pos (inject_Z s * side a q) (side a q) (inject_Z s) Ks) by ring.
    rewrite (qsign_comp _ _ E). apply (qsign_scale_pos _ _ (inject_Z t) Kt). ring.
  - intros H. assert (H0 : forall q, (side a q == 0)%Q -> (side b q == 0)%Q) by (intros q X; apply qsign_zero; rewrite <- H; apply qsign_zero; exact X).
    destruct (same_plane_proportional a b Va H0) as [t ((T1 & T2 & T3) & T4)].
    assert (Pt : (0 < t)%Q).
    { rewrite hs_valid_true in Va. assert (P := qnorm_pos _ _ _ Va). set (n := (_ + _ + _)%Q) in P.
      pose (k := ((inject_Z (hd a) + 1) / n)%Q). pose (q := qscale k (qpt (hn a))).
      assert (Sa : (side a q == 1)%Q). { unfold side, qdot, q, qscale; cbn [qx qy qz]. transitivity (k * n - inject_Z (hd a))%Q; [unfold n, qpt; cbn [qx qy qz]; ring|]. unfold k. field. lra. }
      assert (Sb : (side b q == t)%Q).
      { transitivity (t * side a q)%Q; [|rewrite Sa; ring]. unfold side, qdot. rewrite T1, T2, T3, T4. unfold qscale; cbn [qx qy qz]. ring. }
      specialize (H q). rewrite (qsign_comp _ _ Sa), (qsign_comp _ _ Sb) in H. apply qsign_pos. rewrite <- H. reflexivity. }
    unfold qscale, qpt in T1, T2, T3; cbn [qx qy qz] in T1, T2, T3. apply proportional_int in T1, T2, T3, T4.
    assert (0 < Qnum t) by (unfold Qlt in Pt; cbn in Pt; lia).
    exists (Qnum t), (Zpos (Qden t)). repeat split; try lia. unfold l4; cbn [List.map]. rewrite !cons_eq. auto.
Qed.
