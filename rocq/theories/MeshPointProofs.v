(** Proofs about where the vertices of a repaired mesh end up. *)
From Coq Require Import List Bool Arith ZArith QArith Qfield Lqa Lia ZifyBool.
From Verif Require Import BigUIntModel GeoModel GeoSpec GeoProofs GeoReduceProofs GeoPlaneProofs GeoPluckerProofs NudgeModel NudgeSpec NudgeProofs MeshSpec MeshProofs.
Import ListNotations.
Open Scope Q_scope.

Lemma sq_nonneg (x : Q) : 0 <= x * x.
Proof. destruct x as [n d]. unfold Qle, Qmult. cbn. nia. Qed.
Lemma dist2_nonneg a b : 0 <= dist2 a b.
Proof. unfold dist2, qdot. pose proof (sq_nonneg (qx (qsub a b))). pose proof (sq_nonneg (qy (qsub a b))). pose proof (sq_nonneg (qz (qsub a b))). lra. Qed.
Lemma nearest_perp (P : qpoint -> Prop) q r : P r -> (forall s, P s -> qdot (qsub r q) (qsub s r) == 0) -> nearest P q r.
Proof.
  intros H K. split; [exact H|]. intros s Hs. specialize (K s Hs). pose proof (dist2_nonneg r s) as N.
  assert (E : dist2 q s == dist2 q r + dist2 r s + 2 * qdot (qsub r q) (qsub s r)) by (unfold dist2, qdot, qsub; cbn [qx qy qz]; ring).
  rewrite E, K. lra.
Qed.
Lemma on_all_incident l p q : denotes p q -> (on_all l q <-> Forall (fun h => incident h p) l).
Proof. intros D. unfold on_all. rewrite !Forall_forall. split; intros H h Hh; apply (incident_denotes h p q D), H, Hh. Qed.
Lemma nearest_self l q : on_all l q -> nearest (on_all l) q q.
Proof. intros H. apply nearest_perp; [exact H|]. intros s _. unfold qdot, qsub; cbn [qx qy qz]. ring. Qed.
Lemma nearest_one a p q r : denotes p q -> denotes (pl_intersect (pl_of_hpoints p (hp_add_offset p (hn a) 1)) a) r -> nearest (on_all [a]) q r.
Proof.
  intros D R. assert (I : incident a (pl_intersect (pl_of_hpoints p (hp_add_offset p (hn a) 1)) a)) by apply one_plane_incident.
  apply (incident_denotes a _ r R) in I. apply nearest_perp; [constructor; [exact I|constructor]|]. intros s Hs. inversion Hs as [|? ? S _]; subst.
  destruct D as (W & D1 & D2 & D3). destruct R as (V & R1 & R2 & R3). destruct p as [[x y z] w], a as [[n1 n2 n3] d].
  unfold pl_intersect, pl_of_hpoints, hp_add_offset, v3_dot, v3_add, v3_cross, v3_scale, v3_sub in V, R1, R2, R3; cbn [hv hw hn hd vx vy vz ld lm] in V, R1, R2, R3, W, D1, D2, D3.
  set (t := zabs_mult2 _ _) in *. clearbody t.
  unfold side, qdot, qpt, qsub in *. cbn [hn hd vx vy vz qx qy qz] in *. 
  apply inject_Z_neq0 in V, W. qpush_in R1. qpush_in R2. qpush_in R3. qpush_in V. change (inject_Z 1) with 1 in *.
  destruct q as [q1 q2 q3], r as [r1 r2 r3], s as [s1 s2 s3]. cbn [qx qy qz] in *. rewrite D1, D2, D3 in *. clear D1 D2 D3.
  revert V W R1 R2 R3 I S. generalize (inject_Z w) (inject_Z n1) (inject_Z n2) (inject_Z n3) (inject_Z d) (inject_Z t). clear. intros w n1 n2 n3 d t V W R1 R2 R3 I S.
  set (N := n1 * n1 + n2 * n2 + n3 * n3). set (k := d - (n1 * q1 + n2 * q2 + n3 * q3)).
  assert (V' : ~ N * (t * (w * w)) == 0). { intros E. apply V. rewrite <- E. unfold N. ring. }
  assert (F1 : (n1 * k + q1 * N) * (t * (w * w)) == r1 * N * (t * (w * w))) by (etransitivity; [|etransitivity; [exact R1|]]; unfold N, k; ring).
  assert (F2 : (n2 * k + q2 * N) * (t * (w * w)) == r2 * N * (t * (w * w))) by (etransitivity; [|etransitivity; [exact R2|]]; unfold N, k; ring).
  assert (F3 : (n3 * k + q3 * N) * (t * (w * w)) == r3 * N * (t * (w * w))) by (etransitivity; [|etransitivity; [exact R3|]]; unfold N, k; ring).
  assert (T : ~ t * (w * w) == 0) by (intros E; apply V'; rewrite E; ring). assert (NN : ~ N == 0) by (intros E; apply V'; rewrite E; ring).
  apply (proj1 (Qmult_inj_r _ _ _ T)) in F1, F2, F3. clear R1 R2 R3. apply (proj1 (Qmult_inj_r _ _ N NN)).
  transitivity ((r1 * N - q1 * N) * (s1 - r1) + (r2 * N - q2 * N) * (s2 - r2) + (r3 * N - q3 * N) * (s3 - r3)); [ring|]. rewrite <- F1, <- F2, <- F3.
  transitivity (k * ((n1 * s1 + n2 * s2 + n3 * s3 - d) - (n1 * r1 + n2 * r2 + n3 * r3 - d))); [ring|]. rewrite I, S. ring.
Qed.
Lemma nearest_two a b p q r : denotes p q -> v3_cross (hn a) (hn b) <> V3 0 0 0 ->
  denotes (pl_intersect (pl_of_planes a b) (hs_of_normal_point (ld (pl_of_planes a b)) p)) r -> nearest (on_all [a; b]) q r.
Proof.
  intros D N R. set (l := pl_of_planes a b) in *.
  assert (V : pl_valid l = true).
  { unfold pl_valid. rewrite negb_true_iff. apply not_true_iff_false. intros X. apply N. unfold v3_is_zero in X. rewrite !andb_true_iff, !Z.eqb_eq in X. destruct X as [[X1 X2] X3].
    change (ld l) with (v3_cross (hn a) (hn b)) in *. destruct (v3_cross (hn a) (hn b)) as [x y z]. cbn [vx vy vz] in *. congruence. }
  destruct (pl_intersect_spec l _ (pl_of_planes_wf a b V) (proj1 R)) as (r' & R' & L & S & _). 
  assert (E : qp_eq r r') by (eapply denotes_unique; eassumption).
  assert (L2 : line_points l r). { unfold line_points, qp_eq, qcross in *. destruct E as (E1 & E2 & E3). cbn [qx qy qz] in *. rewrite E1, E2, E3. exact L. }
  rewrite (hs_of_normal_point_side _ p q r' D) in S. apply Qmult_integral in S as [S|S]; [|exfalso; revert S; apply inject_Z_neq0; destruct D; lia].
  apply nearest_perp.
  - apply (pl_of_planes_points a b r V) in L2 as [A B]. repeat constructor; assumption.
  - intros s Hs. inversion Hs as [|? ? A T]; subst. inversion T as [|? ? B _]; subst.
    assert (Ls : line_points l s) by (apply (pl_of_planes_points a b s V); auto). apply (line_points_param l r V L2) in Ls as (t & T1 & T2 & T3).
    destruct E as (E1 & E2 & E3). unfold qdot, qsub, qadd, qscale in *. cbn [qx qy qz] in *. rewrite T1, T2, T3, E1, E2, E3. 
    transitivity (t * (qx (qpt (ld l)) * (qx r' - qx q) + qy (qpt (ld l)) * (qy r' - qy q) + qz (qpt (ld l)) * (qz r' - qz q))); [ring|]. rewrite S. ring.
Qed.
Lemma cross_zero_pl a b : v3_dot (v3_cross (hn a) (hn b)) (v3_cross (hn a) (hn b)) = 0%Z -> v3_cross (hn a) (hn b) = V3 0 0 0.
Proof. destruct (v3_cross (hn a) (hn b)) as [x y z]. unfold v3_dot; cbn [vx vy vz]. intros H. f_equal; nia. Qed.
Lemma nearest_three a b c p q r : denotes p q -> v3_dot (v3_cross (hn a) (hn b)) (hn c) <> 0%Z -> denotes (pl_intersect (pl_of_planes a b) c) r -> nearest (on_all [a; b; c]) q r.
Proof.
  intros D N R. set (l := pl_of_planes a b) in *.
  assert (V : pl_valid l = true).
  { unfold pl_valid. rewrite negb_true_iff. apply not_true_iff_false. intros X. apply N. unfold v3_is_zero in X. rewrite !andb_true_iff, !Z.eqb_eq in X. destruct X as [[X1 X2] X3].
    change (ld l) with (v3_cross (hn a) (hn b)) in *. unfold v3_dot. rewrite X1, X2, X3. ring. }
  destruct (pl_intersect_spec l _ (pl_of_planes_wf a b V) (proj1 R)) as (r' & R' & L & S & U). 
  assert (E : qp_eq r r') by (eapply denotes_unique; eassumption).
  assert (K : forall s, on_all [a; b; c] s -> qp_eq s r').
  { intros s Hs. inversion Hs as [|? ? A T]; subst. inversion T as [|? ? B T']; subst. inversion T' as [|? ? C _]; subst. apply U; [|exact C]. apply (pl_of_planes_points a b s V). auto. }
  destruct E as (E1 & E2 & E3). apply nearest_perp.
  - apply (on_all_incident _ _ _ R). destruct (two_planes_incident a b c) as [A B]. repeat constructor; [exact A|exact B|apply third_plane_incident].
  - intros s Hs. destruct (K s Hs) as (S1 & S2 & S3). unfold qdot, qsub; cbn [qx qy qz]. rewrite S1, S2, S3, E1, E2, E3. ring.
Qed.
Close Scope Q_scope.
Open Scope Z_scope.
(** ** Weights of the computed points *)
Lemma abs_mult_nonzero v o : zabs_mult2 v o <> 0.
Proof. unfold zabs_mult2. intros H. apply Z.lor_eq_0_iff in H as [_ H]. discriminate. Qed.
Lemma weight_one a p : hw p <> 0 -> hn a <> V3 0 0 0 -> hw (pl_intersect (pl_of_hpoints p (hp_add_offset p (hn a) 1)) a) <> 0.
Proof.
  intros W N. destruct p as [[x y z] w], a as [[n1 n2 n3] d]. unfold pl_intersect, pl_of_hpoints, hp_add_offset, v3_dot, v3_scale, v3_sub; cbn [hv hw hn hd vx vy vz ld lm] in *.
  pose proof (abs_mult_nonzero w (1 * w)) as T. set (t := zabs_mult2 _ _) in *. clearbody t.
  intros E. assert (F : t * (w * w) * (n1 * n1 + n2 * n2 + n3 * n3) = 0) by (rewrite <- E; ring). apply Z.mul_eq_0 in F as [F|F]; [nia|]. apply N. f_equal; nia.
Qed.
Lemma weight_two a b p : hw p <> 0 -> v3_cross (hn a) (hn b) <> V3 0 0 0 -> hw (pl_intersect (pl_of_planes a b) (hs_of_normal_point (ld (pl_of_planes a b)) p)) <> 0.
Proof.
  intros W N. change (ld (pl_of_planes a b)) with (v3_cross (hn a) (hn b)). unfold pl_intersect, hs_of_normal_point. cbn [hw hn]. change (ld (pl_of_planes a b)) with (v3_cross (hn a) (hn b)).
  destruct (v3_cross (hn a) (hn b)) as [x y z]. unfold v3_dot, v3_scale. cbn [vx vy vz]. intros E.
  assert (F : Z.abs (hw p) * (x * x + y * y + z * z) = 0) by (rewrite <- E; ring). apply Z.mul_eq_0 in F as [F|F]; [lia|]. apply N. f_equal; nia.
Qed.
Lemma weight_three a b c : hw (pl_intersect (pl_of_planes a b) c) = v3_dot (v3_cross (hn a) (hn b)) (hn c).
Proof. unfold pl_intersect. cbn [hw]. change (ld (pl_of_planes a b)) with (v3_cross (hn a) (hn b)). unfold v3_dot. ring. Qed.
(** Finalize moves the vertex to the nearest common point. *)
Lemma finalize_nearest gcd v v' q : gcd_ok gcd -> denotes (vpt v) q -> independent (vadj v) -> vi_finalize gcd v = Ok v' ->
  exists q', denotes (vpt v') q' /\ nearest (on_all (vadj v)) q q'.
Proof.
  intros G D I. unfold vi_finalize. destruct (forallb _ (vadj v)) eqn:F.
  - intros E. injection E as <-. exists q. split; [exact D|]. apply nearest_self. apply (on_all_incident _ _ _ D). rewrite forallb_forall in F. apply Forall_forall. intros h Hh. apply hs_coincident_incident, F, Hh.
  - destruct v as [p adj]. cbn [vadj vpt] in *. pose proof (proj1 D) as W.
    assert (K : forall x r (P : qpoint -> Prop), hw x <> 0 -> hp_reduce gcd x = Ok r -> (forall y, denotes x y -> P y) -> exists q', denotes r q' /\ P q').
    { intros x r P Wx R H. destruct (denotes_exists x Wx) as [y Hy]. exists y. split; [apply (hp_reduce_spec gcd x y r G Hy R)|apply H, Hy]. }
    destruct adj as [|a [|b [|c [|]]]]; try discriminate; cbn [rbind].
    + destruct (hp_reduce gcd _) as [r| | |] eqn:R; try discriminate. cbn [rbind]. intros E. injection E as <-. cbn [vpt]. apply (K _ _ _ (weight_one a p W I) R). intros y. apply nearest_one, D.
    + destruct (hp_reduce gcd _) as [r| | |] eqn:R; try discriminate. cbn [rbind]. intros E. injection E as <-. cbn [vpt]. apply (K _ _ _ (weight_two a b p W I) R). intros y. apply nearest_two; assumption.
    + destruct (hp_reduce gcd _) as [r| | |] eqn:R; try discriminate. cbn [rbind]. intros E. injection E as <-. cbn [vpt]. cbn [independent List.map] in I.
      apply (K (pl_intersect (pl_of_planes a b) c) r); [rewrite weight_three; exact I|exact R|]. intros y. apply (nearest_three a b c p); assumption.
Qed.
(** Without a unique common point there is no finite result. *)
Lemma hp_reduce_not_zero gcd p r : gcd_ok gcd -> Forall (fun c => c = 0) (lp p) -> hp_reduce gcd p <> Ok r.
Proof.
  intros G Z H. rewrite hp_reduce_chain in H. invert_chain H g E. cbn [rbind] in H. pose proof (chain_spec gcd _ _ _ g G E) as S.
  assert (S0 : Z.abs g = 0). { rewrite S. clear - Z. unfold lp in Z. inversion Z as [|? ? Z1 T1]; subst. inversion T1 as [|? ? Z2 T2]; subst. inversion T2 as [|? ? Z3 T3]; subst. inversion T3 as [|? ? Z4 T4]; subst. cbn [fold_left]. rewrite Z1, Z2, Z3, Z4. reflexivity. }
  assert (g = 0) by lia. subst g. cbv zeta in H. destruct (Bool.eqb _ _); cbn in H; discriminate.
Qed.
Lemma finalize_parallel gcd p a b v' : gcd_ok gcd -> v3_cross (hn a) (hn b) = V3 0 0 0 -> ~ Forall (fun h => incident h p) [a; b] -> vi_finalize gcd (VI p [a; b]) <> Ok v'.
Proof.
  intros G P N. unfold vi_finalize. cbn [vadj vpt]. destruct (forallb _ [a; b]) eqn:F.
  - exfalso. apply N. rewrite forallb_forall in F. apply Forall_forall. intros h Hh. apply hs_coincident_incident, F, Hh.
  - cbn [rbind]. destruct (hp_reduce gcd _) as [r| | |] eqn:R; try discriminate. exfalso. revert R. apply hp_reduce_not_zero; [exact G|].
    unfold pl_intersect, hs_of_normal_point. change (ld (pl_of_planes a b)) with (v3_cross (hn a) (hn b)). rewrite P. cbn [hn hd v3_dot v3_scale vx vy vz]. unfold lp, v3_dot, v3_add, v3_cross, v3_scale. cbn [hw hv vx vy vz].
    repeat (constructor; [ring|]). constructor.
Qed.
Lemma finalize_dependent gcd p a b c v' : gcd_ok gcd -> v3_dot (v3_cross (hn a) (hn b)) (hn c) = 0 -> ~ Forall (fun h => incident h p) [a; b; c] ->
  vi_finalize gcd (VI p [a; b; c]) = Ok v' -> hw (vpt v') = 0.
Proof.
  intros G P N. unfold vi_finalize. cbn [vadj vpt]. destruct (forallb _ [a; b; c]) eqn:F.
  - exfalso. apply N. rewrite forallb_forall in F. apply Forall_forall. intros h Hh. apply hs_coincident_incident, F, Hh.
  - cbn [rbind]. destruct (hp_reduce gcd _) as [r| | |] eqn:R; try discriminate. cbn [rbind]. intros E. injection E as <-. cbn [vpt]. apply (hp_reduce_weight gcd _ r G R). rewrite weight_three. exact P.
Qed.
(** ** Sharing *)
Lemma canonical_unique p r q : denotes p q -> denotes r q -> 0 < hw p -> 0 < hw r -> coprime (lp p) -> coprime (lp r) -> p = r.
Proof.
  intros (W & A1 & A2 & A3) (V & B1 & B2 & B3) Wp Vp C C'.
  assert (K : forall x y t, (inject_Z x == t * inject_Z (hw p))%Q -> (inject_Z y == t * inject_Z (hw r))%Q -> x * hw r = y * hw p).
  { intros x y t X Y. apply inject_eq. qpush. rewrite X, Y. ring. }
  pose proof (K _ _ _ A1 B1) as E1. pose proof (K _ _ _ A2 B2) as E2. pose proof (K _ _ _ A3 B3) as E3.
  assert (G : forall p r, 0 < hw p -> coprime (lp p) -> vx (hv p) * hw r = vx (hv r) * hw p -> vy (hv p) * hw r = vy (hv r) * hw p -> vz (hv p) * hw r = vz (hv r) * hw p -> (hw p | hw r)).
  { clear. intros p r Wp C E1 E2 E3. set (g := Z.gcd (hw p) (hw r)). assert (Gp : 0 < g). { unfold g. pose proof (Z.gcd_nonneg (hw p) (hw r)). assert (Z.gcd (hw p) (hw r) <> 0) by (intros X; apply Z.gcd_eq_0 in X; lia). lia. }
    destruct (Z.gcd_divide_l (hw p) (hw r)) as [a Ha]. destruct (Z.gcd_divide_r (hw p) (hw r)) as [b Hb]. fold g in Ha, Hb.
    assert (Cab : Z.gcd a b = 1). { apply (Z.mul_cancel_l _ _ g ltac:(lia)). rewrite <- Z.gcd_mul_mono_l_nonneg by lia. rewrite Z.mul_1_r. unfold g at 3. f_equal; lia. }
    assert (Da : forall x y, x * hw r = y * hw p -> (a | x)).
    { intros x y E. apply (Z.gauss a b x); [|exact Cab]. exists y. apply (Z.mul_cancel_l _ _ g ltac:(lia)). rewrite Hb, Ha in E. lia. }
    assert (D1 : (a | 1)). { apply C. unfold lp. repeat constructor; [exists g; lia|eapply Da; eassumption..]. }
    assert (a = 1 \/ a = -1) by (apply Z.divide_1_r in D1; lia). exists b. nia. }
  assert (E : hw p = hw r).
  { assert (D1 : (hw p | hw r)) by (apply G; assumption). assert (D2 : (hw r | hw p)) by (apply G; [assumption|assumption|lia|lia|lia]). apply Z.divide_antisym_nonneg; lia || assumption. }
  destruct p as [[x y z] w], r as [[x' y' z'] w']. cbn [hv hw vx vy vz] in *. subst w'. f_equal. f_equal; nia.
Qed.
