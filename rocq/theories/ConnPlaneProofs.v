(** Sorting the edges of a plane, and the lines found in it. *)
From Coq Require Import List Bool Arith ZArith QArith Qfield Lia ZifyBool Lqa Sorted Permutation.
From Verif Require Import BigUIntModel GeoModel GeoSpec GeoProofs GeoAngleProofs GeoDirProofs GeoLineProofs TriSpec TriTileProofs ConnModel ConnSpec ConnTopProofs ConnPlaneModel ConnPlaneSpec.
Import ListNotations.
Open Scope Q_scope.

(** ** Coordinates *)
Lemma plane_cross nu nv nw du dv dw yu yv yw : ~ nw == 0 -> nu * du + nv * dv + nw * dw == 0 -> nu * yu + nv * yv + nw * yw == 0 -> yu * dv - yv * du == 0 ->
  yv * dw - yw * dv == 0 /\ yw * du - yu * dw == 0.
Proof.
  intros N D Y C.
  assert (A : nw * (yv * dw - yw * dv) == yv * (nu * du + nv * dv + nw * dw) - dv * (nu * yu + nv * yv + nw * yw) + nu * (yu * dv - yv * du)) by ring.
  assert (B : nw * (yw * du - yu * dw) == du * (nu * yu + nv * yv + nw * yw) - yu * (nu * du + nv * dv + nw * dw) + nv * (yu * dv - yv * du)) by ring.
  rewrite D, Y, C in A, B. split; [assert (Z : nw * (yv * dw - yw * dv) == 0) by (rewrite A; ring)|assert (Z : nw * (yw * du - yu * dw) == 0) by (rewrite B; ring)]; apply Qmult_integral in Z; tauto.
Qed.
Definition uu (drop : nat) : nat := ((drop + 1) mod 3)%nat.
Definition vv (drop : nat) : nat := ((drop + 2) mod 3)%nat.
Lemma drop_cases (P : nat -> Prop) drop : (drop < 3)%nat -> P 0%nat -> P 1%nat -> P 2%nat -> P drop.
Proof. intros H A B C. destruct drop as [|[|[|drop]]]; try assumption. lia. Qed.
Lemma qcomp_qpt v i : qcomp (qpt v) i = inject_Z (comp v i).
Proof. destruct i as [|[|i]]; reflexivity. Qed.
Lemma qcomp_cross drop a b : (drop < 3)%nat -> qcomp (qcross a b) drop = qcomp a (uu drop) * qcomp b (vv drop) - qcomp a (vv drop) * qcomp b (uu drop).
Proof. intros H. pattern drop. apply drop_cases; [exact H| | |]; reflexivity. Qed.
Lemma qdot_comp drop a b : (drop < 3)%nat -> qdot a b == qcomp a (uu drop) * qcomp b (uu drop) + qcomp a (vv drop) * qcomp b (vv drop) + qcomp a drop * qcomp b drop.
Proof. intros H. pattern drop. apply drop_cases; [exact H| | |]; unfold qdot; cbn [uu vv qcomp Nat.add Nat.modulo Nat.divmod fst snd Nat.sub]; ring. Qed.
Lemma qp_eq_comp drop a b : (drop < 3)%nat -> (qp_eq a b <-> qcomp a (uu drop) == qcomp b (uu drop) /\ qcomp a (vv drop) == qcomp b (vv drop) /\ qcomp a drop == qcomp b drop).
Proof. intros H. pattern drop. apply drop_cases; [exact H| | |]; unfold qp_eq; cbn [uu vv qcomp Nat.add Nat.modulo Nat.divmod fst snd Nat.sub]; tauto. Qed.
Lemma qcomp_sub a b i : qcomp (qsub a b) i == qcomp a i - qcomp b i.
Proof. destruct i as [|[|i]]; reflexivity. Qed.
Lemma qcomp_scale c a i : qcomp (qscale c a) i == c * qcomp a i.
Proof. destruct i as [|[|i]]; reflexivity. Qed.
Lemma qp_comp a b i : qp_eq a b -> qcomp a i == qcomp b i.
Proof. intros (A & B & C). destruct i as [|[|i]]; assumption. Qed.
Lemma line_points_diff l p x : line_points l p -> (line_points l x <-> qp_eq (qcross (qsub x p) (qpt (ld l))) (QP 0 0 0)).
Proof. unfold line_points, qp_eq, qcross, qsub. cbn [qx qy qz]. intros (A & B & C). rewrite <- A, <- B, <- C. split; intros (X & Y & Z); repeat split; lra. Qed.

Section Plane.
Context (plane : hspace3) (drop : nat) (Dr : (drop < 3)%nat) (Np : comp (hn plane) drop <> 0%Z).
Notation dir e := (drop_dim (ld (e_line e)) drop).
Notation sd := (sorted_dim drop).
Lemma np_q : ~ qcomp (qpt (hn plane)) drop == 0.
Proof. rewrite qcomp_qpt. intros H. apply Np. change 0 with (inject_Z 0) in H. apply (proj1 (inject_Z_injective _ _)) in H. exact H. Qed.
Lemma edge_dir e : edge_ok plane e -> qdot (qpt (hn plane)) (qpt (ld (e_line e))) == 0.
Proof.
  intros (P & (c & _ & C) & _). destruct (P (e_from e)) as (_ & _ & Sf); [auto|]. destruct (P (e_to e)) as (_ & _ & St); [auto|]. unfold side in *.
  assert (X : qdot (qpt (hn plane)) (qpt (ld (e_line e))) == c * (qdot (qpt (hn plane)) (hp_point (e_to e)) - qdot (qpt (hn plane)) (hp_point (e_from e)))).
  { unfold qp_eq, qscale, qsub in C. cbn [qx qy qz] in C. destruct C as (C1 & C2 & C3). unfold qdot. rewrite C1, C2, C3. ring. }
  rewrite X. assert (Y : qdot (qpt (hn plane)) (hp_point (e_to e)) - qdot (qpt (hn plane)) (hp_point (e_from e)) == 0) by lra. rewrite Y. ring.
Qed.
Lemma dir_nonzero e : edge_ok plane e -> nonzero2 (dir e).
Proof.
  intros H. pose proof (edge_dir e H) as D. destruct H as (_ & _ & V & _). unfold nonzero2. cbn [drop_dim x2 y2]. destruct (Z.eq_dec (comp (ld (e_line e)) ((drop + 1) mod 3)) 0) as [E1|E1]; [|left; exact E1]. right. intros E2.
  rewrite (qdot_comp drop _ _ Dr) in D. rewrite !qcomp_qpt in D. unfold uu, vv in D. rewrite E1, E2 in D.
  assert (Z : inject_Z (comp (hn plane) drop) * inject_Z (comp (ld (e_line e)) drop) == 0) by (change (inject_Z 0) with 0 in D; lra).
  rewrite <- inject_Z_mult in Z. change 0 with (inject_Z 0) in Z. apply (proj1 (inject_Z_injective _ _)) in Z. assert (E3 : comp (ld (e_line e)) drop = 0%Z) by nia.
  unfold pl_valid, v3_is_zero in V. clear -Dr E1 E2 E3 V. destruct drop as [|[|[|k]]]; [| | |lia]; cbn [comp Nat.add Nat.modulo Nat.divmod fst snd Nat.sub] in *; rewrite E1, E2, E3 in V; discriminate.
Qed.
Lemma sd_lt e : (sd e < 3)%nat.
Proof. unfold sorted_dim. destruct (_ =? _)%Z; apply Nat.mod_upper_bound; lia. Qed.
Lemma sd_cases e : edge_ok plane e -> comp (ld (e_line e)) (sd e) <> 0%Z /\ ((sd e = uu drop /\ x2 (dir e) <> 0%Z) \/ (sd e = vv drop /\ x2 (dir e) = 0%Z)).
Proof.
  intros H. pose proof (dir_nonzero e H) as N. unfold nonzero2 in N. cbn [drop_dim x2 y2] in *. unfold sorted_dim. destruct (comp (ld (e_line e)) ((drop + 1) mod 3) =? 0)%Z eqn:E.
  - split; [|right; split; [reflexivity|lia]]. destruct N as [N|N]; [lia|exact N].
  - split; [lia|left; split; [reflexivity|lia]].
Qed.
(** Directions are parallel if neither is less. *)
Definition hr (a b : ledge) : Prop := v2_half_rotation_lt (dir a) (dir b) = true.
Lemma hr_swo : strict_weak_order (edge_ok plane) hr.
Proof. apply (swo_pullback _ nonzero2 (fun e => dir e) _ (fun u v => v2_half_rotation_lt u v = true) half_rotation_swo); [exact dir_nonzero|intros; reflexivity]. Qed.
Lemma hr_parallel a b : (~ hr a b /\ ~ hr b a) <-> (y2 (dir a) * x2 (dir b) = y2 (dir b) * x2 (dir a))%Z.
Proof.
  unfold hr. rewrite !half_rotation_value. rewrite (xorb_comm (lower_b (dir b))). unfold zless_than. destruct (xorb _ _); rewrite !Z.ltb_lt; lia.
Qed.
Lemma same_opp a b : edge_ok plane a -> edge_ok plane b -> (v2_same_or_opposite_dir (dir a) (dir b) = true <-> ~ hr a b /\ ~ hr b a).
Proof.
  intros A B. rewrite hr_parallel. pose proof (dir_nonzero a A) as Na. unfold v2_same_or_opposite_dir, nonzero2 in *. rewrite andb_true_iff, !Z.eqb_eq. destruct (x2 (dir a) =? 0)%Z eqn:E; cbn [negb]; nia.
Qed.
Lemma sd_same a b : edge_ok plane a -> edge_ok plane b -> ~ hr a b -> ~ hr b a -> sd a = sd b.
Proof.
  intros A B H1 H2. pose proof (proj1 (hr_parallel a b) (conj H1 H2)) as P. pose proof (dir_nonzero a A) as Na. pose proof (dir_nonzero b B) as Nb. unfold nonzero2 in *.
  destruct (sd_cases a A) as (_ & [[-> X]|[-> X]]), (sd_cases b B) as (_ & [[-> Y]|[-> Y]]); try reflexivity; exfalso; rewrite ?X, ?Y in *; nia.
Qed.
Definition dist (e : ledge) : Q := inject_Z (comp (lm (e_line e)) drop) / inject_Z (comp (ld (e_line e)) (sd e)).
Definition beg (e : ledge) : Q := along (sd e) (h_begin (sd e) (e_half e)).
(** The order of the lines, and the order of the edges. *)
Definition lt1 (a b : ledge) : Prop := hr a b \/ (~ hr a b /\ ~ hr b a /\ dist a < dist b).
Definition lt2 (a b : ledge) : Prop := lt1 a b \/ (~ lt1 a b /\ ~ lt1 b a /\ beg a < beg b).
Lemma hr_dec a b : {hr a b} + {~ hr a b}.
Proof. apply bool_dec. Qed.
Lemma lt1_dec a b : {lt1 a b} + {~ lt1 a b}.
Proof.
  unfold lt1. destruct (hr_dec a b); [left; auto|]. destruct (hr_dec b a); [right; tauto|]. destruct (Qlt_le_dec (dist a) (dist b)); [left; auto|right]. intros [H|(_ & _ & H)]; [contradiction|lra].
Qed.
Lemma lt1_swo : strict_weak_order (edge_ok plane) lt1.
Proof. exact (swo_lex _ hr dist hr_dec hr_swo). Qed.
Lemma lt2_swo : strict_weak_order (edge_ok plane) lt2.
Proof. exact (swo_lex _ lt1 beg lt1_dec lt1_swo). Qed.
Lemma begin_ok e : edge_ok plane e -> hw (h_begin (sd e) (e_half e)) <> 0%Z.
Proof. intros (P & _). unfold h_begin. destruct (h_pos _ _); cbn [e_half h_from h_to]; apply P; auto. Qed.
Lemma edge_lt_value dbg a b : edge_ok plane a -> edge_ok plane b -> exists r, edge_lt dbg drop (Some a) (Some b) = Ok r /\ (r = true <-> lt2 a b).
Proof.
  intros A B. unfold edge_lt. pose proof (same_opp a b A B) as So. destruct (v2_same_or_opposite_dir (dir a) (dir b)) eqn:E; cbn [negb].
  - destruct (proj1 So eq_refl) as [H1 H2]. pose proof (sd_same a b A B H1 H2) as Sd. destruct (sd_cases a A) as [Da _]. destruct (sd_cases b B) as [Db _]. rewrite <- Sd in Db.
    pose proof (cross_mult (comp (lm (e_line a)) drop) _ (comp (lm (e_line b)) drop) _ Da Db) as C.
    assert (L1 : lt1 a b <-> dist a < dist b) by (unfold lt1; tauto). assert (L2 : lt1 b a <-> dist b < dist a) by (unfold lt1; tauto).
    assert (Dq : dist b = inject_Z (comp (lm (e_line b)) drop) / inject_Z (comp (ld (e_line b)) (sd a))) by (unfold dist; rewrite <- Sd; reflexivity).
    destruct (comp (lm (e_line a)) drop * comp (ld (e_line b)) (sd a) =? comp (lm (e_line b)) drop * comp (ld (e_line a)) (sd a))%Z eqn:F; cbn [negb].
    + eexists. split; [reflexivity|]. assert (Eq : dist a == dist b) by (rewrite Dq; apply C; lia). unfold lt2. rewrite L1, L2.
      pose proof (hp_lt_comp_spec (sd a) _ _ _ _ (hp_point_denotes _ (begin_ok a A)) (hp_point_denotes _ (begin_ok b B))) as Lc. rewrite <- Sd in Lc. unfold beg. rewrite <- Sd. unfold along.
      change (loc_lt (sd a)) with (hp_lt_comp (sd a)). split.
      * intros X. right. split; [lra|]. split; [lra|]. apply Lc. exact X.
      * intros [X|(_ & _ & X)]; [lra|]. apply Lc. exact X.
    + destruct (comp (ld (e_line a)) (sd a) =? 0)%Z eqn:Fa; [lia|]. destruct (comp (ld (e_line b)) (sd a) =? 0)%Z eqn:Fb; [lia|]. cbn [negb].
      assert (Ck : forall x, check dbg true = Ok x -> True) by auto. replace (check dbg true) with (Ok tt) by (destruct dbg; reflexivity). cbn [rbind]. eexists. split; [reflexivity|].
      assert (Ne : ~ dist a == dist b) by (rewrite Dq; intros X; apply C in X; lia).
      pose proof (rat_lt_spec (comp (lm (e_line a)) drop) _ (comp (lm (e_line b)) drop) _ Da Db) as R. unfold rat_lt in R. rewrite !zget_sign_neg in R. rewrite (xorb_comm (comp (ld (e_line b)) (sd a) <? 0)%Z). rewrite R. fold (dist a). rewrite <- Dq.
      unfold lt2. rewrite L1, L2. split; [tauto|]. intros [X|(X & Y & _)]; [exact X|]. exfalso. apply Ne. lra.
  - eexists. split; [reflexivity|]. assert (N : ~ (~ hr a b /\ ~ hr b a)) by (intros X; apply So in X; discriminate). change (v2_half_rotation_lt (dir a) (dir b) = true) with (hr a b).
    unfold lt2, lt1. destruct (hr_dec a b) as [H|H]; [tauto|]. destruct (hr_dec b a) as [H'|H']; [|tauto]. tauto.
Qed.

(** ** Lines *)
Lemma line_plane e x : edge_ok plane e -> (line_points (e_line e) x <-> side plane x == 0 /\
  qcomp x (uu drop) * qcomp (qpt (ld (e_line e))) (vv drop) - qcomp x (vv drop) * qcomp (qpt (ld (e_line e))) (uu drop) == inject_Z (comp (lm (e_line e)) drop)).
Proof.
  intros H. pose proof (edge_dir e H) as D. destruct (sd_cases e H) as [Ds _]. pose proof np_q as N. destruct H as (P & _). destruct (P (e_from e)) as (_ & Lf & Sf); [auto|]. clear P.
  set (f := hp_point (e_from e)) in *. set (d := qpt (ld (e_line e))) in *. set (n := qpt (hn plane)) in *.
  assert (Mf : qcomp f (uu drop) * qcomp d (vv drop) - qcomp f (vv drop) * qcomp d (uu drop) == inject_Z (comp (lm (e_line e)) drop)).
  { rewrite <- qcomp_cross by exact Dr. rewrite <- qcomp_qpt. apply qp_comp. exact Lf. }
  rewrite (line_points_diff _ f x Lf). rewrite (qp_eq_comp drop _ _ Dr).
  assert (Sd : side plane x == side plane f + qdot n (qsub x f)) by (unfold side, n, qdot, qsub; cbn [qx qy qz]; ring). rewrite Sd, Sf.
  rewrite (qdot_comp drop n d Dr) in D. rewrite (qdot_comp drop n (qsub x f) Dr). rewrite !qcomp_sub.
  assert (C3 : qcomp (qcross (qsub x f) d) drop == (qcomp x (uu drop) - qcomp f (uu drop)) * qcomp d (vv drop) - (qcomp x (vv drop) - qcomp f (vv drop)) * qcomp d (uu drop)) by (rewrite qcomp_cross by exact Dr; rewrite !qcomp_sub; reflexivity).
  assert (C1 : qcomp (qcross (qsub x f) d) (uu drop) == (qcomp x (vv drop) - qcomp f (vv drop)) * qcomp d drop - (qcomp x drop - qcomp f drop) * qcomp d (vv drop)).
  { clear -Dr. pattern drop. apply drop_cases; [exact Dr| | |]; reflexivity. }
  assert (C2 : qcomp (qcross (qsub x f) d) (vv drop) == (qcomp x drop - qcomp f drop) * qcomp d (uu drop) - (qcomp x (uu drop) - qcomp f (uu drop)) * qcomp d drop).
  { clear -Dr. pattern drop. apply drop_cases; [exact Dr| | |]; reflexivity. }
  fold d. rewrite C1, C2, C3. assert (Zc : forall i, qcomp (QP 0 0 0) i == 0) by (intros [|[|i]]; reflexivity). rewrite !Zc.
  assert (Nd : ~ qcomp d (uu drop) == 0 \/ ~ qcomp d (vv drop) == 0).
  { assert (Q : forall i, comp (ld (e_line e)) i <> 0%Z -> ~ qcomp d i == 0) by (intros i X Y; apply X; unfold d in Y; rewrite qcomp_qpt in Y; change 0 with (inject_Z 0) in Y; apply (proj1 (inject_Z_injective _ _)) in Y; exact Y).
    unfold sorted_dim in Ds. destruct (_ =? _)%Z in Ds; [right|left]; apply Q; exact Ds. }
  revert D N Mf Nd. generalize (qcomp x (uu drop)), (qcomp x (vv drop)), (qcomp x drop), (qcomp f (uu drop)), (qcomp f (vv drop)), (qcomp f drop), (qcomp d (uu drop)), (qcomp d (vv drop)), (qcomp d drop), (qcomp n (uu drop)), (qcomp n (vv drop)), (qcomp n drop), (inject_Z (comp (lm (e_line e)) drop)).
  clear. intros xu xv xw fu fv fw du dv dw nu nv nw m D N Mf Nd. split.
  - intros (A & B & C). split; [|lra].
    assert (E1 : (nu * (xu - fu) + nv * (xv - fv) + nw * (xw - fw)) * du == 0).
    { setoid_replace ((nu * (xu - fu) + nv * (xv - fv) + nw * (xw - fw)) * du) with ((xu - fu) * (nu * du + nv * dv + nw * dw) - nv * ((xu - fu) * dv - (xv - fv) * du) + nw * ((xw - fw) * du - (xu - fu) * dw)) by ring. rewrite D, B, C. ring. }
    assert (E2 : (nu * (xu - fu) + nv * (xv - fv) + nw * (xw - fw)) * dv == 0).
    { setoid_replace ((nu * (xu - fu) + nv * (xv - fv) + nw * (xw - fw)) * dv) with ((xv - fv) * (nu * du + nv * dv + nw * dw) + nu * ((xu - fu) * dv - (xv - fv) * du) - nw * ((xv - fv) * dw - (xw - fw) * dv)) by ring. rewrite D, A, C. ring. }
    apply Qmult_integral in E1, E2. destruct E1 as [E1|E1]; [lra|]. destruct E2 as [E2|E2]; [lra|]. tauto.
  - intros [Y C]. assert (Y' : nu * (xu - fu) + nv * (xv - fv) + nw * (xw - fw) == 0) by lra. assert (C' : (xu - fu) * dv - (xv - fv) * du == 0) by lra.
    destruct (plane_cross nu nv nw du dv dw _ _ _ N D Y' C') as [A B]. auto.
Qed.
Lemma same_line_2d a b : edge_ok plane a -> edge_ok plane b -> ((~ lt1 a b /\ ~ lt1 b a) <-> hs2_same_line (pl_project2d (e_line a) drop) (pl_project2d (e_line b) drop) = true).
Proof.
  intros A B. rewrite hs2_same_line_spec. unfold pl_project2d, l2d, v2_perp. cbn [hn2 hd2 x2 y2].
  pose proof (dir_nonzero a A) as Na. pose proof (dir_nonzero b B) as Nb. pose proof (hr_parallel a b) as Hp. unfold nonzero2, drop_dim in Na, Nb, Hp. cbn [x2 y2] in Na, Nb, Hp. cbn [drop_dim x2 y2].
  fold (uu drop) (vv drop) in *. destruct (sd_cases a A) as [Sa Sa']. destruct (sd_cases b B) as [Sb Sb'].
  split.
  - intros [L1 L2]. assert (H1 : ~ hr a b) by (unfold lt1 in L1; tauto). assert (H2 : ~ hr b a) by (unfold lt1 in L2; tauto). pose proof (proj1 Hp (conj H1 H2)) as Cr.
    assert (Eq : dist a == dist b). { unfold lt1 in L1, L2. destruct (Q_dec (dist a) (dist b)) as [[X|X]|X]; [tauto|tauto|exact X]. }
    unfold dist in Eq. rewrite (sd_same a b A B H1 H2) in Eq, Sa. apply (cross_mult _ _ _ _ Sa Sb) in Eq.
    exists (comp (ld (e_line b)) (sd b)), (comp (ld (e_line a)) (sd b)). split; [left; exact Sb|]. cbn [List.map]. rewrite !cons_eq. repeat split; try lia;
    destruct Sb' as [[-> X]|[-> X]]; cbn [drop_dim x2] in X; fold (uu drop) in X; lia.
  - intros (k & m & K & E). cbn [List.map] in E. rewrite !cons_eq in E. destruct E as (E1 & E2 & E3 & _).
    assert (Kk : k <> 0%Z). { intros ->. assert (m <> 0%Z) by tauto. destruct Nb as [X|X]; apply X; nia. }
    assert (Km : m <> 0%Z). { intros ->. destruct Na as [X|X]; apply X; nia. }
    assert (Cr : (comp (ld (e_line a)) (vv drop) * comp (ld (e_line b)) (uu drop) = comp (ld (e_line b)) (vv drop) * comp (ld (e_line a)) (uu drop))%Z).
    { apply (Z.mul_reg_l _ _ (k * m)); [nia|]. replace (k * m * (comp (ld (e_line a)) (vv drop) * comp (ld (e_line b)) (uu drop)))%Z with ((k * - comp (ld (e_line a)) (vv drop)) * (m * - comp (ld (e_line b)) (uu drop)))%Z by ring. rewrite E1. replace (m * - comp (ld (e_line b)) (uu drop))%Z with (- (k * comp (ld (e_line a)) (uu drop)))%Z by lia. ring. }
    apply Hp in Cr. destruct Cr as [H1 H2]. pose proof (sd_same a b A B H1 H2) as Sd.
    assert (Eq : dist a == dist b). { unfold dist. rewrite Sd in Sa |- *. apply (cross_mult _ _ _ _ Sa Sb). apply (Z.mul_reg_l _ _ k); [exact Kk|].
      assert (Ed : (k * comp (ld (e_line a)) (sd b) = m * comp (ld (e_line b)) (sd b))%Z) by (destruct Sb' as [[-> _]|[-> _]]; lia).
      replace (k * (comp (lm (e_line a)) drop * comp (ld (e_line b)) (sd b)))%Z with ((k * comp (lm (e_line a)) drop) * comp (ld (e_line b)) (sd b))%Z by ring. replace (k * comp (lm (e_line a)) drop)%Z with (m * comp (lm (e_line b)) drop)%Z by lia.
      replace (k * (comp (lm (e_line b)) drop * comp (ld (e_line a)) (sd b)))%Z with (comp (lm (e_line b)) drop * (k * comp (ld (e_line a)) (sd b)))%Z by ring. rewrite Ed. ring. }
    unfold lt1. split; intros [X|(_ & _ & X)]; try contradiction; lra.
Qed.
Lemma same_line_lt1 a b : edge_ok plane a -> edge_ok plane b -> ((~ lt1 a b /\ ~ lt1 b a) <-> same_line a b).
Proof.
  intros A B. rewrite (same_line_2d a b A B), hs2_same_line_spec. unfold pl_project2d, l2d, v2_perp. cbn [hn2 hd2 x2 y2 drop_dim]. fold (uu drop) (vv drop).
  pose proof (dir_nonzero a A) as Na. pose proof (dir_nonzero b B) as Nb. unfold nonzero2, drop_dim in Na, Nb. cbn [x2 y2] in Na, Nb. fold (uu drop) (vv drop) in Na, Nb.
  split.
  - intros (k & m & K & E). cbn [List.map] in E. rewrite !cons_eq in E. destruct E as (E1 & E2 & E3 & _).
    assert (Kk : k <> 0%Z). { intros ->. assert (m <> 0%Z) by tauto. destruct Nb as [X|X]; apply X; nia. }
    assert (Km : m <> 0%Z). { intros ->. destruct Na as [X|X]; apply X; nia. }
    intros v. rewrite (line_plane a v A), (line_plane b v B). rewrite !qcomp_qpt.
    assert (Q1 : inject_Z k * inject_Z (comp (ld (e_line a)) (vv drop)) == inject_Z m * inject_Z (comp (ld (e_line b)) (vv drop))) by (rewrite <- !inject_Z_mult; apply (proj2 (inject_Z_injective _ _)); lia).
    assert (Q2 : inject_Z k * inject_Z (comp (ld (e_line a)) (uu drop)) == inject_Z m * inject_Z (comp (ld (e_line b)) (uu drop))) by (rewrite <- !inject_Z_mult; apply (proj2 (inject_Z_injective _ _)); lia).
    assert (Q3 : inject_Z k * inject_Z (comp (lm (e_line a)) drop) == inject_Z m * inject_Z (comp (lm (e_line b)) drop)) by (rewrite <- !inject_Z_mult; apply (proj2 (inject_Z_injective _ _)); lia).
    pose proof (inject_Z_neq0 _ Kk) as Nk. pose proof (inject_Z_neq0 _ Km) as Nm. revert Q1 Q2 Q3 Nk Nm.
    generalize (inject_Z k), (inject_Z m), (inject_Z (comp (ld (e_line a)) (vv drop))), (inject_Z (comp (ld (e_line a)) (uu drop))), (inject_Z (comp (ld (e_line b)) (vv drop))), (inject_Z (comp (ld (e_line b)) (uu drop))), (inject_Z (comp (lm (e_line a)) drop)), (inject_Z (comp (lm (e_line b)) drop)), (qcomp v (uu drop)), (qcomp v (vv drop)).
    clear. intros k m av au bv bu ma mb p q Q1 Q2 Q3 Nk Nm.
    assert (I : k * (p * av - q * au - ma) == m * (p * bv - q * bu - mb)). { setoid_replace (k * (p * av - q * au - ma)) with (p * (k * av) - q * (k * au) - k * ma) by ring. rewrite Q1, Q2, Q3. ring. }
    split; intros [X Y]; (split; [exact X|]).
    + assert (Z : m * (p * bv - q * bu - mb) == 0) by (rewrite <- I; setoid_replace (p * av - q * au - ma) with 0 by lra; ring). apply Qmult_integral in Z. destruct Z as [Z|Z]; [contradiction|lra].
    + assert (Z : k * (p * av - q * au - ma) == 0) by (rewrite I; setoid_replace (p * bv - q * bu - mb) with 0 by lra; ring). apply Qmult_integral in Z. destruct Z as [Z|Z]; [contradiction|lra].
  - intros H. destruct (A) as (Pa & (c & Cp & Cd) & _). destruct (Pa (e_from a)) as (_ & Fa & _); [auto|]. destruct (Pa (e_to a)) as (_ & Ta & _); [auto|].
    pose proof (proj1 (H _) Fa) as Fb. pose proof (proj1 (H _) Ta) as Tb. apply (line_plane b _ B) in Fb, Tb. apply (line_plane a _ A) in Fa. destruct Fb as [_ Fb], Tb as [_ Tb], Fa as [_ Fa].
    pose proof (qp_comp _ _ (uu drop) Cd) as Cu. pose proof (qp_comp _ _ (vv drop) Cd) as Cv. rewrite qcomp_scale, qcomp_sub in Cu, Cv. rewrite !qcomp_qpt in *.
    set (fu := qcomp (hp_point (e_from a)) (uu drop)) in *. set (fv := qcomp (hp_point (e_from a)) (vv drop)) in *. set (tu := qcomp (hp_point (e_to a)) (uu drop)) in *. set (tv := qcomp (hp_point (e_to a)) (vv drop)) in *.
    set (au := comp (ld (e_line a)) (uu drop)) in *. set (av := comp (ld (e_line a)) (vv drop)) in *. set (bu := comp (ld (e_line b)) (uu drop)) in *. set (bv := comp (ld (e_line b)) (vv drop)) in *. set (ma := comp (lm (e_line a)) drop) in *. set (mb := comp (lm (e_line b)) drop) in *.
    assert (Cr : (au * bv = av * bu)%Z).
    { apply (proj1 (inject_Z_injective _ _)). rewrite !inject_Z_mult, Cu, Cv. assert (X : c * ((tu - fu) * inject_Z bv - (tv - fv) * inject_Z bu) == 0) by (setoid_replace ((tu - fu) * inject_Z bv - (tv - fv) * inject_Z bu) with 0 by lra; ring). setoid_replace (c * (tu - fu) * inject_Z bv) with (c * (tv - fv) * inject_Z bu + c * ((tu - fu) * inject_Z bv - (tv - fv) * inject_Z bu)) by ring. rewrite X. ring. }
    assert (Cq : inject_Z au * inject_Z bv == inject_Z av * inject_Z bu) by (rewrite <- !inject_Z_mult, Cr; reflexivity).
    assert (Mu : (bu * ma = au * mb)%Z).
    { apply (proj1 (inject_Z_injective _ _)). rewrite !inject_Z_mult, <- Fa, <- Fb. setoid_replace (inject_Z bu * (fu * inject_Z av - fv * inject_Z au)) with (fu * (inject_Z av * inject_Z bu) - fv * inject_Z au * inject_Z bu) by ring. rewrite <- Cq. ring. }
    assert (Mv : (bv * ma = av * mb)%Z).
    { apply (proj1 (inject_Z_injective _ _)). rewrite !inject_Z_mult, <- Fa, <- Fb. setoid_replace (inject_Z bv * (fu * inject_Z av - fv * inject_Z au)) with (fu * inject_Z av * inject_Z bv - fv * (inject_Z au * inject_Z bv)) by ring. rewrite Cq. ring. }
    destruct Nb as [X|X]; [exists bu, au|exists bv, av]; (split; [left; exact X|]); cbn [List.map]; rewrite !cons_eq; repeat split; lia.
Qed.
End Plane.
