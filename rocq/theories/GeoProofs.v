(** Proofs about GeoModel: rationals, vectors, points. *)
From Coq Require Import ZArith QArith Qfield List Bool Lia Lqa ZifyBool.
From Verif Require Import BigUIntModel GeoModel GeoSpec.
Import ListNotations.
Open Scope Z_scope.

(** ** Signs *)
Lemma zwords_pos v : 1 <= zwords v.
Proof.
  unfold zwords. assert (0 <= Z.log2 (if v <? 0 then - v - 1 else v)) by apply Z.log2_nonneg.
  assert (0 <= (Z.log2 (if v <? 0 then - v - 1 else v) + (if (v =? 0) || (v =? -1) then 0 else 1)) / 64).
  { apply Z.div_pos; [destruct ((v =? 0) || (v =? -1)); lia|lia]. } lia.
Qed.
Lemma zget_sign_sgn v : Z.sgn (zget_sign v) = Z.sgn v.
Proof.
  destruct (Z.eq_dec v 0) as [->|Hv]; [reflexivity|].
  unfold zget_sign. pose proof (zwords_pos v) as Hk. set (k := zwords v - 1) in *.
  assert (Hkk : 0 <= k) by lia. clearbody k. clear Hk.
  assert (Hp : 0 < 2 ^ (64 * k)) by (apply Z.pow_pos_nonneg; lia).
  destruct (Z.lt_trichotomy v 0) as [H|[H|H]]; [|lia|].
  - assert (Hq : v / 2 ^ (64 * k) < 0) by (apply Z.div_lt_upper_bound; lia).
    rewrite (Z.sgn_neg v) by lia. apply Z.sgn_neg. apply Z.lor_neg. left; exact Hq.
  - assert (Hq : 0 <= v / 2 ^ (64 * k)) by (apply Z.div_pos; lia).
    rewrite (Z.sgn_pos v) by lia. apply Z.sgn_pos.
    assert (0 <= Z.lor (v / 2 ^ (64 * k)) k) by (apply Z.lor_nonneg; lia).
    destruct (Z.eq_dec (Z.lor (v / 2 ^ (64 * k)) k) 0) as [E|E]; [|lia].
    apply Z.lor_eq_0_iff in E. destruct E as [E1 E2]. subst k.
    change (64 * 0) with 0 in E1. rewrite Z.pow_0_r, Z.div_1_r in E1. lia.
Qed.
Lemma zget_sign_neg v : (zget_sign v <? 0) = (v <? 0).
Proof. pose proof (zget_sign_sgn v). destruct (zget_sign v <? 0) eqn:E, (v <? 0) eqn:F; lia. Qed.
Lemma zget_sign_nonneg v : (0 <=? zget_sign v) = (0 <=? v).
Proof. pose proof (zget_sign_sgn v). destruct (0 <=? zget_sign v) eqn:E, (0 <=? v) eqn:F; lia. Qed.
Lemma lxor_neg a b : (Z.lxor a b <? 0) = xorb (a <? 0) (b <? 0).
Proof.
  pose proof (Z.lxor_nonneg a b) as H.
  destruct (Z.lxor a b <? 0) eqn:E, (a <? 0) eqn:F, (b <? 0) eqn:G; cbn [xorb]; try reflexivity; exfalso; lia.
Qed.
Lemma lxor_nonneg_b a b : (0 <=? Z.lxor a b) = negb (xorb (a <? 0) (b <? 0)).
Proof. rewrite <- lxor_neg. destruct (Z.lxor a b <? 0) eqn:E; lia. Qed.
Lemma zdiff_sign_spec a b : zdiff_sign a b = xorb (a <? 0) (b <? 0).
Proof. unfold zdiff_sign. rewrite lxor_neg, !zget_sign_neg. reflexivity. Qed.
Lemma zabs_mult_spec v : zabs_mult v = if v <? 0 then -1 else 1.
Proof. unfold zabs_mult, zsign_ext. destruct (v <? 0); reflexivity. Qed.
Lemma zabs_mult_sgn v : v <> 0 -> zabs_mult v = Z.sgn v.
Proof. intros H. rewrite zabs_mult_spec. destruct (v <? 0) eqn:E; lia. Qed.
Lemma zabs_mult2_spec v o : zabs_mult2 v o = if xorb (v <? 0) (o <? 0) then -1 else 1.
Proof. unfold zabs_mult2, zsign_ext. destruct (v <? 0), (o <? 0); reflexivity. Qed.
Lemma zabs_mult2_sgn v o : v <> 0 -> o <> 0 -> zabs_mult2 v o = Z.sgn v * Z.sgn o.
Proof. intros H H'. rewrite zabs_mult2_spec. destruct (v <? 0) eqn:E, (o <? 0) eqn:F; cbn [xorb]; lia. Qed.
Lemma zcompare_sgn a b : zcompare a b = Z.sgn (a - b).
Proof. unfold zcompare. destruct (Z.compare_spec a b); lia. Qed.
Lemma zabs_ok v : v <> - 2 ^ 63 -> zabs v = Ok (Z.abs v).
Proof. unfold zabs. intros H. destruct (v =? - 2 ^ 63) eqn:E; [apply Z.eqb_eq in E; contradiction|reflexivity]. Qed.
Lemma zabs_inv v r : zabs v = Ok r -> r = Z.abs v.
Proof. unfold zabs. destruct (v =? - 2 ^ 63); congruence. Qed.

(** ** Signs of rationals against signs of integers *)
Lemma qsign_comp p q : (p == q)%Q -> qsign p = qsign q.
Proof. unfold qsign, Qeq. destruct p as [a b], q as [c d]; cbn [Qnum Qden]. intros H.
  destruct a, c; try reflexivity; cbn in H; try discriminate H. Qed.
Lemma qsign_mult p q : qsign (p * q) = qsign p * qsign q.
Proof. unfold qsign. destruct p as [a b], q as [c d]; cbn [Qmult Qnum]. apply Z.sgn_mul. Qed.
Lemma qsign_inject z : qsign (inject_Z z) = Z.sgn z.
Proof. reflexivity. Qed.
Lemma qsign_pos q : qsign q = 1 <-> (0 < q)%Q.
Proof. unfold qsign, Qlt. destruct q as [a b]; cbn [Qnum Qden]. lia. Qed.
Lemma qsign_neg q : qsign q = -1 <-> (q < 0)%Q.
Proof. unfold qsign, Qlt. destruct q as [a b]; cbn [Qnum Qden]. lia. Qed.
Lemma qsign_zero q : qsign q = 0 <-> (q == 0)%Q.
Proof. unfold qsign, Qeq. destruct q as [a b]; cbn [Qnum Qden]. lia. Qed.
Lemma qsign_sub_lt a b : qsign (a - b) = -1 <-> (a < b)%Q.
Proof. rewrite qsign_neg. split; intros; lra. Qed.
Lemma qsign_sub_gt a b : qsign (a - b) = 1 <-> (b < a)%Q.
Proof. rewrite qsign_pos. split; intros; lra. Qed.
Lemma qsign_sub_eq a b : qsign (a - b) = 0 <-> (a == b)%Q.
Proof. rewrite qsign_zero. split; intros; lra. Qed.
Lemma qsign_range q : qsign q = -1 \/ qsign q = 0 \/ qsign q = 1.
Proof. unfold qsign. lia. Qed.
(** The bridge from integers to rationals. *)
Lemma sgn_of_q e k r : (inject_Z e == r * inject_Z k)%Q -> Z.sgn e = qsign r * Z.sgn k.
Proof. intros H. rewrite <- (qsign_inject e), (qsign_comp _ _ H), qsign_mult. reflexivity. Qed.
Lemma inject_Z_sub a b : inject_Z (a - b) = (inject_Z a - inject_Z b)%Q.
Proof. unfold Z.sub. rewrite inject_Z_plus, inject_Z_opp. reflexivity. Qed.
Lemma inject_Z_neq0 z : z <> 0 -> ~ (inject_Z z == 0)%Q.
Proof. intros H E. apply H. unfold Qeq in E. cbn in E. lia. Qed.
Lemma inject_Z_abs z : inject_Z (Z.abs z) = (inject_Z (Z.sgn z) * inject_Z z)%Q.
Proof. rewrite <- inject_Z_mult. f_equal. lia. Qed.
Ltac qpush_in H := repeat (rewrite inject_Z_sub in H || rewrite inject_Z_plus in H || rewrite inject_Z_mult in H || rewrite inject_Z_opp in H).
Ltac qpush := repeat (rewrite inject_Z_sub || rewrite inject_Z_plus || rewrite inject_Z_mult || rewrite inject_Z_opp).

(** Every valid homogeneous point denotes a rational point, and only one. *)
Lemma denotes_exists p : hw p <> 0 -> exists q, denotes p q.
Proof.
  intros H. pose proof (inject_Z_neq0 _ H).
  exists (QP (inject_Z (vx (hv p)) / inject_Z (hw p)) (inject_Z (vy (hv p)) / inject_Z (hw p)) (inject_Z (vz (hv p)) / inject_Z (hw p))).
  unfold denotes; cbn [qx qy qz]. split; [exact H|]. repeat split; field; assumption.
Qed.
Lemma denotes_unique p q q' : denotes p q -> denotes p q' -> qp_eq q q'.
Proof.
  intros (H & Hx & Hy & Hz) (_ & Hx' & Hy' & Hz'). pose proof (inject_Z_neq0 _ H).
  unfold qp_eq. repeat split; apply (Qmult_inj_r _ _ (inject_Z (hw p))); auto.
  - rewrite <- Hx, <- Hx'; reflexivity.
  - rewrite <- Hy, <- Hy'; reflexivity.
  - rewrite <- Hz, <- Hz'; reflexivity.
Qed.
Lemma denotes_comp p q i : denotes p q -> (inject_Z (comp (hv p) i) == qcomp q i * inject_Z (hw p))%Q.
Proof. intros (H & Hx & Hy & Hz). destruct i as [|[|i]]; cbn [comp qcomp]; assumption. Qed.

(** ** rational.h *)
Lemma rat_lt_spec n1 d1 n2 d2 : d1 <> 0 -> d2 <> 0 ->
  (rat_lt n1 d1 n2 d2 = true <-> (inject_Z n1 / inject_Z d1 < inject_Z n2 / inject_Z d2)%Q).
Proof.
  intros H1 H2. pose proof (inject_Z_neq0 _ H1). pose proof (inject_Z_neq0 _ H2).
  assert (E : Z.sgn (n1 * d2 - n2 * d1) = qsign (inject_Z n1 / inject_Z d1 - inject_Z n2 / inject_Z d2) * Z.sgn (d1 * d2)).
  { apply sgn_of_q. qpush. field; split; assumption. }
  rewrite Z.sgn_mul in E. rewrite <- qsign_sub_lt.
  unfold rat_lt, zless_than. rewrite !zget_sign_neg.
  destruct (qsign_range (inject_Z n1 / inject_Z d1 - inject_Z n2 / inject_Z d2)) as [Q|[Q|Q]]; rewrite Q in *;
  destruct (d1 <? 0) eqn:S1, (d2 <? 0) eqn:S2; cbn [xorb];
  assert (Z.sgn d1 = if d1 <? 0 then -1 else 1) as X1 by (rewrite S1; lia);
  assert (Z.sgn d2 = if d2 <? 0 then -1 else 1) as X2 by (rewrite S2; lia); rewrite S1 in X1; rewrite S2 in X2;
  rewrite X1, X2 in E; cbn in E; clear -E; generalize dependent (n1 * d2); generalize dependent (n2 * d1); intros; lia.
Qed.
Lemma rat_eq_spec n1 d1 n2 d2 : d1 <> 0 -> d2 <> 0 ->
  (rat_eq n1 d1 n2 d2 = true <-> (inject_Z n1 / inject_Z d1 == inject_Z n2 / inject_Z d2)%Q).
Proof.
  intros H1 H2. pose proof (inject_Z_neq0 _ H1). pose proof (inject_Z_neq0 _ H2).
  assert (E : Z.sgn (n1 * d2 - n2 * d1) = qsign (inject_Z n1 / inject_Z d1 - inject_Z n2 / inject_Z d2) * Z.sgn (d1 * d2)).
  { apply sgn_of_q. qpush. field; split; assumption. }
  rewrite Z.sgn_mul in E. rewrite <- qsign_sub_eq. unfold rat_eq.
  assert (Z.sgn d1 * Z.sgn d2 <> 0) by nia.
  destruct (n1 * d2 =? n2 * d1) eqn:F; split; intros G; try reflexivity; try discriminate; try nia.
Qed.
Lemma frac_sgn a b c d : b <> 0 -> d <> 0 ->
  Z.sgn (c * b - a * d) = qsign (inject_Z c / inject_Z d - inject_Z a / inject_Z b) * Z.sgn (b * d).
Proof.
  intros H1 H2. pose proof (inject_Z_neq0 _ H1). pose proof (inject_Z_neq0 _ H2).
  apply sgn_of_q. qpush. field; split; assumption.
Qed.
Lemma frac_le a b c d : b <> 0 -> d <> 0 ->
  ((inject_Z a / inject_Z b <= inject_Z c / inject_Z d)%Q <-> 0 <= Z.sgn b * Z.sgn d * (c * b - a * d)).
Proof.
  intros H1 H2. pose proof (frac_sgn a b c d H1 H2) as E. rewrite Z.sgn_mul in E.
  pose proof (qsign_sub_lt (inject_Z c / inject_Z d) (inject_Z a / inject_Z b)) as L.
  assert (N : (inject_Z a / inject_Z b <= inject_Z c / inject_Z d)%Q <->
              ~ (inject_Z c / inject_Z d < inject_Z a / inject_Z b)%Q).
  { split; [apply Qle_not_lt|apply Qnot_lt_le]. }
  rewrite N, <- L. clear N L.
  generalize dependent (qsign (inject_Z c / inject_Z d - inject_Z a / inject_Z b)).
  generalize (c * b - a * d). intros e s E.
  assert (S1 : Z.sgn b = 1 \/ Z.sgn b = -1) by lia. assert (S2 : Z.sgn d = 1 \/ Z.sgn d = -1) by lia.
  destruct S1 as [S1|S1], S2 as [S2|S2]; rewrite S1, S2 in *; lia.
Qed.
Lemma zdiv_rem_ok a b : b <> 0 -> ~ (a = - 2 ^ 63 /\ b = -1) -> zdiv_rem a b = Ok (Z.quot a b, Z.rem a b).
Proof.
  intros H1 H2. unfold zdiv_rem. destruct (b =? 0) eqn:E; [lia|].
  destruct ((a =? - 2 ^ 63) && (b =? -1)) eqn:F; [|reflexivity]. exfalso; apply H2.
  apply andb_true_iff in F. destruct F as [F1 F2]. apply Z.eqb_eq in F1, F2. split; assumption.
Qed.
Lemma quot_rem_facts a b : b <> 0 -> a = b * Z.quot a b + Z.rem a b /\ Z.abs (Z.rem a b) < Z.abs b /\ 0 <= Z.rem a b * a.
Proof. intros H. split; [apply Z.quot_rem, H|]. split; [apply Z.rem_bound_abs, H|apply Z.rem_sign_mul, H]. Qed.
(** The integer meaning of the two rounding functions. *)
Lemma round_up_value num od nd : od <> 0 -> nd <> 0 -> ~ (num * nd = - 2 ^ 63 /\ od = -1) ->
  exists r, round_up num od nd = Ok r /\
    0 <= Z.sgn od * Z.sgn nd * (r * od - num * nd) /\
    Z.sgn od * Z.sgn nd * (r * od - num * nd) < Z.abs od.
Proof.
  intros H1 H2 H3. unfold round_up. rewrite (zdiv_rem_ok _ _ H1 H3). cbn [rbind fst snd].
  destruct (quot_rem_facts (num * nd) od H1) as (E & B & _).
  generalize dependent (Z.quot (num * nd) od); generalize dependent (Z.rem (num * nd) od).
  intros m B q E. eexists. split; [reflexivity|].
  rewrite lxor_nonneg_b, lxor_neg, !zget_sign_neg, zabs_mult_sgn by exact H2.
  rewrite E. clear E H3.
  destruct (od <? 0) eqn:S1, (nd <? 0) eqn:S2, (m <? 0) eqn:S3, (m =? 0) eqn:S4; cbn [xorb negb andb]; try lia;
  (assert (X1 : Z.sgn od = if od <? 0 then -1 else 1) by (rewrite S1; lia));
  (assert (X2 : Z.sgn nd = if nd <? 0 then -1 else 1) by (rewrite S2; lia)); rewrite S1 in X1; rewrite S2 in X2;
  rewrite X1, X2; nia.
Qed.
Lemma round_down_value num od nd : od <> 0 -> nd <> 0 -> ~ (num * nd = - 2 ^ 63 /\ od = -1) ->
  exists r, round_down num od nd = Ok r /\
    Z.sgn od * Z.sgn nd * (r * od - num * nd) <= 0 /\
    - Z.abs od < Z.sgn od * Z.sgn nd * (r * od - num * nd).
Proof.
  intros H1 H2 H3. unfold round_down. rewrite (zdiv_rem_ok _ _ H1 H3). cbn [rbind fst snd].
  destruct (quot_rem_facts (num * nd) od H1) as (E & B & _).
  generalize dependent (Z.quot (num * nd) od); generalize dependent (Z.rem (num * nd) od).
  intros m B q E. eexists. split; [reflexivity|].
  rewrite !lxor_neg, !zget_sign_neg, zabs_mult_sgn by exact H2.
  rewrite E. clear E H3.
  destruct (od <? 0) eqn:S1, (nd <? 0) eqn:S2, (m <? 0) eqn:S3, (m =? 0) eqn:S4; cbn [xorb negb andb]; try lia;
  (assert (X1 : Z.sgn od = if od <? 0 then -1 else 1) by (rewrite S1; lia));
  (assert (X2 : Z.sgn nd = if nd <? 0 then -1 else 1) by (rewrite S2; lia)); rewrite S1 in X1; rewrite S2 in X2;
  rewrite X1, X2; nia.
Qed.
Lemma same_den_le r k nd : nd <> 0 ->
  ((inject_Z r / inject_Z nd <= inject_Z k / inject_Z nd)%Q <-> 0 <= Z.sgn nd * (k - r)).
Proof. intros H. rewrite frac_le by exact H. assert (S1 : Z.sgn nd = 1 \/ Z.sgn nd = -1) by lia.
  replace (k * nd - r * nd) with ((k - r) * nd) by ring. generalize (k - r); intros z.
  destruct S1 as [S1|S1]; rewrite S1; nia. Qed.
Lemma round_up_spec num od nd : od <> 0 -> nd <> 0 -> ~ (num * nd = - 2 ^ 63 /\ od = -1) ->
  exists r, round_up num od nd = Ok r /\ (inject_Z num / inject_Z od <= inject_Z r / inject_Z nd)%Q /\
    forall k, (inject_Z num / inject_Z od <= inject_Z k / inject_Z nd)%Q -> (inject_Z r / inject_Z nd <= inject_Z k / inject_Z nd)%Q.
Proof.
  intros H1 H2 H3. destruct (round_up_value num od nd H1 H2 H3) as (r & E & A & B).
  exists r. split; [exact E|]. rewrite frac_le by assumption. split; [exact A|].
  intros k. rewrite frac_le, same_den_le by assumption. clear E H3. generalize dependent (num * nd). intros p A B C.
  assert (S1 : Z.sgn od = 1 \/ Z.sgn od = -1) by lia. assert (S2 : Z.sgn nd = 1 \/ Z.sgn nd = -1) by lia.
  destruct S1 as [S1|S1], S2 as [S2|S2]; rewrite ?S1, ?S2 in *; nia.
Qed.
Lemma round_down_spec num od nd : od <> 0 -> nd <> 0 -> ~ (num * nd = - 2 ^ 63 /\ od = -1) ->
  exists r, round_down num od nd = Ok r /\ (inject_Z r / inject_Z nd <= inject_Z num / inject_Z od)%Q /\
    forall k, (inject_Z k / inject_Z nd <= inject_Z num / inject_Z od)%Q -> (inject_Z k / inject_Z nd <= inject_Z r / inject_Z nd)%Q.
Proof.
  intros H1 H2 H3. destruct (round_down_value num od nd H1 H2 H3) as (r & E & A & B).
  exists r. split; [exact E|]. rewrite frac_le by assumption. clear E H3.
  assert (S1 : Z.sgn od = 1 \/ Z.sgn od = -1) by lia. assert (S2 : Z.sgn nd = 1 \/ Z.sgn nd = -1) by lia.
  split.
  - generalize dependent (num * nd). intros p A B.
    destruct S1 as [S1|S1], S2 as [S2|S2]; rewrite ?S1, ?S2 in *; nia.
  - intros k. rewrite frac_le, same_den_le by assumption. generalize dependent (num * nd). intros p A B C.
    destruct S1 as [S1|S1], S2 as [S2|S2]; rewrite ?S1, ?S2 in *; nia.
Qed.

(** ** Components of homogeneous points *)
Lemma hp_comp_sgn i a b qa qb : denotes a qa -> denotes b qb ->
  Z.sgn (comp (hv a) i * hw b - comp (hv b) i * hw a) = qsign (qcomp qa i - qcomp qb i) * (Z.sgn (hw a) * Z.sgn (hw b)).
Proof.
  intros Ha Hb. rewrite <- Z.sgn_mul. apply sgn_of_q. qpush.
  rewrite (denotes_comp a qa i Ha), (denotes_comp b qb i Hb). ring.
Qed.
Lemma hp_compare_comp_spec i a b qa qb : denotes a qa -> denotes b qb ->
  hp_compare_comp i a b = qsign (qcomp qa i - qcomp qb i).
Proof.
  intros Ha Hb. unfold hp_compare_comp. rewrite zcompare_sgn, (hp_comp_sgn i a b qa qb Ha Hb).
  destruct Ha as [Ha _], Hb as [Hb _]. rewrite zabs_mult2_sgn by assumption.
  assert (S1 : Z.sgn (hw a) = 1 \/ Z.sgn (hw a) = -1) by lia. assert (S2 : Z.sgn (hw b) = 1 \/ Z.sgn (hw b) = -1) by lia.
  destruct S1 as [S1|S1], S2 as [S2|S2]; rewrite S1, S2; lia.
Qed.
Lemma zero_scale p q s t : (s = 1 \/ s = -1) -> (t = 1 \/ t = -1) -> Z.sgn p = qsign q * (s * t) -> (p = 0 <-> (q == 0)%Q).
Proof. intros [-> | ->] [-> | ->] H; rewrite <- qsign_zero; lia. Qed.
Lemma hp_zero_comp i a b qa qb : denotes a qa -> denotes b qb ->
  (comp (hv a) i * hw b = comp (hv b) i * hw a <-> (qcomp qa i == qcomp qb i)%Q).
Proof.
  intros Ha Hb. rewrite <- Z.sub_0_r, <- (Z.sub_diag (comp (hv b) i * hw a)) at 1.
  pose proof (hp_comp_sgn i a b qa qb Ha Hb) as E. destruct Ha as [Ha _], Hb as [Hb _].
  assert (S1 : Z.sgn (hw a) = 1 \/ Z.sgn (hw a) = -1) by lia. assert (S2 : Z.sgn (hw b) = 1 \/ Z.sgn (hw b) = -1) by lia.
  pose proof (zero_scale _ _ _ _ S1 S2 E) as Z. rewrite <- qsign_sub_eq, qsign_zero, <- Z. lia.
Qed.
Lemma hp_equiv_comp_spec i a b qa qb : denotes a qa -> denotes b qb ->
  (hp_equiv_comp i a b = true <-> (qcomp qa i == qcomp qb i)%Q).
Proof. intros Ha Hb. unfold hp_equiv_comp. rewrite Z.eqb_eq. apply hp_zero_comp; assumption. Qed.
Lemma hp_eq_spec a b qa qb : denotes a qa -> denotes b qb -> (hp_eq a b = true <-> qp_eq qa qb).
Proof.
  intros Ha Hb. unfold hp_eq, v3_eq, v3_scale. cbn [vx vy vz]. rewrite !andb_true_iff, !Z.eqb_eq.
  pose proof (hp_zero_comp 0 a b qa qb Ha Hb). pose proof (hp_zero_comp 1 a b qa qb Ha Hb).
  pose proof (hp_zero_comp 2 a b qa qb Ha Hb). cbn [comp qcomp] in *. unfold qp_eq. tauto.
Qed.
Lemma hp_eq_pt_spec a v qa : denotes a qa -> (hp_eq_pt a v = true <-> qp_eq qa (qpt v)).
Proof.
  intros Ha. assert (Hb : denotes (HP v 1) (qpt v)).
  { unfold denotes, qpt; cbn [hw hv qx qy qz]. repeat split; try discriminate; change (inject_Z 1) with 1%Q; ring. }
  rewrite <- (hp_eq_spec a (HP v 1) qa (qpt v) Ha Hb). unfold hp_eq_pt, hp_eq, v3_eq, v3_scale; cbn [hv hw vx vy vz].
  rewrite !Z.mul_1_r. reflexivity.
Qed.
Lemma hp_lt_comp_spec i a b qa qb : denotes a qa -> denotes b qb ->
  (hp_lt_comp i a b = true <-> (qcomp qa i < qcomp qb i)%Q).
Proof.
  intros Ha Hb. unfold hp_lt_comp. pose proof Ha as [Ha0 _]. pose proof Hb as [Hb0 _].
  rewrite rat_lt_spec by assumption. rewrite (denotes_comp a qa i Ha), (denotes_comp b qb i Hb).
  pose proof (inject_Z_neq0 _ Ha0). pose proof (inject_Z_neq0 _ Hb0).
  assert (E1 : (qcomp qa i * inject_Z (hw a) / inject_Z (hw a) == qcomp qa i)%Q) by (field; assumption).
  assert (E2 : (qcomp qb i * inject_Z (hw b) / inject_Z (hw b) == qcomp qb i)%Q) by (field; assumption).
  rewrite E1, E2. reflexivity.
Qed.
Lemma iff_false (b : bool) (P : Prop) : (b = true <-> P) -> ~ P -> b = false.
Proof. intros H N. destruct b; [exfalso; apply N, H; reflexivity|reflexivity]. Qed.
(** Generic: a comparison that computes the right sign on every component. *)
Lemma lex3_spec lt a1 a2 a3 b1 b2 b3 p1 p2 p3 q1 q2 q3 :
  (lt a1 b1 = true <-> (p1 < q1)%Q) -> (lt b1 a1 = true <-> (q1 < p1)%Q) ->
  (lt a2 b2 = true <-> (p2 < q2)%Q) -> (lt b2 a2 = true <-> (q2 < p2)%Q) ->
  (lt a3 b3 = true <-> (p3 < q3)%Q) ->
  (lex3 lt (a1, a2, a3) (b1, b2, b3) = true <->
   (p1 < q1 \/ (p1 == q1 /\ (p2 < q2 \/ (p2 == q2 /\ p3 < q3))))%Q).
Proof.
  intros H1 H2 H3 H4 H5. unfold lex3, lex2; cbn [fst snd].
  destruct (Q_dec p1 q1) as [[L|L]|L].
  - apply H1 in L as L'. rewrite L'. tauto.
  - apply H2 in L as L'. rewrite (iff_false _ _ H1) by lra. rewrite L'. split; [discriminate|]. intros; lra.
  - rewrite (iff_false _ _ H1), (iff_false _ _ H2) by lra.
    destruct (Q_dec p2 q2) as [[M|M]|M].
    + apply H3 in M as M'. rewrite M'. tauto.
    + apply H4 in M as M'. rewrite (iff_false _ _ H3) by lra. rewrite M'. split; [discriminate|]. intros; lra.
    + rewrite (iff_false _ _ H3), (iff_false _ _ H4) by lra.
      rewrite H5. split; [intros; right; split; [exact L|right; split; assumption]|intros; lra].
Qed.
Lemma hp_scaled_lt i a b qa qb : denotes a qa -> denotes b qb ->
  (zless_than (zdiff_sign (hw b) (hw a)) (comp (hv a) i * hw b) (comp (hv b) i * hw a) = true <-> (qcomp qa i < qcomp qb i)%Q).
Proof.
  intros Ha Hb. rewrite <- (hp_lt_comp_spec i a b qa qb Ha Hb). unfold hp_lt_comp, rat_lt.
  rewrite zdiff_sign_spec, !zget_sign_neg, xorb_comm. reflexivity.
Qed.
Lemma hp_scaled_gt i a b qa qb : denotes a qa -> denotes b qb ->
  (zless_than (zdiff_sign (hw b) (hw a)) (comp (hv b) i * hw a) (comp (hv a) i * hw b) = true <-> (qcomp qb i < qcomp qa i)%Q).
Proof.
  intros Ha Hb. rewrite <- (hp_lt_comp_spec i b a qb qa Hb Ha). unfold hp_lt_comp, rat_lt.
  rewrite zdiff_sign_spec, !zget_sign_neg. reflexivity.
Qed.
Lemma hp_topness_lt_spec a b qa qb : denotes a qa -> denotes b qb -> (hp_topness_lt a b = true <-> qtop_lt qa qb).
Proof.
  intros Ha Hb. unfold hp_topness_lt, v3_scale, qtop_lt. cbn [vx vy vz].
  apply lex3_spec.
  - apply (hp_scaled_lt 2); assumption. - apply (hp_scaled_gt 2); assumption.
  - apply (hp_scaled_lt 1); assumption. - apply (hp_scaled_gt 1); assumption.
  - apply (hp_scaled_lt 0); assumption.
Qed.
Lemma flip_lt f x y u v : u = x * f -> v = y * f -> (f = 1 \/ f = -1) -> (u <? v) = zless_than (f <? 0) x y.
Proof. intros -> -> [-> | ->]; unfold zless_than; cbn [Z.ltb]; cbn; lia. Qed.
Lemma hp_lex_lt_spec a b qa qb : denotes a qa -> denotes b qb -> (hp_lex_lt a b = true <-> qlex_lt qa qb).
Proof.
  intros Ha Hb. unfold hp_lex_lt, v3_scale, qlex_lt. cbn [vx vy vz].
  assert (F : zabs_mult2 (hw b) (hw a) = 1 \/ zabs_mult2 (hw b) (hw a) = -1) by (rewrite zabs_mult2_spec; destruct (xorb _ _); auto).
  assert (G : (zabs_mult2 (hw b) (hw a) <? 0) = zdiff_sign (hw b) (hw a)).
  { rewrite zabs_mult2_spec, zdiff_sign_spec. destruct (xorb _ _); reflexivity. }
  assert (L : forall i, (comp (hv a) i * (hw b * zabs_mult2 (hw b) (hw a)) <? comp (hv b) i * (hw a * zabs_mult2 (hw b) (hw a))) = true
              <-> (qcomp qa i < qcomp qb i)%Q).
  { intros i. rewrite (flip_lt (zabs_mult2 (hw b) (hw a)) (comp (hv a) i * hw b) (comp (hv b) i * hw a)); [|ring|ring|exact F].
    rewrite G. apply hp_scaled_lt; assumption. }
  assert (L' : forall i, (comp (hv b) i * (hw a * zabs_mult2 (hw b) (hw a)) <? comp (hv a) i * (hw b * zabs_mult2 (hw b) (hw a))) = true
              <-> (qcomp qb i < qcomp qa i)%Q).
  { intros i. rewrite (flip_lt (zabs_mult2 (hw b) (hw a)) (comp (hv b) i * hw a) (comp (hv a) i * hw b)); [|ring|ring|exact F].
    rewrite G. apply hp_scaled_gt; assumption. }
  apply lex3_spec; [apply (L 0%nat)|apply (L' 0%nat)|apply (L 1%nat)|apply (L' 1%nat)|apply (L 2%nat)].
Qed.
