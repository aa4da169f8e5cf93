(** Division, remainder, GCD and printing of [BigInt] (release build). *)
From Coq Require Import ZArith List Bool Lia ZifyBool.
From Verif Require Import WordModel BigIntSpec WordProofs BigIntModel BigIntProofs BigIntMulProofs BigIntCmpProofs
  BigUIntModel BigUIntProofs BigUIntDivProofs BigIntDivSpec.
Import ListNotations.
Open Scope Z_scope.
Ltac Zify.zify_post_hook ::= idtac.

Lemma uvalue_nonneg_value a : wf a -> 0 <= value a -> uvalue a = value a.
Proof.
  intros Ha H. rewrite (value_uvalue a Ha), (sext_sign a Ha). destruct (Z.ltb_spec (value a) 0); lia.
Qed.

Lemma get_uint_abs_spec a : wf a -> exists u, get_uint_abs a = (u, value a <? 0) /\ wf u /\ utight u /\ uvalue u = Z.abs (value a).
Proof.
  intros Ha. unfold get_uint_abs. rewrite (sgn_top_neg a Ha).
  destruct (neg_spec a Ha) as [N1 N2].
  destruct (Z.ltb_spec (value a) 0) as [H|H].
  - destruct (utrim_spec (neg a) (proj1 N1)) as (U1 & U2 & U3 & _).
    exists (utrim (neg a)). split; [reflexivity|]. split; [assumption|]. split; [assumption|].
    rewrite U3, uvalue_nonneg_value; [lia|apply N1|lia].
  - destruct (utrim_spec a Ha) as (U1 & U2 & U3 & _).
    exists (utrim a). split; [reflexivity|]. split; [assumption|]. split; [assumption|].
    rewrite U3, uvalue_nonneg_value; [lia|assumption|lia].
Qed.

Lemma of_uint_spec u : wf u -> canonical (of_uint u) /\ value (of_uint u) = uvalue u.
Proof.
  intros Hu. unfold of_uint. rewrite (sgn_top_neg u Hu).
  destruct (Z.ltb_spec (value u) 0) as [H|H].
  - assert (Hw : wf (u ++ [0])) by (apply wf_snoc; split; [apply Hu|apply word0]).
    destruct (trim_canonical (u ++ [0]) Hw) as [T1 T2]. split; [assumption|].
    rewrite T2, value_snoc, sgn_0. lia.
  - destruct (trim_canonical u Hu) as [T1 T2]. split; [assumption|].
    rewrite T2. symmetry. apply uvalue_nonneg_value; assumption.
Qed.

Lemma quot_rem_abs a b q r : b <> 0 -> Z.abs a = q * Z.abs b + r -> 0 <= r < Z.abs b ->
  Z.quot a b = (if xorb (a <? 0) (b <? 0) then - q else q) /\ Z.rem a b = (if a <? 0 then - r else r).
Proof.
  intros Hb Ha Hr.
  assert (Eq : Z.abs a / Z.abs b = q) by (symmetry; apply Z.div_unique with r; lia).
  assert (Er : Z.abs a mod Z.abs b = r) by (symmetry; apply Z.mod_unique with q; lia).
  assert (E1 : Z.rem a b = if a <? 0 then - r else r).
  { rewrite Z.rem_mod by assumption. rewrite Er. destruct (Z.ltb_spec a 0); [rewrite Z.sgn_neg by lia; lia|].
    destruct (Z.eq_dec a 0) as [-> | N]; [|rewrite Z.sgn_pos by lia; lia].
    rewrite Z.abs_0, Z.mod_0_l in Er by lia. subst r. reflexivity. }
  split; [|assumption].
  rewrite Z.quot_div by assumption. rewrite Eq.
  destruct (Z.ltb_spec a 0), (Z.ltb_spec b 0); cbn [xorb];
    rewrite ?(Z.sgn_neg a), ?(Z.sgn_neg b), ?(Z.sgn_pos b) by lia; try lia.
  - destruct (Z.eq_dec a 0) as [-> | N]; [|rewrite Z.sgn_pos by lia; lia].
    rewrite Z.abs_0, Z.div_0_l in Eq by lia. subst q. reflexivity.
  - destruct (Z.eq_dec a 0) as [-> | N]; [|rewrite Z.sgn_pos by lia; lia].
    rewrite Z.abs_0, Z.div_0_l in Eq by lia. subst q. reflexivity.
Qed.

Lemma div_slow_spec a b : wf a -> wf b -> value b <> 0 ->
  exists q r, div_slow false a b = Ok (q, r) /\ canonical q /\ canonical r /\
    value q = Z.quot (value a) (value b) /\ value r = Z.rem (value a) (value b).
Proof.
  intros Ha Hb Hne. unfold div_slow.
  destruct (get_uint_abs_spec a Ha) as (ua & A1 & A2 & A3 & A4).
  destruct (get_uint_abs_spec b Hb) as (ub & B1 & B2 & B3 & B4).
  rewrite A1, B1.
  destruct (udiv_spec ua ub A2 B2 A3 B3 ltac:(lia)) as (q & r & D1 & D2 & D3 & D4 & D5 & D6 & D7).
  rewrite D1. cbn [rbind].
  destruct (of_uint_spec q D2) as [Q1 Q2]. destruct (of_uint_spec r D3) as [R1 R2].
  destruct (neg_spec (of_uint q) (proj1 Q1)) as [Q3 Q4]. destruct (neg_spec (of_uint r) (proj1 R1)) as [R3 R4].
  rewrite A4, B4 in *.
  destruct (quot_rem_abs (value a) (value b) (uvalue q) (uvalue r) Hne D6 D7) as [E1 E2].
  eexists. eexists. split; [reflexivity|]. rewrite E1, E2.
  destruct (xorb (value a <? 0) (value b <? 0)), (value a <? 0); repeat split; try assumption; try apply Q1; try apply Q3; try apply R1; try apply R3; lia.
Qed.

(** The one-word case where int64 division overflows. *)
Definition int64_min : Z := - 2 ^ 63.

Lemma quot_range x y : - HW <= x < HW -> y <> 0 -> ~ (x = - HW /\ y = -1) -> - HW <= Z.quot x y < HW.
Proof.
  intros Hx Hy Hn. assert (Ha : Z.abs (Z.quot x y) <= Z.abs x).
  { rewrite <- Z.quot_abs by assumption. rewrite Z.quot_div_nonneg by lia. apply Z.div_le_upper_bound; nia. }
  assert (Hneg : Z.quot x y <> HW); [|lia].
  intros E. pose proof (Z.quot_rem x y Hy) as D. pose proof (Z.rem_bound_abs x y Hy) as Rb. rewrite E in D.
  assert (Z.abs y <= 1 \/ 2 <= Z.abs y) as [Hs|Hs] by lia.
  - assert (y = 1 \/ y = -1) as [-> | ->] by lia; [rewrite Z.quot_1_r in E; lia|].
    change (-1) with (- (1)) in E. rewrite Z.quot_opp_r, Z.quot_1_r in E by lia. lia.
  - assert (X : Z.abs (Z.quot x y) * 2 <= Z.abs x).
    { rewrite <- Z.quot_abs by assumption. rewrite Z.quot_div_nonneg by lia.
      pose proof (Z.mul_div_le (Z.abs x) (Z.abs y) ltac:(lia)). pose proof (Z.div_pos (Z.abs x) (Z.abs y) ltac:(lia) ltac:(lia)). nia. }
    rewrite E in X. assert (0 < HW) by reflexivity. lia.
Qed.

Lemma div_rem_spec a b : canonical a -> canonical b -> value b <> 0 -> ~ (value a = int64_min /\ value b = -1) ->
  exists q r, div_rem false a b = Ok (q, r) /\ canonical q /\ canonical r /\
    value q = Z.quot (value a) (value b) /\ value r = Z.rem (value a) (value b).
Proof.
  intros Ha Hb Hne Hov. unfold div_rem. destruct ((used a =? 1) && (used b =? 1)) eqn:E.
  2: { apply div_slow_spec; try assumption; [apply Ha|apply Hb]. }
  apply andb_prop in E as [E1 E2]. unfold used in *.
  destruct (single_or_more a (proj1 Ha)) as [(x & -> & Hx)|L]; [|lia].
  destruct (single_or_more b (proj1 Hb)) as [(y & -> & Hy)|L]; [|lia].
  cbn [first hd]. rewrite !value_single in *. unfold int64_min in Hov. change (2 ^ 63) with HW in Hov.
  unfold sdiv. destruct (Z.eqb_spec (sgn y) 0); [congruence|].
  destruct (Z.eqb_spec (sgn x) (- HW)) as [Ex|Nx].
  - destruct (Z.eqb_spec (sgn y) (-1)) as [Ey|Ny]; [exfalso; auto|]. cbn [andb rbind fst snd].
    pose proof (quot_range (sgn x) (sgn y) (sgn_range x Hx) n ltac:(tauto)) as Qr.
    destruct (of_int_canonical _ Qr) as [Q1 Q2].
    assert (Rr : - HW <= Z.rem (sgn x) (sgn y) < HW).
    { pose proof (Z.rem_bound_abs (sgn x) (sgn y) n). pose proof (sgn_range y Hy). lia. }
    destruct (of_int_canonical _ Rr) as [R1 R2]. eexists. eexists. split; [reflexivity|]. auto.
  - cbn [andb rbind fst snd].
    pose proof (quot_range (sgn x) (sgn y) (sgn_range x Hx) n ltac:(tauto)) as Qr.
    destruct (of_int_canonical _ Qr) as [Q1 Q2].
    assert (Rr : - HW <= Z.rem (sgn x) (sgn y) < HW).
    { pose proof (Z.rem_bound_abs (sgn x) (sgn y) n). pose proof (sgn_range y Hy). lia. }
    destruct (of_int_canonical _ Rr) as [R1 R2]. eexists. eexists. split; [reflexivity|]. auto.
Qed.

(** ** GCD *)
Lemma gcd_rem_step a b : b <> 0 -> Z.gcd b (Z.rem a b) = Z.gcd a b.
Proof.
  intros H. rewrite (Z.gcd_comm a b). rewrite (Z.quot_rem a b H) at 2.
  rewrite Z.add_comm, (Z.mul_comm b). rewrite Z.gcd_add_mult_diag_r. reflexivity.
Qed.

Lemma gcd_spec_fuel n : forall a b, canonical a -> canonical b -> 0 <= value a \/ 0 <= value b ->
  Z.abs (value b) < Z.of_nat n ->
  exists g, (forall fuel, (n <= fuel)%nat -> gcd fuel false a b = Ok g) /\ canonical g /\
    Z.abs (value g) = Z.gcd (value a) (value b).
Proof.
  induction n as [|n IH]; intros a b Ha Hb Hs Hn; [lia|].
  destruct (Z.eq_dec (value b) 0) as [E0|N0].
  - exists a. split; [|split; [assumption|]].
    + intros fuel Hf. destruct fuel; cbn [gcd]; rewrite (is_zero_spec b Hb), E0; reflexivity.
    + rewrite E0, Z.gcd_0_r. reflexivity.
  - destruct (div_rem_spec a b Ha Hb N0) as (q & r & D1 & D2 & D3 & D4 & D5).
    { unfold int64_min. intros [X Y]. destruct Hs; [assert (0 < 2 ^ 63) by reflexivity; lia|lia]. }
    pose proof (Z.rem_bound_abs (value a) (value b) N0) as Rb.
    pose proof (Z.rem_sign_nz (value a) (value b) N0) as Rs.
    destruct (IH b r Hb D3) as (g & G1 & G2 & G3).
    + rewrite D5. destruct Hs as [Hs|Hs]; [right|left; assumption].
      apply Z.rem_nonneg; assumption.
    + rewrite D5. lia.
    + exists g. split; [|split; [assumption|]].
      * intros fuel Hf. destruct fuel as [|fuel]; [lia|]. cbn [gcd]. rewrite (is_zero_spec b Hb).
        destruct (Z.eqb_spec (value b) 0); [congruence|]. rewrite D1. cbn [rbind snd]. apply G1. lia.
      * rewrite G3, D5. apply gcd_rem_step. assumption.
Qed.
Lemma gcd_spec a b : canonical a -> canonical b -> 0 <= value a \/ 0 <= value b ->
  exists g n, (forall fuel, (n <= fuel)%nat -> gcd fuel false a b = Ok g) /\ canonical g /\
    Z.abs (value g) = Z.gcd (value a) (value b).
Proof.
  intros Ha Hb Hs. destruct (gcd_spec_fuel (S (Z.to_nat (Z.abs (value b)))) a b Ha Hb Hs ltac:(lia)) as (g & G).
  exists g, (S (Z.to_nat (Z.abs (value b)))). exact G.
Qed.
(** ** Printing *)
Lemma decimal_snoc ds c : decimal_value (ds ++ [c]) = 10 * decimal_value ds + (c - 48).
Proof. unfold decimal_value. rewrite fold_left_app. reflexivity. Qed.

Lemma digits_loop_spec k : forall a n acc, canonical a -> Z.abs (value a) < 10 ^ Z.of_nat (S k) -> (S k <= n)%nat ->
  exists ds d n', digits_loop false a n acc = Ok (ds ++ acc, d, n') /\ plain_decimal ds /\
    decimal_value ds = Z.abs (value a) /\ canonical d /\ Z.sgn (value d) = Z.sgn (value a) /\ (n - S k <= n')%nat.
Proof.
  assert (C10 : canonical (of_int 10) /\ value (of_int 10) = 10) by (apply of_int_canonical; unfold HW; lia).
  induction k as [|k IH]; intros a n acc Ha Hv Hn; (destruct n as [|n]; [lia|]); cbn [digits_loop];
    (destruct (div_rem_spec a (of_int 10) Ha (proj1 C10)) as (q & d & D1 & D2 & D3 & D4 & D5);
     [rewrite (proj2 C10); lia|rewrite (proj2 C10); lia|]);
    rewrite D1; cbn [rbind]; rewrite (proj2 C10) in D4, D5;
    pose proof (Z.rem_bound_abs (value a) 10 ltac:(lia)) as Rb; rewrite <- D5 in Rb;
    pose proof (Z.quot_rem (value a) 10 ltac:(lia)) as Dm; rewrite <- D4, <- D5 in Dm;
    (assert (Ed : wsigned_abs (first d) = Some (Z.abs (value d)) );
     [ destruct (single_or_more d (proj1 D3)) as [(w & -> & Hw)|L];
       [ rewrite value_single in *; cbn [first hd]; unfold wsigned_abs;
         destruct (Z.eqb_spec w HW) as [->|]; [change (sgn HW) with (- HW) in Rb; unfold HW in Rb; lia|];
         f_equal; apply wrap_small; split; [lia|]; change (2 ^ 64) with 18446744073709551616; lia
       | pose proof (big_canonical_range d D3 L); unfold HW in *; lia ]
     | ]); rewrite Ed;
    (assert (Q0 : eq_int q 0 = (value q =? 0)) by (apply int_ops_spec; [assumption|unfold int_range; lia]));
    rewrite Q0; (assert (El : low32 (Z.abs (value d)) = Z.abs (value d)) by (unfold low32; apply Z.mod_small; unfold HALF; lia));
    rewrite El; destruct (Z.eqb_spec (value q) 0) as [E0|N0]; cbn [negb].
  - exists [Z.abs (value d) + 48], d, n. split; [reflexivity|]. rewrite E0 in Dm.
    split; [|split; [|split; [assumption|split; [f_equal; lia|lia]]]].
    + split; [constructor; [unfold is_digit; lia|constructor]|]. split; [discriminate|]. cbn [hd]. intros X. f_equal. assumption.
    + unfold decimal_value. cbn [fold_left]. lia.
  - exfalso. change (10 ^ Z.of_nat 1) with 10 in Hv. apply N0. rewrite D4. apply Z.quot_small_iff; lia.
  - exists [Z.abs (value d) + 48], d, n. split; [reflexivity|]. rewrite E0 in Dm.
    split; [|split; [|split; [assumption|split; [f_equal; lia|lia]]]].
    + split; [constructor; [unfold is_digit; lia|constructor]|]. split; [discriminate|]. cbn [hd]. intros X. f_equal. assumption.
    + unfold decimal_value. cbn [fold_left]. lia.
  - assert (Qa : Z.abs (value a) = 10 * Z.abs (value q) + Z.abs (value d) /\ Z.sgn (value q) = Z.sgn (value a)).
    { rewrite D4, D5 in *. destruct (Z.le_gt_cases 0 (value a)).
      - pose proof (Z.quot_pos (value a) 10 ltac:(lia) ltac:(lia)). pose proof (Z.rem_nonneg (value a) 10 ltac:(lia) ltac:(lia)). lia.
      - pose proof (Z.quot_pos (- value a) 10 ltac:(lia) ltac:(lia)). pose proof (Z.rem_nonneg (- value a) 10 ltac:(lia) ltac:(lia)).
        rewrite Z.quot_opp_l in * by lia. rewrite Z.rem_opp_l in * by lia. lia. }
    destruct Qa as [Qa Qs].
    destruct (IH q n ((Z.abs (value d) + 48) :: acc) D2) as (ds & d' & n' & I1 & (I2 & I2' & I2'') & I3 & I4 & I5 & I6).
    + rewrite Nat2Z.inj_succ, Z.pow_succ_r in Hv by lia. lia.
    + lia.
    + exists (ds ++ [Z.abs (value d) + 48]), d', n'. split; [rewrite I1, <- app_assoc; reflexivity|].
      split; [|split; [rewrite decimal_snoc; lia|split; [assumption|split; [congruence|lia]]]].
      split; [apply Forall_app; split; [assumption|constructor; [unfold is_digit; lia|constructor]]|].
      split; [destruct ds; discriminate|]. destruct ds as [|c ds]; [congruence|]. cbn [app hd] in *. intros X.
      specialize (I2'' X). injection I2'' as -> ->. change (decimal_value [48]) with 0 in I3. lia.
Qed.

Lemma digits_bound a : wf a -> Z.abs (value a) < 10 ^ (20 * Z.of_nat (length a)).
Proof.
  intros Ha. pose proof (value_range a Ha) as Hr.
  assert (L : (1 <= length a)%nat) by (destruct Ha as [Hn _]; destruct a; [congruence|cbn; lia]).
  assert (X : HW * W ^ Z.of_nat (length a - 1) < 10 ^ (20 * Z.of_nat (length a))); [|lia].
  replace (length a) with (S (length a - 1)) at 2 by lia. set (n := (length a - 1)%nat). clearbody n. clear.
  rewrite Nat2Z.inj_succ. replace (20 * Z.succ (Z.of_nat n)) with (20 + 20 * Z.of_nat n) by lia.
  rewrite Z.pow_add_r by lia.
  assert (W ^ Z.of_nat n <= 10 ^ (20 * Z.of_nat n)).
  { rewrite Z.pow_mul_r by lia. apply Z.pow_le_mono_l. unfold W. lia. }
  pose proof (Wpow_pos n). set (A := W ^ Z.of_nat n) in *. set (B := 10 ^ (20 * Z.of_nat n)) in *. clearbody A B.
  change (10 ^ 20) with 100000000000000000000. unfold HW. nia.
Qed.

Lemma print_spec a : canonical a -> exists txt, print false a = Ok txt /\ decimal_text (value a) txt.
Proof.
  intros Ha. unfold print.
  assert (L : (1 <= length a)%nat) by (destruct Ha as [[Hn _] _]; destruct a; [congruence|cbn; lia]).
  destruct (digits_loop_spec (20 * length a - 1) a (length a * 8 * 3 + 2 - 1) [] Ha) as (ds & d & n' & D1 & D2 & D3 & D4 & D5 & D6).
  - pose proof (digits_bound a (proj1 Ha)) as Hb. replace (Z.of_nat (S (20 * length a - 1))) with (20 * Z.of_nat (length a)) by lia. assumption.
  - lia.
  - rewrite D1. cbn [rbind]. rewrite app_nil_r.
    pose proof (get_sign_spec d D4) as Hs. rewrite D5 in Hs.
    assert (E : (get_sign d <? 0) = (value a <? 0)) by lia. rewrite E.
    destruct (value a <? 0) eqn:Es.
    + destruct n' as [|n']; [lia|]. exists (45 :: ds). split; [reflexivity|]. exists ds. rewrite Es. auto.
    + exists ds. split; [reflexivity|]. exists ds. rewrite Es. auto.
Qed.

Lemma gcd_nonneg_fuel n : forall a b g, canonical a -> canonical b -> 0 <= value a -> 0 <= value b ->
  gcd n false a b = Ok g -> 0 <= value g.
Proof.
  induction n as [|n IH]; intros a b g Ha Hb Pa Pb; cbn [gcd]; rewrite (is_zero_spec b Hb);
    destruct (Z.eqb_spec (value b) 0) as [E|N]; try (intros X; injection X as <-; assumption); [discriminate|].
  destruct (div_rem_spec a b Ha Hb N) as (q & r & D1 & D2 & D3 & D4 & D5).
  { unfold int64_min. intros [X Y]. lia. }
  rewrite D1. cbn [rbind snd]. apply IH; try assumption. rewrite D5. apply Z.rem_nonneg; assumption.
Qed.
Lemma gcd_nonneg a b : canonical a -> canonical b -> 0 <= value a -> 0 <= value b ->
  exists g n, (forall fuel, (n <= fuel)%nat -> gcd fuel false a b = Ok g) /\ canonical g /\
    value g = Z.gcd (value a) (value b).
Proof.
  intros Ha Hb Pa Pb. destruct (gcd_spec a b Ha Hb (or_introl Pa)) as (g & n & G1 & G2 & G3).
  exists g, n. split; [assumption|]. split; [assumption|].
  pose proof (gcd_nonneg_fuel n a b g Ha Hb Pa Pb (G1 n (le_n n))). lia.
Qed.
Lemma gcd_any_fuel m : forall a b, canonical a -> canonical b -> Z.abs (value b) < Z.of_nat m ->
  (exists g, (forall fuel, (m <= fuel)%nat -> gcd fuel false a b = Ok g) /\ canonical g /\
    Z.abs (value g) = Z.gcd (value a) (value b)) \/ (forall fuel, (m <= fuel)%nat -> gcd fuel false a b = UB).
Proof.
  induction m as [|n IH]; intros a b Ha Hb Hn; [lia|].
  destruct (Z.eq_dec (value b) 0) as [E0|N0].
  - left. exists a. split; [|split; [assumption|]].
    + intros fuel Hf. destruct fuel; cbn [gcd]; rewrite (is_zero_spec b Hb), E0; reflexivity.
    + rewrite E0, Z.gcd_0_r. reflexivity.
  - destruct (Z.eq_dec (value a) int64_min) as [Ea|Na]; [destruct (Z.eq_dec (value b) (-1)) as [Eb|Nb]|].
    1: { right. intros fuel Hf. destruct fuel as [|fuel]; [lia|]. cbn [gcd]. rewrite (is_zero_spec b Hb).
      destruct (Z.eqb_spec (value b) 0); [congruence|].
      replace (div_rem false a b) with (@UB (bigint * bigint)); [reflexivity|].
      destruct (of_int_canonical int64_min) as [X1 X2]; [unfold int64_min, HW; lia|].
      destruct (of_int_canonical (-1)) as [Y1 Y2]; [unfold HW; lia|].
      rewrite (canonical_unique a _ Ha X1) by congruence. rewrite (canonical_unique b _ Hb Y1) by congruence.
      vm_compute. reflexivity. }
    all: destruct (div_rem_spec a b Ha Hb N0) as (q & r & D1 & D2 & D3 & D4 & D5); [tauto|];
      pose proof (Z.rem_bound_abs (value a) (value b) N0) as Rb;
      (destruct (IH b r Hb D3) as [(g & G1 & G2 & G3)|G]; [rewrite D5; lia| |]);
      [left; exists g; split; [|split; [assumption|rewrite G3, D5; apply gcd_rem_step; assumption]]
      |right];
      (intros fuel Hf; destruct fuel as [|fuel]; [lia|]; cbn [gcd]; rewrite (is_zero_spec b Hb);
       destruct (Z.eqb_spec (value b) 0); [congruence|]; rewrite D1; cbn [rbind snd]).
    + apply G1. lia.
    + apply G. lia.
    + apply G1. lia.
    + apply G. lia.
Qed.
Lemma gcd_any a b : canonical a -> canonical b ->
  exists n, (exists g, (forall fuel, (n <= fuel)%nat -> gcd fuel false a b = Ok g) /\ canonical g /\
    Z.abs (value g) = Z.gcd (value a) (value b)) \/ (forall fuel, (n <= fuel)%nat -> gcd fuel false a b = UB).
Proof.
  intros Ha Hb. exists (S (Z.to_nat (Z.abs (value b)))). apply gcd_any_fuel; try assumption. lia.
Qed.

Lemma decimal_text_value u v t : decimal_text u t -> decimal_text v t -> u = v.
Proof.
  intros (d & (D1 & D2 & _) & D4 & D5) (e & (E1 & E2 & _) & E4 & E5).
  assert (Hd : forall l, Forall is_digit l -> l <> [] -> hd 0 l <> 45).
  { intros l Hl Hn. destruct l as [|x l]; [congruence|]. inversion Hl; subst. unfold is_digit in *. cbn [hd]. lia. }
  pose proof (Hd d D1 D2). pose proof (Hd e E1 E2).
  destruct (Z.ltb_spec u 0), (Z.ltb_spec v 0); subst t.
  - injection E5 as ->. lia.
  - subst e. cbn in *. congruence.
  - subst d. cbn in *. congruence.
  - subst e. lia.
Qed.
Lemma print_injective a b txt : canonical a -> canonical b -> print false a = Ok txt -> print false b = Ok txt -> a = b.
Proof.
  intros Ha Hb Pa Pb. destruct (print_spec a Ha) as (t & E & T). destruct (print_spec b Hb) as (t' & E' & T').
  rewrite Pa in E. rewrite Pb in E'. injection E as <-. injection E' as <-.
  apply canonical_unique; try assumption. eapply decimal_text_value; eassumption.
Qed.

(** Decidable test used by the concrete cases. *)
Definition canonicalb (a : list Z) : bool :=
  negb (Nat.eqb (length a) 0) && forallb (fun w => (0 <=? w) && (w <? 18446744073709551616)) a &&
  (if list_eq_dec Z.eq_dec (trim a) a then true else false).
Lemma canonicalb_sound a : canonicalb a = true -> canonical a.
Proof.
  unfold canonicalb. intros H. apply andb_prop in H as [H H3]. apply andb_prop in H as [H1 H2].
  assert (Hw : wf a).
  { split; [intros ->; discriminate H1|]. apply Forall_forall. intros w Hw. rewrite forallb_forall in H2.
    specialize (H2 w Hw). unfold is_word. change (2 ^ 64) with 18446744073709551616. lia. }
  destruct (list_eq_dec Z.eq_dec (trim a) a) as [E|]; [|discriminate]. rewrite <- E. apply trim_canonical. assumption.
Qed.
