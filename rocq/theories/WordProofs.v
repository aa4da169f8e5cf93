(** Correctness lemmas for the word operations of [WordModel]. *)
From Coq Require Import ZArith List Bool Lia ZifyBool.
From Verif Require Import WordModel BigIntSpec.
Import ListNotations.
Open Scope Z_scope.
Ltac Zify.zify_post_hook ::= Z.div_mod_to_equations.

Lemma W_eq : W = 2 ^ 64. Proof. reflexivity. Qed.
Lemma HW_eq : HW = 2 ^ 63. Proof. reflexivity. Qed.
Lemma pow64 : 2 ^ 64 = 18446744073709551616. Proof. reflexivity. Qed.
Lemma pow63 : 2 ^ 63 = 9223372036854775808. Proof. reflexivity. Qed.

Ltac wsimp := unfold is_word, wrap, W2, W, HW, HALF in *; rewrite ?pow64, ?pow63 in *.

Lemma wrap_word x : is_word (wrap x).
Proof. wsimp. lia. Qed.
Lemma wrap_small x : is_word x -> wrap x = x.
Proof. wsimp. intros. apply Z.mod_small. lia. Qed.
Lemma b2z_range c : 0 <= b2z c <= 1.
Proof. destruct c; cbn; lia. Qed.

Lemma sgn_range w : is_word w -> - HW <= sgn w < HW.
Proof. unfold sgn. wsimp. intros. destruct (Z.ltb_spec w 9223372036854775808); lia. Qed.
Lemma sgn_wrap_id x : - HW <= x < HW -> sgn (wrap x) = x.
Proof.
  unfold sgn. wsimp. intros.
  destruct (Z.leb_spec 0 x).
  - rewrite Z.mod_small by lia. destruct (Z.ltb_spec x 9223372036854775808); lia.
  - replace (x mod 18446744073709551616) with (x + 18446744073709551616) by
      (apply Z.mod_unique with (-1); lia).
    destruct (Z.ltb_spec (x + 18446744073709551616) 9223372036854775808); lia.
Qed.
Lemma wrap_sgn w : is_word w -> wrap (sgn w) = w.
Proof.
  unfold sgn. wsimp. intros. destruct (Z.ltb_spec w 9223372036854775808).
  - apply Z.mod_small; lia.
  - symmetry; apply Z.mod_unique with (-1); lia.
Qed.
Lemma sgn_inj a b : is_word a -> is_word b -> sgn a = sgn b -> a = b.
Proof. intros Ha Hb H. rewrite <- (wrap_sgn a), <- (wrap_sgn b), H by assumption. reflexivity. Qed.

Lemma wadd_c_spec a b c r c' :
  is_word a -> is_word b -> wadd_c a b c = (r, c') ->
  is_word r /\ a + b + b2z c = r + W * b2z c'.
Proof.
  unfold wadd_c, add_overflow. pose proof (b2z_range c) as Hc. intros Ha Hb H.
  injection H as Hr Hc'. subst.
  split; [apply wrap_word|]. wsimp. unfold b2z at 3.
  destruct (Z.leb_spec 18446744073709551616 (a+b));
  destruct (Z.leb_spec 18446744073709551616 ((a+b) mod 18446744073709551616 + b2z c)); cbn; lia.
Qed.
Lemma wsub_c_spec a b c r c' :
  is_word a -> is_word b -> wsub_c a b c = (r, c') ->
  is_word r /\ a - b - b2z c = r - W * b2z c'.
Proof.
  unfold wsub_c, sub_overflow. pose proof (b2z_range c) as Hc. intros Ha Hb H.
  injection H as Hr Hc'. subst.
  split; [apply wrap_word|]. wsimp. unfold b2z at 3.
  destruct (Z.ltb_spec (a-b) 0);
  destruct (Z.ltb_spec ((a-b) mod 18446744073709551616 - b2z c) 0); cbn; lia.
Qed.
Lemma wadd_carry_spec a c r c' :
  is_word a -> wadd_carry a c = (r, c') ->
  is_word r /\ a + b2z c = r + W * b2z c'.
Proof.
  unfold wadd_carry, add_overflow. pose proof (b2z_range c) as Hc. intros Ha H.
  injection H as Hr Hc'. subst. split; [apply wrap_word|]. wsimp. unfold b2z at 3.
  destruct (Z.leb_spec 18446744073709551616 (a+b2z c)); cbn; lia.
Qed.
Lemma wsub_carry_spec a c r c' :
  is_word a -> wsub_carry a c = (r, c') ->
  is_word r /\ a - b2z c = r - W * b2z c'.
Proof.
  unfold wsub_carry, sub_overflow. pose proof (b2z_range c) as Hc. intros Ha H.
  injection H as Hr Hc'. subst. split; [apply wrap_word|]. wsimp. unfold b2z at 3.
  destruct (Z.ltb_spec (a-b2z c) 0); cbn; lia.
Qed.

(** Portable versions compute the same pair. *)
Lemma wadd_c_portable_eq a b c : is_word a -> is_word b ->
  wadd_c_portable a b c = wadd_c a b c.
Proof.
  unfold wadd_c_portable, wadd_c, add_overflow. pose proof (b2z_range c). intros.
  f_equal. wsimp.
  destruct (Z.leb_spec 18446744073709551616 (a+b));
  destruct (Z.leb_spec 18446744073709551616 ((a+b) mod 18446744073709551616 + b2z c)); lia.
Qed.
Lemma wadd_portable2_eq a b : is_word a -> is_word b ->
  wadd_portable2 a b = add_overflow a b.
Proof.
  unfold wadd_portable2, add_overflow. intros. f_equal. wsimp.
  destruct (Z.leb_spec 18446744073709551616 (a+b)); lia.
Qed.
Lemma wadd_carry_portable_eq a c : is_word a ->
  wadd_carry_portable a c = wadd_carry a c.
Proof.
  unfold wadd_carry_portable, wadd_carry, add_overflow. pose proof (b2z_range c).
  intros. f_equal. wsimp. destruct (Z.leb_spec 18446744073709551616 (a+b2z c)); lia.
Qed.
Lemma wsub_c_portable_eq a b c : is_word a -> is_word b ->
  wsub_c_portable a b c = wsub_c a b c.
Proof.
  unfold wsub_c_portable, wsub_c, sub_overflow. pose proof (b2z_range c). intros.
  f_equal. wsimp.
  destruct (Z.ltb_spec (a-b) 0);
  destruct (Z.ltb_spec ((a-b) mod 18446744073709551616 - b2z c) 0); lia.
Qed.
Lemma wsub_portable2_eq a b : is_word a -> is_word b ->
  wsub_portable2 a b = sub_overflow a b.
Proof.
  unfold wsub_portable2, sub_overflow. intros. f_equal. wsimp.
  destruct (Z.ltb_spec (a-b) 0); lia.
Qed.
Lemma wsub_carry_portable_eq a c : is_word a ->
  wsub_carry_portable a c = wsub_carry a c.
Proof.
  unfold wsub_carry_portable, wsub_carry, sub_overflow. pose proof (b2z_range c).
  intros. f_equal. wsimp. destruct (Z.ltb_spec (a-b2z c) 0); lia.
Qed.

(** Splitting a double word. *)
Lemma split_double x : 0 <= x < W2 ->
  is_word (wrap x) /\ is_word (wrap (x / W)) /\ x = wrap x + W * wrap (x / W).
Proof.
  intros Hx. split; [apply wrap_word|split;[apply wrap_word|]].
  rewrite (wrap_small (x / W)).
  - unfold wrap. pose proof (Z.div_mod x W). unfold W in *; lia.
  - unfold is_word. rewrite <- W_eq. split.
    + apply Z.div_pos; unfold W; unfold W2, W in Hx; lia.
    + apply Z.div_lt_upper_bound; unfold W2, W in *; lia.
Qed.

Lemma mul_bound a b n : 0 <= a < n -> 0 <= b < n -> 0 <= a * b <= (n - 1) * (n - 1).
Proof. intros. nia. Qed.

Lemma wmul_add_spec a b add c lo hi :
  is_word a -> is_word b -> is_word add -> wmul_add a b add c = (lo, hi) ->
  is_word lo /\ is_word hi /\ a * b + add + b2z c = lo + W * hi.
Proof.
  unfold wmul_add. intros Ha Hb Hadd H. pose proof (b2z_range c).
  pose proof (mul_bound a b (2^64) Ha Hb).
  assert (Hr : 0 <= a * b + add + b2z c < W2) by (wsimp; lia).
  rewrite (Z.mod_small _ _ Hr) in H.
  destruct (split_double _ Hr) as (Hs1 & Hs2 & Hs3).
  injection H as <- <-. auto.
Qed.
Lemma wmul_spec a b lo hi :
  is_word a -> is_word b -> wmul a b = (lo, hi) ->
  is_word lo /\ is_word hi /\ a * b = lo + W * hi.
Proof.
  unfold wmul. intros Ha Hb H.
  pose proof (mul_bound a b (2^64) Ha Hb).
  assert (Hr : 0 <= a * b < W2) by (wsimp; lia).
  rewrite (Z.mod_small _ _ Hr) in H.
  destruct (split_double _ Hr) as (Hs1 & Hs2 & Hs3).
  injection H as <- <-. auto.
Qed.
Lemma wmul_signed_spec a b lo hi :
  is_word a -> is_word b -> wmul_signed a b = (lo, hi) ->
  is_word lo /\ is_word hi /\ sgn a * sgn b = lo + W * sgn hi.
Proof.
  unfold wmul_signed. intros Ha Hb H. injection H as <- <-.
  split; [apply wrap_word|split;[apply wrap_word|]].
  pose proof (sgn_range a Ha). pose proof (sgn_range b Hb).
  assert (Hr: - HW * HW <= sgn a * sgn b <= HW * HW) by nia.
  rewrite sgn_wrap_id.
  - unfold wrap. pose proof (Z.div_mod (sgn a * sgn b) W). unfold W in *; lia.
  - split; [apply Z.div_le_lower_bound|apply Z.div_lt_upper_bound]; unfold W, HW in *; lia.
Qed.

(** Bitwise facts. *)
Lemma land_ones_word w : is_word w -> Z.land w (W - 1) = w.
Proof.
  intros. replace (W - 1) with (Z.ones 64) by reflexivity.
  rewrite Z.land_ones by lia. apply Z.mod_small. exact H.
Qed.
Lemma testbit_word_high w i : is_word w -> 64 <= i -> Z.testbit w i = false.
Proof.
  intros [H0 H1] Hi. destruct (Z.eq_dec w 0) as [->|]; [apply Z.bits_0|].
  apply Z.bits_above_log2; [assumption|].
  apply Z.lt_le_trans with 64; [|assumption]. apply Z.log2_lt_pow2; lia.
Qed.
Lemma lxor_ones_word w : is_word w -> Z.lxor w (W - 1) = W - 1 - w.
Proof.
  intros Hw. replace (W - 1) with (Z.ones 64) by reflexivity.
  assert (Hl : Z.land w (Z.lxor w (Z.ones 64)) = 0).
  { apply Z.bits_inj'. intros i Hi. rewrite Z.land_spec, Z.lxor_spec, Z.bits_0.
    destruct (Z.ltb_spec i 64).
    - rewrite Z.ones_spec_low by lia. destruct (Z.testbit w i); reflexivity.
    - rewrite (testbit_word_high w i) by (auto; lia). reflexivity. }
  apply Z.add_nocarry_lxor in Hl.
  rewrite <- Z.lxor_assoc, Z.lxor_nilpotent, Z.lxor_0_l in Hl. lia.
Qed.

(** Disjoint [lor] is addition. *)
Lemma lor_disjoint a b n : 0 <= n -> 0 <= b < 2 ^ n -> Z.lor (a * 2 ^ n) b = a * 2 ^ n + b.
Proof.
  intros Hn Hb. symmetry. rewrite Z.add_nocarry_lxor.
  - apply Z.lxor_lor.
    rewrite <- Z.shiftl_mul_pow2 by assumption.
    apply Z.bits_inj'. intros i Hi. rewrite Z.land_spec, Z.bits_0, Z.shiftl_spec by assumption.
    destruct (Z.ltb_spec i n).
    + rewrite Z.testbit_neg_r by lia. reflexivity.
    + replace (Z.testbit b i) with false; [apply andb_false_r|].
      destruct (Z.eq_dec b 0) as [->|]; [symmetry; apply Z.bits_0|].
      symmetry. apply Z.bits_above_log2; [lia|]. apply Z.lt_le_trans with n; [|assumption].
      apply Z.log2_lt_pow2; lia.
  - rewrite <- Z.shiftl_mul_pow2 by assumption.
    apply Z.bits_inj'. intros i Hi. rewrite Z.land_spec, Z.bits_0, Z.shiftl_spec by assumption.
    destruct (Z.ltb_spec i n).
    + rewrite Z.testbit_neg_r by lia. reflexivity.
    + replace (Z.testbit b i) with false; [apply andb_false_r|].
      destruct (Z.eq_dec b 0) as [->|]; [symmetry; apply Z.bits_0|].
      symmetry. apply Z.bits_above_log2; [lia|]. apply Z.lt_le_trans with n; [|assumption].
      apply Z.log2_lt_pow2; lia.
Qed.

Lemma from_halves_spec lo hi : 0 <= lo < HALF -> 0 <= hi < HALF ->
  from_halves lo hi = lo + HALF * hi.
Proof.
  intros Hl Hh. unfold from_halves. rewrite wrap_small by (wsimp; lia).
  replace HALF with (2 ^ 32) by reflexivity. rewrite lor_disjoint; [lia|lia|exact Hl].
Qed.

Lemma sign_ext_spec w : is_word w -> wsign_ext w = if w <? HW then 0 else W - 1.
Proof.
  intros Hw. unfold wsign_ext, sgn. rewrite Z.shiftr_div_pow2 by lia.
  change (2 ^ 63) with HW. wsimp. destruct (Z.ltb_spec w 9223372036854775808).
  - rewrite Z.div_small by lia. reflexivity.
  - replace ((w - 18446744073709551616) / 9223372036854775808) with (-1).
    + reflexivity.
    + apply Z.div_unique with (w - 18446744073709551616 + 9223372036854775808); lia.
Qed.
Lemma sign_ext_sgn w : is_word w -> sgn (wsign_ext w) = if w <? HW then 0 else -1.
Proof. intros Hw. rewrite sign_ext_spec by assumption. destruct (w <? HW); reflexivity. Qed.

Lemma hi_lo x : x = low32 x + HALF * high32 x.
Proof. unfold low32, high32, HALF. pose proof (Z.div_mod x 4294967296). lia. Qed.
Lemma low32_range x : 0 <= low32 x < HALF.
Proof. unfold low32, HALF. lia. Qed.
Lemma high32_range x : is_word x -> 0 <= high32 x < HALF.
Proof. unfold high32. wsimp. intros. lia. Qed.

Lemma half_mul a b : 0 <= a < HALF -> 0 <= b < HALF -> 0 <= a * b <= (HALF - 1) * (HALF - 1).
Proof. intros. nia. Qed.

(** The middle/high part shared by the three portable multiplications: [low] is
    the low product (plus addend), [x] an extra carry into the high word. *)
Lemma portable_core a b low (carry : bool) middle :
  is_word a -> is_word b -> is_word low ->
  wadd_portable2 (wrap (high32 a * low32 b + high32 low)) (wrap (low32 a * high32 b)) = (middle, carry) ->
  is_word middle /\
  high32 a * low32 b + high32 low + low32 a * high32 b = middle + W * b2z carry.
Proof.
  intros Ha Hb Hl H.
  pose proof (half_mul (high32 a) (low32 b) (high32_range a Ha) (low32_range b)).
  pose proof (half_mul (low32 a) (high32 b) (low32_range a) (high32_range b Hb)).
  pose proof (high32_range low Hl).
  rewrite wadd_portable2_eq in H by apply wrap_word.
  assert (E1 : wrap (high32 a * low32 b + high32 low) = high32 a * low32 b + high32 low)
    by (apply wrap_small; unfold is_word; rewrite pow64; unfold HALF in *; lia).
  assert (E2 : wrap (low32 a * high32 b) = low32 a * high32 b)
    by (apply wrap_small; unfold is_word; rewrite pow64; unfold HALF in *; lia).
  rewrite E1, E2 in H. unfold add_overflow in H. injection H as <- <-.
  split; [apply wrap_word|].
  remember (high32 a * low32 b) as p. remember (low32 a * high32 b) as q. remember (high32 low) as h.
  wsimp. destruct (Z.leb_spec 18446744073709551616 (p + h + q)); cbn [b2z]; lia.
Qed.

Lemma mul_halves a b : a * b = low32 a * low32 b + HALF * (high32 a * low32 b + low32 a * high32 b)
   + HALF * HALF * (high32 a * high32 b).
Proof. rewrite (hi_lo a) at 1. rewrite (hi_lo b) at 1. ring. Qed.


Lemma wrap_add_l x y : wrap (wrap x + y) = wrap (x + y).
Proof. unfold wrap. apply Z.add_mod_idemp_l. unfold W; lia. Qed.
Lemma wrap_add_r x y : wrap (x + wrap y) = wrap (x + y).
Proof. unfold wrap. apply Z.add_mod_idemp_r. unfold W; lia. Qed.
Lemma wrap_sub_l x y : wrap (wrap x - y) = wrap (x - y).
Proof. unfold wrap. apply Zminus_mod_idemp_l. Qed.
Lemma wrap_mul_W x y : wrap (x + W * y) = wrap x.
Proof. unfold wrap. rewrite Z.mul_comm. apply Z.mod_add. unfold W; lia. Qed.

(** The unsigned core: the value assembled by the portable code. *)
Lemma portable_value a b low (carry lowc : bool) middle x :
  is_word a -> is_word b -> is_word low ->
  low + W * b2z lowc = low32 a * low32 b + x ->
  wadd_portable2 (wrap (high32 a * low32 b + high32 low)) (wrap (low32 a * high32 b)) = (middle, carry) ->
  is_word (from_halves (low32 low) (low32 middle)) /\
  a * b + x = from_halves (low32 low) (low32 middle) +
     W * (high32 a * high32 b + high32 middle + b2z carry * HALF + b2z lowc).
Proof.
  intros Ha Hb Hl Hlow Em.
  destruct (portable_core _ _ _ _ _ Ha Hb Hl Em) as (Hm & Hmid).
  rewrite from_halves_spec by apply low32_range.
  rewrite (mul_halves a b).
  remember (low32 a * low32 b) as ll. remember (high32 a * low32 b) as hl.
  remember (low32 a * high32 b) as lh. remember (high32 a * high32 b) as hh.
  pose proof (hi_lo low) as E1. pose proof (hi_lo middle) as E2.
  pose proof (low32_range low). pose proof (low32_range middle).
  split; unfold is_word; rewrite ?pow64; unfold W, HALF in *; lia.
Qed.

Lemma double_unique l h lo hi : is_word l -> is_word lo ->
  l + W * h = lo + W * hi -> l = lo /\ h = hi.
Proof. unfold is_word. rewrite pow64. unfold W. lia. Qed.

Lemma wrap_norm3 x y z : wrap (wrap (wrap x + y) + wrap z) = wrap (x + y + z).
Proof. rewrite wrap_add_r, wrap_add_l, <- Z.add_assoc, wrap_add_l, Z.add_assoc. reflexivity. Qed.

Lemma low_product a b : wrap (low32 a * low32 b) = low32 a * low32 b.
Proof.
  pose proof (half_mul _ _ (low32_range a) (low32_range b)) as Hll.
  apply wrap_small; unfold is_word; rewrite pow64; unfold HALF in *; lia.
Qed.

Lemma wmul_portable_eq a b : is_word a -> is_word b -> wmul_portable a b = wmul a b.
Proof.
  intros Ha Hb. destruct (wmul a b) as [lo hi] eqn:E.
  destruct (wmul_spec _ _ _ _ Ha Hb E) as (Hlo & Hhi & Heq).
  unfold wmul_portable.
  destruct (wadd_portable2 _ _) as [middle carry] eqn:Em.
  destruct (portable_value a b _ carry false middle 0 Ha Hb (wrap_word (low32 a * low32 b))) as [Hw Hv];
    [rewrite low_product; cbn [b2z]; lia | exact Em |].
  edestruct double_unique as [E1 E2]; [exact Hw|exact Hlo|rewrite <- Hv; rewrite <- Heq; ring|].
  rewrite E1. f_equal. rewrite wrap_norm3.
  cbn [b2z] in E2. rewrite Z.add_0_r in E2. rewrite E2. apply wrap_small, Hhi.
Qed.

Lemma wmul_add_portable_eq a b x c : is_word a -> is_word b -> is_word x ->
  wmul_add_portable a b x c = wmul_add a b x c.
Proof.
  intros Ha Hb Hx. destruct (wmul_add a b x c) as [lo hi] eqn:E.
  destruct (wmul_add_spec _ _ _ _ _ _ Ha Hb Hx E) as (Hlo & Hhi & Heq).
  unfold wmul_add_portable.
  rewrite wadd_c_portable_eq by (try apply wrap_word; assumption).
  destruct (wadd_c _ _ _) as [low lowc] eqn:El.
  destruct (wadd_c_spec _ _ _ _ _ (wrap_word _) Hx El) as [Hlw Hls].
  destruct (wadd_portable2 _ _) as [middle carry] eqn:Em.
  rewrite low_product in Hls.
  destruct (portable_value a b low carry lowc middle (x + b2z c) Ha Hb Hlw) as [Hw Hv];
    [lia | exact Em |].
  edestruct double_unique as [E1 E2]; [exact Hw|exact Hlo|rewrite <- Hv; rewrite <- Heq; ring|].
  rewrite E1. f_equal. rewrite wrap_norm3, wrap_add_l, E2. apply wrap_small, Hhi.
Qed.

Lemma land_sign_ext a b : is_word a -> is_word b ->
  Z.land (wsign_ext b) a = if b <? HW then 0 else a.
Proof.
  intros Ha Hb. rewrite sign_ext_spec by assumption. destruct (b <? HW).
  - apply Z.land_0_l.
  - rewrite Z.land_comm. apply land_ones_word; assumption.
Qed.

Lemma wmul_signed_portable_eq a b : is_word a -> is_word b ->
  wmul_signed_portable a b = wmul_signed a b.
Proof.
  intros Ha Hb. destruct (wmul_signed a b) as [lo hi] eqn:E.
  destruct (wmul_signed_spec _ _ _ _ Ha Hb E) as (Hlo & Hhi & Heq).
  unfold wmul_signed_portable.
  destruct (wadd_portable2 _ _) as [middle carry] eqn:Em.
  destruct (portable_value a b _ carry false middle 0 Ha Hb (wrap_word (low32 a * low32 b))) as [Hw Hv];
    [rewrite low_product; cbn [b2z]; lia | exact Em |].
  cbn [b2z] in Hv. rewrite !Z.add_0_r in Hv.
  rewrite !land_sign_ext by assumption.
  set (h := high32 a * high32 b + high32 middle + b2z carry * HALF) in *.
  set (l := from_halves _ _) in *.
  set (da := if b <? HW then 0 else a). set (db := if a <? HW then 0 else b).
  assert (Hs : sgn a * sgn b = a * b - W * (da + db) + W * (W * (if a <? HW then 0 else if b <? HW then 0 else 1))).
  { unfold sgn, da, db. destruct (a <? HW), (b <? HW); unfold W; ring. }
  destruct (double_unique l (h - da - db + W * (if a <? HW then 0 else if b <? HW then 0 else 1)) lo (sgn hi) Hw Hlo) as [E1 E2].
  { rewrite <- Heq, Hs, Hv. unfold W; ring. }
  rewrite E1. f_equal.
  rewrite wrap_norm3. fold h da db. rewrite wrap_sub_l, <- Z.sub_add_distr, wrap_sub_l.
  rewrite <- (wrap_mul_W _ (if a <? HW then 0 else if b <? HW then 0 else 1)).
  match goal with |- wrap ?x = _ => replace x with (sgn hi) by (rewrite <- E2; ring) end.
  apply wrap_sgn, Hhi.
Qed.

(** Double-word right shift. *)
Lemma wshift_right_spec lo hi s : is_word lo -> is_word hi -> 0 <= s < 64 ->
  wshift_right lo hi s = wrap ((lo + W * hi) / 2 ^ s).
Proof.
  intros Hlo Hhi Hs. unfold wshift_right.
  rewrite (Z.mod_small (hi * W)) by (wsimp; lia).
  change W with (2 ^ 64) at 1. rewrite lor_disjoint by (try lia; exact Hlo).
  rewrite Z.shiftr_div_pow2 by lia. do 2 f_equal. change (2^64) with W. lia.
Qed.

Lemma shr_range w s : is_word w -> 0 <= s <= 64 -> 0 <= wshr w s < 2 ^ (64 - s).
Proof.
  intros [H0 H1] Hs. unfold wshr. rewrite Z.shiftr_div_pow2 by lia.
  split; [apply Z.div_pos; [lia|apply Z.pow_pos_nonneg; lia]|].
  apply Z.div_lt_upper_bound; [apply Z.pow_pos_nonneg; lia|].
  rewrite <- Z.pow_add_r by lia. replace (s + (64 - s)) with 64 by lia. lia.
Qed.

Lemma shl_split w s : is_word w -> 0 <= s <= 64 ->
  wshl w s = (w mod 2 ^ (64 - s)) * 2 ^ s.
Proof.
  intros Hw Hs. unfold wshl, wrap. rewrite Z.shiftl_mul_pow2 by lia.
  replace W with (2 ^ (64 - s) * 2 ^ s).
  - apply Z.mul_mod_distr_r; apply Z.pow_nonzero; lia.
  - rewrite <- Z.pow_add_r by lia. replace (64 - s + s) with 64 by lia. reflexivity.
Qed.

(** Joining the low bits of one word with the high bits of the previous one. *)
Lemma join_words w prev s : is_word w -> is_word prev -> 0 < s < 64 ->
  Z.lor (wshl w s) (wshr prev (64 - s)) = (w mod 2 ^ (64 - s)) * 2 ^ s + prev / 2 ^ (64 - s).
Proof.
  intros Hw Hp Hs. rewrite shl_split by (assumption || lia).
  rewrite lor_disjoint.
  - unfold wshr. rewrite Z.shiftr_div_pow2 by lia. reflexivity.
  - lia.
  - pose proof (shr_range prev (64 - s) Hp). replace (64 - (64 - s)) with s in H by lia. lia.
Qed.
Lemma join_word w prev s : is_word w -> is_word prev -> 0 < s < 64 ->
  is_word (Z.lor (wshl w s) (wshr prev (64 - s))).
Proof.
  intros Hw Hp Hs. rewrite join_words by assumption.
  pose proof (shr_range prev (64 - s) Hp) as H.
  unfold wshr in H. rewrite Z.shiftr_div_pow2 in H by lia.
  replace (64 - (64 - s)) with s in H by lia.
  assert (Hp2 : 0 < 2 ^ s) by (apply Z.pow_pos_nonneg; lia).
  assert (Hp3 : 0 < 2 ^ (64 - s)) by (apply Z.pow_pos_nonneg; lia).
  pose proof (Z.mod_pos_bound w _ Hp3) as Hm.
  assert (E : 2 ^ 64 = 2 ^ (64 - s) * 2 ^ s) by (rewrite <- Z.pow_add_r by lia; f_equal; lia).
  unfold is_word. rewrite E. nia.
Qed.

Lemma wshift_right_portable_eq lo hi s : is_word lo -> is_word hi -> 0 <= s < 64 ->
  wshift_right_portable lo hi s = wshift_right lo hi s.
Proof.
  intros Hlo Hhi Hs. rewrite wshift_right_spec by assumption.
  unfold wshift_right_portable. destruct (Z.eqb_spec s 0) as [->|Hne]; cbn [negb].
  - rewrite Z.pow_0_r, Z.div_1_r, wrap_mul_W. symmetry; apply wrap_small; assumption.
  - unfold bits_per_word.
    pose proof (join_words hi lo (64 - s) Hhi Hlo) as J.
    replace (64 - (64 - s)) with s in J by lia. rewrite J by lia.
    assert (E : W = 2 ^ (64 - s) * 2 ^ s) by (change W with (2^64); rewrite <- Z.pow_add_r by lia; f_equal; lia).
    assert (Hp2 : 0 < 2 ^ s) by (apply Z.pow_pos_nonneg; lia).
    replace (lo + W * hi) with (lo + (2 ^ (64 - s) * hi) * 2 ^ s) by (rewrite E; ring).
    rewrite Z.div_add by lia.
    rewrite (Z.div_mod hi (2 ^ s)) at 2 by lia.
    replace (lo / 2 ^ s + 2 ^ (64 - s) * (2 ^ s * (hi / 2 ^ s) + hi mod 2 ^ s))
      with (hi mod 2 ^ s * 2 ^ (64 - s) + lo / 2 ^ s + W * (hi / 2 ^ s)) by (rewrite E; ring).
    rewrite wrap_mul_W. symmetry. apply wrap_small.
    rewrite <- J by lia.
    pose proof (join_word hi lo (64 - s) Hhi Hlo). replace (64 - (64 - s)) with s in H by lia. apply H; lia.
Qed.
