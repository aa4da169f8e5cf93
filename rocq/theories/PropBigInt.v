(** Properties C01-C04, C09, C10: exact integer arithmetic.

    Reading guide: [canonical a] says the word list [a] is the shortest
    two's-complement word list of its value, [value a] is that value
    ([BigIntSpec]).  Every integer has such a list ([canonical_exists]). *)
From Coq Require Import ZArith List Bool Lia.
From Verif Require Import WordModel BigIntSpec BigIntModel BigIntProofs BigIntMulProofs
  BigIntCmpProofs BigIntExprSpec BigIntExprProofs WordProofs WordBitProofs.
Import ListNotations.
Open Scope Z_scope.

(** Every integer is denoted by exactly one canonical word list. *)
Theorem C03_every_integer_represented :
  forall v, exists a, canonical a /\ value a = v /\ forall b, canonical b -> value b = v -> b = a.
Proof.
  intros v. destruct (canonical_exists v) as (a & Ha & Hv). exists a. split; [exact Ha|]. split; [exact Hv|].
  intros b Hb Hbv. apply canonical_unique; congruence.
Qed.
Print Assumptions C03_every_integer_represented.

(** ** C01 *)
Theorem C01_add : forall a b, canonical a -> canonical b -> value (add a b) = value a + value b.
Proof. intros a b Ha Hb. exact (proj2 (add_spec a b (proj1 Ha) (proj1 Hb))). Qed.
Print Assumptions C01_add.
Theorem C01_subtract : forall a b, canonical a -> canonical b -> value (sub a b) = value a - value b.
Proof. intros a b Ha Hb. exact (proj2 (sub_spec a b (proj1 Ha) (proj1 Hb))). Qed.
Print Assumptions C01_subtract.
Theorem C01_multiply : forall a b, canonical a -> canonical b ->
  exists r, mul a b = Some r /\ value r = value a * value b.
Proof.
  intros a b Ha Hb. destruct (mul_spec a b (proj1 Ha) (proj1 Hb)) as (r & E & _ & V). exists r. exact (conj E V).
Qed.
Print Assumptions C01_multiply.
Theorem C01_negate : forall a, canonical a -> value (neg a) = - value a.
Proof. intros a Ha. exact (proj2 (neg_spec a (proj1 Ha))). Qed.
Print Assumptions C01_negate.
Theorem C01_add_multiply : forall t a b, canonical t -> canonical a -> canonical b ->
  exists r, add_multiply t a b = Some r /\ value r = value t + value a * value b.
Proof.
  intros t a b Ht Ha Hb. destruct (add_multiply_spec t a b (proj1 Ht) (proj1 Ha) (proj1 Hb)) as (r & E & _ & V).
  exists r. exact (conj E V).
Qed.
Print Assumptions C01_add_multiply.
Theorem C01_subtract_multiply : forall t a b, canonical t -> canonical a -> canonical b ->
  exists r, sub_multiply t a b = Some r /\ value r = value t - value a * value b.
Proof.
  intros t a b Ht Ha Hb. destruct (sub_multiply_spec t a b (proj1 Ht) (proj1 Ha) (proj1 Hb)) as (r & E & _ & V).
  exists r. exact (conj E V).
Qed.
Print Assumptions C01_subtract_multiply.
Theorem C01_determinant : forall a b c d, canonical a -> canonical b -> canonical c -> canonical d ->
  exists r, determinant a b c d = Some r /\ value r = value a * value d - value c * value b.
Proof.
  intros a b c d Ha Hb Hc Hd.
  destruct (determinant_spec a b c d (proj1 Ha) (proj1 Hb) (proj1 Hc) (proj1 Hd)) as (r & E & _ & V).
  exists r. exact (conj E V).
Qed.
Print Assumptions C01_determinant.

(** C01 + C03 over whole computations: any expression over the API evaluates
    without undefined behaviour to the canonical list of its meaning. *)
Theorem C01_expressions : forall e, literals_ok e ->
  exists r, run e = Some r /\ canonical r /\ value r = meaning e.
Proof. exact run_spec. Qed.
Print Assumptions C01_expressions.
(* Non-vacuity: (2^200 - 1) * -(2^63) + (2^64 - 5) crosses several words. *)
Example C01_expressions_case :
  let e := EAddMul (ESub (EShl (EInt 1) 64) (EInt 5)) (EMax 200) (EInt (- 2 ^ 63)) in
  literals_ok e /\ option_map value (run e) = Some ((2 ^ 200 - 1) * - 2 ^ 63 + (2 ^ 64 - 5))
  /\ option_map (@length Z) (run e) = Some 5%nat.
Proof. vm_compute. intuition discriminate. Qed.

(** ** C02 *)
Theorem C02_compare : forall a b, canonical a -> canonical b ->
  (compare a b < 0 <-> value a < value b) /\ (compare a b = 0 <-> value a = value b) /\
  (compare a b > 0 <-> value a > value b).
Proof.
  intros a b Ha Hb. rewrite (compare_spec a b Ha Hb).
  destruct (Z.compare_spec (value a) (value b)); cbn [zcmp]; lia.
Qed.
Print Assumptions C02_compare.
Theorem C02_operators : forall a b, canonical a -> canonical b ->
  (lt a b = true <-> value a < value b) /\ (le a b = true <-> value a <= value b) /\
  (gt a b = true <-> value a > value b) /\ (ge a b = true <-> value a >= value b) /\
  (eq a b = true <-> value a = value b) /\ (ne a b = true <-> value a <> value b).
Proof.
  intros a b Ha Hb. rewrite lt_spec, le_spec, gt_spec, ge_spec, ne_negb, eq_value, negb_true_iff by assumption.
  lia.
Qed.
Print Assumptions C02_operators.
Theorem C02_less_than_flip : forall flip a b, canonical a -> canonical b ->
  (less_than flip a b = true <-> if flip then value b < value a else value a < value b).
Proof. intros flip a b Ha Hb. rewrite less_than_spec by assumption. destruct flip; lia. Qed.
Print Assumptions C02_less_than_flip.
Theorem C02_int_overloads : forall a o, canonical a -> - 2 ^ 31 <= o < 2 ^ 31 ->
  (lt_int a o = true <-> value a < o) /\ (le_int a o = true <-> value a <= o) /\
  (gt_int a o = true <-> value a > o) /\ (ge_int a o = true <-> value a >= o) /\
  (eq_int a o = true <-> value a = o).
Proof.
  intros a o Ha Ho. destruct (int_ops_spec a o Ha Ho) as (-> & -> & -> & -> & ->). lia.
Qed.
Print Assumptions C02_int_overloads.
Theorem C02_signs : forall a, canonical a ->
  Z.sgn (get_sign a) = Z.sgn (value a) /\ (is_zero a = true <-> value a = 0) /\
  (is_negative a = true <-> value a < 0) /\ get_abs_mult a * value a = Z.abs (value a).
Proof.
  intros a Ha. rewrite is_zero_spec, is_negative_spec, get_abs_mult_spec by (try assumption; apply Ha).
  split; [apply get_sign_spec, Ha|]. destruct (Z.ltb_spec (value a) 0); lia.
Qed.
Print Assumptions C02_signs.
(** Zero counts as positive in the two-operand sign tests. *)
Theorem C02_sign_pairs : forall a b, canonical a -> canonical b ->
  (has_same_sign a b = true <-> (value a < 0 <-> value b < 0)) /\
  (has_different_sign a b = true <-> ~ (value a < 0 <-> value b < 0)) /\
  get_abs_mult2 a b * (value a * value b) = Z.abs (value a * value b).
Proof.
  intros a b Ha Hb. destruct (sign_pair_spec a b Ha Hb) as [-> ->].
  rewrite get_abs_mult2_spec by (apply Ha || apply Hb).
  destruct (Z.ltb_spec (value a) 0), (Z.ltb_spec (value b) 0); cbn [xorb negb]; (split; [|split]); try (intuition lia); nia.
Qed.
Print Assumptions C02_sign_pairs.
Theorem C02_half_words : forall a b c, canonical a -> canonical b -> canonical c ->
  let fits v := - 2 ^ 31 <= v < 2 ^ 31 in
  (is_half_word a = true <-> fits (value a)) /\
  (all_half_words2 a b = true <-> fits (value a) /\ fits (value b)) /\
  (all_half_words3 a b c = true <-> fits (value a) /\ fits (value b) /\ fits (value c)).
Proof.
  intros a b c Ha Hb Hc. exact (conj (is_half_word_spec a Ha) (conj (all_half2_value a b Ha Hb) (all_half3_value a b c Ha Hb Hc))).
Qed.
Print Assumptions C02_half_words.
Example C02_case : (* -2^64-1 (two words) against 2^63 (two words) and 7 *)
  let a := [18446744073709551615; 18446744073709551614] in
  let b := [9223372036854775808; 0] in
  value a = - 2 ^ 64 - 1 /\ value b = 2 ^ 63 /\ compare a b = -1 /\ compare b a = 1 /\ lt a b = true /\
  less_than true b a = true /\ less_than true a b = false /\ ge_int b 7 = true /\ get_sign a < 0.
Proof. vm_compute. intuition discriminate. Qed.

(** ** C03 *)
Theorem C03_results_canonical : forall a b s n, canonical a -> canonical b -> 0 <= s -> 0 <= n ->
  canonical (add a b) /\ canonical (sub a b) /\ canonical (neg a) /\ canonical (shl a s) /\
  canonical (fst (get_abs a)) /\ canonical (max_value n) /\ canonical (min_value n) /\
  (forall r, mul a b = Some r -> canonical r) /\ (forall r, abs a = Some r -> canonical r).
Proof.
  intros a b s n Ha Hb Hs Hn.
  repeat match goal with |- _ /\ _ => split end.
  - exact (proj1 (add_spec a b (proj1 Ha) (proj1 Hb))).
  - exact (proj1 (sub_spec a b (proj1 Ha) (proj1 Hb))).
  - exact (proj1 (neg_spec a (proj1 Ha))).
  - exact (proj1 (shl_spec a s (proj1 Ha) Hs)).
  - exact (proj1 (get_abs_spec a Ha)).
  - exact (proj1 (max_value_spec n Hn)).
  - exact (proj1 (min_value_spec n Hn)).
  - intros r E. destruct (mul_spec a b (proj1 Ha) (proj1 Hb)) as (r' & E' & C & _). congruence.
  - intros r E. destruct (list_eq_dec Z.eq_dec a [HW]) as [-> | N].
    + discriminate.
    + destruct (abs_spec a Ha N) as (r' & E' & C & _). congruence.
Qed.
Print Assumptions C03_results_canonical.
Theorem C03_equality_is_value_equality : forall a b, canonical a -> canonical b ->
  (eq a b = true <-> value a = value b) /\ (value a = value b -> get_hash a = get_hash b).
Proof.
  intros a b Ha Hb. split.
  - rewrite eq_value by assumption. apply Z.eqb_eq.
  - intros E. rewrite (canonical_unique a b Ha Hb E). reflexivity.
Qed.
Print Assumptions C03_equality_is_value_equality.
(** Canonicity is needed: a redundant sign word breaks operator==. *)
Example C03_needs_canonical : value [5; 0] = value [5] /\ eq [5; 0] [5] = false.
Proof. vm_compute. auto. Qed.
(** abs() returns |a| for every value but INT64_MIN, where the code calls llabs(INT64_MIN). *)
Theorem C03_abs : forall a, canonical a -> value a <> - 2 ^ 63 ->
  exists r, abs a = Some r /\ value r = Z.abs (value a).
Proof.
  intros a Ha N. destruct (abs_spec a Ha) as (r & E & _ & V); [|exists r; exact (conj E V)].
  intros ->. apply N. reflexivity.
Qed.
Print Assumptions C03_abs.
Theorem C03_abs_int64_min_refuted : exists a, canonical a /\ value a = - 2 ^ 63 /\ abs a = None.
Proof. exists [HW]. split; [apply single_canonical; vm_compute; intuition discriminate|]. split; reflexivity. Qed.
Print Assumptions C03_abs_int64_min_refuted.

(** ** C04 *)
Theorem C04_shift_left : forall a s, canonical a -> 0 <= s ->
  canonical (shl a s) /\ value (shl a s) = value a * 2 ^ s.
Proof. intros a s Ha Hs. exact (shl_spec a s (proj1 Ha) Hs). Qed.
Print Assumptions C04_shift_left.
Example C04_case : shl [wrap (-3)] 63 = [9223372036854775808; 18446744073709551614] /\
  shl [wrap (-3)] 128 = [0; 0; wrap (-3)] /\ shl [0] 700 = [0] /\ shl [5] 61 = [11529215046068469760; 0].
Proof. vm_compute. auto. Qed.

(** ** C09 *)
Theorem C09_extremes : forall n, 0 <= n ->
  canonical (max_value n) /\ value (max_value n) = 2 ^ n - 1 /\
  canonical (min_value n) /\ value (min_value n) = - 2 ^ n.
Proof.
  intros n Hn. destruct (max_value_spec n Hn), (min_value_spec n Hn). repeat split; try assumption; apply H || apply H1.
Qed.
Print Assumptions C09_extremes.
Example C09_case : max_value 63 = [2 ^ 63 - 1] /\ max_value 64 = [2 ^ 64 - 1; 0] /\ min_value 63 = [2 ^ 63] /\
  min_value 64 = [0; 2 ^ 64 - 1] /\ max_value 0 = [0].
Proof. vm_compute. auto 10. Qed.

(** ** C10: the word primitives, with and without compiler intrinsics *)
Theorem C10_add_sub : forall a b c, is_word a -> is_word b ->
  (let '(r, co) := wadd_c a b c in is_word r /\ r + 2 ^ 64 * b2z co = a + b + b2z c) /\
  (let '(r, co) := wsub_c a b c in is_word r /\ r - 2 ^ 64 * b2z co = a - b - b2z c) /\
  wadd_c_portable a b c = wadd_c a b c /\ wsub_c_portable a b c = wsub_c a b c /\
  wadd_portable2 a b = add_overflow a b /\ wsub_portable2 a b = sub_overflow a b /\
  wadd_carry_portable a c = wadd_carry a c /\ wsub_carry_portable a c = wsub_carry a c.
Proof.
  intros a b c Ha Hb.
  destruct (wadd_c a b c) as [r co] eqn:E1. destruct (wsub_c a b c) as [r' co'] eqn:E2.
  destruct (wadd_c_spec _ _ _ _ _ Ha Hb E1). destruct (wsub_c_spec _ _ _ _ _ Ha Hb E2).
  change (2 ^ 64) with W.
  split; [split; [assumption|lia]|]. split; [split; [assumption|lia]|].
  split; [rewrite <- E1; apply wadd_c_portable_eq; assumption|].
  split; [rewrite <- E2; apply wsub_c_portable_eq; assumption|].
  split; [apply wadd_portable2_eq; assumption|]. split; [apply wsub_portable2_eq; assumption|].
  split; [apply wadd_carry_portable_eq; assumption|apply wsub_carry_portable_eq; assumption].
Qed.
Print Assumptions C10_add_sub.
Theorem C10_multiply : forall a b x c, is_word a -> is_word b -> is_word x ->
  (let '(lo, hi) := wmul_portable a b in is_word lo /\ is_word hi /\ lo + 2 ^ 64 * hi = a * b) /\
  (let '(lo, hi) := wmul_add_portable a b x c in is_word lo /\ is_word hi /\ lo + 2 ^ 64 * hi = a * b + x + b2z c) /\
  (let '(lo, hi) := wmul_signed_portable a b in is_word lo /\ is_word hi /\
     lo + 2 ^ 64 * value [hi] = value [a] * value [b]) /\
  wmul_portable a b = wmul a b /\ wmul_add_portable a b x c = wmul_add a b x c /\
  wmul_signed_portable a b = wmul_signed a b.
Proof.
  intros a b x c Ha Hb Hx. rewrite wmul_portable_eq, wmul_add_portable_eq, wmul_signed_portable_eq by assumption.
  destruct (wmul a b) as [lo hi] eqn:E1. destruct (wmul_add a b x c) as [lo1 hi1] eqn:E2.
  destruct (wmul_signed a b) as [lo2 hi2] eqn:E3.
  destruct (wmul_spec _ _ _ _ Ha Hb E1) as (? & ? & ?). destruct (wmul_add_spec _ _ _ _ _ _ Ha Hb Hx E2) as (? & ? & ?).
  destruct (wmul_signed_spec _ _ _ _ Ha Hb E3) as (? & ? & ?). change (2 ^ 64) with W. rewrite !value_single.
  repeat split; try assumption; try congruence; try lia; apply H || apply H0 || apply H2 || apply H3 || apply H5 || apply H6.
Qed.
Print Assumptions C10_multiply.
Theorem C10_shift_right : forall lo hi s, is_word lo -> is_word hi -> 0 <= s < 64 ->
  wshift_right lo hi s = ((lo + 2 ^ 64 * hi) / 2 ^ s) mod 2 ^ 64 /\
  wshift_right_portable lo hi s = wshift_right lo hi s.
Proof.
  intros lo hi s Hlo Hhi Hs. exact (conj (wshift_right_spec lo hi s Hlo Hhi Hs) (wshift_right_portable_eq lo hi s Hlo Hhi Hs)).
Qed.
Print Assumptions C10_shift_right.
Theorem C10_bit_scans : forall w, is_word w -> w <> 0 ->
  whighest_set_bit_portable w = whighest_set_bit w /\
  2 ^ (whighest_set_bit_portable w - 1) <= w < 2 ^ whighest_set_bit_portable w /\
  exists t, wtrailing_zeros_portable w = Some t /\ 0 <= t < 64 /\ w mod 2 ^ (t + 1) = 2 ^ t.
Proof.
  intros w Hw Hne. rewrite whighest_set_bit_portable_eq by assumption. split; [reflexivity|].
  assert (0 < w) by (destruct Hw; lia). split.
  - unfold whighest_set_bit. destruct (Z.eqb_spec w 0); [congruence|].
    replace (Z.log2 w + 1 - 1) with (Z.log2 w) by lia. apply Z.log2_spec. assumption.
  - destruct (wtrailing_zeros_spec w Hw Hne) as (t & E & Ht & Hb & Hl). exists t. split; [exact E|]. split; [exact Ht|].
    apply Z.bits_inj'. intros i Hi. destruct (Z.ltb_spec i (t + 1)).
    + rewrite Z.mod_pow2_bits_low by lia. destruct (Z.eq_dec i t) as [-> |].
      * rewrite Hb, Z.pow2_bits_true by lia. reflexivity.
      * rewrite Hl, Z.pow2_bits_false by lia. reflexivity.
    + rewrite Z.mod_pow2_bits_high by lia. rewrite Z.pow2_bits_false by lia. reflexivity.
Qed.
Print Assumptions C10_bit_scans.
Example C10_case : wmul_signed_portable (wrap (-3)) 5 = (wrap (-15), wrap (-1)) /\
  wmul_portable (2 ^ 64 - 1) (2 ^ 64 - 1) = (1, 2 ^ 64 - 2) /\
  wadd_c (2 ^ 64 - 1) 0 true = (0, true) /\ wtrailing_zeros_portable 40 = Some 3 /\ whighest_set_bit_portable 40 = 6.
Proof. vm_compute. auto 10. Qed.
