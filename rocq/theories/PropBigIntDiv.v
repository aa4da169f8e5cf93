(** Properties C05, C06, C08: division, decimal printing and GCD of [BigInt].

    [div_rem dbg], [gcd _ dbg] and [print dbg] model the code with debug
    assertions on ([true]) or off ([false], a release build).  [Ok] is normal
    completion; [UB] is undefined behaviour, [AssertFail] a failed assertion. *)
From Coq Require Import ZArith List Bool Lia.
From Verif Require Import WordModel BigIntSpec BigIntModel BigIntCmpProofs BigUIntModel BigIntDivSpec BigIntDivProofs.
Import ListNotations.
Open Scope Z_scope.

(** ** C05 *)
(** For every dividend and every non-zero divisor, of any sizes, except the
    one overflowing pair: the quotient is rounded towards 0, the remainder has
    the sign of the dividend, and both results are canonical. *)
Theorem C05_divide_remainder : forall a b, canonical a -> canonical b -> value b <> 0 ->
  ~ (value a = - 2 ^ 63 /\ value b = -1) ->
  exists q r, div_rem false a b = Ok (q, r) /\ canonical q /\ canonical r /\
    value q = Z.quot (value a) (value b) /\ value r = Z.rem (value a) (value b).
Proof. exact div_rem_spec. Qed.
Print Assumptions C05_divide_remainder.
(** The same, without reference to the library's quot and rem. *)
Theorem C05_divide_remainder_identity : forall a b, canonical a -> canonical b -> value b <> 0 ->
  ~ (value a = - 2 ^ 63 /\ value b = -1) ->
  exists q r, div_rem false a b = Ok (q, r) /\ value a = value q * value b + value r /\
    Z.abs (value r) < Z.abs (value b) /\ 0 <= value r * value a.
Proof.
  intros a b Ha Hb Hne Hov. destruct (div_rem_spec a b Ha Hb Hne Hov) as (q & r & E & _ & _ & Eq & Er).
  exists q, r. split; [exact E|]. rewrite Eq, Er. split; [rewrite Z.mul_comm; apply Z.quot_rem; exact Hne|].
  split; [apply Z.rem_bound_abs; exact Hne|]. apply Z.rem_sign_mul. exact Hne.
Qed.
Print Assumptions C05_divide_remainder_identity.
Example C05_case : exists a b q r, canonical a /\ canonical b /\ value a = - (2 ^ 200 + 7) /\ value b = 2 ^ 70 + 1 /\
  value b <> 0 /\ ~ (value a = - 2 ^ 63 /\ value b = -1) /\ div_rem false a b = Ok (q, r) /\
  value q = - (2 ^ 130 - 2 ^ 60) /\ value r = - (2 ^ 60 + 7).
Proof.
  destruct (canonical_exists (- (2 ^ 200 + 7))) as (a & Ha & Va).
  destruct (canonical_exists (2 ^ 70 + 1)) as (b & Hb & Vb).
  destruct (div_rem_spec a b Ha Hb) as (q & r & E & _ & _ & Eq & Er); [rewrite Vb; discriminate| rewrite Vb; intros [_ X]; discriminate X|].
  exists a, b, q, r. rewrite Eq, Er, Va, Vb. repeat (split; [assumption || reflexivity || discriminate || (intros [X _]; discriminate X)|]).
  vm_compute. reflexivity.
Qed.

(** The full claim "exact for every non-zero divisor" fails: INT64_MIN / -1 is
    an int64 division overflow. *)
Theorem C05_int64_min_by_minus_one_refuted : exists a b, canonical a /\ canonical b /\ value b <> 0 /\
  value a = - 2 ^ 63 /\ value b = -1 /\ div_rem false a b = UB.
Proof.
  exists [2 ^ 63], [2 ^ 64 - 1]. split; [apply canonicalb_sound; vm_compute; reflexivity|].
  split; [apply canonicalb_sound; vm_compute; reflexivity|]. vm_compute. repeat split; discriminate.
Qed.
Print Assumptions C05_int64_min_by_minus_one_refuted.
(** With assertions on, exact division of in-range values can abort. *)
Theorem C05_debug_assertion_refuted : exists a b, canonical a /\ canonical b /\
  value a = 2 ^ 255 /\ value b = 2 ^ 128 - 1 /\ div_rem true a b = AssertFail.
Proof.
  exists [0; 0; 0; 2 ^ 63; 0], [2 ^ 64 - 1; 2 ^ 64 - 1; 0]. split; [apply canonicalb_sound; vm_compute; reflexivity|].
  split; [apply canonicalb_sound; vm_compute; reflexivity|]. vm_compute. repeat split.
Qed.
Print Assumptions C05_debug_assertion_refuted.
(** The documentation only forbids [remainder_out == this], but passing the
    divisor as [remainder_out] gives the wrong quotient: 7 / 5 = 3. *)
Theorem C05_remainder_into_divisor_refuted : exists a b q r, canonical a /\ canonical b /\
  value a = 7 /\ value b = 5 /\ div_rem_into_divisor false a b = Ok (q, r) /\ value q = 3.
Proof.
  exists [7], [5], [3], [2]. split; [apply canonicalb_sound; vm_compute; reflexivity|].
  split; [apply canonicalb_sound; vm_compute; reflexivity|]. vm_compute. repeat split.
Qed.
Print Assumptions C05_remainder_into_divisor_refuted.

(** ** C06 *)
(** Printing any value yields exactly its decimal notation, and never leaves
    the text buffer. *)
Theorem C06_print : forall a, canonical a -> exists txt, print false a = Ok txt /\ decimal_text (value a) txt.
Proof. exact print_spec. Qed.
Print Assumptions C06_print.
(** Different values print differently. *)
Theorem C06_print_injective : forall a b txt, canonical a -> canonical b ->
  print false a = Ok txt -> print false b = Ok txt -> a = b.
Proof. exact print_injective. Qed.
Print Assumptions C06_print_injective.
Example C06_case : print false (neg (of_int 1234567)) = Ok [45; 49; 50; 51; 52; 53; 54; 55] /\
  decimal_text (-1234567) [45; 49; 50; 51; 52; 53; 54; 55] /\ print false [0] = Ok [48] /\
  canonical [0; 1] /\ value [0; 1] = 2 ^ 64 /\
  print false [0; 1] = Ok [49; 56; 52; 52; 54; 55; 52; 52; 48; 55; 51; 55; 48; 57; 53; 53; 49; 54; 49; 54].
Proof.
  split; [vm_compute; reflexivity|]. split.
  - exists [49; 50; 51; 52; 53; 54; 55]. split; [|split; reflexivity].
    split; [repeat constructor; vm_compute; congruence|]. split; [discriminate|]. intros X. discriminate X.
  - split; [vm_compute; reflexivity|]. split; [|split; vm_compute; reflexivity].
    apply canonicalb_sound. vm_compute. reflexivity.
Qed.

(** ** C08 *)
(** Whenever the operands are not both negative, the computation ends without
    undefined behaviour and the result is plus or minus the GCD. *)
Theorem C08_gcd : forall a b, canonical a -> canonical b -> 0 <= value a \/ 0 <= value b ->
  exists g n, (forall fuel, (n <= fuel)%nat -> gcd fuel false a b = Ok g) /\ canonical g /\
    Z.abs (value g) = Z.gcd (value a) (value b).
Proof. exact gcd_spec. Qed.
Print Assumptions C08_gcd.
(** With non-negative operands the result is the GCD itself. *)
Theorem C08_gcd_nonneg : forall a b, canonical a -> canonical b -> 0 <= value a -> 0 <= value b ->
  exists g n, (forall fuel, (n <= fuel)%nat -> gcd fuel false a b = Ok g) /\ canonical g /\
    value g = Z.gcd (value a) (value b).
Proof. exact gcd_nonneg. Qed.
Print Assumptions C08_gcd_nonneg.
(** For two negative operands it either agrees too or the run hits the
    overflowing one-word division; nothing else can happen. *)
Theorem C08_gcd_negative : forall a b, canonical a -> canonical b ->
  exists n, (exists g, (forall fuel, (n <= fuel)%nat -> gcd fuel false a b = Ok g) /\ canonical g /\
    Z.abs (value g) = Z.gcd (value a) (value b)) \/ (forall fuel, (n <= fuel)%nat -> gcd fuel false a b = UB).
Proof. exact gcd_any. Qed.
Print Assumptions C08_gcd_negative.
Theorem C08_gcd_both_negative_refuted : exists a b, canonical a /\ canonical b /\
  value a = - 2 ^ 63 - 1 /\ value b = - 2 ^ 63 /\ gcd 5 false a b = UB.
Proof.
  exists [2 ^ 63 - 1; 2 ^ 64 - 1], [2 ^ 63]. split; [apply canonicalb_sound; vm_compute; reflexivity|].
  split; [apply canonicalb_sound; vm_compute; reflexivity|]. vm_compute. repeat split.
Qed.
Print Assumptions C08_gcd_both_negative_refuted.
Example C08_case : gcd 10 false (of_int 84) (neg (of_int 36)) = Ok (of_int 12) /\ 0 <= value (of_int 84).
Proof. vm_compute. split; [reflexivity|discriminate]. Qed.
