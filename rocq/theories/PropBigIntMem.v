(** Property C07: in-place updates of a [BigInt].

    [stored m a]: the object's storage [m] holds the words [a] (spare capacity
    may hold anything).  [dbg] says whether assertions are compiled in; the
    positive theorems hold either way. *)
From Coq Require Import ZArith List Bool Lia.
From Verif Require Import WordModel BigIntSpec BigIntModel BigIntProofs BigIntCmpProofs BigUIntModel BigIntDivProofs
  BigIntMemModel BigIntMemSpec BigIntMemProofs.
Import ListNotations.
Open Scope Z_scope.

Theorem C07_add_assign : forall dbg m a b, canonical a -> canonical b -> stored m a ->
  exists m' r, plus_assign dbg m (Other b) = Ok m' /\ stored m' r /\ canonical r /\ value r = value a + value b.
Proof.
  intros dbg m a b Ha Hb Hs. destruct (plus_assign_ok dbg m a b (proj1 Ha) (proj1 Hb) Hs) as (m' & E & S).
  exists m', (add_assign a b). exact (conj E (conj S (add_assign_spec a b (proj1 Ha) (proj1 Hb)))).
Qed.
Print Assumptions C07_add_assign.
Theorem C07_subtract_assign : forall dbg m a b, canonical a -> canonical b -> stored m a ->
  exists m' r, minus_assign dbg m (Other b) = Ok m' /\ stored m' r /\ canonical r /\ value r = value a - value b.
Proof.
  intros dbg m a b Ha Hb Hs. destruct (minus_assign_ok dbg m a b (proj1 Ha) (proj1 Hb) Hs) as (m' & E & S).
  exists m', (sub_assign a b). exact (conj E (conj S (sub_assign_spec a b (proj1 Ha) (proj1 Hb)))).
Qed.
Print Assumptions C07_subtract_assign.
Theorem C07_add_assign_int : forall dbg m a v, canonical a -> stored m a -> - 2 ^ 31 <= v < 2 ^ 31 ->
  exists m' r, plus_assign_int dbg m v = Ok m' /\ stored m' r /\ canonical r /\ value r = value a + v.
Proof. exact plus_assign_int_ok. Qed.
Print Assumptions C07_add_assign_int.
Theorem C07_subtract_assign_int : forall dbg m a v, canonical a -> stored m a -> - 2 ^ 31 <= v < 2 ^ 31 ->
  exists m' r, minus_assign_int dbg m v = Ok m' /\ stored m' r /\ canonical r /\ value r = value a - v.
Proof. exact minus_assign_int_ok. Qed.
Print Assumptions C07_subtract_assign_int.

(** ++ and -- compute the right value, except ++ of the largest value that fits
    in the words in use; the result is canonical except at the values named. *)
Theorem C07_increment : forall dbg m a, canonical a -> stored m a ->
  value a <> 2 ^ (64 * (used a - 1) + 63) - 1 ->
  exists m' r, incr dbg m = Ok m' /\ stored m' r /\ wf r /\ value r = value a + 1 /\
    (canonical r <-> forall k, 0 <= k -> value a <> - 2 ^ (64 * k + 63) - 1).
Proof. exact incr_ok. Qed.
Print Assumptions C07_increment.
Theorem C07_decrement : forall dbg m a, canonical a -> stored m a ->
  exists m' r, decr dbg m = Ok m' /\ stored m' r /\ wf r /\ value r = value a - 1 /\
    (canonical r <-> forall k, 0 <= k -> value a <> 2 ^ (64 * k + 63)).
Proof. exact decr_ok. Qed.
Print Assumptions C07_decrement.

(** Same-object operands work for 32 bit values. *)
Theorem C07_add_self : forall dbg m a, canonical a -> stored m a -> - 2 ^ 31 <= value a < 2 ^ 31 ->
  exists m' r, plus_assign dbg m Self = Ok m' /\ stored m' r /\ canonical r /\ value r = value a + value a.
Proof. exact plus_self_ok. Qed.
Print Assumptions C07_add_self.
Theorem C07_subtract_self : forall dbg m a, canonical a -> stored m a -> - 2 ^ 31 <= value a < 2 ^ 31 ->
  exists m' r, minus_assign dbg m Self = Ok m' /\ stored m' r /\ canonical r /\ value r = 0.
Proof. exact minus_self_ok. Qed.
Print Assumptions C07_subtract_self.

(** Findings, each for all inputs of the failing class. *)
(** ++ of 2^(64n-1) - 1 in n words asserts in debug builds; in release builds
    it is undefined or silently yields the negative extreme. *)
Theorem C07_increment_overflow_refuted : forall m a, canonical a -> stored m a ->
  value a = 2 ^ (64 * (used a - 1) + 63) - 1 ->
  incr true m = AssertFail /\
  (incr false m = UB \/ exists m' r, incr false m = Ok m' /\ stored m' r /\ value r = - value a - 1).
Proof. exact incr_overflow. Qed.
Print Assumptions C07_increment_overflow_refuted.
(** a += a and a -= a are undefined for every value outside the 32 bit range
    when the object has no spare capacity. *)
Theorem C07_self_operand_refuted : forall dbg m a, canonical a -> stored m a -> no_spare m ->
  ~ (- 2 ^ 31 <= value a < 2 ^ 31) -> plus_assign dbg m Self = UB /\ minus_assign dbg m Self = UB.
Proof. exact plus_self_ub. Qed.
Print Assumptions C07_self_operand_refuted.
(** The non-canonical results are visible: ++(-2^63 - 1) and INT64_MIN denote the same
    integer but compare different with ==; likewise --(2^63) and INT64_MAX. *)
Theorem C07_not_canonical_refuted :
  (exists m a m' r b, canonical a /\ stored m a /\ value a = - 2 ^ 63 - 1 /\ incr false m = Ok m' /\ stored m' r /\
    canonical b /\ value b = value r /\ value r = - 2 ^ 63 /\ eq r b = false) /\
  (exists m a m' r b, canonical a /\ stored m a /\ value a = 2 ^ 63 /\ decr false m = Ok m' /\ stored m' r /\
    canonical b /\ value b = value r /\ value r = 2 ^ 63 - 1 /\ eq r b = false).
Proof.
  split.
  - exists (Mem [Some (2 ^ 63 - 1); Some (2 ^ 64 - 1)] 2), [2 ^ 63 - 1; 2 ^ 64 - 1],
      (Mem [Some (2 ^ 63); Some (2 ^ 64 - 1)] 2), [2 ^ 63; 2 ^ 64 - 1], [2 ^ 63].
    split; [apply canonicalb_sound; vm_compute; reflexivity|]. split; [split; [reflexivity|exists []; reflexivity]|].
    split; [vm_compute; reflexivity|]. split; [vm_compute; reflexivity|]. split; [split; [reflexivity|exists []; reflexivity]|].
    split; [apply canonicalb_sound; vm_compute; reflexivity|]. vm_compute. auto.
  - exists (Mem [Some (2 ^ 63); Some 0] 2), [2 ^ 63; 0], (Mem [Some (2 ^ 63 - 1); Some 0] 2), [2 ^ 63 - 1; 0], [2 ^ 63 - 1].
    split; [apply canonicalb_sound; vm_compute; reflexivity|]. split; [split; [reflexivity|exists []; reflexivity]|].
    split; [vm_compute; reflexivity|]. split; [vm_compute; reflexivity|]. split; [split; [reflexivity|exists []; reflexivity]|].
    split; [apply canonicalb_sound; vm_compute; reflexivity|]. vm_compute. auto.
Qed.
Print Assumptions C07_not_canonical_refuted.

(** The hypotheses are met by a 2-word number with stale spare capacity, by
    INT64_MAX, and by a number with no spare capacity outside the 32 bit range. *)
Example C07_case :
  canonical [2 ^ 64 - 1; 5] /\ stored (Mem [Some (2 ^ 64 - 1); Some 5; None; Some 77] 2) [2 ^ 64 - 1; 5] /\
  value [2 ^ 64 - 1; 5] <> 2 ^ (64 * (used [2 ^ 64 - 1; 5] - 1) + 63) - 1 /\
  incr false (Mem [Some (2 ^ 64 - 1); Some 5; None; Some 77] 2) = Ok (Mem [Some 0; Some 6; None; Some 77] 2) /\
  canonical [2 ^ 63 - 1] /\ value [2 ^ 63 - 1] = 2 ^ (64 * (used [2 ^ 63 - 1] - 1) + 63) - 1 /\
  no_spare (Mem [Some (2 ^ 63 - 1)] 1) /\ ~ (- 2 ^ 31 <= value [2 ^ 63 - 1] < 2 ^ 31) /\
  plus_assign true (Mem [Some 7; Some 1; None] 2) (Other [2 ^ 64 - 5]) = Ok (Mem [Some 2; Some 1; Some 0] 2).
Proof.
  split; [apply canonicalb_sound; vm_compute; reflexivity|]. split; [split; [reflexivity|exists [None; Some 77]; reflexivity]|].
  split; [vm_compute; discriminate|]. split; [vm_compute; reflexivity|].
  split; [apply canonicalb_sound; vm_compute; reflexivity|]. split; [vm_compute; reflexivity|].
  split; [reflexivity|]. split; [vm_compute; intros [_ X]; discriminate X|]. vm_compute. reflexivity.
Qed.
