(** C75: points from doubles. *)
From Coq Require Import ZArith QArith Qpower Lia Lqa.
From Verif Require Import BigUIntModel GeoModel GeoSpec DoubleModel DoubleSpec DoubleProofs.
Open Scope Z_scope.

(** Decompose returns a mantissa and an exponent whose value is that of the double,
    and no other such mantissa has a smaller absolute value; for 0 it returns 0 and 0. *)
Theorem C75_decompose : forall d, finite_double d -> exists r x, decompose d = Ok (r, x) /\ (binary r x == double_value d)%Q /\
  (forall r' x', (binary r' x' == double_value d)%Q -> Z.abs r <= Z.abs r') /\ (d_man d = 0 -> r = 0 /\ x = 0).
Proof.
  intros d F. destruct (decompose_ok d F) as (r & x & E & V & O & _). exists r, x. split; [exact E|]. split; [exact V|]. split; [|intros Z0; unfold decompose, frexp53 in E; rewrite Z0 in E; cbn in E; injection E as <- <-; auto].
  intros r' x' V'. destruct O as [[-> _]|O]; [lia|]. apply (odd_least r x r' x' O). rewrite V, V'. reflexivity.
Qed.
Print Assumptions C75_decompose.
(** FromDoublesExact returns the point with the coordinates given, whatever the
    exponents are. *)
Theorem C75_exact : forall a b c, finite_double a -> finite_double b -> finite_double c ->
  exists p, from_doubles_exact a b c = Ok p /\ 0 < hw p /\ denotes p (QP (double_value a) (double_value b) (double_value c)).
Proof.
  intros a b c A B C. destruct (decompose_ok a A) as (r1 & x1 & E1 & V1 & _). destruct (decompose_ok b B) as (r2 & x2 & E2 & V2 & _). destruct (decompose_ok c C) as (r3 & x3 & E3 & V3 & _).
  unfold from_doubles_exact. rewrite E1, E2, E3. cbn [rbind fst snd]. set (de := Z.min 0 (Z.min x1 (Z.min x2 x3))). unfold shift_left. destruct (Z.ltb_spec (x1 - de) 0); [lia|]. destruct (Z.ltb_spec (x2 - de) 0); [lia|]. destruct (Z.ltb_spec (x3 - de) 0); [lia|]. destruct (Z.ltb_spec (- de) 0); [lia|]. cbn [rbind].
  eexists. split; [reflexivity|]. split; [cbn [hw]; rewrite Z.shiftl_mul_pow2 by lia; assert (0 < 2 ^ (- de)) by (apply Z.pow_pos_nonneg; lia); lia|]. destruct (point_denotes (Z.shiftl r1 (x1 - de)) (Z.shiftl r2 (x2 - de)) (Z.shiftl r3 (x3 - de)) de ltac:(lia)) as (N & P1 & P2 & P3).
  assert (S : forall r x, de <= x -> (binary (Z.shiftl r (x - de)) de == binary r x)%Q). { intros r x L. rewrite Z.shiftl_mul_pow2 by lia. rewrite binary_shift by lia. replace (de + (x - de)) with x by lia. reflexivity. }
  cbn [qx qy qz] in P1, P2, P3. rewrite S in P1, P2, P3 by lia. rewrite V1 in P1. rewrite V2 in P2. rewrite V3 in P3. split; [exact N|]. split; [exact P1|]. split; [exact P2|exact P3].
Qed.
Print Assumptions C75_exact.
Lemma grain e a b c : finite_double a -> finite_double b -> finite_double c ->
  exists p q, from_doubles e a b c = Ok p /\ 0 < hw p /\ denotes p q /\
    rounded (2 ^ Z.min 0 e) (double_value a) (qx q) /\ rounded (2 ^ Z.min 0 e) (double_value b) (qy q) /\ rounded (2 ^ Z.min 0 e) (double_value c) (qz q).
Proof.
  intros A B C. destruct (decompose_ok a A) as (r1 & x1 & E1 & V1 & _ & R1). destruct (decompose_ok b B) as (r2 & x2 & E2 & V2 & _ & R2). destruct (decompose_ok c C) as (r3 & x3 & E3 & V3 & _ & R3).
  unfold from_doubles. rewrite E1, E2, E3. cbn [rbind fst snd]. set (de := Z.min 0 (Z.max e (Z.min x1 (Z.min x2 x3)))). unfold shift_left. destruct (Z.ltb_spec (- de) 0); [lia|]. cbn [rbind]. eexists. exists (QP (binary (safe_shift_left r1 (x1 - de)) de) (binary (safe_shift_left r2 (x2 - de)) de) (binary (safe_shift_left r3 (x3 - de)) de)). split; [reflexivity|].
  split; [cbn [hw]; rewrite Z.shiftl_mul_pow2 by lia; assert (0 < 2 ^ (- de)) by (apply Z.pow_pos_nonneg; lia); lia|]. split; [apply point_denotes; lia|]. cbn [qx qy qz].
  assert (X : forall v v' r x, (v == v')%Q -> rounded (2 ^ Z.min 0 e) v r -> x = r -> rounded (2 ^ Z.min 0 e) v' x). { intros v v' r x Ev [K [L U]] ->. split; [exact K|]. rewrite <- Ev. split; assumption. }
  split; [|split]; (eapply X; [eassumption| |reflexivity]); apply coordinate; try assumption; lia.
Qed.
(** FromDoubles rounds every coordinate to a multiple of 2^min_exponent if
    min_exponent is not positive. *)
Theorem C75_rounded : forall e a b c, e <= 0 -> finite_double a -> finite_double b -> finite_double c ->
  exists p q, from_doubles e a b c = Ok p /\ 0 < hw p /\ denotes p q /\
    rounded (2 ^ e) (double_value a) (qx q) /\ rounded (2 ^ e) (double_value b) (qy q) /\ rounded (2 ^ e) (double_value c) (qz q).
Proof. intros e a b c L A B C. pose proof (grain e a b c A B C) as G. rewrite Z.min_r in G by exact L. exact G. Qed.
Print Assumptions C75_rounded.
(** If min_exponent is positive, the coordinates are rounded to integers. *)
Theorem C75_integers : forall e a b c, 0 < e -> finite_double a -> finite_double b -> finite_double c ->
  exists p q, from_doubles e a b c = Ok p /\ 0 < hw p /\ denotes p q /\ rounded 1 (double_value a) (qx q) /\ rounded 1 (double_value b) (qy q) /\ rounded 1 (double_value c) (qz q).
Proof. intros e a b c L A B C. pose proof (grain e a b c A B C) as G. rewrite Z.min_l in G by lia. exact G. Qed.
Print Assumptions C75_integers.
(** So the documented grain size is not kept: whatever positive min_exponent is given,
    the point with the coordinates 1, 1, 1 is returned as it is. *)
Theorem C75_grain_refuted : forall e, 0 < e -> exists p, from_doubles e (Dbl 1 0) (Dbl 1 0) (Dbl 1 0) = Ok p /\ forall q, denotes p q -> ~ rounded (2 ^ e) (double_value (Dbl 1 0)) (qx q).
Proof.
  intros e L. assert (D : decompose (Dbl 1 0) = Ok (1, 0)) by reflexivity. unfold from_doubles. rewrite D. cbn [rbind fst snd]. replace (Z.min 0 _) with 0 by lia. exists (HP (V3 1 1 1) 1). split; [reflexivity|]. intros q (_ & Q & _) [[k K] _]. cbn [hv hw vx] in Q. rewrite K in Q.
  rewrite <- two_int in Q by lia. rewrite <- !inject_Z_mult in Q. apply (proj1 (inject_Z_injective _ _)) in Q. replace e with (1 + (e - 1)) in Q by lia. rewrite Z.pow_add_r in Q by lia. change (2 ^ 1) with 2 in Q. replace (k * (2 * 2 ^ (e - 1)) * 1) with (2 * (k * 2 ^ (e - 1))) in Q by ring. lia.
Qed.
Print Assumptions C75_grain_refuted.

(** 0.75, -2.5 and 0.1: exactly, and rounded to multiples of 1/2 and of 1.  The halfway
    cases -2.5 and 0.75 go up. *)
Definition tenth : double := Dbl 7205759403792794 (-56).
Example C75_case : finite_double (Dbl 3 (-2)) /\ finite_double (Dbl (-5) (-1)) /\ finite_double tenth /\ decompose tenth = Ok (3602879701896397, -55) /\
  from_doubles_exact (Dbl 3 (-2)) (Dbl (-5) (-1)) tenth = Ok (HP (V3 27021597764222976 (-90071992547409920) 3602879701896397) 36028797018963968) /\
  from_doubles (-1) (Dbl 3 (-2)) (Dbl (-5) (-1)) tenth = Ok (HP (V3 2 (-5) 0) 2) /\ from_doubles 0 (Dbl 3 (-2)) (Dbl (-5) (-1)) tenth = Ok (HP (V3 1 (-2) 0) 1).
Proof. unfold finite_double, tenth. cbn [d_man d_exp]. repeat (split; [lia || (vm_compute; reflexivity)|]). vm_compute. reflexivity. Qed.
