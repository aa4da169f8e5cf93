(** Property C22: MLogNEstimator and GetSplitCost. *)
From Coq Require Import ZArith List Bool Lia.
From Verif Require Import WordModel BigUIntModel EstModel EstSpec EstProofs.
Import ListNotations.
Open Scope Z_scope.

(** Whatever was asked before, the answer to a call is the answer a fresh
    estimator gives. *)
Theorem C22_no_history : forall before m n, Forall call_ok before -> 0 <= m < 2 ^ 64 -> 0 < n < 2 ^ 64 ->
  exists v answers last last', estimate true estimator_init m n = Ok (last, v) /\
    estimates true estimator_init before = Ok (last', answers) /\
    exists last2, estimates true estimator_init (before ++ [(m, n)]) = Ok (last2, answers ++ [v]).
Proof.
  intros before m n B M N. destruct (estimates_eq before estimator_init (Z.le_refl 0) B) as (l & GL & E).
  exists (interpolation m n mod 2 ^ 64), (map (fun c => interpolation (fst c) (snd c) mod 2 ^ 64) before), (Z.log2 n), l.
  split; [apply estimate_eq; [apply Z.le_refl|exact M|exact N|left; reflexivity]|]. split; [exact E|].
  exists (Z.log2 n). rewrite estimates_app, E. cbn [rbind fst snd estimates]. rewrite (estimate_eq true l m n GL M N (or_introl eq_refl)). reflexivity.
Qed.
Print Assumptions C22_no_history.
(** Asking about n = 0 is undefined behaviour, again whatever came before. *)
Theorem C22_zero_undefined : forall before m after, Forall call_ok before -> estimates true estimator_init (before ++ (m, 0) :: after) = UB.
Proof. intros before m after B. apply estimates_zero; [apply Z.le_refl|exact B]. Qed.
Print Assumptions C22_zero_undefined.
(** m * k for n = 2^k. *)
Theorem C22_exact_at_powers : forall last m k, 0 <= last -> 0 <= m -> 0 <= k < 64 -> m * k < 2 ^ 64 -> m < 2 ^ 64 ->
  estimate true last m (2 ^ k) = Ok (k, m * k).
Proof.
  intros last m k G M K L ML. assert (P : 0 < 2 ^ k < 2 ^ 64) by (split; [apply Z.pow_pos_nonneg; lia|apply Z.pow_lt_mono_r; lia]).
  rewrite (estimate_eq true last m (2 ^ k) G (conj M ML) P (or_introl eq_refl)). rewrite interpolation_pow2 by lia. rewrite Z.log2_pow2 by lia. rewrite Z.mod_small by nia. reflexivity.
Qed.
Print Assumptions C22_exact_at_powers.
(** The estimate never exceeds m log2 n (even when the result wraps). *)
Theorem C22_upper_bound : forall last last' m n v, 0 <= last -> 0 <= m < 2 ^ 64 -> 0 < n < 2 ^ 64 -> estimate true last m n = Ok (last', v) ->
  at_most_mlogn v m n.
Proof.
  intros last last' m n v G M N E. rewrite (estimate_eq true last m n G M N (or_introl eq_refl)) in E. injection E as _ <-.
  unfold at_most_mlogn. apply Z.le_trans with (2 ^ interpolation m n); [|apply interpolation_at_most; lia].
  apply Z.pow_le_mono_r; [lia|]. apply Z.mod_le; [apply interpolation_nonneg; lia|lia].
Qed.
Print Assumptions C22_upper_bound.
(** The documented accuracy: when m <= 4 n and m log2 n fits 64 bits, the exact value
    v satisfies v - (1 + 0.033 v) <= estimate.  The bound on m is needed for
    n = 3 only. *)
Theorem C22_lower_bound : forall last last' m n v, 0 <= last -> 0 <= m < 2 ^ 64 -> 0 < n < 2 ^ 64 -> (forall x, at_most_mlogn x m n -> x < 2 ^ 64) ->
  m <= 4 * n \/ n <> 3 -> estimate true last m n = Ok (last', v) -> fraction_mlogn_at_most 967 1000 m n (v + 1).
Proof.
  intros last last' m n v G M N F A E. rewrite (estimate_eq true last m n G M N (or_introl eq_refl)) in E. injection E as _ <-.
  pose proof (F _ (interpolation_at_most m n (proj1 M) (proj1 N))) as L.
  rewrite Z.mod_small by (split; [apply interpolation_nonneg; lia|exact L]).
  apply interpolation_near; [apply M|apply N|]. intros ->. lia.
Qed.
Print Assumptions C22_lower_bound.
(** At n = 3 it is false for every m >= 32. *)
Theorem C22_lower_bound_three_refuted : forall m, 32 <= m -> ~ fraction_mlogn_at_most 967 1000 m 3 (interpolation m 3 + 1).
Proof. exact three_far. Qed.
Print Assumptions C22_lower_bound_three_refuted.
(** Without 128-bit arithmetic the same holds as long as m * n fits. *)
Theorem C22_narrow : forall last m n, 0 <= last -> 0 <= m < 2 ^ 64 -> 0 < n < 2 ^ 64 -> m * n < 2 ^ 64 -> estimate false last m n = estimate true last m n.
Proof.
  intros last m n G M N F. rewrite (estimate_eq false last m n G M N (or_intror F)). symmetry. apply estimate_eq; [exact G|exact M|exact N|left; reflexivity].
Qed.
Print Assumptions C22_narrow.
(** GetSplitCost is at most the documented sum
    neg_total log2(neg_total - neg_exclude + 1) + pos_total log2(pos_total - pos_exclude + 1). *)
Theorem C22_split_upper_bound : forall nt ne pt pe c, 0 <= ne <= nt -> 0 <= pe <= pt -> nt < 2 ^ 64 - 1 -> pt < 2 ^ 64 - 1 ->
  split_cost true nt ne pt pe = Ok c -> 2 ^ c <= (nt - ne + 1) ^ nt * (pt - pe + 1) ^ pt.
Proof.
  intros nt ne pt pe c N P N' P' E. rewrite split_cost_eq in E by (split; assumption). injection E as <-.
  pose proof (interpolation_at_most nt (nt - ne + 1) ltac:(lia) ltac:(lia)) as A. pose proof (interpolation_at_most pt (pt - pe + 1) ltac:(lia) ltac:(lia)) as B. unfold at_most_mlogn in A, B.
  pose proof (interpolation_nonneg nt (nt - ne + 1) ltac:(lia) ltac:(lia)) as A0. pose proof (interpolation_nonneg pt (pt - pe + 1) ltac:(lia) ltac:(lia)) as B0.
  apply Z.le_trans with (2 ^ (interpolation nt (nt - ne + 1) + interpolation pt (pt - pe + 1))).
  - apply Z.pow_le_mono_r; [lia|]. apply Z.mod_le; lia.
  - rewrite Z.pow_add_r by assumption. apply Z.mul_le_mono_nonneg; try assumption; apply Z.pow_nonneg; lia.
Qed.
Print Assumptions C22_split_upper_bound.
(** Up to 2 + 0.033 v it is also at least that sum, when nothing is excluded
    from more than three quarters of a side (or the side does not end up with
    argument 3) and the sum fits 64 bits. *)
Theorem C22_split_lower_bound : forall nt ne pt pe c, 0 <= ne <= nt -> 0 <= pe <= pt -> nt < 2 ^ 64 - 1 -> pt < 2 ^ 64 - 1 ->
  nt <= 4 * (nt - ne + 1) -> pt <= 4 * (pt - pe + 1) -> (forall x, 2 ^ x <= (nt - ne + 1) ^ nt * (pt - pe + 1) ^ pt -> x < 2 ^ 64) ->
  split_cost true nt ne pt pe = Ok c -> (nt - ne + 1) ^ (967 * nt) * (pt - pe + 1) ^ (967 * pt) <= 2 ^ (1000 * (c + 2)).
Proof.
  intros nt ne pt pe c N P N' P' A1 A2 F E. rewrite split_cost_eq in E by (split; assumption). injection E as <-.
  set (n := nt - ne + 1) in *. set (p := pt - pe + 1) in *. assert (Hn : 0 < n) by lia. assert (Hp : 0 < p) by lia.
  pose proof (interpolation_at_most nt n ltac:(lia) Hn) as A. pose proof (interpolation_at_most pt p ltac:(lia) Hp) as B. unfold at_most_mlogn in A, B.
  pose proof (interpolation_nonneg nt n ltac:(lia) Hn) as A0. pose proof (interpolation_nonneg pt p ltac:(lia) Hp) as B0.
  pose proof (interpolation_near nt n ltac:(lia) Hn ltac:(lia)) as LA. pose proof (interpolation_near pt p ltac:(lia) Hp ltac:(lia)) as LB. unfold fraction_mlogn_at_most in LA, LB.
  assert (L : interpolation nt n + interpolation pt p < 2 ^ 64).
  { apply F. rewrite Z.pow_add_r by assumption.
    apply Z.mul_le_mono_nonneg; try assumption; apply Z.pow_nonneg; lia. }
  rewrite Z.mod_small by (split; [lia|exact L]).
  replace (1000 * (interpolation nt n + interpolation pt p + 2)) with (1000 * (interpolation nt n + 1) + 1000 * (interpolation pt p + 1)) by ring.
  rewrite Z.pow_add_r by lia. apply Z.mul_le_mono_nonneg; try assumption; apply Z.pow_nonneg; lia.
Qed.
Print Assumptions C22_split_lower_bound.
(** The documented 1 + 0.018 v accuracy of GetSplitCost is false, with nothing
    excluded. *)
Theorem C22_split_accuracy_refuted : exists nt pt c, 0 <= nt /\ 0 <= pt /\ split_cost true nt 0 pt 0 = Ok c /\
  2 ^ (1000 * (c + 1)) < (nt + 1) ^ (982 * nt) * (pt + 1) ^ (982 * pt).
Proof.
  exists 11, 11, 76. split; [lia|]. split; [lia|]. split; [reflexivity|]. change (11 + 1) with 12.
  rewrite <- Z.pow_add_r by discriminate. apply (power_gap 491 1750 44 12 (1000 * (76 + 1))); reflexivity || (vm_compute; reflexivity).
Qed.
Print Assumptions C22_split_accuracy_refuted.
(** GetSplitCost is undefined exactly when a side excludes one more polygon
    than it has (modulo 2^64). *)
Theorem C22_split_undefined : forall nt ne pt pe, 0 <= nt < 2 ^ 64 -> 0 <= ne < 2 ^ 64 -> 0 <= pt < 2 ^ 64 -> 0 <= pe < 2 ^ 64 ->
  (split_cost true nt ne pt pe = UB <-> (nt - ne + 1) mod 2 ^ 64 = 0 \/ (pt - pe + 1) mod 2 ^ 64 = 0).
Proof. exact split_cost_ub. Qed.
Print Assumptions C22_split_undefined.

Example C22_case : estimates true estimator_init [(5, 12); (7, 1000); (5, 12); (3, 8)] = Ok (3, [17; 69; 17; 9]).
Proof. reflexivity. Qed.
Example C22_split_case : split_cost true 10 2 20 0 = Ok 117.
Proof. reflexivity. Qed.
