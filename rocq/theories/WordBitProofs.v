(** Bit scans of [BigUIntWord]. *)
From Coq Require Import ZArith List Bool Lia.
From Verif Require Import WordModel BigIntSpec WordProofs.
Import ListNotations.
Open Scope Z_scope.

Lemma land_high_mask v k : 0 <= k -> 0 <= v < 2 ^ (2 * k) ->
  Z.land v (Z.shiftl (Z.ones k) k) = Z.shiftl (Z.shiftr v k) k.
Proof.
  intros Hk Hv. apply Z.bits_inj'. intros i Hi. rewrite Z.land_spec.
  destruct (Z.ltb_spec i k).
  - rewrite !Z.shiftl_spec_low by lia. apply andb_false_r.
  - rewrite !Z.shiftl_spec by lia. rewrite Z.shiftr_spec by lia. replace (i - k + k) with i by lia.
    destruct (Z.ltb_spec (i - k) k).
    + rewrite Z.ones_spec_low by lia. apply andb_true_r.
    + rewrite Z.ones_spec_high by lia. rewrite andb_false_r. symmetry.
      destruct (Z.eq_dec v 0) as [-> |]; [apply Z.bits_0|].
      apply Z.bits_above_log2; [lia|]. assert (Z.log2 v < 2 * k) by (apply Z.log2_lt_pow2; lia). lia.
Qed.
Lemma high_mask_test v k : 0 <= k -> 0 <= v < 2 ^ (2 * k) ->
  (Z.land v (Z.shiftl (Z.ones k) k) =? 0) = (v <? 2 ^ k).
Proof.
  intros Hk Hv. rewrite land_high_mask by assumption.
  assert (0 < 2 ^ k) by (apply Z.pow_pos_nonneg; lia).
  rewrite Z.shiftr_div_pow2, Z.shiftl_mul_pow2 by lia.
  apply eq_true_iff_eq. rewrite Z.eqb_eq, Z.ltb_lt. pose proof (Z.div_mod v (2 ^ k) ltac:(lia)).
  pose proof (Z.mod_pos_bound v (2 ^ k) ltac:(lia)). split; intros.
  - nia.
  - rewrite Z.div_small by lia. reflexivity.
Qed.

Lemma hsb_step t v r k : 0 < k -> 0 <= v < 2 ^ (2 * k) -> (exists m, r = m * (2 * k)) -> (exists j, 0 <= j /\ 2 * k = 2 ^ j) ->
  (forall v' r', 0 <= v' < 2 ^ k -> (exists m, r' = m * k) -> hsb_loop t v' r' = r' + whighest_set_bit v') ->
  hsb_loop ((Z.shiftl (Z.ones k) k, k) :: t) v r = r + whighest_set_bit v.
Proof.
  intros Hk Hv [m Hr] [j [Hj Ej]] IH. cbn [hsb_loop]. rewrite high_mask_test by lia.
  assert (P : 0 < 2 ^ k) by (apply Z.pow_pos_nonneg; lia).
  destruct (Z.ltb_spec v (2 ^ k)); cbn [negb].
  - apply IH; [lia|]. exists (2 * m). lia.
  - assert (E : Z.lor r k = r + k) by (rewrite Hr, Ej; apply lor_disjoint; lia).
    rewrite E. rewrite IH.
    + unfold whighest_set_bit, wshr. assert (E2 : 1 <= Z.shiftr v k).
      { rewrite Z.shiftr_div_pow2 by lia. apply Z.div_le_lower_bound; lia. }
      destruct (Z.eqb_spec (Z.shiftr v k) 0); [lia|]. destruct (Z.eqb_spec v 0); [lia|].
      rewrite Z.log2_shiftr by lia. assert (k <= Z.log2 v) by (apply Z.log2_le_pow2; lia). lia.
    + unfold wshr. rewrite Z.shiftr_div_pow2 by lia. split; [apply Z.div_pos; lia|].
      apply Z.div_lt_upper_bound; [lia|]. rewrite <- Z.pow_add_r by lia. replace (k + k) with (2 * k) by lia. lia.
    + exists (2 * m + 1). lia.
Qed.

Lemma whighest_set_bit_portable_eq w : is_word w -> whighest_set_bit_portable w = whighest_set_bit w.
Proof.
  intros Hw. unfold whighest_set_bit_portable, hsb_table.
  transitivity (0 + whighest_set_bit w); [|lia].
  change (18446744069414584320, 32) with (Z.shiftl (Z.ones 32) 32, 32).
  apply hsb_step; [lia|exact Hw|exists 0; reflexivity|exists 6; split; [lia|reflexivity]|].
  intros v1 r1 H1 R1. change (4294901760, 16) with (Z.shiftl (Z.ones 16) 16, 16).
  apply hsb_step; [lia|exact H1|exact R1|exists 5; split; [lia|reflexivity]|].
  intros v2 r2 H2 R2. change (65280, 8) with (Z.shiftl (Z.ones 8) 8, 8).
  apply hsb_step; [lia|exact H2|exact R2|exists 4; split; [lia|reflexivity]|].
  intros v3 r3 H3 R3. change (240, 4) with (Z.shiftl (Z.ones 4) 4, 4).
  apply hsb_step; [lia|exact H3|exact R3|exists 3; split; [lia|reflexivity]|].
  intros v4 r4 H4 R4. change (12, 2) with (Z.shiftl (Z.ones 2) 2, 2).
  apply hsb_step; [lia|exact H4|exact R4|exists 2; split; [lia|reflexivity]|].
  intros v5 r5 H5 R5. change (2, 1) with (Z.shiftl (Z.ones 1) 1, 1).
  apply hsb_step; [lia|exact H5|exact R5|exists 1; split; [lia|reflexivity]|].
  intros v6 r6 H6 _. cbn [hsb_loop]. change (2 ^ 1) with 2 in H6.
  assert (v6 = 0 \/ v6 = 1) as [-> | ->] by lia; reflexivity.
Qed.

Lemma bit_test w t : is_word w -> 0 <= t < 64 -> (Z.land w (wshl 1 t) =? 0) = negb (Z.testbit w t).
Proof.
  intros Hw Ht. unfold wshl. rewrite wrap_small.
  2: { rewrite Z.shiftl_1_l. split; [pose proof (Z.pow_pos_nonneg 2 t); lia|apply Z.pow_lt_mono_r; lia]. }
  destruct (Z.testbit w t) eqn:B; cbn [negb].
  - apply Z.eqb_neq. intros E. assert (F : Z.testbit (Z.land w (Z.shiftl 1 t)) t = false) by (rewrite E; apply Z.bits_0).
    rewrite Z.land_spec, B, Z.shiftl_1_l, Z.pow2_bits_true in F by lia. discriminate.
  - apply Z.eqb_eq. apply Z.bits_inj'. intros i Hi. rewrite Z.land_spec, Z.shiftl_1_l, Z.bits_0.
    destruct (Z.eq_dec i t) as [-> | N]; [rewrite B; reflexivity|].
    rewrite Z.pow2_bits_false by lia. apply andb_false_r.
Qed.

Lemma tz_loop_spec f : forall w t, is_word w -> w <> 0 -> 0 <= t -> t + Z.of_nat f = 64 ->
  (forall i, 0 <= i < t -> Z.testbit w i = false) ->
  exists r, tz_loop f w t = Some r /\ 0 <= r < 64 /\ Z.testbit w r = true /\ forall i, 0 <= i < r -> Z.testbit w i = false.
Proof.
  induction f as [|f IH]; intros w t Hw Hne Ht Hf Hlow.
  - exfalso. apply Hne. apply Z.bits_inj'. intros i Hi. rewrite Z.bits_0.
    destruct (Z.ltb_spec i 64); [apply Hlow; lia|apply testbit_word_high; assumption].
  - cbn [tz_loop]. rewrite bit_test by (assumption || lia). destruct (Z.testbit w t) eqn:B; cbn [negb].
    + exists t. repeat split; auto; lia.
    + apply IH; auto; [lia|lia|]. intros i Hi. destruct (Z.eq_dec i t) as [-> |]; [assumption|]. apply Hlow; lia.
Qed.
Lemma wtrailing_zeros_spec w : is_word w -> w <> 0 ->
  exists r, wtrailing_zeros_portable w = Some r /\ 0 <= r < 64 /\ Z.testbit w r = true /\ forall i, 0 <= i < r -> Z.testbit w i = false.
Proof.
  intros Hw Hne. unfold wtrailing_zeros_portable. destruct (Z.eqb_spec w 0); [congruence|].
  apply tz_loop_spec; auto; try lia.
Qed.
