(** Proofs about the conversion of doubles. *)
From Coq Require Import ZArith QArith Qpower Qabs Lia Lqa Bool.
From Verif Require Import BigUIntModel WordModel BigIntSpec WordBitProofs GeoModel GeoSpec DoubleModel DoubleSpec.
Open Scope Z_scope.

Lemma two_pos e : (0 < 2 ^ e)%Q.
Proof. apply Qpower_0_lt. reflexivity. Qed.
Lemma two_plus a b : (2 ^ (a + b) == 2 ^ a * 2 ^ b)%Q.
Proof. apply Qpower_plus. intros H. discriminate. Qed.
Lemma two_int k : 0 <= k -> (inject_Z (2 ^ k) == 2 ^ k)%Q.
Proof. intros H. rewrite Zpower_Qpower by exact H. reflexivity. Qed.
Lemma binary_shift m e k : 0 <= k -> (binary (m * 2 ^ k) e == binary m (e + k))%Q.
Proof. intros H. unfold binary. rewrite inject_Z_mult, two_int by exact H. rewrite two_plus. ring. Qed.
Lemma binary_same a x b y : x <= y -> (binary a x == binary b y)%Q -> a = b * 2 ^ (y - x).
Proof.
  intros H E. replace y with (x + (y - x)) in E by lia. rewrite <- binary_shift in E by lia. unfold binary in E. apply Qmult_inj_r in E; [apply inject_Z_injective; exact E|]. intros Z. pose proof (two_pos x) as P. rewrite Z in P. discriminate.
Qed.
Lemma wrap_mod r t : 0 <= t < 64 -> wrap r mod 2 ^ (t + 1) = r mod 2 ^ (t + 1).
Proof.
  intros H. unfold wrap. change W with (2 ^ 64). replace 64 with ((t + 1) + (63 - t)) by lia. rewrite Z.pow_add_r by lia. assert (0 < 2 ^ (t + 1)) by (apply Z.pow_pos_nonneg; lia). assert (0 < 2 ^ (63 - t)) by (apply Z.pow_pos_nonneg; lia).
  rewrite Z.rem_mul_r by lia. rewrite Z.add_mod by lia. rewrite Z.mul_comm, Z.mod_mul by lia. rewrite Z.add_0_r, !Z.mod_mod by lia. reflexivity.
Qed.
Lemma odd_part r t : 0 <= t -> r mod 2 ^ (t + 1) = 2 ^ t -> r = Z.shiftr r t * 2 ^ t /\ Z.odd (Z.shiftr r t) = true.
Proof.
  intros H E. assert (P : 0 < 2 ^ t) by (apply Z.pow_pos_nonneg; lia). rewrite Z.shiftr_div_pow2 by exact H. rewrite Z.pow_add_r in E by lia. change (2 ^ 1) with 2 in E. rewrite Z.rem_mul_r in E by lia. pose proof (Z.mod_pos_bound r (2 ^ t) P) as B. pose proof (Z.mod_pos_bound (r / 2 ^ t) 2 ltac:(lia)) as B2.
  pose proof (Z.div_mod r (2 ^ t) ltac:(lia)) as D. set (q := r / 2 ^ t) in *. set (u := r mod 2 ^ t) in *. assert (X : q mod 2 = 0 \/ q mod 2 = 1) by lia. destruct X as [X|X]; rewrite X in E; [lia|]. split; [lia|].
  rewrite Zmod_odd in X. destruct (Z.odd q); [reflexivity|discriminate].
Qed.
Lemma decompose_ok d : finite_double d -> exists r x, decompose d = Ok (r, x) /\ (binary r x == double_value d)%Q /\ (r = 0 /\ x = 0 \/ Z.odd r = true) /\ Z.abs r < 2 ^ 53.
Proof.
  intros [M _]. unfold decompose, frexp53. destruct (Z.eqb_spec (d_man d) 0) as [Z0|N0].
  - exists 0, 0. split; [reflexivity|]. split; [|split; [left; auto|reflexivity]]. unfold double_value, binary. rewrite Z0. ring.
  - set (n := Z.log2 (Z.abs (d_man d)) + 1). assert (A : 0 < Z.abs (d_man d)) by lia. pose proof (Z.log2_spec _ A) as L. pose proof (Z.log2_nonneg (Z.abs (d_man d))) as Ln. assert (N : n <= 53). { unfold n. assert (Z.log2 (Z.abs (d_man d)) < 53); [|lia]. apply Z.log2_lt_pow2; assumption. }
    assert (P : 0 < 2 ^ (mant_dig - n)) by (apply Z.pow_pos_nonneg; unfold mant_dig; lia). set (r := d_man d * 2 ^ (mant_dig - n)). assert (R0 : r <> 0) by (unfold r; nia). assert (Rb : Z.abs r < 2 ^ 53).
    { unfold r. rewrite Z.abs_mul, (Z.abs_eq (2 ^ _)) by lia. replace (2 ^ 53) with (2 ^ n * 2 ^ (mant_dig - n)) by (rewrite <- Z.pow_add_r by (unfold mant_dig; lia); f_equal; unfold mant_dig; lia). apply Z.mul_lt_mono_pos_r; [exact P|]. unfold n. rewrite <- Z.add_1_r in L. lia. }
    destruct (Z.eqb_spec r 0); [contradiction|]. assert (W1 : is_word (wrap r)). { unfold is_word, wrap. apply Z.mod_pos_bound. reflexivity. } assert (W0 : wrap r <> 0).
    { unfold wrap. change W with (2 ^ 64). intros H. apply Z.mod_divide in H; [|discriminate]. destruct H as (c & H). change (2 ^ 64) with (2 ^ 53 * 2048) in H. assert (c <> 0) by (intros ->; lia). set (T := 2 ^ 53) in *. assert (0 < T) by reflexivity. nia. }
    destruct (wtrailing_zeros_spec (wrap r) W1 W0) as (t & E & Ht & Hb & Hl). rewrite E. destruct (odd_part r t (proj1 Ht)) as [D O].
    { rewrite <- wrap_mod by exact Ht. apply Z.bits_inj'. intros i Hi. destruct (Z.ltb_spec i (t + 1)).
      - rewrite Z.mod_pow2_bits_low by lia. destruct (Z.eq_dec i t) as [-> |]; [rewrite Hb, Z.pow2_bits_true by lia; reflexivity|rewrite Hl, Z.pow2_bits_false by lia; reflexivity].
      - rewrite Z.mod_pow2_bits_high by lia. rewrite Z.pow2_bits_false by lia. reflexivity. }
    exists (Z.shiftr r t), (d_exp d + n - mant_dig + t). split; [reflexivity|]. split; [|split; [right; exact O|]].
    + rewrite <- binary_shift by lia. rewrite <- D. unfold r. rewrite binary_shift by (unfold mant_dig; lia). unfold double_value. replace (d_exp d + n - mant_dig + (mant_dig - n)) with (d_exp d) by lia. reflexivity.
    + assert (0 < 2 ^ t) by (apply Z.pow_pos_nonneg; lia). rewrite D in Rb. rewrite Z.abs_mul, (Z.abs_eq (2 ^ t)) in Rb by lia. nia.
Qed.
Lemma odd_least r x r' x' : Z.odd r = true -> (binary r' x' == binary r x)%Q -> Z.abs r <= Z.abs r'.
Proof.
  intros O E. destruct (Z.le_gt_cases x' x) as [L|L].
  - rewrite (binary_same _ _ _ _ L E), Z.abs_mul. assert (0 < 2 ^ (x - x')) by (apply Z.pow_pos_nonneg; lia). rewrite (Z.abs_eq (2 ^ _)) by lia. nia.
  - symmetry in E. rewrite (binary_same r x r' x' ltac:(lia) E) in O. replace (x' - x) with (1 + (x' - x - 1)) in O by lia. rewrite Z.pow_add_r, !Z.odd_mul in O by lia. change (Z.odd (2 ^ 1)) with false in O. rewrite andb_false_r in O. discriminate.
Qed.
Lemma shift_round v k : 0 < k -> Z.abs v < 2 ^ 53 -> v - 2 ^ (k - 1) < safe_shift_left v (- k) * 2 ^ k <= v + 2 ^ (k - 1).
Proof.
  intros K V. unfold safe_shift_left, bits_per_word. destruct (Z.leb_spec 0 (- k)); [lia|]. rewrite Z.opp_involutive. destruct (Z.leb_spec 64 k) as [H64|H64].
  - assert (2 ^ 53 <= 2 ^ (k - 1)) by (apply Z.pow_le_mono_r; lia). lia.
  - rewrite !Z.shiftr_div_pow2 by lia. rewrite (Z.land_ones _ 1) by lia. change (2 ^ 1) with 2. set (T := 2 ^ (k - 1)). assert (P : 0 < T) by (apply Z.pow_pos_nonneg; lia). assert (E : 2 ^ k = T * 2) by (unfold T; replace k with (k - 1 + 1) at 1 by lia; rewrite Z.pow_add_r by lia; reflexivity). rewrite E.
    rewrite <- Z.div_div by lia. pose proof (Z.div_mod v T ltac:(lia)) as D. pose proof (Z.mod_pos_bound v T P) as B. set (u := v / T) in *. pose proof (Z.div_mod u 2 ltac:(lia)) as D2. pose proof (Z.mod_pos_bound u 2 ltac:(lia)) as B2. set (q := u / 2) in *. set (b := u mod 2) in *. assert (X : b = 0 \/ b = 1) by lia. destruct X as [X|X]; rewrite X in *; nia.
Qed.
(** One coordinate. *)
Lemma shift_exact r x de g : g <= de -> de <= x -> (binary (safe_shift_left r (x - de)) de == binary r x)%Q /\ rounded (2 ^ g) (binary r x) (binary (safe_shift_left r (x - de)) de).
Proof.
  intros G H. assert (E : (binary (safe_shift_left r (x - de)) de == binary r x)%Q). { unfold safe_shift_left. destruct (Z.leb_spec 0 (x - de)); [|lia]. rewrite Z.shiftl_mul_pow2 by lia. rewrite binary_shift by lia. replace (de + (x - de)) with x by lia. reflexivity. }
  split; [exact E|]. assert (P : (0 < 2 ^ g / 2)%Q) by (apply Qlt_shift_div_l; [reflexivity|pose proof (two_pos g); lra]). split; [|rewrite E; split; lra]. exists (safe_shift_left r (x - de) * 2 ^ (de - g)). fold (binary (safe_shift_left r (x - de) * 2 ^ (de - g)) g). rewrite binary_shift by lia. replace (g + (de - g)) with de by lia. reflexivity.
Qed.
Lemma shift_rounded r x de : Z.abs r < 2 ^ 53 -> x < de -> rounded (2 ^ de) (binary r x) (binary (safe_shift_left r (x - de)) de).
Proof.
  intros R H. set (k := de - x). assert (K : 0 < k) by (unfold k; lia). replace (x - de) with (- k) by (unfold k; lia). destruct (shift_round r k K R) as [A B]. set (X := safe_shift_left r (- k)) in *. split; [exists X; reflexivity|].
  assert (E : (binary X de == inject_Z (X * 2 ^ k) * 2 ^ x)%Q). { fold (binary (X * 2 ^ k) x). rewrite binary_shift by lia. replace (x + k) with de by (unfold k; lia). reflexivity. }
  assert (E2 : (2 ^ de / 2 == inject_Z (2 ^ (k - 1)) * 2 ^ x)%Q). { rewrite two_int by lia. replace de with (1 + (k - 1) + x) by (unfold k; lia). rewrite !two_plus. change (2 ^ 1)%Q with 2%Q. field. }
  rewrite E, E2. unfold binary. pose proof (two_pos x) as P. rewrite Zlt_Qlt in A. rewrite Zle_Qle in B. rewrite <- Z.add_opp_r, inject_Z_plus, inject_Z_opp in A. rewrite inject_Z_plus in B. apply (Qmult_lt_r _ _ _ P) in A. apply (Qmult_le_r _ _ _ P) in B. clear E E2 P. revert A B. generalize (2 ^ x)%Q (inject_Z r) (inject_Z (2 ^ (k - 1))) (inject_Z (X * 2 ^ k)). intros y a b c A B. split; [setoid_replace (a * y - b * y)%Q with ((a + - b) * y)%Q by ring; exact A|setoid_replace (a * y + b * y)%Q with ((a + b) * y)%Q by ring; exact B].
Qed.
Lemma coordinate r x de g : Z.abs r < 2 ^ 53 -> g <= de -> (x < de -> de = g) -> rounded (2 ^ g) (binary r x) (binary (safe_shift_left r (x - de)) de).
Proof. intros R G H. destruct (Z.le_gt_cases de x) as [L|L]; [exact (proj2 (shift_exact r x de g G L))|]. rewrite <- (H L). exact (shift_rounded r x de R L). Qed.
Lemma point_denotes a b c de : de <= 0 -> denotes (HP (V3 a b c) (Z.shiftl 1 (- de))) (QP (binary a de) (binary b de) (binary c de)).
Proof.
  intros H. rewrite Z.shiftl_mul_pow2, Z.mul_1_l by lia. assert (P : 0 < 2 ^ (- de)) by (apply Z.pow_pos_nonneg; lia). split; [cbn [hw]; lia|]. cbn [hv hw vx vy vz qx qy qz].
  assert (E : forall m, (inject_Z m == binary m de * inject_Z (2 ^ (- de)))%Q). { intros m. rewrite two_int by lia. unfold binary. rewrite <- Qmult_assoc, <- two_plus. replace (de + - de) with 0 by lia. change (2 ^ 0)%Q with 1%Q. ring. }
  split; [apply E|]. split; apply E.
Qed.
