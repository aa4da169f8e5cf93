(** Refinement of the word-list model of [BigInt] to the integers. *)
From Coq Require Import ZArith List Bool Lia ZifyBool.
From Verif Require Import WordModel BigIntSpec WordProofs BigIntModel.
Import ListNotations.
Open Scope Z_scope.
Ltac Zify.zify_post_hook ::= Z.div_mod_to_equations.

(** ** Readings of word lists *)

Lemma value_cons w a : a <> [] -> value (w :: a) = w + W * value a.
Proof. destruct a; [congruence|]. reflexivity. Qed.
Lemma value_single w : value [w] = sgn w.
Proof. unfold sgn. rewrite HW_eq, W_eq. reflexivity. Qed.
Lemma uvalue_cons w a : uvalue (w :: a) = w + W * uvalue a.
Proof. reflexivity. Qed.

Lemma W_pos : 0 < W. Proof. reflexivity. Qed.
Lemma Wpow_pos n : 0 < W ^ Z.of_nat n.
Proof. apply Z.pow_pos_nonneg; [exact W_pos|lia]. Qed.
Lemma Wpow_S n : W ^ Z.of_nat (S n) = W * W ^ Z.of_nat n.
Proof. rewrite Nat2Z.inj_succ, Z.pow_succ_r by lia. reflexivity. Qed.

Lemma uvalue_app a b : uvalue (a ++ b) = uvalue a + W ^ Z.of_nat (length a) * uvalue b.
Proof.
  induction a as [|x a IH]; [cbn [app uvalue length]; change (W ^ Z.of_nat 0) with 1; lia|].
  cbn [app length]. rewrite !uvalue_cons, IH, Wpow_S. ring.
Qed.
Lemma uvalue_range a : Forall is_word a -> 0 <= uvalue a < W ^ Z.of_nat (length a).
Proof.
  induction a as [|x a IH]; intros H; [cbn; lia|].
  inversion H as [|? ? Hx Ha]; subst. specialize (IH Ha).
  cbn [length]. rewrite uvalue_cons, Wpow_S. unfold is_word in Hx. change (2 ^ 64) with W in Hx.
  pose proof W_pos. nia.
Qed.
Lemma value_snoc a w : value (a ++ [w]) = uvalue a + W ^ Z.of_nat (length a) * sgn w.
Proof.
  induction a as [|x a IH]; [cbn [app uvalue length]; rewrite value_single; change (W ^ Z.of_nat 0) with 1; lia|].
  cbn [app length]. rewrite value_cons by (destruct a; discriminate).
  rewrite IH, uvalue_cons, Wpow_S. ring.
Qed.

Lemma snoc_case (a : list Z) : a <> [] -> exists l w, a = l ++ [w].
Proof. intros H. destruct (exists_last H) as (l & w & E). eauto. Qed.
Lemma top_snoc l w : top (l ++ [w]) = w.
Proof. unfold top. apply last_last. Qed.
Lemma wf_snoc l w : wf (l ++ [w]) <-> Forall is_word l /\ is_word w.
Proof.
  unfold wf. rewrite Forall_app. split.
  - intros [_ [H1 H2]]. inversion H2; subst. auto.
  - intros [H1 H2]. split; [destruct l; discriminate|]. split; [assumption|repeat constructor; apply H2].
Qed.
Lemma wf_top a : wf a -> is_word (top a).
Proof. intros [Hn Hf]. destruct (snoc_case a Hn) as (l & w & ->). rewrite top_snoc.
  apply (proj1 (wf_snoc l w)). split; auto. Qed.
Lemma wf_first a : wf a -> is_word (first a).
Proof. intros [Hn Hf]. destruct a; [congruence|]. inversion Hf; assumption. Qed.
Lemma wf_cons w a : is_word w -> Forall is_word a -> wf (w :: a).
Proof. intros. split; [discriminate|constructor; assumption]. Qed.

(** Signed value = unsigned value plus the weight of the sign. *)
Definition sext (a : list Z) : Z := if top a <? HW then 0 else -1.
Lemma value_uvalue a : wf a ->
  value a = uvalue a + W ^ Z.of_nat (length a) * sext a.
Proof.
  intros [Hn Hf]. destruct (snoc_case a Hn) as (l & w & ->).
  unfold sext. rewrite value_snoc, uvalue_app, top_snoc, app_length. cbn [length uvalue].
  rewrite Nat.add_1_r, Wpow_S. unfold sgn. destruct (w <? HW); ring.
Qed.

Lemma half_pow n : (1 <= n)%nat -> W ^ Z.of_nat n = 2 * (HW * W ^ Z.of_nat (n - 1)).
Proof. intros. replace n with (S (n - 1)) at 1 by lia. rewrite Wpow_S. unfold W at 1, HW. ring. Qed.

Lemma value_range a : wf a ->
  - (HW * W ^ Z.of_nat (length a - 1)) <= value a < HW * W ^ Z.of_nat (length a - 1).
Proof.
  intros [Hn Hf]. destruct (snoc_case a Hn) as (l & w & ->).
  rewrite value_snoc, app_length. cbn [length]. rewrite Nat.add_sub.
  apply Forall_app in Hf as [Hl Hw]. inversion Hw as [|? ? Hw' _]; subst.
  pose proof (uvalue_range l Hl). pose proof (sgn_range w Hw'). pose proof (Wpow_pos (length l)).
  nia.
Qed.

Lemma sext_sign a : wf a -> sext a = if value a <? 0 then -1 else 0.
Proof.
  intros [Hn Hf]. destruct (snoc_case a Hn) as (l & w & ->).
  unfold sext. rewrite top_snoc, value_snoc.
  apply Forall_app in Hf as [Hl Hw]. inversion Hw as [|? ? Hw' _]; subst.
  pose proof (uvalue_range l Hl). pose proof (Wpow_pos (length l)).
  unfold sgn. unfold is_word in Hw'. rewrite pow64 in Hw'.
  destruct (Z.ltb_spec w HW).
  - destruct (Z.ltb_spec (uvalue l + W ^ Z.of_nat (length l) * w) 0); [nia|reflexivity].
  - destruct (Z.ltb_spec (uvalue l + W ^ Z.of_nat (length l) * (w - W)) 0); [reflexivity|].
    unfold W in *. nia.
Qed.

Lemma sign_ext_wrap a : wf a -> sign_ext a = wrap (sext a).
Proof. intros H. unfold sign_ext, sext. rewrite sign_ext_spec by (apply wf_top, H).
  destruct (top a <? HW); reflexivity. Qed.
Lemma sign_ext_s_eq a : wf a -> sign_ext_s a = sext a.
Proof. intros H. unfold sign_ext_s, sext. apply sign_ext_sgn, wf_top, H. Qed.

(** ** Trim *)
Lemma sgn_0 : sgn 0 = 0. Proof. reflexivity. Qed.
Lemma sgn_ones : sgn (W - 1) = -1. Proof. reflexivity. Qed.


Lemma sgn_neg w : is_word w -> (sgn w <? 0) = (HW <=? w).
Proof. unfold sgn. wsimp. intros.
  destruct (Z.ltb_spec w 9223372036854775808); apply eq_true_iff_eq; rewrite Z.ltb_lt, Z.leb_le; lia. Qed.
Lemma sgn_zero w : is_word w -> sgn w = 0 -> w = 0.
Proof. intros H E. apply sgn_inj; [assumption|wsimp; lia|]. rewrite E. reflexivity. Qed.
Lemma sgn_m1 w : is_word w -> sgn w = -1 -> w = W - 1.
Proof. intros H E. apply sgn_inj; [assumption|wsimp; lia|]. rewrite E. reflexivity. Qed.
Lemma wadd1_small hi : is_word hi -> (1 <? wadd hi 1) = false -> hi = 0 \/ hi = W - 1.
Proof. unfold wadd. wsimp. rewrite Z.ltb_ge. lia. Qed.
Lemma wadd1_big hi : is_word hi -> (1 <? wadd hi 1) = true -> hi <> 0 /\ hi <> W - 1.
Proof. unfold wadd. wsimp. rewrite Z.ltb_lt. lia. Qed.
Lemma ones_compl_high lo : is_word lo -> (HW <=? W - 1 - lo) = (lo <? HW).
Proof. wsimp. intros. apply eq_true_iff_eq; rewrite Z.ltb_lt, Z.leb_le; lia. Qed.
Lemma compl_word lo : is_word lo -> is_word (W - 1 - lo).
Proof. wsimp. lia. Qed.

Lemma can_trim_true lo hi : is_word lo -> is_word hi ->
  can_trim lo hi = true -> sgn hi = if lo <? HW then 0 else -1.
Proof.
  intros Hlo Hhi. unfold can_trim. destruct (1 <? wadd hi 1) eqn:E1; [discriminate|].
  destruct (wadd1_small hi Hhi E1) as [-> | ->].
  - rewrite Z.lxor_0_l, sgn_neg, sgn_0, Z.leb_antisym by assumption.
    destruct (lo <? HW); [reflexivity|discriminate].
  - rewrite Z.lxor_comm, lxor_ones_word, sgn_neg, ones_compl_high, sgn_ones by (try apply compl_word; assumption).
    destruct (lo <? HW); [discriminate|reflexivity].
Qed.
Lemma can_trim_false lo hi : is_word lo -> is_word hi ->
  can_trim lo hi = false -> sgn hi <> if lo <? HW then 0 else -1.
Proof.
  intros Hlo Hhi. unfold can_trim. destruct (1 <? wadd hi 1) eqn:E1.
  - intros _ E. destruct (wadd1_big hi Hhi E1) as [N0 N1]. destruct (lo <? HW).
    + apply N0, sgn_zero; assumption.
    + apply N1, sgn_m1; assumption.
  - destruct (wadd1_small hi Hhi E1) as [-> | ->].
    + rewrite Z.lxor_0_l, sgn_neg, sgn_0, Z.leb_antisym by assumption.
      destruct (lo <? HW); [discriminate|intros _; lia].
    + rewrite Z.lxor_comm, lxor_ones_word, sgn_neg, ones_compl_high, sgn_ones by (try apply compl_word; assumption).
      destruct (lo <? HW); [intros _; lia|discriminate].
Qed.

Lemma value_trim1 l lo hi : is_word lo ->
  sgn hi = (if lo <? HW then 0 else -1) -> value (l ++ [lo; hi]) = value (l ++ [lo]).
Proof.
  intros Hlo Hhi. change [lo; hi] with ([lo] ++ [hi]). rewrite app_assoc, !value_snoc, uvalue_app, app_length, Hhi.
  cbn [length uvalue]. rewrite Nat.add_1_r, Wpow_S. unfold sgn. destruct (lo <? HW); ring.
Qed.

(** Local form of canonicity: the top two words cannot be trimmed. *)
Definition tight (a : list Z) : Prop :=
  forall l lo hi, a = l ++ [lo; hi] -> sgn hi <> if lo <? HW then 0 else -1.

Lemma trim_rev_eq hi lo r : trim_rev (hi :: lo :: r) =
  if can_trim lo hi then trim_rev (lo :: r) else hi :: lo :: r.
Proof. reflexivity. Qed.
Lemma trim_rev_spec r : r <> [] -> Forall is_word r ->
  trim_rev r <> [] /\ Forall is_word (trim_rev r) /\
  value (rev (trim_rev r)) = value (rev r) /\ tight (rev (trim_rev r)) /\
  (length (trim_rev r) <= length r)%nat.
Proof.
  induction r as [|hi r IH]; [congruence|]. intros _ Hf.
  destruct r as [|lo r'].
  - cbn [trim_rev]. split; [discriminate|]. split; [assumption|]. split; [reflexivity|].
    split; [|lia]. intros l lo' hi' E. cbn in E. destruct l as [|? [|]]; discriminate.
  - inversion Hf as [|? ? Hhi Hf']; subst. inversion Hf' as [|? ? Hlo _]; subst.
    rewrite trim_rev_eq. destruct (can_trim lo hi) eqn:Ec.
    + specialize (IH ltac:(discriminate) Hf'). destruct IH as (H1 & H2 & H3 & H4 & H5).
      split; [assumption|split;[assumption|split;[|split;[assumption|cbn [length] in *; lia]]]].
      rewrite H3. cbn [rev]. rewrite <- app_assoc. cbn [app]. symmetry. apply value_trim1; [assumption|].
      apply can_trim_true; assumption.
    + split; [discriminate|]. split; [assumption|]. split; [reflexivity|]. split; [|lia].
      intros l lo' hi' E. cbn [rev] in E. rewrite <- app_assoc in E. cbn [app] in E.
      change [lo; hi] with ([lo] ++ [hi]) in E. change [lo'; hi'] with ([lo'] ++ [hi']) in E.
      rewrite !app_assoc in E. apply app_inj_tail in E as [E ->]. apply app_inj_tail in E as [E ->].
      apply can_trim_false; assumption.
Qed.

Lemma wf_rev_ne (a : list Z) : a <> [] -> rev a <> [].
Proof. intros H E. apply H. apply (f_equal (@rev Z)) in E. rewrite rev_involutive in E. exact E. Qed.

Lemma trim_spec a : wf a -> wf (trim a) /\ value (trim a) = value a /\ tight (trim a) /\
  (length (trim a) <= length a)%nat.
Proof.
  intros [Hn Hf]. unfold trim.
  destruct (trim_rev_spec (rev a) (wf_rev_ne a Hn) (Forall_rev Hf)) as (H1 & H2 & H3 & H4 & H5).
  rewrite rev_involutive in H3. repeat split; auto.
  - apply wf_rev_ne, H1.
  - apply Forall_rev, H2.
  - rewrite !rev_length in *. exact H5.
Qed.

Lemma tight_single w : tight [w].
Proof. intros l lo hi E. destruct l as [|? [|]]; discriminate. Qed.

(** A tight number with n >= 2 words does not fit in n-1 words. *)
Lemma tight_range a : wf a -> tight a -> (2 <= length a)%nat ->
  value a < - (HW * W ^ Z.of_nat (length a - 2)) \/ HW * W ^ Z.of_nat (length a - 2) <= value a.
Proof.
  intros [Hn Hf] Ht Hlen.
  destruct (snoc_case a Hn) as (a1 & hi & ->).
  destruct (snoc_case a1) as (l & lo & ->). { destruct a1; [cbn in Hlen; lia|discriminate]. }
  assert (E : (l ++ [lo]) ++ [hi] = l ++ [lo; hi]) by (rewrite <- app_assoc; reflexivity).
  specialize (Ht l lo hi E).
  rewrite value_snoc, uvalue_app, !app_length. cbn [length uvalue].
  replace (length l + 1 + 1 - 2)%nat with (length l) by lia. rewrite Nat.add_1_r, Wpow_S.
  apply Forall_app in Hf as [Hl Hw]. inversion Hw as [|? ? Hhi _]; subst.
  apply Forall_app in Hl as [Hl Hlo]. inversion Hlo as [|? ? Hlo' _]; subst.
  pose proof (uvalue_range l Hl). pose proof (Wpow_pos (length l)).
  unfold is_word in *. change (2 ^ 64) with W in *. unfold sgn in *.
  set (p := W ^ Z.of_nat (length l)) in *. rewrite Z.mul_0_r, Z.add_0_r.
  assert (HWW : W = 2 * HW) by reflexivity. assert (0 < HW) by reflexivity.
  destruct (Z.ltb_spec hi HW); destruct (Z.ltb_spec lo HW).
  - right. assert (p * 1 <= p * hi) by (apply Z.mul_le_mono_nonneg_l; lia).
    assert (0 <= p * lo) by nia. nia.
  - right. assert (0 <= p * hi) by nia. assert (p * HW <= p * lo) by (apply Z.mul_le_mono_nonneg_l; lia). nia.
  - left. assert (p * (hi - W) <= p * -1) by (apply Z.mul_le_mono_nonneg_l; lia).
    assert (p * lo <= p * (HW - 1)) by (apply Z.mul_le_mono_nonneg_l; lia). nia.
  - left. assert (p * (hi - W) <= p * -2) by (apply Z.mul_le_mono_nonneg_l; lia).
    assert (p * lo <= p * (W - 1)) by (apply Z.mul_le_mono_nonneg_l; lia). nia.
Qed.

Lemma tight_canonical a : wf a -> tight a -> canonical a.
Proof.
  intros Hw Ht. split; [assumption|]. intros b Hb Hv.
  destruct (Nat.le_gt_cases (length a) (length b)) as [|Hlt]; [assumption|exfalso].
  assert (Hb1 : (1 <= length b)%nat) by (destruct Hb as [Hn _]; destruct b; [congruence|cbn; lia]).
  pose proof (tight_range a Hw Ht ltac:(lia)) as Hr.
  pose proof (value_range b Hb) as Hbr. rewrite Hv in Hbr.
  assert (W ^ Z.of_nat (length b - 1) <= W ^ Z.of_nat (length a - 2)).
  { apply Z.pow_le_mono_r; [exact W_pos|lia]. }
  assert (0 < HW) by reflexivity. nia.
Qed.

Lemma canonical_tight a : canonical a -> tight a.
Proof.
  intros [Hw Hmin] l lo hi E Hs. subst a.
  assert (Hw' : wf (l ++ [lo])).
  { destruct Hw as [_ Hf]. apply Forall_app in Hf as [Hl Hf]. inversion Hf; subst.
    apply wf_snoc. split; assumption. }
  assert (Hlo : is_word lo) by (apply wf_snoc in Hw'; apply Hw').
  specialize (Hmin _ Hw' (eq_sym (value_trim1 l lo hi Hlo Hs))).
  rewrite !app_length in Hmin. cbn in Hmin. lia.
Qed.

Lemma canonical_iff_tight a : wf a -> (canonical a <-> tight a).
Proof. intros. split; [apply canonical_tight|apply tight_canonical; assumption]. Qed.

Lemma trim_canonical a : wf a -> canonical (trim a) /\ value (trim a) = value a.
Proof. intros H. destruct (trim_spec a H) as (H1 & H2 & H3 & _). split; [apply tight_canonical|]; assumption. Qed.

(** Canonical lists are determined by their value. *)
Lemma uvalue_inj a b : Forall is_word a -> Forall is_word b -> length a = length b ->
  uvalue a = uvalue b -> a = b.
Proof.
  revert b. induction a as [|x a IH]; intros [|y b] Ha Hb Hl Hv; try discriminate; [reflexivity|].
  inversion Ha; inversion Hb; subst. rewrite !uvalue_cons in Hv.
  assert (x = y /\ uvalue a = uvalue b) as [-> E] by (apply double_unique; assumption).
  f_equal. apply IH; auto.
Qed.
Lemma value_inj_len a b : wf a -> wf b -> length a = length b -> value a = value b -> a = b.
Proof.
  intros Ha Hb Hl Hv. apply uvalue_inj; [apply Ha|apply Hb|assumption|].
  pose proof (value_uvalue a Ha) as Ea. pose proof (value_uvalue b Hb) as Eb.
  rewrite (sext_sign a Ha) in Ea. rewrite (sext_sign b Hb) in Eb. rewrite Hv, Hl in Ea. lia.
Qed.
Lemma canonical_unique a b : canonical a -> canonical b -> value a = value b -> a = b.
Proof.
  intros [Ha Hma] [Hb Hmb] Hv. apply value_inj_len; auto.
  apply Nat.le_antisymm; [apply Hma|apply Hmb]; auto.
Qed.

Lemma of_int_canonical v : - HW <= v < HW -> canonical (of_int v) /\ value (of_int v) = v.
Proof.
  intros Hv. unfold of_int. split.
  - apply tight_canonical; [|apply tight_single].
    apply wf_cons; [apply wrap_word|constructor].
  - rewrite value_single. apply sgn_wrap_id, Hv.
Qed.

(** ** Half words *)
Lemma lor_zero a b : 0 <= a -> 0 <= b -> Z.lor a b = 0 <-> a = 0 /\ b = 0.
Proof. intros. split; [apply Z.lor_eq_0_iff|]. intros [-> ->]; reflexivity. Qed.

Lemma high32_lor a b : high32 (Z.lor a b) = Z.lor (high32 a) (high32 b).
Proof. unfold high32, HALF. change 4294967296 with (2 ^ 32). rewrite <- !Z.shiftr_div_pow2 by lia. apply Z.shiftr_lor. Qed.

Definition half_range (v : Z) : Prop := - 2147483648 <= v < 2147483648.
Lemma half_word_test w : is_word w ->
  high32 (wadd w low_sign_bit) = 0 <-> half_range (sgn w).
Proof.
  unfold high32, wadd, low_sign_bit, half_range, sgn. wsimp. intros.
  destruct (Z.ltb_spec w 9223372036854775808); lia.
Qed.
Lemma wadd_word a b : is_word (wadd a b). Proof. apply wrap_word. Qed.

Definition half (a : list Z) : Prop := exists w, a = [w] /\ half_range (sgn w).
Lemma half_test a : wf a ->
  (high32 (wadd (first a) low_sign_bit) = 0 /\ extra_size a = 0) <-> half a.
Proof.
  intros Ha. rewrite half_word_test by (apply wf_first, Ha). unfold extra_size.
  destruct Ha as [Hn _]. destruct a as [|w [|? ?]]; [congruence| |].
  - cbn [first hd length]. split.
    + intros [H _]. exists w. auto.
    + intros (w' & E & H). injection E as ->. auto.
  - cbn [length]. split; [lia|]. intros (w' & E & _). discriminate.
Qed.
Lemma extra_size_nonneg a : wf a -> 0 <= extra_size a.
Proof. intros [Hn _]. unfold extra_size. destruct a; [congruence|cbn [length]; lia]. Qed.
Lemma high32_nonneg w : is_word w -> 0 <= high32 w.
Proof. intros. apply high32_range. assumption. Qed.

Lemma all_half2_spec a b : wf a -> wf b -> (all_half_words2 a b = true <-> half a /\ half b).
Proof.
  intros Ha Hb. unfold all_half_words2. rewrite Z.eqb_eq, high32_lor.
  pose proof (high32_nonneg _ (wadd_word (first a) low_sign_bit)).
  pose proof (high32_nonneg _ (wadd_word (first b) low_sign_bit)).
  pose proof (extra_size_nonneg a Ha). pose proof (extra_size_nonneg b Hb).
  rewrite !lor_zero by (try apply Z.lor_nonneg; try split; assumption).
  rewrite <- !half_test by assumption. tauto.
Qed.
Lemma all_half3_spec a b c : wf a -> wf b -> wf c ->
  (all_half_words3 a b c = true <-> half a /\ half b /\ half c).
Proof.
  intros Ha Hb Hc. unfold all_half_words3. rewrite Z.eqb_eq, !high32_lor.
  pose proof (high32_nonneg _ (wadd_word (first a) low_sign_bit)).
  pose proof (high32_nonneg _ (wadd_word (first b) low_sign_bit)).
  pose proof (high32_nonneg _ (wadd_word (first c) low_sign_bit)).
  pose proof (extra_size_nonneg a Ha). pose proof (extra_size_nonneg b Hb). pose proof (extra_size_nonneg c Hc).
  rewrite !lor_zero by (repeat (apply Z.lor_nonneg; split); assumption).
  rewrite <- !half_test by assumption. tauto.
Qed.

(** ** Add and Subtract *)
Definition ext_val (a : list Z) (s : Z) : Z := uvalue a + W ^ Z.of_nat (length a) * s.
Lemma ext_val_cons x a s : ext_val (x :: a) s = x + W * ext_val a s.
Proof. unfold ext_val. cbn [length]. rewrite uvalue_cons, Wpow_S. ring. Qed.
Lemma ext_val_nil s : ext_val [] s = s.
Proof. unfold ext_val. cbn [length uvalue]. change (W ^ Z.of_nat 0) with 1. lia. Qed.
Lemma ext_step s : s = 0 \/ s = -1 -> s = wrap s + W * s.
Proof. intros [-> | ->]; reflexivity. Qed.

Lemma rest_ne f b ea eb c : rest_loop f b ea eb c <> [].
Proof. destruct b; cbn [rest_loop]; [discriminate|]. destruct (f ea z c); discriminate. Qed.
Lemma loop_ne f a b ea eb c : word_loop f a b ea eb c <> [].
Proof. destruct a as [|x a]; cbn [word_loop]; [apply rest_ne|].
  destruct b; [destruct (f x eb c)|destruct (f x z c)]; discriminate. Qed.

(** [f] computes [x op y] with incoming/outgoing carry of weight [sg]. *)
Definition carry_op (f : Z -> Z -> bool -> Z * bool) (sg : Z) : Prop :=
  forall a b c r c', is_word a -> is_word b -> f a b c = (r, c') ->
    is_word r /\ a + sg * b + sg * b2z c = r + sg * (W * b2z c').

Lemma wadd_carry_op : carry_op wadd_c 1.
Proof. intros a b c r c' Ha Hb H. destruct (wadd_c_spec _ _ _ _ _ Ha Hb H). split; [assumption|lia]. Qed.
Lemma wsub_carry_op : carry_op wsub_c (-1).
Proof. intros a b c r c' Ha Hb H. destruct (wsub_c_spec _ _ _ _ _ Ha Hb H). split; [assumption|lia]. Qed.

Lemma rest_loop_spec f sg b sa sb c : carry_op f sg -> sg = 1 \/ sg = -1 ->
  (sa = 0 \/ sa = -1) -> (sb = 0 \/ sb = -1) -> Forall is_word b ->
  let r := rest_loop f b (wrap sa) (wrap sb) c in
  Forall is_word r /\ value r = sa + sg * ext_val b sb + sg * b2z c.
Proof.
  intros Hf Hsg Hsa Hsb Hb. revert c. induction b as [|y b IH]; intros c; cbn [rest_loop].
  - rewrite ext_val_nil. destruct (f (wrap sa) (wrap sb) c) as [r c'] eqn:E.
    destruct (Hf _ _ _ _ _ (wrap_word _) (wrap_word _) E) as [Hr Hv].
    cbn [fst]. split; [repeat constructor; apply Hr|]. rewrite value_single.
    pose proof (ext_step sa Hsa) as Ea. pose proof (ext_step sb Hsb) as Eb.
    assert (Hwr : r = wrap (sa + sg * sb + sg * b2z c)).
    { rewrite <- (wrap_small r Hr).
      replace r with (sa + sg * sb + sg * b2z c + W * (- sa - sg * sb - sg * b2z c')) by lia.
      rewrite wrap_mul_W. reflexivity. }
    rewrite Hwr. apply sgn_wrap_id. pose proof (b2z_range c). unfold HW. nia.
  - inversion Hb as [|? ? Hy Hb']; subst.
    destruct (f (wrap sa) y c) as [r c'] eqn:E.
    destruct (Hf _ _ _ _ _ (wrap_word _) Hy E) as [Hr Hv].
    destruct (IH Hb' c') as [IH1 IH2].
    split; [constructor; assumption|].
    rewrite value_cons by apply rest_ne. rewrite IH2, ext_val_cons.
    pose proof (ext_step sa Hsa). lia.
Qed.

Lemma word_loop_spec f sg a b sa sb c : carry_op f sg -> sg = 1 \/ sg = -1 ->
  (sa = 0 \/ sa = -1) -> (sb = 0 \/ sb = -1) -> Forall is_word a -> Forall is_word b ->
  let r := word_loop f a b (wrap sa) (wrap sb) c in
  Forall is_word r /\ value r = ext_val a sa + sg * ext_val b sb + sg * b2z c.
Proof.
  intros Hf Hsg Hsa Hsb Ha. revert b c. induction a as [|x a IH]; intros b c Hb; cbn [word_loop].
  - rewrite ext_val_nil. apply rest_loop_spec; assumption.
  - inversion Ha as [|? ? Hx Ha']; subst. rewrite ext_val_cons. destruct b as [|y b].
    + destruct (f x (wrap sb) c) as [r c'] eqn:E.
      destruct (Hf _ _ _ _ _ Hx (wrap_word _) E) as [Hr Hv].
      destruct (IH Ha' [] c' ltac:(constructor)) as [IH1 IH2].
      split; [constructor; assumption|].
      rewrite value_cons by apply loop_ne. rewrite IH2, !ext_val_nil.
      pose proof (ext_step sb Hsb). nia.
    + inversion Hb as [|? ? Hy Hb']; subst.
      destruct (f x y c) as [r c'] eqn:E.
      destruct (Hf _ _ _ _ _ Hx Hy E) as [Hr Hv].
      destruct (IH Ha' b c' Hb') as [IH1 IH2].
      split; [constructor; assumption|].
      rewrite value_cons by apply loop_ne. rewrite IH2, ext_val_cons. nia.
Qed.

Lemma sext_cases a : sext a = 0 \/ sext a = -1.
Proof. unfold sext. destruct (top a <? HW); auto. Qed.

Lemma slow_loop_spec f sg a b : carry_op f sg -> sg = 1 \/ sg = -1 -> wf a -> wf b ->
  let r := trim (word_loop f a b (sign_ext a) (sign_ext b) false) in
  canonical r /\ value r = value a + sg * value b.
Proof.
  intros Hf Hsg Ha Hb. rewrite (sign_ext_wrap a Ha), (sign_ext_wrap b Hb).
  destruct (word_loop_spec f sg a b (sext a) (sext b) false Hf Hsg (sext_cases a) (sext_cases b) (proj2 Ha) (proj2 Hb)) as [H1 H2].
  destruct (trim_canonical (word_loop f a b (wrap (sext a)) (wrap (sext b)) false)) as [H3 H4].
  { split; [apply loop_ne|assumption]. }
  cbn zeta. split; [assumption|]. rewrite H4, H2. unfold ext_val.
  rewrite <- (value_uvalue a Ha), <- (value_uvalue b Hb). cbn [b2z]. lia.
Qed.

Lemma half_value a : half a -> value a = sgn (first a) /\ half_range (value a).
Proof. intros (w & -> & H). rewrite value_single. split; [reflexivity|exact H]. Qed.
Lemma half_first_word a : wf a -> is_word (first a). Proof. apply wf_first. Qed.

Lemma wrap_sgn_add a b : is_word a -> is_word b -> wadd a b = wrap (sgn a + sgn b).
Proof. intros. unfold wadd, sgn, wrap. destruct (a <? HW), (b <? HW); unfold W.
  - reflexivity.
  - replace (a + (b - 18446744073709551616)) with (a + b + (-1) * 18446744073709551616) by ring. rewrite Z.mod_add by lia. reflexivity.
  - replace (a - 18446744073709551616 + b) with (a + b + (-1) * 18446744073709551616) by ring. rewrite Z.mod_add by lia. reflexivity.
  - replace (a - 18446744073709551616 + (b - 18446744073709551616)) with (a + b + (-2) * 18446744073709551616) by ring. rewrite Z.mod_add by lia. reflexivity.
Qed.
Lemma wrap_sgn_sub a b : is_word a -> is_word b -> wsub a b = wrap (sgn a - sgn b).
Proof. intros. unfold wsub, sgn, wrap. destruct (a <? HW), (b <? HW); unfold W.
  - reflexivity.
  - replace (a - (b - 18446744073709551616)) with (a - b + 1 * 18446744073709551616) by ring. rewrite Z.mod_add by lia. reflexivity.
  - replace (a - 18446744073709551616 - b) with (a - b + (-1) * 18446744073709551616) by ring. rewrite Z.mod_add by lia. reflexivity.
  - replace (a - 18446744073709551616 - (b - 18446744073709551616)) with (a - b) by ring. reflexivity.
Qed.

Lemma single_canonical w : is_word w -> canonical [w].
Proof. intros. apply tight_canonical; [apply wf_cons; [assumption|constructor]|apply tight_single]. Qed.
Lemma wrap_single_canonical v : - HW <= v < HW -> canonical [wrap v] /\ value [wrap v] = v.
Proof. apply of_int_canonical. Qed.

Lemma add_assign_spec a b : wf a -> wf b ->
  canonical (add_assign a b) /\ value (add_assign a b) = value a + value b.
Proof.
  intros Ha Hb. unfold add_assign. destruct (all_half_words2 a b) eqn:E.
  - apply all_half2_spec in E as [E1 E2]; [|assumption|assumption].
    destruct (half_value a E1) as [V1 R1], (half_value b E2) as [V2 R2].
    rewrite wrap_sgn_add by (apply wf_first; assumption). rewrite <- V1, <- V2.
    apply wrap_single_canonical. unfold half_range, HW in *. lia.
  - destruct (slow_loop_spec wadd_c 1 a b wadd_carry_op ltac:(auto) Ha Hb). split; [assumption|lia].
Qed.
Lemma sub_assign_spec a b : wf a -> wf b ->
  canonical (sub_assign a b) /\ value (sub_assign a b) = value a - value b.
Proof.
  intros Ha Hb. unfold sub_assign. destruct (all_half_words2 a b) eqn:E.
  - apply all_half2_spec in E as [E1 E2]; [|assumption|assumption].
    destruct (half_value a E1) as [V1 R1], (half_value b E2) as [V2 R2].
    rewrite wrap_sgn_sub by (apply wf_first; assumption). rewrite <- V1, <- V2.
    apply wrap_single_canonical. unfold half_range, HW in *. lia.
  - destruct (slow_loop_spec wsub_c (-1) a b wsub_carry_op ltac:(auto) Ha Hb). split; [assumption|lia].
Qed.
Lemma add_eq_assign a b : add a b = add_assign a b.
Proof. unfold add, add_assign, of_int. destruct (all_half_words2 a b); [|reflexivity].
  rewrite wrap_sgn by apply wrap_word. reflexivity. Qed.
Lemma sub_eq_assign a b : sub a b = sub_assign a b.
Proof. unfold sub, sub_assign, of_int. destruct (all_half_words2 a b); [|reflexivity].
  rewrite wrap_sgn by apply wrap_word. reflexivity. Qed.
Lemma add_spec a b : wf a -> wf b -> canonical (add a b) /\ value (add a b) = value a + value b.
Proof. rewrite add_eq_assign. apply add_assign_spec. Qed.
Lemma sub_spec a b : wf a -> wf b -> canonical (sub a b) /\ value (sub a b) = value a - value b.
Proof. rewrite sub_eq_assign. apply sub_assign_spec. Qed.
