(** Products, negation, absolute value and shifts of the [BigInt] model. *)
From Coq Require Import ZArith List Bool Lia ZifyBool.
From Verif Require Import WordModel BigIntSpec WordProofs BigIntModel BigIntProofs.
Import ListNotations.
Open Scope Z_scope.

(** A signed value is determined by its residue and range. *)
Lemma value_from_residue a v k : wf a ->
  uvalue a = v + W ^ Z.of_nat (length a) * k ->
  - (HW * W ^ Z.of_nat (length a - 1)) <= v < HW * W ^ Z.of_nat (length a - 1) ->
  value a = v.
Proof.
  intros Ha Hu Hr. pose proof (value_range a Ha) as Hv. rewrite (value_uvalue a Ha) in *.
  assert (Hl : (1 <= length a)%nat) by (destruct Ha as [Hn _]; destruct a; [congruence|cbn; lia]).
  rewrite (half_pow _ Hl) in *. pose proof (Wpow_pos (length a - 1)).
  assert (0 < HW) by reflexivity. set (q := HW * W ^ Z.of_nat (length a - 1)) in *.
  assert (0 < q) by (subst q; nia).
  assert (k + sext a = 0) by nia. nia.
Qed.

(** ** Schoolbook product *)
Lemma mul_row0_spec w xs : is_word w -> Forall is_word xs -> forall add, is_word add ->
  let r := mul_row0 w xs add in
  Forall is_word r /\ length r = S (length xs) /\ uvalue r = w * uvalue xs + add.
Proof.
  intros Hw. induction xs as [|x xs IH]; intros Hx add Ha; cbn [mul_row0].
  - cbn [length uvalue]. repeat split; [repeat constructor; apply Ha|lia].
  - inversion Hx as [|? ? Hx1 Hx2]; subst.
    destruct (wmul_add w x add false) as [lo hi] eqn:E.
    destruct (wmul_add_spec _ _ _ _ _ _ Hw Hx1 Ha E) as (Hlo & Hhi & Hv).
    destruct (IH Hx2 hi Hhi) as (I1 & I2 & I3).
    split; [constructor; assumption|]. split; [cbn [length]; rewrite I2; reflexivity|].
    rewrite !uvalue_cons, I3. cbn [b2z] in Hv. lia.
Qed.

Lemma mul_row_spec w xs : is_word w -> Forall is_word xs -> forall acc add c,
  Forall is_word acc -> length acc = length xs -> is_word add ->
  exists l cf, mul_row w xs acc add c = Some l /\ Forall is_word l /\ length l = S (length xs) /\
    uvalue l + W ^ Z.of_nat (S (length xs)) * b2z cf = w * uvalue xs + uvalue acc + add + b2z c.
Proof.
  intros Hw. induction xs as [|x xs IH]; intros Hx acc add c Hacc Hl Hadd; cbn [mul_row].
  - destruct acc; [|discriminate]. destruct (wadd_carry add c) as [r cf] eqn:E.
    destruct (wadd_carry_spec _ _ _ _ Hadd E) as [Hr Hv].
    exists [r], cf. cbn [fst length uvalue]. repeat split; [repeat constructor; apply Hr|].
    rewrite Wpow_S. change (W ^ Z.of_nat 0) with 1. lia.
  - inversion Hx as [|? ? Hx1 Hx2]; subst. destruct acc as [|r acc]; [discriminate|].
    inversion Hacc as [|? ? Hr Hacc']; subst.
    destruct (wadd_c add r c) as [s c'] eqn:E1. destruct (wadd_c_spec _ _ _ _ _ Hadd Hr E1) as [Hs Hv1].
    destruct (wmul_add w x s false) as [lo hi] eqn:E2.
    destruct (wmul_add_spec _ _ _ _ _ _ Hw Hx1 Hs E2) as (Hlo & Hhi & Hv2). cbn [b2z] in Hv2.
    destruct (IH Hx2 acc hi c' Hacc' ltac:(cbn in Hl; lia) Hhi) as (l & cf & I1 & I2 & I3 & I4).
    rewrite I1. exists (lo :: l), cf. split; [reflexivity|]. split; [constructor; assumption|].
    split; [cbn [length]; rewrite I3; reflexivity|].
    rewrite !uvalue_cons. cbn [length]. rewrite Wpow_S. nia.
Qed.

Lemma mul_row_exact w xs acc : is_word w -> Forall is_word xs -> Forall is_word acc ->
  length acc = length xs ->
  exists l, mul_row w xs acc 0 false = Some l /\ Forall is_word l /\ length l = S (length xs) /\
    uvalue l = w * uvalue xs + uvalue acc.
Proof.
  intros Hw Hx Ha Hl.
  destruct (mul_row_spec w xs Hw Hx acc 0 false Ha Hl ltac:(wsimp; lia)) as (l & cf & H1 & H2 & H3 & H4).
  exists l. split; [assumption|]. split; [assumption|]. split; [assumption|].
  pose proof (uvalue_range l H2). pose proof (uvalue_range xs Hx). pose proof (uvalue_range acc Ha).
  rewrite H3 in *. rewrite Hl in *. cbn [b2z] in H4. rewrite Wpow_S in *.
  set (p := W ^ Z.of_nat (length xs)) in *. destruct cf; cbn [b2z] in H4; [exfalso|lia].
  unfold is_word in Hw. change (2 ^ 64) with W in Hw.
  assert (w * uvalue xs <= (W - 1) * (p - 1)) by (apply Z.mul_le_mono_nonneg; lia). 
  assert (1 < W) by reflexivity. nia.
Qed.

Lemma mul_rows_spec xs : Forall is_word xs -> forall ws acc, Forall is_word ws ->
  Forall is_word acc -> length acc = S (length xs) ->
  exists l, mul_rows ws xs acc = Some l /\ Forall is_word l /\ length l = (length acc + length ws)%nat /\
    uvalue l = uvalue acc + W * (uvalue ws * uvalue xs).
Proof.
  intros Hx. induction ws as [|w ws IH]; intros acc Hw Ha Hl; cbn [mul_rows].
  - exists acc. cbn [length uvalue]. repeat split; auto; lia.
  - inversion Hw as [|? ? Hw1 Hw2]; subst. destruct acc as [|r acc]; [discriminate|].
    inversion Ha as [|? ? Hr Ha']; subst.
    destruct (mul_row_exact w xs acc Hw1 Hx Ha' ltac:(cbn in Hl; lia)) as (l & E & L1 & L2 & L3).
    rewrite E. destruct (IH l Hw2 L1 L2) as (l' & E' & M1 & M2 & M3). rewrite E'.
    exists (r :: l'). split; [reflexivity|]. split; [constructor; assumption|].
    split; [cbn [length] in *; lia|]. rewrite !uvalue_cons, M3, L3. ring.
Qed.

Lemma sub_masked_spec m : (m = 0 \/ m = 1) -> forall other ws c, Forall is_word ws -> Forall is_word other ->
  length other = length ws ->
  exists l k, sub_masked ws other (wrap (- m)) c = Some l /\ Forall is_word l /\ length l = length ws /\
    uvalue l = uvalue ws - m * uvalue other - b2z c + W ^ Z.of_nat (length ws) * k.
Proof.
  intros Hm. induction other as [|o other IH]; intros ws c Hw Ho Hl; cbn [sub_masked].
  - destruct ws; [|discriminate]. exists [], (b2z c). repeat split; [constructor|].
    cbn [uvalue length]. change (W ^ Z.of_nat 0) with 1. lia.
  - destruct ws as [|w ws]; [discriminate|]. inversion Hw; inversion Ho; subst.
    assert (Hland : Z.land o (wrap (- m)) = m * o).
    { destruct Hm as [-> | ->]; [apply Z.land_0_r|].
      change (wrap (- (1))) with (W - 1). rewrite land_ones_word by assumption. lia. }
    assert (Hlw : is_word (m * o)) by (destruct Hm as [-> | ->]; wsimp; lia).
    cbn [sub_masked]. rewrite Hland. destruct (wsub_c w (m * o) c) as [r c'] eqn:E.
    destruct (wsub_c_spec w (m * o) _ _ _ ltac:(assumption) Hlw E) as [Hr Hv].
    destruct (IH ws c' ltac:(assumption) ltac:(assumption) ltac:(cbn in Hl; lia)) as (l & k & E' & L1 & L2 & L3).
    rewrite E'. exists (r :: l), k. split; [reflexivity|]. split; [constructor; assumption|].
    split; [cbn [length]; rewrite L2; reflexivity|]. rewrite !uvalue_cons, L3. cbn [length]. rewrite Wpow_S. nia.
Qed.

Lemma sub_shifted_masked_spec m ws other sh : (m = 0 \/ m = 1) ->
  Forall is_word ws -> Forall is_word other -> length ws = (sh + length other)%nat ->
  exists l k, sub_shifted_masked ws other sh (wrap (- m)) = Some l /\ Forall is_word l /\ length l = length ws /\
    uvalue l = uvalue ws - m * uvalue other * W ^ Z.of_nat sh + W ^ Z.of_nat (length ws) * k.
Proof.
  intros Hm Hw Ho Hl. unfold sub_shifted_masked.
  destruct (Nat.leb_spec sh (length ws)); [|lia].
  rewrite <- (firstn_skipn sh ws) in Hw. apply Forall_app in Hw as [Hw1 Hw2].
  destruct (sub_masked_spec m Hm other (skipn sh ws) false Hw2 Ho) as (l & k & E & L1 & L2 & L3).
  { rewrite skipn_length. lia. }
  rewrite E. exists (firstn sh ws ++ l), k. split; [reflexivity|].
  split; [apply Forall_app; split; assumption|].
  assert (Hf : length (firstn sh ws) = sh) by (rewrite firstn_length; lia).
  split; [rewrite app_length, Hf, L2, skipn_length; lia|].
  rewrite uvalue_app, Hf, L3, skipn_length. cbn [b2z].
  replace (uvalue ws) with (uvalue (firstn sh ws) + W ^ Z.of_nat sh * uvalue (skipn sh ws)).
  2: { rewrite <- (firstn_skipn sh ws) at 3. rewrite uvalue_app, Hf. reflexivity. }
  replace (W ^ Z.of_nat (length ws)) with (W ^ Z.of_nat sh * W ^ Z.of_nat (length ws - sh)).
  2: { rewrite <- Z.pow_add_r by lia. f_equal. lia. }
  ring.
Qed.

Lemma sign_ext_neg a : wf a -> sign_ext a = wrap (- (- sext a)).
Proof. intros. rewrite sign_ext_wrap by assumption. f_equal. lia. Qed.

Lemma product_bound x y p q : 0 < p -> 0 < q -> - (HW * p) <= x < HW * p -> - (HW * q) <= y < HW * q ->
  - (HW * (W * (p * q))) <= x * y < HW * (W * (p * q)).
Proof.
  intros Hp Hq Hx Hy.
  assert (Hab : Z.abs (x * y) <= (HW * p) * (HW * q)).
  { rewrite Z.abs_mul. apply Z.mul_le_mono_nonneg; lia. }
  assert (0 < p * q) by nia. assert (HW * HW < HW * W) by reflexivity.
  replace (HW * p * (HW * q)) with (HW * HW * (p * q)) in Hab by ring.
  replace (HW * (W * (p * q))) with (HW * W * (p * q)) by ring.
  assert (HW * HW * (p * q) < HW * W * (p * q)) by (apply Z.mul_lt_mono_pos_r; assumption).
  generalize dependent (HW * HW * (p * q)). generalize dependent (HW * W * (p * q)). intros. lia.
Qed.
Lemma product_range a b : wf a -> wf b ->
  - (HW * W ^ Z.of_nat (length b + length a - 1)) <= value a * value b
    < HW * W ^ Z.of_nat (length b + length a - 1).
Proof.
  intros Ha Hb.
  assert (La : (1 <= length a)%nat) by (destruct Ha as [Hn _]; destruct a; [congruence|cbn; lia]).
  assert (Lb : (1 <= length b)%nat) by (destruct Hb as [Hn _]; destruct b; [congruence|cbn; lia]).
  replace (length b + length a - 1)%nat with (S ((length a - 1) + (length b - 1))) by (clear - La Lb; lia).
  rewrite Wpow_S, Nat2Z.inj_add, Z.pow_add_r by apply Nat2Z.is_nonneg.
  apply product_bound; [apply Wpow_pos|apply Wpow_pos|apply value_range|apply value_range]; assumption.
Qed.

Lemma multiply_slow_ordered_spec a b : wf a -> wf b ->
  exists r, multiply_slow_ordered a b = Some r /\ canonical r /\ value r = value a * value b.
Proof.
  intros Ha Hb. destruct b as [|w0 ws]; [destruct Hb; congruence|].
  set (b := w0 :: ws) in *. pose proof (proj2 Hb) as Hbf. subst b. inversion Hbf as [|? ? Hw0 Hws]; subst.
  unfold multiply_slow_ordered. set (b := w0 :: ws) in *.
  destruct (mul_row0_spec w0 a Hw0 (proj2 Ha) 0 ltac:(wsimp; lia)) as (R1 & R2 & R3).
  destruct (mul_rows_spec a (proj2 Ha) ws _ Hws R1 R2) as (r & E & M1 & M2 & M3).
  rewrite E. rewrite R3, R2 in *.
  assert (Hlen : length r = (length b + length a)%nat) by (subst b; cbn [length]; lia).
  assert (Hu : uvalue r = uvalue a * uvalue b) by (subst b; rewrite uvalue_cons, M3; ring).
  assert (Lb : (1 <= length b)%nat) by (subst b; cbn [length]; lia).
  clearbody b.
  assert (Hma : - sext a = 0 \/ - sext a = 1) by (destruct (sext_cases a) as [-> | ->]; auto).
  assert (Hmb : - sext b = 0 \/ - sext b = 1) by (destruct (sext_cases b) as [-> | ->]; auto).
  rewrite (sign_ext_neg b Hb), (sign_ext_neg a Ha).
  destruct (sub_shifted_masked_spec (- sext b) r a (length b) Hmb M1 (proj2 Ha) Hlen)
    as (r1 & k1 & E1 & S1 & S2 & S3).
  rewrite E1.
  destruct (sub_shifted_masked_spec (- sext a) r1 b (length a) Hma S1 (proj2 Hb) ltac:(lia))
    as (r2 & k2 & E2 & T1 & T2 & T3).
  rewrite E2. exists (trim r2). split; [reflexivity|].
  assert (Hwf2 : wf r2). { split; [|assumption]. intros ->. cbn in T2. lia. }
  destruct (trim_canonical r2 Hwf2) as [Hc Hv]. split; [assumption|]. rewrite Hv.
  apply value_from_residue with (k := k1 + k2 - sext a * sext b); [assumption| |].
  - rewrite T3, S3, Hu, T2, S2, Hlen. rewrite (value_uvalue a Ha), (value_uvalue b Hb).
    rewrite Nat2Z.inj_add, Z.pow_add_r by lia. ring.
  - rewrite T2, S2, Hlen. apply product_range; assumption.
Qed.

Lemma smul_half x y : half_range x -> half_range y -> smul x y = Some (x * y) /\ - HW <= x * y < HW.
Proof.
  unfold half_range, smul. intros Hx Hy.
  assert (H : - HW <= x * y < HW) by (unfold HW; nia). split; [|assumption].
  destruct (Z.leb_spec (- HW) (x * y)); [|lia]. destruct (Z.ltb_spec (x * y) HW); [reflexivity|lia].
Qed.

Lemma value_pair lo hi : value [lo; hi] = lo + W * sgn hi.
Proof. rewrite value_cons by discriminate. rewrite value_single. reflexivity. Qed.

Lemma mul_spec a b : wf a -> wf b ->
  exists r, mul a b = Some r /\ canonical r /\ value r = value a * value b.
Proof.
  intros Ha Hb. unfold mul. destruct (all_half_words2 a b) eqn:E.
  - apply all_half2_spec in E as [E1 E2]; [|assumption|assumption].
    destruct (half_value a E1) as [V1 R1], (half_value b E2) as [V2 R2]. rewrite <- V1, <- V2.
    destruct (smul_half _ _ R1 R2) as [-> Hr]. eexists. split; [reflexivity|]. apply of_int_canonical, Hr.
  - destruct ((used a =? 1) && (used b =? 1)) eqn:E1.
    + apply andb_prop in E1 as [E1 E2]. unfold used in *.
      destruct a as [|x [|? ?]]; [destruct Ha; congruence| |cbn [length] in E1; lia].
      destruct b as [|y [|? ?]]; [destruct Hb; congruence| |cbn [length] in E2; lia].
      cbn [first hd]. pose proof (wf_first _ Ha) as Hx. pose proof (wf_first _ Hb) as Hy. cbn in Hx, Hy.
      destruct (wmul_signed x y) as [lo hi] eqn:Em.
      destruct (wmul_signed_spec _ _ _ _ Hx Hy Em) as (Hlo & Hhi & Hv).
      eexists. split; [reflexivity|].
      destruct (trim_canonical [lo; hi]) as [Hc Hvv].
      { apply wf_cons; [assumption|repeat constructor; apply Hhi]. }
      split; [assumption|]. rewrite Hvv, !value_single, value_pair. symmetry. exact Hv.
    + unfold multiply_slow. destruct (used a <? used b).
      * rewrite Z.mul_comm. apply multiply_slow_ordered_spec; assumption.
      * apply multiply_slow_ordered_spec; assumption.
Qed.

(** ** Negate *)
Lemma wnot_eq w : is_word w -> wnot w = W - 1 - w.
Proof. intros. reflexivity. Qed.

Lemma negate_loop_spec ws : Forall is_word ws -> forall c rs cf, negate_loop ws c = (rs, cf) ->
  Forall is_word rs /\ length rs = length ws /\
  uvalue rs + W ^ Z.of_nat (length ws) * b2z cf = W ^ Z.of_nat (length ws) - 1 - uvalue ws + b2z c.
Proof.
  induction ws as [|w ws IH]; intros Hf c rs cf; cbn [negate_loop].
  - intros E. injection E as <- <-. cbn [length uvalue]. repeat split; [constructor|].
    change (W ^ Z.of_nat 0) with 1. lia.
  - inversion Hf; subst. destruct (wadd_carry (wnot w) c) as [r c'] eqn:E1.
    assert (Hnw : is_word (wnot w)). { rewrite wnot_eq by assumption. apply compl_word; assumption. }
    destruct (wadd_carry_spec _ _ _ _ Hnw E1) as [Hr Hv].
    destruct (negate_loop ws c') as [rs' cf'] eqn:E2. intros E. injection E as <- <-.
    destruct (IH ltac:(assumption) _ _ _ E2) as (I1 & I2 & I3).
    split; [constructor; assumption|]. split; [cbn [length]; lia|].
    rewrite !uvalue_cons. cbn [length]. rewrite Wpow_S. rewrite wnot_eq in Hv by assumption. nia.
Qed.

Lemma high_bit w : is_word w -> Z.testbit w 63 = (HW <=? w).
Proof.
  intros H. rewrite Z.testbit_eqb by lia. change (2 ^ 63) with HW.
  apply eq_true_iff_eq. rewrite Z.eqb_eq, Z.leb_le. unfold is_word in H. change (2 ^ 64) with W in H.
  destruct (Z.leb_spec HW w).
  - assert (w / HW = 1). { symmetry. apply Z.div_unique with (w - HW); [|lia]. unfold W, HW in *. lia. }
    rewrite H1. split; [auto|reflexivity].
  - rewrite Z.div_small by lia. split; [discriminate|lia].
Qed.
Lemma lxor_word a b : is_word a -> is_word b -> is_word (Z.lxor a b).
Proof.
  intros Ha Hb. split; [apply Z.lxor_nonneg; unfold is_word in *; tauto|].
  destruct (Z.eq_dec (Z.lxor a b) 0) as [-> | N]; [reflexivity|].
  assert (0 <= Z.lxor a b) by (apply Z.lxor_nonneg; unfold is_word in *; tauto).
  apply Z.log2_lt_pow2; [lia|].
  eapply Z.le_lt_trans; [apply Z.log2_lxor; unfold is_word in *; tauto|].
  assert (forall w, is_word w -> Z.log2 w < 64).
  { intros w [Hw1 Hw2]. destruct (Z.eq_dec w 0) as [-> |]; [reflexivity|]. apply Z.log2_lt_pow2; lia. }
  apply Z.max_lub_lt; auto.
Qed.
Lemma sign_changed_spec a b : is_word a -> is_word b ->
  low32 (wshr (Z.lxor a b) (bits_per_word - 1)) = if xorb (HW <=? a) (HW <=? b) then 1 else 0.
Proof.
  intros Ha Hb. pose proof (lxor_word a b Ha Hb) as Hx.
  assert (E : wshr (Z.lxor a b) (bits_per_word - 1) = b2z (HW <=? Z.lxor a b)).
  { unfold wshr, bits_per_word. rewrite Z.shiftr_div_pow2 by lia. change (2 ^ (64 - 1)) with HW.
    unfold is_word in Hx. change (2 ^ 64) with W in Hx.
    destruct (Z.leb_spec HW (Z.lxor a b)); cbn [b2z].
    - symmetry. apply Z.div_unique with (Z.lxor a b - HW); [|lia]. unfold W, HW in *. lia.
    - apply Z.div_small. lia. }
  rewrite E, <- high_bit, Z.lxor_spec, !high_bit by assumption.
  destruct (HW <=? a), (HW <=? b); reflexivity.
Qed.
Lemma sext_high a : wf a -> sext a = if HW <=? top a then -1 else 0.
Proof. intros. unfold sext. rewrite Z.leb_antisym. destruct (top a <? HW); reflexivity. Qed.

Lemma neg_spec a : wf a -> canonical (neg a) /\ value (neg a) = - value a.
Proof.
  intros Ha. unfold neg. destruct (negate_loop a true) as [r cf] eqn:E.
  destruct (negate_loop_spec a (proj2 Ha) _ _ _ E) as (R1 & R2 & R3). cbn [b2z] in R3.
  assert (Hr : wf r). { split; [|assumption]. intros ->. destruct Ha as [Hn _]. destruct a; [congruence|discriminate]. }
  change (last r 0) with (top r).
  rewrite sign_changed_spec by (apply wf_top; assumption).
  pose proof (uvalue_range a (proj2 Ha)) as Ua. pose proof (uvalue_range r R1) as Ur. rewrite R2 in Ur.
  pose proof (value_uvalue a Ha) as Va. pose proof (value_uvalue r Hr) as Vr. rewrite R2 in Vr.
  pose proof (sext_sign a Ha) as Sa. pose proof (sext_sign r Hr) as Sr.
  rewrite (sext_high a Ha) in *. rewrite (sext_high r Hr) in *.
  set (p := W ^ Z.of_nat (length a)) in *.
  assert (Happ : wf (r ++ [0]) /\ value (r ++ [0]) = uvalue r).
  { split; [apply wf_snoc; split; [assumption|wsimp; lia]|]. rewrite value_snoc, sgn_0. lia. }
  pose proof (value_range a Ha) as Ra. pose proof (value_range r Hr) as Rr. rewrite R2 in Rr.
  assert (Hpp : p = 2 * (HW * W ^ Z.of_nat (length a - 1))).
  { apply half_pow. destruct Ha as [Hn _]. destruct a; [congruence|cbn; lia]. }
  clearbody p. set (q := HW * W ^ Z.of_nat (length a - 1)) in *. clearbody q.
  destruct cf; cbn [b2z] in R3.
  - (* the number is zero *)
    assert (uvalue a = 0 /\ uvalue r = 0) as [Za Zr] by lia.
    assert (Hif : (Z.lor (if xorb (HW <=? top a) (HW <=? top r) then 1 else 0) (b2z true) =? 0) = false)
      by (destruct (xorb _ _); reflexivity).
    rewrite Hif. destruct (trim_canonical r Hr) as [Hc Hv]. split; [assumption|]. rewrite Hv.
    destruct (HW <=? top a), (HW <=? top r);
      destruct (Z.ltb_spec (value a) 0), (Z.ltb_spec (value r) 0); lia.
  - destruct (xorb (HW <=? top a) (HW <=? top r)) eqn:Ex.
    + cbn [b2z]. change (Z.lor 1 0 =? 0) with false. cbn iota.
      destruct (trim_canonical r Hr) as [Hc Hv]. split; [assumption|]. rewrite Hv.
      destruct (HW <=? top a), (HW <=? top r); try discriminate; lia.
    + cbn [b2z]. change (Z.lor 0 0 =? 0) with true. cbn iota.
      destruct Happ as [Hw2 Hv2]. destruct (trim_canonical _ Hw2) as [Hc Hv]. split; [assumption|].
      rewrite Hv, Hv2.
      destruct (HW <=? top a), (HW <=? top r); try discriminate; [lia|exfalso].
      lia.
Qed.

(** ** Fused operations *)
Lemma add_multiply_spec t a b : wf t -> wf a -> wf b ->
  exists r, add_multiply t a b = Some r /\ canonical r /\ value r = value t + value a * value b.
Proof.
  intros Ht Ha Hb. unfold add_multiply. destruct (all_half_words3 t a b) eqn:E.
  - apply all_half3_spec in E as (E0 & E1 & E2); [|assumption|assumption|assumption].
    destruct (half_value t E0) as [V0 R0], (half_value a E1) as [V1 R1], (half_value b E2) as [V2 R2].
    rewrite <- V1, <- V2. destruct (smul_half _ _ R1 R2) as [-> Hr]. eexists. split; [reflexivity|].
    rewrite wrap_sgn_add by (try apply wf_first, Ht; apply wrap_word).
    rewrite (sgn_wrap_id _ Hr), <- V0. apply wrap_single_canonical. unfold half_range, HW in *. nia.
  - destruct (mul_spec a b Ha Hb) as (p & -> & Hc & Hv). eexists. split; [reflexivity|].
    destruct (add_assign_spec t p Ht (proj1 Hc)) as [Hc' Hv']. split; [assumption|]. rewrite Hv', Hv. reflexivity.
Qed.
Lemma sub_multiply_spec t a b : wf t -> wf a -> wf b ->
  exists r, sub_multiply t a b = Some r /\ canonical r /\ value r = value t - value a * value b.
Proof.
  intros Ht Ha Hb. unfold sub_multiply. destruct (all_half_words3 t a b) eqn:E.
  - apply all_half3_spec in E as (E0 & E1 & E2); [|assumption|assumption|assumption].
    destruct (half_value t E0) as [V0 R0], (half_value a E1) as [V1 R1], (half_value b E2) as [V2 R2].
    rewrite <- V1, <- V2. destruct (smul_half _ _ R1 R2) as [-> Hr]. eexists. split; [reflexivity|].
    rewrite wrap_sgn_sub by (try apply wf_first, Ht; apply wrap_word).
    rewrite (sgn_wrap_id _ Hr), <- V0. apply wrap_single_canonical. unfold half_range, HW in *. nia.
  - destruct (mul_spec a b Ha Hb) as (p & -> & Hc & Hv). eexists. split; [reflexivity|].
    destruct (sub_assign_spec t p Ht (proj1 Hc)) as [Hc' Hv']. split; [assumption|]. rewrite Hv', Hv. reflexivity.
Qed.
Lemma determinant_spec a b c d : wf a -> wf b -> wf c -> wf d ->
  exists r, determinant a b c d = Some r /\ canonical r /\ value r = value a * value d - value c * value b.
Proof.
  intros Ha Hb Hc Hd. unfold determinant. destruct (mul_spec a d Ha Hd) as (p & -> & Hp & Hv).
  destruct (sub_multiply_spec p c b (proj1 Hp) Hc Hb) as (r & E & Hr & Hv'). exists r.
  split; [assumption|]. split; [assumption|]. rewrite Hv', Hv. reflexivity.
Qed.
