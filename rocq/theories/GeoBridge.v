(** The integer level operations used by GeoModel agree with the word level
    model of BigInt on every canonical number. *)
From Coq Require Import ZArith List Bool Lia ZifyBool.
From Verif Require Import WordModel BigIntModel BigIntSpec WordProofs BigIntProofs BigIntMulProofs BigIntCmpProofs
  BigUIntModel BigUIntDivProofs BigIntDivSpec BigIntDivProofs GeoModel GeoSpec GeoProofs.
Import ListNotations.
Open Scope Z_scope.

Lemma zwords_bounds v n : 1 <= n -> - 2 ^ (64 * n - 1) <= v < 2 ^ (64 * n - 1) ->
  (n = 1 \/ v < - 2 ^ (64 * (n - 1) - 1) \/ 2 ^ (64 * (n - 1) - 1) <= v) -> zwords v = n.
Proof.
  intros Hn R T. unfold zwords.
  set (u := if v <? 0 then - v - 1 else v).
  assert (Hu : 0 <= u < 2 ^ (64 * n - 1)) by (unfold u; destruct (v <? 0) eqn:E; lia).
  assert (Tu : n = 1 \/ 2 ^ (64 * (n - 1) - 1) <= u).
  { destruct T as [T|T]; [left; exact T|]. destruct (Z.eq_dec n 1) as [|N]; [left; assumption|right].
    assert (0 < 2 ^ (64 * (n - 1) - 1)) by (apply Z.pow_pos_nonneg; lia).
    unfold u. destruct (v <? 0) eqn:E; lia. }
  assert (Z0 : (v =? 0) || (v =? -1) = (u =? 0)) by (unfold u; destruct (v <? 0) eqn:E; lia).
  rewrite Z0. clearbody u. clear R T Z0 v. destruct (u =? 0) eqn:E.
  - assert (u = 0) by lia. subst u. destruct Tu as [->|Tu]; [reflexivity|].
    destruct (Z.eq_dec n 1) as [->|N]; [reflexivity|]. exfalso.
    assert (0 < 2 ^ (64 * (n - 1) - 1)) by (apply Z.pow_pos_nonneg; lia). lia.
  - assert (Hp : 0 < u) by lia.
    assert (L1 : Z.log2 u < 64 * n - 1) by (apply Z.log2_lt_pow2; [exact Hp|lia]).
    assert (L2 : 64 * (n - 1) - 1 <= Z.log2 u).
    { destruct Tu as [->|Tu]; [pose proof (Z.log2_nonneg u); lia|].
      destruct (Z.eq_dec n 1) as [->|N]; [pose proof (Z.log2_nonneg u); lia|].
      apply Z.log2_le_pow2; [exact Hp|exact Tu]. }
    assert (Q : (Z.log2 u + 1) / 64 = n - 1); [|lia].
    symmetry. apply (Z.div_unique _ _ _ (Z.log2 u + 1 - 64 * (n - 1))); lia.
Qed.
Lemma HW_pow m : HW * W ^ Z.of_nat m = 2 ^ (64 * Z.of_nat m + 63).
Proof. rewrite Z.pow_add_r by lia. rewrite W_eq, HW_eq, <- Z.pow_mul_r by lia. ring. Qed.
Lemma zwords_used a : canonical a -> zwords (value a) = used a.
Proof.
  intros C. pose proof (proj1 C) as Wf. assert (La : (1 <= length a)%nat) by (destruct Wf as [Hn _]; destruct a; [congruence|cbn; lia]).
  unfold used. apply zwords_bounds; [lia| |].
  - pose proof (value_range a Wf) as R. rewrite HW_pow in R. replace (64 * Z.of_nat (length a) - 1) with (64 * Z.of_nat (length a - 1) + 63) by lia. exact R.
  - destruct (Nat.eq_dec (length a) 1) as [E|E]; [left; lia|right].
    pose proof (tight_range a Wf (canonical_tight a C) ltac:(lia)) as T. rewrite HW_pow in T.
    replace (64 * (Z.of_nat (length a) - 1) - 1) with (64 * Z.of_nat (length a - 2) + 63) by lia. exact T.
Qed.
Lemma zget_sign_word a : canonical a -> zget_sign (value a) = get_sign a.
Proof.
  intros C. unfold zget_sign, get_sign. rewrite (zwords_used a C). unfold used, extra_size.
  destruct (proj1 C) as [Hn Hf]. destruct (snoc_case a Hn) as (l & w & ->).
  rewrite top_snoc, app_length. cbn [length]. replace (Z.of_nat (length l + 1) - 1) with (Z.of_nat (length l)) by lia.
  f_equal. rewrite value_snoc. apply Forall_app in Hf as [Hl Hw]. pose proof (uvalue_range l Hl) as U.
  replace (2 ^ (64 * Z.of_nat (length l))) with (W ^ Z.of_nat (length l)) by (rewrite W_eq, <- Z.pow_mul_r by lia; reflexivity).
  symmetry. apply (Z.div_unique _ _ _ (uvalue l)); [left; exact U|ring].
Qed.

(** The canonical number of an integer. *)
Fixpoint digits (n : nat) (v : Z) : list Z :=
  match n with O => [] | S n => v mod W :: digits n (v / W) end.
Lemma digits_wf n v : Forall is_word (digits n v).
Proof. revert v. induction n as [|n IH]; intros v; cbn [digits]; constructor; [|apply IH]. unfold is_word. rewrite <- W_eq. apply Z.mod_pos_bound. exact W_pos. Qed.
Lemma digits_value n : forall v, - (HW * W ^ Z.of_nat n) <= v < HW * W ^ Z.of_nat n -> value (digits (S n) v) = v.
Proof.
  induction n as [|n IH]; intros v R.
  - cbn [digits]. rewrite value_single. change (W ^ Z.of_nat 0) with 1 in R. apply sgn_wrap_id. lia.
  - change (digits (S (S n)) v) with (v mod W :: digits (S n) (v / W)). rewrite value_cons by discriminate.
    rewrite IH; [pose proof (Z.div_mod v W ltac:(pose proof W_pos; lia)); lia|].
    rewrite Wpow_S in R. pose proof W_pos. split; [apply Z.div_le_lower_bound; lia|apply Z.div_lt_upper_bound; lia].
Qed.
Definition canon (v : Z) : list Z := trim (digits (S (Z.to_nat (Z.log2 (Z.abs v) + 1))) v).
Lemma canon_spec v : canonical (canon v) /\ value (canon v) = v.
Proof.
  set (n := Z.to_nat (Z.log2 (Z.abs v) + 1)).
  assert (R : - (HW * W ^ Z.of_nat n) <= v < HW * W ^ Z.of_nat n).
  { rewrite HW_pow. assert (Z.abs v < 2 ^ (64 * Z.of_nat n + 63)); [|lia].
    destruct (Z.eq_dec v 0) as [->|Hv]; [reflexivity|].
    eapply Z.lt_le_trans; [apply (Z.log2_spec (Z.abs v)); lia|]. apply Z.pow_le_mono_r; [lia|]. unfold n. pose proof (Z.log2_nonneg (Z.abs v)). lia. }
  destruct (trim_canonical (digits (S n) v)) as [C V].
  - split; [discriminate|apply digits_wf].
  - unfold canon. fold n. rewrite V, (digits_value n v R). split; [exact C|reflexivity].
Qed.
(** GetGreatestCommonDivisor of BigIntModel, seen at the integer level, is a
    gcd in the sense GeoModel's Reduce functions are proved for. *)
Definition zgcd (a b : Z) : res Z :=
  g <- gcd (S (Z.to_nat (Z.abs b))) false (canon a) (canon b) ;; Ok (value g).
Lemma zgcd_ok : gcd_ok zgcd.
Proof.
  assert (F : forall b, Z.abs (value (canon b)) < Z.of_nat (S (Z.to_nat (Z.abs b)))) by (intros b; rewrite (proj2 (canon_spec b)); lia).
  split.
  - intros a b g. unfold zgcd. destruct (canon_spec a) as [Ca Va], (canon_spec b) as [Cb Vb].
    destruct (gcd_any_fuel (S (Z.to_nat (Z.abs b))) (canon a) (canon b) Ca Cb (F b)) as [(x & E & _ & G)|E]; rewrite E by lia; cbn [rbind].
    + intros H. injection H as <-. rewrite G, Va, Vb. reflexivity.
    + discriminate.
  - intros a b Hs. unfold zgcd. destruct (canon_spec a) as [Ca Va], (canon_spec b) as [Cb Vb].
    destruct (gcd_spec_fuel (S (Z.to_nat (Z.abs b))) (canon a) (canon b) Ca Cb ltac:(rewrite Va, Vb; exact Hs) (F b)) as (x & E & _ & G).
    rewrite E by lia. eexists; reflexivity.
Qed.
(** The other integer level operations. *)
Definition olift {A} (x : option A) : res A := match x with Some v => Ok v | None => UB end.
Lemma zcompare_word a b : canonical a -> canonical b -> zcompare (value a) (value b) = compare a b.
Proof. intros Ha Hb. rewrite (compare_spec a b Ha Hb). unfold zcompare. destruct (value a ?= value b); reflexivity. Qed.
Lemma zless_than_word f a b : canonical a -> canonical b -> zless_than f (value a) (value b) = less_than f a b.
Proof. intros Ha Hb. rewrite (less_than_spec f a b Ha Hb). reflexivity. Qed.
Lemma zabs_mult_word a : wf a -> zabs_mult (value a) = get_abs_mult a.
Proof. intros Ha. rewrite (get_abs_mult_spec a Ha). unfold zabs_mult, zsign_ext. destruct (value a <? 0); reflexivity. Qed.
Lemma zabs_mult2_word a b : wf a -> wf b -> zabs_mult2 (value a) (value b) = get_abs_mult2 a b.
Proof.
  intros Ha Hb. rewrite (get_abs_mult2_spec a b Ha Hb). unfold zabs_mult2, zsign_ext.
  destruct (value a <? 0), (value b <? 0); reflexivity.
Qed.
Lemma zdiff_sign_word a b : canonical a -> canonical b -> zdiff_sign (value a) (value b) = has_different_sign a b.
Proof. intros Ha Hb. unfold zdiff_sign, has_different_sign. rewrite !zget_sign_word by assumption. reflexivity. Qed.
Lemma zabs_word a : canonical a -> zabs (value a) = (r <- olift (abs a) ;; Ok (value r)).
Proof.
  intros Ha. destruct (list_eq_dec Z.eq_dec a [HW]) as [->|N]; [reflexivity|].
  destruct (abs_spec a Ha N) as (r & -> & _ & V). cbn [olift rbind]. rewrite V. unfold zabs.
  destruct (value a =? - 2 ^ 63) eqn:E; [|reflexivity]. exfalso. apply N.
  assert (CH : canonical [HW]) by (apply canonicalb_sound; reflexivity).
  apply (canonical_unique _ _ Ha CH). rewrite value_single. apply Z.eqb_eq in E. rewrite E. reflexivity.
Qed.
Lemma zdiv_rem_word a b : canonical a -> canonical b -> 
  value b <> 0 -> ~ (value a = int64_min /\ value b = -1) ->
  exists q r, div_rem false a b = Ok (q, r) /\ zdiv_rem (value a) (value b) = Ok (value q, value r).
Proof.
  intros Ha Hb N O. destruct (div_rem_spec a b Ha Hb N O) as (q & r & E & _ & _ & Q & R). exists q, r. split; [exact E|].
  rewrite Q, R. apply zdiv_rem_ok; [exact N|exact O].
Qed.
