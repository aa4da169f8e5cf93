(** Memory-level lemmas about the [BigUInt] model (release build). *)
From Coq Require Import ZArith List Bool Lia ZifyBool.
From Verif Require Import WordModel BigIntSpec WordProofs BigIntModel BigIntProofs BigIntMulProofs BigIntCmpProofs BigUIntModel.
Import ListNotations.
Open Scope Z_scope.
Ltac Zify.zify_post_hook ::= idtac.

(** The cells of [m] are the words [l]; the ones past [size()] are zero. *)
Definition clean (m : mem) (l : list Z) : Prop :=
  cells m = map Some l /\ Forall is_word l /\ (1 <= mused m <= length l)%nat /\
  uvalue l < W ^ Z.of_nat (mused m).

(** No leading zero word. *)
Definition utight (l : list Z) : Prop := (length l = 1)%nat \/ top l <> 0.

Lemma is_word_W w : is_word w <-> 0 <= w < W.
Proof. reflexivity. Qed.
Lemma word_range w : is_word w -> 0 <= w < W.
Proof. exact (fun H => H). Qed.

Lemma firstn_words n l : Forall is_word l -> Forall is_word (firstn n l).
Proof. intros H. rewrite <- (firstn_skipn n l) in H. apply Forall_app in H. apply H. Qed.
Lemma skipn_words n l : Forall is_word l -> Forall is_word (skipn n l).
Proof. intros H. rewrite <- (firstn_skipn n l) in H. apply Forall_app in H. apply H. Qed.
Lemma uvalue_cut n l : (n <= length l)%nat ->
  uvalue l = uvalue (firstn n l) + W ^ Z.of_nat n * uvalue (skipn n l).
Proof.
  intros H. rewrite <- (firstn_skipn n l) at 1. rewrite uvalue_app, firstn_length_le by assumption. reflexivity.
Qed.
Lemma skipn_div n l : Forall is_word l -> (n <= length l)%nat -> uvalue (skipn n l) = uvalue l / W ^ Z.of_nat n.
Proof.
  intros Hf Hn. rewrite (uvalue_cut n l Hn). pose proof (Wpow_pos n).
  rewrite Z.mul_comm, Z.div_add by lia.
  pose proof (uvalue_range _ (firstn_words n l Hf)) as H0. rewrite firstn_length_le in H0 by assumption.
  rewrite Z.div_small by lia. lia.
Qed.
Lemma Wpow_add n m : W ^ Z.of_nat (n + m) = W ^ Z.of_nat n * W ^ Z.of_nat m.
Proof. rewrite Nat2Z.inj_add. apply Z.pow_add_r; lia. Qed.
Lemma Wpow_le n m : (n <= m)%nat -> W ^ Z.of_nat n <= W ^ Z.of_nat m.
Proof. intros. apply Z.pow_le_mono_r; [exact W_pos|lia]. Qed.
Lemma Wpow_lt_inv n m : W ^ Z.of_nat n < W ^ Z.of_nat m -> (n < m)%nat.
Proof. intros H. destruct (Nat.lt_ge_cases n m) as [|Hge]; [assumption|]. pose proof (Wpow_le m n Hge). lia. Qed.
Lemma uvalue_zero_repeat l : Forall is_word l -> uvalue l = 0 -> l = repeat 0 (length l).
Proof.
  intros Hf Hv. apply uvalue_inj; [assumption|apply repeat0_words|rewrite repeat_length; reflexivity|].
  rewrite uvalue_zeros. assumption.
Qed.
Lemma uvalue_small_skip n l : Forall is_word l -> (n <= length l)%nat -> uvalue l < W ^ Z.of_nat n ->
  uvalue (skipn n l) = 0 /\ uvalue (firstn n l) = uvalue l.
Proof.
  intros Hf Hn Hv. pose proof (uvalue_range l Hf).
  rewrite skipn_div by assumption. rewrite Z.div_small by lia. split; [reflexivity|].
  pose proof (uvalue_cut n l Hn) as E. rewrite skipn_div, Z.div_small in E by (assumption || lia). lia.
Qed.
Lemma small_split n l : Forall is_word l -> (n <= length l)%nat -> uvalue l < W ^ Z.of_nat n ->
  l = firstn n l ++ repeat 0 (length l - n).
Proof.
  intros Hf Hn Hv. destruct (uvalue_small_skip n l Hf Hn Hv) as [E _].
  rewrite <- (firstn_skipn n l) at 1. f_equal.
  rewrite (uvalue_zero_repeat (skipn n l)) by (try apply skipn_words; assumption).
  rewrite skipn_length. reflexivity.
Qed.
Lemma nth_word l i : Forall is_word l -> is_word (nth i l 0).
Proof.
  intros Hf. destruct (Nat.lt_ge_cases i (length l)) as [H|H].
  - rewrite Forall_forall in Hf. apply Hf, nth_In, H.
  - rewrite nth_overflow by assumption. split; [lia|reflexivity].
Qed.
Lemma uvalue_nth l i : Forall is_word l -> nth i l 0 = (uvalue l / W ^ Z.of_nat i) mod W.
Proof.
  intros Hf. destruct (Nat.lt_ge_cases i (length l)) as [H|H].
  - rewrite <- skipn_div by (assumption || lia).
    pose proof (skipn_words i l Hf) as Hs.
    assert (E : nth i l 0 = nth 0 (skipn i l) 0).
    { rewrite <- (firstn_skipn i l) at 1. rewrite app_nth2; rewrite firstn_length_le by lia; [|lia].
      f_equal. lia. }
    rewrite E. destruct (skipn i l) as [|w r]; [reflexivity|]. inversion Hs; subst.
    cbn [nth]. rewrite uvalue_cons. fold (wrap (w + W * uvalue r)). rewrite wrap_mul_W.
    symmetry. apply wrap_small. assumption.
  - rewrite nth_overflow by assumption. pose proof (uvalue_range l Hf). pose proof (Wpow_le _ _ H).
    rewrite Z.div_small by lia. reflexivity.
Qed.
Lemma nth_error_map_some (l : list Z) i : (i < length l)%nat -> nth_error (map Some l) i = Some (Some (nth i l 0)).
Proof. intros H. rewrite nth_error_map, (nth_error_nth' l 0 H). reflexivity. Qed.

Lemma rd_ok m l i : cells m = map Some l -> (i < length l)%nat -> rd false m i = Ok (nth i l 0).
Proof. intros E H. unfold rd, check. cbn [andb rbind]. rewrite E, nth_error_map_some by assumption. reflexivity. Qed.

(** ** Trim *)
Lemma trim_used_spec l n : Forall is_word l -> (1 <= n <= length l)%nat -> uvalue l < W ^ Z.of_nat n ->
  exists n', trim_used (map Some l) n = Ok n' /\ (1 <= n' <= n)%nat /\ uvalue l < W ^ Z.of_nat n' /\
    (n' = 1%nat \/ nth (n' - 1) l 0 <> 0).
Proof.
  intros Hf. induction n as [|n IH]; intros Hn Hv; [lia|].
  destruct n as [|n0]; [exists 1%nat; cbn; repeat split; (lia || auto)|].
  cbn [trim_used]. rewrite nth_error_map_some by lia.
  destruct (Z.eqb_spec (nth (S n0) l 0) 0) as [E|N].
  - assert (Hv' : uvalue l < W ^ Z.of_nat (S n0)).
    { rewrite uvalue_nth in E by assumption. pose proof (uvalue_range l Hf) as [H0 _].
      rewrite Wpow_S in Hv. pose proof (Wpow_pos (S n0)) as HP.
      set (P := W ^ Z.of_nat (S n0)) in *. clearbody P.
      rewrite Z.mod_small in E.
      - apply Z.div_small_iff in E; lia.
      - split; [apply Z.div_pos; lia|apply Z.div_lt_upper_bound; lia]. }
    destruct IH as (n' & H1 & H2 & H3 & H4); [lia|assumption|].
    exists n'. repeat split; auto; lia.
  - exists (S (S n0)). repeat split; auto; lia.
Qed.

Definition trimmed (m : mem) (l : list Z) : Prop := mused m = 1%nat \/ nth (mused m - 1) l 0 <> 0.

Lemma mtrim_spec m l : clean m l -> exists m', mtrim m = Ok m' /\ clean m' l /\ trimmed m' l.
Proof.
  intros (E & Hf & Hn & Hv). unfold mtrim. rewrite E.
  destruct (trim_used_spec l (mused m) Hf Hn Hv) as (n' & H1 & H2 & H3 & H4). rewrite H1. cbn [rbind].
  exists (Mem (map Some l) n'). split; [reflexivity|]. split; [|exact H4].
  repeat split; cbn [cells mused]; (assumption || lia).
Qed.

Lemma somes_map l : somes (map Some l) = Ok l.
Proof. induction l as [|x l IH]; [reflexivity|]. cbn [map somes]. rewrite IH. reflexivity. Qed.
Lemma words_spec m l : clean m l -> trimmed m l ->
  exists w, words m = Ok w /\ wf w /\ utight w /\ uvalue w = uvalue l.
Proof.
  intros (E & Hf & Hn & Hv) Ht. unfold words. rewrite E, firstn_map, somes_map.
  exists (firstn (mused m) l). split; [reflexivity|].
  assert (L : length (firstn (mused m) l) = mused m) by (apply firstn_length_le; lia).
  split. { split; [|apply firstn_words, Hf]. intros N. rewrite N in L. cbn in L. lia. }
  split; [|apply uvalue_small_skip; (assumption || lia)].
  destruct Ht as [Ht|Ht]; [left; lia|right].
  assert (Hne : firstn (mused m) l <> []) by (intros N; rewrite N in L; cbn in L; lia).
  unfold top. destruct (snoc_case _ Hne) as (p & w & Ep). rewrite Ep. rewrite last_last.
  replace (nth (mused m - 1) l 0) with w in Ht; [assumption|].
  rewrite <- (firstn_skipn (mused m) l). rewrite Ep. rewrite Ep, app_length in L. cbn [length] in L.
  rewrite <- app_assoc. rewrite app_nth2 by lia. replace (mused m - 1 - length p)%nat with 0%nat by lia. reflexivity.
Qed.

(** ** GetAtBitOffset *)
Lemma get_at_spec m l s : clean m l -> 0 <= s -> (Z.to_nat (s / 64) < length l)%nat ->
  get_at false m s = Ok (uvalue l / 2 ^ s mod W).
Proof.
  intros (E & Hf & Hn & Hv) Hs Hi. unfold get_at. unfold bits_per_word.
  set (i := Z.to_nat (s / 64)) in *.
  assert (Hnext : (if Nat.ltb (i + 1) (mused m) then rd false m (i + 1) else Ok 0) = Ok (nth (i + 1) l 0)).
  { destruct (Nat.ltb_spec (i + 1) (mused m)).
    - apply rd_ok; [assumption|lia].
    - rewrite uvalue_nth by assumption. pose proof (uvalue_range l Hf).
      pose proof (Wpow_le _ _ H). rewrite Z.div_small by lia. reflexivity. }
  rewrite Hnext. cbn [rbind]. rewrite (rd_ok m l) by assumption. cbn [rbind]. f_equal.
  pose proof (Z.mod_pos_bound s 64 ltac:(lia)) as Hm.
  rewrite wshift_right_spec by (try apply nth_word; assumption).
  rewrite !uvalue_nth by assumption. unfold wrap.
  rewrite <- (shift_split s Hs). fold i. rewrite Nat.add_1_r, Wpow_S.
  pose proof (Wpow_pos i) as HP. set (P := W ^ Z.of_nat i) in *. clearbody P.
  rewrite <- (Z.div_div (uvalue l) P) by (try apply Z.pow_pos_nonneg; lia).
  rewrite (Z.mul_comm W P). rewrite <- (Z.div_div (uvalue l) P W) by (try exact W_pos; lia).
  set (x := uvalue l / P). clearbody x.
  assert (D : 2 ^ (s mod 64) * 2 ^ (64 - s mod 64) = W).
  { rewrite <- Z.pow_add_r by lia. replace (s mod 64 + (64 - s mod 64)) with 64 by lia. reflexivity. }
  assert (0 < 2 ^ (s mod 64)) by (apply Z.pow_pos_nonneg; lia).
  assert (0 < 2 ^ (64 - s mod 64)) by (apply Z.pow_pos_nonneg; lia).
  set (d := 2 ^ (s mod 64)) in *. set (e := 2 ^ (64 - s mod 64)) in *. clearbody d e.
  (* (x mod W + W * (x/W mod W)) = x mod W^2 *)
  pose proof (Z.div_mod x W ltac:(unfold W; lia)) as E1.
  pose proof (Z.div_mod (x / W) W ltac:(unfold W; lia)) as E2.
  set (y := x / W / W) in *.
  set (b := x / W mod W) in *. set (a := x mod W) in *. set (xw := x / W) in *. clearbody b a xw y.
  assert (Ex : x = a + W * b + (W * (e * y)) * d).
  { transitivity (a + W * b + W * y * (d * e)); [rewrite D, E1, E2; ring|ring]. }
  rewrite Ex. rewrite Z.div_add by lia. rewrite (Z.mul_comm W (e * y)), Z.mod_add by (unfold W; lia). reflexivity.
Qed.

(** ** SubtractLeftShifted *)
Lemma tail_lt w a p : 0 <= w -> w + W * a < W * p -> a < p.
Proof. intros H1 H2. apply (Z.mul_lt_mono_pos_l W); [exact W_pos|lia]. Qed.
Lemma tail_nonneg r x : r < W -> 0 <= r + W * x -> 0 <= x.
Proof. intros H1 H2. assert (-1 < x); [|lia]. apply (Z.mul_lt_mono_pos_l W); [exact W_pos|lia]. Qed.

Lemma borrow_loop_spec s : Forall is_word s -> forall u c, (u <= length s)%nat -> uvalue s < W ^ Z.of_nat u ->
  b2z c <= uvalue s ->
  exists s', borrow_loop false u (map Some s) c = Ok (map Some s') /\ Forall is_word s' /\
    length s' = length s /\ uvalue s' = uvalue s - b2z c.
Proof.
  intros Hf. induction s as [|w s IH]; intros u c Hu Hv Hc.
  - cbn [uvalue] in *. assert (u = 0%nat) by (cbn in Hu; lia). subst u. destruct c; cbn [b2z] in *; [lia|].
    exists []. repeat split; auto.
  - destruct u as [|u].
    + pose proof (uvalue_range _ Hf) as Hr. change (W ^ Z.of_nat 0) with 1 in Hv.
      destruct c; cbn [b2z] in *; [lia|]. exists (w :: s). cbn [borrow_loop check rbind andb]. repeat split; auto. lia.
    + destruct c.
      * inversion Hf as [|? ? Hw Hs]; subst. cbn [borrow_loop map].
        destruct (wsub_carry w true) as [r c'] eqn:E.
        destruct (wsub_carry_spec _ _ _ _ Hw E) as [Hr Er].
        rewrite uvalue_cons in *. rewrite Wpow_S in Hv. cbn [length] in Hu. cbn [b2z] in *.
        pose proof (uvalue_range s Hs) as Hrs.
        destruct (IH Hs u c') as (s' & E1 & E2 & E3 & E4).
        -- lia.
        -- apply word_range in Hw. apply (tail_lt w); lia.
        -- apply word_range in Hr. assert (0 <= uvalue s - b2z c'); [|lia]. apply (tail_nonneg r); lia.
        -- rewrite E1. cbn [rbind]. exists (r :: s'). split; [reflexivity|].
           split; [constructor; assumption|]. split; [cbn [length]; lia|].
           rewrite uvalue_cons, E4. lia.
      * cbn [borrow_loop]. exists (w :: s). cbn [b2z]. repeat split; auto. lia.
Qed.

Lemma shifted_word_step o prev ls : is_word o -> is_word prev -> 0 <= ls < 64 ->
  let s := if 0 <? ls then Z.lor (wshl o ls) (wshr prev (bits_per_word - ls)) else o in
  is_word s /\ s + W * (o / 2 ^ (64 - ls)) = 2 ^ ls * o + (if 0 <? ls then prev / 2 ^ (64 - ls) else 0).
Proof.
  intros Ho Hp Hls. unfold bits_per_word. cbn zeta. destruct (Z.ltb_spec 0 ls).
  - split; [apply join_word; (assumption || lia)|]. rewrite join_words by (assumption || lia).
    rewrite (Wsplit ls) by lia. pose proof (Z.div_mod o (2 ^ (64 - ls))) as D.
    assert (0 < 2 ^ (64 - ls)) by (apply Z.pow_pos_nonneg; lia).
    specialize (D ltac:(lia)).
    set (q := o / 2 ^ (64 - ls)) in *. set (r := o mod 2 ^ (64 - ls)) in *. clearbody q r.
    rewrite D. ring.
  - assert (ls = 0) by lia. subst ls. split; [assumption|]. change (2 ^ (64 - 0)) with W.
    rewrite Z.div_small by exact Ho. change (2 ^ 0) with 1. lia.
Qed.

Lemma sub_loop_spec other : Forall is_word other -> forall s u prev ls c, Forall is_word s ->
  0 <= ls < 64 -> is_word prev -> (u <= length s)%nat -> uvalue s < W ^ Z.of_nat u ->
  (length other <= length s)%nat ->
  let D := (if 0 <? ls then prev / 2 ^ (64 - ls) else 0) + 2 ^ ls * uvalue other + b2z c in
  D <= uvalue s ->
  exists s', sub_loop false u (map Some s) other prev ls c = Ok (map Some s') /\ Forall is_word s' /\
    length s' = length s /\ uvalue s' = uvalue s - D.
Proof.
  intros Ho. induction other as [|o other IH]; intros s u prev ls c Hs Hls Hp Hu Hv Hlen D HD; subst D.
  - cbn [sub_loop uvalue] in *. rewrite Z.mul_0_r, Z.add_0_r in *.
    destruct (Z.ltb_spec 0 ls) as [Hl|Hl].
    + assert (Ep : wshr prev (bits_per_word - ls) = prev / 2 ^ (64 - ls)).
      { unfold wshr, bits_per_word. apply Z.shiftr_div_pow2. lia. }
      pose proof (shr_range prev (64 - ls) Hp ltac:(lia)) as Hr. unfold bits_per_word in *. rewrite Ep in *.
      replace (64 - (64 - ls)) with ls in Hr by lia.
      assert (H : 2 ^ ls < 2 ^ 64) by (apply Z.pow_lt_mono_r; lia). change (2 ^ 64) with W in H.
      set (p := prev / 2 ^ (64 - ls)) in *. clearbody p. clear Ep.
      assert (Hpw : is_word p) by (change (0 <= p < W); lia).
      destruct u as [|u].
      * pose proof (uvalue_range _ Hs) as Hrs. change (W ^ Z.of_nat 0) with 1 in Hv.
        destruct c; cbn [b2z] in *; [lia|]. exists s. cbn [check andb rbind borrow_loop]. repeat split; auto. lia.
      * destruct s as [|w s]; [cbn in Hu; lia|]. inversion Hs as [|? ? Hw Hs']; subst. cbn [map].
        destruct (wsub_c w p c) as [r c'] eqn:E.
        destruct (wsub_c_spec _ _ _ _ _ Hw Hpw E) as [Hr' Er].
        rewrite uvalue_cons in *. rewrite Wpow_S in Hv. cbn [length] in Hu.
        pose proof (uvalue_range s Hs') as Hrs. pose proof W_pos.
        apply word_range in Hw. pose proof Hr' as Hr''. apply word_range in Hr''.
        destruct (borrow_loop_spec s Hs' u c') as (s' & E1 & E2 & E3 & E4).
        -- lia.
        -- apply (tail_lt w); lia.
        -- assert (0 <= uvalue s - b2z c'); [|lia]. apply (tail_nonneg r); lia.
        -- rewrite E1. cbn [rbind]. exists (r :: s'). split; [reflexivity|].
           split; [constructor; assumption|]. split; [cbn [length]; lia|].
           rewrite uvalue_cons, E4. lia.
    + destruct (borrow_loop_spec s Hs u c Hu Hv ltac:(lia)) as (s' & E1 & E2 & E3 & E4).
      exists s'. repeat split; auto; lia.
  - destruct s as [|w s]; [cbn in Hlen; lia|]. inversion Hs as [|? ? Hw Hs']; subst.
    inversion Ho as [|? ? Ho1 Ho']; subst. cbn [sub_loop map]. unfold check. cbn [andb rbind].
    destruct (shifted_word_step o prev ls Ho1 Hp Hls) as [Hsw Esw].
    set (sw := if 0 <? ls then Z.lor (wshl o ls) (wshr prev (bits_per_word - ls)) else o) in *. clearbody sw.
    destruct (wsub_c w sw c) as [r c'] eqn:E.
    destruct (wsub_c_spec _ _ _ _ _ Hw Hsw E) as [Hr' Er].
    rewrite !uvalue_cons in *. cbn [length] in Hu, Hlen.
    pose proof (uvalue_range s Hs') as Hrs. pose proof W_pos.
    pose proof Hw as Hw'. apply word_range in Hw'. pose proof Hr' as Hr''. apply word_range in Hr''.
    assert (Eo : o / 2 ^ (64 - ls) = if 0 <? ls then o / 2 ^ (64 - ls) else 0).
    { destruct (Z.ltb_spec 0 ls); [reflexivity|]. assert (ls = 0) by lia. subst ls.
      apply Z.div_small. exact Ho1. }
    rewrite Eo in Esw.
    set (po := if 0 <? ls then o / 2 ^ (64 - ls) else 0) in *.
    set (pp := if 0 <? ls then prev / 2 ^ (64 - ls) else 0) in *.
    assert (Key : w + W * uvalue s - (pp + 2 ^ ls * (o + W * uvalue other) + b2z c)
                  = r + W * (uvalue s - (po + 2 ^ ls * uvalue other + b2z c'))).
    { transitivity ((w - sw - b2z c) + W * uvalue s - W * (po + 2 ^ ls * uvalue other) + (sw + W * po - (2 ^ ls * o + pp))); [ring|].
      rewrite Er. rewrite Esw. ring. }
    set (dd := po + 2 ^ ls * uvalue other + b2z c') in *.
    assert (Hd : dd <= uvalue s) by (assert (0 <= uvalue s - dd); [apply (tail_nonneg r); lia|lia]).
    destruct (IH Ho' s (pred u) o ls c') as (s' & E1 & E2 & E3 & E4); auto.
    + lia.
    + destruct u as [|u]; [|rewrite Wpow_S in Hv; cbn [pred]; apply (tail_lt w); lia].
      change (W ^ Z.of_nat 0) with 1 in Hv. cbn [pred]. change (W ^ Z.of_nat 0) with 1. apply (tail_lt w); lia.
    + lia.
    + fold po dd in E4. rewrite E1. cbn [rbind]. exists (r :: s'). split; [reflexivity|].
      split; [constructor; assumption|]. split; [cbn [length]; lia|].
      rewrite uvalue_cons, E4. lia.
Qed.

Lemma utight_pos l : wf l -> utight l -> l = [0] \/ W ^ Z.of_nat (length l - 1) <= uvalue l.
Proof.
  intros [Hn Hf] Ht. destruct (snoc_case l Hn) as (p & w & ->).
  apply Forall_app in Hf as [Hp Hw]. inversion Hw as [|? ? Hw' _]; subst.
  unfold utight in Ht. rewrite top_snoc, app_length in Ht. cbn [length] in Ht.
  rewrite uvalue_app, app_length. cbn [length uvalue]. rewrite Nat.add_sub.
  pose proof (uvalue_range p Hp). pose proof (Wpow_pos (length p)). apply word_range in Hw'.
  destruct (Z.eq_dec w 0) as [-> | N].
  - destruct Ht as [Ht|Ht]; [|congruence]. destruct p; [left; reflexivity|cbn in Ht; lia].
  - right. assert (1 <= w) by lia. nia.
Qed.

Lemma subtract_left_shifted_spec m l other s : clean m l -> wf other -> utight other -> 0 <= s ->
  (Z.to_nat (s / 64) < length l)%nat -> uvalue other * 2 ^ s <= uvalue l ->
  exists m' l', subtract_left_shifted false m other s = Ok m' /\ clean m' l' /\ trimmed m' l' /\
    length l' = length l /\ uvalue l' = uvalue l - uvalue other * 2 ^ s.
Proof.
  intros (E & Hf & Hn & Hv) Ho Ht Hs Hi HD. unfold subtract_left_shifted, bits_per_word.
  pose proof (shift_split s Hs) as Es.
  set (out := Z.to_nat (s / 64)) in *. set (ls := s mod 64) in *.
  pose proof (Z.mod_pos_bound s 64 ltac:(lia)) as Hls. fold ls in Hls.
  rewrite E, map_length. destruct (Nat.ltb_spec (length l) out); [lia|].
  rewrite skipn_map.
  assert (Hcut : uvalue l = uvalue (firstn out l) + W ^ Z.of_nat out * uvalue (skipn out l)) by (apply uvalue_cut; lia).
  pose proof (uvalue_range _ (firstn_words out l Hf)) as Hr0. rewrite firstn_length_le in Hr0 by lia.
  pose proof (uvalue_range other (proj2 Ho)) as Hro.
  assert (0 < 2 ^ ls) by (apply Z.pow_pos_nonneg; lia).
  pose proof (Wpow_pos out) as HP.
  assert (HD2 : 2 ^ ls * uvalue other <= uvalue (skipn out l)).
  { rewrite <- Es in HD. set (P := W ^ Z.of_nat out) in *. clearbody P.
    assert (P * (uvalue (skipn out l) - 2 ^ ls * uvalue other) > - P) by nia. nia. }
  assert (Hlen : (length other <= length (skipn out l))%nat).
  { rewrite skipn_length. destruct (utight_pos other Ho Ht) as [-> | Hbig]; [cbn [length]; lia|].
    pose proof (uvalue_range _ (skipn_words out l Hf)) as Hrs. rewrite skipn_length in Hrs.
    assert (Hm : 1 * uvalue other <= 2 ^ ls * uvalue other) by (apply Z.mul_le_mono_nonneg_r; lia).
    assert (Hlt : W ^ Z.of_nat (length other - 1) < W ^ Z.of_nat (length l - out)).
    { clear - Hm Hbig HD2 Hrs. lia. }
    apply Wpow_lt_inv in Hlt. clear - Hlt. lia. }
  destruct (sub_loop_spec other (proj2 Ho) (skipn out l) (mused m - out) 0 ls false) as (s' & E1 & E2 & E3 & E4).
  - apply skipn_words, Hf.
  - assumption.
  - split; [lia|reflexivity].
  - rewrite skipn_length. lia.
  - rewrite skipn_div by (assumption || lia). destruct (Nat.le_gt_cases out (mused m)).
    + apply Z.div_lt_upper_bound; [assumption|]. rewrite <- Wpow_add. replace (out + (mused m - out))%nat with (mused m) by lia. assumption.
    + replace (mused m - out)%nat with 0%nat by lia. change (W ^ Z.of_nat 0) with 1.
      rewrite Z.div_small; [lia|]. pose proof (uvalue_range l Hf).
      assert (W ^ Z.of_nat (mused m) <= W ^ Z.of_nat out) by (apply Wpow_le; lia). lia.
  - assumption.
  - cbn [b2z]. destruct (0 <? ls); rewrite ?Z.div_0_l by (apply Z.pow_nonzero; lia); lia.
  - rewrite E1. cbn [rbind]. rewrite firstn_map, <- map_app.
    assert (Z0 : (if 0 <? ls then 0 / 2 ^ (64 - ls) else 0) = 0).
    { destruct (0 <? ls); [|reflexivity]. apply Z.div_0_l, Z.pow_nonzero; lia. }
    rewrite Z0 in E4. cbn [b2z] in E4.
    set (l' := firstn out l ++ s').
    assert (L' : length l' = length l).
    { unfold l'. rewrite app_length, E3, firstn_length_le, skipn_length by lia. lia. }
    assert (V' : uvalue l' = uvalue l - uvalue other * 2 ^ s).
    { unfold l'. rewrite uvalue_app, firstn_length_le, E4, Hcut, <- Es by lia. ring. }
    destruct (mtrim_spec (Mem (map Some l') (mused m)) l') as (m' & M1 & M2 & M3).
    { repeat split; cbn [cells mused]; try lia.
      { unfold l'. apply Forall_app. split; [apply firstn_words, Hf|assumption]. } }
    exists m', l'. auto.
Qed.

(** ** AddLeftShifted *)
Definition upd (l : list Z) (i : nat) (r : Z) : list Z := firstn i l ++ r :: skipn (S i) l.

Lemma upd_spec l i r : Forall is_word l -> (i < length l)%nat -> is_word r ->
  Forall is_word (upd l i r) /\ length (upd l i r) = length l /\
  uvalue (upd l i r) = uvalue l + W ^ Z.of_nat i * (r - nth i l 0) /\
  (forall u, (i < u)%nat -> uvalue l < W ^ Z.of_nat u -> uvalue (upd l i r) < W ^ Z.of_nat u).
Proof.
  intros Hf Hi Hr. unfold upd. split.
  { apply Forall_app. split; [apply firstn_words, Hf|]. constructor; [assumption|apply skipn_words, Hf]. }
  split. { rewrite app_length. cbn [length]. rewrite firstn_length_le, skipn_length by lia. lia. }
  assert (E : uvalue (firstn i l ++ r :: skipn (S i) l) =
    uvalue (firstn i l) + W ^ Z.of_nat i * (r + W * uvalue (skipn (S i) l))).
  { rewrite uvalue_app, firstn_length_le, uvalue_cons by lia. reflexivity. }
  split.
  - rewrite E, (uvalue_cut i l) by lia.
    assert (Es : skipn i l = nth i l 0 :: skipn (S i) l).
    { clear - Hi. revert i Hi. induction l as [|x l IH]; intros [|i] Hi; cbn in *; try lia; [reflexivity|].
      apply IH. lia. }
    rewrite Es, uvalue_cons. ring.
  - intros u Hu Hv. rewrite E.
    pose proof (uvalue_range _ (firstn_words i l Hf)) as H0. rewrite firstn_length_le in H0 by lia.
    assert (H1 : uvalue (skipn (S i) l) < W ^ Z.of_nat (u - S i)).
    { rewrite skipn_div by (assumption || lia). apply Z.div_lt_upper_bound; [apply Wpow_pos|].
      rewrite <- Wpow_add. replace (S i + (u - S i))%nat with u by lia. assumption. }
    assert (Eu : W ^ Z.of_nat u = W ^ Z.of_nat i * (W * W ^ Z.of_nat (u - S i))).
    { rewrite <- Wpow_S, <- Wpow_add. do 2 f_equal. lia. }
    rewrite Eu. apply word_range in Hr. pose proof (Wpow_pos i) as HP.
    assert (H2 : r + W * uvalue (skipn (S i) l) <= W * W ^ Z.of_nat (u - S i) - 1).
    { assert (W * uvalue (skipn (S i) l) <= W * (W ^ Z.of_nat (u - S i) - 1)) by (apply Z.mul_le_mono_nonneg_l; [pose proof W_pos; lia|lia]). lia. }
    set (A := r + W * uvalue (skipn (S i) l)) in *. set (B := W * W ^ Z.of_nat (u - S i)) in *. set (P := W ^ Z.of_nat i) in *.
    assert (P * A <= P * (B - 1)) by (apply Z.mul_le_mono_nonneg_l; lia). lia.
Qed.
Lemma set_cell_map m l i r : cells m = map Some l -> (i < length l)%nat ->
  cells (set_cell m i r) = map Some (upd l i r) /\ mused (set_cell m i r) = mused m.
Proof.
  intros E Hi. unfold set_cell, upd. cbn [cells mused]. rewrite E, map_app, firstn_map. cbn [map]. rewrite skipn_map. auto.
Qed.

Lemma resize_within m l n : cells m = map Some l -> (n <= length l)%nat -> resize m n = Mem (map Some l) n.
Proof. intros E H. unfold resize. rewrite E, map_length. destruct (Nat.ltb_spec (length l) n); [lia|reflexivity]. Qed.

Lemma carry_loop_spec fuel : forall m l pos c, cells m = map Some l -> Forall is_word l ->
  (1 <= mused m <= length l)%nat -> uvalue l < W ^ Z.of_nat (mused m) ->
  uvalue l + W ^ Z.of_nat pos * b2z c < W ^ Z.of_nat (length l) ->
  (length l <= fuel + pos)%nat ->
  exists m' pos' l', carry_loop fuel false m pos c = Ok (m', pos') /\ clean m' l' /\ length l' = length l /\
    uvalue l' = uvalue l + W ^ Z.of_nat pos * b2z c.
Proof.
  induction fuel as [|fuel IH]; intros m l pos c E Hf Hn Hv Hc Hfuel; destruct c; cbn [b2z] in *.
  - exfalso. rewrite Z.mul_1_r in Hc. pose proof (uvalue_range l Hf).
    assert (W ^ Z.of_nat pos < W ^ Z.of_nat (length l)) by lia. apply Wpow_lt_inv in H0. lia.
  - exists m, pos, l. rewrite Z.mul_0_r, Z.add_0_r in *. repeat split; auto; lia.
  - rewrite Z.mul_1_r in *. pose proof (uvalue_range l Hf) as Hr.
    assert (Hp : (pos < length l)%nat) by (apply Wpow_lt_inv; lia).
    cbn [carry_loop]. rewrite (resize_within m l) by (assumption || lia).
    rewrite (rd_ok _ l) by (reflexivity || assumption). cbn [rbind].
    destruct (wadd_carry (nth pos l 0) true) as [r c'] eqn:Ea.
    destruct (wadd_carry_spec _ _ _ _ (nth_word l pos Hf) Ea) as [Hrw Er]. cbn [b2z] in Er.
    set (u1 := Nat.max (mused m) (pos + 1)).
    destruct (set_cell_map (Mem (map Some l) u1) l pos r eq_refl Hp) as [S1 S2].
    destruct (upd_spec l pos r Hf Hp Hrw) as (U1 & U2 & U3 & U4).
    destruct (IH (set_cell (Mem (map Some l) u1) pos r) (upd l pos r) (S pos) c') as (m' & pos' & l' & R1 & R2 & R3 & R4).
    + exact S1.
    + exact U1.
    + rewrite S2, U2. cbn [mused]. unfold u1. lia.
    + rewrite S2. cbn [mused]. apply U4; [unfold u1; lia|].
      pose proof (Wpow_le (mused m) u1 ltac:(unfold u1; lia)). lia.
    + rewrite U3, U2, Wpow_S. replace (r - nth pos l 0) with (1 - W * b2z c') by lia.
      match goal with |- ?x < _ => replace x with (uvalue l + W ^ Z.of_nat pos) by ring end. assumption.
    + rewrite U2. lia.
    + exists m', pos', l'. split; [exact R1|]. split; [exact R2|]. split; [congruence|].
      rewrite R4, U3, Wpow_S. replace (r - nth pos l 0) with (1 - W * b2z c') by lia. ring.
  - exists m, pos, l. rewrite Z.mul_0_r, Z.add_0_r in *. cbn [carry_loop]. repeat split; auto; lia.
Qed.

Lemma fill_app x : forall y n v, (n <= length y)%nat ->
  fill (x ++ y) (length x) n v = x ++ repeat (Some v) n ++ skipn n y.
Proof.
  induction x as [|c x IH]; intros y n v Hn; cbn [app length fill].
  - revert n Hn. induction y as [|c y IHy]; intros [|n] Hn; cbn in *; try lia; try reflexivity.
    rewrite IHy by lia. reflexivity.
  - rewrite IH by assumption. reflexivity.
Qed.

Lemma fill_at x y k n v : length x = k -> (n <= length y)%nat ->
  fill (x ++ y) k n v = x ++ repeat (Some v) n ++ skipn n y.
Proof. intros <-. apply fill_app. Qed.

Lemma repeat_map {A B} (f : A -> B) x n : map f (repeat x n) = repeat (f x) n.
Proof. induction n; [reflexivity|]. cbn. f_equal. assumption. Qed.
Lemma repeat_skipn {A} (x : A) n k : skipn n (repeat x k) = repeat x (k - n).
Proof. revert n. induction k as [|k IH]; intros [|n]; cbn; auto. Qed.

Lemma resize_init_spec m l need : clean m l ->
  exists l1, resize_init m (Nat.max (mused m) need) 0 = Mem (map Some l1) (Nat.max (mused m) need) /\
    Forall is_word l1 /\ length l1 = Nat.max (length l) need /\ uvalue l1 = uvalue l.
Proof.
  intros (E & Hf & Hn & Hv). set (u := mused m) in *. set (n := Nat.max u need).
  exists (firstn u l ++ repeat 0 (Nat.max (length l) need - u)).
  assert (L : length (firstn u l) = u) by (apply firstn_length_le; lia).
  assert (V : uvalue (firstn u l) = uvalue l) by (apply uvalue_small_skip; (assumption || lia)).
  split; [|split; [|split]].
  - unfold resize_init. rewrite E, map_length. fold u. fold n. f_equal; [|unfold n; lia].
    destruct (Nat.ltb_spec (length l) n) as [Hlt|Hge].
    + rewrite firstn_map. rewrite <- (map_length Some) in L.
      rewrite fill_at by (try rewrite repeat_length; (exact L || lia)).
      rewrite repeat_skipn, Nat.sub_diag. cbn [repeat]. rewrite app_nil_r, map_app, repeat_map.
      do 3 f_equal. unfold n in *. lia.
    + rewrite (small_split u l) at 1 by (assumption || lia). rewrite map_app, repeat_map.
      rewrite <- (map_length Some) in L. rewrite fill_at by (try rewrite repeat_length; (exact L || (unfold n in *; lia))).
      rewrite repeat_skipn. rewrite map_app, repeat_map, <- repeat_app. do 2 f_equal. unfold n in *. lia.
  - apply Forall_app. split; [apply firstn_words, Hf|apply repeat0_words].
  - rewrite app_length, L, repeat_length. lia.
  - rewrite uvalue_app, uvalue_zeros, V. lia.
Qed.

Definition als_need (s : Z) : nat := (Z.to_nat (s / 64) + 1 + (if (s mod 64 =? 0)%Z then 0 else 1))%nat.
Lemma add_left_shifted_spec m l add s : clean m l -> is_word add -> 0 <= s ->
  uvalue l + add * 2 ^ s < W ^ Z.of_nat (Nat.max (length l) (als_need s)) ->
  exists m' l', add_left_shifted false m add s = Ok m' /\ clean m' l' /\ trimmed m' l' /\
    length l' = Nat.max (length l) (als_need s) /\ uvalue l' = uvalue l + add * 2 ^ s.
Proof.
  intros Hc Ha Hs Hb. pose proof Hc as (E & Hf & Hn & Hv).
  unfold add_left_shifted, bits_per_word. fold (als_need s).
  destruct (resize_init_spec m l (als_need s) Hc) as (l1 & R1 & R2 & R3 & R4). rewrite R1.
  set (u := Nat.max (mused m) (als_need s)) in *.
  pose proof (shift_split s Hs) as Es. pose proof (Z.mod_pos_bound s 64 ltac:(lia)) as Hls.
  unfold als_need in *. set (pos := Z.to_nat (s / 64)) in *. set (ls := s mod 64) in *.
  assert (Hp : (pos < length l1)%nat) by (clear - R3; lia).
  assert (Hul : (1 <= u <= length l1)%nat) by (clear - R3 Hn; unfold u; lia).
  assert (Hup : (pos < u)%nat) by (clear; unfold u; lia).
  assert (Hmu : (mused m <= u)%nat) by (clear; unfold u; lia).
  assert (Hup1 : ls <> 0 -> (S pos < u)%nat) by (clear; unfold u; destruct (Z.eqb_spec ls 0); lia).
  rewrite (rd_ok _ l1) by (reflexivity || assumption). cbn [rbind].
  destruct (shifted_word_step add 0 ls Ha ltac:(split; [lia|reflexivity]) Hls) as [_ Hsplit0].
  assert (Hsplit : wshl add ls + W * (add / 2 ^ (64 - ls)) = 2 ^ ls * add).
  { rewrite shl_split by (assumption || lia). rewrite (Wsplit ls) by lia.
    pose proof (Z.div_mod add (2 ^ (64 - ls)) ltac:(apply Z.pow_nonzero; lia)) as D.
    set (q := add / 2 ^ (64 - ls)) in *. set (r := add mod 2 ^ (64 - ls)) in *. clearbody q r. rewrite D. ring. }
  clear Hsplit0.
  assert (Hwsh : is_word (wshl add ls)) by apply wrap_word.
  destruct (add_overflow (nth pos l1 0) (wshl add ls)) as [r c] eqn:Ea.
  assert (Hadd : is_word r /\ nth pos l1 0 + wshl add ls = r + W * b2z c).
  { assert (E0 : wadd_c (nth pos l1 0) (wshl add ls) false = (r, c)).
    { unfold wadd_c. rewrite Ea. unfold add_overflow. cbn [b2z]. rewrite Z.add_0_r.
      unfold add_overflow in Ea. injection Ea as <- <-. f_equal; [apply wrap_small, wrap_word|].
      pose proof (wrap_word (nth pos l1 0 + wshl add ls)) as Hw. apply word_range in Hw.
      destruct (Z.leb_spec W (wrap (nth pos l1 0 + wshl add ls))); [lia|]. apply orb_false_r. }
    destruct (wadd_c_spec _ _ _ _ _ (nth_word l1 pos R2) Hwsh E0) as [A B]. cbn [b2z] in B. split; [assumption|clear - B; lia]. }
  destruct Hadd as [Hr Er].
  destruct (set_cell_map (Mem (map Some l1) u) l1 pos r eq_refl Hp) as [S1 S2].
  destruct (upd_spec l1 pos r R2 Hp Hr) as (U1 & U2 & U3 & U4).
  set (m2 := set_cell (Mem (map Some l1) u) pos r) in *. cbn [mused] in S2.
  assert (Hu : uvalue l1 < W ^ Z.of_nat u) by (pose proof (Wpow_le (mused m) u Hmu) as HH; clear - HH Hv R4; lia).
  assert (Finish : forall m3 l3 pos3 c3, cells m3 = map Some l3 -> Forall is_word l3 -> (1 <= mused m3 <= length l3)%nat ->
     uvalue l3 < W ^ Z.of_nat (mused m3) -> length l3 = length l1 ->
     uvalue l3 + W ^ Z.of_nat pos3 * b2z c3 = uvalue l + add * 2 ^ s ->
     exists m' l', (mp <- carry_loop (S (length (cells m3))) false m3 pos3 c3 ;;
       (let '(m4, pos4) := mp in _ <- check false (Nat.eqb (mused m4) (Nat.max (mused m) pos4)) ;; mtrim m4)) = Ok m' /\
       clean m' l' /\ trimmed m' l' /\ length l' = length l1 /\ uvalue l' = uvalue l + add * 2 ^ s).
  { intros m3 l3 pos3 c3 F1 F2 F3 F4 F5 F6.
    destruct (carry_loop_spec (S (length (cells m3))) m3 l3 pos3 c3 F1 F2 F3 F4) as (m4 & pos4 & l4 & G1 & G2 & G3 & G4).
    - rewrite F6, F5, R3. assumption.
    - rewrite F1, map_length. lia.
    - rewrite G1. unfold check. cbn [rbind andb]. destruct (mtrim_spec m4 l4 G2) as (m' & T1 & T2 & T3).
      exists m', l4. split; [exact T1|]. split; [exact T2|]. split; [exact T3|]. split; [congruence|]. rewrite G4. assumption. }
  rewrite <- R3. destruct (Z.eqb_spec ls 0) as [Z0|NZ].
  - cbn [rbind]. apply (Finish m2 (upd l1 pos r)).
    + exact S1.
    + exact U1.
    + rewrite S2, U2. exact Hul.
    + rewrite S2. apply U4; [exact Hup|assumption].
    + exact U2.
    + rewrite U3, R4, Wpow_S, <- Es. rewrite Z0 in *. change (64 - 0) with 64 in Hsplit.
      rewrite (Z.div_small add) in Hsplit by exact Ha. change (2 ^ 0) with 1 in *.
      replace (r - nth pos l1 0) with (add - W * b2z c) by (clear - Er Hsplit; lia). ring.
  - specialize (Hup1 NZ).
    assert (Hp1 : (S pos < length (upd l1 pos r))%nat) by (clear - U2 Hup1 Hul; lia).
    rewrite (rd_ok _ (upd l1 pos r)) by assumption. cbn [rbind].
    destruct (wadd_c (nth (S pos) (upd l1 pos r) 0) (wshr add (64 - ls)) c) as [r' c'] eqn:Ea'.
    assert (Hsh : wshr add (64 - ls) = add / 2 ^ (64 - ls)) by (unfold wshr; apply Z.shiftr_div_pow2; lia).
    assert (Hshw : is_word (wshr add (64 - ls))).
    { pose proof (shr_range add (64 - ls) Ha ltac:(lia)) as Hx. replace (64 - (64 - ls)) with ls in Hx by lia.
      assert (Hy : 2 ^ ls < 2 ^ 64) by (clear - Hls; apply Z.pow_lt_mono_r; lia). clear - Hx Hy. split; lia. }
    destruct (wadd_c_spec _ _ _ _ _ (nth_word _ _ U1) Hshw Ea') as [Hr' Er']. rewrite Hsh in Er'.
    destruct (set_cell_map m2 (upd l1 pos r) (S pos) r' S1 Hp1) as [S1' S2'].
    destruct (upd_spec (upd l1 pos r) (S pos) r' U1 Hp1 Hr') as (U1' & U2' & U3' & U4').
    cbn [rbind]. apply (Finish (set_cell m2 (S pos) r') (upd (upd l1 pos r) (S pos) r')).
    + exact S1'.
    + exact U1'.
    + rewrite S2', S2, U2', U2. exact Hul.
    + rewrite S2', S2. apply U4'; [exact Hup1|]. apply U4; [exact Hup|assumption].
    + congruence.
    + rewrite U3', U3, R4, !Wpow_S, <- Es.
      replace (r' - nth (S pos) (upd l1 pos r) 0) with (add / 2 ^ (64 - ls) + b2z c - W * b2z c') by (clear - Er'; lia).
      replace (r - nth pos l1 0) with (wshl add ls - W * b2z c) by (clear - Er; lia).
      replace (add * (W ^ Z.of_nat pos * 2 ^ ls)) with (W ^ Z.of_nat pos * (wshl add ls + W * (add / 2 ^ (64 - ls)))) by (rewrite Hsplit; ring).
      ring.
Qed.
