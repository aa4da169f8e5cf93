(** Shifts, comparisons, signs, hash and extreme values of the [BigInt] model. *)
From Coq Require Import ZArith List Bool Lia ZifyBool.
From Verif Require Import WordModel BigIntSpec WordProofs BigIntModel BigIntProofs BigIntMulProofs.
Import ListNotations.
Open Scope Z_scope.

(** ** Shift left *)
Lemma shl_loop_ne ws prev ls rs : shl_loop ws prev ls rs <> [].
Proof. destruct ws; discriminate. Qed.

Lemma Wsplit s : 0 <= s <= 64 -> W = 2 ^ (64 - s) * 2 ^ s.
Proof. intros. change W with (2 ^ 64). rewrite <- Z.pow_add_r by lia. f_equal; lia. Qed.

Lemma shl_loop_spec s ws : 0 < s < 64 -> Forall is_word ws -> forall prev, is_word prev ->
  Forall is_word (shl_loop ws prev s (64 - s)) /\
  value (shl_loop ws prev s (64 - s)) =
    match ws with [] => sgn prev / 2 ^ (64 - s) | _ => prev / 2 ^ (64 - s) + 2 ^ s * value ws end.
Proof.
  intros Hs. induction ws as [|w ws IH]; intros Hf prev Hp; cbn [shl_loop].
  - split; [repeat constructor; apply wrap_word|]. rewrite value_single.
    rewrite Z.shiftr_div_pow2 by lia. apply sgn_wrap_id.
    pose proof (sgn_range prev Hp). assert (1 < 2 ^ (64 - s)) by (apply Z.pow_gt_1; lia).
    set (d := 2 ^ (64 - s)) in *. clearbody d. assert (0 < HW) by reflexivity.
    generalize dependent HW. intros h Hh Hpos. split.
    + apply Z.div_le_lower_bound; nia.
    + apply Z.div_lt_upper_bound; nia.
  - inversion Hf as [|? ? Hw Hf']; subst. destruct (IH Hf' w Hw) as [I1 I2].
    split. { constructor; [apply join_word; assumption|assumption]. }
    rewrite value_cons by apply shl_loop_ne. rewrite I2, join_words by assumption.
    pose proof (Wsplit s ltac:(lia)) as E.
    assert (Hd : 0 < 2 ^ (64 - s)) by (apply Z.pow_pos_nonneg; lia).
    pose proof (Z.div_mod w (2 ^ (64 - s)) ltac:(lia)) as Edm.
    destruct ws as [|x ws].
    + rewrite value_single. unfold sgn. destruct (w <? HW).
      * rewrite E. rewrite Edm at 3. ring.
      * replace (w - W) with (w + (- 2 ^ s) * 2 ^ (64 - s)) by (rewrite E; ring).
        rewrite Z.div_add by lia. rewrite E.
        transitivity (prev / 2 ^ (64 - s) + 2 ^ s * (2 ^ (64 - s) * (w / 2 ^ (64 - s)) + w mod 2 ^ (64 - s) - 2 ^ s * 2 ^ (64 - s))).
        { ring. } rewrite <- Edm. ring.
    + rewrite (value_cons w) by discriminate. rewrite E. 
      transitivity (prev / 2 ^ (64 - s) + 2 ^ s * (2 ^ (64 - s) * (w / 2 ^ (64 - s)) + w mod 2 ^ (64 - s) + 2 ^ (64 - s) * 2 ^ s * value (x :: ws))).
      { ring. } rewrite <- Edm. ring.
Qed.

Lemma repeat0_words n : Forall is_word (repeat 0 n).
Proof. induction n; constructor; [wsimp; lia|assumption]. Qed.
Lemma value_zeros_app n l : l <> [] -> value (repeat 0 n ++ l) = W ^ Z.of_nat n * value l.
Proof.
  intros Hl. induction n as [|n IH]; [cbn [repeat app]; change (W ^ Z.of_nat 0) with 1; lia|].
  cbn [repeat app]. rewrite value_cons by (destruct n; [assumption|discriminate]).
  rewrite IH, Wpow_S. ring.
Qed.
Lemma shift_split s : 0 <= s -> W ^ Z.of_nat (Z.to_nat (s / 64)) * 2 ^ (s mod 64) = 2 ^ s.
Proof.
  intros Hs. pose proof (Z.div_pos s 64 Hs ltac:(lia)). pose proof (Z.mod_pos_bound s 64 ltac:(lia)).
  rewrite Z2Nat.id by assumption. change W with (2 ^ 64). rewrite <- Z.pow_mul_r by lia.
  rewrite <- Z.pow_add_r by lia. f_equal. rewrite <- Z.div_mod by lia. reflexivity.
Qed.

Lemma shl_slow_spec a s : wf a -> 0 <= s ->
  let out := Z.to_nat (s / bits_per_word) in
  let ls := s mod bits_per_word in
  let r := if 0 <? ls then trim (repeat 0 out ++ shl_loop a 0 ls (bits_per_word - ls))
           else trim (repeat 0 out ++ a) in
  canonical r /\ value r = value a * 2 ^ s.
Proof.
  intros Ha Hs. unfold bits_per_word. cbn zeta.
  pose proof (Z.mod_pos_bound s 64 ltac:(lia)) as Hm. pose proof (shift_split s Hs) as E.
  destruct (Z.ltb_spec 0 (s mod 64)).
  - destruct (shl_loop_spec (s mod 64) a ltac:(lia) (proj2 Ha) 0 ltac:(wsimp; lia)) as [H1 H2].
    match goal with |- canonical (trim ?x) /\ _ => destruct (trim_canonical x) as [Hc Hv] end.
    { split; [|apply Forall_app; split; [apply repeat0_words|assumption]].
      intros C. apply app_eq_nil in C as [_ C]. exact (shl_loop_ne _ _ _ _ C). }
    split; [assumption|]. rewrite Hv, value_zeros_app by apply shl_loop_ne. rewrite H2.
    destruct a as [|x a]; [destruct Ha; congruence|]. rewrite Z.div_0_l by (apply Z.pow_nonzero; lia).
    rewrite <- E. ring.
  - assert (E0 : s mod 64 = 0) by lia. rewrite E0, Z.pow_0_r in E.
    destruct Ha as [Hn Hf].
    match goal with |- canonical (trim ?x) /\ _ => destruct (trim_canonical x) as [Hc Hv] end.
    { split; [|apply Forall_app; split; [apply repeat0_words|assumption]].
      intros C. apply app_eq_nil in C as [_ C]. exact (Hn C). }
    split; [assumption|]. rewrite Hv, value_zeros_app by assumption. rewrite <- E. ring.
Qed.

Lemma sgn_mod w : exists k, sgn w = w + W * k.
Proof. unfold sgn. destruct (w <? HW); [exists 0|exists (-1)]; ring. Qed.
Lemma wrap_mod x : exists k, wrap x = x + W * k.
Proof. exists (- (x / W)). unfold wrap. rewrite Z.mod_eq by (unfold W; lia). ring. Qed.

Lemma shl_spec a s : wf a -> 0 <= s -> canonical (shl a s) /\ value (shl a s) = value a * 2 ^ s.
Proof.
  intros Ha Hs. unfold shl. pose proof (shl_slow_spec a s Ha Hs) as Hslow. cbn zeta in Hslow.
  destruct ((extra_size a =? 0) && (s <? bits_per_word)) eqn:E; [|exact Hslow].
  destruct (Z.shiftr (sgn (wshl (first a) s)) s =? sgn (first a)) eqn:E2; [|exact Hslow].
  apply andb_prop in E as [E E1]. unfold bits_per_word in E1. unfold extra_size in E.
  destruct a as [|w [|? ?]]; [destruct Ha; congruence| |cbn [length] in E; lia].
  cbn [first hd] in *. pose proof (wf_first _ Ha) as Hw. cbn in Hw.
  pose proof (sgn_range _ (wrap_word (Z.shiftl w s))) as Hr.
  destruct (of_int_canonical (sgn (wshl w s)) Hr) as [Hc Hv]. split; [assumption|]. rewrite Hv, value_single.
  apply Z.eqb_eq in E2. rewrite Z.shiftr_div_pow2 in E2 by lia.
  destruct (sgn_mod (wshl w s)) as [k Ek]. unfold wshl in Ek. destruct (wrap_mod (Z.shiftl w s)) as [k' Ek'].
  rewrite Z.shiftl_mul_pow2 in Ek, Ek' by lia.
  assert (Hd : 0 < 2 ^ s) by (apply Z.pow_pos_nonneg; lia).
  rewrite <- E2. unfold wshl. rewrite Z.shiftl_mul_pow2 by lia. rewrite Ek, Ek'.
  rewrite (Wsplit s) by lia.
  replace (w * 2 ^ s + 2 ^ (64 - s) * 2 ^ s * k' + 2 ^ (64 - s) * 2 ^ s * k)
    with ((w + 2 ^ (64 - s) * k' + 2 ^ (64 - s) * k) * 2 ^ s) by ring.
  rewrite Z.div_mul by lia. reflexivity.
Qed.

(** ** Comparisons *)
Lemma value_len_lt a b : canonical a -> canonical b -> (length a < length b)%nat ->
  if value b <? 0 then value b < value a else value a < value b.
Proof.
  intros Ha Hb Hl.
  assert (La : (1 <= length a)%nat) by (destruct Ha as [[Hn _] _]; destruct a; [congruence|cbn; lia]).
  pose proof (value_range a (proj1 Ha)) as Ra.
  pose proof (tight_range b (proj1 Hb) (canonical_tight b Hb) ltac:(lia)) as Rb.
  assert (W ^ Z.of_nat (length a - 1) <= W ^ Z.of_nat (length b - 2))
    by (apply Z.pow_le_mono_r; [exact W_pos|lia]).
  assert (0 < HW) by reflexivity.
  assert (HW * W ^ Z.of_nat (length a - 1) <= HW * W ^ Z.of_nat (length b - 2))
    by (apply Z.mul_le_mono_nonneg_l; lia).
  pose proof (Wpow_pos (length a - 1)). assert (0 < HW * W ^ Z.of_nat (length a - 1)) by nia.
  generalize dependent (HW * W ^ Z.of_nat (length a - 1)). intros A; intros.
  generalize dependent (HW * W ^ Z.of_nat (length b - 2)). intros B; intros.
  destruct (Z.ltb_spec (value b) 0); lia.
Qed.

Lemma value_cmp_top l m w v : Forall is_word l -> Forall is_word m -> length l = length m ->
  (value (l ++ [w]) ?= value (m ++ [v])) =
  match sgn w ?= sgn v with Eq => uvalue l ?= uvalue m | c => c end.
Proof.
  intros Hl Hm E. rewrite !value_snoc, <- E.
  pose proof (uvalue_range l Hl). pose proof (uvalue_range m Hm). rewrite <- E in *.
  set (p := W ^ Z.of_nat (length l)) in *. clearbody p.
  destruct (Z.compare_spec (sgn w) (sgn v)) as [-> | Hlt | Hgt].
  - destruct (Z.compare_spec (uvalue l) (uvalue m)) as [-> | |].
    + apply Z.compare_refl.
    + apply Z.compare_lt_iff. lia.
    + apply Z.compare_gt_iff. lia.
  - apply Z.compare_lt_iff. nia.
  - apply Z.compare_gt_iff. nia.
Qed.

Lemma uvalue_rev_cons x l : uvalue (rev (x :: l)) = uvalue (rev l) + W ^ Z.of_nat (length l) * x.
Proof. cbn [rev]. rewrite uvalue_app, rev_length. cbn [uvalue]. ring. Qed.

Lemma uvalue_cmp_down x l y m : Forall is_word l -> Forall is_word m -> length l = length m ->
  (uvalue (rev (x :: l)) ?= uvalue (rev (y :: m))) =
  match x ?= y with Eq => uvalue (rev l) ?= uvalue (rev m) | c => c end.
Proof.
  intros Hl Hm E. rewrite !uvalue_rev_cons, <- E.
  pose proof (uvalue_range _ (Forall_rev Hl)). pose proof (uvalue_range _ (Forall_rev Hm)).
  rewrite rev_length in *. rewrite <- E in *. set (p := W ^ Z.of_nat (length l)) in *. clearbody p.
  destruct (Z.compare_spec x y) as [-> | Hlt | Hgt].
  - destruct (Z.compare_spec (uvalue (rev l)) (uvalue (rev m))) as [-> | |].
    + apply Z.compare_refl.
    + apply Z.compare_lt_iff. lia.
    + apply Z.compare_gt_iff. lia.
  - apply Z.compare_lt_iff. nia.
  - apply Z.compare_gt_iff. nia.
Qed.

Definition zcmp (c : comparison) : Z := match c with Lt => -1 | Eq => 0 | Gt => 1 end.

Lemma cmp_down_spec a : forall b, Forall is_word a -> Forall is_word b -> length a = length b ->
  cmp_down a b = zcmp (uvalue (rev a) ?= uvalue (rev b)).
Proof.
  induction a as [|x a IH]; intros [|y b] Ha Hb El; try discriminate; [reflexivity|].
  inversion Ha; inversion Hb; subst. injection El as El.
  rewrite uvalue_cmp_down by assumption. cbn [cmp_down].
  destruct (Z.compare_spec x y) as [-> | Hlt | Hgt].
  - rewrite Z.ltb_irrefl. apply IH; assumption.
  - destruct (Z.ltb_spec y x); [lia|]. destruct (Z.ltb_spec x y); [reflexivity|lia].
  - destruct (Z.ltb_spec y x); [reflexivity|lia].
Qed.

Lemma lor_1_mask m : m = 0 \/ m = -1 -> Z.lor m 1 = if m =? 0 then 1 else -1.
Proof. intros [-> | ->]; reflexivity. Qed.

Lemma tail_rev_snoc (l : list Z) w : tl (rev (l ++ [w])) = rev l.
Proof. rewrite rev_app_distr. reflexivity. Qed.

Lemma sext_m a : wf a -> sgn (wsign_ext (top a)) = if value a <? 0 then -1 else 0.
Proof. intros H. rewrite <- sext_sign by assumption. apply sign_ext_s_eq, H. Qed.

Lemma used_lt a b : (used a <? used b) = (length a <? length b)%nat.
Proof. unfold used. destruct (Nat.ltb_spec (length a) (length b)); lia. Qed.
Lemma used_eq a b : (used a =? used b) = (length a =? length b)%nat.
Proof. unfold used. destruct (Nat.eqb_spec (length a) (length b)); lia. Qed.

Lemma compare_spec a b : canonical a -> canonical b -> compare a b = zcmp (value a ?= value b).
Proof.
  intros Ha Hb. unfold compare. rewrite !used_lt.
  destruct (Nat.ltb_spec (length a) (length b)) as [Hl|Hl].
  - rewrite (sext_m b (proj1 Hb)). pose proof (value_len_lt a b Ha Hb Hl) as H.
    destruct (value b <? 0).
    + rewrite (proj2 (Z.compare_gt_iff _ _) H). reflexivity.
    + rewrite (proj2 (Z.compare_lt_iff _ _) H). reflexivity.
  - destruct (Nat.ltb_spec (length b) (length a)) as [Hl'|Hl'].
    + rewrite (sext_m a (proj1 Ha)). pose proof (value_len_lt b a Hb Ha Hl') as H.
      destruct (value a <? 0).
      * rewrite (proj2 (Z.compare_lt_iff _ _) H). reflexivity.
      * rewrite (proj2 (Z.compare_gt_iff _ _) H). reflexivity.
    + assert (El : length a = length b) by lia.
      destruct Ha as [[Hna Hfa] _], Hb as [[Hnb Hfb] _].
      destruct (snoc_case a Hna) as (l & w & ->). destruct (snoc_case b Hnb) as (m & v & ->).
      rewrite !app_length in El. apply Forall_app in Hfa as [Hfl Hfw]. apply Forall_app in Hfb as [Hfm Hfv].
      inversion Hfw as [|? ? Hw _]; inversion Hfv as [|? ? Hv _]; subst.
      rewrite value_cmp_top by (try assumption; cbn in El; lia).
      rewrite !top_snoc, !tail_rev_snoc.
      destruct (Z.eqb_spec w v) as [-> | N]; cbn [negb].
      * rewrite Z.compare_refl. rewrite cmp_down_spec; [rewrite !rev_involutive; reflexivity| | |].
        -- apply Forall_rev; assumption.
        -- apply Forall_rev; assumption.
        -- rewrite !rev_length. cbn in El. lia.
      * destruct (Z.compare_spec (sgn w) (sgn v)) as [E | Hlt | Hgt].
        -- exfalso. apply N, sgn_inj; assumption.
        -- destruct (Z.ltb_spec (sgn v) (sgn w)); [lia|reflexivity].
        -- destruct (Z.ltb_spec (sgn v) (sgn w)); [reflexivity|lia].
Qed.

(** Relational operators. *)
Definition flipc (neg : bool) (c : comparison) : comparison := if neg then CompOpp c else c.

Lemma rel_down_spec neg (lt fin : Z -> Z -> bool) (final : comparison -> bool) a :
  (forall x y, lt x y = match flipc neg (x ?= y) with Lt => true | _ => false end) ->
  (forall x y, fin x y = final (flipc neg (x ?= y))) ->
  final Lt = true -> final Gt = false ->
  forall b, Forall is_word a -> Forall is_word b -> length a = length b -> a <> [] ->
  rel_down lt fin a b = final (flipc neg (uvalue (rev a) ?= uvalue (rev b))).
Proof.
  intros Hlt Hfin FL FG. induction a as [|x a IH]; intros b Ha Hb El Hne; [congruence|].
  destruct b as [|y b]; [discriminate|]. inversion Ha; inversion Hb; subst. injection El as El.
  rewrite uvalue_cmp_down by assumption.
  destruct a as [|x' a].
  - destruct b; [|discriminate]. cbn [rel_down rev uvalue]. rewrite Hfin. destruct (x ?= y); reflexivity.
  - destruct b as [|y' b]; [discriminate|].
    change (rel_down lt fin (x :: x' :: a) (y :: y' :: b)) with
      (if lt x y then true else if lt y x then false else rel_down lt fin (x' :: a) (y' :: b)).
    rewrite !Hlt. rewrite (Z.compare_antisym x y).
    destruct (x ?= y) eqn:C; destruct neg; cbn [flipc CompOpp]; auto;
      apply IH; auto; discriminate.
Qed.

Lemma below_top_snoc l w : below_top (l ++ [w]) = match l with [] => [w] | _ => rev l end.
Proof.
  unfold below_top. rewrite rev_app_distr. cbn [rev app].
  destruct l as [|x l]; [reflexivity|].
  destruct (rev (x :: l)) eqn:E; [|reflexivity].
  exfalso. apply (f_equal (@length Z)) in E. rewrite rev_length in E. discriminate.
Qed.

Lemma rel_op_spec neg (lt fin : Z -> Z -> bool) (final : comparison -> bool) a b :
  (forall x y, lt x y = match flipc neg (x ?= y) with Lt => true | _ => false end) ->
  (forall x y, fin x y = final (flipc neg (x ?= y))) ->
  final Lt = true -> final Gt = false ->
  canonical a -> canonical b ->
  rel_op neg lt fin a b = final (flipc neg (value a ?= value b)).
Proof.
  intros Hlt Hfin FL FG Ha Hb. unfold rel_op. rewrite !used_lt.
  assert (Hsg : forall c, wf c -> (sgn (top c) <? 0) = (value c <? 0)).
  { intros c Hc. rewrite sgn_neg by (apply wf_top, Hc). pose proof (sext_sign c Hc) as H.
    rewrite sext_high in H by assumption. destruct (HW <=? top c), (value c <? 0); congruence. }
  assert (Hsg' : forall c, wf c -> (0 <=? sgn (top c)) = negb (value c <? 0)).
  { intros c Hc. rewrite Z.leb_antisym. rewrite Hsg by assumption. reflexivity. }
  destruct (Nat.ltb_spec (length a) (length b)) as [Hl|Hl].
  - rewrite Hsg, Hsg' by apply Hb. pose proof (value_len_lt a b Ha Hb Hl) as H.
    destruct (value b <? 0).
    + rewrite (proj2 (Z.compare_gt_iff _ _) H). destruct neg; cbn; auto.
    + rewrite (proj2 (Z.compare_lt_iff _ _) H). destruct neg; cbn; auto.
  - destruct (Nat.ltb_spec (length b) (length a)) as [Hl'|Hl'].
    + rewrite Hsg, Hsg' by apply Ha. pose proof (value_len_lt b a Hb Ha Hl') as H.
      destruct (value a <? 0).
      * rewrite (proj2 (Z.compare_lt_iff _ _) H). destruct neg; cbn; auto.
      * rewrite (proj2 (Z.compare_gt_iff _ _) H). destruct neg; cbn; auto.
    + assert (El : length a = length b) by lia.
      destruct Ha as [[Hna Hfa] _], Hb as [[Hnb Hfb] _].
      destruct (snoc_case a Hna) as (l & w & ->). destruct (snoc_case b Hnb) as (m & v & ->).
      rewrite !app_length in El. apply Forall_app in Hfa as [Hfl Hfw]. apply Forall_app in Hfb as [Hfm Hfv].
      inversion Hfw as [|? ? Hw _]; inversion Hfv as [|? ? Hv _]; subst.
      rewrite value_cmp_top by (try assumption; cbn in El; lia).
      rewrite !top_snoc, !below_top_snoc.
      destruct (Z.eqb_spec w v) as [-> | N]; cbn [negb].
      * rewrite Z.compare_refl. destruct l as [|x l].
        { destruct m; [|cbn in El; lia]. cbn [rel_down]. rewrite Hfin, Z.compare_refl. reflexivity. }
        destruct m as [|y m]; [cbn in El; lia|].
        rewrite (rel_down_spec neg lt fin final); auto.
        -- rewrite !rev_involutive. reflexivity.
        -- apply Forall_rev; assumption.
        -- apply Forall_rev; assumption.
        -- rewrite !rev_length. cbn in *. lia.
        -- apply wf_rev_ne. discriminate.
      * destruct (Z.compare_spec (sgn w) (sgn v)) as [E | L | G].
        -- exfalso. apply N, sgn_inj; assumption.
        -- destruct neg; cbn [flipc CompOpp]; [rewrite FG|rewrite FL];
           [destruct (Z.ltb_spec (sgn v) (sgn w)); [lia|reflexivity]
           |destruct (Z.ltb_spec (sgn w) (sgn v)); [reflexivity|lia]].
        -- destruct neg; cbn [flipc CompOpp]; [rewrite FL|rewrite FG];
           [destruct (Z.ltb_spec (sgn v) (sgn w)); [reflexivity|lia]
           |destruct (Z.ltb_spec (sgn w) (sgn v)); [lia|reflexivity]].
Qed.

Lemma ltb_cmp x y : (x <? y) = match x ?= y with Lt => true | _ => false end.
Proof. reflexivity. Qed.
Lemma gtb_cmp x y : (y <? x) = match CompOpp (x ?= y) with Lt => true | _ => false end.
Proof. unfold Z.ltb. rewrite Z.compare_antisym. reflexivity. Qed.

Lemma lt_spec a b : canonical a -> canonical b -> lt a b = (value a <? value b).
Proof.
  intros. unfold lt. rewrite (rel_op_spec false Z.ltb Z.ltb (fun c => match c with Lt => true | _ => false end)); auto.
Qed.
Lemma le_spec a b : canonical a -> canonical b -> le a b = (value a <=? value b).
Proof.
  intros. unfold le. rewrite (rel_op_spec false Z.ltb Z.leb (fun c => match c with Gt => false | _ => true end)); auto.
Qed.
Lemma gt_spec a b : canonical a -> canonical b -> gt a b = (value b <? value a).
Proof.
  intros. unfold gt. rewrite (rel_op_spec true _ _ (fun c => match c with Lt => true | _ => false end)); auto.
  - cbn [flipc]. rewrite <- gtb_cmp. reflexivity.
  - intros. apply gtb_cmp.
  - intros. apply gtb_cmp.
Qed.
Lemma geb_cmp x y : (y <=? x) = match CompOpp (x ?= y) with Gt => false | _ => true end.
Proof. unfold Z.leb. rewrite Z.compare_antisym. reflexivity. Qed.
Lemma ge_spec a b : canonical a -> canonical b -> ge a b = (value b <=? value a).
Proof.
  intros. unfold ge. rewrite (rel_op_spec true _ _ (fun c => match c with Gt => false | _ => true end)); auto.
  - cbn [flipc]. rewrite <- geb_cmp. reflexivity.
  - intros. apply gtb_cmp.
  - intros. apply geb_cmp.
Qed.

(** Overloads taking an int. *)
Lemma single_or_more a : wf a -> (exists w, a = [w] /\ is_word w) \/ (2 <= length a)%nat.
Proof.
  intros [Hn Hf]. destruct a as [|w [|v a]]; [congruence| |].
  - left. exists w. inversion Hf; auto.
  - right. cbn. lia.
Qed.
Lemma used_big a : (2 <= length a)%nat -> (1 <? used a) = true /\ (used a =? 1) = false.
Proof. intros. unfold used. lia. Qed.
Lemma sgn_top_neg c : wf c -> (sgn (top c) <? 0) = (value c <? 0).
Proof.
  intros Hc. rewrite sgn_neg by (apply wf_top, Hc). pose proof (sext_sign c Hc) as H.
  rewrite sext_high in H by assumption. destruct (HW <=? top c), (value c <? 0); congruence.
Qed.
Lemma big_canonical_range a : canonical a -> (2 <= length a)%nat -> value a < - HW \/ HW <= value a.
Proof.
  intros Ha Hl. pose proof (tight_range a (proj1 Ha) (canonical_tight a Ha) Hl) as H.
  pose proof (Wpow_pos (length a - 2)). assert (0 < HW) by reflexivity.
  assert (HW * 1 <= HW * W ^ Z.of_nat (length a - 2)) by (apply Z.mul_le_mono_nonneg_l; lia). lia.
Qed.

Definition int_range (o : Z) : Prop := - 2 ^ 31 <= o < 2 ^ 31.
Lemma int_ops_spec a o : canonical a -> int_range o ->
  lt_int a o = (value a <? o) /\ le_int a o = (value a <=? o) /\
  gt_int a o = (o <? value a) /\ ge_int a o = (o <=? value a) /\ eq_int a o = (value a =? o).
Proof.
  intros Ha Ho. unfold int_range in Ho. change (2 ^ 31) with 2147483648 in Ho.
  unfold lt_int, le_int, gt_int, ge_int, eq_int.
  destruct (single_or_more a (proj1 Ha)) as [(w & -> & Hw) | Hl].
  - cbn [first hd]. rewrite value_single. change (1 <? used [w]) with false. change (used [w] =? 1) with true.
    cbn [andb]. repeat split. apply eq_true_iff_eq. rewrite !Z.eqb_eq. split.
    + intros ->. apply sgn_wrap_id. unfold HW. lia.
    + intros <-. symmetry. apply wrap_sgn, Hw.
  - destruct (used_big a Hl) as [-> ->]. cbn [andb]. pose proof (big_canonical_range a Ha Hl) as H.
    rewrite (Z.leb_antisym (sgn (top a)) 0), sgn_top_neg by apply Ha. unfold HW in H. lia.
Qed.

Lemma words_eq_spec a : forall b, words_eq a b = true <-> a = b.
Proof.
  induction a as [|x a IH]; intros [|y b]; cbn [words_eq]; split; intros H; try congruence; try discriminate.
  - apply andb_prop in H as [H1 H2]. apply Z.eqb_eq in H1. apply IH in H2. congruence.
  - injection H as -> ->. rewrite Z.eqb_refl. apply IH. reflexivity.
Qed.
Lemma words_ne_negb a : forall b, words_ne a b = negb (words_eq a b).
Proof.
  induction a as [|x a IH]; intros [|y b]; cbn [words_ne words_eq]; try reflexivity.
  rewrite IH. destruct (x =? y); reflexivity.
Qed.
Lemma eq_spec a b : eq a b = true <-> a = b.
Proof.
  unfold eq. rewrite used_eq. destruct (Nat.eqb_spec (length a) (length b)) as [E|N]; cbn [negb].
  - rewrite words_eq_spec. split; [|congruence]. intros H.
    rewrite <- (rev_involutive a), <- (rev_involutive b), H. reflexivity.
  - split; [discriminate|]. intros ->. congruence.
Qed.
Lemma ne_negb a b : ne a b = negb (eq a b).
Proof. unfold ne, eq. destruct (used a =? used b); cbn [negb]; [apply words_ne_negb|reflexivity]. Qed.
Lemma eq_value a b : canonical a -> canonical b -> eq a b = (value a =? value b).
Proof.
  intros Ha Hb. apply eq_true_iff_eq. rewrite eq_spec, Z.eqb_eq. split; [congruence|].
  apply canonical_unique; assumption.
Qed.

(** LessThan with a flip. *)
Lemma flip_down_spec flip a : forall b, Forall is_word a -> Forall is_word b -> length a = length b -> a <> [] ->
  flip_down (wrap (0 - b2z flip)) a b =
    if flip then uvalue (rev b) <? uvalue (rev a) else uvalue (rev a) <? uvalue (rev b).
Proof.
  assert (Hx : forall x y, is_word x -> is_word y ->
    (Z.lxor x (wrap (0 - b2z flip)) <? Z.lxor y (wrap (0 - b2z flip))) = if flip then y <? x else x <? y).
  { intros x y Hx Hy. destruct flip; cbn [b2z].
    - change (wrap (0 - 1)) with (W - 1). rewrite !lxor_ones_word by assumption. lia.
    - change (wrap (0 - 0)) with 0. rewrite !Z.lxor_0_r. reflexivity. }
  induction a as [|x a IH]; intros b Ha Hb El Hne; [congruence|].
  destruct b as [|y b]; [discriminate|]. inversion Ha; inversion Hb; subst. injection El as El.
  destruct a as [|x' a].
  - destruct b; [|discriminate]. cbn [flip_down rev app uvalue]. rewrite Hx by assumption. destruct flip; f_equal; ring.
  - destruct b as [|y' b]; [discriminate|].
    change (flip_down (wrap (0 - b2z flip)) (x :: x' :: a) (y :: y' :: b)) with
      (if negb (x =? y) then Z.lxor x (wrap (0 - b2z flip)) <? Z.lxor y (wrap (0 - b2z flip))
       else flip_down (wrap (0 - b2z flip)) (x' :: a) (y' :: b)).
    pose proof (uvalue_cmp_down x (x' :: a) y (y' :: b) ltac:(assumption) ltac:(assumption) El) as C.
    destruct (Z.eqb_spec x y) as [-> | N]; cbn [negb].
    + rewrite IH by (try assumption; discriminate). rewrite Z.compare_refl in C.
      revert C. do 2 match goal with |- context [?u ?= ?v] => destruct (Z.compare_spec u v) end; intros C;
        try discriminate; destruct flip; lia.
    + rewrite Hx by assumption. revert C. do 2 match goal with |- context [?u ?= ?v] => destruct (Z.compare_spec u v) end; intros C;
        try discriminate; try congruence; destruct flip; lia.
Qed.

Lemma lxor_flip x flip : Z.lxor x (0 - b2z flip) = if flip then - x - 1 else x.
Proof. destruct flip; cbn [b2z]; [change (0 - 1) with (-1); rewrite Z.lxor_m1_r; unfold Z.lnot; lia|apply Z.lxor_0_r]. Qed.

Lemma less_than_spec flip a b : canonical a -> canonical b ->
  less_than flip a b = if flip then value b <? value a else value a <? value b.
Proof.
  intros Ha Hb. unfold less_than. rewrite !used_lt, !lxor_flip.
  destruct (Nat.ltb_spec (length a) (length b)) as [Hl|Hl].
  - pose proof (value_len_lt a b Ha Hb Hl) as H. pose proof (sgn_top_neg b (proj1 Hb)) as Hs.
    destruct (value b <? 0); destruct flip; lia.
  - destruct (Nat.ltb_spec (length b) (length a)) as [Hl'|Hl'].
    + pose proof (value_len_lt b a Hb Ha Hl') as H. pose proof (sgn_top_neg a (proj1 Ha)) as Hs.
      destruct (value a <? 0); destruct flip; lia.
    + assert (El : length a = length b) by lia.
      destruct Ha as [[Hna Hfa] _], Hb as [[Hnb Hfb] _].
      destruct (snoc_case a Hna) as (l & w & ->). destruct (snoc_case b Hnb) as (m & v & ->).
      rewrite !app_length in El. apply Forall_app in Hfa as [Hfl Hfw]. apply Forall_app in Hfb as [Hfm Hfv].
      inversion Hfw as [|? ? Hw _]; inversion Hfv as [|? ? Hv _]; subst.
      pose proof (value_cmp_top l m w v Hfl Hfm ltac:(cbn in El; lia)) as C.
      rewrite !top_snoc, !below_top_snoc.
      destruct (Z.eqb_spec w v) as [-> | N]; cbn [negb].
      * rewrite Z.compare_refl in C. destruct l as [|x l].
        { destruct m; [|cbn in El; lia]. cbn [flip_down app]. rewrite !Z.ltb_irrefl. destruct flip; reflexivity. }
        destruct m as [|y m]; [cbn in El; lia|].
        rewrite flip_down_spec; auto.
        -- rewrite !rev_involutive. revert C. do 2 match goal with |- context [?u ?= ?v] => destruct (Z.compare_spec u v) end; intros C;
             try discriminate; destruct flip; lia.
        -- apply Forall_rev; assumption.
        -- apply Forall_rev; assumption.
        -- rewrite !rev_length. cbn in *. lia.
        -- apply wf_rev_ne. discriminate.
      * assert (sgn w <> sgn v) by (intros E; apply N, sgn_inj; assumption).
        revert C. destruct (Z.compare_spec (sgn w) (sgn v)); [congruence| |];
        match goal with |- context [?u ?= ?v] => destruct (Z.compare_spec u v) end; intros C;
        try discriminate; destruct flip; lia.
Qed.

(** ** Signs *)
Lemma get_sign_spec a : canonical a -> Z.sgn (get_sign a) = Z.sgn (value a).
Proof.
  intros Ha. unfold get_sign. pose proof (sgn_top_neg a (proj1 Ha)) as Hs.
  destruct (single_or_more a (proj1 Ha)) as [(w & -> & Hw) | Hl].
  - rewrite value_single. change (extra_size [w]) with 0. rewrite Z.lor_0_r. reflexivity.
  - pose proof (big_canonical_range a Ha Hl) as H. assert (0 < HW) by reflexivity.
    assert (He : 0 < extra_size a) by (unfold extra_size; lia).
    pose proof (Z.lor_neg (sgn (top a)) (extra_size a)) as Hn.
    destruct (Z.ltb_spec (value a) 0).
    + rewrite (Z.sgn_neg (value a)) by lia. apply Z.sgn_neg. apply Hn. left. lia.
    + rewrite (Z.sgn_pos (value a)) by lia. apply Z.sgn_pos.
      assert (0 <= Z.lor (sgn (top a)) (extra_size a)) by (apply Z.lor_nonneg; lia).
      assert (Z.lor (sgn (top a)) (extra_size a) <> 0) by (rewrite Z.lor_eq_0_iff; lia). lia.
Qed.
Lemma is_zero_spec a : canonical a -> is_zero a = (value a =? 0).
Proof. intros Ha. unfold is_zero. pose proof (get_sign_spec a Ha). apply eq_true_iff_eq. rewrite !Z.eqb_eq. lia. Qed.
Lemma is_negative_spec a : wf a -> is_negative a = (value a <? 0).
Proof. intros Ha. unfold is_negative, sign_ext_s. rewrite sext_m by assumption. destruct (value a <? 0); reflexivity. Qed.
Lemma get_abs_mult_spec a : wf a -> get_abs_mult a = if value a <? 0 then -1 else 1.
Proof. intros Ha. unfold get_abs_mult. rewrite sext_m by assumption. destruct (value a <? 0); reflexivity. Qed.
Lemma get_abs_mult2_spec a b : wf a -> wf b ->
  get_abs_mult2 a b = if xorb (value a <? 0) (value b <? 0) then -1 else 1.
Proof.
  intros Ha Hb. unfold get_abs_mult2, sign_ext_s. rewrite !sext_m by assumption.
  destruct (value a <? 0), (value b <? 0); reflexivity.
Qed.
Lemma sign_pair_spec a b : canonical a -> canonical b ->
  has_same_sign a b = negb (xorb (value a <? 0) (value b <? 0)) /\
  has_different_sign a b = xorb (value a <? 0) (value b <? 0).
Proof.
  intros Ha Hb. unfold has_same_sign, has_different_sign.
  rewrite Z.leb_antisym. pose proof (Z.lxor_nonneg (get_sign a) (get_sign b)) as H.
  pose proof (get_sign_spec a Ha). pose proof (get_sign_spec b Hb).
  destruct (Z.ltb_spec (value a) 0), (Z.ltb_spec (value b) 0),
    (Z.ltb_spec (Z.lxor (get_sign a) (get_sign b)) 0); cbn; split; try reflexivity; lia.
Qed.

(** ** Absolute value *)
Lemma abs_spec a : canonical a -> a <> [HW] ->
  exists r, abs a = Some r /\ canonical r /\ value r = Z.abs (value a).
Proof.
  intros Ha Hne. unfold abs. destruct (single_or_more a (proj1 Ha)) as [(w & -> & Hw) | Hl].
  - change (used [w] =? 1) with true. cbn iota. cbn [first hd]. unfold wsigned_abs.
    destruct (Z.eqb_spec w HW) as [-> | N]; [congruence|]. eexists. split; [reflexivity|].
    rewrite value_single. pose proof (sgn_range w Hw).
    assert (Hn : sgn w <> - HW). { intros E. apply N. rewrite <- (wrap_sgn w Hw), E. reflexivity. }
    rewrite sgn_wrap_id by lia. apply of_int_canonical. lia.
  - destruct (used_big a Hl) as [_ ->]. rewrite Z.leb_antisym, sgn_top_neg by apply Ha.
    destruct (Z.ltb_spec (value a) 0); cbn [negb].
    + eexists. split; [reflexivity|]. destruct (neg_spec a (proj1 Ha)). split; [assumption|lia].
    + eexists. split; [reflexivity|]. split; [assumption|lia].
Qed.
Lemma get_abs_spec a : canonical a ->
  canonical (fst (get_abs a)) /\ value (fst (get_abs a)) = Z.abs (value a) /\ snd (get_abs a) = (value a <? 0).
Proof.
  intros Ha. unfold get_abs. pose proof (get_sign_spec a Ha) as Hs. cbn [fst snd].
  assert (E : (get_sign a <? 0) = (value a <? 0)) by lia. rewrite E.
  destruct (Z.ltb_spec (value a) 0).
  - destruct (neg_spec a (proj1 Ha)). split; [assumption|split; [lia|reflexivity]].
  - split; [assumption|split; [lia|reflexivity]].
Qed.

(** ** Extreme values *)
Lemma set_bits_spec n : (n <= 64)%nat -> set_bits n = 2 ^ Z.of_nat n - 1.
Proof.
  induction n as [|n IH]; intros Hn; [reflexivity|]. cbn [set_bits]. rewrite IH by lia.
  assert (E : wshl 1 (Z.of_nat n) = 1 * 2 ^ Z.of_nat n).
  { unfold wshl. rewrite Z.shiftl_mul_pow2 by lia. apply wrap_small. split.
    - pose proof (Z.pow_pos_nonneg 2 (Z.of_nat n)). lia.
    - rewrite Z.mul_1_l. apply Z.pow_lt_mono_r; lia. }
  rewrite E, Z.lor_comm, lor_disjoint by (pose proof (Z.pow_pos_nonneg 2 (Z.of_nat n)); lia).
  rewrite Nat2Z.inj_succ, Z.pow_succ_r by lia. lia.
Qed.
Lemma clear_bits_spec n : (n <= 64)%nat -> clear_bits n = W - 2 ^ Z.of_nat n.
Proof.
  intros Hn. assert (E : clear_bits n = W - 1 - set_bits n).
  { induction n as [|n IH]; [reflexivity|]. cbn [clear_bits set_bits]. rewrite IH by lia.
    assert (Hs : is_word (set_bits n)).
    { rewrite set_bits_spec by lia. pose proof (Z.pow_pos_nonneg 2 (Z.of_nat n)).
      assert (2 ^ Z.of_nat n < 2 ^ 64) by (apply Z.pow_lt_mono_r; lia). unfold is_word. lia. }
    assert (Hb : is_word (wshl 1 (Z.of_nat n))) by apply wrap_word.
    assert (Hl : is_word (Z.lor (set_bits n) (wshl 1 (Z.of_nat n)))).
    { change (Z.lor (set_bits n) (wshl 1 (Z.of_nat n))) with (set_bits (S n)). rewrite set_bits_spec by lia.
      pose proof (Z.pow_pos_nonneg 2 (Z.of_nat (S n))).
      assert (2 ^ Z.of_nat (S n) <= 2 ^ 64) by (apply Z.pow_le_mono_r; lia). unfold is_word. lia. }
    unfold wnot. rewrite <- (lxor_ones_word (set_bits n) Hs), <- (lxor_ones_word _ Hb), <- (lxor_ones_word _ Hl).
    apply Z.bits_inj'. intros i Hi. rewrite Z.land_spec, !Z.lxor_spec, Z.lor_spec.
    change (W - 1) with (Z.ones 64).
    destruct (Z.ltb_spec i 64).
    - rewrite Z.ones_spec_low by lia. destruct (Z.testbit (set_bits n) i), (Z.testbit (wshl 1 (Z.of_nat n)) i); reflexivity.
    - rewrite Z.ones_spec_high by lia. rewrite !testbit_word_high by (assumption || lia). reflexivity. }
  rewrite E, set_bits_spec by assumption. lia.
Qed.

Lemma uvalue_ones n : uvalue (repeat (W - 1) n) = W ^ Z.of_nat n - 1.
Proof. induction n as [|n IH]; [reflexivity|]. cbn [repeat]. rewrite uvalue_cons, IH, Wpow_S. ring. Qed.
Lemma uvalue_zeros n : uvalue (repeat 0 n) = 0.
Proof. induction n as [|n IH]; [reflexivity|]. cbn [repeat]. rewrite uvalue_cons, IH. ring. Qed.

Lemma size_facts n : 0 <= n ->
  let size := (n + bits_per_word) / bits_per_word in
  let last_bits := n - (size - 1) * bits_per_word in
  1 <= size /\ 0 <= last_bits < 64 /\ W ^ (size - 1) * 2 ^ last_bits = 2 ^ n.
Proof.
  intros Hn. unfold bits_per_word. cbn zeta.
  assert (E : (n + 64) / 64 = n / 64 + 1) by (replace (n + 64) with (n + 1 * 64) by ring; rewrite Z.div_add by lia; reflexivity).
  rewrite E. pose proof (Z.div_mod n 64 ltac:(lia)). pose proof (Z.mod_pos_bound n 64 ltac:(lia)).
  pose proof (Z.div_pos n 64 Hn ltac:(lia)).
  replace (n / 64 + 1 - 1) with (n / 64) by lia. split; [lia|]. split; [lia|].
  change W with (2 ^ 64). rewrite <- Z.pow_mul_r, <- Z.pow_add_r by lia. f_equal. lia.
Qed.

Lemma max_value_spec n : 0 <= n -> canonical (max_value n) /\ value (max_value n) = 2 ^ n - 1.
Proof.
  intros Hn. unfold max_value. destruct (size_facts n Hn) as (H1 & H2 & H3).
  set (size := (n + bits_per_word) / bits_per_word) in *. set (lb := n - (size - 1) * bits_per_word) in *.
  rewrite set_bits_spec by lia. rewrite Z2Nat.id by lia.
  assert (Hp : 0 < 2 ^ lb <= 2 ^ 63).
  { split; [apply Z.pow_pos_nonneg; lia|apply Z.pow_le_mono_r; lia]. }
  change (2 ^ 63) with HW in Hp.
  assert (Hw : is_word (2 ^ lb - 1)) by (unfold is_word; change (2 ^ 64) with (2 * HW); lia).
  match goal with |- canonical (trim ?x) /\ _ => destruct (trim_canonical x) as [Hc Hv] end.
  { apply wf_snoc. split; [|assumption]. apply Forall_forall. intros x Hx. apply repeat_spec in Hx. subst. wsimp. lia. }
  split; [assumption|]. rewrite Hv, value_snoc, uvalue_ones, repeat_length, Z2Nat.id by lia.
  unfold sgn. destruct (Z.ltb_spec (2 ^ lb - 1) HW); [|lia]. rewrite <- H3. ring.
Qed.
Lemma min_value_spec n : 0 <= n -> canonical (min_value n) /\ value (min_value n) = - 2 ^ n.
Proof.
  intros Hn. unfold min_value. destruct (size_facts n Hn) as (H1 & H2 & H3).
  set (size := (n + bits_per_word) / bits_per_word) in *. set (lb := n - (size - 1) * bits_per_word) in *.
  rewrite clear_bits_spec by lia. rewrite Z2Nat.id by lia.
  assert (Hp : 0 < 2 ^ lb <= 2 ^ 63).
  { split; [apply Z.pow_pos_nonneg; lia|apply Z.pow_le_mono_r; lia]. }
  change (2 ^ 63) with HW in Hp. assert (HWW : W = 2 * HW) by reflexivity.
  assert (Hw : is_word (W - 2 ^ lb)) by (unfold is_word; change (2 ^ 64) with W; lia).
  match goal with |- canonical (trim ?x) /\ _ => destruct (trim_canonical x) as [Hc Hv] end.
  { apply wf_snoc. split; [|assumption]. apply Forall_forall. intros x Hx. apply repeat_spec in Hx. subst. wsimp. lia. }
  split; [assumption|]. rewrite Hv, value_snoc, uvalue_zeros, repeat_length, Z2Nat.id by lia.
  unfold sgn. destruct (Z.ltb_spec (W - 2 ^ lb) HW); [lia|]. rewrite <- H3. ring.
Qed.

(** ** Half words *)
Lemma half_canonical a : canonical a -> (half a <-> half_range (value a)).
Proof.
  intros Ha. split.
  - intros H. apply half_value, H.
  - intros H. destruct (single_or_more a (proj1 Ha)) as [(w & -> & Hw) | Hl].
    + exists w. split; [reflexivity|]. rewrite value_single in H. exact H.
    + exfalso. pose proof (big_canonical_range a Ha Hl). unfold half_range, HW in *. lia.
Qed.
Lemma sgn32_id v : sgn32 v = v <-> half_range v.
Proof.
  unfold sgn32, half_range, HALF. pose proof (Z.mod_pos_bound v 4294967296 ltac:(lia)) as Hm.
  pose proof (Z.div_mod v 4294967296 ltac:(lia)) as Hd. cbn zeta.
  destruct (Z.ltb_spec (v mod 4294967296) 2147483648); split; intros; lia.
Qed.
Lemma is_half_word_spec a : canonical a -> (is_half_word a = true <-> half_range (value a)).
Proof.
  intros Ha. unfold is_half_word, can_trim_last_half. rewrite andb_true_iff, !Z.eqb_eq.
  destruct (single_or_more a (proj1 Ha)) as [(w & -> & Hw) | Hl].
  - cbn [first hd]. rewrite value_single, sgn32_id. unfold used. cbn [length]. tauto.
  - pose proof (big_canonical_range a Ha Hl). unfold used, half_range, HW in *. split; lia.
Qed.
Lemma all_half2_value a b : canonical a -> canonical b ->
  (all_half_words2 a b = true <-> half_range (value a) /\ half_range (value b)).
Proof.
  intros Ha Hb. rewrite all_half2_spec by (apply Ha || apply Hb). rewrite !half_canonical by assumption. reflexivity.
Qed.
Lemma all_half3_value a b c : canonical a -> canonical b -> canonical c ->
  (all_half_words3 a b c = true <-> half_range (value a) /\ half_range (value b) /\ half_range (value c)).
Proof.
  intros Ha Hb Hc. rewrite all_half3_spec by (apply Ha || apply Hb || apply Hc).
  rewrite !half_canonical by assumption. reflexivity.
Qed.

(** ** Every integer is represented *)
Lemma canonical_exists_nonneg v : 0 <= v -> exists a, canonical a /\ value a = v.
Proof.
  intros Hv. revert v Hv. apply (well_founded_induction_type (Z.lt_wf 0) (fun v => 0 <= v -> exists a, canonical a /\ value a = v)).
  intros v IH Hv. destruct (Z.ltb_spec v (2 ^ 62)).
  - exists (of_int v). apply of_int_canonical. unfold HW. lia.
  - assert (Hq : 0 <= v / 2 ^ 62 < v). { split; [apply Z.div_pos; lia|apply Z.div_lt; lia]. }
    destruct (IH (v / 2 ^ 62) ltac:(lia) ltac:(lia)) as (a & Ha & Va).
    destruct (shl_spec a 62 (proj1 Ha) ltac:(lia)) as [Hs Vs].
    pose proof (Z.mod_pos_bound v (2 ^ 62) ltac:(lia)) as Hm.
    destruct (of_int_canonical (v mod 2 ^ 62)) as [Hr Vr].
    { split; [unfold HW; lia|]. eapply Z.lt_trans; [apply Hm|reflexivity]. }
    exists (add (shl a 62) (of_int (v mod 2 ^ 62))).
    destruct (add_spec _ _ (proj1 Hs) (proj1 Hr)) as [Hc Vc]. split; [assumption|].
    rewrite Vc, Vs, Vr, Va. rewrite (Z.div_mod v (2 ^ 62)) at 3 by lia. ring.
Qed.
Lemma canonical_exists v : exists a, canonical a /\ value a = v.
Proof.
  destruct (Z.leb_spec 0 v); [apply canonical_exists_nonneg; assumption|].
  destruct (canonical_exists_nonneg (- v) ltac:(lia)) as (a & Ha & Va).
  exists (neg a). destruct (neg_spec a (proj1 Ha)). split; [assumption|lia].
Qed.
