(** Correctness of [BigUInt] division (release build). *)
From Coq Require Import ZArith List Bool Lia ZifyBool.
From Verif Require Import WordModel BigIntSpec WordProofs BigIntModel BigIntProofs BigIntMulProofs BigIntCmpProofs BigUIntModel BigUIntProofs.
Import ListNotations.
Open Scope Z_scope.
Ltac Zify.zify_post_hook ::= idtac.

(** ** Whole-number helpers *)
Lemma word0 : is_word 0.
Proof. split; [lia|reflexivity]. Qed.
Lemma utrim_rev_spec r : r <> [] -> Forall is_word r ->
  utrim_rev r <> [] /\ Forall is_word (utrim_rev r) /\ uvalue (rev (utrim_rev r)) = uvalue (rev r) /\
  (length (utrim_rev r) = 1%nat \/ hd 0 (utrim_rev r) <> 0) /\ (length (utrim_rev r) <= length r)%nat.
Proof.
  induction r as [|hi r IH]; [congruence|]. intros _ Hf. destruct r as [|lo r'].
  - cbn [utrim_rev]. repeat split; auto. discriminate.
  - change (utrim_rev (hi :: lo :: r')) with (if hi =? 0 then utrim_rev (lo :: r') else hi :: lo :: r').
    destruct (Z.eqb_spec hi 0) as [-> | N].
    + inversion Hf; subst. destruct (IH ltac:(discriminate) ltac:(assumption)) as (H3 & H4 & H5 & H6 & H7).
      repeat split; auto; [|cbn [length] in *; lia].
      rewrite H5. rewrite (uvalue_rev_cons 0 (lo :: r')). lia.
    + repeat split; auto. discriminate.
Qed.
Lemma utrim_spec a : wf a -> wf (utrim a) /\ utight (utrim a) /\ uvalue (utrim a) = uvalue a /\ (length (utrim a) <= length a)%nat.
Proof.
  intros [Hn Hf]. unfold utrim.
  destruct (utrim_rev_spec (rev a) (wf_rev_ne a Hn) (Forall_rev Hf)) as (H1 & H2 & H3 & H4 & H5).
  rewrite rev_involutive in H3. rewrite !rev_length in *.
  split; [split; [apply wf_rev_ne, H1|apply Forall_rev, H2]|]. split; [|split; assumption].
  unfold utight. rewrite rev_length. destruct H4 as [H4|H4]; [left; assumption|right].
  destruct (utrim_rev (rev a)) as [|x l]; [congruence|]. cbn [rev]. rewrite top_snoc. exact H4.
Qed.

Lemma uis_half_spec a : wf a -> uis_half a = true -> a = [first a] /\ 0 <= first a < HALF.
Proof.
  intros Ha. unfold uis_half. rewrite andb_true_iff, Z.eqb_eq, Z.leb_le. intros [H1 H2].
  unfold used in H1. destruct a as [|w [|? ?]]; try (cbn in H1; lia). cbn [first hd] in *.
  split; [reflexivity|]. apply wf_first in Ha. cbn [first hd] in Ha. apply word_range in Ha. unfold HALF. lia.
Qed.
Lemma single_utight w : utight [w].
Proof. left. reflexivity. Qed.

Lemma umul_spec a w : wf a -> is_word w ->
  wf (umul a w) /\ utight (umul a w) /\ uvalue (umul a w) = uvalue a * w.
Proof.
  intros Ha Hw. unfold umul. destruct (uis_half a && (w <=? 4294967295)) eqn:E.
  - apply andb_prop in E as [E1 E2]. destruct (uis_half_spec a Ha E1) as [Ea Hh].
    apply Z.leb_le in E2. apply word_range in Hw.
    unfold low32. rewrite (Z.mod_small (first a)) by assumption. rewrite (Z.mod_small w) by (unfold HALF; lia).
    split; [|split; [apply single_utight|]].
    + apply wf_cons; [|constructor]. split; [nia|]. unfold HALF in Hh. change (2 ^ 64) with 18446744073709551616. nia.
    + rewrite Ea at 2. cbn [uvalue]. lia.
  - destruct (mul_row0_spec w a Hw (proj2 Ha) 0 word0) as (H1 & H2 & H3).
    destruct (utrim_spec (mul_row0 w a 0)) as (T1 & T2 & T3 & _).
    { split; [|assumption]. intros N. rewrite N in H2. discriminate. }
    split; [assumption|]. split; [assumption|]. rewrite T3, H3. lia.
Qed.

Lemma uge_spec a b : wf a -> wf b -> utight a -> utight b -> uge a b = (uvalue b <=? uvalue a).
Proof.
  intros Ha Hb Ta Tb. unfold uge. rewrite !used_lt.
  assert (Hlen : forall x y, wf x -> wf y -> utight y -> (length x < length y)%nat -> uvalue x < uvalue y).
  { intros x y Hx Hy Ty Hl. pose proof (uvalue_range x (proj2 Hx)) as Hr.
    destruct (utight_pos y Hy Ty) as [-> | Hp].
    - exfalso. destruct Hx as [Hn _]. destruct x; [congruence|cbn in Hl; lia].
    - pose proof (Wpow_le (length x) (length y - 1) ltac:(lia)). lia. }
  destruct (Nat.ltb_spec (length b) (length a)) as [Hl|Hl].
  - pose proof (Hlen b a Hb Ha Ta Hl). symmetry. apply Z.leb_le. lia.
  - destruct (Nat.ltb_spec (length a) (length b)) as [Hl2|Hl2].
    + pose proof (Hlen a b Ha Hb Tb Hl2). symmetry. apply Z.leb_gt. lia.
    + rewrite (rel_down_spec true (fun x y => y <? x) (fun x y => y <=? x) (fun c => match c with Gt => false | _ => true end)).
      * rewrite !rev_involutive. cbn [flipc]. rewrite <- geb_cmp. reflexivity.
      * intros. apply gtb_cmp.
      * intros. apply geb_cmp.
      * reflexivity.
      * reflexivity.
      * apply Forall_rev, Ha.
      * apply Forall_rev, Hb.
      * rewrite !rev_length. lia.
      * apply wf_rev_ne, Ha.
Qed.

Lemma usub_rest_spec b : Forall is_word b -> forall c l cf,
  (fix rest (b : list Z) (c : bool) : list Z * bool :=
         match b with
         | [] => ([], c)
         | y :: b' => let '(r, c') := wsub_c 0 y c in let '(l, cf) := rest b' c' in (r :: l, cf)
         end) b c = (l, cf) ->
  Forall is_word l /\ length l = length b /\ uvalue l = W ^ Z.of_nat (length b) * b2z cf - uvalue b - b2z c.
Proof.
  induction 1 as [|y b Hy Hb IH]; intros c l cf.
  - intros E. injection E as <- <-. cbn [length uvalue]. change (W ^ Z.of_nat 0) with 1. repeat split; [constructor|lia].
  - destruct (wsub_c 0 y c) as [r c'] eqn:E1.
    destruct ((fix rest (b : list Z) (c : bool) : list Z * bool :=
         match b with
         | [] => ([], c)
         | y :: b' => let '(r, c') := wsub_c 0 y c in let '(l, cf) := rest b' c' in (r :: l, cf)
         end) b c') as [l' cf'] eqn:E2. intros E. injection E as <- <-.
    destruct (wsub_c_spec _ _ _ _ _ word0 Hy E1) as [H1 H2].
    destruct (IH _ _ _ E2) as (I1 & I2 & I3).
    split; [constructor; assumption|]. cbn [length]. split; [lia|]. rewrite !uvalue_cons, I3, Wpow_S.
    replace r with (0 - y - b2z c + W * b2z c') by lia. ring.
Qed.
Lemma usub_loop_spec a : Forall is_word a -> forall b c l cf, Forall is_word b -> usub_loop a b c = (l, cf) ->
  Forall is_word l /\ length l = Nat.max (length a) (length b) /\
  uvalue l = uvalue a - uvalue b - b2z c + W ^ Z.of_nat (length l) * b2z cf.
Proof.
  induction 1 as [|x a Hx Ha IH]; intros b c l cf Hb E.
  - destruct (usub_rest_spec b Hb c l cf) as (H1 & H2 & H3); [destruct b; exact E|].
    rewrite H2 in *. cbn [uvalue]. repeat split; auto. lia.
  - destruct b as [|y b].
    + cbn [usub_loop] in E. destruct (wsub_carry x c) as [r c'] eqn:E1. destruct (usub_loop a [] c') as [l' cf'] eqn:E2.
      injection E as <- <-. destruct (wsub_carry_spec _ _ _ _ Hx E1) as [H1 H2].
      destruct (IH [] c' l' cf' ltac:(constructor) E2) as (I1 & I2 & I3).
      split; [constructor; assumption|]. cbn [length Nat.max] in *. split; [lia|].
      rewrite !uvalue_cons, I3, Wpow_S. cbn [uvalue]. replace r with (x - b2z c + W * b2z c') by lia. ring.
    + inversion Hb as [|? ? Hy Hb']; subst. cbn [usub_loop] in E. destruct (wsub_c x y c) as [r c'] eqn:E1. destruct (usub_loop a b c') as [l' cf'] eqn:E2.
      injection E as <- <-. destruct (wsub_c_spec _ _ _ _ _ Hx Hy E1) as [H1 H2].
      destruct (IH b c' l' cf' Hb' E2) as (I1 & I2 & I3).
      split; [constructor; assumption|]. cbn [length Nat.max] in *. split; [lia|].
      rewrite !uvalue_cons, I3, Wpow_S. replace r with (x - y - b2z c + W * b2z c') by lia. ring.
Qed.
Lemma usub_spec a b : wf a -> wf b -> uvalue b <= uvalue a ->
  exists r, usub false a b = Ok r /\ wf r /\ utight r /\ uvalue r = uvalue a - uvalue b.
Proof.
  intros Ha Hb Hle. unfold usub.
  destruct (uis_half a && uis_half b && (low32 (first b) <=? low32 (first a))) eqn:E.
  - rewrite !andb_true_iff in E. destruct E as [[E1 E2] _].
    destruct (uis_half_spec a Ha E1) as [Ea Hh1]. destruct (uis_half_spec b Hb E2) as [Eb Hh2].
    exists [wsub (first a) (first b)]. split; [reflexivity|].
    assert (V : wsub (first a) (first b) = uvalue a - uvalue b).
    { rewrite Ea, Eb in Hle. cbn [uvalue] in Hle. rewrite Ea, Eb. cbn [uvalue]. cbn [first hd].
      unfold wsub. rewrite wrap_small; [lia|]. split; [lia|]. unfold HALF in *. change (2 ^ 64) with 18446744073709551616. lia. }
    split; [apply wf_cons; [apply wrap_word|constructor]|]. split; [apply single_utight|]. cbn [uvalue]. lia.
  - destruct (usub_loop a b false) as [l cf] eqn:EL.
    destruct (usub_loop_spec a (proj2 Ha) b false l cf (proj2 Hb) EL) as (H1 & H2 & H3).
    unfold check. cbn [andb rbind].
    assert (Hcf : cf = false).
    { destruct cf; [|reflexivity]. exfalso. cbn [b2z] in H3. pose proof (uvalue_range l H1). lia. }
    subst cf. cbn [b2z] in H3.
    destruct (utrim_spec l) as (T1 & T2 & T3 & _).
    { split; [|assumption]. intros N. subst l. cbn in H2. destruct Ha as [Hn _]. destruct a; [congruence|cbn [length] in H2; lia]. }
    exists (utrim l). repeat split; try apply T1; auto. lia.
Qed.

(** ** Scaling of the divisor *)
(** [os * 2^osr] is just above the divisor; scaled by 2^64 so that every
    exponent is nonnegative: o = osr + 64. *)
Definition scaled (B os o : Z) : Prop :=
  33 <= o /\ 2 ^ 31 <= os < 2 ^ 32 /\ B * W < os * 2 ^ o /\ (os - 1) * 2 ^ o <= B * W /\
  (os = 2 ^ 31 -> (2 * os - 1) * 2 ^ o <= 2 * (B * W)).

Lemma log2_bounds h : is_word h -> h <> 0 ->
  let hb := whighest_set_bit h in 1 <= hb <= 64 /\ 2 ^ (hb - 1) <= h < 2 ^ hb.
Proof.
  intros Hw N. unfold whighest_set_bit. destruct (Z.eqb_spec h 0); [congruence|]. cbn zeta.
  apply word_range in Hw. pose proof (Z.log2_spec h ltac:(lia)) as [L1 L2].
  pose proof (Z.log2_nonneg h). replace (Z.log2 h + 1 - 1) with (Z.log2 h) by lia.
  replace (Z.succ (Z.log2 h)) with (Z.log2 h + 1) in L2 by lia.
  assert (Z.log2 h < 64) by (apply Z.log2_lt_pow2; [lia|exact (proj2 Hw)]). lia.
Qed.

(** The value before rounding up is the floor of the scaled divisor. *)
Lemma scale_core b : wf b -> top b <> 0 ->
  let h := top b in let hb := whighest_set_bit h in let ws := hb - 32 in
  let idx := Z.of_nat (length b) - 1 in
  let os0 := if hb <? 32
             then let s := wshl h (- ws) in
                  if 0 <? idx then Z.lor s (wshr (nth (length b - 2) b 0) (64 + ws)) else s
             else wshr h ws in
  let o := idx * 64 + ws + 64 in
  33 <= o /\ 2 ^ 31 <= os0 < 2 ^ 32 /\ os0 * 2 ^ o <= uvalue b * W < (os0 + 1) * 2 ^ o.
Proof.
  intros [Hne Hf] Ht. destruct (snoc_case b Hne) as (p & h & ->). rewrite top_snoc in *.
  apply Forall_app in Hf as [Hp Hh]. inversion Hh as [|? ? Hh' _]; subst.
  destruct (log2_bounds h Hh' Ht) as [Hb1 Hb2]. cbn zeta. rewrite app_length. cbn [length].
  set (hb := whighest_set_bit h) in *. clearbody hb.
  replace (Z.of_nat (length p + 1) - 1) with (Z.of_nat (length p)) by lia.
  set (n := Z.of_nat (length p)).
  split; [lia|].
  assert (EV : uvalue (p ++ [h]) = uvalue p + W ^ n * h) by (rewrite uvalue_app; cbn [uvalue]; unfold n; ring).
  rewrite EV. clear EV.
  assert (Ho : 2 ^ (n * 64 + (hb - 32) + 64) = W ^ n * 2 ^ (64 + (hb - 32))).
  { change W with (2 ^ 64). rewrite <- Z.pow_mul_r, <- Z.pow_add_r by lia. f_equal. lia. }
  rewrite Ho. clear Ho.
  pose proof (uvalue_range p Hp) as Hr. fold n in Hr.
  pose proof (Wpow_pos (length p)) as HP. fold n in HP.
  destruct (Z.ltb_spec hb 32) as [Hlt|Hge].
  - assert (Hsh : wshl h (- (hb - 32)) = h * 2 ^ (32 - hb)).
    { unfold wshl. replace (- (hb - 32)) with (32 - hb) by lia. rewrite Z.shiftl_mul_pow2 by lia. apply wrap_small.
      assert (h * 2 ^ (32 - hb) < 2 ^ hb * 2 ^ (32 - hb)) by (apply Z.mul_lt_mono_pos_r; [apply Z.pow_pos_nonneg; lia|lia]).
      rewrite <- Z.pow_add_r in H by lia. replace (hb + (32 - hb)) with 32 in H by lia.
      apply word_range in Hh'. split; [apply Z.mul_nonneg_nonneg; [lia|apply Z.pow_nonneg; lia]|].
      change (2 ^ 32) with 4294967296 in H. change (2 ^ 64) with 18446744073709551616. lia. }
    assert (Hlo : 2 ^ 31 <= h * 2 ^ (32 - hb)).
    { replace 31 with ((hb - 1) + (32 - hb)) by lia. rewrite Z.pow_add_r by lia.
      apply Z.mul_le_mono_nonneg_r; [apply Z.pow_nonneg; lia|lia]. }
    assert (Hhi : (h + 1) * 2 ^ (32 - hb) <= 2 ^ 32).
    { replace 32 with (hb + (32 - hb)) at 2 by lia. rewrite (Z.pow_add_r 2 hb) by lia.
      apply Z.mul_le_mono_nonneg_r; [apply Z.pow_nonneg; lia|lia]. }
    assert (EW : W = 2 ^ (32 - hb) * 2 ^ (64 + (hb - 32))).
    { rewrite <- Z.pow_add_r by lia. replace (32 - hb + (64 + (hb - 32))) with 64 by lia. reflexivity. }
    assert (0 < 2 ^ (32 - hb)) by (apply Z.pow_pos_nonneg; lia).
    assert (0 < 2 ^ (64 + (hb - 32))) by (apply Z.pow_pos_nonneg; lia).
    destruct (Z.ltb_spec 0 n) as [Hn|Hn].
    + destruct (snoc_case p) as (p' & w2 & ->). { intros N. subst p. unfold n in Hn. cbn in Hn. lia. }
      assert (Enth : nth (length (p' ++ [w2]) + 1 - 2) ((p' ++ [w2]) ++ [h]) 0 = w2).
      { rewrite app_length. cbn [length]. rewrite <- app_assoc. rewrite app_nth2 by lia.
        replace (length p' + 1 + 1 - 2 - length p')%nat with 0%nat by lia. reflexivity. }
      rewrite Enth, Hsh. unfold wshr. rewrite Z.shiftr_div_pow2 by lia.
      apply Forall_app in Hp as [Hp' Hw2]. inversion Hw2 as [|? ? Hw2' _]; subst. apply word_range in Hw2'.
      set (e := 2 ^ (64 + (hb - 32))) in *. set (d := 2 ^ (32 - hb)) in *.
      pose proof (Z.div_mod w2 e ltac:(lia)) as Dm. pose proof (Z.mod_pos_bound w2 e ltac:(lia)) as Mb.
      set (q := w2 / e) in *. set (r := w2 mod e) in *.
      assert (Hq : 0 <= q < d).
      { split; [apply Z.div_pos; lia|]. apply Z.div_lt_upper_bound; [lia|]. rewrite Z.mul_comm, <- EW. lia. }
      assert (Elor : Z.lor (h * d) q = h * d + q) by (unfold d; apply lor_disjoint; [lia|exact Hq]).
      rewrite Elor. clear Elor.
      split; [nia|].
      rewrite uvalue_app in Hr |- *. cbn [uvalue] in *. rewrite Z.mul_0_r, Z.add_0_r in *.
      pose proof (uvalue_range p' Hp') as Hr'.
      assert (En : W ^ n = W ^ Z.of_nat (length p') * W).
      { unfold n. rewrite app_length. cbn [length]. rewrite Nat.add_1_r, Wpow_S. ring. }
      rewrite En. set (P := W ^ Z.of_nat (length p')) in *.
      assert (HP0 : 0 < P) by apply Wpow_pos.
      replace ((uvalue p' + P * w2 + P * W * h) * W) with (W * uvalue p' + P * W * (w2 + W * h)) by ring.
      assert (ET : w2 + W * h = (h * d + q) * e + r) by (rewrite Dm, EW; ring).
      rewrite ET. set (os := h * d + q). clearbody os. pose proof W_pos.
      assert (0 <= W * uvalue p' < P * W) by nia.
      set (PW := P * W) in *. assert (0 < PW) by (unfold PW; nia). clearbody PW.
      assert (PW * r <= PW * (e - 1)) by (apply Z.mul_le_mono_nonneg_l; lia).
      assert (0 <= PW * r) by (apply Z.mul_nonneg_nonneg; lia).
      clear - H2 H3 H4 H5. split; lia.
    + assert (n = 0) by lia. assert (p = []) by (destruct p; [reflexivity|unfold n in *; cbn in *; lia]). subst p.
      rewrite H1. change (W ^ 0) with 1. cbn [uvalue]. rewrite Hsh.
      split; [lia|]. rewrite EW at 1 2.
      set (e := 2 ^ (64 + (hb - 32))) in *. set (d := 2 ^ (32 - hb)) in *. clearbody e d. split; lia.
  - unfold wshr. rewrite Z.shiftr_div_pow2 by lia. set (ws := hb - 32) in *.
    assert (0 < 2 ^ ws) by (apply Z.pow_pos_nonneg; lia).
    pose proof (Z.div_mod h (2 ^ ws) ltac:(lia)) as Dm. pose proof (Z.mod_pos_bound h (2 ^ ws) ltac:(lia)) as Mb.
    split.
    { split.
      - apply Z.div_le_lower_bound; [lia|]. rewrite <- Z.pow_add_r by lia. replace (ws + 31) with (hb - 1) by lia. lia.
      - apply Z.div_lt_upper_bound; [lia|]. rewrite <- Z.pow_add_r by lia. replace (ws + 32) with hb by lia. lia. }
    rewrite Z.pow_add_r by lia. change (2 ^ 64) with W.
    set (q := h / 2 ^ ws) in *. set (r := h mod 2 ^ ws) in *. set (e := 2 ^ ws) in *. clearbody q r e.
    set (P := W ^ n) in *. clearbody P. rewrite Dm. pose proof W_pos as HWp. set (w := W) in *. clearbody w.
    assert (0 <= uvalue p * w < P * w) by nia.
    assert (0 <= P * w * r <= P * w * (e - 1)). { split; [apply Z.mul_nonneg_nonneg; [nia|lia]|apply Z.mul_le_mono_nonneg_l; [nia|lia]]. }
    clear - H0 H1. split; lia.
Qed.

Lemma scale_divisor_spec b os osr : wf b -> top b <> 0 -> scale_divisor b = (os, osr) ->
  scaled (uvalue b) os (osr + 64).
Proof.
  intros Hb Ht E. pose proof (scale_core b Hb Ht) as C. unfold scale_divisor, bits_per_word in E. cbn zeta in C, E.
  change (64 / 2) with 32 in E.
  match type of C with _ /\ _ <= ?x < _ /\ _ => set (os0 := x) in * end.
  destruct C as (C1 & C2 & C3). clearbody os0.
  set (o := (Z.of_nat (length b) - 1) * 64 + (whighest_set_bit (top b) - 32) + 64) in *.
  assert (El : low32 os0 = os0). { unfold low32. apply Z.mod_small. unfold HALF. change (2 ^ 32) with 4294967296 in C2. lia. }
  rewrite El in E. unfold scaled. destruct (Z.eqb_spec os0 4294967295) as [E1|N1]; injection E as <- <-.
  - match goal with |- context [2 ^ (?x + 64)] => replace (x + 64) with (o + 1) by (unfold o; lia) end.
    rewrite (Z.pow_add_r 2 o 1) by lia. change (2 ^ 1) with 2.
    assert (0 < 2 ^ o) by (apply Z.pow_pos_nonneg; lia). set (P := 2 ^ o) in *. clearbody P.
    change (2 ^ 31) with 2147483648 in *. change (2 ^ 32) with 4294967296 in *. subst os0. lia.
  - match goal with |- context [2 ^ ?x] => change (2 ^ x) with (2 ^ o) end.
    match goal with |- 33 <= ?x /\ _ => change (33 <= o /\ 2 ^ 31 <= wadd os0 1 < 2 ^ 32 /\ uvalue b * W < wadd os0 1 * 2 ^ o /\ (wadd os0 1 - 1) * 2 ^ o <= uvalue b * W /\ (wadd os0 1 = 2 ^ 31 -> (2 * wadd os0 1 - 1) * 2 ^ o <= 2 * (uvalue b * W))) end.
    assert (Ew : wadd os0 1 = os0 + 1).
    { unfold wadd. apply wrap_small. change (2 ^ 32) with 4294967296 in C2. change (2 ^ 31) with 2147483648 in C2.
      split; [lia|]. change (2 ^ 64) with 18446744073709551616. lia. }
    rewrite Ew. assert (0 < 2 ^ o) by (apply Z.pow_pos_nonneg; lia). set (P := 2 ^ o) in *. clearbody P.
    change (2 ^ 31) with 2147483648 in *. change (2 ^ 32) with 4294967296 in *. lia.
Qed.

(** ** One step of each loop, on integers *)
Lemma step1 B os o t S : scaled B os o -> 0 <= B -> o <= t -> 0 <= S < W * 2 ^ t ->
  let q := (S / 2 ^ t mod W) / os in
  0 <= q < 2 ^ 33 /\ B * q * 2 ^ (t - o + 64) <= S /\ S - B * q * 2 ^ (t - o + 64) < W * 2 ^ (t - 30).
Proof.
  intros (Ho & Hos & Hb & Hb1 & _) HB Ht HS. cbn zeta.
  assert (P0 : 0 < 2 ^ t) by (apply Z.pow_pos_nonneg; lia).
  rewrite (Z.mod_small (S / 2 ^ t)).
  2: { split; [apply Z.div_pos; lia|]. apply Z.div_lt_upper_bound; lia. }
  assert (E1 : 2 ^ (t - o + 64) = W * 2 ^ (t - o)).
  { rewrite Z.pow_add_r by lia. change (2 ^ 64) with W. ring. }
  assert (E2 : 2 ^ t = 2 ^ o * 2 ^ (t - o)) by (rewrite <- Z.pow_add_r by lia; f_equal; lia).
  assert (E3 : W * 2 ^ (t - 30) = 2 ^ 34 * 2 ^ t).
  { change W with (2 ^ 64). rewrite <- !Z.pow_add_r by lia. f_equal; lia. }
  assert (G0 : 0 < 2 ^ (t - o)) by (apply Z.pow_pos_nonneg; lia).
  assert (Ha : 0 <= S / 2 ^ t < W).
  { split; [apply Z.div_pos; lia|]. apply Z.div_lt_upper_bound; lia. }
  pose proof (Z.div_mod S (2 ^ t) ltac:(lia)) as D1. pose proof (Z.mod_pos_bound S (2 ^ t) P0) as M1.
  change (2 ^ 31) with 2147483648 in Hos. change (2 ^ 32) with 4294967296 in Hos.
  pose proof (Z.div_mod (S / 2 ^ t) os ltac:(lia)) as D2. pose proof (Z.mod_pos_bound (S / 2 ^ t) os ltac:(lia)) as M2.
  set (a := S / 2 ^ t) in *. set (q := a / os) in *.
  assert (Hq : 0 <= q < 8589934592).
  { split; [apply Z.div_pos; lia|]. apply Z.div_lt_upper_bound; [lia|]. unfold W in Ha. lia. }
  split; [change (2 ^ 33) with 8589934592; assumption|].
  assert (EB : B * q * 2 ^ (t - o + 64) = q * (B * W * 2 ^ (t - o))) by (rewrite E1; ring). rewrite EB, E3.
  assert (U : B * W * 2 ^ (t - o) <= os * 2 ^ t) by (rewrite E2, Z.mul_assoc; apply Z.mul_le_mono_nonneg_r; lia).
  assert (L : (os - 1) * 2 ^ t <= B * W * 2 ^ (t - o)) by (rewrite E2, Z.mul_assoc; apply Z.mul_le_mono_nonneg_r; lia).
  set (X := B * W * 2 ^ (t - o)) in *. set (P := 2 ^ t) in *.
  change (2 ^ 34) with 17179869184.
  clearbody X P q a. clear - D1 M1 D2 M2 Hq Hos U L P0.
  set (ra := a mod os) in *. set (rs := S mod P) in *. clearbody ra rs. subst S a.
  assert (q * X <= q * (os * P)) by (apply Z.mul_le_mono_nonneg_l; lia).
  assert (q * ((os - 1) * P) <= q * X) by (apply Z.mul_le_mono_nonneg_l; lia).
  assert (0 <= P * ra <= P * (os - 1)) by (split; [apply Z.mul_nonneg_nonneg; lia|apply Z.mul_le_mono_nonneg_l; lia]).
  split; [lia|].
  assert (P * q <= P * 8589934591) by (apply Z.mul_le_mono_nonneg_l; lia).
  assert (P * os <= P * 4294967295) by (apply Z.mul_le_mono_nonneg_l; lia).
  lia.
Qed.

Definition q2 (S os o t : Z) : Z := (S / 2 ^ t mod W) / os / 2 ^ (o - t).

Lemma step2_le B os o t S : scaled B os o -> 0 <= B -> 0 <= t < o -> 0 <= S ->
  0 <= q2 S os o t < W /\ B * q2 S os o t * W <= S.
Proof.
  intros (Ho & Hos & Hb & Hb1 & _) HB Ht HS. unfold q2.
  assert (P0 : 0 < 2 ^ t) by (apply Z.pow_pos_nonneg; lia).
  assert (K0 : 0 < 2 ^ (o - t)) by (apply Z.pow_pos_nonneg; lia).
  assert (E2 : 2 ^ o = 2 ^ (o - t) * 2 ^ t) by (rewrite <- Z.pow_add_r by lia; f_equal; lia).
  rewrite E2 in Hb. clear E2 Hb1.
  assert (Ha : 0 <= S / 2 ^ t mod W <= S / 2 ^ t /\ S / 2 ^ t mod W < W).
  { assert (0 <= S / 2 ^ t) by (apply Z.div_pos; lia).
    pose proof (Z.mod_pos_bound (S / 2 ^ t) W W_pos). pose proof (Z.mod_le (S / 2 ^ t) W H W_pos). lia. }
  assert (Hs : 2 ^ t * (S / 2 ^ t) <= S) by (apply Z.mul_div_le; lia).
  change (2 ^ 31) with 2147483648 in Hos. change (2 ^ 32) with 4294967296 in Hos.
  set (a := S / 2 ^ t mod W) in *. set (a' := S / 2 ^ t) in *. clearbody a a'.
  set (P := 2 ^ t) in *. set (K := 2 ^ (o - t)) in *. clearbody P K.
  rewrite Z.div_div by lia.
  assert (Hq : 0 <= a / (os * K)) by (apply Z.div_pos; [lia|nia]).
  assert (Hm : os * K * (a / (os * K)) <= a) by (apply Z.mul_div_le; nia).
  assert (HoK : 1 <= os * K) by nia.
  set (q := a / (os * K)) in *. clearbody q. set (b := B * W) in *.
  replace (B * q * W) with (q * b) by (unfold b; ring). clearbody b.
  set (OK := os * K) in *.
  split. { split; [lia|]. assert (1 * q <= OK * q) by (apply Z.mul_le_mono_nonneg_r; lia). lia. }
  assert (q * b <= q * (os * (K * P))) by (apply Z.mul_le_mono_nonneg_l; lia).
  assert (q * (os * (K * P)) = P * (OK * q)) by (unfold OK; ring).
  assert (P * (OK * q) <= P * a') by (apply Z.mul_le_mono_nonneg_l; lia). lia.
Qed.

Lemma step2_bound B os o t S : scaled B os o -> 0 <= B -> 1 <= t < o -> o <= t + 32 -> 0 <= S < W * 2 ^ t ->
  let S' := S - B * q2 S os o t * W in
  (o = t + 1 -> S' < W * 2 ^ (t - 30)) /\ (t + 2 <= o -> S' < 2 * (B * W)).
Proof.
  intros (Ho & Hos & Hb & Hb1 & Hb2) HB Ht Hk HS. unfold q2.
  assert (P0 : 0 < 2 ^ t) by (apply Z.pow_pos_nonneg; lia).
  assert (K0 : 0 < 2 ^ (o - t)) by (apply Z.pow_pos_nonneg; lia).
  assert (E2 : 2 ^ o = 2 ^ t * 2 ^ (o - t)) by (rewrite <- Z.pow_add_r by lia; f_equal; lia).
  rewrite (Z.mod_small (S / 2 ^ t)).
  2: { split; [apply Z.div_pos; lia|]. apply Z.div_lt_upper_bound; lia. }
  change (2 ^ 31) with 2147483648 in *. change (2 ^ 32) with 4294967296 in Hos.
  assert (M0 : 0 < 2 ^ o) by (apply Z.pow_pos_nonneg; lia).
  rewrite Z.div_div by lia. rewrite Z.div_div by nia.
  replace (2 ^ t * (os * 2 ^ (o - t))) with (os * 2 ^ o) by (rewrite E2; ring).
  assert (OM : 0 < os * 2 ^ o) by nia.
  pose proof (Z.div_mod S (os * 2 ^ o) ltac:(lia)) as D. pose proof (Z.mod_pos_bound S (os * 2 ^ o) OM) as Mb.
  assert (Hq0 : 0 <= S / (os * 2 ^ o)) by (apply Z.div_pos; lia).
  assert (Hq : S / (os * 2 ^ o) * 2 ^ (o - t) < 8589934592).
  { assert (X : os * 2 ^ o * (S / (os * 2 ^ o)) < W * 2 ^ t) by lia. rewrite E2 in X at 1.
    set (q := S / (os * 2 ^ o)) in *. clearbody q. clear - X Hos P0 K0 Hq0.
    set (K := 2 ^ (o - t)) in *. set (P := 2 ^ t) in *. clearbody K P.
    replace (os * (P * K) * q) with (P * (os * (q * K))) in X by ring.
    replace (W * P) with (P * W) in X by ring. apply Z.mul_lt_mono_pos_l in X; [|assumption].
    assert (0 <= q * K) by (apply Z.mul_nonneg_nonneg; lia).
    assert (2147483648 * (q * K) <= os * (q * K)) by (apply Z.mul_le_mono_nonneg_r; lia). unfold W in X. lia. }
  assert (Bd : forall x, B * x * W = x * (B * W)) by (intros; ring). rewrite Bd.
  set (q := S / (os * 2 ^ o)) in *. set (r := S mod (os * 2 ^ o)) in *. set (b := B * W) in *. clearbody q r b.
  assert (Hqb : q * ((os - 1) * 2 ^ o) <= q * b) by (apply Z.mul_le_mono_nonneg_l; lia).
  cbn zeta. split.
  - intros Ek. subst o. replace (t + 1 - t) with 1 in * by lia. change (2 ^ 1) with 2 in *.
    assert (E3 : W * 2 ^ (t - 30) = 2 ^ 34 * 2 ^ t).
    { change W with (2 ^ 64). destruct (Z.le_gt_cases 30 t).
      - rewrite <- !Z.pow_add_r by lia. f_equal; lia.
      - exfalso. lia. }
    rewrite E3, D. rewrite E2 in *. clear - Hqb Mb Hq Hos P0. change (2 ^ 34) with 17179869184.
    set (P := 2 ^ t) in *. clearbody P.
    assert (P * q <= P * 4294967295) by (apply Z.mul_le_mono_nonneg_l; lia).
    assert (P * os <= P * 4294967295) by (apply Z.mul_le_mono_nonneg_l; lia).
    lia.
  - intros Hk2. assert (K4 : 4 <= 2 ^ (o - t)) by (change 4 with (2 ^ 2); apply Z.pow_le_mono_r; lia).
    assert (Hq3 : q < 2147483648).
    { assert (q * 4 <= q * 2 ^ (o - t)) by (apply Z.mul_le_mono_nonneg_l; lia). lia. }
    clear Hq K4 K0. rewrite D. clear D E2. set (M := 2 ^ o) in *. clearbody M.
    destruct (Z.eq_dec os 2147483648) as [Eo|No].
    + specialize (Hb2 Eo). subst os.
      assert (M * q <= M * 2147483647) by (apply Z.mul_le_mono_nonneg_l; lia).
      assert (q * ((2 * 2147483648 - 1) * M) <= q * (2 * b)) by (apply Z.mul_le_mono_nonneg_l; lia).
      clear - Mb H H0 Hb2 M0. lia.
    + assert (M * q <= M * (os - 2)) by (apply Z.mul_le_mono_nonneg_l; lia).
      clear - Mb Hqb H Hb1 M0. lia.
Qed.
Lemma no_step B os o t S : scaled B os o -> 0 <= t -> t + 33 <= o -> 0 <= S < W * 2 ^ t -> S < 2 * (B * W).
Proof.
  intros (Ho & Hos & Hb & Hb1 & Hb2) Ht Hk HS.
  assert (W * 2 ^ t <= 2147483648 * 2 ^ o).
  { change W with (2 ^ 64). change 2147483648 with (2 ^ 31). rewrite <- !Z.pow_add_r by lia. apply Z.pow_le_mono_r; lia. }
  assert (0 < 2 ^ o) by (apply Z.pow_pos_nonneg; lia). set (M := 2 ^ o) in *.
  change (2 ^ 31) with 2147483648 in *.
  assert (2147483647 * M <= (os - 1) * M) by (apply Z.mul_le_mono_nonneg_r; lia). lia.
Qed.

(** ** The loops *)
Definition inv (S0 B : Z) (N : nat) (q r : mem) (lq lr : list Z) : Prop :=
  clean q lq /\ trimmed q lq /\ clean r lr /\ trimmed r lr /\ length lr = N /\
  uvalue lq * (B * W) + uvalue lr = S0.

(** Every partial quotient is below this power of two. *)
Definition qbits (t0 o : Z) : Z := Z.max (t0 - o) 0 + 34.
Lemma q_bound B os o t0 S0 Q : scaled B os o -> 0 <= B -> 0 <= t0 -> S0 < W * 2 ^ t0 -> 0 <= Q -> Q * (B * W) <= S0 ->
  Q < 2 ^ qbits t0 o.
Proof.
  intros (Ho & Hos & Hb & Hb1 & Hb2) HB Ht HS HQ Hle. unfold qbits.
  apply Z.nle_gt. intros Hge.
  assert (M0 : 0 < 2 ^ o) by (apply Z.pow_pos_nonneg; lia).
  assert (X : 2 ^ 30 * 2 ^ o <= B * W).
  { change (2 ^ 31) with 2147483648 in *. change (2 ^ 30) with 1073741824.
    assert (2147483647 * 2 ^ o <= (os - 1) * 2 ^ o) by (apply Z.mul_le_mono_nonneg_r; lia). lia. }
  assert (Y : 2 ^ (Z.max (t0 - o) 0 + 34) * (2 ^ 30 * 2 ^ o) <= Q * (B * W)).
  { apply Z.mul_le_mono_nonneg; [apply Z.pow_nonneg; lia|lia| |lia]. apply Z.mul_nonneg_nonneg; [lia|lia]. }
  rewrite <- !Z.pow_add_r in Y by lia.
  assert (Z1 : W * 2 ^ t0 <= 2 ^ (Z.max (t0 - o) 0 + 34 + (30 + o))).
  { change W with (2 ^ 64). rewrite <- Z.pow_add_r by lia. apply Z.pow_le_mono_r; lia. }
  lia.
Qed.
Lemma als_need_bits s : 0 <= s -> s + 64 <= 64 * Z.of_nat (als_need s).
Proof.
  intros Hs. unfold als_need. pose proof (Z.div_mod s 64 ltac:(lia)). pose proof (Z.mod_pos_bound s 64 ltac:(lia)).
  pose proof (Z.div_pos s 64 Hs ltac:(lia)). destruct (Z.eqb_spec (s mod 64) 0); lia.
Qed.
Lemma Wpow_2 n : W ^ Z.of_nat n = 2 ^ (64 * Z.of_nat n).
Proof. change W with (2 ^ 64). rewrite Z.pow_mul_r by lia. reflexivity. Qed.

Lemma loop1_spec b os osr t0 S0 N fuel : scaled (uvalue b) os (osr + 64) -> wf b ->
  0 <= t0 -> (t0 + 31) / 64 < Z.of_nat N -> 0 <= S0 < W * 2 ^ t0 ->
  forall ts q r lq lr, inv S0 (uvalue b) N q r lq lr ->
  ts + 64 <= t0 -> uvalue lr < W * 2 ^ (ts + 64) -> ts + 64 < 30 * Z.of_nat fuel + 33 -> 1 <= ts + 64 ->
  (ts + 64 = t0 \/ 2 ^ qbits t0 (osr + 64) <= W ^ Z.of_nat (length lq)) ->
  exists ts' q' r' lq' lr', div_loop1 fuel false b os osr ts q r = Ok (ts', q', r') /\
    inv S0 (uvalue b) N q' r' lq' lr' /\ uvalue lr' < W * 2 ^ (ts' + 64) /\ ts' < osr /\ 1 <= ts' + 64 <= t0 /\
    (ts' = ts \/ osr - 30 <= ts') /\
    (ts' + 64 = t0 \/ 2 ^ qbits t0 (osr + 64) <= W ^ Z.of_nat (length lq')).
Proof.
  intros Hsc Hb Ht0 HN HS0. induction fuel as [|fuel IH]; intros ts q r lq lr Hinv Hle Hr Hfuel H1 Hcap; cbn [div_loop1].
  - destruct (Z.leb_spec osr ts); [exfalso; destruct Hsc as [? _]; lia|].
    exists ts, q, r, lq, lr. repeat (split; [first [reflexivity|assumption|lia|left; reflexivity]|]). assumption.
  - destruct (Z.leb_spec osr ts) as [Hos|Hos].
    2: { exists ts, q, r, lq, lr. repeat (split; [first [reflexivity|assumption|lia|left; reflexivity]|]). assumption. }
    destruct Hinv as (Cq & Tq & Cr & Tr & Lr & Hsum).
    assert (Hru : 0 <= uvalue lr) by (apply uvalue_range; apply Cr).
    assert (Hqu : 0 <= uvalue lq) by (apply uvalue_range; apply Cq).
    assert (HB : 0 <= uvalue b) by (apply uvalue_range; apply Hb).
    unfold bits_per_word.
    assert (Hdiv : (ts + 64) / 64 <= (t0 + 31) / 64) by (apply Z.div_le_mono; lia).
    assert (Hdiv0 : 0 <= (ts + 64) / 64) by (apply Z.div_pos; lia).
    rewrite (get_at_spec r lr) by (try assumption; lia). cbn [rbind].
    pose proof (step1 (uvalue b) os (osr + 64) (ts + 64) (uvalue lr) Hsc HB ltac:(lia) ltac:(lia)) as (Q1 & Q2 & Q3). cbn zeta in *.
    set (d := (uvalue lr / 2 ^ (ts + 64) mod W) / os) in *.
    replace (ts + 64 - (osr + 64) + 64) with (ts - osr + 64) in * by lia.
    assert (Hd : is_word d). { split; [lia|]. assert (2 ^ 33 < 2 ^ 64) by (apply Z.pow_lt_mono_r; lia). lia. }
    assert (Esum : (uvalue lq + d * 2 ^ (ts - osr)) * (uvalue b * W) + (uvalue lr - uvalue b * d * 2 ^ (ts - osr + 64)) = S0).
    { rewrite Z.pow_add_r by lia. change (2 ^ 64) with W. rewrite <- Hsum. ring. }
    assert (HQ0 : 0 <= uvalue lq + d * 2 ^ (ts - osr)).
    { apply Z.add_nonneg_nonneg; [assumption|]. apply Z.mul_nonneg_nonneg; [lia|apply Z.pow_nonneg; lia]. }
    assert (HQb : uvalue lq + d * 2 ^ (ts - osr) < 2 ^ qbits t0 (osr + 64)).
    { apply (q_bound (uvalue b) os _ t0 S0); try assumption; lia. }
    assert (Hneed : 2 ^ qbits t0 (osr + 64) <= W ^ Z.of_nat (Nat.max (length lq) (als_need (ts - osr)))).
    { destruct Hcap as [Hc|Hc].
      - apply Z.le_trans with (W ^ Z.of_nat (als_need (ts - osr))); [|apply Wpow_le; lia].
        rewrite Wpow_2. apply Z.pow_le_mono_r; [lia|]. pose proof (als_need_bits (ts - osr) ltac:(lia)). unfold qbits. lia.
      - apply Z.le_trans with (W ^ Z.of_nat (length lq)); [assumption|apply Wpow_le; lia]. }
    destruct (add_left_shifted_spec q lq d (ts - osr) Cq Hd ltac:(lia) ltac:(lia)) as (q' & lq' & A1 & A2 & A3 & A4 & A5).
    rewrite A1. cbn [rbind].
    destruct (umul_spec b d Hb Hd) as (U1 & U2 & U3).
    assert (Hdiv2 : (ts - osr + 64) / 64 <= (t0 + 31) / 64) by (destruct Hsc as [Ho _]; apply Z.div_le_mono; lia).
    assert (Hdiv20 : 0 <= (ts - osr + 64) / 64) by (apply Z.div_pos; lia).
    destruct (subtract_left_shifted_spec r lr (umul b d) (ts - osr + 64) Cr U1 U2 ltac:(lia) ltac:(lia)) as (r' & lr' & B1 & B2 & B3 & B4 & B5).
    { rewrite U3. assumption. }
    rewrite B1. cbn [rbind]. rewrite U3 in B5.
    destruct (IH (ts - 30) q' r' lq' lr') as (ts' & q'' & r'' & lq'' & lr'' & R1 & R2 & R3 & R4 & R5 & R6 & R7).
    + split; [assumption|]. split; [assumption|]. split; [assumption|]. split; [assumption|]. split; [congruence|].
      rewrite A5, B5. assumption.
    + lia.
    + rewrite B5. replace (ts - 30 + 64) with (ts + 64 - 30) by lia. assumption.
    + lia.
    + destruct Hsc as [? _]. lia.
    + right. rewrite A4. assumption.
    + exists ts', q'', r'', lq'', lr''. split; [assumption|]. split; [assumption|]. split; [assumption|].
      split; [assumption|]. split; [assumption|]. split; [|assumption]. right. clear - R6 Hos. destruct R6; lia.
Qed.

Lemma step2_mem b os osr t0 S0 N ts q r lq lr : scaled (uvalue b) os (osr + 64) -> wf b ->
  0 <= t0 -> (t0 + 31) / 64 < Z.of_nat N -> 0 <= S0 < W * 2 ^ t0 -> (2 <= N)%nat ->
  inv S0 (uvalue b) N q r lq lr -> 1 <= ts + 64 <= t0 -> ts < osr <= ts + 32 ->
  2 ^ qbits t0 (osr + 64) <= W ^ Z.of_nat (length lq) ->
  exists q' r' lq' lr',
    (a <- get_at false r (ts + bits_per_word) ;;
     q' <- add_left_shifted false q (wshr (a / os) (osr - ts)) 0 ;;
     r' <- subtract_left_shifted false r (umul b (wshr (a / os) (osr - ts))) bits_per_word ;; Ok (q', r')) = Ok (q', r') /\
    inv S0 (uvalue b) N q' r' lq' lr' /\
    uvalue lr' = uvalue lr - uvalue b * q2 (uvalue lr) os (osr + 64) (ts + 64) * W /\
    2 ^ qbits t0 (osr + 64) <= W ^ Z.of_nat (length lq').
Proof.
  intros Hsc Hb Ht0 HN HS0 HN2 (Cq & Tq & Cr & Tr & Lr & Hsum) Hts Hosr Hcap.
  assert (Hru : 0 <= uvalue lr) by (apply uvalue_range; apply Cr).
  assert (Hqu : 0 <= uvalue lq) by (apply uvalue_range; apply Cq).
  assert (HB : 0 <= uvalue b) by (apply uvalue_range; apply Hb).
  unfold bits_per_word.
  assert (Hdiv : (ts + 64) / 64 <= (t0 + 31) / 64) by (apply Z.div_le_mono; lia).
  assert (Hdiv0 : 0 <= (ts + 64) / 64) by (apply Z.div_pos; lia).
  rewrite (get_at_spec r lr) by (try assumption; lia). cbn [rbind].
  destruct (step2_le (uvalue b) os (osr + 64) (ts + 64) (uvalue lr) Hsc HB ltac:(lia) Hru) as [Q1 Q2].
  assert (Ed : wshr (uvalue lr / 2 ^ (ts + 64) mod W / os) (osr - ts) = q2 (uvalue lr) os (osr + 64) (ts + 64)).
  { unfold wshr, q2. rewrite Z.shiftr_div_pow2 by lia. do 2 f_equal. lia. }
  rewrite Ed. set (d := q2 (uvalue lr) os (osr + 64) (ts + 64)) in *. clearbody d. clear Ed.
  assert (Esum : (uvalue lq + d * 2 ^ 0) * (uvalue b * W) + (uvalue lr - uvalue b * d * W) = S0).
  { change (2 ^ 0) with 1. rewrite <- Hsum. ring. }
  assert (HQb : uvalue lq + d * 2 ^ 0 < 2 ^ qbits t0 (osr + 64)).
  { apply (q_bound (uvalue b) os _ t0 S0); try assumption; lia. }
  destruct (add_left_shifted_spec q lq d 0 Cq Q1 ltac:(lia)) as (q' & lq' & A1 & A2 & A3 & A4 & A5).
  { pose proof (Wpow_le (length lq) (Nat.max (length lq) (als_need 0)) ltac:(lia)). lia. }
  rewrite A1. cbn [rbind].
  destruct (umul_spec b d Hb Q1) as (U1 & U2 & U3).
  destruct (subtract_left_shifted_spec r lr (umul b d) 64 Cr U1 U2 ltac:(lia)) as (r' & lr' & B1 & B2 & B3 & B4 & B5).
  { change (Z.to_nat (64 / 64)) with 1%nat. lia. }
  { rewrite U3. exact Q2. }
  rewrite B1. cbn [rbind]. rewrite U3 in B5. change (2 ^ 64) with W in B5.
  exists q', r', lq', lr'. split; [reflexivity|]. split.
  - split; [assumption|]. split; [assumption|]. split; [assumption|]. split; [assumption|]. split; [congruence|].
    rewrite A5, B5. assumption.
  - split; [assumption|]. rewrite A4. apply Z.le_trans with (W ^ Z.of_nat (length lq)); [assumption|apply Wpow_le; lia].
Qed.

Lemma loop2_step b os osr fuel ts q r : osr <= ts + 32 ->
  div_loop2 (S fuel) false b os osr ts q r =
  (qr <- (a <- get_at false r (ts + bits_per_word) ;;
     q' <- add_left_shifted false q (wshr (a / os) (osr - ts)) 0 ;;
     r' <- subtract_left_shifted false r (umul b (wshr (a / os) (osr - ts))) bits_per_word ;; Ok (q', r')) ;;
   div_loop2 fuel false b os osr (ts - 30) (fst qr) (snd qr)).
Proof.
  intros H. cbn [div_loop2]. destruct (Z.leb_spec osr (ts + 32)); [|lia].
  destruct (get_at false r (ts + bits_per_word)); cbn [rbind]; try reflexivity.
  destruct (add_left_shifted false q _ 0); cbn [rbind]; try reflexivity.
  destruct (subtract_left_shifted false r _ _); reflexivity.
Qed.
Lemma loop2_stop b os osr fuel ts q r : ts + 32 < osr -> div_loop2 fuel false b os osr ts q r = Ok (q, r).
Proof. intros H. destruct fuel; cbn [div_loop2]; (destruct (Z.leb_spec osr (ts + 32)); [lia|reflexivity]). Qed.

(** Once the remainder is below twice the divisor it stays there. *)
Lemma loop2_small b os osr t0 S0 N fuel : scaled (uvalue b) os (osr + 64) -> wf b ->
  0 <= t0 -> (t0 + 31) / 64 < Z.of_nat N -> 0 <= S0 < W * 2 ^ t0 -> (2 <= N)%nat ->
  forall ts q r lq lr, inv S0 (uvalue b) N q r lq lr -> ts + 64 <= t0 -> ts < osr -> 32 < osr - ts + 30 * Z.of_nat fuel ->
  uvalue lr < 2 * (uvalue b * W) ->
  2 ^ qbits t0 (osr + 64) <= W ^ Z.of_nat (length lq) ->
  exists q' r' lq' lr', div_loop2 fuel false b os osr ts q r = Ok (q', r') /\
    inv S0 (uvalue b) N q' r' lq' lr' /\ uvalue lr' < 2 * (uvalue b * W) /\
    2 ^ qbits t0 (osr + 64) <= W ^ Z.of_nat (length lq').
Proof.
  intros Hsc Hb Ht0 HN HS0 HN2. induction fuel as [|fuel IH]; intros ts q r lq lr Hinv Hle Hts Hfuel Hsm Hcap.
  - rewrite loop2_stop by lia. exists q, r, lq, lr. auto.
  - destruct (Z.le_gt_cases osr (ts + 32)) as [Hk|Hk].
    2: { rewrite loop2_stop by lia. exists q, r, lq, lr. auto. }
    rewrite loop2_step by assumption. destruct Hsc as [Ho Hsc'].
    destruct (step2_mem b os osr t0 S0 N ts q r lq lr (conj Ho Hsc') Hb Ht0 HN HS0 HN2 Hinv ltac:(lia) ltac:(lia) Hcap)
      as (q' & r' & lq' & lr' & E1 & E2 & E3 & E4).
    rewrite E1. cbn [rbind fst snd].
    assert (Hsm' : uvalue lr' < 2 * (uvalue b * W)).
    { rewrite E3. assert (0 <= uvalue lr) by (apply uvalue_range; apply Hinv).
      assert (HB : 0 <= uvalue b) by (apply uvalue_range; apply Hb).
      destruct (step2_le (uvalue b) os (osr + 64) (ts + 64) (uvalue lr) (conj Ho Hsc') HB ltac:(lia) H) as [Q1 _].
      assert (0 <= uvalue b * q2 (uvalue lr) os (osr + 64) (ts + 64) * W).
      { apply Z.mul_nonneg_nonneg; [apply Z.mul_nonneg_nonneg; lia|pose proof W_pos; lia]. } lia. }
    apply (IH (ts - 30) q' r' lq' lr'); auto; lia.
Qed.

Lemma loop2_spec b os osr t0 S0 N ts q r lq lr : scaled (uvalue b) os (osr + 64) -> wf b ->
  0 <= t0 -> (t0 + 31) / 64 < Z.of_nat N -> 0 <= S0 < W * 2 ^ t0 -> (2 <= N)%nat ->
  inv S0 (uvalue b) N q r lq lr -> 1 <= ts + 64 <= t0 -> ts < osr ->
  uvalue lr < W * 2 ^ (ts + 64) ->
  2 ^ qbits t0 (osr + 64) <= W ^ Z.of_nat (length lq) ->
  exists q' r' lq' lr', div_loop2 4 false b os osr ts q r = Ok (q', r') /\
    inv S0 (uvalue b) N q' r' lq' lr' /\ uvalue lr' < 2 * (uvalue b * W) /\
    2 ^ qbits t0 (osr + 64) <= W ^ Z.of_nat (length lq').
Proof.
  intros Hsc Hb Ht0 HN HS0 HN2 Hinv Hts Hlt Hr Hcap.
  assert (Hru : 0 <= uvalue lr) by (apply uvalue_range; apply Hinv).
  assert (HB : 0 <= uvalue b) by (apply uvalue_range; apply Hb).
  destruct (Z.le_gt_cases osr (ts + 32)) as [Hk|Hk].
  2: { rewrite loop2_stop by lia. exists q, r, lq, lr. split; [reflexivity|]. split; [assumption|]. split; [|assumption].
       apply (no_step (uvalue b) os (osr + 64) (ts + 64)); try assumption; lia. }
  rewrite loop2_step by assumption.
  destruct (step2_mem b os osr t0 S0 N ts q r lq lr Hsc Hb Ht0 HN HS0 HN2 Hinv Hts ltac:(lia) Hcap)
      as (q' & r' & lq' & lr' & E1 & E2 & E3 & E4).
  rewrite E1. cbn [rbind fst snd].
  destruct (step2_bound (uvalue b) os (osr + 64) (ts + 64) (uvalue lr) Hsc HB ltac:(lia) ltac:(lia) ltac:(lia)) as [B1 B2].
  rewrite <- E3 in B1, B2.
  destruct (Z.eq_dec osr (ts + 1)) as [Ek|Nk].
  - specialize (B1 ltac:(lia)). clear B2. destruct Hsc as [Ho Hsc'].
    rewrite loop2_step by lia.
    destruct (step2_mem b os osr t0 S0 N (ts - 30) q' r' lq' lr' (conj Ho Hsc') Hb Ht0 HN HS0 HN2 E2 ltac:(lia) ltac:(lia) E4)
      as (q'' & r'' & lq'' & lr'' & F1 & F2 & F3 & F4).
    rewrite F1. cbn [rbind fst snd].
    assert (Hru' : 0 <= uvalue lr') by (apply uvalue_range; apply E2).
    replace (ts + 64 - 30) with (ts - 30 + 64) in B1 by lia.
    destruct (step2_bound (uvalue b) os (osr + 64) (ts - 30 + 64) (uvalue lr') (conj Ho Hsc') HB ltac:(lia) ltac:(lia) ltac:(lia)) as [_ G2].
    rewrite <- F3 in G2. specialize (G2 ltac:(lia)).
    rewrite loop2_stop by lia. exists q'', r'', lq'', lr''. auto.
  - specialize (B2 ltac:(lia)). clear B1.
    apply (loop2_small b os osr t0 S0 N 3 Hsc Hb Ht0 HN HS0 HN2 (ts - 30) q' r' lq' lr'); auto; lia.
Qed.

(** ** DivideRemainderSlow and DivideRemainder *)
Lemma ushl64_spec a : wf a -> utight a ->
  exists r l, ushl_mem a 64 = Ok r /\ clean r l /\ trimmed r l /\ length l = S (length a) /\ uvalue l = uvalue a * W.
Proof.
  intros Ha Ht. unfold ushl_mem. change (64 <=? 32) with false. rewrite andb_false_r. cbn iota zeta.
  change (64 mod bits_per_word) with 0. change (Z.to_nat (64 / bits_per_word)) with 1%nat. cbn [repeat].
  change (0 <? 0) with false. cbn iota.
  change ([Some 0] ++ map Some a) with (map Some (0 :: a)).
  destruct (mtrim_spec (Mem (map Some (0 :: a)) (length (map Some (0 :: a)))) (0 :: a)) as (m' & M1 & M2 & M3).
  { assert (Hw : Forall is_word (0 :: a)) by (constructor; [apply word0|apply Ha]).
    split; [reflexivity|]. split; [assumption|]. cbn [mused]. rewrite map_length.
    split; [cbn [length]; lia|]. apply uvalue_range, Hw. }
  exists m', (0 :: a). split; [exact M1|]. split; [exact M2|]. split; [exact M3|]. split; [reflexivity|].
  rewrite uvalue_cons. lia.
Qed.

Lemma shift_right_word_spec m l : clean m l -> exists m' l', shift_right_word m = Ok m' /\ clean m' l' /\ trimmed m' l' /\
  uvalue l' = uvalue l / W.
Proof.
  intros (E & Hf & Hn & Hv). unfold shift_right_word. rewrite E, firstn_map, skipn_map.
  destruct l as [|w l]; [cbn in Hn; lia|]. destruct (mused m) as [|u] eqn:Eu; [lia|].
  cbn [firstn skipn map]. inversion Hf as [|? ? Hw Hl]; subst. cbn [length] in Hn.
  change (Some 0 :: map Some (skipn u l)) with (map Some (0 :: skipn u l)). rewrite <- map_app.
  rewrite uvalue_cons, Wpow_S in Hv. pose proof (proj1 (word_range _ Hw)) as Hw0.
  assert (Hv' : uvalue l < W ^ Z.of_nat u) by (apply (tail_lt w); lia).
  destruct (uvalue_small_skip u l Hl ltac:(lia) Hv') as [Z1 Z2].
  set (l' := firstn u l ++ 0 :: skipn u l).
  assert (V : uvalue l' = uvalue l).
  { unfold l'. rewrite uvalue_app, uvalue_cons, Z1, Z2. lia. }
  destruct (mtrim_spec (Mem (map Some l') (S u)) l') as (m' & M1 & M2 & M3).
  { split; [reflexivity|]. split.
    - unfold l'. apply Forall_app. split; [apply firstn_words, Hl|]. constructor; [apply word0|apply skipn_words, Hl].
    - cbn [mused]. split.
      + unfold l'. rewrite app_length, firstn_length_le by lia. cbn [length]. rewrite skipn_length. lia.
      + rewrite V. pose proof (Wpow_le u (S u) ltac:(lia)). lia. }
  exists m', l'. split; [exact M1|]. split; [exact M2|]. split; [exact M3|].
  rewrite V, uvalue_cons. rewrite Z.mul_comm, Z.div_add by (unfold W; lia). rewrite Z.div_small by (apply word_range, Hw). lia.
Qed.

Lemma udiv_slow_spec a b : wf a -> wf b -> utight a -> utight b -> 0 < uvalue b ->
  (2 <= length a \/ 2 <= length b)%nat ->
  exists q r, udiv_slow false a b = Ok (q, r) /\ wf q /\ wf r /\ utight q /\ utight r /\
    uvalue a = uvalue q * uvalue b + uvalue r /\ 0 <= uvalue r < uvalue b.
Proof.
  intros Ha Hb Ta Tb Hpos Hlen. unfold udiv_slow.
  destruct (scale_divisor b) as [os osr] eqn:Es.
  assert (Htop : top b <> 0).
  { destruct Tb as [L|N]; [|assumption]. destruct b as [|x [|? ?]]; try discriminate. unfold top. cbn [last uvalue] in *. lia. }
  pose proof (scale_divisor_spec b os osr Hb Htop Es) as Hsc.
  destruct (ushl64_spec a Ha Ta) as (r0 & l0 & E0 & C0 & T0 & L0 & V0).
  change bits_per_word with 64. rewrite E0. cbn [rbind].
  assert (La : (1 <= length a)%nat) by (destruct Ha as [Hn _]; destruct a; [congruence|cbn; lia]).
  set (n := length a) in *. set (t0 := 64 * Z.of_nat n).
  pose proof (uvalue_range a (proj2 Ha)) as Hra. fold n in Hra. rewrite Wpow_2 in Hra. fold t0 in Hra.
  assert (HS0 : 0 <= uvalue l0 < W * 2 ^ t0).
  { rewrite V0. pose proof W_pos. split; [apply Z.mul_nonneg_nonneg; lia|]. rewrite Z.mul_comm. apply Z.mul_lt_mono_pos_l; lia. }
  assert (Ht0 : (t0 + 31) / 64 < Z.of_nat (S n)).
  { unfold t0. replace (64 * Z.of_nat n + 31) with (31 + Z.of_nat n * 64) by lia. rewrite Z.div_add by lia.
    change (31 / 64) with 0. lia. }
  assert (Hinv0 : inv (uvalue l0) (uvalue b) (S n) (Mem [Some 0] 1) r0 [0] l0).
  { split; [|split; [left; reflexivity|split; [assumption|split; [assumption|split; [assumption|cbn [uvalue]; lia]]]]].
    split; [reflexivity|]. split; [constructor; [apply word0|constructor]|]. cbn [mused length]. split; [lia|]. reflexivity. }
  assert (Ets : (Z.of_nat n - 1) * 64 + 64 = t0) by (unfold t0; lia).
  destruct (loop1_spec b os osr t0 (uvalue l0) (S n) (S (3 * n + 2)) Hsc Hb ltac:(lia) Ht0 HS0
     ((Z.of_nat n - 1) * 64) (Mem [Some 0] 1) r0 [0] l0 Hinv0) as (ts1 & q1 & r1 & lq1 & lr1 & R1 & R2 & R3 & R4 & R5 & R6 & R7).
  - lia.
  - rewrite Ets. lia.
  - rewrite Ets. unfold t0. lia.
  - lia.
  - left. assumption.
  - rewrite R1. cbn [rbind].
    assert (Hcap : 2 ^ qbits t0 (osr + 64) <= W ^ Z.of_nat (length lq1)).
    { destruct R7 as [R7|R7]; [|assumption]. unfold qbits.
      replace (Z.max (t0 - (osr + 64)) 0 + 34) with 34 by lia.
      apply Z.le_trans with (W ^ Z.of_nat 1); [|apply Wpow_le; destruct R2 as ((_ & _ & ? & _) & _); lia].
      rewrite Wpow_2. apply Z.pow_le_mono_r; lia. }
    destruct (loop2_spec b os osr t0 (uvalue l0) (S n) ts1 q1 r1 lq1 lr1 Hsc Hb ltac:(lia) Ht0 HS0 ltac:(lia) R2 ltac:(lia) R4 R3 Hcap)
      as (q2' & r2 & lq2 & lr2 & F1 & F2 & F3 & F4).
    rewrite F1. cbn [rbind]. destruct F2 as (Cq & Tq & Cr & Tr & Lr & Hsum).
    assert (Lr1 : (0 < length lr2)%nat) by lia.
    rewrite (rd_ok r2 lr2 0 (proj1 Cr) Lr1). unfold check. cbn [rbind andb].
    destruct (shift_right_word_spec r2 lr2 Cr) as (r3 & lr3 & G1 & G2 & G3 & G4). rewrite G1. cbn [rbind].
    destruct (words_spec r3 lr3 G2 G3) as (rw & W1 & W2 & W3 & W4). rewrite W1. cbn [rbind].
    assert (HR : uvalue a = uvalue lq2 * uvalue b + uvalue rw /\ 0 <= uvalue rw < 2 * uvalue b).
    { rewrite W4, G4. rewrite V0 in Hsum.
      assert (ER : uvalue lr2 = (uvalue a - uvalue lq2 * uvalue b) * W).
      { transitivity (uvalue a * W - uvalue lq2 * (uvalue b * W)); [lia|ring]. }
      assert (Hr0 : 0 <= uvalue lr2) by (apply uvalue_range; apply Cr).
      rewrite ER in *. rewrite Z.div_mul by (unfold W; lia). split; [lia|].
      pose proof W_pos. split; [apply (Z.mul_nonneg_cancel_r _ W); [assumption|lia]|].
      apply (Z.mul_lt_mono_pos_r W); [assumption|]. rewrite <- Z.mul_assoc. lia. }
    destruct HR as [HR1 HR2].
    rewrite (uge_spec rw b W2 Hb W3 Tb). destruct (Z.leb_spec (uvalue b) (uvalue rw)) as [Hge|Hlt].
    + destruct (usub_spec rw b W2 Hb Hge) as (rw' & X1 & X2 & X3 & X4). rewrite X1. cbn [rbind].
      assert (Hq1 : (uvalue lq2 + 1) * (uvalue b * W) <= uvalue l0).
      { rewrite V0, HR1. pose proof W_pos.
        replace ((uvalue lq2 * uvalue b + uvalue rw) * W) with (uvalue lq2 * (uvalue b * W) + uvalue rw * W) by ring.
        assert (uvalue b * W <= uvalue rw * W) by (apply Z.mul_le_mono_nonneg_r; lia). lia. }
      assert (Hq0 : 0 <= uvalue lq2) by (apply uvalue_range; apply Cq).
      pose proof (q_bound (uvalue b) os (osr + 64) t0 (uvalue l0) (uvalue lq2 + 1) Hsc ltac:(lia) ltac:(lia) ltac:(lia) ltac:(lia) Hq1) as Hqb.
      destruct (add_left_shifted_spec q2' lq2 1 0 Cq) as (q3 & lq3 & A1 & A2 & A3 & A4 & A5).
      { split; [lia|reflexivity]. }
      { lia. }
      { pose proof (Wpow_le (length lq2) (Nat.max (length lq2) (als_need 0)) ltac:(clear; lia)) as Hw. change (1 * 2 ^ 0) with 1. clear - Hw F4 Hqb. lia. }
      rewrite A1. cbn [rbind]. destruct (words_spec q3 lq3 A2 A3) as (qw & Y1 & Y2 & Y3 & Y4). rewrite Y1. cbn [rbind].
      exists qw, rw'. split; [reflexivity|]. repeat (split; [assumption|]).
      change (1 * 2 ^ 0) with 1 in A5. rewrite Y4, A5, X4. split; [rewrite HR1; ring|lia].
    + destruct (words_spec q2' lq2 Cq Tq) as (qw & Y1 & Y2 & Y3 & Y4). rewrite Y1. cbn [rbind].
      exists qw, rw. split; [reflexivity|]. repeat (split; [assumption|]). rewrite Y4. lia.
Qed.

Lemma udiv_spec a b : wf a -> wf b -> utight a -> utight b -> 0 < uvalue b ->
  exists q r, udiv false a b = Ok (q, r) /\ wf q /\ wf r /\ utight q /\ utight r /\
    uvalue a = uvalue q * uvalue b + uvalue r /\ 0 <= uvalue r < uvalue b.
Proof.
  intros Ha Hb Ta Tb Hpos. unfold udiv. destruct ((used a =? 1) && (used b =? 1)) eqn:E.
  - apply andb_prop in E as [E1 E2]. unfold used in *.
    destruct a as [|x [|? ?]]; try (cbn [length] in E1; lia). destruct b as [|y [|? ?]]; try (cbn [length] in E2; lia).
    cbn [first hd uvalue] in *. destruct (Z.eqb_spec y 0); [lia|].
    pose proof (wf_first _ Ha) as Hx. pose proof (wf_first _ Hb) as Hy. cbn [first hd] in *. apply word_range in Hx. apply word_range in Hy.
    exists [x / y], [x mod y]. split; [reflexivity|].
    pose proof (Z.div_mod x y ltac:(lia)). pose proof (Z.mod_pos_bound x y ltac:(lia)).
    assert (0 <= x / y) by (apply Z.div_pos; lia). assert (x / y <= x) by (apply Z.div_le_upper_bound; nia).
    split; [apply wf_cons; [change (0 <= x / y < W); lia|constructor]|].
    split; [apply wf_cons; [change (0 <= x mod y < W); lia|constructor]|].
    split; [apply single_utight|]. split; [apply single_utight|]. cbn [uvalue]. lia.
  - apply udiv_slow_spec; try assumption. unfold used in E.
    destruct Ha as [Hn _]. destruct Hb as [Hm _]. destruct a as [|x [|? ?]]; [congruence| |left; cbn; lia].
    destruct b as [|y [|? ?]]; [congruence|discriminate|right; cbn; lia].
Qed.
