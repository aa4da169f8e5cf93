(** GetLowestCost. *)
From Coq Require Import List ZArith QArith Arith Lia Lqa Bool Sorted FinFun Permutation.
From Verif Require Import BigUIntModel GeoModel GeoSpec EstModel EstSpec EstProofs EvtModel EvtSpec EvtTokProofs EvtProofs EvtArrProofs.
Import ListNotations.
Open Scope Z_scope.

(** ** Counting *)
Lemma counts_ext n P P' c : (forall i, (i < n)%nat -> P i <-> P' i) -> counts n P c -> counts n P' c.
Proof. intros E (l & N & I & C). exists l. split; [exact N|]. split; [|exact C]. intros i. rewrite I. split; intros [A B]; (split; [exact A|apply E; assumption]). Qed.
Lemma counts_unique n P a b : counts n P a -> counts n P b -> a = b.
Proof.
  intros (l & N & I & ->) (l' & N' & I' & ->). f_equal. apply Permutation_length. apply NoDup_Permutation; [exact N|exact N'|]. intros x. rewrite I, I'. reflexivity.
Qed.
Lemma counts_nonneg n P c : counts n P c -> 0 <= c.
Proof. intros (l & _ & _ & ->). lia. Qed.
Lemma counts_all n : counts n (fun _ => True) (Z.of_nat n).
Proof. exists (seq 0 n). split; [apply seq_NoDup|]. split; [|rewrite seq_length; reflexivity]. intros i. rewrite in_seq. intuition lia. Qed.
Lemma counts_or n P R a b : counts n P a -> counts n R b -> (forall i, (i < n)%nat -> P i -> R i -> False) -> counts n (fun i => P i \/ R i) (a + b).
Proof.
  intros (l & N & I & ->) (l' & N' & I' & ->) D. exists (l ++ l'). split; [|split].
  - clear - N N' I I' D. assert (X : forall x, In x l -> ~ In x l') by (intros x A B; apply I in A as [A A']; apply I' in B as [_ B]; exact (D x A A' B)). clear I I' D.
    induction l as [|x l IH]; [exact N'|]. inversion N; subst. cbn [app]. constructor; [rewrite in_app_iff; intros [Y|Y]; [contradiction|exact (X x (or_introl eq_refl) Y)]|]. apply IH; [assumption|]. intros y Y. apply X. right. exact Y.
  - intros i. rewrite in_app_iff, I, I'. tauto.
  - rewrite app_length. lia.
Qed.
Lemma counts_zero n P : (forall i, (i < n)%nat -> ~ P i) -> counts n P 0.
Proof. intros H. exists []. split; [constructor|]. split; [|reflexivity]. intros i. split; [intros []|intros [A B]; exact (H i A B)]. Qed.
Lemma counts_le n P R a b : counts n P a -> counts n R b -> (forall i, (i < n)%nat -> P i -> R i) -> a <= b.
Proof.
  intros (l & N & I & ->) (l' & N' & I' & ->) D. assert (length l <= length l')%nat; [|lia]. apply NoDup_incl_length; [exact N|]. intros x X. apply I in X as [X Y]. apply I'. auto.
Qed.

Lemma nth_lt {A} (l : list A) k x : nth_error l k = Some x -> (k < length l)%nat.
Proof. intros E. apply nth_error_Some. rewrite E. discriminate. Qed.
Section Cost.
Context (d : nat) (ps : list epoly) (evs : list event) (F : list tok).
Notation n := (length ps).
Notation lo := (lo d ps). Notation hi := (hi d ps).
Context (AR : Forall2 (tok_of (nth_error evs)) evs F) (T : toks_ok n lo hi F).
(** How many of the first k pairs satisfy f. *)
Fixpoint cnt (f : tok -> bool) (k : nat) : Z :=
  match k with O => 0 | S k => cnt f k + match nth_error F k with Some t => if f t then 1 else 0 | None => 0 end end.
Lemma cnt_mono f a b : (a <= b)%nat -> cnt f a <= cnt f b.
Proof. induction 1 as [|b _ IH]; [lia|]. cbn [cnt]. destruct (nth_error F b) as [t|]; [destruct (f t)|]; lia. Qed.
Lemma cnt_counts f c a b : (forall t, f t = true -> fst t = c) -> (a <= b)%nat ->
  counts n (fun i => exists j, (a <= j < b)%nat /\ nth_error F j = Some (c, i) /\ f (c, i) = true) (cnt f b - cnt f a).
Proof.
  intros Hf. induction 1 as [|b L IH].
  - rewrite Z.sub_diag. apply counts_zero. intros i _ (j & J & _). lia.
  - cbn [cnt]. destruct (nth_error F b) as [t|] eqn:E.
    + destruct (f t) eqn:Ft.
      * assert (Et : t = (c, snd t)) by (pose proof (Hf t Ft) as X; destruct t as [x y]; cbn [fst snd] in *; congruence). assert (B : (snd t < n)%nat) by (apply (t_all _ _ _ _ T); exact (nth_error_In _ _ E)).
        replace (cnt f b + 1 - cnt f a) with (cnt f b - cnt f a + 1) by lia.
        apply (counts_ext n (fun i => (exists j, (a <= j < b)%nat /\ nth_error F j = Some (c, i) /\ f (c, i) = true) \/ i = snd t)).
        { intros i Hi. split.
          - intros [(j & J & X)| ->]; [exists j; split; [lia|exact X]|]. exists b. rewrite <- Et. split; [lia|]. auto.
          - intros (j & J & X & Y). destruct (Nat.eq_dec j b) as [->|J']; [right; rewrite E in X; injection X as ->; reflexivity|]. left. exists j. split; [lia|auto]. }
        apply counts_or; [exact IH| |].
        -- exists [snd t]. split; [constructor; [intros []|constructor]|]. split; [|reflexivity]. intros i. cbn [In]. split; [intros [<-|[]]; auto|intros [_ ->]; left; reflexivity].
        -- intros i Hi (j & J & X & _) ->. rewrite <- Et in X. pose proof (NoDup_nth (t_nodup _ _ _ _ T) _ _ _ X E). lia.
      * rewrite Z.add_0_r. revert IH. apply counts_ext. intros i Hi. split; intros (j & J & X & Y); [exists j; split; [lia|auto]|]. exists j. split; [|auto].
        destruct (Nat.eq_dec j b) as [->|J']; [|lia]. rewrite E in X. injection X as ->. congruence.
    + rewrite Z.add_0_r. revert IH. apply counts_ext. intros i Hi. split; intros (j & J & X & Y); [exists j; split; [lia|auto]|]. exists j. split; [|auto].
      destruct (Nat.eq_dec j b) as [->|J']; [congruence|lia].
Qed.
Context (excl : option nat).
Definition inc (t : tok) : bool := match nth_error ps (snd t) with Some p => negb (is_excl excl (e_id p)) | None => false end.
Definition fs (t : tok) : bool := fst t.
Definition fe (t : tok) : bool := negb (fst t).
Definition fsi (t : tok) : bool := fst t && inc t.
Definition fei (t : tok) : bool := negb (fst t) && inc t.
Lemma inc_iff c i : inc (c, i) = true <-> included excl ps i.
Proof.
  unfold inc, included. cbn [snd]. destruct (nth_error ps i) as [p|]; [|split; [discriminate|intros (p & X & _); discriminate X]]. unfold is_excl. split.
  - intros H. exists p. split; [reflexivity|]. destruct excl as [x|]; [|trivial]. apply negb_true_iff, Nat.eqb_neq in H. exact H.
  - intros (p' & X & Y). injection X as <-. destruct excl as [x|]; [|reflexivity]. apply negb_true_iff, Nat.eqb_neq. exact Y.
Qed.
Lemma spans_of k c i : nth_error F k = Some (c, i) -> exists s e, spans evs s e i /\ k = if c then s else e.
Proof.
  intros E. destruct (partner d ps F T _ (nth_error_In _ _ E)) as (s & e & A & B). cbn [snd] in A, B. exists s, e. split; [apply (spans_iff d ps evs F AR T); auto|].
  destruct c; exact (NoDup_nth (t_nodup _ _ _ _ T) _ _ _ E ltac:(eassumption)).
Qed.
Lemma begun_counts k : counts n (begun evs k) (cnt fs (S k)) /\ counts n (fun i => begun evs k i /\ included excl ps i) (cnt fsi (S k)).
Proof.
  split.
  - pose proof (cnt_counts fs true 0 (S k) ltac:(auto) ltac:(lia)) as C. cbn [cnt] in C. rewrite Z.sub_0_r in C. revert C. apply counts_ext. intros i Hi. split.
    + intros (j & J & X & _). destruct (spans_of j true i X) as (s & e & Y & ->). exists s, e. split; [exact Y|lia].
    + intros (s & e & Y & L). apply (spans_iff d ps evs F AR T) in Y as [Y _]. exists s. split; [lia|]. auto.
  - pose proof (cnt_counts fsi true 0 (S k)) as C. cbn [cnt] in C. rewrite Z.sub_0_r in C. apply (counts_ext n (fun i => exists j, (0 <= j < S k)%nat /\ nth_error F j = Some (true, i) /\ fsi (true, i) = true)).
    + intros i Hi. unfold fsi. cbn [fst andb]. setoid_rewrite inc_iff. split.
      * intros (j & J & X & Y). destruct (spans_of j true i X) as (s & e & Z & ->). split; [exists s, e; split; [exact Z|lia]|exact Y].
      * intros [(s & e & Y & L) I]. apply (spans_iff d ps evs F AR T) in Y as [Y _]. exists s. split; [lia|]. auto.
    + apply C; [|lia]. intros t X. apply andb_true_iff in X as [X _]. exact X.
Qed.
Lemma cnt_end_all : cnt fe (2 * n) = Z.of_nat n.
Proof.
  pose proof (cnt_counts fe false 0 (2 * n)) as C. cbn [cnt] in C. rewrite Z.sub_0_r in C. apply (counts_unique n (fun _ => True)); [|apply counts_all].
  apply (counts_ext n (fun i => exists j, (0 <= j < 2 * n)%nat /\ nth_error F j = Some (false, i) /\ fe (false, i) = true)).
  - intros i Hi. split; [trivial|]. intros _. assert (I : In (false, i) F) by (apply (t_all _ _ _ _ T); exact Hi). apply In_nth_error in I as (j & J). exists j. split; [|auto].
    split; [lia|]. rewrite <- (toks_length _ _ _ _ T). eapply nth_lt; eassumption.
  - apply C; [|lia]. intros t X. apply negb_true_iff in X. exact X.
Qed.
Lemma cnt_endi_all c : counts n (fun i => ~ included excl ps i) c -> cnt fei (2 * n) = Z.of_nat n - c.
Proof.
  intros HC. pose proof (cnt_counts fei false 0 (2 * n)) as C. cbn [cnt] in C. rewrite Z.sub_0_r in C. assert (X : counts n (included excl ps) (cnt fei (2 * n))).
  { apply (counts_ext n (fun i => exists j, (0 <= j < 2 * n)%nat /\ nth_error F j = Some (false, i) /\ fei (false, i) = true)).
    - intros i Hi. unfold fei. cbn [fst negb andb]. setoid_rewrite inc_iff. split; [intros (j & _ & _ & Y); exact Y|]. intros Y. assert (I : In (false, i) F) by (apply (t_all _ _ _ _ T); exact Hi). apply In_nth_error in I as (j & J). exists j. split; [|auto].
      split; [lia|]. rewrite <- (toks_length _ _ _ _ T). eapply nth_lt; eassumption.
    - apply C; [|lia]. intros t X. apply andb_true_iff in X as [X _]. apply negb_true_iff in X. exact X. }
  enough (cnt fei (2 * n) + c = Z.of_nat n) by lia. apply (counts_unique n (fun i => included excl ps i \/ ~ included excl ps i)).
  - apply counts_or; [exact X|exact HC|]. intros i _ A B. exact (B A).
  - apply (counts_ext n (fun _ => True)); [|apply counts_all]. intros i Hi. split; [|trivial]. intros _. rewrite <- (inc_iff true). destruct (inc (true, i)); [left; reflexivity|right; discriminate].
Qed.
Lemma pending_counts k c : (S k <= 2 * n)%nat -> counts n (fun i => ~ included excl ps i) c ->
  counts n (pending evs k) (Z.of_nat n - cnt fe (S k)) /\ counts n (fun i => pending evs k i /\ included excl ps i) (Z.of_nat n - c - cnt fei (S k)).
Proof.
  intros K HC. assert (B : forall j x, nth_error F j = Some x -> (j < 2 * n)%nat) by (intros j x X; rewrite <- (toks_length _ _ _ _ T); eapply nth_lt; eassumption). split.
  - rewrite <- cnt_end_all. apply (counts_ext n (fun i => exists j, (S k <= j < 2 * n)%nat /\ nth_error F j = Some (false, i) /\ fe (false, i) = true)).
    + intros i Hi. split.
      * intros (j & J & X & _). destruct (spans_of j false i X) as (s & e & Y & ->). exists s, e. split; [exact Y|lia].
      * intros (s & e & Y & L). apply (spans_iff d ps evs F AR T) in Y as [_ Y]. exists e. pose proof (B _ _ Y). split; [lia|]. auto.
    + apply cnt_counts; [|exact K]. intros t X. apply negb_true_iff in X. exact X.
  - rewrite <- (cnt_endi_all c HC). apply (counts_ext n (fun i => exists j, (S k <= j < 2 * n)%nat /\ nth_error F j = Some (false, i) /\ fei (false, i) = true)).
    + intros i Hi. unfold fei. cbn [fst negb andb]. setoid_rewrite inc_iff. split.
      * intros (j & J & X & Z). destruct (spans_of j false i X) as (s & e & Y & ->). split; [exists s, e; split; [exact Y|lia]|exact Z].
      * intros [(s & e & Y & L) I]. apply (spans_iff d ps evs F AR T) in Y as [_ Y]. exists e. pose proof (B _ _ Y). split; [lia|]. auto.
    + apply cnt_counts; [|exact K]. intros t X. apply andb_true_iff in X as [X _]. apply negb_true_iff in X. exact X.
Qed.
(** ** The loop *)
Context (wide : bool) (ec : Z) (EC : counts n (fun i => ~ included excl ps i) ec).
Context (SMALL : Z.of_nat n < 2 ^ 57) (WIDE : wide = true \/ Z.of_nat n < 2 ^ 31).
Definition nA k := interpolation (cnt fs k) (cnt fsi k + 1).
Definition nB k := interpolation (Z.of_nat n - cnt fe k) (Z.of_nat n - ec - cnt fei k + 1).
Definition pc (c : nat) : part := Part c (nA (S c) + nB (S c)) (nA (S c)) (nB (S c)) (cnt fs (S c)) (Z.of_nat n - cnt fe (S c)) 0 0 0.
Lemma sub_le f g k : (forall t, f t = true -> g t = true) -> 0 <= cnt f k <= cnt g k.
Proof.
  intros H. induction k as [|k IH]; cbn [cnt]; [lia|]. destruct (nth_error F k) as [t|]; [|lia]. specialize (H t). destruct (f t), (g t); lia.
Qed.
Lemma fsi_fs k : 0 <= cnt fsi k <= cnt fs k.
Proof. apply sub_le. intros t X. apply andb_true_iff in X as [X _]. exact X. Qed.
Lemma fei_fe k : 0 <= cnt fei k <= cnt fe k.
Proof. apply sub_le. intros t X. apply andb_true_iff in X as [X _]. exact X. Qed.
Lemma ranges k : (k <= 2 * n)%nat -> 0 <= cnt fs k <= Z.of_nat n /\ 0 <= cnt fsi k <= cnt fs k /\ 0 <= Z.of_nat n - cnt fe k <= Z.of_nat n /\ 0 <= Z.of_nat n - ec - cnt fei k <= Z.of_nat n /\
  0 <= ec <= Z.of_nat n.
Proof.
  intros K. pose proof (fsi_fs k) as A. pose proof (fei_fe k) as B. pose proof (cnt_mono fe k (2 * n) K) as C. rewrite cnt_end_all in C. pose proof (cnt_mono fei k (2 * n) K) as D. rewrite (cnt_endi_all ec EC) in D.
  pose proof (counts_nonneg _ _ _ EC). assert (ec <= Z.of_nat n) by (apply (counts_le n _ _ _ _ EC (counts_all n)); trivial).
  assert (cnt fs k <= Z.of_nat n).
  { destruct k as [|k]; [cbn [cnt]; lia|]. apply (counts_le n _ _ _ _ (proj1 (begun_counts k)) (counts_all n)). trivial. }
  lia.
Qed.
Lemma interp_small m l : 0 <= m <= Z.of_nat n -> 0 <= l <= Z.of_nat n -> 0 <= interpolation m (l + 1) <= 59 * 2 ^ 57.
Proof.
  intros M L. split; [apply interpolation_nonneg; lia|]. unfold interpolation. pose proof (log2_bounds (l + 1) ltac:(lia)) as B. set (e := Z.log2 (l + 1)) in *. pose proof (Z.log2_nonneg (l + 1)) as E0. fold e in E0.
  assert (E1 : e <= 57) by (change 57 with (Z.log2 (2 ^ 57)); apply Z.log2_le_mono; lia). assert (P : 0 < 2 ^ e) by (apply Z.pow_pos_nonneg; lia).
  assert (D : m * (l + 1) / 2 ^ e <= 2 * m) by (apply Z.div_le_upper_bound; nia). nia.
Qed.
Lemma est m l last : good_state last -> 0 <= m <= Z.of_nat n -> 0 <= l <= Z.of_nat n ->
  estimate wide last m (l + 1) = Ok (Z.log2 (l + 1), interpolation m (l + 1)).
Proof.
  intros G M L. pose proof (interp_small m l M L) as IS. rewrite estimate_eq; [rewrite Z.mod_small by lia; reflexivity|exact G|lia|lia|].
  destruct WIDE as [W|W]; [left; exact W|right]. assert (m * (l + 1) <= (2 ^ 31 - 1) * 2 ^ 31) by (apply Z.mul_le_mono_nonneg; lia). lia.
Qed.
(** Candidates, and the best one among those below k. *)
Definition cand (c : nat) : Prop := (exists i, nth_error F c = Some (false, i)) /\ (S c = 2 * n \/ exists i, nth_error F (S c) = Some (true, i))%nat.
Definition best_of (k : nat) (b : option part) : Prop :=
  match b with
  | None => forall c, (S c < k)%nat -> ~ cand c
  | Some p => exists m, p = pc m /\ cand m /\ (S m < k)%nat /\ forall c, (S c < k)%nat -> cand c -> p_cost (pc m) <= p_cost (pc c) /\ ((c < m)%nat -> p_cost (pc m) < p_cost (pc c))
  end.
Definition was_end (k : nat) : bool := match k with O => false | S j => match nth_error F j with Some (false, _) => true | _ => false end end.
Record at_k (k : nat) (s : cstate) : Prop := AtK {
  k_neg : c_neg s = cnt fs k; k_pos : c_pos s = Z.of_nat n - cnt fe k; k_nlog : c_nlog s = cnt fsi k + 1; k_plog : c_plog s = Z.of_nat n - ec - cnt fei k + 1;
  k_nest : good_state (c_nest s); k_pest : good_state (c_pest s); k_was : c_was_end s = was_end k; k_best : best_of k (c_best s) }.
Lemma cost_small c : (S c <= 2 * n)%nat -> 0 <= p_cost (pc c) < size_max.
Proof.
  intros K. cbn [p_cost pc]. pose proof (ranges (S c) K) as R. pose proof (interp_small (cnt fs (S c)) (cnt fsi (S c)) ltac:(lia) ltac:(lia)) as A.
  pose proof (interp_small (Z.of_nat n - cnt fe (S c)) (Z.of_nat n - ec - cnt fei (S c)) ltac:(lia) ltac:(lia)) as B. unfold nA, nB, size_max. lia.
Qed.
Lemma consider_ok c s : (S c <= 2 * n)%nat -> cand c -> at_k (S c) s -> exists s', consider wide (S c) s = Ok s' /\
  c_neg s' = c_neg s /\ c_pos s' = c_pos s /\ c_nlog s' = c_nlog s /\ c_plog s' = c_plog s /\ good_state (c_nest s') /\ good_state (c_pest s') /\ c_was_end s' = c_was_end s /\ best_of (S (S c)) (c_best s').
Proof.
  intros K CD [K1 K2 K3 K4 K5 K6 K7 K8]. pose proof (ranges (S c) K) as R. unfold consider. rewrite K1, K2, K3, K4. rewrite !est by (try assumption; lia). cbn [rbind fst snd].
  pose proof (cost_small c K) as CS. assert (EC' : size_mod (interpolation (cnt fs (S c)) (cnt fsi (S c) + 1) + interpolation (Z.of_nat n - cnt fe (S c)) (Z.of_nat n - ec - cnt fei (S c) + 1)) = p_cost (pc c)).
  { unfold size_mod. apply Z.mod_small. cbn [p_cost pc] in *. unfold nA, nB, size_max in *. lia. }
  rewrite EC'. replace (S c - 1)%nat with c by lia.
  eexists. split; [reflexivity|]. cbn [c_neg c_pos c_nlog c_plog c_nest c_pest c_was_end c_best]. repeat (split; [reflexivity|]). split; [apply Z.log2_nonneg|]. split; [apply Z.log2_nonneg|]. split; [reflexivity|].
  fold (nA (S c)). fold (nB (S c)). destruct (c_best s) as [p|]; cbn [best_of] in K8.
  - destruct K8 as (m & -> & CM & LM & MIN). destruct (Z.ltb_spec (p_cost (pc c)) (p_cost (pc m))) as [L|L].
    + exists c. split; [reflexivity|]. split; [exact CD|]. split; [lia|]. intros c' L' CD'. destruct (Nat.eq_dec c' c) as [->|NE]; [split; lia|]. destruct (MIN c' ltac:(lia) CD'). lia.
    + exists m. split; [reflexivity|]. split; [exact CM|]. split; [lia|]. intros c' L' CD'. destruct (Nat.eq_dec c' c) as [->|NE]; [split; lia|]. destruct (MIN c' ltac:(lia) CD'). lia.
  - rewrite (proj2 (Z.ltb_lt _ _) (proj2 CS)). exists c. split; [reflexivity|]. split; [exact CD|]. split; [lia|]. intros c' L' CD'. destruct (Nat.eq_dec c' c) as [->|NE]; [split; lia|]. exfalso. exact (K8 c' ltac:(lia) CD').
Qed.
Lemma best_skip k b : (k = 0%nat \/ was_end k = false \/ (k < 2 * n)%nat /\ forall i, nth_error F k <> Some (true, i)) -> best_of k b -> best_of (S k) b.
Proof.
  intros H B. assert (NC : forall c, S c = k -> ~ cand c).
  { intros c E [(i & C1) C2]. destruct H as [H|[H|[H1 H2]]]; [lia| |].
    - subst k. cbn [was_end] in H. rewrite C1 in H. discriminate H.
    - rewrite E in C2. destruct C2 as [C2|(j & C2)]; [lia|exact (H2 j C2)]. }
  assert (LT : forall c, (S c < S k)%nat -> cand c -> (S c < k)%nat) by (intros c L C; destruct (Nat.eq_dec (S c) k) as [E|E]; [exfalso; exact (NC c E C)|lia]).
  destruct b as [p|]; cbn [best_of] in *.
  - destruct B as (m & E & CM & LM & MIN). exists m. split; [exact E|]. split; [exact CM|]. split; [lia|]. intros c L C. apply MIN; [apply LT; assumption|exact C].
  - intros c L C. exact (B c (LT c L C) C).
Qed.
Lemma id_ok i : (i < n)%nat -> exists p, nth_error ps i = Some p /\ id_of ps i = Ok (e_id p) /\ forall c, inc (c, i) = negb (is_excl excl (e_id p)).
Proof.
  intros H. destruct (nth_error ps i) as [p|] eqn:E; [|apply nth_error_None in E; lia]. exists p. split; [reflexivity|]. unfold id_of, inc. cbn [snd]. rewrite E. auto.
Qed.
Lemma size_small z : 0 <= z < 2 ^ 64 -> size_mod z = z.
Proof. intros H. unfold size_mod. apply Z.mod_small. exact H. Qed.
Lemma cnt_S f k t : nth_error F k = Some t -> cnt f (S k) = cnt f k + if f t then 1 else 0.
Proof. intros E. cbn [cnt]. rewrite E. reflexivity. Qed.
Lemma step_at k s : (k < 2 * n)%nat -> at_k k s -> exists s', cost_step wide excl ps evs k s = Ok s' /\ at_k (S k) s'.
Proof.
  intros K A. pose proof (arr_length d ps evs F AR T) as LE. unfold cost_step. destruct (nth_error evs k) as [e|] eqn:Ee; [|apply nth_error_None in Ee; lia].
  destruct (F2_nth_l AR k e Ee) as ([b i] & Et & [T1 T2]). cbn [fst snd] in *. assert (Hi : (i < n)%nat) by (apply (t_all _ _ _ _ T (b, i)); exact (nth_error_In _ _ Et)).
  destruct (id_ok i Hi) as (p & Ep & Eid & Einc). pose proof (ranges k ltac:(lia)) as R. pose proof (ranges (S k) ltac:(lia)) as R'. rewrite !(cnt_S _ _ _ Et) in R'.
  destruct (ev_start e).
  - subst b. change (fs (true, i)) with true in R'. change (fe (true, i)) with false in R'. change (fsi (true, i)) with (inc (true, i)) in R'. change (fei (true, i)) with false in R'. rewrite Einc in R'. cbv iota in R'. destruct T2 as (f & Ef & Ef1 & Ef2).
    assert (X : exists s', (if c_was_end s then s0 <- consider wide k s ;; Ok (CS (c_neg s0) (c_pos s0) (c_nlog s0) (c_plog s0) (c_nest s0) (c_pest s0) false (c_best s0)) else Ok s) = Ok s' /\
      c_neg s' = c_neg s /\ c_pos s' = c_pos s /\ c_nlog s' = c_nlog s /\ c_plog s' = c_plog s /\ good_state (c_nest s') /\ good_state (c_pest s') /\ c_was_end s' = false /\ best_of (S k) (c_best s')).
    { rewrite (k_was _ _ A). destruct (was_end k) eqn:WE.
      - destruct k as [|c]; [discriminate WE|]. cbn [was_end] in WE. assert (CD : cand c).
        { split; [|right; exists i; exact Et]. destruct (nth_error F c) as [[[|] j]|]; try discriminate WE. exists j. reflexivity. }
        destruct (consider_ok c s ltac:(lia) CD A) as (s' & -> & S1 & S2 & S3 & S4 & S5 & S6 & S7 & S8). cbn [rbind]. eexists. split; [reflexivity|]. cbn [c_neg c_pos c_nlog c_plog c_nest c_pest c_was_end c_best]. auto 10.
      - exists s. split; [reflexivity|]. destruct A as [K1 K2 K3 K4 K5 K6 K7 K8]. repeat (split; [reflexivity|]). split; [exact K5|]. split; [exact K6|]. split; [congruence|]. apply best_skip; [right; left; exact WE|exact K8]. }
    destruct X as (s' & -> & S1 & S2 & S3 & S4 & S5 & S6 & S7 & S8). cbn [rbind]. rewrite Ef, Ef2, Eid. cbn [rbind]. eexists. split; [reflexivity|]. destruct A as [K1 K2 K3 K4 K5 K6 K7 K8].
    constructor; cbn [c_neg c_pos c_nlog c_plog c_nest c_pest c_was_end c_best]; rewrite ?(cnt_S _ _ _ Et); change (fs (true, i)) with true; change (fe (true, i)) with false; change (fsi (true, i)) with (inc (true, i)); change (fei (true, i)) with false; rewrite ?Einc; cbv iota.
    + rewrite S1, K1. apply size_small. lia.
    + rewrite S2, K2. lia.
    + rewrite S3, K3. destruct (is_excl excl (e_id p)); cbn [negb]; [lia|]. rewrite size_small by lia. lia.
    + rewrite S4, K4. lia.
    + exact S5.
    + exact S6.
    + rewrite S7. cbn [was_end]. rewrite Et. reflexivity.
    + exact S8.
  - subst b. change (fs (false, i)) with false in R'. change (fe (false, i)) with true in R'. change (fsi (false, i)) with false in R'. change (fei (false, i)) with (inc (false, i)) in R'. rewrite Einc in R'. cbv iota in R'. rewrite T2, Eid. cbn [rbind]. eexists. split; [reflexivity|]. destruct A as [K1 K2 K3 K4 K5 K6 K7 K8].
    constructor; cbn [c_neg c_pos c_nlog c_plog c_nest c_pest c_was_end c_best]; rewrite ?(cnt_S _ _ _ Et); change (fs (false, i)) with false; change (fe (false, i)) with true; change (fsi (false, i)) with false; change (fei (false, i)) with (inc (false, i)); rewrite ?Einc; cbv iota.
    + rewrite K1. lia.
    + rewrite K2, size_small by lia. lia.
    + rewrite K3. lia.
    + rewrite K4. destruct (is_excl excl (e_id p)); cbn [negb] in *; [lia|]. rewrite size_small by lia. lia.
    + exact K5.
    + exact K6.
    + cbn [was_end]. rewrite Et. reflexivity.
    + apply best_skip; [|exact K8]. right. right. split; [exact K|]. intros j X. rewrite Et in X. discriminate X.
Qed.
Lemma cost_loop_ok m : forall k s, (k + m <= 2 * n)%nat -> at_k k s -> exists s', cost_loop wide excl ps evs (seq k m) s = Ok s' /\ at_k (k + m) s'.
Proof.
  induction m as [|m IH]; intros k s L A; cbn [seq cost_loop]; [exists s; rewrite Nat.add_0_r; auto|].
  destruct (step_at k s ltac:(lia) A) as (s' & -> & A'). cbn [rbind]. replace (k + S m)%nat with (S k + m)%nat by lia. apply IH; [lia|exact A'].
Qed.
Lemma lowest_ok : (0 < n)%nat -> exists m, lowest_cost wide excl ec ps evs = Ok (Some (pc m)) /\ cand m /\
  forall c, cand c -> p_cost (pc m) <= p_cost (pc c) /\ ((c < m)%nat -> p_cost (pc m) < p_cost (pc c)).
Proof.
  intros N0. unfold lowest_cost. pose proof (ranges 0 ltac:(lia)) as R. cbn [cnt] in R.
  destruct (cost_loop_ok (2 * n) 0 (CS 0 (Z.of_nat n) 1 (size_mod (size_mod (Z.of_nat n - ec) + 1)) estimator_init estimator_init false None)) as (s & -> & A); [lia| |].
  { constructor; cbn [c_neg c_pos c_nlog c_plog c_nest c_pest c_was_end c_best cnt was_end best_of]; try reflexivity; try lia; try (unfold good_state, estimator_init; lia). rewrite !size_small; [lia|lia|rewrite size_small; lia]. }
  cbn [rbind Nat.add] in *. destruct (2 * n)%nat as [|c] eqn:E; [lia|].
  assert (LAST : exists i, nth_error F c = Some (false, i)).
  { destruct (nth_error F c) as [[[|] i]|] eqn:Ec; [|exists i; reflexivity|apply nth_error_None in Ec; rewrite (toks_length _ _ _ _ T) in Ec; lia].
    exfalso. destruct (partner d ps F T _ (nth_error_In _ _ Ec)) as (a & b & A1 & B1). cbn [snd] in *. pose proof (proj1 (t_order _ _ _ _ T i c b Ec B1)) as X. assert (b < length F)%nat by (eapply nth_lt; eassumption). rewrite (toks_length _ _ _ _ T) in *. lia. }
  assert (CD : cand c) by (split; [exact LAST|left; lia]).
  rewrite (k_was _ _ A). cbn [was_end]. destruct LAST as (i & LAST). rewrite LAST. destruct (consider_ok c s ltac:(lia) CD A) as (s' & -> & _ & _ & _ & _ & _ & _ & _ & B). cbn [rbind].
  assert (CB : forall c', cand c' -> (S c' < S (S c))%nat).
  { intros c' [(j & C1) _]. assert (c' < length F)%nat by (eapply nth_lt; eassumption). rewrite (toks_length _ _ _ _ T) in *. lia. }
  destruct (c_best s') as [p|]; cbn [best_of] in B; [|exfalso; exact (B c ltac:(lia) CD)].
  destruct B as (m & -> & CM & _ & MIN). exists m. split; [reflexivity|]. split; [exact CM|]. intros c' C'. apply MIN; [apply CB; exact C'|exact C'].
Qed.
Lemma cand_iff c : candidate evs c <-> cand c.
Proof.
  unfold candidate, cand. rewrite (arr_length d ps evs F AR T). split.
  - intros [(a & A1 & A2) B]. destruct (F2_nth_l AR c a A1) as ([x i] & X1 & [X2 _]). cbn [fst] in X2. rewrite A2 in X2. subst x. split; [exists i; exact X1|]. destruct B as [B|(b & B1 & B2)]; [left; exact B|right].
    destruct (F2_nth_l AR (S c) b B1) as ([y j] & Y1 & [Y2 _]). cbn [fst] in Y2. rewrite B2 in Y2. subst y. exists j. exact Y1.
  - intros [(i & A) B]. destruct (F2_nth_r AR c _ A) as (a & A1 & [A2 _]). cbn [fst] in A2. split; [exists a; auto|]. destruct B as [B|(j & B)]; [left; exact B|right].
    destruct (F2_nth_r AR (S c) _ B) as (b & B1 & [B2 _]). cbn [fst] in B2. exists b. auto.
Qed.
Lemma pc_split c : (S c <= 2 * n)%nat -> split_cost_at excl ps evs c (p_neg (pc c)) (p_neg_cost (pc c)) (p_pos (pc c)) (p_pos_cost (pc c)).
Proof.
  intros K. destruct (begun_counts c) as [B1 B2], (pending_counts c ec K EC) as [P1 P2]. exists (cnt fsi (S c)), (Z.of_nat n - ec - cnt fei (S c)). auto 10.
Qed.
End Cost.
