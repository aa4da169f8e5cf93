(** The array of events and its (start?, polygon) pairs; the result of
    MakeEventPoints. *)
From Coq Require Import List ZArith QArith Arith Lia Lqa Bool Sorted.
From Verif Require Import BigUIntModel GeoModel GeoSpec GeoProofs AabbSpec AabbTrackerProofs EvtModel EvtSpec EvtTokProofs EvtProofs.
Import ListNotations.
Open Scope Q_scope.

Lemma F2_nth_l {A B} {R : A -> B -> Prop} {l l'} : Forall2 R l l' -> forall k x, nth_error l k = Some x -> exists y, nth_error l' k = Some y /\ R x y.
Proof. induction 1 as [|a b l l' T _ IH]; intros [|k] x E; try discriminate E; [injection E as <-; exists b; split; [reflexivity|exact T]|exact (IH k x E)]. Qed.
Lemma F2_nth_r {A B} {R : A -> B -> Prop} {l l'} : Forall2 R l l' -> forall k y, nth_error l' k = Some y -> exists x, nth_error l k = Some x /\ R x y.
Proof. induction 1 as [|a b l l' T _ IH]; intros [|k] x E; try discriminate E; [injection E as <-; exists a; split; [reflexivity|exact T]|exact (IH k x E)]. Qed.
Lemma SS_nth {A} {R : A -> A -> Prop} {l} : StronglySorted R l -> forall j k x y, (j < k)%nat -> nth_error l j = Some x -> nth_error l k = Some y -> R x y.
Proof.
  induction 1 as [|a l _ IH F]; intros j k x y L E1 E2; [destruct j; discriminate E1|]. destruct k as [|k]; [lia|]. destruct j as [|j].
  - injection E1 as <-. rewrite Forall_forall in F. apply F. cbn [nth_error] in E2; exact (nth_error_In _ _ E2).
  - apply (IH j k); [lia|exact E1|exact E2].
Qed.
Lemma nth_SS {A} {R : A -> A -> Prop} l : (forall j k x y, (j < k)%nat -> nth_error l j = Some x -> nth_error l k = Some y -> R x y) -> StronglySorted R l.
Proof.
  induction l as [|a l IH]; intros H; constructor.
  - apply IH. intros j k x y L E1 E2. apply (H (S j) (S k)); [lia|exact E1|exact E2].
  - apply Forall_forall. intros y I. apply In_nth_error in I as (k & E). apply (H 0%nat (S k)); [lia|reflexivity|exact E].
Qed.
Lemma NoDup_nth {A} {l : list A} : NoDup l -> forall j k x, nth_error l j = Some x -> nth_error l k = Some x -> j = k.
Proof. intros N j k x E1 E2. apply (proj1 (NoDup_nth_error l) N); [apply nth_error_Some; congruence|congruence]. Qed.

(** What is true of the pairs of a whole array. *)
Record toks_ok (n : nat) (lo hi : nat -> Q) (F : list tok) : Prop := ToksOk {
  t_nodup : NoDup F;
  t_all : forall t, In t F <-> (snd t < n)%nat;
  t_sorted : StronglySorted (rel lo hi) F;
  t_order : forall i s e, nth_error F s = Some (true, i) -> nth_error F e = Some (false, i) -> (s < e)%nat /\ (lo i == hi i -> e = S s) }.
Lemma inv_toks n lo hi F : inv n lo hi [] F -> toks_ok n lo hi F.
Proof.
  intros V. constructor.
  - exact (i_nodup _ _ _ _ _ V).
  - intros [b i]. cbn [snd]. split; [exact (i_range _ _ _ _ _ V (b, i))|]. intros L. pose proof (i_ends _ _ _ _ _ V i L) as E. destruct b; [|exact E]. apply (i_starts _ _ _ _ _ V). exact E.
  - exact (i_sorted _ _ _ _ _ V).
  - intros i s e ES EE. destruct (nth_error_split F s ES) as (A & B & EF & LA). destruct (i_order _ _ _ _ _ V A i B EF) as [IB FL]. pose proof (i_nodup _ _ _ _ _ V) as N. cbn [app] in N.
    apply In_nth_error in IB as (j & EJ). assert (X : e = (S s + j)%nat).
    { apply (NoDup_nth N e (S s + j) _ EE). rewrite EF, nth_error_app2 by lia. replace (S s + j - length A)%nat with (S j) by lia. exact EJ. }
    split; [lia|]. intros Z. destruct (FL Z) as (B' & ->). apply (NoDup_nth N e (S s) _ EE). rewrite EF, nth_error_app2 by lia. replace (S s - length A)%nat with 1%nat by lia. reflexivity.
Qed.
Lemma toks_length n lo hi F : toks_ok n lo hi F -> length F = (2 * n)%nat.
Proof.
  intros T. apply Nat.le_antisymm.
  - apply size_le; [exact (t_nodup _ _ _ _ T)|]. intros t I. apply (t_all _ _ _ _ T). exact I.
  - destruct (Nat.leb_spec (2 * n) (length F)) as [L|L]; [exact L|]. exfalso. refine (inv_nonempty n lo hi [] F _ L eq_refl). constructor.
    + exact (t_nodup _ _ _ _ T).
    + intros t. apply (t_all _ _ _ _ T).
    + intros i H. apply (t_all _ _ _ _ T). exact H.
    + intros i. cbn [app]. rewrite !(t_all _ _ _ _ T). reflexivity.
    + intros h f [].
    + exact (t_sorted _ _ _ _ T).
    + intros h f [].
    + intros i [].
    + intros A i B E. assert (ES : nth_error F (length A) = Some (true, i)) by (rewrite E, nth_error_app2, Nat.sub_diag by lia; reflexivity).
      assert (IE : In (false, i) F) by (apply (t_all _ _ _ _ T); cbn [snd]; apply (t_all _ _ _ _ T (true, i)); exact (nth_error_In _ _ ES)).
      apply In_nth_error in IE as (e & EE). destruct (t_order _ _ _ _ T i (length A) e ES EE) as [O1 O2]. pose proof EE as EE'. rewrite E, nth_error_app2 in EE by lia.
      destruct (e - length A)%nat as [|j] eqn:D; [lia|]. cbn [nth_error] in EE. split; [exact (nth_error_In _ _ EE)|]. intros Z. specialize (O2 Z). assert (j = 0)%nat by lia. subst j.
      destruct B as [|b B]; [discriminate EE|]. injection EE as ->. exists B. reflexivity.
Qed.

Section Arr.
Context (d : nat) (ps : list epoly).
Notation n := (length ps).
Notation lo := (lo d ps). Notation hi := (hi d ps).
Notation key := (key lo hi).
Context (evs : list event) (F : list tok) (AR : Forall2 (tok_of (nth_error evs)) evs F) (T : toks_ok n lo hi F).
Lemma spans_iff s e i : spans evs s e i <-> nth_error F s = Some (true, i) /\ nth_error F e = Some (false, i).
Proof.
  split.
  - intros [(a & A1 & A2 & A3) (b & B1 & B2 & B3)]. destruct (F2_nth_l AR s a A1) as ([x j] & X & [X1 X2]), (F2_nth_l AR e b B1) as ([y k] & Y & [Y1 Y2]).
    cbn [fst snd] in *. rewrite A2 in *. rewrite B2 in *. subst x y. rewrite A3 in X2. destruct X2 as (f & X2 & X3 & X4). rewrite B1 in X2. injection X2 as <-. rewrite X, Y. rewrite <- X4, <- Y2, B3. split; reflexivity.
  - intros [ES EE]. destruct (F2_nth_r AR s _ ES) as (a & A & [A1 A2]), (F2_nth_r AR e _ EE) as (b & B & [B1 B2]). cbn [fst snd] in *. rewrite <- A1 in A2. rewrite <- B1 in B2.
    destruct A2 as (f & A2 & A3 & A4). split; [|exists b; auto]. exists a. split; [exact A|split; [auto|]].
    destruct (F2_nth_l AR _ f A2) as ([y k] & Y & [Y1 Y2]). cbn [fst snd] in *. rewrite A3 in *. subst y. rewrite <- Y2, A4 in Y. exact (NoDup_nth (t_nodup _ _ _ _ T) _ _ _ Y EE).
Qed.
Lemma partner t : In t F -> exists s e, nth_error F s = Some (true, snd t) /\ nth_error F e = Some (false, snd t).
Proof.
  intros I. apply (t_all _ _ _ _ T) in I. assert (G : forall b, exists k, nth_error F k = Some (b, snd t)) by (intros b; apply In_nth_error, (t_all _ _ _ _ T); exact I).
  destruct (G true) as (s & S1), (G false) as (e & E1). exists s, e. auto.
Qed.
Lemma event_at_iff k x : event_at d ps evs k x <-> exists t, nth_error F k = Some t /\ x == key t.
Proof.
  split.
  - intros (s & e & i & H & D). apply spans_iff in H as [ES EE]. destruct D as [[-> D]|[-> D]]; eexists; (split; [eassumption|exact D]).
  - intros ([b i] & E & K). destruct (partner _ (nth_error_In _ _ E)) as (s & e & ES & EE). cbn [snd] in ES, EE. exists s, e, i. split; [apply spans_iff; auto|].
    destruct b; [left|right]; (split; [|exact K]); apply (NoDup_nth (t_nodup _ _ _ _ T) _ _ _ E); assumption.
Qed.
Lemma wide_start_iff k : wide_start d ps evs k <-> exists t, nth_error F k = Some t /\ nz lo hi t.
Proof.
  split.
  - intros (e & i & H & L). apply spans_iff in H as [ES EE]. exists (true, i). split; [exact ES|]. split; [reflexivity|exact L].
  - intros ([b i] & E & [N1 N2]). cbn [fst snd] in *. subst b. destruct (partner _ (nth_error_In _ _ E)) as (s & e & ES & EE). cbn [snd] in ES, EE. exists e, i. split; [apply spans_iff; auto|exact N2].
Qed.
Definition flags_ok : Prop := forall k a, nth_error evs k = Some a ->
  (ev_new a = true <-> k = 0%nat \/ exists j t u, k = S j /\ nth_error F j = Some t /\ nth_error F k = Some u /\ key t < key u).
Lemma flags_iff : flags_ok <-> forall k a, nth_error evs k = Some a ->
    (ev_new a = true <-> k = 0%nat \/ exists j x y, k = S j /\ event_at d ps evs j x /\ event_at d ps evs k y /\ x < y).
Proof.
  unfold flags_ok. split; intros H k a E; rewrite (H k a E); (split; (intros [X|X]; [left; exact X|right])).
  - destruct X as (j & t & u & -> & A & B & C). exists j, (key t), (key u). split; [reflexivity|]. split; [apply event_at_iff; exists t; split; [exact A|reflexivity]|]. split; [apply event_at_iff; exists u; split; [exact B|reflexivity]|exact C].
  - destruct X as (j & x & y & -> & A & B & C). apply event_at_iff in A as (t & A & A'), B as (u & B & B'). exists j, t, u. rewrite <- A', <- B'. auto.
  - destruct X as (j & x & y & -> & A & B & C). apply event_at_iff in A as (t & A & A'), B as (u & B & B'). exists j, t, u. rewrite <- A', <- B'. auto.
  - destruct X as (j & t & u & -> & A & B & C). exists j, (key t), (key u). split; [reflexivity|]. split; [apply event_at_iff; exists t; split; [exact A|reflexivity]|]. split; [apply event_at_iff; exists u; split; [exact B|reflexivity]|exact C].
Qed.
Lemma arr_length : length evs = (2 * n)%nat.
Proof. rewrite (Forall2_length AR). exact (toks_length _ _ _ _ T). Qed.
Lemma events_of_toks : flags_ok -> events_ok d ps evs.
Proof.
  intros FL. constructor.
  - exact arr_length.
  - intros i H. destruct (partner (true, i)) as (s & e & ES & EE); [apply (t_all _ _ _ _ T); exact H|]. cbn [snd] in ES, EE. exists s, e. split; [exact (proj1 (t_order _ _ _ _ T i s e ES EE))|]. split; [apply spans_iff; auto|].
    intros s' e' X. apply spans_iff in X as [X1 X2]. split; [exact (NoDup_nth (t_nodup _ _ _ _ T) _ _ _ X1 ES)|exact (NoDup_nth (t_nodup _ _ _ _ T) _ _ _ X2 EE)].
  - intros k H. destruct (nth_error F k) as [[b i]|] eqn:E; [|apply nth_error_None in E; rewrite <- (Forall2_length AR) in E; lia].
    destruct (partner _ (nth_error_In _ _ E)) as (s & e & ES & EE). cbn [snd] in ES, EE. exists s, e, i. split; [apply (t_all _ _ _ _ T (b, i)); exact (nth_error_In _ _ E)|]. split; [apply spans_iff; auto|].
    destruct b; [left|right]; apply (NoDup_nth (t_nodup _ _ _ _ T) _ _ _ E); assumption.
  - intros j k x y L A B. apply event_at_iff in A as (t & A & A'), B as (u & B & B'). rewrite A', B'. exact (proj1 (SS_nth (t_sorted _ _ _ _ T) j k t u L A B)).
  - intros j k x y L A B E N. apply event_at_iff in A as (t & A & A'), B as (u & B & B'). apply wide_start_iff in N as (t' & N & N'). rewrite A in N. injection N as <-.
    apply wide_start_iff. exists u. split; [exact B|]. apply (proj2 (SS_nth (t_sorted _ _ _ _ T) j k t u L A B) N'). rewrite <- A', <- B'. exact E.
  - intros s e i H Z. apply spans_iff in H as [ES EE]. exact (proj2 (t_order _ _ _ _ T i s e ES EE) Z).
  - apply flags_iff. exact FL.
Qed.
End Arr.
(** Back from the array to its pairs. *)
Lemma toks_of_events d ps evs : events_ok d ps evs ->
  exists F, Forall2 (tok_of (nth_error evs)) evs F /\ toks_ok (length ps) (lo d ps) (hi d ps) F /\ flags_ok d ps evs F.
Proof.
  intros [EL EP EE ES ET EF EN].
  assert (X : forall k a, nth_error evs k = Some a -> exists t, tok_of (nth_error evs) a t /\ (snd t < length ps)%nat).
  { intros k a A. destruct (EE k) as (s & e & i & I & [(a1 & A1 & A2 & A3) (b & B1 & B2 & B3)] & D); [apply nth_error_Some; congruence|]. destruct D as [->| ->].
    - assert (a1 = a) by congruence. subst a1. exists (true, i). split; [|exact I]. split; [auto|]. rewrite A2. exists b. subst e. auto.
    - assert (b = a) by congruence. subst b. exists (false, i). split; [|exact I]. split; [auto|]. rewrite B2. exact B3. }
  assert (G : exists F, Forall2 (tok_of (nth_error evs)) evs F /\ Forall (fun t => (snd t < length ps)%nat) F).
  { assert (Y : forall a, In a evs -> exists t, tok_of (nth_error evs) a t /\ (snd t < length ps)%nat) by (intros a I; apply In_nth_error in I as (k & I); exact (X k a I)).
    clear X. revert Y. generalize (nth_error evs) at 1 2 as arr. intros arr. generalize evs at 1 2 as l. induction l as [|a l IH]; intros Y; [exists []; split; constructor|].
    destruct IH as (F & F1 & F2); [intros b I; apply Y; right; exact I|]. destruct (Y a (or_introl eq_refl)) as (t & T1 & T2). exists (t :: F). split; constructor; assumption. }
  destruct G as (F & AR & RG). rewrite Forall_forall in RG. exists F. split; [exact AR|].
  assert (TS : forall k i, nth_error F k = Some (true, i) -> exists e, spans evs k e i).
  { intros k i K. destruct (F2_nth_r AR k _ K) as (a & A & [A1 A2]). cbn [fst snd] in *. rewrite <- A1 in A2. destruct A2 as (f & A2 & A3 & A4). exists (ev_index a). split; [exists a; auto|exists f; auto]. }
  assert (TE : forall k i, nth_error F k = Some (false, i) -> exists s, spans evs s k i).
  { intros k i K. destruct (F2_nth_r AR k _ K) as (b & B & [B1 B2]). cbn [fst snd] in *. rewrite <- B1 in B2. destruct (EE k) as (s & e & j & J & SP & D); [apply nth_error_Some; congruence|].
    pose proof SP as [(a & Q1 & Q2 & Q3) (c & P1 & P2 & P3)]. destruct D as [->| ->]; [congruence|]. assert (c = b) by congruence. subst c. exists s. rewrite <- B2, P3. exact SP. }
  assert (SP : forall s e i, spans evs s e i -> nth_error F s = Some (true, i) /\ nth_error F e = Some (false, i)).
  { intros s e i [(a & A1 & A2 & A3) (b & B1 & B2 & B3)]. destruct (F2_nth_l AR s a A1) as ([x j] & X1 & [X2 X3]), (F2_nth_l AR e b B1) as ([y k] & Y & [Y1 Y2]).
    cbn [fst snd] in *. rewrite A2 in *. rewrite B2 in *. subst x y. rewrite A3 in X3. destruct X3 as (f & X3 & X4 & X5). rewrite B1 in X3. injection X3 as <-. rewrite X1, Y, <- X5, <- Y2, B3. split; reflexivity. }
  assert (EQ : forall s e i s' e', spans evs s e i -> spans evs s' e' i -> s' = s /\ e' = e).
  { intros s e i s' e' U V. destruct (EP i) as (s0 & e0 & _ & _ & Q); [|destruct (Q _ _ U), (Q _ _ V); split; congruence].
    destruct (SP _ _ _ U) as [P1 _]. exact (RG _ (nth_error_In _ _ P1)). }
  assert (T : toks_ok (length ps) (lo d ps) (hi d ps) F).
  { constructor.
    - apply NoDup_nth_error. intros j k J E. destruct (nth_error F j) as [[b i]|] eqn:Ej; [|apply nth_error_None in Ej; lia]. symmetry in E. destruct b.
      + destruct (TS j i Ej) as (e1 & S1), (TS k i E) as (e2 & S2). exact (proj1 (EQ _ _ _ _ _ S2 S1)).
      + destruct (TE j i Ej) as (e1 & S1), (TE k i E) as (e2 & S2). exact (proj2 (EQ _ _ _ _ _ S2 S1)).
    - intros [b i]. cbn [snd]. split; [exact (RG (b, i))|]. intros L. destruct (EP i L) as (s & e & _ & Q & _). destruct (SP _ _ _ Q) as [Q1 Q2]. destruct b; [exact (nth_error_In _ _ Q1)|exact (nth_error_In _ _ Q2)].
    - assert (AT : forall k t, nth_error F k = Some t -> event_at d ps evs k (key (lo d ps) (hi d ps) t)).
      { intros k [b i] K. destruct b; [destruct (TS k i K) as (e & S1); exists k, e, i; split; [exact S1|left; split; reflexivity]|destruct (TE k i K) as (s & S1); exists s, k, i; split; [exact S1|right; split; reflexivity]]. }
      apply nth_SS. intros j k x y L Ej Ek. split; [exact (ES j k _ _ L (AT j x Ej) (AT k y Ek))|]. intros N E. destruct x as [bx ix]. destruct N as [N1 N2]. cbn [fst snd] in *. subst bx.
      destruct (TS j ix Ej) as (e & S1). destruct (ET j k _ _ L (AT j _ Ej) (AT k y Ek) E) as (e' & i' & S2 & S3); [exists e, ix; auto|]. destruct (SP _ _ _ S2) as [Q _]. rewrite Ek in Q. injection Q as ->. split; [reflexivity|exact S3].
    - intros i s e E1 E2. destruct (TS s i E1) as (e' & S1). destruct (TE e i E2) as (s' & S2). destruct (EQ _ _ _ _ _ S1 S2) as [_ ->].
      split; [|exact (EF s e' i S1)]. destruct (EP i (RG _ (nth_error_In _ _ E1))) as (s0 & e0 & L & S0 & _). destruct (EQ _ _ _ _ _ S0 S1) as [-> ->]. exact L. }
  split; [exact T|]. apply (flags_iff d ps evs F AR T). exact EN.
Qed.

(** ** The result of MakeEventPoints *)
Section Result.
Context (dbg : bool) (d : nat) (ps : list epoly) (FIT : Forall (poly_fit d) ps).
Notation n := (length ps).
Lemma rmap_ok {A B} (f : A -> res B) (P : A -> B -> Prop) l : (forall x, In x l -> exists y, f x = Ok y /\ P x y) -> exists ys, rmap f l = Ok ys /\ Forall2 P l ys.
Proof.
  induction l as [|x l IH]; intros H; [exists []; split; [reflexivity|constructor]|]. destruct (H x (or_introl eq_refl)) as (y & Y1 & Y2). destruct IH as (ys & Z1 & Z2); [intros z I; apply H; right; exact I|].
  exists (y :: ys). cbn [rmap]. rewrite Y1, Z1. split; [reflexivity|constructor; assumption].
Qed.
Lemma new_flag_ok evs F : Forall2 (tok_of (nth_error evs)) evs F -> toks_ok n (lo d ps) (hi d ps) F -> forall k, (k < 2 * n)%nat ->
  exists b, new_flag dbg d ps evs k = Ok b /\ (b = true <-> k = 0%nat \/ exists j t u, k = S j /\ nth_error F j = Some t /\ nth_error F k = Some u /\ key (lo d ps) (hi d ps) t < key (lo d ps) (hi d ps) u).
Proof.
  intros AR T k K. pose proof (arr_length d ps evs F AR T) as LE. destruct k as [|j]; [exists true; split; [reflexivity|split; auto]|]. unfold new_flag.
  destruct (nth_error evs j) as [a|] eqn:Ea; [|apply nth_error_None in Ea; lia]. destruct (nth_error evs (S j)) as [b|] eqn:Eb; [|apply nth_error_None in Eb; lia].
  destruct (F2_nth_l AR j a Ea) as (t & Et & Tt), (F2_nth_l AR (S j) b Eb) as (u & Eu & Tu).
  destruct (location dbg d ps FIT _ a t Tt) as (va & -> & WA & KA); [apply (t_all _ _ _ _ T); exact (nth_error_In _ _ Et)|].
  destruct (location dbg d ps FIT _ b u Tu) as (vb & -> & WB & KB); [apply (t_all _ _ _ _ T); exact (nth_error_In _ _ Eu)|].
  cbn [rbind]. eexists. split; [reflexivity|]. rewrite (hp_lt_comp_spec d va vb _ _ (denotes_value va WA) (denotes_value vb WB)), <- !coord_value, KA, KB.
  split; [intros L; right; exists j, t, u; auto|]. intros [X|(j' & t' & u' & X & A & B & C)]; [discriminate X|]. injection X as <-. rewrite Et in A. rewrite Eu in B. injection A as <-. injection B as <-. exact C.
Qed.
Lemma combine_nth {A B C} (f : A -> B -> C) l : forall l' k a b, nth_error l k = Some a -> nth_error l' k = Some b -> nth_error (map (fun x => f (fst x) (snd x)) (combine l l')) k = Some (f a b).
Proof.
  induction l as [|x l IH]; intros [|y l'] [|k] a b E1 E2; try discriminate E1; try discriminate E2; cbn [combine map nth_error fst snd] in *; [congruence|apply IH; assumption].
Qed.
Lemma seq_nth_error m : forall a k, (k < m)%nat -> nth_error (seq a m) k = Some (a + k)%nat.
Proof. induction m as [|m IH]; intros a k L; [lia|]. destruct k as [|k]; cbn [seq nth_error]; [f_equal; lia|]. rewrite IH by lia. f_equal. lia. Qed.
Lemma init_sim : sim ps (map (Ev false false) (seq 0 n), []) (map (pair false) (seq 0 n)) [].
Proof.
  split; cbn [fst snd]; [|constructor]. induction (seq 0 n) as [|i l IH]; cbn [map]; constructor; [|exact IH]. split; reflexivity.
Qed.
Theorem make_ok choose : make_events dbg d ps choose = NoFuel \/ exists evs, make_events dbg d ps choose = Ok evs /\ events_ok d ps evs.
Proof.
  unfold make_events. destruct (loop_ok dbg d ps FIT choose (2 * n) _ [] _ [] init_sim (inv_init n (lo d ps) (hi d ps)) ltac:(cbn [length]; lia)) as [->|(fin & F & -> & [_ SF] & V & L)]; [left; reflexivity|]. right.
  cbn [rbind fst snd length Nat.eqb]. rewrite check_true. cbn [rbind]. cbn [fst snd] in SF. pose proof (inv_toks _ _ _ _ V) as T.
  assert (AR : Forall2 (tok_of (nth_error fin)) fin F).
  { revert SF. apply Forall2_mono. intros e t. apply tok_of_mono. intros k f. rewrite (fin_at_full n fin k L). auto. }
  destruct (rmap_ok (new_flag dbg d ps fin) (fun k b => (b = true <-> k = 0%nat \/ exists j t u, k = S j /\ nth_error F j = Some t /\ nth_error F k = Some u /\ key (lo d ps) (hi d ps) t < key (lo d ps) (hi d ps) u)) (seq 0 (2 * n))) as (fs & -> & FS).
  { intros k I. apply in_seq in I. apply (new_flag_ok fin F AR T). lia. }
  cbn [rbind]. set (evs := map (fun x : event * bool => set_new (fst x) (snd x)) (combine fin fs)). exists evs. split; [reflexivity|].
  pose proof (Forall2_length FS) as LS. rewrite seq_length in LS.
  assert (GET : forall k a, nth_error fin k = Some a -> exists b, nth_error fs k = Some b /\ nth_error evs k = Some (set_new a b)).
  { intros k a E. assert (K : (k < 2 * n)%nat) by (rewrite <- L; apply nth_error_Some; congruence). destruct (nth_error fs k) as [b|] eqn:Eb; [|apply nth_error_None in Eb; lia].
    exists b. split; [reflexivity|]. exact (combine_nth set_new fin fs k a b E Eb). }
  assert (LEV : length evs = length fin) by (unfold evs; rewrite map_length, combine_length; lia).
  assert (BACK : forall k c, nth_error evs k = Some c -> exists a b, nth_error fin k = Some a /\ nth_error fs k = Some b /\ c = set_new a b).
  { intros k c E. destruct (nth_error fin k) as [a|] eqn:Ea; [|apply nth_error_None in Ea; assert (nth_error evs k <> None) by congruence; apply nth_error_Some in H; lia].
    destruct (GET k a Ea) as (b & Eb & Ee). exists a, b. split; [reflexivity|]. split; [exact Eb|congruence]. }
  assert (AR' : Forall2 (tok_of (nth_error evs)) evs F).
  { assert (Q : Forall2 (fun e t => exists a b, e = set_new a b /\ tok_of (nth_error fin) a t) evs F).
    { unfold evs. assert (LF : length fs = length fin) by lia. clear - AR LF. revert AR. generalize (nth_error fin) as arr. intros arr AR. revert fs LF. induction AR as [|a t l l' TA _ IH]; intros [|b fs] LF; try discriminate LF; cbn [combine map fst snd]; constructor.
      - exists a, b. auto.
      - apply IH. injection LF as LF. exact LF. }
    revert Q. apply Forall2_mono. intros e t (a & b & -> & [A1 A2]). split; [exact A1|]. cbn [set_new ev_start ev_index]. destruct (ev_start a); [|exact A2]. destruct A2 as (f & A2 & A3 & A4).
    destruct (GET _ f A2) as (b' & _ & E). exists (set_new f b'). auto. }
  apply (events_of_toks d ps evs F AR' T). intros k c E. destruct (BACK k c E) as (a & b & Ea & Eb & ->). cbn [set_new ev_new].
  assert (K : (k < 2 * n)%nat) by (rewrite <- L; apply nth_error_Some; congruence). destruct (F2_nth_l FS k k) as (b' & Eb' & Q); [rewrite seq_nth_error by exact K; reflexivity|]. rewrite Eb in Eb'. injection Eb' as <-. exact Q.
Qed.
Theorem make_exists : exists choose, make_events dbg d ps choose <> NoFuel.
Proof.
  destruct (loop_legal dbg d ps FIT (2 * n) _ [] _ [] init_sim (inv_init n (lo d ps) (hi d ps)) ltac:(cbn [length]; lia)) as (choose & C). exists choose.
  unfold make_events. destruct (loop_ok dbg d ps FIT choose (2 * n) _ [] _ [] init_sim (inv_init n (lo d ps) (hi d ps)) ltac:(cbn [length]; lia)) as [X|(fin & F & E & [_ SF] & V & L)]; [contradiction|]. rewrite E.
  cbn [rbind fst snd length Nat.eqb]. rewrite check_true. cbn [rbind]. cbn [fst snd] in SF. pose proof (inv_toks _ _ _ _ V) as T.
  assert (AR : Forall2 (tok_of (nth_error fin)) fin F).
  { revert SF. apply Forall2_mono. intros e t. apply tok_of_mono. intros k f. rewrite (fin_at_full n fin k L). auto. }
  destruct (rmap_ok (new_flag dbg d ps fin) (fun _ _ => True) (seq 0 (2 * n))) as (fs & -> & FS); [|discriminate].
  intros k I. apply in_seq in I. destruct (new_flag_ok fin F AR T k ltac:(lia)) as (b & B & _). exists b. auto.
Qed.
End Result.
