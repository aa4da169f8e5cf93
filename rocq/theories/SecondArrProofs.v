(** ApplySecondary: the array of a child while it is being written. *)
From Coq Require Import List ZArith QArith Arith Lia Lqa Bool Sorted.
From Verif Require Import BigUIntModel GeoModel GeoSpec EvtModel EvtSpec EvtTokProofs EvtProofs EvtArrProofs PrimModel PrimProofs PrimInvProofs PrimTopProofs SecondModel SecondSpec.
Import ListNotations.
Open Scope Q_scope.

(** The index in the entry of [t] when the pairs V have been written. *)
Definition aref (V : list tok) (t : tok) (r : nat) : Prop :=
  if fst t then (forall e, nth_error V e = Some (false, snd t) -> r = e) /\ (~ In (false, snd t) V -> r = snd t) else r = snd t.
Record arr_ok (m : nat) (kf : tok -> Q) (V : list tok) (c : child) : Prop := ArrOk {
  ar_len : length (c_arr c) = (m * 2)%nat;
  ar_used : c_used c = length V;
  ar_at : forall k t, nth_error V k = Some t -> exists f r, nth_error (c_arr c) k = Some (Some (Ev f (fst t) r)) /\ flag kf V k f /\ aref V t r }.
Lemma nth_app1 {A} (l : list A) y k x : nth_error (l ++ [y]) k = Some x -> nth_error l k = Some x \/ k = length l /\ x = y.
Proof.
  intros E. destruct (Nat.lt_ge_cases k (length l)) as [L|L]; [left; rewrite nth_error_app1 in E by exact L; exact E|right]. pose proof (lt_of_nth _ _ _ E) as K. rewrite app_length in K. cbn [length] in K. replace k with (length l) in * by lia. rewrite nth_end in E. injection E as <-. auto.
Qed.
Lemma aref_app V t u r : (fst t = true -> u <> (false, snd t)) -> aref V t r -> aref (V ++ [u]) t r.
Proof.
  unfold aref. intros N H. destruct (fst t) eqn:E; [|exact H]. destruct H as [H1 H2]. split.
  - intros e X. apply nth_app1 in X as [X|[-> X]]; [exact (H1 e X)|]. exfalso. exact (N eq_refl (eq_sym X)).
  - intros I. apply H2. intros X. apply I, in_or_app. left. exact X.
Qed.
Lemma sorted_key lo hi V : StronglySorted (rel lo hi) V -> StronglySorted (fun a b => key lo hi a <= key lo hi b) V.
Proof. induction 1 as [|a l _ IH F]; constructor; [exact IH|]. rewrite Forall_forall in *. intros y I. exact (proj1 (F y I)). Qed.

Section Arr.
Context (m : nat) (kf : tok -> Q) (V : list tok) (NV : NoDup V) (SV : StronglySorted (fun a b => kf a <= kf b) V).
(** A start event. *)
Lemma arr_start c i : arr_ok m kf V c -> ~ In (true, i) V -> ~ In (false, i) V -> (length V < m * 2)%nat -> (c_fresh c = true <-> forall w, In w V -> kf w < kf (true, i)) ->
  exists a, put (c_arr c) (c_used c) (Some (Ev (c_fresh c) true i)) = Ok a /\ arr_ok m kf (V ++ [(true, i)]) (Child a (S (c_used c)) false).
Proof.
  intros [A1 A2 A3] N1 N2 L FR. rewrite A2. assert (LA : (length V < length (c_arr c))%nat) by lia. rewrite (put_ok _ _ _ LA). eexists. split; [reflexivity|]. constructor; cbn [c_arr c_used].
  - rewrite upd_length by exact LA. exact A1.
  - rewrite app_length. cbn [length]. lia.
  - intros k t E. rewrite upd_nth by exact LA. apply nth_app1 in E as [E|[-> ->]].
    + pose proof (lt_of_nth _ _ _ E) as K. destruct (Nat.eqb_spec k (length V)); [lia|]. destruct (A3 k t E) as (f & r & B1 & B2 & B3). exists f, r. split; [exact B1|]. split; [apply flag_prefix; assumption|]. apply aref_app; [|exact B3]. intros _. discriminate.
    + rewrite Nat.eqb_refl. eexists _, _. split; [reflexivity|]. split; [apply flag_new; assumption|]. unfold aref. cbn [fst snd]. split; [|reflexivity]. intros e X. exfalso. apply nth_error_In in X. apply in_app_iff in X as [X|[X|[]]]; [exact (N2 X)|discriminate].
Qed.
(** The end event of the polygon whose start event is entry k. *)
Lemma arr_end c i k : arr_ok m kf V c -> nth_error V k = Some (true, i) -> ~ In (false, i) V -> (length V < m * 2)%nat -> (c_fresh c = true <-> forall w, In w V -> kf w < kf (false, i)) ->
  exists f a a', nth_error (c_arr c) k = Some (Some (Ev f true i)) /\ put (c_arr c) k (Some (Ev f true (c_used c))) = Ok a /\ put a (c_used c) (Some (Ev (c_fresh c) false i)) = Ok a' /\
    arr_ok m kf (V ++ [(false, i)]) (Child a' (S (c_used c)) false).
Proof.
  intros [A1 A2 A3] KV N L FR. destruct (A3 k _ KV) as (f & r & B1 & B2 & B3). unfold aref in B3. cbn [fst snd] in *. rewrite (proj2 B3 N) in B1. pose proof (lt_of_nth _ _ _ KV) as Lk. exists f. rewrite A2. assert (LA : (k < length (c_arr c))%nat) by lia. rewrite (put_ok _ _ _ LA). eexists _, _. split; [exact B1|]. split; [reflexivity|]. set (a := upd _ _ _).
  assert (L1 : length a = (m * 2)%nat) by (unfold a; rewrite upd_length by exact LA; exact A1). split; [apply put_ok; lia|]. assert (L2 : (length V < length a)%nat) by lia. constructor; cbn [c_arr c_used].
  - rewrite upd_length by exact L2. exact L1.
  - rewrite app_length. cbn [length]. lia.
  - intros j t E. rewrite upd_nth by exact L2. apply nth_app1 in E as [E|[-> ->]].
    + pose proof (lt_of_nth _ _ _ E) as K. destruct (Nat.eqb_spec j (length V)); [lia|]. unfold a. rewrite upd_nth by exact LA. destruct (Nat.eqb_spec j k) as [->|NK].
      * rewrite KV in E. injection E as <-. eexists _, _. split; [reflexivity|]. split; [apply flag_prefix; assumption|]. unfold aref. cbn [fst snd]. split; [|intros I; exfalso; apply I, in_elt].
        intros e X. apply nth_app1 in X as [X|[-> _]]; [exfalso; exact (N (nth_error_In _ _ X))|reflexivity].
      * destruct (A3 j t E) as (g & s & C1 & C2 & C3). exists g, s. split; [exact C1|]. split; [apply flag_prefix; assumption|]. apply aref_app; [|exact C3]. intros F1 X. injection X as X. apply NK. destruct t as [b q]. cbn [fst snd] in *. subst b q. exact (NoDup_nth NV _ _ _ E KV).
    + rewrite Nat.eqb_refl. eexists _, _. split; [reflexivity|]. split; [apply flag_new; assumption|]. reflexivity.
Qed.
End Arr.

(** A finished array. *)
Lemma finished_ok l : forall evs, length l = length evs -> (forall k e, nth_error evs k = Some e -> nth_error l k = Some (Some e)) -> finished l = Ok evs.
Proof.
  intros evs L H. rewrite (nth_ext_map Some l evs L H). clear. induction evs as [|e evs IH]; [reflexivity|]. cbn [map finished got rbind]. rewrite IH. reflexivity.
Qed.
Lemma arr_done d ps V c : arr_ok (length ps) (key (lo d ps) (hi d ps)) V c -> toks_ok (length ps) (lo d ps) (hi d ps) V -> exists evs, finished (c_arr c) = Ok evs /\ events_ok d ps evs.
Proof.
  intros [A1 A2 A3] T. pose proof (toks_length _ _ _ _ T) as LV.
  destruct (collect (fun t k e => nth_error (c_arr c) k = Some (Some e) /\ ev_start e = fst t /\ flag (key (lo d ps) (hi d ps)) V k (ev_new e) /\ aref V t (ev_index e)) V) as (evs & L & H).
  { intros k t E. destruct (A3 k t E) as (f & r & B1 & B2 & B3). exists (Ev f (fst t) r). auto. }
  exists evs. split.
  - apply finished_ok; [lia|]. intros k e E. destruct (H k e E) as (t & _ & B & _). exact B.
  - assert (P : forall i, (i < length ps)%nat -> exists s e, nth_error V s = Some (true, i) /\ nth_error V e = Some (false, i)).
    { intros i I. destruct (In_nth_error V (true, i)) as (s & S1); [apply (t_all _ _ _ _ T); exact I|]. destruct (In_nth_error V (false, i)) as (e & E1); [apply (t_all _ _ _ _ T); exact I|]. eauto. }
    assert (G : forall k, (k < length evs)%nat -> exists e, nth_error evs k = Some e) by (intros k K; destruct (nth_error evs k) eqn:E; [eauto|apply nth_error_None in E; lia]).
    assert (AR : Forall2 (tok_of (nth_error evs)) evs V).
    { apply F2_of_nth; [exact L|]. intros k e t E1 E2. destruct (H k e E1) as (t' & T1 & T2 & T3 & T4 & T5). rewrite E2 in T1. injection T1 as <-. split; [symmetry; exact T3|]. destruct t as [[|] i]; cbn [fst snd] in *; rewrite T3.
      - unfold aref in T5. cbn [fst snd] in T5. destruct T5 as [T5 _]. destruct (P i) as (s & e' & S1 & S2); [apply (t_all _ _ _ _ T (true, i)); exact (nth_error_In _ _ E2)|]. rewrite (T5 _ S2). destruct (G e') as (g & Ge); [pose proof (lt_of_nth _ _ _ S2); lia|]. exists g. split; [exact Ge|]. destruct (H e' g Ge) as (t' & U1 & U2 & U3 & U4 & U5). rewrite S2 in U1. injection U1 as <-. exact (conj U3 U5).
      - exact T5. }
    apply (events_of_toks d ps evs V AR T). intros k a E. destruct (H k a E) as (t & _ & _ & _ & T4 & _). exact T4.
Qed.
