(** ConnectEdgesInLine: from one location to the next one. *)
From Coq Require Import List Bool Arith ZArith QArith Lia ZifyBool Lqa Sorted Permutation.
From Verif Require Import BigUIntModel GeoModel GeoSpec TriSpec ConnModel ConnSpec ConnListProofs ConnPieceProofs ConnLoopProofs.
Import ListNotations.
Open Scope Q_scope.

Lemma ent_perm l l' j : NoDup (ids l) -> Permutation l l' -> ent l j = ent l' j.
Proof.
  intros N P. assert (N' : NoDup (ids l')) by (apply (Permutation_NoDup (Permutation_map a_id P)); exact N).
  destruct (ent l j) as [e|] eqn:E.
  - destruct (ent_id _ _ _ E) as [<- I]. symmetry. apply ent_of_in; [exact N'|]. apply (Permutation_in _ P). exact I.
  - destruct (ent l' j) as [e|] eqn:E'; [|reflexivity]. destruct (ent_id _ _ _ E') as [<- I]. rewrite <- E. apply ent_of_in; [exact N|]. apply (Permutation_in _ (Permutation_sym P)). exact I.
Qed.
Lemma ent_none l j : ~ In j (ids l) -> ent l j = None.
Proof. intros H. destruct (ent l j) eqn:E; [|reflexivity]. exfalso. apply H. exact (ent_ids _ _ _ E). Qed.
Lemma number_skip {A} (l : list A) d k : (k < length l)%nat -> number k (skipn k l) = (k, nth k l d) :: number (S k) (skipn (S k) l).
Proof.
  intros H. assert (E : skipn k l = nth k l d :: skipn (S k) l).
  { revert k H. induction l as [|a l IH]; intros k H; [cbn in H; lia|]. destruct k as [|k]; [reflexivity|]. cbn [skipn nth]. apply IH. cbn in H. lia. }
  rewrite E. reflexivity.
Qed.

Section Sweep.
Context (s : nat) (hs : list half) (okp : hpoint3 -> Prop) (gen : Q -> Prop) (pair : Q -> nat -> nat -> Prop) (rk : nat -> Z).
Notation n := (length hs).
Notation pol := (pol s hs).
Notation lo := (lo s hs).
Notation hi := (hi s hs).
Definition act (x : Q) (i : nat) : Prop := (i < n)%nat /\ lo i <= x /\ x < hi i.
Context (pol_forward : forall i, (i < n)%nat -> (pol i = true <-> forward s (hat hs i))).
Context (loc_lt_ok : forall a b, okp a -> okp b -> (loc_lt s a b = true <-> along s a < along s b)).
Context (hp_eq_ok : forall a b, okp a -> okp b -> (hp_eq a b = true <-> along s a == along s b)).
Context (half_ok : forall i, (i < n)%nat -> okp (h_begin s (hat hs i)) /\ okp (h_end s (hat hs i)) /\ lo i < hi i).
Context (key_ok : forall i j, (i < n)%nat -> (j < n)%nat -> key_lt (h_key s (hat hs i)) (h_key s (hat hs j)) = Ok (rk i <? rk j)%Z).
Context (distinct : forall x i j, act x i -> act x j -> i <> j -> rk i <> rk j).
Context (mated : forall x A, (forall i, In i A <-> act x i) -> by_rank rk A -> all_mated rk pol A).
Context (paired : forall t A a b, gen t -> (forall i, In i A <-> (i < n)%nat /\ lo i < t /\ t < hi i) -> by_rank rk A -> mate rk pol A a b -> pair t a b).
Context (gen_ok : forall t i, gen t -> (i < n)%nat -> ~ t == lo i /\ ~ t == hi i).
Context (sorted : forall i j, (i <= j < n)%nat -> lo i <= lo j).
Context (ord : list (nat * hpoint3) -> list (nat * hpoint3)) (ord_perm : forall l, Permutation (ord l) l).
Notation PI := (PI s hs okp gen pair).
Notation LI := (LI s hs okp gen pair).

(** The state between two locations. *)
Record SI (x : Q) (A : list nat) (st : cstate) : Prop := {
  si_li : LI x A st;
  si_need : c_need st = [];
  si_rank : by_rank rk A;
  si_act : forall i, In i A <-> act x i;
  si_cur : forall a, In a A -> curv (c_active st) a = false }.
Lemma si_mated x A st : SI x A st -> all_mated rk pol A.
Proof. intros S. exact (mated x A (si_act _ _ _ S) (si_rank _ _ _ S)). Qed.
Lemma si_part x A st a : SI x A st -> In a A -> part (c_active st) a = Some (tau pol A a).
Proof. intros S I. destruct (li_cover _ _ _ _ _ _ _ _ (si_li _ _ _ S) a I) as [X|[X|X]]; [exact X| |]; rewrite (si_need _ _ _ S) in X; destruct X. Qed.
Lemma si_ids x A st : SI x A st -> ids (c_active st) = A.
Proof. intros S. exact (li_ids _ _ _ _ _ _ _ _ (si_li _ _ _ S)). Qed.
Lemma tau_facts x A st a : SI x A st -> In a A -> In (tau pol A a) A /\ tau pol A a <> a /\ tau pol A (tau pol A a) = a.
Proof.
  intros S I. pose proof (si_mated _ _ _ S) as M. pose proof (si_rank _ _ _ S) as B. destruct (mate_in _ _ _ _ _ (tau_mate _ _ _ _ B M I)) as (_ & T2 & T3 & _).
  repeat split; [exact T2|congruence|]. apply (tau_tau rk); assumption.
Qed.

(** ** The ends of the active edges *)
Lemma act_ends_ok x A st : SI x A st -> forall l, incl l (c_active st) -> act_ends st l = Ok (map (fun a => (a_id a, h_end s (hat hs (a_id a)))) l).
Proof.
  intros S. pose proof (si_li _ _ _ S) as L. induction l as [|a l IH]; intros I; [reflexivity|]. cbn [act_ends map].
  assert (Ia : In a (c_active st)) by (apply I; left; reflexivity).
  assert (Id : In (a_id a) A). { rewrite <- (si_ids _ _ _ S). apply in_map. exact Ia. }
  assert (ND : NoDup (ids (c_active st))) by (rewrite (si_ids _ _ _ S); exact (by_rank_nodup _ _ (si_rank _ _ _ S))).
  pose proof (ent_of_in _ _ ND Ia) as E.
  assert (Pc : pcv (c_active st) (a_id a) = a_piece a) by (unfold pcv; rewrite E; reflexivity).
  assert (K : a_key a = h_key s (hat hs (a_id a))). { rewrite <- (li_keys _ _ _ _ _ _ _ _ L _ Id). unfold keyv. rewrite E. reflexivity. }
  destruct (pi_cur _ _ _ _ _ _ _ _ _ _ _ (li_pi _ _ _ _ _ _ _ _ L) _ Id) as (_ & _ & _ & q & Nq & _ & En & _). rewrite Pc in Nq.
  unfold act_end, get_piece. rewrite Nq, K. cbn [of_option rbind h_key fst]. rewrite (IH (fun y Y => I y (or_intror Y))). cbn [rbind].
  unfold h_end. unfold pol in En. destruct (h_pos s (hat hs (a_id a))); rewrite En; reflexivity.
Qed.
Lemma ends_ok x A st : SI x A st -> act_ends st (c_active st) = Ok (map (fun a => (a, h_end s (hat hs a))) A).
Proof. intros S. rewrite (act_ends_ok x A st S _ (incl_refl _)). rewrite <- (si_ids _ _ _ S). unfold ids. rewrite map_map. reflexivity. Qed.
Lemma lowest_exists (l : list (nat * hpoint3)) : (forall x, In x l -> okp (snd x)) -> l <> [] -> exists x, In x (lowest s l).
Proof.
  intros O N. assert (M : exists x, In x l /\ forall y, In y l -> along s (snd x) <= along s (snd y)).
  { clear O. induction l as [|a l IH]; [contradiction|]. destruct l as [|b l]; [exists a; split; [left; reflexivity|]; intros y [<-|[]]; lra|].
    destruct IH as (x & X & H); [discriminate|]. destruct (Qlt_le_dec (along s (snd a)) (along s (snd x))) as [D|D].
    - exists a. split; [left; reflexivity|]. intros y [<-|Y]; [lra|]. specialize (H y Y). lra.
    - exists x. split; [right; exact X|]. intros y [<-|Y]; [exact D|apply H; exact Y]. }
  destruct M as (x & X & H). exists x. apply filter_In. split; [exact X|]. apply forallb_forall. intros y Y. apply negb_true_iff. destruct (loc_lt s (snd y) (snd x)) eqn:E; [|reflexivity].
  apply loc_lt_ok in E; [|apply O; assumption|apply O; assumption]. specialize (H y Y). lra.
Qed.
Lemma front_ok x A st : SI x A st -> (A = [] /\ front_end s ord st = Ok None) \/
  exists a, In a A /\ front_end s ord st = Ok (Some (h_end s (hat hs a))) /\ forall b, In b A -> hi a <= hi b.
Proof.
  intros S. unfold front_end. rewrite (ends_ok _ _ _ S). cbn [rbind]. set (es := map (fun a => (a, h_end s (hat hs a))) A).
  assert (O : forall y, In y es -> okp (snd y)). { intros y Y. apply in_map_iff in Y. destruct Y as (a & <- & Ia). apply half_ok. apply (si_act _ _ _ S). exact Ia. }
  destruct (ord (lowest s es)) as [|y r] eqn:E.
  - left. split; [|reflexivity]. destruct A as [|a A']; [reflexivity|exfalso]. destruct (lowest_exists es O) as (y & Y); [discriminate|]. apply (Permutation_in _ (Permutation_sym (ord_perm _))) in Y. rewrite E in Y. destruct Y.
  - right. assert (Y : In y (lowest s es)). { apply (Permutation_in _ (ord_perm (lowest s es))). rewrite E. left. reflexivity. }
    apply filter_In in Y. destruct Y as [Y F]. rewrite forallb_forall in F. apply in_map_iff in Y. destruct Y as (a & <- & Ia). exists a. split; [exact Ia|]. split; [reflexivity|].
    intros b Ib. assert (Yb : In (b, h_end s (hat hs b)) es) by (apply in_map_iff; exists b; auto). specialize (F _ Yb). apply negb_true_iff in F. cbn [snd] in F.
    apply Qnot_lt_le. intros C. assert (T : loc_lt s (h_end s (hat hs b)) (h_end s (hat hs a)) = true) by (apply loc_lt_ok; [apply half_ok, (si_act _ _ _ S b), Ib|apply half_ok, (si_act _ _ _ S a), Ia|exact C]). congruence.
Qed.

(** ** The end events *)
Definition mem (D : list nat) (i : nat) : bool := existsb (Nat.eqb i) D.
Lemma mem_in D i : mem D i = true <-> In i D.
Proof. unfold mem. rewrite existsb_exists. split; [intros (y & Y & E); apply Nat.eqb_eq in E; subst; exact Y|intros I; exists i; split; [exact I|apply Nat.eqb_refl]]. Qed.
Record FI (A : list nat) (D : list nat) (st0 st : cstate) : Prop := {
  fi_same : same_rest (c_active st0) (c_active st);
  fi_pc : forall j, pcv (c_active st) j = pcv (c_active st0) j;
  fi_part : forall a, In a A -> part (c_active st) a = if mem D a then Some a else if mem D (tau pol A a) then None else Some (tau pol A a);
  fi_need : forall a, In a A -> mem D a = false -> mem D (tau pol A a) = true -> In a (c_need st);
  fi_in : forall a, In a (c_need st) -> In a A;
  fi_pieces : c_pieces st = c_pieces st0;
  fi_err : c_errors st = c_errors st0 }.
Lemma finish_ok dbg x A st0 : SI x A st0 -> forall L D st, FI A D st0 st -> NoDup L -> (forall i, In i L -> In i A /\ ~ In i D) ->
  exists st', finish_edges dbg st L = Ok st' /\ FI A (rev L ++ D) st0 st'.
Proof.
  intros S. induction L as [|i L IH]; intros D st F N H; cbn [finish_edges]; [exists st; auto|].
  inversion N as [|? ? N1 N2]; subst. destruct (H i (or_introl eq_refl)) as [Ii Di]. assert (Mi : mem D i = false) by (destruct (mem D i) eqn:E; [apply mem_in in E; contradiction|reflexivity]).
  destruct (tau_facts _ _ _ _ S Ii) as (It & Dt & Tt). set (t := tau pol A i) in *.
  assert (Ids : ids (c_active st) = A) by (rewrite (proj1 (fi_same _ _ _ _ F)); exact (si_ids _ _ _ S)).
  rewrite (get_act_ent _ _ _ (ent_view _ i ltac:(rewrite Ids; exact Ii))). cbn [rbind a_partner]. rewrite (fi_part _ _ _ _ F i Ii), Mi. fold t.
  assert (Next : forall st1, ids (c_active st1) = A -> same_rest (c_active st0) (c_active st1) -> (forall j, pcv (c_active st1) j = pcv (c_active st0) j) ->
    (forall a, In a A -> a <> i -> part (c_active st1) a = if (a =? t)%nat then (if mem D t then Some t else None) else part (c_active st) a) ->
    (forall a, In a (c_need st) -> In a (c_need st1)) -> (mem D t = false -> In t (c_need st1)) -> (forall a, In a (c_need st1) -> In a A) -> c_pieces st1 = c_pieces st0 -> c_errors st1 = c_errors st0 ->
    exists st', finish_edges dbg (with_active st1 (set_act (c_active st1) i (set_partner (Some i)))) L = Ok st' /\ FI A (rev (i :: L) ++ D) st0 st').
  { intros st1 I1 R1 C1 P1 Q1 Q2 Q3 Q4 Q5. destruct (set_partner_view (c_active st1) i (Some i) ltac:(rewrite I1; exact Ii)) as (V1 & V2 & V3).
    destruct (IH (i :: D) (with_active st1 (set_act (c_active st1) i (set_partner (Some i))))) as (st' & E' & F').
    - constructor; cbn [with_active c_active c_need c_pieces c_errors].
      + eapply same_rest_trans; eassumption.
      + intros j. rewrite V2. apply C1.
      + intros a Ia. rewrite V3. unfold upd, mem. cbn [existsb]. destruct (a =? i)%nat eqn:B1; [apply Nat.eqb_eq in B1; subst a; reflexivity|]. rewrite P1 by (exact Ia || lia). cbn [orb].
        destruct (a =? t)%nat eqn:B2.
        * apply Nat.eqb_eq in B2. rewrite B2, Tt, Nat.eqb_refl. cbn [orb]. reflexivity.
        * rewrite (fi_part _ _ _ _ F a Ia). replace (tau pol A a =? i)%nat with false; [reflexivity|]. symmetry. apply Nat.eqb_neq. intros X. apply Nat.eqb_neq in B2. apply B2. unfold t. rewrite <- X. symmetry. apply (tau_facts _ _ _ _ S Ia).
      + intros a Ia M1 M2. unfold mem in M1, M2. cbn [existsb] in M1, M2. destruct (tau pol A a =? i)%nat eqn:B.
        * apply Nat.eqb_eq in B. assert (X : a = t). { unfold t. rewrite <- B. symmetry. apply (tau_facts _ _ _ _ S Ia). } rewrite X in M1 |- *. apply Q2. unfold mem. destruct (existsb (Nat.eqb t) D); [|reflexivity]. rewrite orb_true_r in M1. discriminate.
        * apply Q1. apply (fi_need _ _ _ _ F a Ia); unfold mem; [destruct (existsb (Nat.eqb a) D); [rewrite orb_true_r in M1; discriminate|reflexivity]|exact M2].
      + exact Q3.
      + exact Q4.
      + exact Q5.
    - exact N2.
    - intros j J. destruct (H j (or_intror J)) as [J1 J2]. split; [exact J1|]. intros [X|X]; [rewrite X in N1; contradiction|contradiction].
    - exists st'. split; [exact E'|]. cbn [rev]. rewrite <- app_assoc. exact F'. }
  destruct (mem D t) eqn:Mt.
  - cbn [rbind]. apply Next; try (apply F); [exact Ids| |auto|discriminate]. intros a Ia Da. destruct (a =? t)%nat eqn:B; [|reflexivity]. apply Nat.eqb_eq in B. rewrite B, (fi_part _ _ _ _ F t It), Mt. reflexivity.
  - rewrite (get_act_ent _ _ _ (ent_view _ t ltac:(rewrite Ids; exact It))). cbn [rbind a_partner].
    assert (Pt : part (c_active st) t = Some i). { rewrite (fi_part _ _ _ _ F t It), Mt, Tt, Mi. reflexivity. }
    rewrite Pt, check_true by apply Nat.eqb_refl. cbn [rbind].
    destruct (set_partner_view (c_active st) t None ltac:(rewrite Ids; exact It)) as (V1 & V2 & V3).
    apply Next; cbn [with_active with_need c_active c_need c_pieces c_errors].
    + rewrite (proj1 V1). exact Ids.
    + eapply same_rest_trans; [apply F|exact V1].
    + intros j. rewrite V2. apply F.
    + intros a Ia Da. rewrite V3. unfold upd. destruct (a =? t)%nat; reflexivity.
    + intros a Ia. right. right. exact Ia.
    + intros _. left. reflexivity.
    + intros a [<-|[<-|Ia]]; [exact It|exact It|apply (fi_in _ _ _ _ F a Ia)].
    + apply F.
    + apply F.
Qed.

(** The state after the end events at the next location [y]. *)
Record MI (y : Q) (A : list nat) (st0 st : cstate) : Prop := {
  mi_rank : by_rank rk (ids (c_active st));
  mi_ids : forall i, In i (ids (c_active st)) <-> In i A /\ y < hi i;
  mi_view : forall i, In i (ids (c_active st)) -> keyv (c_active st) i = keyv (c_active st0) i /\ pcv (c_active st) i = pcv (c_active st0) i /\ curv (c_active st) i = curv (c_active st0) i;
  mi_part : forall i, In i (ids (c_active st)) -> (part (c_active st) i = Some (tau pol A i) /\ In (tau pol A i) (ids (c_active st)) /\ part (c_active st) (tau pol A i) = Some i) \/ (part (c_active st) i = None /\ In i (c_need st));
  mi_need : forall i, In i (c_need st) -> In i (ids (c_active st));
  mi_pieces : c_pieces st = c_pieces st0;
  mi_err : c_errors st = c_errors st0 }.
Lemma no_ends x A st y : SI x A st -> (forall a, In a A -> y < hi a) -> MI y A st st.
Proof.
  intros S H. pose proof (si_ids _ _ _ S) as Ids. constructor; rewrite ?Ids; auto.
  - exact (si_rank _ _ _ S).
  - intros i. split; [intros I; split; [exact I|apply H; exact I]|tauto].
  - intros i I. left. destruct (tau_facts _ _ _ _ S I) as (T1 & T2 & T3). split; [exact (si_part _ _ _ _ S I)|]. split; [exact T1|]. rewrite (si_part _ _ _ _ S T1), T3. reflexivity.
  - intros i I. rewrite (si_need _ _ _ S) in I. destruct I.
Qed.
Lemma ends_step dbg x A st y loc : SI x A st -> okp loc -> along s loc == y -> (forall a, In a A -> y <= hi a) ->
  exists st', end_events dbg ord st loc = Ok st' /\ MI y A st st'.
Proof.
  intros S Ol Ly H. unfold end_events. rewrite (ends_ok _ _ _ S). cbn [rbind]. set (es := map (fun a => (a, h_end s (hat hs a))) A).
  set (f := filter (fun z => hp_eq (snd z) loc) es). set (L := map fst (ord f)).
  assert (PL : Permutation L (map fst f)) by (apply Permutation_map; apply ord_perm).
  assert (Mf : map fst f = filter (fun a => hp_eq (h_end s (hat hs a)) loc) A).
  { unfold f, es. clear. induction A as [|a A IH]; [reflexivity|]. cbn [map filter snd]. destruct (hp_eq (h_end s (hat hs a)) loc); cbn [map fst]; rewrite IH; reflexivity. }
  assert (InL : forall i, In i L <-> In i A /\ ~ y < hi i).
  { intros i. split.
    - intros I. apply (Permutation_in _ PL) in I. rewrite Mf in I. apply filter_In in I. destruct I as [I E]. split; [exact I|]. apply hp_eq_ok in E; [|apply half_ok, (si_act _ _ _ S i), I|exact Ol]. unfold hi. intros X. lra.
    - intros [I E]. apply (Permutation_in _ (Permutation_sym PL)). rewrite Mf. apply filter_In. split; [exact I|]. apply hp_eq_ok; [apply half_ok, (si_act _ _ _ S i), I|exact Ol|]. specialize (H i I). unfold hi in *. lra. }
  assert (NL : NoDup L). { apply (Permutation_NoDup (Permutation_sym PL)). rewrite Mf. apply NoDup_filter. exact (by_rank_nodup _ _ (si_rank _ _ _ S)). }
  destruct (finish_ok dbg x A st S L [] st) as (st' & E' & F').
  { constructor; try reflexivity.
    - apply same_rest_refl.
    - intros a Ia. cbn. exact (si_part _ _ _ _ S Ia).
    - discriminate.
    - intros a Ia. rewrite (si_need _ _ _ S) in Ia. destruct Ia. }
  { exact NL. }
  { intros i I. split; [apply InL; exact I|intros []]. }
  rewrite E'. cbn [rbind]. clear E'. rewrite app_nil_r in F'.
  assert (Mem : forall i, mem (rev L) i = mem L i). { intros i. destruct (mem L i) eqn:X. - apply mem_in. apply mem_in in X. rewrite <- in_rev. exact X. - destruct (mem (rev L) i) eqn:Y; [|reflexivity]. apply mem_in, in_rev, mem_in in Y. congruence. }
  set (g := fun i => negb (mem L i)).
  assert (Ids' : ids (c_active st') = A) by (rewrite (proj1 (fi_same _ _ _ _ F')); exact (si_ids _ _ _ S)).
  eexists. split; [reflexivity|]. cbn [with_active with_need c_active c_need c_pieces c_errors].
  change (filter (fun a => negb (existsb (Nat.eqb (a_id a)) L)) (c_active st')) with (filter (fun a => g (a_id a)) (c_active st')).
  assert (IdsF : ids (filter (fun a => g (a_id a)) (c_active st')) = filter g A) by (rewrite ids_filter, Ids'; reflexivity).
  assert (EntF : forall i, In i (filter g A) -> ent (filter (fun a => g (a_id a)) (c_active st')) i = ent (c_active st') i). { intros i I. rewrite ent_filter. apply filter_In in I. rewrite (proj2 I). reflexivity. }
  assert (InG : forall i, In i (filter g A) <-> In i A /\ y < hi i).
  { intros i. rewrite filter_In. split; intros [I X]; (split; [exact I|]).
    - apply Qnot_le_lt. intros C. unfold g in X. apply negb_true_iff in X. assert (T : mem L i = true) by (apply mem_in, InL; split; [exact I|lra]). congruence.
    - unfold g. destruct (mem L i) eqn:T; [|reflexivity]. apply mem_in, InL in T. tauto. }
  constructor; cbn [with_active with_need c_active c_need c_pieces c_errors]; rewrite ?IdsF.
  - apply by_rank_filter. exact (si_rank _ _ _ S).
  - exact InG.
  - intros i I. unfold keyv, pcv, curv. rewrite (EntF i I). fold (keyv (c_active st') i) (pcv (c_active st') i) (curv (c_active st') i) (keyv (c_active st) i) (pcv (c_active st) i) (curv (c_active st) i).
    destruct (proj2 (fi_same _ _ _ _ F') i) as [X1 X2]. split; [exact X1|]. split; [apply F'|exact X2].
  - intros i I. assert (I' := I). apply filter_In in I'. destruct I' as [Ia Gi]. unfold g in Gi. apply negb_true_iff in Gi.
    destruct (tau_facts _ _ _ _ S Ia) as (T1 & T2 & T3). unfold part. rewrite (EntF i I). fold (part (c_active st') i). rewrite (fi_part _ _ _ _ F' i Ia), !Mem, Gi.
    destruct (mem L (tau pol A i)) eqn:Mt.
    + right. split; [reflexivity|]. apply filter_In. split; [apply (fi_need _ _ _ _ F' i Ia); rewrite Mem; assumption|]. unfold marked. fold (ent (c_active st') i). rewrite (ent_view _ i ltac:(rewrite Ids'; exact Ia)). cbn [a_partner].
      rewrite (fi_part _ _ _ _ F' i Ia), !Mem, Gi, Mt. reflexivity.
    + left. split; [reflexivity|]. assert (It : In (tau pol A i) (filter g A)) by (apply filter_In; split; [exact T1|unfold g; rewrite Mt; reflexivity]). split; [exact It|].
      rewrite (EntF _ It). fold (part (c_active st') (tau pol A i)). rewrite (fi_part _ _ _ _ F' _ T1), !Mem, Mt, T3, Gi. reflexivity.
  - intros i I. apply filter_In in I. destruct I as [I M]. pose proof (fi_in _ _ _ _ F' i I) as Ia. apply filter_In. split; [exact Ia|]. unfold g. destruct (mem L i) eqn:X; [|reflexivity]. exfalso.
    unfold marked in M. fold (ent (c_active st') i) in M. rewrite (ent_view _ i ltac:(rewrite Ids'; exact Ia)) in M. cbn [a_partner] in M. rewrite (fi_part _ _ _ _ F' i Ia), Mem, X, Nat.eqb_refl in M. discriminate M.
  - apply F'.
  - apply F'.
Qed.

(** ** The begin events *)
Record BI (y : Q) (k0 k : nat) (st1 st : cstate) : Prop := {
  bi_rank : by_rank rk (ids (c_active st));
  bi_ids : forall i, In i (ids (c_active st)) <-> In i (ids (c_active st1)) \/ (k0 <= i < k)%nat;
  bi_old : forall i, In i (ids (c_active st1)) -> ent (c_active st) i = ent (c_active st1) i;
  bi_new : forall i, (k0 <= i < k)%nat -> ent (c_active st) i = Some (Act i (h_key s (hat hs i)) i None true);
  bi_need : forall i, In i (c_need st) <-> In i (c_need st1) \/ (k0 <= i < k)%nat;
  bi_pieces : c_pieces st = c_pieces st1;
  bi_err : c_errors st = c_errors st1 }.
Lemma begins_ok x A st0 st1 y loc k0 : SI x A st0 -> MI y A st0 st1 -> okp loc -> along s loc == y -> x < y ->
  (forall i, (i < n)%nat -> (k0 <= i)%nat -> y <= lo i) -> (forall i, In i A -> (i < k0)%nat) ->
  forall m k st, (m = n - k)%nat -> (k0 <= k <= n)%nat -> BI y k0 k st1 st -> (forall i, (k0 <= i < k)%nat -> lo i == y) ->
  exists k' st', begin_events s st loc (number k (skipn k hs)) = Ok (st', number k' (skipn k' hs)) /\ (k <= k' <= n)%nat /\ BI y k0 k' st1 st' /\
    (forall i, (k0 <= i < k')%nat -> lo i == y) /\ (forall i, (k' <= i < n)%nat -> y < lo i).
Proof.
  intros S M Ol Ly Xy Nx Old. induction m as [|m IH]; intros k st Em Lk B E.
  { assert (k = n) by lia. subst k. exists n, st. rewrite skipn_all. cbn [number begin_events]. split; [reflexivity|]. split; [lia|]. split; [exact B|]. split; [exact E|]. intros i Hi. lia. }
  assert (Kn : (k < n)%nat) by lia. rewrite (number_skip hs no_half k Kn). fold (hat hs k). cbn [begin_events]. destruct (half_ok k Kn) as (O1 & O2 & O3).
  destruct (hp_eq (h_begin s (hat hs k)) loc) eqn:Q.
  - apply hp_eq_ok in Q; [|exact O1|exact Ol].
    assert (Eq : lo k == y) by (unfold ConnPieceProofs.lo; lra).
    destruct (emplace_spec rk (c_active st) (Act k (h_key s (hat hs k)) k None true) (bi_rank _ _ _ _ _ B)) as (l' & E' & Pm & Bk).
    { intros a Ia. cbn [a_key a_id].
      assert (Id : In (a_id a) (ids (c_active st))) by (apply in_map; exact Ia).
      assert (ND : NoDup (ids (c_active st))) by exact (by_rank_nodup _ _ (bi_rank _ _ _ _ _ B)). pose proof (ent_of_in _ _ ND Ia) as En.
      assert (Facts : a_key a = h_key s (hat hs (a_id a)) /\ act y (a_id a) /\ a_id a <> k).
      { apply (bi_ids _ _ _ _ _ B) in Id. destruct Id as [Id|Id].
        - rewrite (bi_old _ _ _ _ _ B _ Id) in En. assert (Ia' := Id). apply (mi_ids _ _ _ _ M) in Ia'. destruct Ia' as [IA Hi]. split; [|split].
          + assert (X : keyv (c_active st1) (a_id a) = a_key a) by (unfold keyv; rewrite En; reflexivity). rewrite <- X, (proj1 (mi_view _ _ _ _ M _ Id)). apply (li_keys _ _ _ _ _ _ _ _ (si_li _ _ _ S) _ IA).
          + apply (si_act _ _ _ S) in IA. destruct IA as (X1 & X2 & X3). split; [exact X1|]. split; [lra|exact Hi].
          + apply Old in IA. lia.
        - rewrite (bi_new _ _ _ _ _ B _ Id) in En. injection En as En. split; [rewrite <- En; reflexivity|]. split; [|lia]. assert (Y : (a_id a < n)%nat) by lia. split; [exact Y|]. pose proof (E _ Id). destruct (half_ok _ Y) as (_ & _ & Y3). lra. }
      destruct Facts as (Fk & Fa & Fd). rewrite Fk. assert (Ak : act y k) by (split; [exact Kn|split; lra]). rewrite !key_ok by (apply Fa || exact Kn). repeat split. exact (distinct y _ _ Fa Ak Fd). }
    rewrite E'. cbn [rbind].
    assert (Kid : ~ In k (ids (c_active st))). { intros X. apply (bi_ids _ _ _ _ _ B) in X. destruct X as [X|X]; [|lia]. apply (mi_ids _ _ _ _ M) in X. destruct X as [X _]. apply Old in X. lia. }
    assert (NDp : NoDup (ids (Act k (h_key s (hat hs k)) k None true :: c_active st))) by (constructor; [exact Kid|exact (by_rank_nodup _ _ (bi_rank _ _ _ _ _ B))]).
    assert (En : forall j, ent l' j = if (k =? j)%nat then Some (Act k (h_key s (hat hs k)) k None true) else ent (c_active st) j). { intros j. rewrite <- (ent_perm _ _ j NDp (Permutation_sym Pm)). reflexivity. }
    assert (InN : forall i, In i (ids l') <-> i = k \/ In i (ids (c_active st))). { intros i. split; intros X. - apply (Permutation_in _ (Permutation_map a_id Pm)) in X. destruct X as [X|X]; [left; cbn in X; congruence|right; exact X]. - apply (Permutation_in _ (Permutation_sym (Permutation_map a_id Pm))). destruct X as [->|X]; [left; reflexivity|right; exact X]. }
    destruct (IH (Datatypes.S k) (with_need (with_active st l') (k :: c_need st))) as (k' & st' & R1 & R2 & R3 & R4 & R5); [lia|lia| | |].
    { constructor; cbn [with_need with_active c_active c_need c_pieces c_errors]; try apply B.
      - exact Bk.
      - intros i. rewrite InN, (bi_ids _ _ _ _ _ B). split; intros X; [destruct X as [->|[X|X]]; [right; lia|left; exact X|right; lia]|destruct X as [X|X]; [right; left; exact X|]]. destruct (Nat.eq_dec i k) as [->|D]; [left; reflexivity|right; right; lia].
      - intros i Ii. rewrite En. destruct (k =? i)%nat eqn:X; [|apply (bi_old _ _ _ _ _ B); exact Ii]. exfalso. apply Nat.eqb_eq in X. subst i. apply Kid. apply (bi_ids _ _ _ _ _ B). left. exact Ii.
      - intros i Hi. rewrite En. destruct (k =? i)%nat eqn:X; [apply Nat.eqb_eq in X; subst i; reflexivity|]. apply (bi_new _ _ _ _ _ B). lia.
      - intros i. cbn [In]. rewrite (bi_need _ _ _ _ _ B). split; intros X; [destruct X as [<-|[X|X]]; [right; lia|left; exact X|right; lia]|destruct X as [X|X]; [right; left; exact X|]]. destruct (Nat.eq_dec i k) as [->|D]; [left; reflexivity|right; right; lia]. }
    { intros i Hi. destruct (Nat.eq_dec i k) as [->|D]; [exact Eq|]. apply E. lia. }
    exists k', st'. split; [exact R1|]. split; [lia|]. auto.
  - exists k, st. rewrite (number_skip hs no_half k Kn). split; [reflexivity|]. split; [lia|]. split; [exact B|]. split; [exact E|].
    assert (Lt : y < lo k). { apply Qnot_le_lt. intros C. assert (T : hp_eq (h_begin s (hat hs k)) loc = true); [|congruence]. apply hp_eq_ok; [exact O1|exact Ol|]. pose proof (Nx k Kn ltac:(lia)) as X. unfold ConnPieceProofs.lo in *. lra. }
    intros i Hi. pose proof (sorted k i Hi). lra.
Qed.

(** ** To the next location *)
Lemma advance x A st0 st1 y k0 k st : SI x A st0 -> MI y A st0 st1 -> BI y k0 k st1 st -> x < y ->
  (forall i, (i < n)%nat -> ((i < k0)%nat <-> lo i <= x)) -> (forall i, (k0 <= i < k)%nat -> lo i == y) -> (forall i, (k <= i < n)%nat -> y < lo i) -> (k0 <= k <= n)%nat ->
  (forall a, In a A -> y <= hi a) ->
  (forall i, In i (ids (c_active st)) <-> act y i) /\ LI y (ids (c_active st)) st.
Proof.
  intros S M B Xy K0 K1 K2 Lk Hy. pose proof (si_li _ _ _ S) as L. pose proof (li_pi _ _ _ _ _ _ _ _ L) as P. set (A2 := ids (c_active st)).
  assert (LoA : forall i, (i < n)%nat -> (k0 <= i)%nat -> y <= lo i). { intros i I1 I2. destruct (Nat.lt_ge_cases i k) as [X|X]; [specialize (K1 i ltac:(lia)); lra|specialize (K2 i ltac:(lia)); lra]. }
  assert (Act2 : forall i, In i A2 <-> act y i).
  { intros i. unfold A2. rewrite (bi_ids _ _ _ _ _ B), (mi_ids _ _ _ _ M), (si_act _ _ _ S). split.
    - intros [[(X1 & X2 & X3) X4]|X]; [split; [exact X1|split; [lra|exact X4]]|]. assert (Y : (i < n)%nat) by lia. split; [exact Y|]. specialize (K1 i X). destruct (half_ok i Y) as (_ & _ & Z). split; lra.
    - intros (X1 & X2 & X3). destruct (Nat.lt_ge_cases i k0) as [Y|Y]; [left|right].
      + apply (K0 i X1) in Y. split; [split; [exact X1|split; [exact Y|lra]]|exact X3].
      + split; [exact Y|]. destruct (Nat.lt_ge_cases i k) as [Z|Z]; [exact Z|]. specialize (K2 i ltac:(lia)). lra. }
  split; [exact Act2|].
  pose proof (bi_rank _ _ _ _ _ B) as B2. fold A2 in B2. pose proof (mated y A2 Act2 B2) as M2. pose proof (si_rank _ _ _ S) as B1. pose proof (si_mated _ _ _ S) as M1.
  assert (Old : forall a, In a A2 -> (a < k0)%nat -> In a A /\ In a (ids (c_active st1)) /\ keyv (c_active st) a = keyv (c_active st0) a /\ pcv (c_active st) a = pcv (c_active st0) a /\ curv (c_active st) a = false /\ part (c_active st) a = part (c_active st1) a).
  { intros a Ia La. unfold A2 in Ia. apply (bi_ids _ _ _ _ _ B) in Ia. destruct Ia as [Ia|Ia]; [|lia]. assert (IA := Ia). apply (mi_ids _ _ _ _ M) in IA. destruct IA as [IA _]. destruct (mi_view _ _ _ _ M a Ia) as (V1 & V2 & V3).
    unfold keyv, pcv, curv, part in *. rewrite (bi_old _ _ _ _ _ B a Ia). repeat (split; [assumption|]). split; [|reflexivity]. rewrite V3. apply (si_cur _ _ _ S a IA). }
  assert (New : forall a, In a A2 -> (k0 <= a)%nat -> (k0 <= a < k)%nat /\ keyv (c_active st) a = h_key s (hat hs a) /\ pcv (c_active st) a = a /\ curv (c_active st) a = true /\ part (c_active st) a = None).
  { intros a Ia La. unfold A2 in Ia. apply (bi_ids _ _ _ _ _ B) in Ia. destruct Ia as [Ia|Ia]; [apply (mi_ids _ _ _ _ M) in Ia; destruct Ia as [Ia _]; apply (si_act _ _ _ S) in Ia; destruct Ia as (X1 & X2 & _); specialize (LoA a X1 La); lra|].
    unfold keyv, pcv, curv, part. rewrite (bi_new _ _ _ _ _ B a Ia). auto. }
  assert (Sub : forall a, In a (ids (c_active st1)) -> In a A2 /\ (a < k0)%nat).
  { intros a Ia. split; [unfold A2; apply (bi_ids _ _ _ _ _ B); left; exact Ia|]. apply (mi_ids _ _ _ _ M) in Ia. destruct Ia as [Ia _]. apply (si_act _ _ _ S) in Ia. destruct Ia as (X1 & X2 & _). apply (K0 a X1). exact X2. }
  assert (Part : forall a b, In a A2 -> part (c_active st) a = Some b -> (a < k0)%nat /\ In a A /\ b = tau pol A a /\ In b A2 /\ (b < k0)%nat /\ part (c_active st) b = Some a).
  { intros a b Ia Pb. destruct (Nat.lt_ge_cases a k0) as [La|La]; [|destruct (New a Ia La) as (_ & _ & _ & _ & X); congruence]. destruct (Old a Ia La) as (IA & I1 & _ & _ & _ & X). rewrite X in Pb.
    destruct (mi_part _ _ _ _ M a I1) as [(Y1 & Y2 & Y3)|[Y1 _]]; [|congruence]. rewrite Y1 in Pb. injection Pb as <-. destruct (Sub _ Y2) as [Z1 Z2]. repeat (split; [auto|]). destruct (Old _ Z1 Z2) as (_ & _ & _ & _ & _ & W). rewrite W. exact Y3. }
  constructor.
  - reflexivity.
  - intros a Ia. destruct (Nat.lt_ge_cases a k0) as [La|La]; [|apply (New a Ia La)]. destruct (Old a Ia La) as (IA & _ & X & _). rewrite X. apply (li_keys _ _ _ _ _ _ _ _ L a IA).
  - intros a b Ia Pb. destruct (Part a b Ia Pb) as (X1 & X2 & -> & X4 & _). split; [exact X4|]. apply (tau_facts _ _ _ _ S X2).
  - intros a Ia Pb. apply (Part a _ Ia Pb).
  - intros a Ia. destruct (part (c_active st) a) as [b|] eqn:Pb.
    + destruct (Part a b Ia Pb) as (X1 & X2 & X3 & X4 & X5 & _). pose proof (tau_mate _ _ _ _ B2 M2 Ia) as T2. pose proof (tau_mate _ _ _ _ B1 M1 X2) as T1. rewrite <- X3 in T1.
      destruct (mate_in _ _ _ _ _ T2) as (_ & I2 & _). destruct (Nat.lt_ge_cases (tau pol A2 a) k0) as [Y|Y].
      * left. f_equal. apply (mate_two rk pol A A2 a b (tau pol A2 a)); [intros u v; apply (by_rank_inj rk A); exact B1|exact T1|exact T2|apply (Old _ I2 Y)|exact X4].
      * right. right. apply (bi_need _ _ _ _ _ B). right. apply (New _ I2 Y).
    + right. left. apply (bi_need _ _ _ _ _ B). destruct (Nat.lt_ge_cases a k0) as [La|La]; [left|right; apply (New a Ia La)]. destruct (Old a Ia La) as (_ & I1 & _ & _ & _ & X). rewrite X in Pb.
      destruct (mi_part _ _ _ _ M a I1) as [(Y1 & _)|[_ Y]]; [congruence|exact Y].
  - intros a Ia. apply (bi_need _ _ _ _ _ B) in Ia. unfold A2. apply (bi_ids _ _ _ _ _ B). destruct Ia as [Ia|Ia]; [left; apply (mi_need _ _ _ _ M); exact Ia|right; exact Ia].
  - rewrite (bi_err _ _ _ _ _ B), (mi_err _ _ _ _ M). apply (li_err _ _ _ _ _ _ _ _ L).
  - rewrite (bi_pieces _ _ _ _ _ B), (mi_pieces _ _ _ _ M).
    assert (GoodA : forall a, In a A -> stv s hs A (c_active st0) a = Good) by (intros a Ia; apply stv_good; exact (si_part _ _ _ _ S Ia)).
    assert (ActP : forall i q, nth_error (c_pieces st0) i = Some q -> lo (p_edge q) <= x -> x < phi s hs q -> In (p_edge q) A /\ pcv (c_active st0) (p_edge q) = i /\ p_partner q = Some (pcv (c_active st0) (tau pol A (p_edge q))) /\ phi s hs q = hi (p_edge q)).
    { intros i q Nq Q1 Q2. destruct (pi_act _ _ _ _ _ _ _ _ _ _ _ P i q Nq Q1 Q2) as [IA Pc]. destruct (pi_cur _ _ _ _ _ _ _ _ _ _ _ P _ IA) as (_ & _ & _ & q' & Nq' & _ & En & X). rewrite Pc, Nq in Nq'. injection Nq' as <-. rewrite (GoodA _ IA) in X.
      repeat (split; [solve [tauto]|]). unfold phi, ConnPieceProofs.hi, h_end. unfold ConnPieceProofs.pol in *. destruct (h_pos s (hat hs (p_edge q))); rewrite En; reflexivity. }
    assert (Cov : forall t, gen t -> x <= t -> t < y -> forall i, In i A <-> (i < n)%nat /\ lo i < t /\ t < hi i).
    { intros t G T1 T2 i. rewrite (si_act _ _ _ S). split.
      - intros (X1 & X2 & X3). split; [exact X1|]. destruct (gen_ok t i G X1) as [G1 G2]. pose proof (Hy i ltac:(apply (si_act _ _ _ S); split; auto)). split; [|lra]. destruct (Qlt_le_dec (lo i) t) as [Z|Z]; [exact Z|]. exfalso. apply G1. lra.
      - intros (X1 & X2 & X3). split; [exact X1|]. split; [|lra]. apply (K0 i X1). destruct (Nat.lt_ge_cases i k0) as [Z|Z]; [exact Z|]. specialize (LoA i X1 Z). lra. }
    assert (Dis : forall q q', p_partner q = Some q' -> p_partner q = None -> False) by congruence.
    constructor.
    + apply P.
    + intros i q j Nq Pj. destruct (pi_link _ _ _ _ _ _ _ _ _ _ _ P i q j Nq Pj) as (Q1 & r & Nr & Pr & Po & Pl & Ph & Pt). split; [lra|]. exists r. repeat (split; [assumption|]).
      assert (Lr : lo (p_edge r) <= x) by (apply (pi_link _ _ _ _ _ _ _ _ _ _ _ P j r i Nr Pr)).
      destruct (Qlt_le_dec x (phi s hs q)) as [X|X].
      * destruct (ActP i q Nq Q1 X) as (IA & Pc & Pp & Hq). rewrite Pj in Pp. injection Pp as Pp. destruct (tau_facts _ _ _ _ S IA) as (T1 & T2 & T3).
        destruct (pi_cur _ _ _ _ _ _ _ _ _ _ _ P _ T1) as (_ & _ & Hr & r' & Nr' & Er & En & _). rewrite <- Pp, Nr in Nr'. injection Nr' as <-.
        assert (Xr : x < phi s hs r). { unfold phi, ConnPieceProofs.hi, h_end in *. rewrite Er. unfold ConnPieceProofs.pol in *. destruct (h_pos s (hat hs (tau _ A (p_edge q)))); rewrite En; exact Hr. }
        destruct (ActP j r Nr Lr Xr) as (IAr & _ & _ & Hr'). split; [right; rewrite Hq, Hr'; split; apply Hy; assumption|].
        intros t G T4 T5 T6. destruct (Qlt_le_dec t x) as [Z|Z]; [apply Pt; assumption|]. rewrite Er. apply (paired t A _ _ G (Cov t G Z T6) B1). apply tau_mate; assumption.
      * assert (Xr : phi s hs r <= x). { apply Qnot_lt_le. intros C. destruct (ActP j r Nr Lr C) as (IA & Pc & Pp & Hr). rewrite Pr in Pp. injection Pp as Pp. destruct (tau_facts _ _ _ _ S IA) as (T1 & T2 & T3).
          destruct (pi_cur _ _ _ _ _ _ _ _ _ _ _ P _ T1) as (_ & _ & Hr' & r' & Nr' & Er & En & _). rewrite <- Pp, Nq in Nr'. injection Nr' as <-.
          assert (Xq : x < phi s hs q). { unfold phi, ConnPieceProofs.hi, h_end in *. rewrite Er. unfold ConnPieceProofs.pol in *. destruct (h_pos s (hat hs (tau _ A (p_edge r)))); rewrite En; exact Hr'. } lra. }
        split; [left; destruct Ph as [Ph|[Ph1 Ph2]]; [exact Ph|lra]|]. intros t G T4 T5 T6. apply Pt; try assumption. lra.
    + intros i q Nq Pn. destruct (pi_none _ _ _ _ _ _ _ _ _ _ _ P i q Nq Pn) as [[X1 X2]|(X1 & X2 & _)]; [|rewrite (GoodA _ X1) in X2; discriminate].
      destruct (pi_q _ _ _ _ _ _ _ _ _ _ _ P i q Nq) as (_ & _ & En & _). set (e := p_edge q) in *.
      assert (Ke : (k0 <= e)%nat). { apply Nat.le_ngt. intros C. apply (K0 e En) in C. lra. }
      destruct (Nat.lt_ge_cases e k) as [Z|Z]; [right|left; split; [apply K2; lia|exact X2]].
      assert (Ie : In e A2). { apply Act2. split; [exact En|]. specialize (K1 e ltac:(lia)). destruct (half_ok e En) as (_ & _ & W). split; lra. }
      destruct (New e Ie Ke) as (N1 & N2 & N3 & N4 & N5). split; [exact Ie|]. split; [|congruence]. unfold stv. rewrite N5, N4. reflexivity.
    + intros i q Nq Q1 Q2. destruct (pi_q _ _ _ _ _ _ _ _ _ _ _ P i q Nq) as (_ & _ & En & _). destruct (Qlt_le_dec x (lo (p_edge q))) as [X|X].
      * destruct (p_partner q) as [j|] eqn:Pq; [destruct (pi_link _ _ _ _ _ _ _ _ _ _ _ P i q j Nq Pq) as (Y & _); lra|].
        destruct (pi_none _ _ _ _ _ _ _ _ _ _ _ P i q Nq Pq) as [[_ X2]|(X1 & X2 & _)]; [|rewrite (GoodA _ X1) in X2; discriminate].
        assert (Ke : (k0 <= p_edge q)%nat). { apply Nat.le_ngt. intros C. apply (K0 _ En) in C. lra. }
        assert (Ie : In (p_edge q) A2). { apply Act2. split; [exact En|]. split; [exact Q1|]. pose proof (LoA _ En Ke). destruct (half_ok _ En) as (_ & _ & W). lra. }
        destruct (New _ Ie Ke) as (N1 & N2 & N3 & N4 & N5). split; [exact Ie|congruence].
      * destruct (ActP i q Nq X ltac:(lra)) as (IA & Pc & _ & Hq). assert (Ie : In (p_edge q) A2). { apply Act2. split; [exact En|]. split; [exact Q1|]. rewrite <- Hq. exact Q2. }
        assert (Ke : (p_edge q < k0)%nat) by (apply (K0 _ En); exact X). split; [exact Ie|]. destruct (Old _ Ie Ke) as (_ & _ & _ & O4 & _). rewrite O4. exact Pc.
    + intros e Le Xe. apply (pi_new _ _ _ _ _ _ _ _ _ _ _ P e Le). lra.
    + intros a Ia. assert (Ha := Ia). apply Act2 in Ha. destruct Ha as (H1 & H2 & H3). repeat (split; [assumption|]). destruct (Nat.lt_ge_cases a k0) as [La|La].
      * destruct (Old a Ia La) as (IA & I1 & O3 & O4 & O5 & O6). destruct (pi_cur _ _ _ _ _ _ _ _ _ _ _ P a IA) as (_ & _ & _ & q & Nq & Eq & En & X). rewrite (GoodA a IA) in X. destruct X as [X1 X2].
        exists q. rewrite O4. repeat (split; [assumption|]). destruct (stv s hs A2 (c_active st) a) eqn:Sv.
        -- assert (Pa : part (c_active st) a = Some (tau pol A2 a)). { destruct (part (c_active st) a) as [b|] eqn:Pb; unfold stv in Sv; rewrite Pb in Sv; [|rewrite O5 in Sv; discriminate]. destruct (b =? tau pol A2 a)%nat eqn:Y; [apply Nat.eqb_eq in Y; congruence|rewrite O5 in Sv; discriminate]. }
           destruct (Part a _ Ia Pa) as (Y1 & Y2 & Y3 & Y4 & Y5 & Y6). split; [lra|]. rewrite X2. f_equal. rewrite Y3. rewrite Y3 in Y4, Y5. symmetry. apply (Old _ Y4 Y5).
        -- exfalso. unfold stv in Sv. rewrite O5 in Sv. destruct (match part (c_active st) a with Some b => (b =? tau pol A2 a)%nat | None => false end); discriminate.
        -- split; [lra|]. eexists. exact X2.
      * destruct (New a Ia La) as (N1 & N2 & N3 & N4 & N5). pose proof (K1 a N1) as Y1. rewrite N3. exists (whole a (hat hs a)). split; [apply (pi_new _ _ _ _ _ _ _ _ _ _ _ P a H1); lra|]. split; [reflexivity|].
        split; [destruct (pol a); reflexivity|]. assert (Sv : stv s hs A2 (c_active st) a = Fresh) by (unfold stv; rewrite N5, N4; reflexivity). rewrite Sv. split; [|reflexivity].
        unfold plo, whole. cbn [p_edge p_from p_to]. unfold ConnPieceProofs.lo, h_begin in Y1. unfold ConnPieceProofs.pol in *. destruct (h_pos s (hat hs a)); exact Y1.
    + intros a Ia Ga. assert (Pa : part (c_active st) a = Some (tau pol A2 a)).
      { destruct (part (c_active st) a) as [b|] eqn:Pb; unfold stv in Ga; rewrite Pb in Ga; [|destruct (curv (c_active st) a); discriminate]. destruct (b =? tau pol A2 a)%nat eqn:Y; [apply Nat.eqb_eq in Y; congruence|destruct (curv (c_active st) a); discriminate]. }
      destruct (Part a _ Ia Pa) as (Y1 & Y2 & Y3 & Y4 & Y5 & Y6). split; [exact Y4|]. apply stv_good. rewrite Y6. f_equal. symmetry. apply (tau_tau rk); assumption.
    + apply P.
Qed.

Lemma settle y A st : LI y A st -> c_need st = [] -> by_rank rk A -> (forall i, In i A <-> act y i) -> (forall a, In a A -> curv (c_active st) a = false) -> SI y A st.
Proof. intros. constructor; assumption. Qed.
Lemma clear_cur_view l j : ent (map (set_cur false) l) j = option_map (set_cur false) (ent l j).
Proof. induction l as [|a l IH]; [reflexivity|]. unfold ent in *. cbn [map find set_cur a_id]. destruct (a_id a =? j)%nat; [reflexivity|exact IH]. Qed.
Lemma clear_cur y A st : LI y A st -> c_need st = [] -> by_rank rk A -> (forall i, In i A <-> act y i) -> SI y A (with_active st (map (set_cur false) (c_active st))).
Proof.
  intros L N B Ac. set (l' := map (set_cur false) (c_active st)).
  assert (Vp : forall j, part l' j = part (c_active st) j) by (intros j; unfold part, l'; rewrite clear_cur_view; destruct (ent (c_active st) j); reflexivity).
  assert (Vc : forall j, pcv l' j = pcv (c_active st) j) by (intros j; unfold pcv, l'; rewrite clear_cur_view; destruct (ent (c_active st) j); reflexivity).
  assert (Vk : forall j, keyv l' j = keyv (c_active st) j) by (intros j; unfold keyv, l'; rewrite clear_cur_view; destruct (ent (c_active st) j); reflexivity).
  assert (Good' : forall a, In a A -> part (c_active st) a = Some (tau pol A a)). { intros a Ia. destruct (li_cover _ _ _ _ _ _ _ _ L a Ia) as [X|[X|X]]; [exact X| |]; rewrite N in X; destruct X. }
  constructor; cbn [with_active c_active c_need]; auto.
  - constructor; cbn [with_active c_active c_need c_errors c_pieces]; try apply L.
    + unfold l', ids. rewrite map_map. apply (li_ids _ _ _ _ _ _ _ _ L).
    + intros a Ia. fold l'. rewrite Vk. apply (li_keys _ _ _ _ _ _ _ _ L a Ia).
    + intros a b Ia. fold l'. rewrite Vp. apply (li_part _ _ _ _ _ _ _ _ L a b Ia).
    + intros a Ia. fold l'. rewrite !Vp. apply (li_sym _ _ _ _ _ _ _ _ L a Ia).
    + intros a Ia. fold l'. rewrite !Vp. apply (li_cover _ _ _ _ _ _ _ _ L a Ia).
    + fold l'. eapply PI_ext; [|exact (li_pi _ _ _ _ _ _ _ _ L)]. intros a Ia. split; [symmetry; apply Vc|]. rewrite !stv_good; [reflexivity| |apply Good'; exact Ia]. rewrite Vp. apply Good'. exact Ia.
  - intros a Ia. unfold curv, l'. rewrite clear_cur_view. destruct (ent (c_active st) a); reflexivity.
Qed.
Lemma bi_refl y k st : by_rank rk (ids (c_active st)) -> BI y k k st st.
Proof. intros B. constructor; auto; try (intros; lia); intros i; split; auto; intros [X|X]; auto; lia. Qed.

Lemma finish_line_ok dbg : forall fuel x A st, SI x A st -> (forall i, (i < n)%nat -> lo i <= x) -> (length A <= fuel)%nat ->
  exists y st', finish_line dbg s ord fuel st = Ok st' /\ SI y [] st' /\ x <= y.
Proof.
  induction fuel as [|f IH]; intros x A st S Lo Fu.
  - destruct A as [|a A]; [|cbn in Fu; lia]. cbn [finish_line]. destruct (front_ok _ _ _ S) as [[_ ->]|(a & [] & _)]. cbn [rbind]. exists x, st. split; [reflexivity|]. split; [exact S|lra].
  - cbn [finish_line]. destruct (front_ok _ _ _ S) as [[-> ->]|(a & Ia & -> & Low)]; cbn [rbind]; [exists x, st; split; [reflexivity|]; split; [exact S|lra]|].
    assert (Aa := Ia). apply (si_act _ _ _ S) in Aa. destruct Aa as (An & A1 & A2).
    destruct (half_ok a An) as (_ & Oe & _). assert (Ly : along s (h_end s (hat hs a)) == hi a) by (unfold ConnPieceProofs.hi; lra).
    destruct (ends_step dbg x A st (hi a) _ S Oe Ly Low) as (st1 & -> & M). cbn [rbind].
    destruct (advance x A st st1 (hi a) n n st1 S M) as [Ac L]; auto; try (intros; lia).
    { apply bi_refl. apply M. }
    { intros i Hi. split; intros _; [apply Lo; exact Hi|exact Hi]. }
    destruct (all_ok s hs okp gen pair rk pol_forward loc_lt_ok dbg (h_end s (hat hs a)) (hi a) _ st1 Oe Ly (mi_rank _ _ _ _ M) (mated _ _ Ac (mi_rank _ _ _ _ M)) L) as (st2 & -> & L2 & N2 & C2). cbn [rbind].
    assert (S2 : SI (hi a) (ids (c_active st1)) st2).
    { apply settle; [exact L2|exact N2|apply M|exact Ac|]. intros b Ib. rewrite C2, (proj2 (proj2 (mi_view _ _ _ _ M b Ib))). apply (si_cur _ _ _ S). apply (mi_ids _ _ _ _ M). exact Ib. }
    destruct (IH (hi a) _ st2 S2) as (y & st' & -> & Sy & Ly'); [intros i Hi; specialize (Lo i Hi); lra| |].
    { assert (NI : ~ In a (ids (c_active st1))). { intros X. apply (mi_ids _ _ _ _ M) in X. lra. }
      assert (X : (length (a :: ids (c_active st1)) <= length A)%nat). { apply NoDup_incl_length; [constructor; [exact NI|exact (by_rank_nodup _ _ (mi_rank _ _ _ _ M))]|]. intros b [<-|B]; [exact Ia|apply (mi_ids _ _ _ _ M); exact B]. }
      cbn [length] in X. lia. }
    exists y, st'. split; [reflexivity|]. split; [exact Sy|lra].
Qed.
Lemma sweep_line_ok dbg : forall fuel k x A st prev, SI x A st -> (k <= n)%nat -> (forall i, (i < n)%nat -> ((i < k)%nat <-> lo i <= x)) ->
  (forall p, prev = Some p -> okp p /\ along s p <= x) -> (2 * (n - k) + length A <= fuel)%nat ->
  exists y st', sweep_line dbg s ord fuel prev st (number k (skipn k hs)) = Ok st' /\ SI y [] st' /\ x <= y /\ forall i, (i < n)%nat -> lo i <= y.
Proof.
  induction fuel as [|f IH]; intros k x A st prev S Lk K0 Pv Fu.
  - assert (k = n) by lia. subst k. destruct A as [|a A]; [|cbn in Fu; lia]. rewrite skipn_all. cbn [number sweep_line].
    assert (Lo : forall i, (i < n)%nat -> lo i <= x) by (intros i Hi; apply K0; [exact Hi|exact Hi]).
    destruct (finish_line_ok dbg (length (c_active st)) x [] st S Lo) as (y & st' & E & Sy & Ly); [cbn; lia|]. exists y, st'. split; [exact E|]. split; [exact Sy|]. split; [exact Ly|]. intros i Hi. specialize (Lo i Hi). lra.
  - destruct (Nat.eq_dec k n) as [->|Dk].
    { rewrite skipn_all. cbn [number sweep_line]. assert (Lo : forall i, (i < n)%nat -> lo i <= x) by (intros i Hi; apply K0; [exact Hi|exact Hi]).
      destruct (finish_line_ok dbg (length (c_active st)) x A st S Lo) as (y & st' & E & Sy & Ly). { rewrite <- (si_ids _ _ _ S). unfold ids. rewrite map_length. lia. }
      exists y, st'. split; [exact E|]. split; [exact Sy|]. split; [exact Ly|]. intros i Hi. specialize (Lo i Hi). lra. }
    assert (Kn : (k < n)%nat) by lia. destruct (half_ok k Kn) as (Ob & _ & _).
    assert (Xk : x < lo k). { apply Qnot_le_lt. intros C. apply (K0 k Kn) in C. lia. }
    assert (Srt : forall i, (i < n)%nat -> (k <= i)%nat -> lo k <= lo i) by (intros i I1 I2; apply sorted; lia).
    assert (OldA : forall i, In i A -> (i < k)%nat). { intros i I. apply (si_act _ _ _ S) in I. apply (K0 i (proj1 I)). apply I. }
    assert (Main : forall loc y st1, okp loc -> along s loc == y -> MI y A st st1 -> x < y -> y <= lo k -> (forall a, In a A -> y <= hi a) -> (y == lo k \/ (exists a, In a A /\ hi a == y)) ->
      exists y' st', (_ <- check dbg (match prev with None => true | Some p => loc_lt s p loc || negb (loc_lt s loc p) end) ;;
        z <- begin_events s st1 loc (number k (skipn k hs)) ;; st2 <- all_partners dbg s loc (fst z) ;;
        sweep_line dbg s ord f (Some loc) (with_active st2 (map (set_cur false) (c_active st2))) (snd z)) = Ok st' /\ SI y' [] st' /\ x <= y' /\ forall i, (i < n)%nat -> lo i <= y').
    { intros loc y st1 Ol Ly M Xy Yk Yh Ev. rewrite check_true.
      2:{ destruct prev as [p|]; [|reflexivity]. destruct (Pv p eq_refl) as [Op Lp]. apply orb_true_iff. left. apply loc_lt_ok; [exact Op|exact Ol|]. lra. }
      cbn [rbind]. destruct (begins_ok x A st st1 y loc k S M Ol Ly Xy) with (m := (n - k)%nat) (k := k) (st := st1) as (k' & st2 & -> & Lk' & B & E1 & E2); auto; try (intros; lia).
      { intros i I1 I2. specialize (Srt i I1 I2). lra. }
      { apply bi_refl. apply M. }
      cbn [rbind fst snd].
      destruct (advance x A st st1 y k k' st2 S M B Xy K0 E1 E2 ltac:(lia) Yh) as [Ac L].
      destruct (all_ok s hs okp gen pair rk pol_forward loc_lt_ok dbg loc y _ st2 Ol Ly (bi_rank _ _ _ _ _ B) (mated _ _ Ac (bi_rank _ _ _ _ _ B)) L) as (st3 & -> & L3 & N3 & C3). cbn [rbind].
      pose proof (clear_cur y _ st3 L3 N3 (bi_rank _ _ _ _ _ B) Ac) as S3.
      destruct (IH k' y _ _ (Some loc) S3) as (y' & st' & E' & S' & Ly' & Lo').
      - lia.
      - intros i Hi. split; intros X; [|apply Nat.lt_nge; intros C; specialize (E2 i ltac:(lia)); lra]. destruct (Nat.lt_ge_cases i k) as [Z|Z]; [apply (K0 i Hi) in Z; lra|]. specialize (E1 i ltac:(lia)). lra.
      - intros p Hp. injection Hp as <-. split; [exact Ol|lra].
      - assert (Len : (length (ids (c_active st2)) <= length (ids (c_active st1)) + (k' - k))%nat).
        { replace (k' - k)%nat with (length (seq k (k' - k))) by apply seq_length. rewrite <- app_length. apply NoDup_incl_length; [exact (by_rank_nodup _ _ (bi_rank _ _ _ _ _ B))|]. intros i I. apply in_app_iff. apply (bi_ids _ _ _ _ _ B) in I. destruct I as [I|I]; [left; exact I|right; apply in_seq; lia]. }
        assert (Len1 : (length (ids (c_active st1)) <= length A)%nat). { apply NoDup_incl_length; [exact (by_rank_nodup _ _ (mi_rank _ _ _ _ M))|]. intros i I. apply (mi_ids _ _ _ _ M). exact I. }
        destruct Ev as [Ev|(a & Ia & Ha)].
        + assert (k < k')%nat; [|lia]. apply Nat.lt_nge. intros C. specialize (E2 k ltac:(lia)). lra.
        + assert (X : (length (a :: ids (c_active st1)) <= length A)%nat).
          { apply NoDup_incl_length; [constructor; [intros X; apply (mi_ids _ _ _ _ M) in X; lra|exact (by_rank_nodup _ _ (mi_rank _ _ _ _ M))]|]. intros b [<-|Hb]; [exact Ia|apply (mi_ids _ _ _ _ M); exact Hb]. }
          cbn [length] in X. lia.
      - exists y', st'. split; [exact E'|]. split; [exact S'|]. split; [lra|exact Lo']. }
    rewrite (number_skip hs no_half k Kn). fold (hat hs k). cbn [sweep_line]. rewrite (number_skip hs no_half k Kn) in Main. fold (hat hs k) in Main.
    assert (Lk0 : along s (h_begin s (hat hs k)) == lo k) by (unfold ConnPieceProofs.lo; lra).
    destruct (front_ok _ _ _ S) as [[EA ->]|(a & Ia & -> & Low)]; cbn [rbind].
    + cbn [fst snd]. apply (Main _ (lo k) st Ob Lk0); [apply (no_ends x); [exact S|]|exact Xk|lra| |left; lra]; intros b Hb; rewrite EA in Hb; destruct Hb.
    + assert (Aa := Ia). apply (si_act _ _ _ S) in Aa. destruct Aa as (An & A1 & A2). destruct (half_ok a An) as (_ & Oe & _).
      assert (La : along s (h_end s (hat hs a)) == hi a) by (unfold ConnPieceProofs.hi; lra).
      destruct (loc_lt s (h_begin s (hat hs k)) (h_end s (hat hs a))) eqn:Lt.
      * apply loc_lt_ok in Lt; [|exact Ob|exact Oe]. cbn [rbind fst snd].
        assert (Lt' : forall b, In b A -> lo k < hi b) by (intros b Hb; specialize (Low b Hb); lra).
        apply (Main _ (lo k) st Ob Lk0); [apply (no_ends x); [exact S|exact Lt']|exact Xk|lra| |left; lra]. intros b Hb. specialize (Lt' b Hb). lra.
      * destruct (ends_step dbg x A st (hi a) _ S Oe La Low) as (st1 & -> & M). cbn [rbind fst snd].
        apply (Main _ (hi a) st1 Oe La M A2); [|exact Low|right; exists a; split; [exact Ia|lra]]. apply Qnot_lt_le. intros C. assert (T : loc_lt s (h_begin s (hat hs k)) (h_end s (hat hs a)) = true) by (apply loc_lt_ok; [exact Ob|exact Oe|lra]). congruence.
Qed.

(** ** The whole line *)
Lemma number_nth {A} (l : list A) k i : nth_error (number k l) i = option_map (fun a => (k + i, a)%nat) (nth_error l i).
Proof. revert k i. induction l as [|a l IH]; intros k i; [destruct i; reflexivity|]. destruct i as [|i]; cbn [number nth_error option_map]; [rewrite Nat.add_0_r; reflexivity|]. rewrite IH. destruct (nth_error l i); cbn [option_map]; [f_equal; f_equal; lia|reflexivity]. Qed.
Lemma hat_nth i h : nth_error hs i = Some h -> hat hs i = h.
Proof. intros H. unfold hat. exact (nth_error_nth _ _ _ H). Qed.
Definition start_pieces : list piece := map (fun z => whole (fst z) (snd z)) (number 0 hs).
Lemma start_nth i : nth_error start_pieces i = if (i <? n)%nat then Some (whole i (hat hs i)) else None.
Proof.
  unfold start_pieces. rewrite nth_error_map, number_nth. cbn [plus]. destruct (i <? n)%nat eqn:E.
  - destruct (nth_lt_some hs i ltac:(lia)) as (h & H). rewrite H. cbn [option_map fst snd]. rewrite (hat_nth i h H). reflexivity.
  - replace (nth_error hs i) with (@None half); [reflexivity|]. symmetry. apply nth_error_None. lia.
Qed.
Lemma start_SI x : (forall i, (i < n)%nat -> x < lo i) -> SI x [] (CS start_pieces [] [] []).
Proof.
  intros Lo. constructor; cbn [c_active c_need]; [| reflexivity | constructor | |intros a []].
  2:{ intros i. split; [intros []|]. intros (X1 & X2 & _). specialize (Lo i X1). lra. }
  constructor; cbn [c_active c_need c_errors c_pieces]; try reflexivity; try (intros a []; fail); try (intros a b Ia; destruct Ia; fail); try (intros a Ia; destruct Ia; fail).
  assert (C : forall i q, nth_error start_pieces i = Some q -> (i < n)%nat /\ q = whole i (hat hs i)). { intros i q Nq. rewrite start_nth in Nq. destruct (i <? n)%nat eqn:E; [|discriminate]. injection Nq as <-. split; [lia|reflexivity]. }
  constructor; try (intros a Ia; destruct Ia; fail).
  - intros i q Nq. destruct (C i q Nq) as [Li ->]. cbn [whole p_edge p_from p_to]. destruct (half_ok i Li) as (H1 & H2 & H3). unfold plo, phi, ConnPieceProofs.lo, ConnPieceProofs.hi, h_begin, h_end, ConnPieceProofs.pol in *. cbn [p_edge p_from p_to]. cbn [whole p_edge p_from p_to]. destruct (h_pos s (hat hs i)); repeat split; assumption.
  - intros i q j Nq Pq. destruct (C i q Nq) as [Li ->]. discriminate Pq.
  - intros i q Nq _. destruct (C i q Nq) as [Li ->]. left. split; [apply Lo; exact Li|reflexivity].
  - intros i q Nq X. destruct (C i q Nq) as [Li ->]. cbn [whole p_edge] in X. specialize (Lo i Li). lra.
  - intros e Le _. rewrite start_nth. replace (e <? n)%nat with true by lia. reflexivity.
  - intros e Le. exists [e]. split; [constructor; [intros []|constructor]|]. split.
    + intros i. split.
      * intros [<-|[]]. exists (whole e (hat hs e)). rewrite start_nth. replace (e <? n)%nat with true by lia. auto.
      * intros (q & Nq & Eq). destruct (C i q Nq) as [Li ->]. cbn in Eq. left. congruence.
    + cbn [walk]. exists (whole e (hat hs e)). rewrite start_nth. replace (e <? n)%nat with true by lia. cbn [whole p_from p_to]. split; [reflexivity|]. split; [reflexivity|].
      pose proof (pol_forward e Le) as Pf. destruct (half_ok e Le) as (_ & _ & H3). unfold ConnPieceProofs.lo, ConnPieceProofs.hi, h_begin, h_end, ConnPieceProofs.pol in *. unfold forward in *. destruct (h_pos s (hat hs e)).
      * split; [intros _; exact H3|]. split; [intros X; contradiction|reflexivity].
      * split; [intros X; apply Pf in X; discriminate|]. split; [intros _; exact H3|reflexivity].
Qed.
Theorem connect_ok dbg x0 : (forall i, (i < n)%nat -> x0 < lo i) -> exists y st, connect_line dbg s ord hs = Ok st /\ SI y [] st /\ (forall i, (i < n)%nat -> lo i <= y).
Proof.
  intros Lo. unfold connect_line. destruct (sweep_line_ok dbg (2 * n) 0 x0 [] (CS start_pieces [] [] []) None (start_SI x0 Lo)) as (y & st & E & S & _ & L).
  - lia.
  - intros i Hi. split; [lia|]. intros X. specialize (Lo i Hi). lra.
  - discriminate.
  - cbn. lia.
  - exists y, st. auto.
Qed.
Theorem connect_result y st i q : SI y [] st -> (forall i, (i < n)%nat -> lo i <= y) -> nth_error (c_pieces st) i = Some q -> exists j r,
  p_partner q = Some j /\ nth_error (c_pieces st) j = Some r /\ p_partner r = Some i /\ pol (p_edge r) = negb (pol (p_edge q)) /\ plo s hs q == plo s hs r /\ phi s hs q == phi s hs r /\
  plo s hs q < phi s hs q /\ (p_edge q < n)%nat /\ okp (p_from q) /\ okp (p_to q) /\ okp (p_from r) /\ okp (p_to r) /\ forall t, gen t -> plo s hs q < t -> t < phi s hs q -> pair t (p_edge q) (p_edge r).
Proof.
  intros S Lo Nq. pose proof (li_pi _ _ _ _ _ _ _ _ (si_li _ _ _ S)) as P. destruct (pi_q _ _ _ _ _ _ _ _ _ _ _ P i q Nq) as (O1 & O2 & Le & Lh).
  assert (Hy : forall k p, nth_error (c_pieces st) k = Some p -> phi s hs p <= y). { intros k p Np. destruct (pi_q _ _ _ _ _ _ _ _ _ _ _ P k p Np) as (_ & _ & Lp & _). apply Qnot_lt_le. intros C. destruct (pi_act _ _ _ _ _ _ _ _ _ _ _ P k p Np (Lo _ Lp) C) as [[] _]. }
  destruct (p_partner q) as [j|] eqn:Pq.
  - destruct (pi_link _ _ _ _ _ _ _ _ _ _ _ P i q j Nq Pq) as (_ & r & Nr & Pr & Po & Pl & Ph & Pt). destruct (pi_q _ _ _ _ _ _ _ _ _ _ _ P j r Nr) as (O3 & O4 & _). exists j, r. repeat (split; [assumption || reflexivity|]). pose proof (Hy i q Nq). pose proof (Hy j r Nr).
    split; [destruct Ph as [Ph|[Ph1 Ph2]]; [exact Ph|lra]|]. repeat (split; [assumption|]). intros t G T1 T2. apply Pt; try assumption. lra.
  - destruct (pi_none _ _ _ _ _ _ _ _ _ _ _ P i q Nq Pq) as [[X _]|([] & _)]. specialize (Lo _ Le). lra.
Qed.
End Sweep.
