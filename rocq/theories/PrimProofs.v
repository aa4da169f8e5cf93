(** ApplyPrimary: arrays, and the (start?, polygon) pairs of the children. *)
From Coq Require Import List ZArith QArith Arith Lia Lqa Bool Sorted.
From Verif Require Import BigUIntModel GeoModel GeoSpec EvtModel EvtSpec EvtTokProofs EvtProofs EvtArrProofs PrimModel.
Import ListNotations.
Open Scope Q_scope.

(** ** Arrays *)
Lemma lt_of_nth {A} (l : list A) k x : nth_error l k = Some x -> (k < length l)%nat.
Proof. intros E. apply nth_error_Some. congruence. Qed.
Lemma upd_length {A} (l : list A) k x : (k < length l)%nat -> length (upd l k x) = length l.
Proof. intros L. unfold upd. rewrite app_length, firstn_length. cbn [length]. rewrite skipn_length. lia. Qed.
Lemma upd_nth {A} (l : list A) k x j : (k < length l)%nat -> nth_error (upd l k x) j = if (j =? k)%nat then Some x else nth_error l j.
Proof.
  intros L. unfold upd. destruct (Nat.eqb_spec j k) as [->|N].
  - rewrite nth_error_app2; rewrite firstn_length, Nat.min_l by lia; [|lia]. rewrite Nat.sub_diag. reflexivity.
  - destruct (Nat.lt_ge_cases j k) as [J|J].
    + rewrite nth_error_app1 by (rewrite firstn_length; lia). rewrite <- (firstn_skipn k l) at 2. rewrite nth_error_app1 by (rewrite firstn_length; lia). reflexivity.
    + rewrite nth_error_app2; rewrite firstn_length, Nat.min_l by lia; [|lia]. replace (j - k)%nat with (S (j - k - 1)) by lia. cbn [nth_error]. rewrite <- (firstn_skipn (S k) l) at 2. rewrite nth_error_app2; rewrite firstn_length, Nat.min_l by lia; [|lia]. f_equal. lia.
Qed.
Lemma put_ok {A} (l : list A) k x : (k < length l)%nat -> put l k x = Ok (upd l k x).
Proof. intros L. unfold put. apply Nat.ltb_lt in L. rewrite L. reflexivity. Qed.
Lemma get_ok {A} (l : list A) k x : nth_error l k = Some x -> get l k = Ok x.
Proof. unfold get. intros ->. reflexivity. Qed.
Lemma firstn_S {A} (l : list A) k x : nth_error l k = Some x -> firstn (S k) l = firstn k l ++ [x].
Proof. revert k. induction l as [|y l IH]; intros [|k] E; try discriminate; cbn [firstn app]; [injection E as ->; reflexivity|]. rewrite <- (IH k E). reflexivity. Qed.

(** ** Lists *)
Definition starts (L : list tok) : list nat := map snd (filter fst L).
Lemma starts_app L L' : starts (L ++ L') = starts L ++ starts L'.
Proof. unfold starts. rewrite filter_app, map_app. reflexivity. Qed.
Lemma in_starts L q : In q (starts L) <-> In (true, q) L.
Proof.
  unfold starts. rewrite in_map_iff. split; [intros ((s & i) & <- & I); apply filter_In in I; destruct I as [I F]; cbn in F; subst s; exact I|intros I; exists (true, q); split; [reflexivity|apply filter_In; auto]].
Qed.
Lemma NoDup_starts L : NoDup L -> NoDup (starts L).
Proof.
  induction 1 as [|t L N _ IH]; [constructor|]. unfold starts. cbn [filter]. destruct t as [[|] q]; cbn [fst]; [|exact IH]. cbn [map snd]. constructor; [|exact IH]. rewrite <- in_starts in N. exact N.
Qed.
Lemma filter_prefix {A} (f : A -> bool) L R : exists R', filter f (L ++ R) = filter f L ++ R'.
Proof. exists (filter f R). apply filter_app. Qed.
Lemma nth_prefix {A} (l l' : list A) k x : nth_error l k = Some x -> nth_error (l ++ l') k = Some x.
Proof. intros E. rewrite nth_error_app1; [exact E|exact (lt_of_nth _ _ _ E)]. Qed.
Lemma nth_end {A} (l : list A) x r : nth_error (l ++ x :: r) (length l) = Some x.
Proof. rewrite nth_error_app2, Nat.sub_diag by lia. reflexivity. Qed.
Lemma nth_end1 {A} (l : list A) x y r : nth_error (l ++ x :: y :: r) (S (length l)) = Some y.
Proof. rewrite nth_error_app2 by lia. replace (S (length l) - length l)%nat with 1%nat by lia. reflexivity. Qed.
Lemma NoDup_filter {A} (f : A -> bool) l : NoDup l -> NoDup (filter f l).
Proof. induction 1 as [|x l N _ IH]; cbn [filter]; [constructor|]. destruct (f x); [constructor; [rewrite filter_In; tauto|exact IH]|exact IH]. Qed.
Lemma NoDup_join {A} (l r : list A) : NoDup l -> NoDup r -> (forall x, In x l -> ~ In x r) -> NoDup (l ++ r).
Proof. induction 1 as [|x l N _ IH]; cbn [app]; intros R D; [exact R|]. constructor; [rewrite in_app_iff; intros [I|I]; [contradiction|exact (D x (or_introl eq_refl) I)]|]. apply IH; [exact R|]. intros y I. exact (D y (or_intror I)). Qed.
Lemma NoDup_pre {A} (l r : list A) : NoDup (l ++ r) -> NoDup l.
Proof. induction l as [|y l IH]; cbn [app]; [constructor|]. intros N. apply NoDup_cons_iff in N. destruct N as [N M]. constructor; [intros I; apply N, in_or_app; left; exact I|exact (IH M)]. Qed.
Lemma filter_length_le {A} (f : A -> bool) l : (length (filter f l) <= length l)%nat.
Proof. induction l as [|x l IH]; cbn [filter length]; [lia|]. destruct (f x); cbn [length]; lia. Qed.
Fixpoint index (q : nat) (l : list nat) : nat := match l with [] => 0 | y :: l => if (y =? q)%nat then 0 else S (index q l) end.
Lemma index_nth q l : In q l -> nth_error l (index q l) = Some q.
Proof. induction l as [|y l IH]; intros []; cbn [index]; destruct (Nat.eqb_spec y q) as [->|N]; try reflexivity; [contradiction|cbn [nth_error]; auto]. Qed.
Lemma nth_index q l c : NoDup l -> nth_error l c = Some q -> index q l = c.
Proof. intros N E. apply (NoDup_nth N _ _ q); [apply index_nth; exact (nth_error_In _ _ E)|exact E]. Qed.

(** ** Renaming the polygons of a child *)
Record toks_on (O : list nat) (lo hi : nat -> Q) (W : list tok) : Prop := ToksOn {
  on_once : NoDup O; on_nodup : NoDup W; on_all : forall t, In t W <-> In (snd t) O; on_sorted : StronglySorted (rel lo hi) W;
  on_order : forall i s e, nth_error W s = Some (true, i) -> nth_error W e = Some (false, i) -> (s < e)%nat /\ (lo i == hi i -> e = S s) }.
Definition rename (O : list nat) (t : tok) : tok := (fst t, index (snd t) O).
Lemma SS_map {A B} (R : A -> A -> Prop) (S : B -> B -> Prop) (f : A -> B) l : (forall x y, In x l -> In y l -> R x y -> S (f x) (f y)) -> StronglySorted R l -> StronglySorted S (map f l).
Proof.
  intros M H. induction H as [|x l H IH F]; cbn [map]; constructor; [apply IH; intros a b I J; apply M; right; assumption|]. rewrite Forall_forall in *. intros y I. apply in_map_iff in I. destruct I as (z & <- & I). apply M; [left; reflexivity|right; exact I|exact (F z I)].
Qed.
Lemma rename_ok O lo hi W lo' hi' : toks_on O lo hi W -> (forall c q, nth_error O c = Some q -> lo' c == lo q /\ hi' c == hi q) -> toks_ok (length O) lo' hi' (map (rename O) W).
Proof.
  intros [On Nd All So Or] E.
  assert (In_O : forall t, In t W -> nth_error O (snd (rename O t)) = Some (snd t)) by (intros t I; apply index_nth, All, I).
  assert (Inj : forall t u, In t W -> In u W -> rename O t = rename O u -> t = u).
  { intros [s q] [s' q'] I J X. injection X as X Y. pose proof (In_O _ I) as A. pose proof (In_O _ J) as B. cbn [rename snd] in A, B. rewrite Y in A. congruence. }
  assert (K : forall t, In t W -> key lo' hi' (rename O t) == key lo hi t). { intros t I. destruct (E _ _ (In_O t I)) as [X Y]. unfold key, rename in *. cbn [fst snd] in *. destruct (fst t); [exact X|exact Y]. }
  assert (Z : forall t, In t W -> (nz lo' hi' (rename O t) <-> nz lo hi t)). { intros t I. destruct (E _ _ (In_O t I)) as [X Y]. unfold nz, rename in *. cbn [fst snd] in *. rewrite X, Y. reflexivity. }
  split.
  - clear - Inj Nd. induction W as [|t W IH]; cbn [map]; [constructor|]. apply NoDup_cons_iff in Nd. destruct Nd as [N Nd]. constructor; [|apply IH; [exact Nd|intros u v I J; apply Inj; right; assumption]]. intros I. apply in_map_iff in I. destruct I as (u & X & I). apply N. rewrite <- (Inj u t (or_intror I) (or_introl eq_refl) X). exact I.
  - intros [s c]. rewrite in_map_iff. cbn [snd]. split.
    + intros (t & X & I). pose proof (In_O t I) as A. rewrite X in A. cbn [snd] in A. exact (lt_of_nth _ _ _ A).
    + intros L. destruct (nth_error O c) as [q|] eqn:Q; [|apply nth_error_None in Q; lia]. exists (s, q). split; [unfold rename; cbn [fst snd]; rewrite (nth_index q O c On Q); reflexivity|]. apply All. exact (nth_error_In _ _ Q).
  - apply (SS_map (rel lo hi)); [|exact So]. intros t u I J [A B]. split; [rewrite (K t I), (K u J); exact A|]. intros N X. apply (Z u J). apply B; [apply (Z t I); exact N|]. rewrite <- (K t I), <- (K u J). exact X.
  - intros c s e S1 E1. rewrite nth_error_map in S1, E1. destruct (nth_error W s) as [[s1 q1]|] eqn:W1; [|discriminate]. destruct (nth_error W e) as [[s2 q2]|] eqn:W2; [|discriminate]. cbn in S1, E1. injection S1 as -> A1. injection E1 as -> A2.
    pose proof (In_O _ (nth_error_In _ _ W1)) as B1. pose proof (In_O _ (nth_error_In _ _ W2)) as B2. cbn [rename snd] in B1, B2. rewrite A1 in B1. rewrite A2 in B2. assert (q2 = q1) by congruence. subst q2.
    destruct (Or q1 s e W1 W2) as [X Y]. split; [exact X|]. destruct (E _ _ B1) as [P Q]. rewrite P, Q. exact Y.
Qed.
(** Both events of [q] are kept, so neighbours stay neighbours. *)
Lemma filter_next (f : tok -> bool) F s q : nth_error F s = Some (true, q) -> nth_error F (S s) = Some (false, q) -> f (true, q) = true -> f (false, q) = true -> NoDup F ->
  forall s' e', nth_error (filter f F) s' = Some (true, q) -> nth_error (filter f F) e' = Some (false, q) -> e' = S s'.
Proof.
  intros S1 S2 F1 F2 N s' e' S' E'. destruct (nth_error_split F s S1) as (A & B & -> & LA). rewrite nth_error_app2 in S2 by lia. replace (S s - length A)%nat with 1%nat in S2 by lia. cbn [nth_error] in S2. destruct B as [|u B]; [discriminate|]. injection S2 as ->.
  pose proof (NoDup_filter f _ N) as N'. rewrite filter_app in N', S', E'. cbn [filter] in N', S', E'. rewrite F1, F2 in N', S', E'.
  assert (X : s' = length (filter f A)) by (apply (NoDup_nth N' _ _ _ S'); apply nth_end). assert (Y : e' = S (length (filter f A))). { apply (NoDup_nth N' _ _ _ E'). apply nth_end1. }
  lia.
Qed.
Lemma filter_order {A} (f : A -> bool) F a b s e : NoDup F -> nth_error F s = Some a -> nth_error F e = Some b -> (s < e)%nat -> forall s' e', nth_error (filter f F) s' = Some a -> nth_error (filter f F) e' = Some b -> (s' < e')%nat.
Proof.
  intros N S1 E1 L s' e' S' E'. destruct (nth_error_split F s S1) as (X & Y & -> & LX). assert (I : In b Y). { rewrite nth_error_app2 in E1 by lia. replace (e - length X)%nat with (S (e - length X - 1)) in E1 by lia. cbn [nth_error] in E1. exact (nth_error_In _ _ E1). }
  pose proof (NoDup_filter f _ N) as N'. rewrite filter_app in N', S', E'. cbn [filter] in N', S', E'. assert (Fa : f a = true). { apply nth_error_In in S'. rewrite in_app_iff in S'. destruct S' as [S'|S']; [apply filter_In in S'; tauto|]. destruct (f a) eqn:Z; [reflexivity|]. apply filter_In in S'. destruct S' as [_ S']. congruence. }
  rewrite Fa in *. assert (Z : s' = length (filter f X)) by (apply (NoDup_nth N' _ _ _ S'); apply nth_end). assert (Fb : f b = true) by (apply nth_error_In in E'; rewrite in_app_iff in E'; cbn [In] in E'; destruct E' as [E'|[E'|E']]; [apply filter_In in E'; tauto|subst b; exact Fa|apply filter_In in E'; tauto]).
  assert (J : In b (filter f Y)) by (apply filter_In; auto). apply In_nth_error in J. destruct J as (j & J). assert (e' = (length (filter f X) + S j)%nat); [|lia]. apply (NoDup_nth N' _ _ _ E'). rewrite nth_error_app2 by lia. replace (length (filter f X) + S j - length (filter f X))%nat with (S j) by lia. exact J.
Qed.
