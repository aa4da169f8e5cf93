(** What ApplyPrimary leaves for ApplySecondary. *)
From Coq Require Import List ZArith QArith Arith Lia Lqa Bool.
From Verif Require Import BigUIntModel GeoModel GeoSpec EvtModel EvtSpec EvtArrProofs PrimModel PrimSpec PrimProofs PrimTopProofs SecondModel SecondSpec.
Import ListNotations.
Open Scope Q_scope.

Section Carry.
Context {P : Type} (O : pops P) (d : nat) (x : Q) (ps : list P) (B N R D U : list nat) (negs poss : list P) (nev pev : list event) (s : pstate P) (DV : divided O d x ps B N R D U negs poss nev pev s)
  (FIT : Forall (poly_fit d) (map (o_view O) ps)) (d' : nat) (view' : P -> epoly) (TO : forall b r a, In r ps -> o_touch O b r = Ok a -> view' a = view' r)
  (SP : forall r a b, In r ps -> coord d (e_min (o_view O r)) < x -> x < coord d (e_max (o_view O r)) -> o_split O r = Ok (a, b) -> parts (coord d' (e_min (view' r))) (coord d' (e_max (view' r))) (coord d' (e_min (view' a))) (coord d' (e_max (view' a))) (coord d' (e_min (view' b))) (coord d' (e_max (view' b)))).
Notation v := (map (o_view O)).
Notation w := (map view').
Lemma views_at (l : list P) i r : nth_error l i = Some r -> lo d' (w l) i = coord d' (e_min (view' r)) /\ hi d' (w l) i = coord d' (e_max (view' r)).
Proof. intros E. unfold lo, hi. rewrite nth_error_map, E. auto. Qed.
(** Where a polygon is. *)
Lemma place q : (q < length ps)%nat -> In q B \/ In q N \/ In q R \/ In q D \/ In q U.
Proof.
  intros L. destruct DV as [[_ dB] [_ dN] [_ dR] [_ dD] [_ dU] _ _ _ _ _ _ _ _ _ _ _ _ _ _ _ _ _ _ _]. destruct (Qlt_le_dec (lo d (v ps) q) x) as [A|A], (Qlt_le_dec x (hi d (v ps) q)) as [E|E].
  - left. apply dB. auto.
  - right. left. apply dN. auto.
  - right. right. left. apply dR. auto.
  - assert (W : lo d (v ps) q == x /\ hi d (v ps) q == x).
    { destruct (nth_error ps q) as [r|] eqn:NQ; [|apply nth_error_None in NQ; lia]. rewrite Forall_forall in FIT. destruct (FIT (o_view O r)) as (_ & _ & W); [apply in_map, (nth_error_In _ _ NQ)|]. unfold lo, hi in *. rewrite nth_error_map, NQ in *. cbn [option_map] in *. lra. }
    destruct (nth_error ps q) as [r|] eqn:NQ; [|apply nth_error_None in NQ; lia]. right. right. right. destruct (o_down O r) eqn:DO; [left; apply dD|right; apply dU]; (split; [exact L|]); (split; [apply W|]); (split; [apply W|]).
    + exists r. auto.
    + intros (r' & X & Y). congruence.
Qed.
Lemma F2len {A A2} (R0 : A -> A2 -> Prop) l l' : Forall2 R0 l l' -> length l = length l'.
Proof. induction 1; cbn [length]; congruence. Qed.
Lemma nth_skip {A} (l : list A) k c : nth_error (skipn k l) c = nth_error l (k + c).
Proof. revert l. induction k as [|k IH]; intros [|a l]; cbn [skipn Nat.add nth_error]; try reflexivity; [destruct c; reflexivity|apply IH]. Qed.
Lemma nth_first {A} (l : list A) k c : (c < k)%nat -> nth_error (firstn k l) c = nth_error l c.
Proof. revert l c. induction k as [|k IH]; intros [|a l] [|c] L; cbn [firstn nth_error]; try reflexivity; try lia. apply IH. lia. Qed.
Lemma lens : length negs = (length B + length N)%nat /\ length poss = (length B + length R)%nat.
Proof.
  pose proof (F2len _ _ _ (dv_negs_B _ _ _ _ _ _ _ _ _ _ _ _ _ _ DV)) as A1. pose proof (F2len _ _ _ (dv_negs_N _ _ _ _ _ _ _ _ _ _ _ _ _ _ DV)) as A2. pose proof (F2len _ _ _ (dv_poss_B _ _ _ _ _ _ _ _ _ _ _ _ _ _ DV)) as A3. pose proof (F2len _ _ _ (dv_poss_R _ _ _ _ _ _ _ _ _ _ _ _ _ _ DV)) as A4.
  rewrite firstn_length in A1, A3. rewrite skipn_length in A2, A4. lia.
Qed.
(** The entry of the map says in which list a polygon is. *)
Lemma entry q : (q < length ps)%nat -> exists r, nth_error (s_map s) q = Some (Some r) /\
  match r with
  | Gone => In q D \/ In q U
  | Idx c => (c < length B)%nat /\ nth_error B c = Some q \/ (length B <= c < length negs)%nat /\ nth_error N (c - length B) = Some q \/
      (length negs + length B <= c < length negs + length poss)%nat /\ nth_error R (c - (length negs + length B)) = Some q
  end.
Proof.
  intros L. destruct lens as [LN LP]. destruct (place q L) as [I|[I|[I|I]]].
  - apply In_nth_error in I as (c & C). exists (Idx c). split; [exact (dv_map_B _ _ _ _ _ _ _ _ _ _ _ _ _ _ DV c q C)|]. left. split; [exact (lt_of_nth _ _ _ C)|exact C].
  - apply In_nth_error in I as (c & C). exists (Idx (length B + c)). split; [exact (dv_map_N _ _ _ _ _ _ _ _ _ _ _ _ _ _ DV c q C)|]. right. left. pose proof (lt_of_nth _ _ _ C). split; [lia|]. rewrite Nat.add_comm, Nat.add_sub. exact C.
  - apply In_nth_error in I as (c & C). exists (Idx (length negs + length B + c)). split; [exact (dv_map_R _ _ _ _ _ _ _ _ _ _ _ _ _ _ DV c q C)|]. right. right. pose proof (lt_of_nth _ _ _ C). split; [lia|]. rewrite (Nat.add_comm _ c), Nat.add_sub. exact C.
  - exists Gone. split; [exact (dv_map_DU _ _ _ _ _ _ _ _ _ _ _ _ _ _ DV q I)|exact I].
Qed.
Lemma kept_view side (C : nat -> Prop) q a : (C q \/ ~ C q) -> kept O ps side C q a -> exists r, nth_error ps q = Some r /\ view' a = view' r.
Proof. intros DEC (r & E & A & A'). exists r. split; [exact E|]. destruct DEC as [Y|Y]; [exact (TO _ _ _ (nth_error_In _ _ E) (A Y))|rewrite (A' Y); reflexivity]. Qed.
Lemma qdec a b : a == b \/ ~ a == b.
Proof. destruct (Qeq_dec a b); auto. Qed.
Lemma carried_of_divided : exists pmap, s_map s = map Some pmap /\ carried d' (w ps) (w negs) (w poss) (length B) pmap /\ forall r, In r pmap -> r = Gone -> exists q, In q D \/ In q U.
Proof.
  destruct lens as [LN LP]. pose proof (dv_length _ _ _ _ _ _ _ _ _ _ _ _ _ _ DV) as LM.
  destruct (collect (fun o k r => o = Some r) (s_map s)) as (pmap & L & H).
  { intros k o E. destruct (entry k) as (r & X & _); [rewrite <- LM; exact (lt_of_nth _ _ _ E)|]. rewrite E in X. injection X as ->. eauto. }
  assert (M : s_map s = map Some pmap) by (apply nth_ext_map; [auto|]; intros k y Y; destruct (H k y Y) as (t & T1 & ->); exact T1). exists pmap. split; [exact M|].
  assert (EN : forall q r, nth_error pmap q = Some r -> match r with
    | Gone => In q D \/ In q U
    | Idx c => (c < length B)%nat /\ nth_error B c = Some q \/ (length B <= c < length negs)%nat /\ nth_error N (c - length B) = Some q \/
        (length negs + length B <= c < length negs + length poss)%nat /\ nth_error R (c - (length negs + length B)) = Some q
    end).
  { intros q r E. destruct (entry q) as (r' & X & Y); [rewrite <- LM, <- L; exact (lt_of_nth _ _ _ E)|]. rewrite M, nth_error_map, E in X. injection X as <-. exact Y. }
  assert (GET : forall q r, nth_error (s_map s) q = Some (Some r) -> nth_error pmap q = Some r) by (intros q r E; rewrite M, nth_error_map in E; destruct (nth_error pmap q); [injection E as ->; reflexivity|discriminate]).
  split; [constructor|].
  - rewrite map_length. lia.
  - rewrite !map_length. lia.
  - intros q c E LT. destruct (EN q _ E) as [[_ C]|[[X _]|[X _]]]; [|lia|lia].
    destruct (F2_nth_l (dv_negs_B _ _ _ _ _ _ _ _ _ _ _ _ _ _ DV) c q C) as (a & A & (r & b0 & A1 & A2)), (F2_nth_l (dv_poss_B _ _ _ _ _ _ _ _ _ _ _ _ _ _ DV) c q C) as (b & B0 & (r' & a0 & B1 & B2)).
    rewrite A1 in B1. injection B1 as <-. rewrite A2 in B2. injection B2 as <- <-. rewrite nth_first in A, B0 by exact LT. destruct (views_at ps q r A1) as [-> ->], (views_at negs c a A) as [-> ->], (views_at poss c b0 B0) as [-> ->]. 
    apply (SP r a b0 (nth_error_In _ _ A1)); [| |exact A2]; apply nth_error_In in C; apply (dv_crossing _ _ _ _ _ _ _ _ _ _ _ _ _ _ DV) in C as (_ & C1 & C2); unfold lo, hi in C1, C2; rewrite nth_error_map, A1 in C1, C2; assumption.
  - intros q c E LT. rewrite map_length in LT. destruct (EN q _ E) as [[X _]|[[X C]|[X _]]]; [lia| |lia].
    destruct (F2_nth_l (dv_negs_N _ _ _ _ _ _ _ _ _ _ _ _ _ _ DV) _ q C) as (a & A & KE). destruct (kept_view _ _ _ _ (qdec _ _) KE) as (r & A1 & A2). rewrite nth_skip in A. replace (length B + (c - length B))%nat with c in A by lia. destruct (views_at ps q r A1) as [-> ->], (views_at negs c a A) as [-> ->]. rewrite A2. split; reflexivity.
  - intros q c E LT. rewrite map_length in *. destruct (EN q _ E) as [[X _]|[[X _]|[X C]]]; [lia|lia|]. split; [rewrite map_length; lia|].
    destruct (F2_nth_l (dv_poss_R _ _ _ _ _ _ _ _ _ _ _ _ _ _ DV) _ q C) as (a & A & KE). destruct (kept_view _ _ _ _ (qdec _ _) KE) as (r & A1 & A2). rewrite nth_skip in A. replace (length B + (c - (length negs + length B)))%nat with (c - length negs)%nat in A by lia. destruct (views_at ps q r A1) as [-> ->], (views_at poss _ a A) as [-> ->]. rewrite A2. split; reflexivity.
  - intros c C. rewrite !map_length in C. destruct (Nat.lt_ge_cases c (length B)) as [X|X]; [|destruct (Nat.lt_ge_cases c (length negs)) as [Y|Y]].
    + destruct (nth_error B c) as [q|] eqn:E; [|apply nth_error_None in E; lia]. exists q. apply GET, (dv_map_B _ _ _ _ _ _ _ _ _ _ _ _ _ _ DV c q E).
    + destruct (nth_error N (c - length B)) as [q|] eqn:E; [|apply nth_error_None in E; lia]. exists q. apply GET. rewrite (dv_map_N _ _ _ _ _ _ _ _ _ _ _ _ _ _ DV _ q E). do 3 f_equal. lia.
    + destruct (nth_error R (c - (length negs + length B))) as [q|] eqn:E; [|apply nth_error_None in E; lia]. exists q. apply GET. rewrite (dv_map_R _ _ _ _ _ _ _ _ _ _ _ _ _ _ DV _ q E). do 3 f_equal. lia.
  - intros q q' c E E'. destruct (EN q _ E) as [[X C]|[[X C]|[X C]]], (EN q' _ E') as [[X' C']|[[X' C']|[X' C']]]; try lia; congruence.
  - intros r I ->. apply In_nth_error in I as (q & E). exists q. exact (EN q _ E).
Qed.
End Carry.
