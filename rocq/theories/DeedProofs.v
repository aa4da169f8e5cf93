(** Deeds: the invariant and its preservation by every operation. *)
From Coq Require Import List Bool Arith Lia.
From Verif Require Import BigUIntModel DeedModel DeedSpec.
Import ListNotations.

Record inv (s : state) : Prop := {
  i_obj : forall d t l, deeds s d = Some (Dd (SObj t) l) -> targets s t = Some (Some d);
  i_own : forall t d, targets s t = Some (Some d) -> exists l, deeds s d = Some (Dd (SObj t) l);
  i_lend : forall d x l, deeds s d = Some (Dd x (Some l)) -> exists m, deeds s l = Some (Dd SLent m);
  i_inj : forall d d' x x' l, deeds s d = Some (Dd x (Some l)) -> deeds s d' = Some (Dd x' (Some l)) -> d = d';
  i_bor : forall l m, deeds s l = Some (Dd SLent m) -> exists d x, deeds s d = Some (Dd x (Some l));
  i_root : forall d v, deeds s d = Some v -> rooted s d
}.
Lemma inv_empty : inv st_empty.
Proof. constructor; cbn; try discriminate. Qed.
Lemma upd_same {A} (f : nat -> A) k v : upd f k v k = v.
Proof. unfold upd. rewrite Nat.eqb_refl. reflexivity. Qed.
Lemma upd_other {A} (f : nat -> A) k v x : x <> k -> upd f k v x = f x.
Proof. intros H. unfold upd. destruct (Nat.eqb_spec x k); [contradiction|reflexivity]. Qed.
Lemma upd_if {A} (f : nat -> A) k v x : upd f k v x = if x =? k then v else f x.
Proof. reflexivity. Qed.
Ltac ug := unfold set_deed, set_target; cbn [deeds targets];
  repeat match goal with |- context [upd ?f ?k ?v ?x] => rewrite (upd_if f k v x); destruct (Nat.eqb_spec x k); try subst end; try congruence.
Ltac uh H := unfold set_deed, set_target in H; cbn [deeds targets] in H;
  repeat match type of H with context [upd ?f ?k ?v ?x] => rewrite (upd_if f k v x) in H; destruct (Nat.eqb_spec x k); try subst end; try congruence.
(** Changing only slots keeps the lender chains. *)
Lemma rooted_ext s s' : (forall d, match deeds s d with Some v => exists w, deeds s' d = Some w /\ d_lender w = d_lender v | None => True end) ->
  forall d, rooted s d -> rooted s' d.
Proof.
  intros H d R. induction R as [d x E|d x l E R IH]; specialize (H d); rewrite E in H; destruct H as ([y m] & W & L); cbn in L; subst m.
  - exact (rooted_end s' d y W).
  - exact (rooted_step s' d y l W IH).
Qed.
Lemma alive_deed s d : live_deed s d -> exists v, deeds s d = Some v.
Proof. unfold live_deed. destruct (deeds s d) as [v|]; [eauto|contradiction]. Qed.
Lemma alive_target s t : live_target s t -> exists o, targets s t = Some o.
Proof. unfold live_target. destruct (targets s t) as [v|]; [eauto|contradiction]. Qed.
Lemma dead_deed s d : ~ live_deed s d -> deeds s d = None.
Proof. unfold live_deed. destruct (deeds s d); [intros H; exfalso; apply H; discriminate|reflexivity]. Qed.
Lemma dead_target s t : ~ live_target s t -> targets s t = None.
Proof. unfold live_target. destruct (targets s t); [intros H; exfalso; apply H; discriminate|reflexivity]. Qed.
Lemma step_new s d : inv s -> deeds s d = None -> exists s', d_new s d = Ok s' /\ inv s' /\ (forall x, x <> d -> deeds s' x = deeds s x) /\ (forall t, targets s' t = targets s t) /\ deeds s' d = Some (Dd SNull None).
Proof.
  intros I F. unfold d_new, fresh. rewrite F. cbn [rbind]. eexists. split; [reflexivity|]. split; [|split; [intros x N; ug|split; [reflexivity|ug]]].
  destruct I as [I1 I2 I3 I4 I5 I6]. constructor.
  - intros x t l H. uh H. exact (I1 _ _ _ H).
  - intros t x H. destruct (I2 t x H) as [l L]. exists l. ug.
  - intros x y l H. uh H. destruct (I3 _ _ _ H) as [m M]. exists m. ug.
  - intros x x' y y' l H H'. uh H. uh H'. eauto.
  - intros l m H. uh H. destruct (I5 _ _ H) as (x & y & E). exists x, y. ug.
  - intros x v H. uh H.
    + apply (rooted_end _ d SNull). ug.
    + apply (rooted_ext s); [|eauto]. intros y. destruct (deeds s y) as [w|] eqn:E; [|exact Logic.I]. exists w. ug. split; congruence.
Qed.
Definition own (T : nat -> option (option nat)) (x : slot) (o : option nat) : nat -> option (option nat) :=
  match x with SObj t => upd T t (Some o) | _ => T end.
Lemma own_slot_ok D T x o : x <> SLent -> (forall t, x = SObj t -> T t <> None) -> own_slot (St D T) x o = Ok (St D (own T x o)).
Proof.
  intros N H. destruct x as [|t|]; [reflexivity| |contradiction]. cbn [own_slot]. unfold write_owner, get_target. cbn [targets]. destruct (T t) eqn:E; [reflexivity|]. exfalso. exact (H t eq_refl E).
Qed.
Lemma write_slot_ok D T d x v : D d = Some v -> write_slot (St D T) d x = Ok (St (upd D d (Some (Dd x (d_lender v)))) T).
Proof. intros E. unfold write_slot, get_deed. cbn [deeds]. rewrite E. reflexivity. Qed.
Lemma not_lent_slot s d v : deeds s d = Some v -> ~ lent s d -> d_slot v <> SLent /\ is_lent v = false.
Proof.
  intros E N. destruct v as [[|t|] l]; cbn; split; try congruence; exfalso; apply N; exists l; exact E.
Qed.
Lemma check_ok dbg : check dbg (negb false) = Ok tt.
Proof. unfold check. cbn. rewrite andb_false_r. reflexivity. Qed.
(** A deed that is not lent out is nobody's lender. *)
Lemma not_lender s d x l : inv s -> ~ lent s d -> deeds s x = Some l -> d_lender l <> Some d.
Proof. intros I N E H. destruct l as [y m]. cbn in H. subst m. destruct (i_lend s I _ _ _ E) as [k K]. apply N. exists k. exact K. Qed.

(** *** Making a deed for a target *)
Lemma make_spec s d t o : inv s -> deeds s d = None -> targets s t = Some o ->
  exists s', d_make s d (Some t) = Ok s' /\ inv s' /\ deeds s' d = Some (Dd (SObj t) o) /\
    (forall x, x <> d -> o <> Some x -> deeds s' x = deeds s x) /\ (forall l, o = Some l -> lent s' l) /\ (forall u, u <> t -> targets s' u = targets s u).
Proof.
  intros I F E. destruct s as [D T]. destruct I as [I1 I2 I3 I4 I5 I6]. cbn [deeds targets] in *. unfold d_make, fresh, get_target. cbn [deeds targets]. rewrite F, E. cbn [rbind]. destruct o as [l|].
  - destruct (I2 t l E) as [m M]. rewrite (write_slot_ok D T l SLent _ M). cbn [rbind d_lender]. unfold write_owner, get_target, set_deed, set_target. cbn [deeds targets]. rewrite E. cbn [rbind]. eexists. split; [reflexivity|].
    assert (NL : l <> d) by congruence.
    split; [|cbn [deeds targets]; split; [ug|split; [intros x N1 N2; ug|split; [intros k K; injection K as <-; exists m; ug|intros u N; ug]]]].
    constructor; cbn [deeds targets].
    + intros x u k H. uh H; [injection H as -> <-|apply I1 in H]; ug.
    + intros u x H. uh H; [injection H as ->; exists (Some l); ug|destruct (I2 u x H) as [k K]; exists k; ug].
    + intros x y k H. uh H.
      * injection H as <- <-. exists m. ug.
      * injection H as <- ->. destruct (I3 _ _ _ M) as [n2 N2]. exists n2. ug.
      * destruct (I3 _ _ _ H) as [n2 N2]. exists n2. ug.
    + intros x x' y y' k H H'. uh H; uh H'.
      * injection H as <- <-. injection H' as <- ->. destruct (I3 _ _ _ M). congruence.
      * injection H as <- <-. destruct (I3 _ _ _ H'). congruence.
      * injection H as <- ->. injection H' as <- <-. destruct (I3 _ _ _ M). congruence.
      * injection H as <- ->. eauto.
      * injection H' as <- <-. destruct (I3 _ _ _ H). congruence.
      * injection H' as <- ->. eauto.
      * eauto.
    + intros k n2 H. uh H.
      * injection H as ->. exists d, (SObj t). ug.
      * destruct (I5 _ _ H) as (x & y & Q). destruct (Nat.eq_dec x l) as [->|N]; [exists l, SLent|exists x, y]; ug.
    + assert (R : forall x, rooted (St D T) x -> rooted (St (upd (upd D l (Some (Dd SLent m))) d (Some (Dd (SObj t) (Some l)))) (upd T t (Some (Some d)))) x).
      { intros x. apply rooted_ext. intros y. cbn [deeds]. destruct (D y) as [w|] eqn:W; [|exact Logic.I]. ug; eexists; split; try reflexivity; cbn; try congruence. assert (w = Dd (SObj t) m) as -> by congruence. reflexivity. }
      intros x v H. uh H.
      * apply (rooted_step _ d (SObj t) l); [cbn [deeds]; ug|]. apply R. exact (I6 l _ M).
      * apply R. exact (I6 l _ M).
      * apply R. exact (I6 x _ H).
  - cbn [rbind]. unfold write_owner, get_target, set_deed, set_target. cbn [deeds targets]. rewrite E. cbn [rbind]. eexists. split; [reflexivity|].
    split; [|cbn [deeds targets]; split; [ug|split; [intros x N1 N2; ug|split; [discriminate|intros u N; ug]]]].
    constructor; cbn [deeds targets].
    + intros x u k H. uh H; [injection H as -> <-|apply I1 in H]; ug.
    + intros u x H. uh H; [injection H as <-; exists None; ug|destruct (I2 u x H) as [k K]; exists k; ug].
    + intros x y k H. uh H. destruct (I3 _ _ _ H) as [n2 N2]. exists n2. ug.
    + intros x x' y y' k H H'. uh H; uh H'. eauto.
    + intros k n2 H. uh H. destruct (I5 _ _ H) as (x & y & Q). exists x, y; ug.
    + intros x v H. uh H.
      * apply (rooted_end _ d (SObj t)). cbn [deeds]. ug.
      * apply (rooted_ext (St D T)); [|exact (I6 x _ H)]. intros y. cbn [deeds]. destruct (D y) as [w|] eqn:W; [|exact Logic.I]. exists w. ug. split; congruence.
Qed.

Lemma rooted_mono s s' (P : nat -> Prop) :
  (forall y v, P y -> deeds s y = Some v -> exists w, deeds s' y = Some w /\ d_lender w = d_lender v) ->
  (forall y x l, deeds s y = Some (Dd x (Some l)) -> P l) ->
  forall y, P y -> rooted s y -> rooted s' y.
Proof.
  intros H C y Py R. induction R as [d x E|d x l E R IH]; destruct (H d _ Py E) as ([z m] & W & L); cbn in L; subst m.
  - exact (rooted_end s' d z W).
  - exact (rooted_step s' d z l W (IH (C _ _ _ E))).
Qed.
Lemma inv_ext s s' : (forall d, deeds s' d = deeds s d) -> (forall t, targets s' t = targets s t) -> inv s -> inv s'.
Proof.
  intros ED ET [I1 I2 I3 I4 I5 I6]. constructor.
  - intros d t l H. rewrite ED in H. rewrite ET. eauto.
  - intros t d H. rewrite ET in H. rewrite ED. eauto.
  - intros d x l H. rewrite ED in H. rewrite ED. eauto.
  - intros d d' x x' l H H'. rewrite ED in H, H'. eauto.
  - intros l m H. rewrite ED in H. destruct (I5 _ _ H) as (d & x & E). exists d, x. rewrite ED. exact E.
  - intros d v H. rewrite ED in H. apply (rooted_ext s); [|eauto]. intros y. rewrite ED. destruct (deeds s y); [eauto|exact Logic.I].
Qed.
Ltac inj := repeat match goal with E : Some _ = Some _ |- _ => injection E; clear E; intros; subst | E : Dd _ _ = Dd _ _ |- _ => injection E; clear E; intros; subst | E : SObj _ = SObj _ |- _ => injection E; clear E; intros; subst end.

(** *** Moving a deed *)
Lemma move_spec dbg s d x v : inv s -> deeds s d = None -> deeds s x = Some v -> ~ lent s x ->
  exists s', d_move dbg s d x = Ok s' /\ inv s' /\ deeds s' d = Some v /\ deeds s' x = Some (Dd SNull None) /\
    (forall y, y <> d -> y <> x -> deeds s' y = deeds s y) /\ (forall t, d_slot v <> SObj t -> targets s' t = targets s t).
Proof.
  intros I F E NLx. destruct (not_lent_slot s x v E NLx) as [NL CK]. pose proof (not_lender s x) as NB. destruct s as [D T]. cbn [deeds targets] in *. unfold d_move, fresh, get_deed. cbn [deeds targets]. rewrite F, E. cbn [rbind]. rewrite CK, check_ok. cbn [rbind].
  assert (NE : x <> d) by congruence. unfold set_deed at 2. unfold set_deed at 1. cbn [deeds targets].
  assert (NB' : forall y z k, D y = Some (Dd z (Some k)) -> k <> x) by (intros y z k Q; specialize (NB y _ I NLx Q); cbn in NB; congruence). clear NB.
  rewrite own_slot_ok; [|exact NL|intros t Q; destruct v as [sl m]; cbn in Q; subst sl; pose proof (i_obj _ I _ _ _ E) as Q2; cbn [targets] in Q2; congruence].
  eexists. split; [reflexivity|]. cbn [deeds targets].
  split; [|split; [ug|split; [ug|split; [intros y N1 N2; ug|intros t Q; destruct v as [[|u|] m]; cbn [own d_slot] in *; try reflexivity; ug]]]].
  destruct I as [I1 I2 I3 I4 I5 I6]. destruct v as [sl m]. cbn [d_slot d_lender deeds targets] in *.
  constructor; cbn [deeds targets].
  - intros y u k H. uh H; inj; cbn [own]; [ug|]. pose proof (I1 _ _ _ H). destruct sl as [|t|]; cbn [own]; ug. pose proof (I1 _ _ _ E). congruence.
  - intros u y H. destruct sl as [|t|]; cbn [own] in H; [| |contradiction]; uh H; inj.
    + destruct (I2 _ _ H) as [k K]. exists k. ug.
    + exists m. ug.
    + destruct (I2 _ _ H) as [k K]. exists k. ug.
  - intros y z k H. uh H; inj.
    + destruct (I3 _ _ _ E) as [k2 K]. exists k2. ug. 
    + destruct (I3 _ _ _ H) as [k2 K]. exists k2. pose proof (NB' _ _ _ H). ug.
  - intros y y' z z' k H H'. uh H; uh H'; inj; try reflexivity.
    + exfalso. pose proof (I4 _ _ _ _ _ E H'). congruence.
    + exfalso. pose proof (I4 _ _ _ _ _ E H). congruence.
    + eauto.
  - intros k m2 H. uh H; inj; try contradiction. destruct (I5 _ _ H) as (y & z & Q). destruct (Nat.eq_dec y x) as [->|N]; [exists d, z; ug|exists y, z; ug].
  - set (s' := {| deeds := _ |}).
    assert (R : forall y, y <> x -> rooted (St D T) y -> rooted s' y).
    { intros y. apply (rooted_mono (St D T) s' (fun y => y <> x)).
      - intros z v N Q. exists v. subst s'. cbn [deeds] in *. ug. split; congruence.
      - intros z w l Q. exact (NB' _ _ _ Q). }
    intros y v H. subst s'. cbn [deeds] in H. uh H; inj.
    + apply (rooted_end _ x SNull). cbn [deeds]. ug.
    + specialize (I6 _ _ E). inversion I6 as [? ? Q|? ? l Q R2]; subst; cbn [deeds] in Q.
      * assert (m = None) as -> by congruence. apply (rooted_end _ d sl). cbn [deeds]. ug.
      * assert (m = Some l) as -> by congruence. apply (rooted_step _ d sl l); [cbn [deeds]; ug|]. apply R; [|exact R2]. exact (NB' _ _ _ E).
    + apply R; [assumption|]. exact (I6 _ _ H).
Qed.

(** *** Returning and destroying a deed *)
Definition give_back (dbg : bool) (s : state) (d : nat) (fin : option deed) : res state :=
  v <- get_deed s d ;;
  _ <- check dbg (negb (is_lent v)) ;;
  s <- (match d_lender v with Some l => write_slot s l (d_slot v) | None => Ok s end) ;;
  s <- own_slot s (d_slot v) (d_lender v) ;;
  Ok (set_deed s d fin).
Lemma give_back_spec dbg s d v fin : inv s -> deeds s d = Some v -> ~ lent s d -> (fin = None \/ fin = Some (Dd SNull None)) ->
  exists s', give_back dbg s d fin = Ok s' /\ inv s' /\ deeds s' d = fin /\
    (forall y, y <> d -> d_lender v <> Some y -> deeds s' y = deeds s y) /\
    (forall l w, d_lender v = Some l -> deeds s l = Some w -> deeds s' l = Some (Dd (d_slot v) (d_lender w))) /\
    (forall t, d_slot v <> SObj t -> targets s' t = targets s t) /\ (forall t, d_slot v = SObj t -> targets s' t = Some (d_lender v)).
Proof.
  intros I E NLx HF. destruct (not_lent_slot s d v E NLx) as [NL CK]. pose proof (not_lender s d) as NB. destruct s as [D T]. cbn [deeds targets] in *. unfold give_back, get_deed. cbn [deeds targets]. rewrite E. cbn [rbind]. rewrite CK, check_ok. cbn [rbind].
  assert (NB' : forall y z k, D y = Some (Dd z (Some k)) -> k <> d) by (intros y z k Q; specialize (NB y _ I NLx Q); cbn in NB; congruence). clear NB.
  assert (TL : forall t, d_slot v = SObj t -> T t <> None) by (intros t Q; destruct v as [sl m]; cbn in Q; subst sl; pose proof (i_obj _ I _ _ _ E) as Q2; cbn [targets] in Q2; congruence).
  destruct I as [I1 I2 I3 I4 I5 I6]. destruct v as [sl m]. cbn [d_slot d_lender deeds targets] in *.
  destruct m as [l|].
  - destruct (I3 _ _ _ E) as [m M]. rewrite (write_slot_ok D T l sl _ M). cbn [rbind d_lender]. rewrite own_slot_ok by assumption. cbn [rbind]. unfold set_deed. cbn [deeds targets].
    assert (NE : l <> d) by exact (NB' _ _ _ E).
    eexists. split; [reflexivity|]. cbn [deeds targets].
    split; [|split; [ug|split; [intros y N1 N2; ug|split; [intros k w Q W; inj; assert (w = Dd SLent m) as -> by congruence; ug; reflexivity|split; [intros t Q; destruct sl; cbn [own] in *; try reflexivity; ug|intros t ->; cbn [own]; ug]]]]].
    constructor; cbn [deeds targets].
    + intros y u k H. uh H; try (destruct HF; congruence); inj; cbn [own]; [ug|]. pose proof (I1 _ _ _ H). destruct sl as [|t|]; cbn [own]; ug. pose proof (I1 _ _ _ E). congruence.
    + intros u y H. destruct sl as [|t|]; cbn [own] in H; [| |contradiction]; uh H; inj.
      * destruct (I2 _ _ H) as [k K]. exists k. ug.
      * exists m. ug.
      * destruct (I2 _ _ H) as [k K]. exists k. ug. 
    + intros y z k H. uh H; try (destruct HF; congruence); inj.
      * destruct (I3 _ _ _ M) as [k2 K]. exists k2. pose proof (NB' _ _ _ M). ug. exfalso. specialize (I4 _ _ _ _ _ E M). congruence.
      * destruct (I3 _ _ _ H) as [k2 K]. exists k2. pose proof (NB' _ _ _ H). ug. exfalso. specialize (I4 _ _ _ _ _ E H). congruence.
    + intros y y' z z' k H H'. uh H; try (destruct HF; congruence); uh H'; try (destruct HF; congruence); inj; try reflexivity; eauto.
    + intros k m2 H. uh H; try (destruct HF; congruence); inj; try contradiction. destruct (I5 _ _ H) as (y & z & Q). destruct (Nat.eq_dec y l) as [->|N]; [exists l, sl; ug|exists y, z; ug].
    + set (s' := {| deeds := _ |}).
      assert (R : forall y, y <> d -> rooted (St D T) y -> rooted s' y).
      { intros y. apply (rooted_mono (St D T) s' (fun y => y <> d)).
        - intros z v N Q. subst s'. cbn [deeds] in *. ug; [|eauto]. eexists. split; [reflexivity|]. cbn. replace v with (Dd SLent m) by congruence. reflexivity.
        - intros z w k Q. exact (NB' _ _ _ Q). }
      intros y v H. subst s'. cbn [deeds] in H. uh H.
      * destruct HF; [congruence|]. apply (rooted_end _ d SNull). cbn [deeds]. ug.
      * apply R; [assumption|]. exact (I6 _ _ M).
      * apply R; [assumption|]. exact (I6 _ _ H).
  - cbn [rbind]. rewrite own_slot_ok by assumption. cbn [rbind]. unfold set_deed. cbn [deeds targets].
    eexists. split; [reflexivity|]. cbn [deeds targets].
    split; [|split; [ug|split; [intros y N1 N2; ug|split; [discriminate|split; [intros t Q; destruct sl; cbn [own] in *; try reflexivity; ug|intros t ->; cbn [own]; ug]]]]].
    constructor; cbn [deeds targets].
    + intros y u k H. uh H; try (destruct HF; congruence). pose proof (I1 _ _ _ H). destruct sl as [|t|]; cbn [own]; ug. pose proof (I1 _ _ _ E). congruence.
    + intros u y H. destruct sl as [|t|]; cbn [own] in H; [| |contradiction]; uh H; inj; destruct (I2 _ _ H) as [k K]; exists k; ug.
    + intros y z k H. uh H; try (destruct HF; congruence). destruct (I3 _ _ _ H) as [k2 K]. exists k2. pose proof (NB' _ _ _ H). ug.
    + intros y y' z z' k H H'. uh H; try (destruct HF; congruence); uh H'; try (destruct HF; congruence); eauto.
    + intros k m2 H. uh H; try (destruct HF; congruence). destruct (I5 _ _ H) as (y & z & Q). exists y, z; ug.
    + set (s' := {| deeds := _ |}).
      assert (R : forall y, y <> d -> rooted (St D T) y -> rooted s' y).
      { intros y. apply (rooted_mono (St D T) s' (fun y => y <> d)).
        - intros z v N Q. subst s'. cbn [deeds] in *. ug; eauto.
        - intros z w k Q. exact (NB' _ _ _ Q). }
      intros y v H. subst s'. cbn [deeds] in H. uh H.
      * destruct HF; [congruence|]. apply (rooted_end _ d SNull). cbn [deeds]. ug.
      * apply R; [assumption|]. exact (I6 _ _ H).
Qed.

(** *** Swapping two deeds *)
Lemma swap_spec dbg s d x v w : inv s -> deeds s d = Some v -> deeds s x = Some w -> ~ lent s d -> ~ lent s x ->
  exists s', d_swap dbg s d x = Ok s' /\ inv s' /\ deeds s' d = Some w /\ deeds s' x = Some v /\
    (forall y, y <> d -> y <> x -> deeds s' y = deeds s y) /\ (forall t, d_slot v <> SObj t -> d_slot w <> SObj t -> targets s' t = targets s t).
Proof.
  intros I E F ND NX. destruct (not_lent_slot s d v E ND) as [NL CK]. destruct (not_lent_slot s x w F NX) as [NL' CK'].
  pose proof (not_lender s d) as NB. pose proof (not_lender s x) as NC. destruct s as [D T]. cbn [deeds targets] in *. unfold d_swap, get_deed. cbn [deeds targets]. rewrite E, F. cbn [rbind]. rewrite CK, CK', check_ok. cbn [rbind].
  assert (NB' : forall y z k, D y = Some (Dd z (Some k)) -> k <> d) by (intros y z k Q; specialize (NB y _ I ND Q); cbn in NB; congruence). clear NB.
  assert (NC' : forall y z k, D y = Some (Dd z (Some k)) -> k <> x) by (intros y z k Q; specialize (NC y _ I NX Q); cbn in NC; congruence). clear NC.
  assert (TL : forall t, d_slot v = SObj t -> T t <> None) by (intros t Q; destruct v as [sl m]; cbn in Q; subst sl; pose proof (i_obj _ I _ _ _ E) as Q2; cbn [targets] in Q2; congruence).
  assert (TL' : forall t, d_slot w = SObj t -> T t <> None) by (intros t Q; destruct w as [sl m]; cbn in Q; subst sl; pose proof (i_obj _ I _ _ _ F) as Q2; cbn [targets] in Q2; congruence).
  destruct I as [I1 I2 I3 I4 I5 I6]. destruct v as [sl m]. destruct w as [sl' m']. cbn [d_slot d_lender deeds targets] in *.
  rewrite own_slot_ok by assumption. cbn [rbind]. rewrite own_slot_ok; [|assumption|intros t Q; specialize (TL' t Q); destruct sl; cbn [own]; ug]. cbn [rbind]. unfold set_deed. cbn [deeds targets].
  eexists. split; [reflexivity|]. cbn [deeds targets].
  split; [|split; [ug|split; [ug|split; [intros y N1 N2; ug|intros t Q Q'; destruct sl, sl'; cbn [own] in *; ug]]]].
  constructor; cbn [deeds targets].
  - intros y u k H. uh H; inj; cbn [own].
    + destruct sl' as [|t|]; cbn [own]; ug. pose proof (I1 _ _ _ E). pose proof (I1 _ _ _ F). congruence.
    + ug.
    + pose proof (I1 _ _ _ H). destruct sl, sl'; cbn [own]; ug; try (pose proof (I1 _ _ _ E); congruence); try (pose proof (I1 _ _ _ F); congruence).
  - intros u y H. destruct sl as [|t|]; [| |contradiction]; (destruct sl' as [|t'|]; [| |contradiction]); cbn [own] in H; uh H; inj.
    + destruct (I2 _ _ H) as [k K]. exists k. ug.
    + exists m'. ug.
    + destruct (I2 _ _ H) as [k K]. exists k. ug.
    + exists m. ug.
    + destruct (I2 _ _ H) as [k K]. exists k. ug.
    + exists m'. ug.
    + exists m. ug.
    + destruct (I2 _ _ H) as [k K]. exists k. ug.
  - intros y z k H.
    assert (Q : exists y' z', D y' = Some (Dd z' (Some k))) by (uh H; inj; eauto).
    destruct Q as (y' & z' & Q). destruct (I3 _ _ _ Q) as [k2 K]. exists k2. pose proof (NB' _ _ _ Q). pose proof (NC' _ _ _ Q). ug.
  - intros y y' z z' k H H'. uh H; uh H'; inj; try reflexivity; eauto;
      repeat match goal with A : D ?a = Some (Dd _ (Some ?k)), B : D ?b = Some (Dd _ (Some ?k)) |- _ => lazymatch a with b => fail | _ => pose proof (I4 _ _ _ _ _ A B); clear A end end; congruence.
  - intros k m2 H. assert (N : k <> d /\ k <> x) by (split; intros ->; uh H; inj; congruence). destruct N as [N1 N2]. uh H. destruct (I5 _ _ H) as (y & z & Q). destruct (Nat.eq_dec y d) as [->|N3].
    + exists x, sl. ug.
    + destruct (Nat.eq_dec y x) as [->|N4]; [exists d, sl'; ug|exists y, z; ug].
  - set (s' := {| deeds := _ |}).
    assert (R : forall y, y <> d /\ y <> x -> rooted (St D T) y -> rooted s' y).
    { intros y. apply (rooted_mono (St D T) s' (fun y => y <> d /\ y <> x)).
      - intros z v [N N'] Q. subst s'. cbn [deeds] in *. ug; eauto.
      - intros z w k Q. split; [exact (NB' _ _ _ Q)|exact (NC' _ _ _ Q)]. }
    assert (RD : forall y z k, deeds s' y = Some (Dd z k) -> (forall l, k = Some l -> exists a b, D a = Some (Dd b (Some l))) -> rooted s' y).
    { intros y z k Q HQ. destruct k as [l|]; [|exact (rooted_end s' y z Q)]. destruct (HQ l eq_refl) as (a & b & AB). apply (rooted_step s' y z l Q). apply R; [split; [exact (NB' _ _ _ AB)|exact (NC' _ _ _ AB)]|]. destruct (I3 _ _ _ AB) as [k K]. exact (I6 _ _ K). }
    intros y v H. destruct v as [z k]. apply (RD y z k H). intros l ->. subst s'. cbn [deeds] in H. uh H; inj; eauto.
Qed.

(** *** Lending a deed *)
Lemma lend_spec dbg s d tmp x v : inv s -> deeds s d = None -> deeds s tmp = None -> d <> tmp -> deeds s x = Some v -> ~ lent s x ->
  exists s', d_lend dbg s d tmp x = Ok s' /\ inv s' /\ deeds s' d = Some (Dd (d_slot v) (Some x)) /\ deeds s' x = Some (Dd SLent (d_lender v)) /\
    (forall y, y <> d -> y <> x -> deeds s' y = deeds s y) /\ (forall t, d_slot v <> SObj t -> targets s' t = targets s t).
Proof.
  intros I F F' NDT E NLx. destruct (not_lent_slot s x v E NLx) as [NL CK]. pose proof (not_lender s x) as NB. destruct s as [D T]. cbn [deeds targets] in *.
  assert (NE : x <> d) by congruence. assert (NE' : x <> tmp) by congruence.
  assert (NB' : forall y z k, D y = Some (Dd z (Some k)) -> k <> x) by (intros y z k Q; specialize (NB y _ I NLx Q); cbn in NB; congruence). clear NB.
  assert (TL : forall t, d_slot v = SObj t -> T t <> None) by (intros t Q; destruct v as [sl m]; cbn in Q; subst sl; pose proof (i_obj _ I _ _ _ E) as Q2; cbn [targets] in Q2; congruence).
  unfold d_lend, g_lend, fresh, get_deed. cbn [deeds targets]. rewrite F', E. cbn [rbind]. rewrite CK, check_ok. cbn [rbind].
  unfold set_deed. cbn [deeds targets]. unfold d_move, fresh, get_deed. cbn [deeds targets]. rewrite (upd_other _ x), (upd_other _ tmp), F, (upd_other _ x), upd_same by congruence. cbn [rbind].
  unfold is_lent in CK |- * at 1. cbn [d_slot]. rewrite CK, check_ok. cbn [rbind]. unfold set_deed. cbn [deeds targets]. rewrite own_slot_ok by assumption. cbn [rbind].
  unfold d_destroy, get_deed. cbn [deeds targets]. rewrite upd_same. cbn [rbind is_lent d_slot]. rewrite check_ok. cbn [rbind d_lender own_slot]. unfold set_deed. cbn [deeds targets].
  eexists. split; [reflexivity|]. cbn [deeds targets].
  split; [|split; [ug|split; [ug|split; [intros y N1 N2; ug|intros t Q; destruct v as [[|u|] m]; cbn [own d_slot] in *; try reflexivity; ug]]]].
  apply (inv_ext (St (upd (upd D d (Some (Dd (d_slot v) (Some x)))) x (Some (Dd SLent (d_lender v)))) (own T (d_slot v) (Some d)))); [cbn [deeds]; intros y; ug|reflexivity|].
  destruct I as [I1 I2 I3 I4 I5 I6]. destruct v as [sl m]. cbn [d_slot d_lender deeds targets] in *.
  constructor; cbn [deeds targets].
  - intros y u k H. uh H; inj; cbn [own]; [ug|]. pose proof (I1 _ _ _ H). destruct sl as [|t|]; cbn [own]; ug. pose proof (I1 _ _ _ E). congruence.
  - intros u y H. destruct sl as [|t|]; cbn [own] in H; [| |contradiction]; uh H; inj.
    + destruct (I2 _ _ H) as [k K]. exists k. ug.
    + exists (Some x). ug.
    + destruct (I2 _ _ H) as [k K]. exists k. ug.
  - intros y z k H. uh H; inj.
    + destruct (I3 _ _ _ E) as [k2 K]. exists k2. ug.
    + exists m. ug.
    + destruct (I3 _ _ _ H) as [k2 K]. exists k2. pose proof (NB' _ _ _ H). ug.
  - intros y y' z z' k H H'. uh H; uh H'; inj; try reflexivity; eauto; exfalso.
    + pose proof (NB' _ _ _ E). congruence.
    + pose proof (NB' _ _ _ E). congruence.
    + pose proof (NB' _ _ _ H'). congruence.
    + pose proof (NB' _ _ _ H). congruence.
  - intros k m2 H. uh H; inj; try contradiction.
    + exists d, sl. ug.
    + destruct (I5 _ _ H) as (y & z & Q). destruct (Nat.eq_dec y x) as [->|N]; [exists x, SLent|exists y, z]; ug.
  - set (s' := {| deeds := _ |}).
    assert (R : forall y, rooted (St D T) y -> rooted s' y).
    { apply rooted_ext. intros y. subst s'. cbn [deeds]. destruct (D y) as [w|] eqn:W; [|exact Logic.I]. ug; eauto. eexists. split; [reflexivity|]. replace w with (Dd sl m) by congruence. reflexivity. }
    intros y w H. subst s'. cbn [deeds] in H. uh H.
    + apply R. exact (I6 _ _ E).
    + apply (rooted_step _ d sl x); [cbn [deeds]; ug|]. apply R. exact (I6 _ _ E).
    + apply R. exact (I6 _ _ H).
Qed.

(** *** Targets *)
Lemma slots_rooted s s' : (forall d v, deeds s d = Some v -> exists w, deeds s' d = Some w /\ d_lender w = d_lender v) -> (forall d, deeds s' d <> None -> deeds s d <> None) ->
  (forall d v, deeds s d = Some v -> rooted s d) -> forall d v, deeds s' d = Some v -> rooted s' d.
Proof.
  intros H B R d v E. assert (N : deeds s d <> None) by (apply B; congruence). destruct (deeds s d) as [w|] eqn:W; [|contradiction]. apply (rooted_ext s); [|eauto]. intros y. destruct (deeds s y) eqn:Y; [eauto|exact Logic.I].
Qed.
Ltac slr D T := match goal with |- forall d v, _ -> rooted ?s' d => change (forall d v, deeds s' d = Some v -> rooted s' d); apply (slots_rooted (St D T) s'); cbn [deeds] end.
Lemma tnew_spec s t : inv s -> targets s t = None -> exists s', t_new s t = Ok s' /\ inv s' /\ targets s' t = Some None /\ (forall u, u <> t -> targets s' u = targets s u) /\ (forall d, deeds s' d = deeds s d).
Proof.
  intros I F. destruct s as [D T]. cbn [deeds targets] in *. unfold t_new, fresh. cbn [targets]. rewrite F. cbn [rbind]. unfold set_target. cbn [deeds targets]. eexists. split; [reflexivity|]. cbn [deeds targets].
  split; [|split; [ug|split; [intros u N; ug|reflexivity]]].
  destruct I as [I1 I2 I3 I4 I5 I6]. cbn [deeds targets] in *. constructor; cbn [deeds targets]; eauto.
  - intros d u l H. apply I1 in H. ug.
  - intros u d H. uh H. eauto.
  - intros d v H. apply (rooted_ext (St D T)); [|eauto]. intros y. cbn [deeds]. destruct (D y); [eauto|exact Logic.I].
Qed.
Lemma tdestroy_spec s t o : inv s -> targets s t = Some o -> exists s', t_destroy s t = Ok s' /\ inv s' /\ targets s' t = None /\ (forall u, u <> t -> targets s' u = targets s u) /\
  (forall d, o <> Some d -> deeds s' d = deeds s d) /\ (forall d v, o = Some d -> deeds s d = Some v -> deeds s' d = Some (Dd SNull (d_lender v))).
Proof.
  intros I F. destruct s as [D T]. cbn [deeds targets] in *. unfold t_destroy, get_target. cbn [targets]. rewrite F. cbn [rbind].
  destruct I as [I1 I2 I3 I4 I5 I6]. cbn [deeds targets] in *. destruct o as [d|].
  - destruct (I2 _ _ F) as [m M]. rewrite (write_slot_ok D T d SNull _ M). cbn [rbind d_lender]. unfold set_target. cbn [deeds targets]. eexists. split; [reflexivity|]. cbn [deeds targets].
    split; [|split; [ug|split; [intros u N; ug|split; [intros d' N; ug|intros d' v Q V; inj; replace v with (Dd (SObj t) m) by congruence; ug; reflexivity]]]].
    constructor; cbn [deeds targets].
    + intros d' u l H. uh H. apply I1 in H. ug.
    + intros u d' H. uh H. destruct (I2 _ _ H) as [l L]. exists l. ug.
    + intros y z l H. uh H; inj; [destruct (I3 _ _ _ M) as [k K]|destruct (I3 _ _ _ H) as [k K]]; exists k; ug.
    + intros y y' z z' l H H'. uh H; uh H'; inj; eauto.
    + intros l k H. uh H. destruct (I5 _ _ H) as (y & z & Q). destruct (Nat.eq_dec y d) as [->|N]; [exists d, SNull|exists y, z]; ug.
    + slr D T; [intros y w W; ug; eauto; replace w with (Dd (SObj t) m) by congruence; eauto|intros y; ug|assumption].
  - cbn [rbind]. unfold set_target. cbn [deeds targets]. eexists. split; [reflexivity|]. cbn [deeds targets].
    split; [|split; [ug|split; [intros u N; ug|split; [reflexivity|discriminate]]]].
    constructor; cbn [deeds targets]; eauto.
    + intros d u l H. apply I1 in H. ug.
    + intros u d H. uh H. eauto.
    + intros d v H. apply (rooted_ext (St D T)); [|eauto]. intros y. cbn [deeds]. destruct (D y); [eauto|exact Logic.I].
Qed.
Lemma tmove_spec s t x o : inv s -> targets s t = None -> targets s x = Some o -> exists s', t_move s t x = Ok s' /\ inv s' /\ targets s' t = Some o /\ targets s' x = Some None /\ (forall u, u <> t -> u <> x -> targets s' u = targets s u) /\
  (forall d, o <> Some d -> deeds s' d = deeds s d) /\ (forall d v, o = Some d -> deeds s d = Some v -> deeds s' d = Some (Dd (SObj t) (d_lender v))).
Proof.
  intros I F E. destruct s as [D T]. cbn [deeds targets] in *. unfold t_move, fresh, get_target. cbn [targets]. rewrite F, E. cbn [rbind]. unfold set_target. cbn [deeds targets].
  assert (NE : x <> t) by congruence.
  destruct I as [I1 I2 I3 I4 I5 I6]. cbn [deeds targets] in *. destruct o as [d|].
  - destruct (I2 _ _ E) as [m M]. rewrite (write_slot_ok D _ d (SObj t) _ M). cbn [d_lender]. eexists. split; [reflexivity|]. cbn [deeds targets].
    split; [|split; [ug|split; [ug|split; [intros u N N2; ug|split; [intros d' N; ug|intros d' v Q V; inj; replace v with (Dd (SObj x) m) by congruence; ug; reflexivity]]]]].
    constructor; cbn [deeds targets].
    + intros d' u l H. uh H; inj; [ug|]. apply I1 in H. ug.
    + intros u d' H. uh H; inj; [exists m; ug|]. destruct (I2 _ _ H) as [l L]. exists l. ug.
    + intros y z l H. uh H; inj; [destruct (I3 _ _ _ M) as [k K]|destruct (I3 _ _ _ H) as [k K]]; exists k; ug.
    + intros y y' z z' l H H'. uh H; uh H'; inj; eauto.
    + intros l k H. uh H. destruct (I5 _ _ H) as (y & z & Q). destruct (Nat.eq_dec y d) as [->|N]; [exists d, (SObj t)|exists y, z]; ug.
    + slr D T; [intros y w W; ug; eauto; replace w with (Dd (SObj x) m) by congruence; eauto|intros y; ug|assumption].
  - eexists. split; [reflexivity|]. cbn [deeds targets].
    split; [|split; [ug|split; [ug|split; [intros u N N2; ug|split; [reflexivity|discriminate]]]]].
    constructor; cbn [deeds targets]; eauto.
    + intros d u l H. apply I1 in H. ug.
    + intros u d H. uh H. eauto.
    + intros d v H. apply (rooted_ext (St D T)); [|eauto]. intros y. cbn [deeds]. destruct (D y); [eauto|exact Logic.I].
Qed.
Definition repoint (D : nat -> option deed) (o : option nat) (x : slot) : nat -> option deed :=
  match o with Some d => match D d with Some v => upd D d (Some (Dd x (d_lender v))) | None => D end | None => D end.
Lemma tassign_spec s t x o o' : inv s -> targets s t = Some o -> targets s x = Some o' -> exists s', t_assign s t x = Ok s' /\ inv s' /\ targets s' t = Some o' /\ targets s' x = Some o /\ (forall u, u <> t -> u <> x -> targets s' u = targets s u) /\
  (forall d, o <> Some d -> o' <> Some d -> deeds s' d = deeds s d) /\
  (forall d v, o = Some d -> deeds s d = Some v -> deeds s' d = Some (Dd (SObj x) (d_lender v))) /\
  (forall d v, o' = Some d -> deeds s d = Some v -> deeds s' d = Some (Dd (SObj t) (d_lender v))).
Proof.
  intros I F E. destruct s as [D T]. cbn [deeds targets] in *. unfold t_assign, get_target. cbn [targets]. rewrite F, E. cbn [rbind].
  destruct I as [I1 I2 I3 I4 I5 I6]. cbn [deeds targets] in *.
  assert (S1 : match o with Some d => write_slot (St D T) d (SObj x) | None => Ok (St D T) end = Ok (St (repoint D o (SObj x)) T)).
  { destruct o as [d|]; [|reflexivity]. destruct (I2 _ _ F) as [m M]. rewrite (write_slot_ok D T d _ _ M). unfold repoint. rewrite M. reflexivity. }
  rewrite S1. cbn [rbind]. unfold set_target. cbn [deeds targets].
  set (T' := upd (upd T t (Some o')) x (Some o)). set (D1 := repoint D o (SObj x)).
  assert (S2 : match o' with Some d => write_slot (St D1 T') d (SObj t) | None => Ok (St D1 T') end = Ok (St (repoint D1 o' (SObj t)) T')).
  { destruct o' as [d'|]; [|reflexivity]. destruct (I2 _ _ E) as [m M]. assert (exists v, D1 d' = Some v) as [v V].
    { subst D1. unfold repoint. destruct o as [d|]; [|eauto]. destruct (D d) eqn:Q; [|eauto]. ug; eauto. }
    rewrite (write_slot_ok D1 T' d' _ _ V). unfold repoint. rewrite V. reflexivity. }
  rewrite S2. eexists. split; [reflexivity|]. cbn [deeds targets].
  (* how each deed changes *)
  assert (K : forall y, repoint D1 o' (SObj t) y = match D y with Some v => Some (Dd (if match o' with Some d => y =? d | None => false end then SObj t else if match o with Some d => y =? d | None => false end then SObj x else d_slot v) (d_lender v)) | None => None end).
  { intros y. assert (A : forall v, D y = Some v -> Some v = Some (Dd (d_slot v) (d_lender v))) by (intros [a b] _; reflexivity).
    subst D1. unfold repoint. destruct o as [d|], o' as [d'|].
    - destruct (I2 _ _ F) as [m M]. destruct (I2 _ _ E) as [m' M']. rewrite M. cbn [d_lender]. unfold upd at 1. destruct (Nat.eqb_spec d' d) as [->|N].
      + unfold upd. cbn [d_lender]. destruct (Nat.eqb_spec y d) as [->|N2]; [rewrite M; reflexivity|]. destruct (D y) eqn:Q; [apply (A _ eq_refl)|reflexivity].
      + rewrite M'. unfold upd. cbn [d_lender]. destruct (Nat.eqb_spec y d') as [->|N2]; [rewrite M'; reflexivity|]. destruct (Nat.eqb_spec y d) as [->|N3]; [rewrite M; reflexivity|]. destruct (D y) eqn:Q; [apply (A _ eq_refl)|reflexivity].
    - destruct (I2 _ _ F) as [m M]. rewrite M. unfold upd. cbn [d_lender]. destruct (Nat.eqb_spec y d) as [->|N2]; [rewrite M; reflexivity|]. destruct (D y) eqn:Q; [apply (A _ eq_refl)|reflexivity].
    - destruct (I2 _ _ E) as [m M]. rewrite M. unfold upd. cbn [d_lender]. destruct (Nat.eqb_spec y d') as [->|N2]; [rewrite M; reflexivity|]. destruct (D y) eqn:Q; [apply (A _ eq_refl)|reflexivity].
    - destruct (D y) eqn:Q; [apply (A _ eq_refl)|reflexivity]. }
  set (D2 := repoint D1 o' (SObj t)) in *. clearbody D2. clear S1 S2 D1.
  (* the new owner map *)
  assert (KO : forall d, o = Some d -> exists m, D d = Some (Dd (SObj t) m)) by (intros d ->; eauto).
  assert (KO' : forall d, o' = Some d -> exists m, D d = Some (Dd (SObj x) m)) by (intros d ->; eauto).
  assert (TX : t = x -> o = o') by (intros ->; congruence).
  assert (OO : forall d, o = Some d -> o' = Some d -> t = x) by (intros d A B; destruct (KO d A), (KO' d B); congruence).
  assert (IS : forall (q : option nat) y, match q with Some d => y =? d | None => false end = true <-> q = Some y).
  { intros [d|] y; [|split; discriminate]. rewrite Nat.eqb_eq. split; [intros ->; reflexivity|intros Q; injection Q; congruence]. }
  assert (D2o : forall d v, o = Some d -> D d = Some v -> D2 d = Some (Dd (SObj x) (d_lender v))).
  { intros d v A V. rewrite K, V. rewrite (proj2 (IS o d) A). destruct (match o' with Some _ => _ | None => false end) eqn:B; [|reflexivity]. rewrite (OO d A (proj1 (IS _ _) B)). reflexivity. }
  assert (D2o' : forall d v, o' = Some d -> D d = Some v -> D2 d = Some (Dd (SObj t) (d_lender v))).
  { intros d v A V. rewrite K, V. rewrite (proj2 (IS o' d) A). reflexivity. }
  assert (D2n : forall d, o <> Some d -> o' <> Some d -> D2 d = D d).
  { intros d A B. rewrite K. destruct (match o' with Some _ => _ | None => false end) eqn:Q; [exfalso; exact (B (proj1 (IS _ _) Q))|]. destruct (match o with Some _ => _ | None => false end) eqn:Q'; [exfalso; exact (A (proj1 (IS _ _) Q'))|]. destruct (D d) as [[a b]|]; reflexivity. }
  assert (DEC : forall q y : option nat, {q = y} + {q <> y}) by (decide equality; apply Nat.eq_dec).
  assert (LEN : forall d y l, D2 d = Some (Dd y l) -> exists y', D d = Some (Dd y' l)).
  { intros d y l H. rewrite K in H. destruct (D d) as [[a b]|]; [|discriminate]. cbn in H. injection H as _ <-. eauto. }
  assert (LEN' : forall d y l, D d = Some (Dd y l) -> exists y', D2 d = Some (Dd y' l)).
  { intros d y l H. rewrite K, H. cbn [d_lender]. eauto. }
  assert (LNT : forall d m, D d = Some (Dd SLent m) -> D2 d = Some (Dd SLent m)).
  { intros d m H. rewrite D2n; [exact H| |]; intros A; [destruct (KO d A)|destruct (KO' d A)]; congruence. }
  assert (LNT' : forall d m, D2 d = Some (Dd SLent m) -> D d = Some (Dd SLent m)).
  { intros d m H. rewrite K in H. destruct (D d) as [[a b]|]; [|discriminate]. destruct (match o' with Some _ => _ | None => false end); [discriminate|]. destruct (match o with Some _ => _ | None => false end); [discriminate|]. exact H. }
  split.
  - constructor; cbn [deeds targets].
    + intros d u l H. subst T'. destruct (DEC o' (Some d)) as [A|A].
      * destruct (KO' d A) as [m M]. rewrite (D2o' d _ A M) in H. inj. ug.
      * destruct (DEC o (Some d)) as [B|B].
        -- destruct (KO d B) as [m M]. rewrite (D2o d _ B M) in H. inj. ug.
        -- rewrite (D2n d B A) in H. apply I1 in H. ug.
    + intros u d H. subst T'. uh H; inj.
      * destruct (KO d eq_refl) as [m M]. exists m. exact (D2o d _ eq_refl M).
      * destruct (KO' d eq_refl) as [m M]. exists m. exact (D2o' d _ eq_refl M).
      * destruct (I2 _ _ H) as [l L]. exists l. rewrite D2n; [exact L| |]; intros A; [destruct (KO d A)|destruct (KO' d A)]; congruence.
    + intros d y l H. destruct (LEN _ _ _ H) as [y' H']. destruct (I3 _ _ _ H') as [m M]. exists m. exact (LNT _ _ M).
    + intros d d' y y' l H H'. destruct (LEN _ _ _ H). destruct (LEN _ _ _ H'). eauto.
    + intros l m H. destruct (I5 _ _ (LNT' _ _ H)) as (d & y & Q). destruct (LEN' _ _ _ Q) as [y' Q']. eauto.
    + slr D T.
      * intros d [a b] H. destruct (LEN' _ _ _ H) as [y' Q]. eauto.
      * intros d H. rewrite K in H. destruct (D d); congruence.
      * exact I6.
  - subst T'. split; [ug|]. split; [ug|]. split; [intros u N N2; ug|]. split; [exact D2n|]. split; [exact D2o|exact D2o'].
Qed.

(** *** From the invariant to the specification *)
Lemma holds_iff s d t : holds s d t <-> exists l, deeds s d = Some (Dd (SObj t) l).
Proof.
  unfold holds, d_get, get_deed. destruct (deeds s d) as [[[|u|] l]|] eqn:E; cbn; split; try discriminate; try (intros [k K]; discriminate).
  - intros H. injection H as ->. eauto.
  - intros [k K]. injection K as -> ->. reflexivity.
Qed.
Lemma null_iff s d : null s d <-> exists l, deeds s d = Some (Dd SNull l).
Proof.
  unfold null, d_get, get_deed. destruct (deeds s d) as [[[|u|] l]|] eqn:E; cbn; split; try discriminate; try (intros [k K]; discriminate); eauto.
Qed.
Lemma sound_iff s : sound s <-> inv s.
Proof.
  split.
  - intros [[C1 C2 C3 C4 C5 C6] R]. constructor.
    + intros d t l H. apply C3. apply holds_iff. eauto.
    + intros t d H. apply C3 in H. apply holds_iff in H. exact H.
    + intros d x l H. apply (C4 d l). exists x. exact H.
    + intros d d' x x' l H H'. apply (C6 d d' l); eexists; eassumption.
    + intros l m H. destruct (C5 l) as (d & x & E); [exists m; exact H|]. eauto.
    + intros d v H. apply R. unfold live_deed. congruence.
  - intros [I1 I2 I3 I4 I5 I6]. split; [constructor|].
    + intros d d' t H H'. apply holds_iff in H, H'. destruct H as [l H], H' as [l' H']. apply I1 in H, H'. congruence.
    + intros d t H. apply holds_iff in H. destruct H as [l H]. apply I1 in H. unfold live_target. congruence.
    + intros d t. rewrite holds_iff. split; [intros [l H]; eauto|apply I2].
    + intros d l [x H]. exact (I3 _ _ _ H).
    + intros l [m H]. destruct (I5 _ _ H) as (d & x & E). exists d, x. exact E.
    + intros d d' l [x H] [x' H']. eauto.
    + intros d H. unfold live_deed in H. destruct (deeds s d) eqn:E; [eauto|contradiction].
Qed.
Lemma live_same s s' : (forall t, targets s' t = targets s t) -> forall u, live_target s' u <-> live_target s u.
Proof. intros H u. unfold live_target. rewrite H. reflexivity. Qed.
(** A target some deed points at lives before and after. *)
Lemma live_slot s s' sl : (forall t, sl <> SObj t -> targets s' t = targets s t) ->
  (forall t, sl = SObj t -> targets s t <> None /\ targets s' t <> None) -> forall u, live_target s' u <-> live_target s u.
Proof.
  intros H B u. unfold live_target. assert (D : {sl = SObj u} + {sl <> SObj u}) by (decide equality; apply Nat.eq_dec). destruct D as [E|E]; [destruct (B u E); tauto|rewrite (H u E); reflexivity].
Qed.

Lemma place s d s' d' v : deeds s d = Some v -> deeds s' d' = Some v -> takes_place s d s' d'.
Proof.
  intros E E'. split; [|split].
  - intros t H. apply holds_iff in H. apply holds_iff. destruct H as [l H]. exists l. congruence.
  - intros H. apply null_iff in H. apply null_iff. destruct H as [l H]. exists l. congruence.
  - intros l. split; intros [x H]; exists x; congruence.
Qed.
Lemma uses_live s o d : allowed s o -> In d (uses o) -> (exists v, deeds s d = Some v) /\ ~ lent s d.
Proof. intros [A _] H. destruct (A d H) as [L N]. split; [apply alive_deed; exact L|exact N]. Qed.
Lemma no_loan s d x : deeds s d = Some (Dd x None) -> forall l, ~ borrowed_from s d l.
Proof. intros E l [y H]. congruence. Qed.
Lemma gives s s' d v : inv s -> deeds s d = Some v ->
    (forall y, y <> d -> d_lender v <> Some y -> deeds s' y = deeds s y) ->
    (forall l w, d_lender v = Some l -> deeds s l = Some w -> deeds s' l = Some (Dd (d_slot v) (d_lender w))) ->
    (forall t, d_slot v = SObj t -> targets s' t = Some (d_lender v)) -> gives_back s s' d.
Proof.
  intros I E A B C. destruct v as [sl m]. cbn [d_slot d_lender] in *. split; [|split].
  - intros l [x H]. assert (m = Some l) as -> by congruence. destruct (i_lend s I _ _ _ E) as [k K]. specialize (B l _ eq_refl K). split.
    + intros t H2. apply holds_iff in H2. destruct H2 as [q H2]. apply holds_iff. cbn in B. exists k. congruence.
    + intros H2. apply null_iff in H2. destruct H2 as [q H2]. apply null_iff. cbn in B. exists k. congruence.
  - intros t H N. apply holds_iff in H. destruct H as [q H]. rewrite (C t) by congruence. destruct m as [l|]; [|reflexivity]. exfalso. apply (N l). exists sl. exact E.
  - intros y N. apply A; [tauto|]. intros Q. apply N. right. exists sl. congruence.
Qed.
Lemma slots_loans s s' : (forall d x l, deeds s d = Some (Dd x l) -> exists x', deeds s' d = Some (Dd x' l)) -> (forall d, deeds s' d <> None -> deeds s d <> None) -> same_loans s s'.
Proof.
  intros A B d l. split; intros [x H].
  - destruct (A _ _ _ H) as [x' H']. exists x'. exact H'.
  - assert (N : deeds s d <> None) by (apply B; congruence). destruct (deeds s d) as [[x2 l2]|] eqn:E; [|contradiction]. destruct (A _ _ _ E) as [x' H']. exists x2. congruence.
Qed.
Lemma step_ok dbg s o : inv s -> allowed s o -> exists s', step dbg s o = Ok s' /\ inv s' /\ effect o s s'.
Proof.
  intros I A. pose proof (uses_live s o) as U. destruct o; cbn [step uses] in *; pose proof (proj2 A) as A2; cbn beta iota in A2.
  - destruct (step_new s d I (dead_deed _ _ A2)) as (s' & R & I' & F & G & N). exists s'. split; [exact R|]. split; [exact I'|]. split; [|exact (live_same s s' G)].
    split; [apply null_iff; eauto|]. split; [exact (no_loan s' d SNull N)|]. intros y Hy. exact (F y Hy).
  - destruct A2 as [A2 A3]. destruct (alive_target s t A3) as [ow E]. destruct (make_spec s d t ow I (dead_deed _ _ A2) E) as (s' & R & I' & N & F & L & G). exists s'. split; [exact R|]. split; [exact I'|].
    assert (HL : forall l, holds s l t <-> ow = Some l).
    { intros l. rewrite holds_iff. split; [intros [k K]; apply (i_obj s I) in K; congruence|intros ->; exact (i_own s I _ _ E)]. }
    split.
    + split; [apply holds_iff; eauto|]. split.
      * intros l H. apply HL in H. split; [exact (L l H)|]. exists (SObj t). congruence.
      * intros y Hy. apply F; [tauto|]. intros Q. apply Hy. right. apply HL. exact Q.
    + intros u. destruct (Nat.eq_dec u t) as [->|N2]; [|unfold live_target; rewrite G by exact N2; reflexivity]. unfold live_target. rewrite E. pose proof (i_obj s' I' _ _ _ N). split; congruence.
  - destruct (U other A (or_introl eq_refl)) as [[v E] NL]. destruct (move_spec dbg s d other v I (dead_deed _ _ A2) E NL) as (s' & R & I' & N & X & F & G). exists s'. split; [exact R|]. split; [exact I'|]. split.
    + split; [exact (place _ _ _ _ _ E N)|]. split; [apply null_iff; eauto|]. split; [exact (no_loan s' other SNull X)|]. intros y Hy. apply F; tauto.
    + apply (live_slot s s' (d_slot v) G). intros t Q. destruct v as [sl m]; cbn in Q; subst sl. rewrite (i_obj s I _ _ _ E), (i_obj s' I' _ _ _ N). split; discriminate.
  - destruct (U d A (or_introl eq_refl)) as [[v E] NL]. destruct (U other A (or_intror (or_introl eq_refl))) as [[w E'] NL'].
    destruct (swap_spec dbg s d other v w I E E' NL NL') as (s' & R & I' & N & X & F & G). exists s'. split; [exact R|]. split; [exact I'|]. split.
    + split; [exact (place _ _ _ _ _ E' N)|]. split; [exact (place _ _ _ _ _ E X)|]. intros y Hy. apply F; tauto.
    + intros u. assert (DEC : forall sl : slot, {sl = SObj u} + {sl <> SObj u}) by (decide equality; apply Nat.eq_dec). destruct v as [sl m], w as [sl' m']. cbn [d_slot] in *.
      destruct (DEC sl) as [->|N1]; [|destruct (DEC sl') as [->|N2]]; unfold live_target.
      * rewrite (i_obj s I _ _ _ E), (i_obj s' I' _ _ _ X). split; discriminate.
      * rewrite (i_obj s I _ _ _ E'), (i_obj s' I' _ _ _ N). split; discriminate.
      * rewrite (G u N1 N2). reflexivity.
  - destruct (U d A (or_introl eq_refl)) as [[v E] NL]. destruct (give_back_spec dbg s d v (Some (Dd SNull None)) I E NL (or_intror eq_refl)) as (s' & R & I' & N & F & L & G & C). exists s'. split; [exact R|]. split; [exact I'|]. split.
    + split; [apply null_iff; eauto|]. split; [exact (no_loan s' d SNull N)|]. exact (gives s s' d v I E F L C).
    + apply (live_slot s s' (d_slot v) G). intros t Q. rewrite (C t Q). destruct v as [sl m]; cbn in Q; subst sl. rewrite (i_obj s I _ _ _ E). split; discriminate.
  - destruct (U d A (or_introl eq_refl)) as [[v E] NL]. destruct (give_back_spec dbg s d v None I E NL (or_introl eq_refl)) as (s' & R & I' & N & F & L & G & C). exists s'. split; [exact R|]. split; [exact I'|]. split.
    + split; [unfold live_deed; congruence|]. exact (gives s s' d v I E F L C).
    + apply (live_slot s s' (d_slot v) G). intros t Q. rewrite (C t Q). destruct v as [sl m]; cbn in Q; subst sl. rewrite (i_obj s I _ _ _ E). split; discriminate.
  - destruct A2 as (A2 & A3 & A4). destruct (U lender A (or_introl eq_refl)) as [[v E] NL]. destruct (lend_spec dbg s d tmp lender v I (dead_deed _ _ A2) (dead_deed _ _ A3) A4 E NL) as (s' & R & I' & N & X & F & G). exists s'. split; [exact R|]. split; [exact I'|]. split.
    + split; [intros t H; apply holds_iff in H; destruct H as [l H]; apply holds_iff; exists (Some lender); rewrite N; rewrite E in H; injection H as ->; reflexivity|].
      split; [intros H; apply null_iff in H; destruct H as [l H]; apply null_iff; exists (Some lender); rewrite N; rewrite E in H; injection H as ->; reflexivity|].
      split; [eexists; exact X|]. split; [eexists; exact N|]. split; [|intros y Hy; apply F; tauto].
      intros l. destruct v as [sl m]. split; intros [x H]; [exists SLent|exists sl]; cbn in *; congruence.
    + apply (live_slot s s' (d_slot v) G). intros t Q. destruct v as [sl m]; cbn in Q; subst sl. rewrite (i_obj s I _ _ _ E), (i_obj s' I' _ _ _ N). split; discriminate.
  - destruct (tnew_spec s t I (dead_target _ _ A2)) as (s' & R & I' & N & G & F). exists s'. split; [exact R|]. split; [exact I'|]. split; [split; [exact N|intros y _; apply F]|].
    intros u. unfold live_target. destruct (Nat.eq_dec u t) as [->|N2]; [rewrite N; split; [tauto|discriminate]|rewrite G by exact N2; tauto].
  - destruct A2 as [A2 A3]. destruct (alive_target s other A3) as [ow E]. destruct (tmove_spec s t other ow I (dead_target _ _ A2) E) as (s' & R & I' & N & X & G & F & P). exists s'. split; [exact R|]. split; [exact I'|].
    assert (HL : forall l, holds s l other -> ow = Some l) by (intros l H; apply holds_iff in H; destruct H as [k K]; apply (i_obj s I) in K; congruence).
    assert (HL' : forall l, ow = Some l -> exists k, deeds s l = Some (Dd (SObj other) k)) by (intros l ->; exact (i_own s I _ _ E)).
    assert (DEC : forall q : nat, {ow = Some q} + {ow <> Some q}) by (intros q; decide equality; apply Nat.eq_dec).
    split.
    + split; [intros d H; specialize (HL d H); destruct (HL' d HL) as [k K]; apply holds_iff; eexists; exact (P d _ HL K)|]. split; [exact X|]. split.
      * apply slots_loans.
        -- intros d x l H. destruct (DEC d) as [Q|Q]; [rewrite (P d _ Q H); eauto|rewrite (F d Q); eauto].
        -- intros d. destruct (DEC d) as [Q|Q]; [destruct (HL' d Q); congruence|rewrite (F d Q); tauto].
      * intros y Hy. apply F. intros Q. apply Hy. apply holds_iff. exact (HL' y Q).
    + intros u. unfold live_target. destruct (Nat.eq_dec u t) as [->|N2]; [rewrite N; split; [tauto|discriminate]|]. destruct (Nat.eq_dec u other) as [->|N3]; [rewrite X, E; split; [intros _; right|]; discriminate|rewrite G by assumption; tauto].
  - destruct A2 as [A2 A3]. destruct (alive_target s t A2) as [ow E], (alive_target s other A3) as [ow' E']. exists s. unfold t_copy_assign, get_target. rewrite E, E'. split; [reflexivity|]. split; [exact I|]. split; reflexivity.
  - destruct A2 as [A2 A3]. destruct (alive_target s t A2) as [ow E], (alive_target s other A3) as [ow' E'].
    destruct (tassign_spec s t other ow ow' I E E') as (s' & R & I' & N & X & G & F & P & P'). exists s'. split; [exact R|]. split; [exact I'|].
    assert (HL : forall l, holds s l t <-> ow = Some l).
    { intros l. rewrite holds_iff. split; [intros [k K]; apply (i_obj s I) in K; congruence|intros ->; exact (i_own s I _ _ E)]. }
    assert (HL' : forall l, holds s l other <-> ow' = Some l).
    { intros l. rewrite holds_iff. split; [intros [k K]; apply (i_obj s I) in K; congruence|intros ->; exact (i_own s I _ _ E')]. }
    assert (DEC : forall p (q : nat), {p = Some q} + {p <> Some q}) by (intros p q; decide equality; apply Nat.eq_dec).
    split.
    + split; [|split; [|split]].
      * intros d H. pose proof (proj1 (HL' d) H) as Q. apply holds_iff in H. destruct H as [k K]. apply holds_iff. eexists. exact (P' d _ Q K).
      * intros d H. pose proof (proj1 (HL d) H) as Q. apply holds_iff in H. destruct H as [k K]. apply holds_iff. eexists. exact (P d _ Q K).
      * apply slots_loans.
        -- intros d x l H. destruct (DEC ow d) as [Q|Q]; [rewrite (P d _ Q H); eauto|]. destruct (DEC ow' d) as [Q'|Q']; [rewrite (P' d _ Q' H); eauto|]. rewrite (F d Q Q'). eauto.
        -- intros d. destruct (DEC ow d) as [Q|Q]; [apply HL, holds_iff in Q; destruct Q; congruence|]. destruct (DEC ow' d) as [Q'|Q']; [apply HL', holds_iff in Q'; destruct Q'; congruence|]. rewrite (F d Q Q'). tauto.
      * intros y Hy. apply F; intros Q; apply Hy; [right; apply HL|left; apply HL']; exact Q.
    + intros u. unfold live_target. destruct (Nat.eq_dec u t) as [->|N2]; [rewrite N, E; split; discriminate|]. destruct (Nat.eq_dec u other) as [->|N3]; [rewrite X, E'; split; discriminate|rewrite G by assumption; tauto].
  - destruct (alive_target s t A2) as [ow E]. destruct (tdestroy_spec s t ow I E) as (s' & R & I' & N & G & F & P). exists s'. split; [exact R|]. split; [exact I'|].
    assert (HL : forall l, holds s l t <-> ow = Some l).
    { intros l. rewrite holds_iff. split; [intros [k K]; apply (i_obj s I) in K; congruence|intros ->; exact (i_own s I _ _ E)]. }
    assert (DEC : forall p (q : nat), {p = Some q} + {p <> Some q}) by (intros p q; decide equality; apply Nat.eq_dec).
    split.
    + split; [|split].
      * intros d H. pose proof (proj1 (HL d) H) as Q. apply holds_iff in H. destruct H as [k K]. apply null_iff. eexists. exact (P d _ Q K).
      * apply slots_loans.
        -- intros d x l H. destruct (DEC ow d) as [Q|Q]; [rewrite (P d _ Q H); eauto|]. rewrite (F d Q). eauto.
        -- intros d. destruct (DEC ow d) as [Q|Q]; [apply HL, holds_iff in Q; destruct Q; congruence|]. rewrite (F d Q). tauto.
      * intros y Hy. apply F; intros Q; apply Hy; apply HL; exact Q.
    + intros u. unfold live_target. destruct (Nat.eq_dec u t) as [->|N2]; [rewrite N; split; [contradiction|tauto]|rewrite G by exact N2; tauto].
Qed.
Lemma history_inv dbg l s : history dbg l s -> inv s.
Proof. intros H. induction H as [|l s o s' H IH A R]; [exact inv_empty|]. destruct (step_ok dbg s o IH A) as (s2 & R2 & I2 & _). rewrite R in R2. injection R2 as ->. exact I2. Qed.
Lemma run_app dbg l l' s : run dbg s (l ++ l') = (s' <- run dbg s l ;; run dbg s' l').
Proof. revert s. induction l as [|o l IH]; intros s; [reflexivity|]. cbn [app run]. destruct (step dbg s o); cbn [rbind]; auto. Qed.
Lemma history_run dbg l s : history dbg l s -> run dbg st_empty l = Ok s.
Proof. intros H. induction H as [|l s o s' H IH A R]; [reflexivity|]. rewrite run_app, IH. cbn [rbind run]. rewrite R. reflexivity. Qed.

(** Using a deed that is lent out. *)
Definition addresses_ok (s : state) (o : op) : Prop :=
  (forall d, In d (uses o) -> live_deed s d) /\
  match o with DMove d _ => ~ live_deed s d | DLend _ tmp _ => ~ live_deed s tmp | _ => True end.
Lemma lent_is s d : lent s d -> exists v, deeds s d = Some v /\ is_lent v = true.
Proof. intros [m E]. exists (Dd SLent m). split; [exact E|reflexivity]. Qed.
Lemma lent_stops s o d : addresses_ok s o -> In d (uses o) -> lent s d -> step true s o = AssertFail.
Proof.
  intros [A B] U L. destruct (lent_is s d L) as (v & E & LV).
  destruct o; cbn [uses In] in U; try contradiction; cbn [step].
  - destruct U as [<-|[]]. apply dead_deed in B. unfold d_move, fresh, get_deed. rewrite B, E. cbn [rbind]. rewrite LV. reflexivity.
  - unfold d_swap, get_deed. destruct (alive_deed s other (A other (or_intror (or_introl eq_refl)))) as [w W]. rewrite W. cbn [rbind].
    destruct U as [<-|[<-|[]]].
    + destruct (is_lent w); [reflexivity|]. rewrite check_ok. cbn [rbind]. rewrite E. cbn [rbind]. rewrite LV. reflexivity.
    + assert (w = v) as -> by congruence. rewrite LV. reflexivity.
  - destruct U as [<-|[]]. unfold d_return, get_deed. rewrite E. cbn [rbind]. rewrite LV. reflexivity.
  - destruct U as [<-|[]]. unfold d_destroy, get_deed. rewrite E. cbn [rbind]. rewrite LV. reflexivity.
  - destruct U as [<-|[]]. apply dead_deed in B. unfold d_lend, g_lend, fresh, get_deed. rewrite B, E. cbn [rbind]. rewrite LV. reflexivity.
Qed.

(** GenericDeed::Lend *)
Lemma g_lend_broken dbg s d x t : inv s -> deeds s d = None -> holds s x t ->
  exists s', g_lend dbg s d x = Ok s' /\ holds s' d t /\ targets s' t = Some (Some x) /\ lent s' x /\
  forall u, targets s u = None -> exists s'', t_move s' u t = Ok s'' /\ holds s'' d t /\ holds s'' x u /\ borrowed_from s'' d x.
Proof.
  intros I F H. apply holds_iff in H. destruct H as [m E]. pose proof (i_obj s I _ _ _ E) as O. destruct s as [D T]. cbn [deeds targets] in *. assert (N : x <> d) by congruence.
  unfold g_lend, fresh, get_deed. cbn [deeds]. rewrite F, E. cbn [rbind is_lent d_slot]. rewrite check_ok. cbn [rbind d_lender]. unfold set_deed. cbn [deeds targets].
  eexists. split; [reflexivity|]. split; [apply holds_iff; exists (Some x); cbn [deeds]; ug|]. split; [exact O|]. split; [exists m; cbn [deeds]; ug|].
  intros u U. unfold t_move, fresh, get_target, set_target. cbn [deeds targets]. rewrite U, O. cbn [rbind].
  rewrite (write_slot_ok _ _ x (SObj u) (Dd SLent m)); [|ug]. eexists. split; [reflexivity|]. cbn [d_lender]. split; [apply holds_iff; exists (Some x); cbn [deeds]; ug|]. split; [apply holds_iff; exists m; cbn [deeds]; ug|].
  exists (SObj t). cbn [deeds]. ug.
Qed.
