(** C25: deeds and their targets. *)
From Coq Require Import List Bool Arith.
From Verif Require Import BigUIntModel DeedModel DeedSpec DeedProofs.
Import ListNotations.

(** Every allowed operation on a sound state runs to completion in both builds,
    keeps the state sound and has the effect its documentation describes. *)
Theorem C25_step dbg s o : sound s -> allowed s o -> exists s', step dbg s o = Ok s' /\ sound s' /\ effect o s s'.
Proof. intros S A. apply sound_iff in S. destruct (step_ok dbg s o S A) as (s' & R & I & E). exists s'. rewrite sound_iff. auto. Qed.
Print Assumptions C25_step.

(** The same for whole histories starting with no deeds and no targets: every
    state along the way is sound, and no operation aborts or is undefined. *)
Theorem C25_history dbg l s : history dbg l s -> run dbg st_empty l = Ok s /\ sound s.
Proof. intros H. split; [exact (history_run dbg l s H)|apply sound_iff; exact (history_inv dbg l s H)]. Qed.
Print Assumptions C25_history.

(** A target is freed, moved and reassigned under the deed that holds it: in a
    sound state two deeds never give access to the same target, and no deed
    gives access to a dead one. *)
Theorem C25_no_dangling dbg l s d t : history dbg l s -> d_get true s d = Ok (Some t) -> targets s t = Some (Some d) /\ forall d', d_get true s d' = Ok (Some t) -> d' = d.
Proof. intros H G. apply history_inv, sound_iff in H. destruct H as [[C1 C2 C3 _ _ _] _]. split; [exact (proj1 (C3 d t) G)|]. intros d' G'. exact (C1 d' d t G' G). Qed.
Print Assumptions C25_no_dangling.

(** Using a deed while it is lent out stops the program (debug build). *)
Theorem C25_lent_use_stops s o d : addresses_ok s o -> In d (uses o) -> lent s d -> step true s o = AssertFail.
Proof. exact (lent_stops s o d). Qed.
Print Assumptions C25_lent_use_stops.

(** GenericDeed::Lend, unlike Deed<T>::Lend, does not tell the target about the
    new deed.  From every sound state the result is unsound, and moving the
    target afterwards leaves the borrower pointing at the moved-from object while
    the lender, still lent out, gives access to the new one. *)
Theorem C25_generic_lend_refuted dbg s d x t : sound s -> ~ live_deed s d -> holds s x t ->
  exists s', g_lend dbg s d x = Ok s' /\ ~ sound s' /\
  forall u, ~ live_target s u -> exists s'', t_move s' u t = Ok s'' /\ holds s'' d t /\ holds s'' x u /\ borrowed_from s'' d x /\ ~ sound s''.
Proof.
  intros S F H. apply sound_iff in S. destruct (g_lend_broken dbg s d x t S (dead_deed _ _ F) H) as (s' & R & H' & O & L & M). exists s'. split; [exact R|].
  assert (NE : d <> x) by (intros ->; apply holds_iff in H; destruct H as [l H]; apply dead_deed in F; congruence).
  split.
  - intros [[_ _ C3 _ _ _] _]. apply C3 in H'. congruence.
  - intros u U. destruct (M u (dead_target _ _ U)) as (s'' & R2 & A & B & C). exists s''. split; [exact R2|]. split; [exact A|]. split; [exact B|]. split; [exact C|].
    intros [[_ _ _ C4 _ _] _]. destruct (C4 _ _ C) as [m Q]. apply holds_iff in B. destruct B. congruence.
Qed.
Print Assumptions C25_generic_lend_refuted.

(** Constructing a deed from a null pointer is undefined. *)
Theorem C25_null_pointer_refuted s d : ~ live_deed s d -> d_make s d None = UB.
Proof. intros F. unfold d_make, fresh. rewrite (dead_deed _ _ F). reflexivity. Qed.
Print Assumptions C25_null_pointer_refuted.

(** The hypotheses are met: a target is created, a deed made, lent, the target
    moved, the loan returned. *)
Definition C25_ops : list op := [TNew 0; DMake 0 0; DLend 1 2 0; TMove 1 0; DReturn 1; DLend 3 4 0; DMove 5 3; DDestroy 3; DDestroy 5; TDestroy 1].
Definition allowedb (s : state) (o : op) : bool :=
  let deadd d := match deeds s d with None => true | _ => false end in
  let deadt d := match targets s d with None => true | _ => false end in
  forallb (fun d => match deeds s d with Some (Dd SLent _) | None => false | _ => true end) (uses o) &&
  match o with
  | DNew d | DMove d _ => deadd d
  | DMake d t => deadd d && negb (deadt t)
  | DLend d tmp _ => deadd d && deadd tmp && negb (d =? tmp)
  | TNew t => deadt t
  | TMove t x => deadt t && negb (deadt x)
  | TCopyAssign t x | TAssign t x => negb (deadt t) && negb (deadt x)
  | TDestroy t => negb (deadt t)
  | _ => true
  end.
Lemma allowedb_sound s o : allowedb s o = true -> allowed s o.
Proof.
  unfold allowedb. intros H. apply andb_true_iff in H. destruct H as [U H]. split.
  - intros d Hd. rewrite forallb_forall in U. specialize (U d Hd). unfold live_deed, lent. destruct (deeds s d) as [[[|t|] m]|]; try discriminate; (split; [discriminate|intros [k K]; discriminate]).
  - destruct o; try exact Logic.I; unfold live_deed, live_target; repeat (apply andb_true_iff in H; destruct H as [H ?]);
      repeat match goal with H : match ?x with _ => _ end = true |- _ => destruct x eqn:?; try discriminate | H : negb (match ?x with _ => _ end) = true |- _ => destruct x eqn:?; try discriminate | H : negb (_ =? _) = true |- _ => apply negb_true_iff, Nat.eqb_neq in H end;
      repeat split; try discriminate; try assumption; intros Q; try (apply Q; assumption); congruence.
Qed.
Fixpoint try_history (s : state) (l : list op) : bool :=
  match l with [] => true | o :: l => allowedb s o && match step true s o with Ok s' => try_history s' l | _ => false end end.
Lemma try_history_sound l0 s l : history true l0 s -> try_history s l = true -> exists s', run true s l = Ok s' /\ history true (l0 ++ l) s'.
Proof.
  revert l0 s. induction l as [|o l IH]; intros l0 s H T.
  - exists s. split; [reflexivity|]. rewrite app_nil_r. exact H.
  - cbn [try_history] in T. apply andb_true_iff in T. destruct T as [A T]. destruct (step true s o) as [s2| | |] eqn:R; try discriminate.
    destruct (IH (l0 ++ [o]) s2 (history_step true _ _ _ _ H (allowedb_sound _ _ A) R) T) as (s' & R' & H'). exists s'. cbn [run]. rewrite R. split; [exact R'|]. rewrite <- app_assoc in H'. exact H'.
Qed.
Example C25_case : exists s, history true C25_ops s /\ null s 0 /\ ~ live_deed s 5 /\ ~ live_target s 1.
Proof.
  destruct (try_history_sound [] st_empty C25_ops (history_nil true) ltac:(vm_compute; reflexivity)) as (s & R & H). exists s. split; [exact H|].
  assert (Q : match run true st_empty C25_ops with Ok s => d_get true s 0 = Ok None /\ deeds s 5 = None /\ targets s 1 = None | _ => False end) by (vm_compute; auto).
  rewrite R in Q. destruct Q as (Q1 & Q2 & Q3). split; [exact Q1|]. split; intros L; contradiction.
Qed.
(** A state in which the deed is lent and one where it holds its target. *)
Example C25_case_lent : exists s, run true st_empty [TNew 0; DMake 0 0; DLend 1 2 0] = Ok s /\ lent s 0 /\ holds s 1 0 /\ borrowed_from s 1 0 /\ step true s (DReturn 0) = AssertFail.
Proof. eexists. split; [reflexivity|]. split; [eexists; reflexivity|]. split; [reflexivity|]. split; [eexists; reflexivity|reflexivity]. Qed.
