(** ApplyPrimary with operations that fail less often, and without assertions. *)
From Coq Require Import List Bool Arith ZArith Lia.
From Verif Require Import BigUIntModel GeoModel EvtModel PrimModel.
Import ListNotations.
Open Scope nat_scope.

(** r' has every result of r. *)
Definition res_le {A} (r r' : res A) : Prop := forall a, r = Ok a -> r' = Ok a.
Lemma res_le_refl {A} (r : res A) : res_le r r. Proof. intros a E. exact E. Qed.
Lemma res_le_bind {A B} (r r' : res A) (f f' : A -> res B) : res_le r r' -> (forall a, res_le (f a) (f' a)) -> res_le (rbind r f) (rbind r' f').
Proof. intros H F b. destruct r as [a| | |] eqn:E; try discriminate. rewrite (H a eq_refl). cbn [rbind]. apply F. Qed.
Lemma res_le_check dbg c : res_le (check dbg c) (check false c).
Proof. intros [] _. unfold check. reflexivity. Qed.
Lemma res_le_location dbg arr ps e : res_le (ev_location dbg arr ps e) (ev_location false arr ps e).
Proof.
  unfold ev_location. destruct (ev_start e); [|apply res_le_refl]. destruct (arr (ev_index e)); [|apply res_le_refl]. apply res_le_bind; [apply res_le_check|intros _]. apply res_le_bind; [apply res_le_check|intros _; apply res_le_refl].
Qed.
Lemma res_le_split_plane dbg d ps evs p : res_le (split_plane dbg d ps evs p) (split_plane false d ps evs p).
Proof. unfold split_plane. destruct (nth_error _ _); [|apply res_le_refl]. apply res_le_bind; [apply res_le_check|intros _]. apply res_le_bind; [apply res_le_location|intros a; apply res_le_refl]. Qed.
Lemma res_le_walk_down dbg evs : forall k neg border, res_le (walk_down dbg evs k neg border) (walk_down false evs k neg border).
Proof.
  induction k as [|k IH]; intros neg border; cbn [walk_down]; (destruct (nth_error evs _); [|apply res_le_refl]); (destruct (ev_new _); [apply res_le_refl|]); (apply res_le_bind; [apply res_le_check|intros _]); [apply res_le_refl|].
  destruct (nth_error evs k); [|apply res_le_refl]. destruct (ev_start _); apply IH.
Qed.
Lemma res_le_discount dbg n evs p : res_le (discount dbg n evs p) (discount false n evs p).
Proof. unfold discount. apply res_le_bind; [apply res_le_walk_down|intros a; apply res_le_refl]. Qed.

Section Mono.
Context {P : Type} (O O' : pops P) (V : forall r, o_view O' r = o_view O r) (Dn : forall r, o_down O' r = o_down O r)
  (Bo : forall b r, res_le (o_border O b r) (o_border O' b r)) (To : forall b r, res_le (o_touch O b r) (o_touch O' b r)) (Sp : forall r, res_le (o_split O r) (o_split O' r)).
Ltac go := repeat (first [apply res_le_refl | apply res_le_check | apply Bo | apply To | apply Sp | apply res_le_bind; [|intros ?]]).
Lemma start_border_mono q r e s : res_le (start_border O q r e s) (start_border O' q r e s).
Proof using Dn Bo. unfold start_border. rewrite Dn. go. Qed.
Lemma start_pos_mono p i q r e s : res_le (start_pos O p i q r e s) (start_pos O' p i q r e s).
Proof using To. unfold start_pos. go. destruct (_ <? _); go. Qed.
Lemma start_both_mono dbg ps p q r e s : res_le (start_both O dbg ps p q r e s) (start_both O' false ps p q r e s).
Proof using Sp. unfold start_both. go. Qed.
Lemma start_neg_mono p q r e s : res_le (start_neg O p q r e s) (start_neg O' p q r e s).
Proof using To. unfold start_neg. go. destruct (_ <=? _); go. Qed.
Lemma start_mono dbg h ps p i w s : res_le (start_event O dbg h ps p i w s) (start_event O' false h ps p i w s).
Proof using V Dn Bo To Sp.
  unfold start_event. apply res_le_bind; [apply res_le_refl|intros e]. apply res_le_bind; [apply res_le_refl|intros f]. apply res_le_bind; [apply res_le_refl|intros q]. apply res_le_bind; [apply res_le_refl|intros r]. rewrite V. apply res_le_bind; [apply res_le_check|intros _].
  destruct (p_begin p <=? i); [destruct (e <? p_end p); [apply start_border_mono|apply start_pos_mono]|destruct (negb _); [apply start_both_mono|apply start_neg_mono]].
Qed.
Lemma end_mono dbg ps p w (s : pstate P) : res_le (end_event dbg ps p w s) (end_event false ps p w s).
Proof using. unfold end_event. destruct (w_ref w); [|apply res_le_refl]. destruct (_ <? _); go. Qed.
Lemma step_mono dbg h ps p i s : res_le (prim_step O dbg h ps p i s) (prim_step O' false h ps p i s).
Proof using V Dn Bo To Sp. unfold prim_step. apply res_le_bind; [apply res_le_refl|intros w]. apply res_le_bind; [apply res_le_refl|intros s']. destruct (w_start w); [apply start_mono|apply end_mono]. Qed.
Lemma loop_mono dbg h ps p l : forall s, res_le (prim_loop O dbg h ps p l s) (prim_loop O' false h ps p l s).
Proof using V Dn Bo To Sp. induction l as [|i l IH]; intros s; cbn [prim_loop]; [apply res_le_refl|]. apply res_le_bind; [apply step_mono|exact IH]. Qed.
Theorem primary_mono dbg h ps p d evs : res_le (apply_primary O dbg h ps p d evs) (apply_primary O' false h ps p d evs).
Proof using V Dn Bo To Sp.
  assert (U : forall (r : res unit), res_le r (Ok tt)) by (intros r [] _; reflexivity).
  unfold apply_primary. apply res_le_bind; [apply res_le_check|intros _]. apply res_le_bind; [apply U|intros _]. apply res_le_bind; [apply U|intros _]. apply res_le_bind; [apply U|intros _]. apply res_le_bind; [apply loop_mono|intros s].
  apply res_le_bind; [apply res_le_check|intros _]. apply res_le_bind; [apply res_le_check|intros _]. apply res_le_bind; [apply U|intros _]. apply res_le_bind; [apply U|intros _]. apply res_le_refl.
Qed.
End Mono.
