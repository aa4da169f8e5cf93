(** Property C20: boolean operation filters. *)
From Coq Require Import ZArith List Bool Lia.
From Verif Require Import FilterModel FilterSpec FilterProofs.
Import ListNotations.
Open Scope Z_scope.

Theorem C20_inside : forall f infos, covered f (length infos) -> (fst (eval f infos) = true <-> inside f (winding_of infos)).
Proof. intros f infos C. apply (eval_right f infos C). Qed.
Print Assumptions C20_inside.
(** Pruning is sound: without the may-change flag, no winding numbers a point
    below the node can have change the answer. *)
Theorem C20_prune_sound : forall f infos w, covered f (length infos) -> snd (eval f infos) = false -> below infos w ->
  (inside f w <-> fst (eval f infos) = true).
Proof. intros f infos w C S B. apply (right_stable infos (inside f) _ w (eval_right f infos C) S B). Qed.
Print Assumptions C20_prune_sound.
(** The same for the filter's own answer at a descendant. *)
Theorem C20_prune_descendants : forall f infos infos', covered f (length infos) -> covered f (length infos') ->
  snd (eval f infos) = false -> below infos (winding_of infos') -> fst (eval f infos') = fst (eval f infos).
Proof.
  intros f infos infos' C C' S B. pose proof (C20_inside f infos' C') as H1. pose proof (C20_prune_sound f infos _ C S B) as H2.
  destruct (fst (eval f infos')), (fst (eval f infos)); intuition.
Qed.
Print Assumptions C20_prune_descendants.
(** Descending is never needless: with the flag set, both answers are possible
    (for operations that use no id twice). *)
Theorem C20_prune_tight : forall f infos, covered f (length infos) -> NoDup (filter_ids f) -> snd (eval f infos) = true ->
  (exists w, below infos w /\ inside f w) /\ (exists w, below infos w /\ ~ inside f w).
Proof. intros f infos C N S. apply (eval_tight f infos C N S). Qed.
Print Assumptions C20_prune_tight.
Example C20_case :
  let f := FSub (FUnion (FPoly 0) (FOdd 1)) (FInv 2) in
  let infos := [CI 0 0 1; CI 2 0 3; CI 0 0 (-1)] in
  covered f (length infos) /\ NoDup (filter_ids f) /\ eval f infos = (false, false) /\
  eval f [CI 0 0 1; CI 2 0 3; CI 0 1 (-1)] = (false, true) /\
  eval (FSubIds [0; 1; 2]%nat) [CI 1 0 1; CI 0 0 0; CI 0 0 0] = (true, true) /\
  below infos (winding_of [CI 0 0 1; CI 0 0 2; CI 0 0 (-1)]).
Proof.
  cbn zeta. split; [cbn; auto|]. split; [repeat constructor; cbn; intuition discriminate|]. split; [reflexivity|]. split; [reflexivity|]. split; [reflexivity|].
  intros id M. destruct id as [|[|[|id]]]; try reflexivity. destruct M. left. discriminate.
Qed.

(** An id without an entry has winding number 0, which the inverted filter
    accepts, but the code rejects it. *)
Theorem C20_inverted_unknown_id_refuted : forall id infos, (length infos <= id)%nat ->
  inside (FInv id) (winding_of infos) /\ eval (FInv id) infos = (false, false).
Proof.
  intros id infos L. split; [|apply id_result_out, L]. cbn [inside]. unfold winding_of. rewrite nth_overflow by exact L. cbn. lia.
Qed.
Print Assumptions C20_inverted_unknown_id_refuted.
(** SubtractIdsFilter rejects every point when an id to subtract has no entry,
    for example because nothing was added for it. *)
Theorem C20_subtract_unknown_id_refuted : forall id0 ids id infos, In id ids -> (length infos <= id)%nat ->
  fst (eval (FSubIds (id0 :: ids)) infos) = false.
Proof.
  intros id0 ids id infos I L. cbn [eval]. destruct (Nat.leb (length infos) id0); [reflexivity|]. generalize (id_result test_positive infos 0). revert I.
  induction ids as [|a ids IH]; intros I r; [destruct I|]. cbn [fold_left]. destruct I as [->|I]; [|apply (IH I)].
  rewrite (id_result_out _ _ _ L). assert (G : forall l t, fst t = false -> fst (fold_left (fun t id => inter_result t (id_result test_nonnegative infos id)) l t) = false).
  { induction l as [|b l IHl]; intros t H; [exact H|]. cbn [fold_left]. apply IHl. unfold inter_result. cbn [fst]. rewrite H. reflexivity. }
  apply G. unfold inter_result. cbn [fst]. apply andb_false_r.
Qed.
Print Assumptions C20_subtract_unknown_id_refuted.
Example C20_subtract_unknown_id_case :
  inside (FSubIds [0; 1]%nat) (winding_of [CI 1 0 1]) /\ eval (FSubIds [0; 1]%nat) [CI 1 0 1] = (false, false).
Proof. split; [|reflexivity]. cbn. split; [lia|]. intros id [<-|[]]. cbn. lia. Qed.
(** SubtractIdsFilter never looks at its first id: it behaves as if it were 0,
    so with any other first id some tables get the wrong answer both ways. *)
Theorem C20_subtract_first_id_refuted : forall id0 ids, id0 <> 0%nat -> ~ In id0 ids ->
  (forall infos, (id0 < length infos)%nat -> eval (FSubIds (id0 :: ids)) infos = eval (FSubIds (0%nat :: ids)) infos) /\
  (exists infos, (forall id, In id (id0 :: ids) -> (id < length infos)%nat) /\ inside (FSubIds (id0 :: ids)) (winding_of infos) /\ fst (eval (FSubIds (id0 :: ids)) infos) = false) /\
  (exists infos, (forall id, In id (id0 :: ids) -> (id < length infos)%nat) /\ ~ inside (FSubIds (id0 :: ids)) (winding_of infos) /\ fst (eval (FSubIds (id0 :: ids)) infos) = true).
Proof.
  intros id0 ids N0 NI. split.
  { intros infos L. cbn [eval]. destruct (Nat.leb_spec (length infos) id0); [lia|]. destruct (Nat.leb_spec (length infos) 0); [lia|]. reflexivity. }
  assert (G : forall b : bool, exists infos, (forall id, In id (id0 :: ids) -> (id < length infos)%nat) /\ (forall id, In id ids -> 0 <= winding_of infos id) /\
            winding_of infos id0 = (if b then 1 else 0) /\ winding_of infos 0%nat = (if b then 0 else 1)).
  { intros b. set (n := S (list_max (id0 :: ids))). exists (map (fun i => CI 0 0 (if Nat.eqb i id0 then if b then 1 else 0 else if Nat.eqb i 0 then if b then 0 else 1 else 0)) (seq 0 n)).
    assert (LT : forall id, In id (id0 :: ids) -> (id < n)%nat).
    { intros id I. unfold n. pose proof (list_max_le (id0 :: ids) (list_max (id0 :: ids))) as [M _]. specialize (M (le_n _)). rewrite Forall_forall in M. specialize (M id I). lia. }
    assert (W : forall i, (i < n)%nat -> winding_of (map (fun i => CI 0 0 (if Nat.eqb i id0 then if b then 1 else 0 else if Nat.eqb i 0 then if b then 0 else 1 else 0)) (seq 0 n)) i
              = if Nat.eqb i id0 then if b then 1 else 0 else if Nat.eqb i 0 then if b then 0 else 1 else 0).
    { intros i Hi. unfold winding_of. rewrite (nth_indep _ ci_empty (CI 0 0 (if Nat.eqb 0 id0 then if b then 1 else 0 else if Nat.eqb 0 0 then if b then 0 else 1 else 0))) by (rewrite map_length, seq_length; exact Hi).
      rewrite (map_nth (fun i => CI 0 0 (if Nat.eqb i id0 then if b then 1 else 0 else if Nat.eqb i 0 then if b then 0 else 1 else 0)) (seq 0 n) 0%nat). rewrite seq_nth by exact Hi. reflexivity. }
    split; [intros id I; rewrite map_length, seq_length; apply LT, I|]. split.
    - intros id I. rewrite W by (apply LT; right; exact I). destruct (Nat.eqb_spec id id0), (Nat.eqb_spec id 0), b; lia.
    - rewrite !W by (first [apply LT; left; reflexivity|unfold n; lia]). rewrite Nat.eqb_refl. destruct (Nat.eqb_spec 0 id0); [congruence|]. cbn [Nat.eqb]. destruct b; split; reflexivity. }
  split.
  - destruct (G true) as (infos & LT & W1 & W2 & W3). exists infos. split; [exact LT|]. split.
    + cbn [inside]. split; [rewrite W2; lia|exact W1].
    + assert (L0 : (0 < length infos)%nat) by (specialize (LT id0 (or_introl eq_refl)); lia).
      cbn [eval]. destruct (Nat.leb_spec (length infos) id0); [reflexivity|].
      pose proof (right_inter_fold test_nonnegative (fun z => 0 <= z) infos ids test_nonnegative_spec (or_introl (fun i I => LT i (or_intror I))) _ _
        (right_id test_positive (fun z => 0 < z) infos 0%nat test_positive_spec (or_introl L0))) as [R _].
      apply not_true_is_false. rewrite R, W3. lia.
  - destruct (G false) as (infos & LT & W1 & W2 & W3). exists infos. split; [exact LT|]. split.
    + cbn [inside]. rewrite W2. lia.
    + assert (L0 : (0 < length infos)%nat) by (specialize (LT id0 (or_introl eq_refl)); lia).
      cbn [eval]. destruct (Nat.leb_spec (length infos) id0) as [L|L]; [specialize (LT id0 (or_introl eq_refl)); lia|].
      pose proof (right_inter_fold test_nonnegative (fun z => 0 <= z) infos ids test_nonnegative_spec (or_introl (fun i I => LT i (or_intror I))) _ _
        (right_id test_positive (fun z => 0 < z) infos 0%nat test_positive_spec (or_introl L0))) as [R _].
      apply R. split; [rewrite W3; lia|exact W1].
Qed.
Print Assumptions C20_subtract_first_id_refuted.
