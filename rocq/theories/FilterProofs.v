(** The filters compute the boolean operation and a sound and tight
    may-change flag. *)
From Coq Require Import ZArith List Bool Lia ZifyBool.
From Verif Require Import FilterModel FilterSpec.
Import ListNotations.
Open Scope Z_scope.

(** A result (b, c) is right for proposition [A] about windings. *)
Definition right (infos : list cinfo) (A : winding -> Prop) (r : bool * bool) : Prop :=
  (fst r = true <-> A (winding_of infos)) /\
  (snd r = false -> forall w, below infos w -> (A w <-> A (winding_of infos))).
Lemma right_ext infos A B r : (forall w, A w <-> B w) -> right infos A r -> right infos B r.
Proof.
  intros E [H1 H2]. split; [rewrite H1; apply E|]. intros S w W. rewrite <- !E. apply H2; assumption.
Qed.
Lemma below_refl infos : below infos (winding_of infos).
Proof. intros id _. reflexivity. Qed.
(** The stable truth value. *)
Lemma right_stable infos A r w : right infos A r -> snd r = false -> below infos w -> (A w <-> fst r = true).
Proof. intros [H1 H2] S W. rewrite (H2 S w W). symmetry. exact H1. Qed.
Lemma right_intro infos A r : (fst r = true <-> A (winding_of infos)) -> (snd r = false -> forall w, below infos w -> (A w <-> fst r = true)) -> right infos A r.
Proof. intros H1 H2. split; [exact H1|]. intros S w W. rewrite (H2 S w W). exact H1. Qed.
Lemma right_inter infos A B r1 r2 : right infos A r1 -> right infos B r2 -> right infos (fun w => A w /\ B w) (inter_result r1 r2).
Proof.
  intros R1 R2. apply right_intro; unfold inter_result; cbn [fst snd].
  - destruct R1 as [<- _], R2 as [<- _]. apply andb_true_iff.
  - intros S w W. pose proof (fun s => right_stable infos A r1 w R1 s W) as S1. pose proof (fun s => right_stable infos B r2 w R2 s W) as S2.
    rewrite andb_true_iff. destruct r1 as [[|] [|]], r2 as [[|] [|]]; cbn [fst snd] in *; try discriminate S; try (specialize (S1 eq_refl)); try (specialize (S2 eq_refl)); intuition discriminate.
Qed.
Lemma right_union infos A B r1 r2 : right infos A r1 -> right infos B r2 -> right infos (fun w => A w \/ B w) (union_result r1 r2).
Proof.
  intros R1 R2. apply right_intro; unfold union_result; cbn [fst snd].
  - destruct R1 as [<- _], R2 as [<- _]. apply orb_true_iff.
  - intros S w W. pose proof (fun s => right_stable infos A r1 w R1 s W) as S1. pose proof (fun s => right_stable infos B r2 w R2 s W) as S2.
    rewrite orb_true_iff. destruct r1 as [[|] [|]], r2 as [[|] [|]]; cbn [fst snd] in *; try discriminate S; try (specialize (S1 eq_refl)); try (specialize (S2 eq_refl)); intuition discriminate.
Qed.
Lemma right_xor infos A B r1 r2 : right infos A r1 -> right infos B r2 -> right infos (fun w => ~ (A w <-> B w)) (xor_result r1 r2).
Proof.
  intros R1 R2. apply right_intro; unfold xor_result; cbn [fst snd].
  - destruct R1 as [<- _], R2 as [<- _]. destruct (fst r1), (fst r2); cbn; intuition discriminate.
  - intros S w W. apply orb_false_iff in S. destruct S as [S1 S2]. rewrite (right_stable infos A r1 w R1 S1 W), (right_stable infos B r2 w R2 S2 W).
    destruct (fst r1), (fst r2); cbn; intuition discriminate.
Qed.
(** A single id. *)
Lemma may_move_iff infos id : may_move infos id <-> has_polygons (nth id infos ci_empty) = true.
Proof. unfold may_move, has_polygons. destruct (interior _), (border _); cbn; split; intros H; try reflexivity; try discriminate; [destruct H; contradiction|right; discriminate|left; discriminate|left; discriminate]. Qed.
Lemma id_result_in test infos id : (id < length infos)%nat -> id_result test infos id = (test (winding_of infos id), has_polygons (nth id infos ci_empty)).
Proof. intros H. unfold id_result, winding_of. rewrite (nth_error_nth' infos ci_empty H). reflexivity. Qed.
Lemma id_result_out test infos id : (length infos <= id)%nat -> id_result test infos id = (false, false).
Proof. intros H. unfold id_result. apply nth_error_None in H. rewrite H. reflexivity. Qed.
Lemma right_id (test : Z -> bool) (A : Z -> Prop) infos id : (forall z, test z = true <-> A z) -> (id < length infos)%nat \/ ~ A 0 ->
  right infos (fun w => A (w id)) (id_result test infos id).
Proof.
  intros T H. apply right_intro.
  - destruct (Nat.lt_ge_cases id (length infos)) as [L|L].
    + rewrite (id_result_in test infos id L). apply T.
    + rewrite (id_result_out test infos id L). unfold winding_of. rewrite nth_overflow by exact L. cbn [fst ci_empty pwn]. destruct H; [lia|]. intuition discriminate.
  - destruct (Nat.lt_ge_cases id (length infos)) as [L|L].
    + rewrite (id_result_in test infos id L). cbn [fst snd]. intros S w W. rewrite (W id); [symmetry; apply T|]. rewrite may_move_iff. congruence.
    + rewrite (id_result_out test infos id L). cbn [fst snd]. intros _ w W. rewrite (W id).
      * unfold winding_of. rewrite nth_overflow by exact L. cbn [ci_empty pwn]. destruct H; [lia|]. intuition discriminate.
      * rewrite may_move_iff, nth_overflow by exact L. discriminate.
Qed.
Lemma test_positive_spec z : test_positive z = true <-> 0 < z.
Proof. unfold test_positive. lia. Qed.
Lemma test_nonnegative_spec z : test_nonnegative z = true <-> 0 <= z.
Proof. unfold test_nonnegative. lia. Qed.
Lemma test_odd_spec z : test_odd z = true <-> Z.Odd z.
Proof.
  unfold test_odd. rewrite <- Z.odd_spec. change 1 with (Z.ones 1) at 1. rewrite Z.land_ones by lia. change (2 ^ 1) with 2.
  rewrite Zmod_odd. destruct (Z.odd z); cbn; intuition discriminate.
Qed.
(** The folds over id lists. *)
Lemma right_inter_fold (test : Z -> bool) (A : Z -> Prop) infos ids : (forall z, test z = true <-> A z) -> (forall id, In id ids -> (id < length infos)%nat) \/ ~ A 0 ->
  forall B r, right infos B r -> right infos (fun w => B w /\ forall id, In id ids -> A (w id)) (fold_left (fun t id => inter_result t (id_result test infos id)) ids r).
Proof.
  intros T. induction ids as [|id ids IH]; intros H B r R; cbn [fold_left].
  - apply right_ext with (2 := R). intros w. cbn [In]. tauto.
  - apply right_ext with (A := fun w => (B w /\ A (w id)) /\ forall i, In i ids -> A (w i)).
    + intros w. cbn [In]. split; [intros [[X Y] Z]; split; [exact X|]; intros i [<-|I]; auto|intros [X Y]; auto].
    + apply IH; [destruct H as [H|H]; [left; intros i I; apply H; right; exact I|right; exact H]|].
      apply (right_inter infos B (fun w => A (w id))); [exact R|]. apply right_id; [exact T|]. destruct H as [H|H]; [left; apply H; left; reflexivity|right; exact H].
Qed.
Lemma right_union_fold (test : Z -> bool) (A : Z -> Prop) infos ids : (forall z, test z = true <-> A z) -> ~ A 0 ->
  forall B r, right infos B r -> right infos (fun w => B w \/ exists id, In id ids /\ A (w id)) (fold_left (fun t id => union_result t (id_result test infos id)) ids r).
Proof.
  intros T H. induction ids as [|id ids IH]; intros B r R; cbn [fold_left].
  - apply right_ext with (2 := R). intros w. cbn [In]. split; [tauto|]. intros [X|(i & [] & _)]. exact X.
  - apply right_ext with (A := fun w => (B w \/ A (w id)) \/ exists i, In i ids /\ A (w i)).
    + intros w. cbn [In]. split; [intros [[X|X]|(i & I & X)]|intros [X|(i & [<-|I] & X)]]; eauto.
    + apply IH. apply (right_union infos B (fun w => A (w id))); [exact R|]. apply right_id; [exact T|right; exact H].
Qed.
Lemma right_const infos (b : bool) : right infos (fun _ => b = true) (b, false).
Proof. apply right_intro; cbn [fst]; tauto. Qed.

Lemma eval_right f infos : covered f (length infos) -> right infos (inside f) (eval f infos).
Proof.
  induction f as [id|id|id|f IHf g IHg|f IHf g IHg|f IHf g IHg|f IHf g IHg|ids|ids|ids]; cbn [covered eval inside]; intros C.
  - apply right_id; [apply test_positive_spec|right; lia].
  - apply right_id; [apply test_nonnegative_spec|left; exact C].
  - apply right_id; [apply test_odd_spec|right; intros [k K]; lia].
  - apply right_inter; tauto.
  - apply right_union; tauto.
  - apply right_inter; tauto.
  - apply right_xor; tauto.
  - apply right_ext with (A := fun w => false = true \/ exists id, In id ids /\ 0 < w id); [intros w; intuition discriminate|].
    apply (right_union_fold test_positive (fun z => 0 < z)); [apply test_positive_spec|lia|apply right_const].
  - apply right_ext with (A := fun w => true = true /\ forall id, In id ids -> 0 < w id); [intros w; intuition|].
    apply (right_inter_fold test_positive (fun z => 0 < z)); [apply test_positive_spec|right; lia|apply right_const].
  - destruct ids as [|id0 ids].
    + apply right_ext with (A := fun w => false = true); [intros w; intuition discriminate|]. apply right_const.
    + destruct (Nat.leb_spec (length infos) id0) as [L|L].
      * apply right_intro; cbn [fst snd].
        -- unfold winding_of at 1. rewrite (nth_overflow _ _ L). cbn [pwn ci_empty]. split; [discriminate|lia].
        -- intros _ w W. rewrite (W id0); [unfold winding_of; rewrite (nth_overflow _ _ L); cbn [pwn ci_empty]; split; [lia|discriminate]|].
           rewrite may_move_iff, (nth_overflow _ _ L). discriminate.
      * destruct C as [C|[-> C]]; [lia|].
        apply (right_inter_fold test_nonnegative (fun z => 0 <= z)); [apply test_nonnegative_spec|left; exact C|].
        apply (right_id test_positive (fun z => 0 < z)); [apply test_positive_spec|right; lia].
Qed.

(** ** The flag is tight when no id is used twice *)
Definition reach (infos : list cinfo) (A : winding -> Prop) : Prop := exists w, below infos w /\ A w.
Definition local (S : list nat) (A : winding -> Prop) : Prop := forall w w', (forall id, In id S -> w id = w' id) -> A w -> A w'.
Definition tight (infos : list cinfo) (A : winding -> Prop) (r : bool * bool) : Prop :=
  snd r = true -> reach infos A /\ reach infos (fun w => ~ A w).
Lemma local_not S A : local S A -> local S (fun w => ~ A w).
Proof. intros L w w' E N H. apply N. apply (L w' w); [|exact H]. intros id I. symmetry. apply E, I. Qed.
Lemma reach_both infos S T A B : local S A -> local T B -> (forall id, In id S -> In id T -> False) -> reach infos A -> reach infos B -> reach infos (fun w => A w /\ B w).
Proof.
  intros LA LB D (w1 & W1 & H1) (w2 & W2 & H2). exists (fun id => if in_dec Nat.eq_dec id S then w1 id else w2 id). split.
  - intros id N. destruct (in_dec _ _ _); [apply W1, N|apply W2, N].
  - split.
    + apply (LA w1); [|exact H1]. intros id I. destruct (in_dec _ _ _); [reflexivity|contradiction].
    + apply (LB w2); [|exact H2]. intros id I. destruct (in_dec Nat.eq_dec id S) as [J|J]; [destruct (D id J I)|reflexivity].
Qed.
Lemma can_be_true infos A r : right infos A r -> tight infos A r -> fst r = true \/ snd r = true -> reach infos A.
Proof. intros [R _] T [H|H]; [exists (winding_of infos); split; [apply below_refl|apply R, H]|apply T, H]. Qed.
Lemma can_be_false infos A r : right infos A r -> tight infos A r -> fst r = false \/ snd r = true -> reach infos (fun w => ~ A w).
Proof. intros [R _] T [H|H]; [exists (winding_of infos); split; [apply below_refl|intros X; apply R in X; congruence]|apply T, H]. Qed.
Lemma reach_weaken infos (A B : winding -> Prop) : (forall w, A w -> B w) -> reach infos A -> reach infos B.
Proof. intros H (w & W & X). exists w. split; [exact W|apply H, X]. Qed.
Lemma tight_ext infos A B r : (forall w, A w <-> B w) -> tight infos A r -> tight infos B r.
Proof. intros E T S. destruct (T S) as [X Y]. split; [apply (reach_weaken infos A); [apply E|exact X]|apply (reach_weaken infos (fun w => ~ A w)); [intros w H N; apply H, E, N|exact Y]]. Qed.
Section Two.
  Context (infos : list cinfo) (S T : list nat) (A B : winding -> Prop) (r1 r2 : bool * bool).
  Context (LA : local S A) (LB : local T B) (D : forall id, In id S -> In id T -> False).
  Context (RA : right infos A r1) (RB : right infos B r2) (TA : tight infos A r1) (TB : tight infos B r2).
  Lemma tight_inter : tight infos (fun w => A w /\ B w) (inter_result r1 r2).
  Proof using All.
    unfold tight, inter_result. cbn [snd]. rewrite !andb_true_iff, !orb_true_iff. intros [[H1 H2] H3]. split.
    - apply (reach_both infos S T A B LA LB D); [apply (can_be_true infos A r1 RA TA H1)|apply (can_be_true infos B r2 RB TB H2)].
    - destruct H3 as [H3|H3]; [destruct (TA H3) as [_ X]|destruct (TB H3) as [_ X]]; refine (reach_weaken infos _ _ _ X); tauto.
  Qed.
  Lemma tight_union : tight infos (fun w => A w \/ B w) (union_result r1 r2).
  Proof using All.
    unfold tight, union_result. cbn [snd]. rewrite !andb_true_iff, !orb_true_iff, !negb_true_iff. intros [[H1 H2] H3]. split.
    - destruct H3 as [H3|H3]; [destruct (TA H3) as [X _]|destruct (TB H3) as [X _]]; refine (reach_weaken infos _ _ _ X); tauto.
    - apply (reach_weaken infos (fun w => ~ A w /\ ~ B w)); [tauto|].
      apply (reach_both infos S T _ _ (local_not _ _ LA) (local_not _ _ LB) D); [apply (can_be_false infos A r1 RA TA H1)|apply (can_be_false infos B r2 RB TB H2)].
  Qed.
  Lemma tight_xor : tight infos (fun w => ~ (A w <-> B w)) (xor_result r1 r2).
  Proof using All.
    unfold tight, xor_result. cbn [snd]. rewrite !orb_true_iff. intros H.
    pose proof (reach_both infos S T A B LA LB D) as C11. pose proof (reach_both infos S T A (fun w => ~ B w) LA (local_not _ _ LB) D) as C10.
    pose proof (reach_both infos S T (fun w => ~ A w) B (local_not _ _ LA) LB D) as C01. pose proof (reach_both infos S T (fun w => ~ A w) (fun w => ~ B w) (local_not _ _ LA) (local_not _ _ LB) D) as C00.
    assert (VA : reach infos A \/ reach infos (fun w => ~ A w)) by (destruct r1 as [[|] c]; [left; apply (can_be_true infos A (true, c) RA TA); left; reflexivity|right; apply (can_be_false infos A (false, c) RA TA); left; reflexivity]).
    assert (VB : reach infos B \/ reach infos (fun w => ~ B w)) by (destruct r2 as [[|] c]; [left; apply (can_be_true infos B (true, c) RB TB); left; reflexivity|right; apply (can_be_false infos B (false, c) RB TB); left; reflexivity]).
    destruct H as [H|H]; [destruct (TA H) as [X Y]; destruct VB as [V|V]|destruct (TB H) as [X Y]; destruct VA as [V|V]]; split.
    - refine (reach_weaken infos _ _ _ (C01 Y V)). tauto.
    - refine (reach_weaken infos _ _ _ (C11 X V)). tauto.
    - refine (reach_weaken infos _ _ _ (C10 X V)). tauto.
    - refine (reach_weaken infos _ _ _ (C00 Y V)). tauto.
    - refine (reach_weaken infos _ _ _ (C10 V Y)). tauto.
    - refine (reach_weaken infos _ _ _ (C11 V X)). tauto.
    - refine (reach_weaken infos _ _ _ (C01 V X)). tauto.
    - refine (reach_weaken infos _ _ _ (C00 V Y)). tauto.
  Qed.
End Two.
Lemma tight_id (test : Z -> bool) (A : Z -> Prop) infos id yes no : A yes -> ~ A no -> tight infos (fun w => A (w id)) (id_result test infos id).
Proof.
  intros Y N S. destruct (Nat.lt_ge_cases id (length infos)) as [L|L]; [|rewrite (id_result_out test infos id L) in S; discriminate S].
  rewrite (id_result_in test infos id L) in S. cbn [snd] in S.
  assert (G : forall z, below infos (fun i => if Nat.eqb i id then z else winding_of infos i)).
  { intros z i M. destruct (Nat.eqb_spec i id) as [->|E]; [|reflexivity]. destruct M. apply may_move_iff; exact S. }
  split; eexists; (split; [apply G|]); cbn beta; rewrite Nat.eqb_refl; eassumption.
Qed.
Lemma local_id (A : Z -> Prop) id : local [id] (fun w => A (w id)).
Proof. intros w w' E H. rewrite <- (E id (or_introl eq_refl)). exact H. Qed.
Lemma local_weaken S T A : (forall id, In id S -> In id T) -> local S A -> local T A.
Proof. intros H L w w' E. apply L. intros id I. apply E, H, I. Qed.
Lemma local_and S A B : local S A -> local S B -> local S (fun w => A w /\ B w).
Proof. intros LA LB w w' E [X Y]. split; [apply (LA w w' E X)|apply (LB w w' E Y)]. Qed.
Lemma local_or S A B : local S A -> local S B -> local S (fun w => A w \/ B w).
Proof. intros LA LB w w' E [X|X]; [left; apply (LA w w' E X)|right; apply (LB w w' E X)]. Qed.
Lemma local_ext S A B : (forall w, A w <-> B w) -> local S A -> local S B.
Proof. intros E L w w' H X. apply E. apply (L w w' H), E, X. Qed.
Lemma local_sym S A : local S A -> forall w w', (forall id, In id S -> w id = w' id) -> (A w <-> A w').
Proof. intros L w w' E. split; apply L; [exact E|]. intros id I. symmetry. apply E, I. Qed.
Lemma inside_local f : local (filter_ids f) (inside f).
Proof.
  induction f as [id|id|id|f IHf g IHg|f IHf g IHg|f IHf g IHg|f IHf g IHg|ids|ids|ids]; cbn [filter_ids inside].
  1: apply (local_id (fun z => 0 < z)). 1: apply (local_id (fun z => 0 <= z)). 1: apply (local_id Z.Odd).
  1-4: apply (local_weaken _ (filter_ids f ++ filter_ids g)) in IHf; [|intros; apply in_app_iff; tauto]; apply (local_weaken _ (filter_ids f ++ filter_ids g)) in IHg; [|intros; apply in_app_iff; tauto].
  - apply local_and; assumption.
  - apply local_or; assumption.
  - apply local_and; assumption.
  - intros w w' E H. rewrite <- (local_sym _ _ IHf w w' E), <- (local_sym _ _ IHg w w' E). exact H.
  - intros w w' E (id & I & H). exists id. rewrite <- (E id I). tauto.
  - intros w w' E H id I. rewrite <- (E id I). apply H, I.
  - destruct ids as [|id0 ids]; [intros w w' _ []|]. intros w w' E [H1 H2]. split; [rewrite <- (E id0 (or_introl eq_refl)); exact H1|].
    intros id I. rewrite <- (E id (or_intror I)). apply H2, I.
Qed.
Lemma tight_inter_fold (test : Z -> bool) (A : Z -> Prop) yes no infos ids : (forall z, test z = true <-> A z) -> A yes -> ~ A no -> (forall id, In id ids -> (id < length infos)%nat) \/ ~ A 0 -> NoDup ids ->
  forall S B r, local S B -> (forall id, In id S -> In id ids -> False) -> right infos B r -> tight infos B r ->
  tight infos (fun w => B w /\ forall id, In id ids -> A (w id)) (fold_left (fun t id => inter_result t (id_result test infos id)) ids r).
Proof.
  intros T Y N. induction ids as [|id ids IH]; intros H ND S B r LB D RB TB; cbn [fold_left].
  - apply tight_ext with (2 := TB). intros w. cbn [In]. tauto.
  - inversion ND as [|x l NI ND' E]; subst. assert (RI : right infos (fun w => A (w id)) (id_result test infos id)).
    { apply right_id; [exact T|]. destruct H as [H|H]; [left; apply H; left; reflexivity|right; exact H]. }
    apply tight_ext with (A := fun w => (B w /\ A (w id)) /\ forall i, In i ids -> A (w i)).
    + intros w. cbn [In]. split; [intros [[P Q] R]; split; [exact P|]; intros i [<-|I]; auto|intros [P Q]; auto].
    + apply (IH ltac:(destruct H as [H|H]; [left; intros i I; apply H; right; exact I|right; exact H]) ND' (id :: S)).
      * apply local_and; [apply (local_weaken S); [intros; right; assumption|exact LB]|apply (local_weaken [id]); [intros i [<-|[]]; left; reflexivity|apply local_id]].
      * intros i [<-|I] J; [contradiction|]. apply (D i I). right. exact J.
      * apply (right_inter infos B (fun w => A (w id))); assumption.
      * apply (tight_inter infos S [id] B (fun w => A (w id))); try assumption; [apply local_id| |apply (tight_id test A infos id yes no); assumption].
        intros i I [<-|[]]. apply (D id I). left. reflexivity.
Qed.
Lemma tight_union_fold (test : Z -> bool) (A : Z -> Prop) yes no infos ids : (forall z, test z = true <-> A z) -> A yes -> ~ A no -> ~ A 0 -> NoDup ids ->
  forall S B r, local S B -> (forall id, In id S -> In id ids -> False) -> right infos B r -> tight infos B r ->
  tight infos (fun w => B w \/ exists id, In id ids /\ A (w id)) (fold_left (fun t id => union_result t (id_result test infos id)) ids r).
Proof.
  intros T Y N H. induction ids as [|id ids IH]; intros ND S B r LB D RB TB; cbn [fold_left].
  - apply tight_ext with (2 := TB). intros w. cbn [In]. split; [tauto|]. intros [X|(i & [] & _)]. exact X.
  - inversion ND as [|x l NI ND' E]; subst. assert (RI : right infos (fun w => A (w id)) (id_result test infos id)) by (apply right_id; [exact T|right; exact H]).
    apply tight_ext with (A := fun w => (B w \/ A (w id)) \/ exists i, In i ids /\ A (w i)).
    + intros w. cbn [In]. split; [intros [[X|X]|(i & I & X)]|intros [X|(i & [<-|I] & X)]]; eauto.
    + apply (IH ND' (id :: S)).
      * apply local_or; [apply (local_weaken S); [intros; right; assumption|exact LB]|apply (local_weaken [id]); [intros i [<-|[]]; left; reflexivity|apply local_id]].
      * intros i [<-|I] J; [contradiction|]. apply (D i I). right. exact J.
      * apply (right_union infos B (fun w => A (w id))); assumption.
      * apply (tight_union infos S [id] B (fun w => A (w id))); try assumption; [apply local_id| |apply (tight_id test A infos id yes no); assumption].
        intros i I [<-|[]]. apply (D id I). left. reflexivity.
Qed.
Lemma NoDup_split {X} (l m : list X) : NoDup (l ++ m) -> NoDup l /\ NoDup m /\ forall x, In x l -> In x m -> False.
Proof.
  induction l as [|a l IH]; cbn [app]; intros H; [repeat split; [constructor|exact H|intros x []]|].
  inversion H as [|x k NI ND E]; subst. destruct (IH ND) as (H1 & H2 & H3). rewrite in_app_iff in NI. repeat split; [constructor; tauto|exact H2|].
  intros x [<-|I] J; [tauto|apply (H3 x I J)].
Qed.
Lemma eval_tight f infos : covered f (length infos) -> NoDup (filter_ids f) -> tight infos (inside f) (eval f infos).
Proof.
  induction f as [id|id|id|f IHf g IHg|f IHf g IHg|f IHf g IHg|f IHf g IHg|ids|ids|ids]; cbn [covered eval inside filter_ids]; intros C ND.
  - apply (tight_id _ (fun z => 0 < z) infos id 1 0); lia.
  - apply (tight_id _ (fun z => 0 <= z) infos id 0 (-1)); lia.
  - apply (tight_id _ Z.Odd infos id 1 0); [exists 0; reflexivity|intros [k K]; lia].
  - apply NoDup_split in ND. destruct ND as (N1 & N2 & D), C as [C1 C2].
    apply (tight_inter infos (filter_ids f) (filter_ids g)); auto using inside_local, eval_right.
  - apply NoDup_split in ND. destruct ND as (N1 & N2 & D), C as [C1 C2].
    apply (tight_union infos (filter_ids f) (filter_ids g)); auto using inside_local, eval_right.
  - apply NoDup_split in ND. destruct ND as (N1 & N2 & D), C as [C1 C2].
    apply (tight_inter infos (filter_ids f) (filter_ids g)); auto using inside_local, eval_right.
  - apply NoDup_split in ND. destruct ND as (N1 & N2 & D), C as [C1 C2].
    apply (tight_xor infos (filter_ids f) (filter_ids g)); auto using inside_local, eval_right.
  - apply tight_ext with (A := fun w => false = true \/ exists id, In id ids /\ 0 < w id); [intros w; intuition discriminate|].
    apply (tight_union_fold test_positive (fun z => 0 < z) 1 0 infos ids test_positive_spec ltac:(cbn beta; lia) ltac:(cbn beta; lia) ltac:(cbn beta; lia) ND []); [intros w w' _ H; exact H|intros id []|apply right_const|discriminate].
  - apply tight_ext with (A := fun w => true = true /\ forall id, In id ids -> 0 < w id); [intros w; intuition|].
    apply (tight_inter_fold test_positive (fun z => 0 < z) 1 0 infos ids test_positive_spec ltac:(cbn beta; lia) ltac:(cbn beta; lia) (or_intror (Z.lt_irrefl 0)) ND []); [intros w w' _ H; exact H|intros id []|apply right_const|discriminate].
  - destruct ids as [|id0 ids]; [discriminate|]. destruct (Nat.leb_spec (length infos) id0) as [L|L]; [discriminate|]. destruct C as [C|[-> C]]; [lia|].
    inversion ND as [|x l NI ND' E]; subst.
    apply (tight_inter_fold test_nonnegative (fun z => 0 <= z) 0 (-1) infos ids test_nonnegative_spec ltac:(cbn beta; lia) ltac:(cbn beta; lia) (or_introl C) ND' [0%nat]).
    + apply (local_id (fun z => 0 < z)).
    + intros id [<-|[]]. exact NI.
    + apply (right_id test_positive (fun z => 0 < z)); [apply test_positive_spec|right; lia].
    + apply (tight_id _ (fun z => 0 < z) infos 0%nat 1 0); lia.
Qed.
