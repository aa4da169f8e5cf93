(** The order in which MakeEventPoints finishes the events, on (start?, polygon)
    pairs. *)
From Coq Require Import List ZArith QArith Arith Lia Lqa Bool Sorted FinFun Permutation.
Import ListNotations.
Open Scope Q_scope.

Notation tok := (bool * nat)%type.
Lemma tok_eq_dec (a b : tok) : {a = b} + {a <> b}.
Proof. decide equality; [apply Nat.eq_dec|apply bool_dec]. Qed.
Section Tok.
Context (n : nat) (lo hi : nat -> Q) (W : forall i, (i < n)%nat -> lo i <= hi i).
Definition key (t : tok) : Q := if fst t then lo (snd t) else hi (snd t).
Definition nz (t : tok) : Prop := fst t = true /\ lo (snd t) < hi (snd t).
Definition tless (a b : tok) : Prop := key a < key b \/ key a == key b /\ fst a = false /\ fst b = true.
Definition rel (x y : tok) : Prop := key x <= key y /\ (nz x -> key x == key y -> nz y).
Record inv (H F : list tok) : Prop := Inv {
  i_nodup : NoDup (H ++ F);
  i_range : forall t, In t (H ++ F) -> (snd t < n)%nat;
  i_ends : forall i, (i < n)%nat -> In (false, i) (H ++ F);
  i_starts : forall i, In (true, i) (H ++ F) <-> In (false, i) F;
  i_below : forall h f, In h H -> In f F -> key h <= key f;
  i_sorted : StronglySorted rel F;
  i_ties : forall h f, In h H -> In f F -> nz h -> key h == key f -> nz f;
  i_flat : forall i, In (true, i) H -> lo i == hi i -> (exists F', F = (false, i) :: F') /\ forall h, In h H -> h <> (true, i) -> fst h = true -> key h < lo i;
  i_order : forall A i B, F = A ++ (true, i) :: B -> In (false, i) B /\ (lo i == hi i -> exists B', B = (false, i) :: B') }.
Lemma inv_init : inv (map (pair false) (seq 0 n)) [].
Proof.
  assert (E : forall t, In t (map (pair false) (seq 0 n)) -> fst t = false /\ (snd t < n)%nat).
  { intros t H. apply in_map_iff in H as (i & <- & H). apply in_seq in H. cbn [fst snd]. split; [reflexivity|lia]. }
  constructor; try rewrite app_nil_r.
  - apply FinFun.Injective_map_NoDup; [intros a b X; injection X; auto|apply seq_NoDup].
  - intros t H. apply E, H.
  - intros i H. apply in_map, in_seq. lia.
  - intros i. split; [|intros []]. intros H. destruct (E _ H) as [X _]. discriminate X.
  - intros h f _ [].
  - constructor.
  - intros h f _ [].
  - intros i H. destruct (E _ H) as [X _]. discriminate X.
  - intros [|a A] i B X; discriminate X.
Qed.
(** One round. *)
Definition tstep (t : tok) (H H' : list tok) : Prop :=
  exists A B, H = A ++ t :: B /\ H' = A ++ B.
Lemma step_in t H H' h : tstep t H H' -> In h H <-> h = t \/ In h H'.
Proof. intros (A & B & -> & ->). rewrite !in_app_iff. cbn [In]. intuition. Qed.
Lemma order_cons t F : (forall A i B, F = A ++ (true, i) :: B -> In (false, i) B /\ (lo i == hi i -> exists B', B = (false, i) :: B')) ->
  (forall i, t = (true, i) -> In (false, i) F /\ (lo i == hi i -> exists F', F = (false, i) :: F')) ->
  forall A i B, t :: F = A ++ (true, i) :: B -> In (false, i) B /\ (lo i == hi i -> exists B', B = (false, i) :: B').
Proof.
  intros O T [|a A] i B X; cbn [app] in X.
  - inversion X; subst. apply T. reflexivity.
  - inversion X; subst. apply (O A i B). reflexivity.
Qed.
Lemma max_key t H h : (forall h, In h H -> ~ tless t h) -> In h H -> key h <= key t.
Proof. intros M I. destruct (Qlt_le_dec (key t) (key h)) as [L|L]; [|exact L]. exfalso. apply (M h I). left. exact L. Qed.
Lemma max_tie t H h : (forall h, In h H -> ~ tless t h) -> In h H -> fst t = false -> fst h = true -> key h < key t.
Proof.
  intros M I F T. pose proof (max_key t H h M I) as L. apply Qle_lteq in L as [L|L]; [exact L|]. exfalso. apply (M h I). right.
  split; [symmetry; exact L|split; assumption].
Qed.
Lemma inv_start i H H' F : inv H F -> tstep (true, i) H H' -> (forall h, In h H -> ~ tless (true, i) h) -> inv H' ((true, i) :: F).
Proof.
  intros V T M. pose proof T as (A & B & EH & EH'). pose proof (fun h => step_in _ _ _ h T) as SI.
  assert (P : forall x, In x (H' ++ (true, i) :: F) <-> In x (H ++ F)).
  { intros x. rewrite !in_app_iff, SI. cbn [In]. intuition. }
  assert (It : In (true, i) H) by (apply SI; left; reflexivity).
  assert (NT : ~ In (true, i) H').
  { pose proof (i_nodup _ _ V) as N. rewrite EH, <- app_assoc in N. cbn [app] in N. apply NoDup_remove_2 in N. rewrite EH'. intros X. apply N. rewrite app_assoc, in_app_iff. left. exact X. }
  constructor.
  - pose proof (i_nodup _ _ V) as N. rewrite EH, <- app_assoc in N. cbn [app] in N. rewrite EH'.
    apply (Permutation.Permutation_NoDup (l := A ++ (true, i) :: B ++ F)); [|exact N]. rewrite <- app_assoc. apply Permutation.Permutation_app_head, Permutation.Permutation_middle.
  - intros t I. apply (i_range _ _ V), P, I.
  - intros j J. apply P, (i_ends _ _ V), J.
  - intros j. rewrite P, (i_starts _ _ V). cbn [In]. split; [auto|]. intros [X|X]; [discriminate X|exact X].
  - intros h f Ih [<-|If].
    + apply (max_key _ H); [exact M|apply SI; right; exact Ih].
    + apply (i_below _ _ V); [apply SI; right; exact Ih|exact If].
  - constructor; [exact (i_sorted _ _ V)|]. apply Forall_forall. intros f If. split; [apply (i_below _ _ V); assumption|].
    intros N E. exact (i_ties _ _ V _ f It If N E).
  - intros h f Ih [<-|If] N E.
    + split; [reflexivity|]. cbn [snd]. pose proof (W i (i_range _ _ V _ (in_or_app _ _ _ (or_introl It)))) as L. cbn [snd] in L. apply Qle_lteq in L as [L|L]; [exact L|].
      destruct (i_flat _ _ V i It L) as [_ Z]. assert (Hn : h <> (true, i)) by (intros ->; exact (NT Ih)). specialize (Z h ltac:(apply SI; right; exact Ih) Hn (proj1 N)).
      unfold key at 2 in E. cbn [fst snd] in E. rewrite E in Z. exfalso. exact (Qlt_irrefl _ Z).
    + apply (i_ties _ _ V h f); [apply SI; right; exact Ih|exact If|exact N|exact E].
  - intros j Ij Z. exfalso. assert (Hn : (true, i) <> (true, j)) by (intros X; rewrite X in NT; exact (NT Ij)). assert (Ij' : In (true, j) H) by (apply SI; right; exact Ij).
    destruct (i_flat _ _ V j Ij' Z) as [_ Y]. specialize (Y _ It Hn eq_refl). apply (M _ Ij'). left. unfold key at 2. cbn [fst snd]. exact Y.
  - apply order_cons; [exact (i_order _ _ V)|]. intros j X. injection X as <-. split.
    + apply (i_starts _ _ V). apply in_or_app. left. exact It.
    + intros Z. exact (proj1 (i_flat _ _ V i It Z)).
Qed.
Lemma inv_end i H H' F : inv H F -> tstep (false, i) H H' -> (forall h, In h H -> ~ tless (false, i) h) -> inv (H' ++ [(true, i)]) ((false, i) :: F).
Proof.
  intros V T M. pose proof T as (A & B & EH & EH'). pose proof (fun h => step_in _ _ _ h T) as SI.
  assert (P : forall x, In x ((H' ++ [(true, i)]) ++ (false, i) :: F) <-> x = (true, i) \/ In x (H ++ F)).
  { intros x. rewrite !in_app_iff, SI. cbn [In]. intuition. }
  assert (It : In (false, i) H) by (apply SI; left; reflexivity).
  assert (NF : ~ In (false, i) F).
  { pose proof (i_nodup _ _ V) as N. rewrite EH, <- app_assoc in N. cbn [app] in N. apply NoDup_remove_2 in N. intros X. apply N. rewrite !in_app_iff. auto. }
  assert (NS : ~ In (true, i) (H ++ F)) by (rewrite (i_starts _ _ V); exact NF).
  assert (Hi : (i < n)%nat) by (apply (i_range _ _ V (false, i)), in_or_app; left; exact It).
  assert (IH' : forall h, In h (H' ++ [(true, i)]) -> h = (true, i) \/ In h H).
  { intros h X. apply in_app_iff in X as [X|[X|[]]]; [right; apply SI; right; exact X|left; symmetry; exact X]. }
  constructor.
  - assert (N : NoDup ((true, i) :: H ++ F)) by (constructor; [exact NS|exact (i_nodup _ _ V)]). rewrite EH in N. rewrite EH'.
    revert N. apply Permutation.Permutation_NoDup. rewrite <- !app_assoc. cbn [app]. apply (Permutation.Permutation_trans (l' := A ++ (true, i) :: (false, i) :: B ++ F)).
    + apply Permutation.Permutation_middle.
    + apply Permutation.Permutation_app_head. apply (Permutation.Permutation_trans (l' := B ++ (true, i) :: (false, i) :: F)); [|reflexivity].
      apply (Permutation.Permutation_trans (l' := (true, i) :: B ++ (false, i) :: F)).
      * constructor. apply Permutation.Permutation_middle.
      * apply Permutation.Permutation_middle.
  - intros t I. apply P in I as [->|I]; [exact Hi|apply (i_range _ _ V), I].
  - intros j J. apply P. right. apply (i_ends _ _ V), J.
  - intros j. rewrite P, (i_starts _ _ V). cbn [In]. split; (intros [X|X]; [left; injection X as X; subst; reflexivity|right; exact X]).
  - intros h f Ih If. assert (L : key h <= key (false, i)).
    { destruct (IH' h Ih) as [->|Ih']; [exact (W i Hi)|apply (max_key _ H); assumption]. }
    destruct If as [<-|If]; [exact L|]. apply (Qle_trans _ _ _ L). apply (i_below _ _ V); assumption.
  - constructor; [exact (i_sorted _ _ V)|]. apply Forall_forall. intros f If. split; [apply (i_below _ _ V); assumption|]. intros [N _]. discriminate N.
  - intros h f Ih If N E. destruct (IH' h Ih) as [->|Ih'].
    + destruct N as [_ N]. cbn [snd] in N. exfalso. unfold key at 1 in E. cbn [fst snd] in E. destruct If as [<-|If].
      * unfold key in E. cbn [fst snd] in E. lra.
      * pose proof (i_below _ _ V _ f It If) as L. unfold key at 1 in L. cbn [fst snd] in L. lra.
    + destruct If as [<-|If]; [|exact (i_ties _ _ V h f Ih' If N E)]. exfalso.
      pose proof (max_tie _ _ h M Ih' eq_refl (proj1 N)) as L. rewrite E in L. exact (Qlt_irrefl _ L).
  - intros j Ij Z. destruct (IH' _ Ij) as [X|Ij'].
    + injection X as ->. split; [exists F; reflexivity|]. intros h Ih Hn S. destruct (IH' _ Ih) as [->|Ih']; [congruence|].
      pose proof (max_tie _ _ h M Ih' eq_refl S) as L. unfold key at 2 in L. cbn [fst snd] in L. lra.
    + exfalso. destruct (i_flat _ _ V j Ij' Z) as [[F' EF] _]. pose proof (max_tie _ _ _ M Ij' eq_refl eq_refl) as L.
      pose proof (i_below _ _ V (false, i) (false, j) It ltac:(rewrite EF; left; reflexivity)) as L2. unfold key in L, L2. cbn [fst snd] in L, L2. lra.
  - apply order_cons; [exact (i_order _ _ V)|]. intros j X. discriminate X.
Qed.

(** Sizes. *)
Definition all_toks : list tok := map (pair true) (seq 0 n) ++ map (pair false) (seq 0 n).
Lemma all_length : length all_toks = (2 * n)%nat.
Proof. unfold all_toks. rewrite app_length, !map_length, seq_length. lia. Qed.
Lemma in_all (t : tok) : (snd t < n)%nat -> In t all_toks.
Proof. destruct t as [b i]. cbn [snd]. intros H. unfold all_toks. apply in_app_iff. destruct b; [left|right]; apply in_map, in_seq; lia. Qed.
Lemma size_le (L : list tok) : NoDup L -> (forall t, In t L -> (snd t < n)%nat) -> (length L <= 2 * n)%nat.
Proof. intros N R. rewrite <- all_length. apply NoDup_incl_length; [exact N|]. intros t I. apply in_all, R, I. Qed.
Lemma inv_size H F : inv H F -> (length H + length F <= 2 * n)%nat.
Proof. intros V. rewrite <- app_length. apply size_le; [exact (i_nodup _ _ V)|exact (i_range _ _ V)]. Qed.
Lemma inv_size_end i H F : inv H F -> In (false, i) H -> (length H + length F < 2 * n)%nat.
Proof.
  intros V I. assert (NF : ~ In (false, i) F).
  { intros X. apply in_split in I as (A & B & ->). pose proof (i_nodup _ _ V) as N. rewrite <- app_assoc in N. cbn [app] in N. apply NoDup_remove_2 in N. apply N. rewrite !in_app_iff. auto. }
  rewrite <- app_length. apply (size_le ((true, i) :: H ++ F)).
  - constructor; [rewrite (i_starts _ _ V); exact NF|exact (i_nodup _ _ V)].
  - intros t [<-|X]; [|exact (i_range _ _ V t X)]. cbn [snd]. apply (i_range _ _ V (false, i)), in_or_app. left. exact I.
Qed.
Lemma inv_nonempty H F : inv H F -> (length F < 2 * n)%nat -> H <> [].
Proof.
  intros V L ->. assert (incl all_toks F).
  { assert (E : forall i, (i < n)%nat -> In (false, i) F) by (intros i X; exact (i_ends _ _ V i X)).
    intros [b i] I. unfold all_toks in I. apply in_app_iff in I as [I|I]; apply in_map_iff in I as (j & X & I); apply in_seq in I; injection X as <- <-.
    - apply (i_starts _ _ V). apply E. lia.
    - apply E. lia. }
  assert (N : NoDup all_toks).
  { unfold all_toks. apply (Permutation.Permutation_NoDup (Permutation.Permutation_refl _)).
    assert (Nb : forall b, NoDup (map (pair b) (seq 0 n) : list tok)) by (intros b; apply FinFun.Injective_map_NoDup; [intros x y X; injection X; auto|apply seq_NoDup]).
    assert (D : forall A B : list tok, NoDup A -> NoDup B -> (forall x, In x A -> ~ In x B) -> NoDup (A ++ B)).
    { induction A as [|a A IHA]; intros B NA NB D; [exact NB|]. inversion NA; subst. cbn [app]. constructor.
      - rewrite in_app_iff. intros [X|X]; [contradiction|]. exact (D a (or_introl eq_refl) X).
      - apply IHA; [assumption|assumption|]. intros x Ix. apply D. right. exact Ix. }
    apply D; [apply Nb|apply Nb|]. intros x A B. apply in_map_iff in A as (? & <- & _), B as (? & X & _). discriminate X. }
  pose proof (NoDup_incl_length N H) as X. rewrite all_length in X. lia.
Qed.
End Tok.
