(** Lists used by the model of ConnectEdgesInLine: the map of the active edges as
    a sorted list, its cyclic neighbours and updates of single entries. *)
From Coq Require Import List Bool Arith ZArith Lia ZifyBool Sorted Permutation.
From Verif Require Import BigUIntModel GeoModel ConnModel.
Import ListNotations.

(** ** Updates of a list at an index *)
Lemma set_nth_length {A} (l : list A) i x : (i < length l)%nat -> length (set_nth l i x) = length l.
Proof. intros H. unfold set_nth. rewrite app_length. cbn [length]. rewrite firstn_length, skipn_length. lia. Qed.
Lemma nth_set_nth {A} (l : list A) i x j : (i < length l)%nat -> nth_error (set_nth l i x) j = if (j =? i)%nat then Some x else nth_error l j.
Proof.
  revert i j. induction l as [|a l IH]; intros i j H; cbn [length] in H; [lia|].
  destruct i as [|i]; unfold set_nth in *; cbn [firstn skipn app].
  - destruct j as [|j]; reflexivity.
  - destruct j as [|j]; [reflexivity|]. cbn [nth_error Nat.eqb]. apply IH. lia.
Qed.
Lemma nth_some_lt {A} (l : list A) i x : nth_error l i = Some x -> (i < length l)%nat.
Proof. intros H. apply nth_error_Some. congruence. Qed.
Lemma nth_lt_some {A} (l : list A) i : (i < length l)%nat -> exists x, nth_error l i = Some x.
Proof. intros H. destruct (nth_error l i) eqn:E; [eauto|]. apply nth_error_None in E. lia. Qed.
Lemma nth_snoc {A} (l : list A) x j : nth_error (l ++ [x]) j = if (j =? length l)%nat then Some x else nth_error l j.
Proof.
  destruct (j =? length l)%nat eqn:E.
  - apply Nat.eqb_eq in E. subst. rewrite nth_error_app2 by lia. rewrite Nat.sub_diag. reflexivity.
  - apply Nat.eqb_neq in E. destruct (Nat.lt_ge_cases j (length l)) as [L|L].
    + apply nth_error_app1. exact L.
    + rewrite nth_error_app2 by exact L. destruct (j - length l)%nat as [|k] eqn:K; [lia|]. cbn. destruct k; symmetry; apply nth_error_None; lia.
Qed.

(** ** Entries *)
Definition ent (l : list active) (id : nat) : option active := find (fun a => (a_id a =? id)%nat) l.
Definition ids (l : list active) : list nat := map a_id l.
Lemma ent_id l id e : ent l id = Some e -> a_id e = id /\ In e l.
Proof. unfold ent. intros H. apply find_some in H. destruct H as [A B]. split; [lia|exact A]. Qed.
Lemma ent_in l id : In id (ids l) -> exists e, ent l id = Some e /\ a_id e = id.
Proof.
  induction l as [|a l IH]; [intros []|]. unfold ent, ids in *. cbn [map find In].
  intros H. destruct (a_id a =? id)%nat eqn:E; [exists a; split; [reflexivity|lia]|]. destruct H as [H|H]; [lia|]. exact (IH H).
Qed.
Lemma ent_ids l id e : ent l id = Some e -> In id (ids l).
Proof. intros H. destruct (ent_id _ _ _ H) as [<- I]. apply in_map. exact I. Qed.
Lemma ent_of_in l a : NoDup (ids l) -> In a l -> ent l (a_id a) = Some a.
Proof.
  induction l as [|b l IH]; [intros _ []|]. unfold ids, ent in *. cbn [map find In]. intros N. inversion N as [|? ? N1 N2]; subst. intros [->|I].
  - rewrite Nat.eqb_refl. reflexivity.
  - destruct (a_id b =? a_id a)%nat eqn:E; [|apply IH; assumption]. exfalso. apply N1. apply Nat.eqb_eq in E. rewrite E. apply in_map. exact I.
Qed.
Lemma get_act_ent l id e : ent l id = Some e -> get_act l id = Ok e.
Proof. unfold get_act, ent. intros ->. reflexivity. Qed.
Lemma ids_set_act l i f : (forall a, a_id (f a) = a_id a) -> ids (set_act l i f) = ids l.
Proof. intros F. unfold ids, set_act. rewrite map_map. apply map_ext. intros a. destruct (_ =? _)%nat; [apply F|reflexivity]. Qed.
Lemma ent_set_act l i f j : (forall a, a_id (f a) = a_id a) -> ent (set_act l i f) j = if (j =? i)%nat then option_map f (ent l j) else ent l j.
Proof.
  intros F. induction l as [|a l IH]; [destruct (_ =? _)%nat; reflexivity|]. unfold ent, set_act in *. cbn [map find].
  destruct (a_id a =? i)%nat eqn:E1; [rewrite F|]; destruct (a_id a =? j)%nat eqn:E2.
  - replace (j =? i)%nat with true by lia. reflexivity.
  - exact IH.
  - replace (j =? i)%nat with false by lia. reflexivity.
  - exact IH.
Qed.
Lemma ent_filter l (g : nat -> bool) j : ent (filter (fun a => g (a_id a)) l) j = if g j then ent l j else None.
Proof.
  induction l as [|a l IH]; [destruct (g j); reflexivity|]. unfold ent in *. cbn [filter find].
  destruct (g (a_id a)) eqn:E; cbn [find]; destruct (a_id a =? j)%nat eqn:E2.
  - apply Nat.eqb_eq in E2. subst j. rewrite E. reflexivity.
  - exact IH.
  - apply Nat.eqb_eq in E2. subst j. rewrite E in IH |- *. exact IH.
  - exact IH.
Qed.
Lemma ids_filter l (g : nat -> bool) : ids (filter (fun a => g (a_id a)) l) = filter g (ids l).
Proof. induction l as [|a l IH]; [reflexivity|]. unfold ids in *. cbn [filter map]. destruct (g (a_id a)); cbn [map]; rewrite IH; reflexivity. Qed.

(** ** Neighbours in a list of numbers *)
Fixpoint afteri (l : list nat) (id first : nat) : option nat :=
  match l with [] => None | a :: r => if (a =? id)%nat then Some (match r with [] => first | b :: _ => b end) else afteri r id first end.
Definition nexti (l : list nat) (id : nat) : option nat := match l with [] => None | a :: _ => afteri l id a end.
Lemma after_ids l id first : after l id first = afteri (ids l) id first.
Proof. induction l as [|a l IH]; [reflexivity|]. unfold ids in *. cbn [after afteri map]. destruct (_ =? _)%nat; [destruct l; reflexivity|exact IH]. Qed.
Lemma next_around_ids l id : next_around l id = of_option (nexti (ids l) id).
Proof. unfold next_around, nexti. destruct l as [|a l]; [reflexivity|]. rewrite after_ids. reflexivity. Qed.
Lemma prev_around_ids l id : prev_around l id = of_option (nexti (rev (ids l)) id).
Proof. unfold prev_around. rewrite next_around_ids. unfold ids. rewrite map_rev. reflexivity. Qed.

Open Scope Z_scope.
Definition by_rank (rk : nat -> Z) (l : list nat) : Prop := StronglySorted (fun a b => rk a < rk b) l.
Lemma by_rank_inj rk l a b : by_rank rk l -> In a l -> In b l -> rk a = rk b -> a = b.
Proof.
  unfold by_rank. induction 1 as [|x l S IH F]; [intros []|]. rewrite Forall_forall in F. intros [->|A] [->|B] E; auto.
  - specialize (F _ B). lia.
  - specialize (F _ A). lia.
Qed.
Lemma by_rank_nodup rk l : by_rank rk l -> NoDup l.
Proof. unfold by_rank. induction 1 as [|x l S IH F]; constructor; [|exact IH]. rewrite Forall_forall in F. intros I. specialize (F _ I). lia. Qed.
Lemma by_rank_app rk l1 l2 : by_rank rk l1 -> by_rank rk l2 -> (forall a b, In a l1 -> In b l2 -> rk a < rk b) -> by_rank rk (l1 ++ l2).
Proof.
  unfold by_rank. induction 1 as [|x l S IH F]; [auto|]. intros S2 H. cbn [app]. constructor.
  - apply IH; [exact S2|]. intros a b A B. apply H; [right; exact A|exact B].
  - apply Forall_app. split; [exact F|]. apply Forall_forall. intros b B. apply H; [left; reflexivity|exact B].
Qed.
Lemma by_rank_rev rk l : by_rank rk l -> by_rank (fun a => - rk a) (rev l).
Proof.
  induction l as [|x l IH]; intros H; [constructor|]. inversion H as [|? ? S F]; subst. cbn [rev]. apply by_rank_app.
  - exact (IH S).
  - constructor; [constructor|constructor].
  - intros a b A [->|[]]. apply in_rev in A. rewrite Forall_forall in F. specialize (F _ A). lia.
Qed.
Lemma by_rank_filter rk g l : by_rank rk l -> by_rank rk (filter g l).
Proof.
  unfold by_rank. induction 1 as [|x l S IH F]; [constructor|]. cbn [filter]. destruct (g x); [|exact IH]. constructor; [exact IH|].
  apply Forall_forall. intros b B. apply filter_In in B. rewrite Forall_forall in F. apply F. apply B.
Qed.
(** The cyclic successor. *)
Definition next_in (rk : nat -> Z) (l : list nat) (a b : nat) : Prop := In b l /\
  ((rk a < rk b /\ forall k, In k l -> rk a < rk k -> rk b <= rk k) \/ (forall k, In k l -> rk k <= rk a /\ rk b <= rk k)).
Lemma afteri_spec rk l : by_rank rk l -> forall pre first a, by_rank rk (pre ++ l) -> hd_error (pre ++ l) = Some first -> In a l ->
  exists b, afteri l a first = Some b /\ next_in rk (pre ++ l) a b.
Proof.
  induction 1 as [|x l S IH F]; [intros ? ? ? ? ? []|]. intros pre first a B Hd I. cbn [afteri]. destruct (x =? a)%nat eqn:E.
  - apply Nat.eqb_eq in E. subst x. eexists. split; [reflexivity|]. rewrite Forall_forall in F.
    assert (Pre : forall k, In k pre -> rk k < rk a).
    { clear -B. induction pre as [|y pre IH]; [intros k []|]. cbn [app] in B. inversion B as [|? ? S F]; subst. rewrite Forall_forall in F. intros k [->|K]; [apply F, in_app_iff; right; left; reflexivity|exact (IH S k K)]. }
    destruct l as [|y l].
    + split. { destruct pre; [injection Hd as <-; left; reflexivity|injection Hd as <-; left; reflexivity]. }
      right. intros k K. apply in_app_iff in K. destruct K as [K|[<-|[]]].
      * specialize (Pre _ K). split; [lia|]. destruct pre as [|z pre]; [destruct K|]. injection Hd as <-. inversion B as [|? ? S2 F2]; subst. rewrite Forall_forall in F2. destruct K as [->|K]; [lia|]. assert (rk z < rk k) by (apply F2, in_app_iff; left; exact K). lia.
      * split; [lia|]. destruct pre as [|z pre]; injection Hd as <-; [lia|]. specialize (Pre z (or_introl eq_refl)). lia.
    + split; [apply in_app_iff; right; right; left; reflexivity|]. left. split; [apply F; left; reflexivity|].
      intros k K L. apply in_app_iff in K. destruct K as [K|[<-|[->|K]]]; [specialize (Pre _ K); lia|lia|lia|].
      inversion S as [|? ? S2 F2]; subst. rewrite Forall_forall in F2. specialize (F2 _ K). lia.
  - destruct I as [I|I]; [lia|]. specialize (IH (pre ++ [x]) first a). rewrite <- app_assoc in IH. cbn [app] in IH. apply IH; assumption.
Qed.
Lemma nexti_spec rk l a : by_rank rk l -> In a l -> exists b, nexti l a = Some b /\ next_in rk l a b.
Proof.
  intros B I. unfold nexti. destruct l as [|x l]; [destruct I|]. exact (afteri_spec rk (x :: l) B [] x a B eq_refl I).
Qed.

(** [h] is met before [n] when going down from [p] and starting again at the top. *)
Definition met (rk : nat -> Z) (p h n : nat) : Prop := (rk n < rk h /\ rk h < rk p) \/ (rk h < rk p /\ rk p < rk n) \/ (rk p < rk n /\ rk n < rk h).
Definition near (rk : nat -> Z) (l : list nat) (p n : nat) : Prop := In p l /\ In n l /\ p <> n /\ forall k, In k l -> k <> p -> k <> n -> ~ met rk p k n.
Lemma near_prev rk l p n : by_rank rk l -> near rk l p n -> nexti (rev l) p = Some n.
Proof.
  intros B (P & N & D & H). destruct (nexti_spec _ _ p (by_rank_rev _ _ B)) as (b & -> & I & C); [apply in_rev in P; exact P|].
  f_equal. apply in_rev in I. pose proof (by_rank_inj _ _ p n B P N) as Jpn. destruct (Nat.eq_dec b n) as [->|Bn]; [reflexivity|exfalso].
  pose proof (by_rank_inj _ _ b n B I N) as Jbn. pose proof (by_rank_inj _ _ b p B I P) as Jbp.
  assert (N' := N). apply in_rev in N'. destruct (Nat.eq_dec b p) as [->|Bp].
  - destruct C as [[C _]|C]; [lia|]. specialize (C _ N'). lia.
  - specialize (H b I Bp Bn). apply H. unfold met. destruct C as [[C1 C2]|C].
    + specialize (C2 _ N'). lia.
    + specialize (C _ N'). lia.
Qed.
Lemma near_next rk l p n : by_rank rk l -> near rk l p n -> nexti l n = Some p.
Proof.
  intros B (P & N & D & H). destruct (nexti_spec _ _ n B N) as (b & -> & I & C).
  f_equal. pose proof (by_rank_inj _ _ p n B P N) as Jpn. destruct (Nat.eq_dec b p) as [->|Bp]; [reflexivity|exfalso].
  pose proof (by_rank_inj _ _ b n B I N) as Jbn. pose proof (by_rank_inj _ _ b p B I P) as Jbp.
  destruct (Nat.eq_dec b n) as [->|Bn].
  - destruct C as [[C _]|C]; [lia|]. specialize (C _ P). lia.
  - specialize (H b I Bp Bn). apply H. unfold met. destruct C as [[C1 C2]|C].
    + specialize (C2 _ P). lia.
    + specialize (C _ P). lia.
Qed.
(** ** The neighbour of the other polarity *)
Definition mate (rk : nat -> Z) (pol : nat -> bool) (l : list nat) (a b : nat) : Prop :=
  (pol a = true /\ pol b = false /\ near rk l a b) \/ (pol b = true /\ pol a = false /\ near rk l b a).
Definition tau (pol : nat -> bool) (l : list nat) (a : nat) : nat :=
  match (if pol a then nexti (rev l) a else nexti l a) with Some b => b | None => a end.
Lemma mate_sym rk pol l a b : mate rk pol l a b -> mate rk pol l b a.
Proof. unfold mate. tauto. Qed.
Lemma mate_in rk pol l a b : mate rk pol l a b -> In a l /\ In b l /\ a <> b /\ pol a = negb (pol b).
Proof. intros [(P & Q & A & B & C & _)|(P & Q & A & B & C & _)]; rewrite P, Q; auto. Qed.
Lemma mate_target rk pol l a b : by_rank rk l -> mate rk pol l a b -> (if pol a then nexti (rev l) a else nexti l a) = Some b.
Proof. intros B [(P & Q & N)|(P & Q & N)]; [rewrite P|rewrite Q]; [apply (near_prev rk)|apply (near_next rk)]; assumption. Qed.
Lemma mate_tau rk pol l a b : by_rank rk l -> mate rk pol l a b -> tau pol l a = b.
Proof. intros B M. unfold tau. rewrite (mate_target rk pol l a b B M). reflexivity. Qed.
Definition all_mated (rk : nat -> Z) (pol : nat -> bool) (l : list nat) : Prop := forall a, In a l -> exists b, mate rk pol l a b.
Lemma tau_mate rk pol l a : by_rank rk l -> all_mated rk pol l -> In a l -> mate rk pol l a (tau pol l a).
Proof. intros B M I. destruct (M a I) as [b Hb]. rewrite (mate_tau rk pol l a b B Hb). exact Hb. Qed.
Lemma tau_tau rk pol l a : by_rank rk l -> all_mated rk pol l -> In a l -> tau pol l (tau pol l a) = a.
Proof. intros B M I. apply (mate_tau rk). exact B. apply mate_sym. apply tau_mate; assumption. Qed.
(** A neighbour in one list that is in another one, where the edge has an old
    neighbour as well, is the same. *)
Lemma near_two rk l1 l2 p n1 n2 : (forall a b, In a l1 -> In b l1 -> rk a = rk b -> a = b) -> near rk l1 p n1 -> near rk l2 p n2 -> In n2 l1 -> In n1 l2 -> n1 = n2.
Proof.
  intros J (P1 & N1 & D1 & H1) (P2 & N2 & D2 & H2) I1 I2. destruct (Nat.eq_dec n1 n2) as [E|E]; [exact E|exfalso].
  apply (H1 n2 I1); [congruence|congruence|]. pose proof (H2 n1 I2 (fun x => D1 (eq_sym x)) E) as X.
  pose proof (J _ _ P1 N1). pose proof (J _ _ P1 I1). pose proof (J _ _ N1 I1). unfold met in *. lia.
Qed.
Lemma near_two' rk l1 l2 p1 p2 n : (forall a b, In a l1 -> In b l1 -> rk a = rk b -> a = b) -> near rk l1 p1 n -> near rk l2 p2 n -> In p2 l1 -> In p1 l2 -> p1 = p2.
Proof.
  intros J (P1 & N1 & D1 & H1) (P2 & N2 & D2 & H2) I1 I2. destruct (Nat.eq_dec p1 p2) as [E|E]; [exact E|exfalso].
  apply (H1 p2 I1); [congruence|congruence|]. pose proof (H2 p1 I2 E D1) as X.
  pose proof (J _ _ P1 N1). pose proof (J _ _ P1 I1). pose proof (J _ _ N1 I1). unfold met in *. lia.
Qed.
Lemma mate_two rk pol l1 l2 a b c : (forall a b, In a l1 -> In b l1 -> rk a = rk b -> a = b) -> mate rk pol l1 a b -> mate rk pol l2 a c -> In c l1 -> In b l2 -> b = c.
Proof.
  intros J [(P & Q & N)|(P & Q & N)] [(P' & Q' & N')|(P' & Q' & N')] I1 I2; try congruence.
  - exact (near_two rk l1 l2 a b c J N N' I1 I2).
  - exact (near_two' rk l1 l2 b c a J N N' I1 I2).
Qed.

(** ** Insertion *)
Lemma emplace_spec rk l n : by_rank rk (ids l) ->
  (forall a, In a l -> key_lt (a_key a) (a_key n) = Ok (rk (a_id a) <? rk (a_id n)) /\ key_lt (a_key n) (a_key a) = Ok (rk (a_id n) <? rk (a_id a)) /\ rk (a_id a) <> rk (a_id n)) ->
  exists l', emplace l n = Ok (Some l') /\ Permutation l' (n :: l) /\ by_rank rk (ids l').
Proof.
  induction l as [|a l IH]; intros B H; cbn [emplace].
  - eexists. split; [reflexivity|]. split; [apply Permutation_refl|]. constructor; constructor.
  - inversion B as [|? ? S F]; subst. destruct (H a (or_introl eq_refl)) as (K1 & K2 & D). rewrite K1. cbn [rbind].
    destruct (rk (a_id a) <? rk (a_id n)) eqn:E.
    + destruct (IH S) as (l' & E' & P & B'). { intros b I. apply H. right. exact I. } rewrite E'. cbn [rbind]. eexists. split; [reflexivity|]. split.
      * apply Permutation_trans with (a :: n :: l); [constructor; exact P|apply perm_swap].
      * constructor; [exact B'|]. apply Forall_forall. intros x X. assert (X' : In x (a_id n :: ids l)). { apply (Permutation_in x (Permutation_map a_id P)). exact X. }
        destruct X' as [<-|X']; [lia|]. rewrite Forall_forall in F. apply F. exact X'.
    + rewrite K2. cbn [rbind]. replace (rk (a_id n) <? rk (a_id a)) with true by lia. eexists. split; [reflexivity|]. split; [apply Permutation_refl|].
      constructor; [exact B|]. constructor; [lia|]. apply Forall_forall. intros x X. rewrite Forall_forall in F. specialize (F x X). lia.
Qed.
