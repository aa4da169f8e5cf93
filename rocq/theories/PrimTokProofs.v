(** ApplyPrimary: the (start?, polygon) pairs of the two children. *)
From Coq Require Import List ZArith QArith Arith Lia Lqa Bool Sorted.
From Verif Require Import BigUIntModel GeoModel GeoSpec EvtModel EvtSpec EvtTokProofs EvtProofs EvtArrProofs PrimModel PrimProofs.
Import ListNotations.
Open Scope Q_scope.

Lemma SS_filter {A} (R : A -> A -> Prop) (f : A -> bool) l : StronglySorted R l -> StronglySorted R (filter f l).
Proof.
  induction 1 as [|x l H IH F]; cbn [filter]; [constructor|]. destruct (f x); [|exact IH]. constructor; [exact IH|]. rewrite Forall_forall in *. intros y I. apply filter_In in I. apply F, I.
Qed.
Lemma SS_weaken {A} (R S : A -> A -> Prop) l : (forall x y, In x l -> In y l -> R x y -> S x y) -> StronglySorted R l -> StronglySorted S l.
Proof. intros M H. rewrite <- (map_id l). apply (SS_map R); assumption. Qed.
Lemma SS_app {A} (R : A -> A -> Prop) l r : StronglySorted R l -> StronglySorted R r -> (forall x y, In x l -> In y r -> R x y) -> StronglySorted R (l ++ r).
Proof.
  induction 1 as [|x l H IH F]; cbn [app]; intros G M; [exact G|]. constructor; [apply IH; [exact G|intros a b I; apply M; right; exact I]|]. apply Forall_app. split; [exact F|]. apply Forall_forall. intros y. apply M. left. reflexivity.
Qed.
Lemma SS_all {A} (R : A -> A -> Prop) l : (forall x y, In x l -> In y l -> R x y) -> StronglySorted R l.
Proof. induction l as [|x l IH]; intros M; constructor; [apply IH; intros a b I J; apply M; right; assumption|]. apply Forall_forall. intros y I. apply M; [left; reflexivity|right; exact I]. Qed.

Section Children.
Context (n : nat) (lo hi : nat -> Q) (x : Q) (W : forall i, (i < n)%nat -> lo i <= hi i) (F : list tok) (T : toks_ok n lo hi F).
Definition inN (q : nat) : bool := negb (Qle_bool x (lo q)).
Definition inP (q : nat) : bool := negb (Qle_bool (hi q) x).
Lemma inN_iff q : inN q = true <-> lo q < x.
Proof. unfold inN. destruct (Qle_bool x (lo q)) eqn:E; cbn [negb]; [apply Qle_bool_iff in E; split; [discriminate|lra]|split; [intros _|reflexivity]]. destruct (Qlt_le_dec (lo q) x) as [L|L]; [exact L|]. apply Qle_bool_iff in L. congruence. Qed.
Lemma inP_iff q : inP q = true <-> x < hi q.
Proof. unfold inP. destruct (Qle_bool (hi q) x) eqn:E; cbn [negb]; [apply Qle_bool_iff in E; split; [discriminate|lra]|split; [intros _|reflexivity]]. destruct (Qlt_le_dec x (hi q)) as [L|L]; [exact L|]. apply Qle_bool_iff in L. congruence. Qed.
Lemma inN_false q : inN q = false <-> x <= lo q.
Proof. unfold inN. destruct (Qle_bool x (lo q)) eqn:E; cbn [negb]; [apply Qle_bool_iff in E; tauto|split; [discriminate|]]. intros L. apply Qle_bool_iff in L. congruence. Qed.
Lemma inP_false q : inP q = false <-> hi q <= x.
Proof. unfold inP. destruct (Qle_bool (hi q) x) eqn:E; cbn [negb]; [apply Qle_bool_iff in E; tauto|split; [discriminate|]]. intros L. apply Qle_bool_iff in L. congruence. Qed.
Definition both q := inN q && inP q.
Definition nonly q := inN q && negb (inP q).
Definition ponly q := negb (inN q) && inP q.
Definition bord q := negb (inN q) && negb (inP q).
Definition kN (t : tok) : bool := inN (snd t) && (fst t || negb (inP (snd t))).
Definition kP (t : tok) : bool := inP (snd t).
Definition BO (L : list tok) := filter both (starts L).
Definition NO (L : list tok) := filter nonly (starts L).
Definition PO (L : list tok) := filter ponly (starts L).
Definition hiN q := if inP q then x else hi q.
Definition loP q := if inN q then x else lo q.
Definition NFin := filter kN F ++ rev (map (pair false) (BO F)).

Lemma in_F t : In t F <-> (snd t < n)%nat.
Proof. apply (t_all _ _ _ _ T). Qed.
Lemma in_BO q : In q (BO F) <-> (q < n)%nat /\ both q = true.
Proof. unfold BO. rewrite filter_In, in_starts, in_F. reflexivity. Qed.
Lemma in_NO q : In q (NO F) <-> (q < n)%nat /\ nonly q = true.
Proof. unfold NO. rewrite filter_In, in_starts, in_F. reflexivity. Qed.
Lemma in_PO q : In q (PO F) <-> (q < n)%nat /\ ponly q = true.
Proof. unfold PO. rewrite filter_In, in_starts, in_F. reflexivity. Qed.
Lemma nd_F : NoDup F.
Proof. exact (t_nodup _ _ _ _ T). Qed.
Lemma nd_BN : NoDup (BO F ++ NO F).
Proof.
  apply NoDup_join; [apply NoDup_filter, NoDup_starts, nd_F|apply NoDup_filter, NoDup_starts, nd_F|]. intros q I J. rewrite in_BO in I. rewrite in_NO in J. unfold both, nonly in *. destruct (inN q), (inP q); cbn in *; intuition congruence.
Qed.
Lemma nd_BP : NoDup (BO F ++ PO F).
Proof.
  apply NoDup_join; [apply NoDup_filter, NoDup_starts, nd_F|apply NoDup_filter, NoDup_starts, nd_F|]. intros q I J. rewrite in_BO in I. rewrite in_PO in J. unfold both, ponly in *. destruct (inN q), (inP q); cbn in *; intuition congruence.
Qed.
Lemma in_BN q : In q (BO F ++ NO F) <-> (q < n)%nat /\ inN q = true.
Proof. rewrite in_app_iff, in_BO, in_NO. unfold both, nonly. destruct (inN q), (inP q); cbn; intuition congruence. Qed.
Lemma in_BP q : In q (BO F ++ PO F) <-> (q < n)%nat /\ inP q = true.
Proof. rewrite in_app_iff, in_BO, in_PO. unfold both, ponly. destruct (inN q), (inP q); cbn; intuition congruence. Qed.
Lemma in_tail s q : In (s, q) (rev (map (pair false) (BO F))) <-> s = false /\ In q (BO F).
Proof. rewrite <- in_rev, in_map_iff. split; [intros (y & E & I); injection E as <- <-; auto|intros [-> I]; exists q; auto]. Qed.
Lemma NoDup_rev' {A} (l : list A) : NoDup l -> NoDup (rev l).
Proof.
  induction 1 as [|a l N _ IH]; cbn [rev]; [constructor|]. apply NoDup_join; [exact IH|repeat constructor; intros []|]. intros y I [<-|[]]. rewrite <- in_rev in I. contradiction.
Qed.
Lemma NoDup_pair l : NoDup l -> NoDup (map (@pair bool nat false) l).
Proof. induction 1 as [|a l N _ IH]; cbn [map]; constructor; [|exact IH]. intros I. apply in_map_iff in I. destruct I as (y & E & I). injection E as ->. contradiction. Qed.
Lemma nd_NFin : NoDup NFin.
Proof.
  unfold NFin. apply NoDup_join; [apply NoDup_filter, nd_F|apply NoDup_rev', NoDup_pair, NoDup_filter, NoDup_starts, nd_F|]. intros [s q] I J. apply in_tail in J. destruct J as [-> J]. apply in_BO in J. apply filter_In in I. destruct J as [_ J], I as [_ I]. unfold both, kN in *. cbn [fst snd] in I. destruct (inN q), (inP q); cbn in *; congruence.
Qed.
Lemma in_kN t : In t (filter kN F) <-> (snd t < n)%nat /\ kN t = true.
Proof. rewrite filter_In, in_F. reflexivity. Qed.
Lemma key_N t : kN t = true -> key lo hiN t = key lo hi t.
Proof. unfold kN, key, hiN. destruct t as [[|] q]; cbn [fst snd]; [reflexivity|]. destruct (inN q), (inP q); cbn; congruence. Qed.
Lemma key_x t : kN t = true -> (snd t < n)%nat -> key lo hi t <= x /\ (fst t = true -> key lo hi t < x).
Proof.
  destruct t as [s q]. unfold kN, key. cbn [fst snd]. intros K L. apply andb_true_iff in K. destruct K as [K1 K2]. apply inN_iff in K1. destruct s; cbn [orb] in K2; [split; [lra|auto]|]. apply negb_true_iff, inP_false in K2. split; [exact K2|discriminate].
Qed.
Lemma nz_N t : kN t = true -> (nz lo hiN t <-> nz lo hi t).
Proof.
  destruct t as [[|] q]; unfold kN, nz; cbn [fst snd orb]; intros K; [|split; intros []; discriminate]. rewrite andb_true_r in K. apply inN_iff in K. unfold hiN. destruct (inP q) eqn:E; [|reflexivity]. apply inP_iff in E. split; intros _; (split; [reflexivity|lra]).
Qed.
Lemma child_N : toks_on (BO F ++ NO F) lo hiN NFin.
Proof.
  split.
  - exact nd_BN.
  - exact nd_NFin.
  - intros [s q]. unfold NFin. rewrite in_app_iff, in_kN, in_tail, in_BN, in_BO. unfold kN, both. cbn [fst snd]. destruct s, (inN q), (inP q); cbn; intuition congruence.
  - unfold NFin. apply SS_app.
    + apply (SS_weaken (rel lo hi)); [|apply SS_filter; exact (t_sorted _ _ _ _ T)]. intros t u I J [A B]. apply filter_In in I, J. split; [rewrite (key_N t), (key_N u) by tauto; exact A|]. intros N K. rewrite (key_N t), (key_N u) in K by tauto. apply (nz_N u); [tauto|]. apply B; [apply (nz_N t); tauto|exact K].
    + apply SS_all. intros [s q] [s' q'] I J. apply in_tail in I, J. destruct I as [-> I], J as [-> J]. apply in_BO in I, J. destruct I as [_ I], J as [_ J]. apply andb_true_iff in I, J. split; [unfold key, hiN; cbn [fst snd]; rewrite (proj2 I), (proj2 J); apply Qle_refl|intros [N _]; discriminate].
    + intros t [s' q'] I J. apply in_tail in J. destruct J as [-> J]. apply in_BO in J. destruct J as [_ J]. apply andb_true_iff in J. apply in_kN in I. destruct I as [I K]. destruct (key_x t K I) as [K1 K2]. assert (Kq : key lo hiN (false, q') = x) by (unfold key, hiN; cbn [fst snd]; rewrite (proj2 J); reflexivity). unfold rel. rewrite (key_N t K), Kq. split; [exact K1|]. intros [N _] E. specialize (K2 N). lra.
  - intros q s e S1 E1. unfold NFin in S1, E1. assert (S2 : nth_error (filter kN F) s = Some (true, q)).
    { destruct (Nat.lt_ge_cases s (length (filter kN F))) as [L|L]; [rewrite nth_error_app1 in S1 by exact L; exact S1|]. rewrite nth_error_app2 in S1 by exact L. apply nth_error_In, in_tail in S1. destruct S1 as [S1 _]. discriminate. }
    pose proof (nth_error_In _ _ S2) as I. apply in_kN in I. destruct I as [I K]. unfold kN in K. cbn [fst snd orb] in K, I. rewrite andb_true_r in K.
    destruct (Nat.lt_ge_cases e (length (filter kN F))) as [L|L].
    + rewrite nth_error_app1 in E1 by exact L. pose proof (nth_error_In _ _ E1) as J. apply in_kN in J. destruct J as [_ J]. unfold kN in J. cbn [fst snd orb] in J. rewrite K in J. cbn [andb] in J. apply negb_true_iff in J.
      assert (G : forall b, exists k, nth_error F k = Some (b, q)) by (intros b; apply In_nth_error, in_F; exact I). destruct (G true) as (s0 & S0), (G false) as (e0 & E0). destruct (t_order _ _ _ _ T q s0 e0 S0 E0) as [O1 O2].
      split; [exact (filter_order kN F _ _ _ _ nd_F S0 E0 O1 _ _ S2 E1)|]. unfold hiN. rewrite J. intros Fl. specialize (O2 Fl). subst e0. apply (filter_next kN F s0 q S0 E0); [unfold kN; cbn [fst snd orb]; rewrite K; reflexivity|unfold kN; cbn [fst snd orb]; rewrite K, J; reflexivity|exact nd_F|exact S2|exact E1].
    + rewrite nth_error_app2 in E1 by exact L. apply nth_error_In, in_tail in E1. destruct E1 as [_ E1]. apply in_BO in E1. destruct E1 as [_ E1]. apply andb_true_iff in E1. split; [pose proof (lt_of_nth _ _ _ S2); lia|]. unfold hiN. rewrite (proj2 E1). apply inN_iff in K. intros X. lra.
Qed.
Lemma in_kP t : In t (filter kP F) <-> (snd t < n)%nat /\ inP (snd t) = true.
Proof. rewrite filter_In, in_F. reflexivity. Qed.
Definition keyP (t : tok) : Q := key loP hi t.
Lemma keyP_le t u : kP t = true -> kP u = true -> key lo hi t <= key lo hi u -> keyP t <= keyP u.
Proof.
  unfold kP, keyP, key, loP. destruct t as [[|] q], u as [[|] q']; cbn [fst snd]; intros A B; apply inP_iff in A, B; intros L.
  - destruct (inN q) eqn:N1, (inN q') eqn:N2; try apply inN_iff in N1; try apply inN_iff in N2; try apply inN_false in N1; try apply inN_false in N2; lra.
  - destruct (inN q) eqn:N1; try apply inN_iff in N1; try apply inN_false in N1; lra.
  - destruct (inN q') eqn:N1; try apply inN_iff in N1; try apply inN_false in N1; lra.
  - exact L.
Qed.
Lemma child_P : toks_on (BO F ++ PO F) loP hi (filter kP F).
Proof.
  split.
  - exact nd_BP.
  - apply NoDup_filter, nd_F.
  - intros t. rewrite in_kP, in_BP. reflexivity.
  - apply (SS_weaken (rel lo hi)); [|apply SS_filter; exact (t_sorted _ _ _ _ T)]. intros t u I J [A B]. apply filter_In in I, J. split; [apply keyP_le; tauto|].
    intros [N1 N2] K. destruct I as [_ I], J as [_ J]. unfold kP in I, J. apply inP_iff in I, J. destruct t as [s q], u as [s' q']. cbn [fst snd] in *. subst s. unfold key, loP, nz in *. cbn [fst snd] in *.
    destruct s'; [split; [reflexivity|]|exfalso].
    + destruct (inN q') eqn:M2; [exact J|]. apply inN_false in M2. destruct (inN q) eqn:M1; [lra|]. apply B; [auto|exact K].
    + destruct (inN q) eqn:M1; [lra|]. destruct (B (conj eq_refl N2) K) as [X _]. discriminate.
  - intros q s e S1 E1. pose proof (nth_error_In _ _ S1) as I. apply in_kP in I. cbn [snd] in I. destruct I as [I K].
    assert (G : forall b, exists k, nth_error F k = Some (b, q)) by (intros b; apply In_nth_error, in_F; exact I). destruct (G true) as (s0 & S0), (G false) as (e0 & E0). destruct (t_order _ _ _ _ T q s0 e0 S0 E0) as [O1 O2].
    split; [exact (filter_order kP F _ _ _ _ nd_F S0 E0 O1 _ _ S1 E1)|]. unfold loP. intros Fl. destruct (inN q) eqn:M; [apply inP_iff in K; lra|]. specialize (O2 Fl). subst e0. apply (filter_next kP F s0 q S0 E0 K K nd_F _ _ S1 E1).
Qed.
End Children.
