(** The pieces while partners are looked for at one location: what splitting an
    edge and connecting two edges does to them. *)
From Coq Require Import List Bool Arith ZArith QArith Lia ZifyBool Lqa Sorted Permutation.
From Verif Require Import BigUIntModel GeoModel GeoSpec TriSpec ConnModel ConnSpec ConnListProofs.
Import ListNotations.
Open Scope Q_scope.

Definition no_half : half := Half (V3 0 0 0) (HP (V3 0 0 0) 1) (HP (V3 0 0 0) 1) (V3 0 0 0).
Definition hat (hs : list half) (i : nat) : half := nth i hs no_half.
(** Good: connected with the right edge.  Fresh: begins at the location and has no
    partner.  Stale: begins before the location, must be split before it is connected. *)
Inductive status := Good | Fresh | Stale.
Definition upd {A} (f : nat -> A) (i : nat) (x : A) : nat -> A := fun j => if (j =? i)%nat then x else f j.

Section Pieces.
Context (s : nat) (hs : list half) (okp : hpoint3 -> Prop) (gen : Q -> Prop) (pair : Q -> nat -> nat -> Prop).
Context (pair_sym : forall t a b, pair t a b -> pair t b a).
Definition pol (i : nat) : bool := h_pos s (hat hs i).
Definition lo (i : nat) : Q := along s (h_begin s (hat hs i)).
Definition hi (i : nat) : Q := along s (h_end s (hat hs i)).
Definition plo (q : piece) : Q := if pol (p_edge q) then along s (p_from q) else along s (p_to q).
Definition phi (q : piece) : Q := if pol (p_edge q) then along s (p_to q) else along s (p_from q).
Context (pol_forward : forall i, (i < length hs)%nat -> (pol i = true <-> forward s (hat hs i))).
Context (loc_lt_ok : forall a b, okp a -> okp b -> (loc_lt s a b = true <-> along s a < along s b)).

Record PI (x : Q) (A : list nat) (pc : nat -> nat) (stt : nat -> status) (tw : nat -> nat) (ps : list piece) : Prop := {
  pi_q : forall i q, nth_error ps i = Some q -> okp (p_from q) /\ okp (p_to q) /\ (p_edge q < length hs)%nat /\ plo q < phi q;
  pi_link : forall i q j, nth_error ps i = Some q -> p_partner q = Some j -> lo (p_edge q) <= x /\ exists r, nth_error ps j = Some r /\ p_partner r = Some i /\
    pol (p_edge r) = negb (pol (p_edge q)) /\ plo q == plo r /\ (phi q == phi r \/ (x <= phi q /\ x <= phi r)) /\
    forall t, gen t -> plo q < t -> t < phi q -> t < x -> pair t (p_edge q) (p_edge r);
  pi_none : forall i q, nth_error ps i = Some q -> p_partner q = None -> (x < lo (p_edge q) /\ i = p_edge q) \/ (In (p_edge q) A /\ stt (p_edge q) = Fresh /\ i = pc (p_edge q));
  pi_act : forall i q, nth_error ps i = Some q -> lo (p_edge q) <= x -> x < phi q -> In (p_edge q) A /\ pc (p_edge q) = i;
  pi_new : forall e, (e < length hs)%nat -> x < lo e -> nth_error ps e = Some (whole e (hat hs e));
  pi_cur : forall a, In a A -> (a < length hs)%nat /\ lo a <= x /\ x < hi a /\ exists q, nth_error ps (pc a) = Some q /\ p_edge q = a /\
    (if pol a then p_to q = h_to (hat hs a) else p_from q = h_from (hat hs a)) /\
    match stt a with
    | Good => plo q <= x /\ p_partner q = Some (pc (tw a))
    | Fresh => plo q == x /\ p_partner q = None
    | Stale => plo q < x /\ exists j, p_partner q = Some j
    end;
  pi_good : forall a, In a A -> stt a = Good -> In (tw a) A /\ stt (tw a) = Good;
  pi_sub : forall e, (e < length hs)%nat -> subdivided s ps e (hat hs e) }.

Lemma PI_ext x A pc pc' stt stt' tw ps : (forall a, In a A -> pc a = pc' a /\ stt a = stt' a) -> PI x A pc stt tw ps -> PI x A pc' stt' tw ps.
Proof.
  intros E [H1 H2 H3 H4 H5 H6 H7 H8]. constructor; auto.
  - intros i q N P. destruct (H3 i q N P) as [L|(I & F & R)]; [left; exact L|right]. destruct (E _ I) as [E1 E2]. rewrite <- E1, <- E2. auto.
  - intros i q N L1 L2. destruct (H4 i q N L1 L2) as [I R]. split; [exact I|]. rewrite <- (proj1 (E _ I)). exact R.
  - intros a I. destruct (H6 a I) as (B1 & B2 & B3 & q & Q1 & Q2 & Q3 & Q4). destruct (E _ I) as [E1 E2]. rewrite <- E1, <- E2. repeat (split; [assumption|]). exists q. repeat (split; [assumption|]).
    destruct (stt a) eqn:S; [|exact Q4|exact Q4]. destruct Q4 as [Q4 Q5]. split; [exact Q4|]. rewrite Q5. f_equal. apply E. apply (H7 a I S).
  - intros a I G. rewrite <- (proj2 (E _ I)) in G. destruct (H7 a I G) as [T1 T2]. split; [exact T1|]. rewrite <- (proj2 (E _ T1)). exact T2.
Qed.

(** ** Subdivisions *)
Lemma walk_ext ps ps' h l : (forall i, In i l -> option_map (fun q => (p_from q, p_to q)) (nth_error ps i) = option_map (fun q => (p_from q, p_to q)) (nth_error ps' i)) ->
  forall a b, walk s ps h a l b -> walk s ps' h a l b.
Proof.
  induction l as [|i l IH]; intros E a b; cbn [walk]; [auto|]. intros (q & N & F & D1 & D2 & W).
  pose proof (E i (or_introl eq_refl)) as X. rewrite N in X. destruct (nth_error ps' i) as [q'|] eqn:N'; [|discriminate X]. cbn [option_map] in X. injection X as X1 X2.
  exists q'. rewrite <- X1, <- X2. repeat (split; [solve [auto]|]). apply IH; [|exact W]. intros k K. apply E. right. exact K.
Qed.
Lemma subdivided_ext ps ps' e h : (forall i, option_map (fun q => (p_edge q, (p_from q, p_to q))) (nth_error ps i) = option_map (fun q => (p_edge q, (p_from q, p_to q))) (nth_error ps' i)) ->
  subdivided s ps e h -> subdivided s ps' e h.
Proof.
  intros E (l & N & I & W). exists l. split; [exact N|]. split.
  - intros i. rewrite I. specialize (E i). split; intros (q & Q & Eq); rewrite Q in E; cbn [option_map] in E.
    + destruct (nth_error ps' i) as [q'|]; [|discriminate E]. cbn [option_map] in E. injection E as E1 E2 E3. exists q'. split; [reflexivity|congruence].
    + destruct (nth_error ps i) as [q'|]; [|discriminate E]. cbn [option_map] in E. injection E as E1 E2 E3. exists q'. split; [reflexivity|congruence].
  - apply (walk_ext ps); [|exact W]. intros i _. specialize (E i). destruct (nth_error ps i), (nth_error ps' i); cbn [option_map] in *; congruence.
Qed.
Lemma walk_app ps h l1 l2 a b : walk s ps h a (l1 ++ l2) b <-> exists m, walk s ps h a l1 m /\ walk s ps h m l2 b.
Proof.
  revert a. induction l1 as [|i l1 IH]; intros a; cbn [app walk].
  - split; [intros H; exists a; auto|intros (m & -> & H); exact H].
  - split.
    + intros (q & N & F & D1 & D2 & W). apply IH in W. destruct W as (m & W1 & W2). exists m. split; [exists q; auto|exact W2].
    + intros (m & (q & N & F & D1 & D2 & W1) & W2). exists q. repeat (split; [assumption|]). apply IH. exists m. auto.
Qed.
Lemma subdivided_split ps ps' i q q1 q2 loc e h :
  nth_error ps i = Some q -> p_edge q1 = p_edge q -> p_edge q2 = p_edge q -> p_from q1 = p_from q -> p_to q1 = loc -> p_from q2 = loc -> p_to q2 = p_to q ->
  (p_edge q = e -> (forward s h -> along s (p_from q) < along s loc /\ along s loc < along s (p_to q)) /\ (~ forward s h -> along s loc < along s (p_from q) /\ along s (p_to q) < along s loc)) ->
  (forall j, option_map (fun q => (p_edge q, (p_from q, p_to q))) (nth_error ps' j) = option_map (fun q => (p_edge q, (p_from q, p_to q)))
     (if (j =? length ps)%nat then Some q2 else if (j =? i)%nat then Some q1 else nth_error ps j)) ->
  subdivided s ps e h -> subdivided s ps' e h.
Proof.
  intros N E1 E2 F1 T1 F2 T2 Dir Ps (l & ND & I & W).
  assert (Li : (i < length ps)%nat) by exact (nth_some_lt _ _ _ N).
  assert (Lt : forall j, In j l -> (j < length ps)%nat). { intros j J. apply I in J. destruct J as (r & R & _). exact (nth_some_lt _ _ _ R). }
  assert (New : ~ In (length ps) l) by (intros X; apply Lt in X; lia).
  assert (Old : forall j, j <> length ps -> j <> i -> option_map (fun q => (p_edge q, (p_from q, p_to q))) (nth_error ps' j) = option_map (fun q => (p_edge q, (p_from q, p_to q))) (nth_error ps j)).
  { intros j J1 J2. rewrite Ps. replace (j =? length ps)%nat with false by lia. replace (j =? i)%nat with false by lia. reflexivity. }
  pose proof (Ps i) as Pi. replace (i =? length ps)%nat with false in Pi by lia. rewrite Nat.eqb_refl in Pi. cbn [option_map] in Pi.
  pose proof (Ps (length ps)) as Pn. rewrite Nat.eqb_refl in Pn. cbn [option_map] in Pn.
  destruct (nth_error ps' i) as [q1'|] eqn:N1; [|discriminate Pi]. cbn [option_map] in Pi. injection Pi as P1 P2 P3.
  destruct (nth_error ps' (length ps)) as [q2'|] eqn:N2; [|discriminate Pn]. cbn [option_map] in Pn. injection Pn as P4 P5 P6.
  assert (Edge : forall j, (exists r, nth_error ps' j = Some r /\ p_edge r = e) <-> (exists r, nth_error ps j = Some r /\ p_edge r = e) \/ (j = length ps /\ p_edge q = e)).
  { intros j. destruct (Nat.eq_dec j (length ps)) as [->|J1].
    - rewrite N2. split; [intros (r & R & Er); right; split; [reflexivity|]; injection R as <-; congruence|]. intros [(r & R & _)|[_ X]]; [apply nth_some_lt in R; lia|]. exists q2'. split; [reflexivity|congruence].
    - destruct (Nat.eq_dec j i) as [->|J2].
      + rewrite N1, N. split; [intros (r & R & Er); left; injection R as <-; exists q; split; [reflexivity|congruence]|]. intros [(r & R & X)|[X _]]; [|lia]. injection R as <-. exists q1'. split; [reflexivity|congruence].
      + specialize (Old j J1 J2). split.
        * intros (r & R & Er). left. rewrite R in Old. cbn [option_map] in Old. destruct (nth_error ps j) as [r'|]; [|discriminate Old]. cbn [option_map] in Old. injection Old as O1 O2 O3. exists r'. split; [reflexivity|congruence].
        * intros [(r & R & Er)|[X _]]; [|lia]. rewrite R in Old. cbn [option_map] in Old. destruct (nth_error ps' j) as [r'|]; [|discriminate Old]. cbn [option_map] in Old. injection Old as O1 O2 O3. exists r'. split; [reflexivity|congruence]. }
  assert (Keep : forall k, (forall j, In j k -> In j l /\ j <> i) -> forall a b, walk s ps h a k b -> walk s ps' h a k b).
  { intros k K. apply walk_ext. intros j J. destruct (K j J) as [J1 J2]. assert (X : j <> length ps) by (intros ->; contradiction). specialize (Old j X J2).
    destruct (nth_error ps j), (nth_error ps' j); cbn [option_map] in *; congruence. }
  destruct (Nat.eq_dec (p_edge q) e) as [Eq|Eq].
  - assert (Ii : In i l) by (apply I; exists q; auto). destruct (in_split _ _ Ii) as (l1 & l2 & ->).
    exists (l1 ++ i :: length ps :: l2). split; [|split].
    + apply (Permutation_NoDup (l := length ps :: l1 ++ i :: l2)); [|constructor; assumption].
      apply Permutation_trans with (l1 ++ length ps :: i :: l2); [apply Permutation_middle|]. apply Permutation_app_head. apply perm_swap.
    + intros j. rewrite Edge, <- I. rewrite !in_app_iff. cbn [In]. split; intros X; [|intuition auto]. decompose [or] X; auto.
    + rewrite walk_app in W |- *. destruct W as (m & W1 & W2). exists m. split.
      * apply Keep; [|exact W1]. intros j J. split; [apply in_app_iff; left; exact J|]. intros ->. apply NoDup_remove_2 in ND. apply ND. apply in_app_iff. left. exact J.
      * cbn [walk] in W2 |- *. destruct W2 as (r & R & Fr & D1 & D2 & W2). rewrite N in R. injection R as <-. destruct (Dir Eq) as [Df Db].
        exists q1'. split; [exact N1|]. split; [congruence|]. rewrite P3, T1. split; [intros Fw; rewrite <- Fr; apply Df; exact Fw|]. split; [intros Fw; rewrite <- Fr; apply Db; exact Fw|].
        exists q2'. split; [exact N2|]. split; [congruence|]. rewrite P6, T2. split; [intros Fw; apply Df; exact Fw|]. split; [intros Fw; apply Db; exact Fw|].
        apply Keep; [|exact W2]. intros j J. split; [apply in_app_iff; right; right; exact J|]. intros ->. apply NoDup_remove_2 in ND. apply ND. apply in_app_iff. right. exact J.
  - exists l. split; [exact ND|]. split.
    + intros j. rewrite Edge, <- I. split; [auto|]. intros [X|[_ X]]; [exact X|contradiction].
    + apply Keep; [|exact W]. intros j J. split; [exact J|]. intros ->. apply I in J. destruct J as (r & R & Er). congruence.
Qed.

(** ** Splitting a stale edge *)
Lemma stale_facts x A pc stt tw ps a : PI x A pc stt tw ps -> In a A -> stt a = Stale -> exists q j r,
  nth_error ps (pc a) = Some q /\ p_edge q = a /\ (if pol a then p_to q = h_to (hat hs a) else p_from q = h_from (hat hs a)) /\ p_partner q = Some j /\
  nth_error ps j = Some r /\ p_partner r = Some (pc a) /\ j <> pc a /\ plo q < x /\ x < phi q /\ okp (p_from q) /\ okp (p_to q) /\ x <= phi r /\ (a < length hs)%nat /\
  lo a <= x.
Proof.
  intros P I St. destruct (pi_cur _ _ _ _ _ _ P a I) as (Ln & L1 & L2 & q & N & E & En & M). rewrite St in M. destruct M as (Pl & j & Pj).
  destruct (pi_link _ _ _ _ _ _ P _ _ _ N Pj) as (_ & r & Nr & Pr & Or & Pq & Ph & _). destruct (pi_q _ _ _ _ _ _ P _ _ N) as (O1 & O2 & _).
  exists q, j, r. repeat (split; [assumption|]).
  assert (Ex : x < phi q). { unfold phi. rewrite E. unfold hi, h_end in L2. unfold pol in *. destruct (h_pos s (hat hs a)); rewrite En; exact L2. }
  split. { intros ->. rewrite N in Nr. injection Nr as <-. destruct (pol (p_edge q)); discriminate. }
  repeat (split; [assumption|]). split; [|split; [exact Ln|exact L1]]. destruct Ph as [Ph|Ph]; [lra|apply Ph].
Qed.
Lemma split_pos x A pc stt tw ps a loc q j : PI x A pc stt tw ps -> In a A -> stt a = Stale -> pol a = true -> okp loc -> along s loc == x ->
  nth_error ps (pc a) = Some q -> p_partner q = Some j ->
  PI x A (upd pc a (length ps)) (upd stt a Fresh) tw (set_nth ps (pc a) (Piece a (p_from q) loc (Some j)) ++ [Piece a loc (p_to q) None]).
Proof.
  intros P I St Pa Ol Lx N Pj.
  destruct (stale_facts _ _ _ _ _ _ _ P I St) as (q' & j' & r & N' & E & En & Pj' & Nr & Pr & Jne & Pl & Ph & O1 & O2 & Xr & La & Lo).
  rewrite N in N'. injection N' as <-. rewrite Pj in Pj'. injection Pj' as <-.
  assert (Lq : plo q = along s (p_from q)) by (unfold plo; rewrite E, Pa; reflexivity). assert (Hq : phi q = along s (p_to q)) by (unfold phi; rewrite E, Pa; reflexivity).
  set (q1 := Piece a (p_from q) loc (Some j)). set (q2 := Piece a loc (p_to q) None).
  set (i0 := pc a) in *. assert (Li : (i0 < length ps)%nat) by exact (nth_some_lt _ _ _ N).
  assert (Nth : forall i, nth_error (set_nth ps i0 q1 ++ [q2]) i = if (i =? length ps)%nat then Some q2 else if (i =? i0)%nat then Some q1 else nth_error ps i).
  { intros i. rewrite nth_snoc, set_nth_length by exact Li. rewrite nth_set_nth by exact Li. reflexivity. }
  assert (L1 : plo q1 = along s (p_from q)) by (unfold plo, q1; cbn; rewrite Pa; reflexivity). assert (H1 : phi q1 = along s loc) by (unfold phi, q1; cbn; rewrite Pa; reflexivity).
  assert (L2 : plo q2 = along s loc) by (unfold plo, q2; cbn; rewrite Pa; reflexivity). assert (H2 : phi q2 = along s (p_to q)) by (unfold phi, q2; cbn; rewrite Pa; reflexivity).
  assert (Cases : forall i p, nth_error (set_nth ps i0 q1 ++ [q2]) i = Some p -> (i = length ps /\ p = q2) \/ (i = i0 /\ p = q1) \/ (i <> i0 /\ i <> length ps /\ nth_error ps i = Some p)).
  { intros i p Np. rewrite Nth in Np. destruct (i =? length ps)%nat eqn:B1; [left; split; [lia|congruence]|]. destruct (i =? i0)%nat eqn:B2; [right; left; split; [lia|congruence]|]. right. right. repeat split; [lia|lia|exact Np]. }
  assert (Other : forall i p, nth_error ps i = Some p -> i <> i0 -> nth_error (set_nth ps i0 q1 ++ [q2]) i = Some p).
  { intros i p Np D. rewrite Nth. pose proof (nth_some_lt _ _ _ Np). replace (i =? length ps)%nat with false by lia. replace (i =? i0)%nat with false by lia. exact Np. }
  assert (Ni0 : nth_error (set_nth ps i0 q1 ++ [q2]) i0 = Some q1). { rewrite Nth. replace (i0 =? length ps)%nat with false by lia. rewrite Nat.eqb_refl. reflexivity. }
  constructor.
  - intros i p Np. destruct (Cases i p Np) as [[-> ->]|[[-> ->]|(D1 & D2 & Np')]].
    + cbn [p_from p_to p_edge q2]. repeat (split; [assumption|]). rewrite L2, H2. rewrite <- Hq. lra.
    + cbn [p_from p_to p_edge q1]. repeat (split; [assumption|]). rewrite L1, H1, <- Lq. lra.
    + exact (pi_q _ _ _ _ _ _ P _ _ Np').
  - intros i p k Np Pk. destruct (Cases i p Np) as [[-> ->]|[[-> ->]|(D1 & D2 & Np')]].
    + discriminate Pk.
    + cbn [p_partner q1] in Pk. injection Pk as <-. destruct (pi_link _ _ _ _ _ _ P _ _ _ N Pj) as (K1 & r' & K2 & K3 & K4 & K5 & K6 & K7).
      rewrite Nr in K2. injection K2 as <-. cbn [p_edge q1]. rewrite E in *. split; [exact K1|]. exists r. split; [apply Other; assumption|]. repeat (split; [assumption|]).
      rewrite L1, H1. rewrite Lq in *. split; [exact K5|]. split; [right; split; lra|]. intros t T1 T2 T3 T4. apply K7; try assumption. lra.
    + destruct (pi_link _ _ _ _ _ _ P _ _ _ Np' Pk) as (K1 & r' & K2 & K3 & K4 & K5 & K6 & K7). split; [exact K1|].
      destruct (Nat.eq_dec k i0) as [->|Dk].
      * rewrite N in K2. injection K2 as <-. rewrite Pj in K3. injection K3 as <-. rewrite Nr in Np'. injection Np' as <-.
        exists q1. split; [exact Ni0|]. split; [reflexivity|]. cbn [p_edge q1]. rewrite E in *. split; [exact K4|]. rewrite L1, H1, <- Lq. split; [exact K5|]. split; [right; split; lra|]. exact K7.
      * exists r'. split; [apply Other; assumption|]. auto.
  - intros i p Np Pn. destruct (Cases i p Np) as [[-> ->]|[[-> ->]|(D1 & D2 & Np')]].
    + right. cbn [p_edge q2]. unfold upd. rewrite Nat.eqb_refl. auto.
    + discriminate Pn.
    + destruct (pi_none _ _ _ _ _ _ P _ _ Np' Pn) as [K|(K1 & K2 & K3)]; [left; exact K|right]. unfold upd. destruct (p_edge p =? a)%nat eqn:B; [apply Nat.eqb_eq in B; rewrite B in K2; congruence|]. auto.
  - intros i p Np Q1 Q2. destruct (Cases i p Np) as [[-> ->]|[[-> ->]|(D1 & D2 & Np')]].
    + cbn [p_edge q2]. unfold upd. rewrite Nat.eqb_refl. auto.
    + exfalso. rewrite H1 in Q2. lra.
    + destruct (pi_act _ _ _ _ _ _ P _ _ Np' Q1 Q2) as [K1 K2]. split; [exact K1|]. unfold upd. destruct (p_edge p =? a)%nat eqn:B; [|exact K2]. apply Nat.eqb_eq in B. rewrite B in K2. fold i0 in K2. congruence.
  - intros e Le Xe. pose proof (pi_new _ _ _ _ _ _ P e Le Xe) as K. apply Other; [exact K|]. intros ->. rewrite N in K. injection K as K. rewrite K in E. cbn [whole p_edge] in E. rewrite <- E in Lo. lra.
  - intros b Ib. unfold upd. destruct (b =? a)%nat eqn:B.
    + apply Nat.eqb_eq in B. subst b. split; [exact La|]. split; [exact Lo|]. split; [apply (pi_cur _ _ _ _ _ _ P a I)|]. exists q2. rewrite Nth, Nat.eqb_refl. split; [reflexivity|]. split; [reflexivity|].
      rewrite Pa in En |- *. cbn [p_to q2]. split; [exact En|]. rewrite L2. split; [exact Lx|reflexivity].
    + destruct (pi_cur _ _ _ _ _ _ P b Ib) as (K1 & K2 & K3 & p & K4 & K5 & K6 & K7). repeat (split; [assumption|]).
      assert (Db : pc b <> i0). { intros X. rewrite X in K4. rewrite N in K4. injection K4 as <-. lia. }
      exists p. split; [apply Other; assumption|]. repeat (split; [assumption|]). destruct (stt b) eqn:Sb; [|exact K7|exact K7]. destruct (tw b =? a)%nat eqn:T; [|exact K7].
      apply Nat.eqb_eq in T. destruct (pi_good _ _ _ _ _ _ P b Ib Sb) as [_ G]. rewrite T in G. congruence.
  - intros b Ib Gb. unfold upd in Gb |- *. destruct (b =? a)%nat eqn:B; [discriminate Gb|]. destruct (pi_good _ _ _ _ _ _ P b Ib Gb) as [G1 G2]. split; [exact G1|]. destruct (tw b =? a)%nat eqn:T; [|exact G2]. apply Nat.eqb_eq in T. rewrite T in G2. congruence.
  - intros e Le. apply (subdivided_split ps _ i0 q q1 q2 loc); try reflexivity; auto.
    + intros X. rewrite E in X. subst e. rewrite <- (pol_forward a La). rewrite Pa. split; [intros _; rewrite <- Lq, <- Hq; lra|intros X; contradiction].
    + intros k. rewrite Nth. reflexivity.
    + exact (pi_sub _ _ _ _ _ _ P e Le).
Qed.
Lemma split_neg x A pc stt tw ps a loc q j r : PI x A pc stt tw ps -> In a A -> stt a = Stale -> pol a = false -> okp loc -> along s loc == x ->
  nth_error ps (pc a) = Some q -> p_partner q = Some j -> nth_error ps j = Some r ->
  PI x A pc (upd stt a Fresh) tw (set_nth (set_nth ps (pc a) (Piece a (p_from q) loc None) ++ [Piece a loc (p_to q) (Some j)]) j (link (Some (length ps)) r)).
Proof.
  intros P I St Pa Ol Lx N Pj Nr.
  destruct (stale_facts _ _ _ _ _ _ _ P I St) as (q' & j' & r' & N' & E & En & Pj' & Nr' & Pr & Jne & Pl & Ph & O1 & O2 & Xr & La & Lo).
  rewrite N in N'. injection N' as <-. rewrite Pj in Pj'. injection Pj' as <-. rewrite Nr in Nr'. injection Nr' as <-.
  assert (Lq : plo q = along s (p_to q)) by (unfold plo; rewrite E, Pa; reflexivity). assert (Hq : phi q = along s (p_from q)) by (unfold phi; rewrite E, Pa; reflexivity).
  set (q1 := Piece a (p_from q) loc None). set (q2 := Piece a loc (p_to q) (Some j)). set (rr := link (Some (length ps)) r).
  set (i0 := pc a) in *. assert (Li : (i0 < length ps)%nat) by exact (nth_some_lt _ _ _ N). assert (Lj : (j < length ps)%nat) by exact (nth_some_lt _ _ _ Nr).
  assert (Len : length (set_nth ps i0 q1 ++ [q2]) = S (length ps)). { rewrite app_length, set_nth_length by exact Li. cbn. lia. }
  assert (Nth : forall i, nth_error (set_nth (set_nth ps i0 q1 ++ [q2]) j rr) i = if (i =? length ps)%nat then Some q2 else if (i =? i0)%nat then Some q1 else if (i =? j)%nat then Some rr else nth_error ps i).
  { intros i. rewrite nth_set_nth by lia. rewrite nth_snoc, set_nth_length by exact Li. rewrite nth_set_nth by exact Li.
    destruct (i =? j)%nat eqn:B1, (i =? length ps)%nat eqn:B2, (i =? i0)%nat eqn:B3; try reflexivity; lia. }
  set (ps' := set_nth (set_nth ps i0 q1 ++ [q2]) j rr) in *.
  assert (L1 : plo q1 = along s loc) by (unfold plo, q1; cbn; rewrite Pa; reflexivity). assert (H1 : phi q1 = along s (p_from q)) by (unfold phi, q1; cbn; rewrite Pa; reflexivity).
  assert (L2 : plo q2 = along s (p_to q)) by (unfold plo, q2; cbn; rewrite Pa; reflexivity). assert (H2 : phi q2 = along s loc) by (unfold phi, q2; cbn; rewrite Pa; reflexivity).
  assert (Lr : plo rr = plo r) by reflexivity. assert (Hr : phi rr = phi r) by reflexivity.
  assert (Cases : forall i p, nth_error ps' i = Some p -> (i = length ps /\ p = q2) \/ (i = i0 /\ p = q1) \/ (i = j /\ p = rr) \/ (i <> i0 /\ i <> length ps /\ i <> j /\ nth_error ps i = Some p)).
  { intros i p Np. rewrite Nth in Np. destruct (i =? length ps)%nat eqn:B1; [left; split; [lia|congruence]|]. destruct (i =? i0)%nat eqn:B2; [right; left; split; [lia|congruence]|].
    destruct (i =? j)%nat eqn:B3; [right; right; left; split; [lia|congruence]|]. right. right. right. repeat split; [lia|lia|lia|exact Np]. }
  assert (Other : forall i p, nth_error ps i = Some p -> i <> i0 -> i <> j -> nth_error ps' i = Some p).
  { intros i p Np D D2. rewrite Nth. pose proof (nth_some_lt _ _ _ Np). replace (i =? length ps)%nat with false by lia. replace (i =? i0)%nat with false by lia. replace (i =? j)%nat with false by lia. exact Np. }
  assert (Ni0 : nth_error ps' i0 = Some q1). { rewrite Nth. replace (i0 =? length ps)%nat with false by lia. rewrite Nat.eqb_refl. reflexivity. }
  assert (Nj : nth_error ps' j = Some rr). { rewrite Nth. replace (j =? length ps)%nat with false by lia. replace (j =? i0)%nat with false by lia. rewrite Nat.eqb_refl. reflexivity. }
  assert (Nn : nth_error ps' (length ps) = Some q2). { rewrite Nth. rewrite Nat.eqb_refl. reflexivity. }
  constructor.
  - intros i p Np. destruct (Cases i p Np) as [[-> ->]|[[-> ->]|[[-> ->]|(D1 & D2 & D3 & Np')]]].
    + cbn [p_from p_to p_edge q2]. repeat (split; [assumption|]). rewrite L2, H2. rewrite <- Lq. lra.
    + cbn [p_from p_to p_edge q1]. repeat (split; [assumption|]). rewrite L1, H1, <- Hq. lra.
    + rewrite Lr, Hr. exact (pi_q _ _ _ _ _ _ P _ _ Nr).
    + exact (pi_q _ _ _ _ _ _ P _ _ Np').
  - intros i p k Np Pk. destruct (Cases i p Np) as [[-> ->]|[[-> ->]|[[-> ->]|(D1 & D2 & D3 & Np')]]].
    + cbn [p_partner q2] in Pk. injection Pk as <-. destruct (pi_link _ _ _ _ _ _ P _ _ _ N Pj) as (K1 & r' & K2 & K3 & K4 & K5 & K6 & K7).
      rewrite Nr in K2. injection K2 as <-. cbn [p_edge q2]. rewrite E in *. split; [exact K1|]. exists rr. split; [exact Nj|]. split; [reflexivity|]. split; [exact K4|].
      rewrite L2, H2, Lr, Hr. rewrite Lq in *. split; [exact K5|]. split; [right; split; lra|]. intros t T1 T2 T3 T4. apply K7; try assumption. lra.
    + discriminate Pk.
    + cbn [p_partner rr link] in Pk. injection Pk as <-. destruct (pi_link _ _ _ _ _ _ P _ _ _ Nr Pr) as (K1 & r' & K2 & K3 & K4 & K5 & K6 & K7).
      rewrite N in K2. injection K2 as <-. split; [exact K1|]. exists q2. split; [exact Nn|]. split; [reflexivity|]. cbn [p_edge q2]. rewrite E in *. split; [exact K4|].
      rewrite L2, H2, Lr, Hr. rewrite Lq in *. split; [exact K5|]. split; [right; split; lra|]. exact K7.
    + destruct (pi_link _ _ _ _ _ _ P _ _ _ Np' Pk) as (K1 & r' & K2 & K3 & K4 & K5 & K6 & K7). split; [exact K1|].
      exists r'. split; [apply Other; [exact K2| |]|]; [intros ->; rewrite N in K2; injection K2 as <-; congruence|intros ->; rewrite Nr in K2; injection K2 as <-; congruence|]. auto.
  - intros i p Np Pn. destruct (Cases i p Np) as [[-> ->]|[[-> ->]|[[-> ->]|(D1 & D2 & D3 & Np')]]].
    + discriminate Pn.
    + right. cbn [p_edge q1]. unfold upd. rewrite Nat.eqb_refl. auto.
    + discriminate Pn.
    + destruct (pi_none _ _ _ _ _ _ P _ _ Np' Pn) as [K|(K1 & K2 & K3)]; [left; exact K|right]. unfold upd. destruct (p_edge p =? a)%nat eqn:B; [apply Nat.eqb_eq in B; rewrite B in K2; congruence|]. auto.
  - intros i p Np Q1 Q2. destruct (Cases i p Np) as [[-> ->]|[[-> ->]|[[-> ->]|(D1 & D2 & D3 & Np')]]].
    + exfalso. rewrite H2 in Q2. lra.
    + cbn [p_edge q1]. split; [exact I|reflexivity].
    + rewrite Hr in Q2. exact (pi_act _ _ _ _ _ _ P _ _ Nr Q1 Q2).
    + exact (pi_act _ _ _ _ _ _ P _ _ Np' Q1 Q2).
  - intros e Le Xe. pose proof (pi_new _ _ _ _ _ _ P e Le Xe) as K. apply Other; [exact K| |].
    + intros ->. rewrite N in K. injection K as K. rewrite K in E. cbn [whole p_edge] in E. rewrite <- E in Lo. lra.
    + intros ->. rewrite Nr in K. injection K as ->. discriminate Pr.
  - intros b Ib. unfold upd. destruct (b =? a)%nat eqn:B.
    + apply Nat.eqb_eq in B. subst b. split; [exact La|]. split; [exact Lo|]. split; [apply (pi_cur _ _ _ _ _ _ P a I)|]. exists q1. split; [exact Ni0|]. split; [reflexivity|].
      rewrite Pa in En |- *. cbn [p_from q1]. split; [exact En|]. rewrite L1. split; [exact Lx|reflexivity].
    + destruct (pi_cur _ _ _ _ _ _ P b Ib) as (K1 & K2 & K3 & p & K4 & K5 & K6 & K7). repeat (split; [assumption|]).
      assert (Db : pc b <> i0). { intros X. rewrite X in K4. rewrite N in K4. injection K4 as <-. lia. }
      destruct (Nat.eq_dec (pc b) j) as [Ej|Ej].
      * rewrite Ej in K4 |- *. rewrite Nr in K4. injection K4 as <-. exists rr. split; [exact Nj|]. repeat (split; [assumption|]). rewrite Lr. destruct (stt b) eqn:Sb.
        -- exfalso. destruct K7 as [_ K7]. rewrite Pr in K7. injection K7 as K7. destruct (pi_good _ _ _ _ _ _ P b Ib Sb) as [G1 G2]. destruct (pi_cur _ _ _ _ _ _ P _ G1) as (_ & _ & _ & p' & Z1 & Z2 & _).
           rewrite <- K7, N in Z1. injection Z1 as <-. congruence.
        -- destruct K7 as [_ K7]. congruence.
        -- split; [apply K7|]. exists (length ps). reflexivity.
      * exists p. split; [apply Other; assumption|]. repeat (split; [assumption|]). exact K7.
  - intros b Ib Gb. unfold upd in Gb |- *. destruct (b =? a)%nat eqn:B; [discriminate Gb|]. destruct (pi_good _ _ _ _ _ _ P b Ib Gb) as [G1 G2]. split; [exact G1|]. destruct (tw b =? a)%nat eqn:T; [|exact G2]. apply Nat.eqb_eq in T. rewrite T in G2. congruence.
  - intros e Le. apply (subdivided_split ps _ i0 q q1 q2 loc); try reflexivity; auto.
    + intros X. rewrite E in X. subst e. rewrite <- (pol_forward a La). rewrite Pa. split; [intros X; discriminate X|intros _; rewrite <- Lq, <- Hq; lra].
    + intros k. rewrite Nth. destruct (k =? length ps)%nat; [reflexivity|]. destruct (k =? i0)%nat; [reflexivity|]. destruct (k =? j)%nat eqn:B; [|reflexivity]. apply Nat.eqb_eq in B. subst k. rewrite Nr. reflexivity.
    + exact (pi_sub _ _ _ _ _ _ P e Le).
Qed.

(** ** Connecting two fresh edges *)
Lemma link_pieces x A pc stt tw ps a b qa qb : PI x A pc stt tw ps -> In a A -> In b A -> stt a = Fresh -> stt b = Fresh -> pol b = negb (pol a) -> tw a = b -> tw b = a ->
  nth_error ps (pc a) = Some qa -> nth_error ps (pc b) = Some qb ->
  PI x A pc (upd (upd stt a Good) b Good) tw (set_nth (set_nth ps (pc a) (link (Some (pc b)) qa)) (pc b) (link (Some (pc a)) qb)).
Proof.
  intros P Ia Ib Sa Sb Pol Ta Tb Na Nb.
  destruct (pi_cur _ _ _ _ _ _ P a Ia) as (A1 & A2 & A3 & qa' & A4 & A5 & A6 & A7). rewrite Na in A4. injection A4 as <-. rewrite Sa in A7. destruct A7 as [A7 A8].
  destruct (pi_cur _ _ _ _ _ _ P b Ib) as (B1 & B2 & B3 & qb' & B4 & B5 & B6 & B7). rewrite Nb in B4. injection B4 as <-. rewrite Sb in B7. destruct B7 as [B7 B8].
  assert (Dab : a <> b) by (intros ->; destruct (pol b); discriminate).
  assert (Dpc : pc a <> pc b). { intros X. rewrite X, Nb in Na. injection Na as ->. congruence. }
  set (ra := link (Some (pc b)) qa). set (rb := link (Some (pc a)) qb).
  assert (La : (pc a < length ps)%nat) by exact (nth_some_lt _ _ _ Na). assert (Lb : (pc b < length ps)%nat) by exact (nth_some_lt _ _ _ Nb).
  assert (Nth : forall i, nth_error (set_nth (set_nth ps (pc a) ra) (pc b) rb) i = if (i =? pc b)%nat then Some rb else if (i =? pc a)%nat then Some ra else nth_error ps i).
  { intros i. rewrite nth_set_nth by (rewrite set_nth_length by exact La; exact Lb). rewrite nth_set_nth by exact La. reflexivity. }
  set (ps' := set_nth (set_nth ps (pc a) ra) (pc b) rb) in *.
  assert (Ha : x < phi qa). { unfold phi. rewrite A5. unfold hi, h_end in A3. unfold pol in *. destruct (h_pos s (hat hs a)); rewrite A6; exact A3. }
  assert (Hb : x < phi qb). { unfold phi. rewrite B5. unfold hi, h_end in B3. unfold pol in *. destruct (h_pos s (hat hs b)); rewrite B6; exact B3. }
  assert (Ea : p_edge ra = a) by exact A5. assert (Eb : p_edge rb = b) by exact B5.
  assert (Pla : plo ra = plo qa) by reflexivity. assert (Plb : plo rb = plo qb) by reflexivity. assert (Pha : phi ra = phi qa) by reflexivity. assert (Phb : phi rb = phi qb) by reflexivity.
  assert (Nra : nth_error ps' (pc a) = Some ra). { rewrite Nth. replace (pc a =? pc b)%nat with false by lia. rewrite Nat.eqb_refl. reflexivity. }
  assert (Nrb : nth_error ps' (pc b) = Some rb). { rewrite Nth. rewrite Nat.eqb_refl. reflexivity. }
  assert (Cases : forall i p, nth_error ps' i = Some p -> (i = pc b /\ p = rb) \/ (i = pc a /\ p = ra) \/ (i <> pc a /\ i <> pc b /\ nth_error ps i = Some p)).
  { intros i p Np. rewrite Nth in Np. destruct (i =? pc b)%nat eqn:Y1; [left; split; [lia|congruence]|]. destruct (i =? pc a)%nat eqn:Y2; [right; left; split; [lia|congruence]|]. right. right. repeat split; [lia|lia|exact Np]. }
  assert (Other : forall i p, nth_error ps i = Some p -> i <> pc a -> i <> pc b -> nth_error ps' i = Some p).
  { intros i p Np D D2. rewrite Nth. replace (i =? pc b)%nat with false by lia. replace (i =? pc a)%nat with false by lia. exact Np. }
  assert (Geo : forall i, option_map (fun q => (p_edge q, (p_from q, p_to q))) (nth_error ps i) = option_map (fun q => (p_edge q, (p_from q, p_to q))) (nth_error ps' i)).
  { intros i. rewrite Nth. destruct (i =? pc b)%nat eqn:Y1; [apply Nat.eqb_eq in Y1; subst i; rewrite Nb; reflexivity|]. destruct (i =? pc a)%nat eqn:Y2; [apply Nat.eqb_eq in Y2; subst i; rewrite Na; reflexivity|reflexivity]. }
  constructor.
  - intros i p Np. destruct (Cases i p Np) as [[-> ->]|[[-> ->]|(D1 & D2 & Np')]].
    + exact (pi_q _ _ _ _ _ _ P _ _ Nb).
    + exact (pi_q _ _ _ _ _ _ P _ _ Na).
    + exact (pi_q _ _ _ _ _ _ P _ _ Np').
  - intros i p k Np Pk. destruct (Cases i p Np) as [[-> ->]|[[-> ->]|(D1 & D2 & Np')]].
    + cbn [rb link p_partner] in Pk. injection Pk as <-. rewrite Eb. split; [exact B2|]. exists ra. split; [exact Nra|]. split; [reflexivity|]. rewrite Ea, Pla, Plb, Pha, Phb. split; [rewrite Pol, negb_involutive; reflexivity|].
      split; [lra|]. split; [right; split; lra|]. intros t T1 T2 T3 T4. lra.
    + cbn [ra link p_partner] in Pk. injection Pk as <-. rewrite Ea. split; [exact A2|]. exists rb. split; [exact Nrb|]. split; [reflexivity|]. rewrite Eb, Pla, Plb, Pha, Phb. split; [exact Pol|].
      split; [lra|]. split; [right; split; lra|]. intros t T1 T2 T3 T4. lra.
    + destruct (pi_link _ _ _ _ _ _ P _ _ _ Np' Pk) as (K1 & r' & K2 & K3 & K4). split; [exact K1|]. exists r'. split; [|split; assumption].
      apply Other; [exact K2| |]; intros ->; [rewrite Na in K2|rewrite Nb in K2]; injection K2 as <-; congruence.
  - intros i p Np Pn. destruct (Cases i p Np) as [[-> ->]|[[-> ->]|(D1 & D2 & Np')]]; [discriminate Pn|discriminate Pn|].
    destruct (pi_none _ _ _ _ _ _ P _ _ Np' Pn) as [K|(K1 & K2 & K3)]; [left; exact K|right]. split; [exact K1|]. split; [|exact K3]. unfold upd.
    destruct (p_edge p =? b)%nat eqn:Y; [apply Nat.eqb_eq in Y; rewrite Y in K3; congruence|]. destruct (p_edge p =? a)%nat eqn:Y'; [apply Nat.eqb_eq in Y'; rewrite Y' in K3; congruence|exact K2].
  - intros i p Np Q1 Q2. destruct (Cases i p Np) as [[-> ->]|[[-> ->]|(D1 & D2 & Np')]].
    + rewrite Eb. auto.
    + rewrite Ea. auto.
    + exact (pi_act _ _ _ _ _ _ P _ _ Np' Q1 Q2).
  - intros e Le Xe. pose proof (pi_new _ _ _ _ _ _ P e Le Xe) as K. apply Other; [exact K| |]; intros ->; [rewrite Na in K; injection K as ->; cbn in A5|rewrite Nb in K; injection K as ->; cbn in B5]; [rewrite A5 in Xe|rewrite B5 in Xe]; lra.
  - intros c Ic. destruct (pi_cur _ _ _ _ _ _ P c Ic) as (K1 & K2 & K3 & p & K4 & K5 & K6 & K7). repeat (split; [assumption|]). unfold upd.
    destruct (c =? b)%nat eqn:Y1; [apply Nat.eqb_eq in Y1; rewrite Y1 in *; clear Y1|destruct (c =? a)%nat eqn:Y2; [apply Nat.eqb_eq in Y2; rewrite Y2 in *; clear Y2|]].
    + rewrite Nb in K4. injection K4 as <-. exists rb. split; [exact Nrb|]. repeat (split; [assumption|]). rewrite Plb, Tb. split; [lra|reflexivity].
    + rewrite Na in K4. injection K4 as <-. exists ra. split; [exact Nra|]. repeat (split; [assumption|]). rewrite Pla, Ta. split; [lra|reflexivity].
    + exists p. split; [apply Other; [exact K4| |]; intros X; rewrite X in K4; [rewrite Na in K4|rewrite Nb in K4]; injection K4 as <-; lia|]. auto.
  - intros c Ic Gc. unfold upd in *. destruct (c =? b)%nat eqn:Y1; [apply Nat.eqb_eq in Y1; subst c; rewrite Tb; split; [exact Ia|]; replace (a =? b)%nat with false by lia; rewrite Nat.eqb_refl; reflexivity|].
    destruct (c =? a)%nat eqn:Y2; [apply Nat.eqb_eq in Y2; subst c; rewrite Ta; split; [exact Ib|]; rewrite Nat.eqb_refl; reflexivity|].
    destruct (pi_good _ _ _ _ _ _ P c Ic Gc) as [G1 G2]. split; [exact G1|]. destruct (tw c =? b)%nat; [reflexivity|]. destruct (tw c =? a)%nat; [reflexivity|exact G2].
  - intros e Le. apply (subdivided_ext ps); [exact Geo|]. exact (pi_sub _ _ _ _ _ _ P e Le).
Qed.
End Pieces.
