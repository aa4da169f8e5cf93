(** The chains of MonotoneRange. *)
From Coq Require Import List Bool Arith ZArith QArith Lia Lqa.
From Verif Require Import BigUIntModel GeoModel GeoSpec TriModel TriSpec TriProofs PlanarModel MonoRangeModel MonoRangeSpec MonoRangeProofs.
Import ListNotations.
Open Scope nat_scope.
(** ** Ranges *)
Lemma nth_between {A} (v : list A) b e i : b + i < e -> nth_error (between v b e) i = nth_error v (b + i).
Proof.
  intros L. unfold between.
  assert (G : forall (l : list A) n i, i < n -> nth_error (firstn n l) i = nth_error l i).
  { induction l as [|x l IH]; intros n j J; [rewrite firstn_nil; reflexivity|]. destruct n as [|n]; [lia|]. destruct j as [|j]; [reflexivity|]. cbn. apply IH. lia. }
  rewrite G by lia. clear. revert v. induction b as [|b IH]; intros v; [reflexivity|]. destruct v as [|x v]; [rewrite skipn_nil; cbn; destruct i; reflexivity|]. apply IH.
Qed.
Lemma between_length {A} (v : list A) b e : e <= length v -> length (between v b e) = e - b.
Proof. intros L. unfold between. rewrite firstn_length, skipn_length. lia. Qed.
Lemma between_split {A} (v : list A) b m e : b <= m <= e -> between v b e = between v b m ++ between v m e.
Proof.
  intros L. unfold between. replace (e - b) with ((m - b) + (e - m)) by lia.
  replace (skipn m v) with (skipn (m - b) (skipn b v)).
  - generalize (skipn b v) as l, (m - b) as n, (e - m) as j. induction l as [|x l IH]; intros n j; [rewrite skipn_nil, !firstn_nil; reflexivity|]. destruct n as [|n]; [reflexivity|]. cbn. f_equal. apply IH.
  - replace m with (b + (m - b)) at 2 by lia. generalize (m - b) as n. clear. revert v. induction b as [|b IH]; intros v n; [reflexivity|]. destruct v as [|x v]; [rewrite !skipn_nil; reflexivity|]. cbn [plus skipn]. apply IH.
Qed.
Lemma between_same {A} (v : list A) b : between v b b = [].
Proof. unfold between. rewrite Nat.sub_diag. reflexivity. Qed.
Lemma between_one {A} (v : list A) i x : nth_error v i = Some x -> between v i (S i) = [x].
Proof.
  intros N. unfold between. replace (S i - i) with 1 by lia. revert i N. induction v as [|y v IH]; intros [|i] N; try discriminate.
  - cbn in *. injection N as ->. reflexivity.
  - cbn [skipn]. apply IH. exact N.
Qed.
Lemma between_cons {A} (v : list A) b e x : b < e -> nth_error v b = Some x -> between v b e = x :: between v (S b) e.
Proof. intros L N. rewrite (between_split v b (S b) e) by lia. rewrite (between_one v b x N). reflexivity. Qed.
Lemma between_snoc {A} (v : list A) b e x : b <= e -> nth_error v e = Some x -> between v b (S e) = between v b e ++ [x].
Proof. intros L N. rewrite (between_split v b e (S e)) by lia. rewrite (between_one v e x N). reflexivity. Qed.
(** ** Edges of a path *)
Lemma path_edge {A} (l : list A) a b : In (a, b) (path_edges l) <-> exists i, nth_error l i = Some a /\ nth_error l (S i) = Some b.
Proof.
  induction l as [|x [|y l] IH].
  - split; [contradiction|]. intros ([|i] & E & _); discriminate.
  - split; [contradiction|]. intros ([|[|i]] & _ & E); discriminate.
  - change (path_edges (x :: y :: l)) with ((x, y) :: path_edges (y :: l)). cbn [In]. rewrite IH. split.
    + intros [E|(i & E1 & E2)]; [injection E as -> ->; exists 0; split; reflexivity|]. exists (S i). split; assumption.
    + intros ([|i] & E1 & E2); [left; cbn in *; congruence|]. right. exists i. split; assumption.
Qed.
Definition linked {A} (R : A -> A -> Prop) (l : list A) : Prop := forall i a b, nth_error l i = Some a -> nth_error l (S i) = Some b -> R a b.
Lemma linked_app {A} (R : A -> A -> Prop) l1 l2 : linked R l1 -> linked R l2 ->
  (forall a b, nth_error l1 (length l1 - 1) = Some a -> nth_error l2 0 = Some b -> R a b) -> linked R (l1 ++ l2).
Proof.
  intros L1 L2 J i a b A0 B0. destruct (le_lt_dec (length l1) i) as [C|C].
  - rewrite nth_error_app2 in A0 by lia. rewrite nth_error_app2 in B0 by lia. apply (L2 (i - length l1)); [exact A0|]. replace (S (i - length l1)) with (S i - length l1) by lia. exact B0.
  - rewrite nth_error_app1 in A0 by lia. destruct (le_lt_dec (length l1) (S i)) as [D|D].
    + rewrite nth_error_app2 in B0 by lia. apply J; [replace (length l1 - 1) with i by lia; exact A0|]. replace 0 with (S i - length l1) by lia. exact B0.
    + rewrite nth_error_app1 in B0 by lia. exact (L1 i a b A0 B0).
Qed.
Lemma nth_error_rev {A} (l : list A) i : i < length l -> nth_error (rev l) i = nth_error l (length l - 1 - i).
Proof.
  intros L. destruct (nth_error l (length l - 1 - i)) as [x|] eqn:E; [|apply nth_error_None in E; lia].
  rewrite (nth_error_nth' (rev l) x) by (rewrite rev_length; exact L). f_equal. rewrite rev_nth by exact L. apply nth_error_nth. rewrite <- E. f_equal. lia.
Qed.
Lemma linked_rev {A} (R : A -> A -> Prop) l : linked (fun a b => R b a) l -> linked R (rev l).
Proof.
  intros L i a b A0 B0. assert (D : S i < length l). { rewrite <- (rev_length l). apply nth_error_Some. congruence. }
  rewrite nth_error_rev in A0 by lia. rewrite nth_error_rev in B0 by lia. apply (L (length l - 1 - S i)); [exact B0|]. replace (S (length l - 1 - S i)) with (length l - 1 - i) by lia. exact A0.
Qed.
Lemma linked_between {A} (R : A -> A -> Prop) v b e : e <= length v -> (forall i p q, b <= i -> S i < e -> nth_error v i = Some p -> nth_error v (S i) = Some q -> R p q) -> linked R (between v b e).
Proof.
  intros LE H i p q N M. assert (D : S i < e - b). { rewrite <- (between_length v b e LE). apply nth_error_Some. congruence. }
  rewrite nth_between in N, M by lia. apply (H (b + i)); [lia|lia|exact N|]. rewrite <- M. f_equal. lia.
Qed.
Lemma hd_rev_last {A} (l : list A) : hd_error (rev l) = nth_error l (length l - 1).
Proof.
  destruct l as [|x l]; [reflexivity|]. replace (hd_error (rev (x :: l))) with (nth_error (rev (x :: l)) 0) by (destruct (rev (x :: l)); reflexivity).
  rewrite nth_error_rev by (cbn; lia). f_equal. lia.
Qed.
Section Chains.
Context {P : Type} (k : kind P) (mono : nat) (v : list P) (key : P -> Q) (KEY : keyed k mono v key).
(** Ascending in the direction dir. *)
Definition up (dir : Z) (a b : P) : Prop := (h key dir a <= h key dir b)%Q.
Lemma x_at dir i p : nth_error v i = Some p -> x_of v key dir i = h key dir p.
Proof. apply X_at. Qed.
Section Of.
Context (b e : nat) (dir : Z) (r1 r2 r3 r4 : nat) (LE : e <= length v) (ST : steps v key b e dir r1 r2 r3 r4).
Let c1 := between v r1 e ++ between v b r2.
Let c2 := between v (r2 - 1) r3 ++ between v r4 (S r1).
Lemma chain1_up : linked (up dir) c1.
Proof.
  destruct ST as [A1 A2 A3 W F U1 U2 D1 D2 E1 E2 S1 S2]. apply linked_app.
  - apply linked_between; [exact LE|]. intros i p q I I' N M. unfold up. rewrite <- (x_at dir _ _ N), <- (x_at dir _ _ M). apply U1; lia.
  - apply linked_between; [lia|]. intros i p q I I' N M. unfold up. rewrite <- (x_at dir _ _ N), <- (x_at dir _ _ M). specialize (U2 (S i) ltac:(lia)). replace (S i - 1) with i in U2 by lia. exact U2.
  - intros p q N M. rewrite between_length in N by exact LE. rewrite nth_between in N by lia. rewrite nth_between in M by lia. unfold up. rewrite <- (x_at dir _ _ N), <- (x_at dir _ _ M).
    replace (r1 + (e - r1 - 1)) with (e - 1) by lia. replace (b + 0) with b by lia. exact W.
Qed.
Lemma low3 i : r2 - 1 <= i < r3 -> (x_of v key dir r1 <= x_of v key dir i)%Q.
Proof.
  destruct ST as [A1 A2 A3 W F U1 U2 D1 D2 E1 E2 S1 S2]. intros I. destruct (Nat.eq_dec i (r2 - 1)) as [->|NE]; [lra|]. apply (D1 i). lia.
Qed.
Lemma chain2_down : linked (fun p q => up dir q p) c2.
Proof.
  pose proof low3 as L3. destruct ST as [A1 A2 A3 W F U1 U2 D1 D2 E1 E2 S1 S2]. apply linked_app.
  - apply linked_between; [lia|]. intros i p q I I' N M. unfold up. rewrite <- (x_at dir _ _ N), <- (x_at dir _ _ M). destruct (D1 (S i) ltac:(lia)) as [_ G]. replace (S i - 1) with i in G by lia. exact G.
  - apply linked_between; [lia|]. intros i p q I I' N M. unfold up. rewrite <- (x_at dir _ _ N), <- (x_at dir _ _ M). apply D2. lia.
  - intros p q N M. rewrite between_length in N by lia. rewrite nth_between in N by lia. rewrite nth_between in M by lia. unfold up. rewrite <- (x_at dir _ _ N), <- (x_at dir _ _ M).
    replace (r2 - 1 + (r3 - (r2 - 1) - 1)) with (r3 - 1) by lia. replace (r4 + 0) with r4 by lia.
    destruct (Nat.eq_dec r4 r1) as [->|NE]; [apply L3; lia|]. apply (D2 r4). lia.
Qed.
Lemma ends_same : exists a z, nth_error c1 0 = Some a /\ nth_error c2 (length c2 - 1) = Some a /\ nth_error c1 (length c1 - 1) = Some z /\ nth_error c2 0 = Some z.
Proof.
  destruct ST as [A1 A2 A3 W F U1 U2 D1 D2 E1 E2 S1 S2]. unfold c1, c2.
  destruct (get_lt v r1 ltac:(lia)) as (a & _ & NA & _). destruct (get_lt v (r2 - 1) ltac:(lia)) as (z & _ & NZ & _). exists a, z.
  rewrite !app_length, !between_length by lia.
  rewrite (nth_error_app1 _ _ (n := 0)) by (rewrite between_length; lia). rewrite (nth_between v r1 e) by lia. rewrite Nat.add_0_r. split; [exact NA|].
  rewrite (nth_error_app2 (between v (r2 - 1) r3)) by (rewrite between_length; lia). rewrite between_length by lia. rewrite nth_between by lia. split; [rewrite <- NA; f_equal; lia|].
  rewrite (nth_error_app2 (between v r1 e)) by (rewrite between_length; lia). rewrite between_length by lia. rewrite nth_between by lia. split; [rewrite <- NZ; f_equal; lia|].
  rewrite (nth_error_app1 _ _ (n := 0)) by (rewrite between_length; lia). rewrite (nth_between v (r2 - 1)) by lia. rewrite Nat.add_0_r. exact NZ.
Qed.
(** The cycle, without the repeated ends. *)
Lemma cycle_up : c1 ++ removelast (tl c2) = between v r1 e ++ (between v b r3 ++ between v r4 r1).
Proof.
  destruct ST as [A1 A2 A3 W F U1 U2 D1 D2 E1 E2 S1 S2]. unfold c1, c2.
  destruct (get_lt v r1 ltac:(lia)) as (a & _ & NA & _). destruct (get_lt v (r2 - 1) ltac:(lia)) as (z & _ & NZ & _).
  rewrite (between_cons v (r2 - 1) r3 z ltac:(lia) NZ). cbn [tl app]. rewrite (between_snoc v r4 r1 a ltac:(lia) NA). rewrite app_assoc, removelast_last.
  replace (S (r2 - 1)) with r2 by lia. rewrite (between_split v b r2 r3) by lia. rewrite <- !app_assoc. reflexivity.
Qed.
Lemma cycle_down : c2 ++ removelast (tl c1) = (between v (r2 - 1) r3 ++ between v r4 e) ++ between v b (r2 - 1).
Proof.
  destruct ST as [A1 A2 A3 W F U1 U2 D1 D2 E1 E2 S1 S2]. unfold c1, c2.
  destruct (get_lt v r1 ltac:(lia)) as (a & _ & NA & _). destruct (get_lt v (r2 - 1) ltac:(lia)) as (z & _ & NZ & _).
  rewrite (between_cons v r1 e a ltac:(lia) NA). cbn [tl app]. replace r2 with (S (r2 - 1)) at 2 by lia. rewrite (between_snoc v b (r2 - 1) z ltac:(lia) NZ). rewrite (app_assoc (between v (S r1) e)), removelast_last.
  rewrite (between_split v r4 (S r1) e) by lia. rewrite <- !app_assoc. reflexivity.
Qed.
End Of.
(** ** Build *)
Theorem build_ok dbg b e : b < e <= length v -> exists r c1 c2 pre mid suf, mr_build dbg k mono v b e = Ok r /\ get_chains r = (c1, c2) /\
  between v b e = pre ++ mid ++ suf /\ rotation (loop_of c1 c2) (pre ++ suf) /\ same_ends c1 c2 /\ ascending key c1 /\ ascending key c2 /\
  b <= mr_begin r <= mr_end r /\ mr_end r <= e /\
  ((mid = [] /\ mr_begin r = mr_end r) \/
   (exists pre' x y suf', pre = pre' ++ [x] /\ suf = y :: suf' /\ mid <> [] /\ between v (mr_begin r) (mr_end r) = x :: mid ++ [y] /\
      forall m1 z m2, mid = m1 ++ z :: m2 -> m1 = [] \/ m2 = [] -> ~ within key x y z)).
Proof.
  intros L. destruct (build_steps k mono v key KEY dbg b e L) as (dir & [(-> & EQ & E)|(DIR & r1 & r2 & r3 & r4 & ST & E)]).
  - destruct (get_lt v b ltac:(lia)) as (a & _ & NA & _). destruct (get_lt v (e - 1) ltac:(lia)) as (z & _ & NZ & _).
    set (r := MR 0%Z _ _ _ _) in E. exists r, (between v b e), (if e - 1 =? b then [a] else [a; z]), (between v b e), [], []. split; [exact E|].
    assert (C2 : rev (mr_chain2 r) = (if e - 1 =? b then [a] else [a; z])).
    { unfold r. cbn [mr_chain2]. replace (between v (e - 1) e) with [z] by (replace e with (S (e - 1)) at 2 by lia; symmetry; apply between_one, NZ).
      destruct (Nat.eqb_spec (e - 1) b) as [E1|E1]; [rewrite E1 in NZ; rewrite NA in NZ; injection NZ as <-; reflexivity|]. rewrite (between_one v b a NA). reflexivity. }
    assert (RC : rev (if e - 1 =? b then [a] else [a; z]) = mr_chain2 r) by (rewrite <- C2; apply rev_involutive).
    split; [unfold get_chains; cbn [mr_dir mr_chain1 r]; rewrite C2; reflexivity|].
    split; [rewrite !app_nil_r; reflexivity|]. split; [|split; [|split; [|split]]].
    + unfold loop_of. exists (between v b e), []. split; [|rewrite app_nil_r; reflexivity]. f_equal. destruct (Nat.eqb_spec (e - 1) b); reflexivity.
    + exists a, z. rewrite !hd_rev_last. rewrite between_length by lia. replace (hd_error (between v b e)) with (nth_error (between v b e) 0) by (destruct (between v b e); reflexivity).
      rewrite nth_between by lia. rewrite Nat.add_0_r. split; [exact NA|]. split; [destruct (e - 1 =? b); reflexivity|].
      rewrite nth_between by lia. split; [rewrite <- NZ; f_equal; lia|]. destruct (Nat.eqb_spec (e - 1) b) as [E1|E1]; [|reflexivity]. rewrite E1 in NZ. rewrite NA in NZ. injection NZ as <-. reflexivity.
    + intros p q PQ. apply path_edge in PQ. destruct PQ as (i & N & M). assert (S i < e - b) by (rewrite <- (between_length v b e ltac:(lia)); apply nth_error_Some; congruence).
      rewrite nth_between in N, M by lia. rewrite (EQ (b + i) (b + S i) p q ltac:(lia) ltac:(lia) N M). lra.
    + intros p q PQ. destruct (Nat.eqb_spec (e - 1) b) as [E1|E1]; [contradiction|]. destruct PQ as [PQ|[]]. injection PQ as <- <-. rewrite (EQ b (e - 1) a z ltac:(lia) ltac:(lia) NA NZ). lra.
    + unfold r. cbn [mr_begin mr_end]. split; [lia|]. split; [lia|]. left. split; reflexivity.
  - set (c1 := between v r1 e ++ between v b r2) in *. set (c2 := between v (r2 - 1) r3 ++ between v r4 (S r1)) in *. set (r := MR dir c1 c2 _ _) in E.
    pose proof (chain1_up b e dir r1 r2 r3 r4 ltac:(lia) ST) as UP. pose proof (chain2_down b e dir r1 r2 r3 r4 ltac:(lia) ST) as DN. fold c1 in UP. fold c2 in DN.
    destruct (ends_same b e dir r1 r2 r3 r4 ltac:(lia) ST) as (a & z & EA & EA' & EZ & EZ'). fold c1 c2 in EA, EA', EZ, EZ'.
    pose proof (cycle_up b e dir r1 r2 r3 r4 ltac:(lia) ST) as CU. pose proof (cycle_down b e dir r1 r2 r3 r4 ltac:(lia) ST) as CD. fold c1 c2 in CU, CD.
    destruct ST as [A1 A2 A3 W F U1 U2 D1 D2 E1 E2 S1 S2].
    assert (H0 : forall (l : list P), hd_error l = nth_error l 0) by (intros [|? ?]; reflexivity).
    exists r. exists (if (0 <=? dir)%Z then c1 else c2), (rev (if (0 <=? dir)%Z then c2 else c1)), (between v b r3), (between v r3 r4), (between v r4 e). split; [exact E|].
    split; [unfold get_chains; cbn [mr_dir mr_chain1 mr_chain2 r]; destruct (0 <=? dir)%Z; reflexivity|].
    split; [rewrite (between_split v b r3 e) by lia; rewrite (between_split v r3 r4 e) by lia; reflexivity|].
    split; [|split; [|split; [|split; [|split; [|split]]]]].
    + unfold loop_of. rewrite rev_involutive. destruct (0 <=? dir)%Z.
      * rewrite CU. eexists _, _. split; [reflexivity|]. rewrite (between_split v r4 r1 e) by lia. rewrite <- app_assoc. reflexivity.
      * rewrite CD. eexists _, _. split; [reflexivity|]. rewrite (between_split v b (r2 - 1) r3) by lia. rewrite <- app_assoc. reflexivity.
    + destruct (0 <=? dir)%Z; [exists a, z|exists z, a]; rewrite !rev_involutive, !hd_rev_last, !H0; rewrite ?EA, ?EZ, ?EA', ?EZ'; repeat split; reflexivity.
    + intros p q PQ. apply path_edge in PQ. destruct PQ as (i & N & M). destruct (Z.leb_spec 0 dir) as [D|D].
      * specialize (UP i p q N M). unfold up, h in UP. replace (0 <? dir)%Z with true in UP by (symmetry; apply Z.ltb_lt; lia). exact UP.
      * specialize (DN i p q N M). unfold up, h in DN. replace (0 <? dir)%Z with false in DN by (symmetry; apply Z.ltb_ge; lia). lra.
    + intros p q PQ. apply path_edge in PQ. destruct PQ as (i & N & M). destruct (Z.leb_spec 0 dir) as [D|D].
      * pose proof (linked_rev _ _ DN i p q N M) as G. unfold up, h in G. replace (0 <? dir)%Z with true in G by (symmetry; apply Z.ltb_lt; lia). exact G.
      * pose proof (linked_rev (fun a b => up dir b a) _ UP i p q N M) as G. unfold up, h in G. replace (0 <? dir)%Z with false in G by (symmetry; apply Z.ltb_ge; lia). lra.
    + unfold r. cbn [mr_begin mr_end]. destruct (Nat.eqb_spec r3 r4); lia.
    + unfold r. cbn [mr_begin mr_end]. destruct (Nat.eqb_spec r3 r4); lia.
    + unfold r. cbn [mr_begin mr_end]. destruct (Nat.eqb_spec r3 r4) as [->|NE]; [left; split; [apply between_same|reflexivity]|]. right.
      destruct (get_lt v (r3 - 1) ltac:(lia)) as (x & _ & NX & _). destruct (get_lt v r4 ltac:(lia)) as (y & _ & NY & _).
      exists (between v b (r3 - 1)), x, y, (between v (S r4) e). split; [|split; [|split; [|split]]].
      * replace r3 with (S (r3 - 1)) at 1 by lia. apply between_snoc; [lia|exact NX].
      * apply between_cons; [lia|exact NY].
      * intros C. apply (f_equal (@length P)) in C. rewrite between_length in C by lia. cbn in C. lia.
      * rewrite (between_cons v (r3 - 1) (S r4) x ltac:(lia) NX). replace (S (r3 - 1)) with r3 by lia. rewrite (between_snoc v r3 r4 y ltac:(lia) NY). reflexivity.
      * intros m1 w m2 EM CASE.
        assert (LM : r4 - r3 = length m1 + S (length m2)) by (rewrite <- (between_length v r3 r4) by lia; rewrite EM, app_length; reflexivity).
        assert (NW : nth_error v (r3 + length m1) = Some w). { rewrite <- (nth_between v r3 r4) by lia. rewrite EM, nth_error_app2 by lia. rewrite Nat.sub_diag. reflexivity. }

        assert (LY : (x_of v key dir r1 <= x_of v key dir r4 /\ x_of v key dir r4 <= x_of v key dir (r3 - 1))%Q).
        { assert (G : forall d i, r1 = i + d -> r4 <= i -> (x_of v key dir r1 <= x_of v key dir i)%Q).
          { induction d as [|d IH]; intros i EI I; [replace i with r1 by lia; lra|]. specialize (IH (S i) ltac:(lia) ltac:(lia)). destruct (D2 i ltac:(lia)). lra. }
          split; [apply (G (r1 - r4)); lia|]. destruct (Nat.eq_dec r4 r1) as [->|NE']; [|apply (D2 r4); lia].
          destruct (Nat.eq_dec r3 r2) as [->|NE2]; [lra|]. apply (D1 (r3 - 1)). lia. }
        assert (WI : within key x y w -> (x_of v key dir r4 <= x_of v key dir (r3 + length m1) /\ x_of v key dir (r3 + length m1) <= x_of v key dir (r3 - 1))%Q).
        { rewrite (x_at dir _ _ NW), (x_at dir _ _ NX), (x_at dir _ _ NY) in *. unfold within, h in *. destruct (0 <? dir)%Z; intros [[WA WB]|[WA WB]]; split; lra. }
        intros WW. apply WI in WW. destruct CASE as [-> | ->].
        -- cbn [length] in *. rewrite Nat.add_0_r in WW. apply S1; [lia|]. split; [lra|apply WW].
        -- cbn [length] in *. replace (r3 + length m1) with (r4 - 1) in WW by lia. apply S2; [lia|]. exact WW.
Qed.
(** ** Progress *)
Theorem build_progress dbg b e r : b < e <= length v -> mr_build dbg k mono v b e = Ok r ->
  mr_end r - mr_begin r < e - b \/ (mr_begin r = b /\ mr_end r = e /\ stuck key (between v b e)).
Proof.
  intros L E. destruct (build_steps k mono v key KEY dbg b e L) as (dir & [(-> & EQ & E')|(DIR & r1 & r2 & r3 & r4 & ST & E')]); rewrite E' in E; injection E as <-; cbn [mr_begin mr_end].
  - left. lia.
  - destruct ST as [A1 A2 A3 W F U1 U2 D1 D2 E1 E2 S1 S2]. destruct (Nat.eqb_spec r3 r4) as [->|NE]; [left; lia|].
    destruct (Nat.eq_dec (r3 - 1) b) as [B|B]; [|left; lia]. destruct (Nat.eq_dec (S r4) e) as [B'|B']; [|left; lia]. right.
    assert (r3 = S b) by lia. assert (r4 = e - 1) by lia. assert (r1 = e - 1) by lia. assert (r2 = S b) by lia. subst r1 r2 r3 r4. split; [lia|]. split; [lia|].
    replace (S b - 1) with b in * by lia. replace (e - 1 - 1) with (e - 2) in * by lia.
    assert (H2 : (x_of v key dir (S b) < x_of v key dir (e - 1))%Q).
    { destruct (Qlt_le_dec (x_of v key dir (S b)) (x_of v key dir (e - 1))) as [C|C]; [exact C|]. exfalso. apply S1; [lia|]. split; lra. }
    assert (H1 : (x_of v key dir b < x_of v key dir (e - 2))%Q).
    { destruct (Qlt_le_dec (x_of v key dir b) (x_of v key dir (e - 2))) as [C|C]; [exact C|]. exfalso. apply S2; [lia|]. split; lra. }
    assert (b + 2 <= e - 2). { destruct (Nat.eq_dec (S b) (e - 2)) as [C|C]; [rewrite <- C in H1; lra|lia]. }
    destruct (get_lt v b ltac:(lia)) as (a0 & _ & N0 & _). destruct (get_lt v (S b) ltac:(lia)) as (a1 & _ & N1 & _). destruct (get_lt v (e - 2) ltac:(lia)) as (z1 & _ & M1 & _). destruct (get_lt v (e - 1) ltac:(lia)) as (z0 & _ & M0 & _).
    exists a0, a1, (between v (b + 2) (e - 2)), z1, z0. split.
    + rewrite (between_cons v b e a0 ltac:(lia) N0). rewrite (between_cons v (S b) e a1 ltac:(lia) N1). do 2 f_equal. replace (S (S b)) with (b + 2) by lia.
      replace e with (S (e - 1)) at 1 by lia. rewrite (between_snoc v (b + 2) (e - 1) z0 ltac:(lia) M0). replace (e - 1) with (S (e - 2)) by lia. rewrite (between_snoc v (b + 2) (e - 2) z1 ltac:(lia) M1). rewrite <- app_assoc. reflexivity.
    + rewrite (x_at dir _ _ N0), (x_at dir _ _ N1), (x_at dir _ _ M1), (x_at dir _ _ M0) in *. unfold h in *. destruct (0 <? dir)%Z; [left|right]; repeat split; lra.
Qed.
Lemma stuck_keeps dbg b e r : b < e <= length v -> stuck key (between v b e) -> mr_build dbg k mono v b e = Ok r -> mr_begin r = b /\ mr_end r = e.
Proof.
  intros L (a0 & a1 & m & z1 & z0 & EL & K) E. destruct (build_progress dbg b e r L E) as [LT|(H1 & H2 & _)]; [|split; assumption]. exfalso.
  assert (LEN : e - b = length m + 4) by (rewrite <- (between_length v b e) by lia; rewrite EL; cbn [length]; rewrite app_length; cbn; lia).
  assert (N : forall i, i < e - b -> nth_error v (b + i) = nth_error (a0 :: a1 :: m ++ [z1; z0]) i) by (intros i I; rewrite <- EL; symmetry; apply nth_between; lia).
  assert (N0 : nth_error v b = Some a0) by (rewrite <- (Nat.add_0_r b), N by lia; reflexivity).
  assert (N1 : nth_error v (S b) = Some a1) by (replace (S b) with (b + 1) by lia; rewrite N by lia; reflexivity).
  assert (M1 : nth_error v (e - 2) = Some z1). { replace (e - 2) with (b + S (S (length m))) by lia. rewrite N by lia. cbn. rewrite nth_error_app2 by lia. rewrite Nat.sub_diag. reflexivity. }
  assert (M0 : nth_error v (e - 1) = Some z0). { replace (e - 1) with (b + S (S (S (length m)))) by lia. rewrite N by lia. change (nth_error (m ++ [z1; z0]) (S (length m)) = Some z0). rewrite nth_error_app2 by lia. replace (S (length m) - length m) with 1 by lia. reflexivity. }
  destruct (build_steps k mono v key KEY dbg b e L) as (dir & [(-> & EQ & E')|(DIR & r1 & r2 & r3 & r4 & ST & E')]); rewrite E' in E; injection E as <-; cbn [mr_begin mr_end] in LT.
  - rewrite (EQ b (S b) a0 a1 ltac:(lia) ltac:(lia) N0 N1) in K. rewrite (EQ (S b) (e - 1) a1 z0 ltac:(lia) ltac:(lia) N1 M0) in K. lra.
  - destruct ST as [A1 A2 A3 W F U1 U2 D1 D2 E1 E2 S1 S2].
    assert (Xs : x_of v key dir b = h key dir a0 /\ x_of v key dir (S b) = h key dir a1 /\ x_of v key dir (e - 2) = h key dir z1 /\ x_of v key dir (e - 1) = h key dir z0).
    { repeat split; apply x_at; assumption. }
    destruct Xs as (X0 & X1 & Y1 & Y0).
    assert (K' : (x_of v key dir (S b) < x_of v key dir (e - 1) /\ x_of v key dir (e - 1) < x_of v key dir b /\ x_of v key dir b < x_of v key dir (e - 2))%Q).
    { rewrite X0, Y0 in W. rewrite X0, X1, Y1, Y0. unfold h in *. destruct (0 <? dir)%Z; destruct K as [K|K]; repeat split; lra. }
    assert (r1 = e - 1). { destruct (Nat.eq_dec r1 (e - 1)) as [C|C]; [exact C|]. specialize (U1 (e - 2) ltac:(lia) ltac:(lia)). replace (S (e - 2)) with (e - 1) in U1 by lia. lra. }
    assert (r2 = S b). { destruct (Nat.eq_dec r2 (S b)) as [C|C]; [exact C|]. specialize (U2 (S b) ltac:(lia)). replace (S b - 1) with b in U2 by lia. lra. }
    subst r1 r2.
    assert (r3 = S b). { destruct (Nat.eq_dec r3 (S b)) as [C|C]; [exact C|]. destruct (D1 (S b) ltac:(lia)). lra. }
    subst r3. replace (S b - 1) with b in * by lia.
    assert (r4 = e - 1). { destruct (Nat.eq_dec r4 (e - 1)) as [C|C]; [exact C|]. destruct (D2 (e - 2) ltac:(lia)). lra. }
    subst r4. destruct (Nat.eqb_spec (S b) (e - 1)); lia.
Qed.
End Chains.
