(** Proofs about MonotoneRange. *)
From Coq Require Import List Bool Arith ZArith QArith Lia Lqa.
From Verif Require Import BigUIntModel GeoModel GeoSpec TriModel TriSpec TriProofs PlanarModel MonoRangeModel MonoRangeSpec.
Import ListNotations.
Open Scope nat_scope.
Lemma get_some {A} (v : list A) i x : nth_error v i = Some x -> get v i = Ok x.
Proof. unfold get. intros ->. reflexivity. Qed.
Lemma get_lt {A} (v : list A) i : i < length v -> exists x, get v i = Ok x /\ nth_error v i = Some x /\ In x v.
Proof.
  intros L. destruct (nth_error v i) as [x|] eqn:E; [|apply nth_error_None in E; lia].
  exists x. split; [apply get_some, E|]. split; [reflexivity|]. exact (nth_error_In _ _ E).
Qed.
Section Range.
Context {P : Type} (k : kind P) (mono : nat) (v : list P) (key : P -> Q) (KEY : keyed k mono v key).
Lemma cmp_lt a b : In a v -> In b v -> (k_compare k mono a b < 0)%Z <-> (key a < key b)%Q.
Proof. intros A B. rewrite Qlt_alt, <- (KEY a b A B). rewrite Z.compare_lt_iff. reflexivity. Qed.
Lemma cmp_eq a b : In a v -> In b v -> (k_compare k mono a b = 0)%Z <-> (key a == key b)%Q.
Proof. intros A B. rewrite Qeq_alt, <- (KEY a b A B). rewrite Z.compare_eq_iff. reflexivity. Qed.
Lemma cmp_gt a b : In a v -> In b v -> (0 < k_compare k mono a b)%Z <-> (key b < key a)%Q.
Proof. intros A B. rewrite Qgt_alt, <- (KEY a b A B). rewrite Z.compare_gt_iff. reflexivity. Qed.
Section Dir.
Context (dir : Z) (DIR : dir <> 0%Z).
(** The number in the direction dir. *)
Definition h (p : P) : Q := if (0 <? dir)%Z then key p else (- key p)%Q.
Lemma dir_ge a b : In a v -> In b v -> (0 <=? k_compare k mono a b * dir)%Z = true <-> (h b <= h a)%Q.
Proof.
  intros A B. pose proof (cmp_lt a b A B) as L. pose proof (cmp_eq a b A B) as E. pose proof (cmp_gt a b A B) as G. rewrite Z.leb_le. unfold h. destruct (Z.ltb_spec 0 dir) as [D|D].
  - destruct (Z.lt_trichotomy (k_compare k mono a b) 0) as [C|[C|C]].
    + split; [nia|]. intros H. apply L in C. lra.
    + split; [|nia]. intros _. apply E in C. lra.
    + split; [|nia]. intros _. apply G in C. lra.
  - assert (D' : (dir < 0)%Z) by lia. destruct (Z.lt_trichotomy (k_compare k mono a b) 0) as [C|[C|C]].
    + split; [|nia]. intros _. apply L in C. lra.
    + split; [|nia]. intros _. apply E in C. lra.
    + split; [nia|]. intros H. apply G in C. lra.
Qed.
Lemma dir_gt a b : In a v -> In b v -> (0 <? k_compare k mono a b * dir)%Z = true <-> (h b < h a)%Q.
Proof.
  intros A B. pose proof (cmp_lt a b A B) as L. pose proof (cmp_eq a b A B) as E. pose proof (cmp_gt a b A B) as G. rewrite Z.ltb_lt. unfold h. destruct (Z.ltb_spec 0 dir) as [D|D].
  - destruct (Z.lt_trichotomy (k_compare k mono a b) 0) as [C|[C|C]].
    + split; [nia|]. intros H. apply L in C. lra.
    + split; [nia|]. intros H. apply E in C. lra.
    + split; [|nia]. intros _. apply G in C. lra.
  - assert (D' : (dir < 0)%Z) by lia. destruct (Z.lt_trichotomy (k_compare k mono a b) 0) as [C|[C|C]].
    + split; [|nia]. intros _. apply L in C. lra.
    + split; [nia|]. intros H. apply E in C. lra.
    + split; [nia|]. intros H. apply G in C. lra.
Qed.
Lemma dir_eq a b : In a v -> In b v -> (k_compare k mono a b =? 0)%Z = true <-> (h a == h b)%Q.
Proof.
  intros A B. rewrite Z.eqb_eq, (cmp_eq a b A B). unfold h. destruct (0 <? dir)%Z; split; intros H; lra.
Qed.
Lemma opp_ge a b : In a v -> In b v -> (0 <=? k_compare k mono a b * - dir)%Z = true <-> (h a <= h b)%Q.
Proof.
  intros A B. pose proof (dir_gt a b A B) as G. rewrite Z.ltb_lt in G. rewrite Z.leb_le. split; intros H.
  - destruct (Qlt_le_dec (h b) (h a)) as [C|C]; [|exact C]. apply G in C. nia.
  - destruct (Z.lt_ge_cases 0 (k_compare k mono a b * dir)) as [C|C]; [|nia]. apply G in C. lra.
Qed.
Lemma opp_gt a b : In a v -> In b v -> (0 <? k_compare k mono a b * - dir)%Z = true <-> (h a < h b)%Q.
Proof.
  intros A B. pose proof (dir_ge a b A B) as G. rewrite Z.leb_le in G. rewrite Z.ltb_lt. split; intros H.
  - destruct (Qlt_le_dec (h a) (h b)) as [C|C]; [exact C|]. apply G in C. nia.
  - destruct (Z.le_gt_cases 0 (k_compare k mono a b * dir)) as [C|C]; [|nia]. apply G in C. lra.
Qed.
(** The number at an index. *)
Definition X (i : nat) : Q := match nth_error v i with Some p => h p | None => 0%Q end.
Lemma X_at i p : nth_error v i = Some p -> X i = h p.
Proof. unfold X. intros ->. reflexivity. Qed.
Lemma follow_reverse_spec : forall fuel re next j, nth_error v (S re) = Some next -> j <= re -> (X (S re) < X j)%Q -> re - j < fuel ->
  exists r, follow_reverse fuel k mono v dir next re = Ok r /\ j < r <= S re /\ (X r < X (r - 1))%Q /\ forall i, r <= i <= re -> (X i <= X (S i))%Q.
Proof.
  induction fuel as [|f IH]; intros re next j N J LT F; [lia|]. cbn [follow_reverse].
  assert (LEN : S re < length v) by (apply nth_error_Some; congruence).
  destruct (get_lt v re ltac:(lia)) as (p & G & NP & IP). rewrite G. cbn [rbind].
  pose proof (nth_error_In _ _ N) as IN. pose proof (dir_ge next p IN IP) as D. rewrite <- (X_at _ _ N), <- (X_at _ _ NP) in D.
  destruct (0 <=? k_compare k mono next p * dir)%Z eqn:E.
  - assert (D' : (X re <= X (S re))%Q) by (apply D; reflexivity).
    assert (j < re). { destruct (Nat.eq_dec j re) as [->|]; [lra|lia]. }
    destruct re as [|re]; [lia|]. cbn [decrement rbind].
    destruct (IH re p j NP ltac:(lia) ltac:(lra) ltac:(lia)) as (r & ER & R1 & R2 & R3). exists r. split; [exact ER|]. split; [lia|]. split; [exact R2|].
    intros i I. destruct (Nat.eq_dec i (S re)) as [->|NE]; [exact D'|apply R3; lia].
  - exists (S re). split; [reflexivity|]. split; [lia|]. replace (S re - 1) with re by lia. split.
    + destruct (Qlt_le_dec (X (S re)) (X re)) as [C|C]; [exact C|]. apply D in C. discriminate.
    + intros i I. lia.
Qed.
Lemma follow_spec : forall fuel rb prev j, nth_error v (rb - 1) = Some prev -> 1 <= rb <= j -> j < length v -> (X j < X (rb - 1))%Q -> j - rb < fuel ->
  exists r, follow fuel k mono v dir prev rb = Ok r /\ rb <= r <= j /\ (X r < X (r - 1))%Q /\ forall i, rb <= i < r -> (X (i - 1) <= X i)%Q.
Proof.
  induction fuel as [|f IH]; intros rb prev j N J L LT F; [lia|]. cbn [follow].
  destruct (get_lt v rb ltac:(lia)) as (p & G & NP & IP). rewrite G. cbn [rbind].
  pose proof (nth_error_In _ _ N) as IN. pose proof (dir_ge p prev IP IN) as D. rewrite <- (X_at _ _ N), <- (X_at _ _ NP) in D.
  destruct (0 <=? k_compare k mono p prev * dir)%Z eqn:E.
  - assert (D' : (X (rb - 1) <= X rb)%Q) by (apply D; reflexivity).
    assert (rb < j). { destruct (Nat.eq_dec j rb) as [->|]; [lra|lia]. }
    destruct (IH (S rb) p j) as (r & ER & R1 & R2 & R3); [replace (S rb - 1) with rb by lia; exact NP|lia|exact L|replace (S rb - 1) with rb by lia; lra|lia|].
    exists r. split; [exact ER|]. split; [lia|]. split; [exact R2|].
    intros i I. destruct (Nat.eq_dec i rb) as [->|NE]; [exact D'|apply R3; lia].
  - exists rb. split; [reflexivity|]. split; [lia|]. split.
    + destruct (Qlt_le_dec (X rb) (X (rb - 1))) as [C|C]; [exact C|]. apply D in C. discriminate.
    + intros i I. lia.
Qed.
Lemma follow_up_to_spec : forall fuel rb prev j u, nth_error v (rb - 1) = Some prev -> In u v -> 1 <= rb <= j -> j < length v -> (X j <= h u)%Q -> j - rb < fuel ->
  exists r, follow_up_to fuel k mono v (- dir) prev rb u = Ok r /\ rb <= r <= j /\ ~ (h u < X r /\ X r <= X (r - 1))%Q /\
    forall i, rb <= i < r -> (h u < X i /\ X i <= X (i - 1))%Q.
Proof.
  induction fuel as [|f IH]; intros rb prev j u N U J L LE F; [lia|]. cbn [follow_up_to].
  destruct (get_lt v rb ltac:(lia)) as (p & G & NP & IP). rewrite G. cbn [rbind].
  pose proof (nth_error_In _ _ N) as IN. pose proof (opp_ge p prev IP IN) as D. pose proof (opp_gt u p U IP) as D2. rewrite <- (X_at _ _ N), <- (X_at _ _ NP) in D. rewrite <- (X_at _ _ NP) in D2.
  destruct (0 <? k_compare k mono u p * - dir)%Z eqn:E2; [destruct (0 <=? k_compare k mono p prev * - dir)%Z eqn:E|]; cbn [andb].
  - assert (D' : (X rb <= X (rb - 1))%Q) by (apply D; reflexivity). assert (D2' : (h u < X rb)%Q) by (apply D2; reflexivity).
    assert (rb < j). { destruct (Nat.eq_dec j rb) as [->|]; [lra|lia]. }
    destruct (IH (S rb) p j u) as (r & ER & R1 & R2 & R3); [replace (S rb - 1) with rb by lia; exact NP|exact U|lia|exact L|exact LE|lia|].
    exists r. split; [exact ER|]. split; [lia|]. split; [exact R2|].
    intros i I. destruct (Nat.eq_dec i rb) as [->|NE]; [split; assumption|apply R3; lia].
  - exists rb. split; [reflexivity|]. split; [lia|]. split; [|intros i I; lia]. intros [_ C]. apply D in C. discriminate.
  - exists rb. split; [reflexivity|]. split; [lia|]. split; [|intros i I; lia]. intros [C _]. apply D2 in C. discriminate.
Qed.
Lemma follow_up_to_reverse_spec : forall fuel re next j u, nth_error v (S re) = Some next -> In u v -> j <= re -> (h u <= X j)%Q -> re - j < fuel ->
  exists r, follow_up_to_reverse fuel k mono v (- dir) next re u = Ok r /\ j < r <= S re /\ ~ (X r <= X (r - 1) /\ X (r - 1) < h u)%Q /\
    forall i, r <= i <= re -> (X (S i) <= X i /\ X i < h u)%Q.
Proof.
  induction fuel as [|f IH]; intros re next j u N U J LE F; [lia|]. cbn [follow_up_to_reverse].
  assert (LEN : S re < length v) by (apply nth_error_Some; congruence).
  destruct (get_lt v re ltac:(lia)) as (p & G & NP & IP). rewrite G. cbn [rbind].
  pose proof (nth_error_In _ _ N) as IN. pose proof (opp_ge next p IN IP) as D. pose proof (opp_gt p u IP U) as D2. rewrite <- (X_at _ _ N), <- (X_at _ _ NP) in D. rewrite <- (X_at _ _ NP) in D2.
  destruct (0 <=? k_compare k mono next p * - dir)%Z eqn:E; [destruct (0 <? k_compare k mono p u * - dir)%Z eqn:E2|]; cbn [andb].
  - assert (D' : (X (S re) <= X re)%Q) by (apply D; reflexivity). assert (D2' : (X re < h u)%Q) by (apply D2; reflexivity).
    assert (j < re). { destruct (Nat.eq_dec j re) as [->|]; [lra|lia]. }
    destruct re as [|re]; [lia|]. cbn [decrement rbind].
    destruct (IH re p j u NP U ltac:(lia) LE ltac:(lia)) as (r & ER & R1 & R2 & R3). exists r. split; [exact ER|]. split; [lia|]. split; [exact R2|].
    intros i I. destruct (Nat.eq_dec i (S re)) as [->|NE]; [split; assumption|apply R3; lia].
  - exists (S re). split; [reflexivity|]. split; [lia|]. replace (S re - 1) with re by lia. split; [|intros i I; lia]. intros [_ C]. apply D2 in C. discriminate.
  - exists (S re). split; [reflexivity|]. split; [lia|]. replace (S re - 1) with re by lia. split; [|intros i I; lia]. intros [C _]. apply D in C. discriminate.
Qed.
Lemma skip_equal_spec : forall fuel rb re, rb <= re < length v -> re - rb < fuel ->
  exists r, skip_equal fuel k mono v rb re = Ok r /\ rb <= r <= re /\ (r = re \/ ~ (X r == X re)%Q) /\ forall i, rb <= i < r -> (X i == X re)%Q.
Proof.
  induction fuel as [|f IH]; intros rb re L F; [lia|]. cbn [skip_equal]. destruct (Nat.eqb_spec rb re) as [->|NE].
  - exists re. split; [reflexivity|]. split; [lia|]. split; [left; reflexivity|]. intros i I. lia.
  - destruct (get_lt v rb ltac:(lia)) as (p & G & NP & IP). destruct (get_lt v re ltac:(lia)) as (q & G' & NQ & IQ). rewrite G, G'. cbn [rbind].
    pose proof (dir_eq p q IP IQ) as D. rewrite <- (X_at _ _ NP), <- (X_at _ _ NQ) in D.
    destruct (k_compare k mono p q =? 0)%Z eqn:E.
    + destruct (IH (S rb) re ltac:(lia) ltac:(lia)) as (r & ER & R1 & R2 & R3). exists r. split; [exact ER|]. split; [lia|]. split; [exact R2|].
      intros i I. destruct (Nat.eq_dec i rb) as [->|NE']; [apply D; reflexivity|apply R3; lia].
    + exists rb. split; [reflexivity|]. split; [lia|]. split; [|intros i I; lia]. right. intros C. apply D in C. discriminate.
Qed.
Lemma skip_equal_reverse_spec : forall fuel rb re u, In u v -> rb <= re < length v -> re - rb < fuel ->
  exists r, skip_equal_reverse fuel k mono v u rb re = Ok r /\ rb <= r <= re /\ (r = rb \/ ~ (X r == h u)%Q) /\ forall i, r < i <= re -> (X i == h u)%Q.
Proof.
  induction fuel as [|f IH]; intros rb re u U L F; [lia|]. cbn [skip_equal_reverse]. destruct (Nat.eqb_spec rb re) as [->|NE].
  - exists re. split; [reflexivity|]. split; [lia|]. split; [left; reflexivity|]. intros i I. lia.
  - destruct (get_lt v re ltac:(lia)) as (q & G' & NQ & IQ). rewrite G'. cbn [rbind].
    pose proof (dir_eq u q U IQ) as D. rewrite <- (X_at _ _ NQ) in D.
    destruct (k_compare k mono u q =? 0)%Z eqn:E.
    + destruct re as [|re]; [lia|]. cbn [decrement rbind].
      destruct (IH rb re u U ltac:(lia) ltac:(lia)) as (r & ER & R1 & R2 & R3). exists r. split; [exact ER|]. split; [lia|]. split; [exact R2|].
      intros i I. destruct (Nat.eq_dec i (S re)) as [->|NE']; [symmetry; apply D; reflexivity|apply R3; lia].
    + exists re. split; [reflexivity|]. split; [lia|]. split; [|intros i I; lia]. right. intros C. assert (false = true) by (apply D; lra). discriminate.
Qed.
End Dir.
Lemma get_dir_spec last : In last v -> forall fuel rb re, rb <= re < length v -> re - rb < fuel ->
  exists dir r, get_dir fuel k mono v last rb re = Ok (dir, r) /\ rb <= r <= re /\ (forall i p, rb <= i < r -> nth_error v i = Some p -> (key p == key last)%Q) /\
    ((dir = 0%Z /\ r = re) \/ (dir <> 0%Z /\ r < re /\ exists p, nth_error v r = Some p /\ dir = k_compare k mono p last)).
Proof.
  intros IL. induction fuel as [|f IH]; intros rb re L F; [lia|]. cbn [get_dir]. destruct (Nat.eqb_spec rb re) as [->|NE].
  - exists 0%Z, re. split; [reflexivity|]. split; [lia|]. split; [intros i p I; lia|]. left. split; reflexivity.
  - destruct (get_lt v rb ltac:(lia)) as (p & G & NP & IP). rewrite G. cbn [rbind]. destruct (Z.eqb_spec (k_compare k mono p last) 0) as [E|E].
    + destruct (IH (S rb) re ltac:(lia) ltac:(lia)) as (dir & r & ER & R1 & R2 & R3). exists dir, r. split; [exact ER|]. split; [lia|]. split; [|exact R3].
      intros i q I NQ. destruct (Nat.eq_dec i rb) as [->|NE']; [|apply (R2 i); [lia|exact NQ]]. rewrite NP in NQ. injection NQ as <-. apply (cmp_eq p last IP IL), E.
    + exists (k_compare k mono p last), rb. split; [reflexivity|]. split; [lia|]. split; [intros i q I; lia|]. right. split; [exact E|]. split; [lia|]. exists p. split; [exact NP|reflexivity].
Qed.
(** What Build computes, in terms of indices: r1, r2 are remaining_end and
    remaining_begin after steps 2 and 3, r3 and r4 after steps 4 and 5. *)
Definition x_of (dir : Z) (i : nat) : Q := X dir i.
Record steps (b e : nat) (dir : Z) (r1 r2 r3 r4 : nat) : Prop := Steps {
  st_1 : b < r2 <= r3; st_2 : r3 <= r4 <= r1; st_3 : r1 < e;
  st_wrap : (x_of dir (e - 1) <= x_of dir b)%Q; st_first : (x_of dir r1 < x_of dir (r2 - 1))%Q;
  st_up1 : forall i, r1 <= i -> S i < e -> (x_of dir i <= x_of dir (S i))%Q;
  st_up2 : forall i, b < i < r2 -> (x_of dir (i - 1) <= x_of dir i)%Q;
  st_down1 : forall i, r2 <= i < r3 -> (x_of dir r1 <= x_of dir i /\ x_of dir i <= x_of dir (i - 1))%Q;
  st_down2 : forall i, r4 <= i < r1 -> (x_of dir (S i) <= x_of dir i /\ x_of dir i <= x_of dir (r3 - 1))%Q;
  st_end1 : (x_of dir r2 < x_of dir (r2 - 1))%Q; st_end2 : (x_of dir r1 < x_of dir (r1 - 1))%Q;
  st_stop1 : r3 < r4 -> ~ (x_of dir r1 <= x_of dir r3 /\ x_of dir r3 <= x_of dir (r3 - 1))%Q;
  st_stop2 : r3 < r4 -> ~ (x_of dir r4 <= x_of dir (r4 - 1) /\ x_of dir (r4 - 1) <= x_of dir (r3 - 1))%Q }.
Lemma build_steps dbg b e : b < e <= length v -> exists dir,
  (dir = 0%Z /\ (forall i j p q, b <= i < e -> b <= j < e -> nth_error v i = Some p -> nth_error v j = Some q -> (key p == key q)%Q) /\
   mr_build dbg k mono v b e = Ok (MR 0%Z (between v b e) (between v (e - 1) e ++ (if e - 1 =? b then [] else between v b (S b))) (e - 1) (e - 1))) \/
  (dir <> 0%Z /\ exists r1 r2 r3 r4, steps b e dir r1 r2 r3 r4 /\
   mr_build dbg k mono v b e = Ok (MR dir (between v r1 e ++ between v b r2) (between v (r2 - 1) r3 ++ between v r4 (S r1)) (if r3 =? r4 then r3 else r3 - 1) (if r3 =? r4 then r4 else S r4))).
Proof.
  intros L. unfold mr_build. destruct (Nat.eqb_spec b e) as [?|_]; [lia|]. destruct e as [|re]; [lia|]. cbn [decrement rbind]. replace (S re - 1) with re by lia.
  destruct (get_lt v re ltac:(lia)) as (last & G & NL & IL). rewrite G. cbn [rbind].
  destruct (get_dir_spec last IL (S (length v)) b re ltac:(lia) ltac:(lia)) as (dir & rb & ED & RB & EQ & CASE). rewrite ED. cbn [rbind].
  exists dir. destruct CASE as [[-> ->]|(DIR & LT & p & NP & DV)].
  - left. split; [reflexivity|]. split; [|rewrite Z.eqb_refl; reflexivity].
    assert (A : forall i p, b <= i < S re -> nth_error v i = Some p -> (key p == key last)%Q).
    { intros i p I N. destruct (Nat.eq_dec i re) as [->|NE]; [|apply (EQ i); [lia|exact N]]. rewrite NL in N. injection N as <-. reflexivity. }
    intros i j p q I J N M. rewrite (A i p I N), (A j q J M). reflexivity.
  - right. split; [exact DIR|]. destruct (Z.eqb_spec dir 0) as [?|_]; [contradiction|].
    assert (IP : In p v) by exact (nth_error_In _ _ NP).
    assert (LTp : (X dir re < X dir rb)%Q).
    { rewrite (X_at dir _ _ NP), (X_at dir _ _ NL). apply (dir_gt dir DIR p last IP IL). apply Z.ltb_lt. subst dir. nia. }
    assert (EQX : forall i, b <= i < rb -> (X dir i == X dir re)%Q).
    { intros i I. destruct (get_lt v i ltac:(lia)) as (q & _ & NQ & IQ). rewrite (X_at dir _ _ NQ), (X_at dir _ _ NL). apply (dir_eq dir q last IQ IL). apply Z.eqb_eq, (cmp_eq q last IQ IL), (EQ i q I NQ). }
    replace (rb =? re) with false by (symmetry; apply Nat.eqb_neq; lia). cbn [negb]. assert (CK : forall c, c = true -> check dbg c = Ok tt) by (intros c ->; destruct dbg; reflexivity). rewrite CK by reflexivity. cbn [rbind].
    (* step 2 *)
    assert (re <> 0) by lia. destruct re as [|re1]; [lia|]. cbn [decrement rbind].
    destruct (follow_reverse_spec dir DIR (S (length v)) re1 last rb NL ltac:(lia) LTp ltac:(lia)) as (r1 & E1 & R1 & UP1 & MON1). rewrite E1. cbn [rbind].
    rewrite (CK (negb (r1 =? rb))) by (apply negb_true_iff, Nat.eqb_neq; lia). rewrite (CK (negb (r1 =? S (S re1)))) by (apply negb_true_iff, Nat.eqb_neq; lia). cbn [rbind].
    assert (M1 : forall i, r1 <= i <= S re1 -> (X dir r1 <= X dir i /\ X dir i <= X dir (S re1))%Q).
    { assert (forall d i, i = r1 + d -> i <= S re1 -> (X dir r1 <= X dir i)%Q).
      { induction d as [|d IH]; intros i -> I; [rewrite Nat.add_0_r; lra|]. specialize (IH _ eq_refl ltac:(lia)). specialize (MON1 (r1 + d) ltac:(lia)). replace (r1 + S d) with (S (r1 + d)) by lia. lra. }
      assert (forall d i, S re1 = i + d -> r1 <= i -> (X dir i <= X dir (S re1))%Q).
      { induction d as [|d IH]; intros i E I; [replace i with (S re1) by lia; lra|]. specialize (IH (S i) ltac:(lia) ltac:(lia)). specialize (MON1 i ltac:(lia)). lra. }
      intros i I. split; [apply (H0 (i - r1)); lia|apply (H1 (S re1 - i)); lia]. }
    (* step 3 *)
    rewrite (get_some _ _ _ NP). cbn [rbind].
    destruct (follow_spec dir DIR (S (length v)) (S rb) p r1) as (r2 & E2 & R2 & DN2 & MON2); [replace (S rb - 1) with rb by lia; exact NP|lia|lia| |lia|].
    { replace (S rb - 1) with rb by lia. destruct (M1 r1 ltac:(lia)) as [_ M]. lra. }
    rewrite E2. cbn [rbind]. rewrite (CK (negb (r2 =? b))) by (apply negb_true_iff, Nat.eqb_neq; lia). cbn [rbind].
    assert (M2 : forall i, rb <= i < r2 -> (X dir rb <= X dir i)%Q).
    { assert (forall d i, i = rb + d -> i < r2 -> (X dir rb <= X dir i)%Q).
      { induction d as [|d IH]; intros i -> I; [rewrite Nat.add_0_r; lra|]. specialize (IH _ eq_refl ltac:(lia)). specialize (MON2 (rb + S d) ltac:(lia)). replace (rb + S d - 1) with (rb + d) in MON2 by lia. lra. }
      intros i I. apply (H0 (i - rb)); lia. }
    (* step 4 *)
    destruct r2 as [|rg]; [lia|]. cbn [decrement rbind]. replace (S rg - 1) with rg in * by lia.
    destruct (get_lt v rg ltac:(lia)) as (pg & GG & NG & IG). rewrite GG. cbn [rbind].
    destruct (get_lt v r1 ltac:(lia)) as (p1 & G1 & N1 & I1). rewrite G1. cbn [rbind].
    assert (TOP : (X dir r1 < X dir rg)%Q). { destruct (M1 (S re1) ltac:(lia)) as [M _]. specialize (M2 rg ltac:(lia)). lra. }
    destruct (follow_up_to_spec dir DIR (S (length v)) (S rg) pg r1 p1) as (r3' & E3 & R3' & S3 & MON3); [replace (S rg - 1) with rg by lia; exact NG|exact I1|lia|lia|rewrite (X_at dir _ _ N1); lra|lia|].
    rewrite E3. cbn [rbind]. rewrite <- (X_at dir _ _ N1) in S3, MON3. rewrite (CK (negb (r3' =? rg))) by (apply negb_true_iff, Nat.eqb_neq; lia). cbn [rbind].
    destruct (skip_equal_spec dir (S (length v)) r3' r1 ltac:(lia) ltac:(lia)) as (r3 & E4 & R3 & S3' & EQ3). rewrite E4. cbn [rbind].
    assert (GE3 : forall i, rg <= i < r3 -> (X dir r1 <= X dir i)%Q).
    { intros i I. destruct (Nat.eq_dec i rg) as [->|NE]; [lra|]. destruct (le_lt_dec r3' i); [specialize (EQ3 i ltac:(lia)); lra|destruct (MON3 i ltac:(lia)); lra]. }
    assert (DN3 : forall i, S rg <= i < r3 -> (X dir r1 <= X dir i /\ X dir i <= X dir (i - 1))%Q).
    { intros i I. split; [apply GE3; lia|]. destruct (le_lt_dec r3' i); [|apply MON3; lia]. specialize (EQ3 i ltac:(lia)). specialize (GE3 (i - 1) ltac:(lia)). lra. }
    (* step 5 *)
    assert (r1 <> 0) by lia. destruct r1 as [|r10]; [lia|]. cbn [decrement rbind]. destruct r3 as [|la]; [lia|]. cbn [decrement rbind].
    destruct (get_lt v la ltac:(lia)) as (pl & GL & NLA & ILA). rewrite GL. cbn [rbind].
    destruct (follow_up_to_reverse_spec dir DIR (S (length v)) r10 p1 la pl N1 ILA ltac:(lia)) as (r4' & E5 & R4' & S4 & MON4); [rewrite (X_at dir _ _ NLA); lra|lia|].
    rewrite E5. cbn [rbind]. rewrite <- (X_at dir _ _ NLA) in S4, MON4.
    assert (STOP1 : S la < S r10 -> ~ (X dir (S r10) <= X dir (S la) /\ X dir (S la) <= X dir la)%Q).
    { intros LTs [A B]. destruct S3' as [C|C]; [lia|]. destruct (Nat.eq_dec r3' (S la)) as [->|NE].
      - apply S3. replace (S la - 1) with la by lia. split; [|exact B]. destruct (Qeq_dec (X dir (S la)) (X dir (S r10))); [contradiction|lra].
      - specialize (EQ3 la ltac:(lia)). apply C. lra. }
    destruct (Nat.eqb_spec (S la) r4') as [E6|NE6].
    + cbn [rbind]. replace (S la =? r4') with true by (symmetry; apply Nat.eqb_eq; exact E6). exists (S r10), (S rg), (S la), r4'. split.
      * subst r4'. split; unfold x_of; replace (S rg - 1) with rg by lia; replace (S la - 1) with la by lia; replace (S (S re1) - 1) with (S re1) by lia; replace (S r10 - 1) with r10 in * by lia; try lia; try assumption.
        -- destruct (Nat.eq_dec b rb) as [->|NE]; [lra|]. rewrite (EQX b ltac:(lia)). lra.
        -- intros i I I'. apply MON1. lia.
        -- intros i I. destruct (le_lt_dec i rb) as [C|C].
           ++ destruct (Nat.eq_dec i rb) as [->|NE]; [rewrite (EQX (rb - 1) ltac:(lia)); lra|]. rewrite (EQX (i - 1) ltac:(lia)), (EQX i ltac:(lia)). lra.
           ++ apply MON2. lia.
        -- intros i I. destruct (MON4 i ltac:(lia)). split; lra.
      * replace (S rg - 1) with rg by lia. replace (S la =? r4') with true by (symmetry; apply Nat.eqb_eq; exact E6). reflexivity.
    + destruct r4' as [|r40]; [lia|]. cbn [decrement rbind]. replace (S r40 - 1) with r40 in * by lia.
      destruct (skip_equal_reverse_spec dir (S (length v)) (S la) r40 pl ILA ltac:(lia) ltac:(lia)) as (r4 & E7 & R4 & S4' & EQ4). rewrite E7. cbn [rbind]. rewrite <- (X_at dir _ _ NLA) in S4', EQ4.
      replace (S la =? S r4) with false by (symmetry; apply Nat.eqb_neq; lia). replace (S la - 1) with la by lia. exists (S r10), (S rg), (S la), (S r4). replace (S la =? S r4) with false by (symmetry; apply Nat.eqb_neq; lia).
      replace (S rg - 1) with rg by lia. replace (S la - 1) with la by lia. split; [|reflexivity].
      assert (LOW : forall i, r40 < i <= S r10 -> (X dir i <= X dir la)%Q).
      { intros i I. destruct (Nat.eq_dec i (S r10)) as [->|NE]; [apply GE3; lia|]. destruct (MON4 i ltac:(lia)). lra. }
      split; unfold x_of; replace (S rg - 1) with rg by lia; replace (S la - 1) with la by lia; replace (S (S re1) - 1) with (S re1) by lia; replace (S r10 - 1) with r10 in * by lia; replace (S r4 - 1) with r4 by lia; try lia; try assumption.
      * destruct (Nat.eq_dec b rb) as [->|NE]; [lra|]. rewrite (EQX b ltac:(lia)). lra.
      * intros i I I'. apply MON1. lia.
      * intros i I. destruct (le_lt_dec i rb) as [C|C].
        -- destruct (Nat.eq_dec i rb) as [->|NE]; [rewrite (EQX (rb - 1) ltac:(lia)); lra|]. rewrite (EQX (i - 1) ltac:(lia)), (EQX i ltac:(lia)). lra.
        -- apply MON2. lia.
      * intros i I. destruct (le_lt_dec i r40) as [C|C].
        -- rewrite (EQ4 i ltac:(lia)). split; [|lra]. destruct (Nat.eq_dec i r40) as [->|NE]; [apply LOW; lia|]. rewrite (EQ4 (S i) ltac:(lia)). lra.
        -- destruct (MON4 i ltac:(lia)). split; lra.
      * intros _. apply STOP1. lia.
      * intros _ [A B]. destruct S4' as [->|NE].
        -- apply STOP1; [lia|]. split; [|exact B].
           assert (forall d i, S r10 = i + d -> S la < i -> (X dir (S r10) <= X dir i)%Q).
           { induction d as [|d IH]; intros i E I; [replace i with (S r10) by lia; lra|]. specialize (IH (S i) ltac:(lia) ltac:(lia)). destruct (le_lt_dec i r40).
             - rewrite (EQ4 i ltac:(lia)). apply GE3. lia.
             - destruct (MON4 i ltac:(lia)). lra. }
           specialize (H1 (S r10 - S (S la)) (S (S la)) ltac:(lia) ltac:(lia)). lra.
        -- destruct (Nat.eq_dec r4 r40) as [->|NE'].
           ++ apply S4. split; [exact A|]. destruct (Qeq_dec (X dir r40) (X dir la)); [contradiction|lra].
           ++ specialize (EQ4 (S r4) ltac:(lia)). apply NE. lra.
Qed.
End Range.
