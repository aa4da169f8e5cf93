(** ApplySecondary: the heap. *)
From Coq Require Import List ZArith QArith Arith Lia Lqa Bool Permutation.
From Verif Require Import BigUIntModel GeoModel GeoSpec GeoProofs AabbSpec AabbTrackerProofs EvtModel EvtSpec EvtTokProofs EvtProofs EvtArrProofs PrimModel PrimProofs SecondModel.
Import ListNotations.
Open Scope Q_scope.

Section Heap.
Context (d : nat) (negs poss : list epoly) (FN : Forall (poly_fit d) negs) (FP : Forall (poly_fit d) poss).
Definition hkey (h : mevent) : Q := key (lo d (kids negs poss (m_pos h))) (hi d (kids negs poss (m_pos h))) (m_start h, m_poly h).
Definition inside (h : mevent) : Prop := (m_poly h < length (kids negs poss (m_pos h)))%nat.
Definition front (e : mevent) (l : list mevent) : Prop := forall x, In x l -> hkey e <= hkey x /\ (hkey e == hkey x -> m_start e = true -> m_start x = true).
Lemma kids_fit b : Forall (poly_fit d) (kids negs poss b).
Proof. destruct b; assumption. Qed.
Lemma kid_get b i : (i < length (kids negs poss b))%nat -> exists r, nth_error (kids negs poss b) i = Some r /\ hw (e_min r) <> 0%Z /\ hw (e_max r) <> 0%Z /\ coord d (e_min r) = lo d (kids negs poss b) i /\ coord d (e_max r) = hi d (kids negs poss b) i.
Proof.
  intros L. destruct (nth_error (kids negs poss b) i) as [r|] eqn:E; [|apply nth_error_None in E; lia]. exists r. split; [reflexivity|]. pose proof (kids_fit b) as FB. rewrite Forall_forall in FB. destruct (FB r (nth_error_In _ _ E)) as (A & B & _). unfold lo, hi. rewrite E. auto.
Qed.
Lemma h_loc_ok h : inside h -> exists v, h_loc negs poss h = Ok v /\ hw v <> 0%Z /\ coord d v = hkey h.
Proof.
  intros L. destruct (kid_get _ _ L) as (r & E & A & B & C & D). unfold h_loc. rewrite E. unfold hkey, key. cbn [fst snd]. destruct (m_start h); eauto.
Qed.
Lemma comp_spec u v : hw u <> 0%Z -> hw v <> 0%Z -> hp_compare_comp d u v = qsign (coord d u - coord d v).
Proof. intros A B. rewrite (hp_compare_comp_spec d u v _ _ (denotes_value u A) (denotes_value v B)), <- !coord_value. reflexivity. Qed.
Lemma equiv_spec u v : hw u <> 0%Z -> hw v <> 0%Z -> (hp_equiv_comp d u v = true <-> coord d u == coord d v).
Proof. intros A B. rewrite (hp_equiv_comp_spec d u v _ _ (denotes_value u A) (denotes_value v B)), <- !coord_value. reflexivity. Qed.
Lemma lt_spec u v : hw u <> 0%Z -> hw v <> 0%Z -> (hp_lt_comp d u v = true <-> coord d u < coord d v).
Proof. intros A B. rewrite (hp_lt_comp_spec d u v _ _ (denotes_value u A) (denotes_value v B)), <- !coord_value. reflexivity. Qed.
Lemma h_after_ok a b : inside a -> inside b -> exists r, h_after d negs poss a b = Ok r /\ (r = true <-> hkey b < hkey a \/ hkey a == hkey b /\ m_start a = true /\ m_start b = false).
Proof.
  intros A B. destruct (h_loc_ok a A) as (u & U1 & U2 & U3), (h_loc_ok b B) as (v & V1 & V2 & V3). unfold h_after. rewrite U1, V1. cbn [rbind]. eexists. split; [reflexivity|]. rewrite (comp_spec u v U2 V2), U3, V3.
  destruct (qsign_range (hkey a - hkey b)) as [Q|[Q|Q]]; rewrite Q; cbn.
  - apply qsign_sub_lt in Q. split; [discriminate|]. intros [H|[H _]]; lra.
  - apply qsign_sub_eq in Q. rewrite andb_true_iff, negb_true_iff. split; [intros H; right; auto|]. intros [H|[_ H]]; [lra|exact H].
  - apply qsign_sub_gt in Q. split; [intros _; left; exact Q|reflexivity].
Qed.
Lemma rforall_ok {A} (f : A -> res bool) (P : A -> Prop) l : (forall x, In x l -> exists r, f x = Ok r /\ (r = true <-> P x)) -> exists r, rforall f l = Ok r /\ (r = true <-> forall x, In x l -> P x).
Proof.
  induction l as [|a l IH]; intros H; [exists true; split; [reflexivity|]; split; [intros _ x []|reflexivity]|]. destruct (H a (or_introl eq_refl)) as (r & R1 & R2), (IH (fun x I => H x (or_intror I))) as (q & Q1 & Q2). cbn [rforall]. rewrite R1. cbn [rbind]. rewrite Q1. cbn [rbind]. eexists. split; [reflexivity|]. rewrite andb_true_iff, R2, Q2. split.
  - intros [X Y] x [<-|I]; auto.
  - intros X. split; [apply X; left; reflexivity|]. intros x I. apply X. right. exact I.
Qed.
Lemma not_after e x : ~ (hkey x < hkey e \/ hkey e == hkey x /\ m_start e = true /\ m_start x = false) <-> hkey e <= hkey x /\ (hkey e == hkey x -> m_start e = true -> m_start x = true).
Proof.
  split.
  - intros N. split; [destruct (Qlt_le_dec (hkey x) (hkey e)); [exfalso; apply N; left; assumption|assumption]|]. intros A B. destruct (m_start x); [reflexivity|]. exfalso. apply N. right. auto.
  - intros [A B] [C|(C & D & E)]; [lra|]. rewrite (B C D) in E. discriminate.
Qed.
Lemma test_ok e l : inside e -> (forall x, In x l -> inside x) -> exists r, rforall (fun x => y <- h_after d negs poss e x ;; Ok (negb y)) l = Ok r /\ (r = true <-> front e l).
Proof.
  intros E I. apply (rforall_ok _ (fun x => hkey e <= hkey x /\ (hkey e == hkey x -> m_start e = true -> m_start x = true))). intros x X. destruct (h_after_ok e x E (I x X)) as (r & R1 & R2). exists (negb r). rewrite R1. split; [reflexivity|]. rewrite negb_true_iff, <- not_after, <- R2. destruct r; intuition discriminate.
Qed.
Lemma cut_perm {A} (l : list A) c e : nth_error l c = Some e -> Permutation l (e :: firstn c l ++ skipn (S c) l).
Proof.
  intros E. destruct (nth_error_split l c E) as (u & v & -> & <-). rewrite firstn_app, firstn_all, Nat.sub_diag. cbn [firstn]. rewrite app_nil_r. replace (skipn (S (length u)) (u ++ e :: v)) with v; [apply Permutation_sym, Permutation_middle|].
  rewrite skipn_app, skipn_all2 by lia. replace (S (length u) - length u)%nat with 1%nat by lia. reflexivity.
Qed.
Lemma settle_ok c l : (forall x, In x l -> inside x) -> settle d negs poss c l = NoFuel \/ exists l', settle d negs poss c l = Ok l' /\ Permutation l l' /\ forall e r, l' = e :: r -> front e l'.
Proof.
  intros I. unfold settle. destruct l as [|a l]; [right; exists []; split; [reflexivity|]; split; [constructor|discriminate]|]. remember (a :: l) as L eqn:EL. destruct (nth_error L c) as [e|] eqn:E; [|left; reflexivity].
  destruct (test_ok e L (I e (nth_error_In _ _ E)) I) as (r & R1 & R2). rewrite R1. cbn [rbind]. destruct r; [|left; reflexivity]. right. eexists. split; [reflexivity|]. split; [exact (cut_perm L c e E)|]. intros e' r' X. injection X as -> _. apply proj1 in R2. specialize (R2 eq_refl). intros x X. apply R2. exact (Permutation_in x (Permutation_sym (cut_perm L c e' E)) X).
Qed.
Lemma least l : l <> [] -> exists e, In e l /\ front e l.
Proof.
  induction l as [|a l IH]; [congruence|]. intros _. destruct l as [|b l]; [exists a; split; [left; reflexivity|]; intros x [<-|[]]; split; [lra|auto]|].
  destruct IH as (e & E1 & E2); [discriminate|]. destruct (Qlt_le_dec (hkey a) (hkey e)) as [L|L].
  - exists a. split; [left; reflexivity|]. intros x [<-|X]; [split; [lra|auto]|]. destruct (E2 x X) as [Y _]. split; [lra|]. intros H. lra.
  - destruct (Qlt_le_dec (hkey e) (hkey a)) as [L'|L'].
    + exists e. split; [right; exact E1|]. intros x [<-|X]; [split; [lra|intros; lra]|apply E2, X].
    + destruct (m_start e) eqn:SE.
      * exists a. split; [left; reflexivity|]. intros x [<-|X]; [split; [lra|auto]|]. destruct (E2 x X) as [Y Y']. split; [lra|]. intros H _. apply Y'; [lra|exact SE].
      * exists e. split; [right; exact E1|]. intros x [<-|X]; [split; [lra|congruence]|apply E2, X].
Qed.
Lemma settle_some l : (forall x, In x l -> inside x) -> exists c l', settle d negs poss c l = Ok l'.
Proof.
  intros I. destruct l as [|a l]; [exists 0%nat, []; reflexivity|]. destruct (least (a :: l)) as (e & E1 & E2); [discriminate|]. destruct (In_nth_error _ _ E1) as (c & C). exists c. unfold settle. rewrite C.
  destruct (test_ok e (a :: l) (I e E1) I) as (r & R1 & R2). rewrite R1. cbn [rbind]. rewrite (proj2 R2 E2). eauto.
Qed.
Lemma still_ok v l : hw v <> 0%Z -> (forall x, In x l -> inside x) -> exists r, still d negs poss (Some v) l = Ok r /\ (r = true <-> exists h l', l = h :: l' /\ hkey h == coord d v).
Proof.
  intros V I. destruct l as [|h l]; [exists false; split; [reflexivity|]; split; [discriminate|intros (h & l & X & _); discriminate]|]. destruct (h_loc_ok h (I h (or_introl eq_refl))) as (u & U1 & U2 & U3). cbn [still]. rewrite U1. cbn [rbind]. eexists. split; [reflexivity|]. rewrite (equiv_spec v u V U2), U3. split.
  - intros H. exists h, l. split; [reflexivity|lra].
  - intros (h' & l' & X & Y). injection X as <- <-. lra.
Qed.
End Heap.
Arguments kids_fit {d} {negs} {poss} FN FP b.
Arguments kid_get {d} {negs} {poss} FN FP b i _.
Arguments h_loc_ok {d} {negs} {poss} FN FP h _.
Arguments comp_spec {d} u v _ _.
Arguments equiv_spec {d} u v _ _.
Arguments lt_spec {d} u v _ _.
Arguments h_after_ok {d} {negs} {poss} FN FP a b _ _.
Arguments not_after {d} {negs} {poss} e x.
Arguments test_ok {d} {negs} {poss} FN FP e l _ _.
Arguments settle_ok {d} {negs} {poss} FN FP c l _.
Arguments least {d} {negs} {poss} l _.
Arguments settle_some {d} {negs} {poss} FN FP l _.
Arguments still_ok {d} {negs} {poss} FN FP v l _ _.
