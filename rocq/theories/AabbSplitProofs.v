(** ConvexVertexAABBTracker::CreateSplitChildren keeps extreme indices and
    tight boxes. *)
From Coq Require Import ZArith QArith List Bool Lia Lqa ZifyBool.
From Verif Require Import BigUIntModel GeoModel GeoSpec GeoProofs AabbModel AabbSpec AabbProofs AabbTrackerProofs.
Import ListNotations.
Open Scope Z_scope.

(** Coordinate i, negated for minima. *)
Definition key (mult : Z) (i : nat) (q : qpoint) : Q := (inject_Z mult * qcomp q i)%Q.
Definition extreme (mult : Z) (i : nat) (v : hpoint3) (l : list hpoint3) : Prop :=
  forall x, In x l -> (key mult i (value x) <= key mult i (value v))%Q.
Lemma segment_key mult i a b x : on_segment a b x -> exists t, (0 <= t <= 1)%Q /\
  (key mult i x == key mult i a + t * (key mult i b - key mult i a))%Q.
Proof.
  intros (t & T & E). exists t. split; [exact T|]. unfold key. destruct E as (E1 & E2 & E3).
  destruct i as [|[|i]]; cbn [qcomp qadd qscale qsub qx qy qz] in *; [rewrite E1|rewrite E2|rewrite E3]; ring.
Qed.
Lemma segment_key_le mult i a b x m : on_segment a b x -> (key mult i a <= m -> key mult i b <= m -> key mult i x <= m)%Q.
Proof. intros S A B. destruct (segment_key mult i a b x S) as (t & T & E). rewrite E. clear E S. generalize dependent (key mult i a). generalize dependent (key mult i b). intros. nra. Qed.
Lemma segment_key_ge mult i a b x m : on_segment a b x -> (m <= key mult i a -> m <= key mult i b -> m <= key mult i x)%Q.
Proof. intros S A B. destruct (segment_key mult i a b x S) as (t & T & E). rewrite E. clear E S. generalize dependent (key mult i a). generalize dependent (key mult i b). intros. nra. Qed.

Definition neg_child (N : list hpoint3) (s1 s2 : hpoint3) : list hpoint3 := N ++ [s2; s1].
Definition pos_child (P : list hpoint3) (s1 s2 : hpoint3) : list hpoint3 := s2 :: P ++ [s1].

Lemma compare_key mult i a b : (mult = 1 \/ mult = -1) -> hw a <> 0 -> hw b <> 0 ->
  ((0 <? hp_compare_comp i a b * mult) = true <-> (key mult i (value b) < key mult i (value a))%Q).
Proof.
  intros M Ha Hb. rewrite (hp_compare_comp_spec i a b _ _ (denotes_value a Ha) (denotes_value b Hb)). unfold key.
  pose proof (qsign_range (qcomp (value a) i - qcomp (value b) i)) as R. rewrite Z.ltb_lt. destruct M as [->| ->].
  - change (inject_Z 1) with 1%Q. rewrite !Qmult_1_l, <- qsign_sub_gt. lia.
  - transitivity (qsign (qcomp (value a) i - qcomp (value b) i) = -1); [lia|]. rewrite qsign_sub_lt. change (inject_Z (-1)) with (-1)%Q. split; intros; lra.
Qed.

Section Split.
  Context (vs N P : list hpoint3) (s1 s2 : hpoint3) (start : nat) (o1 o2 : list hpoint3).
  Context (SC : split_cycle vs N P s1 s2 start o1 o2) (FS1 : hw s1 <> 0) (FS2 : hw s2 <> 0).
  Local Notation n := (length vs).
  Local Notation ps := (length N + length o2)%nat.
  Local Notation pe := (length N + length o2 + length P)%nat.

  Lemma cycle_in x : In x vs <-> In x N \/ In x o2 \/ In x P \/ In x o1.
  Proof using All. rewrite <- (rotate_in vs start x), (sc_cycle _ _ _ _ _ _ _ _ SC), !in_app_iff. tauto. Qed.
  Lemma cycle_length : n = (pe + length o1)%nat.
  Proof using All. pose proof (f_equal (@length _) (sc_cycle _ _ _ _ _ _ _ _ SC)) as E. rewrite !app_length, skipn_length, firstn_length in E.
    pose proof (sc_start _ _ _ _ _ _ _ _ SC). lia. Qed.

  Lemma shared_le mult i v s : extreme mult i v vs -> (exists a b, In a vs /\ In b vs /\ on_segment (value a) (value b) (value s)) ->
    (key mult i (value s) <= key mult i (value v))%Q.
  Proof using All. intros E (a & b & A & B & S). apply (segment_key_le mult i _ _ _ _ S); apply E; assumption. Qed.

  Lemma child_of_shared mult i : extreme mult i (if 0 <? hp_compare_comp i s1 s2 * mult then s1 else s2) [s2; s1] \/ ~ (mult = 1 \/ mult = -1).
  Proof using All.
    destruct (Z.eq_dec mult 1) as [M|M]; [|destruct (Z.eq_dec mult (-1)) as [M'|M']; [|right; lia]].
    - left. assert (MM : mult = 1 \/ mult = -1) by lia. pose proof (compare_key mult i s1 s2 MM FS1 FS2) as C. destruct (0 <? _).
      + intros x [<-|[<-|[]]]; [apply Qlt_le_weak, C; reflexivity|apply Qle_refl].
      + intros x [<-|[<-|[]]]; [apply Qle_refl|]. apply Qnot_lt_le. intros L. apply C in L. discriminate L.
    - left. assert (MM : mult = 1 \/ mult = -1) by lia. pose proof (compare_key mult i s1 s2 MM FS1 FS2) as C. destruct (0 <? _).
      + intros x [<-|[<-|[]]]; [apply Qlt_le_weak, C; reflexivity|apply Qle_refl].
      + intros x [<-|[<-|[]]]; [apply Qle_refl|]. apply Qnot_lt_le. intros L. apply C in L. discriminate L.
  Qed.

  (** A vertex on the other side of the split is dominated by the shared
      points. *)
  Lemma other_side_le mult i v w m : extreme mult i v vs ->
    (In w N /\ In v P \/ In w P /\ In v N) ->
    (key mult i (value s1) <= m -> key mult i (value s2) <= m -> key mult i (value w) <= m)%Q.
  Proof using All.
    intros E H A B. assert (W : In w vs) by (apply cycle_in; tauto).
    assert (X : exists x, on_segment (value s1) (value s2) x /\ (key mult i (value w) <= key mult i x)%Q).
    { destruct H as [[H1 H2]|[H1 H2]].
      - destruct (sc_cross _ _ _ _ _ _ _ _ SC w v H1 H2) as (x & X1 & X2). exists x. split; [exact X2|]. apply (segment_key_ge mult i _ _ _ _ X1); [apply Qle_refl|apply E, W].
      - destruct (sc_cross _ _ _ _ _ _ _ _ SC v w H2 H1) as (x & X1 & X2). exists x. split; [exact X2|]. apply (segment_key_ge mult i _ _ _ _ X1); [apply E, W|apply Qle_refl]. }
    destruct X as (x & X1 & X2). apply (Qle_trans _ _ _ X2). apply (segment_key_le mult i _ _ _ _ X1 A B).
  Qed.

  Lemma split_component_spec dbg mult i k v no po nm pm : (mult = 1 \/ mult = -1) -> (k < n)%nat -> nth_error vs k = Some v -> extreme mult i v vs ->
    split_component dbg i mult s1 s2 ((k + (n - start)) mod n) (length N) (length P) ps pe = Ok (no, po, nm, pm) ->
    exists a b, nth_error (neg_child N s1 s2) no = Some a /\ nth_error (pos_child P s1 s2) po = Some b /\
      extreme mult i a (neg_child N s1 s2) /\ extreme mult i b (pos_child P s1 s2) /\ (nm = false -> a = v) /\ (pm = false -> b = v).
  Proof using All.
    intros M Hk Ev Ex R. pose proof cycle_length as CL. pose proof (sc_start _ _ _ _ _ _ _ _ SC) as HS.
    assert (Rv : nth_error (N ++ o2 ++ P ++ o1) ((k + (n - start)) mod n) = Some v).
    { rewrite <- (sc_cycle _ _ _ _ _ _ _ _ SC). replace (k + (n - start))%nat with (k + n - start)%nat by lia. apply rotate_nth; [lia|exact Hk|exact Ev]. }
    pose proof (Nat.mod_upper_bound (k + (n - start)) n ltac:(lia)) as KB.
    set (k' := ((k + (n - start)) mod n)%nat) in *.
    pose proof (shared_le mult i v s1 Ex (sc_s1 _ _ _ _ _ _ _ _ SC)) as L1. pose proof (shared_le mult i v s2 Ex (sc_s2 _ _ _ _ _ _ _ _ SC)) as L2.
    destruct (child_of_shared mult i) as [CS|CS]; [|tauto].
    set (w := if 0 <? hp_compare_comp i s1 s2 * mult then s1 else s2) in *.
    assert (W1 : (key mult i (value s1) <= key mult i (value w))%Q) by (apply CS; right; left; reflexivity).
    assert (W2 : (key mult i (value s2) <= key mult i (value w))%Q) by (apply CS; left; reflexivity).
    assert (NC : forall x, In x (neg_child N s1 s2) <-> In x N \/ x = s1 \/ x = s2) by (intros x; unfold neg_child; rewrite in_app_iff; cbn [In]; intuition).
    assert (PC : forall x, In x (pos_child P s1 s2) <-> In x P \/ x = s1 \/ x = s2) by (intros x; unfold pos_child; cbn [In]; rewrite in_app_iff; cbn [In]; intuition).
    unfold split_component in R. destruct (Nat.ltb_spec k' (length N)) as [A|A].
    - injection R as <- <- <- <-. rewrite nth_error_app1 in Rv by exact A.
      assert (VN : In v N) by (apply nth_error_In in Rv; exact Rv).
      exists v, w. split; [unfold neg_child; rewrite nth_error_app1 by exact A; exact Rv|].
      split. { unfold w. destruct (0 <? _); unfold pos_child; [|reflexivity]. cbn [nth_error]. rewrite nth_error_app2, Nat.sub_diag by lia. reflexivity. }
      split. { intros x Hx. apply NC in Hx. destruct Hx as [Hx|[->| ->]]; [apply Ex, cycle_in; tauto|exact L1|exact L2]. }
      split. { intros x Hx. apply PC in Hx. destruct Hx as [Hx|[->| ->]]; [|exact W1|exact W2]. apply (other_side_le mult i v x _ Ex ltac:(tauto)); assumption. }
      split; [reflexivity|discriminate].
    - rewrite nth_error_app2 in Rv by exact A. destruct (Nat.leb_spec ps k') as [B|B].
      + rewrite nth_error_app2 in Rv by lia. destruct (Nat.ltb_spec k' pe) as [C|C].
        * injection R as <- <- <- <-. rewrite nth_error_app1 in Rv by lia.
          assert (VP : In v P) by (apply nth_error_In in Rv; exact Rv).
          exists w, v. split. { unfold w, neg_child. destruct (0 <? _); rewrite nth_error_app2 by lia; [replace (S (length N) - length N)%nat with 1%nat by lia|rewrite Nat.sub_diag]; reflexivity. }
          split. { unfold pos_child. cbn [nth_error]. replace (k' - ps)%nat with (k' - length N - length o2)%nat by lia. rewrite nth_error_app1 by lia. exact Rv. }
          split. { intros x Hx. apply NC in Hx. destruct Hx as [Hx|[->| ->]]; [|exact W1|exact W2]. apply (other_side_le mult i v x _ Ex ltac:(tauto)); assumption. }
          split. { intros x Hx. apply PC in Hx. destruct Hx as [Hx|[->| ->]]; [apply Ex, cycle_in; tauto|exact L1|exact L2]. }
          split; [discriminate|reflexivity].
        * rewrite nth_error_app2 in Rv by lia.
          assert (O : v = s1). { destruct (sc_o1 _ _ _ _ _ _ _ _ SC) as [O|O]; rewrite O in Rv; [destruct (_ - _)%nat in Rv; discriminate Rv|].
            destruct (k' - length N - length o2 - length P)%nat as [|j] eqn:EJ; [injection Rv as <-; reflexivity|destruct j; discriminate Rv]. }
          apply rbind_ok in R. destruct R as (u & _ & R). injection R as <- <- <- <-. exists s1, s1.
          split. { unfold neg_child. rewrite nth_error_app2 by lia. replace (S (length N) - length N)%nat with 1%nat by lia. reflexivity. }
          split. { unfold pos_child. cbn [nth_error]. rewrite nth_error_app2, Nat.sub_diag by lia. reflexivity. }
          subst v.
          split. { intros x Hx. apply NC in Hx. destruct Hx as [Hx|[->| ->]]; [apply Ex, cycle_in; tauto|apply Qle_refl|exact L2]. }
          split. { intros x Hx. apply PC in Hx. destruct Hx as [Hx|[->| ->]]; [apply Ex, cycle_in; tauto|apply Qle_refl|exact L2]. }
          split; reflexivity.
      + rewrite nth_error_app1 in Rv by lia.
        assert (O : v = s2). { destruct (sc_o2 _ _ _ _ _ _ _ _ SC) as [O|O]; rewrite O in Rv; [destruct (_ - _)%nat in Rv; discriminate Rv|].
          destruct (k' - length N)%nat as [|j] eqn:EJ; [injection Rv as <-; reflexivity|destruct j; discriminate Rv]. }
        apply rbind_ok in R. destruct R as (u & _ & R). injection R as <- <- <- <-. exists s2, s2.
        split. { unfold neg_child. rewrite nth_error_app2, Nat.sub_diag by lia. reflexivity. }
        split; [reflexivity|]. subst v.
        split. { intros x Hx. apply NC in Hx. destruct Hx as [Hx|[->| ->]]; [apply Ex, cycle_in; tauto|exact L1|apply Qle_refl]. }
        split. { intros x Hx. apply PC in Hx. destruct Hx as [Hx|[->| ->]]; [apply Ex, cycle_in; tauto|exact L1|apply Qle_refl]. }
        split; reflexivity.
  Qed.
  (** The assertions hold. *)
  Lemma split_component_total dbg mult i k : (k < n)%nat ->
    exists r, split_component dbg i mult s1 s2 ((k + (n - start)) mod n) (length N) (length P) ps pe = Ok r.
  Proof using All.
    intros Hk. pose proof cycle_length as CL. pose proof (Nat.mod_upper_bound (k + (n - start)) n ltac:(lia)) as KB. set (k' := ((k + (n - start)) mod n)%nat) in *.
    unfold split_component. destruct (Nat.ltb_spec k' (length N)) as [A|A]; [eexists; reflexivity|]. destruct (Nat.leb_spec ps k') as [B|B].
    - destruct (Nat.ltb_spec k' pe) as [C|C]; [eexists; reflexivity|].
      assert (k' = pe) as ->. { destruct (sc_o1 _ _ _ _ _ _ _ _ SC) as [O|O]; rewrite O in CL; cbn [length] in CL; lia. }
      rewrite Nat.eqb_refl. destruct dbg; eexists; reflexivity.
    - assert (k' = length N) as ->. { destruct (sc_o2 _ _ _ _ _ _ _ _ SC) as [O|O]; rewrite O in B; cbn [length] in B; lia. }
      rewrite Nat.eqb_refl. destruct dbg; eexists; reflexivity.
  Qed.
End Split.

(** ** UpdateExtremes *)
Lemma update_extremes_spec t mins maxs minm maxm vs b : finite vs -> idx_ok mins (length vs) -> idx_ok maxs (length vs) ->
  (forall i, (i < 3)%nat -> minm i = false -> floor_frac (qcomp (value (vat vs (iget mins i))) i) (bden (tbox t)) (comp (bmin (tbox t)) i)) ->
  (forall i, (i < 3)%nat -> maxm i = false -> ceil_frac (qcomp (value (vat vs (iget maxs i))) i) (bden (tbox t)) (comp (bmax (tbox t)) i)) ->
  update_extremes t mins maxs minm maxm vs = Ok b ->
  0 < bden b /\ forall i, (i < 3)%nat -> floor_frac (qcomp (value (vat vs (iget mins i))) i) (bden b) (comp (bmin b) i) /\
                                         ceil_frac (qcomp (value (vat vs (iget maxs i))) i) (bden b) (comp (bmax b) i).
Proof.
  intros F H1 H2 Pmin Pmax E. unfold update_extremes in E. apply rbind_ok in E. destruct E as (den & E1 & E).
  destruct (max_denominator_spec _ _ _ _ F H1 H2 E1) as [D _]. destruct (Z.eqb_spec den (bden (tbox t))) as [S|S]; cbn [negb] in E.
  - cbv zeta in E.
    apply rbind_ok in E. destruct E as (x0 & A0 & E). apply rbind_ok in E. destruct E as (x1 & A1 & E). apply rbind_ok in E. destruct E as (x2 & A2 & E).
    apply rbind_ok in E. destruct E as (y0 & B0 & E). apply rbind_ok in E. destruct E as (y1 & B1 & E). apply rbind_ok in E. destruct E as (y2 & B2 & E).
    injection E as <-. unfold bx_make. rewrite zget_sign_neg. replace (den <? 0) with false by lia. cbn [bden bmin bmax]. split; [exact D|].
    assert (KM : forall i x, (i < 3)%nat -> (if minm i then bound_min vs den i (iget mins i) else Ok (comp (bmin (tbox t)) i)) = Ok x ->
              floor_frac (qcomp (value (vat vs (iget mins i))) i) den x).
    { intros i x Hi EX. destruct (minm i) eqn:MI; [apply (bound_min_frac vs den i _ x F (H1 i Hi) D EX)|]. injection EX as <-. rewrite S. apply Pmin; assumption. }
    assert (KX : forall i x, (i < 3)%nat -> (if maxm i then bound_max vs den i (iget maxs i) else Ok (comp (bmax (tbox t)) i)) = Ok x ->
              ceil_frac (qcomp (value (vat vs (iget maxs i))) i) den x).
    { intros i x Hi EX. destruct (maxm i) eqn:MI; [apply (bound_max_frac vs den i _ x F (H2 i Hi) D EX)|]. injection EX as <-. rewrite S. apply Pmax; assumption. }
    intros i Hi. destruct i as [|[|[|i]]]; [| | |lia]; cbn [comp vx vy vz]; split; (apply KM || apply KX); assumption || lia.
  - destruct (approximate_extremes_spec _ _ _ _ _ F H1 H2 D E) as [BD B]. rewrite BD. split; assumption.
Qed.
Lemma update_extremes_total t mins maxs minm maxm vs : finite vs -> idx_ok mins (length vs) -> idx_ok maxs (length vs) -> Forall (safe_vertex vs) vs ->
  exists b, update_extremes t mins maxs minm maxm vs = Ok b.
Proof.
  intros F H1 H2 S. unfold update_extremes. destruct (max_denominator_total mins maxs vs H1 H2 S) as [den E]. rewrite E. cbn [rbind].
  destruct (max_denominator_spec _ _ _ _ F H1 H2 E) as [D V]. destruct (negb _); [apply approximate_extremes_total; assumption|]. cbv zeta.
  assert (KM : forall i, (i < 3)%nat -> exists x, (if minm i then bound_min vs den i (iget mins i) else Ok (comp (bmin (tbox t)) i)) = Ok x).
  { intros i Hi. destruct (minm i); [apply bound_total; try assumption; apply H1, Hi|eexists; reflexivity]. }
  assert (KX : forall i, (i < 3)%nat -> exists x, (if maxm i then bound_max vs den i (iget maxs i) else Ok (comp (bmax (tbox t)) i)) = Ok x).
  { intros i Hi. destruct (maxm i); [apply bound_total; try assumption; apply H2, Hi|eexists; reflexivity]. }
  destruct (KM 0%nat ltac:(lia)) as [x0 ->]. destruct (KM 1%nat ltac:(lia)) as [x1 ->]. destruct (KM 2%nat ltac:(lia)) as [x2 ->].
  destruct (KX 0%nat ltac:(lia)) as [y0 ->]. destruct (KX 1%nat ltac:(lia)) as [y1 ->]. destruct (KX 2%nat ltac:(lia)) as [y2 ->].
  cbn [rbind]. eexists. reflexivity.
Qed.

(** ** CreateSplitChildren *)
Lemma extreme_min i v l : extreme (-1) i v l -> forall x, In x l -> (qcomp (value v) i <= qcomp (value x) i)%Q.
Proof. intros E x Hx. specialize (E x Hx). unfold key in E. change (inject_Z (-1)) with (-1)%Q in E. lra. Qed.
Lemma extreme_max i v l : extreme 1 i v l -> forall x, In x l -> (qcomp (value x) i <= qcomp (value v) i)%Q.
Proof. intros E x Hx. specialize (E x Hx). unfold key in E. change (inject_Z 1) with 1%Q in E. lra. Qed.
Lemma extreme_of_min i v l : (forall x, In x l -> (qcomp (value v) i <= qcomp (value x) i)%Q) -> extreme (-1) i v l.
Proof. intros E x Hx. specialize (E x Hx). unfold key. change (inject_Z (-1)) with (-1)%Q. lra. Qed.
Lemma extreme_of_max i v l : (forall x, In x l -> (qcomp (value x) i <= qcomp (value v) i)%Q) -> extreme 1 i v l.
Proof. intros E x Hx. specialize (E x Hx). unfold key. change (inject_Z 1) with 1%Q. lra. Qed.
Lemma nth_error_vat vs k v : nth_error vs k = Some v -> vat vs k = v /\ (k < length vs)%nat.
Proof. intros E. split; [apply nth_error_nth; exact E|]. apply nth_error_Some. rewrite E. discriminate. Qed.

Section Children.
  Context (dbg : bool) (t : tracker) (vs N P : list hpoint3) (s1 s2 : hpoint3) (start : nat) (o1 o2 : list hpoint3).
  Context (SC : split_cycle vs N P s1 s2 start o1 o2) (FV : finite vs) (FS1 : hw s1 <> 0) (FS2 : hw s2 <> 0) (T : tracks t vs).

  Lemma finite_neg : finite (neg_child N s1 s2).
  Proof using All. unfold finite in *. rewrite Forall_forall in *. intros x Hx. unfold neg_child in Hx. rewrite in_app_iff in Hx. destruct Hx as [Hx|[<-|[<-|[]]]]; [|assumption|assumption].
    apply FV, (cycle_in vs N P s1 s2 start o1 o2 SC FS1 FS2). tauto. Qed.
  Lemma finite_pos : finite (pos_child P s1 s2).
  Proof using All. unfold finite in *. rewrite Forall_forall in *. intros x [<-|Hx]; [assumption|]. rewrite in_app_iff in Hx. destruct Hx as [Hx|[<-|[]]]; [|assumption].
    apply FV, (cycle_in vs N P s1 s2 start o1 o2 SC FS1 FS2). tauto. Qed.

  Local Notation go mult k i := (split_component dbg i mult s1 s2 ((k + (length vs - start)) mod length vs)%nat (length N) (length P) (length N + length o2) (length N + length o2 + length P)).

  (** What one component contributes to the two children. *)
  Lemma comp_min i r : (i < 3)%nat -> go (-1) (iget (tmin t) i) i = Ok r ->
    exists a b, nth_error (neg_child N s1 s2) (fst (fst (fst r))) = Some a /\ nth_error (pos_child P s1 s2) (snd (fst (fst r))) = Some b /\
      (forall x, In x (neg_child N s1 s2) -> (qcomp (value a) i <= qcomp (value x) i)%Q) /\
      (forall x, In x (pos_child P s1 s2) -> (qcomp (value b) i <= qcomp (value x) i)%Q) /\
      (snd (fst r) = false -> floor_frac (qcomp (value a) i) (bden (tbox t)) (comp (bmin (tbox t)) i)) /\
      (snd r = false -> floor_frac (qcomp (value b) i) (bden (tbox t)) (comp (bmin (tbox t)) i)).
  Proof using All.
    intros Hi E. destruct r as [[[no po] nm] pm]. cbn [fst snd]. destruct T as [_ TC]. destruct (TC i Hi) as (lo & hi & A & B & M & C & D). clear TC.
    destruct (nth_error_vat _ _ _ A) as [_ KL].
    destruct (split_component_spec vs N P s1 s2 start o1 o2 SC FS1 FS2 dbg (-1) i (iget (tmin t) i) lo no po nm pm ltac:(lia) KL A (extreme_of_min i lo vs (fun x Hx => proj1 (M x Hx))) E)
      as (a & b & E1 & E2 & E3 & E4 & E5 & E6).
    exists a, b. split; [exact E1|]. split; [exact E2|]. split; [apply extreme_min, E3|]. split; [apply extreme_min, E4|].
    split; intros Z; [rewrite (E5 Z)|rewrite (E6 Z)]; exact C.
  Qed.
  Lemma comp_max i r : (i < 3)%nat -> go 1 (iget (tmax t) i) i = Ok r ->
    exists a b, nth_error (neg_child N s1 s2) (fst (fst (fst r))) = Some a /\ nth_error (pos_child P s1 s2) (snd (fst (fst r))) = Some b /\
      (forall x, In x (neg_child N s1 s2) -> (qcomp (value x) i <= qcomp (value a) i)%Q) /\
      (forall x, In x (pos_child P s1 s2) -> (qcomp (value x) i <= qcomp (value b) i)%Q) /\
      (snd (fst r) = false -> ceil_frac (qcomp (value a) i) (bden (tbox t)) (comp (bmax (tbox t)) i)) /\
      (snd r = false -> ceil_frac (qcomp (value b) i) (bden (tbox t)) (comp (bmax (tbox t)) i)).
  Proof using All.
    intros Hi E. destruct r as [[[no po] nm] pm]. cbn [fst snd]. destruct T as [_ TC]. destruct (TC i Hi) as (lo & hi & A & B & M & C & D). clear TC.
    destruct (nth_error_vat _ _ _ B) as [_ KL].
    destruct (split_component_spec vs N P s1 s2 start o1 o2 SC FS1 FS2 dbg 1 i (iget (tmax t) i) hi no po nm pm ltac:(lia) KL B (extreme_of_max i hi vs (fun x Hx => proj2 (M x Hx))) E)
      as (a & b & E1 & E2 & E3 & E4 & E5 & E6).
    exists a, b. split; [exact E1|]. split; [exact E2|]. split; [apply extreme_max, E3|]. split; [apply extreme_max, E4|].
    split; intros Z; [rewrite (E5 Z)|rewrite (E6 Z)]; exact D.
  Qed.
End Children.

(** One child: indices found per component, plus UpdateExtremes. *)
Lemma child_tracks t mins maxs minm maxm cvs b : finite cvs ->
  (forall i, (i < 3)%nat -> exists a, nth_error cvs (iget mins i) = Some a /\ (forall x, In x cvs -> (qcomp (value a) i <= qcomp (value x) i)%Q) /\
     (minm i = false -> floor_frac (qcomp (value a) i) (bden (tbox t)) (comp (bmin (tbox t)) i))) ->
  (forall i, (i < 3)%nat -> exists a, nth_error cvs (iget maxs i) = Some a /\ (forall x, In x cvs -> (qcomp (value x) i <= qcomp (value a) i)%Q) /\
     (maxm i = false -> ceil_frac (qcomp (value a) i) (bden (tbox t)) (comp (bmax (tbox t)) i))) ->
  update_extremes t mins maxs minm maxm cvs = Ok b -> tracks (Tr mins maxs b) cvs.
Proof.
  intros F H1 H2 E.
  assert (O1 : idx_ok mins (length cvs)) by (intros i Hi; destruct (H1 i Hi) as (a & A & _); apply (nth_error_vat _ _ _ A)).
  assert (O2 : idx_ok maxs (length cvs)) by (intros i Hi; destruct (H2 i Hi) as (a & A & _); apply (nth_error_vat _ _ _ A)).
  destruct (update_extremes_spec t mins maxs minm maxm cvs b F O1 O2) as [BD B]; [| |exact E|].
  - intros i Hi Z. destruct (H1 i Hi) as (a & A & _ & C). destruct (nth_error_vat _ _ _ A) as [-> _]. apply C, Z.
  - intros i Hi Z. destruct (H2 i Hi) as (a & A & _ & C). destruct (nth_error_vat _ _ _ A) as [-> _]. apply C, Z.
  - split; [exact BD|]. intros i Hi. destruct (H1 i Hi) as (lo & A1 & M1 & _). destruct (H2 i Hi) as (hi & A2 & M2 & _). destruct (B i Hi) as [B1 B2].
    exists lo, hi. cbn [tmin tmax tbox]. destruct (nth_error_vat _ _ _ A1) as [V1 _]. destruct (nth_error_vat _ _ _ A2) as [V2 _]. rewrite V1 in B1. rewrite V2 in B2.
    repeat split; try assumption; try (apply M1; assumption); try (apply M2; assumption); apply B1 || apply B2.
Qed.

Lemma lt03 : (0 < 3)%nat. Proof. lia. Qed.
Lemma lt13 : (1 < 3)%nat. Proof. lia. Qed.
Lemma lt23 : (2 < 3)%nat. Proof. lia. Qed.
Lemma forall3 (Q : nat -> Prop) : Q 0%nat -> Q 1%nat -> Q 2%nat -> forall i, (i < 3)%nat -> Q i.
Proof. intros A B C i Hi. destruct i as [|[|[|i]]]; try assumption. lia. Qed.
Lemma split_children_spec dbg t vs N P s1 s2 start pr1 o1 o2 tn tp :
  split_cycle vs N P s1 s2 start o1 o2 -> finite vs -> hw s1 <> 0 -> hw s2 <> 0 -> tracks t vs ->
  ((pr1 + (length vs - start)) mod length vs)%nat = (length N + length o2)%nat ->
  split_children dbg t (length vs) (neg_child N s1 s2) (pos_child P s1 s2) start (start + length N) pr1 (pr1 + length P) = Ok (tn, tp) ->
  tracks tn (neg_child N s1 s2) /\ tracks tp (pos_child P s1 s2).
Proof.
  intros SC FV FS1 FS2 T HP1 E. unfold split_children in E.
  apply rbind_ok in E. destruct E as (u1 & _ & E). apply rbind_ok in E. destruct E as (u2 & _ & E).
  destruct (Nat.eqb (length vs) 0); [discriminate E|]. cbv zeta in E. rewrite HP1 in E.
  replace (start + length N - start)%nat with (length N) in E by lia. replace (pr1 + length P - pr1)%nat with (length P) in E by lia.
  replace (vat (neg_child N s1 s2) (S (length N))) with s1 in E by (unfold vat, neg_child; rewrite app_nth2 by lia; replace (S (length N) - length N)%nat with 1%nat by lia; reflexivity).
  change (vat (pos_child P s1 s2) 0) with s2 in E.
  apply rbind_ok in E. destruct E as (u3 & _ & E).
  apply rbind_ok in E. destruct E as (x0 & X0 & E). apply rbind_ok in E. destruct E as (x1 & X1 & E). apply rbind_ok in E. destruct E as (x2 & X2 & E).
  apply rbind_ok in E. destruct E as (y0 & Y0 & E). apply rbind_ok in E. destruct E as (y1 & Y1 & E). apply rbind_ok in E. destruct E as (y2 & Y2 & E).
  apply rbind_ok in E. destruct E as (nb & NB & E). apply rbind_ok in E. destruct E as (pb & PB & E). injection E as <- <-.
  change (i0 (tmin t)) with (iget (tmin t) 0) in X0. change (i1 (tmin t)) with (iget (tmin t) 1) in X1. change (i2 (tmin t)) with (iget (tmin t) 2) in X2.
  change (i0 (tmax t)) with (iget (tmax t) 0) in Y0. change (i1 (tmax t)) with (iget (tmax t) 1) in Y1. change (i2 (tmax t)) with (iget (tmax t) 2) in Y2.
  pose proof (comp_min dbg t vs N P s1 s2 start o1 o2 SC FV FS1 FS2 T 0 x0 lt03 X0) as (a0 & b0 & A01 & A02 & A03 & A04 & A05 & A06).
  pose proof (comp_min dbg t vs N P s1 s2 start o1 o2 SC FV FS1 FS2 T 1 x1 lt13 X1) as (a1 & b1 & A11 & A12 & A13 & A14 & A15 & A16).
  pose proof (comp_min dbg t vs N P s1 s2 start o1 o2 SC FV FS1 FS2 T 2 x2 lt23 X2) as (a2 & b2 & A21 & A22 & A23 & A24 & A25 & A26).
  pose proof (comp_max dbg t vs N P s1 s2 start o1 o2 SC FV FS1 FS2 T 0 y0 lt03 Y0) as (c0 & d0 & B01 & B02 & B03 & B04 & B05 & B06).
  pose proof (comp_max dbg t vs N P s1 s2 start o1 o2 SC FV FS1 FS2 T 1 y1 lt13 Y1) as (c1 & d1 & B11 & B12 & B13 & B14 & B15 & B16).
  pose proof (comp_max dbg t vs N P s1 s2 start o1 o2 SC FV FS1 FS2 T 2 y2 lt23 Y2) as (c2 & d2 & B21 & B22 & B23 & B24 & B25 & B26).
  split.
  - apply (child_tracks t _ _ _ _ _ _ (finite_neg dbg t vs N P s1 s2 start o1 o2 SC FV FS1 FS2 T)) with (3 := NB); refine (forall3 _ _ _ _); cbn [iget i0 i1 i2]; eexists; (split; [eassumption|split; [eassumption|eassumption]]).
  - apply (child_tracks t _ _ _ _ _ _ (finite_pos dbg t vs N P s1 s2 start o1 o2 SC FV FS1 FS2 T)) with (3 := PB); refine (forall3 _ _ _ _); cbn [iget i0 i1 i2]; eexists; (split; [eassumption|split; [eassumption|eassumption]]).
Qed.

Lemma split_children_total dbg t vs N P s1 s2 start pr1 o1 o2 :
  split_cycle vs N P s1 s2 start o1 o2 -> finite vs -> hw s1 <> 0 -> hw s2 <> 0 -> tracks t vs ->
  ((pr1 + (length vs - start)) mod length vs)%nat = (length N + length o2)%nat ->
  Forall (safe_vertex (neg_child N s1 s2)) (neg_child N s1 s2) -> Forall (safe_vertex (pos_child P s1 s2)) (pos_child P s1 s2) ->
  exists r, split_children dbg t (length vs) (neg_child N s1 s2) (pos_child P s1 s2) start (start + length N) pr1 (pr1 + length P) = Ok r.
Proof.
  intros SC FV FS1 FS2 T HP1 SN SP. pose proof (sc_neg _ _ _ _ _ _ _ _ SC) as HN. pose proof (sc_pos _ _ _ _ _ _ _ _ SC) as HP. pose proof (sc_start _ _ _ _ _ _ _ _ SC) as HS.
  assert (LN : (0 < length N)%nat) by (destruct N; [contradiction|cbn [length]; lia]). assert (LP : (0 < length P)%nat) by (destruct P; [contradiction|cbn [length]; lia]).
  unfold split_children. destruct (Nat.eqb_spec start (start + length N)); [lia|]. destruct (Nat.eqb_spec pr1 (pr1 + length P)); [lia|]. destruct (Nat.eqb_spec (length vs) 0); [lia|].
  assert (CT : check dbg (negb false) = Ok tt) by (destruct dbg; reflexivity). rewrite CT. cbn [rbind]. cbv zeta. rewrite HP1.
  replace (start + length N - start)%nat with (length N) by lia. replace (pr1 + length P - pr1)%nat with (length P) by lia.
  replace (vat (neg_child N s1 s2) (S (length N))) with s1 by (unfold vat, neg_child; rewrite app_nth2 by lia; replace (S (length N) - length N)%nat with 1%nat by lia; reflexivity).
  change (vat (pos_child P s1 s2) 0) with s2.
  destruct (Nat.ltb_spec (length N + length o2) (length N + length o2 + length P)); [|lia].
  replace (check dbg true) with (@Ok unit tt) by (destruct dbg; reflexivity). cbn [rbind].
  assert (KM : forall i, (i < 3)%nat -> (iget (tmin t) i < length vs)%nat /\ (iget (tmax t) i < length vs)%nat).
  { intros i Hi. destruct T as [_ TC]. destruct (TC i Hi) as (lo & hi & A & B & _). split; [apply (nth_error_vat _ _ _ A)|apply (nth_error_vat _ _ _ B)]. }
  pose proof (fun m i k => split_component_total vs N P s1 s2 start o1 o2 SC FS1 FS2 dbg m i k) as G.
  destruct (G (-1) 0%nat _ (proj1 (KM 0%nat lt03))) as [x0 X0]. destruct (G (-1) 1%nat _ (proj1 (KM 1%nat lt13))) as [x1 X1]. destruct (G (-1) 2%nat _ (proj1 (KM 2%nat lt23))) as [x2 X2].
  destruct (G 1 0%nat _ (proj2 (KM 0%nat lt03))) as [y0 Y0]. destruct (G 1 1%nat _ (proj2 (KM 1%nat lt13))) as [y1 Y1]. destruct (G 1 2%nat _ (proj2 (KM 2%nat lt23))) as [y2 Y2].
  pose proof (comp_min dbg t vs N P s1 s2 start o1 o2 SC FV FS1 FS2 T 0 x0 lt03 X0) as (a0 & b0 & A01 & A02 & _).
  pose proof (comp_min dbg t vs N P s1 s2 start o1 o2 SC FV FS1 FS2 T 1 x1 lt13 X1) as (a1 & b1 & A11 & A12 & _).
  pose proof (comp_min dbg t vs N P s1 s2 start o1 o2 SC FV FS1 FS2 T 2 x2 lt23 X2) as (a2 & b2 & A21 & A22 & _).
  pose proof (comp_max dbg t vs N P s1 s2 start o1 o2 SC FV FS1 FS2 T 0 y0 lt03 Y0) as (c0 & d0 & B01 & B02 & _).
  pose proof (comp_max dbg t vs N P s1 s2 start o1 o2 SC FV FS1 FS2 T 1 y1 lt13 Y1) as (c1 & d1 & B11 & B12 & _).
  pose proof (comp_max dbg t vs N P s1 s2 start o1 o2 SC FV FS1 FS2 T 2 y2 lt23 Y2) as (c2 & d2 & B21 & B22 & _).
  cbn [iget] in X0, X1, X2, Y0, Y1, Y2. rewrite X0, X1, X2, Y0, Y1, Y2. cbn [rbind].
  apply nth_error_vat in A01, A02, A11, A12, A21, A22, B01, B02, B11, B12, B21, B22.
  match goal with |- exists r, (nb <- update_extremes ?t ?a ?b ?c ?d ?e ;; _) = _ =>
    destruct (update_extremes_total t a b c d e (finite_neg dbg t vs N P s1 s2 start o1 o2 SC FV FS1 FS2 T)) as [nb NB]; [| |exact SN|rewrite NB; cbn [rbind]] end;
    try (refine (forall3 _ _ _ _); cbn [iget i0 i1 i2]; first [apply A01|apply A02|apply A11|apply A12|apply A21|apply A22|apply B01|apply B02|apply B11|apply B12|apply B21|apply B22]).
  match goal with |- exists r, (nb <- update_extremes ?t ?a ?b ?c ?d ?e ;; _) = _ =>
    destruct (update_extremes_total t a b c d e (finite_pos dbg t vs N P s1 s2 start o1 o2 SC FV FS1 FS2 T)) as [pb PB]; [| |exact SP|rewrite PB; cbn [rbind]] end;
    try (refine (forall3 _ _ _ _); cbn [iget i0 i1 i2]; first [apply A01|apply A02|apply A11|apply A12|apply A21|apply A22|apply B01|apply B02|apply B11|apply B12|apply B21|apply B22]).
  eexists. reflexivity.
Qed.
