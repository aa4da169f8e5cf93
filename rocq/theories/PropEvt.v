(** Property C40: MakeEventPoints, GetLowestCost, DiscountBorderPolygons and
    GetSplitPlane. *)
From Coq Require Import List ZArith QArith Arith Lia Lqa Bool.
From Verif Require Import BigUIntModel GeoModel GeoSpec GeoProofs AabbSpec AabbTrackerProofs EstModel EstSpec EvtModel EvtSpec EvtTokProofs EvtProofs EvtArrProofs EvtCostProofs EvtDiscProofs GeoPlaneProofs.
Import ListNotations.
Open Scope Q_scope.

(** Whichever of several largest elements pop_heap takes, MakeEventPoints gives a
    correct array and meets no assertion failure or undefined behaviour. *)
Theorem C40_make_event_points : forall dbg d ps choose, Forall (poly_fit d) ps ->
  make_events dbg d ps choose = NoFuel \/ exists evs, make_events dbg d ps choose = Ok evs /\ events_ok d ps evs.
Proof. intros dbg d ps choose F. exact (make_ok dbg d ps F choose). Qed.
Print Assumptions C40_make_event_points.
(** pop_heap always has an element to take. *)
Theorem C40_make_event_points_ends : forall dbg d ps, Forall (poly_fit d) ps -> exists choose evs, make_events dbg d ps choose = Ok evs /\ events_ok d ps evs.
Proof.
  intros dbg d ps F. destruct (make_exists dbg d ps F) as (choose & C). exists choose. destruct (make_ok dbg d ps F choose) as [X|X]; [contradiction|exact X].
Qed.
Print Assumptions C40_make_event_points_ends.

(** GetLowestCost reports the first of the cheapest candidates, with the numbers of
    polygons that begin before it and end after it. *)
Theorem C40_lowest_cost : forall wide d ps evs excl ec, events_ok d ps evs -> (0 < length ps)%nat ->
  (Z.of_nat (length ps) < 2 ^ 57)%Z -> wide = true \/ (Z.of_nat (length ps) < 2 ^ 31)%Z -> counts (length ps) (fun i => ~ included excl ps i) ec ->
  exists p, lowest_cost wide excl ec ps evs = Ok (Some p) /\ candidate evs (p_index p) /\
    split_cost_at excl ps evs (p_index p) (p_neg p) (p_neg_cost p) (p_pos p) (p_pos_cost p) /\ p_cost p = (p_neg_cost p + p_pos_cost p)%Z /\
    forall k, candidate evs k -> exists a ca b cb, split_cost_at excl ps evs k a ca b cb /\ (p_cost p <= ca + cb)%Z /\ ((k < p_index p)%nat -> (p_cost p < ca + cb)%Z).
Proof.
  intros wide d ps evs excl ec OK N S W EC. destruct (toks_of_events d ps evs OK) as (F & AR & T & FL).
  destruct (lowest_ok d ps evs F AR T excl wide ec EC S W N) as (m & E & CM & MIN). exists (pc ps F excl ec m). split; [exact E|].
  assert (BD : forall c, cand ps F c -> (Datatypes.S c <= 2 * length ps)%nat).
  { intros c [(i & C) _]. pose proof (nth_lt _ _ _ C) as X. rewrite (toks_length _ _ _ _ T) in X. lia. }
  split; [apply (cand_iff d ps evs F AR T); exact CM|]. split; [exact (pc_split d ps evs F AR T excl ec EC m (BD m CM))|]. split; [reflexivity|].
  intros k CK. apply (cand_iff d ps evs F AR T) in CK. destruct (MIN k CK) as [M1 M2]. eexists _, _, _, _. split; [exact (pc_split d ps evs F AR T excl ec EC k (BD k CK))|]. split; [exact M1|exact M2].
Qed.
Print Assumptions C40_lowest_cost.

(** After DiscountBorderPolygons the counts are the numbers of polygons that reach
    to either side of the plane of GetSplitPlane and of those in it, and
    GetExtraPolygonCount is the number of those that cross it. *)
Theorem C40_split : forall wide dbg d ps evs excl ec p, (d < 3)%nat -> Forall (poly_fit d) ps -> events_ok d ps evs -> (0 < length ps)%nat ->
  (Z.of_nat (length ps) < 2 ^ 57)%Z -> wide = true \/ (Z.of_nat (length ps) < 2 ^ 31)%Z -> counts (length ps) (fun i => ~ included excl ps i) ec ->
  lowest_cost wide excl ec ps evs = Ok (Some p) ->
  exists q x h, discount dbg (length ps) evs p = Ok q /\ event_at d ps evs (p_index p) x /\
    counts (length ps) (fun i => lo d ps i < x) (p_neg q) /\ counts (length ps) (fun i => x < hi d ps i) (p_pos q) /\
    counts (length ps) (fun i => lo d ps i == x /\ hi d ps i == x) (p_border q) /\
    counts (length ps) (fun i => lo d ps i < x /\ x < hi d ps i) (extra_count q (Z.of_nat (length ps))) /\
    p_index q = p_index p /\ p_cost q = p_cost p /\ (forall k, (p_begin q <= k < p_end q)%nat <-> event_at d ps evs k x) /\
    split_plane dbg d ps evs q = Ok h /\ (forall v u, denotes v u -> hs_compare h v = qsign (qcomp u d - x)).
Proof.
  intros wide dbg d ps evs excl ec p Hd FIT OK N S W EC E. destruct (toks_of_events d ps evs OK) as (F & AR & T & FL).
  destruct (lowest_ok d ps evs F AR T excl wide ec EC S W N) as (m & E' & CM & MIN). rewrite E in E'. injection E' as ->. cbn [p_index pc].
  destruct CM as [(xi & EM) _]. destruct (discount_ok dbg d ps evs F AR T FL (hi d ps xi) m xi EM (Qeq_refl _) S (pc ps F excl ec m) eq_refl eq_refl eq_refl eq_refl) as (b & l & D & BL & LN & AX & C1 & C2 & C3).
  assert (Hxi : (xi < length ps)%nat) by (apply (t_all _ _ _ _ T (false, xi)); exact (nth_error_In _ _ EM)).
  destruct (F2_nth_r AR m _ EM) as (e & Ee & [Te1 Te2]). cbn [fst snd] in Te1, Te2. pose proof Te2 as Te3. rewrite <- Te1 in Te3.
  destruct (nth_error ps xi) as [pl|] eqn:Epl; [|apply nth_error_None in Epl; lia]. pose proof FIT as FIT'. rewrite Forall_forall in FIT'. destruct (FIT' pl (nth_error_In _ _ Epl)) as (_ & WP & _).
  assert (HX : hi d ps xi = coord d (e_max pl)) by (unfold hi; rewrite Epl; reflexivity).
  exists (Part m (p_cost (pc ps F excl ec m)) (p_neg_cost (pc ps F excl ec m)) (p_pos_cost (pc ps F excl ec m)) (cnt F fs b) (Z.of_nat (length ps) - cnt F fe l) (cnt F (ff d ps) l - cnt F (ff d ps) b) b l), (hi d ps xi).
  cbn [p_index p_neg p_pos p_border p_cost p_begin p_end].
  set (num := comp (hv (e_max pl)) d) in *. set (den := hw (e_max pl)) in *.
  exists (if (den <? 0)%Z then hs_axis_aligned d (- num) (- den) else hs_axis_aligned d num den).
  split; [exact D|]. split; [apply (event_at_iff d ps evs F AR T); exists (false, xi); split; [exact EM|reflexivity]|]. split; [exact C1|]. split; [exact C2|]. split; [exact C3|].
  assert (C4 : counts (length ps) (fun i => lo d ps i < hi d ps xi /\ hi d ps xi < hi d ps i) (cnt F fs b + (Z.of_nat (length ps) - cnt F fe l) + (cnt F (ff d ps) l - cnt F (ff d ps) b) - Z.of_nat (length ps))%Z).
  { apply (extra_counts d ps (hi d ps xi)); [exact (widths d ps FIT)|exact C1|exact C2|exact C3]. }
  split; [unfold extra_count; cbn [p_neg p_pos p_border]; rewrite size_small; [exact C4|]; pose proof (counts_nonneg _ _ _ C4); pose proof (counts_le _ _ _ _ _ C4 (counts_all _) (fun _ _ _ => I)); lia|].
  split; [reflexivity|]. split; [reflexivity|]. split.
  { intros k. rewrite <- (AX k). unfold at_x. rewrite (event_at_iff d ps evs F AR T). split; intros (t & T1 & T2); exists t; (split; [exact T1|symmetry; exact T2]). }
  split.
  - unfold split_plane. cbn [p_index]. rewrite Ee, <- Te1. cbn [negb]. rewrite check_true. cbn [rbind]. unfold ev_location. rewrite <- Te1, Te3, Epl. reflexivity.
  - intros v u V. assert (D0 : den <> 0%Z) by exact WP. rewrite HX. unfold coord. fold num den. destruct (Z.ltb_spec den 0) as [L|L].
    + rewrite (hs_axis_aligned_sign d (- num) (- den) v u Hd ltac:(lia) V). rewrite (Z.sgn_pos (- den)) by lia. rewrite Z.mul_1_r. apply qsign_comp. rewrite !inject_Z_opp. field. change 0 with (inject_Z 0). rewrite inject_Z_injective. exact D0.
    + rewrite (hs_axis_aligned_sign d num den v u Hd D0 V). rewrite (Z.sgn_pos den) by lia. rewrite Z.mul_1_r. reflexivity.
Qed.
Print Assumptions C40_split.

(** Three polygons: [0, 2], [2, 2] and [1, 2] in a coordinate where the vertices
    have denominators of either sign. *)
Definition tri : list epoly :=
  [EP (HP (V3 0 5 0) 1) (HP (V3 (-4) 0 0) (-2)) 7; EP (HP (V3 4 0 0) 2) (HP (V3 6 1 1) 3) 8; EP (HP (V3 (-1) 0 0) (-1)) (HP (V3 2 9 9) 1) 7].
Example tri_fit : Forall (poly_fit 0) tri.
Proof. repeat constructor; vm_compute; discriminate. Qed.
Definition tri_choose (k : nat) : nat := nth k [0; 0; 0; 1; 2; 1]%nat 0%nat.
Example tri_count : counts (length tri) (fun i => ~ included (Some 8%nat) tri i) 1.
Proof.
  exists [1%nat]. split; [constructor; [intros []|constructor]|]. split; [|reflexivity]. intros i. cbn [In length tri]. split.
  - intros [<-|[]]. split; [lia|]. intros (p & E & N). injection E as <-. apply N. reflexivity.
  - intros [L N]. destruct i as [|[|[|i]]]; [|left; reflexivity| |lia]; exfalso; apply N; eexists; (split; [reflexivity|]); discriminate.
Qed.
Definition tri_events : list event := [Ev true true 2; Ev true true 3; Ev true false 0; Ev false false 2; Ev false true 5; Ev false false 1].
Example tri_make : make_events true 0 tri tri_choose = Ok tri_events.
Proof. vm_compute. reflexivity. Qed.
Example tri_split : lowest_cost true (Some 8%nat) 1 tri tri_events = Ok (Some (Part 3 3 3 0 2 1 0 0 0)) /\
  discount true 3 tri_events (Part 3 3 3 0 2 1 0 0 0) = Ok (Part 3 3 3 0 2 0 1 2 6) /\
  split_plane true 0 tri tri_events (Part 3 3 3 0 2 0 1 2 6) = Ok (HS (V3 1 0 0) 2).
Proof. vm_compute. auto. Qed.
