(** Property C65: ApplyPrimary. *)
From Coq Require Import List ZArith QArith Arith Lia Lqa Bool Sorted.
From Verif Require Import BigUIntModel GeoModel GeoSpec GeoProofs GeoDirProofs AabbSpec AabbTrackerProofs EstModel EstSpec EvtModel EvtSpec EvtTokProofs EvtProofs EvtArrProofs EvtCostProofs EvtDiscProofs GeoPlaneProofs PropEvt
  PrimModel PrimSpec PrimProofs PrimTokProofs PrimInvProofs PrimNegProofs PrimStepProofs PrimTopProofs.
Import ListNotations.
Open Scope Q_scope.

Lemma counts_length n (C : nat -> Prop) c l : counts n C c -> lists n C l -> Z.to_nat c = length l.
Proof.
  intros (l0 & N & H & ->) [N' H']. rewrite Nat2Z.id. apply Nat.le_antisymm; apply NoDup_incl_length; try assumption; intros q I; [apply H', H, I|apply H, H', I].
Qed.
Lemma same_plane h : no_min (l4 h) -> hs_eq h h = Ok true.
Proof.
  intros N. destruct (hs_eq_total h h N N) as (r & R). rewrite R. f_equal. apply (hs_eq_spec h h r R). exists 1%Z, 1%Z. repeat split; lia.
Qed.
(** ApplyPrimary, for the partition of GetLowestCost and DiscountBorderPolygons and
    the plane of GetSplitPlane: no assertion fails and nothing is undefined; each
    polygon gets to the lists of the sides that it reaches to, the map says where,
    and the children have correct event points for their polygons. *)
Theorem C65_apply_primary : forall P (O : pops P) wide dbg d ps evs excl ec p0 p h x, (d < 3)%nat -> Forall (poly_fit d) (map (o_view O) ps) -> events_ok d (map (o_view O) ps) evs -> (0 < length ps)%nat ->
  (Z.of_nat (length ps) < 2 ^ 57)%Z -> wide = true \/ (Z.of_nat (length ps) < 2 ^ 31)%Z -> counts (length ps) (fun i => ~ included excl (map (o_view O) ps) i) ec ->
  lowest_cost wide excl ec (map (o_view O) ps) evs = Ok (Some p0) -> discount dbg (length ps) evs p0 = Ok p -> split_plane dbg d (map (o_view O) ps) evs p = Ok h -> event_at d (map (o_view O) ps) evs (p_index p0) x ->
  (dbg = true -> no_min (l4 h)) ->
  (forall r, In r ps -> coord d (e_min (o_view O r)) < x -> x < coord d (e_max (o_view O r)) -> splits O d x r) ->
  (forall r, In r ps -> coord d (e_min (o_view O r)) < x -> coord d (e_max (o_view O r)) == x -> markable O false r) ->
  (forall r, In r ps -> coord d (e_min (o_view O r)) == x -> x < coord d (e_max (o_view O r)) -> markable O true r) ->
  (forall r, In r ps -> coord d (e_min (o_view O r)) == x -> coord d (e_max (o_view O r)) == x -> exists a, o_border O (o_down O r) r = Ok a) ->
  exists s B N R D U negs poss nev pev, apply_primary O dbg h ps p d evs = Ok s /\ divided O d x ps B N R D U negs poss nev pev s.
Proof.
  intros P O wide dbg d ps evs excl ec p0 p h x Hd FIT OK NE S WD EC LC DI SH EX NM SP TN TP TB. set (vs := map (o_view O) ps) in *. assert (LV : length vs = length ps) by apply map_length. rewrite <- LV in NE, S, WD, EC, DI.
  destruct (C40_split wide dbg d vs evs excl ec p0 Hd FIT OK NE S WD EC LC) as (q & x' & h' & D1 & EX' & C1 & C2 & C3 & C4 & PQ & _ & AT & SH' & HS). rewrite DI in D1. injection D1 as <-. rewrite SH in SH'. injection SH' as <-.
  destruct (C40_lowest_cost wide d vs evs excl ec OK NE S WD EC) as (p1 & LC' & CA & _). rewrite LC in LC'. injection LC' as <-.
  destruct (toks_of_events d vs evs OK) as (F & AR & T & FL). pose proof (toks_length _ _ _ _ T) as LF.
  assert (XX : x == x'). { apply (event_at_iff d vs evs F AR T) in EX, EX'. destruct EX as (t & T1 & T2), EX' as (u & U1 & U2). rewrite T1 in U1. injection U1 as <-. rewrite T2, U2. reflexivity. }
  assert (AX : forall k t, nth_error F k = Some t -> ((p_begin p <= k < p_end p)%nat <-> key (lo d vs) (hi d vs) t == x)).
  { intros k t K. rewrite AT, (event_at_iff d vs evs F AR T). split; [intros (u & U1 & U2); rewrite K in U1; injection U1 as <-; rewrite XX, U2; reflexivity|]. intros E. exists t. split; [exact K|]. rewrite <- XX, E. reflexivity. }
  pose proof EX as EX0. apply (event_at_iff d vs evs F AR T) in EX0. destruct EX0 as (tm & TM & TM2). assert (MB : (p_begin p <= p_index p0 < p_end p)%nat) by (apply (AX _ _ TM); rewrite TM2; reflexivity). pose proof (lt_of_nth _ _ _ TM) as ML.
  assert (MONO : forall j k t u, (j <= k)%nat -> nth_error F j = Some t -> nth_error F k = Some u -> key (lo d vs) (hi d vs) t <= key (lo d vs) (hi d vs) u).
  { intros j k t u L A B. destruct (Nat.eq_dec j k) as [->|N]; [rewrite A in B; injection B as <-; apply Qle_refl|]. exact (proj1 (SS_nth (t_sorted _ _ _ _ T) j k t u ltac:(lia) A B)). }
  assert (HB : forall k t, nth_error F k = Some t -> ((k < p_begin p)%nat <-> key (lo d vs) (hi d vs) t < x)).
  { intros k t K. pose proof (AX k t K) as A. split; intros H.
    - pose proof (MONO k (p_index p0) t tm ltac:(lia) K TM). destruct (Qlt_le_dec (key (lo d vs) (hi d vs) t) x) as [Y|Y]; [exact Y|]. assert (key (lo d vs) (hi d vs) t == x) by lra. apply A in H1. lia.
    - destruct (Nat.lt_ge_cases k (p_begin p)) as [Y|Y]; [exact Y|]. destruct (Nat.lt_ge_cases k (p_end p)) as [Z|Z]; [assert (W : key (lo d vs) (hi d vs) t == x) by (apply A; lia); lra|]. pose proof (MONO (p_index p0) k tm t ltac:(lia) TM K). lra. }
  assert (HE : forall k t, nth_error F k = Some t -> ((k < p_end p)%nat <-> key (lo d vs) (hi d vs) t <= x)).
  { intros k t K. pose proof (AX k t K) as A. split; intros H.
    - destruct (Nat.lt_ge_cases k (p_begin p)) as [Y|Y]; [apply (HB k t K) in Y; lra|]. assert (W : key (lo d vs) (hi d vs) t == x) by (apply A; lia). lra.
    - destruct (Nat.lt_ge_cases k (p_end p)) as [Y|Y]; [exact Y|]. pose proof (MONO (p_index p0) k tm t ltac:(lia) TM K) as W. assert (key (lo d vs) (hi d vs) t == x) by lra. apply A in H0. lia. }
  assert (T' : toks_ok (length ps) (lo d vs) (hi d vs) F) by (rewrite <- LV; exact T).
  assert (CN : neg_count p = length (BO (lo d vs) (hi d vs) x F ++ NO (lo d vs) (hi d vs) x F)).
  { unfold neg_count. apply (counts_length _ _ _ _ C1). split; [exact (nd_BN _ _ _ _ _ T)|]. intros i. rewrite (in_BN _ _ _ _ _ T), inN_iff, XX. reflexivity. }
  assert (CE : extra ps p = length (BO (lo d vs) (hi d vs) x F)).
  { unfold extra. rewrite <- LV. apply (counts_length _ _ _ _ C4). split; [apply NoDup_filter, NoDup_starts; exact (t_nodup _ _ _ _ T)|]. intros i. rewrite (in_BO _ _ _ _ _ T). unfold both. rewrite andb_true_iff, inN_iff, inP_iff, XX. reflexivity. }
  assert (HC : forall i r, nth_error ps i = Some r -> (hs_compare h (e_max (o_view O r)) <=? 0)%Z = negb (inP (hi d vs) x i)).
  { intros i r E. assert (V : poly_fit d (o_view O r)) by (rewrite Forall_forall in FIT; apply FIT, in_map; exact (nth_error_In _ _ E)). destruct V as (_ & V & _). rewrite (HS _ _ (denotes_value _ V)), <- coord_value. assert (HI : hi d vs i = coord d (e_max (o_view O r))) by (unfold hi, vs; rewrite nth_error_map, E; reflexivity). rewrite <- HI.
    assert (G : (qsign (hi d vs i - x') <= 0)%Z <-> inP (hi d vs) x i = false). { rewrite inP_false. pose proof (qsign_range (hi d vs i - x')) as R. split; intros Y; [destruct R as [R|[R|R]]; [apply qsign_sub_lt in R|apply qsign_sub_eq in R|lia]; lra|]. destruct R as [R|[R|R]]; [lia|lia|]. apply qsign_sub_gt in R. lra. }
    destruct (inP (hi d vs) x i); cbn [negb]; [apply Z.leb_gt|apply Z.leb_le]; [|apply G; reflexivity]. destruct (Z.lt_ge_cases 0 (qsign (hi d vs i - x'))) as [Y|Y]; [exact Y|apply G in Y; discriminate]. }
  destruct (primary_ok O dbg h ps p d evs x F FIT T' AR FL HB HE ltac:(lia) ltac:(lia) CN CE HC SP TN TP TB OK ltac:(lia)) as (s & negs & poss & nev & pev & A & B).
  - destruct CA as [CA _]. rewrite PQ. exact CA.
  - intros _. exact SH.
  - intros DB. apply same_plane, NM, DB.
  - exists s. do 9 eexists. split; [exact A|exact B].
Qed.
Print Assumptions C65_apply_primary.

(** Six polygons at the plane x = 2: the first crosses it, the third and the last
    are in it, facing either way, the second and fifth end at it and the fourth
    begins there. *)
Definition pt (a b : Z) : hpoint3 := HP (V3 (a * b) 1 (a + b)) b.
Definition pl (a b : Z) (i : nat) : epoly := EP (pt a 1) (pt b (-2)) i.
Definition six : list epoly := [pl 0 4 7; pl 0 2 7; pl 2 2 7; pl 2 4 7; pl 1 2 7; pl 2 2 8]%nat.
Definition six_ops : pops epoly :=
  POps (fun r => r) (fun r => Nat.eqb (e_id r) 8) (fun _ r => Ok r) (fun _ r => Ok r) (fun r => Ok (EP (e_min r) (pt 2 3) (e_id r), EP (pt 2 3) (e_max r) (e_id r))).
Definition six_events : list event :=
  [Ev true true 8; Ev false true 11; Ev true true 5; Ev true true 4; Ev false false 5; Ev false false 4; Ev false true 7; Ev false false 2; Ev false false 1; Ev false true 10; Ev true false 3; Ev false false 0]%nat.
Definition six_part : part := Part 8 15 12 3 5 2 0 0 0.
Definition six_part' : part := Part 8 15 12 3 3 2 2 3 10.
Example six_fit : Forall (poly_fit 0) (map (o_view six_ops) six).
Proof. repeat constructor; vm_compute; discriminate. Qed.
Example six_ok : events_ok 0 (map (o_view six_ops) six) six_events.
Proof.
  destruct (C40_make_event_points true 0 six (fun k => nth k [0; 0; 2; 3; 0; 0; 4; 0; 0; 5; 2; 0] 0)%nat six_fit) as [E|(evs & E & OK)]; vm_compute in E; [discriminate|]. injection E as <-. exact OK.
Qed.
Example six_plane : lowest_cost true None 0 six six_events = Ok (Some six_part) /\ discount true 6 six_events six_part = Ok six_part' /\
  split_plane true 0 six six_events six_part' = Ok (HS (V3 2 0 0) 4).
Proof. vm_compute. auto. Qed.
Example six_divided : exists s B N R D U negs poss nev pev,
  apply_primary six_ops true (HS (V3 2 0 0) 4) six six_part' 0 six_events = Ok s /\ divided six_ops 0 2 six B N R D U negs poss nev pev s.
Proof.
  destruct six_plane as (P1 & P2 & P3). apply (C65_apply_primary epoly six_ops true true 0%nat six six_events None 0%Z six_part six_part' (HS (V3 2 0 0) 4) 2); try assumption; try exact six_fit; try exact six_ok; try (left; reflexivity); try (cbn; lia).
  - exists []. split; [constructor|]. split; [|reflexivity]. intros i. split; [intros []|]. intros [L N]. apply N. destruct (nth_error (map (o_view six_ops) six) i) as [r|] eqn:E; [exists r; auto|]. apply nth_error_None in E. rewrite map_length in E. lia.
  - exists 0%nat, 8%nat, 1%nat. split; [split; eexists; (split; [reflexivity|split; reflexivity])|]. right. split; vm_compute; reflexivity.
  - intros _. unfold no_min. cbn [l4 hn hd vx vy vz]. repeat (apply Forall_cons; [discriminate|]). apply Forall_nil.
  - intros r I A B. cbv [In six] in I. destruct I as [<-|[<-|[<-|[<-|[<-|[<-|[]]]]]]]; try (exfalso; vm_compute in B; discriminate B); try (exfalso; vm_compute in A; discriminate A).
    eexists _, _. split; [reflexivity|]. unfold poly_fit. vm_compute. repeat split; discriminate.
  - intros r _ _ _. exists r. split; reflexivity.
  - intros r _ _ _. exists r. split; reflexivity.
  - intros r _ _ _. exists r. reflexivity.
Qed.
