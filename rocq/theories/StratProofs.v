(** Proofs about SplitStrategy. *)
From Coq Require Import List Bool Arith ZArith QArith Lia Lqa Permutation ZifyBool.
From Verif Require Import BigUIntModel GeoModel GeoSpec GeoProofs GeoSidesProofs AabbModel AabbSpec CvxSpec PolyModel PolySpec RTransModel FilterModel BspModel BspSpec BspGeoProofs BspPolyProofs BspHistSpec BspHistProofs PropBsp PolyCapProofs PolyBridgeProofs BspTreeProofs
  EstModel EstSpec EstProofs EvtModel EvtSpec EvtTokProofs EvtArrProofs EvtCostProofs PropEvt PrimModel PrimSpec PropPrim SecondModel SecondSpec KdModel KdSpec KdCaseProofs KdCutProofs KdOtherProofs KdProofs KdBackProofs PropKd TravModel TravSpec TravProofs StratModel StratSpec.
Import ListNotations.
Open Scope Q_scope.

(** ** Polygons that are not flat *)
Lemma tilted_wide d b qs t : (d < 3)%nat -> poly_ok (bp_poly b) qs -> bp_box b = Some t -> tracks t (map pv (pedges (bp_poly b))) -> tilted b -> coord d (e_min (bp_view d b)) < coord d (e_max (bp_view d b)).
Proof.
  intros Hd OK B T TI. destruct (extent_ok d b qs t Hd OK B T) as [_ _ _ AL]. set (m := coord d (e_min (bp_view d b))) in *. set (M := coord d (e_max (bp_view d b))) in *. destruct (Qlt_le_dec m M) as [L|L]; [exact L|exfalso].
  set (g := hs_axis_aligned d (Qnum m) (Zpos (Qden m))). assert (V : hs_valid g = true) by (apply axis_valid; [exact Hd|reflexivity]).
  destruct (plane_of_vertices (bp_poly b) qs OK g V) as (_ & C & E).
  { intros q I. unfold g. rewrite axis_qside by exact Hd. destruct (AL q I) as [A1 A2]. assert (X : qcomp q d == m) by (apply Qle_antisym; [exact (Qle_trans _ _ _ A2 L)|exact A1]). rewrite X. ring. }
  destruct (TI d Hd) as (k & Hk & Nk & Ck). assert (G : comp (hn g) k = 0%Z) by (unfold g; rewrite axis_comp by assumption; destruct (Nat.eqb_spec k d); [contradiction|reflexivity]).
  assert (F : inject_Z (pnormal_drop (bp_poly b)) * inject_Z (comp (hn g) k) == inject_Z (comp (hn g) (pdrop (bp_poly b))) * inject_Z (comp (hn (pplane (bp_poly b))) k)).
  { destruct E as (E1 & E2 & E3). destruct k as [|[|[|k]]]; [exact E1|exact E2|exact E3|lia]. }
  rewrite G, Qmult_0_r in F. symmetry in F. apply Qmult_integral in F as [F|F]; revert F; apply inject_Z_neq0; assumption.
Qed.

(** ** The excluded mesh *)
Lemma filter_index (f : bpoly -> bool) cs : forall k, length (List.filter (fun i => match nth_error cs (i - k) with Some b => f b | None => false end) (seq k (length cs))) = length (List.filter f cs).
Proof.
  induction cs as [|b cs IH]; intros k; [reflexivity|]. cbn [length seq List.filter]. rewrite Nat.sub_diag. cbn [nth_error].
  assert (E : List.filter (fun i => match nth_error (b :: cs) (i - k) with Some b0 => f b0 | None => false end) (seq (S k) (length cs)) = List.filter (fun i => match nth_error cs (i - S k) with Some b0 => f b0 | None => false end) (seq (S k) (length cs))).
  { apply filter_ext_in. intros i I. apply in_seq in I. replace (i - k)%nat with (S (i - S k)) by lia. reflexivity. }
  rewrite E. destruct (f b); cbn [length]; rewrite IH; reflexivity.
Qed.
Lemma excluded_counts d id cs : EvtSpec.counts (length cs) (fun i => ~ included (Some id) (map (bp_view d) cs) i) (Z.of_nat (count_id id cs)).
Proof.
  exists (List.filter (fun i => match nth_error cs (i - 0) with Some b => Nat.eqb (bp_id b) id | None => false end) (seq 0 (length cs))). split; [apply NoDup_filter, seq_NoDup|]. split; [|rewrite filter_index; reflexivity].
  intros i. rewrite filter_In, in_seq, Nat.sub_0_r. unfold included. split.
  - intros [L E]. split; [lia|]. intros (p & P & N). rewrite nth_error_map in P. destruct (nth_error cs i) as [b|]; [|discriminate]. cbn in P. injection P as <-. apply N. cbn. lia.
  - intros [L E]. split; [lia|]. destruct (nth_error cs i) as [b|] eqn:P; [|apply nth_error_None in P; lia]. destruct (Nat.eqb_spec (bp_id b) id) as [|N]; [reflexivity|]. destruct E. exists (bp_view d b). rewrite nth_error_map, P. split; [reflexivity|exact N].
Qed.
Definition excl_of (x : bnode) : option nat := option_map fst (cost_exclude (n_infos x)).
Definition ec_of (x : bnode) : nat := match cost_exclude (n_infos x) with None => 0 | Some x => snd x end.
Lemma exclude_counts w x d : node_ok w x -> leaf x -> EvtSpec.counts (length (n_contents x)) (fun i => ~ included (excl_of x) (map (bp_view d) (n_contents x)) i) (Z.of_nat (ec_of x)).
Proof.
  intros H L. unfold excl_of, ec_of. pose proof (C53_exclude (n_infos x)) as C. cbv zeta in C. destruct (cost_exclude (n_infos x)) as [[id n]|]; cbn [option_map fst snd].
  - destruct C as (_ & c & E & <- & _). destruct (ct_leaf _ _ (no_counted _ _ H) L id) as [A _]. unfold info_for in A. rewrite (nth_error_nth _ _ _ E) in A. rewrite A. apply excluded_counts.
  - apply counts_zero. intros i Li N. apply N. unfold included. rewrite nth_error_map. destruct (nth_error (n_contents x) i) as [b|] eqn:E; [|apply nth_error_None in E; lia]. eexists. split; [reflexivity|exact I].
Qed.
Lemma count_le id cs : (count_id id cs <= length cs)%nat.
Proof. unfold count_id. induction cs as [|b cs IH]; [reflexivity|]. cbn [List.filter length]. destruct (Nat.eqb (bp_id b) id); cbn [length]; lia. Qed.

(** ** The cutoff *)
Lemma cutoff_le wide n ec c : (Z.of_nat n < 2 ^ 57)%Z -> wide = true \/ (Z.of_nat n < 2 ^ 31)%Z -> (0 <= ec <= Z.of_nat n)%Z -> cost_cutoff wide n ec = Ok c -> (c <= interpolation (Z.of_nat n) (Z.of_nat n - ec + 1))%Z.
Proof.
  intros SZ WD EC E. unfold cost_cutoff in E. cbv zeta in E. unfold size_mod at 1 in E. rewrite Z.mod_small in E by lia. replace (1 + Z.of_nat n - ec)%Z with (Z.of_nat n - ec + 1)%Z in E by lia.
  rewrite estimate_eq in E; [|unfold good_state, estimator_init; lia|lia|lia|].
  - cbn [rbind fst snd] in E. destruct (estimate wide _ (Z.of_nat n - _) _) as [b| | |]; try discriminate. cbn [rbind] in E. destruct (estimate wide (fst b) _ _) as [b'| | |]; try discriminate. cbn [rbind] in E. injection E as <-.
    pose proof (interpolation_nonneg (Z.of_nat n) (Z.of_nat n - ec + 1) ltac:(lia) ltac:(lia)). pose proof (Z.mod_le (interpolation (Z.of_nat n) (Z.of_nat n - ec + 1)) (2 ^ 64) ltac:(lia) ltac:(lia)). lia.
  - destruct WD as [W|W]; [left; exact W|right]. assert (Z.of_nat n * (Z.of_nat n - ec + 1) <= (2 ^ 31 - 1) * 2 ^ 31)%Z by (apply Z.mul_le_mono_nonneg; lia). lia.
Qed.
(** ** The plane is a new one *)
Lemma same_side w s h : path_ok w -> In s w -> hs_valid h = true -> BspSpec.same_plane (ss_split s) h -> (forall q, on_side s q -> 0 <= side h q) \/ (forall q, on_side s q -> side h q <= 0).
Proof.
  intros P I V SP. destruct (same_plane_proportional h (ss_split s) V ltac:(intros q; apply SP)) as (t & (T1 & T2 & T3) & T4).
  assert (E : forall q, side (ss_split s) q == t * side h q).
  { intros q. unfold side, qdot. rewrite T1, T2, T3, T4. unfold qscale. cbn [qx qy qz]. ring. }
  assert (N : ~ t == 0).
  { intros Z0. pose proof (path_valid w s P I) as V'. apply hs_valid_true in V'. apply V'. unfold qp_eq. cbn [qx qy qz]. rewrite T1, T2, T3. unfold qscale. cbn [qx qy qz]. rewrite Z0. repeat split; ring. }
  unfold on_side. destruct (ss_pos s), (Qlt_le_dec 0 t) as [L|L].
  - left. intros q H. rewrite E in H. apply (Qmult_le_l _ _ _ L). rewrite Qmult_0_r. exact H.
  - right. intros q H. rewrite E in H. assert (L' : 0 < - t) by lra. apply (Qmult_le_l _ _ _ L'). lra.
  - right. intros q H. rewrite E in H. apply (Qmult_le_l _ _ _ L). rewrite Qmult_0_r. exact H.
  - left. intros q H. rewrite E in H. assert (L' : 0 < - t) by lra. apply (Qmult_le_l _ _ _ L'). lra.
Qed.
Section Fresh.
Context (w : path) (PW : path_ok w) (wide dbg : bool) (d : nat) (Hd : (d < 3)%nat) (cs : list bpoly) (SC : Forall (fun b => exists qs, st w b qs) cs) (BX : boxed cs) (TI : Forall tilted cs).
Notation vs := (map (bp_view d) cs).
Lemma all_wide i : (i < length cs)%nat -> lo d vs i < hi d vs i.
Proof using Hd SC BX TI.
  intros L. destruct (nth_error cs i) as [b|] eqn:E; [|apply nth_error_None in E; lia]. unfold lo, hi. rewrite nth_error_map, E. cbn [option_map]. pose proof (nth_error_In _ _ E) as I. destruct (content w cs SC BX b I) as (qs & t & S & B). rewrite Forall_forall in TI. exact (tilted_wide d b qs t Hd (s_ok _ _ _ S) B (s_box _ _ _ S t B) (TI b I)).
Qed.
Context (evs : list event) (EV : events_ok d vs evs) (NE : (0 < length cs)%nat) (SZ : (Z.of_nat (length cs) < 2 ^ 57)%Z) (WD : wide = true \/ (Z.of_nat (length cs) < 2 ^ 31)%Z).
Context (excl : option nat) (ec : Z) (EC : EvtSpec.counts (length cs) (fun i => ~ included excl vs i) ec) (p0 p : part) (LC : lowest_cost wide excl ec vs evs = Ok (Some p0)) (DI : discount dbg (length cs) evs p0 = Ok p).
Context (cut : Z) (CU : cost_cutoff wide (length cs) ec = Ok cut) (GO : ((cut <=? p_cost p) && (p_border p =? 0))%Z = false).
Lemma plane_fresh num den x : (0 < den)%Z -> x == inject_Z num / inject_Z den -> event_at d vs evs (p_index p0) x -> fresh_plane w (hs_axis_aligned d num den).
Proof using PW Hd SC BX TI EV NE SZ WD EC LC DI CU GO.
  intros Hden Hx EX. pose proof (axis_valid d num den Hd Hden) as V. split; [exact V|]. intros s I SP. set (h := hs_axis_aligned d num den) in *.
  assert (LV : length vs = length cs) by apply map_length. pose proof (fits w d Hd cs SC BX) as FIT.
  destruct (C40_lowest_cost wide d vs evs excl ec EV ltac:(lia) ltac:(lia) ltac:(rewrite LV; exact WD) ltac:(rewrite LV; exact EC)) as (p1 & LC' & CA & (la & lb & K1 & K2 & K3 & K4 & K5 & K6) & CO & _). rewrite LC in LC'. injection LC' as <-. rewrite LV in *.
  destruct (C40_split wide dbg d vs evs excl ec p0 Hd FIT EV ltac:(lia) ltac:(lia) ltac:(rewrite LV; exact WD) ltac:(rewrite LV; exact EC) LC) as (p2 & x' & h' & D1 & EX' & _ & _ & C3 & _ & _ & PC & _). rewrite LV, DI in D1. injection D1 as <-. rewrite LV in C3.
  assert (SD : forall q, side h q == inject_Z den * (qcomp q d - x)) by (intros q; unfold h; rewrite axis_side by assumption; rewrite Hx; reflexivity). assert (DP : 0 < inject_Z den) by (change 0 with (inject_Z 0); rewrite <- Zlt_Qlt; exact Hden).
  assert (PT : forall i, (i < length cs)%nat -> exists q1 q2, on_side s q1 /\ on_side s q2 /\ qcomp q1 d == lo d vs i /\ qcomp q2 d == hi d vs i).
  { intros i L. destruct (nth_error cs i) as [b|] eqn:E; [|apply nth_error_None in E; lia]. unfold lo, hi. rewrite nth_error_map, E. cbn [option_map]. pose proof (nth_error_In _ _ E) as Ib. destruct (content w cs SC BX b Ib) as (qs & t & S & B). destruct (extent_ok d b qs t Hd (s_ok _ _ _ S) B (s_box _ _ _ S t B)) as [_ [M1 M2] [N1 N2] _].
    assert (NQ : (0 < length qs)%nat) by (pose proof (ok_n _ _ (s_ok _ _ _ S)); pose proof (ok_length _ _ (s_ok _ _ _ S)); lia).
    eexists _, _. split; [|split; [|split; [exact M2|exact N2]]]; apply (s_cell _ _ _ S); try exact I; apply PolyBridgeProofs.cyc_In; exact NQ. }
  destruct CA as [(a & A1 & A2) NX].
  assert (BAD : forall i, (i < length cs)%nat -> lo d vs i < hi d vs i) by exact all_wide.
  destruct (same_side w s h PW I V SP) as [SS|SS].
  - (* everything is above x *)
    destruct EX as (b & e & i & SPN & [[EQ X]|[EQ X]]).
    + destruct SPN as [(a' & Y1 & Y2 & _) _]. rewrite <- EQ, A1 in Y1. injection Y1 as <-. congruence.
    + assert (Li : (i < length cs)%nat). { rewrite <- LV. destruct (nth_error vs i) eqn:E; [apply nth_error_Some; congruence|]. destruct (eo_event _ _ _ EV e) as (s' & e' & i' & L' & SP' & D'); [destruct SPN as [_ (f & F1 & _)]; apply nth_error_Some; congruence|]. destruct SPN as [_ (f & F1 & F2 & F3)], SP' as [(g & G1 & G2 & G3) (g' & H1 & H2 & H3)]. destruct D' as [->| ->]; [congruence|]. rewrite F1 in H1. injection H1 as <-. congruence. }
      destruct (PT i Li) as (q1 & q2 & O1 & _ & Q1 & _). specialize (SS q1 O1). rewrite SD in SS. specialize (BAD i Li). assert (0 <= qcomp q1 d - x) by (apply (Qmult_le_l _ _ _ DP); rewrite Qmult_0_r; exact SS). lra.
  - (* everything is below x *)
    assert (HI : forall i, (i < length cs)%nat -> hi d vs i <= x).
    { intros i Li. destruct (PT i Li) as (q1 & q2 & _ & O2 & _ & Q2). specialize (SS q2 O2). rewrite SD in SS. assert (qcomp q2 d - x <= 0) by (apply (Qmult_le_l _ _ _ DP); rewrite Qmult_0_r; exact SS). lra. }
    assert (LAST : S (p_index p0) = length evs).
    { destruct NX as [NX|(b & B1 & B2)]; [exact NX|exfalso]. destruct (eo_event _ _ _ EV (S (p_index p0))) as (s' & e' & i' & L' & SP' & D'); [apply nth_error_Some; congruence|]. destruct D' as [D'|D']; [|destruct SP' as [_ (g & G1 & G2 & _)]; rewrite <- D', B1 in G1; injection G1 as <-; congruence].
      assert (EY : event_at d vs evs (S (p_index p0)) (lo d vs i')) by (exists s', e', i'; split; [exact SP'|left; split; [exact D'|reflexivity]]). pose proof (eo_sorted _ _ _ EV _ _ _ _ (Nat.lt_succ_diag_r _) EX EY). rewrite LV in L'. specialize (HI i' L'). specialize (BAD i' L'). lra. }
    assert (K0 : p_border p = 0%Z) by (apply (counts_unique _ _ _ _ C3); apply counts_zero; intros i Li [X1 X2]; specialize (BAD i Li); lra).
    assert (Ka : p_neg p0 = Z.of_nat (length cs)).
    { apply (counts_unique _ _ _ _ K1). apply (counts_ext (length cs) (fun _ => True)); [|apply counts_all]. intros i Li. split; [intros _|trivial]. destruct (eo_polygon _ _ _ EV i ltac:(rewrite LV; exact Li)) as (s' & e' & L1 & SP' & _). exists s', e'. split; [exact SP'|]. destruct SP' as [(g & G1 & _) _]. assert (s' < length evs)%nat by (apply nth_error_Some; congruence). lia. }
    assert (Kb : p_pos p0 = 0%Z).
    { apply (counts_unique _ _ _ _ K3). apply counts_zero. intros i Li (s' & e' & SP' & L). destruct SP' as [_ (g & G1 & _)]. assert (e' < length evs)%nat by (apply nth_error_Some; congruence). lia. }
    assert (Kl : (la = Z.of_nat (length cs) - ec)%Z).
    { assert (X : EvtSpec.counts (length cs) (fun i => (begun evs (p_index p0) i /\ included excl vs i) \/ ~ included excl vs i) (la + ec)) by (apply counts_or; [exact K2|exact EC|tauto]).
      assert (la + ec = Z.of_nat (length cs))%Z; [|lia]. apply (counts_unique _ _ _ _ X). apply (counts_ext (length cs) (fun _ => True)); [|apply counts_all]. intros i Li. split; [intros _|trivial].
      assert (IN : included excl vs i \/ ~ included excl vs i).
      { unfold included. destruct (nth_error vs i) as [q|] eqn:E; [|right; intros (q & Y & _); discriminate]. destruct excl as [k|]; [|left; exists q; auto]. destruct (Nat.eq_dec (e_id q) k) as [Y|Y]; [right; intros (q' & Z1 & Z2); injection Z1 as <-; contradiction|left; exists q; auto]. }
      destruct IN as [IN|IN]; [left; split; [|exact IN]|right; exact IN]. destruct (eo_polygon _ _ _ EV i ltac:(rewrite LV; exact Li)) as (s' & e' & L1 & SP' & _). exists s', e'. split; [exact SP'|]. destruct SP' as [(g & G1 & _) _]. assert (s' < length evs)%nat by (apply nth_error_Some; congruence). lia. }
    assert (ECB : (0 <= ec <= Z.of_nat (length cs))%Z) by (split; [exact (counts_nonneg _ _ _ EC)|apply (counts_le _ _ _ _ _ EC (counts_all _)); trivial]).
    pose proof (cutoff_le wide (length cs) ec cut SZ WD ECB CU) as CL. assert (LB : (0 <= lb)%Z) by exact (counts_nonneg _ _ _ K4).
    assert (P0 : (p_pos_cost p0 = 0)%Z) by (rewrite K6, Kb; unfold interpolation; rewrite !Z.mul_0_l, Z.div_0_l; [reflexivity|pose proof (Z.pow_pos_nonneg 2 (Z.log2 (lb + 1)) ltac:(lia) (Z.log2_nonneg _)); lia]).
    rewrite K0, andb_true_r in GO. rewrite PC, CO, P0, K5, Ka, Kl in GO. lia.
Qed.
End Fresh.
(** ** The event points *)
Lemma best_some wide excl ec evs cs p d : best_split wide excl ec evs cs = Ok (Some p, d) -> (d < 3)%nat /\ lowest_cost wide excl ec (map (bp_view d) cs) (evs d) = Ok (Some p).
Proof.
  unfold best_split. destruct (lowest_cost _ _ _ (map (bp_view 0) cs) _) as [a| | |] eqn:A; try discriminate. cbn [rbind]. destruct (lowest_cost _ _ _ (map (bp_view 1) cs) _) as [b| | |] eqn:B; try discriminate. cbn [rbind]. destruct (lowest_cost _ _ _ (map (bp_view 2) cs) _) as [c| | |] eqn:C; try discriminate. cbn [rbind].
  destruct (cost_of b <? cost_of a)%Z; cbn [fst]; [destruct (cost_of c <? cost_of b)%Z|destruct (cost_of c <? cost_of a)%Z]; intros E; injection E as -> <-; (split; [lia|assumption]).
Qed.
Lemma init_ok dbg heap cs evs : (forall d, (d < 3)%nat -> Forall (poly_fit d) (map (bp_view d) cs)) -> init_events dbg heap cs = Ok evs -> forall d, (d < 3)%nat -> events_ok d (map (bp_view d) cs) (evs d).
Proof.
  intros F E. assert (M : forall d a, (d < 3)%nat -> make_events dbg d (map (bp_view d) cs) (heap d) = Ok a -> events_ok d (map (bp_view d) cs) a).
  { intros d a L X. destruct (C40_make_event_points dbg d (map (bp_view d) cs) (heap d) (F d L)) as [Y|(evs' & Y & K)]; rewrite X in Y; [discriminate|]. injection Y as <-. exact K. }
  unfold init_events in E. destruct (make_events dbg 0 _ _) as [a| | |] eqn:A; try discriminate. cbn [rbind] in E. destruct (make_events dbg 1 _ _) as [b| | |] eqn:B; try discriminate. cbn [rbind] in E. destruct (make_events dbg 2 _ _) as [c| | |] eqn:C; try discriminate. cbn [rbind] in E. injection E as <-.
  intros d L. destruct d as [|[|[|d]]]; [apply M|apply M|apply M|]; auto; lia.
Qed.
Lemma read_lifted (l : list event) : forall r, read_events (map (fun e => Some (lift e)) l ++ r) (length l) = Ok l.
Proof. induction l as [|[a b k] l IH]; intros r; [destruct r; reflexivity|]. cbn [map app length read_events got rbind lift w_ref w_new w_start idx]. rewrite IH. reflexivity. Qed.
Lemma few_within wide cs l : few wide cs -> within cs l -> few wide l.
Proof. intros [A B] [L _]. split; [lia|destruct B; [left; assumption|right; lia]]. Qed.
Lemma tilted_within cs l : Forall tilted cs -> within cs l -> Forall tilted l.
Proof. intros A [_ W]. rewrite Forall_forall in *. intros a I. destruct (W a I) as (r & R & E). unfold tilted. rewrite E. exact (A r R). Qed.
Definition auto_ok (dbg : bool) (auto : bnode -> res bnode) : Prop := forall w x x', path_ok w -> node_ok w x -> leaf x -> n_contents x <> [] -> auto x = Ok x' -> exists h, fresh_plane w h /\ bn_split dbg h x = Ok x'.
Lemma rest_ok dbg wide auto w x x' s1 s2 : auto_ok dbg auto -> path_ok w -> node_ok w x -> leaf x -> n_contents x <> [] -> split_rest auto x = Ok (x', (s1, s2)) ->
  exists h x1, fresh_plane w h /\ bn_split dbg h x = Ok x1 /\ reordered x1 x' /\ strategy_ok wide s1 (n_neg x') /\ strategy_ok wide s2 (n_pos x').
Proof.
  intros A P H L N E. unfold split_rest in E. destruct (auto x) as [y| | |] eqn:Ey; try discriminate. cbn [rbind] in E. injection E as -> <- <-. destruct (A w x x' P H L N Ey) as (h & F & B). exists h, x'. split; [exact F|]. split; [exact B|]. split; [apply reordered_refl|]. split; exact I.
Qed.
Lemma map_some_inj {A} (l l' : list A) : map Some l = map Some l' -> l = l'.
Proof. revert l'. induction l as [|a l IH]; intros [|b l'] E; cbn in E; try discriminate; [reflexivity|]. injection E as -> E. rewrite (IH _ E). reflexivity. Qed.
Lemma three_ok d cs a b c : (d < 3)%nat -> events_ok d (map (bp_view d) cs) a -> events_ok ((d + 1) mod 3) (map (bp_view ((d + 1) mod 3)) cs) b -> events_ok ((d + 2) mod 3) (map (bp_view ((d + 2) mod 3)) cs) c ->
  forall k, (k < 3)%nat -> events_ok k (map (bp_view k) cs) (three d a b c k).
Proof. intros D A B C k K. destruct d as [|[|[|d]]]; [| | |lia]; destruct k as [|[|[|k]]]; try lia; assumption. Qed.

Theorem strat_splitter dbg wide auto heap merge : auto_ok dbg auto -> splitter dbg (strategy_ok wide) (strat_split dbg wide auto heap merge).
Proof.
  intros AU w x st x' s1 s2 P H L N IV E. unfold strat_split in E. change contents_of with n_contents in E. change infos_of with n_infos in E. unfold strategy_ok in IV. cbv zeta in E.
  destruct (st_bound st) as [bound|] eqn:EB; [|exact (rest_ok dbg wide auto w x x' s1 s2 AU P H L N E)].
  destruct (Nat.leb_spec (length (n_contents x)) bound) as [LE|GT]; [exact (rest_ok dbg wide auto w x x' s1 s2 AU P H L N E)|].
  destruct IV as [IV|(BX & TI & FW & IV)]; [lia|]. pose proof (contents_st w x P H) as SC. set (cs := n_contents x) in *. assert (NE : (0 < length cs)%nat) by lia. destruct FW as [SZ WD].
  destruct (if length (st_events st 0) =? 0 then _ else _)%nat as [evs| | |] eqn:EE; try discriminate. cbn [rbind] in E.
  assert (EV : forall d, (d < 3)%nat -> events_ok d (map (bp_view d) cs) (evs d)).
  { destruct (Nat.eqb_spec (length (st_events st 0)) 0) as [Z0|Z0].
    - apply (init_ok dbg (heap x)); [|exact EE]. intros d Hd. exact (fits w d Hd cs SC BX).
    - injection EE as <-. destruct IV as [IV|IV]; [rewrite IV in Z0; cbn in Z0; lia|exact IV]. }
  fold (excl_of x) in E. fold (ec_of x) in E. destruct (check dbg (ec_of x <=? length cs)); try discriminate. cbn [rbind] in E.
  destruct (best_split wide (excl_of x) (Z.of_nat (ec_of x)) evs cs) as [[op d]| | |] eqn:EP; try discriminate. cbn [rbind fst snd] in E. destruct op as [p0|]; [|discriminate]. destruct (best_some _ _ _ _ _ _ _ EP) as [Hd LC].
  destruct (cost_cutoff wide (length cs) (Z.of_nat (ec_of x))) as [cut| | |] eqn:CU; try discriminate. cbn [rbind] in E. destruct (discount dbg (length cs) (evs d) p0) as [p| | |] eqn:DI; try discriminate. cbn [rbind] in E.
  destruct ((cut <=? p_cost p) && (p_border p =? 0))%Z eqn:GO; [exact (rest_ok dbg wide auto w x x' s1 s2 AU P H L N E)|].
  pose proof (exclude_counts w x d H L) as EC. fold cs in EC. unfold split_events in E. destruct (bn_split_kd dbg d (evs d) p x) as [[x2 s]| | |] eqn:K; try discriminate. cbn [rbind fst snd] in E. change neg_of with n_neg in E. change pos_of with n_pos in E. change contents_of with n_contents in E.
  pose proof (EV d Hd) as EVd. assert (LF : bn_is_leaf (n_split x) = true) by (unfold bn_is_leaf; rewrite L; reflexivity).
  destruct x as [|s0 cs0 bs infos c1 c2]; [contradiction N; reflexivity|]. cbn [n_split] in LF. cbn [n_contents] in cs. subst cs. rename cs0 into cs.
  destruct (kd_ran w wide dbg d cs bs infos s0 c1 c2 (evs d) _ _ p0 p x2 s P Hd LF SC BX EVd NE SZ WD EC LC DI K) as (num & den & y & h & x1 & n2 & p2 & B & NN & R & D & U & nev & pev & Eh & Hden & Hy & SH & EX & BS & E2 & RE & DV & B1 & B2 & W1 & W2 & OT).
  pose proof (plane_fresh w P wide dbg d Hd cs SC BX TI (evs d) EVd NE SZ WD _ _ EC p0 p LC DI cut CU GO num den y Hden Hy EX) as FR. rewrite <- Eh in FR.
  assert (AW : forall d' r, (d' < 3)%nat -> In r cs -> coord d' (e_min (bp_view d' r)) < coord d' (e_max (bp_view d' r))).
  { intros d' r L' I. destruct (content w cs SC BX r I) as (qs & t & S & Bt). rewrite Forall_forall in TI. exact (tilted_wide d' r qs t L' (s_ok _ _ _ S) Bt (s_box _ _ _ S t Bt) (TI r I)). }
  assert (DU : dbg = true -> D = [] /\ U = []).
  { intros _. assert (G : forall q, (q < length cs)%nat -> ~ (lo d (map (bp_view d) cs) q == y /\ hi d (map (bp_view d) cs) q == y)) by (intros q Lq [X1 X2]; pose proof (all_wide w d Hd cs SC BX TI q Lq); lra).
    destruct (dv_down _ _ _ _ _ _ _ _ _ _ _ _ _ _ DV) as [_ ID], (dv_up _ _ _ _ _ _ _ _ _ _ _ _ _ _ DV) as [_ IU]. change (map (o_view (kd_ops dbg d h)) cs) with (map (bp_view d) cs) in *.
    split; [destruct D as [|q D]; [reflexivity|destruct (proj1 (ID q) (or_introl eq_refl)) as (Lq & E1 & E3 & _)]|destruct U as [|q U]; [reflexivity|destruct (proj1 (IU q) (or_introl eq_refl)) as (Lq & E1 & E3 & _)]]; destruct (G q Lq); auto. }
  pose proof (dv_negs_ok _ _ _ _ _ _ _ _ _ _ _ _ _ _ DV) as NO. pose proof (dv_poss_ok _ _ _ _ _ _ _ _ _ _ _ _ _ _ DV) as PO. pose proof (dv_length _ _ _ _ _ _ _ _ _ _ _ _ _ _ DV) as LM. pose proof (dv_nev _ _ _ _ _ _ _ _ _ _ _ _ _ _ DV) as NV. pose proof (dv_pev _ _ _ _ _ _ _ _ _ _ _ _ _ _ DV) as PV. change (o_view (kd_ops dbg d h)) with (bp_view d) in NO, PO.
  assert (LB : Z.to_nat (extra_count p (Z.of_nat (length cs))) = length B).
  { pose proof (fits w d Hd cs SC BX) as FIT. assert (LV : length (map (bp_view d) cs) = length cs) by apply map_length.
    destruct (C40_split wide dbg d (map (bp_view d) cs) (evs d) _ _ p0 Hd FIT EVd ltac:(lia) ltac:(lia) ltac:(rewrite LV; exact WD) ltac:(rewrite LV; exact EC) LC) as (q & y' & h' & D1 & EX' & _ & _ & _ & C4 & _). rewrite LV, DI in D1. injection D1 as <-. rewrite LV in C4.
    assert (YY : y == y'). { destruct (toks_of_events d (map (bp_view d) cs) (evs d) EVd) as (F & AR & T & FL). apply (event_at_iff _ _ _ F AR T) in EX, EX'. destruct EX as (t1 & T1 & T2), EX' as (u & U1 & U2). rewrite T1 in U1. injection U1 as <-. rewrite T2, U2. reflexivity. }
    destruct (dv_crossing _ _ _ _ _ _ _ _ _ _ _ _ _ _ DV) as [NB IB]. apply (counts_length _ _ _ B C4). split; [exact NB|]. intros q. rewrite IB. change (map (o_view (kd_ops dbg d h)) cs) with (map (bp_view d) cs). split; intros (A & A1 & A2); split; try assumption; split; lra. }
  subst x2. cbn [n_neg n_pos n_contents] in E. set (negs := n_contents n2) in *. set (poss := n_contents p2) in *.
  assert (R1 : read_events (s_neg s) (length (s_neg s)) = Ok nev) by (rewrite NV, map_length; rewrite <- (app_nil_r (map _ nev)); apply read_lifted). rewrite R1 in E. cbn [rbind] in E.
  assert (R2 : read_events (map Some (s_ev s)) (length poss * 2) = Ok pev).
  { pose proof (eo_length _ _ _ PO) as LP. rewrite map_length in LP. rewrite <- (firstn_skipn (length poss * 2) (s_ev s)), PV, map_app, map_map. replace (length poss * 2)%nat with (length pev) by lia. apply read_lifted. }
  rewrite R2 in E. cbn [rbind] in E.
  assert (LT1 : ((d + 1) mod 3 < 3)%nat) by (apply Nat.mod_upper_bound; lia). assert (LT2 : ((d + 2) mod 3 < 3)%nat) by (apply Nat.mod_upper_bound; lia).
  assert (OE : exists pmap, s_map s = map Some pmap /\ length pmap = length cs /\ forall d' r1 r2, (d' < 3)%nat -> other_events dbg (merge (BNode s0 cs bs infos c1 c2)) p negs poss pmap evs d' = Ok (r1, r2) -> events_ok d' (map (bp_view d') negs) r1 /\ events_ok d' (map (bp_view d') poss) r2).
  { destruct (OT _ dbg _ (fun _ => 0%nat) 0%nat LT1 (EV _ LT1) (fun r => AW _ r LT1) DU) as (pmap & M & _). assert (LP : length pmap = length cs) by (rewrite M, map_length in LM; exact LM). exists pmap. split; [exact M|]. split; [exact LP|]. intros d' r1 r2 L' X. unfold other_events in X. cbv zeta in X. rewrite LP, LB in X.
    destruct (OT d' dbg (evs d') (merge (BNode s0 cs bs infos c1 c2) d') (64 * (length cs + length negs + length poss) + 32)%nat L' (EV d' L') (fun r => AW d' r L') DU) as (pmap' & M' & [X'|(ra & rb & X' & Y1 & Y2)]); (assert (pmap' = pmap) as -> by (apply map_some_inj; congruence)); rewrite X' in X; [discriminate|]. injection X as <- <-. auto. }
  destruct OE as (pmap & M & LP & OE). rewrite M, filled_map in E. cbn [rbind] in E.
  destruct (other_events _ _ _ _ _ _ _ ((d + 1) mod 3)) as [[a1 a2]| | |] eqn:O1; try discriminate. cbn [rbind fst snd] in E. destruct (other_events _ _ _ _ _ _ _ ((d + 2) mod 3)) as [[b1 b2]| | |] eqn:O2; try discriminate. cbn [rbind fst snd] in E. injection E as <- <- <-.
  destruct (OE _ _ _ LT1 O1) as [G1 G2], (OE _ _ _ LT2 O2) as [G3 G4].
  exists h, x1. split; [exact FR|]. split; [exact BS|]. split; [exact RE|]. cbn [n_neg n_pos]. unfold strategy_ok. cbn [st_bound st_events]. fold negs poss.
  split; right; (split; [apply box_boxed; assumption|]); (split; [apply (tilted_within cs); assumption|]); (split; [apply (few_within wide cs); [split; assumption|assumption]|]); right; apply three_ok; assumption.
Qed.
(** ** Nothing goes wrong *)
Lemma est_ok wide last m n : (0 <= last)%Z -> (0 <= m < 2 ^ 57)%Z -> (0 < n <= 2 ^ 57)%Z -> wide = true \/ (m < 2 ^ 31 /\ n <= 2 ^ 31)%Z -> exists r, estimate wide last m n = Ok r /\ (0 <= fst r)%Z.
Proof.
  intros G M N W. rewrite estimate_eq; [eexists; split; [reflexivity|apply Z.log2_nonneg]|exact G|lia|lia|]. destruct W as [W|[W1 W2]]; [left; exact W|right]. assert (m * n <= (2 ^ 31 - 1) * 2 ^ 31)%Z by (apply Z.mul_le_mono_nonneg; lia). lia.
Qed.
Lemma cutoff_ok wide n ec : (Z.of_nat n < 2 ^ 57)%Z -> wide = true \/ (Z.of_nat n < 2 ^ 31)%Z -> (0 <= ec <= Z.of_nat n)%Z -> exists c, cost_cutoff wide n ec = Ok c.
Proof.
  intros SZ WD EC. unfold cost_cutoff. cbv zeta. replace (size_mod (1 + Z.of_nat n - ec)) with (1 + Z.of_nat n - ec)%Z by (unfold size_mod; rewrite Z.mod_small; lia). pose proof (Z.div_pos (Z.of_nat n) 16 ltac:(lia) ltac:(lia)) as M0. pose proof (Z.div_le_upper_bound (Z.of_nat n) 16 (Z.of_nat n) ltac:(lia) ltac:(lia)) as M1. set (mi := (Z.of_nat n / 16)%Z) in *.
  destruct (est_ok wide estimator_init (Z.of_nat n) (1 + Z.of_nat n - ec)) as (a & -> & A); [unfold estimator_init; lia|lia|lia|destruct WD; [left; assumption|right; lia]|]. cbn [rbind].
  destruct (est_ok wide (fst a) (Z.of_nat n - mi) (1 + (Z.of_nat n - mi))) as (b & -> & B); [lia|lia|lia|destruct WD; [left; assumption|right; lia]|]. cbn [rbind].
  destruct (est_ok wide (fst b) mi (1 + mi)) as (c & -> & C); [lia|lia|lia|destruct WD; [left; assumption|right; lia]|]. cbn [rbind]. eexists. reflexivity.
Qed.
Lemma best_exists wide excl ec evs cs : (forall d, (d < 3)%nat -> exists p, lowest_cost wide excl ec (map (bp_view d) cs) (evs d) = Ok (Some p)) -> exists p d, best_split wide excl ec evs cs = Ok (Some p, d).
Proof.
  intros H. destruct (H 0%nat ltac:(lia)) as (a & A), (H 1%nat ltac:(lia)) as (b & B), (H 2%nat ltac:(lia)) as (c & C). unfold best_split. rewrite A, B, C. cbn [rbind]. destruct (cost_of (Some b) <? _)%Z; cbn [fst]; [destruct (cost_of (Some c) <? cost_of (Some b))%Z|destruct (cost_of (Some c) <? cost_of (Some a))%Z]; eauto.
Qed.
Lemma init_runs dbg heap cs : (forall d, (d < 3)%nat -> Forall (poly_fit d) (map (bp_view d) cs)) -> init_events dbg heap cs = NoFuel \/ exists evs, init_events dbg heap cs = Ok evs.
Proof.
  intros F. unfold init_events. destruct (C40_make_event_points dbg 0 _ (heap 0%nat) (F 0%nat ltac:(lia))) as [->|(a & -> & _)]; [left; reflexivity|]. destruct (C40_make_event_points dbg 1 _ (heap 1%nat) (F 1%nat ltac:(lia))) as [->|(b & -> & _)]; [left; reflexivity|]. destruct (C40_make_event_points dbg 2 _ (heap 2%nat) (F 2%nat ltac:(lia))) as [->|(c & -> & _)]; [left; reflexivity|]. right. eexists. reflexivity.
Qed.
Theorem strat_runs dbg wide auto heap merge w x st : path_ok w -> node_ok w x -> leaf x -> n_contents x <> [] -> strategy_ok wide st x -> let r := strat_split dbg wide auto heap merge st x in
  r = NoFuel \/ r = split_rest auto x \/ exists h, fresh_plane w h /\ ((dbg = true -> no_min (l4 h)) -> forall x1, bn_split dbg h x = Ok x1 -> r = NoFuel \/ exists y, r = Ok y).
Proof.
  intros P H L N IV. unfold strat_split. change contents_of with n_contents. change infos_of with n_infos. unfold strategy_ok in IV. cbv zeta.
  destruct (st_bound st) as [bound|] eqn:EB; [|right; left; reflexivity].
  destruct (Nat.leb_spec (length (n_contents x)) bound) as [LE|GT]; [right; left; reflexivity|].
  destruct IV as [IV|(BX & TI & FW & IV)]; [lia|]. pose proof (contents_st w x P H) as SC. set (cs := n_contents x) in *. assert (NE : (0 < length cs)%nat) by lia. destruct FW as [SZ WD].
  assert (FI : forall d, (d < 3)%nat -> Forall (poly_fit d) (map (bp_view d) cs)) by (intros d Hd; exact (fits w d Hd cs SC BX)).
  assert (EE : (if length (st_events st 0) =? 0 then init_events dbg (heap x) cs else Ok (st_events st))%nat = NoFuel \/ exists evs, (if length (st_events st 0) =? 0 then init_events dbg (heap x) cs else Ok (st_events st))%nat = Ok evs /\ forall d, (d < 3)%nat -> events_ok d (map (bp_view d) cs) (evs d)).
  { destruct (Nat.eqb_spec (length (st_events st 0)) 0) as [Z0|Z0].
    - destruct (init_runs dbg (heap x) cs FI) as [->|(evs & E)]; [left; reflexivity|right]. exists evs. split; [exact E|]. exact (init_ok dbg (heap x) cs evs FI E).
    - right. exists (st_events st). split; [reflexivity|]. destruct IV as [IV|IV]; [rewrite IV in Z0; cbn in Z0; lia|exact IV]. }
  destruct EE as [->|(evs & -> & EV)]; [left; reflexivity|]. cbn [rbind]. fold (excl_of x). fold (ec_of x).
  assert (EC : forall d, EvtSpec.counts (length cs) (fun i => ~ included (excl_of x) (map (bp_view d) cs) i) (Z.of_nat (ec_of x))) by (intros d; exact (exclude_counts w x d H L)).
  assert (ECB : (0 <= Z.of_nat (ec_of x) <= Z.of_nat (length cs))%Z) by (split; [exact (counts_nonneg _ _ _ (EC 0%nat))|apply (counts_le _ _ _ _ _ (EC 0%nat) (counts_all _)); trivial]).
  replace (ec_of x <=? length cs)%nat with true by lia. rewrite BspTreeProofs.check_true. cbn [rbind].
  destruct (best_exists wide (excl_of x) (Z.of_nat (ec_of x)) evs cs) as (p0 & d & EP).
  { intros d Hd. assert (LV : length (map (bp_view d) cs) = length cs) by apply map_length. destruct (C40_lowest_cost wide d (map (bp_view d) cs) (evs d) (excl_of x) (Z.of_nat (ec_of x)) (EV d Hd) ltac:(lia) ltac:(lia) ltac:(rewrite LV; exact WD) ltac:(rewrite LV; apply EC)) as (p & E & _). eauto. }
  rewrite EP. cbn [rbind fst snd]. destruct (best_some _ _ _ _ _ _ _ EP) as [Hd LC]. destruct (cutoff_ok wide (length cs) (Z.of_nat (ec_of x)) SZ WD ECB) as (cut & CU). rewrite CU. cbn [rbind].
  assert (LV : length (map (bp_view d) cs) = length cs) by apply map_length. pose proof (EV d Hd) as EVd. pose proof (EC d) as ECd.
  destruct (C40_split wide dbg d (map (bp_view d) cs) (evs d) _ _ p0 Hd (FI d Hd) EVd ltac:(lia) ltac:(lia) ltac:(rewrite LV; exact WD) ltac:(rewrite LV; exact ECd) LC) as (p & y & h & DI & EX & _ & _ & _ & C4 & _ & _ & _ & SH & HS). rewrite LV in DI, C4. rewrite DI. cbn [rbind].
  destruct ((cut <=? p_cost p) && (p_border p =? 0))%Z eqn:GO; [right; left; reflexivity|]. right. right. exists h.
  destruct (split_plane_axis _ _ _ _ _ _ (FI d Hd) SH) as (num & den & Hden & Eh). subst h. pose proof (axis_at d num den y Hd Hden HS) as Hy.
  split; [exact (plane_fresh w P wide dbg d Hd cs SC BX TI (evs d) EVd NE SZ WD _ _ ECd p0 p LC DI cut CU GO num den y Hden Hy EX)|]. set (h := hs_axis_aligned d num den) in *. intros NM x1 BS.
  destruct x as [|s0 cs0 bs infos c1 c2]; [contradiction N; reflexivity|]. cbn [n_contents] in cs. subst cs. rename cs0 into cs.
  destruct (kd_ok w wide dbg d cs bs infos s0 c1 c2 (evs d) _ _ p0 p h y x1 P Hd SC BX EVd NE SZ WD ECd LC DI SH EX (or_introl NM) BS) as (n2 & p2 & s & B & NN & R & D & U & nev & pev & K & RE & DV & B1 & B2 & W1 & W2 & OT).
  unfold split_events. rewrite K. cbn [rbind fst snd neg_of pos_of]. change contents_of with n_contents.
  assert (AW : forall d' r, (d' < 3)%nat -> In r cs -> coord d' (e_min (bp_view d' r)) < coord d' (e_max (bp_view d' r))).
  { intros d' r L' I. destruct (content w cs SC BX r I) as (qs & t & S & Bt). rewrite Forall_forall in TI. exact (tilted_wide d' r qs t L' (s_ok _ _ _ S) Bt (s_box _ _ _ S t Bt) (TI r I)). }
  assert (DU : dbg = true -> D = [] /\ U = []).
  { intros _. assert (G : forall q, (q < length cs)%nat -> ~ (lo d (map (bp_view d) cs) q == y /\ hi d (map (bp_view d) cs) q == y)) by (intros q Lq [X1 X2]; pose proof (all_wide w d Hd cs SC BX TI q Lq); lra).
    destruct (dv_down _ _ _ _ _ _ _ _ _ _ _ _ _ _ DV) as [_ ID], (dv_up _ _ _ _ _ _ _ _ _ _ _ _ _ _ DV) as [_ IU]. change (map (o_view (kd_ops dbg d h)) cs) with (map (bp_view d) cs) in *.
    split; [destruct D as [|q D]; [reflexivity|destruct (proj1 (ID q) (or_introl eq_refl)) as (Lq & E1 & E3 & _)]|destruct U as [|q U]; [reflexivity|destruct (proj1 (IU q) (or_introl eq_refl)) as (Lq & E1 & E3 & _)]]; destruct (G q Lq); auto. }
  pose proof (dv_poss_ok _ _ _ _ _ _ _ _ _ _ _ _ _ _ DV) as PO. pose proof (dv_length _ _ _ _ _ _ _ _ _ _ _ _ _ _ DV) as LM. pose proof (dv_nev _ _ _ _ _ _ _ _ _ _ _ _ _ _ DV) as NV. pose proof (dv_pev _ _ _ _ _ _ _ _ _ _ _ _ _ _ DV) as PV. change (o_view (kd_ops dbg d h)) with (bp_view d) in PO.
  assert (LB : Z.to_nat (extra_count p (Z.of_nat (length cs))) = length B).
  { destruct (dv_crossing _ _ _ _ _ _ _ _ _ _ _ _ _ _ DV) as [NB IB]. apply (counts_length _ _ _ B C4). split; [exact NB|]. exact IB. }
  set (negs := n_contents n2) in *. set (poss := n_contents p2) in *.
  assert (R1 : read_events (s_neg s) (length (s_neg s)) = Ok nev) by (rewrite NV, map_length; rewrite <- (app_nil_r (map _ nev)); apply read_lifted). rewrite R1. cbn [rbind].
  assert (R2 : read_events (map Some (s_ev s)) (length poss * 2) = Ok pev).
  { pose proof (eo_length _ _ _ PO) as LP. rewrite map_length in LP. rewrite <- (firstn_skipn (length poss * 2) (s_ev s)), PV, map_app, map_map. replace (length poss * 2)%nat with (length pev) by lia. apply read_lifted. }
  rewrite R2. cbn [rbind].
  assert (LT1 : ((d + 1) mod 3 < 3)%nat) by (apply Nat.mod_upper_bound; lia). assert (LT2 : ((d + 2) mod 3 < 3)%nat) by (apply Nat.mod_upper_bound; lia).
  assert (OE : exists pmap, s_map s = map Some pmap /\ length pmap = length cs /\ forall d', (d' < 3)%nat -> let r := other_events dbg (merge (BNode s0 cs bs infos c1 c2)) p negs poss pmap evs d' in r = NoFuel \/ exists y, r = Ok y).
  { destruct (OT _ dbg _ (fun _ => 0%nat) 0%nat LT1 (EV _ LT1) (fun r => AW _ r LT1) DU) as (pmap & M & _). assert (LP : length pmap = length cs) by (rewrite M, map_length in LM; exact LM). exists pmap. split; [exact M|]. split; [exact LP|]. intros d' L'. unfold other_events. cbv zeta. rewrite LP, LB.
    destruct (OT d' dbg (evs d') (merge (BNode s0 cs bs infos c1 c2) d') (64 * (length cs + length negs + length poss) + 32)%nat L' (EV d' L') (fun r => AW d' r L') DU) as (pmap' & M' & [X'|(ra & rb & X' & Y1 & Y2)]); (assert (pmap' = pmap) as -> by (apply map_some_inj; congruence)); rewrite X'; eauto. }
  destruct OE as (pmap & M & LP & OE). rewrite M, filled_map. cbn [rbind].
  destruct (OE _ LT1) as [->|(a & ->)]; [left; reflexivity|]. cbn [rbind]. destruct (OE _ LT2) as [->|(b & ->)]; [left; reflexivity|]. cbn [rbind]. right. eexists. reflexivity.
Qed.
