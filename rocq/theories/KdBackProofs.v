(** Where Split(partition, ...) has a result, Split(half_space) has one. *)
From Coq Require Import List Bool Arith ZArith QArith Lia Lqa Permutation ZifyBool.
From Verif Require Import BigUIntModel GeoModel GeoSpec GeoProofs GeoPlaneProofs GeoDirProofs AabbModel AabbSpec AabbTrackerProofs CvxSpec PolyModel PolySpec PolyBridgeProofs PolyInfoProofs PolyCapProofs PolyChildProofs PolyTopProofs RTransModel FilterModel BspModel BspSpec BspMarkProofs BspGeoProofs BspBoxProofs BspPolyProofs BspTreeProofs
  EstModel EstSpec EvtModel EvtSpec EvtTokProofs EvtProofs EvtArrProofs EvtCostProofs EvtDiscProofs PropEvt PrimModel PrimSpec PropPrim PrimMonoProofs KdModel KdSpec KdMarkProofs KdDealProofs KdCaseProofs KdCutProofs SecondModel SecondSpec SecondCarryProofs PropSecond KdOtherProofs KdProofs.
Import ListNotations.
Open Scope Q_scope.

Lemma set_angles_total b c f l : (0 < bp_count b)%nat -> exists a, set_angles b c f l = Ok a.
Proof. intros N. unfold set_angles. destruct (f =? l)%nat; [eexists; reflexivity|]. destruct (Nat.eqb_spec (bp_count b) 0); [lia|eexists; reflexivity]. Qed.
Section Case.
Context (dbg : bool) (d : nat) (Hd : (d < 3)%nat) (num den : Z) (Hden : (0 < den)%Z) (x : Q) (Hx : x == inject_Z num / inject_Z den).
Notation h := (hs_axis_aligned d num den).
Context (b : bpoly) (qs : list qpoint) (OK : poly_ok (bp_poly b) qs) (t : tracker) (Bx : bp_box b = Some t) (TR : tracks t (map pv (pedges (bp_poly b)))).
Notation L := (coord d (e_min (bp_view d b))).
Notation H := (coord d (e_max (bp_view d b))).
(** Splitting is the only thing that can fail. *)
Lemma content_total : (L < x -> x < H -> exists c, kd_cut dbg h b = Ok c) -> exists o, content_outcome dbg h b = Ok o.
Proof using Hd Hden Hx OK Bx TR.
  intros CUT. pose proof (ok_n _ _ OK) as N. fold (bp_count b) in N. destruct (BspTreeProofs.place dbg b qs h OK) as (i & Ei & Ci & Pl); [intros t' E'; rewrite Bx in E'; injection E' as <-; exact TR|].
  unfold content_outcome. destruct (Nat.ltb_spec 0 (bp_count b)); [|lia]. rewrite check_true. cbn [rbind]. rewrite Ei. cbn [rbind]. rewrite Ci. cbn [rbind].
  destruct (on_plane_info i) eqn:Eo. { unfold on_outcome. match goal with |- context [set_angles ?b ?c ?f ?l] => destruct (set_angles_total b c f l ltac:(lia)) as (a & ->) end. eexists. reflexivity. }
  unfold off_outcome, set_angles_except. destruct (emit_neg (si_ranges i)) eqn:En; [destruct (emit_pos (si_ranges i)) eqn:Ep|].
  - destruct Pl as [E _|_ _ E _ _ _ _|_ E _ _ _ _|_ _ _ I St]; try congruence. destruct (cut_reaches d Hd num den Hden x Hx b qs OK t Bx TR i I En Ep) as [A B]. destruct (CUT A B) as (c & K). unfold kd_cut in K. rewrite Ei in K. cbn [rbind] in K. rewrite En, Ep, check_true in K. cbn [rbind] in K.
    destruct (bp_split_children dbg b i) as [c1| | |]; try discriminate. cbn [rbind] in *. rewrite K. eexists. reflexivity.
  - match goal with |- context [set_angles ?b ?c ?f ?l] => destruct (set_angles_total b c f l ltac:(lia)) as (a & ->) end. eexists. reflexivity.
  - match goal with |- context [set_angles ?b ?c ?f ?l] => destruct (set_angles_total b c f l ltac:(lia)) as (a & ->) end. eexists. reflexivity.
Qed.
End Case.

(** A polygon that only has two vertices and a number. *)
Definition stand_in (k : nat) (u v : hpoint3) : bpoly :=
  BP (Poly no_plane 0 [PE u no_line bd_new; PE v no_line bd_new]) (Some (Tr (I3 0 0 0) (I3 1 1 1) bx_empty)) k None.
Lemma stand_in_view d k u v : (d < 3)%nat -> bp_view d (stand_in k u v) = EP u v k.
Proof. intros D. destruct d as [|[|[|d]]]; [reflexivity|reflexivity|reflexivity|lia]. Qed.
Lemma coord_axis d num den : (d < 3)%nat -> coord d (HP (V3 num num num) den) = inject_Z num / inject_Z den.
Proof. intros D. destruct d as [|[|[|d]]]; [reflexivity|reflexivity|reflexivity|lia]. Qed.

Section Back.
Context (w : path) (PW : path_ok w) (wide dbg : bool) (d : nat) (Hd : (d < 3)%nat) (cs : list bpoly) (SC : Forall (fun b => exists qs, st w b qs) cs) (BX : boxed cs) (evs : list event) (EV : events_ok d (map (bp_view d) cs) evs)
  (NE : (0 < length cs)%nat) (SZ : (Z.of_nat (length cs) < 2 ^ 57)%Z) (WD : wide = true \/ (Z.of_nat (length cs) < 2 ^ 31)%Z) (excl : option nat) (ec : Z) (EC : counts (length cs) (fun i => ~ included excl (map (bp_view d) cs) i) ec)
  (p0 p : part) (LC : lowest_cost wide excl ec (map (bp_view d) cs) evs = Ok (Some p0)) (DI : discount dbg (length cs) evs p0 = Ok p) (num den : Z) (Hden : (0 < den)%Z) (x : Q) (Hx : x == inject_Z num / inject_Z den).
Notation h := (hs_axis_aligned d num den).
Context (SH : split_plane dbg d (map (bp_view d) cs) evs p = Ok h) (EX : event_at d (map (bp_view d) cs) evs (p_index p0) x) (s : pstate bpoly) (AP : apply_primary (kd_ops dbg d h) dbg h cs p d evs = Ok s).
(** The operations, with stand-ins for the parts of a polygon whose splitting
    fails. *)
Definition with_stand_ins (k : nat) : pops bpoly :=
  let x := HP (V3 num num num) den in
  POps (bp_view d) (o_down (kd_ops dbg d h)) (kd_border h) (kd_touch d h)
    (fun r => match kd_cut dbg h r with Ok c => Ok c | _ => Ok (stand_in k (e_min (bp_view d r)) x, stand_in k x (e_max (bp_view d r))) end).
Lemma stand_ins_divide k : exists B N R D U negs poss nev pev, divided (with_stand_ins k) d x cs B N R D U negs poss nev pev s.
Proof using PW Hd SC BX EV NE SZ WD EC LC DI Hden Hx SH EX AP.
  pose proof (fits w d Hd cs SC BX) as FIT. assert (CX : coord d (HP (V3 num num num) den) == x) by (rewrite (coord_axis d num den Hd), Hx; reflexivity).
  assert (NC : forall b, In b cs -> exists qs t, st w b qs /\ bp_box b = Some t /\ (coord d (e_min (bp_view d b)) < x /\ x < coord d (e_max (bp_view d b)) \/ exists o, content_outcome dbg h b = Ok o)).
  { intros b I. destruct (content w cs SC BX b I) as (qs & t & S & Bb). exists qs, t. split; [exact S|]. split; [exact Bb|]. destruct (Qlt_le_dec (coord d (e_min (bp_view d b))) x) as [A|A].
    - destruct (Qlt_le_dec x (coord d (e_max (bp_view d b)))) as [B|B]; [left; auto|right]. apply (content_total dbg d Hd num den Hden x Hx b qs (s_ok _ _ _ S) t Bb (s_box _ _ _ S t Bb)). intros _ B'. lra.
    - right. apply (content_total dbg d Hd num den Hden x Hx b qs (s_ok _ _ _ S) t Bb (s_box _ _ _ S t Bb)). intros A'. lra. }
  destruct (C65_apply_primary bpoly (with_stand_ins k) wide false d cs evs excl ec p0 p h x Hd FIT EV NE SZ WD EC LC (res_le_discount _ _ _ _ _ DI) (res_le_split_plane _ _ _ _ _ _ SH) EX ltac:(discriminate)) as (s' & B & N & R & D & U & negs & poss & nev & pev & AP' & DV).
  - intros b I A C. cbn [with_stand_ins o_view] in A, C. destruct (NC b I) as (qs & t & S & Bb & _). pose proof (s_ok _ _ _ S) as OK. pose proof (s_box _ _ _ S t Bb) as TR. destruct (extent_ok d b qs t Hd OK Bb TR) as [(F1 & F2 & F3) _ _ _]. destruct (kd_cut dbg h b) as [[a c]| | |] eqn:K.
    1: { destruct (content_total dbg d Hd num den Hden x Hx b qs OK t Bb TR (fun _ _ => ex_intro _ _ K)) as (o & Eo). destruct (case_cut dbg d Hd num den Hden x Hx b qs OK t Bb TR o Eo A C) as (a' & c' & K' & _ & i & J1 & J2 & J3 & J4 & J5). rewrite K in K'. injection K' as <- <-.
      destruct (cut_parts dbg w b qs t h i a c PW S Bb J1 J2 J3 J4 J5) as (PA & PC & PI). exists a, c. split; [cbn [o_split with_stand_ins]; rewrite K; reflexivity|]. exact (reach d Hd num den Hden x Hx w b qs S t Bb a c PA PC PI A C). }
    all: eexists _, _; (split; [cbn [o_split with_stand_ins]; rewrite K; reflexivity|]); cbn [o_view with_stand_ins]; rewrite !stand_in_view by exact Hd; unfold poly_fit; cbn [e_min e_max hw]; (split; [split; [exact F1|split; [lia|lra]]|]); (split; [split; [lia|split; [exact F2|lra]]|]); (split; [reflexivity|]); (split; [exact CX|]); (split; [exact CX|reflexivity]).
  - intros b I A C. cbn [with_stand_ins o_view] in A, C. destruct (NC b I) as (qs & t & S & Bb & [[_ X]|(o & Eo)]); [lra|]. destruct (case_neg dbg d Hd num den Hden x Hx b qs (s_ok _ _ _ S) t Bb (s_box _ _ _ S t Bb) o Eo A ltac:(lra)) as (a & _ & K & _ & M). exists a. split; [apply K; exact C|apply marks_view; exact M].
  - intros b I A C. cbn [with_stand_ins o_view] in A, C. destruct (NC b I) as (qs & t & S & Bb & [[X _]|(o & Eo)]); [lra|]. destruct (case_pos dbg d Hd num den Hden x Hx b qs (s_ok _ _ _ S) t Bb (s_box _ _ _ S t Bb) o Eo ltac:(lra) C) as (a & _ & K & _ & M). exists a. split; [apply K; exact A|apply marks_view; exact M].
  - intros b I A C. cbn [with_stand_ins o_view] in A, C. destruct (NC b I) as (qs & t & S & Bb & [[X _]|(o & Eo)]); [lra|]. destruct (case_on dbg d Hd num den Hden x Hx b qs (s_ok _ _ _ S) t Bb (s_box _ _ _ S t Bb) o Eo A C) as (a & K & _). exists a. exact K.
  - assert (LE : forall r, res_le (o_split (kd_ops dbg d h) r) (o_split (with_stand_ins k) r)) by (intros r c E; cbn [o_split with_stand_ins kd_ops] in *; rewrite E; reflexivity).
    pose proof (primary_mono (kd_ops dbg d h) (with_stand_ins k) (fun _ => eq_refl) (fun _ => eq_refl) (fun _ _ => res_le_refl _) (fun _ _ => res_le_refl _) LE dbg h cs p d evs s AP) as X. rewrite AP' in X. injection X as ->. exists B, N, R, D, U, negs, poss, nev, pev. exact DV.
Qed.
(** Every polygon that crosses the plane has been split. *)
Lemma cuts_ran b : In b cs -> coord d (e_min (bp_view d b)) < x -> x < coord d (e_max (bp_view d b)) -> exists c, kd_cut dbg h b = Ok c.
Proof using PW Hd SC BX EV NE SZ WD EC LC DI Hden Hx SH EX AP.
  intros I A C. apply In_nth_error in I as (q & Eq). pose proof (nth_lt _ _ _ Eq) as Lq.
  assert (G : forall k, exists c negs a, nth_error (s_map s) q = Some (Some (Idx c)) /\ s_negs s = map Some negs /\ nth_error negs c = Some a /\ exists z, o_split (with_stand_ins k) b = Ok (a, z)).
  { intros k. destruct (stand_ins_divide k) as (B & N & R & D & U & negs & poss & nev & pev & DV). destruct (dv_crossing _ _ _ _ _ _ _ _ _ _ _ _ _ _ DV) as [_ IB]. change (map (o_view (with_stand_ins k)) cs) with (map (bp_view d) cs) in IB.
    assert (Iq : In q B) by (apply IB; split; [exact Lq|]; destruct (lo_at d cs q b Eq) as [-> ->]; auto). apply In_nth_error in Iq as (c & Ec). destruct (F2_nth _ _ _ (dv_negs_B _ _ _ _ _ _ _ _ _ _ _ _ _ _ DV) c q Ec) as (a & Ea & (r & z & Er & Es)). rewrite Eq in Er. injection Er as <-.
    exists c, negs, a. split; [exact (dv_map_B _ _ _ _ _ _ _ _ _ _ _ _ _ _ DV c q Ec)|]. split; [exact (dv_negs _ _ _ _ _ _ _ _ _ _ _ _ _ _ DV)|]. split; [|exists z; exact Es]. rewrite <- Ea. symmetry. apply nth_error_firstn'. exact (nth_lt _ _ _ Ec). }
  destruct (kd_cut dbg h b) as [c| | |] eqn:K; [exists c; reflexivity| | |]; exfalso;
    destruct (G 0%nat) as (c & negs & a & G1 & G2 & G3 & z & G4), (G 1%nat) as (c' & negs' & a' & H1 & H2 & H3 & z' & H4); cbn [o_split with_stand_ins] in G4, H4; rewrite K in G4, H4; injection G4 as <- <-; injection H4 as <- <-; rewrite G1 in H1; injection H1 as <-; rewrite G2 in H2;
    apply (map_nth_error Some) in G3, H3; rewrite H2, H3 in G3; discriminate.
Qed.
Lemma all_outcomes : exists os, Forall2 (fun b o => content_outcome dbg h b = Ok o) cs os.
Proof using PW Hd SC BX EV NE SZ WD EC LC DI Hden Hx SH EX AP.
  assert (G : forall b, In b cs -> exists o, content_outcome dbg h b = Ok o).
  { intros b I. destruct (content w cs SC BX b I) as (qs & t & S & Bb). apply (content_total dbg d Hd num den Hden x Hx b qs (s_ok _ _ _ S) t Bb (s_box _ _ _ S t Bb)). exact (cuts_ran b I). }
  clear - G. induction cs as [|b l IH]; [exists []; constructor|]. destruct (G b (or_introl eq_refl)) as (o & E). destruct IH as (os & F); [intros b' I; apply G; right; exact I|]. exists (o :: os). constructor; assumption.
Qed.
End Back.

Lemma at_id_room infos id f i : at_id infos id f = Ok i -> (id < length infos)%nat /\ length i = length infos.
Proof. unfold at_id. destruct (Nat.ltb_spec id (length infos)); [|discriminate]. intros E. injection E as <-. split; [assumption|apply upd_length]. Qed.
Lemma counts_room f l infos i : rfold (fun b infos => at_id infos (bp_id b) f) l infos = Ok i -> room infos l /\ length i = length infos.
Proof.
  revert infos. induction l as [|b l IH]; intros infos E; cbn [rfold] in E; [injection E as <-; split; [constructor|reflexivity]|]. destruct (at_id infos (bp_id b) f) as [j| | |] eqn:A; try discriminate. cbn [rbind] in E. apply at_id_room in A as [A1 A2]. destruct (IH _ E) as [R L].
  split; [constructor; [exact A1|]|lia]. unfold room in *. rewrite A2 in R. exact R.
Qed.
Lemma set_counts_room cs bs infos k : set_counts (Kid cs bs infos) = Ok k -> room infos (cs ++ bs) /\ length (k_infos k) = length infos.
Proof.
  unfold set_counts. cbn [k_contents k_border k_infos]. destruct (rfold _ cs infos) as [i| | |] eqn:A; try discriminate. cbn [rbind]. destruct (rfold _ bs i) as [j| | |] eqn:B; try discriminate. cbn [rbind]. intros E. injection E as <-. cbn [k_infos].
  apply counts_room in A as [A1 A2], B as [B1 B2]. split; [apply room_app; split; [exact A1|unfold room in *; rewrite A2 in B1; exact B1]|lia].
Qed.
Lemma filled_map {P} (l : list P) : filled (map Some l) = Ok l.
Proof. induction l as [|a l IH]; [reflexivity|]. cbn [map filled got rbind]. rewrite IH. reflexivity. Qed.

(** Split(partition, ...) has a result only where Split(half_space) has one. *)
Theorem kd_ran w wide dbg d cs bs infos s0 c1 c2 evs excl ec p0 p x2 s : path_ok w -> (d < 3)%nat -> bn_is_leaf s0 = true -> Forall (fun b => exists qs, st w b qs) cs -> boxed cs -> events_ok d (map (bp_view d) cs) evs -> (0 < length cs)%nat ->
  (Z.of_nat (length cs) < 2 ^ 57)%Z -> wide = true \/ (Z.of_nat (length cs) < 2 ^ 31)%Z -> counts (length cs) (fun i => ~ included excl (map (bp_view d) cs) i) ec ->
  lowest_cost wide excl ec (map (bp_view d) cs) evs = Ok (Some p0) -> discount dbg (length cs) evs p0 = Ok p -> bn_split_kd dbg d evs p (BNode s0 cs bs infos c1 c2) = Ok (x2, s) ->
  exists num den x h x1 n2 p2 B N R D U nev pev, h = hs_axis_aligned d num den /\ (0 < den)%Z /\ x == inject_Z num / inject_Z den /\ split_plane dbg d (map (bp_view d) cs) evs p = Ok h /\ event_at d (map (bp_view d) cs) evs (p_index p0) x /\ bn_split dbg h (BNode s0 cs bs infos c1 c2) = Ok x1 /\
    x2 = BNode h [] [] infos n2 p2 /\ reordered x1 x2 /\ divided (kd_ops dbg d h) d x cs B N R D U (n_contents n2) (n_contents p2) nev pev s /\
    Forall has_box (n_contents n2) /\ Forall has_box (n_contents p2) /\ within cs (n_contents n2) /\ within cs (n_contents p2) /\
    forall d' dbg' evs' choose fuel, (d' < 3)%nat -> events_ok d' (map (bp_view d') cs) evs' -> (forall r, In r cs -> coord d' (e_min (bp_view d' r)) < coord d' (e_max (bp_view d' r))) -> (dbg' = true -> D = [] /\ U = []) ->
      exists pmap, s_map s = map Some pmap /\
        (apply_secondary dbg' d' (length cs) (map (bp_view d') (n_contents n2)) (map (bp_view d') (n_contents p2)) (length B) pmap choose fuel evs' = NoFuel \/
         exists nev' pev', apply_secondary dbg' d' (length cs) (map (bp_view d') (n_contents n2)) (map (bp_view d') (n_contents p2)) (length B) pmap choose fuel evs' = Ok (nev', pev') /\
           events_ok d' (map (bp_view d') (n_contents n2)) nev' /\ events_ok d' (map (bp_view d') (n_contents p2)) pev').
Proof.
  intros PW Hd LF SC BX EV NE SZ WD EC LC DI K. pose proof (fits w d Hd cs SC BX) as FIT.
  assert (LV : length (map (bp_view d) cs) = length cs) by apply map_length.
  destruct (C40_split wide dbg d (map (bp_view d) cs) evs excl ec p0 Hd FIT EV ltac:(lia) ltac:(lia) ltac:(rewrite LV; exact WD) ltac:(rewrite LV; exact EC) LC) as (q & x & h & D1 & EX & _ & _ & _ & _ & _ & _ & _ & SH & HS).
  rewrite LV, DI in D1. injection D1 as <-. destruct (split_plane_axis _ _ _ _ _ _ FIT SH) as (num & den & Hden & Eh).
  pose proof K as K0. unfold bn_split_kd in K. rewrite SH in K. cbn [rbind] in K. destruct (push_pwn dbg h cs _) as [y| | |] eqn:EY; try discriminate. cbn [rbind] in K. destruct (apply_primary _ dbg h cs p d evs) as [s'| | |] eqn:AP; try discriminate. cbn [rbind] in K.
  destruct (filled (s_negs s')) as [ns| | |] eqn:F1; try discriminate. cbn [rbind] in K. destruct (filled (s_poss s')) as [ps| | |] eqn:F2; try discriminate. cbn [rbind] in K. destruct (set_counts (Kid ns _ _)) as [kn| | |] eqn:S1; try discriminate. cbn [rbind] in K. destruct (set_counts (Kid ps _ _)) as [kp| | |] eqn:S2; try discriminate. cbn [rbind] in K.
  destruct (check dbg _); try discriminate. cbn [rbind] in K. destruct (rfold (push_border dbg h) bs (kn, kp)) as [y3| | |] eqn:E3; try discriminate. cbn [rbind] in K. assert (Es : s' = s) by congruence. subst s'. clear K.
  subst h. pose proof (axis_at d num den x Hd Hden HS) as Hx. pose proof (axis_valid d num den Hd Hden) as HV. set (h := hs_axis_aligned d num den) in *.
  destruct (all_outcomes w PW wide dbg d Hd cs SC BX evs EV NE SZ WD excl ec EC p0 p LC DI num den Hden x Hx SH EX s AP) as (os & OS). fold h in OS.
  assert (PR : exists B N R D U negs poss nev pev, divided (kd_ops dbg d h) d x cs B N R D U negs poss nev pev s).
  { pose proof (can_split w PW dbg d Hd cs SC BX num den Hden x Hx os OS) as Y1. pose proof (can_mark_neg w dbg d Hd cs SC BX num den Hden x Hx os OS) as Y2. pose proof (can_mark_pos w dbg d Hd cs SC BX num den Hden x Hx os OS) as Y3. pose proof (can_border w dbg d Hd cs SC BX num den Hden x Hx os OS) as Y4.
    destruct (C65_apply_primary bpoly (kd_ops dbg d h) wide false d cs evs excl ec p0 p h x Hd FIT EV NE SZ WD EC LC (res_le_discount _ _ _ _ _ DI) (res_le_split_plane _ _ _ _ _ _ SH) EX ltac:(discriminate) Y1 Y2 Y3 Y4) as (s' & B & N & R & D & U & negs & poss & nev & pev & AP' & DV).
    pose proof (primary_mono (kd_ops dbg d h) (kd_ops dbg d h) (fun _ => eq_refl) (fun _ => eq_refl) (fun _ _ => res_le_refl _) (fun _ _ => res_le_refl _) (fun _ => res_le_refl _) dbg h cs p d evs s AP) as X. rewrite AP' in X. injection X as ->. exists B, N, R, D, U, negs, poss, nev, pev. exact DV. }
  destruct PR as (B & N & R & D & U & negs & poss & nev & pev & DV).
  destruct (lists_ok w dbg d Hd cs SC BX num den Hden x Hx os OS B N R D U negs poss nev pev s DV) as (P1 & P2 & P3 & P4).
  rewrite (dv_negs _ _ _ _ _ _ _ _ _ _ _ _ _ _ DV), filled_map in F1. injection F1 as <-. rewrite (dv_poss _ _ _ _ _ _ _ _ _ _ _ _ _ _ DV), filled_map in F2. injection F2 as <-.
  apply set_counts_room in S1 as [R1 L1], S2 as [R2 L2].
  destruct (gives_total _ _ (content_gives dbg h) cs os OS (Kid [] [] (fst y), Kid [] [] (snd y))) as (y1 & E1); cbn [fst snd k_infos]; [exact (room_perm _ _ _ (Permutation_sym (Permutation_app P1 P2)) R1)|exact (room_perm _ _ _ (Permutation_sym (Permutation_app P3 P4)) R2)|].
  destruct (gives_ok _ _ (content_gives dbg h) _ _ _ E1) as (os' & _ & _ & _ & G1 & G2). cbn [fst snd k_infos] in G1, G2. destruct (gv_infos _ _ _ _ G1) as [M1 _], (gv_infos _ _ _ _ G2) as [M2 _]. cbn [k_infos] in M1, M2.
  destruct (gives_ok _ _ (border_gives dbg h) _ _ _ E3) as (ob & OB & RB1 & RB2 & _ & _). cbn [fst snd] in RB1, RB2.
  destruct (gives_total _ _ (border_gives dbg h) bs ob OB y1) as (y2 & E2); [unfold room in *; rewrite M1, <- L1; exact RB1|unfold room in *; rewrite M2, <- L2; exact RB2|].
  assert (BS : exists x1, bn_split dbg h (BNode s0 cs bs infos c1 c2) = Ok x1).
  { eexists. unfold bn_split. rewrite HV, LF, !check_true. cbn [rbind push_to_children]. unfold bn_is_leaf. rewrite HV. cbn [negb kid_of rbind]. unfold push_all. cbn [fst snd k_infos k_contents k_border]. rewrite EY. cbn [rbind]. rewrite E1. cbn [rbind]. rewrite E2. cbn [rbind]. reflexivity. }
  destruct BS as (x1 & BS).
  destruct (kd_ok w wide dbg d cs bs infos s0 c1 c2 evs excl ec p0 p h x x1 PW Hd SC BX EV NE SZ WD EC LC DI SH EX (or_intror (ex_intro _ s AP)) BS) as (n2 & p2 & s2 & B' & N' & R' & D' & U' & nev' & pev' & K' & RE & DV' & Rest).
  rewrite K0 in K'. injection K' as -> ->. exists num, den, x, h, x1, n2, p2, B', N', R', D', U', nev', pev'. repeat (split; [first [reflexivity|assumption]|]). exact Rest.
Qed.
