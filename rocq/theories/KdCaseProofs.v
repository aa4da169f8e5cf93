(** One polygon at the plane of a partition: what ApplyPrimary calls does what
    PushContentsToChildren does. *)
From Coq Require Import List Bool Arith ZArith QArith Lia Lqa Permutation ZifyBool.
From Verif Require Import BigUIntModel GeoModel GeoSpec GeoProofs GeoPlaneProofs GeoDirProofs AabbModel AabbSpec AabbTrackerProofs CvxSpec PolyModel PolySpec PolyBridgeProofs PolyInfoProofs PolyCapProofs PolyChildProofs PolyTopProofs RTransModel FilterModel BspModel BspSpec BspMarkProofs BspGeoProofs BspBoxProofs BspPolyProofs BspTreeProofs
  EvtModel EvtSpec EvtProofs PrimModel PrimSpec KdModel KdMarkProofs KdDealProofs.
Import ListNotations.
Open Scope Q_scope.

(** ** The plane *)
Lemma split_plane_axis dbg d ps evs p h : Forall (poly_fit d) ps -> split_plane dbg d ps evs p = Ok h -> exists num den, (0 < den)%Z /\ h = hs_axis_aligned d num den.
Proof.
  intros F E. unfold split_plane in E. destruct (nth_error evs _) as [e|]; [|discriminate]. destruct (check _ _); try discriminate. cbn [rbind] in E. destruct (ev_location _ _ _ _) as [l| | |] eqn:L; try discriminate. cbn [rbind] in E.
  assert (W : hw l <> 0%Z).
  { rewrite Forall_forall in F. unfold ev_location in L. destruct (ev_start e).
    - destruct (nth_error evs _) as [f|]; [|discriminate]. destruct (check _ _); try discriminate. cbn [rbind] in L. destruct (check _ _); try discriminate. cbn [rbind] in L. destruct (nth_error ps _) as [q|] eqn:Q; [|discriminate]. injection L as <-. apply (F q (nth_error_In _ _ Q)).
    - destruct (nth_error ps _) as [q|] eqn:Q; [|discriminate]. injection L as <-. apply (F q (nth_error_In _ _ Q)). }
  injection E as <-. destruct (Z.ltb_spec (hw l) 0); eexists _, _; (split; [|reflexivity]); lia.
Qed.
Lemma axis_side d num den q : (d < 3)%nat -> (0 < den)%Z -> side (hs_axis_aligned d num den) q == inject_Z den * (qcomp q d - inject_Z num / inject_Z den).
Proof.
  intros D P. assert (N : ~ inject_Z den == 0) by (apply inject_Z_neq0; lia). unfold side, hs_axis_aligned, qdot, qpt. cbn [hn hd]. destruct d as [|[|[|d]]]; [| | |lia]; cbn [set_comp vx vy vz qx qy qz qcomp]; change (inject_Z 0) with 0; field; exact N.
Qed.
Lemma axis_comp d num den k : (d < 3)%nat -> (k < 3)%nat -> comp (hn (hs_axis_aligned d num den)) k = if (k =? d)%nat then den else 0%Z.
Proof. intros D K. unfold hs_axis_aligned. cbn [hn]. destruct d as [|[|[|d]]], k as [|[|[|k]]]; cbn; try reflexivity; lia. Qed.
Lemma axis_valid d num den : (d < 3)%nat -> (0 < den)%Z -> hs_valid (hs_axis_aligned d num den) = true.
Proof. intros D P. unfold hs_axis_aligned, hs_valid, v3_is_zero. cbn [hn]. destruct d as [|[|[|d]]]; cbn; lia. Qed.
Lemma axis_at d num den x : (d < 3)%nat -> (0 < den)%Z -> (forall v u, denotes v u -> hs_compare (hs_axis_aligned d num den) v = qsign (qcomp u d - x)) -> x == inject_Z num / inject_Z den.
Proof.
  intros D P H. assert (N : ~ inject_Z den == 0) by (apply inject_Z_neq0; lia). set (q := inject_Z num / inject_Z den).
  assert (Dn : denotes (HP (set_comp (V3 0 0 0) d num) den) (match d with O => QP q 0 0 | S O => QP 0 q 0 | _ => QP 0 0 q end)).
  { unfold denotes, q. destruct d as [|[|[|d]]]; [| | |lia]; cbn [hw hv set_comp vx vy vz qx qy qz]; (split; [lia|]); repeat split; try (field; exact N); change (inject_Z 0) with 0; ring. }
  pose proof (H _ _ Dn) as E. rewrite (hs_axis_aligned_sign d num den _ _ D ltac:(lia) Dn) in E. assert (Q : qcomp (match d with O => QP q 0 0 | S O => QP 0 q 0 | _ => QP 0 0 q end) d = q) by (destruct d as [|[|[|d]]]; [| | |lia]; reflexivity). rewrite Q in E. fold q in E.
  assert (Z0 : qsign (q - q) = 0%Z) by (apply qsign_sub_eq; reflexivity). rewrite Z0 in E. cbn [Z.mul] in E. symmetry in E. apply qsign_sub_eq in E. symmetry. exact E.
Qed.

(** ** The extent of a polygon *)
Record extent (d : nat) (b : bpoly) (qs : list qpoint) : Prop := Extent {
  ex_fit : poly_fit d (bp_view d b);
  ex_min : (bp_min_index d b < bp_count b)%nat /\ qcomp (cyc o3 qs (bp_min_index d b)) d == coord d (e_min (bp_view d b));
  ex_max : (bp_max_index d b < bp_count b)%nat /\ qcomp (cyc o3 qs (bp_max_index d b)) d == coord d (e_max (bp_view d b));
  ex_all : forall q, In q qs -> coord d (e_min (bp_view d b)) <= qcomp q d /\ qcomp q d <= coord d (e_max (bp_view d b)) }.
Lemma qcomp_eq a b d : qp_eq a b -> qcomp a d == qcomp b d.
Proof. intros (X & Y & W). destruct d as [|[|d]]; assumption. Qed.
Lemma extent_ok d b qs t : (d < 3)%nat -> poly_ok (bp_poly b) qs -> bp_box b = Some t -> tracks t (map pv (pedges (bp_poly b))) -> extent d b qs.
Proof.
  intros D OK Bx [_ T]. destruct (T d D) as (lo & hi & E1 & E2 & A & _). pose proof (ok_n _ _ OK) as N. pose proof (ok_length _ _ OK) as Ln. fold (bp_count b) in *.
  assert (V1 : e_min (bp_view d b) = lo) by (unfold bp_view, bp_min_index; cbn [e_min]; rewrite Bx; apply nth_error_nth; exact E1).
  assert (V2 : e_max (bp_view d b) = hi) by (unfold bp_view, bp_max_index; cbn [e_max]; rewrite Bx; apply nth_error_nth; exact E2).
  assert (G : forall k v, nth_error (map pv (pedges (bp_poly b))) k = Some v -> (k < bp_count b)%nat /\ denotes v (cyc o3 qs k)).
  { intros k v E. assert (L : (k < bp_count b)%nat) by (apply nth_error_Some_lt in E || (assert (nth_error (map pv (pedges (bp_poly b))) k <> None) by congruence; apply nth_error_Some in H; rewrite map_length in H; exact H)). split; [exact L|].
    destruct (edge_at _ qs OK k) as (e & Ee & De & _). fold (bp_count b) in Ee. rewrite Nat.mod_small in Ee by exact L. rewrite nth_error_map, Ee in E. injection E as <-. exact De. }
  assert (Bm : bp_min_index d b = iget (tmin t) d) by (unfold bp_min_index; rewrite Bx; reflexivity). assert (BM : bp_max_index d b = iget (tmax t) d) by (unfold bp_max_index; rewrite Bx; reflexivity).
  destruct (G _ _ E1) as [L1 D1]. destruct (G _ _ E2) as [L2 D2].
  split.
  - unfold poly_fit. rewrite V1, V2, !coord_value. split; [apply D1|]. split; [apply D2|]. apply (A lo). exact (nth_error_In _ _ E2) || exact (nth_error_In _ _ E1).
  - rewrite Bm, V1, coord_value. split; [exact L1|]. symmetry. apply qcomp_eq, value_eq. exact D1.
  - rewrite BM, V2, coord_value. split; [exact L2|]. symmetry. apply qcomp_eq, value_eq. exact D2.
  - intros q I. rewrite V1, V2, !coord_value. apply (In_cyc o3) in I as (k & Lk & ->). destruct (edge_at _ qs OK k) as (e & Ee & De & _). assert (Ie : In (pv e) (map pv (pedges (bp_poly b)))) by (apply in_map; exact (nth_error_In _ _ Ee)).
    specialize (A _ Ie). rewrite (qcomp_eq _ _ d (value_eq _ _ De)) in A. exact A.
Qed.
(** Marking does not change it. *)
Lemma marks_view d b b' : marks b b' -> bp_view d b' = bp_view d b.
Proof. intros M. unfold bp_view, bp_min_index, bp_max_index. rewrite (mk_box _ _ M), (mk_id _ _ M), (marks_vertices _ _ M). reflexivity. Qed.
Lemma set_angles_marks b c f l a : set_angles b c f l = Ok a -> marks b a.
Proof.
  unfold set_angles. destruct (f =? l)%nat; [intros E; injection E as <-; destruct b; apply (marks_refl (BP _ _ _ _))|]. destruct (_ =? _)%nat; [discriminate|]. intros E. injection E as <-. apply mark_range_marks.
Qed.

Section Case.
Context (dbg : bool) (d : nat) (Hd : (d < 3)%nat) (num den : Z) (Hden : (0 < den)%Z) (x : Q) (Hx : x == inject_Z num / inject_Z den).
Notation h := (hs_axis_aligned d num den).
Context (b : bpoly) (qs : list qpoint) (OK : poly_ok (bp_poly b) qs) (t : tracker) (Bx : bp_box b = Some t) (TR : tracks t (map pv (pedges (bp_poly b)))).
Notation L := (coord d (e_min (bp_view d b))).
Notation H := (coord d (e_max (bp_view d b))).
Notation n := (bp_count b).
Lemma ext : extent d b qs. Proof using Hd OK Bx TR. exact (extent_ok d b qs t Hd OK Bx TR). Qed.
Lemma den_q : 0 < inject_Z den. Proof using Hden. change 0 with (inject_Z 0). rewrite <- Zlt_Qlt. exact Hden. Qed.
Lemma side_x q : side h q == inject_Z den * (qcomp q d - x). Proof using Hd Hden Hx. rewrite axis_side by assumption. rewrite Hx. reflexivity. Qed.
Lemma side_neg q : side h q < 0 <-> qcomp q d < x.
Proof using Hd Hden Hx. pose proof den_q as P. rewrite side_x. split; intros A. - destruct (Qlt_le_dec (qcomp q d) x) as [Y|Y]; [exact Y|]. assert (0 <= inject_Z den * (qcomp q d - x)) by (apply Qmult_le_0_compat; lra). lra. - assert (0 < inject_Z den * (x - qcomp q d)) by (apply Qmult_lt_0_compat; lra). lra. Qed.
Lemma side_pos q : 0 < side h q <-> x < qcomp q d.
Proof using Hd Hden Hx. pose proof den_q as P. rewrite side_x. split; intros A. - destruct (Qlt_le_dec x (qcomp q d)) as [Y|Y]; [exact Y|]. assert (0 <= inject_Z den * (x - qcomp q d)) by (apply Qmult_le_0_compat; lra). lra. - apply Qmult_lt_0_compat; lra. Qed.
Lemma side_on q : side h q == 0 <-> qcomp q d == x.
Proof using Hd Hden Hx. pose proof (side_neg q) as A. pose proof (side_pos q) as B. split; intros E. - destruct (Q_dec (qcomp q d) x) as [[Y|Y]|Y]; [apply A in Y; lra|apply B in Y; lra|exact Y]. - destruct (Q_dec (side h q) 0) as [[Y|Y]|Y]; [apply A in Y; lra|apply B in Y; lra|exact Y]. Qed.
Lemma qs_cyc k : In (cyc o3 qs k) qs.
Proof using OK. clear - OK. pose proof (ok_n _ _ OK) as N. pose proof (ok_length _ _ OK) as Ln. apply cyc_In. lia. Qed.
Lemma in_own r : (fst r < snd r)%nat -> in_cyclic_range n r (fst r mod n)%nat.
Proof using. clear. intros A. exists (fst r). repeat split; lia. Qed.
Lemma mod_lt k : (k mod n < n)%nat.
Proof using OK. clear - OK. pose proof (ok_n _ _ OK) as N. apply Nat.mod_upper_bound. fold (bp_count b) in N. lia. Qed.
(** The four cases are told apart by the extent. *)
Lemma is_cut i : placed b qs h i -> L < x -> x < H -> emit_neg (si_ranges i) = true /\ emit_pos (si_ranges i) = true /\ on_plane_info i = false /\ info_ok (bp_poly b) qs h i /\ (fst (neg_range (si_ranges i)) <= n)%nat.
Proof using Hd Hden Hx OK Bx TR.
  intros P A B. destruct ext as [_ [_ M1] [_ M2] _]. assert (S1 : side h (cyc o3 qs (bp_min_index d b)) < 0) by (apply side_neg; lra). assert (S2 : 0 < side h (cyc o3 qs (bp_max_index d b))) by (apply side_pos; lra).
  destruct P as [_ Z|_ _ _ Z _ _ _|_ _ Z _ _ _|]; try (split; [assumption|]; split; [assumption|]; split; [assumption|]; split; assumption).
  - specialize (Z _ (qs_cyc (bp_min_index d b))). lra.
  - specialize (Z _ (qs_cyc (bp_max_index d b))). unfold on_side in Z. cbn in Z. lra.
  - specialize (Z _ (qs_cyc (bp_min_index d b))). unfold on_side in Z. cbn in Z. lra.
Qed.
Lemma cut_reaches i : info_ok (bp_poly b) qs h i -> emit_neg (si_ranges i) = true -> emit_pos (si_ranges i) = true -> L < x /\ x < H.
Proof using Hd Hden Hx OK Bx TR.
  intros I En Ep. pose proof (io_ranges _ _ _ _ I) as R. pose proof (ok_length _ _ OK) as Ln. rewrite Ln in R. fold n in R. destruct ext as [_ _ _ EA].
  apply (emit_neg_lt _ _ _ R) in En. apply (emit_pos_lt _ _ _ R) in Ep. pose proof (proj2 (re_neg_in _ _ _ R _ (mod_lt _)) (in_own _ En)) as X. pose proof (proj2 (re_pos_in _ _ _ R _ (mod_lt _)) (in_own _ Ep)) as Y. cbn beta in X, Y. apply side_neg in X. apply side_pos in Y.
  pose proof (EA _ (qs_cyc (fst (neg_range (si_ranges i)) mod n))). pose proof (EA _ (qs_cyc (fst (pos_range (si_ranges i)) mod n))). split; lra.
Qed.
Lemma is_neg i : placed b qs h i -> L < x -> H <= x -> let r := neg_range (si_ranges i) in emit_neg (si_ranges i) = true /\ emit_pos (si_ranges i) = false /\ on_plane_info i = false /\ (fst r < snd r)%nat /\ (snd r <= fst r + n)%nat /\
  forall j, (j < n)%nat -> ~ on_split (SS h false) (cyc o3 qs j) <-> in_cyclic_range n r j.
Proof using Hd Hden Hx OK Bx TR.
  intros P A B r. destruct ext as [_ [_ M1] [_ M2] _]. assert (S1 : side h (cyc o3 qs (bp_min_index d b)) < 0) by (apply side_neg; lra).
  destruct P as [_ Z|? ? ? ? ? ? ?|_ _ Z _ _ _|? ? ? I ?]; try (split; [assumption|]; split; [assumption|]; split; [assumption|]; split; [assumption|]; split; assumption).
  - specialize (Z _ (qs_cyc (bp_min_index d b))). lra.
  - specialize (Z _ (qs_cyc (bp_min_index d b))). unfold on_side in Z. cbn in Z. lra.
  - exfalso. destruct (cut_reaches i I) as [_ X]; try assumption. lra.
Qed.
Lemma is_pos i : placed b qs h i -> x <= L -> x < H -> let r := pos_range (si_ranges i) in emit_neg (si_ranges i) = false /\ on_plane_info i = false /\ (fst r < snd r)%nat /\ (snd r <= fst r + n)%nat /\
  forall j, (j < n)%nat -> ~ on_split (SS h true) (cyc o3 qs j) <-> in_cyclic_range n r j.
Proof using Hd Hden Hx OK Bx TR.
  intros P A B r. destruct ext as [_ [_ M1] [_ M2] _]. assert (S1 : 0 < side h (cyc o3 qs (bp_max_index d b))) by (apply side_pos; lra).
  destruct P as [_ Z|_ _ _ Z _ _ _|? ? ? ? ? ?|? ? ? I ?]; try (split; [assumption|]; split; [assumption|]; split; [assumption|]; split; assumption).
  - specialize (Z _ (qs_cyc (bp_max_index d b))). lra.
  - specialize (Z _ (qs_cyc (bp_max_index d b))). unfold on_side in Z. cbn in Z. lra.
  - exfalso. destruct (cut_reaches i I) as [X _]; try assumption. lra.
Qed.
Lemma is_on i : placed b qs h i -> L == x -> H == x -> on_plane_info i = true /\ forall q, In q qs -> side h q == 0.
Proof using Hd Hden Hx OK Bx TR.
  intros P A B. destruct ext as [_ _ _ EA]. assert (Z : forall q, In q qs -> side h q == 0) by (intros q I; apply side_on; pose proof (EA q I); lra). split; [|exact Z].
  destruct P as [E _|_ _ _ _ X1 X2 X3|_ _ _ X1 X2 X3|? ? ? I ?]; [exact E| | |]; exfalso.
  - apply (proj2 (X3 _ (mod_lt _)) (in_own _ X1)). apply Z, qs_cyc.
  - apply (proj2 (X3 _ (mod_lt _)) (in_own _ X1)). apply Z, qs_cyc.
  - destruct (cut_reaches i I) as [X _]; try assumption. lra.
Qed.
(** A range of all vertices excludes everything. *)
Lemma full_except c r : (fst r < snd r)%nat -> (snd r <= fst r + n)%nat -> (forall j, (j < n)%nat -> ~ on_split c (cyc o3 qs j) <-> in_cyclic_range n r j) -> (forall q, In q qs -> ~ on_split c q) -> set_angles_except b c r = Ok b.
Proof using OK.
  clear - OK. intros A B R F. pose proof (ok_n _ _ OK) as N. fold n in N. unfold set_angles_except, set_angles. destruct (Nat.eqb_spec (snd r) (n + fst r)) as [E|E]; [reflexivity|exfalso].
  pose proof (mod_lt (snd r)) as M. pose proof (proj1 (R _ M) (F _ (qs_cyc _))) as (j & J1 & J2 & J3). destruct (mod_diff_n n j (snd r) ltac:(lia) ltac:(lia) J3) as (m & Em). destruct m; [lia|nia].
Qed.
Context (o : outcome) (EO : content_outcome dbg h b = Ok o).
Lemma outcome_place : exists i, bp_split_info dbg b h = Ok i /\ placed b qs h i /\ (if on_plane_info i then on_outcome h b else off_outcome dbg h false b i) = Ok o.
Proof using OK Bx TR EO.
  destruct (place dbg b qs h OK) as (i & Ei & Ci & Pl); [intros t' E'; rewrite Bx in E'; injection E' as <-; exact TR|]. exists i. split; [exact Ei|]. split; [exact Pl|]. unfold content_outcome in EO.
  destruct (check dbg (0 <? n)%nat); try discriminate. cbn [rbind] in EO. rewrite Ei in EO. cbn [rbind] in EO. rewrite Ci in EO. cbn [rbind] in EO. exact EO.
Qed.
Lemma case_cut : L < x -> x < H -> exists a c, kd_cut dbg h b = Ok (a, c) /\ o = Outcome [a] [] [c] [] /\ exists i, info_ok (bp_poly b) qs h i /\ (fst (neg_range (si_ranges i)) <= n)%nat /\ emit_neg (si_ranges i) = true /\ emit_pos (si_ranges i) = true /\ (c <- bp_split_children dbg b i ;; set_child_angles dbg c h) = Ok (a, c).
Proof using Hd Hden Hx OK Bx TR EO.
  intros A B. destruct outcome_place as (i & Ei & Pl & E). destruct (is_cut i Pl A B) as (En & Ep & Eo & I & St). rewrite Eo in E. unfold off_outcome in E. rewrite En, Ep in E.
  destruct (bp_split_children dbg b i) as [c1| | |] eqn:E1; try discriminate. cbn [rbind] in E. destruct (set_child_angles dbg c1 h) as [[a c]| | |] eqn:E2; try discriminate. cbn [rbind fst snd] in E. injection E as <-.
  exists a, c. split; [unfold kd_cut; rewrite Ei; cbn [rbind]; rewrite En, Ep; cbn [rbind]; rewrite check_true; cbn [rbind]; rewrite E1; cbn [rbind]; exact E2|]. split; [reflexivity|]. exists i. rewrite E1. cbn [rbind]. repeat (split; [assumption|]). exact E2.
Qed.
Lemma case_neg : L < x -> H <= x -> exists a, o = Outcome [a] [] [] [] /\ (H == x -> kd_touch d h false b = Ok a) /\ (~ H == x -> a = b) /\ marks b a.
Proof using Hd Hden Hx OK Bx TR EO.
  intros A B. destruct outcome_place as (i & Ei & Pl & E). destruct (is_neg i Pl A B) as (En & Ep & Eo & R1 & R2 & R3). rewrite Eo in E. unfold off_outcome in E. rewrite En, Ep in E. destruct (set_angles_except _ _ _) as [a| | |] eqn:Ea; try discriminate. cbn [rbind] in E. injection E as <-.
  destruct ext as [_ _ [_ M2] EA]. exists a. split; [reflexivity|]. split; [|split; [|unfold set_angles_except in Ea; exact (set_angles_marks _ _ _ _ _ Ea)]].
  - intros Q. unfold kd_touch. rewrite <- Ea. apply (set_adjacent_ok b qs (SS h false) OK _ R1 R2 R3). unfold on_split. cbn [ss_split]. apply side_on. lra.
  - intros Q. rewrite (full_except (SS h false) _ R1 R2 R3) in Ea; [injection Ea as <-; reflexivity|]. intros q I. unfold on_split. cbn [ss_split]. rewrite side_on. pose proof (EA q I). lra.
Qed.
Lemma case_pos : x <= L -> x < H -> exists a, o = Outcome [] [] [a] [] /\ (L == x -> kd_touch d h true b = Ok a) /\ (~ L == x -> a = b) /\ marks b a.
Proof using Hd Hden Hx OK Bx TR EO.
  intros A B. destruct outcome_place as (i & Ei & Pl & E). destruct (is_pos i Pl A B) as (En & Eo & R1 & R2 & R3). rewrite Eo in E. unfold off_outcome in E. rewrite En in E. destruct (set_angles_except _ _ _) as [a| | |] eqn:Ea; try discriminate. cbn [rbind] in E. injection E as <-.
  destruct ext as [_ [_ M1] _ EA]. exists a. split; [reflexivity|]. split; [|split; [|unfold set_angles_except in Ea; exact (set_angles_marks _ _ _ _ _ Ea)]].
  - intros Q. unfold kd_touch. rewrite <- Ea. apply (set_adjacent_ok b qs (SS h true) OK _ R1 R2 R3). unfold on_split. cbn [ss_split]. apply side_on. lra.
  - intros Q. rewrite (full_except (SS h true) _ R1 R2 R3) in Ea; [injection Ea as <-; reflexivity|]. intros q I. unfold on_split. cbn [ss_split]. rewrite side_on. pose proof (EA q I). lra.
Qed.
Lemma facing : L == x -> H == x -> pdrop (bp_poly b) = d /\ zdiff_sign (pnormal_drop (bp_poly b)) (comp (hn h) (pdrop (bp_poly b))) = (comp (hn (pplane (bp_poly b))) d <? 0)%Z.
Proof using Hd Hden Hx OK Bx TR.
  intros A B. destruct ext as [_ _ _ EA]. assert (Z : forall q, In q qs -> side h q == 0) by (intros q I; apply side_on; pose proof (EA q I); lra). destruct (plane_of_vertices _ qs OK h (axis_valid d num den Hd Hden) Z) as (_ & Nz & _). destruct (po_drop _ _ OK) as [Dl _].
  rewrite axis_comp in Nz by assumption. assert (E : pdrop (bp_poly b) = d) by (destruct (Nat.eqb_spec (pdrop (bp_poly b)) d); [assumption|contradiction]). split; [exact E|]. rewrite zdiff_sign_spec, axis_comp by assumption. unfold pnormal_drop. rewrite E, Nat.eqb_refl. destruct (den <? 0)%Z eqn:X; [lia|]. rewrite xorb_false_r. reflexivity.
Qed.
Lemma case_on : L == x -> H == x -> let down := (comp (hn (pplane (bp_poly b))) d <? 0)%Z in exists a, kd_border h down b = Ok a /\ o = if down then Outcome [] [] [] [a] else Outcome [] [a] [] [].
Proof using Hd Hden Hx OK Bx TR EO.
  intros A B down. destruct outcome_place as (i & Ei & Pl & E). destruct (is_on i Pl A B) as [Eo Z]. rewrite Eo in E. unfold on_outcome in E. rewrite (proj2 (facing A B)) in E. fold down in E. unfold kd_border. destruct (set_angles _ _ _ _) as [a| | |]; try discriminate. cbn [rbind] in *. injection E as <-. eexists. split; reflexivity.
Qed.
End Case.
