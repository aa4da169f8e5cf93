(** The parts of a polygon that crosses the plane reach from its ends to the plane. *)
From Coq Require Import List Bool Arith ZArith QArith Lia Lqa Permutation ZifyBool.
From Verif Require Import BigUIntModel GeoModel GeoSpec GeoProofs GeoPlaneProofs GeoDirProofs AabbModel AabbSpec AabbTrackerProofs CvxSpec PolyModel PolySpec PolyBridgeProofs PolyInfoProofs PolyCapProofs PolyChildProofs PolyTopProofs RTransModel FilterModel BspModel BspSpec BspMarkProofs BspGeoProofs BspBoxProofs BspPolyProofs BspTreeProofs
  EvtModel EvtSpec EvtProofs PrimModel PrimSpec KdModel KdMarkProofs KdDealProofs KdCaseProofs.
Import ListNotations.
Open Scope Q_scope.

(** Points of a polygon are between its vertices. *)
Lemma axis_qside d m q : (d < 3)%nat -> side (hs_axis_aligned d (Qnum m) (Zpos (Qden m))) q == inject_Z (Zpos (Qden m)) * (qcomp q d - m).
Proof. intros D. rewrite axis_side by (assumption || lia). rewrite <- Qmake_Qdiv. destruct m; reflexivity. Qed.
Lemma points_above {A} d (p : poly A) qs m : (d < 3)%nat -> poly_ok p qs -> (forall q, In q qs -> m <= qcomp q d) -> forall q, polygon_point (pplane p) (pdrop p) qs q -> m <= qcomp q d.
Proof.
  intros D OK F q P. assert (Pq : 0 < inject_Z (Zpos (Qden m))) by reflexivity. assert (G : 0 <= side (hs_axis_aligned d (Qnum m) (Zpos (Qden m))) q).
  { apply (side_all p qs _ OK); [|exact P]. intros r I. rewrite axis_qside by exact D. apply Qmult_le_0_compat; [lra|]. specialize (F r I). lra. }
  rewrite axis_qside in G by exact D. destruct (Qlt_le_dec (qcomp q d) m) as [Y|Y]; [|exact Y]. assert (0 < inject_Z (Zpos (Qden m)) * (m - qcomp q d)) by (apply Qmult_lt_0_compat; lra). lra.
Qed.
Lemma points_below {A} d (p : poly A) qs m : (d < 3)%nat -> poly_ok p qs -> (forall q, In q qs -> qcomp q d <= m) -> forall q, polygon_point (pplane p) (pdrop p) qs q -> qcomp q d <= m.
Proof.
  intros D OK F q P. assert (Pq : 0 < inject_Z (Zpos (Qden m))) by reflexivity. assert (G : side (hs_axis_aligned d (Qnum m) (Zpos (Qden m))) q <= 0).
  { apply (side_all_neg p qs _ OK); [|exact P]. intros r I. rewrite axis_qside by exact D. specialize (F r I). assert (0 <= inject_Z (Zpos (Qden m)) * (m - qcomp r d)) by (apply Qmult_le_0_compat; lra). lra. }
  rewrite axis_qside in G by exact D. destruct (Qlt_le_dec m (qcomp q d)) as [Y|Y]; [|exact Y]. assert (0 < inject_Z (Zpos (Qden m)) * (qcomp q d - m)) by (apply Qmult_lt_0_compat; lra). lra.
Qed.
(** The extent of the points is that of the vertices. *)
Lemma extent_points d b qs : (d < 3)%nat -> poly_ok (bp_poly b) qs -> extent d b qs -> forall q, bp_point b q -> coord d (e_min (bp_view d b)) <= qcomp q d /\ qcomp q d <= coord d (e_max (bp_view d b)).
Proof.
  intros D OK [_ _ _ A] q P. apply (point_iff _ qs q OK) in P. split; [apply (points_above d (bp_poly b) qs); try assumption; intros r I; apply A; exact I|apply (points_below d (bp_poly b) qs); try assumption; intros r I; apply A; exact I].
Qed.
Lemma vertex_bp b qs q : poly_ok (bp_poly b) qs -> In q qs -> bp_point b q.
Proof. intros OK I. apply (point_iff _ qs q OK). apply vertex_point; assumption. Qed.

(** The new edges. *)
Lemma set_angles_count b c f l a : set_angles b c f l = Ok a -> bp_count a = bp_count b /\ bp_box a = bp_box b /\ bp_id a = bp_id b.
Proof.
  intros E. pose proof (set_angles_marks _ _ _ _ _ E) as M. split; [|split; [apply M|apply M]]. pose proof (f_equal (@length _) (marks_vertices _ _ M)) as X. rewrite !map_length in X. exact X.
Qed.
Lemma set_created_ok b c k a : set_created b c k = Ok a -> (k < bp_count b)%nat /\ bp_count a = bp_count b /\ bp_box a = bp_box b /\ bp_id a = bp_id b /\ exists e, nth_error (pedges (bp_poly a)) k = Some e /\ created_by (pd e) = Some c.
Proof.
  unfold set_created. destruct (nth_error _ k) as [e|] eqn:E; [|discriminate]. intros X. injection X as <-. split; [unfold bp_count, pcount; apply nth_error_Some; congruence|]. unfold bp_count, pcount. cbn. rewrite upd_length. split; [reflexivity|]. split; [reflexivity|]. split; [reflexivity|].
  rewrite upd_nth, Nat.eqb_refl, E. cbn. eexists. split; reflexivity.
Qed.
Lemma child_angles_ok dbg h x a c : set_child_angles dbg x h = Ok (a, c) ->
  bp_box a = bp_box (fst x) /\ bp_box c = bp_box (snd x) /\ bp_id a = bp_id (fst x) /\ bp_id c = bp_id (snd x) /\
  (exists k e, nth_error (pedges (bp_poly a)) k = Some e /\ created_by (pd e) = Some (SS h false)) /\ (exists k e, nth_error (pedges (bp_poly c)) k = Some e /\ created_by (pd e) = Some (SS h true)).
Proof.
  unfold set_child_angles. intros E. destruct (check _ _); try discriminate. cbn [rbind] in E. destruct (check _ _); try discriminate. cbn [rbind] in E.
  destruct (set_angles (fst x) _ _ _) as [aa| | |] eqn:A1; try discriminate. cbn [rbind] in E. destruct (set_created aa _ _) as [a2| | |] eqn:A2; try discriminate. cbn [rbind] in E.
  destruct (set_angles (snd x) _ _ _) as [c1| | |] eqn:C1; try discriminate. cbn [rbind] in E. destruct (set_created c1 _ _) as [c2| | |] eqn:C2; try discriminate. cbn [rbind] in E. injection E as <- <-.
  apply set_angles_count in A1 as (_ & A1 & A1'). apply set_angles_count in C1 as (_ & C1 & C1'). apply set_created_ok in A2 as (_ & _ & A2 & A2' & e & Ee). apply set_created_ok in C2 as (_ & _ & C2 & C2' & f & Ef).
  split; [congruence|]. split; [congruence|]. split; [congruence|]. split; [congruence|]. split; eexists _, _; [exact Ee|exact Ef].
Qed.
Lemma children_box dbg b i t x : bp_box b = Some t -> bp_split_children dbg b i = Ok x -> bp_box (fst x) <> None /\ bp_box (snd x) <> None.
Proof.
  unfold bp_split_children. intros B E. destruct (split_children _ _ _ _) as [c| | |]; try discriminate. cbn [rbind] in E. rewrite B in E. destruct (AabbModel.split_children _ _ _ _ _ _ _ _ _) as [y| | |]; try discriminate. cbn [rbind] in E. injection E as <-. cbn. split; discriminate.
Qed.

(** A part with its points. *)
Record part_ok (w : path) (s : split_side) (a : bpoly) : Prop := PartOk {
  pt_st : exists qs, st (w ++ [s]) a qs; pt_box : exists t, bp_box a = Some t; pt_on : exists q, bp_point a q /\ on_split s q }.
Lemma cut_parts dbg w b qs t h i a c : path_ok w -> st w b qs -> bp_box b = Some t -> info_ok (bp_poly b) qs h i -> (fst (neg_range (si_ranges i)) <= bp_count b)%nat -> emit_neg (si_ranges i) = true -> emit_pos (si_ranges i) = true ->
  (c <- bp_split_children dbg b i ;; set_child_angles dbg c h) = Ok (a, c) -> part_ok w (SS h false) a /\ part_ok w (SS h true) c /\ pieces b [a; c].
Proof.
  intros P HS B I St0 En Ep E. pose proof (split_step dbg w b qs h i P HS I St0 En Ep) as S. rewrite E in S. destruct S as ((qn & Sa) & (qp & Sc) & Pi & _).
  destruct (bp_split_children dbg b i) as [x| | |] eqn:E1; try discriminate. cbn [rbind] in E. destruct (children_box _ _ _ _ _ B E1) as [B1 B2]. destruct (child_angles_ok _ _ _ _ _ E) as (X1 & X2 & _ & _ & (k & e & K1 & K2) & (m & f & M1 & M2)).
  split; [|split; [|exact Pi]].
  - split; [exists qn; exact Sa|destruct (bp_box a) as [ta|] eqn:Y; [exists ta; reflexivity|congruence]|]. exists (cyc o3 qn k). split; [apply (vertex_bp _ qn); [apply Sa|]|apply (ee_created _ _ _ _ (s_edges _ _ _ Sa k e K1) _ K2)].
    pose proof (ok_n _ _ (s_ok _ _ _ Sa)). pose proof (ok_length _ _ (s_ok _ _ _ Sa)). apply cyc_In. lia.
  - split; [exists qp; exact Sc|destruct (bp_box c) as [tc|] eqn:Y; [exists tc; reflexivity|congruence]|]. exists (cyc o3 qp m). split; [apply (vertex_bp _ qp); [apply Sc|]|apply (ee_created _ _ _ _ (s_edges _ _ _ Sc m f M1) _ M2)].
    pose proof (ok_n _ _ (s_ok _ _ _ Sc)). pose proof (ok_length _ _ (s_ok _ _ _ Sc)). apply cyc_In. lia.
Qed.
Section Reach.
Context (d : nat) (Hd : (d < 3)%nat) (num den : Z) (Hden : (0 < den)%Z) (x : Q) (Hx : x == inject_Z num / inject_Z den).
Notation h := (hs_axis_aligned d num den).
Context (w : path) (b : bpoly) (qs : list qpoint) (HS : st w b qs) (t : tracker) (Bx : bp_box b = Some t) (a c : bpoly) (PA : part_ok w (SS h false) a) (PC : part_ok w (SS h true) c) (PI : pieces b [a; c]).
Notation L := (coord d (e_min (bp_view d b))).
Notation H := (coord d (e_max (bp_view d b))).
Context (HL : L < x) (HH : x < H).
Lemma part_cell s r qr q : st (w ++ [s]) r qr -> bp_point r q -> on_side s q.
Proof using.
  clear. intros R P. pose proof (s_ok _ _ _ R) as OK. apply (point_iff _ qr q OK) in P. assert (A : forall q, In q qr -> on_side s q) by (intros y Y; apply (s_cell _ _ _ R y s Y); apply in_app_iff; right; left; reflexivity).
  unfold on_side in *. destruct (ss_pos s); [exact (side_all _ qr _ OK A q P)|exact (side_all_neg _ qr _ OK A q P)].
Qed.
Lemma part_extent s r : part_ok w s r -> exists qr, poly_ok (bp_poly r) qr /\ extent d r qr.
Proof using Hd.
  clear - Hd. intros [(qr & R) (tr & B) _]. exists qr. split; [apply R|]. apply (extent_ok d r qr tr Hd (s_ok _ _ _ R) B). apply (s_box _ _ _ R). exact B.
Qed.
Lemma reach : poly_fit d (bp_view d a) /\ poly_fit d (bp_view d c) /\ coord d (e_min (bp_view d a)) == L /\ coord d (e_max (bp_view d a)) == x /\ coord d (e_min (bp_view d c)) == x /\ coord d (e_max (bp_view d c)) == H.
Proof using Hd Hden Hx HS Bx PA PC PI HL HH.
  pose proof (s_ok _ _ _ HS) as OK. pose proof (extent_ok d b qs t Hd OK Bx (s_box _ _ _ HS t Bx)) as EB. pose proof EB as [_ [_ M1] [_ M2] _].
  destruct (part_extent _ _ PA) as (qa & OA & EA). destruct (part_extent _ _ PC) as (qc & OC & EC). pose proof EA as [FA [_ A1] [_ A2] _]. pose proof EC as [FC [_ C1] [_ C2] _].
  assert (IN : forall (l : list qpoint) (r : bpoly) k, poly_ok (bp_poly r) l -> In (cyc o3 l k) l) by (intros l r k O; pose proof (ok_n _ _ O); pose proof (ok_length _ _ O); apply cyc_In; lia).
  pose proof (extent_points d b qs Hd OK EB) as XB. pose proof (extent_points d a qa Hd OA EA) as XA. pose proof (extent_points d c qc Hd OC EC) as XC.
  assert (UA : forall q, bp_point a q -> bp_point b q) by (intros q Q; apply (pi_union _ _ PI); exists a; split; [left; reflexivity|exact Q]). assert (UC : forall q, bp_point c q -> bp_point b q) by (intros q Q; apply (pi_union _ _ PI); exists c; split; [right; left; reflexivity|exact Q]).
  destruct PA as [(qa' & SA) _ (qa0 & QA1 & QA2)]. destruct PC as [(qc' & SC) _ (qc0 & QC1 & QC2)].
  assert (CA : forall q, bp_point a q -> qcomp q d <= x).
  { intros q Q. pose proof (part_cell _ _ _ _ SA Q) as S. unfold on_side in S. cbn [ss_pos ss_split] in S. destruct (Qlt_le_dec x (qcomp q d)) as [Y|Y]; [|exact Y]. apply (side_pos d Hd num den Hden x Hx) in Y. lra. }
  assert (CC : forall q, bp_point c q -> x <= qcomp q d).
  { intros q Q. pose proof (part_cell _ _ _ _ SC Q) as S. unfold on_side in S. cbn [ss_pos ss_split] in S. destruct (Qlt_le_dec (qcomp q d) x) as [Y|Y]; [|exact Y]. apply (side_neg d Hd num den Hden x Hx) in Y. lra. }
  pose proof (vertex_bp _ _ _ OA (IN _ _ (bp_min_index d a) OA)) as VA1. pose proof (vertex_bp _ _ _ OA (IN _ _ (bp_max_index d a) OA)) as VA2. pose proof (vertex_bp _ _ _ OC (IN _ _ (bp_min_index d c) OC)) as VC1. pose proof (vertex_bp _ _ _ OC (IN _ _ (bp_max_index d c) OC)) as VC2.
  pose proof (vertex_bp _ _ _ OK (IN _ _ (bp_min_index d b) OK)) as VB1. pose proof (vertex_bp _ _ _ OK (IN _ _ (bp_max_index d b) OK)) as VB2.
  assert (WA : bp_point a (cyc o3 qs (bp_min_index d b))). { apply (pi_union _ _ PI) in VB1 as (y & [<-|[<-|[]]] & Q); [exact Q|]. pose proof (CC _ Q). lra. }
  assert (WC : bp_point c (cyc o3 qs (bp_max_index d b))). { apply (pi_union _ _ PI) in VB2 as (y & [<-|[<-|[]]] & Q); [|exact Q]. pose proof (CA _ Q). lra. }
  unfold on_split in QA2, QC2. cbn [ss_split] in QA2, QC2. apply (side_on d Hd num den Hden x Hx) in QA2, QC2.
  pose proof (XA _ WA). pose proof (XC _ WC). pose proof (XB _ (UA _ VA1)). pose proof (XB _ (UC _ VC2)). pose proof (CA _ VA2). pose proof (CC _ VC1). pose proof (XA _ QA1). pose proof (XC _ QC1).
  split; [exact FA|]. split; [exact FC|]. split; [lra|]. split; [lra|]. split; lra.
Qed.
End Reach.
