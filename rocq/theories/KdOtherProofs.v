(** The parts of a polygon that is split, in another dimension. *)
From Coq Require Import List Bool Arith ZArith QArith Lia Lqa Permutation ZifyBool.
From Verif Require Import BigUIntModel GeoModel GeoSpec GeoProofs GeoPlaneProofs GeoDirProofs AabbModel AabbSpec AabbTrackerProofs CvxSpec PolyModel PolySpec PolyBridgeProofs PolyInfoProofs PolyCapProofs PolyChildProofs PolyTopProofs RTransModel FilterModel BspModel BspSpec BspMarkProofs BspGeoProofs BspBoxProofs BspPolyProofs BspTreeProofs
  EvtModel EvtSpec EvtProofs PrimModel PrimSpec SecondModel SecondSpec KdModel KdMarkProofs KdDealProofs KdCaseProofs KdCutProofs.
Import ListNotations.
Open Scope Q_scope.

(** A polygon with a box. *)
Definition has_box (b : bpoly) : Prop := exists qs t, poly_ok (bp_poly b) qs /\ bp_box b = Some t /\ tracks t (map pv (pedges (bp_poly b))).
Lemma box_fit d b : (d < 3)%nat -> has_box b -> poly_fit d (bp_view d b).
Proof. intros D (qs & t & OK & B & T). apply (extent_ok d b qs t D OK B T). Qed.
Lemma marks_box b a : marks b a -> has_box b -> has_box a.
Proof. intros M (qs & t & OK & B & T). exists qs, t. split; [exact (marks_ok _ _ _ M OK)|]. split; [rewrite (mk_box _ _ M); exact B|]. rewrite (marks_vertices _ _ M). exact T. Qed.
Lemma part_box w s a : part_ok w s a -> has_box a.
Proof. intros [(qs & S) (t & B) _]. exists qs, t. split; [apply S|]. split; [exact B|]. exact (s_box _ _ _ S t B). Qed.
Lemma st_box w b qs : st w b qs -> bp_box b <> None -> has_box b.
Proof. intros S N. destruct (bp_box b) as [t|] eqn:B; [|congruence]. exists qs, t. split; [apply S|]. split; [exact B|]. exact (s_box _ _ _ S t B). Qed.
Lemma marks_after a b on' : marks a b -> marks a (BP (bp_poly b) (bp_box b) (bp_id b) on').
Proof. intros [M1 M2 M3 M4 M5]. split; assumption. Qed.
Lemma set_adjacent_marks b c adj a : set_adjacent b c adj = Ok a -> marks b a.
Proof.
  unfold set_adjacent. destruct (_ =? _)%nat; [discriminate|]. destruct (adjacent_begin _ _ _ _) as [[f|]| | |]; try discriminate; cbn [rbind].
  - destruct (adjacent_end _ _ _ _) as [l| | |]; try discriminate. cbn [rbind]. apply set_angles_marks.
  - destruct (set_angles _ _ _ _) as [r| | |] eqn:E; try discriminate. cbn [rbind]. intros X. injection X as <-. apply marks_after. exact (set_angles_marks _ _ _ _ _ E).
Qed.

Section Other.
Context (d : nat) (Hd : (d < 3)%nat) (b a c : bpoly) (HB : has_box b) (HA : has_box a) (HC : has_box c) (PI : pieces b [a; c]).
Lemma verts (l : list qpoint) (r : bpoly) k : poly_ok (bp_poly r) l -> In (cyc o3 l k) l.
Proof using. clear. intros O. pose proof (ok_n _ _ O). pose proof (ok_length _ _ O). apply cyc_In. lia. Qed.
(** A part that is flat lies in the plane of the polygon. *)
Lemma flat_part r m : has_box r -> pplane (bp_poly r) = pplane (bp_poly b) -> coord d (e_min (bp_view d r)) == m -> coord d (e_max (bp_view d r)) == m -> coord d (e_min (bp_view d b)) == m /\ coord d (e_max (bp_view d b)) == m.
Proof using Hd HB.
  intros (qr & tr & OR & BR & TR) PE M1 M2. destruct HB as (qs & t & OK & B & T). pose proof (extent_ok d r qr tr Hd OR BR TR) as [_ _ _ ER]. pose proof (extent_ok d b qs t Hd OK B T) as [_ [_ B1] [_ B2] _].
  set (g := hs_axis_aligned d (Qnum m) (Zpos (Qden m))). assert (P : 0 < inject_Z (Zpos (Qden m))) by reflexivity.
  assert (Z : forall q, In q qr -> side g q == 0). { intros q I. unfold g. rewrite axis_qside by exact Hd. pose proof (ER q I). assert (E : qcomp q d == m) by lra. rewrite E. ring. }
  destruct (plane_of_vertices _ qr OR g (axis_valid d (Qnum m) (Zpos (Qden m)) Hd (Pos2Z.is_pos _)) Z) as (SP & _ & _). rewrite PE in SP.
  assert (Y : forall q, In q qs -> qcomp q d == m).
  { intros q I. pose proof (po_plane _ _ OK) as F. rewrite Forall_forall in F. pose proof (proj2 (SP q) (F q I)) as E. unfold g in E. rewrite axis_qside in E by exact Hd. destruct (Q_dec (qcomp q d) m) as [[X|X]|X]; [| |exact X].
    - assert (0 < inject_Z (Zpos (Qden m)) * (m - qcomp q d)) by (apply Qmult_lt_0_compat; lra). lra.
    - assert (0 < inject_Z (Zpos (Qden m)) * (qcomp q d - m)) by (apply Qmult_lt_0_compat; lra). lra. }
  rewrite <- B1, <- B2. split; apply Y, (verts _ b), OK.
Qed.
Lemma parts_other : parts (coord d (e_min (bp_view d b))) (coord d (e_max (bp_view d b))) (coord d (e_min (bp_view d a))) (coord d (e_max (bp_view d a))) (coord d (e_min (bp_view d c))) (coord d (e_max (bp_view d c))).
Proof using Hd HB HA HC PI.
  assert (SA : pplane (bp_poly a) = pplane (bp_poly b)) by (pose proof (pi_same _ _ PI) as F; rewrite Forall_forall in F; apply (F a); left; reflexivity). assert (SC : pplane (bp_poly c) = pplane (bp_poly b)) by (pose proof (pi_same _ _ PI) as F; rewrite Forall_forall in F; apply (F c); right; left; reflexivity).
  assert (NA := flat_part a (coord d (e_max (bp_view d a))) HA SA). assert (NC := flat_part c (coord d (e_max (bp_view d c))) HC SC).
  destruct HB as (qs & t & OK & B & T), HA as (qa & ta & OA & BA & TA), HC as (qc & tc & OC & BC & TC).
  pose proof (extent_ok d b qs t Hd OK B T) as EB. pose proof (extent_ok d a qa ta Hd OA BA TA) as EA. pose proof (extent_ok d c qc tc Hd OC BC TC) as EC.
  pose proof EB as [FB [_ B1] [_ B2] _]. pose proof EA as [FA [_ A1] [_ A2] _]. pose proof EC as [FC [_ C1] [_ C2] _].
  pose proof (extent_points d b qs Hd OK EB) as XB. pose proof (extent_points d a qa Hd OA EA) as XA. pose proof (extent_points d c qc Hd OC EC) as XC.
  assert (UA : forall q, bp_point a q -> bp_point b q) by (intros q Q; apply (pi_union _ _ PI); exists a; split; [left; reflexivity|exact Q]). assert (UC : forall q, bp_point c q -> bp_point b q) by (intros q Q; apply (pi_union _ _ PI); exists c; split; [right; left; reflexivity|exact Q]).
  pose proof (vertex_bp _ _ _ OA (verts _ _ (bp_min_index d a) OA)) as VA1. pose proof (vertex_bp _ _ _ OA (verts _ _ (bp_max_index d a) OA)) as VA2. pose proof (vertex_bp _ _ _ OC (verts _ _ (bp_min_index d c) OC)) as VC1. pose proof (vertex_bp _ _ _ OC (verts _ _ (bp_max_index d c) OC)) as VC2.
  pose proof (vertex_bp _ _ _ OK (verts _ _ (bp_min_index d b) OK)) as VB1. pose proof (vertex_bp _ _ _ OK (verts _ _ (bp_max_index d b) OK)) as VB2.
  pose proof (XB _ (UA _ VA1)). pose proof (XB _ (UA _ VA2)). pose proof (XB _ (UC _ VC1)). pose proof (XB _ (UC _ VC2)). destruct FA as (_ & _ & FA), FC as (_ & _ & FC).
  unfold parts. split; [lra|]. split; [lra|]. split; [|split; [lra|split; [lra|split; [|split; [lra|split; [lra|]]]]]].
  - apply (pi_union _ _ PI) in VB1 as (y & [<-|[<-|[]]] & Q); [left; pose proof (XA _ Q)|right; pose proof (XC _ Q)]; lra.
  - apply (pi_union _ _ PI) in VB2 as (y & [<-|[<-|[]]] & Q); [left; pose proof (XA _ Q)|right; pose proof (XC _ Q)]; lra.
  - intros LT. split. {
    destruct (Qlt_le_dec (coord d (e_min (bp_view d a))) (coord d (e_max (bp_view d a)))) as [Y|Y]; [exact Y|]. destruct NA as [Z1 Z2]; lra. }
    destruct (Qlt_le_dec (coord d (e_min (bp_view d c))) (coord d (e_max (bp_view d c)))) as [Y|Y]; [exact Y|]. destruct NC as [Z1 Z2]; lra.
Qed.
End Other.
