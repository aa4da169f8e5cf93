(** Properties C48 to C51: changing one polygon and comparing two. *)
From Coq Require Import List Bool Arith ZArith QArith Lqa Lia.
From Verif Require Import BigUIntModel GeoModel GeoSpec GeoProofs GeoDirProofs CvxSpec CvxProofs CvxSeqProofs CvxCapProofs PolyModel PolySpec MergeSpec EditSpec PolyOpsModel PolyBridgeProofs PolySearchProofs PolyInfoProofs PolyExtremeProofs PolyCapProofs PolyChildProofs PolyTopProofs PropPoly PropMerge CvxMergeProofs MergeProofs MergeTopProofs PolyEditProofs PolyInvertProofs.
Import ListNotations.
Open Scope Q_scope.

(** ** C48: SplitEdge and TryMergeEdge *)
(** A point strictly inside an edge can be made a vertex; the polygon stays the
    same set of points. *)
Theorem C48_split_edge : forall A dbg (E : einfo A) p qs k t m mq, poly_ok p qs -> (k < pcount p)%nat -> 0 < t -> t < 1 -> denotes m mq -> qp_eq mq (between (cyc o3 qs k) (cyc o3 qs (S k)) t) ->
  exists r, split_edge dbg E p k m = Ok r /\ poly_ok r (insert_after k mq qs) /\ pplane r = pplane p /\ pdrop r = pdrop p /\
    forall q, polygon_point (pplane p) (pdrop p) (insert_after k mq qs) q <-> polygon_point (pplane p) (pdrop p) qs q.
Proof. intros A. exact split_edge_ok. Qed.
Print Assumptions C48_split_edge.
Lemma straight_turn {A} (p : poly A) qs k : poly_ok p qs -> on_line (cyc o3 qs k) (cyc o3 qs (S k)) (cyc o3 qs (S (S k))) -> turn (flat_at p qs k) (flat_at p qs (S k)) (flat_at p qs (S (S k))) == 0.
Proof.
  intros H (t & T1 & T2 & T3). destruct (po_drop p qs H) as [L _]. unfold flat_at, qdrop, turn, qcross2, qsub2. cbn [qx2 qy2]. unfold qadd, qscale, qsub in *. cbn [qx qy qz] in *.
  destruct (pdrop p) as [|[|[|d]]]; [| | |lia]; cbn [qx2 qy2]; rewrite ?T1, ?T2, ?T3; ring.
Qed.
(** Merging the edge k with the next one, where the polygon goes straight on,
    removes the vertex in between if the data of the edges allow it, and changes
    nothing otherwise. *)
Theorem C48_merge_edge : forall A dbg E (p : poly A) qs k r b, poly_ok p qs -> (k < pcount p)%nat -> on_line (cyc o3 qs k) (cyc o3 qs (S k)) (cyc o3 qs (S (S k))) -> try_merge_edge dbg E p k = Ok (r, b) ->
  exists rs, poly_ok r rs /\ pplane r = pplane p /\ pdrop r = pdrop p /\ (forall q, polygon_point (pplane p) (pdrop p) rs q <-> polygon_point (pplane p) (pdrop p) qs q) /\
    (if b then let n := (S k mod length qs)%nat in rs = firstn n qs ++ skipn (S n) qs else r = p /\ rs = qs) /\
    exists x y, nth_error (map pd (pedges p)) k = Some x /\ nth_error (map pd (pedges p)) (S k mod length qs) = Some y /\ b = ei_can_merge E x y.
Proof.
  intros A dbg E p qs k r b H K S0 Eq. pose proof (ok_length p qs H) as L. destruct (merge_edge_spec dbg E p qs k r b H K (straight_turn p qs k H S0) Eq) as (rs & R1 & R2 & R3 & R4 & R5 & x & y & X & Y & B).
  exists rs. split; [exact R1|]. split; [exact R2|]. split; [exact R3|]. split; [exact R4|]. rewrite L. split; [exact R5|]. exists x, y. unfold data_at in *. rewrite !nth_error_map. auto.
Qed.
Print Assumptions C48_merge_edge.
Theorem C48_merge_edge_returns : forall A dbg E (p : poly A) qs k, poly_ok p qs -> (k < pcount p)%nat -> on_line (cyc o3 qs k) (cyc o3 qs (S k)) (cyc o3 qs (S (S k))) ->
  (dbg = true -> Forall (fun e => no_min (l3 (ld (pl e)))) (pedges p)) -> exists r b, try_merge_edge dbg E p k = Ok (r, b).
Proof. intros A dbg E p qs k H K S0. apply (merge_edge_total dbg E p qs k H K). apply straight_turn; assumption. Qed.
Print Assumptions C48_merge_edge_returns.
(** A side of a square is split a quarter of the way along, at (1/2, 0, 0) given with
    weight -4, and merged again. *)
Definition quarter : hpoint3 := HP (V3 (-2) 0 0) (-4).
Example split_case : exists p r, poly_of_points tt up 2 (square 0) = Ok p /\ poly_ok p (rotate 3 (map qpt (square 0))) /\ (1 < pcount p)%nat /\
  denotes quarter (QP (1 # 2) 0 0) /\ qp_eq (QP (1 # 2) 0 0) (between (cyc o3 (rotate 3 (map qpt (square 0))) 1) (cyc o3 (rotate 3 (map qpt (square 0))) 2) (1 # 4)) /\
  split_edge true edge_info_root p 1 quarter = Ok r /\ length (pedges r) = 5%nat /\
  on_line (cyc o3 (insert_after 1 (QP (1 # 2) 0 0) (rotate 3 (map qpt (square 0)))) 1) (cyc o3 (insert_after 1 (QP (1 # 2) 0 0) (rotate 3 (map qpt (square 0)))) 2) (cyc o3 (insert_after 1 (QP (1 # 2) 0 0) (rotate 3 (map qpt (square 0)))) 3) /\
  try_merge_edge true edge_info_root r 1 = Ok (p, true).
Proof.
  destruct (square_case 0) as (p & Ep & P); [auto|]. assert (X := Ep). vm_compute in X. injection X as X. exists p. eexists.
  split; [exact Ep|]. split; [exact P|]. split; [subst p; cbn; lia|]. split; [repeat split; discriminate|]. split; [repeat split|]. split; [subst p; vm_compute; reflexivity|]. split; [reflexivity|]. split; [exists 4; repeat split|]. subst p. vm_compute. reflexivity.
Qed.

(** ** C49: operator== *)
Lemma same_data {A} (E : einfo A) (p o : poly A) i j : data_same E p o i j <-> equal_data (ei_eq E) p i o j.
Proof.
  unfold data_same, equal_data, data_at. split.
  - intros (x & y & X & Y & Z). destruct (nth_error (pedges p) i) as [a|]; [|discriminate]. destruct (nth_error (pedges o) j) as [b|]; [|discriminate]. cbn in X, Y. injection X as <-. injection Y as <-. exists a, b. auto.
  - intros (a & b & -> & -> & Z). exists (pd a), (pd b). auto.
Qed.
Theorem C49_equality : forall A (E : einfo A) p o qs os b, poly_ok p qs -> poly_ok o os -> poly_eq E p o = Ok b -> (b = true <-> same_polygon (ei_eq E) p qs o os).
Proof.
  intros A E p o qs os b H O Eq. rewrite (poly_eq_spec E p o qs os H O b Eq). unfold same_polygon. rewrite (ok_length p qs H), (ok_length o os O).
  split; intros (S0 & N & k & F & G); (split; [exact S0|]; split; [exact N|]; exists k; split; [exact F|]; intros i I1 I2; apply same_data, G; assumption).
Qed.
Print Assumptions C49_equality.
Theorem C49_returns : forall A (E : einfo A) p o qs os, poly_ok p qs -> poly_ok o os -> no_min (l4 (pplane p)) -> no_min (l4 (pplane o)) -> exists b, poly_eq E p o = Ok b.
Proof. exact @poly_eq_total. Qed.
Print Assumptions C49_returns.
(** The data of the first edge of the left polygon are not compared: every polygon
    equals itself with other data there. *)
Definition with_first {A} (p : poly A) (d : A) : poly A := Poly (pplane p) (pdrop p) match pedges p with [] => [] | e :: es => PE (pv e) (pl e) d :: es end.
Lemma with_first_ok {A} (p : poly A) qs d : poly_ok p qs -> poly_ok (with_first p d) qs.
Proof. intros H. apply poly_ok_shape; [exact H|]. destruct (pedges p); reflexivity. Qed.
Theorem C49_first_data_ignored_refuted : forall A (E : einfo A) p qs d, (forall x, ei_eq E x x = true) -> poly_ok p qs -> no_min (l4 (pplane p)) -> poly_eq E p (with_first p d) = Ok true.
Proof.
  intros A E p qs d R H N. pose proof (with_first_ok p qs d H) as W. destruct (C49_returns A E p (with_first p d) qs qs H W N N) as (b & B). rewrite B. f_equal. apply (C49_equality _ _ _ _ _ _ _ H W B). pose proof (ok_length p qs H) as L.
  split; [exists 1%Z, 1%Z; repeat split; lia|]. split; [reflexivity|]. exists 0%nat. split; [reflexivity|]. intros i I1 I2. cbn [Nat.add]. rewrite Nat.mod_small by exact I2. unfold equal_data, with_first. cbn [pedges]. unfold pcount in L. destruct (pedges p) as [|e es]; [cbn in L; lia|]. destruct i as [|i]; [lia|]. cbn [nth_error]. cbn [length] in L.
  destruct (nth_error es i) as [x|] eqn:X; [|apply nth_error_None in X; lia]. exists x, x. auto.
Qed.
Print Assumptions C49_first_data_ignored_refuted.
(** Hence == is not symmetric. *)
Definition bool_info : einfo bool := EInfo bool (fun a _ => a) (fun a _ => a) (fun a _ _ => a) Bool.eqb (fun a _ => a) Bool.eqb.
Theorem C49_symmetry_refuted : exists p o qs os, poly_ok p qs /\ poly_ok o os /\ poly_eq bool_info p o = Ok true /\ poly_eq bool_info o p = Ok false.
Proof.
  destruct (C47_from_points bool false up 2 (square 0)) as (p & Ep & P); [lia|discriminate|repeat constructor|apply convex_test; vm_compute; reflexivity|]. assert (X := Ep). vm_compute in X. injection X as X.
  exists p, (rotate_edges (with_first p true) 1). eexists. eexists. split; [exact P|]. split; [apply (poly_ok_rotate (with_first p true) _ 1 (with_first_ok p _ true P)); cbn; lia|]. split; subst p; vm_compute; reflexivity.
Qed.
Print Assumptions C49_symmetry_refuted.
(** The same square stored from another corner, and another square. *)
Example equal_case : exists p o, poly_of_points tt up 2 (square 0) = Ok p /\ poly_of_points tt up 2 (square 2) = Ok o /\ no_min (l4 (pplane p)) /\
  poly_eq edge_info_root p (rotate_edges p 3) = Ok true /\ poly_eq edge_info_root p o = Ok false.
Proof. eexists. eexists. split; [reflexivity|]. split; [reflexivity|]. split; [repeat constructor; discriminate|]. split; vm_compute; reflexivity. Qed.

(** ** C50: Invert *)
Lemma backwards_nth qs : map (reversed_at qs) (seq 0 (length qs)) = other_way qs.
Proof.
  destruct qs as [|q l]; [reflexivity|]. cbn [length seq map other_way]. unfold reversed_at at 1. unfold cyc. rewrite Nat.sub_0_r, Nat.mod_same by discriminate. cbn [nth]. f_equal.
  apply nth_error_ext. intros i. destruct (Nat.lt_ge_cases i (length l)) as [L|L].
  - rewrite nth_error_rev by exact L. rewrite nth_error_map. rewrite (nth_error_nth' (seq 1 (length l)) 0%nat) by (rewrite seq_length; exact L). cbn [option_map]. rewrite seq_nth by exact L. unfold reversed_at, cyc. cbn [length]. rewrite Nat.mod_small by lia. replace (S (length l) - (1 + i))%nat with (S (length l - S i)) by lia. cbn [nth]. symmetry. apply nth_error_nth'. lia.
  - rewrite !(proj2 (nth_error_None _ _)); [reflexivity|rewrite rev_length; exact L|rewrite map_length, seq_length; exact L].
Qed.
(** The result is the same set of points in the negated plane, with the vertices
    in the opposite order. *)
Theorem C50_invert : forall A (p : poly A) qs, poly_ok p qs -> poly_ok (invert p) (other_way qs) /\ pplane (invert p) = hs_neg (pplane p) /\ pdrop (invert p) = pdrop p /\
  forall q, polygon_point (pplane (invert p)) (pdrop (invert p)) (other_way qs) q <-> polygon_point (pplane p) (pdrop p) qs q.
Proof.
  intros A p qs H. destruct (invert_ok p qs H) as (I1 & I2). rewrite backwards_nth in I1, I2. pose proof (ok_n p qs H) as N. destruct (invert_edges p ltac:(lia)) as (_ & P & D & _). auto.
Qed.
Print Assumptions C50_invert.
Theorem C50_twice : forall A (p : poly A), invert (invert p) = p.
Proof. exact @invert_twice. Qed.
Print Assumptions C50_twice.
(** The data stay at their index, so that the data of edge i of p are afterwards
    with the edge that was n - 1 - i (in the other direction). *)
Theorem C50_data_refuted : forall A (p : poly A) i e, nth_error (pedges p) i = Some e -> exists e' r, nth_error (pedges p) (pcount p - 1 - i) = Some e' /\ nth_error (pedges (invert p)) i = Some r /\ pl r = pl_neg (pl e') /\ pd r = pd e.
Proof.
  intros A p i e He. assert (L : (i < pcount p)%nat) by (unfold pcount; apply nth_error_Some; congruence). destruct (invert_edges p ltac:(lia)) as (_ & _ & _ & _ & F). destruct (F i L) as (ev & el & ed & _ & Hl & Hd & R). rewrite He in Hd. injection Hd as <-. exists el. eexists. split; [exact Hl|]. split; [exact R|]. split; reflexivity.
Qed.
Print Assumptions C50_data_refuted.
Example invert_case : exists p, poly_of_points tt hex_plane 2 hex_list = Ok p /\ poly_ok p (rotate 6 (map qpt hex_list)) /\ map (fun e => hv (pv e)) (pedges (invert p)) = [V3 2 0 2; V3 4 0 0; V3 4 2 0; V3 3 4 1; V3 1 4 3; V3 0 2 4; V3 0 0 4] /\ poly_valid_state (invert p) = Ok true.
Proof. destruct hex_case as (p & Ep & P). assert (X := Ep). vm_compute in X. injection X as X. exists p. split; [exact Ep|]. split; [exact P|]. split; subst p; vm_compute; reflexivity. Qed.

(** ** C51: RotateEdges, GetMinimumIndex, SortVertices *)
Theorem C51_rotate : forall A (p : poly A) qs k, poly_ok p qs -> (k <= length qs)%nat -> poly_ok (rotate_edges p k) (skipn k qs ++ firstn k qs) /\
  forall q, polygon_point (pplane p) (pdrop p) (skipn k qs ++ firstn k qs) q <-> polygon_point (pplane p) (pdrop p) qs q.
Proof. intros A p qs k H K. split; [exact (poly_ok_rotate p qs k H K)|]. intros q. exact (polygon_rotate p qs k q H K). Qed.
Print Assumptions C51_rotate.
Theorem C51_minimum : forall A (p : poly A) qs, pedges p <> [] -> Forall2 (fun e q => denotes (pv e) q) (pedges p) qs -> exists q, nth_error qs (minimum_index p) = Some q /\ smallest q qs.
Proof.
  intros A p qs N F. destruct (minimum_ok p qs N F) as (q & Q & L). exists q. split; [exact Q|]. split; [exact (nth_error_In _ _ Q)|]. apply Forall_forall. exact L.
Qed.
Print Assumptions C51_minimum.
Lemma skipn_nth {B} k (l : list B) q : nth_error l k = Some q -> skipn k l = q :: skipn (S k) l.
Proof. revert k. induction l as [|x l IH]; intros [|k] Q; cbn in Q |- *; try discriminate; [injection Q as ->; reflexivity|]. exact (IH k Q). Qed.
(** Sorting keeps the polygon and starts it with its smallest vertex; two equal
    polygons end up with the same vertices at the same places. *)
Theorem C51_sort : forall A (p : poly A) qs, poly_ok p qs -> exists q rs, poly_ok (sort_vertices p) (q :: rs) /\ smallest q qs /\
  (exists k, (k < length qs)%nat /\ q :: rs = skipn k qs ++ firstn k qs) /\ forall x, polygon_point (pplane p) (pdrop p) (q :: rs) x <-> polygon_point (pplane p) (pdrop p) qs x.
Proof.
  intros A p qs H. pose proof (ok_n p qs H) as N. pose proof (ok_length p qs H) as L. assert (Ne : pedges p <> []) by (intros X; unfold pcount in N; rewrite X in N; cbn in N; lia).
  destruct (C51_minimum A p qs Ne (po_vertices p qs H)) as (q & Q & M). set (k := minimum_index p) in *. assert (K : (k < length qs)%nat) by (apply nth_error_Some; congruence).
  destruct (C51_rotate A p qs k H ltac:(lia)) as (R1 & R2). assert (X : skipn k qs ++ firstn k qs = q :: (skipn (S k) qs ++ firstn k qs)) by (rewrite (skipn_nth k qs q Q); reflexivity).
  exists q, (skipn (S k) qs ++ firstn k qs). rewrite <- X. split; [exact R1|]. split; [exact M|]. split; [exists k; auto|exact R2].
Qed.
Print Assumptions C51_sort.
Lemma denotes_same es (qs rs : list qpoint) : Forall2 (fun (e : hpoint3) q => denotes e q) es qs -> Forall2 (fun e q => denotes e q) es rs -> Forall2 qp_eq qs rs.
Proof.
  intros F. revert rs. induction F as [|v q es qs D F IH]; intros rs G; inversion G as [|v' r es' rs' D' G']; subst; constructor; [|apply IH; exact G'].
  destruct D as (W & X & Y & Z), D' as (_ & X' & Y' & Z'). assert (W' : ~ inject_Z (hw v) == 0) by (intros C; apply W, inject_Z_injective; exact C). repeat split; [apply (Qmult_inj_l _ _ _ W')|apply (Qmult_inj_l _ _ _ W')|apply (Qmult_inj_l _ _ _ W')]; lra.
Qed.
Lemma same_vertices {A} (p : poly A) qs rs : poly_ok p qs -> poly_ok p rs -> Forall2 qp_eq qs rs.
Proof.
  intros H R. apply (denotes_same (map pv (pedges p))); [pose proof (po_vertices p qs H) as F|pose proof (po_vertices p rs R) as F]; clear - F; induction F; cbn [map]; constructor; assumption.
Qed.
Lemma smallest_same q r : ~ qlex_lt q r -> ~ qlex_lt r q -> qp_eq q r.
Proof. unfold qlex_lt, qp_eq. intros X Y. destruct (Q_dec (qx q) (qx r)) as [[|]|]; [destruct X; lra|destruct Y; lra|]. destruct (Q_dec (qy q) (qy r)) as [[|]|]; [destruct X; lra|destruct Y; lra|]. destruct (Q_dec (qz q) (qz r)) as [[|]|]; [destruct X; lra|destruct Y; lra|]. auto. Qed.
Lemma qlex_eq a a' b b' : qp_eq a a' -> qp_eq b b' -> qlex_lt a b -> qlex_lt a' b'.
Proof. unfold qp_eq, qlex_lt. intros (X & Y & Z) (X' & Y' & Z'). rewrite X, Y, Z, X', Y', Z'. auto. Qed.
Theorem C51_canonical : forall A (E : einfo A) p o qs os rs ss, poly_ok p qs -> poly_ok o os -> poly_eq E p o = Ok true -> poly_ok (sort_vertices p) rs -> poly_ok (sort_vertices o) ss -> Forall2 qp_eq rs ss.
Proof.
  intros A E p o qs os rs ss H O Eq R S0. destruct (proj1 (C49_equality A E p o qs os true H O Eq) eq_refl) as (Sd & N & j & F & _).
  destruct (C51_sort A p qs H) as (q & qs' & P1 & (P2 & P2') & (k & K & P3) & _). destruct (C51_sort A o os O) as (r & os' & O1 & (O2 & O2') & (m & M & O3) & _).
  pose proof (same_vertices _ _ _ R P1) as E1. pose proof (same_vertices _ _ _ S0 O1) as E2. rewrite P3 in E1. rewrite O3 in E2.
  pose proof (ok_length p qs H) as Lp. pose proof (ok_length o os O) as Lo. pose proof (ok_n p qs H) as Np.
  assert (Hq : cyc o3 qs k = q) by (pose proof (cyc_rotate o3 k qs 0 ltac:(lia) ltac:(lia)) as X; unfold rotate in X; rewrite <- P3, Nat.add_0_r in X; rewrite <- X; unfold cyc; rewrite Nat.mod_0_l by discriminate; reflexivity).
  assert (Hr : cyc o3 os m = r) by (pose proof (cyc_rotate o3 m os 0 ltac:(lia) ltac:(lia)) as X; unfold rotate in X; rewrite <- O3, Nat.add_0_r in X; rewrite <- X; unfold cyc; rewrite Nat.mod_0_l by discriminate; reflexivity).
  assert (In_cyc : forall l i, (0 < length l)%nat -> In (cyc o3 l i) l) by (intros l i L; unfold cyc; apply nth_In, Nat.mod_upper_bound; lia).
  assert (Qr : qp_eq q r).
  { apply smallest_same; intros X.
    - apply (O2' (cyc o3 os (j + k)) (In_cyc os _ ltac:(lia))). apply (qlex_eq q _ r r); [rewrite <- Hq; apply F|reflexivity|exact X].
    - apply In_nth with (d := o3) in O2 as (x & Lx & Ex). set (y := (x + length os * j - j)%nat). assert (Y : cyc o3 os (j + y) = r). { rewrite <- Ex. unfold cyc, y. f_equal. replace (j + (x + length os * j - j))%nat with (x + j * length os)%nat by nia. rewrite Nat.mod_add by lia. apply Nat.mod_small. exact Lx. }
      apply (P2' (cyc o3 qs y) (In_cyc qs _ ltac:(lia))). apply (qlex_eq r _ q q); [rewrite <- Y; symmetry; apply F|reflexivity|exact X]. }
  assert (Km : ((j + k) mod length os = m)%nat).
  { assert (V : qp2_eq (flat_at o os m) (flat_at o os ((j + k) mod pcount o))). { rewrite (flat_mod o os _ O). unfold flat_at. rewrite Hr, <- Qr, <- Hq, (F k). reflexivity. }
    pose proof (ok_cvx o os O) as C. pose proof (Nat.mod_upper_bound (j + k) (pcount o) ltac:(lia)) as U. rewrite Lo. destruct (Nat.lt_trichotomy m ((j + k) mod pcount o)) as [G|[G|G]]; [|auto|]; exfalso; [apply (cvx_distinct _ _ _ _ _ C G ltac:(lia) V)|symmetry in V; apply (cvx_distinct _ _ _ _ _ C G ltac:(lia) V)]. }
  assert (Mid : Forall2 qp_eq (skipn k qs ++ firstn k qs) (skipn m os ++ firstn m os)).
  { change (Forall2 qp_eq (rotate k qs) (rotate m os)). rewrite (rotate_fmap o3 k qs), (rotate_fmap o3 m os), N by lia. generalize 0%nat at 1 2. induction (length os) as [|n IH] in |- *; intros s; cbn [seq map]; constructor; [|apply IH].
    rewrite (F (k + s)%nat), Nat.add_assoc. rewrite <- (cyc_mod o3 os (j + k + s)), <- Nat.add_mod_idemp_l, Km, cyc_mod by lia. reflexivity. }
  clear - E1 E2 Mid. revert ss rs E1 E2. induction Mid; intros ss rs E1 E2; inversion E1; inversion E2; subst; constructor; [|apply IHMid; assumption]. etransitivity; [eassumption|]. etransitivity; [eassumption|]. symmetry. assumption.
Qed.
Print Assumptions C51_canonical.
Example sort_case : exists p, poly_of_points tt hex_plane 2 hex_list = Ok p /\ poly_ok p (rotate 6 (map qpt hex_list)) /\ minimum_index p = 1%nat /\ map (fun e => hv (pv e)) (pedges (sort_vertices p)) = hex_list /\ poly_eq edge_info_root p (sort_vertices p) = Ok true.
Proof. destruct hex_case as (p & Ep & P). assert (X := Ep). vm_compute in X. injection X as X. exists p. split; [exact Ep|]. split; [exact P|]. split; [|split]; subst p; vm_compute; reflexivity. Qed.
