(** Property C76: polygons with a bounding box. *)
From Coq Require Import List Bool Arith ZArith QArith Lqa Lia.
From Verif Require Import BigUIntModel GeoModel GeoSpec GeoProofs AabbModel AabbSpec AabbProofs AabbTrackerProofs CvxSpec PolyModel PolySpec MergeSpec EditSpec PolyOpsModel PolyBridgeProofs PolyInfoProofs PolyCapProofs PolyTopProofs PropPoly PropMerge MergeProofs PropEdit AabbPolyModel AabbPolySpec AabbPolyProofs.
Import ListNotations.
Open Scope Q_scope.

Lemma ok_edges {A} (p : poly A) qs : poly_ok p qs -> pedges p <> [].
Proof. intros H C. pose proof (ok_n p qs H) as N. unfold pcount in N. rewrite C in N. cbn in N. lia. Qed.
(** A polygon made with a box has the right box. *)
Theorem C76_built : forall A (p : poly A) qs a, poly_ok p qs -> ap_new p = Ok a -> ap_poly a = p /\ box_right a.
Proof. intros A p qs a H. apply new_right; [apply (ok_finite p qs H)|apply (ok_edges p qs H)]. Qed.
Print Assumptions C76_built.
Theorem C76_built_returns : forall A (p : poly A) qs, poly_ok p qs -> Forall (safe_vertex (map pv (pedges p))) (map pv (pedges p)) -> exists a, ap_new p = Ok a.
Proof. intros A p qs H S. destruct (track_total _ (ok_finite p qs H) S) as (t & E). unfold ap_new. rewrite E. eexists. reflexivity. Qed.
Print Assumptions C76_built_returns.
(** With a right box all vertices are inside it, and the state check only depends on
    the polygon. *)
Theorem C76_contains : forall A (a : apoly A) v, box_right a -> In v (ap_vertices a) -> in_box (tbox (ap_box a)) (value v).
Proof. intros A a v [_ T]. apply tracks_box. exact T. Qed.
Print Assumptions C76_contains.
Theorem C76_valid : forall A (a : apoly A), box_right a -> ap_valid a = poly_valid_state (ap_poly a).
Proof.
  intros A a [_ T]. apply tracks_valid in T. unfold ap_valid, ap_vertices in *. rewrite map_length in T. change (length (pedges (ap_poly a))) with (pcount (ap_poly a)) in T.
  destruct (poly_valid_state (ap_poly a)) as [[|]| | |]; cbn [rbind negb]; try reflexivity. rewrite T. destruct (_ =? _)%nat; reflexivity.
Qed.
Print Assumptions C76_valid.
(** RotateEdges and SortVertices return, do to the polygon what they do without a box,
    and keep the box right. *)
Theorem C76_rotate : forall A (a : apoly A) k, box_right a -> (k <= length (ap_vertices a))%nat ->
  exists b, ap_rotate a k = Ok b /\ ap_poly b = rotate_edges (ap_poly a) k /\ tbox (ap_box b) = tbox (ap_box a) /\ box_right b.
Proof.
  intros A a k R K. destruct (rotate_right a k R K) as (b & E & B). exists b. split; [exact E|]. split; [apply (rotate_vertices a k b E)|]. split; [|exact B].
  unfold ap_rotate in E. apply rbind_ok in E as (t & E & X). injection X as <-. unfold tr_rotate in E. destruct (_ =? 0)%nat; [discriminate|]. injection E as <-. reflexivity.
Qed.
Print Assumptions C76_rotate.
Theorem C76_sort : forall A (a : apoly A) qs, poly_ok (ap_poly a) qs -> box_right a ->
  exists b q rs, ap_sort a = Ok b /\ poly_ok (ap_poly b) (q :: rs) /\ smallest q qs /\ (exists k, (k < length qs)%nat /\ q :: rs = skipn k qs ++ firstn k qs) /\ box_right b.
Proof.
  intros A a qs H R. destruct (C51_minimum A (ap_poly a) qs (ok_edges _ _ H) (po_vertices _ _ H)) as (q0 & Q & _). assert (K : (minimum_index (ap_poly a) < length qs)%nat) by (apply nth_error_Some; congruence).
  pose proof (ok_length _ _ H) as L. destruct (C76_rotate A a (minimum_index (ap_poly a)) R) as (b & E & P & _ & B). { unfold ap_vertices. rewrite map_length. unfold pcount in L. lia. }
  destruct (C51_sort A (ap_poly a) qs H) as (q & rs & S1 & S2 & S3 & _). exists b, q, rs. split; [exact E|]. rewrite P. auto.
Qed.
Print Assumptions C76_sort.
(** A polygon without vertices cannot be sorted: 0 vertices are a zero divisor.  Without
    a box it can. *)
Theorem C76_sort_empty_refuted : forall A h d, ap_sort (@ap_default A h d) = UB /\ ap_valid (@ap_default A h d) = Ok true /\ sort_vertices (ap_poly (@ap_default A h d)) = ap_poly (@ap_default A h d).
Proof. intros A h d. repeat split. Qed.
Print Assumptions C76_sort_empty_refuted.
(** TryMergePolygon gives the same polygon as without boxes, with the right box. *)
Theorem C76_merged : forall A dbg (E : einfo A) a qs k b os m nz r, common_edge (ap_poly a) qs k (ap_poly b) os m nz -> ap_try_merge dbg E a nz k b m = Ok (Some r) ->
  try_merge dbg E (ap_poly a) nz k (ap_poly b) m = Ok (Some (ap_poly r)) /\ box_right r /\
  exists rs, poly_ok (ap_poly r) rs /\ forall q, polygon_point (pplane (ap_poly r)) (pdrop (ap_poly r)) rs q <-> in_either (ap_poly a) qs (ap_poly b) os q.
Proof.
  intros A dbg E a qs k b os m nz r C Eq. unfold ap_try_merge in Eq. destruct (try_merge dbg E (ap_poly a) nz k (ap_poly b) m) as [[p|]| | |] eqn:M; try discriminate. cbn [rbind] in Eq.
  apply rbind_ok in Eq as (t & T & X). injection X as <-. cbn [ap_poly]. split; [reflexivity|]. destruct (C34_merged A dbg E _ qs k _ os m nz p C M) as (_ & rs & R & _ & _ & _ & S).
  split; [|exists rs; auto]. destruct (C76_built A p rs (AP p t) R) as (_ & B); [unfold ap_new; rewrite T; reflexivity|exact B].
Qed.
Print Assumptions C76_merged.
Theorem C76_refused : forall A dbg (E : einfo A) a k b m nz, ap_try_merge dbg E a nz k b m = Ok None <-> try_merge dbg E (ap_poly a) nz k (ap_poly b) m = Ok None.
Proof.
  intros A dbg E a k b m nz. unfold ap_try_merge. destruct (try_merge _ _ _ _ _ _ _) as [[p|]| | |]; cbn [rbind]; try (split; [discriminate|discriminate]); [|split; reflexivity].
  destruct (track _); cbn [rbind]; split; discriminate.
Qed.
Print Assumptions C76_refused.
(** Polygons that compare equal with their boxes do so without. *)
Theorem C76_equal_sound : forall A (E : einfo A) a b, ap_eq E a b = Ok true -> poly_eq E (ap_poly a) (ap_poly b) = Ok true.
Proof. intros A E a b. unfold ap_eq. destruct (bx_eq _ _); cbn [negb]; [auto|discriminate]. Qed.
Print Assumptions C76_equal_sound.
(** The converse holds if the boxes are exact,
    as they are when all vertices have the same weight or its negative. *)
Theorem C76_equal_exact : forall A (E : einfo A) a b qs os, poly_ok (ap_poly a) qs -> poly_ok (ap_poly b) os -> box_right a -> box_right b -> box_exact a -> box_exact b ->
  poly_eq E (ap_poly a) (ap_poly b) = Ok true -> ap_eq E a b = Ok true.
Proof.
  intros A E a b qs os H O Ra Rb Xa Xb Eq. unfold ap_eq. rewrite (same_box a b Ra Rb Xa Xb); [exact Eq| |].
  - intros u U. destruct (proj1 (C49_equality A E _ _ qs os true H O Eq) eq_refl) as (_ & N & j & F & _). destruct (vertex_index _ qs u H U) as (i & _ & V). destruct (vertex_at _ os (j + i) O) as (v & Iv & W). exists v. split; [exact Iv|]. rewrite V, W. apply F.
  - intros v V. destruct (proj1 (C49_equality A E _ _ qs os true H O Eq) eq_refl) as (_ & N & j & F & _). destruct (vertex_index _ os v O V) as (x & Lx & W). set (y := (x + length os * j - j)%nat).
    assert (Y : cyc o3 os (j + y) = cyc o3 os x). { unfold cyc, y. f_equal. replace (j + (x + length os * j - j))%nat with (x + j * length os)%nat by nia. apply Nat.mod_add. lia. }
    destruct (vertex_at _ qs y H) as (u & U & Z). exists u. split; [exact U|]. rewrite W, Z, <- Y. symmetry. apply F.
Qed.
Print Assumptions C76_equal_exact.
Theorem C76_exact : forall A (p : poly A) d a, (0 < d)%Z -> pedges p <> [] -> Forall (fun v => Z.abs (hw v) = d) (map pv (pedges p)) -> ap_new p = Ok a -> box_exact a.
Proof. intros A. exact same_weights. Qed.
Print Assumptions C76_exact.
(** In general it does not: the triangle (0,0), (1/2,0), (0,1/3), with 1/2 written as
    1/2 or as 3/6, equals itself without a box and differs from itself with one. *)
Definition triangle (n w : Z) : list hpoint3 := [HP (V3 0 0 0) 1; HP (V3 n 0 0) w; HP (V3 0 1 0) 3].
Theorem C76_equal_refuted : exists p o a b, poly_of_array tt up 2 (triangle 1 2) = Ok p /\ poly_of_array tt up 2 (triangle 3 6) = Ok o /\
  poly_valid_state p = Ok true /\ poly_valid_state o = Ok true /\ Forall2 (fun u v => qp_eq (value (pv u)) (value (pv v))) (pedges p) (pedges o) /\
  ap_new p = Ok a /\ ap_new o = Ok b /\ poly_eq edge_info_root p o = Ok true /\ ap_eq edge_info_root a b = Ok false.
Proof.
  do 4 eexists. split; [reflexivity|]. split; [reflexivity|]. split; [vm_compute; reflexivity|]. split; [vm_compute; reflexivity|]. split; [repeat constructor|].
  split; [vm_compute; reflexivity|]. split; [vm_compute; reflexivity|]. split; vm_compute; reflexivity.
Qed.
Print Assumptions C76_equal_refuted.
(** Two squares with boxes are built, one is rotated and sorted again, and they are merged. *)
Definition boxed (x : Z) : res (apoly unit) := p <- poly_of_points tt up 2 (square x) ;; ap_new p.
Example C76_case : exists p a, poly_of_points tt up 2 (square 0) = Ok p /\ poly_ok p (rotate 3 (map qpt (square 0))) /\ ap_new p = Ok a /\ box_right a /\ box_exact a.
Proof.
  destruct (square_case 0) as (p & Ep & P); [auto|]. exists p. assert (X := Ep). vm_compute in X. injection X as X.
  assert (Na : exists a, ap_new p = Ok a) by (subst p; eexists; vm_compute; reflexivity). destruct Na as (a & Na). exists a.
  split; [exact Ep|]. split; [exact P|]. split; [exact Na|]. split; [apply (C76_built _ _ _ _ P Na)|]. apply (C76_exact _ p 1 a); [lia|subst p; discriminate|subst p; repeat constructor|exact Na].
Qed.
Example C76_case_sort : (a <- boxed 0 ;; c <- ap_rotate a 1 ;; s <- ap_sort c ;; e <- ap_eq edge_info_root a s ;; Ok (tmax (ap_box a), tmax (ap_box c), minimum_index (ap_poly c), e)) = Ok (I3 2 0 0, I3 1 3 3, 0%nat, true).
Proof. vm_compute. reflexivity. Qed.
Example C76_case_merge : (a <- boxed 0 ;; b <- boxed 2 ;; r <- ap_try_merge true edge_info_root a 1 2 b 0 ;; Ok (option_map (fun r => (tbox (ap_box r), tmax (ap_box r))) r)) = Ok (Some (Box (V3 0 0 0) (V3 4 2 0) 1, I3 2 0 0)).
Proof. vm_compute. reflexivity. Qed.

(** ** SplitEdge and TryMergeEdge *)
(** Splitting an edge keeps the box, and all vertices are in it. *)
Theorem C76_split_edge : forall A dbg (E : einfo A) a qs k t m mq r, poly_ok (ap_poly a) qs -> box_right a -> 0 < t -> t < 1 -> denotes m mq -> qp_eq mq (between (cyc o3 qs k) (cyc o3 qs (S k)) t) ->
  ap_split_edge dbg E a k m = Ok r -> tbox (ap_box r) = tbox (ap_box a) /\ forall v, In v (ap_vertices r) -> in_box (tbox (ap_box r)) (value v).
Proof.
  intros A dbg E a qs k t m mq r H R T0 T1 D M Eq. split; [|intros v; exact (split_edge_box dbg E a qs k t m mq r v H R T0 T1 D M Eq)].
  unfold ap_split_edge in Eq. apply rbind_ok in Eq as (p & _ & X). injection X as <-. reflexivity.
Qed.
Print Assumptions C76_split_edge.
(** But the extreme vertices are wrong afterwards: in a square with the corners (0,0) and
    (2,2), whose edge on x = 0 is split, the vertex said to be furthest along x is (0,0). *)
Theorem C76_split_edge_refuted : exists p, poly_of_points tt up 2 (square 0) = Ok p /\ poly_ok p (rotate 3 (map qpt (square 0))) /\
  (a <- ap_new p ;; r <- ap_split_edge true edge_info_root a 0 (HP (V3 0 1 0) 1) ;; ok <- poly_valid_state (ap_poly r) ;;
   before <- ap_max_vertex a 0 ;; after <- ap_max_vertex r 0 ;; Ok (ok, before, after, ap_vertices r))
  = Ok (true, HP (V3 2 0 0) 1, HP (V3 0 0 0) 1, [HP (V3 0 2 0) 1; HP (V3 0 1 0) 1; HP (V3 0 0 0) 1; HP (V3 2 0 0) 1; HP (V3 2 2 0) 1]).
Proof.
  destruct (square_case 0) as (p & Ep & P); [auto|]. exists p. assert (X := Ep). vm_compute in X. injection X as X. split; [exact Ep|]. split; [exact P|]. clear Ep P. subst p. vm_compute. reflexivity.
Qed.
Print Assumptions C76_split_edge_refuted.
(** Merging two edges can leave an index of a vertex that does not exist. *)
Definition tri_mid : list vec3 := [V3 0 1 0; V3 0 0 0; V3 2 0 0; V3 0 2 0].
Theorem C76_merge_edge_refuted : exists p, poly_of_points tt up 2 tri_mid = Ok p /\ poly_ok p (rotate 3 (map qpt tri_mid)) /\
  (a <- ap_new p ;; r <- ap_merge_edge true edge_info_root a 0 ;; ok <- poly_valid_state (ap_poly (fst r)) ;; before <- ap_valid a ;; after <- ap_valid (fst r) ;; Ok (snd r, ok, before, after))
  = Ok (true, true, true, false) /\
  (a <- ap_new p ;; r <- ap_merge_edge true edge_info_root a 0 ;; ap_max_vertex (fst r) 0) = UB.
Proof.
  destruct (C47_from_points unit tt up 2 tri_mid) as (p & Ep & P); [lia|discriminate|repeat constructor|apply convex_test; vm_compute; reflexivity|]. exists p. assert (X := Ep). vm_compute in X. injection X as X.
  split; [exact Ep|]. split; [exact P|]. clear Ep P. subst p. split; vm_compute; reflexivity.
Qed.
Print Assumptions C76_merge_edge_refuted.
