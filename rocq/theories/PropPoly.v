(** Properties C31 to C33 and C47: ConvexPolygon. *)
From Coq Require Import List Bool Arith ZArith QArith Lqa Lia.
From Verif Require Import BigUIntModel GeoModel GeoSpec GeoProofs GeoDirProofs CvxSpec PolyModel PolySpec PolyBridgeProofs PolyInfoProofs PolyExtremeProofs PolyCapProofs PolyChildProofs PolyMakeProofs PolyValidProofs PolyTopProofs.
Import ListNotations.
Open Scope Q_scope.

(** ** Building polygons *)
(** The constructors from vertices in convex position store those vertices;
    the ones that take a vector start with the last of them. *)
Theorem C47_from_array : forall A (d0 : A) h d vs qs, Forall2 denotes vs qs -> (d < 3)%nat -> comp (hn h) d <> 0%Z -> Forall (fun q => side h q == 0) qs ->
  convex_cycle (inject_Z (comp (hn h) d)) (map (qdrop d) qs) -> exists p, poly_of_array d0 h d vs = Ok p /\ poly_ok p qs.
Proof. intros A d0 h d vs qs. apply make_array. Qed.
Print Assumptions C47_from_array.
Theorem C47_from_vector : forall A (d0 : A) h d vs qs, Forall2 denotes vs qs -> (d < 3)%nat -> comp (hn h) d <> 0%Z -> Forall (fun q => side h q == 0) qs ->
  convex_cycle (inject_Z (comp (hn h) d)) (map (qdrop d) qs) -> exists p, poly_of_hpoints d0 h d vs = Ok p /\ poly_ok p (rotate (length qs - 1) qs).
Proof. intros A d0 h d vs qs. apply make_hpoints. Qed.
Print Assumptions C47_from_vector.
Theorem C47_from_points : forall A (d0 : A) h d vs, (d < 3)%nat -> comp (hn h) d <> 0%Z -> Forall (fun v => side h (qpt v) == 0) vs ->
  convex_cycle (inject_Z (comp (hn h) d)) (map (qdrop d) (map qpt vs)) -> exists p, poly_of_points d0 h d vs = Ok p /\ poly_ok p (rotate (length vs - 1) (map qpt vs)).
Proof. intros A d0 h d vs. apply make_points. Qed.
Print Assumptions C47_from_points.
(** A hexagon with a vertex in the middle of a side, in the plane x + z = 4 seen
    from below (the drop dimension has a negative normal component). *)
Definition hex_plane : hspace3 := HS (V3 (-1) 0 (-1)) (-4).
Definition hex_list : list vec3 := [V3 0 0 4; V3 0 2 4; V3 1 4 3; V3 3 4 1; V3 4 2 0; V3 4 0 0; V3 2 0 2].
Example hex_case : exists p, poly_of_points tt hex_plane 2 hex_list = Ok p /\ poly_ok p (rotate 6 (map qpt hex_list)).
Proof.
  apply (C47_from_points unit tt hex_plane 2 hex_list); [lia|discriminate| |].
  - repeat constructor.
  - apply convex_test. vm_compute. reflexivity.
Qed.

(** ** C47: IsValidState *)
(** Every convex polygon is accepted, unless a direction component is the most
    negative 64 bit integer (abs of which is undefined). *)
Theorem C47_accepts : forall A (p : poly A) qs, poly_ok p qs ->
  (forall e e', In e (pedges p) -> In e' (pedges p) -> no_min (l3 (ld (pl e))) /\ no_min (l3 (ld (pl_of_hpoints (pv e) (pv e'))))) -> poly_valid_state p = Ok true.
Proof. exact @valid_accepts. Qed.
Print Assumptions C47_accepts.
(** What acceptance means: the polygon is right at every vertex that differs from
    its neighbours.  Convexity of the whole is missing, see below. *)
Theorem C47_sound_partial : forall A (p : poly A), pedges p <> [] -> (pdrop p < 3)%nat -> poly_valid_state p = Ok true -> exists qs, poly_local p qs.
Proof. exact @valid_sound. Qed.
Print Assumptions C47_sound_partial.
Example hex_valid : exists p, poly_of_points tt hex_plane 2 hex_list = Ok p /\ poly_valid_state p = Ok true.
Proof. eexists. split; [reflexivity|]. vm_compute. reflexivity. Qed.
Lemma vertex_of {A} (p : poly A) qs i e : Forall2 (fun e q => denotes (pv e) q) (pedges p) qs -> nth_error (pedges p) i = Some e -> hw (pv e) = 1%Z -> exists q, nth_error qs i = Some q /\ qp_eq q (qpt (hv (pv e))).
Proof.
  intros F. revert i. induction F as [|e' q es qs D F IH]; intros i E W; [destruct i; discriminate|]. destruct i as [|i]; cbn [nth_error] in *.
  - injection E as ->. exists q. split; [reflexivity|]. destruct D as (_ & X & Y & Z). rewrite W in *. change (inject_Z 1) with 1 in *. unfold qp_eq, qpt. cbn [qx qy qz]. repeat split; lra.
  - exact (IH i E W).
Qed.
(** A pentagram winds around twice, is convex nowhere and is accepted. *)
Definition star : list vec3 := [V3 0 3 0; V3 2 (-3) 0; V3 (-3) 1 0; V3 3 1 0; V3 (-2) (-3) 0].
Theorem C47_star_refuted : exists p, poly_of_points tt (HS (V3 0 0 (-1)) 0) 2 star = Ok p /\ poly_valid_state p = Ok true /\ forall qs, ~ poly_ok p qs.
Proof.
  eexists. split; [reflexivity|]. split; [vm_compute; reflexivity|]. intros qs H. pose proof (po_vertices _ _ H) as F.
  destruct (vertex_of _ qs 0 _ F eq_refl eq_refl) as (a & Ea & _ & _ & _). destruct (vertex_of _ qs 1 _ F eq_refl eq_refl) as (b & Eb & Xb & Yb & _).
  destruct (vertex_of _ qs 2 _ F eq_refl eq_refl) as (c & Ec & Xc & Yc & _). destruct (vertex_of _ qs 4 _ F eq_refl eq_refl) as (e & Ee & Xe & Ye & _).
  destruct (po_convex _ _ H) as (P & _ & _).
  specialize (P 1%nat 2%nat 4%nat _ _ _ ltac:(lia) ltac:(lia) (map_nth_error _ _ _ Eb) (map_nth_error _ _ _ Ec) (map_nth_error _ _ _ Ee)).
  unfold turn, qcross2, qsub2, qdrop, pnormal_drop in P. cbn [pdrop pplane qx2 qy2 comp hn vz] in P.
  cbn [qx qy qpt hv pv vx vy] in *. rewrite Xb, Yb, Xc, Yc, Xe, Ye in P. vm_compute in P. apply P. reflexivity.
Qed.
Print Assumptions C47_star_refuted.
(** So is a polygon of two vertices, all of it on one line. *)
Theorem C47_flat_refuted : exists p, poly_of_points tt (HS (V3 0 0 1) 0) 2 [V3 0 0 0; V3 1 0 0] = Ok p /\ poly_valid_state p = Ok true /\ forall qs, ~ poly_ok p qs.
Proof.
  eexists. split; [reflexivity|]. split; [vm_compute; reflexivity|]. intros qs H. pose proof (ok_length _ qs H) as L.
  destruct (po_convex _ _ H) as (_ & _ & (a & b & c & Ia & Ib & Ic & N)). destruct qs as [|x [|y [|z qs]]]; try discriminate L. apply N. cbn [map In] in Ia, Ib, Ic.
  destruct Ia as [<-|[<-|[]]], Ib as [<-|[<-|[]]], Ic as [<-|[<-|[]]]; unfold turn, qcross2, qsub2; cbn [qx2 qy2]; ring.
Qed.
Print Assumptions C47_flat_refuted.
(** And one with a vertex repeated, whose edge of length 0 may have any line
    through it, even one perpendicular to the polygon. *)
Definition twice : poly unit := Poly (HS (V3 0 0 1) 0) 2
  [PE (HP (V3 0 0 0) 1) (pl_of_points (V3 0 0 0) (V3 1 0 0)) tt; PE (HP (V3 1 0 0) 1) (pl_of_points (V3 1 0 0) (V3 1 0 1)) tt;
   PE (HP (V3 1 0 0) 1) (pl_of_points (V3 1 0 0) (V3 0 1 0)) tt; PE (HP (V3 0 1 0) 1) (pl_of_points (V3 0 1 0) (V3 0 0 0)) tt].
Theorem C47_repeated_refuted : poly_valid_state twice = Ok true /\ forall qs, ~ poly_ok twice qs.
Proof.
  split; [vm_compute; reflexivity|]. intros qs H. pose proof (po_vertices _ _ H) as F.
  destruct (vertex_of _ qs 1 _ F eq_refl eq_refl) as (a & Ea & Xa & Ya & _). destruct (vertex_of _ qs 2 _ F eq_refl eq_refl) as (b & Eb & Xb & Yb & _). destruct (po_convex _ _ H) as (_ & P & _).
  assert (L : length qs = 4%nat) by exact (ok_length _ qs H). apply (P 1%nat (qdrop 2 a) (qdrop 2 b)).
  - apply map_nth_error. exact Ea.
  - rewrite map_length, L. apply map_nth_error. exact Eb.
  - unfold qp2_eq, qdrop. cbn [qx2 qy2]. rewrite Xa, Xb, Ya, Yb. split; reflexivity.
Qed.
Print Assumptions C47_repeated_refuted.

(** ** C31: extreme vertices *)
(** For a direction in the plane of two coordinates: the first vertex that is
    farthest in this direction. *)
Theorem C31_extreme_2d : forall A dbg (p : poly A) qs v, poly_ok p qs -> v2_is_zero v = false ->
  exists i, extreme_index dbg p v (pdrop p) = Ok (Some i) /\ first_largest (fun q => along2 v (qdrop (pdrop p) q)) qs i.
Proof. exact @extreme_exact. Qed.
Print Assumptions C31_extreme_2d.
(** For a direction in space that is not normal to the polygon. *)
Theorem C31_extreme_3d : forall A dbg (p : poly A) qs v, poly_ok p qs -> v3_cross v (hn (pplane p)) <> V3 0 0 0 ->
  exists i, extreme_index3 dbg p v = Ok (Some i) /\ first_largest (along v) qs i.
Proof. exact @extreme_exact3. Qed.
Print Assumptions C31_extreme_3d.
(** Otherwise all vertices are equally far, and the result says so. *)
Theorem C31_extreme_normal : forall A dbg (p : poly A) v, (pdrop p < 3)%nat -> v3_cross v (hn (pplane p)) = V3 0 0 0 -> extreme_index3 dbg p v = Ok None.
Proof. intros A dbg p v L. exact (extreme_none dbg p L v). Qed.
Print Assumptions C31_extreme_normal.
(** Any other dimension may be dropped if the normal is not 0 in it. *)
Theorem C31_any_drop : forall A (p : poly A) qs d, poly_ok p qs -> (d < 3)%nat -> comp (hn (pplane p)) d <> 0%Z -> poly_ok (Poly (pplane p) d (pedges p)) qs.
Proof. exact @poly_ok_drop. Qed.
Print Assumptions C31_any_drop.
Example hex_extreme : (p <- poly_of_points tt hex_plane 2 hex_list ;; extreme_index3 true p (V3 0 1 (-1))) = Ok (Some 4%nat).
Proof. vm_compute. reflexivity. Qed.

(** ** C32: split information *)
(** GetSplitInfo always gives complete and correct information: its two ranges
    hold exactly the vertices strictly on the negative and the positive side, and
    the points where the boundary crosses the plane are on it. *)
Theorem C32_split_info : forall A dbg (p : poly A) qs h, poly_ok p qs -> exists i, get_split_info dbg p h = Ok i /\ info_ok p qs h i.
Proof. intros A dbg p qs h H. exact (get_split_info_ok p qs H h dbg). Qed.
Print Assumptions C32_split_info.
(** A child is emitted exactly when some point of the polygon is strictly on its
    side. *)
Theorem C32_no_negative : forall A (p : poly A) qs h i, poly_ok p qs -> info_ok p qs h i ->
  (emit_neg (si_ranges i) = false <-> forall q, polygon_point (pplane p) (pdrop p) qs q -> 0 <= side h q).
Proof. exact @not_neg. Qed.
Print Assumptions C32_no_negative.
Theorem C32_no_positive : forall A (p : poly A) qs h i, poly_ok p qs -> info_ok p qs h i ->
  (emit_pos (si_ranges i) = false <-> forall q, polygon_point (pplane p) (pdrop p) qs q -> side h q <= 0).
Proof. exact @not_pos. Qed.
Print Assumptions C32_no_positive.
(** The plane x = 2 meets the hexagon in the vertex (2, 0, 2) and inside a side. *)
Example hex_info : exists p i, poly_of_points tt hex_plane 2 hex_list = Ok p /\ get_split_info true p (HS (V3 1 0 0) 2) = Ok i /\
  neg_range (si_ranges i) = (1, 4)%nat /\ pos_range (si_ranges i) = (4, 7)%nat /\ si_point1 i = None /\ is_some (si_point2 i) = true.
Proof. do 2 eexists. split; [reflexivity|]. split; [vm_compute; reflexivity|]. repeat split; reflexivity. Qed.

(** ** C33: splitting *)
(** When the polygon has points strictly on both sides, the two children are
    convex polygons in the same plane, and their points are exactly the points of
    the polygon on the closed negative and positive side. *)
Theorem C33_children : forall A dbg E (p : poly A) qs h, poly_ok p qs -> (exists q, polygon_point (pplane p) (pdrop p) qs q /\ side h q < 0) -> (exists q, polygon_point (pplane p) (pdrop p) qs q /\ 0 < side h q) ->
  exists i neg pos qn qp, get_split_info dbg p h = Ok i /\ emit_neg (si_ranges i) = true /\ emit_pos (si_ranges i) = true /\ split_children dbg E p i = Ok (neg, pos) /\ split_ok p qs h neg pos qn qp.
Proof. exact @split_whole. Qed.
Print Assumptions C33_children.
Example hex_children : exists p i neg pos, poly_of_points tt hex_plane 2 hex_list = Ok p /\ get_split_info true p (HS (V3 1 0 0) 2) = Ok i /\
  split_children true edge_info_root p i = Ok (neg, pos) /\ pcount neg = 5%nat /\ pcount pos = 5%nat /\ poly_valid_state neg = Ok true /\ poly_valid_state pos = Ok true.
Proof. do 4 eexists. split; [reflexivity|]. split; [vm_compute; reflexivity|]. split; [vm_compute; reflexivity|]. repeat split; vm_compute; reflexivity. Qed.
