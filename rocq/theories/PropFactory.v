(** C61: ConvexPolygonFactory. *)
From Coq Require Import List Bool Arith ZArith QArith Lqa Lia ZifyBool.
From Verif Require Import BigUIntModel GeoModel GeoSpec CvxSpec PlanarModel PlanarSpec TriModel TriSpec MonoRangeModel MonoRangeSpec MonoChainProofs DecSpec PolyModel PolySpec PolyTopProofs FactoryModel FactorySpec FactoryProofs FactoryLoopProofs FactoryTopProofs.
Import ListNotations.
Open Scope Z_scope.
Lemma near_all v : small_coords v -> Forall near v.
Proof. intros H. apply Forall_forall. exact H. Qed.

(** One call of EmitOriented: convex vertices of the plane become a valid convex
    polygon with these vertices in this order, whose plane is the given one or
    its opposite, so that the vertices are counterclockwise around the normal. *)
Theorem C61_emit {A} dbg (d0 : A) plane drop mono o l : (drop < 3)%nat -> comp (hn plane) drop <> 0 -> Forall (on_plane plane) l -> small_coords l -> o <> 0 -> oriented o (map (fun p => seen drop mono (qpt p)) l) ->
  exists p, cf_emit dbg d0 plane drop (cf_plane_orientation (hn plane) drop) (o, l) = Ok [p] /\ poly_ok p (map qpt l).
Proof. intros Dl Dc On Ne No Or. apply (emit_ok dbg d0 plane drop mono o l Dl Dc On (near_all l Ne) No Or). Qed.
Print Assumptions C61_emit.

(** Build(plane, begin, end): either the vertices are cut into convex polygons
    with the same boundary, with as many rounds as there are vertices, or there
    is a range on which MonotoneRange makes no progress and Build never returns.
    Missing: vertices with equal coordinates. *)
Theorem C61_planar_partial {A} dbg (d0 : A) plane v : hn plane <> V3 0 0 0 -> (2 <= length v)%nat -> Forall (on_plane plane) v -> small_coords v -> distinct_xy v ->
  (exists ps, (forall fuel, (length v <= fuel)%nat -> cf_planar dbg fuel d0 plane v = Ok ps) /\ convex_parts v ps) \/
  (exists mono b e, (mono < 2)%nat /\ stuck (fun p => inject_Z (comp p mono)) (MonoRangeModel.between v b e) /\ forall fuel, cf_planar dbg fuel d0 plane v = NoFuel).
Proof.
  intros NZ L On Ne D. destruct (planar_ok dbg d0 plane v NZ L On (near_all v Ne) D) as [(ps & H & S)|H]; [left|right; exact H]. exists ps. split; [|exact S]. intros fuel F. destruct (H fuel) as [Q|(Q & _)]; [exact Q|lia].
Qed.
Print Assumptions C61_planar_partial.

(** Build(begin, end), for a polygon that need not be planar. *)
Theorem C61_build_partial {A} dbg (d0 : A) v : small_coords v -> distinct_xy v ->
  (exists ps, (forall fuel, (length v <= fuel)%nat -> cf_build dbg fuel d0 v 0 (length v) = Ok ps) /\ convex_parts v ps) \/
  (exists l mono b e, incl l v /\ (mono < 2)%nat /\ stuck (fun p => inject_Z (comp p mono)) (MonoRangeModel.between l b e) /\ forall fuel, cf_build dbg fuel d0 v 0 (length v) = NoFuel).
Proof.
  intros Ne D. destruct (build_all dbg d0 v (near_all v Ne) D (length v) 0 (length v)) as [(ps & H & S)|H]; [lia|lia|left|right; exact H]. exists ps. rewrite between_all in S. split; [|exact S]. intros fuel F. destruct (H fuel) as [Q|(Q & _)]; [exact Q|lia].
Qed.
Print Assumptions C61_build_partial.

(** The vector area of a polygon is the sum of the vector areas of the parts. *)
Theorem C61_area {A} v (ps : list (poly A)) : convex_parts v ps -> exists ls, Forall2 (convex_part v) ps ls /\ forall i, sum_z (map (vector_area i) ls) = vector_area i v.
Proof. intros (ls & F & S). exists ls. split; [exact F|]. intros i. apply S, cross_weight. Qed.
Print Assumptions C61_area.

(** ** What does not hold *)
Ltac edges := repeat match goal with H : polygon_edge _ ?i _ _ |- _ => destruct H as (? & ?); destruct i as [|[|[|[|[|[|[|[|]]]]]]]]; cbn in *; try discriminate end.
Ltac simple_case := intros i j a b c d s t H1 H2 N S T E; edges; try (exfalso; apply N; reflexivity);
  repeat match goal with H : Some _ = Some _ |- _ => injection H as <- end; destruct E as (E1 & E2 & _); unfold between_q in E1, E2; cbn in E1, E2; unfold inject_Z in E1, E2;
  first [split; [left; lra|left; lra]|split; [left; lra|right; lra]|split; [right; lra|left; lra]|split; [right; lra|right; lra]|exfalso; lra].
Ltac small_case := intros p Hp; repeat (destruct Hp as [<-|Hp]; [cbn; repeat constructor|]); destruct Hp.
Ltac distinct_case := split; match goal with |- NoDup (map ?f ?l) => let l' := eval cbv in (map f l) in change (NoDup l') end; repeat (apply NoDup_cons; [cbn [In]; lia|]); apply NoDup_nil.
(** A dart. *)
Definition dart : list vec3 := [V3 3 3 0; V3 5 1 0; V3 4 5 0; V3 0 0 0].
Lemma dart_simple : simple_polygon dart. Proof. simple_case. Qed.
(** A polygon that does not cross itself is not cut into convex polygons that
    face the same way: this one is counterclockwise, and one of the parts is
    clockwise. *)
Theorem C61_facing_refuted : exists v ps p, simple_polygon v /\ small_coords v /\ distinct_xy v /\ Forall (fun q => vz q = 0) v /\ 0 < vector_area 2 v /\
  cf_build true (length v) 0 v 0 (length v) = Ok ps /\ In p ps /\ vz (hn (pplane p)) < 0.
Proof.
  exists dart. eexists. eexists. split; [exact dart_simple|]. split; [small_case|]. split; [distinct_case|]. split; [repeat constructor|]. split; [reflexivity|]. split; [vm_compute; reflexivity|]. split; [left; reflexivity|reflexivity].
Qed.
Print Assumptions C61_facing_refuted.
(** Build does not return for every polygon that does not cross itself. *)
Definition dart2 : list vec3 := [V3 3 3 0; V3 5 1 0; V3 4 5 0; V3 2 2 0].
Lemma dart2_simple : simple_polygon dart2. Proof. simple_case. Qed.
Theorem C61_endless_refuted : exists v, simple_polygon v /\ small_coords v /\ distinct_xy v /\ forall dbg fuel, cf_build dbg fuel 0 v 0 (length v) = NoFuel.
Proof.
  exists dart2. assert (H1 : small_coords dart2) by small_case. assert (H2 : distinct_xy dart2) by distinct_case. split; [exact dart2_simple|]. split; [exact H1|]. split; [exact H2|]. intros dbg.
  destruct (C61_build_partial dbg 0 dart2 H1 H2) as [(ps & H & _)|(l & mono & b & e & _ & _ & _ & H)]; [|exact H]. exfalso. specialize (H 4%nat (le_n _)). destruct dbg; vm_compute in H; discriminate.
Qed.
Print Assumptions C61_endless_refuted.
(** With vertices that have the same y coordinate, an emitted polygon can be
    rejected by the assertion in the constructor of ConvexPolygon. *)
Definition jag : list vec3 := [V3 1 4 0; V3 0 1 0; V3 2 0 0; V3 2 1 0; V3 1 2 0; V3 3 1 0; V3 3 3 0].
Lemma jag_simple : simple_polygon jag. Proof. simple_case. Qed.
Theorem C61_assert_refuted : exists v, simple_polygon v /\ small_coords v /\ cf_build true (length v) 0 v 0 (length v) = AssertFail.
Proof. exists jag. split; [exact jag_simple|]. split; [small_case|]. vm_compute. reflexivity. Qed.
Print Assumptions C61_assert_refuted.

(** ** Cases *)
(** A polygon that is not planar. *)
Definition bent : list vec3 := [V3 0 0 0; V3 5 1 0; V3 9 4 2; V3 8 9 5; V3 4 7 1; V3 1 6 0].
Example C61_case_bent : small_coords bent /\ distinct_xy bent /\ exists ps, cf_build true 6 0 bent 0 6 = Ok ps /\ length ps = 4%nat /\ convex_parts bent ps.
Proof.
  assert (H1 : small_coords bent) by small_case. assert (H2 : distinct_xy bent) by distinct_case. split; [exact H1|]. split; [exact H2|].
  destruct (C61_build_partial true 0 bent H1 H2) as [(ps & H & C)|(l & mono & b & e & _ & _ & _ & H)]; specialize (H 6%nat); [|exfalso; vm_compute in H; discriminate].
  exists ps. specialize (H (le_n _)). split; [exact H|]. split; [|exact C]. vm_compute in H. injection H as <-. reflexivity.
Qed.
(** A pentagon in a plane that is parallel to no axis. *)
Definition pent : list vec3 := [V3 0 0 0; V3 6 2 8; V3 7 5 12; V3 3 6 9; V3 1 4 5].
Example C61_case_planar : Forall (on_plane (HS (V3 1 1 (-1)) 0)) pent /\ small_coords pent /\ distinct_xy pent /\ exists p, cf_planar true 5 0 (HS (V3 1 1 (-1)) 0) pent = Ok [p] /\ convex_parts pent [p].
Proof.
  assert (H0 : Forall (on_plane (HS (V3 1 1 (-1)) 0)) pent) by (repeat constructor). assert (H1 : small_coords pent) by small_case. assert (H2 : distinct_xy pent) by distinct_case. split; [exact H0|]. split; [exact H1|]. split; [exact H2|].
  destruct (C61_planar_partial true 0 (HS (V3 1 1 (-1)) 0) pent ltac:(discriminate) ltac:(cbn; lia) H0 H1 H2) as [(ps & H & C)|(mono & b & e & _ & _ & H)]; specialize (H 5%nat); [|exfalso; vm_compute in H; discriminate].
  specialize (H (le_n _)). pose proof H as H'. vm_compute in H'. injection H' as <-. eexists. split; [exact H|exact C].
Qed.
(** A triangle emitted with the opposite of the plane. *)
Example C61_case_emit : let l := [V3 0 0 0; V3 0 4 0; V3 4 0 0] in oriented 1 (map (fun p => seen 2 1 (qpt p)) l) /\ exists p, cf_emit true 0 (HS (V3 0 0 1) 0) 2 (cf_plane_orientation (V3 0 0 1) 2) (1, l) = Ok [p] /\ hn (pplane p) = V3 0 0 (-1).
Proof.
  cbn zeta. split; [|eexists; split; [vm_compute; reflexivity|reflexivity]].
  right. left. split; [reflexivity|]. apply convex_test. vm_compute. reflexivity.
Qed.
