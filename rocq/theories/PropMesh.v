(** Properties C28 and C42 to C46: MeshPlaneRepairer. *)
From Coq Require Import List Bool Arith ZArith QArith Lia.
From Verif Require Import BigUIntModel GeoModel GeoSpec GeoProofs GeoReduceProofs GeoBridge PlanarSpec NudgeModel NudgeSpec NudgeProofs MeshSpec MeshProofs MeshLoopProofs MeshPointProofs MeshFlatProofs MeshOutProofs.
Import ListNotations.
Open Scope nat_scope.

(** ** C28: vertices *)
(** Finalize puts the vertex on every plane recorded in it. *)
Theorem C28_on_planes : forall gcd v v', gcd_ok gcd -> vi_finalize gcd v = Ok v' -> vadj v' = vadj v /\ Forall (fun h => incident h (vpt v')) (vadj v).
Proof. exact finalize_spec. Qed.
Print Assumptions C28_on_planes.
(** When the normals are independent the result is a point, the common point of
    the planes that is nearest to the old position. *)
Theorem C28_nearest : forall gcd v v' q, gcd_ok gcd -> denotes (vpt v) q -> independent (vadj v) -> vi_finalize gcd v = Ok v' ->
  exists q', denotes (vpt v') q' /\ nearest (on_all (vadj v)) q q'.
Proof. exact finalize_nearest. Qed.
Print Assumptions C28_nearest.
(** Two parallel planes, not both through the vertex: a division by zero. *)
Theorem C28_parallel_refuted : forall gcd p a b v', gcd_ok gcd -> v3_cross (hn a) (hn b) = V3 0 0 0 -> ~ Forall (fun h => incident h p) [a; b] ->
  vi_finalize gcd (VI p [a; b]) <> Ok v'.
Proof. exact finalize_parallel. Qed.
Print Assumptions C28_parallel_refuted.
(** Three planes with dependent normals, not all through the vertex: if anything
    is returned it has weight 0 and is no point. *)
Theorem C28_dependent_refuted : forall gcd p a b c v', gcd_ok gcd -> v3_dot (v3_cross (hn a) (hn b)) (hn c) = 0%Z -> ~ Forall (fun h => incident h p) [a; b; c] ->
  vi_finalize gcd (VI p [a; b; c]) = Ok v' -> hw (vpt v') = 0%Z.
Proof. exact finalize_dependent. Qed.
Print Assumptions C28_dependent_refuted.
(** Two AddVertex calls of any history use one record exactly when they were
    given the same point, in whatever representation. *)
Theorem C28_shared : forall dbg gcd ops m l p1 i1 p2 i2 q1 q2, gcd_ok gcd -> mesh_run dbg gcd mesh_new ops m l -> In (p1, i1) l -> In (p2, i2) l ->
  denotes p1 q1 -> denotes p2 q2 -> (i1 = i2 <-> qp_eq q1 q2).
Proof.
  intros dbg gcd ops m l p1 i1 p2 i2 q1 q2 G R I1 I2 D1 D2. destruct (run_ok dbg gcd G ops mesh_new m l [] [] (mesh_new_ok gcd) R) as (orig & polys & (M & _) & F & _).
  exact (found_same gcd orig _ p1 p2 i1 i2 q1 q2 G M (F _ _ I1) (F _ _ I2) D1 D2).
Qed.
Print Assumptions C28_shared.

(** ** C42: output polygons are planar *)
(** Every output polygon of at most four vertices has all of them on its plane,
    for any mesh that is accepted. *)
Theorem C42_planar_partial : forall dbg gcd fs out h ps, gcd_ok gcd -> repair dbg gcd fs = Ok out -> In (h, ps) out -> length ps <= 4 -> Forall (incident h) ps.
Proof. exact repair_planar. Qed.
Print Assumptions C42_planar_partial.
Definition hpt (x y z : Z) : hpoint3 := HP (V3 x y z) 1.
(** Three triangles fix the vertex (3, 3, 1); the pentagon's plane is then taken
    from its first three vertices. *)
Definition five_mesh : list (list hpoint3) :=
  [[hpt 3 3 1; hpt 4 3 1; hpt 3 4 1]; [hpt 3 3 1; hpt 3 4 2; hpt 3 4 3]; [hpt 3 3 1; hpt 5 3 3; hpt 5 3 4];
   [hpt 0 0 0; hpt 4 0 0; hpt 5 2 0; hpt 3 3 1; hpt 0 3 0]].
Theorem C42_five_refuted : exists out h ps, repair true zgcd five_mesh = Ok out /\ In (h, ps) out /\ length ps = 5 /\ ~ Forall (incident h) ps.
Proof.
  do 3 eexists. split; [vm_compute; reflexivity|]. split; [do 3 right; left; reflexivity|]. split; [reflexivity|].
  intros F. rewrite Forall_forall in F. specialize (F (hpt 3 3 1) ltac:(do 3 right; left; reflexivity)). unfold incident in F. vm_compute in F. discriminate F.
Qed.
Print Assumptions C42_five_refuted.

(** ** C43: flat facets are not moved *)
(** When every facet of the input is flat, every vertex of every output polygon
    is a vertex of the facet it comes from, unmoved, and lies on the plane of its
    polygon, whatever the numbers of vertices. *)
Theorem C43_flat_unmoved : forall dbg gcd fs out, gcd_ok gcd -> Forall flat_facet fs -> Forall finite_points fs -> repair dbg gcd fs = Ok out ->
  exists gs, out = concat gs /\ Forall2 (fun f g => Forall (fun o => Forall (incident (fst o)) (snd o) /\ forall r, In r (snd o) -> exists p, In p f /\ same_point p r) g) fs gs.
Proof.
  intros dbg gcd fs out G Fl Fin E. assert (H : exists hs, Forall2 (fun h f => hs_valid h = true /\ Forall (incident h) f) hs fs).
  { clear - Fl. induction Fl as [|f fs (h & V & I) Fl (hs & IH)]; [exists []; constructor|]. exists (h :: hs). constructor; [split; assumption|exact IH]. }
  destruct H as (hs & H). destruct (repair_flat dbg gcd fs hs out G H Fin E) as (gs & Eo & _ & F). exists gs. split; [exact Eo|].
  clear - F. induction F as [|f g fs gs [A B] F IH]; constructor; assumption.
Qed.
Print Assumptions C43_flat_unmoved.

(** ** C44: flat facets with a small plane stay whole *)
Theorem C44_small_kept : forall dbg gcd fs out, gcd_ok gcd -> Forall small_facet fs -> Forall finite_points fs -> repair dbg gcd fs = Ok out ->
  Forall2 (fun f o => Forall (incident (fst o)) (snd o) /\ Forall2 same_point f (snd o)) fs out.
Proof.
  intros dbg gcd fs out G Fl Fin E. assert (H : exists hs, Forall2 (fun h f => hs_valid h = true /\ Forall (incident h) f) hs fs /\ Forall (fun h => Forall (fun c => (Z.abs c < 2 ^ 31)%Z) (l4 h)) hs).
  { clear - Fl. induction Fl as [|f fs (h & V & S & I) Fl (hs & IH & IH')]; [exists []; split; constructor|]. exists (h :: hs). split; constructor; auto. }
  destruct H as (hs & H & S). destruct (repair_flat dbg gcd fs hs out G H Fin E) as (gs & -> & L & F). clear - S L F.
  assert (W : Forall (fun g => length g = 1) gs). { clear F. induction L as [|h g hs gs A L IH]; [constructor|]. inversion S; subst. constructor; [apply A; assumption|apply IH; assumption]. }
  clear L S. induction F as [|f g fs gs [A B] F IH]; [constructor|]. inversion W as [|? ? Wg W']; subst. destruct g as [|o [|? ?]]; try discriminate. inversion A as [|? ? [A1 _] _]; subst.
  cbn [concat app]. constructor; [split; [exact A1|apply B; reflexivity]|exact (IH W')].
Qed.
Print Assumptions C44_small_kept.

(** ** C45: the polygons of a facet have the boundary of the facet *)
(** There is one new position per point of the mesh such that the polygons made
    from a facet of at most four vertices, or made as one polygon, have together
    the boundary of the moved facet: inner edges cancel. *)
Theorem C45_boundary_partial : forall dbg gcd fs out, gcd_ok gcd -> repair dbg gcd fs = Ok out ->
  exists (moved : hpoint3 -> hpoint3) gs, out = concat gs /\
    (forall p r, In p (concat fs) -> In r (concat fs) -> same_point p r -> moved p = moved r) /\
    Forall2 (fun f g => length f <= 4 \/ length g = 1 -> forall F, antisymmetric F -> sum_z (map (fun o => cycle_sum F (snd o)) g) = cycle_sum F (map moved f)) fs gs.
Proof.
  intros dbg gcd fs out G E. destruct (repair_groups dbg gcd fs out G E) as (name & pos & gs & -> & R & N).
  exists (fun p => pos (name p)), (map (map (fun p => (fst p, map pos (snd p)))) gs). split; [apply concat_map|]. split.
  - intros p r Ip Ir (q & D1 & D2). f_equal. apply (N p r q q Ip Ir D1 D2). repeat split; reflexivity.
  - clear N E. induction R as [|f g fs gs Rg R IH]; cbn [map]; [constructor|]. constructor; [|exact IH]. intros H F A. rewrite map_length in H. rewrite map_map. cbn [snd].
    rewrite <- (map_map name pos f). rewrite cycle_map. rewrite <- (slice_all (map name f)) at 1. rewrite map_length.
    rewrite <- (rounds_boundary (map name f) (fun a b => F (pos a) (pos b)) (fun a b => A (pos a) (pos b)) 0 (length f) g Rg); [|lia].
    f_equal. apply map_ext. intros o. apply cycle_map.
Qed.
Print Assumptions C45_boundary_partial.
(** The part a polygon takes from the end of a facet is written backwards: here
    six vertices are cut into two polygons, and the first of them zigzags. *)
Definition fixing (a b c s t : hpoint3) : list (list hpoint3) := [[a; b; s]; [a; c; s]; [b; c; s]; [a; b; t]; [a; c; t]; [b; c; t]].
Definition reversing_mesh : list (list hpoint3) :=
  fixing (hpt 0 0 0) (hpt 4 0 0) (hpt 0 4 0) (hpt 1 1 5) (hpt 1 2 (-7)) ++
  [[hpt 6 2 1; hpt 7 2 1; hpt 6 3 1]; [hpt 6 2 1; hpt 6 3 2; hpt 6 3 3]; [hpt 6 2 1; hpt 8 2 3; hpt 8 2 4]] ++
  [[hpt 0 0 0; hpt 4 0 0; hpt 6 2 1; hpt 5 4 0; hpt 3 6 0; hpt 0 4 0]].
(** Twice the signed area below an edge, seen along the z axis. *)
Definition xy_edge (a b : hpoint3) : Z := (vx (hv a) * vy (hv b) - vx (hv b) * vy (hv a))%Z.
Theorem C45_reversed_refuted : exists out,
  repair true zgcd reversing_mesh = Ok out /\ length out = 11 /\
  Forall (fun p => hw p = 1%Z /\ exists o, In o (skipn 9 out) /\ In p (snd o)) (last reversing_mesh []) /\
  antisymmetric xy_edge /\ sum_z (map (fun o => cycle_sum xy_edge (snd o)) (skipn 9 out)) <> cycle_sum xy_edge (last reversing_mesh []).
Proof.
  eexists. split; [vm_compute; reflexivity|]. split; [reflexivity|]. split.
  - cbn [reversing_mesh fixing app last skipn]. repeat (apply Forall_cons || apply Forall_nil); (split; [reflexivity|]);
      (first [eexists; split; [left; reflexivity|]; cbn [snd]; unfold hpt; solve [repeat first [left; reflexivity|right]]|eexists; split; [right; left; reflexivity|]; cbn [snd]; unfold hpt; solve [repeat first [left; reflexivity|right]]]).
  - split; [unfold antisymmetric, xy_edge; intros; lia|]. vm_compute. discriminate.
Qed.
Print Assumptions C45_reversed_refuted.

(** ** C46: repairing a mesh comes back *)
Theorem C46_returns : forall dbg gcd fs, gcd_ok gcd -> gcd_returns gcd -> repair dbg gcd fs <> NoFuel.
Proof. exact repair_returns. Qed.
Print Assumptions C46_returns.

(** ** Cases *)
(** Three planes of a cube's corner pull a stray vertex to the corner. *)
Example C28_case : exists v', gcd_ok zgcd /\ denotes (hpt 5 6 8) (QP 5 6 8) /\ independent [HS (V3 1 0 0) 5; HS (V3 0 2 0) 10; HS (V3 0 0 3) 22] /\
  vi_finalize zgcd (VI (hpt 5 6 8) [HS (V3 1 0 0) 5; HS (V3 0 2 0) 10; HS (V3 0 0 3) 22]) = Ok v' /\ vpt v' <> hpt 5 6 8.
Proof. eexists. split; [exact zgcd_ok|]. split; [repeat split; discriminate|]. split; [discriminate|]. split; [vm_compute; reflexivity|discriminate]. Qed.
Example C28_parallel_case : v3_cross (V3 1 2 3) (V3 2 4 6) = V3 0 0 0 /\ ~ Forall (fun h => incident h (hpt 0 0 0)) [HS (V3 1 2 3) 4; HS (V3 2 4 6) 4] /\
  vi_finalize zgcd (VI (hpt 0 0 0) [HS (V3 1 2 3) 4; HS (V3 2 4 6) 4]) = UB.
Proof. split; [reflexivity|]. split; [intros F; inversion F as [|? ? X _]; discriminate X|vm_compute; reflexivity]. Qed.
Example C28_dependent_case : exists v', v3_dot (v3_cross (V3 1 0 0) (V3 0 1 0)) (V3 1 1 0) = 0%Z /\ ~ Forall (fun h => incident h (hpt 0 0 0)) [HS (V3 1 0 0) 1; HS (V3 0 1 0) 1; HS (V3 1 1 0) 1] /\
  vi_finalize zgcd (VI (hpt 0 0 0) [HS (V3 1 0 0) 1; HS (V3 0 1 0) 1; HS (V3 1 1 0) 1]) = Ok v'.
Proof. eexists. split; [reflexivity|]. split; [intros F; inversion F as [|? ? X _]; discriminate X|vm_compute; reflexivity]. Qed.
(** A tetrahedron with one vertex written in two ways. *)
Definition tetra : list (list hpoint3) :=
  [[hpt 0 0 0; hpt 0 4 0; hpt 4 0 0]; [HP (V3 0 0 0) (-2); hpt 4 0 0; hpt 0 0 4]; [hpt 0 0 0; hpt 0 0 4; HP (V3 0 8 0) 2]; [hpt 4 0 0; hpt 0 4 0; HP (V3 0 0 (-12)) (-3)]].
Example C44_case : Forall small_facet tetra /\ Forall finite_points tetra /\ exists out, repair true zgcd tetra = Ok out /\ length out = 4.
Proof.
  split; [|split; [repeat constructor; discriminate|eexists; split; [vm_compute; reflexivity|reflexivity]]].
  constructor; [exists (HS (V3 0 0 1) 0)|constructor; [exists (HS (V3 0 1 0) 0)|constructor; [exists (HS (V3 1 0 0) 0)|constructor; [exists (HS (V3 1 1 1) 4)|constructor]]]]; (split; [reflexivity|split; repeat constructor]).
Qed.
Example C43_case : Forall flat_facet tetra /\ Forall finite_points tetra /\ exists out, repair true zgcd tetra = Ok out.
Proof. destruct C44_case as (A & B & out & C & _). split; [|split; [exact B|exists out; exact C]]. eapply Forall_impl; [|exact A]. intros f (h & V & _ & I). exists h. split; assumption. Qed.
(** A square with a raised corner, fixed by other facets, becomes two triangles. *)
Definition bent_mesh : list (list hpoint3) :=
  fixing (hpt 0 0 0) (hpt 4 0 0) (hpt 0 4 0) (hpt 1 1 5) (hpt 1 2 (-7)) ++
  [[hpt 5 5 1; hpt 7 5 1; hpt 5 7 1]; [hpt 5 5 1; hpt 5 7 2; hpt 5 7 3]; [hpt 5 5 1; hpt 8 5 3; hpt 8 5 4]] ++
  [[hpt 0 0 0; hpt 4 0 0; hpt 5 5 1; hpt 0 4 0]].
Example C45_case : exists out, repair true zgcd bent_mesh = Ok out /\ map (fun o => length (snd o)) (skipn 9 out) = [3; 3] /\ length (last bent_mesh []) <= 4.
Proof. eexists. split; [vm_compute; reflexivity|]. split; [reflexivity|]. cbn. lia. Qed.
Example C42_case : exists out h ps, repair true zgcd bent_mesh = Ok out /\ In (h, ps) out /\ length ps <= 4.
Proof. do 3 eexists. split; [vm_compute; reflexivity|]. split; [left; reflexivity|]. cbn. lia. Qed.
Example C46_case : gcd_ok zgcd /\ gcd_returns zgcd.
Proof. split; [exact zgcd_ok|]. exact zgcd_returns. Qed.
Example C28_shared_case : exists m l i, mesh_run true zgcd mesh_new [MVertex (hpt 1 2 3); MVertex (hpt 4 4 4); MVertex (HP (V3 (-2) (-4) (-6)) (-2))] m l /\
  In (hpt 1 2 3, i) l /\ In (HP (V3 (-2) (-4) (-6)) (-2), i) l /\ ~ In (hpt 4 4 4, i) l.
Proof.
  do 3 eexists. split; [repeat (eapply mr_vertex; [vm_compute; reflexivity|]); apply mr_nil|]. split; [left; reflexivity|]. split; [right; right; left; reflexivity|].
  intros [H|[H|[H|[]]]]; discriminate H.
Qed.
