(** Property C59: MonotoneDecomposer. *)
From Coq Require Import List Bool Arith ZArith QArith Lqa Lia ZifyBool.
From Verif Require Import BigUIntModel GeoModel GeoSpec CvxSpec GeoProofs GeoPluckerProofs TriModel TriSpec TriProofs TriGeoProofs TriTileProofs DecModel DecSpec DecProofs DecTopProofs DecTestProofs.
Import ListNotations.
Open Scope Q_scope.

(** ** Whatever the chains are *)
(** The emitted polygons together have the boundary of the input polygon: every
    other edge is used as often in one direction as in the other.  (Adding a
    vertex that is equal to its neighbour is skipped, which changes nothing.) *)
Theorem C59_boundary_point3 : forall dbg drop mono top bottom out, md_build dbg kind_point3 drop mono top bottom = Ok out ->
  same_boundary (map snd out) [polygon_of top bottom].
Proof.
  intros dbg drop mono top bottom out E. pose proof (md_boundary dbg kind_point3 drop mono top bottom out (fun p => p) (fun _ => True)) as H.
  rewrite map_id in H. replace (map snd out) with (map (fun e : Z * list vec3 => map (fun p => p) (snd e)) out) by (apply map_ext; intros e; apply map_id).
  apply H; [|apply Forall_forall; intros; exact I|exact E]. intros [x y z] [x' y' z'] _ _ Q. apply v3_eq_true in Q. cbn in Q. destruct Q as (-> & -> & ->). reflexivity.
Qed.
Print Assumptions C59_boundary_point3.
(** Homogeneous points have no weight 0. *)
Theorem C59_boundary_homo3 : forall dbg drop mono top bottom out, (forall p, In p (top ++ bottom) -> hw p <> 0%Z) -> md_build dbg kind_homo3 drop mono top bottom = Ok out ->
  same_boundary (map (fun e => map hp_reduced (snd e)) out) [map hp_reduced (polygon_of top bottom)].
Proof.
  intros dbg drop mono top bottom out W E. apply (md_boundary dbg kind_homo3 drop mono top bottom out hp_reduced (fun p => hw p <> 0%Z)); [|apply Forall_forall; exact W|exact E].
  intros a b Ga Gb Q. apply (hp_eq_spec a b _ _ (hp_point_denotes a Ga) (hp_point_denotes b Gb)) in Q. destruct Q as (Q1 & Q2 & Q3). unfold hp_reduced. rewrite (Qred_complete _ _ Q1), (Qred_complete _ _ Q2), (Qred_complete _ _ Q3). reflexivity.
Qed.
Print Assumptions C59_boundary_homo3.

(** ** Chains that do not cross *)
(** If all vertices are distinct, no vertex of the bottom chain is straight above
    one of the top chain, and no chain turns back on a vertical line, then Build
    returns (without undefined behaviour, with or without assertions) and each
    emitted polygon is a convex counter-clockwise polygon with orientation -1, or
    has all its vertices on one line and orientation 0. *)
Theorem C59_convex_point3_partial : forall dbg drop mono m top bottom mx, (drop < 3)%nat -> (mono < 3)%nat -> mono <> drop ->
  let pos := fun p => seen drop mono (qpt p) in
  let tops := map pos (m :: top ++ [mx]) in let bottoms := map pos (m :: bottom ++ [mx]) in
  chains_ok tops bottoms -> (1 <= length top + length bottom)%nat ->
  all_distinct (map pos (polygon_of (m :: top) (bottom ++ [mx]))) -> straight_runs tops -> straight_runs bottoms -> upright_chains tops bottoms ->
  twists_fit kind_point3 drop (polygon_of (m :: top) (bottom ++ [mx])) ->
  exists out, md_build dbg kind_point3 drop mono (m :: top) (bottom ++ [mx]) = Ok out /\
    Forall (fun e => oriented (fst e) (map pos (snd e)) /\ (fst e = 0 \/ fst e = -1)%Z) out.
Proof.
  intros dbg drop mono m top bottom mx H1 H2 H3 pos tops bottoms CO L AD VT VB W F.
  apply (build_convex _ _ _ _ _ (kind_ok_point3 drop mono H1 H2 H3) (kind_dec_point3 drop mono H1) dbg m mx top bottom); try assumption; apply Forall_forall; intros; exact I.
Qed.
Print Assumptions C59_convex_point3_partial.
Theorem C59_convex_homo3_partial : forall s dbg drop mono m top bottom mx, (drop < 3)%nat -> (mono < 3)%nat -> mono <> drop ->
  (forall p, In p (m :: top ++ bottom ++ [mx]) -> 0 < s * hw p)%Z ->
  let pos := fun p => seen drop mono (hp_point p) in
  let tops := map pos (m :: top ++ [mx]) in let bottoms := map pos (m :: bottom ++ [mx]) in
  chains_ok tops bottoms -> (1 <= length top + length bottom)%nat ->
  all_distinct (map pos (polygon_of (m :: top) (bottom ++ [mx]))) -> straight_runs tops -> straight_runs bottoms -> upright_chains tops bottoms ->
  twists_fit kind_homo3 drop (polygon_of (m :: top) (bottom ++ [mx])) ->
  exists out, md_build dbg kind_homo3 drop mono (m :: top) (bottom ++ [mx]) = Ok out /\
    Forall (fun e => oriented (fst e) (map pos (snd e)) /\ (fst e = 0 \/ fst e = -1)%Z) out.
Proof.
  intros s dbg drop mono m top bottom mx H1 H2 H3 WS pos tops bottoms CO L AD VT VB W F.
  apply (build_convex _ _ _ _ _ (kind_ok_homo3 drop mono s H1 H2 H3) (kind_dec_homo3 drop mono s H1) dbg m mx top bottom); try assumption;
    apply Forall_forall; intros x Hx; apply WS; cbn [In] in *; rewrite !in_app_iff in *; cbn [In] in *; tauto.
Qed.
Print Assumptions C59_convex_homo3_partial.

(** ** Chains that may cross *)
(** If no edge is vertical and the vertices are distinct, each emitted polygon is
    still convex, counter-clockwise or clockwise as its orientation says, or flat. *)
Theorem C59_crossing_point3_partial : forall dbg drop mono m top bottom mx, (drop < 3)%nat -> (mono < 3)%nat -> mono <> drop ->
  let pos := fun p => seen drop mono (qpt p) in
  strictly_rightwards (map pos (m :: top ++ [mx])) -> strictly_rightwards (map pos (m :: bottom ++ [mx])) -> (1 <= length top + length bottom)%nat ->
  all_distinct (map pos (polygon_of (m :: top) (bottom ++ [mx]))) -> twists_fit kind_point3 drop (polygon_of (m :: top) (bottom ++ [mx])) ->
  exists out, md_build dbg kind_point3 drop mono (m :: top) (bottom ++ [mx]) = Ok out /\ Forall (fun e => oriented (fst e) (map pos (snd e))) out.
Proof.
  intros dbg drop mono m top bottom mx H1 H2 H3 pos ST SB L AD F.
  apply (build_convex_crossing _ _ _ _ _ (kind_ok_point3 drop mono H1 H2 H3) (kind_dec_point3 drop mono H1) dbg m mx top bottom); try assumption; apply Forall_forall; intros; exact I.
Qed.
Print Assumptions C59_crossing_point3_partial.
Theorem C59_crossing_homo3_partial : forall s dbg drop mono m top bottom mx, (drop < 3)%nat -> (mono < 3)%nat -> mono <> drop ->
  (forall p, In p (m :: top ++ bottom ++ [mx]) -> 0 < s * hw p)%Z ->
  let pos := fun p => seen drop mono (hp_point p) in
  strictly_rightwards (map pos (m :: top ++ [mx])) -> strictly_rightwards (map pos (m :: bottom ++ [mx])) -> (1 <= length top + length bottom)%nat ->
  all_distinct (map pos (polygon_of (m :: top) (bottom ++ [mx]))) -> twists_fit kind_homo3 drop (polygon_of (m :: top) (bottom ++ [mx])) ->
  exists out, md_build dbg kind_homo3 drop mono (m :: top) (bottom ++ [mx]) = Ok out /\ Forall (fun e => oriented (fst e) (map pos (snd e))) out.
Proof.
  intros s dbg drop mono m top bottom mx H1 H2 H3 WS pos ST SB L AD F.
  apply (build_convex_crossing _ _ _ _ _ (kind_ok_homo3 drop mono s H1 H2 H3) (kind_dec_homo3 drop mono s H1) dbg m mx top bottom); try assumption;
    apply Forall_forall; intros x Hx; apply WS; cbn [In] in *; rewrite !in_app_iff in *; cbn [In] in *; tauto.
Qed.
Print Assumptions C59_crossing_homo3_partial.

(** ** The limits *)
(** Coordinates below 2^30 are small enough. *)
Theorem C59_small : forall drop l, (forall p i, In p l -> (Z.abs (comp p i) < 2 ^ 30)%Z) -> twists_fit kind_point3 drop l.
Proof. exact twists_small. Qed.
Print Assumptions C59_small.
(** A cross product of exactly -2^63 overflows when it is multiplied by the
    orientation: undefined behaviour for a convex quadrilateral. *)
Theorem C59_overflow_refuted : md_build false kind_point3 2 0 [V3 0 0 0; V3 1 1 0] [V3 (2 ^ 31) (- 2 ^ 31) 0; V3 (2 ^ 32) 0 0] = UB.
Proof. reflexivity. Qed.
Print Assumptions C59_overflow_refuted.
(** A vertex that occurs twice in a chain: the quadrilateral is emitted in one
    piece, as counter-clockwise, although it has a reflex vertex. *)
Definition dup_top : list vec3 := [V3 0 0 0; V3 1 1 0; V3 1 1 0].
Definition dup_bottom : list vec3 := [V3 2 0 0; V3 3 10 0].
Theorem C59_duplicate_refuted : chains_ok (map (fun p => seen 2 0 (qpt p)) (dup_top ++ [V3 3 10 0])) (map (fun p => seen 2 0 (qpt p)) (V3 0 0 0 :: dup_bottom)) /\
  exists l, md_build true kind_point3 2 0 dup_top dup_bottom = Ok [((-1)%Z, l)] /\ ~ in_convex_position 1 (map (fun p => seen 2 0 (qpt p)) l).
Proof.
  split; [apply chains_test; vm_compute; reflexivity|]. eexists. split; [reflexivity|]. intros C.
  pose proof (C 0 1 3 _ _ _ ltac:(lia) ltac:(lia) eq_refl eq_refl eq_refl)%nat as H. vm_compute in H. apply H. reflexivity.
Qed.
Print Assumptions C59_duplicate_refuted.
(** Two chains that touch at a vertex: the emitted polygon has a spike. *)
Definition spike_top : list vec3 := [V3 0 0 0; V3 1 0 0; V3 2 1 0].
Definition spike_bottom : list vec3 := [V3 1 0 0; V3 3 0 0].
Theorem C59_touching_refuted : chains_ok (map (fun p => seen 2 0 (qpt p)) (spike_top ++ [V3 3 0 0])) (map (fun p => seen 2 0 (qpt p)) (V3 0 0 0 :: spike_bottom)) /\
  exists l, md_build true kind_point3 2 0 spike_top spike_bottom = Ok [((-1)%Z, l)] /\ ~ in_convex_position 1 (map (fun p => seen 2 0 (qpt p)) l).
Proof.
  split; [apply chains_test; vm_compute; reflexivity|]. eexists. split; [reflexivity|]. intros C.
  pose proof (C 0 1 2 _ _ _ ltac:(lia) ltac:(lia) eq_refl eq_refl eq_refl)%nat as H. vm_compute in H. apply H. reflexivity.
Qed.
Print Assumptions C59_touching_refuted.

(** Both chains have reflex vertices and vertical edges; y is dropped, z is the
    monotone axis. *)
Definition ex_m : vec3 := V3 0 3 0.
Definition ex_mx : vec3 := V3 1 3 9.
Definition ex_top : list vec3 := [V3 2 3 0; V3 4 3 0; V3 1 3 2; V3 2 3 5; V3 3 3 5; V3 4 3 9].
Definition ex_bottom : list vec3 := [V3 (-1) 3 0; V3 (-3) 3 1; V3 0 3 2; V3 0 3 4; V3 (-4) 3 5; V3 (-1) 3 9].
Definition ex_pos (p : vec3) : qpoint2 := seen 1 2 (qpt p).
Example C59_case : chains_ok (map ex_pos (ex_m :: ex_top ++ [ex_mx])) (map ex_pos (ex_m :: ex_bottom ++ [ex_mx])) /\
  all_distinct (map ex_pos (polygon_of (ex_m :: ex_top) (ex_bottom ++ [ex_mx]))) /\ straight_runs (map ex_pos (ex_m :: ex_top ++ [ex_mx])) /\ straight_runs (map ex_pos (ex_m :: ex_bottom ++ [ex_mx])) /\
  upright_chains (map ex_pos (ex_m :: ex_top ++ [ex_mx])) (map ex_pos (ex_m :: ex_bottom ++ [ex_mx])) /\ twists_fit kind_point3 1 (polygon_of (ex_m :: ex_top) (ex_bottom ++ [ex_mx])) /\
  exists out, md_build true kind_point3 1 2 (ex_m :: ex_top) (ex_bottom ++ [ex_mx]) = Ok out /\ map (fun e => length (snd e)) out = [7; 4; 3; 6]%nat.
Proof.
  split; [apply chains_test; vm_compute; reflexivity|]. split; [apply distinct_test; vm_compute; reflexivity|]. split; [apply runs_test; vm_compute; reflexivity|]. split; [apply runs_test; vm_compute; reflexivity|].
  split; [apply upright_test; vm_compute; reflexivity|]. split.
  - apply C59_small. intros p i H. assert (G : forallb (fun p => (Z.abs (vx p) <? 2 ^ 30) && (Z.abs (vy p) <? 2 ^ 30) && (Z.abs (vz p) <? 2 ^ 30))%Z (polygon_of (ex_m :: ex_top) (ex_bottom ++ [ex_mx])) = true) by (vm_compute; reflexivity).
    rewrite forallb_forall in G. specialize (G p H). destruct i as [|[|i]]; cbn [comp]; lia.
  - eexists. split; [vm_compute; reflexivity|reflexivity].
Qed.
(** Chains that cross twice. *)
Definition cr_top : list vec3 := [V3 0 0 0; V3 2 2 0; V3 4 (-2) 0; V3 6 3 0].
Definition cr_bottom : list vec3 := [V3 1 (-1) 0; V3 3 0 0; V3 5 (-1) 0; V3 7 0 0].
Example C59_crossing_case : strictly_rightwards (map (fun p => seen 2 0 (qpt p)) (cr_top ++ [V3 7 0 0])) /\ strictly_rightwards (map (fun p => seen 2 0 (qpt p)) (V3 0 0 0 :: cr_bottom)) /\
  all_distinct (map (fun p => seen 2 0 (qpt p)) (polygon_of cr_top cr_bottom)) /\
  exists out, md_build true kind_point3 2 0 cr_top cr_bottom = Ok out /\ map fst out = [-1; 0; 1; -1; -1]%Z.
Proof.
  split; [apply strict_test; vm_compute; reflexivity|]. split; [apply strict_test; vm_compute; reflexivity|]. split; [apply distinct_test; vm_compute; reflexivity|].
  eexists. split; [vm_compute; reflexivity|reflexivity].
Qed.
