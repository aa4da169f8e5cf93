(** Property C36: MonotoneTriangulator. *)
From Coq Require Import List Bool Arith ZArith QArith Lqa Lia.
From Verif Require Import BigUIntModel GeoModel GeoSpec TriModel TriSpec TriProofs TriGeoProofs TriTileProofs.
Import ListNotations.
Open Scope Q_scope.

(** ** Whatever the chains are *)
(** Build emits two triangles less than there are vertices (the minimum is only
    in the top chain, the maximum only in the bottom chain), *)
Theorem C36_count : forall P dbg (k : kind P) drop mono top bottom o, tri_build dbg k drop mono top bottom = Ok o ->
  length o = (length (polygon_of top bottom) - 2)%nat.
Proof.
  intros P dbg k drop mono top bottom o E. destruct (build_spec (fun _ _ => 0) dbg k drop mono _ _ o ltac:(intros a b; reflexivity) E) as (_ & _ & _ & _ & _ & _ & _ & L).
  unfold polygon_of. rewrite app_length, rev_length, L. f_equal. apply Nat.add_comm.
Qed.
Print Assumptions C36_count.
(** all of them with corners from the chains, *)
Theorem C36_corners : forall P dbg (k : kind P) drop mono top bottom o, tri_build dbg k drop mono top bottom = Ok o ->
  forall t x, In t o -> In x (corners t) -> In x (polygon_of top bottom).
Proof.
  intros P dbg k drop mono top bottom o E t x Ht Hx. pose proof (build_in dbg k drop mono top bottom o E t x Ht Hx) as H.
  unfold polygon_of. apply in_app_iff in H. apply in_app_iff. rewrite <- in_rev. tauto.
Qed.
Print Assumptions C36_corners.
(** and the boundary of the triangles is the polygon: every other edge is used
    as often in one direction as in the other. *)
Theorem C36_boundary : forall P dbg (k : kind P) drop mono top bottom o, tri_build dbg k drop mono top bottom = Ok o ->
  same_boundary (map corners o) [polygon_of top bottom].
Proof. intros P dbg k drop mono top bottom o. apply build_boundary. Qed.
Print Assumptions C36_boundary.
(** So the signed areas add up, wherever the vertices are in the plane. *)
Theorem C36_area : forall P dbg (k : kind P) drop mono top bottom o (pos : P -> qpoint2), tri_build dbg k drop mono top bottom = Ok o ->
  fold_right (fun t s => double_area (map pos (corners t)) + s) 0 o == double_area (map pos (polygon_of top bottom)).
Proof. intros P dbg k drop mono top bottom o pos. apply build_area. Qed.
Print Assumptions C36_area.

(** ** Chains that do not cross *)
(** For an accepted polygon Build returns, with or without assertions, all
    triangles are counter-clockwise or flat (as seen without the drop axis),
    every point of the polygon that is on no edge is strictly inside exactly one
    of the triangles, and every other point strictly inside none. *)
Definition triangulates (top bottom : list qpoint2) (o : list (triangle qpoint2)) : Prop :=
  Forall (fun t => 0 <= turn (t1 t) (t2 t) (t3 t)) o /\
  forall q, (forall t, In t o -> ~ on_border t q) ->
    (above bottom q /\ ~ above top q -> exactly_one (fun t => inside_triangle t q) o) /\
    (~ (above bottom q /\ ~ above top q) -> forall t, In t o -> ~ inside_triangle t q).
Theorem C36_tiling_point3 : forall dbg drop mono m top bottom mx, (drop < 3)%nat -> (mono < 3)%nat -> mono <> drop ->
  let pos := fun p => seen drop mono (qpt p) in
  chains_ok (map pos (m :: top ++ [mx])) (map pos (m :: bottom ++ [mx])) -> (1 <= length top + length bottom)%nat ->
  exists o, tri_build dbg kind_point3 drop mono (m :: top) (bottom ++ [mx]) = Ok o /\ length o = (length top + length bottom)%nat /\
    triangulates (map pos (m :: top ++ [mx])) (map pos (m :: bottom ++ [mx])) (map (map_triangle pos) o).
Proof.
  intros dbg drop mono m top bottom mx H1 H2 H3 pos CO L.
  destruct (build_tiles _ _ _ _ _ (kind_ok_point3 drop mono H1 H2 H3) dbg m top bottom mx CO) as (o & E & N & C & T); [apply Forall_forall; intros; exact I|apply Forall_forall; intros; exact I|exact L|].
  exists o. split; [exact E|]. split; [exact N|]. split; [exact C|exact T].
Qed.
Print Assumptions C36_tiling_point3.
(** Homogeneous points: the weights must have the same sign (s is 1 or -1). *)
Theorem C36_tiling_homo3 : forall s dbg drop mono m top bottom mx, (drop < 3)%nat -> (mono < 3)%nat -> mono <> drop ->
  (forall p, In p (m :: top ++ bottom ++ [mx]) -> 0 < s * hw p)%Z ->
  let pos := fun p => seen drop mono (hp_point p) in
  chains_ok (map pos (m :: top ++ [mx])) (map pos (m :: bottom ++ [mx])) -> (1 <= length top + length bottom)%nat ->
  exists o, tri_build dbg kind_homo3 drop mono (m :: top) (bottom ++ [mx]) = Ok o /\ length o = (length top + length bottom)%nat /\
    triangulates (map pos (m :: top ++ [mx])) (map pos (m :: bottom ++ [mx])) (map (map_triangle pos) o).
Proof.
  intros s dbg drop mono m top bottom mx H1 H2 H3 W pos CO L.
  destruct (build_tiles _ _ _ _ _ (kind_ok_homo3 drop mono s H1 H2 H3) dbg m top bottom mx CO) as (o & E & N & C & T); [| |exact L|].
  - apply Forall_forall. intros x Hx. apply W. cbn [In] in *. rewrite !in_app_iff in *. cbn [In] in *. tauto.
  - apply Forall_forall. intros x Hx. apply W. cbn [In] in *. rewrite !in_app_iff in *. cbn [In] in *. tauto.
  - exists o. split; [exact E|]. split; [exact N|]. split; [exact C|exact T].
Qed.
Print Assumptions C36_tiling_homo3.
(** Nothing else is strictly between the chains: the region is not empty and
    depends on the chains only (an example below). *)

(** Both chains have reflex vertices; y is the monotone axis, z is dropped, and
    the points are in the plane z = 7. *)
Definition ex_m : vec3 := V3 0 0 7.
Definition ex_mx : vec3 := V3 0 8 7.
Definition ex_top : list vec3 := [V3 (-3) 2 7; V3 (-1) 4 7; V3 (-4) 6 7].
Definition ex_bottom : list vec3 := [V3 1 1 7; V3 2 5 7; V3 0 6 7; V3 1 7 7].
Example C36_case : chains_ok (map (fun p => seen 2 1 (qpt p)) (ex_m :: ex_top ++ [ex_mx])) (map (fun p => seen 2 1 (qpt p)) (ex_m :: ex_bottom ++ [ex_mx])) /\
  exists o, tri_build true kind_point3 2 1 (ex_m :: ex_top) (ex_bottom ++ [ex_mx]) = Ok o /\ length o = 7%nat /\
  above (map (fun p => seen 2 1 (qpt p)) (ex_m :: ex_bottom ++ [ex_mx])) (QP2 (5 # 2) (1 # 3)) /\ ~ above (map (fun p => seen 2 1 (qpt p)) (ex_m :: ex_top ++ [ex_mx])) (QP2 (5 # 2) (1 # 3)) /\
  (forall t, In t (map (map_triangle (fun p => seen 2 1 (qpt p))) o) -> ~ on_border t (QP2 (5 # 2) (1 # 3))).
Proof.
  split; [apply chains_test; vm_compute; reflexivity|]. eexists. split; [vm_compute; reflexivity|]. split; [reflexivity|]. split; [|split].
  - eexists _, _. split; [right; left; reflexivity|]. vm_compute. repeat split; discriminate.
  - intros (a & b & H & H1 & H2 & H3). cbn in H. repeat (destruct H as [H|H]; [injection H as <- <-; vm_compute in H1, H2, H3; first [discriminate|congruence]|]). contradiction.
  - intros t H. cbn in H. repeat (destruct H as [<-|H]; [intros [(C & _)|[(C & _)|(C & _)]]; vm_compute in C; discriminate|]). contradiction.
Qed.
