(** Property C19: axis-aligned boxes. *)
From Coq Require Import ZArith QArith List Bool Lia Lqa.
From Verif Require Import BigUIntModel GeoModel GeoSpec GeoProofs AabbModel AabbSpec AabbProofs AabbTrackerProofs AabbSplitProofs AabbWallProofs.
Import ListNotations.
Open Scope Z_scope.

(** Constructors: the denominator is made positive, the bounds keep their
    values. *)
Theorem C19_construct : forall lo hi den, den <> 0 -> box_wf (bx_make lo hi den) /\
  forall i, (box_lo (bx_make lo hi den) i == inject_Z (comp lo i) / inject_Z den /\
             box_hi (bx_make lo hi den) i == inject_Z (comp hi i) / inject_Z den)%Q.
Proof. intros lo hi den H. split; [apply bx_make_wf, H|]. intros i. split; [apply bx_make_lo, H|apply bx_make_hi, H]. Qed.
Print Assumptions C19_construct.
Theorem C19_default_empty : forall q, ~ in_box bx_empty q.
Proof. exact bx_empty_spec. Qed.
Print Assumptions C19_default_empty.
Example C19_construct_case : bx_make (V3 3 2 1) (V3 (-1) (-2) (-3)) (-2) = Box (V3 (-3) (-2) (-1)) (V3 1 2 3) 2.
Proof. reflexivity. Qed.

Theorem C19_inside : forall b p q, box_wf b -> denotes p q -> (bx_inside b p = true <-> in_box b q).
Proof. exact bx_inside_spec. Qed.
Print Assumptions C19_inside.
Theorem C19_inside_point : forall b p, box_wf b -> (bx_inside_pt b p = true <-> in_box b (qpt p)).
Proof. exact bx_inside_pt_spec. Qed.
Print Assumptions C19_inside_point.
Theorem C19_border : forall b p q, box_wf b -> denotes p q -> (bx_border b p = true <-> on_border b q).
Proof. exact bx_border_spec. Qed.
Print Assumptions C19_border.
Theorem C19_border_point : forall b p, box_wf b -> (bx_border_pt b p = true <-> on_border b (qpt p)).
Proof. exact bx_border_pt_spec. Qed.
Print Assumptions C19_border_point.
Theorem C19_equal : forall a b, box_wf a -> box_wf b ->
  (bx_eq a b = true <-> forall i, (i < 3)%nat -> (box_lo a i == box_lo b i)%Q /\ (box_hi a i == box_hi b i)%Q).
Proof. exact bx_eq_spec. Qed.
Print Assumptions C19_equal.
(** For boxes that contain a point, == is equality of point sets. *)
Theorem C19_equal_sets : forall a b qa qb, box_wf a -> box_wf b -> in_box a qa -> in_box b qb ->
  (bx_eq a b = true <-> forall q, in_box a q <-> in_box b q).
Proof. exact bx_eq_sets. Qed.
Print Assumptions C19_equal_sets.
Theorem C19_plane_side : forall b h q0, box_wf b -> in_box b q0 ->
  (bx_plane_side b h = 1 <-> forall q, in_box b q -> (0 < side h q)%Q) /\
  (bx_plane_side b h = -1 <-> forall q, in_box b q -> (side h q < 0)%Q) /\
  (bx_plane_side b h = 0 <-> exists q, in_box b q /\ (side h q == 0)%Q).
Proof. exact bx_plane_side_spec. Qed.
Print Assumptions C19_plane_side.
Example C19_predicates_case :
  let b := Box (V3 (-3) (-2) (-1)) (V3 1 2 3) 2 in
  box_wf b /\ in_box b (QP (1 # 2) 0 (-1 # 2)) /\ denotes (HP (V3 (-1) 0 1) (-2)) (QP (1 # 2) 0 (-1 # 2)) /\
  bx_inside b (HP (V3 (-1) 0 1) (-2)) = true /\ bx_border b (HP (V3 (-1) 0 1) (-2)) = true /\
  bx_inside b (HP (V3 (-4) 0 1) (-2)) = false /\
  bx_plane_side b (HS (V3 1 1 1) 4) = -1 /\ bx_plane_side b (HS (V3 1 1 1) 3) = 0 /\ bx_plane_side b (HS (V3 1 1 1) (-4)) = 1 /\
  bx_eq b (bx_make (V3 6 4 2) (V3 (-2) (-4) (-6)) (-4)) = true.
Proof.
  cbn zeta. split; [reflexivity|]. split.
  { refine (forall3 _ _ _ _); unfold box_lo, box_hi; cbn; split; discriminate. }
  split; [|repeat split; reflexivity]. split; [discriminate|]. repeat split; reflexivity.
Qed.

(** GetWalls. *)
Theorem C19_walls_are_faces : forall b h d vs, box_wf b -> weak_order b -> In (h, d, vs) (bx_walls b) ->
  exists v0 v1 v2 v3, vs = [v0; v1; v2; v3] /\ is_face b h v0 v1 v2 v3.
Proof. exact walls_are_faces. Qed.
Print Assumptions C19_walls_are_faces.
Theorem C19_walls_bound_box : forall b q, box_wf b -> (forall i, (i < 3)%nat -> strict_order b i) ->
  length (bx_walls b) = 6%nat /\
  ((forall h d vs, In (h, d, vs) (bx_walls b) -> (side h q <= 0)%Q) <-> in_box b q).
Proof. intros b q W S. split; [apply six_walls, S|apply walls_bound; assumption]. Qed.
Print Assumptions C19_walls_bound_box.
Theorem C19_walls_omitted : forall b s, (s < 6)%nat ->
  (bx_wall b s = None <-> exists i, (i < 3)%nat /\ i <> fst (nth s facet_infos (0%nat, [])) /\ comp (bmin b) i = comp (bmax b) i).
Proof. exact wall_omitted. Qed.
Print Assumptions C19_walls_omitted.
Example C19_walls_case :
  let b := Box (V3 (-3) (-2) (-1)) (V3 1 2 3) 2 in box_wf b /\ (forall i, (i < 3)%nat -> strict_order b i) /\ weak_order b /\ length (bx_walls b) = 6%nat /\
  length (bx_walls (Box (V3 0 0 0) (V3 1 2 0) 1)) = 2%nat.
Proof. cbn zeta. split; [reflexivity|]. split; [refine (forall3 _ _ _ _); reflexivity|]. split; [refine (forall3 _ _ _ _); discriminate|]. split; reflexivity. Qed.

(** The diagonal: GetSquaredDiagonalLengthNumerator is den^2 times the squared
    length, but GetDiagonalLength divides it by den only. *)
Theorem C19_diagonal_numerator : forall b, box_wf b -> (inject_Z (bx_diag2 b) == squared_diagonal b * inject_Z (bden b) * inject_Z (bden b))%Q.
Proof.
  intros [[a0 a1 a2] [c0 c1 c2] den] W. unfold box_wf in W. cbn [bden] in W. unfold bx_diag2, squared_diagonal, box_lo, box_hi, v3_dot, v3_sub. cbn [bmin bmax bden comp vx vy vz].
  rewrite !inject_Z_plus, !inject_Z_mult, !inject_Z_sub. field. apply inject_Z_neq0. lia.
Qed.
Print Assumptions C19_diagonal_numerator.
Theorem C19_diagonal_length_refuted : forall b, box_wf b -> bden b <> 1 -> bx_diag2 b <> 0 ->
  let '(n, d) := bx_diag_radicand b in ~ (inject_Z n / inject_Z d == squared_diagonal b)%Q.
Proof.
  intros b W D N. unfold bx_diag_radicand. intros E. pose proof (C19_diagonal_numerator b W) as S. rewrite <- E in S.
  assert (DQ : ~ (inject_Z (bden b) == 0)%Q) by (apply inject_Z_neq0; unfold box_wf in W; lia).
  setoid_replace (inject_Z (bx_diag2 b) / inject_Z (bden b) * inject_Z (bden b) * inject_Z (bden b))%Q with (inject_Z (bx_diag2 b * bden b))%Q in S by (rewrite inject_Z_mult; field; exact DQ).
  apply (proj1 (inject_Z_injective _ _)) in S. unfold box_wf in W. nia.
Qed.
Print Assumptions C19_diagonal_length_refuted.
Theorem C19_diagonal_length_integer_box : forall b, bden b = 1 ->
  let '(n, d) := bx_diag_radicand b in (inject_Z n / inject_Z d == squared_diagonal b)%Q.
Proof.
  intros b D. unfold bx_diag_radicand. assert (W : box_wf b) by (unfold box_wf; rewrite D; reflexivity). rewrite (C19_diagonal_numerator b W), D. field.
Qed.
Print Assumptions C19_diagonal_length_integer_box.
Example C19_diagonal_case : let b := Box (V3 0 0 0) (V3 3 4 0) 2 in box_wf b /\ bden b <> 1 /\ bx_diag2 b = 25 /\ bx_diag_radicand b = (25, 2).
Proof. cbn zeta. split; [reflexivity|]. split; [discriminate|]. split; reflexivity. Qed.

(** ConvexVertexAABBTracker: extreme indices and the box of the vertices. *)
Theorem C19_tracker_built : forall vs t, finite vs -> vs <> [] -> track vs = Ok t -> tracks t vs.
Proof. exact track_spec. Qed.
Print Assumptions C19_tracker_built.
Theorem C19_tracker_returns : forall vs, finite vs -> Forall (safe_vertex vs) vs -> exists t, track vs = Ok t.
Proof. exact track_total. Qed.
Print Assumptions C19_tracker_returns.
(** The box contains every vertex, and IsInside says so. *)
Theorem C19_tracker_contains : forall vs t v, finite vs -> track vs = Ok t -> In v vs -> in_box (tbox t) (value v) /\ bx_inside (tbox t) v = true.
Proof.
  intros vs t v F E I. assert (N : vs <> []) by (destruct vs; [destruct I|discriminate]). pose proof (track_spec vs t F N E) as T.
  pose proof (tracks_box t vs v T I) as B. split; [exact B|]. unfold finite in F. rewrite Forall_forall in F.
  apply (bx_inside_spec (tbox t) v (value v)); [apply T|apply denotes_value, F, I|exact B].
Qed.
Print Assumptions C19_tracker_contains.
Theorem C19_tracker_indices : forall t vs, tracks t vs -> tr_valid t (length vs) = true.
Proof. exact tracks_valid. Qed.
Print Assumptions C19_tracker_indices.
Theorem C19_tracker_rotate : forall t vs off, tracks t vs -> (off <= length vs)%nat ->
  exists t', tr_rotate t off (length vs) = Ok t' /\ tracks t' (skipn off vs ++ firstn off vs).
Proof. exact tr_rotate_spec. Qed.
Print Assumptions C19_tracker_rotate.
(** Splitting: each child's tracker is right for the child's vertices. *)
Theorem C19_tracker_split : forall dbg t vs N P s1 s2 start pr1 o1 o2 tn tp,
  split_cycle vs N P s1 s2 start o1 o2 -> finite vs -> hw s1 <> 0 -> hw s2 <> 0 -> tracks t vs ->
  ((pr1 + (length vs - start)) mod length vs)%nat = (length N + length o2)%nat ->
  split_children dbg t (length vs) (N ++ [s2; s1]) (s2 :: P ++ [s1]) start (start + length N) pr1 (pr1 + length P) = Ok (tn, tp) ->
  tracks tn (N ++ [s2; s1]) /\ tracks tp (s2 :: P ++ [s1]).
Proof. exact split_children_spec. Qed.
Print Assumptions C19_tracker_split.
Theorem C19_tracker_split_returns : forall dbg t vs N P s1 s2 start pr1 o1 o2,
  split_cycle vs N P s1 s2 start o1 o2 -> finite vs -> hw s1 <> 0 -> hw s2 <> 0 -> tracks t vs ->
  ((pr1 + (length vs - start)) mod length vs)%nat = (length N + length o2)%nat ->
  Forall (safe_vertex (N ++ [s2; s1])) (N ++ [s2; s1]) -> Forall (safe_vertex (s2 :: P ++ [s1])) (s2 :: P ++ [s1]) ->
  exists r, split_children dbg t (length vs) (N ++ [s2; s1]) (s2 :: P ++ [s1]) start (start + length N) pr1 (pr1 + length P) = Ok r.
Proof. exact split_children_total. Qed.
Print Assumptions C19_tracker_split_returns.

(** A square with corners (0,0), (2,0), (2,2), (0,2), cut along x = 1 through
    the edge points (1,0) and (1,2). *)
Definition sq (x y : Z) : hpoint3 := HP (V3 x y 0) 1.
Definition square : list hpoint3 := [sq 0 0; sq 2 0; sq 2 2; sq 0 2].
Example C19_split_case :
  split_cycle square [sq 0 2; sq 0 0] [sq 2 0; sq 2 2] (sq 1 2) (sq 1 0) 3 [] [] /\ finite square /\ Forall (safe_vertex square) square /\
  ((1 + (length square - 3)) mod length square)%nat = 2%nat /\
  exists t tn tp, track square = Ok t /\
    split_children true t 4 ([sq 0 2; sq 0 0] ++ [sq 1 0; sq 1 2]) (sq 1 0 :: [sq 2 0; sq 2 2] ++ [sq 1 2]) 3 5 1 3 = Ok (tn, tp) /\
    tbox tn = Box (V3 0 0 0) (V3 1 2 0) 1 /\ tbox tp = Box (V3 1 0 0) (V3 2 2 0) 1.
Proof.
  assert (SEG : forall x1 y1 x2 y2 x y t, (0 <= t <= 1)%Q -> (x == inject_Z x1 + t * (inject_Z x2 - inject_Z x1))%Q -> (y == inject_Z y1 + t * (inject_Z y2 - inject_Z y1))%Q ->
            on_segment (value (sq x1 y1)) (value (sq x2 y2)) (QP x y 0)).
  { intros x1 y1 x2 y2 x y t T X Y. exists t. split; [exact T|]. unfold value, sq, qp_eq, qadd, qscale, qsub. cbn [hv hw vx vy vz qx qy qz].
    rewrite X, Y. split; [field|split; field]. }
  assert (SEGV : forall x1 y1 x2 y2 x3 y3 t, (0 <= t <= 1)%Q -> (inject_Z x3 == inject_Z x1 + t * (inject_Z x2 - inject_Z x1))%Q -> (inject_Z y3 == inject_Z y1 + t * (inject_Z y2 - inject_Z y1))%Q ->
            on_segment (value (sq x1 y1)) (value (sq x2 y2)) (value (sq x3 y3))).
  { intros x1 y1 x2 y2 x y t T X Y. exists t. split; [exact T|]. unfold value, sq, qp_eq, qadd, qscale, qsub. cbn [hv hw vx vy vz qx qy qz].
    rewrite X, Y. split; [field|split; field]. }
  split.
  { split; try (cbn [length square]; lia); try reflexivity; try discriminate; try (left; reflexivity).
    - exists (sq 2 2), (sq 0 2). split; [cbn; tauto|]. split; [cbn; tauto|]. apply SEGV with (t := (1 # 2)%Q); [split; discriminate|reflexivity|reflexivity].
    - exists (sq 0 0), (sq 2 0). split; [cbn; tauto|]. split; [cbn; tauto|]. apply SEGV with (t := (1 # 2)%Q); [split; discriminate|reflexivity|reflexivity].
    - intros a b A B. cbn [In] in A, B.
      destruct A as [<-|[<-|[]]]; destruct B as [<-|[<-|[]]].
      + exists (QP 1 1 0). split; [apply SEG with (t := (1 # 2)%Q)|apply SEG with (t := (1 # 2)%Q)]; try reflexivity; split; discriminate.
      + exists (QP 1 2 0). split; [apply SEG with (t := (1 # 2)%Q)|apply SEG with (t := 0%Q)]; try reflexivity; split; discriminate.
      + exists (QP 1 0 0). split; [apply SEG with (t := (1 # 2)%Q)|apply SEG with (t := 1%Q)]; try reflexivity; split; discriminate.
      + exists (QP 1 1 0). split; [apply SEG with (t := (1 # 2)%Q)|apply SEG with (t := (1 # 2)%Q)]; try reflexivity; split; discriminate. }
  split; [repeat constructor; discriminate|]. split.
  { repeat constructor; cbn [hw sq]; try discriminate; intros; discriminate. }
  split; [reflexivity|]. do 3 eexists. split; [vm_compute; reflexivity|]. split; [vm_compute; reflexivity|]. split; reflexivity.
Qed.
