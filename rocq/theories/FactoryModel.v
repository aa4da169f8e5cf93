(** Executable model of ConvexPolygonFactory
    (include/walnut/convex_polygon_factory.h) for Point3 vertices.

    It is built from the models of PlanarRange (PlanarModel), MonotoneRange
    (MonoRangeModel) and OrientingMonotoneDecomposer (OrientModel).  Emit, a pure
    virtual function, is modelled by the list of the polygons it is called with.
    The data of an edge is [d0] (for Point3WithVertexData it would be that of the
    vertex).  Both loops can run forever (property C58), so they take fuel. *)
From Coq Require Import List Bool Arith ZArith.
From Verif Require Import BigUIntModel GeoModel ConcatModel PlanarModel TriModel MonoRangeModel DecModel OrientModel PolyModel.
Import ListNotations.
Open Scope Z_scope.

(** monotone_dimension, 44. *)
Definition cf_mono (drop : nat) : nat := Z.to_nat (Z.land (Z.lnot (Z.of_nat drop)) 1).
(** GetPlaneOrientationAfterProjection, 77-80. *)
Definition cf_plane_orientation (cross_product : vec3) (drop : nat) : Z := - zabs_mult (comp cross_product drop).
(** The loops over the vertices after the first one in EmitOriented, 105-120 and
    125-133, over range1 followed by range2: the edges and the last value of
    prev. *)
Fixpoint cf_edges {A} (d0 : A) (prev : vec3) (rest : list vec3) : list (pedge A) * vec3 :=
  match rest with
  | [] => ([], prev)
  | p :: rest' =>
    let line := pl_of_points prev p in
    if pl_valid line then let '(es, l) := cf_edges d0 p rest' in (PE (HP prev 1) line d0 :: es, l)
    else cf_edges d0 prev rest'
  end.
(** All the edges, 96-138; the last edge goes back to the first vertex. *)
Definition cf_cycle {A} (d0 : A) (first : vec3) (rest : list vec3) : list (pedge A) :=
  let '(es, prev) := cf_edges d0 first rest in
  let line := pl_of_points prev first in
  if pl_valid line then es ++ [PE (HP prev 1) line d0] else es.
(** EmitOriented, 88-148; [e] is the orientation and the vertices of range1
    followed by those of range2.  Without vertices a past-the-end iterator is
    dereferenced.  The constructor of the polygon asserts IsValidState
    (convex_polygon.h 63-68). *)
Definition cf_emit {A} (dbg : bool) (d0 : A) (plane : hspace3) (drop : nat) (plane_orientation : Z) (e : Z * list vec3) : res (list (poly A)) :=
  if fst e =? 0 then Ok []
  else
    match snd e with
    | [] => UB
    | first :: rest =>
      let flip := Z.lor (Z.lxor (fst e) plane_orientation) 1 in
      let p := Poly (HS (v3_scale (hn plane) flip) (hd plane * flip)) drop (cf_cycle d0 first rest) in
      if dbg then ok <- poly_valid_state p ;; _ <- check dbg ok ;; Ok [p] else Ok [p]
    end.
Fixpoint cf_emits {A} (dbg : bool) (d0 : A) (plane : hspace3) (drop : nat) (plane_orientation : Z) (es : list (Z * list vec3)) : res (list (poly A)) :=
  match es with
  | [] => Ok []
  | e :: r => a <- cf_emit dbg d0 plane drop plane_orientation e ;; b <- cf_emits dbg d0 plane drop plane_orientation r ;; Ok (a ++ b)
  end.
(** The loop of Build(plane, planar_begin, planar_end), 48-62. *)
Fixpoint cf_loop {A} (dbg : bool) (fuel : nat) (d0 : A) (plane : hspace3) (drop mono : nat) (plane_orientation : Z) (v : list vec3) (b e : nat) : res (list (poly A)) :=
  if (b =? e)%nat then Ok []
  else
    match fuel with
    | O => NoFuel
    | S f =>
      r <- mr_build dbg kind_point3 mono v b e ;;
      es <- od_build dbg kind_point3 drop mono (fst (get_chains r)) (snd (get_chains r)) ;;
      ps <- cf_emits dbg d0 plane drop plane_orientation es ;;
      t <- cf_loop dbg f d0 plane drop mono plane_orientation v (mr_begin r) (mr_end r) ;;
      Ok (ps ++ t)
    end.
(** Build(plane, planar_begin, planar_end), 35-63; [v] are the vertices between
    the iterators. *)
Definition cf_planar {A} (dbg : bool) (fuel : nat) (d0 : A) (plane : hspace3) (v : list vec3) : res (list (poly A)) :=
  match first_nonzero (hn plane) with
  | None => Ok []
  | Some drop => cf_loop dbg fuel d0 plane drop (cf_mono drop) (cf_plane_orientation (hn plane) drop) v 0 (length v)
  end.
(** The vertices from begin() to end() of a range over [v]. *)
Fixpoint derefs (v : list vec3) (l : list cit) : res (list vec3) :=
  match l with [] => Ok [] | a :: r => p <- ci_deref (fun _ => v) a ;; t <- derefs v r ;; Ok (p :: t) end.
Definition range_vertices (v : list vec3) (r : concat_range) : res (list vec3) :=
  b <- cr_begin r ;; e <- cr_end r ;; its <- walk (length v) (fun _ => length v) r b e ;; derefs v its.
(** Build(begin, end), 22-31. *)
Fixpoint cf_build {A} (dbg : bool) (fuel : nat) (d0 : A) (v : list vec3) (b e : nat) : res (list (poly A)) :=
  if (b =? e)%nat then Ok []
  else
    match fuel with
    | O => NoFuel
    | S f =>
      r <- pr_build dbg v b e ;;
      l <- range_vertices v (pr_range r) ;;
      ps <- cf_planar dbg fuel d0 (pr_plane r) l ;;
      t <- cf_build dbg f d0 v (pr_begin r) (pr_end r) ;;
      Ok (ps ++ t)
    end.
