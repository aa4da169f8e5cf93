(** Model of AABBConvexPolygon, aabb_convex_polygon.h: a convex polygon together with
    the tracker of its bounding box. *)
From Coq Require Import ZArith List Bool.
From Verif Require Import BigUIntModel GeoModel AabbModel PolyModel PolyOpsModel.
Import ListNotations.

(** Class AABBConvexPolygon, 17-261. *)
Record apoly (A : Type) := AP { ap_poly : poly A; ap_box : tracker }.
Arguments AP {A}. Arguments ap_poly {A}. Arguments ap_box {A}.
(** The points of the iterators vertices_begin() and vertices_end(). *)
Definition ap_vertices {A} (a : apoly A) : list hpoint3 := map pv (pedges (ap_poly a)).
(** The default constructor, 33: no vertices, and the tracker's default constructor,
    convex_vertex_aabb_tracker.h 61-63. *)
Definition ap_default {A} (h : hspace3) (d : nat) : apoly A := AP (Poly h d []) (Tr (I3 0 0 0) (I3 0 0 0) bx_empty).
(** The constructors from another kind of polygon, from edges and from vertices, 55-76,
    after the parent's constructor has made [p]. *)
Definition ap_new {A} (p : poly A) : res (apoly A) := t <- track (map pv (pedges p)) ;; Ok (AP p t).
(** IsValidState, 79-84. *)
Definition ap_valid {A} (a : apoly A) : res bool :=
  v <- poly_valid_state (ap_poly a) ;;
  if negb v then Ok false
  else if (pcount (ap_poly a) =? 0)%nat then Ok true
  else Ok (tr_valid (ap_box a) (pcount (ap_poly a))).
(** RotateEdges, 157-160. *)
Definition ap_rotate {A} (a : apoly A) (k : nat) : res (apoly A) :=
  let p := rotate_edges (ap_poly a) k in
  t <- tr_rotate (ap_box a) k (pcount p) ;; Ok (AP p t).
(** SortVertices, 152-154. *)
Definition ap_sort {A} (a : apoly A) : res (apoly A) := ap_rotate a (minimum_index (ap_poly a)).
(** operator==, 214-218. *)
Definition ap_eq {A} (E : einfo A) (a b : apoly A) : res bool :=
  if negb (bx_eq (tbox (ap_box a)) (tbox (ap_box b))) then Ok false else poly_eq E (ap_poly a) (ap_poly b).
(** TryMergePolygon, 224-234; None is the result false. *)
Definition ap_try_merge {A} (dbg : bool) (E : einfo A) (a : apoly A) (nz k : nat) (b : apoly A) (m : nat) : res (option (apoly A)) :=
  r <- try_merge dbg E (ap_poly a) nz k (ap_poly b) m ;;
  match r with
  | None => Ok None
  | Some p => t <- track (map pv (pedges p)) ;; Ok (Some (AP p t))
  end.
(** SplitEdge and TryMergeEdge are not overridden: they are those of ConvexPolygon,
    convex_polygon.h 575-603 and 721-731, which ConnectedPolygon<AABBConvexPolygon<>>
    makes public (connected_polygon.h 408) or calls (connected_polygon.h 459-464). *)
Definition ap_split_edge {A} (dbg : bool) (E : einfo A) (a : apoly A) (k : nat) (m : hpoint3) : res (apoly A) :=
  p <- split_edge dbg E (ap_poly a) k m ;; Ok (AP p (ap_box a)).
Definition ap_merge_edge {A} (dbg : bool) (E : einfo A) (a : apoly A) (k : nat) : res (apoly A * bool) :=
  r <- try_merge_edge dbg E (ap_poly a) k ;; Ok (AP (fst r) (ap_box a), snd r).
(** max_vertex, 127-130 (the index is that of 117-119): an index that is not below the
    number of vertices is undefined. *)
Definition ap_max_vertex {A} (a : apoly A) (i : nat) : res hpoint3 := pvertex (ap_poly a) (iget (tmax (ap_box a)) i).
