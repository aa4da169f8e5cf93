(** Model of BSPTree::GetNodeBorderNoBoundWalls, bsp_tree.h 213-261. *)
From Coq Require Import ZArith List Bool.
From Verif Require Import BigUIntModel GeoModel AabbModel PolyModel RTransModel FilterModel BspModel AabbPlaneModel.
Import ListNotations.

(** A default-constructed polygon: no vertices and an invalid plane, convex_polygon.h. *)
Definition poly_empty : poly unit := Poly no_plane 0 [].
(** original_node, bsp_tree.h 228 and 233 (also 245-249): the child on the path. *)
Definition nb_child (d : bool) (n p : bnode) : bnode := if d then p else n.
(** The argument of IntersectPlane, bsp_tree.h 226 and 231: the plane whose
    normal points out of the side taken. *)
Definition nb_plane (d : bool) (s : hspace3) : hspace3 := if d then hs_neg s else s.
(** The first loop, bsp_tree.h 223-235: t is original_node and m mapped_root; ds are
    the rest of the path. Using a child that does not exist is undefined behaviour. *)
Fixpoint nb_add (dbg boxed : bool) (b : aabb) (ds : list bool) (t m : bnode) : res bnode :=
  match ds with
  | [] => Ok m
  | d :: ds =>
      match t with
      | BNil => UB
      | BNode s _ _ _ n p =>
          o <- bx_intersect_plane dbg b (nb_plane d s) ;;
          let x := match o with Some x => x | None => poly_empty end in
          m <- add_root_content boxed 0 x m ;;
          _ <- check dbg (0 <? pcount x)%nat ;;
          nb_add dbg boxed b ds (nb_child d n p) m
      end
  end.
(** The second loop, bsp_tree.h 241-252: m is mapped_pos. *)
Fixpoint nb_split (dbg : bool) (ds : list bool) (t m : bnode) : res bnode :=
  match ds with
  | [] => Ok m
  | d :: ds =>
      match t with
      | BNil => UB
      | BNode s _ _ _ n p =>
          m <- bn_split dbg s m ;;
          match m with
          | BNil => UB
          | BNode _ _ _ _ mn mp => nb_split dbg ds (nb_child d n p) (nb_child d mn mp)
          end
      end
  end.
(** The whole function; the result, bsp_tree.h 254-260, keeps the tree's polygons
    where the code copies their points and planes. *)
Definition node_border (dbg boxed : bool) (b : aabb) (ds : list bool) (t : bnode) : res (list bpoly) :=
  m <- nb_add dbg boxed b ds t bn_new ;;
  x <- nb_split dbg ds t m ;;
  match x with BNil => UB | BNode _ cs bs _ _ _ => Ok (bs ++ cs) end.
