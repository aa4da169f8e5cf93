(** Model of BSPNode::Split(partition, ...), bsp_node.h 59-95, which splits a node
    at a plane found with event points, and of what ApplyPrimary
    (polygon_event_point.h 492-738, PrimModel.v) calls for a BSP polygon with a
    bounding box. *)
From Coq Require Import ZArith List Bool Arith.
From Verif Require Import BigUIntModel GeoModel AabbModel RTransModel FilterModel PolyModel BspModel EvtModel PrimModel.
Import ListNotations.
Open Scope nat_scope.

(** min_vertex_index and max_vertex_index, aabb_convex_polygon.h 136-138 and
    117-119.  A polygon without a box does not have them. *)
Definition bp_min_index (d : nat) (b : bpoly) : nat := match bp_box b with Some t => iget (tmin t) d | None => 0 end.
Definition bp_max_index (d : nat) (b : bpoly) : nat := match bp_box b with Some t => iget (tmax t) d | None => 0 end.
(** min_vertex, max_vertex, aabb_convex_polygon.h 146-149 and 127-130, and the id.
    Simplified: the point 0/0 stands for a vertex that does not exist; the theorems
    are about trackers whose indices are those of vertices. *)
Definition bp_view (d : nat) (b : bpoly) : epoly :=
  let v k := nth k (map pv (pedges (bp_poly b))) (HP (V3 0 0 0) 0) in
  EP (v (bp_min_index d b)) (v (bp_max_index d b)) (bp_id b).

(** The first loop of SetAdjacentBoundaryAngles, bsp_polygon.h 196-211, at
    coincident_begin = adjacent + k; None if everything is coincident, otherwise
    coincident_begin after line 211. *)
Fixpoint adjacent_begin (h : hspace3) (b : bpoly) (adjacent k : nat) : res (option nat) :=
  match k with
  | O => Ok None
  | S k' =>
      v <- pvertex (bp_poly b) ((adjacent + k) mod bp_count b) ;;
      if hs_coincident h v then adjacent_begin h b adjacent k' else Ok (Some (S (adjacent + k)))
  end.
(** The second loop, 213-217. *)
Fixpoint adjacent_end (h : hspace3) (b : bpoly) (fuel pos : nat) : res nat :=
  match fuel with
  | O => NoFuel
  | S fuel =>
      v <- pvertex (bp_poly b) (pos mod bp_count b) ;;
      if hs_coincident h v then adjacent_end h b fuel (S pos) else Ok pos
  end.
(** SetAdjacentBoundaryAngles, bsp_polygon.h 195-221. *)
Definition set_adjacent (b : bpoly) (c : split_side) (adjacent : nat) : res bpoly :=
  let n := bp_count b in
  if n =? 0 then UB
  else
    o <- adjacent_begin (ss_split c) b adjacent (n - 1) ;;
    match o with
    | None =>
        b <- set_angles b c 0 (n + 1) ;;
        Ok (BP (bp_poly b) (bp_box b) (bp_id b) (Some c))
    | Some first =>
        let first := first mod n in
        last <- adjacent_end (ss_split c) b n (adjacent + n + 1) ;;
        set_angles b c first ((last - first) mod n + first)
    end.

(** What ApplyPrimary calls.  Lines 606-611: *)
Definition kd_border (h : hspace3) (pos : bool) (b : bpoly) : res bpoly :=
  b <- set_angles b (SS h pos) 0 (bp_count b + 1) ;;
  Ok (BP (bp_poly b) (bp_box b) (bp_id b) (Some (SS h pos))).
(** Lines 629-631 and 689-691. *)
Definition kd_touch (d : nat) (h : hspace3) (pos : bool) (b : bpoly) : res bpoly :=
  set_adjacent b (SS h pos) (if pos then bp_min_index d b else bp_max_index d b).
(** Lines 641-647. *)
Definition kd_cut (dbg : bool) (h : hspace3) (b : bpoly) : res (bpoly * bpoly) :=
  i <- bp_split_info dbg b h ;;
  _ <- check dbg (emit_neg (si_ranges i)) ;;
  _ <- check dbg (emit_pos (si_ranges i)) ;;
  c <- bp_split_children dbg b i ;;
  set_child_angles dbg c h.
Definition kd_ops (dbg : bool) (d : nat) (h : hspace3) : pops bpoly :=
  POps (bp_view d) (fun b => (comp (hn (pplane (bp_poly b))) d <? 0)%Z) (kd_border h) (kd_touch d h) (kd_cut dbg h).

(** The polygons of a list that ApplyPrimary has filled.  SetPolygonCountFromContents
    reads the id of each one, which the polygons of resize do not have. *)
Fixpoint filled {P} (l : list (option P)) : res (list P) :=
  match l with [] => Ok [] | o :: l => b <- got o ;; r <- filled l ;; Ok (b :: r) end.
(** SetPolygonCountFromContents, bsp_node.h 271-278. *)
Definition set_counts (k : kid) : res kid :=
  infos <- rfold (fun b infos => at_id infos (bp_id b) add_interior) (k_contents k) (k_infos k) ;;
  infos <- rfold (fun b infos => at_id infos (bp_id b) add_border) (k_border k) infos ;;
  Ok (Kid (k_contents k) (k_border k) infos).
(** Split(partition, dimension, event_points, ...), bsp_node.h 69-95: the node
    afterwards, and the state of ApplyPrimary with the children's event points and
    the polygon_index_map. *)
Definition bn_split_kd (dbg : bool) (d : nat) (evs : list event) (p : part) (t : bnode) : res (bnode * pstate bpoly) :=
  match t with
  | BNil => UB
  | BNode _ cs bs infos _ _ =>
      h <- split_plane dbg d (map (bp_view d) cs) evs p ;;
      y <- push_pwn dbg h cs (set_pwn infos, set_pwn infos) ;;
      s <- apply_primary (kd_ops dbg d h) dbg h cs p d evs ;;
      negs <- filled (s_negs s) ;;
      poss <- filled (s_poss s) ;;
      kn <- set_counts (Kid negs (s_nb s) (fst y)) ;;
      kp <- set_counts (Kid poss (s_pb s) (snd y)) ;;
      _ <- check dbg (negb (bn_is_leaf h)) ;;
      x <- rfold (push_border dbg h) bs (kn, kp) ;;
      let child k := BNode no_plane (k_contents k) (k_border k) (k_infos k) BNil BNil in
      Ok (BNode h [] [] infos (child (fst x)) (child (snd x)), s)
  end.
