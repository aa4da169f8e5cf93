(** Model of what ConnectingVisitor keeps about a traversal, walnut/
    connecting_visitor.h: the edges that it registers with the nodes that are open,
    the groups in which it hands them over, and the polygons with the pointers that
    it resets.  What is done with a group when a node is left, connecting and merging,
    is in ConnModel.v and MergeModel.v.  The assertions that call IsValidState, lines
    169, 198, 219 and 226, and the freelist of vectors are not modelled. *)
From Coq Require Import List Bool Arith ZArith.
From Verif Require Import BigUIntModel GeoModel PolyModel RTransModel FilterModel BspModel PartModel TravModel.
Import ListNotations.

(** EdgeInfo, connecting_visitor.h 231-238: created_at_depth, and the edge: the
    number of its polygon in polygons_ and its number in that polygon when Accept was
    called.  A Deed follows the edge when it is moved. *)
Definition vhandle := (nat * (nat * nat))%type.
(** NodeInfo, connecting_visitor.h 241-244. *)
Record vnode := VN { vn_temp : bool; vn_edges : list vhandle }.
(** A call of ConnectUnsorted with the merging after it, connecting_visitor.h
    183-220: the plane, drop_dimension, the edges.  drop_dimension is [None] for the
    result -1 of GetFirstNonzeroDimension. *)
Record vcall := VC { vc_plane : hspace3; vc_drop : option nat; vc_edges : list vhandle }.
(** interior_nodes_, node_depth_ and polygons_, connecting_visitor.h 249-254.  The
    keys of the maps are pointers to planes; planes at different places have
    different values here, see PartModel.v.  [None] is the null pointer. *)
Record vstate := VS { v_open : list (hspace3 * vnode); v_depth : list (option hspace3 * nat); v_polys : list bpoly; v_calls : list vcall }.
(** The constructor, connecting_visitor.h 34-38. *)
Definition v_new : vstate := VS [] [(None, 0)] [] [].

(** ** Maps *)
Definition v_find (o : list (hspace3 * vnode)) (h : hspace3) : option vnode := option_map snd (find (fun x => hs_eqb (fst x) h) o).
(** interior_nodes_.find of the pointer of a SplitSide; the map has no entry for the
    null pointer. *)
Definition v_node (o : list (hspace3 * vnode)) (s : option split_side) : option vnode := match s with None => None | Some s => v_find o (ss_split s) end.
Definition key_eqb (a b : option hspace3) : bool := match a, b with None, None => true | Some a, Some b => hs_eqb a b | _, _ => false end.
Definition d_find (m : list (option hspace3 * nat)) (k : option hspace3) : option nat := option_map snd (find (fun x => key_eqb (fst x) k) m).
(** first_coincident_edges.emplace_back. *)
Definition v_add (h : hspace3) (e : vhandle) (o : list (hspace3 * vnode)) : list (hspace3 * vnode) :=
  map (fun x => if hs_eqb (fst x) h then (fst x, VN (vn_temp (snd x)) (vn_edges (snd x) ++ [e])) else x) o.

(** ** Accept *)
(** A node must be found: otherwise the assertion fails and it->second is undefined. *)
Definition found (dbg : bool) (n : option vnode) : res vnode := _ <- check dbg (match n with Some _ => true | None => false end) ;; match n with Some n => Ok n | None => UB end.
(** Pointers to temporary planes are reset.  The side bit that remains is not
    modelled. *)
Definition reset (n : vnode) (s : option split_side) : option split_side := if vn_temp n then None else s.
(** The body of the loop, connecting_visitor.h 78-102; node_depth_[...] adds a 0 if
    there is no entry. *)
Definition v_edge (dbg : bool) (i j : nat) (o : list (hspace3 * vnode)) (m : list (option hspace3 * nat)) (d : bdata) : res ((list (hspace3 * vnode) * list (option hspace3 * nat)) * bdata) :=
  n <- found dbg (v_node o (first_co d)) ;;
  let k := option_map ss_split (created_by d) in
  _ <- check dbg (match d_find m k with Some _ => true | None => false end) ;;
  let depth := match d_find m k with Some c => c | None => 0 end in
  let m := match d_find m k with Some _ => m | None => (k, 0) :: m end in
  let o := match first_co d with Some s => v_add (ss_split s) (depth, (i, j)) o | None => o end in
  n1 <- found dbg (v_node o (vertex_co d)) ;;
  n2 <- found dbg (v_node o (edge_co d)) ;;
  Ok (o, m, BD (created_by d) (reset n (first_co d)) (reset n1 (vertex_co d)) (reset n2 (edge_co d))).
Fixpoint v_edges (dbg : bool) (i j : nat) (o : list (hspace3 * vnode)) (m : list (option hspace3 * nat)) (es : list (pedge bdata)) : res ((list (hspace3 * vnode) * list (option hspace3 * nat)) * list (pedge bdata)) :=
  match es with
  | [] => Ok (o, m, [])
  | e :: es => r <- v_edge dbg i j o m (pd e) ;; r' <- v_edges dbg i (S j) (fst (fst r)) (snd (fst r)) es ;; Ok (fst r', PE (pv e) (pl e) (snd r) :: snd r')
  end.
(** Accept, connecting_visitor.h 76-105. *)
Definition v_accept (dbg : bool) (b : bpoly) (v : vstate) : res vstate :=
  r <- v_edges dbg (length (v_polys v)) 0 (v_open v) (v_depth v) (pedges (bp_poly b)) ;;
  Ok (VS (fst (fst r)) (snd (fst r)) (v_polys v ++ [BP (Poly (pplane (bp_poly b)) (pdrop (bp_poly b)) (snd r)) (bp_box b) (bp_id b) (bp_on b)]) (v_calls v)).

(** ** EnterInteriorNode and LeaveInteriorNode *)
(** EnterInteriorNode, connecting_visitor.h 107-125: emplace does not change an entry
    that exists. *)
Definition v_enter (dbg temp : bool) (h : hspace3) (v : vstate) : res vstate :=
  let m := match d_find (v_depth v) (Some h) with Some _ => v_depth v | None => (Some h, S (length (v_open v))) :: v_depth v end in
  let new := match v_find (v_open v) h with Some _ => false | None => true end in
  _ <- check dbg new ;;
  Ok (VS (if new then (h, VN temp []) :: v_open v else v_open v) m (v_polys v) (v_calls v)).
(** LeaveInteriorNode, connecting_visitor.h 167-227. *)
Definition v_leave (dbg : bool) (h : hspace3) (v : vstate) : res vstate :=
  n <- found dbg (v_find (v_open v) h) ;;
  Ok (VS (List.filter (fun x => negb (hs_eqb (fst x) h)) (v_open v)) (List.filter (fun x => negb (key_eqb (fst x) (Some h))) (v_depth v)) (v_polys v)
    (v_calls v ++ [VC h (first_nonzero (hn h)) (vn_edges n)])).
Definition v_step (dbg : bool) (v : vstate) (e : tevent) : res vstate :=
  match e with
  | TEnter h => v_enter dbg false h v
  | TLeave h => v_leave dbg h v
  | TPart ELeaf => Ok v
  | TPart (EAccept b) => v_accept dbg b v
  | TPart (EEnter h) => v_enter dbg true h v
  | TPart (ELeave h) => v_leave dbg h v
  end.
Fixpoint v_run (dbg : bool) (evs : list tevent) (v : vstate) : res vstate :=
  match evs with [] => Ok v | e :: evs => v <- v_step dbg v e ;; v_run dbg evs v end.
