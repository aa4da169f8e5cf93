(** Model of bsp_traverser.h: BSPTraverser, which shows the border of a boolean
    operation to a visitor, and of CollectorVisitor (bsp_visitor.h), which keeps the
    polygons.

    Simplifications:
    - SplitStrategy is a type [St] with the function [split]: it splits a leaf and
      gives the strategies for its children.  The theorems allow every function that
      splits the node like Split(half_space) does, along an allowed plane, but for
      the order of the polygons.  StratModel.v has the strategy of the code, and
      [plain] is a strategy that always calls BSPNode::Split();
    - the iteration order of border_map_, an unordered_multimap, is left open: the
      function [groups] gives the ranges of equal keys;
    - the free lists of event points only recycle memory. *)
From Coq Require Import ZArith List Bool Arith.
From Verif Require Import BigUIntModel GeoModel RTransModel FilterModel PolyModel BspModel PartModel.
Import ListNotations.
Open Scope nat_scope.

(** What BSPVisitor's methods are called with, bsp_visitor.h 195-211: nodes of the
    tree, and what PlanePartitioner says (EEnter and ELeave of PartModel.v are the
    calls with from_partitioner). *)
Inductive tevent := TEnter (h : hspace3) | TLeave (h : hspace3) | TPart (e : event).

(** ProcessPolygonsOnPlane, bsp_traverser.h 208-227.  PlanePartitioner::Run is given
    enough fuel, see PartProofs.v. *)
Definition trav_plane (dbg : bool) (isin : list cinfo -> bool * bool) (infos : list cinfo) (g : list bpoly) : res (list event) :=
  match g with
  | [] => _ <- check dbg false ;; UB
  | b :: _ =>
      let d := pdrop (bp_poly b) in
      let pos_normal := (zget_sign (comp (hn (pplane (bp_poly b))) d) <? 0)%Z in
      part_run (list_sum (map (fun b => length (pedges (bp_poly b))) g)) dbg isin d pos_normal infos g
  end.
(** VisitLeaf, bsp_traverser.h 229-251. *)
Fixpoint trav_planes (dbg : bool) (isin : list cinfo -> bool * bool) (infos : list cinfo) (gs : list (list bpoly)) : res (list event) :=
  match gs with
  | [] => Ok []
  | g :: gs => e <- trav_plane dbg isin infos g ;; es <- trav_planes dbg isin infos gs ;; Ok (e ++ es)
  end.
Definition trav_visit (dbg : bool) (isin : list cinfo -> bool * bool) (groups : list bpoly -> list (list bpoly)) (cs bs : list bpoly) (infos : list cinfo) : res (list event) :=
  _ <- check dbg (length cs =? 0) ;;
  _ <- check dbg (forallb (fun b => match bp_on b with Some _ => true | None => false end) bs) ;;
  trav_planes dbg isin infos (groups bs).
(** RunLeaf, bsp_traverser.h 182-206: the calls, and the node afterwards. *)
Fixpoint trav_leaf {St : Type} (fuel : nat) (dbg : bool) (isin : list cinfo -> bool * bool) (split : St -> bnode -> res (bnode * (St * St))) (groups : list bpoly -> list (list bpoly)) (st : St) (t : bnode) : res (list tevent * bnode) :=
  match fuel, t with
  | O, _ => NoFuel
  | _, BNil => UB
  | S fuel, BNode s cs bs infos _ _ =>
      _ <- check dbg (bn_is_leaf s) ;;
      if negb (snd (isin infos)) then Ok ([], t)
      else if negb (length cs =? 0) then
        r <- split st t ;;
        match fst r with
        | BNil => UB
        | BNode s cs bs infos n p =>
            _ <- check dbg (negb (bn_is_leaf s)) ;;
            rn <- trav_leaf fuel dbg isin split groups (fst (snd r)) n ;;
            rp <- trav_leaf fuel dbg isin split groups (snd (snd r)) p ;;
            Ok (TEnter s :: fst rn ++ fst rp ++ [TLeave s], BNode s cs bs infos (snd rn) (snd rp))
        end
      else e <- trav_visit dbg isin groups cs bs infos ;; Ok (map TPart e, t)
  end.
(** Run, bsp_traverser.h 151-174.  [st] is the strategy that is made from
    kd_strategy_poly_lower_bound, [default] the one from the default argument: the
    calls for the children, lines 169 and 170, do not pass the argument on. *)
Fixpoint trav_run {St : Type} (fuel : nat) (dbg : bool) (isin : list cinfo -> bool * bool) (split : St -> bnode -> res (bnode * (St * St))) (groups : list bpoly -> list (list bpoly)) (default st : St) (t : bnode) : res (list tevent * bnode) :=
  match fuel, t with
  | O, _ => NoFuel
  | _, BNil => UB
  | S fuel', BNode s cs bs infos _ _ =>
      if negb (snd (isin infos)) then Ok ([], t)
      else if bn_is_leaf s then trav_leaf fuel dbg isin split groups st t
      else
        t <- (if negb (length cs =? 0) then push_to_children dbg t else Ok t) ;;
        match t with
        | BNil => UB
        | BNode s cs bs infos n p =>
            rn <- trav_run fuel' dbg isin split groups default default n ;;
            rp <- trav_run fuel' dbg isin split groups default default p ;;
            Ok (TEnter s :: fst rn ++ fst rp ++ [TLeave s], BNode s cs bs infos (snd rn) (snd rp))
        end
  end.
(** A strategy that splits every leaf in the same way. *)
Definition plain (split : bnode -> res bnode) (st : unit) (t : bnode) : res (bnode * (unit * unit)) := t <- split t ;; Ok (t, (st, st)).

(** ** CollectorVisitor *)
(** A pointer of a polygon to a plane: to one that is not the visitor's, or to the
    i-th element of split_planes_. *)
Inductive cptr := CRaw (h : hspace3) | COwn (i : nat).
(** The four SplitSides of an edge, bsp_edge_info.h 69-88, and a polygon with
    those. *)
Record cedge := CE { ce_created : option (cptr * bool); ce_first : option (cptr * bool); ce_vertex : option (cptr * bool); ce_last : option (cptr * bool) }.
Record coll := Coll { c_polys : list (bpoly * list cedge); c_planes : list hspace3; c_map : list (hspace3 * nat) }.
Definition coll_new : coll := Coll [] [] [].
(** split_plane_map_.find; the keys are pointers, see PartModel.v. *)
Definition c_find (m : list (hspace3 * nat)) (h : hspace3) : option nat := option_map snd (find (fun x => hs_eqb (fst x) h) m).
Definition raw (o : option split_side) : option (cptr * bool) := option_map (fun s => (CRaw (ss_split s), ss_pos s)) o.
Definition remap (m : list (hspace3 * nat)) (o : option split_side) : option (cptr * bool) :=
  match o with
  | None => None
  | Some s => Some (match c_find m (ss_split s) with Some i => COwn i | None => CRaw (ss_split s) end, ss_pos s)
  end.
(** The loop of Accept, bsp_visitor.h 268-285: edge_created_by is not looked at. *)
Definition c_edge (m : list (hspace3 * nat)) (d : bdata) : cedge := CE (raw (created_by d)) (remap m (first_co d)) (remap m (vertex_co d)) (remap m (edge_co d)).
(** Accept, EnterInteriorNode and LeaveInteriorNode, bsp_visitor.h 268-311. *)
Definition c_step (dbg : bool) (c : coll) (e : tevent) : res coll :=
  match e with
  | TEnter _ | TLeave _ | TPart ELeaf => Ok c
  | TPart (EAccept b) => Ok (Coll (c_polys c ++ [(b, map (fun e => c_edge (c_map c) (pd e)) (pedges (bp_poly b)))]) (c_planes c) (c_map c))
  | TPart (EEnter h) =>
      let new := match c_find (c_map c) h with None => true | Some _ => false end in
      _ <- check dbg new ;;
      Ok (Coll (c_polys c) (c_planes c ++ [h]) (if new then (h, length (c_planes c)) :: c_map c else c_map c))
  | TPart (ELeave h) =>
      _ <- check dbg (match c_find (c_map c) h with None => false | Some _ => true end) ;;
      Ok (Coll (c_polys c) (c_planes c) (List.filter (fun x => negb (hs_eqb (fst x) h)) (c_map c)))
  end.
Fixpoint c_run (dbg : bool) (evs : list tevent) (c : coll) : res coll :=
  match evs with [] => Ok c | e :: evs => c <- c_step dbg c e ;; c_run dbg evs c end.
