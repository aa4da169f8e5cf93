(** Specification of what BSPTraverser shows: a walk through the cells, and the
    border of the result of a boolean operation. *)
From Coq Require Import List Bool Arith ZArith QArith Permutation.
From Verif Require Import BigUIntModel GeoModel GeoSpec CvxSpec PolyModel PolySpec RTransModel FilterModel FilterSpec BspModel BspSpec BspHistSpec PartModel PartSpec TravModel KdSpec.
Import ListNotations.
Open Scope Q_scope.

(** ** The parts left open *)
(** split does to a leaf what Split(half_space) does, with an allowed plane, but for
    the order of the polygons.  Inv relates a strategy to the leaf that it is for. *)
Definition splitter {St} (dbg : bool) (Inv : St -> bnode -> Prop) (split : St -> bnode -> res (bnode * (St * St))) : Prop :=
  forall w x s x' s1 s2, (forall l s r, w = l ++ s :: r -> fresh_plane l (ss_split s)) -> node_ok w x -> leaf x -> n_contents x <> [] -> Inv s x -> split s x = Ok (x', (s1, s2)) ->
  exists h x1, fresh_plane w h /\ bn_split dbg h x = Ok x1 /\ reordered x1 x' /\ Inv s1 (n_neg x') /\ Inv s2 (n_pos x').
(** The strategies for the leaves of a tree. *)
Definition starts {St} (Inv : St -> bnode -> Prop) (default st : St) (t : bnode) : Prop := forall w x, at_node t w x -> leaf x -> Inv default x /\ Inv st x.
(** The ranges of equal keys of an unordered_multimap with the plane as key. *)
Definition grouping (l : list bpoly) (gs : list (list bpoly)) : Prop := Permutation (concat gs) l /\
  Forall (fun g => g <> [] /\ forall a b, In a g -> In b g -> same_split (bp_on a) (bp_on b) = true) gs /\
  ForallOrdPairs (fun g g' => forall a b, In a g -> In b g' -> same_split (bp_on a) (bp_on b) = false) gs.

(** ** The walk *)
Fixpoint shown (evs : list tevent) : list bpoly := match evs with [] => [] | TPart (EAccept b) :: evs => b :: shown evs | _ :: evs => shown evs end.
(** The nodes of the tree are entered and left like brackets; in a leaf the border
    is shown in tours (PartSpec.v). *)
Inductive trip : path -> list tevent -> Prop :=
| tp_skip w : trip w []
| tp_leaf w ls : Forall (tour w) ls -> trip w (map TPart (concat ls))
| tp_split w h n p : fresh_plane w h -> trip (w ++ [SS h false]) n -> trip (w ++ [SS h true]) p -> trip w (TEnter h :: n ++ p ++ [TLeave h]).

(** Number of nodes on the longest path. *)
Fixpoint tree_height (t : bnode) : nat := match t with BNil => 0 | BNode _ _ _ _ n p => S (Nat.max (tree_height n) (tree_height p)) end.

(** ** The border of the result *)
(** The points inside a cell, not on its planes. *)
Definition strictly (w : path) (q : qpoint) : Prop := Forall (fun s => if ss_pos s then 0 < side (ss_split s) q else side (ss_split s) q < 0) w.
(** The table of a node: an id without polygons inside the cell has the same winding
    number everywhere inside it, and that is what the table says. *)
Definition table_right (wind : qpoint -> winding) (w : path) (x : bnode) : Prop :=
  forall id q, interior (info_for (n_infos x) id) = 0%nat -> strictly w q -> wind q id = pwn (info_for (n_infos x) id).
(** Of l, r are those with the property P. *)
Inductive picked (P : bpoly -> Prop) : list bpoly -> list bpoly -> Prop :=
| pk_nil : picked P [] []
| pk_in b l r : P b -> picked P l r -> picked P (b :: l) (b :: r)
| pk_out b l r : ~ P b -> picked P l r -> picked P (b :: l) r.
(** The polygon contains q and its normal is that of h. *)
Definition facing (h : hspace3) (q : qpoint) (b : bpoly) : Prop :=
  bp_point b q /\ exists k, 0 < k /\ qp_eq (qpt (hn (pplane (bp_poly b)))) (qscale k (qpt (hn h))).
(** q is on h, and on no other plane, of a node or of a polygon, and on no edge
    line. *)
Definition generic (t : bnode) (h : hspace3) (q : qpoint) : Prop := side h q == 0 /\
  (forall w x, at_node t w x -> ~ leaf x -> side (n_split x) q == 0 -> same_plane (n_split x) h) /\
  (forall b, In b (all_polys t) -> side (pplane (bp_poly b)) q == 0 -> same_plane (pplane (bp_poly b)) h) /\
  off_lines q (all_polys t).
(** The point at the distance e (in units of the normal) behind q. *)
Definition behind (h : hspace3) (q : qpoint) (e : Q) : qpoint := qsub q (qscale e (qpt (hn h))).
(** The winding numbers without the polygons of l. *)
Definition less (w : winding) (l : list bpoly) : winding := fun id => (w id - Z.of_nat (count_id id l))%Z.

(** ** Pointers to planes *)
(** What became of a pointer to a plane of the path w or of the partitioner: the
    visitor has a copy, or it is to a plane of the tree. *)
Definition alive (w : path) (planes : list hspace3) (o : option split_side) (p : option (cptr * bool)) : Prop :=
  match o, p with
  | None, None => True
  | Some s, Some (CRaw h, pos) => pos = ss_pos s /\ h = ss_split s /\ In s w
  | Some s, Some (COwn i, pos) => pos = ss_pos s /\ nth_error planes i = Some (ss_split s)
  | _, _ => False
  end.
(** The edges of a collected polygon: what they say about the planes that they lie
    on is still there after the walk. *)
Definition kept (w : path) (planes : list hspace3) (b : bpoly) (es : list cedge) : Prop := Forall2 (fun e c =>
  alive w planes (first_co (pd e)) (ce_first c) /\ alive w planes (vertex_co (pd e)) (ce_vertex c) /\ alive w planes (edge_co (pd e)) (ce_last c)) (pedges (bp_poly b)) es.
