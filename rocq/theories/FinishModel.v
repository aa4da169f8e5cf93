(** Executable model of leaving all nodes of a traversal with ConnectingVisitor
    (include/walnut/connecting_visitor.h), for a mesh whose edges are connected. *)
From Coq Require Import List Bool Arith ZArith.
From Verif Require Import BigUIntModel GeoModel PolyModel LinkModel TidyModel.
Import ListNotations.
Open Scope nat_scope.

(** LeaveInteriorNode for one node after the other, connecting_visitor.h 162-220: a
    node is the drop dimension of its plane and its edges, in the order of the loop.
    Simplified: the code connects the edges of a node when this node is left, here
    all edges are connected before the first node is left. *)
Fixpoint leave_nodes (dbg : bool) (st : mesh) (nodes : list (nat * list nat)) : res mesh :=
  match nodes with
  | [] => Ok st
  | (drop, ids) :: nodes => st <- leave_checked dbg drop st ids (concat (map snd nodes)) ;; leave_nodes dbg st nodes
  end.
(** Then FilterEmptyPolygons, 59-65, which the caller calls at the end. *)
Definition finished (dbg : bool) (st : mesh) (nodes : list (nat * list nat)) : res mesh :=
  st <- leave_nodes dbg st nodes ;; Ok (filter_empty st).
