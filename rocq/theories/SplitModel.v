(** Executable model of EdgeLineConnector::MaybeSplitEdge for an edge that has to be
    split, and of the assignments to the partners that follow it
    (include/walnut/edge_line_connector.h), on connected polygons.  ConnModel has the
    same steps on the pieces of half-edges.

    As in LinkModel, an edge has a number that follows it when the vector of its
    polygon moves it; the deed active_edge->second.edge is this number.  The
    number [new] is given to the edge that is inserted. *)
From Coq Require Import List Bool Arith ZArith.
From Verif Require Import BigUIntModel GeoModel PolyModel PolyOpsModel LinkModel.
Import ListNotations.
Open Scope nat_scope.

(** ConnectedEdge(parent_edge, vertex), connected_polygon.h 42-44: polygon_ is
    copied, partner_ is null.  The other operations are not used here. *)
Definition split_info (new : nat) : einfo cdata :=
  EInfo cdata (fun d _ => CD new (c_poly d) None) (fun d _ => d) (fun d _ _ => d) (fun _ _ => true) (fun d _ => d) (fun _ _ => true).
(** MaybeSplitEdge, edge_line_connector.h 521-537.  [id] is the edge of the entry
    and [pos] its pos_edge; that the entry goes on with the new edge if [pos] is
    in ConnModel. *)
Definition split_connected (dbg : bool) (st : mesh) (id : nat) (m : hpoint3) (pos : bool) (new : nat) : res mesh :=
  x <- index_of st id ;;
  p <- poly_at st (fst x) ;;
  r <- split_edge dbg (split_info new) p (snd x) m ;;
  let st1 := upd st (fst x) r in
  if pos then Ok st1
  else
    e <- deref st1 id ;;
    let o := c_partner (pd e) in
    st2 <- modify st1 new (set_partner o) ;;
    st3 <- modify st2 id (set_partner None) ;;
    match o with Some q => modify st3 q (set_partner (Some new)) | None => Ok st3 end.
(** The assertions and assignments after the calls of MaybeSplitEdge, 511-514. *)
Definition link_edges (dbg : bool) (st : mesh) (a b : nat) : res mesh :=
  ea <- deref st a ;; eb <- deref st b ;;
  _ <- check dbg (match c_partner (pd ea) with None => true | _ => false end) ;;
  _ <- check dbg (match c_partner (pd eb) with None => true | _ => false end) ;;
  st <- modify st a (set_partner (Some b)) ;;
  modify st b (set_partner (Some a)).
