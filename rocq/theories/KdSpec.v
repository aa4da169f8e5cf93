(** Trees that only differ in the order of the polygons. *)
From Coq Require Import List Permutation.
From Verif Require Import GeoModel FilterModel BspModel.
Import ListNotations.

(** The same tree, with the polygons of each node in any order. *)
Inductive reordered : bnode -> bnode -> Prop :=
| re_nil : reordered BNil BNil
| re_node s cs cs' bs bs' infos n n' p p' : Permutation cs cs' -> Permutation bs bs' -> reordered n n' -> reordered p p' ->
    reordered (BNode s cs bs infos n p) (BNode s cs' bs' infos n' p').
(** All polygons of a list have a bounding box. *)
Definition boxed (cs : list bpoly) : Prop := Forall (fun b => bp_box b <> None) cs.
