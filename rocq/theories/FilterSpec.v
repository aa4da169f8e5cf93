(** What a boolean operation is, on winding numbers. *)
From Coq Require Import ZArith List.
From Verif Require Import FilterModel.
Import ListNotations.
Open Scope Z_scope.

(** The winding number of every content id at a point. *)
Definition winding := nat -> Z.
(** Is a point with these winding numbers inside the operation's result? *)
Fixpoint inside (f : filter) (w : winding) : Prop :=
  match f with
  | FPoly id => 0 < w id
  | FInv id => 0 <= w id
  | FOdd id => Z.Odd (w id)
  | FInter f g => inside f w /\ inside g w
  | FUnion f g => inside f w \/ inside g w
  | FSub f g => inside f w /\ inside g w
  | FXor f g => ~ (inside f w <-> inside g w)
  | FUnionIds ids => exists id, In id ids /\ 0 < w id
  | FInterIds ids => forall id, In id ids -> 0 < w id
  | FSubIds [] => False
  | FSubIds (id0 :: ids) => 0 < w id0 /\ forall id, In id ids -> 0 <= w id
  end.
(** The winding numbers and the ids with polygons that a table records; ids
    without an entry have winding number 0 and no polygons
    (BSPNode::GetContentInfoForId, bsp_node.h 151-157). *)
Definition winding_of (infos : list cinfo) : winding := fun id => pwn (nth id infos ci_empty).
Definition may_move (infos : list cinfo) (id : nat) : Prop := interior (nth id infos ci_empty) <> 0%nat \/ border (nth id infos ci_empty) <> 0%nat.
(** Winding numbers of a point below a node: only ids that still have polygons
    there can differ from the node's. *)
Definition below (infos : list cinfo) (w : winding) : Prop := forall id, ~ may_move infos id -> w id = winding_of infos id.

(** The ids a filter mentions. *)
Fixpoint filter_ids (f : filter) : list nat :=
  match f with
  | FPoly id | FInv id | FOdd id => [id]
  | FInter f g | FUnion f g | FSub f g | FXor f g => filter_ids f ++ filter_ids g
  | FUnionIds ids | FInterIds ids | FSubIds ids => ids
  end.
(** The uses for which the code is right: an id whose test accepts winding
    number 0 has an entry, and the first id of a SubtractIdsFilter is 0. *)
Fixpoint covered (f : filter) (n : nat) : Prop :=
  match f with
  | FPoly _ | FOdd _ | FUnionIds _ | FInterIds _ => True
  | FInv id => (id < n)%nat
  | FInter f g | FUnion f g | FSub f g | FXor f g => covered f n /\ covered g n
  | FSubIds [] => True
  | FSubIds (id0 :: ids) => (n <= id0)%nat \/ (id0 = 0%nat /\ forall id, In id ids -> (id < n)%nat)
  end.
