(** Executable model of the boolean operation filters
    (include/walnut/bsp_visitor.h, include/walnut/boolean_operation_filter.h)
    on BSPContentInfo (include/walnut/bsp_content_info.h).

    Counters are natural numbers and winding numbers are integers; the filters
    do no arithmetic on them, so the 64-bit ranges play no role. *)
From Coq Require Import ZArith List Bool.
Import ListNotations.
Open Scope Z_scope.

(** BSPContentInfo, bsp_content_info.h 8-34. *)
Record cinfo := CI { interior : nat; border : nat; pwn : Z }.
Definition ci_empty : cinfo := CI 0 0 0.
(** has_polygons(), bsp_content_info.h 12-14. *)
Definition has_polygons (c : cinfo) : bool := negb (Nat.eqb (interior c) 0) || negb (Nat.eqb (border c) 0).

(** The filter classes; the class templates nest. *)
Inductive filter :=
| FPoly (id : nat) | FInv (id : nat) | FOdd (id : nat)
| FInter (f g : filter) | FUnion (f g : filter) | FSub (f g : filter) | FXor (f g : filter)
| FUnionIds (ids : list nat) | FInterIds (ids : list nat) | FSubIds (ids : list nat).

(** content_info_by_id[id] tested by [test], or (false, false) for an id that
    has no entry: bsp_visitor.h 25-33, 54-62, 82-90;
    boolean_operation_filter.h 38-43, 78-83, 127-132. *)
Definition id_result (test : Z -> bool) (infos : list cinfo) (id : nat) : bool * bool :=
  match nth_error infos id with
  | None => (false, false)
  | Some c => (test (pwn c), has_polygons c)
  end.
(** IntersectionFilter::operator(), bsp_visitor.h 103-110; the loop bodies of
    IntersectIdsFilter and SubtractIdsFilter, boolean_operation_filter.h 85-88
    and 134-137. *)
Definition inter_result (r1 r2 : bool * bool) : bool * bool :=
  (fst r1 && fst r2, (fst r1 || snd r1) && (fst r2 || snd r2) && (snd r1 || snd r2)).
(** UnionFilter::operator(), bsp_visitor.h 131-139; the loop body of
    UnionIdsFilter, boolean_operation_filter.h 45-48. *)
Definition union_result (r1 r2 : bool * bool) : bool * bool :=
  (fst r1 || fst r2, (negb (fst r1) || snd r1) && (negb (fst r2) || snd r2) && (snd r1 || snd r2)).
(** XORFilter::operator(), bsp_visitor.h 220-226. *)
Definition xor_result (r1 r2 : bool * bool) : bool * bool := (xorb (fst r1) (fst r2), snd r1 || snd r2).

Definition test_positive (w : Z) : bool := 0 <? w.
Definition test_nonnegative (w : Z) : bool := 0 <=? w.
(** pwn & 1, bsp_visitor.h 87. *)
Definition test_odd (w : Z) : bool := negb (Z.land w 1 =? 0).

Fixpoint eval (f : filter) (infos : list cinfo) : bool * bool :=
  match f with
  | FPoly id => id_result test_positive infos id
  | FInv id => id_result test_nonnegative infos id
  | FOdd id => id_result test_odd infos id
  | FInter f g => inter_result (eval f infos) (eval g infos)
  | FUnion f g => union_result (eval f infos) (eval g infos)
  (** SubtractionFilter::operator(), bsp_visitor.h 160-168 *)
  | FSub f g => inter_result (eval f infos) (eval g infos)
  | FXor f g => xor_result (eval f infos) (eval g infos)
  (** UnionIdsFilter, boolean_operation_filter.h 31-51 *)
  | FUnionIds ids => fold_left (fun t id => union_result t (id_result test_positive infos id)) ids (false, false)
  (** IntersectIdsFilter, boolean_operation_filter.h 71-91 *)
  | FInterIds ids => fold_left (fun t id => inter_result t (id_result test_positive infos id)) ids (true, false)
  (** SubtractIdsFilter, boolean_operation_filter.h 112-142: the first entry of
      the table is read, whatever ids_[0] is *)
  | FSubIds [] => (false, false)
  | FSubIds (id0 :: ids) =>
      if Nat.leb (length infos) id0 then (false, false)
      else fold_left (fun t id => inter_result t (id_result test_nonnegative infos id)) ids (id_result test_positive infos 0)
  end.
