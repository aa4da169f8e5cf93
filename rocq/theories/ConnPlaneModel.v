(** Executable model of the rest of EdgeLineConnector
    (include/walnut/edge_line_connector.h): sorting the edges of a plane, finding
    the lines, and connecting the edges of each line.

    An edge is given by its line, its end points and the normal of its polygon.
    The vertex counts that EdgeCompare asserts are not modelled.  Splitting an edge
    of one line changes neither the line nor the end points of an edge of another
    line, so the result is given line by line. *)
From Coq Require Import List Bool Arith ZArith.
From Verif Require Import BigUIntModel GeoModel ConnModel.
Import ListNotations.
Open Scope Z_scope.

(** line(), vertex(), next_vertex(), polygon().normal(). *)
Record ledge := LE { e_line : pline; e_from : hpoint3; e_to : hpoint3; e_normal : vec3 }.
Definition e_half (e : ledge) : half := Half (ld (e_line e)) (e_from e) (e_to e) (e_normal e).
(** The sorted dimension, 55-57 and 297-300. *)
Definition sorted_dim (drop : nat) (e : ledge) : nat :=
  ((if (comp (ld (e_line e)) ((drop + 1) mod 3) =? 0)%Z then drop + 2 else drop + 1) mod 3)%nat.
(** EdgeCompare, 40-77.  An empty deed is None. *)
Definition edge_lt (dbg : bool) (drop : nat) (o1 o2 : option ledge) : res bool :=
  match o1, o2 with
  | None, None => Ok false
  | None, Some _ => Ok true
  | Some _, None => Ok false
  | Some e1, Some e2 =>
    let l1 := e_line e1 in let l2 := e_line e2 in
    let d1 := drop_dim (ld l1) drop in let d2 := drop_dim (ld l2) drop in
    if negb (v2_same_or_opposite_dir d1 d2) then Ok (v2_half_rotation_lt d1 d2)
    else
      let s := sorted_dim drop e1 in
      let x1 := comp (lm l1) drop * comp (ld l2) s in
      let x2 := comp (lm l2) drop * comp (ld l1) s in
      if negb (x1 =? x2) then
        _ <- check dbg (negb (comp (ld l1) s =? 0)) ;;
        _ <- check dbg (negb (comp (ld l2) s =? 0)) ;;
        Ok (zless_than (xorb (comp (ld l2) s <? 0) (comp (ld l1) s <? 0)) x1 x2)
      else Ok (loc_lt s (h_begin s (e_half e1)) (h_begin s (e_half e2)))
  end.
(** The loop of FindNextLineStart, 301-310: the edges up to the first one on
    another line.  Following an empty deed is UB. *)
Fixpoint same_line_prefix (drop : nat) (line : hspace2) (l : list (option ledge)) : res (list ledge * list (option ledge)) :=
  match l with
  | [] => Ok ([], [])
  | None :: _ => UB
  | Some e :: r =>
    if negb (hs2_same_line (pl_project2d (e_line e) drop) line) then Ok ([], l)
    else x <- same_line_prefix drop line r ;; Ok (e :: fst x, snd x)
  end.
(** One line: the sorted dimension, its edges and their pieces. *)
Record line_result := LR { r_dim : nat; r_edges : list ledge; r_state : cstate }.
(** ConnectSorted, 125-143: the empty deeds are skipped, then line after line. *)
Fixpoint connect_lines (dbg : bool) (drop : nat) (ord : list (nat * hpoint3) -> list (nat * hpoint3)) (fuel : nat) (l : list (option ledge)) : res (list line_result) :=
  match l with
  | [] => Ok []
  | None :: _ => UB
  | Some e :: r =>
    match fuel with
    | O => NoFuel
    | S f =>
      x <- same_line_prefix drop (pl_project2d (e_line e) drop) r ;;
      let s := sorted_dim drop e in
      st <- connect_line dbg s ord (map e_half (e :: fst x)) ;;
      rs <- connect_lines dbg drop ord f (snd x) ;;
      Ok (LR s (e :: fst x) st :: rs)
    end
  end.
Fixpoint skip_empty (l : list (option ledge)) : list (option ledge) := match l with None :: r => skip_empty r | _ => l end.
Definition connect_sorted (dbg : bool) (drop : nat) (ord : list (nat * hpoint3) -> list (nat * hpoint3)) (l : list (option ledge)) : res (list line_result) :=
  connect_lines dbg drop ord (length (skip_empty l)) (skip_empty l).
(** ConnectUnsorted, 97-102.  [sort] is std::sort with EdgeCompare. *)
Definition connect_unsorted (dbg : bool) (drop : nat) (sort : list (option ledge) -> list (option ledge)) (ord : list (nat * hpoint3) -> list (nat * hpoint3)) (l : list (option ledge)) : res (list line_result) :=
  connect_sorted dbg drop ord (sort l).
