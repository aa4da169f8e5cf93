(** Model of polygon_event_point.h: MakeEventPoints, GetLowestCost,
    DiscountBorderPolygons and GetSplitPlane.

    Simplifications:
    - of a polygon only min_vertex(dimension), max_vertex(dimension) and id are
      used, so that is what a polygon is here; the dimension is fixed;
    - the union PolygonEventPoint::index is one number, whichever member is used;
    - std::make_heap, push_heap and pop_heap are known by their contract: pop_heap
      removes an element that is not less than any other.  Which one is not
      specified, so [choose] picks it.  A choice the contract does not allow is
      [NoFuel];
    - event_points[i] out of range, or where the array holds part of the heap, is
      [UB]. *)
From Coq Require Import ZArith List Bool Arith.
From Verif Require Import BigUIntModel GeoModel EstModel.
Import ListNotations.
Open Scope nat_scope.

(** PolygonEventPoint, polygon_event_point.h 13-72. *)
Record event := Ev { ev_new : bool; ev_start : bool; ev_index : nat }.
Record epoly := EP { e_min : hpoint3; e_max : hpoint3; e_id : nat }.
(** GetLocation, polygon_event_point.h 36-50; [arr] is event_points. *)
Definition ev_location (dbg : bool) (arr : nat -> option event) (ps : list epoly) (e : event) : res hpoint3 :=
  if ev_start e then
    match arr (ev_index e) with
    | None => UB
    | Some f =>
        _ <- check dbg (negb (ev_start f)) ;;
        _ <- check dbg (ev_index f <? length ps) ;;
        match nth_error ps (ev_index f) with None => UB | Some p => Ok (e_min p) end
    end
  else match nth_error ps (ev_index e) with None => UB | Some p => Ok (e_max p) end.
(** event_point_compare, polygon_event_point.h 342-356. *)
Definition ev_less (dbg : bool) (arr : nat -> option event) (d : nat) (ps : list epoly) (a b : event) : res bool :=
  la <- ev_location dbg arr ps a ;;
  lb <- ev_location dbg arr ps b ;;
  let c := hp_compare_comp d la lb in
  Ok (if (c =? 0)%Z then negb (ev_start a) && ev_start b else (c <? 0)%Z).
Fixpoint rforall {A} (f : A -> res bool) (l : list A) : res bool :=
  match l with [] => Ok true | x :: l => b <- f x ;; c <- rforall f l ;; Ok (b && c) end.
(** std::pop_heap: element k, which must not be less than any element, and the
    others. *)
Definition pop_heap (less : event -> event -> res bool) (k : nat) (heap : list event) : res (event * list event) :=
  match nth_error heap k with
  | None => NoFuel
  | Some e =>
      b <- rforall (fun x => c <- less e x ;; Ok (negb c)) heap ;;
      if b then Ok (e, firstn k heap ++ skipn (S k) heap) else NoFuel
  end.
(** The finished part of the array of 2 n entries. *)
Definition fin_at (n : nat) (fin : list event) (k : nat) : option event :=
  if 2 * n - length fin <=? k then nth_error fin (k - (2 * n - length fin)) else None.
(** One round of the loop, polygon_event_point.h 361-375: the array holds the heap
    in front and the finished part at the end.  end_point_compare, 330-338, with
    which the heap is made, is event_point_compare for two end events. *)
Definition make_step (dbg : bool) (d : nat) (ps : list epoly) (k : nat) (st : list event * list event) : res (list event * list event) :=
  let '(heap, fin) := st in
  let n := length ps in
  _ <- check dbg (negb (length heap =? 0)) ;;
  if length heap =? 0 then UB
  else
    x <- pop_heap (ev_less dbg (fin_at n fin) d ps) k heap ;;
    let '(e, rest) := x in
    if negb (length rest + length fin <? 2 * n) then UB
    else
      let pos := 2 * n - S (length fin) in
      if ev_start e then Ok (rest, e :: fin)
      else if negb (length rest <? pos) then UB
      else Ok (rest ++ [Ev false true pos], e :: fin).
Fixpoint make_loop (dbg : bool) (d : nat) (ps : list epoly) (choose : nat -> nat) (k : nat) (st : list event * list event) : res (list event * list event) :=
  match k with O => Ok st | S k => st <- make_step dbg d ps (choose k) st ;; make_loop dbg d ps choose k st end.
(** new_location of event i > 0, polygon_event_point.h 380-386. *)
Definition new_flag (dbg : bool) (d : nat) (ps : list epoly) (evs : list event) (i : nat) : res bool :=
  match i with
  | O => Ok true
  | S j =>
      match nth_error evs j, nth_error evs i with
      | Some a, Some b =>
          la <- ev_location dbg (nth_error evs) ps a ;; lb <- ev_location dbg (nth_error evs) ps b ;; Ok (hp_lt_comp d la lb)
      | _, _ => UB
      end
  end.
Fixpoint rmap {A B} (f : A -> res B) (l : list A) : res (list B) :=
  match l with [] => Ok [] | x :: l => y <- f x ;; ys <- rmap f l ;; Ok (y :: ys) end.
Definition set_new (e : event) (b : bool) : event := Ev b (ev_start e) (ev_index e).
(** MakeEventPoints, polygon_event_point.h 312-388. *)
Definition make_events (dbg : bool) (d : nat) (ps : list epoly) (choose : nat -> nat) : res (list event) :=
  let n := length ps in
  st <- make_loop dbg d ps choose (2 * n) (map (Ev false false) (seq 0 n), []) ;;
  _ <- check dbg (length (fst st) =? 0) ;;
  let evs := snd st in
  flags <- rmap (new_flag dbg d ps evs) (seq 0 (2 * n)) ;;
  Ok (map (fun x => set_new (fst x) (snd x)) (combine evs flags)).

(** ** GetLowestCost *)
(** PolygonEventPointPartition, polygon_event_point.h 137-163. *)
Record part := Part { p_index : nat; p_cost : Z; p_neg_cost : Z; p_pos_cost : Z; p_neg : Z; p_pos : Z; p_border : Z; p_begin : nat; p_end : nat }.
(** The variables of the loop; c_best = None is the initial value of [best]:
    split_index -1 and the costs 2^64 - 1. *)
Record cstate := CS { c_neg : Z; c_pos : Z; c_nlog : Z; c_plog : Z; c_nest : Z; c_pest : Z; c_was_end : bool; c_best : option part }.
Definition size_max : Z := (2 ^ 64 - 1)%Z.
(** Lines 420-430 and 447-457. *)
Definition consider (wide : bool) (i : nat) (s : cstate) : res cstate :=
  a <- estimate wide (c_nest s) (c_neg s) (c_nlog s) ;;
  b <- estimate wide (c_pest s) (c_pos s) (c_plog s) ;;
  let cost := size_mod (snd a + snd b) in
  let best := if (cost <? match c_best s with None => size_max | Some p => p_cost p end)%Z
              then Some (Part (i - 1) cost (snd a) (snd b) (c_neg s) (c_pos s) 0 0 0) else c_best s in
  Ok (CS (c_neg s) (c_pos s) (c_nlog s) (c_plog s) (fst a) (fst b) (c_was_end s) best).
Definition id_of (ps : list epoly) (i : nat) : res nat := match nth_error ps i with None => UB | Some p => Ok (e_id p) end.
(** The body of the loop, polygon_event_point.h 417-446; [excl] is exclude_id, None
    when it is -1. *)
Definition is_excl (excl : option nat) (id : nat) : bool := match excl with None => false | Some x => id =? x end.
Definition cost_step (wide : bool) (excl : option nat) (ps : list epoly) (evs : list event) (i : nat) (s : cstate) : res cstate :=
  match nth_error evs i with
  | None => UB
  | Some e =>
      if ev_start e then
        s <- (if c_was_end s then
                s <- consider wide i s ;; Ok (CS (c_neg s) (c_pos s) (c_nlog s) (c_plog s) (c_nest s) (c_pest s) false (c_best s))
              else Ok s) ;;
        match nth_error evs (ev_index e) with
        | None => UB
        | Some f =>
            id <- id_of ps (ev_index f) ;;
            Ok (CS (size_mod (c_neg s + 1)) (c_pos s) (if is_excl excl id then c_nlog s else size_mod (c_nlog s + 1)) (c_plog s) (c_nest s) (c_pest s) (c_was_end s) (c_best s))
        end
      else
        id <- id_of ps (ev_index e) ;;
        Ok (CS (c_neg s) (size_mod (c_pos s - 1)) (c_nlog s) (if is_excl excl id then c_plog s else size_mod (c_plog s - 1)) (c_nest s) (c_pest s) true (c_best s))
  end.
Fixpoint cost_loop (wide : bool) (excl : option nat) (ps : list epoly) (evs : list event) (l : list nat) (s : cstate) : res cstate :=
  match l with [] => Ok s | i :: l => s <- cost_step wide excl ps evs i s ;; cost_loop wide excl ps evs l s end.
(** GetLowestCost, polygon_event_point.h 400-461.  None: split_index is -1. *)
Definition lowest_cost (wide : bool) (excl : option nat) (excl_count : Z) (ps : list epoly) (evs : list event) : res (option part) :=
  let n := length ps in
  s <- cost_loop wide excl ps evs (seq 0 (2 * n))
         (CS 0 (Z.of_nat n) 1 (size_mod (size_mod (Z.of_nat n - excl_count) + 1)) estimator_init estimator_init false None) ;;
  s <- (if c_was_end s then consider wide (2 * n) s else Ok s) ;;
  Ok (c_best s).

(** ** DiscountBorderPolygons *)
(** The first loop, polygon_event_point.h 466-475. *)
Fixpoint walk_down (dbg : bool) (evs : list event) (k : nat) (neg border : Z) : res (nat * Z * Z) :=
  match nth_error evs k with
  | None => UB
  | Some e =>
      if ev_new e then Ok (k, neg, border)
      else
        _ <- check dbg (0 <? k) ;;
        match k with
        | O => UB
        | S j =>
            match nth_error evs j with
            | None => UB
            | Some f => if ev_start f then walk_down dbg evs j (size_mod (neg - 1)) (size_mod (border + 1)) else walk_down dbg evs j neg border
            end
        end
  end.
(** The second loop, 476-483; [fuel] bounds the rounds. *)
Fixpoint walk_up (fuel : nat) (evs : list event) (n k : nat) (pos : Z) : res (nat * Z) :=
  if 2 * n <=? k then Ok (k, pos)
  else match nth_error evs k with
       | None => UB
       | Some e =>
           if ev_new e then Ok (k, pos)
           else match fuel with O => NoFuel | S fuel => walk_up fuel evs n (S k) (if ev_start e then pos else size_mod (pos - 1)) end
       end.
(** The third loop, 484-489. *)
Fixpoint count_border (evs : list event) (last : nat) (l : list nat) (border : Z) : res Z :=
  match l with
  | [] => Ok border
  | i :: l =>
      match nth_error evs i with
      | None => UB
      | Some e => count_border evs last l (if ev_start e && (ev_index e <? last) then size_mod (border + 1) else border)
      end
  end.
(** DiscountBorderPolygons, polygon_event_point.h 463-490. *)
Definition discount (dbg : bool) (n : nat) (evs : list event) (p : part) : res part :=
  x <- walk_down dbg evs (p_index p) (p_neg p) (p_border p) ;;
  let '(first, neg, border) := x in
  y <- walk_up (2 * n) evs n (S (p_index p)) (p_pos p) ;;
  let '(last, pos) := y in
  border <- count_border evs last (seq (p_index p) (last - p_index p)) border ;;
  Ok (Part (p_index p) (p_cost p) (p_neg_cost p) (p_pos_cost p) neg pos border first last).
(** GetExtraPolygonCount, polygon_event_point.h 165-168. *)
Definition extra_count (p : part) (parent : Z) : Z := size_mod (p_neg p + p_pos p + p_border p - parent).
(** GetSplitPlane, polygon_event_point.h 186-204. *)
Definition split_plane (dbg : bool) (d : nat) (ps : list epoly) (evs : list event) (p : part) : res hspace3 :=
  match nth_error evs (p_index p) with
  | None => UB
  | Some e =>
      _ <- check dbg (negb (ev_start e)) ;;
      l <- ev_location dbg (nth_error evs) ps e ;;
      let num := comp (hv l) d in let den := hw l in
      Ok (if (den <? 0)%Z then hs_axis_aligned d (- num) (- den) else hs_axis_aligned d num den)
  end.
