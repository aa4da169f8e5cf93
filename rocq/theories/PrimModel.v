(** Model of PolygonEventPointPartition::ApplyPrimary, polygon_event_point.h
    492-738, and of IsNewLocationCorrect, 1074-1097.

    Simplifications:
    - the polygons are of any type, with the operations that are called;
    - static_cast<size_t>(-1) is [Gone]; no index of an array has this value;
    - an entry of an array that is not written yet is [None]; reading it is [UB],
      like an index out of range;
    - the polygon in std::vector::resize is [None];
    - a polygon that was moved away stays in the list. *)
From Coq Require Import ZArith List Bool Arith.
From Verif Require Import BigUIntModel GeoModel EvtModel.
Import ListNotations.
Open Scope nat_scope.

(** The operations on polygons, for one dimension and split plane:
    - the extreme vertices and the id;
    - plane().normal().components()[dimension].IsNegative();
    - SetBoundaryAngles for the whole polygon and on_node_plane, lines 606-611; the
      argument is pos_child;
    - SetAdjacentBoundaryAngles, 629-631 and 689-691; the argument is pos_child;
    - GetSplitInfo with its assertions, CreateSplitChildren and
      SetChildBoundaryAngles, 641-647. *)
Record pops (P : Type) := POps {
  o_view : P -> epoly; o_down : P -> bool; o_border : bool -> P -> res P; o_touch : bool -> P -> res P; o_split : P -> res (P * P) }.
Arguments POps {P}. Arguments o_view {P}. Arguments o_down {P}. Arguments o_border {P}. Arguments o_touch {P}. Arguments o_split {P}.

(** PolygonEventPoint while its index is in use for something else. *)
Inductive ref := Idx (n : nat) | Gone.
Record wev := WE { w_new : bool; w_start : bool; w_ref : ref }.
Definition lift (e : event) : wev := WE (ev_new e) (ev_start e) (Idx (ev_index e)).
Definition get {A} (l : list A) (k : nat) : res A := match nth_error l k with Some x => Ok x | None => UB end.
Definition upd {A} (l : list A) (k : nat) (x : A) : list A := firstn k l ++ x :: skipn (S k) l.
Definition put {A} (l : list A) (k : nat) (x : A) : res (list A) := if k <? length l then Ok (upd l k x) else UB.
Definition idx (r : ref) : res nat := match r with Idx k => Ok k | Gone => UB end.
Definition got {A} (o : option A) : res A := match o with Some x => Ok x | None => UB end.

(** The first [count] entries as events. *)
Fixpoint read_events (l : list (option wev)) (count : nat) : res (list event) :=
  match count with
  | O => Ok []
  | S c => match l with [] => UB | o :: l => w <- got o ;; k <- idx (w_ref w) ;; r <- read_events l c ;; Ok (Ev (w_new w) (w_start w) k :: r) end
  end.
(** IsNewLocationCorrect, 1074-1097. *)
Fixpoint new_location_loop (dbg : bool) (d : nat) (ps : list epoly) (evs : list event) (prev : hpoint3) (l : list event) : res bool :=
  match l with
  | [] => Ok true
  | e :: l =>
    v <- ev_location dbg (nth_error evs) ps e ;;
    _ <- check dbg (hp_compare_comp d prev v <=? 0)%Z ;;
    if Bool.eqb (ev_new e) (hp_equiv_comp d v prev) then Ok false else new_location_loop dbg d ps evs v l
  end.
Definition new_location_correct (dbg : bool) (d : nat) (ps : list epoly) (evs : list event) : res bool :=
  match ps, evs with
  | [], _ => Ok true
  | _, [] => UB
  | _, e :: l => _ <- check dbg (ev_new e) ;; v <- ev_location dbg (nth_error evs) ps e ;; new_location_loop dbg d ps evs v l
  end.
(** assert(IsNewLocationCorrect(...)). *)
Definition assert_new (dbg : bool) (d : nat) (ps : list epoly) (evs : res (list event)) : res unit :=
  if dbg then evs <- evs ;; b <- new_location_correct dbg d ps evs ;; check dbg b else Ok tt.

(** The variables: event_points, neg_event_points, polygon_index_map, neg_polygons,
    pos_polygons, neg_border_polygons, pos_border_polygons, used_extra, neg_used,
    pos_used, neg_new_location, pos_new_location. *)
Record pstate (P : Type) := PS {
  s_ev : list wev; s_neg : list (option wev); s_map : list (option ref); s_negs : list (option P); s_poss : list (option P);
  s_nb : list P; s_pb : list P; s_extra : nat; s_nu : nat; s_pu : nat; s_nn : bool; s_pn : bool }.
Arguments PS {P}. Arguments s_ev {P}. Arguments s_neg {P}. Arguments s_map {P}. Arguments s_negs {P}. Arguments s_poss {P}.
Arguments s_nb {P}. Arguments s_pb {P}. Arguments s_extra {P}. Arguments s_nu {P}. Arguments s_pu {P}. Arguments s_nn {P}. Arguments s_pn {P}.
Definition set_ref (l : list wev) (k : nat) (r : ref) : res (list wev) := w <- get l k ;; put l k (WE (w_new w) (w_start w) r).
Definition set_oref (l : list (option wev)) (k : nat) (r : ref) : res (list (option wev)) := o <- get l k ;; w <- got o ;; put l k (Some (WE (w_new w) (w_start w) r)).

Section Primary.
Context {P : Type} (O : pops P) (dbg : bool) (h : hspace3) (ps : list P) (p : part).
Definition neg_count : nat := Z.to_nat (p_neg p).
Definition pos_count : nat := Z.to_nat (p_pos p).
Definition extra : nat := Z.to_nat (extra_count p (Z.of_nat (length ps))).

(** Lines 570-587: the flags at a new location. *)
Definition at_location (i : nat) (e : wev) (s : pstate P) : res (pstate P) :=
  if w_new e then
    if i =? p_begin p then
      neg <- (if (s_nu s + s_extra s =? neg_count * 2) && (0 <? s_extra s) then
                o <- get (s_neg s) (neg_count * 2 - s_extra s) ;; w <- got o ;;
                put (s_neg s) (neg_count * 2 - s_extra s) (Some (WE true (w_start w) (w_ref w)))
              else Ok (s_neg s)) ;;
      Ok (PS (s_ev s) neg (s_map s) (s_negs s) (s_poss s) (s_nb s) (s_pb s) (s_extra s) (s_nu s) (s_pu s) true (s_extra s =? 0))
    else Ok (PS (s_ev s) (s_neg s) (s_map s) (s_negs s) (s_poss s) (s_nb s) (s_pb s) (s_extra s) (s_nu s) (s_pu s) true true)
  else Ok s.
(** A polygon in the split plane, lines 604-618. *)
Definition start_border (q : nat) (r : P) (e : nat) (s : pstate P) : res (pstate P) :=
  let pos_child := o_down O r in
  r <- o_border O pos_child r ;;
  m <- put (s_map s) q (Some Gone) ;;
  ev <- set_ref (s_ev s) e Gone ;;
  Ok (PS ev (s_neg s) m (s_negs s) (s_poss s) (if pos_child then s_nb s else s_nb s ++ [r]) (if pos_child then s_pb s ++ [r] else s_pb s) (s_extra s) (s_nu s) (s_pu s) (s_nn s) (s_pn s)).
(** A polygon on the positive side, 620-636. *)
Definition start_pos (i q : nat) (r : P) (e : nat) (s : pstate P) : res (pstate P) :=
  ev <- set_ref (s_ev s) e (Idx (s_pu s + length (s_negs s) * 2)) ;;
  m <- put (s_map s) q (Some (Idx (length (s_poss s) + neg_count))) ;;
  r <- (if i <? p_end p then o_touch O true r else Ok r) ;;
  ev <- put ev (s_pu s) (WE (s_pn s) true (Idx (length (s_poss s)))) ;;
  Ok (PS ev (s_neg s) m (s_negs s) (s_poss s ++ [Some r]) (s_nb s) (s_pb s) (s_extra s) (s_nu s) (S (s_pu s)) (s_nn s) false).
(** A polygon on both sides, 640-678. *)
Definition start_both (q : nat) (r : P) (e : nat) (s : pstate P) : res (pstate P) :=
  c <- o_split O r ;;
  negs <- put (s_negs s) (s_extra s) (Some (fst c)) ;;
  poss <- put (s_poss s) (s_extra s) (Some (snd c)) ;;
  m <- put (s_map s) q (Some (Idx (s_extra s))) ;;
  let k := neg_count * 2 - s_extra s - 1 in
  neg <- put (s_neg s) k (Some (WE false false (Idx (s_extra s)))) ;;
  _ <- check dbg (s_nu s <? neg_count * 2 - extra) ;;
  neg <- put neg (s_nu s) (Some (WE (s_nn s) true (Idx k))) ;;
  ev <- set_ref (s_ev s) e (Idx (s_pu s + neg_count * 2)) ;;
  ev <- put ev (s_pu s) (WE (s_extra s =? 0) true (Idx (s_extra s))) ;;
  Ok (PS ev neg m negs poss (s_nb s) (s_pb s) (S (s_extra s)) (S (s_nu s)) (S (s_pu s)) false (s_pn s)).
(** A polygon on the negative side, 680-696. *)
Definition start_neg (q : nat) (r : P) (e : nat) (s : pstate P) : res (pstate P) :=
  ev <- set_ref (s_ev s) e (Idx (s_nu s)) ;;
  m <- put (s_map s) q (Some (Idx (length (s_negs s)))) ;;
  r <- (if p_begin p <=? e then o_touch O false r else Ok r) ;;
  neg <- put (s_neg s) (s_nu s) (Some (WE (s_nn s) true (Idx (length (s_negs s))))) ;;
  Ok (PS ev neg m (s_negs s ++ [Some r]) (s_poss s) (s_nb s) (s_pb s) (s_extra s) (S (s_nu s)) (s_pu s) false (s_pn s)).
(** A start event, 589-698. *)
Definition start_event (i : nat) (w : wev) (s : pstate P) : res (pstate P) :=
  e <- idx (w_ref w) ;;
  f <- get (s_ev s) e ;; q <- idx (w_ref f) ;; r <- get ps q ;;
  let start_pos_side := p_begin p <=? i in
  let end_neg_side := e <? p_end p in
  _ <- check dbg (Bool.eqb end_neg_side (hs_compare h (e_max (o_view O r)) <=? 0)%Z) ;;
  if start_pos_side then if end_neg_side then start_border q r e s else start_pos i q r e s
  else if negb end_neg_side then start_both q r e s else start_neg q r e s.
(** An end event, 700-729. *)
Definition end_event (w : wev) (s : pstate P) : res (pstate P) :=
  match w_ref w with
  | Gone => Ok s
  | Idx k =>
    if k <? length (s_negs s) * 2 then
      _ <- check dbg (k <? s_nu s) ;;
      o <- get (s_neg s) k ;; f <- got o ;;
      _ <- check dbg (w_start f) ;; _ <- check dbg (s_nu s <? neg_count * 2 - extra) ;;
      neg <- put (s_neg s) (s_nu s) (Some (WE (s_nn s) false (w_ref f))) ;;
      neg <- set_oref neg k (Idx (s_nu s)) ;;
      Ok (PS (s_ev s) neg (s_map s) (s_negs s) (s_poss s) (s_nb s) (s_pb s) (s_extra s) (S (s_nu s)) (s_pu s) false (s_pn s))
    else
      let k := k - length (s_negs s) * 2 in
      _ <- check dbg (k <? s_pu s) ;;
      f <- get (s_ev s) k ;;
      ev <- put (s_ev s) (s_pu s) (WE (s_pn s) false (w_ref f)) ;;
      ev <- set_ref ev k (Idx (s_pu s)) ;;
      Ok (PS ev (s_neg s) (s_map s) (s_negs s) (s_poss s) (s_nb s) (s_pb s) (s_extra s) (s_nu s) (S (s_pu s)) (s_nn s) false)
  end.
(** The body of the loop, 568-731. *)
Definition prim_step (i : nat) (s : pstate P) : res (pstate P) :=
  w <- get (s_ev s) i ;;
  s <- at_location i w s ;;
  if w_start w then start_event i w s else end_event w s.
Fixpoint prim_loop (l : list nat) (s : pstate P) : res (pstate P) :=
  match l with [] => Ok s | i :: l => s <- prim_step i s ;; prim_loop l s end.
(** The polygons of a child for the assertions: a polygon of resize has no
    vertices. *)
Fixpoint views (l : list (option P)) : res (list epoly) :=
  match l with [] => Ok [] | o :: l => r <- got o ;; v <- views l ;; Ok (o_view O r :: v) end.
(** ApplyPrimary, 492-738; [d] is the dimension, [evs] and [ps] the event points and
    the polygons.  The result is the state at the end. *)
Definition apply_primary (d : nat) (evs : list event) : res (pstate P) :=
  let n := length ps in
  let vs := map (o_view O) ps in
  _ <- check dbg (p_index p <? n * 2) ;;
  _ <- (if dbg then e <- get evs (p_index p) ;; check dbg (negb (ev_start e)) else Ok tt) ;;
  _ <- (if dbg then h' <- split_plane dbg d vs evs p ;; b <- hs_eq h h' ;; check dbg b else Ok tt) ;;
  _ <- assert_new dbg d vs (Ok evs) ;;
  s <- prim_loop (seq 0 (n * 2)) (PS (map lift evs) (repeat None (neg_count * 2)) (repeat None n) (repeat None extra) (repeat None extra) [] [] 0 0 0 true true) ;;
  _ <- check dbg (s_nu s + s_extra s =? length (s_negs s) * 2) ;;
  _ <- check dbg (s_pu s =? length (s_poss s) * 2) ;;
  _ <- (if dbg then vs <- views (s_negs s) ;; assert_new dbg d vs (read_events (s_neg s) (length (s_negs s) * 2)) else Ok tt) ;;
  _ <- (if dbg then vs <- views (s_poss s) ;; assert_new dbg d vs (read_events (map Some (s_ev s)) (length (s_poss s) * 2)) else Ok tt) ;;
  Ok s.
End Primary.
