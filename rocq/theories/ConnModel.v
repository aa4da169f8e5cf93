(** Executable model of EdgeLineConnector::ConnectEdgesInLine
    (include/walnut/edge_line_connector.h) with the members of ConnectedEdge that
    it uses (include/walnut/connected_polygon.h).

    The half-edges of the input are numbered.  An iterator into the map of the
    active edges is the number of the half-edge of that entry, map::end is None.
    MaybeSplitEdge splits edges of polygons; the edges that a half-edge has become
    are its pieces, and a pointer or deed to an edge is the number of its piece.
    Following such a pointer to something that is not there is UB. *)
From Coq Require Import List Bool Arith ZArith.
From Verif Require Import BigUIntModel GeoModel.
Import ListNotations.
Open Scope Z_scope.

(** What is read from an edge and its polygon: line().d(), vertex(),
    next_vertex(), polygon().normal(). *)
Record half := Half { h_dir : vec3; h_from : hpoint3; h_to : hpoint3; h_normal : vec3 }.
(** IsPositive, connected_polygon.h 79-83. *)
Definition h_pos (s : nat) (h : half) : bool := 0 <=? zget_sign (comp (h_dir h) s).
(** GetBeginLocation and GetEndLocation, 102-109 and 130-140. *)
Definition h_begin (s : nat) (h : half) : hpoint3 := if h_pos s h then h_from h else h_to h.
Definition h_end (s : nat) (h : half) : hpoint3 := if h_pos s h then h_to h else h_from h.
(** IsLocationLessThan, edge_line_connector.h 318-323. *)
Definition loc_lt (s : nat) (a b : hpoint3) : bool := rat_lt (comp (hv a) s) (hw a) (comp (hv b) s) (hw b).
(** ActiveEdgeKey, 326-352: pos_edge and projected_polygon_normal, operator<. *)
Definition key := (bool * vec2)%type.
Definition key_lt (a b : key) : res bool :=
  same <- v2_same_dir (snd a) (snd b) ;;
  Ok (if negb same then v2_rotation_lt (snd a) (snd b)
      else if negb (Bool.eqb (fst a) (fst b)) then negb (fst b) && fst a else false).
(** The key of a half-edge, 234-244. *)
Definition h_key (s : nat) (h : half) : key :=
  let n := drop_dim (h_normal h) s in (h_pos s h, if h_pos s h then n else v2_neg n).

(** An edge of a polygon: a part of the half-edge [p_edge]. *)
Record piece := Piece { p_edge : nat; p_from : hpoint3; p_to : hpoint3; p_partner : option nat }.
(** An entry of ActiveEdgeMap, 354-372. *)
Record active := Act { a_id : nat; a_key : key; a_piece : nat; a_partner : option nat; a_cur : bool }.
(** The calls of error: 251-256 and 493-502. *)
Inductive cerror := SameNormal | SamePolarity.
(** [c_active] is in the order of the map; the end of need_partners_ is the head of
    [c_need].  end_events_ has the same entries as the map (assertion in 225). *)
Record cstate := CS { c_pieces : list piece; c_active : list active; c_need : list nat; c_errors : list cerror }.
Definition with_active (st : cstate) (l : list active) : cstate := CS (c_pieces st) l (c_need st) (c_errors st).
Definition with_pieces (st : cstate) (l : list piece) : cstate := CS l (c_active st) (c_need st) (c_errors st).
Definition with_need (st : cstate) (l : list nat) : cstate := CS (c_pieces st) (c_active st) l (c_errors st).
Definition with_error (st : cstate) (e : cerror) : cstate := CS (c_pieces st) (c_active st) (c_need st) (c_errors st ++ [e]).

(** ** The map *)
Definition of_option {A} (o : option A) : res A := match o with Some a => Ok a | None => UB end.
Definition get_act (l : list active) (id : nat) : res active := of_option (find (fun a => (a_id a =? id)%nat) l).
Definition set_act (l : list active) (id : nat) (f : active -> active) : list active := map (fun a => if (a_id a =? id)%nat then f a else a) l.
Definition set_partner (p : option nat) (a : active) : active := Act (a_id a) (a_key a) (a_piece a) p (a_cur a).
Definition set_piece (p : nat) (a : active) : active := Act (a_id a) (a_key a) p (a_partner a) (a_cur a).
Definition set_cur (c : bool) (a : active) : active := Act (a_id a) (a_key a) (a_piece a) (a_partner a) c.
(** emplace: None if there already is an entry with this key. *)
Fixpoint emplace (l : list active) (n : active) : res (option (list active)) :=
  match l with
  | [] => Ok (Some [n])
  | a :: r =>
    lt <- key_lt (a_key a) (a_key n) ;;
    if lt then o <- emplace r n ;; Ok (match o with Some r' => Some (a :: r') | None => None end)
    else gt <- key_lt (a_key n) (a_key a) ;; Ok (if gt then Some (n :: a :: r) else None)
  end.
(** The entries before and after an entry, going round at the ends, 459-474. *)
Fixpoint after (l : list active) (id first : nat) : option nat :=
  match l with
  | [] => None
  | a :: r => if (a_id a =? id)%nat then Some (match r with [] => first | b :: _ => a_id b end) else after r id first
  end.
Definition next_around (l : list active) (id : nat) : res nat := of_option (match l with [] => None | a :: _ => after l id (a_id a) end).
Definition prev_around (l : list active) (id : nat) : res nat := next_around (rev l) id.

(** ** Pieces *)
Definition get_piece (st : cstate) (i : nat) : res piece := of_option (nth_error (c_pieces st) i).
Definition set_nth {A} (l : list A) (i : nat) (x : A) : list A := firstn i l ++ x :: skipn (S i) l.
Definition upd_piece (st : cstate) (i : nat) (f : piece -> piece) : res cstate :=
  p <- get_piece st i ;; Ok (with_pieces st (set_nth (c_pieces st) i (f p))).
Definition link (q : option nat) (p : piece) : piece := Piece (p_edge p) (p_from p) (p_to p) q.
(** GetEndLocation of the edge of an entry. *)
Definition act_end (st : cstate) (a : active) : res hpoint3 := p <- get_piece st (a_piece a) ;; Ok (if fst (a_key a) then p_to p else p_from p).
Fixpoint act_ends (st : cstate) (l : list active) : res (list (nat * hpoint3)) :=
  match l with [] => Ok [] | a :: r => e <- act_end st a ;; t <- act_ends st r ;; Ok ((a_id a, e) :: t) end.
(** The front of the heap end_events_: an entry whose end is the lowest one.
    Which of several equal ones, and in which order they are popped, depends on
    the heap; [ord] stands for it. *)
Definition lowest (s : nat) (l : list (nat * hpoint3)) : list (nat * hpoint3) :=
  filter (fun x => forallb (fun y => negb (loc_lt s (snd y) (snd x))) l) l.
Definition front_end (s : nat) (ord : list (nat * hpoint3) -> list (nat * hpoint3)) (st : cstate) : res (option hpoint3) :=
  es <- act_ends st (c_active st) ;; Ok (match ord (lowest s es) with [] => None | x :: _ => Some (snd x) end).

(** MaybeSplitEdge, 534-553, and ConvexPolygon::SplitEdge, convex_polygon.h
    575-600, whose assertions compare the points along the line.  The edge keeps
    the part up to the point and a new edge gets the part after it. *)
Definition maybe_split (dbg : bool) (s : nat) (st : cstate) (id : nat) (loc : hpoint3) : res cstate :=
  e <- get_act (c_active st) id ;;
  if a_cur e then Ok st
  else
    p <- get_piece st (a_piece e) ;;
    let pos := fst (a_key e) in
    _ <- check dbg (if pos then loc_lt s (p_from p) loc && loc_lt s loc (p_to p) else loc_lt s loc (p_from p) && loc_lt s (p_to p) loc) ;;
    let new := length (c_pieces st) in
    if pos then
      Ok (with_active (with_pieces st (set_nth (c_pieces st) (a_piece e) (Piece (p_edge p) (p_from p) loc (p_partner p)) ++ [Piece (p_edge p) loc (p_to p) None]))
            (set_act (c_active st) id (set_piece new)))
    else
      let st' := with_pieces st (set_nth (c_pieces st) (a_piece e) (Piece (p_edge p) (p_from p) loc None) ++ [Piece (p_edge p) loc (p_to p) (p_partner p)]) in
      match p_partner p with Some q => upd_piece st' q (link (Some new)) | None => Ok st' end.

(** ProcessEndEvents, 401-443. *)
Fixpoint finish_edges (dbg : bool) (st : cstate) (ids : list nat) : res cstate :=
  match ids with
  | [] => Ok st
  | id :: r =>
    e <- get_act (c_active st) id ;;
    st' <- match a_partner e with
           | Some p =>
             q <- get_act (c_active st) p ;;
             _ <- check dbg (match a_partner q with Some i => (i =? id)%nat | None => false end) ;;
             Ok (with_need (with_active st (set_act (c_active st) p (set_partner None))) (p :: p :: c_need st))
           | None => Ok st
           end ;;
    finish_edges dbg (with_active st' (set_act (c_active st') id (set_partner (Some id)))) r
  end.
(** RemoveFinishedEdgesFromNeedPartners, 557-564: which entries point to
    themselves. *)
Definition marked (l : list active) (id : nat) : bool :=
  match find (fun a => (a_id a =? id)%nat) l with Some a => match a_partner a with Some i => (i =? id)%nat | None => false end | None => false end.
Definition end_events (dbg : bool) (ord : list (nat * hpoint3) -> list (nat * hpoint3)) (st : cstate) (loc : hpoint3) : res cstate :=
  es <- act_ends st (c_active st) ;;
  let ids := map fst (ord (filter (fun x => hp_eq (snd x) loc) es)) in
  st' <- finish_edges dbg st ids ;;
  let need := filter (fun i => negb (marked (c_active st') i)) (c_need st') in
  Ok (with_active (with_need st' need) (filter (fun a => negb (existsb (Nat.eqb (a_id a)) ids)) (c_active st'))).

(** ProcessNeedPartners, 446-532. *)
Definition unpartner (dbg : bool) (st : cstate) (id other : nat) : res cstate :=
  e <- get_act (c_active st) id ;;
  match a_partner e with
  | None => Ok st
  | Some old =>
    _ <- check dbg (negb (old =? id)%nat && negb (old =? other)%nat) ;;
    Ok (with_need (with_active st (set_act (c_active st) id (set_partner None))) (old :: c_need st))
  end.
Definition piece_free (dbg : bool) (st : cstate) (id : nat) : res nat :=
  e <- get_act (c_active st) id ;; p <- get_piece st (a_piece e) ;; _ <- check dbg (match p_partner p with None => true | _ => false end) ;; Ok (a_piece e).
Fixpoint need_partners (dbg : bool) (s fuel : nat) (loc : hpoint3) (st : cstate) : res cstate :=
  match c_need st with
  | [] => Ok st
  | id :: rest =>
    match fuel with
    | O => NoFuel
    | S f =>
      let st := with_need st rest in
      e <- get_act (c_active st) id ;;
      t <- (if fst (a_key e) then prev_around (c_active st) id else next_around (c_active st) id) ;;
      if match a_partner e with Some p => (p =? t)%nat | None => false end then need_partners dbg s f loc st
      else
        st <- unpartner dbg st id t ;;
        n <- get_act (c_active st) t ;;
        if Bool.eqb (fst (a_key e)) (fst (a_key n)) then
          st <- maybe_split dbg s (with_error st SamePolarity) id loc ;;
          _ <- piece_free dbg st id ;;
          need_partners dbg s f loc st
        else
          st <- unpartner dbg st t id ;;
          let st := with_active st (set_act (set_act (c_active st) id (set_partner (Some t))) t (set_partner (Some id))) in
          st <- maybe_split dbg s st id loc ;;
          st <- maybe_split dbg s st t loc ;;
          a <- piece_free dbg st id ;;
          b <- piece_free dbg st t ;;
          st <- upd_piece st a (link (Some b)) ;;
          st <- upd_piece st b (link (Some a)) ;;
          need_partners dbg s f loc st
    end
  end.
Definition all_partners (dbg : bool) (s : nat) (loc : hpoint3) (st : cstate) : res cstate :=
  need_partners dbg s (length (c_need st) + length (c_active st)) loc st.

(** The begin events at one location, 231-258. *)
Fixpoint begin_events (s : nat) (st : cstate) (loc : hpoint3) (rest : list (nat * half)) : res (cstate * list (nat * half)) :=
  match rest with
  | [] => Ok (st, [])
  | (i, h) :: r =>
    if hp_eq (h_begin s h) loc then
      o <- emplace (c_active st) (Act i (h_key s h) i None true) ;;
      match o with
      | Some l => begin_events s (with_need (with_active st l) (i :: c_need st)) loc r
      | None => begin_events s (with_error st SameNormal) loc r
      end
    else Ok (st, rest)
  end.
(** ConnectEdgesInLine, 189-281: the second loop, then the first one. *)
Fixpoint finish_line (dbg : bool) (s : nat) (ord : list (nat * hpoint3) -> list (nat * hpoint3)) (fuel : nat) (st : cstate) : res cstate :=
  loc <- front_end s ord st ;;
  match loc with
  | None => Ok st
  | Some loc =>
    match fuel with
    | O => NoFuel
    | S f => st <- end_events dbg ord st loc ;; st <- all_partners dbg s loc st ;; finish_line dbg s ord f st
    end
  end.
Fixpoint sweep_line (dbg : bool) (s : nat) (ord : list (nat * hpoint3) -> list (nat * hpoint3)) (fuel : nat) (prev : option hpoint3) (st : cstate) (rest : list (nat * half)) : res cstate :=
  match rest with
  | [] => finish_line dbg s ord (length (c_active st)) st
  | (_, h) :: _ =>
    match fuel with
    | O => NoFuel
    | S f =>
      front <- front_end s ord st ;;
      x <- match front with
           | None => Ok (h_begin s h, st)
           | Some e => if loc_lt s (h_begin s h) e then Ok (h_begin s h, st) else st' <- end_events dbg ord st e ;; Ok (e, st')
           end ;;
      let loc := fst x in
      _ <- check dbg (match prev with None => true | Some p => loc_lt s p loc || negb (loc_lt s loc p) end) ;;
      y <- begin_events s (snd x) loc rest ;;
      st <- all_partners dbg s loc (fst y) ;;
      sweep_line dbg s ord f (Some loc) (with_active st (map (set_cur false) (c_active st))) (snd y)
    end
  end.
Fixpoint number {A} (i : nat) (l : list A) : list (nat * A) := match l with [] => [] | a :: r => (i, a) :: number (S i) r end.
(** The edges start without partners (in the code ResetPartners, 247). *)
Definition whole (i : nat) (h : half) : piece := Piece i (h_from h) (h_to h) None.
Definition connect_line (dbg : bool) (s : nat) (ord : list (nat * hpoint3) -> list (nat * hpoint3)) (hs : list half) : res cstate :=
  sweep_line dbg s ord (2 * length hs) None (CS (map (fun x => whole (fst x) (snd x)) (number 0 hs)) [] [] []) (number 0 hs).
