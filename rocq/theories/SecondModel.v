(** Model of PolygonEventPointPartition::ApplySecondary and
    CompareHeapLocationToMain, polygon_event_point.h 740-1072, PolygonMergeEvent
    and PolygonMergeEventCompare, 71-134.

    Simplifications:
    - of a polygon only min_vertex(dimension) and max_vertex(dimension) are used, so
      a polygon is an [epoly]; the dimension is fixed;
    - the nested loops are one machine whose states are the heads of the loops;
    - push_heap and pop_heap are known by their contract: the element in front of a
      heap is one that no other element comes before.  Which one is not specified,
      so [c] picks it; a choice that the contract does not allow is [NoFuel], and so
      are too many steps.  The element in front is at the head of the list;
    - pop_heap is called when heap_start->start was just changed, so the range is
      not a heap.  The element is the one that pop_heap removes, so what is left is;
    - static_cast<size_t>(-1) is [None] in a merge event, [Waiting] in an end event of
      event_points and [Gone] in polygon_index_map; static_cast<size_t>(-2) is
      [Skipped].  No index of an array has these values;
    - an entry of a child array that is not written yet is [None]; reading it is
      [UB], like an index out of range. *)
From Coq Require Import ZArith List Bool Arith.
From Verif Require Import BigUIntModel GeoModel EvtModel PrimModel.
Import ListNotations.
Open Scope nat_scope.

(** PolygonMergeEvent, 71-84. *)
Record mevent := ME { m_start : bool; m_pos : bool; m_poly : nat; m_partner : option nat }.
(** PolygonEventPoint of event_points while it is used as temporary storage. *)
Inductive mref := Val (n : nat) | Waiting | Skipped.
Record mainev := MV { v_new : bool; v_start : bool; v_ref : mref }.
Definition main_of (e : event) : mainev := MV (ev_new e) (ev_start e) (Val (ev_index e)).
(** A child: its event points, the number of those in use (neg_used, pos_used) and
    neg_new_location or pos_new_location. *)
Record child := Child { c_arr : list (option event); c_used : nat; c_fresh : bool }.
(** The heads of the loops in lines 822, 825, 872, 874, 907, 945 and 991; AtCompare
    is line 846. *)
Inductive pc := AtTop | AtSkip | AtCompare | AtLoop | AtHeapEnds | AtMainEnds | AtHeapStarts | AtMainStarts.
(** event_points, event_points_pos, the heap, the children, heap_location,
    process_heap_events and process_main_events. *)
Record sstate := SS { s_pc : pc; s_main : list mainev; s_at : nat; s_heap : list mevent; s_kids : bool -> child;
  s_hloc : option hpoint3; s_ph : bool; s_pm : bool }.

Section Secondary.
Context (dbg : bool) (d : nat) (n : nat) (negs poss : list epoly) (extra : nat) (pmap : list ref).
Definition kids (pos : bool) : list epoly := if pos then poss else negs.

(** PolygonMergeEvent::GetLocation, 86-101. *)
Definition h_loc (e : mevent) : res hpoint3 :=
  match nth_error (kids (m_pos e)) (m_poly e) with None => UB | Some r => Ok (if m_start e then e_min r else e_max r) end.
(** PolygonMergeEventCompare::operator(), 117-130: a comes after b. *)
Definition h_after (a b : mevent) : res bool :=
  la <- h_loc a ;; lb <- h_loc b ;;
  let c := hp_compare_comp d la lb in
  Ok (if (0 <? c)%Z then true else if (c <? 0)%Z then false else m_start a && negb (m_start b)).
(** A heap of the elements of [l] with element c in front. *)
Definition settle (c : nat) (l : list mevent) : res (list mevent) :=
  match l with
  | [] => Ok []
  | _ =>
    match nth_error l c with
    | None => NoFuel
    | Some e =>
        b <- rforall (fun x => y <- h_after e x ;; Ok (negb y)) l ;;
        if b then Ok (e :: firstn c l ++ skipn (S c) l) else NoFuel
    end
  end.
(** polygon_index_map[event_points[e].index.content]. *)
Definition mapped (ev : list mainev) (e : nat) : res ref :=
  f <- get ev e ;; match v_ref f with Val q => get pmap q | _ => UB end.
Definition val (r : mref) : res nat := match r with Val k => Ok k | _ => UB end.
Definition set_main (ev : list mainev) (k : nat) (r : mref) : res (list mainev) :=
  f <- get ev k ;; put ev k (MV (v_new f) (v_start f) r).
(** The child and the index in it of an index into neg_event_points followed by
    pos_event_points. *)
Definition decode (k : nat) : bool * nat := if k <? length negs * 2 then (false, k) else (true, k - length negs * 2).
Definition encode (pos : bool) (k : nat) : nat := if pos then length negs * 2 + k else k.

(** CompareHeapLocationToMain, 740-796. *)
Definition compare_main (hl : hpoint3) (w : mainev) (ev : list mainev) (K : bool -> child) : res Z :=
  if v_start w then
    e <- val (v_ref w) ;; m <- mapped ev e ;;
    match m with
    | Gone => UB
    | Idx c =>
      v <- (if c <? extra then
              a <- get negs c ;; b <- get poss c ;; Ok (if hp_lt_comp d (e_min a) (e_min b) then e_min a else e_min b)
            else if c <? length negs then a <- get negs c ;; Ok (e_min a)
            else _ <- check dbg (c - length negs <? length poss) ;; b <- get poss (c - length negs) ;; Ok (e_min b)) ;;
      Ok (hp_compare_comp d hl v)
    end
  else
    match v_ref w with
    | Waiting => Ok (-1)%Z
    | Skipped => UB
    | Val k =>
      let (b, j) := decode k in
      o <- get (c_arr (K b)) j ;; f <- got o ;; r <- get (kids b) (ev_index f) ;;
      Ok (hp_compare_comp d hl (e_max r))
    end.

Definition set_kid (K : bool -> child) (b : bool) (c : child) : bool -> child := fun x => if Bool.eqb x b then c else K x.
(** Writing the next event of a child, 876-883, 886-891, 915-923, 925-936, 956-961,
    969-974, 1039-1046 and 1050-1059. *)
Definition emit (start : bool) (b : bool) (i : nat) (K : bool -> child) : res (bool -> child) :=
  let c := K b in
  _ <- check (dbg && b) (c_used c <? length poss * 2) ;;
  a <- put (c_arr c) (c_used c) (Some (Ev (c_fresh c) start i)) ;;
  Ok (set_kid K b (Child a (S (c_used c)) false)).
(** Linking a start event of a child with the next event, the end event: 877, 885,
    918 and 931. *)
Definition link (b : bool) (k : nat) (K : bool -> child) : res (bool -> child) :=
  let c := K b in
  o <- get (c_arr c) k ;; f <- got o ;;
  a <- put (c_arr c) k (Some (Ev (ev_new f) (ev_start f) (c_used c))) ;;
  Ok (set_kid K b (Child a (c_used c) (c_fresh c))).
(** process_heap_events after the heap has changed, 895-900 and 983-988. *)
Definition still (hl : option hpoint3) (heap : list mevent) : res bool :=
  match heap with
  | [] => Ok false
  | h :: _ => match hl with None => UB | Some x => y <- h_loc h ;; Ok (hp_equiv_comp d x y) end
  end.
(** process_main_events after a main event, 939-942 and 1062-1065. *)
Definition main_still (ev : list mainev) (p : nat) : res bool :=
  if p =? n * 2 then Ok false else w <- get ev p ;; Ok (negb (v_new w)).

(** Lines 825-845: one event of a border polygon, or the end of the loop. *)
Definition skip_step (s : sstate) : res sstate :=
  let next := SS AtCompare (s_main s) (s_at s) (s_heap s) (s_kids s) (s_hloc s) (s_ph s) (s_pm s) in
  if s_at s <? n * 2 then
    w <- get (s_main s) (s_at s) ;;
    if v_start w then
      e <- val (v_ref w) ;; m <- mapped (s_main s) e ;;
      match m with
      | Gone => ev <- set_main (s_main s) e Skipped ;; Ok (SS AtSkip ev (S (s_at s)) (s_heap s) (s_kids s) (s_hloc s) (s_ph s) (s_pm s))
      | Idx _ => Ok next
      end
    else match v_ref w with
      | Skipped => Ok (SS AtSkip (s_main s) (S (s_at s)) (s_heap s) (s_kids s) (s_hloc s) (s_ph s) (s_pm s))
      | _ => Ok next
      end
  else Ok next.
Definition fresh (c : child) : child := Child (c_arr c) (c_used c) true.
(** Lines 847-870. *)
Definition compare_step (s : sstate) : res sstate :=
  let K := fun b => fresh (s_kids s b) in
  match s_heap s with
  | [] => Ok (SS AtLoop (s_main s) (s_at s) [] K None false true)
  | h :: _ =>
    x <- h_loc h ;; w <- get (s_main s) (s_at s) ;;
    c <- compare_main x w (s_main s) K ;;
    Ok (SS AtLoop (s_main s) (s_at s) (s_heap s) K (Some x) (c <=? 0)%Z (0 <=? c)%Z)
  end.
(** The loop of 874-901. *)
Definition heap_end_step (c : nat) (s : sstate) : res sstate :=
  let next := SS AtMainEnds (s_main s) (s_at s) (s_heap s) (s_kids s) (s_hloc s) (s_ph s) (s_pm s) in
  if s_ph s then
    match s_heap s with
    | [] => UB
    | h :: l =>
      if m_start h then Ok next
      else match m_partner h with
        | None => UB
        | Some k =>
          K <- link (m_pos h) k (s_kids s) ;; K <- emit false (m_pos h) (m_poly h) K ;;
          l <- settle c l ;; ph <- still (s_hloc s) l ;;
          Ok (SS AtHeapEnds (s_main s) (s_at s) l K (s_hloc s) ph (s_pm s))
        end
    end
  else Ok next.
(** The loop of 907-943. *)
Definition main_end_step (s : sstate) : res sstate :=
  let next := SS AtHeapStarts (s_main s) (s_at s) (s_heap s) (s_kids s) (s_hloc s) (s_ph s) (s_pm s) in
  if s_pm s then
    w <- get (s_main s) (s_at s) ;;
    if v_start w then Ok next
    else match v_ref w with
      | Waiting => Ok next
      | r =>
        K <- match r with
             | Val k =>
               let (b, j) := decode k in
               _ <- check dbg (j <? c_used (s_kids s b)) ;;
               o <- get (c_arr (s_kids s b)) j ;; f <- got o ;;
               K <- link b j (s_kids s) ;; emit false b (ev_index f) K
             | _ => Ok (s_kids s)
             end ;;
        pm <- main_still (s_main s) (S (s_at s)) ;;
        Ok (SS AtMainEnds (s_main s) (S (s_at s)) (s_heap s) K (s_hloc s) (s_ph s) pm)
      end
  else Ok next.
(** The loop of 945-989. *)
Definition heap_start_step (c : nat) (s : sstate) : res sstate :=
  let next := SS AtMainStarts (s_main s) (s_at s) (s_heap s) (s_kids s) (s_hloc s) (s_ph s) (s_pm s) in
  if s_ph s then
    match s_heap s with
    | [] => UB
    | h :: l =>
      if negb (m_start h) then Ok next
      else
        let b := m_pos h in
        let k := c_used (s_kids s b) in
        ev <- match m_partner h with
              | Some e =>
                _ <- (if dbg && b then f <- get (s_main s) e ;; check dbg (negb (v_start f)) else Ok tt) ;;
                set_main (s_main s) e (Val (encode b k))
              | None => Ok (s_main s)
              end ;;
        K <- emit true b (m_poly h) (s_kids s) ;;
        l <- settle c (match m_partner h with Some _ => l | None => l ++ [ME false b (m_poly h) (Some k)] end) ;;
        ph <- still (s_hloc s) l ;;
        Ok (SS AtHeapStarts ev (s_at s) l K (s_hloc s) ph (s_pm s))
    end
  else Ok next.
(** The loop of 991-1066.  More than 2 extra_poly_count elements would be written
    past the end of merge_heap, before the assertion of 1031. *)
Definition main_start_step (c : nat) (s : sstate) : res sstate :=
  let next := SS AtLoop (s_main s) (s_at s) (s_heap s) (s_kids s) (s_hloc s) (s_ph s) (s_pm s) in
  if s_pm s then
    w <- get (s_main s) (s_at s) ;;
    if negb (v_start w) then Ok next
    else
      e <- val (v_ref w) ;; m <- mapped (s_main s) e ;;
      s' <- match m with
            | Gone => ev <- set_main (s_main s) e Skipped ;; Ok (SS AtMainStarts ev (s_at s) (s_heap s) (s_kids s) (s_hloc s) (s_ph s) (s_pm s))
            | Idx i =>
              if i <? extra then
                a <- get negs i ;; b <- get poss i ;;
                let late := (hp_compare_comp d (e_max a) (e_max b) <=? 0)%Z in
                if extra * 2 <? length (s_heap s) + 2 then UB
                else
                  l <- settle c (s_heap s ++ [ME true false i (if late then None else Some e); ME true true i (if late then Some e else None)]) ;;
                  ev <- set_main (s_main s) e Waiting ;;
                  match l with [] => UB | h :: _ => x <- h_loc h ;; Ok (SS AtMainStarts ev (s_at s) l (s_kids s) (Some x) true (s_pm s)) end
              else
                let (b, j) := if i <? length negs then (false, i) else (true, i - length negs) in
                let k := c_used (s_kids s b) in
                K <- emit true b j (s_kids s) ;;
                ev <- set_main (s_main s) e (Val (encode b k)) ;;
                Ok (SS AtMainStarts ev (s_at s) (s_heap s) K (s_hloc s) (s_ph s) (s_pm s))
            end ;;
      pm <- main_still (s_main s') (S (s_at s')) ;;
      Ok (SS AtMainStarts (s_main s') (S (s_at s')) (s_heap s') (s_kids s') (s_hloc s') (s_ph s') pm)
  else Ok next.
(** One step; [inr] at the end of the loops, 822-1068. *)
Definition second_step (c : nat) (s : sstate) : res (sstate + sstate) :=
  let at_pc p := SS p (s_main s) (s_at s) (s_heap s) (s_kids s) (s_hloc s) (s_ph s) (s_pm s) in
  match s_pc s with
  | AtTop =>
    if s_at s <? n * 2 then
      _ <- (if dbg then w <- get (s_main s) (s_at s) ;; check dbg (v_new w) else Ok tt) ;; Ok (inl (at_pc AtSkip))
    else Ok (inr s)
  | AtSkip => s <- skip_step s ;; Ok (inl s)
  | AtCompare => if s_at s =? n * 2 then Ok (inr s) else s <- compare_step s ;; Ok (inl s)
  | AtLoop => Ok (inl (at_pc (if s_ph s || s_pm s then AtHeapEnds else AtTop)))
  | AtHeapEnds => s <- heap_end_step c s ;; Ok (inl s)
  | AtMainEnds => s <- main_end_step s ;; Ok (inl s)
  | AtHeapStarts => s <- heap_start_step c s ;; Ok (inl s)
  | AtMainStarts => s <- main_start_step c s ;; Ok (inl s)
  end.
Fixpoint second_loop (choose : nat -> nat) (fuel : nat) (s : sstate) : res sstate :=
  match fuel with
  | O => NoFuel
  | S f => r <- second_step (choose f) s ;; match r with inl s => second_loop choose f s | inr s => Ok s end
  end.
Fixpoint finished (l : list (option event)) : res (list event) :=
  match l with [] => Ok [] | o :: l => e <- got o ;; r <- finished l ;; Ok (e :: r) end.
(** ApplySecondary, 798-1072; [evs] are the event points of the parent, which has n
    polygons.  The result is the event points of the children. *)
Definition apply_secondary (choose : nat -> nat) (fuel : nat) (evs : list event) : res (list event * list event) :=
  s <- second_loop choose fuel (SS AtTop (map main_of evs) 0 [] (fun b => Child (repeat None (length (kids b) * 2)) 0 true) None false false) ;;
  _ <- check dbg (length (s_heap s) =? 0) ;;
  a <- finished (c_arr (s_kids s false)) ;; b <- finished (c_arr (s_kids s true)) ;;
  _ <- assert_new dbg d negs (Ok a) ;; _ <- assert_new dbg d poss (Ok b) ;;
  Ok (a, b).
End Secondary.
