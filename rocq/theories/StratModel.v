(** Model of BSPTraverser::SplitStrategy, bsp_traverser.h 17-138, which splits the
    leaves that BSPTraverser meets: with event points as long as that is cheap, and
    with BSPNode::Split() from then on.

    Simplifications:
    - BSPNode::Split() is the function [auto] (bn_split_auto of BspModel.v is one);
    - std::make_heap and its like leave choices open: [heap] has those of
      MakeEventPoints and [merge] those of ApplySecondary, for each node and
      dimension;
    - the lists of event points that are freed only recycle memory;
    - the vector of the positive child may be longer than twice the number of its
      polygons; only that many elements are kept here, and reading behind them would
      be [UB] later on. *)
From Coq Require Import ZArith List Bool Arith.
From Verif Require Import BigUIntModel GeoModel RTransModel FilterModel PolyModel BspModel EstModel EvtModel PrimModel SecondModel KdModel.
Import ListNotations.
Open Scope nat_scope.

(** kd_strategy_poly_lower_bound_, None when it is -1, and event_points_. *)
Record strategy := Strat { st_bound : option nat; st_events : nat -> list event }.
(** contents(), negative_child() and positive_child() of a node. *)
Definition contents_of (t : bnode) : list bpoly := match t with BNil => [] | BNode _ cs _ _ _ _ => cs end.
Definition neg_of (t : bnode) : bnode := match t with BNil => BNil | BNode _ _ _ _ n _ => n end.
Definition pos_of (t : bnode) : bnode := match t with BNil => BNil | BNode _ _ _ _ _ p => p end.
Definition infos_of (t : bnode) : list cinfo := match t with BNil => [] | BNode _ _ _ infos _ _ => infos end.
Definition no_events : nat -> list event := fun _ => [].
(** The constructor, lines 19-21. *)
Definition new_strategy (bound : option nat) : strategy := Strat bound no_events.
(** node.Split() with the strategies of the children, lines 35-40 and 80-85. *)
Definition split_rest (auto : bnode -> res bnode) (t : bnode) : res (bnode * (strategy * strategy)) :=
  x <- auto t ;; Ok (x, (new_strategy None, new_strategy None)).
(** InitializeEventPoints, lines 124-131. *)
Definition init_events (dbg : bool) (heap : nat -> nat -> nat) (cs : list bpoly) : res (nat -> list event) :=
  a <- make_events dbg 0 (map (bp_view 0) cs) (heap 0) ;;
  b <- make_events dbg 1 (map (bp_view 1) cs) (heap 1) ;;
  c <- make_events dbg 2 (map (bp_view 2) cs) (heap 2) ;;
  Ok (fun d => match d with O => a | S O => b | _ => c end).
(** The cost of a partition; split_index is -1 for None, see EvtModel.v. *)
Definition cost_of (p : option part) : Z := match p with None => size_max | Some p => p_cost p end.
(** Lines 46-60: the best partition and its dimension. *)
Definition best_split (wide : bool) (excl : option nat) (ec : Z) (evs : nat -> list event) (cs : list bpoly) : res (option part * nat) :=
  a <- lowest_cost wide excl ec (map (bp_view 0) cs) (evs 0) ;;
  b <- lowest_cost wide excl ec (map (bp_view 1) cs) (evs 1) ;;
  let best := if (cost_of b <? cost_of a)%Z then (b, 1) else (a, 0) in
  c <- lowest_cost wide excl ec (map (bp_view 2) cs) (evs 2) ;;
  Ok (if (cost_of c <? cost_of (fst best))%Z then (c, 2) else best).
(** Lines 61-76; the order in which the arguments of std::min are evaluated does
    not matter, since the state of the estimator does not. *)
Definition cost_cutoff (wide : bool) (n : nat) (ec : Z) : res Z :=
  let minority := (Z.of_nat n / 16)%Z in let majority := (Z.of_nat n - minority)%Z in
  a <- estimate wide estimator_init (Z.of_nat n) (size_mod (1 + Z.of_nat n - ec)) ;;
  b <- estimate wide (fst a) majority (1 + majority) ;;
  c <- estimate wide (fst b) minority (1 + minority) ;;
  Ok (Z.min (snd a) (size_mod (snd b + snd c))).
(** Lines 95-109, for one dimension. *)
Definition other_events (dbg : bool) (merge : nat -> nat -> nat) (p : part) (negs poss : list bpoly) (pmap : list ref) (evs : nat -> list event) (d : nat) : res (list event * list event) :=
  let n := length pmap in
  apply_secondary dbg d n (map (bp_view d) negs) (map (bp_view d) poss) (Z.to_nat (extra_count p (Z.of_nat n))) pmap (merge d) (64 * (n + length negs + length poss) + 32) (evs d).
(** The event points of a child: those of dimension d, d + 1 and d + 2. *)
Definition three (d : nat) (a b c : list event) : nat -> list event := fun k => if k =? d then a else if k =? (d + 1) mod 3 then b else c.
(** Lines 87-112. *)
Definition split_events (dbg : bool) (merge : nat -> nat -> nat) (bound : nat) (evs : nat -> list event) (p : part) (d : nat) (t : bnode) : res (bnode * (strategy * strategy)) :=
  x <- bn_split_kd dbg d (evs d) p t ;;
  let negs := contents_of (neg_of (fst x)) in let poss := contents_of (pos_of (fst x)) in
  a <- read_events (s_neg (snd x)) (length (s_neg (snd x))) ;;
  b <- read_events (map Some (s_ev (snd x))) (length poss * 2) ;;
  pmap <- filled (s_map (snd x)) ;;
  y <- other_events dbg merge p negs poss pmap evs ((d + 1) mod 3) ;;
  z <- other_events dbg merge p negs poss pmap evs ((d + 2) mod 3) ;;
  Ok (fst x, (Strat (Some bound) (three d a (fst y) (fst z)), Strat (Some bound) (three d b (snd y) (snd z)))).
(** Split, lines 29-113. *)
Definition strat_split (dbg wide : bool) (auto : bnode -> res bnode) (heap merge : bnode -> nat -> nat -> nat) (st : strategy) (t : bnode) : res (bnode * (strategy * strategy)) :=
  let cs := contents_of t in
  let n := length cs in
  match st_bound st with
  | None => split_rest auto t
  | Some bound =>
      if n <=? bound then split_rest auto t
      else
        evs <- (if length (st_events st 0) =? 0 then init_events dbg (heap t) cs else Ok (st_events st)) ;;
        let exclude := cost_exclude (infos_of t) in
        let excl := option_map fst exclude in
        let ec := match exclude with None => 0 | Some x => snd x end in
        _ <- check dbg (ec <=? n) ;;
        best <- best_split wide excl (Z.of_nat ec) evs cs ;;
        match fst best with
        | None => UB
        | Some p =>
            let d := snd best in
            cutoff <- cost_cutoff wide n (Z.of_nat ec) ;;
            p <- discount dbg n (evs d) p ;;
            if ((cutoff <=? p_cost p) && (p_border p =? 0))%Z then split_rest auto t
            else split_events dbg (merge t) bound evs p d t
        end
  end.
