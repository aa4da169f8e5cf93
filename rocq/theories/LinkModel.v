(** Executable model of connected polygons (include/walnut/connected_polygon.h,
    ConvexPolygon::TryMergePolygon and TryMergeEdge of convex_polygon.h for them,
    and the merging loop of connecting_visitor.h).

    An edge object has a number that follows it when it is moved: the move
    constructor and the move assignment (connected_polygon.h 28-36, 179-195)
    redirect the partner to the new address.  A pointer to an edge is its number;
    following the pointer to an edge that no longer exists is UB.  Polygons are
    numbered by their position in the list. *)
From Coq Require Import List Bool Arith ZArith.
From Verif Require Import BigUIntModel GeoModel PolyModel PolyOpsModel ConnPlaneModel.
Import ListNotations.
Open Scope nat_scope.

(** ConnectedEdge, 236-240: which edge it is, polygon_ and partner_. *)
Record cdata := CD { c_id : nat; c_poly : nat; c_partner : option nat }.
Definition mesh := list (poly cdata).
Definition eid (e : pedge cdata) : nat := c_id (pd e).

(** Where the edge object is: its polygon and its index. *)
Fixpoint index_in (id : nat) (l : list (pedge cdata)) : option nat :=
  match l with [] => None | e :: l => if eid e =? id then Some 0 else option_map S (index_in id l) end.
Fixpoint place (id : nat) (st : mesh) : option (nat * nat) :=
  match st with
  | [] => None
  | p :: st => match index_in id (pedges p) with Some k => Some (0, k) | None => option_map (fun x => (S (fst x), snd x)) (place id st) end
  end.
Definition poly_at (st : mesh) (i : nat) : res (poly cdata) := match nth_error st i with Some p => Ok p | None => UB end.
Definition deref (st : mesh) (id : nat) : res (pedge cdata) :=
  match place id st with Some (i, k) => p <- poly_at st i ;; pedge_at p k | None => UB end.
(** polygon() and edge_index(), 58-77: a difference of pointers into the vector of
    the polygon that polygon_ refers to. *)
Definition index_of (st : mesh) (id : nat) : res (nat * nat) :=
  match place id st with
  | Some (i, k) => e <- deref st id ;; if c_poly (pd e) =? i then Ok (i, k) else UB
  | None => UB
  end.
Definition upd {B} (l : list B) (i : nat) (x : B) : list B := firstn i l ++ x :: skipn (S i) l.
Definition set_edges (p : poly cdata) (es : list (pedge cdata)) : poly cdata := Poly (pplane p) (pdrop p) es.
(** An assignment to a field of the edge. *)
Definition modify (st : mesh) (id : nat) (f : cdata -> cdata) : res mesh :=
  match place id st with
  | Some (i, k) =>
    p <- poly_at st i ;; e <- pedge_at p k ;;
    Ok (upd st i (set_edges p (upd (pedges p) k (PE (pv e) (pl e) (f (pd e))))))
  | None => UB
  end.
Definition set_partner (o : option nat) (d : cdata) : cdata := CD (c_id d) (c_poly d) o.
Definition set_poly (i : nat) (d : cdata) : cdata := CD (c_id d) i (c_partner d).

(** ConvexPolygonEdge::CanMerge, convex_polygon_edge.h 146-150, and
    ConnectedEdge::CanMerge, connected_polygon.h 143-167.  EdgeInfoRoot::CanMerge
    is always true.  [fuel] bounds the calls for partners. *)
Fixpoint can_merge (fuel : nat) (dbg : bool) (st : mesh) (a b : nat) : res bool :=
  ea <- deref st a ;; eb <- deref st b ;;
  _ <- (if dbg then s <- v3_same_dir (ld (pl ea)) (ld (pl eb)) ;; _ <- check dbg s ;; check dbg (pl_coincident (pl ea) (pv eb)) else Ok tt) ;;
  match c_partner (pd ea), c_partner (pd eb) with
  | Some pa, Some pb =>
    epa <- deref st pa ;; epb <- deref st pb ;;
    if negb (c_poly (pd epa) =? c_poly (pd epb)) then Ok false
    else
      _ <- index_of st pa ;; _ <- index_of st pb ;;
      _ <- check dbg (match c_partner (pd epa) with Some x => x =? a | None => false end) ;;
      st' <- modify st pa (set_partner None) ;;
      match fuel with O => NoFuel | S f => can_merge f dbg st' pb pa end
  | _, _ => Ok true
  end.
(** TryMergeEdge, convex_polygon.h 721-731, with ConnectedEdge::Merge and
    MergeConnectedEdge, connected_polygon.h 197-210 and 459-464.  Merge asserts
    CanMerge again before it changes anything, which has the same result. *)
Fixpoint merge_edge (fuel : nat) (dbg : bool) (st : mesh) (i k : nat) : res (mesh * bool) :=
  p <- poly_at st i ;;
  _ <- check dbg (k <? pcount p) ;;
  if pcount p =? 0 then UB else
  let n := S k mod pcount p in
  a <- pedge_at p k ;; b <- pedge_at p n ;;
  can <- can_merge 1 dbg st (eid a) (eid b) ;;
  if negb can then Ok (st, false)
  else
    st <- match c_partner (pd b) with
          | None => Ok st
          | Some pb =>
            match c_partner (pd a) with
            | None => UB
            | Some pa =>
              st <- modify st pa (set_partner None) ;;
              st <- modify st (eid a) (set_partner (Some pb)) ;;
              st <- modify st pb (set_partner (Some (eid a))) ;;
              st <- modify st (eid b) (set_partner None) ;;
              x <- index_of st pb ;;
              match fuel with
              | O => NoFuel
              | S f => r <- merge_edge f dbg st (fst x) (snd x) ;; _ <- check dbg (snd r) ;; Ok (fst r)
              end
            end
          end ;;
    p <- poly_at st i ;;
    Ok (upd st i (set_edges p (firstn n (pedges p) ++ skipn (S n) (pedges p))), true).
(** TryMergePolygon, convex_polygon.h 605-719.  The polygons are different
    objects.  The edge [k] is overwritten and the edge [m] is destroyed with the
    vector of the other polygon; EdgeMoved, connected_polygon.h 212-216, is called
    for the edges that have come. *)
Definition merge_polygon (dbg : bool) (st : mesh) (nz i k j m : nat) : res (mesh * bool) :=
  p <- poly_at st i ;; o <- poly_at st j ;;
  let np := pcount p in let no := pcount o in
  if (i =? j) || (np =? 0) || (no =? 0) then UB else
  a <- pedge_at p k ;; b <- pedge_at o m ;;
  _ <- check dbg (negb (comp (ld (pl a)) nz =? 0)%Z) ;;
  a' <- pvertex o (S m mod no) ;; _ <- check dbg (hp_eq (pv a) a') ;;
  b' <- pvertex p (S k mod np) ;; _ <- check dbg (hp_eq (pv b) b') ;;
  same <- v2_same_dir (drop_dim (hn (pplane p)) nz) (drop_dim (hn (pplane o)) nz) ;;
  if negb same then Ok (st, false)
  else
    my_prev <- pedge_at p ((k + np - 1) mod np) ;; other_next <- pedge_at o ((m + 1 + no) mod no) ;;
    my_next <- pedge_at p ((k + 1 + np) mod np) ;; other_prev <- pedge_at o ((m + no - 1) mod no) ;;
    match merge_twist (pdrop p) nz (pnormal_drop p) (ld (pl my_prev)) (ld (pl other_next)),
          merge_twist (pdrop p) nz (pnormal_drop p) (ld (pl other_prev)) (ld (pl my_next)) with
    | Some t1, Some t2 =>
        let moved := map (fun e => PE (pv e) (pl e) (set_poly i (pd e))) (skipn (S m) (pedges o) ++ firstn m (pedges o)) in
        let q := set_edges p (firstn k (pedges p) ++ moved ++ skipn (S k) (pedges p)) in
        let st := upd (upd st i q) j (set_edges o []) in
        r <- (if (t1 =? 0)%Z then merge_edge 1 dbg st i ((k + pcount q - 1) mod pcount q) else Ok (st, false)) ;;
        if (t2 =? 0)%Z then r2 <- merge_edge 1 dbg (fst r) i (k + no - 2 - (if snd r then 1 else 0)) ;; Ok (fst r2, true)
        else Ok (fst r, true)
    | _, _ => Ok (st, false)
    end.
(** The loop of LeaveInteriorNode, connecting_visitor.h 201-214, over the edges of
    the deeds: a deed is empty when its edge is gone.  The assertion of
    IsValidState is not modelled. *)
Fixpoint merge_all (dbg : bool) (drop : nat) (st : mesh) (ids : list nat) : res mesh :=
  match ids with
  | [] => Ok st
  | id :: ids =>
    match place id st with
    | None => merge_all dbg drop st ids
    | Some _ =>
      e <- deref st id ;;
      match c_partner (pd e) with
      | None => merge_all dbg drop st ids
      | Some q =>
        let nz := (if (comp (ld (pl e)) ((drop + 1) mod 3) =? 0)%Z then drop + 2 else drop + 1) mod 3 in
        x <- index_of st id ;; y <- index_of st q ;;
        r <- merge_polygon dbg st nz (fst x) (snd x) (fst y) (snd y) ;;
        merge_all dbg drop (fst r) ids
      end
    end
  end.
(** GetNextAroundVertex, connected_polygon.h 121-127: None is nullptr. *)
Definition next_around (st : mesh) (id : nat) : res (option nat) :=
  e <- deref st id ;;
  match c_partner (pd e) with
  | None => Ok None
  | Some q =>
    x <- index_of st q ;; p <- poly_at st (fst x) ;;
    f <- pedge_at p (S (snd x) mod pcount p) ;; Ok (Some (eid f))
  end.
