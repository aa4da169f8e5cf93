(** Model of convex_polygon.h, convex_polygon_edge.h and
    convex_polygon_split_info.h.

    A polygon is its plane, its drop dimension and the vector of its edges; an
    edge is its source vertex, its line and the data of its EdgeParent.  What
    EdgeParent does when an edge is derived from another one is a parameter
    ([einfo]).  BigInt values are integers as in GeoModel.v.

    Simplifications, here and below:
    - vertex indices are [nat]; a size_t holds every index computed as long as
      a polygon has fewer than 2^62 vertices;
    - vector::operator[] out of range is [UB];
    - copies and moves of edges are the same (MemberForward only decides
      whether the parent polygon is left unspecified). *)
From Coq Require Import ZArith List Bool Arith.
From Verif Require Import BigUIntModel GeoModel.
Import ListNotations.
Open Scope nat_scope.

(** ConvexPolygonEdge, convex_polygon_edge.h 22-215. *)
Record pedge (A : Type) := PE { pv : hpoint3; pl : pline; pd : A }.
Arguments PE {A}. Arguments pv {A}. Arguments pl {A}. Arguments pd {A}.
(** What EdgeParent offers, edge_info_root.h 17-60: the three constructors from
    another edge, CanMerge, Merge and operator==. *)
Record einfo (A : Type) := EInfo {
  ei_source : A -> hpoint3 -> A; ei_line : A -> pline -> A; ei_both : A -> hpoint3 -> pline -> A;
  ei_can_merge : A -> A -> bool; ei_merge : A -> A -> A; ei_eq : A -> A -> bool }.
Arguments ei_source {A}. Arguments ei_line {A}. Arguments ei_both {A}. Arguments ei_can_merge {A}. Arguments ei_merge {A}. Arguments ei_eq {A}.
(** EdgeInfoRoot, edge_info_root.h 17-60: no data. *)
Definition edge_info_root : einfo unit := EInfo unit (fun _ _ => tt) (fun _ _ => tt) (fun _ _ _ => tt) (fun _ _ => true) (fun _ _ => tt) (fun _ _ => true).
(** ConvexPolygonEdge(parent_edge, vertex), convex_polygon_edge.h 78-82. *)
Definition edge_source {A} (E : einfo A) (e : pedge A) (v : hpoint3) : pedge A := PE v (pl e) (ei_source E (pd e) v).
(** ConvexPolygonEdge(parent_edge, line), convex_polygon_edge.h 89-92. *)
Definition edge_line {A} (E : einfo A) (e : pedge A) (l : pline) : pedge A := PE (pv e) l (ei_line E (pd e) l).
(** ConvexPolygonEdge(parent_edge, vertex, line), convex_polygon_edge.h 99-102. *)
Definition edge_both {A} (E : einfo A) (e : pedge A) (v : hpoint3) (l : pline) : pedge A := PE v l (ei_both E (pd e) v l).

(** ConvexPolygon, convex_polygon.h 31-752. *)
Record poly (A : Type) := Poly { pplane : hspace3; pdrop : nat; pedges : list (pedge A) }.
Arguments Poly {A}. Arguments pplane {A}. Arguments pdrop {A}. Arguments pedges {A}.
(** vertex_count, convex_polygon.h 135-137. *)
Definition pcount {A} (p : poly A) : nat := length (pedges p).
(** edge, convex_polygon.h 144-146. *)
Definition pedge_at {A} (p : poly A) (i : nat) : res (pedge A) := match nth_error (pedges p) i with Some e => Ok e | None => UB end.
(** vertex, convex_polygon.h 139-141. *)
Definition pvertex {A} (p : poly A) (i : nat) : res hpoint3 := e <- pedge_at p i ;; Ok (pv e).
(** normal().components()[drop_dimension()], convex_polygon.h 166, 170. *)
Definition pnormal_drop {A} (p : poly A) : Z := comp (hn (pplane p)) (pdrop p).

(** ConvexPolygon(plane, drop_dimension, vector<HomoPoint3>), convex_polygon.h
    82-93: the first edge starts at the last vertex.  [d0] is the default
    constructed EdgeParent. *)
Fixpoint chain_edges {A} (d0 : A) (prev : hpoint3) (vs : list hpoint3) : list (pedge A) :=
  match vs with [] => [] | v :: vs => PE prev (pl_of_hpoints prev v) d0 :: chain_edges d0 v vs end.
Definition poly_of_hpoints {A} (d0 : A) (plane : hspace3) (drop : nat) (vs : list hpoint3) : res (poly A) :=
  match vs with [] => UB | v :: _ => Ok (Poly plane drop (chain_edges d0 (last vs v) vs)) end.
(** ConvexPolygon(plane, drop_dimension, vector<Point3>), convex_polygon.h 70-80. *)
Fixpoint chain_edges_pt {A} (d0 : A) (prev : vec3) (vs : list vec3) : list (pedge A) :=
  match vs with [] => [] | v :: vs => PE (HP prev 1) (pl_of_points prev v) d0 :: chain_edges_pt d0 v vs end.
Definition poly_of_points {A} (d0 : A) (plane : hspace3) (drop : nat) (vs : list vec3) : res (poly A) :=
  match vs with [] => UB | v :: _ => Ok (Poly plane drop (chain_edges_pt d0 (last vs v) vs)) end.

(** ConvexPolygon(plane, drop_dimension, HomoPoint3(&&)[n]), convex_polygon.h
    94-105: the first edge starts at the first vertex. *)
Fixpoint array_edges {A} (d0 : A) (first : hpoint3) (vs : list hpoint3) : list (pedge A) :=
  match vs with
  | [] => []
  | v :: vs' => PE v (pl_of_hpoints v (match vs' with [] => first | w :: _ => w end)) d0 :: array_edges d0 first vs'
  end.
Definition poly_of_array {A} (d0 : A) (plane : hspace3) (drop : nat) (vs : list hpoint3) : res (poly A) :=
  match vs with [] => UB | v :: _ => Ok (Poly plane drop (array_edges d0 v vs)) end.

(** ConvexPolygonEdge::IsValidState, convex_polygon_edge.h 123-125
    (HomoPoint3::IsValid: the weight is not 0). *)
Definition edge_valid {A} (e : pedge A) : bool := negb (hw (pv e) =? 0)%Z && pl_valid (pl e) && pl_coincident (pl e) (pv e).
(** IsValidState, convex_polygon.h 107-133. *)
Fixpoint valid_loop {A} (plane : hspace3) (drop : nat) (prev : pedge A) (es : list (pedge A)) : res bool :=
  match es with
  | [] => Ok true
  | e :: es =>
      if negb (edge_valid e) then Ok false
      else if negb (hs_coincident plane (pv e)) then Ok false
      else
        let expected := pl_of_hpoints (pv prev) (pv e) in
        if negb (pl_eq (pl prev) expected) then Ok false
        else same <- v3_same_dir (ld (pl prev)) (ld expected) ;;
        if negb same then Ok false
        else
          let cross := v2_cross (drop_dim (ld (pl prev)) drop) (drop_dim (ld (pl e)) drop) in
          if negb (cross =? 0)%Z && zdiff_sign cross (comp (hn plane) drop) then Ok false
          else valid_loop plane drop e es
  end.
Definition poly_valid_state {A} (p : poly A) : res bool :=
  match pedges p with
  | [] => Ok true
  | e :: _ => if (pnormal_drop p =? 0)%Z then Ok false else valid_loop (pplane p) (pdrop p) (last (pedges p) e) (pedges p)
  end.

(** ** Searches *)
(** line().d().DropDimension(d).Dot(v).GetSign() of edge i. *)
Definition edge_dir {A} (p : poly A) (v : vec2) (d i : nat) : res Z := e <- pedge_at p i ;; Ok (zget_sign (v2_dot (drop_dim (ld (pl e)) d) v)).
(** half_space.Compare(vertex(i).DropDimension(d)). *)
Definition vertex_cmp {A} (p : poly A) (h : hspace2) (d i : nat) : res Z := v <- pvertex p i ;; Ok (hs2_compare h (hp_drop_dim v d)).
(** GetGreaterCycleIndex, convex_polygon.h 246-249. *)
Definition cycle_index (dbg : bool) (n a b : nat) : res nat :=
  _ <- check dbg (a <=? b + n) ;;
  if n =? 0 then UB
  else if a <=? b + n then Ok (a + (b + n - a) mod n)
  else Ok (a + Z.to_nat ((Z.of_nat b - Z.of_nat a + Z.of_nat n + 2 ^ 64) mod Z.of_nat n)).
(** The two scans of GetOppositeEdgeIndicesBisect, convex_polygon.h 876-896. *)
Fixpoint scan_before {A} (dbg : bool) (p : poly A) (v : vec2) (d before : nat) : res (nat * Z) :=
  match before with
  | O => _ <- check dbg false ;; s <- edge_dir p v d O ;; if (s =? 0)%Z then UB else Ok (O, s)
  | S b => s <- edge_dir p v d before ;; if (s =? 0)%Z then scan_before dbg p v d b else Ok (before, s)
  end.
Fixpoint scan_after {A} (p : poly A) (v : vec2) (d : nat) (fuel after : nat) : res nat :=
  match fuel with
  | O => NoFuel
  | S fuel => s <- edge_dir p v d after ;; if (s =? 0)%Z then scan_after p v d fuel (S after) else Ok after
  end.
(** Its binary search, convex_polygon.h 914-939. *)
Fixpoint opposite_loop {A} (p : poly A) (v : vec2) (d : nat) (dist0 w0 : Z) (fuel first last : nat) : res nat :=
  match fuel with
  | O => NoFuel
  | S fuel =>
      let mid := (first + last) / 2 in
      s <- edge_dir p v d mid ;;
      if (s <? 0)%Z then Ok mid
      else x <- pvertex p mid ;;
      let dist := v2_dot (drop_dim (hv x) d) v in
      if zless_than (zdiff_sign w0 (hw x)) (dist0 * hw x) (dist * w0)
      then opposite_loop p v d dist0 w0 fuel (S mid) last
      else opposite_loop p v d dist0 w0 fuel first mid
  end.
(** GetOppositeEdgeIndicesBisect, convex_polygon.h 870-940. *)
Definition opposite_edges {A} (dbg : bool) (p : poly A) (v : vec2) (d : nat) : res (nat * nat) :=
  s0 <- edge_dir p v d 0 ;;
  if (s0 =? 0)%Z then
    b <- scan_before dbg p v d (pcount p - 1) ;;
    a <- scan_after p v d (S (pcount p)) 1 ;;
    Ok (if (0 <? snd b)%Z then (fst b, a) else (a, fst b))
  else
    let flipped := (s0 <? 0)%Z in
    let v' := if flipped then v2_neg v else v in
    x <- pvertex p 0 ;;
    mid <- opposite_loop p v' d (v2_dot (drop_dim (hv x) d) v') (hw x) (S (pcount p)) 1 (pcount p) ;;
    Ok (if flipped then (mid, 0) else (0, mid)).
(** The binary search of GetExtremeIndexBisect, convex_polygon.h 960-968. *)
Fixpoint extreme_loop {A} (p : poly A) (v : vec2) (d : nat) (fuel first last : nat) : res nat :=
  if S first <? last then
    match fuel with
    | O => NoFuel
    | S fuel =>
        let mid := (first + last) / 2 in
        s <- edge_dir p v d (mid mod pcount p) ;;
        if (0 <? s)%Z then extreme_loop p v d fuel mid last else extreme_loop p v d fuel first mid
    end
  else Ok last.
(** GetExtremeIndexBisect(Vector2), convex_polygon.h 942-970; None stands for
    static_cast<size_t>(-1). *)
Definition extreme_index {A} (dbg : bool) (p : poly A) (v : vec2) (d : nat) : res (option nat) :=
  if v2_is_zero v then Ok None
  else
    o <- opposite_edges dbg p v d ;;
    last <- cycle_index dbg (pcount p) (fst o) (snd o) ;;
    r <- extreme_loop p v d (S (pcount p)) (fst o) last ;;
    Ok (Some (r mod pcount p)).
(** GetExtremeIndexBisect(Vector3), convex_polygon.h 289-302. *)
Definition extreme_index3 {A} (dbg : bool) (p : poly A) (v : vec3) : res (option nat) :=
  let a := v2_scale (drop_dim v (pdrop p)) (pnormal_drop p) in
  let b := v2_scale (drop_dim (hn (pplane p)) (pdrop p)) (comp v (pdrop p)) in
  extreme_index dbg p (v2_scale (v2_sub a b) (zabs_mult (pnormal_drop p))) (pdrop p).
(** The binary search of GetPosSideVertex, convex_polygon.h 986-998; the
    result is an index with true if its vertex was seen in the half-space. *)
Fixpoint pos_side_loop {A} (p : poly A) (h : hspace2) (d : nat) (fuel first last : nat) : res (nat * bool) :=
  if S first <? last then
    match fuel with
    | O => NoFuel
    | S fuel =>
        let mid := (first + last) / 2 in
        c <- vertex_cmp p h d (mid mod pcount p) ;;
        if (0 <? c)%Z then Ok (mid, true)
        else s <- edge_dir p (hn2 h) d (mid mod pcount p) ;;
        if (0 <? s)%Z then pos_side_loop p h d fuel mid last else pos_side_loop p h d fuel first mid
    end
  else Ok (last, false).
(** GetPosSideVertex, convex_polygon.h 972-1002. *)
Definition pos_side_vertex {A} (dbg : bool) (p : poly A) (h : hspace2) (d same opp : nat) : res (Z * nat) :=
  last <- cycle_index dbg (pcount p) same opp ;;
  r <- pos_side_loop p h d (S (pcount p)) same last ;;
  if snd r then Ok (1%Z, fst r)
  else c <- vertex_cmp p h d (fst r mod pcount p) ;; Ok (c, fst r mod pcount p).
(** GetNegSideVertex, convex_polygon.h 1004-1011. *)
Definition neg_side_vertex {A} (dbg : bool) (p : poly A) (h : hspace2) (d same opp : nat) : res (Z * nat) :=
  r <- pos_side_vertex dbg p (hs2_neg h) d opp same ;; Ok ((- fst r)%Z, snd r).
(** The binary search of GetLastNegSideVertex, convex_polygon.h 1029-1039. *)
Fixpoint last_neg_loop {A} (p : poly A) (h : hspace2) (d : nat) (fuel first : nat) (type : Z) (last : nat) : res (Z * nat) :=
  if S first <? last then
    match fuel with
    | O => NoFuel
    | S fuel =>
        let mid := (first + last) / 2 in
        c <- vertex_cmp p h d (mid mod pcount p) ;;
        if (c <=? 0)%Z then last_neg_loop p h d fuel mid c last else last_neg_loop p h d fuel first type mid
    end
  else Ok (type, first).
(** GetLastNegSideVertex, convex_polygon.h 1013-1041. *)
Definition last_neg_side {A} (dbg : bool) (p : poly A) (h : hspace2) (d neg : nat) (type : Z) (pos : nat) : res (Z * nat) :=
  last <- cycle_index dbg (pcount p) neg pos ;;
  _ <- check dbg (type <=? 0)%Z ;;
  r <- last_neg_loop p h d (S (pcount p)) neg type last ;;
  Ok (fst r, snd r mod pcount p).
(** GetLastPosSideVertex, convex_polygon.h 430-437. *)
Definition last_pos_side {A} (dbg : bool) (p : poly A) (h : hspace2) (d neg pos : nat) (type : Z) : res (Z * nat) :=
  r <- last_neg_side dbg p (hs2_neg h) d pos (- type)%Z neg ;; Ok ((- fst r)%Z, snd r).

(** ** Splitting *)
(** ConvexPolygonSplitRanges, convex_polygon_split_info.h 15-71. *)
Record split_ranges := SR { neg_range : nat * nat; pos_range : nat * nat }.
Definition emit_neg (r : split_ranges) : bool := negb (fst (neg_range r) =? snd (neg_range r)).
Definition emit_pos (r : split_ranges) : bool := negb (fst (pos_range r) =? snd (pos_range r)).
(** IsValid, convex_polygon_split_info.h 16-45. *)
Definition ranges_valid (r : split_ranges) (n : nat) : bool :=
  let '(n1, n2) := neg_range r in let '(p1, p2) := pos_range r in
  (n1 <=? n2) && (n2 <=? n1 + n) && (p1 <=? p2) && (p2 <=? p1 + n) &&
  (if emit_neg r && emit_pos r
   then ((n2 mod n =? p1 mod n) || (S n2 mod n =? p1 mod n)) && ((p2 mod n =? n1 mod n) || (S p2 mod n =? n1 mod n))
   else true).
(** The do loop that passes over the vertices on the plane, convex_polygon.h
    1222-1225 and 1252-1255: the first index from i on that is not on it. *)
Fixpoint skip_on_plane {A} (p : poly A) (h : hspace2) (d : nat) (fuel i : nat) : res nat :=
  match fuel with
  | O => NoFuel
  | S fuel => c <- vertex_cmp p h d (i mod pcount p) ;; if (c =? 0)%Z then skip_on_plane p h d fuel (S i) else Ok i
  end.
(** FindSplitRangesBisect, convex_polygon.h 1201-1282. *)
Definition split_bisect {A} (dbg : bool) (p : poly A) (h : hspace2) (d : nat) : res split_ranges :=
  _ <- check dbg (negb (comp (hn (pplane p)) d =? 0)%Z) ;;
  _ <- check dbg (negb (v2_is_zero (hn2 h))) ;;
  o <- opposite_edges dbg p (hn2 h) d ;;
  ns <- neg_side_vertex dbg p h d (fst o) (snd o) ;;
  if (0 <=? fst ns)%Z then
    first <- (if (fst ns =? 0)%Z then
                c <- vertex_cmp p h d (snd ns) ;; _ <- check dbg (c =? 0)%Z ;;
                skip_on_plane p h d (S (pcount p)) (S (snd ns))
              else Ok (snd ns)) ;;
    Ok (SR (0, 0) (first, snd ns + pcount p))
  else
    ps <- pos_side_vertex dbg p h d (fst o) (snd o) ;;
    if (fst ps <=? 0)%Z then
      first <- (if (fst ps =? 0)%Z then
                  c <- vertex_cmp p h d (snd ps) ;; _ <- check dbg (c =? 0)%Z ;;
                  skip_on_plane p h d (S (pcount p)) (S (snd ps))
                else Ok (snd ps)) ;;
      Ok (SR (first, snd ps + pcount p) (0, 0))
    else
      nb <- last_neg_side dbg p h d (snd ns) (-1)%Z (snd ps) ;;
      pb <- last_pos_side dbg p h d (snd ns) (snd ps) 1%Z ;;
      n2 <- cycle_index dbg (pcount p) (snd pb) (snd nb) ;;
      p2 <- cycle_index dbg (pcount p) (snd nb) (snd pb) ;;
      Ok (SR (S (snd pb), n2 + (if (fst nb =? 0)%Z then 0 else 1)) (S (snd nb), p2 + (if (fst pb =? 0)%Z then 0 else 1))).
(** The loops of FindSplitRangesLinear: the first index from i on where [stop]
    holds of the comparison, with the comparison; (vertex_count, 0) if there is
    none.  [k] is vertex_count - i. *)
Fixpoint lin_find {A} (p : poly A) (h : hspace2) (d : nat) (stop : Z -> bool) (k i : nat) : res (nat * Z) :=
  match k with
  | O => Ok (i, 0%Z)
  | S k => c <- vertex_cmp p h d i ;; if stop c then Ok (i, c) else lin_find p h d stop k (S i)
  end.
Definition not_on (c : Z) : bool := negb (c =? 0)%Z.
Definition leaves (init c : Z) : bool := (c =? 0)%Z || (Z.lxor init c <? 0)%Z.
Definition comes_back (init c : Z) : bool := (c =? 0)%Z || (0 <=? Z.lxor init c)%Z.
(** first_side and second_side point at neg_range and pos_range, or the other
    way around, convex_polygon.h 1311-1319 and 1371-1379. *)
Definition ranges_by (init : Z) (first second : nat * nat) : split_ranges := if (init <? 0)%Z then SR first second else SR second first.
(** FindSplitRangesLinear, convex_polygon.h 1284-1454. *)
Definition split_linear {A} (dbg : bool) (p : poly A) (h : hspace2) (d : nat) : res split_ranges :=
  let n := pcount p in
  let find := fun stop i => lin_find p h d stop (n - i) i in
  _ <- check dbg (negb (comp (hn (pplane p)) d =? 0)%Z) ;;
  _ <- check dbg (negb (v2_is_zero (hn2 h))) ;;
  _ <- check dbg (0 <? n) ;;
  init <- vertex_cmp p h d 0 ;;
  if (init =? 0)%Z then
    a <- find not_on 1 ;;
    if n <=? fst a then (if dbg then AssertFail else UB)
    else
      let init := snd a in
      b <- find (leaves init) (S (fst a)) ;;
      if fst b =? n then Ok (ranges_by init (fst a, n) (0, 0))
      else
        c <- (if (snd b =? 0)%Z then find not_on (S (fst b)) else Ok b) ;;
        if fst c =? n then Ok (ranges_by init (fst a, fst b) (0, 0))
        else
          e <- find (fun x => (x =? 0)%Z) (S (fst c)) ;;
          Ok (ranges_by init (fst a, fst b) (fst c, fst e))
  else
    b <- find (leaves init) 1 ;;
    if fst b =? n then Ok (ranges_by init (0, n) (0, 0))
    else
      c <- (if (snd b =? 0)%Z then find not_on (S (fst b)) else Ok b) ;;
      if fst c =? n then Ok (ranges_by init (0, fst b) (0, 0))
      else if (0 <=? Z.lxor init (snd c))%Z then
        let r := ranges_by init (fst c, fst b + n) (0, 0) in
        _ <- check dbg (ranges_valid r n) ;; Ok r
      else
        e <- find (comes_back init) (S (fst c)) ;;
        if fst e =? n then Ok (ranges_by init (0, fst b) (fst c, n))
        else
          g <- (if (snd e =? 0)%Z then find not_on (S (fst e)) else Ok e) ;;
          if fst g =? n then Ok (ranges_by init (0, fst b) (fst c, fst e))
          else
            _ <- check dbg (0 <=? Z.lxor init (snd g))%Z ;;
            Ok (ranges_by init (fst g, fst b + n) (fst c, fst e)).
(** ConvexPolygonSplitInfo, convex_polygon_split_info.h 75-143; an absent
    shared point is has_new_shared_point = false. *)
Record split_info := SI { si_ranges : split_ranges; si_line : pline; si_point1 : option hpoint3; si_point2 : option hpoint3 }.
Definition is_some {B} (o : option B) : bool := match o with Some _ => true | None => false end.
(** IsValid, convex_polygon_split_info.h 76-96. *)
Definition info_valid (i : split_info) (n : nat) : bool :=
  let r := si_ranges i in
  ranges_valid r n &&
  (if emit_neg r && emit_pos r
   then Bool.eqb (snd (neg_range r) mod n =? fst (pos_range r) mod n) (is_some (si_point2 i)) &&
        Bool.eqb (snd (pos_range r) mod n =? fst (neg_range r) mod n) (is_some (si_point1 i))
   else negb (is_some (si_point1 i)) && negb (is_some (si_point2 i))).
(** HalfSpace2::operator*(int), half_space2.h 149-151. *)
Definition hs2_scale (h : hspace2) (s : Z) : hspace2 := HS2 (v2_scale (hn2 h) s) (hd2 h * s).
(** GetSplitInfo, convex_polygon.h 1114-1199. *)
Definition get_split_info {A} (dbg : bool) (p : poly A) (h : hspace3) : res split_info :=
  let n := pcount p in
  let flip := zabs_mult (pnormal_drop p) in
  let line := pl_of_planes (pplane p) h in
  if negb (pl_valid line) then
    let c := (zcompare (hd (pplane p) * comp (hn h) (pdrop p)) (hd h * pnormal_drop p) * flip)%Z in
    let r := if (c <? 0)%Z then SR (0, n) (0, 0) else if (0 <? c)%Z then SR (0, 0) (0, n) else SR (0, 0) (0, 0) in
    let i := SI r line None None in
    _ <- check dbg (info_valid i n) ;; Ok i
  else
    let h2 := hs2_scale (pl_project2d line (pdrop p)) (- flip)%Z in
    r <- (if n <? 10 then split_linear dbg p h2 (pdrop p) else split_bisect dbg p h2 (pdrop p)) ;;
    _ <- check dbg (ranges_valid r n) ;;
    if negb (emit_pos r) || negb (emit_neg r) then
      let i := SI r line None None in
      _ <- check dbg (info_valid i n) ;; Ok i
    else
      p2 <- (if snd (neg_range r) mod n =? fst (pos_range r) mod n
             then e <- pedge_at p ((snd (neg_range r) + n - 1) mod n) ;; Ok (Some (pl_intersect (pl e) h)) else Ok None) ;;
      p1 <- (if snd (pos_range r) mod n =? fst (neg_range r) mod n
             then e <- pedge_at p ((snd (pos_range r) + n - 1) mod n) ;; Ok (Some (pl_intersect (pl e) h)) else Ok None) ;;
      let i := SI r line p1 p2 in
      _ <- check dbg (info_valid i n) ;; Ok i.
(** The loops of FillInSplitChildren that copy a range of edges. *)
Fixpoint copy_edges {A} (p : poly A) (i k : nat) : res (list (pedge A)) :=
  match k with O => Ok [] | S k => e <- pedge_at p (i mod pcount p) ;; es <- copy_edges p (S i) k ;; Ok (e :: es) end.
Definition back {A} (es : list (pedge A)) : res (pedge A) := match es with [] => UB | e :: _ => Ok (last es e) end.
(** FillInSplitChildren, convex_polygon.h 1043-1112: the negative and the
    positive child. *)
Definition split_children {A} (dbg : bool) (E : einfo A) (p : poly A) (i : split_info) : res (poly A * poly A) :=
  let r := si_ranges i in let n := pcount p in
  _ <- check dbg (emit_neg r && emit_pos r) ;;
  _ <- check dbg (snd (neg_range r) - fst (neg_range r) <=? n) ;;
  neg1 <- copy_edges p (fst (neg_range r)) (snd (neg_range r) - fst (neg_range r)) ;;
  x <- (match si_point2 i with
        | None => e <- pedge_at p (snd (neg_range r) mod n) ;; Ok (neg1 ++ [edge_line E e (si_line i)], [e])
        | Some pt => e <- back neg1 ;; Ok (neg1 ++ [edge_both E e pt (si_line i)], [edge_source E e pt])
        end) ;;
  pos1 <- copy_edges p (fst (pos_range r)) (snd (pos_range r) - fst (pos_range r)) ;;
  let pos2 := snd x ++ pos1 in
  y <- (match si_point1 i with
        | None => e <- pedge_at p (snd (pos_range r) mod n) ;; Ok (fst x ++ [e], pos2 ++ [edge_line E e (pl_neg (si_line i))])
        | Some pt => e <- back pos2 ;; Ok (fst x ++ [edge_source E e pt], pos2 ++ [edge_both E e pt (pl_neg (si_line i))])
        end) ;;
  Ok (Poly (pplane p) (pdrop p) (fst y), Poly (pplane p) (pdrop p) (snd y)).
