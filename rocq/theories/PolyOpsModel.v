(** Model of the remaining operations of convex_polygon.h: area, centroid,
    comparison, inversion, rotation, splitting an edge and merging.
    Simplifications as in PolyModel.v; [gcd] stands for
    GetGreatestCommonDivisor as in GeoModel.v. *)
From Coq Require Import ZArith List Bool Arith.
From Verif Require Import BigUIntModel GeoModel PolyModel.
Import ListNotations.
Open Scope nat_scope.

(** ** Area and centroid *)
(** GetComponentAfterDrop of a vertex, homo_point3.h 95-97. *)
Definition hp_after_drop (v : hpoint3) (c d : nat) : Z := comp_after_drop (hv v) c d.
(** x_i * y_(i+1) - x_(i+1) * y_i. *)
Definition cross_term (v w : hpoint3) (d : nat) : Z :=
  (hp_after_drop v 0 d * hp_after_drop w 1 d - hp_after_drop w 0 d * hp_after_drop v 1 d)%Z.
(** The loop of GetProjectedArea, convex_polygon.h 1498-1512; v is vertex i and
    vs the ones after it. *)
Fixpoint area_loop (gcd : Z -> Z -> res Z) (d : nat) (v : hpoint3) (vs : list hpoint3) (num den : Z) : res (Z * Z) :=
  match vs with
  | [] => Ok (num, den)
  | w :: vs =>
      g <- gcd den (hw w) ;; nc <- zdivide (hw w) g ;; tc <- zdivide den g ;;
      area_loop gcd d w vs (nc * num + tc * cross_term v w d)%Z (tc * hw v)%Z
  end.
(** GetProjectedArea, convex_polygon.h 1480-1515: numerator and denominator. *)
Definition projected_area {A} (gcd : Z -> Z -> res Z) (p : poly A) (d : nat) : res (Z * Z) :=
  if pcount p <? 3 then Ok (0, 1)%Z
  else match map pv (pedges p) with
  | [] => UB
  | v :: vs =>
      let l := last vs v in
      r <- area_loop gcd d v vs (cross_term l v d) (hw l) ;; Ok (fst r, snd r * hw l * 2)%Z
  end.
(** The loop of GetProjectedCentroid, convex_polygon.h 1547-1575. *)
Fixpoint centroid_loop (gcd : Z -> Z -> res Z) (d : nat) (v : hpoint3) (vs : list hpoint3) (area c0 c1 den : Z) : res (Z * Z * Z * Z) :=
  match vs with
  | [] => Ok (area, c0, c1, den)
  | w :: vs =>
      g <- gcd den (hw w) ;; nc <- zdivide (hw w) g ;; tc <- zdivide den g ;;
      let term := (tc * cross_term v w d)%Z in
      let nc2 := (nc * nc)%Z in
      centroid_loop gcd d w vs (nc * area + term)%Z
        (c0 * nc2 + (hp_after_drop v 0 d * hw w + hp_after_drop w 0 d * hw v) * tc * term)%Z
        (c1 * nc2 + (hp_after_drop v 1 d * hw w + hp_after_drop w 1 d * hw v) * tc * term)%Z
        (tc * hw v)%Z
  end.
(** GetProjectedCentroid, convex_polygon.h 1516-1578. *)
Definition projected_centroid {A} (gcd : Z -> Z -> res Z) (p : poly A) (d : nat) : res hpoint2 :=
  match map pv (pedges p) with
  | [] => Ok (HP2 (V2 0 0) 0)
  | v :: vs =>
      let l := last vs v in
      let area := cross_term l v d in
      r <- centroid_loop gcd d v vs area
             ((hp_after_drop l 0 d * hw v + hp_after_drop v 0 d * hw l) * area)%Z
             ((hp_after_drop l 1 d * hw v + hp_after_drop v 1 d * hw l) * area)%Z (hw l) ;;
      let '(area, c0, c1, den) := r in
      Ok (HP2 (V2 c0 c1) (area * 3 * den * hw l))
  end.
(** GetCentroid, convex_polygon.h 550-554. *)
Definition centroid {A} (gcd : Z -> Z -> res Z) (p : poly A) : res hpoint3 :=
  c <- projected_centroid gcd p (pdrop p) ;; Ok (hs_project_onto (pplane p) c (pdrop p)).

(** ** Comparison, rotation, inversion *)
(** GetMinimumIndex, convex_polygon.h 172-181: [i] is the next index, [m] the
    best one so far and [b] its vertex. *)
Fixpoint minimum_loop (vs : list hpoint3) (i m : nat) (b : hpoint3) : nat :=
  match vs with
  | [] => m
  | v :: vs => if hp_lex_lt v b then minimum_loop vs (S i) i v else minimum_loop vs (S i) m b
  end.
Definition minimum_index {A} (p : poly A) : nat := match map pv (pedges p) with [] => 0 | v :: vs => minimum_loop vs 1 0 v end.
(** RotateEdges, convex_polygon.h 767-769. *)
Definition rotate_edges {A} (p : poly A) (k : nat) : poly A := Poly (pplane p) (pdrop p) (skipn k (pedges p) ++ firstn k (pedges p)).
(** SortVertices, convex_polygon.h 757-759. *)
Definition sort_vertices {A} (p : poly A) : poly A := rotate_edges p (minimum_index p).
(** operator==, convex_polygon.h 835-868, for two polygons with the same kind of
    EdgeParent.  The search for the offset: *)
Fixpoint match_loop (d : nat) (v : hpoint3) (vs : list hpoint3) (i : nat) : option nat :=
  match vs with [] => None | w :: vs => if hp2_eq (hp_drop_dim w d) (hp_drop_dim v d) then Some i else match_loop d v vs (S i) end.
(** and the loop over the other vertices, [k] of them. *)
Fixpoint eq_loop {A} (E : einfo A) (p o : poly A) (k i j : nat) : res bool :=
  match k with
  | O => Ok true
  | S k =>
      a <- pedge_at p i ;; b <- pedge_at o (j mod pcount p) ;;
      if negb (hp2_eq (hp_drop_dim (pv a) (pdrop p)) (hp_drop_dim (pv b) (pdrop p))) then Ok false
      else if negb (ei_eq E (pd a) (pd b)) then Ok false
      else eq_loop E p o k (S i) (S j)
  end.
Definition poly_eq {A} (E : einfo A) (p o : poly A) : res bool :=
  same <- hs_eq (pplane p) (pplane o) ;;
  if negb same then Ok false
  else if negb (pcount p =? pcount o) then Ok false
  else match pedges p with
  | [] => Ok false
  | e :: _ =>
      match match_loop (pdrop p) (pv e) (map pv (pedges o)) 0 with
      | None => Ok false
      | Some k => eq_loop E p o (pcount p - 1) 1 (S k)
      end
  end.
(** Invert, convex_polygon.h 794-820: the vertices after the first one and all
    lines are reversed, the lines and the plane negated; the data of the edges
    stay where they are. *)
Fixpoint zip3 {A} (vs : list hpoint3) (ls : list pline) (ds : list A) : list (pedge A) :=
  match vs, ls, ds with v :: vs, l :: ls, d :: ds => PE v l d :: zip3 vs ls ds | _, _, _ => [] end.
Definition invert {A} (p : poly A) : poly A :=
  match pedges p with
  | [] => p
  | e :: es => Poly (hs_neg (pplane p)) (pdrop p)
      (zip3 (pv e :: rev (map pv es)) (map pl_neg (rev (map pl (pedges p)))) (map pd (pedges p)))
  end.

(** ** Splitting an edge and merging *)
(** SplitEdge, convex_polygon.h 575-603. *)
Definition split_edge {A} (dbg : bool) (E : einfo A) (p : poly A) (k : nat) (m : hpoint3) : res (poly A) :=
  e <- pedge_at p k ;;
  _ <- check dbg (pl_coincident (pl e) m) ;;
  _ <- check dbg (zless_than (zdiff_sign (hw (pv e)) (hw m)) (v3_dot (ld (pl e)) (hv (pv e)) * hw m) (v3_dot (ld (pl e)) (hv m) * hw (pv e))) ;;
  n <- (if dbg then
          n <- pvertex p (S k mod pcount p) ;;
          check dbg (zless_than (zdiff_sign (hw m) (hw n)) (v3_dot (ld (pl e)) (hv m) * hw n) (v3_dot (ld (pl e)) (v3_scale (hv n) (hw m))))
        else Ok tt) ;;
  Ok (Poly (pplane p) (pdrop p) (firstn (S k) (pedges p) ++ edge_source E e m :: skipn (S k) (pedges p))).
(** TryMergeEdge, convex_polygon.h 721-731; CanMerge and Merge,
    convex_polygon_edge.h 143-147 and 183-188.  Merge keeps vertex and line. *)
Definition try_merge_edge {A} (dbg : bool) (E : einfo A) (p : poly A) (k : nat) : res (poly A * bool) :=
  _ <- check dbg (k <? pcount p) ;;
  if pcount p =? 0 then UB else
  let n := S k mod pcount p in
  a <- pedge_at p k ;; b <- pedge_at p n ;;
  _ <- (if dbg then s <- v3_same_dir (ld (pl a)) (ld (pl b)) ;; _ <- check dbg s ;; check dbg (pl_coincident (pl a) (pv b)) else Ok tt) ;;
  if negb (ei_can_merge E (pd a) (pd b)) then Ok (p, false)
  else
    let es := firstn k (pedges p) ++ PE (pv a) (pl a) (ei_merge E (pd a) (pd b)) :: skipn (S k) (pedges p) in
    Ok (Poly (pplane p) (pdrop p) (firstn n es ++ skipn (S n) es), true).
(** The test of TryMergePolygon at one end of the shared edge,
    convex_polygon.h 647-661 and 664-678: the twist, or None if the merged
    polygon would not be convex there. *)
Definition merge_twist (drop nz : nat) (normal : Z) (prev next : vec3) : option Z :=
  let t := zget_sign (v2_cross (drop_dim prev drop) (drop_dim next drop)) in
  if (t =? 0)%Z then (if zdiff_sign (comp prev nz) (comp next nz) then None else Some t)
  else if (Z.lxor t (zget_sign normal) <? 0)%Z then None else Some t.
(** TryMergePolygon, convex_polygon.h 605-719; None is the result false.  An
    index difference that wraps around is a size_t of 2^64 - 1, which the next
    addition brings back. *)
Definition try_merge {A} (dbg : bool) (E : einfo A) (p : poly A) (nz k : nat) (o : poly A) (m : nat) : res (option (poly A)) :=
  let np := pcount p in let no := pcount o in
  if (np =? 0) || (no =? 0) then UB else
  a <- pedge_at p k ;; b <- pedge_at o m ;;
  _ <- check dbg (negb (comp (ld (pl a)) nz =? 0)%Z) ;;
  a' <- pvertex o (S m mod no) ;; _ <- check dbg (hp_eq (pv a) a') ;;
  b' <- pvertex p (S k mod np) ;; _ <- check dbg (hp_eq (pv b) b') ;;
  same <- v2_same_dir (drop_dim (hn (pplane p)) nz) (drop_dim (hn (pplane o)) nz) ;;
  if negb same then Ok None
  else
    my_prev <- pedge_at p ((k + np - 1) mod np) ;; other_next <- pedge_at o ((m + 1 + no) mod no) ;;
    my_next <- pedge_at p ((k + 1 + np) mod np) ;; other_prev <- pedge_at o ((m + no - 1) mod no) ;;
    match merge_twist (pdrop p) nz (pnormal_drop p) (ld (pl my_prev)) (ld (pl other_next)),
          merge_twist (pdrop p) nz (pnormal_drop p) (ld (pl other_prev)) (ld (pl my_next)) with
    | Some t1, Some t2 =>
        let q := Poly (pplane p) (pdrop p) (firstn k (pedges p) ++ (skipn (S m) (pedges o) ++ firstn m (pedges o)) ++ skipn (S k) (pedges p)) in
        r <- (if (t1 =? 0)%Z then try_merge_edge dbg E q ((k + pcount q - 1) mod pcount q) else Ok (q, false)) ;;
        if (t2 =? 0)%Z then r2 <- try_merge_edge dbg E (fst r) (k + no - 2 - (if snd r then 1 else 0)) ;; Ok (Some (fst r2))
        else Ok (Some (fst r))
    | _, _ => Ok None
    end.
