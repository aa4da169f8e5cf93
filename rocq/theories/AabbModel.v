(** Executable model of [AABB] (include/walnut/aabb.h, src/walnut/aabb.cpp) and
    [ConvexVertexAABBTracker] (include/walnut/convex_vertex_aabb_tracker.h).

    BigInt arithmetic is taken on [Z] (justified by C01-C10 and GeoBridge);
    [UB] marks the inputs on which the BigInt operation is undefined. *)
From Coq Require Import ZArith List Bool.
From Verif Require Import BigUIntModel GeoModel.
Import ListNotations.
Open Scope Z_scope.

(** ** aabb.h *)
(** Class AABB, aabb.h 14-179. *)
Record aabb := Box { bmin : vec3; bmax : vec3; bden : Z }.
(** AABB(), aabb.h 17. *)
Definition bx_empty : aabb := Box (V3 1 1 1) (V3 0 0 0) 1.
(** AABB(Point3, Point3), aabb.h 19-21. *)
Definition bx_of_points (lo hi : vec3) : aabb := Box lo hi 1.
(** AABB(Vector3, Vector3, BigInt), aabb.h 23-31, and the constructors that
    delegate to it, 33-50. *)
Definition bx_make (lo hi : vec3) (den : Z) : aabb :=
  if zget_sign den <? 0 then Box (v3_neg lo) (v3_neg hi) (- den) else Box lo hi den.
(** AABB(radius), aabb.h 52-54. *)
Definition bx_radius (r : Z) : aabb := Box (V3 (- r) (- r) (- r)) (V3 r r r) 1.
(** The loops over [i < 3]: true when [f] holds for every / some component. *)
Definition all3 (f : nat -> bool) : bool := f 0%nat && f 1%nat && f 2%nat.
Definition any3 (f : nat -> bool) : bool := f 0%nat || f 1%nat || f 2%nat.
(** IsInside(Point3), aabb.h 81-89. *)
Definition bx_inside_pt (b : aabb) (p : vec3) : bool :=
  all3 (fun i => negb ((comp p i * bden b <? comp (bmin b) i) || (comp (bmax b) i <? comp p i * bden b))).
(** IsInside(HomoPoint3), aabb.h 92-104. *)
Definition bx_inside (b : aabb) (p : hpoint3) : bool :=
  let flip := zget_sign (hw p) <? 0 in
  all3 (fun i => let s := comp (hv p) i * bden b in
                 negb (zless_than flip s (comp (bmin b) i * hw p)) && negb (zless_than flip (comp (bmax b) i * hw p) s)).
(** IsOnBorder(Point3), aabb.h 57-66. *)
Definition bx_border_pt (b : aabb) (p : vec3) : bool :=
  if negb (bx_inside_pt b p) then false
  else any3 (fun i => (comp p i * bden b =? comp (bmin b) i) || (comp p i * bden b =? comp (bmax b) i)).
(** IsOnBorder(HomoPoint3), aabb.h 69-78. *)
Definition bx_border (b : aabb) (p : hpoint3) : bool :=
  if negb (bx_inside b p) then false
  else any3 (fun i => (comp (hv p) i * bden b =? comp (bmin b) i * hw p) || (comp (hv p) i * bden b =? comp (bmax b) i * hw p)).
(** operator==, aabb.h 149-157. *)
Definition bx_eq (a b : aabb) : bool :=
  if negb (v3_eq (v3_scale (bmin a) (bden b)) (v3_scale (bmin b) (bden a))) then false
  else if negb (v3_eq (v3_scale (bmax a) (bden b)) (v3_scale (bmax b) (bden a))) then false else true.
(** GetSquaredDiagonalLengthNumerator, aabb.h 163-165 (GetScaleSquared: the
    dot product with itself, vector3.h). *)
Definition bx_diag2 (b : aabb) : Z := let d := v3_sub (bmax b) (bmin b) in v3_dot d d.
(** The number whose square root GetDiagonalLength, aabb.h 168-170, takes, as a
    fraction; the conversions to double and sqrt are not modelled. *)
Definition bx_diag_radicand (b : aabb) : Z * Z := (bx_diag2 b, bden b).
(** GetPlaneSide, aabb.h 252-287. *)
Definition bx_plane_side (b : aabb) (h : hspace3) : Z :=
  let pick (pos : bool) (i : nat) :=
    (if Bool.eqb (0 <? zget_sign (comp (hn h) i)) pos then comp (bmin b) i else comp (bmax b) i) * comp (hn h) i in
  let min_value := pick true 0%nat + pick true 1%nat + pick true 2%nat in
  let scaled_d := hd h * bden b in
  if 0 <? zcompare min_value scaled_d * zabs_mult (bden b) then 1
  else
    let max_value := pick false 0%nat + pick false 1%nat + pick false 2%nat in
    if zcompare max_value scaled_d * zabs_mult (bden b) <? 0 then -1 else 0.

(** GetWalls, aabb.cpp 5-63: the eight corners, aabb.cpp 6-23. *)
Definition bx_corner (b : aabb) (k : nat) : hpoint3 :=
  let pick (m : bool) (i : nat) := comp (if m then bmax b else bmin b) i in
  let c (x y z : bool) := HP (V3 (pick x 0%nat) (pick y 1%nat) (pick z 2%nat)) (bden b) in
  match k with
  | 0 => c false false false | 1 => c true false false | 2 => c true true false | 3 => c false true false
  | 4 => c false false true | 5 => c true false true | 6 => c true true true | _ => c false true true
  end%nat.
(** facet_infos, aabb.cpp 25-41: normal dimension and vertex indices. *)
Definition facet_infos : list (nat * list nat) :=
  [(2, [0; 3; 2; 1]); (0, [3; 0; 4; 7]); (1, [0; 1; 5; 4]);
   (0, [1; 2; 6; 5]); (1, [2; 3; 7; 6]); (2, [4; 5; 6; 7])]%nat.
(** One wall: plane, drop dimension and vertices, aabb.cpp 46-69; [None] is
    [continue]. *)
Definition bx_wall (b : aabb) (side : nat) : option (hspace3 * nat * list hpoint3) :=
  let '(d, vs) := nth side facet_infos (0%nat, []) in
  let flat i := comp (bmin b) i =? comp (bmax b) i in
  if flat ((d + 1) mod 3)%nat then None
  else if flat ((d + 2) mod 3)%nat then None
  else Some (HS (set_comp (V3 0 0 0) d (if Nat.ltb side 3 then - bden b else bden b))
                (if Nat.ltb side 3 then - comp (bmin b) d else comp (bmax b) d),
             d, map (bx_corner b) vs).
Definition bx_walls (b : aabb) : list (hspace3 * nat * list hpoint3) :=
  flat_map (fun s => match bx_wall b s with Some w => [w] | None => [] end) (seq 0 6).

(** ** convex_vertex_aabb_tracker.h *)
(** std::array<size_t, 3>. *)
Record idx3 := I3 { i0 : nat; i1 : nat; i2 : nat }.
Definition iget (t : idx3) (i : nat) : nat := match i with O => i0 t | S O => i1 t | _ => i2 t end.
Definition imake (f : nat -> nat) : idx3 := I3 (f 0%nat) (f 1%nat) (f 2%nat).
(** Class ConvexVertexAABBTracker, 31-186. *)
Record tracker := Tr { tmin : idx3; tmax : idx3; tbox : aabb }.
(** begin[i].  Every index used is below the vertex count (theorems
    C19_tracker_indices, C33), so the default is never returned. *)
Definition vat (vs : list hpoint3) (i : nat) : hpoint3 := nth i vs (HP (V3 0 0 0) 0).
(** The scan of the constructor, 39-55: one vertex at position [pos].  The
    inner loop treats the three components independently. *)
Definition scan_min (vs : list hpoint3) (pos : nat) (i old : nat) : nat :=
  if hp_compare_comp i (vat vs pos) (vat vs old) <? 0 then pos else old.
Definition scan_max (vs : list hpoint3) (pos : nat) (i old : nat) : nat :=
  if 0 <? hp_compare_comp i (vat vs pos) (vat vs old) then pos else old.
Definition scan_step (vs : list hpoint3) (st : idx3 * idx3) (pos : nat) : idx3 * idx3 :=
  (imake (fun i => scan_min vs pos i (iget (fst st) i)), imake (fun i => scan_max vs pos i (iget (snd st) i))).
Definition scan (vs : list hpoint3) : idx3 * idx3 :=
  fold_left (scan_step vs) (seq 1 (length vs - 1)) (I3 0 0 0, I3 0 0 0).
(** GetMaxDenominator, 300-310. *)
Definition max_denominator (mins maxs : idx3) (vs : list hpoint3) : res Z :=
  d <- zabs (hw (vat vs (i0 mins))) ;;
  a <- zabs (hw (vat vs (i1 mins))) ;; let d := Z.max d a in
  a <- zabs (hw (vat vs (i2 mins))) ;; let d := Z.max d a in
  a <- zabs (hw (vat vs (i0 maxs))) ;; let d := Z.max d a in
  a <- zabs (hw (vat vs (i1 maxs))) ;; let d := Z.max d a in
  a <- zabs (hw (vat vs (i2 maxs))) ;; Ok (Z.max d a).
(** RoundDown / RoundUp of one component of the vertex at [k]. *)
Definition bound_min (vs : list hpoint3) (den : Z) (i k : nat) : res Z := round_down (comp (hv (vat vs k)) i) (hw (vat vs k)) den.
Definition bound_max (vs : list hpoint3) (den : Z) (i k : nat) : res Z := round_up (comp (hv (vat vs k)) i) (hw (vat vs k)) den.
(** ApproximateExtremes(denom, begin), 312-331. *)
Definition approximate_extremes (mins maxs : idx3) (den : Z) (vs : list hpoint3) : res aabb :=
  a <- bound_min vs den 0 (i0 mins) ;; b <- bound_min vs den 1 (i1 mins) ;; c <- bound_min vs den 2 (i2 mins) ;;
  d <- bound_max vs den 0 (i0 maxs) ;; e <- bound_max vs den 1 (i1 maxs) ;; f <- bound_max vs den 2 (i2 maxs) ;;
  Ok (bx_make (V3 a b c) (V3 d e f) den).
(** ConvexVertexAABBTracker(begin, end), 34-58. *)
Definition track (vs : list hpoint3) : res tracker :=
  match vs with
  | [] => Ok (Tr (I3 0 0 0) (I3 0 0 0) bx_empty)
  | _ =>
      let '(mins, maxs) := scan vs in
      den <- max_denominator mins maxs vs ;;
      b <- approximate_extremes mins maxs den vs ;; Ok (Tr mins maxs b)
  end.
(** IsValidState, 66-79. *)
Definition tr_valid (t : tracker) (n : nat) : bool :=
  all3 (fun i => if Nat.eqb n 0 then Nat.eqb (iget (tmin t) i) 0 && Nat.eqb (iget (tmax t) i) 0
                 else Nat.ltb (iget (tmin t) i) n && Nat.ltb (iget (tmax t) i) n).
(** RotateIndices, 85-92; [% 0] is undefined. *)
Definition tr_rotate (t : tracker) (offset n : nat) : res tracker :=
  if Nat.eqb n 0 then UB
  else let r (k : nat) := ((k + n - offset) mod n)%nat in
       Ok (Tr (imake (fun i => r (iget (tmin t) i))) (imake (fun i => r (iget (tmax t) i))) (tbox t)).
(** SplitComponent, 188-243.  The outputs are (neg_output, pos_output,
    neg_modified, pos_modified). *)
Definition split_component (dbg : bool) (i : nat) (mult : Z) (shared1 shared2 : hpoint3)
  (shifted neg_count pos_count pos_start pos_end : nat) : res (nat * nat * bool * bool) :=
  let first_wins := 0 <? hp_compare_comp i shared1 shared2 * mult in
  if Nat.ltb shifted neg_count then
    Ok (shifted, if first_wins then S pos_count else 0%nat, false, true)
  else if Nat.leb pos_start shifted then
    if Nat.ltb shifted pos_end then
      Ok (if first_wins then S neg_count else neg_count, S (shifted - pos_start), true, false)
    else
      _ <- check dbg (Nat.eqb shifted pos_end) ;; Ok (S neg_count, S pos_count, false, false)
  else
    _ <- check dbg (Nat.eqb shifted neg_count) ;; Ok (neg_count, 0%nat, false, false).
(** UpdateExtremes, 333-372. *)
Definition update_extremes (parent : tracker) (mins maxs : idx3) (minm maxm : nat -> bool) (vs : list hpoint3) : res aabb :=
  den <- max_denominator mins maxs vs ;;
  if negb (den =? bden (tbox parent)) then approximate_extremes mins maxs den vs
  else
    let lo i := if minm i then bound_min vs den i (iget mins i) else Ok (comp (bmin (tbox parent)) i) in
    let hi i := if maxm i then bound_max vs den i (iget maxs i) else Ok (comp (bmax (tbox parent)) i) in
    a <- lo 0%nat ;; b <- lo 1%nat ;; c <- lo 2%nat ;; d <- hi 0%nat ;; e <- hi 1%nat ;; f <- hi 2%nat ;;
    Ok (bx_make (V3 a b c) (V3 d e f) den).
(** CreateSplitChildren, 245-298.  [neg_range] and [pos_range] are the fields of
    ConvexPolygonSplitRanges; [nvs] and [pvs] the children's vertices. *)
Definition split_children (dbg : bool) (t : tracker) (n : nat) (nvs pvs : list hpoint3)
  (nr1 nr2 pr1 pr2 : nat) : res (tracker * tracker) :=
  _ <- check dbg (negb (Nat.eqb nr1 nr2)) ;;
  _ <- check dbg (negb (Nat.eqb pr1 pr2)) ;;
  if Nat.eqb n 0 then UB else
  let neg_shift := (n - nr1)%nat in
  let neg_count := (nr2 - nr1)%nat in
  let pos_count := (pr2 - pr1)%nat in
  let shared1 := vat nvs (S neg_count) in
  let shared2 := vat pvs 0 in
  let ps := ((pr1 + neg_shift) mod n)%nat in
  let pe := (ps + pos_count)%nat in
  _ <- check dbg (Nat.ltb ps pe) ;;
  let go mult k i := split_component dbg i mult shared1 shared2 ((k + neg_shift) mod n)%nat neg_count pos_count ps pe in
  x0 <- go (-1) (i0 (tmin t)) 0%nat ;; x1 <- go (-1) (i1 (tmin t)) 1%nat ;; x2 <- go (-1) (i2 (tmin t)) 2%nat ;;
  y0 <- go 1 (i0 (tmax t)) 0%nat ;; y1 <- go 1 (i1 (tmax t)) 1%nat ;; y2 <- go 1 (i2 (tmax t)) 2%nat ;;
  let no (o : nat * nat * bool * bool) := fst (fst (fst o)) in
  let po (o : nat * nat * bool * bool) := snd (fst (fst o)) in
  let nm (o : nat * nat * bool * bool) := snd (fst o) in
  let pm (o : nat * nat * bool * bool) := snd o in
  let sel {A} (f : nat * nat * bool * bool -> A) a b c (i : nat) := f (match i with O => a | S O => b | _ => c end) in
  let nmin := I3 (no x0) (no x1) (no x2) in let nmax := I3 (no y0) (no y1) (no y2) in
  let pmin := I3 (po x0) (po x1) (po x2) in let pmax := I3 (po y0) (po y1) (po y2) in
  nb <- update_extremes t nmin nmax (sel nm x0 x1 x2) (sel nm y0 y1 y2) nvs ;;
  pb <- update_extremes t pmin pmax (sel pm x0 x1 x2) (sel pm y0 y1 y2) pvs ;;
  Ok (Tr nmin nmax nb, Tr pmin pmax pb).
