(** Model of bsp_edge_info.h, bsp_polygon.h, aabb_convex_polygon.h, bsp_node.h and
    the parts of bsp_tree.h that build a tree.

    Simplifications, here and below:
    - a [const HalfSpace3*] to a node's split plane is the plane itself, and a
      SplitSide with a null split is None.  A node's plane never changes while the
      node exists, and below one node no two planes are equal (the documented
      precondition of Split), so that the plane identifies the node;
    - EdgeParent of the polygons is EdgeInfoRoot, which has no data;
    - the pwn of BSPContentInfo is an integer.  It leaves the int64_t range only
      after 2^63 crossings;
    - vector::operator[] out of range, a null pointer that is used and % 0 are
      [UB]. *)
From Coq Require Import ZArith List Bool Arith.
From Verif Require Import BigUIntModel GeoModel AabbModel RTransModel FilterModel PolyModel.
Import ListNotations.
Open Scope nat_scope.

(** ** Edge data *)
(** BSPEdgeInfo, bsp_edge_info.h 12-87. *)
Record bdata := BD { created_by : option split_side; first_co : option split_side; vertex_co : option split_side; edge_co : option split_side }.
(** BSPEdgeInfo(EdgeInfoRoot), bsp_edge_info.h 17, and ResetBSPInfo, 60-65. *)
Definition bd_new : bdata := BD None None None None.
(** The constructors from a parent edge, bsp_edge_info.h 32-51, and operator==,
    53-58.  CanMerge and Merge are those of EdgeInfoRoot. *)
Definition bsp_edges : einfo bdata := EInfo bdata
  (fun d _ => BD (created_by d) (first_co d) (edge_co d) (edge_co d))
  (fun d _ => BD None None (vertex_co d) None)
  (fun d _ _ => BD None None (edge_co d) None)
  (fun _ _ => true) (fun d _ => d) (fun _ _ => true).

(** ** Polygons *)
(** BSPPolygon, bsp_polygon.h 31-275.  [bp_box] is the aabb_tracker_ if the
    polygon's class derives from AABBConvexPolygon. *)
Record bpoly := BP { bp_poly : poly bdata; bp_box : option tracker; bp_id : nat; bp_on : option split_side }.
Definition bp_count (b : bpoly) : nat := pcount (bp_poly b).
Definition no_line : pline := PL (V3 0 0 0) (V3 0 0 0).
(** GetSplitInfo: ConvexPolygon's, or AABBConvexPolygon::GetSplitInfo,
    aabb_convex_polygon.h 163-186. *)
Definition bp_split_info (dbg : bool) (b : bpoly) (h : hspace3) : res split_info :=
  match bp_box b with
  | None => get_split_info dbg (bp_poly b) h
  | Some t =>
      let s := bx_plane_side (tbox t) h in
      if (s =? -1)%Z then Ok (SI (SR (0, bp_count b) (0, 0)) no_line None None)
      else if (s =? 1)%Z then Ok (SI (SR (0, 0) (0, bp_count b)) no_line None None)
      else get_split_info dbg (bp_poly b) h
  end.
(** CreateSplitChildren: BSPPolygon::FillInSplitChildren, bsp_polygon.h 262-274,
    and AABBConvexPolygon::FillInSplitChildren, aabb_convex_polygon.h 238-254. *)
Definition bp_split_children (dbg : bool) (b : bpoly) (i : split_info) : res (bpoly * bpoly) :=
  c <- split_children dbg bsp_edges (bp_poly b) i ;;
  t <- (match bp_box b with
        | None => Ok (None, None)
        | Some t =>
            let r := si_ranges i in
            x <- AabbModel.split_children dbg t (bp_count b) (map pv (pedges (fst c))) (map pv (pedges (snd c)))
                   (fst (neg_range r)) (snd (neg_range r)) (fst (pos_range r)) (snd (pos_range r)) ;;
            Ok (Some (fst x), Some (snd x))
        end) ;;
  Ok (BP (fst c) (fst t) (bp_id b) (bp_on b), BP (snd c) (snd t) (bp_id b) (bp_on b)).
(** bsp_edge_info(i) changed by f, bsp_polygon.h 129-131. *)
Fixpoint upd {A} (l : list A) (i : nat) (f : A -> A) : list A :=
  match l, i with [], _ => [] | x :: l, O => f x :: l | x :: l, S i => x :: upd l i f end.
Definition set_data (f : bdata -> bdata) (e : pedge bdata) : pedge bdata := PE (pv e) (pl e) (f (pd e)).
Definition upd_edge (es : list (pedge bdata)) (i : nat) (f : bdata -> bdata) : list (pedge bdata) := upd es (i mod length es) (set_data f).
(** The updates of SetBoundaryAngles, bsp_polygon.h 160-172 and 176. *)
Definition mark_edge (on : option split_side) (c : split_side) (d : bdata) : bdata :=
  BD (created_by d)
     (match first_co d with Some f => Some f | None => match on with Some o => Some o | None => Some c end end) (Some c) (Some c).
Definition mark_vertex (c : split_side) (d : bdata) : bdata := BD (created_by d) (first_co d) (Some c) (edge_co d).
Definition mark_created (c : split_side) (d : bdata) : bdata := BD (Some c) (first_co d) (vertex_co d) (edge_co d).
(** The loop over k edges from position pos on, and the last vertex. *)
Fixpoint mark_range (on : option split_side) (c : split_side) (es : list (pedge bdata)) (pos k : nat) : list (pedge bdata) :=
  match k with
  | O => upd_edge es pos (mark_vertex c)
  | S k => mark_range on c (upd_edge es pos (mark_edge on c)) (S pos) k
  end.
Definition with_edges (b : bpoly) (es : list (pedge bdata)) : bpoly :=
  BP (Poly (pplane (bp_poly b)) (pdrop (bp_poly b)) es) (bp_box b) (bp_id b) (bp_on b).
(** SetBoundaryAngles(coincident_info, begin, end), bsp_polygon.h 148-177;
    begin <= end as the comment requires. *)
Definition set_angles (b : bpoly) (c : split_side) (first last : nat) : res bpoly :=
  if first =? last then Ok b
  else if bp_count b =? 0 then UB
  else Ok (with_edges b (mark_range (bp_on b) c (pedges (bp_poly b)) first (last - 1 - first))).
(** SetBoundaryAngles(coincident_info, exclude_range), bsp_polygon.h 181-185. *)
Definition set_angles_except (b : bpoly) (c : split_side) (r : nat * nat) : res bpoly := set_angles b c (snd r) (bp_count b + fst r).
(** bsp_edge_info(i).edge_created_by = c. *)
Definition set_created (b : bpoly) (c : split_side) (i : nat) : res bpoly :=
  match nth_error (pedges (bp_poly b)) i with
  | None => UB
  | Some _ => Ok (with_edges b (upd (pedges (bp_poly b)) i (set_data (mark_created c))))
  end.
(** SetChildBoundaryAngles, bsp_polygon.h 227-249. *)
Definition set_child_angles (dbg : bool) (x : bpoly * bpoly) (h : hspace3) : res (bpoly * bpoly) :=
  let n := bp_count (fst x) in let m := bp_count (snd x) in
  _ <- check dbg (2 <? n) ;;
  _ <- check dbg (2 <? m) ;;
  a <- set_angles (fst x) (SS h false) (n - 2) n ;;
  a <- set_created a (SS h false) (n - 2) ;;
  b <- set_angles (snd x) (SS h true) (m - 1) (m + 1) ;;
  b <- set_created b (SS h true) (m - 1) ;;
  Ok (a, b).

(** ** Nodes *)
(** BSPNode, bsp_node.h 24-312; BNil is a null child pointer. *)
Inductive bnode := BNil | BNode (split : hspace3) (contents border : list bpoly) (infos : list cinfo) (neg pos : bnode).
(** A default constructed HalfSpace3: BigInt's default is 0. *)
Definition no_plane : hspace3 := HS (V3 0 0 0) 0.
(** BSPNode(), bsp_node.h 32. *)
Definition bn_new : bnode := BNode no_plane [] [] [] BNil BNil.
(** IsLeaf, bsp_node.h 118-120. *)
Definition bn_is_leaf (split : hspace3) : bool := negb (hs_valid split).
(** SetPWN, bsp_node.h 262-269. *)
Definition set_pwn (infos : list cinfo) : list cinfo := map (fun c => CI 0 0 (pwn c)) infos.
(** content_info_by_id_[id] changed by f. *)
Definition at_id (infos : list cinfo) (id : nat) (f : cinfo -> cinfo) : res (list cinfo) :=
  if id <? length infos then Ok (upd infos id f) else UB.
Definition add_interior (c : cinfo) : cinfo := CI (S (interior c)) (border c) (pwn c).
Definition add_border (c : cinfo) : cinfo := CI (interior c) (S (border c)) (pwn c).
Definition add_pwn (k : Z) (c : cinfo) : cinfo := CI (interior c) (border c) (pwn c + k).
(** GetContentInfoForId, bsp_node.h 151-157. *)
Definition info_for (infos : list cinfo) (id : nat) : cinfo := nth id infos (CI 0 0 0).
(** contents_, border_contents_ and content_info_by_id_ of a child. *)
Record kid := Kid { k_contents : list bpoly; k_border : list bpoly; k_infos : list cinfo }.
Definition kid_of (t : bnode) : res kid := match t with BNil => UB | BNode _ cs bs infos _ _ => Ok (Kid cs bs infos) end.
Definition with_kid (t : bnode) (k : kid) : bnode := match t with BNil => BNil | BNode s _ _ _ n p => BNode s (k_contents k) (k_border k) (k_infos k) n p end.

(** GetPWNEffectAtVertex, bsp_node.h 421-498. *)
Definition pwn_effect (dbg : bool) (split : hspace3) (edge_cmp : Z) (el : split_side) (ve : pedge bdata) : res (Z * bool) :=
  match vertex_co (pd ve) with
  | None => UB
  | Some vl =>
      let vertex_cmp := rxy_compare_split (hn split) vl in
      if (edge_cmp + vertex_cmp =? 0)%Z then
        _ <- check dbg ((edge_cmp <? 0) && (0 <? vertex_cmp) || (0 <? edge_cmp) && (vertex_cmp <? 0))%Z ;;
        let mult := (if xorb (ss_pos vl) (ss_pos el) then -1 else 1)%Z in
        let vertex_to_edge := (rxy_compare (hn (ss_split vl)) (hn (ss_split el)) * mult)%Z in
        _ <- check dbg (negb (vertex_to_edge =? 0)%Z) ;;
        let side_cmp := (vertex_cmp * vertex_to_edge)%Z in
        _ <- (if (0 <=? side_cmp)%Z then
                _ <- check dbg (side_cmp =? 1)%Z ;;
                _ <- check dbg (Bool.eqb (0 <=? vertex_cmp) (0 <=? vertex_to_edge))%Z ;;
                check dbg (negb (Bool.eqb (0 <=? edge_cmp) (0 <=? vertex_to_edge)))%Z
              else
                _ <- check dbg (side_cmp =? -1)%Z ;;
                _ <- check dbg (negb (Bool.eqb (0 <=? vertex_cmp) (0 <=? vertex_to_edge)))%Z ;;
                check dbg (Bool.eqb (0 <=? edge_cmp) (0 <=? vertex_to_edge))%Z) ;;
        _ <- check dbg ((vertex_to_edge =? 1) || (vertex_to_edge =? -1))%Z ;;
        if (0 <=? side_cmp * hs_compare split (pv ve))%Z then
          let min_max := zget_sign (v3_dot (hn split) (v3_cross (hn (ss_split vl)) (hn (ss_split el)))) in
          if (0 <=? Z.lxor (Z.lxor min_max vertex_cmp) mult)%Z then Ok (vertex_to_edge, (side_cmp =? -1)%Z) else Ok (0%Z, false)
        else Ok (0%Z, false)
      else Ok (0%Z, false)
  end.
(** push_to_child->content_info_by_id_[polygon.id].pwn += k, bsp_node.h 517-523
    and 529-535; the tables are those of the negative and the positive child. *)
Definition push_pwn_to (dbg : bool) (id : nat) (k : Z) (pos : bool) (x : list cinfo * list cinfo) : res (list cinfo * list cinfo) :=
  if (k =? 0)%Z then Ok x
  else
    _ <- check dbg (id <=? length (if pos then snd x else fst x)) ;;
    if pos then p <- at_id (snd x) id (add_pwn k) ;; Ok (fst x, p) else n <- at_id (fst x) id (add_pwn k) ;; Ok (n, snd x).
(** The body of the loop over the edges, bsp_node.h 505-535. *)
Definition push_pwn_edge (dbg : bool) (split : hspace3) (b : bpoly) (i : nat) (x : list cinfo * list cinfo) : res (list cinfo * list cinfo) :=
  e <- pedge_at (bp_poly b) i ;;
  match edge_co (pd e) with
  | None => Ok x
  | Some el =>
      let edge_cmp := rxy_compare_split (hn split) el in
      if (edge_cmp =? 0)%Z then Ok x
      else
        r <- pwn_effect dbg split edge_cmp el e ;;
        x <- push_pwn_to dbg (bp_id b) (fst r) (snd r) x ;;
        e' <- pedge_at (bp_poly b) (S i mod bp_count b) ;;
        r <- pwn_effect dbg split edge_cmp el e' ;;
        push_pwn_to dbg (bp_id b) (- fst r) (snd r) x
  end.
Fixpoint rfold {A B} (f : A -> B -> res B) (l : list A) (x : B) : res B :=
  match l with [] => Ok x | a :: l => y <- f a x ;; rfold f l y end.
(** PushContentPWNToChildren, bsp_node.h 500-538. *)
Definition push_pwn (dbg : bool) (split : hspace3) (contents : list bpoly) (x : list cinfo * list cinfo) : res (list cinfo * list cinfo) :=
  _ <- check dbg (hs_valid split) ;;
  rfold (fun b => rfold (push_pwn_edge dbg split b) (seq 0 (bp_count b))) contents x.

(** The counter of a polygon's id is increased and the polygon stored. *)
Definition put_contents (k : kid) (b : bpoly) : res kid :=
  infos <- at_id (k_infos k) (bp_id b) add_interior ;; Ok (Kid (k_contents k ++ [b]) (k_border k) infos).
Definition put_border (k : kid) (b : bpoly) : res kid :=
  infos <- at_id (k_infos k) (bp_id b) add_border ;; Ok (Kid (k_contents k) (k_border k ++ [b]) infos).
(** The part shared by the loops of PushContentsToChildren, bsp_node.h 610-633,
    and PushBorderContentsToChildren, 548-568: a polygon that is not on the split
    plane. *)
Definition push_off_plane (dbg : bool) (split : hspace3) (put : kid -> bpoly -> res kid) (b : bpoly) (i : split_info) (x : kid * kid) : res (kid * kid) :=
  if emit_neg (si_ranges i) then
    if emit_pos (si_ranges i) then
      c <- bp_split_children dbg b i ;;
      c <- set_child_angles dbg c split ;;
      n <- put (fst x) (fst c) ;; p <- put (snd x) (snd c) ;; Ok (n, p)
    else
      b <- set_angles_except b (SS split false) (neg_range (si_ranges i)) ;; n <- put (fst x) b ;; Ok (n, snd x)
  else
    b <- set_angles_except b (SS split true) (pos_range (si_ranges i)) ;; p <- put (snd x) b ;; Ok (fst x, p).
(** The last branches, bsp_node.h 635-655 and 570-591: the polygon is on the split
    plane; on_node_plane is set as well. *)
Definition push_on_plane (split : hspace3) (b : bpoly) (x : kid * kid) : res (kid * kid) :=
  let pos := zdiff_sign (pnormal_drop (bp_poly b)) (comp (hn split) (pdrop (bp_poly b))) in
  b <- set_angles b (SS split pos) 0 (bp_count b + 1) ;;
  let b := BP (bp_poly b) (bp_box b) (bp_id b) (Some (SS split pos)) in
  if pos then p <- put_border (snd x) b ;; Ok (fst x, p) else n <- put_border (fst x) b ;; Ok (n, snd x).
Definition on_plane_info (i : split_info) : bool := negb (emit_neg (si_ranges i)) && negb (emit_pos (si_ranges i)).
(** The body of the loop of PushContentsToChildren, bsp_node.h 606-656. *)
Definition push_content (dbg : bool) (split : hspace3) (b : bpoly) (x : kid * kid) : res (kid * kid) :=
  _ <- check dbg (0 <? bp_count b) ;;
  i <- bp_split_info dbg b split ;;
  _ <- check dbg (info_valid i (bp_count b)) ;;
  if on_plane_info i then push_on_plane split b x else push_off_plane dbg split put_contents b i x.
(** The body of the loop of PushBorderContentsToChildren, bsp_node.h 545-592. *)
Definition push_border (dbg : bool) (split : hspace3) (b : bpoly) (x : kid * kid) : res (kid * kid) :=
  _ <- check dbg (0 <? bp_count b) ;;
  i <- bp_split_info dbg b split ;;
  if on_plane_info i then _ <- check dbg false ;; push_on_plane split b x else push_off_plane dbg split put_border b i x.
(** PushContentsToChildren of an interior node, bsp_node.h 603-661, with
    PushBorderContentsToChildren, 541-596: what becomes of the two children. *)
Definition push_all (dbg : bool) (split : hspace3) (contents border : list bpoly) (x : kid * kid) : res (kid * kid) :=
  y <- push_pwn dbg split contents (k_infos (fst x), k_infos (snd x)) ;;
  let x := (Kid (k_contents (fst x)) (k_border (fst x)) (fst y), Kid (k_contents (snd x)) (k_border (snd x)) (snd y)) in
  x <- rfold (push_content dbg split) contents x ;;
  rfold (push_border dbg split) border x.
(** PushContentsToChildren, bsp_node.h 598-662. *)
Definition push_to_children (dbg : bool) (t : bnode) : res bnode :=
  match t with
  | BNil => UB
  | BNode s cs bs infos n p =>
      if bn_is_leaf s then Ok t
      else
        kn <- kid_of n ;; kp <- kid_of p ;;
        x <- push_all dbg s cs bs (kn, kp) ;;
        Ok (BNode s [] [] infos (with_kid n (fst x)) (with_kid p (snd x)))
  end.
(** PushContentsToLeaves, bsp_node.h 664-674.  The node's own lists and table are
    passed separately, so that the recursion is over the tree. *)
Fixpoint push_to_leaves_from (dbg : bool) (t : bnode) (k : kid) : res bnode :=
  match t with
  | BNil => UB
  | BNode s _ _ _ n p =>
      match k_contents k, k_border k with
      | [], [] => Ok (BNode s [] [] (k_infos k) n p)
      | cs, bs =>
          if bn_is_leaf s then Ok (BNode s cs bs (k_infos k) n p)
          else
            kn <- kid_of n ;; kp <- kid_of p ;;
            x <- push_all dbg s cs bs (kn, kp) ;;
            n' <- push_to_leaves_from dbg n (fst x) ;;
            p' <- push_to_leaves_from dbg p (snd x) ;;
            Ok (BNode s [] [] (k_infos k) n' p')
      end
  end.
Definition push_to_leaves (dbg : bool) (t : bnode) : res bnode := k <- kid_of t ;; push_to_leaves_from dbg t k.
(** Split(half_space), bsp_node.h 42-50, and MakeInterior, 236-245. *)
Definition bn_split (dbg : bool) (h : hspace3) (t : bnode) : res bnode :=
  match t with
  | BNil => UB
  | BNode s cs bs infos _ _ =>
      _ <- check dbg (hs_valid h) ;;
      _ <- check dbg (bn_is_leaf s) ;;
      let child := BNode no_plane [] [] (set_pwn infos) BNil BNil in
      push_to_children dbg (BNode h cs bs infos child child)
  end.
(** AddRootContent, bsp_node.h 178-193, of a ConvexPolygon whose edges carry no
    BSP data (or have it reset, 185-187); [boxed] tells whether the node's polygons
    derive from AABBConvexPolygon. *)
Definition bp_new (boxed : bool) (id : nat) (p : poly unit) : res bpoly :=
  let q := Poly (pplane p) (pdrop p) (map (fun e => PE (pv e) (pl e) bd_new) (pedges p)) in
  t <- (if boxed then t <- track (map pv (pedges p)) ;; Ok (Some t) else Ok None) ;;
  Ok (BP q t id None).
Definition add_root_content (boxed : bool) (id : nat) (p : poly unit) (t : bnode) : res bnode :=
  match t with
  | BNil => UB
  | BNode s cs bs infos n q =>
      b <- bp_new boxed id p ;;
      let infos := if length infos <=? id then infos ++ repeat ci_empty (id + 1 - length infos) else infos in
      infos <- at_id infos id add_interior ;;
      Ok (BNode s (cs ++ [b]) bs infos n q)
  end.
(** BSPTree::AddContents, bsp_tree.h 40-56, and AddContent, 29-33 (one polygon). *)
Definition add_contents (dbg boxed : bool) (id : nat) (ps : list (poly unit)) (t : bnode) : res bnode :=
  t <- rfold (add_root_content boxed id) ps t ;; push_to_leaves dbg t.
(** A method called on the node that a path from the root leads to (true: to the
    positive child), through negative_child() and positive_child(). *)
Fixpoint at_path (path : list bool) (f : bnode -> res bnode) (t : bnode) : res bnode :=
  match path, t with
  | [], _ => f t
  | _, BNil => UB
  | d :: path, BNode s cs bs infos n p =>
      if d then x <- at_path path f p ;; Ok (BNode s cs bs infos n x) else x <- at_path path f n ;; Ok (BNode s cs bs infos x p)
  end.

(** ** Choosing a plane *)
(** PickSplitPlane's consider_split, bsp_node.h 332-337, on indices. *)
Definition poly_at (cs : list bpoly) (i : nat) : res bpoly := match nth_error cs i with Some b => Ok b | None => UB end.
Definition count_of (infos : list cinfo) (id : nat) : res nat := match nth_error infos id with Some c => Ok (interior c) | None => UB end.
Definition consider (cs : list bpoly) (infos : list cinfo) (i best : nat) : res nat :=
  a <- poly_at cs i ;; b <- poly_at cs best ;;
  ca <- count_of infos (bp_id a) ;; cb <- count_of infos (bp_id b) ;;
  Ok (if ca <? cb then i else best).
(** The indices considered, bsp_node.h 331-345. *)
Definition candidates (n : nat) : list nat :=
  let mid := n / 2 in
  flat_map (fun o => [mid + o; mid - o - 1]) (seq 1 (mid - 1)) ++ (if Nat.odd n then [mid + Nat.max 1 mid] else []).
(** The index PickSplitPlane settles on, bsp_node.h 326-345. *)
Definition pick_index (cs : list bpoly) (infos : list cinfo) : res nat :=
  if length cs =? 1 then Ok (length cs / 2) else rfold (consider cs infos) (candidates (length cs)) (length cs / 2).
(** The search for a second seed, bsp_node.h 359-370: k is the number of
    polygons not looked at. *)
Fixpoint second_seed (cs : list bpoly) (seed : bpoly) (i k : nat) : res (option bpoly) :=
  match k with
  | O => Ok None
  | S k =>
      c <- poly_at cs (i mod length cs) ;;
      if (bp_id c =? bp_id seed) && negb (v3_same_or_opposite_dir (hn (pplane (bp_poly c))) (hn (pplane (bp_poly seed))))
      then Ok (Some c) else second_seed cs seed (S i) k
  end.
(** distances, bsp_node.h 376-385. *)
Fixpoint seed_distances (dbg : bool) (turned : vec3) (id : nat) (cs : list bpoly) : res (list (Z * Z)) :=
  match cs with
  | [] => Ok []
  | c :: cs =>
      if bp_id c =? id then
        _ <- check dbg (3 <=? bp_count c) ;;
        v <- pvertex (bp_poly c) 0 ;;
        l <- seed_distances dbg turned id cs ;; Ok ((v3_dot turned (hv v), hw v) :: l)
      else seed_distances dbg turned id cs
  end.
(** PickQuarterTurnSplitPlane, bsp_node.h 354-419.  [gcd] is
    BigInt::GreatestCommonDivisor; [nth] is std::nth_element on the distances,
    which leaves the order of the elements on each side of the middle open. *)
Definition pick_quarter_turn (dbg : bool) (gcd : Z -> Z -> res Z) (nth : list (Z * Z) -> list (Z * Z)) (cs : list bpoly) (first : nat) : res hspace3 :=
  seed <- poly_at cs first ;;
  second <- second_seed cs seed (S first) (length cs - 1) ;;
  match second with
  | None => Ok (pplane (bp_poly seed))
  | Some c =>
      let a := hn (pplane (bp_poly seed)) in let b := hn (pplane (bp_poly c)) in
      turned <- v3_reduce gcd (v3_sub (v3_scale a (v3_dot a b)) (v3_scale b (v3_dot a a))) ;;
      l <- seed_distances dbg turned (bp_id seed) cs ;;
      _ <- check dbg (1 <=? length l) ;;
      let l := nth l in
      match nth_error l (length l / 2) with
      | None => UB
      | Some (num, den) =>
          let same (x : Z * Z) := rat_eq (fst x) (snd x) num den in
          if forallb same (firstn (length l / 2) l) then Ok (pplane (bp_poly seed))
          else if forallb same (skipn (S (length l / 2)) l) then Ok (pplane (bp_poly seed))
          else
            let n := v3_scale turned den in
            hs_reduce gcd (if (zsign_ext den <? 0)%Z then HS (v3_neg n) (- num) else HS n num)
      end
  end.
(** PickSplitPlane, bsp_node.h 314-352. *)
Definition pick_split_plane (dbg : bool) (gcd : Z -> Z -> res Z) (nth : list (Z * Z) -> list (Z * Z)) (t : bnode) : res hspace3 :=
  match t with
  | BNil => UB
  | BNode s cs _ infos _ _ =>
      _ <- check dbg (bn_is_leaf s) ;;
      match cs with
      | [] => Ok no_plane
      | _ =>
          i <- pick_index cs infos ;;
          b <- poly_at cs i ;;
          if length cs =? 1 then Ok (pplane (bp_poly b))
          else
            k <- count_of infos (bp_id b) ;;
            if 40 <? k then pick_quarter_turn dbg gcd nth cs i else Ok (pplane (bp_poly b))
      end
  end.
(** Split(), bsp_node.h 52-57. *)
Definition bn_split_auto (dbg : bool) (gcd : Z -> Z -> res Z) (nth : list (Z * Z) -> list (Z * Z)) (t : bnode) : res bnode :=
  match t with
  | BNil => UB
  | BNode _ cs _ _ _ _ =>
      _ <- check dbg (negb (length cs =? 0)) ;;
      h <- pick_split_plane dbg gcd nth t ;;
      _ <- check dbg (hs_valid h) ;;
      bn_split dbg h t
  end.
(** GetCostExclude, bsp_node.h 213-233; None stands for (-1, 0). *)
Fixpoint cost_exclude_loop (infos : list cinfo) (id count : nat) (best : option (nat * nat)) : option (nat * nat) * nat :=
  match infos with
  | [] => (best, count)
  | c :: infos =>
      if interior c =? 0 then cost_exclude_loop infos (S id) count best
      else cost_exclude_loop infos (S id) (S count)
             (if (match best with None => 0 | Some b => snd b end) <? interior c then Some (id, interior c) else best)
  end.
Definition cost_exclude (infos : list cinfo) : option (nat * nat) :=
  let r := cost_exclude_loop infos 0 0 None in if 1 <? snd r then fst r else None.
