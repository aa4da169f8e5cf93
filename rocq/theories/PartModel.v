(** Model of plane_partitioner.h: PlanePartitioner, which cuts the polygons on one
    side of a BSP cell into pieces that do not overlap partly, and hands those to a
    visitor where the side of the visitor's solid changes.

    Simplifications:
    - a visitor is the function [isin] (its IsInside) and what it is told is a list
      of events;
    - the free list of polygon vectors only recycles memory and is left out, and so
      is the conversion between polygon classes;
    - a pointer to a split plane is the plane (see BspModel.v).  The planes of the
      partitioner are local variables of Run; along one path they are pairwise
      different, and different from those of the tree (proved in PartProofs.v). *)
From Coq Require Import ZArith List Bool Arith.
From Verif Require Import BigUIntModel GeoModel RTransModel FilterModel PolyModel BspModel.
Import ListNotations.
Open Scope nat_scope.

(** What BSPVisitor's methods are called with, bsp_visitor.h 195-211; the interior
    nodes are those of the partitioner. *)
Inductive event := EEnter (h : hspace3) | ELeave (h : hspace3) | ELeaf | EAccept (b : bpoly).

(** Equality of two [const HalfSpace3*]. *)
Definition v3_eqb (a b : vec3) : bool := ((vx a =? vx b) && (vy a =? vy b) && (vz a =? vz b))%Z.
Definition hs_eqb (a b : hspace3) : bool := v3_eqb (hn a) (hn b) && (hd a =? hd b)%Z.
Definition same_split (a b : option split_side) : bool :=
  match a, b with None, None => true | Some a, Some b => hs_eqb (ss_split a) (ss_split b) | _, _ => false end.
(** SearchForSplitEdge, plane_partitioner.h 129-139. *)
Definition split_edge (b : bpoly) : option (pedge bdata) := find (fun e => same_split (first_co (pd e)) (edge_co (pd e))) (pedges (bp_poly b)).
(** The first polygon with such an edge, in the order of the indices, and that
    edge. *)
Fixpoint search (l : list bpoly) (is : list nat) : res (option (pedge bdata)) :=
  match is with
  | [] => Ok None
  | i :: is => b <- poly_at l i ;; match split_edge b with Some e => Ok (Some e) | None => search l is end
  end.
(** The order of the private Run, plane_partitioner.h 157-176. *)
Definition middle_out (n : nat) : list nat :=
  let mid := n / 2 in
  flat_map (fun o => [mid + o; mid - o - 1]) (seq 0 mid) ++ (if Nat.odd n then [mid + mid] else []).

(** The body of the loop of PushToChildren, plane_partitioner.h 212-234. *)
Definition part_push_one (dbg : bool) (h : hspace3) (b : bpoly) (x : list bpoly * list bpoly) : res (list bpoly * list bpoly) :=
  i <- bp_split_info dbg b h ;;
  _ <- check dbg (negb (on_plane_info i)) ;;
  if emit_neg (si_ranges i) then
    if emit_pos (si_ranges i) then
      c <- bp_split_children dbg b i ;;
      c <- set_child_angles dbg c h ;;
      Ok (fst x ++ [fst c], snd x ++ [snd c])
    else b <- set_angles_except b (SS h false) (neg_range (si_ranges i)) ;; Ok (fst x ++ [b], snd x)
  else b <- set_angles_except b (SS h true) (pos_range (si_ranges i)) ;; Ok (fst x, snd x ++ [b]).
(** PushToChildren, plane_partitioner.h 207-237. *)
Definition part_push (dbg : bool) (h : hspace3) (l : list bpoly) : res (list bpoly * list bpoly) := rfold (part_push_one dbg h) l ([], []).

(** RestoreCurrentContentInfoPWN, plane_partitioner.h 239-246. *)
Fixpoint restore_pwn (init cur : list cinfo) : list cinfo :=
  match init, cur with i :: init, c :: cur => CI (interior c) (border c) (pwn i) :: restore_pwn init cur | _, _ => cur end.
Definition restore (dbg : bool) (init cur : list cinfo) : res (list cinfo) :=
  _ <- check dbg (length cur =? length init) ;; if length cur <=? length init then Ok (restore_pwn init cur) else UB.
(** SetCurrentContentInfoPolygons, plane_partitioner.h 248-258. *)
Definition clear_border (c : cinfo) : cinfo := CI (interior c) 0 (pwn c).
Definition set_border (c : cinfo) : cinfo := CI (interior c) 1 (pwn c).
Definition set_polygons (dbg : bool) (l : list bpoly) (cur : list cinfo) : res (list cinfo) :=
  _ <- check dbg (forallb (fun c => interior c =? 0) cur) ;;
  rfold (fun b cur => at_id cur (bp_id b) set_border) l (map clear_border cur).

(** pwn_change, plane_partitioner.h 274 and 282-288; ^ is that of the two's
    complement integers. *)
Definition pwn_change (d : nat) (pos_normal : bool) (b : bpoly) : Z :=
  (if Z.lxor (zget_sign (comp (hn (pplane (bp_poly b))) d)) (if pos_normal then 1 else -1) <? 0 then -1 else 1)%Z.
(** The loop of ProcessLeaf, plane_partitioner.h 275-297: the calls of Accept, and
    current_content_info_ afterwards. *)
Fixpoint peel (dbg : bool) (isin : list cinfo -> bool * bool) (d : nat) (pos_normal : bool) (l : list bpoly) (cur : list cinfo) (inner_match : bool) : res (list event * list cinfo) :=
  match l with
  | [] => Ok ([], cur)
  | b :: l =>
      _ <- check dbg (negb (comp (hn (pplane (bp_poly b))) d =? 0)%Z) ;;
      cur <- at_id cur (bp_id b) (add_pwn (pwn_change d pos_normal b)) ;;
      let peeled := fst (isin cur) in
      r <- peel dbg isin d pos_normal l cur peeled ;;
      Ok (if Bool.eqb peeled inner_match then r else (EAccept b :: fst r, snd r))
  end.
(** ProcessLeaf, plane_partitioner.h 269-298. *)
Definition part_leaf (dbg : bool) (isin : list cinfo -> bool * bool) (d : nat) (pos_normal : bool) (l : list bpoly) (cur : list cinfo) (m : bool * bool) : res (list event * list cinfo) :=
  r <- peel dbg isin d pos_normal l cur (fst m) ;; Ok (ELeaf :: fst r, snd r).

(** The plane that a split edge is turned into, plane_partitioner.h 86-87 and
    187-188. *)
Definition edge_plane (e : pedge bdata) (d : nat) : hspace3 := hs_extrude (pl_project2d (pl e) d) d.
(** The private Run, plane_partitioner.h 141-203; cur is current_content_info_. *)
Fixpoint part_rec (fuel : nat) (dbg : bool) (isin : list cinfo -> bool * bool) (d : nat) (pos_normal : bool) (init : list cinfo) (l : list bpoly) (cur : list cinfo) : res (list event * list cinfo) :=
  match fuel with
  | O => NoFuel
  | S fuel =>
      let m := isin cur in
      if negb (snd m) then Ok ([], cur)
      else
        s <- search l (middle_out (length l)) ;;
        match s with
        | None => r <- part_leaf dbg isin d pos_normal l cur m ;; cur <- restore dbg init (snd r) ;; Ok (fst r, cur)
        | Some e =>
            let h := edge_plane e d in
            c <- part_push dbg h l ;;
            cur <- set_polygons dbg (fst c) cur ;;
            r <- part_rec fuel dbg isin d pos_normal init (fst c) cur ;;
            cur <- set_polygons dbg (snd c) (snd r) ;;
            r' <- part_rec fuel dbg isin d pos_normal init (snd c) cur ;;
            Ok (EEnter h :: fst r ++ fst r' ++ [ELeave h], snd r')
        end
  end.
(** ContentInfoMatches, plane_partitioner.h 106-117. *)
Definition infos_match (l : list bpoly) (infos : list cinfo) : bool :=
  forallb (fun b => match nth_error infos (bp_id b) with None => false | Some c => negb (border c =? 0) end) l.
(** The public Run, plane_partitioner.h 59-102. *)
Definition part_run (fuel : nat) (dbg : bool) (isin : list cinfo -> bool * bool) (d : nat) (pos_normal : bool) (init : list cinfo) (l : list bpoly) : res (list event) :=
  _ <- check dbg (infos_match l init) ;;
  let m := isin init in
  if negb (snd m) then Ok []
  else
    s <- search l (seq 0 (length l)) ;;
    match s with
    | None => r <- part_leaf dbg isin d pos_normal l init m ;; Ok (fst r)
    | Some e =>
        let h := edge_plane e d in
        c <- part_push dbg h l ;;
        cur <- set_polygons dbg (fst c) init ;;
        r <- part_rec fuel dbg isin d pos_normal init (fst c) cur ;;
        cur <- set_polygons dbg (snd c) (snd r) ;;
        r' <- part_rec fuel dbg isin d pos_normal init (snd c) cur ;;
        Ok (EEnter h :: fst r ++ fst r' ++ [ELeave h])
    end.
