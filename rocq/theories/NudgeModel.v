(** Model of NudgingPlaneBuilder
    (include/walnut/nudging_plane_builder.h, src/walnut/nudging_plane_builder.cpp)
    and of MeshPlaneRepairer
    (include/walnut/mesh_plane_repairer.h, src/walnut/mesh_plane_repairer.cpp). *)
From Coq Require Import List Bool Arith ZArith.
From Verif Require Import BigUIntModel GeoModel ConcatModel PlanarModel.
Import ListNotations.
Open Scope nat_scope.

(** ** NudgingPlaneBuilder *)
(** Fields of NudgingPlaneBuilder, nudging_plane_builder.h 54-63: [nb_info] is
    the used part of plane_info_ (constrained flag, vertex); the pointers to
    vertices are modelled by the points, which nothing changes while a builder
    exists. *)
Record nbuilder := NB { nb_info : list (bool * hpoint3); nb_count : nat; nb_plane : hspace3; nb_set : bool }.
(** A new builder: no vertex; plane_ is a default HalfSpace3. *)
Definition nb_new : nbuilder := NB [] 0 hs_zero false.
(** The loop of BuildFromPlaneInfo, nudging_plane_builder.cpp 10-25; [need] is
    3 - accepted.  Reading an entry that was never written is undefined. *)
Fixpoint nb_pick (info : list (bool * hpoint3)) (unc need : nat) : res (list hpoint3) :=
  match need with
  | O => Ok []
  | S n =>
    match info with
    | [] => UB
    | (c, v) :: r =>
      if c then l <- nb_pick r unc n ;; Ok (v :: l)
      else match unc with
           | S u => l <- nb_pick r u n ;; Ok (v :: l)
           | O => nb_pick r 0 need
           end
    end
  end.
(** BuildFromPlaneInfo, nudging_plane_builder.cpp 5-30. *)
Definition nb_build_info (gcd : Z -> Z -> res Z) (b : nbuilder) : res hspace3 :=
  l <- nb_pick (nb_info b) (3 - nb_count b) 3 ;;
  match l with
  | [p1; p2; p3] => h <- hs_of_hpoints p1 p2 p3 ;; hs_reduce gcd h
  | _ => UB
  end.
(** Writing plane_info_[plane_info_used_]: the array has six entries. *)
Definition nb_push (b : nbuilder) (c : bool) (v : hpoint3) : res (list (bool * hpoint3)) :=
  if length (nb_info b) <? 6 then Ok (nb_info b ++ [(c, v)]) else UB.
(** AddUnconstrained, nudging_plane_builder.h 66-72. *)
Definition nb_add_unconstrained (b : nbuilder) (v : hpoint3) : res nbuilder :=
  if length (nb_info b) <? 3 then
    i <- nb_push b false v ;; Ok (NB i (nb_count b) (nb_plane b) (nb_set b))
  else Ok b.
(** TryAddConstrained, nudging_plane_builder.h 74-89. *)
Definition nb_try_constrained (gcd : Z -> Z -> res Z) (b : nbuilder) (v : hpoint3) : res (nbuilder * bool) :=
  if nb_count b <? 3 then
    i <- nb_push b true v ;;
    let b := NB i (S (nb_count b)) (nb_plane b) (nb_set b) in
    if nb_count b =? 3 then
      h <- nb_build_info gcd b ;; Ok (NB i (nb_count b) h true, true)
    else Ok (b, true)
  else Ok (b, hs_coincident (nb_plane b) v).
(** BigInt::IsHalfWord, big_int.h 114-116. *)
Definition zhalf (v : Z) : bool := ((- 2 ^ 31 <=? v) && (v <? 2 ^ 31))%Z.
(** The return value of HasLargePlane, nudging_plane_builder.h 98-99. *)
Definition large_plane (h : hspace3) : bool :=
  negb (zhalf (vx (hn h)) && zhalf (vy (hn h)) && zhalf (vz (hn h))) || negb (zhalf (hd h)).
(** HasLargePlane, nudging_plane_builder.h 91-100. *)
Definition nb_has_large (gcd : Z -> Z -> res Z) (b : nbuilder) : res (nbuilder * bool) :=
  if length (nb_info b) <? 3 then Ok (b, false)
  else if nb_set b then Ok (b, large_plane (nb_plane b))
  else h <- nb_build_info gcd b ;; Ok (NB (nb_info b) (nb_count b) h true, large_plane h).
(** Build, nudging_plane_builder.h 28-46. *)
Definition nb_build (gcd : Z -> Z -> res Z) (b : nbuilder) : res hspace3 :=
  if nb_set b then Ok (nb_plane b) else nb_build_info gcd b.

(** The public calls, for histories. *)
Inductive nbop := NUnc (v : hpoint3) | NCon (v : hpoint3) | NLarge.
(** One call; the result of TryAddConstrained or HasLargePlane, true for
    AddUnconstrained. *)
Definition nb_step (gcd : Z -> Z -> res Z) (b : nbuilder) (o : nbop) : res (nbuilder * bool) :=
  match o with
  | NUnc v => b <- nb_add_unconstrained b v ;; Ok (b, true)
  | NCon v => nb_try_constrained gcd b v
  | NLarge => nb_has_large gcd b
  end.
(** A history: the calls with their results. *)
Fixpoint nb_run (gcd : Z -> Z -> res Z) (b : nbuilder) (ops : list nbop) : res (nbuilder * list bool) :=
  match ops with
  | [] => Ok (b, [])
  | o :: ops => x <- nb_step gcd b o ;; y <- nb_run gcd (fst x) ops ;; Ok (fst y, snd x :: snd y)
  end.

(** ** MeshPlaneRepairer *)
(** VertexInfo, mesh_plane_repairer.h 22-40: [vadj] is the used part of
    adjacent; the pointers to planes are modelled by the planes, which stay
    unchanged in the deque polygons_. *)
Record vinfo := VI { vpt : hpoint3; vadj : list hspace3 }.
(** CanAddAdjacent, mesh_plane_repairer.h 28-30. *)
Definition can_add (v : vinfo) : bool := length (vadj v) <? 3.
(** Finalize, mesh_plane_repairer.cpp 139-162. *)
Definition vi_finalize (gcd : Z -> Z -> res Z) (v : vinfo) : res vinfo :=
  if forallb (fun h => hs_coincident h (vpt v)) (vadj v) then Ok v
  else
    q <- match vadj v with
         | [a] => Ok (pl_intersect (pl_of_hpoints (vpt v) (hp_add_offset (vpt v) (hn a) 1)) a)
         | [a; b] => let l := pl_of_planes a b in Ok (pl_intersect l (hs_of_normal_point (ld l) (vpt v)))
         | [a; b; c] => Ok (pl_intersect (pl_of_planes a b) c)
         | _ => UB
         end ;;
    r <- hp_reduce gcd q ;; Ok (VI r (vadj v)).
(** TryAddAdjacent, mesh_plane_repairer.cpp 8-24. *)
Definition vi_try_add (gcd : Z -> Z -> res Z) (v : vinfo) (h : hspace3) : res vinfo :=
  if can_add v then
    if existsb (fun a => hs_same_or_opposite a h) (vadj v) then Ok v
    else
      let v := VI (vpt v) (vadj v ++ [h]) in
      if length (vadj v) =? 3 then vi_finalize gcd v else Ok v
  else Ok v.
(** The state of a MeshPlaneRepairer, mesh_plane_repairer.h 77-82, 95-102, 132-141:
    pointers to VertexInfo are indices into vertex_info_storage_, the hash map
    is a list of pairs; a Polygon is its plane and vertex_end.  The polygon
    data, which is only copied, is left out. *)
Record mesh := Mesh { m_store : list vinfo; m_map : list (hpoint3 * nat); m_verts : list nat;
  m_polys : list (hspace3 * nat); m_active : list nat }.
Definition mesh_new : mesh := Mesh [] [] [] [] [].
(** unordered_map::find with HomoPoint3StrictEq. *)
Definition map_find (m : list (hpoint3 * nat)) (p : hpoint3) : option nat :=
  option_map snd (find (fun e => hp_strict_eq (fst e) p) m).
(** unordered_map::emplace: an existing entry stays. *)
Definition map_emplace (m : list (hpoint3 * nat)) (p : hpoint3) (i : nat) : list (hpoint3 * nat) :=
  match map_find m p with Some _ => m | None => m ++ [(p, i)] end.
(** AddVertexInfo, mesh_plane_repairer.cpp 50-86 (both overloads). *)
Definition add_vertex_info (gcd : Z -> Z -> res Z) (m : mesh) (p : hpoint3) : res (mesh * nat) :=
  match map_find (m_map m) p with
  | Some i => Ok (m, i)
  | None =>
    r <- hp_reduce gcd p ;;
    match map_find (m_map m) r with
    | Some i => Ok (Mesh (m_store m) (map_emplace (m_map m) p i) (m_verts m) (m_polys m) (m_active m), i)
    | None =>
      let i := length (m_store m) in
      Ok (Mesh (m_store m ++ [VI r []]) (map_emplace (map_emplace (m_map m) r i) p i) (m_verts m) (m_polys m) (m_active m), i)
    end
  end.
(** AddVertex, mesh_plane_repairer.h 108-118. *)
Definition add_vertex (gcd : Z -> Z -> res Z) (m : mesh) (p : hpoint3) : res mesh :=
  x <- add_vertex_info gcd m p ;;
  Ok (Mesh (m_store (fst x)) (m_map (fst x)) (m_verts (fst x)) (m_polys (fst x)) (m_active (fst x) ++ [snd x])).
(** The active vertex an iterator points to. *)
Definition act_at (st : list vinfo) (act : list nat) (i : nat) : res vinfo := k <- get act i ;; get st k.
(** GetNextPlanarRange, inner loop, mesh_plane_repairer.cpp 116-126. *)
Fixpoint range_back (gcd : Z -> Z -> res Z) (fuel : nat) (st : list vinfo) (act : list nat) (b : nbuilder) (last : nat) : res (nbuilder * nat) :=
  match fuel with
  | O => NoFuel
  | S fuel =>
    match last with
    | O => UB
    | S l =>
      v <- act_at st act l ;;
      if can_add v then
        x <- nb_has_large gcd b ;;
        if snd x : bool then Ok (fst x, last)
        else b <- nb_add_unconstrained (fst x) (vpt v) ;; range_back gcd fuel st act b l
      else
        x <- nb_try_constrained gcd b (vpt v) ;;
        if snd x : bool then range_back gcd fuel st act (fst x) l else Ok (fst x, last)
    end
  end.
(** GetNextPlanarRange, outer loop, mesh_plane_repairer.cpp 106-129. *)
Fixpoint range_front (gcd : Z -> Z -> res Z) (fuel : nat) (st : list vinfo) (act : list nat) (b : nbuilder) (first last : nat) : res (nbuilder * nat * nat) :=
  match fuel with
  | O => NoFuel
  | S fuel =>
    if first =? last then Ok (b, first, last)
    else
      v <- act_at st act first ;;
      if can_add v then
        x <- nb_has_large gcd b ;;
        if snd x : bool then Ok (fst x, first, last)
        else b <- nb_add_unconstrained (fst x) (vpt v) ;; range_front gcd fuel st act b (S first) last
      else
        x <- nb_try_constrained gcd b (vpt v) ;;
        if snd x : bool then range_front gcd fuel st act (fst x) (S first) last
        else y <- range_back gcd (S last) st act (fst x) last ;; Ok (fst y, first, snd y)
  end.
(** GetNextPlanarRange, mesh_plane_repairer.cpp 88-131: the plane and the
    remaining range. *)
Definition next_range (gcd : Z -> Z -> res Z) (st : list vinfo) (act : list nat) (first last : nat) : res (hspace3 * nat * nat) :=
  match last with
  | O => UB
  | S l =>
    v <- act_at st act l ;;
    b <- (if can_add v then nb_add_unconstrained nb_new (vpt v)
          else x <- nb_try_constrained gcd nb_new (vpt v) ;; Ok (fst x)) ;;
    y <- range_front gcd (S l) st act b first l ;;
    let '(b, f, e) := y in h <- nb_build gcd b ;; Ok (h, f, e)
  end.
Definition set_nth {A} (l : list A) (i : nat) (x : A) : list A := firstn i l ++ x :: skipn (S i) l.
(** One pass of the copy loops of FinishFacet, mesh_plane_repairer.h 226-239,
    over the given positions of active_polygon_vertices_. *)
Fixpoint attach (gcd : Z -> Z -> res Z) (st : list vinfo) (act : list nat) (h : hspace3) (out : list nat) (pos : list nat) : res (list vinfo * list nat) :=
  match pos with
  | [] => Ok (st, out)
  | i :: pos =>
    k <- get act i ;; v <- get st k ;; v <- vi_try_add gcd v h ;;
    attach gcd (set_nth st k v) act h (out ++ [k]) pos
  end.
(** The while loop of FinishFacet, mesh_plane_repairer.h 217-248. *)
Fixpoint facet_loop (dbg : bool) (gcd : Z -> Z -> res Z) (fuel : nat) (st : list vinfo) (act : list nat) (verts : list nat)
    (polys : list (hspace3 * nat)) (first last : nat) : res (list vinfo * list nat * list (hspace3 * nat)) :=
  match fuel with
  | O => NoFuel
  | S fuel =>
    x <- next_range gcd st act first last ;;
    let '(h, f, e) := x in
    _ <- check dbg (negb (first =? f)) ;;
    y <- attach gcd st act h verts (seq first (f - first)) ;;
    z <- attach gcd (fst y) act h (snd y) (rev (seq e (last - e))) ;;
    let polys := polys ++ [(h, length (snd z))] in
    if f =? e then Ok (fst z, snd z, polys)
    else facet_loop dbg gcd fuel (fst z) act (snd z) polys (f - 1) (S e)
  end.
(** FinishFacet, mesh_plane_repairer.h 209-251. *)
Definition finish_facet (dbg : bool) (gcd : Z -> Z -> res Z) (m : mesh) : res mesh :=
  _ <- check dbg (negb (length (m_active m) =? 0)) ;;
  x <- facet_loop dbg gcd (S (length (m_active m))) (m_store m) (m_active m) (m_verts m) (m_polys m) 0 (length (m_active m)) ;;
  let '(st, verts, polys) := x in Ok (Mesh st (m_map m) verts polys []).
(** FinalizeVertices, mesh_plane_repairer.cpp 133-137. *)
Fixpoint finalize_vertices (gcd : Z -> Z -> res Z) (st : list vinfo) : res (list vinfo) :=
  match st with
  | [] => Ok []
  | v :: st =>
    v <- (if length (vadj v) =? 3 then Ok v else vi_finalize gcd v) ;; st <- finalize_vertices gcd st ;; Ok (v :: st)
  end.
(** FinalizeMesh and the sequence of GetNextPolygon calls,
    mesh_plane_repairer.h 146-207: the planes and the vertex points. *)
Fixpoint produce (st : list vinfo) (verts : list nat) (begin : nat) (polys : list (hspace3 * nat)) : res (list (hspace3 * list hpoint3)) :=
  match polys with
  | [] => Ok []
  | (h, e) :: polys =>
    l <- (fix pts (ks : list nat) : res (list hpoint3) :=
            match ks with [] => Ok [] | k :: ks => v <- get st k ;; l <- pts ks ;; Ok (vpt v :: l) end)
         (firstn (e - begin) (skipn begin verts)) ;;
    r <- produce st verts e polys ;; Ok ((h, l) :: r)
  end.
Definition finalize_mesh (gcd : Z -> Z -> res Z) (m : mesh) : res (list (hspace3 * list hpoint3)) :=
  st <- finalize_vertices gcd (m_store m) ;; produce st (m_verts m) 0 (m_polys m).
(** A whole use of the class: facets as lists of vertices. *)
Fixpoint add_all (gcd : Z -> Z -> res Z) (m : mesh) (ps : list hpoint3) : res mesh :=
  match ps with [] => Ok m | p :: ps => m <- add_vertex gcd m p ;; add_all gcd m ps end.
Fixpoint add_facets (dbg : bool) (gcd : Z -> Z -> res Z) (m : mesh) (fs : list (list hpoint3)) : res mesh :=
  match fs with [] => Ok m | f :: fs => m <- add_all gcd m f ;; m <- finish_facet dbg gcd m ;; add_facets dbg gcd m fs end.
Definition repair (dbg : bool) (gcd : Z -> Z -> res Z) (fs : list (list hpoint3)) : res (list (hspace3 * list hpoint3)) :=
  m <- add_facets dbg gcd mesh_new fs ;; finalize_mesh gcd m.
