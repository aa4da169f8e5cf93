(** Model of ConnectingVisitor::FilterEmptyPolygons and IsValidState
    (include/walnut/connecting_visitor.h 61-68 and 123-160) for the meshes of
    LinkModel, and of the merging loop with its assertions. *)
From Coq Require Import List Bool Arith ZArith.
From Verif Require Import BigUIntModel GeoModel PolyModel LinkModel.
Import ListNotations.
Open Scope nat_scope.

(** SetEdgeBackPointers, connected_polygon.h 451-455, for the polygon at position j. *)
Definition set_back (j : nat) (p : poly cdata) : poly cdata := set_edges p (map (fun e => PE (pv e) (pl e) (set_poly j (pd e))) (pedges p)).
(** std::remove_if after the first polygon to remove: the polygons that stay are
    move-assigned (connected_polygon.h 416-424) one after the other, the first one
    to position j.  The vector of edges is handed over as a whole, so the edges stay
    the same objects and only their polygon changes; the target of an assignment has
    no edges of its own. *)
Fixpoint fe_move (j : nat) (st : mesh) : mesh :=
  match st with
  | [] => []
  | p :: st => if pcount p =? 0 then fe_move j st else set_back j p :: fe_move (S j) st
  end.
(** Up to the first polygon to remove nothing is assigned. *)
Fixpoint fe_find (j : nat) (st : mesh) : mesh :=
  match st with
  | [] => []
  | p :: st => if pcount p =? 0 then fe_move j st else p :: fe_find (S j) st
  end.
Definition filter_empty (st : mesh) : mesh := fe_find 0 st.

(** The body of the inner loop of IsValidState, connecting_visitor.h 128-157, for
    the edge of a deed; a deed is empty when its edge is gone. *)
Definition valid_edge (st : mesh) (id : nat) : res bool :=
  match place id st with
  | None => Ok true
  | Some _ =>
    e <- deref st id ;; p <- poly_at st (c_poly (pd e)) ;;
    if pcount p <? 3 then Ok false
    else match c_partner (pd e) with
         | None => Ok true
         | Some d =>
           f0 <- deref st d ;; o <- poly_at st (c_poly (pd f0)) ;;
           if pcount o <? 3 then Ok false
           else
             x <- index_of st d ;; f <- pedge_at o (snd x) ;;
             if negb (pl_eq (pl e) (pl_neg (pl f))) then Ok false
             else
               a <- pvertex o ((snd x + 1) mod pcount o) ;;
               if negb (hp_eq (pv e) a) then Ok false
               else
                 y <- index_of st id ;; b <- pvertex p ((snd y + 1) mod pcount p) ;;
                 Ok (hp_eq (pv f) b)
         end
  end.
(** The loops over all edges of all nodes. *)
Fixpoint valid_state (st : mesh) (ids : list nat) : res bool :=
  match ids with
  | [] => Ok true
  | id :: ids => v <- valid_edge st id ;; if v then valid_state st ids else Ok false
  end.
Definition assert_valid (dbg : bool) (st : mesh) (ids : list nat) : res unit :=
  if dbg then v <- valid_state st ids ;; check dbg v else Ok tt.
(** LeaveInteriorNode from the connected edges on, connecting_visitor.h 192-219:
    ids are the edges of the node, in the order of the loop, all the edges of all
    nodes. *)
Fixpoint merge_checked (dbg : bool) (drop : nat) (st : mesh) (all ids : list nat) : res mesh :=
  match ids with
  | [] => Ok st
  | id :: ids =>
    match place id st with
    | None => merge_checked dbg drop st all ids
    | Some _ =>
      e <- deref st id ;;
      match c_partner (pd e) with
      | None => merge_checked dbg drop st all ids
      | Some q =>
        let nz := (if (comp (ld (pl e)) ((drop + 1) mod 3) =? 0)%Z then drop + 2 else drop + 1) mod 3 in
        x <- index_of st id ;; y <- index_of st q ;;
        r <- merge_polygon dbg st nz (fst x) (snd x) (fst y) (snd y) ;;
        _ <- assert_valid dbg (fst r) all ;;
        merge_checked dbg drop (fst r) all ids
      end
    end
  end.
(** rest are the edges of the other nodes, which are left at the end. *)
Definition leave_checked (dbg : bool) (drop : nat) (st : mesh) (ids rest : list nat) : res mesh :=
  _ <- assert_valid dbg st (ids ++ rest) ;;
  st <- merge_checked dbg drop st (ids ++ rest) ids ;;
  _ <- assert_valid dbg st rest ;;
  Ok st.
