(** Model of AABB::IntersectPlane, aabb.h 182-250. *)
From Coq Require Import ZArith List Bool.
From Verif Require Import BigUIntModel GeoModel AabbModel PolyModel RTransModel FilterModel BspModel.
Import ListNotations.
Open Scope Z_scope.

(** parallelogram_planes, aabb.h 196-212, and drop_top, 225; dir1, dir2 and dir3
    are the unit vectors times denom_. *)
Definition axis (b : aabb) (i : nat) : vec3 := set_comp (V3 0 0 0) i (bden b).
Definition wall_max (b : aabb) (i : nat) : hspace3 := HS (axis b i) (comp (bmax b) i).
Definition wall_min (b : aabb) (i : nat) : hspace3 := HS (v3_neg (axis b i)) (- comp (bmin b) i).
(** parallelogram_planes[(4 + k) % 4], for k in -4..3. *)
Definition side_wall (b : aabb) (drop : nat) (k : Z) : hspace3 :=
  let d1 := ((drop + 1) mod 3)%nat in let d2 := ((drop + 2) mod 3)%nat in
  match (4 + k) mod 4 with 0 => wall_min b d1 | 1 => wall_min b d2 | 2 => wall_max b d1 | _ => wall_max b d2 end.
(** One round of the loop, aabb.h 217-222. *)
Definition slice_edge (b : aabb) (h : hspace3) (drop : nat) (flip i : Z) : pedge unit :=
  let l := pl_of_planes h (side_wall b drop (i * flip)) in PE (pl_intersect l (side_wall b drop ((i - 1) * flip))) l tt.
Definition slice (b : aabb) (h : hspace3) (drop : nat) (flip : Z) : poly unit := Poly h drop (map (slice_edge b h drop flip) [0; 1; 2; 3]).
(** drop_bottom, aabb.h 239. *)
Definition wall_bottom (b : aabb) (i : nat) : hspace3 := HS (axis b i) (comp (bmin b) i).
(** [None] is a default-constructed, empty polygon. *)
Definition bx_intersect_plane (dbg : bool) (b : aabb) (h : hspace3) : res (option (poly unit)) :=
  match first_nonzero (hn h) with
  | None => Ok None
  | Some drop =>
      let p := slice b h drop (zabs_mult (comp (hn h) drop)) in
      i <- get_split_info dbg p (wall_max b drop) ;;
      if negb (emit_neg (si_ranges i)) then Ok (if on_plane_info i then Some p else None)
      else
        p <- (if emit_pos (si_ranges i) then c <- split_children dbg edge_info_root p i ;; Ok (fst c) else Ok p) ;;
        i <- get_split_info dbg p (wall_bottom b drop) ;;
        if negb (emit_pos (si_ranges i)) then Ok (if on_plane_info i then Some p else None)
        else if emit_neg (si_ranges i) then c <- split_children dbg edge_info_root p i ;; Ok (Some (snd c)) else Ok (Some p)
  end.
