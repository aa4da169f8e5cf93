(** Model of Extrude (src/walnut/extrude.cpp 10-47).

    ConvexPolygonFactory is a parameter: the function from the vertices passed to
    Build to the polygons passed to Emit.  FactoryModel is a model of it for Point3
    vertices. *)
From Coq Require Import List Bool Arith ZArith.
From Verif Require Import BigUIntModel GeoModel PolyModel FactoryModel.
Import ListNotations.

(** side_vertices, extrude.cpp 31-35. *)
Definition ex_side {V} (offset : V -> V) (cap : list V) (i : nat) : res (list V) :=
  match nth_error cap ((i + 1) mod length cap), nth_error cap i with
  | Some a, Some b => Ok [a; b; offset b; offset a]
  | _, _ => UB
  end.
(** The loop over the sides, extrude.cpp 30-37, over the indices is. *)
Fixpoint ex_sides {V P} (build : list V -> res (list P)) (offset : V -> V) (cap : list V) (is : list nat) : res (list P) :=
  match is with
  | [] => Ok []
  | i :: is => v <- ex_side offset cap i ;; ps <- build v ;; r <- ex_sides build offset cap is ;; Ok (ps ++ r)
  end.
(** The whole function. *)
Definition extrude_with {V P} (build : list V -> res (list P)) (offset : V -> V) (cap : list V) : res (list P) :=
  bottom <- build cap ;;
  sides <- ex_sides build offset cap (seq 0 (length cap)) ;;
  top <- build (map offset (rev cap)) ;;
  Ok (bottom ++ sides ++ top).
(** With the vertices that the code uses. *)
Definition extrude {P} (build : list hpoint3 -> res (list P)) (cap : list hpoint3) (direction : vec3) (direction_denom : Z) : res (list P) :=
  extrude_with build (fun p => hp_add_offset p direction direction_denom) cap.
(** With vertices that are integer points, for which the factory is modelled; the
    fuel is that of FactoryModel. *)
Definition extrude_int {A} (dbg : bool) (fuel : nat) (d0 : A) (cap : list vec3) (direction : vec3) : res (list (poly A)) :=
  extrude_with (fun v => cf_build dbg fuel d0 v 0 (length v)) (fun p => v3_add p direction) cap.
