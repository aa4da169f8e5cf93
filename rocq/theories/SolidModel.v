(** Model of mesh.h: the queries about a mesh.  A polygon is given by its
    vertices, the only part of it that is read.  BigInt arithmetic as in
    GeoModel.v; std::unordered_map is an association list. *)
From Coq Require Import ZArith List Bool Arith.
From Verif Require Import BigUIntModel GeoModel.
Import ListNotations.
Open Scope Z_scope.

(** The vertices of all polygons in the order in which they are visited. *)
Definition mesh_vertices (mesh : list (list hpoint3)) : list hpoint3 := concat mesh.
(** GetTopPoint, mesh.h 17-30; the loop body: *)
Definition top_step (top point : hpoint3) : hpoint3 := if (hw top =? 0) || hp_topness_lt top point then point else top.
Definition top_point (mesh : list (list hpoint3)) : hpoint3 := fold_left top_step (mesh_vertices mesh) (HP (V3 0 0 0) 0).
(** GetFarthest, mesh.h 174-193: the farthest point so far and best_num. *)
Definition far_step (v : vec3) (s : hpoint3 * Z) (point : hpoint3) : hpoint3 * Z :=
  let dist := v3_dot (hv point) v in
  if (hw (fst s) =? 0) || rat_lt (snd s) (hw (fst s)) dist (hw point) then (point, dist) else s.
Definition farthest (mesh : list (list hpoint3)) (v : vec3) : hpoint3 := fst (fold_left (far_step v) (mesh_vertices mesh) (HP (V3 0 0 0) 0, 0)).

(** ** GetCentroid, mesh.h 35-172 *)
(** The triangles (point_a, point_b, point_c) of one polygon, mesh.h 76-87 and
    136-140; there are none for fewer than 3 vertices. *)
Definition fan {B} (vs : list B) : list (B * B * B) := match vs with [] => [] | a :: r => map (fun s => (a, fst s, snd s)) (combine r (tl r)) end.
Definition key : Type := Z * Z * Z.
Definition key_eqb (a b : key) : bool := let '(a0, a1, a2) := a in let '(b0, b1, b2) := b in (a0 =? b0) && (a1 =? b1) && (a2 =? b2).
Definition tri_key (t : hpoint3 * hpoint3 * hpoint3) : key := let '(a, b, c) := t in (hw a, hw b, hw c).
(** canonicalized_tri_denom, mesh.h 93-100: std::sort is given the range of the
    first two elements only. *)
Definition canonical_key (k : key) : key := let '(a, b, c) := k in if b <? a then (b, a, c) else (a, b, c).
(** denom_map; [None] is the value size_t(-1). *)
Definition key_map : Type := list (key * option nat).
Fixpoint map_find (m : key_map) (k : key) : option (option nat) := match m with [] => None | (k', i) :: m => if key_eqb k k' then Some i else map_find m k end.
Fixpoint map_set (m : key_map) (k : key) (i : nat) : key_map := match m with [] => [(k, Some i)] | (k', j) :: m => if key_eqb k k' then (k', Some i) :: m else (k', j) :: map_set m k i end.
(** denom_map, denom_values (contribution, numerator_multiple), denom_indices and
    up_to_lcm. *)
Record denoms : Type := Denoms { dn_map : key_map; dn_values : list (Z * Z); dn_indices : list (option nat); dn_lcm : Z }.
(** One triangle of the first pass, mesh.h 88-118. *)
Definition denom_step (gcd : Z -> Z -> res Z) (s : denoms) (k : key) : res denoms :=
  match map_find (dn_map s) k with
  | Some i => Ok (Denoms (dn_map s) (dn_values s) (dn_indices s ++ [i]) (dn_lcm s))
  | None =>
      let m := (k, None) :: dn_map s in
      let c := canonical_key k in
      match map_find m c with
      | Some (Some i) => Ok (Denoms (map_set m k i) (dn_values s) (dn_indices s ++ [Some i]) (dn_lcm s))
      | _ =>
          let i := length (dn_values s) in
          let '(w0, w1, w2) := k in
          let product := w0 * w1 * w2 in
          g <- gcd (dn_lcm s) product ;;
          contribution <- zdivide product g ;; multiple <- zdivide (dn_lcm s) g ;;
          Ok (Denoms (map_set (map_set m c i) k i) (dn_values s ++ [(contribution, multiple)]) (dn_indices s ++ [Some i]) (dn_lcm s * contribution))
      end
  end.
Fixpoint denom_loop (gcd : Z -> Z -> res Z) (s : denoms) (ks : list key) : res denoms :=
  match ks with [] => Ok s | k :: ks => s <- denom_step gcd s k ;; denom_loop gcd s ks end.
(** The backward loop, mesh.h 121-128: the final numerator_multiple of every
    entry, and after_lcm. *)
Fixpoint after_loop (vals : list (Z * Z)) : list Z * Z :=
  match vals with [] => ([], 1) | (c, m) :: vals => let r := after_loop vals in (m * snd r :: fst r, snd r * c) end.
(** HadamardSquared, vector3.h 135-138. *)
Definition v3_squared (a : vec3) : vec3 := v3_hadamard a a.
(** One triangle of the second pass, mesh.h 141-165; [m] is numerator_multiple. *)
Definition volume_term (t : hpoint3 * hpoint3 * hpoint3) (m : Z) : Z := let '(a, b, c) := t in v3_dot (hv a) (v3_cross (hv b) (hv c)) * m.
Definition centroid_term (t : hpoint3 * hpoint3 * hpoint3) (m : Z) : vec3 :=
  let '(a, b, c) := t in
  v3_scale (v3_hadamard
    (v3_add (v3_add (v3_scale (v3_cross (hv a) (hv b)) (hw c)) (v3_scale (v3_cross (hv b) (hv c)) (hw a))) (v3_scale (v3_cross (hv c) (hv a)) (hw b)))
    (v3_add (v3_add
      (v3_squared (v3_scale (v3_add (v3_scale (hv a) (hw b)) (v3_scale (hv b) (hw a))) (hw c)))
      (v3_squared (v3_scale (v3_add (v3_scale (hv b) (hw c)) (v3_scale (hv c) (hw b))) (hw a))))
      (v3_squared (v3_scale (v3_add (v3_scale (hv c) (hw a)) (v3_scale (hv a) (hw c))) (hw b)))))
    (m * m * m).
Fixpoint sum_loop (mult : list Z) (ts : list (hpoint3 * hpoint3 * hpoint3)) (is : list (option nat)) (vol : Z) (c : vec3) : res (Z * vec3) :=
  match ts, is with
  | [], _ => Ok (vol, c)
  | t :: ts, Some i :: is =>
      match nth_error mult i with
      | Some m => sum_loop mult ts is (vol + volume_term t m) (v3_add c (centroid_term t m))
      | None => UB
      end
  | _, _ => UB
  end.
Definition mesh_centroid (dbg : bool) (gcd : Z -> Z -> res Z) (mesh : list (list hpoint3)) : res hpoint3 :=
  let ts := flat_map fan mesh in
  s <- denom_loop gcd (Denoms [] [] [] 1) (map tri_key ts) ;;
  let a := after_loop (dn_values s) in
  _ <- check dbg (dn_lcm s =? snd a) ;;
  r <- sum_loop (fst a) ts (dn_indices s) 0 (V3 0 0 0) ;;
  Ok (HP (snd r) (8 * fst r * snd a * snd a)).
