(** Executable model of the R transformation
    (include/walnut/r_transformation.h, src/walnut/r_transformation.cpp). *)
From Coq Require Import ZArith.
From Verif Require Import GeoModel.
Open Scope Z_scope.

(** RTransform, r_transformation.h 28-35. *)
Definition r_transform (p : hpoint3) (eps_inv : Z) : hpoint3 :=
  let sq := eps_inv * eps_inv in
  HP (V3 (vx (hv p) * sq) (vy (hv p) * sq) ((vz (hv p) * eps_inv + vy (hv p)) * eps_inv + vx (hv p))) (hw p * sq).
(** RXYCompareBivector(Vector3, Vector3), r_transformation.cpp 5-16. *)
Definition rxy_compare (u v : vec3) : Z :=
  let comparexy := zcompare (vx u * vy v) (vy u * vx v) in
  if negb (comparexy =? 0) then comparexy
  else
    let comparexz := zcompare (vz u * vx v) (vx u * vz v) in
    if negb (comparexz =? 0) then comparexz
    else zcompare (vy u * vz v) (vz u * vy v).
(** SplitSide, split_side.h: a split plane and the side of it. *)
Record split_side := SS { ss_split : hspace3; ss_pos : bool }.
(** RXYCompareBivector(Vector3, SplitSide), r_transformation.cpp 18-20. *)
Definition rxy_compare_split (u : vec3) (v : split_side) : Z := rxy_compare u (hn (ss_split v)) * (if ss_pos v then -1 else 1).
