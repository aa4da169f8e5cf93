(** Property C35: area and centroid of ConvexPolygon. *)
From Coq Require Import List Bool Arith ZArith QArith Lqa Lia.
From Verif Require Import BigUIntModel GeoModel GeoSpec GeoBridge CvxSpec PolyModel PolySpec PolyTopProofs PropPoly PolyOpsModel AreaSpec AreaProofs AreaTopProofs.
Import ListNotations.
Open Scope Q_scope.

(** GetProjectedArea returns the exact signed area of the vertices without axis
    d, convex or not, for any number of vertices and any weights: the sum of the
    triangles between the sides and an arbitrary point o. *)
Theorem C35_area : forall A gcd (p : poly A) qs d n m, gcd_ok gcd -> (d < 3)%nat -> Forall2 (fun e q => denotes (pv e) q) (pedges p) qs -> projected_area gcd p d = Ok (n, m) ->
  m <> 0%Z /\ forall o, inject_Z n / inject_Z m == fan_area o (map (qdrop d) qs).
Proof. intros A gcd p qs d n m. apply area_ok. Qed.
Print Assumptions C35_area.
(** GetProjectedCentroid returns the exact centroid, if the area is not zero. *)
Theorem C35_centroid : forall A gcd (p : poly A) qs d c, gcd_ok gcd -> (d < 3)%nat -> Forall2 (fun e q => denotes (pv e) q) (pedges p) qs -> projected_centroid gcd p d = Ok c ->
  (exists o, ~ fan_area o (map (qdrop d) qs) == 0) -> exists q, denotes2 c q /\ is_centroid (map (qdrop d) qs) q.
Proof. intros A gcd p qs d c. apply centroid_2d. Qed.
Print Assumptions C35_centroid.
(** Both return if the weights are positive. *)
Theorem C35_area_returns : forall A (p : poly A) d, Forall (fun e => (0 < hw (pv e))%Z) (pedges p) -> exists r, projected_area zgcd p d = Ok r.
Proof. intros A p d. apply area_total, zgcd_pos. Qed.
Print Assumptions C35_area_returns.
Theorem C35_centroid_returns : forall A (p : poly A) d, Forall (fun e => (0 < hw (pv e))%Z) (pedges p) -> exists r, projected_centroid zgcd p d = Ok r.
Proof. intros A p d. apply centroid_total, zgcd_pos. Qed.
Print Assumptions C35_centroid_returns.
(** The area of a convex polygon, seen along the drop dimension, has the sign of
    that component of the normal. *)
Theorem C35_area_sign : forall A gcd (p : poly A) qs n m, gcd_ok gcd -> poly_ok p qs -> projected_area gcd p (pdrop p) = Ok (n, m) -> (m <> 0 /\ 0 < pnormal_drop p * (n * m))%Z.
Proof. intros A gcd p qs n m. apply poly_area_sign. Qed.
Print Assumptions C35_area_sign.
(** GetCentroid of a convex polygon is a point of its plane, the exact centroid
    seen along the drop dimension, and strictly inside of every side. *)
Theorem C35_centroid_inside : forall A gcd (p : poly A) qs c, gcd_ok gcd -> poly_ok p qs -> centroid gcd p = Ok c ->
  exists q, denotes c q /\ side (pplane p) q == 0 /\ is_centroid (map (qdrop (pdrop p)) qs) (qdrop (pdrop p) q) /\
    forall i a b, nth_error qs i = Some a -> nth_error qs (S i mod length qs) = Some b -> 0 < inject_Z (pnormal_drop p) * turn (qdrop (pdrop p) a) (qdrop (pdrop p) b) (qdrop (pdrop p) q).
Proof. intros A gcd p qs c. apply poly_centroid. Qed.
Print Assumptions C35_centroid_inside.
(** The hexagon has the area 14 without the z axis, negative as the normal points
    down. *)
Example hex_area : exists p n m, poly_of_points tt hex_plane 2 hex_list = Ok p /\ projected_area zgcd p 2 = Ok (n, m) /\ inject_Z n / inject_Z m == - (14 # 1) /\ Forall (fun e => (0 < hw (pv e))%Z) (pedges p).
Proof. do 3 eexists. split; [reflexivity|]. split; [vm_compute; reflexivity|]. split; [vm_compute; reflexivity|]. repeat constructor. Qed.
Example hex_centroid : exists p c, poly_of_points tt hex_plane 2 hex_list = Ok p /\ centroid zgcd p = Ok c /\ denotes c (QP 2 (38 # 21) 2).
Proof. do 2 eexists. split; [reflexivity|]. split; [vm_compute; reflexivity|]. split; [discriminate|]. repeat split; vm_compute; reflexivity. Qed.
(** With negative weights, which a polygon may have, neither need return: here
    the gcd of the weights divides -2^63 by -1. *)
Definition far_triangle : list hpoint3 := [HP (V3 0 0 0) (-1); HP (V3 (- 2 ^ 63) 0 0) (- 2 ^ 63); HP (V3 0 (- 2 ^ 63 - 1) 0) (- 2 ^ 63 - 1)].
Theorem C35_negative_weights_refuted : exists p qs, poly_of_array tt (HS (V3 0 0 1) 0) 2 far_triangle = Ok p /\ poly_ok p qs /\ projected_area zgcd p 2 = UB /\ projected_centroid zgcd p 2 = UB /\ centroid zgcd p = UB.
Proof.
  destruct (C47_from_array unit tt (HS (V3 0 0 1) 0) 2 far_triangle [QP 0 0 0; QP 1 0 0; QP 0 1 0]) as (p & E & H).
  - repeat constructor; vm_compute; discriminate.
  - lia.
  - discriminate.
  - repeat constructor.
  - apply convex_test. vm_compute. reflexivity.
  - exists p, [QP 0 0 0; QP 1 0 0; QP 0 1 0]. split; [exact E|]. split; [exact H|]. vm_compute in E. injection E as <-.
    pose proof zgcd_ub as U. unfold projected_area, projected_centroid, centroid. cbn [pedges pcount length map last area_loop centroid_loop hw pv pdrop] in *.
    change (- 2 ^ 63 - 1)%Z with (-9223372036854775809)%Z in U. change (- 2 ^ 63)%Z with (-9223372036854775808)%Z in U. cbn. rewrite U. auto.
Qed.
Print Assumptions C35_negative_weights_refuted.
