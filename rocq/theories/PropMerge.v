(** Property C34: TryMergePolygon. *)
From Coq Require Import List Bool Arith ZArith QArith Lqa Lia.
From Verif Require Import BigUIntModel GeoModel GeoSpec CvxSpec PolyModel PolySpec MergeSpec PolyOpsModel PolyBridgeProofs PolyInfoProofs PolyCapProofs PolyTopProofs PropPoly CvxMergeProofs MergeProofs MergeTopProofs.
Import ListNotations.
Open Scope Q_scope.
(** On success the polygons have the same normal direction, and the result is a
    convex polygon in the plane of the first one, whose vertices are vertices of
    the two and whose points are exactly the points of both. *)
Theorem C34_merged : forall A dbg (E : einfo A) p qs k o os m nz r, common_edge p qs k o os m nz -> try_merge dbg E p nz k o m = Ok (Some r) ->
  same_direction (l3 (hn (pplane p))) (l3 (hn (pplane o))) /\
  exists rs, poly_ok r rs /\ pplane r = pplane p /\ pdrop r = pdrop p /\ (forall v, In v rs -> In v qs \/ In v os) /\
    forall q, polygon_point (pplane r) (pdrop r) rs q <-> in_either p qs o os q.
Proof. intros A dbg E p qs k o os m nz r [H O K M N Ea Eb Ne] Eq. exact (merge_spec dbg E p o qs os nz k m H O K M N Ea Eb Ne (Some r) Eq). Qed.
Print Assumptions C34_merged.
(** It is refused only if the normals have different directions, if the points of
    both together are not a convex set, or if at one end of the common edge both
    polygons go straight on, so that more than this edge touches. *)
Theorem C34_refused : forall A dbg (E : einfo A) p qs k o os m nz, common_edge p qs k o os m nz -> try_merge dbg E p nz k o m = Ok None ->
  ~ same_direction (l3 (hn (pplane p))) (l3 (hn (pplane o))) \/ not_convex (in_either p qs o os) \/
  (straight_at qs k /\ straight_at os (S m)) \/ (straight_at qs (S k) /\ straight_at os m).
Proof.
  intros A dbg E p qs k o os m nz [H O K M N Ea Eb Ne] Eq. exact (refused dbg E p o qs os nz k m H O K M N Ea Eb Ne Eq).
Qed.
Print Assumptions C34_refused.
(** It returns, with all assertions satisfied, unless the most negative 64 bit
    integer is a component of a normal or, in a debug build, of a line. *)
Theorem C34_returns : forall A dbg (E : einfo A) p qs k o os m nz, common_edge p qs k o os m nz -> no_min (l3 (hn (pplane p))) -> no_min (l3 (hn (pplane o))) ->
  (dbg = true -> Forall (fun e => no_min (l3 (ld (pl e)))) (pedges p) /\ Forall (fun e => no_min (l3 (ld (pl e)))) (pedges o)) -> exists x, try_merge dbg E p nz k o m = Ok x.
Proof. intros A dbg E p qs k o os m nz [H O K M N Ea Eb Ne]. exact (merge_total dbg E p o qs os nz k m H O K M N Ea Eb Ne). Qed.
Print Assumptions C34_returns.
(** Two squares with a common side become a rectangle with four vertices. *)
Definition up : hspace3 := HS (V3 0 0 1) 0.
Definition square (x : Z) : list vec3 := [V3 x 0 0; V3 (x + 2) 0 0; V3 (x + 2) 2 0; V3 x 2 0].
Lemma square_case x : (x = 0 \/ x = 2)%Z -> exists p, poly_of_points tt up 2 (square x) = Ok p /\ poly_ok p (rotate 3 (map qpt (square x))).
Proof. intros [-> | ->]; (apply (C47_from_points unit tt up 2); [lia|discriminate|repeat constructor|apply convex_test; vm_compute; reflexivity]). Qed.
Example merge_case : exists p o r, common_edge p (rotate 3 (map qpt (square 0))) 2 o (rotate 3 (map qpt (square 2))) 0 1 /\
  poly_of_points tt up 2 (square 0) = Ok p /\ poly_of_points tt up 2 (square 2) = Ok o /\ try_merge true edge_info_root p 1 2 o 0 = Ok (Some r) /\ map (fun e => hv (pv e)) (pedges r) = [V3 0 2 0; V3 0 0 0; V3 4 0 0; V3 4 2 0].
Proof.
  destruct (square_case 0) as (p & Ep & P); [auto|]. destruct (square_case 2) as (o & Eo & O); [auto|]. exists p, o. assert (X := Ep). assert (Y := Eo). vm_compute in X, Y. injection X as X. injection Y as Y.
  eexists. split; [|split; [exact Ep|split; [exact Eo|split; [subst p o; vm_compute; reflexivity|reflexivity]]]].
  split; [exact P|exact O|subst p; cbn; lia|subst o; cbn; lia|lia|repeat split|repeat split|discriminate].
Qed.
(** Two squares that share a longer side than the edge: the union is convex, but
    the merge is refused, as the third case of C34_refused. *)
Definition halved (x : Z) : list vec3 := [V3 x 0 0; V3 (x + 2) 0 0; V3 (x + 2) 1 0; V3 (x + 2) 2 0; V3 x 2 0].
Definition halved' (x : Z) : list vec3 := [V3 x 0 0; V3 (x + 2) 0 0; V3 (x + 2) 2 0; V3 x 2 0; V3 x 1 0].
Example refused_case : exists p o, poly_of_points tt up 2 (halved 0) = Ok p /\ poly_of_points tt up 2 (halved' 2) = Ok o /\
  common_edge p (rotate 4 (map qpt (halved 0))) 2 o (rotate 4 (map qpt (halved' 2))) 0 1 /\ try_merge true edge_info_root p 1 2 o 0 = Ok None.
Proof.
  destruct (C47_from_points unit tt up 2 (halved 0)) as (p & Ep & P); [lia|discriminate|repeat constructor|apply convex_test; vm_compute; reflexivity|].
  destruct (C47_from_points unit tt up 2 (halved' 2)) as (o & Eo & O); [lia|discriminate|repeat constructor|apply convex_test; vm_compute; reflexivity|].
  exists p, o. assert (X := Ep). assert (Y := Eo). vm_compute in X, Y. injection X as X. injection Y as Y. split; [exact Ep|]. split; [exact Eo|]. split; [|subst p o; vm_compute; reflexivity].
  split; [exact P|exact O|subst p; cbn; lia|subst o; cbn; lia|lia|repeat split|repeat split|discriminate].
Qed.
