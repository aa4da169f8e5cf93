(** C71: Extrude. *)
From Coq Require Import List Bool Arith ZArith QArith Lqa Lia ZifyBool.
From Verif Require Import BigUIntModel GeoModel GeoSpec AabbSpec AreaSpec PlanarSpec MonoRangeSpec PolyModel PolySpec FactoryModel FactorySpec ExtrudeModel ExtrudeSpec ExtrudeProofs.
From Verif Require PropFactory.
Import ListNotations.
Open Scope Z_scope.

(** The vertices of the other end are the given ones moved by
    direction / direction_denom. *)
Theorem C71_moved p q d n : n <> 0 -> denotes p q -> denotes (hp_add_offset p d n) (qadd q (qscale (1 / inject_Z n) (qpt d))).
Proof.
  intros N (W & X & Y & T). unfold denotes, hp_add_offset, qadd, qscale, qpt. cbn [hw hv vx vy vz qx qy qz]. split; [lia|]. assert (N' : ~ (inject_Z n == 0)%Q) by (intros E; exact (N (proj1 (inject_Z_injective n 0) E))).
  rewrite !inject_Z_plus, !inject_Z_mult, X, Y, T. repeat split; field; exact N'.
Qed.
Print Assumptions C71_moved.

(** Whatever polygons Extrude returns: when the factory cuts each face into convex
    polygons with the same boundary, they are convex polygons and together have no
    gap, every point of every line is covered as often by edges that go one way as
    by edges that go the other way. *)
Theorem C71_watertight {A} (build : list hpoint3 -> res (list (poly A))) point cap d n ps :
  Forall (cut_right build point) (faces (fun p => hp_add_offset p d n) cap) -> extrude build cap d n = Ok ps -> exists qss, Forall2 poly_ok ps qss /\ watertight qss.
Proof. intros C E. destruct (extrude_cancels build _ point cap ps C E) as (qss & F & K). exists qss. split; [exact F|apply cancels_watertight; exact K]. Qed.
Print Assumptions C71_watertight.

(** Extrude returns what the factory returns for the faces: the bottom, a side for
    each edge of it, the top. *)
Theorem C71_faces {A} (build : list hpoint3 -> res (list (poly A))) cap d n ps : extrude build cap d n = Ok ps <->
  exists pss, Forall2 (fun v qs => build v = Ok qs) (faces (fun p => hp_add_offset p d n) cap) pss /\ ps = concat pss.
Proof.
  split; [apply extrude_faces|]. intros (pss & F & ->). unfold extrude. rewrite extrude_run. induction F as [|v qs vs pss E F IH]; [reflexivity|]. cbn [build_all_of concat]. rewrite E, IH. reflexivity.
Qed.
Print Assumptions C71_faces.

(** With the factory of the code and integer points: the result has no gap, or the
    factory never returns for one of the faces.  Missing: faces in which two
    vertices have the same x or y (C61). *)
Theorem C71_int_partial {A} dbg (d0 : A) cap d : let fs := faces (fun p => v3_add p d) cap in Forall small_coords fs -> Forall distinct_xy fs ->
  (exists ps qss, (forall fuel, (4 <= fuel)%nat -> (length cap <= fuel)%nat -> extrude_int dbg fuel d0 cap d = Ok ps) /\ Forall2 poly_ok ps qss /\ watertight qss) \/
  (exists v, In v fs /\ (forall fuel, cf_build dbg fuel d0 v 0 (length v) = NoFuel) /\ forall fuel, (4 <= fuel)%nat -> (length cap <= fuel)%nat -> extrude_int dbg fuel d0 cap d = NoFuel).
Proof.
  intros fs Sm Di. set (bd := fun fuel v => cf_build dbg fuel d0 v 0 (length v)).
  assert (L : forall v, In v fs -> (length v <= max 4 (length cap))%nat).
  { intros v I. unfold fs, faces in I. destruct I as [<-|I]; [lia|]. apply in_app_or in I as [I|[<-|[]]]; [apply in_map_iff in I as (e & <- & _); cbn [face_side length]; lia|rewrite map_length, rev_length; lia]. }
  assert (D : forall v, In v fs -> (exists ps, (forall fuel, (4 <= fuel)%nat -> (length cap <= fuel)%nat -> bd fuel v = Ok ps) /\ convex_parts v ps) \/ (forall fuel, bd fuel v = NoFuel)).
  { intros v I. rewrite Forall_forall in Sm, Di. destruct (PropFactory.C61_build_partial dbg d0 v (Sm v I) (Di v I)) as [(ps & H & C)|(? & ? & ? & ? & _ & _ & _ & H)]; [left|right; exact H]. exists ps. split; [|exact C]. intros fuel F4 Fc. apply H. pose proof (L v I). lia. }
  assert (U : forall fuel, extrude_int dbg fuel d0 cap d = build_all_of (bd fuel) fs) by (intros fuel; apply extrude_run).
  assert (Cs : (forall v, In v fs -> exists ps, (forall fuel, (4 <= fuel)%nat -> (length cap <= fuel)%nat -> bd fuel v = Ok ps) /\ convex_parts v ps) \/ exists v, In v fs /\ forall fuel, bd fuel v = NoFuel).
  { clear - D. induction fs as [|v vs IH]; [left; intros v []|]. destruct (D v (or_introl eq_refl)) as [P|P]; [|right; exists v; split; [left; reflexivity|exact P]]. destruct IH as [Q|(w & I & Q)]; [intros w I; apply D; right; exact I| |right; exists w; split; [right; exact I|exact Q]].
    left. intros w [<-|I]; [exact P|apply Q, I]. }
  destruct Cs as [P|(v & I & P)]; [left|right].
  - set (f0 := max 4 (length cap)). assert (Eq : forall fuel, (4 <= fuel)%nat -> (length cap <= fuel)%nat -> extrude_int dbg fuel d0 cap d = extrude_int dbg f0 d0 cap d).
    { intros fuel F4 Fc. rewrite !U. clear - P F4 Fc. induction fs as [|v vs IH]; [reflexivity|]. cbn [build_all_of]. destruct (P v (or_introl eq_refl)) as (ps & H & _). rewrite (H fuel F4 Fc), (H f0) by (unfold f0; lia). rewrite IH; [reflexivity|]. intros w I. apply P. right. exact I. }
    destruct (all_built (bd f0) fs) as (ps & E); [intros v I; destruct (P v I) as (ps & H & _); exists ps; apply H; unfold f0; lia|].
    assert (C : Forall (cut_right (bd f0) qpt) fs).
    { apply Forall_forall. intros v I. apply int_cut. intros qs Eq'. destruct (P v I) as (qs' & H & C). assert (Q : bd f0 v = Ok qs') by (apply H; unfold f0; lia). unfold bd in Q. rewrite Q in Eq'. injection Eq' as <-. exact C. }
    rewrite <- U in E. destruct (extrude_cancels (bd f0) _ qpt cap ps C E) as (qss & F & K). exists ps, qss. split; [|split; [exact F|apply cancels_watertight, K]]. intros fuel F4 Fc. rewrite (Eq fuel F4 Fc). exact E.
  - exists v. split; [exact I|]. split; [exact P|]. intros fuel F4 Fc. rewrite U. apply (one_stuck _ _ v); [|exact I|apply P]. intros w J. destruct (D w J) as [(ps & H & _)|H]; [left; exists ps; apply H; assumption|right; apply H].
Qed.
Print Assumptions C71_int_partial.

(** ** Cases *)
(** A prism that leans. *)
Definition tri : list vec3 := [V3 0 0 0; V3 10 3 0; V3 4 9 0].
Example C71_case : let fs := faces (fun p => v3_add p (V3 1 2 7)) tri in Forall small_coords fs /\ Forall distinct_xy fs /\
  exists ps qss, extrude_int true 4 0 tri (V3 1 2 7) = Ok ps /\ length ps = 5%nat /\ Forall2 poly_ok ps qss /\ watertight qss.
Proof.
  set (fs := faces (fun p => v3_add p (V3 1 2 7)) tri). assert (S1 : Forall small_coords fs) by (cbn; repeat (apply Forall_cons; [PropFactory.small_case|]); apply Forall_nil).
  assert (D1 : Forall distinct_xy fs) by (cbn; repeat (apply Forall_cons; [PropFactory.distinct_case|]); apply Forall_nil). cbn zeta. split; [exact S1|]. split; [exact D1|].
  destruct (C71_int_partial true 0 tri (V3 1 2 7) S1 D1) as [(ps & qss & H & F & K)|(v & _ & _ & H)]; specialize (H 4%nat ltac:(lia) ltac:(cbn; lia)); [|exfalso; vm_compute in H; discriminate].
  exists ps, qss. split; [exact H|]. split; [|split; [exact F|exact K]]. vm_compute in H. injection H as <-. reflexivity.
Qed.
(** Without one of its faces the prism has a gap. *)
Example C71_open : ~ watertight (map (map qpt) (tl (faces (fun p => v3_add p (V3 1 2 7)) tri))).
Proof. intros H. specialize (H (qpt (V3 0 0 0)) (qpt (V3 10 3 0)) 1%Q). vm_compute in H. discriminate. Qed.
(** The same prism with homogeneous points; the factory is that of C61. *)
Definition int_build (v : list hpoint3) : res (list (poly Z)) := if forallb (fun p => hw p =? 1) v then cf_build true 4 0 (map hv v) 0 (length (map hv v)) else UB.
Definition tri_h : list hpoint3 := map (fun p => HP p 1) tri.
Example C71_case_h : Forall (cut_right int_build (fun p => qpt (hv p))) (faces (fun p => hp_add_offset p (V3 1 2 7) 1) tri_h) /\ exists ps, extrude int_build tri_h (V3 1 2 7) 1 = Ok ps /\ length ps = 5%nat.
Proof.
  split; [|eexists; split; [vm_compute; reflexivity|reflexivity]].
  assert (G : forall v, (length v <= 4)%nat -> small_coords (map hv v) -> distinct_xy (map hv v) -> cut_right int_build (fun p => qpt (hv p)) v).
  { intros v L Sm Di ps E. unfold int_build in E. destruct (forallb _ v); [|discriminate].
    assert (K : cut_right (fun v => cf_build true 4 0 v 0 (length v)) qpt (map hv v)).
    { apply int_cut. intros qs Q. destruct (PropFactory.C61_build_partial true 0 (map hv v) Sm Di) as [(ps' & H & C)|(? & ? & ? & ? & _ & _ & _ & H)]; [|rewrite H in Q; discriminate]. rewrite H in Q by (rewrite map_length; exact L). injection Q as <-. exact C. }
    destruct (K ps E) as (qss & F & S1). exists qss. split; [exact F|]. intros f W. rewrite (S1 f W), map_map. reflexivity. }
  cbn. repeat (apply Forall_cons; [apply G; [cbn; lia|PropFactory.small_case|PropFactory.distinct_case]|]). apply Forall_nil.
Qed.
