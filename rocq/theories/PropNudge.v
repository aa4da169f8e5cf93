(** Property C27: NudgingPlaneBuilder. *)
From Coq Require Import List Bool Arith ZArith QArith Lia.
From Verif Require Import BigUIntModel GeoModel GeoSpec GeoProofs GeoBridge NudgeModel NudgeSpec NudgeProofs.
Import ListNotations.
Open Scope nat_scope.

(** Satisfying the plane equation is being on the plane. *)
Theorem C27_incident : forall h p q, denotes p q -> (incident h p <-> (side h q == 0)%Q).
Proof. exact incident_denotes. Qed.
Print Assumptions C27_incident.
(** Any history of calls: the built plane contains every constrained vertex
    that was accepted, and is the oriented plane of three of the added
    vertices, in the order they were added.  Except when HasLargePlane was
    called with three vertices present and one or two constrained vertices
    came later (see [C27_early_query_refuted]). *)
Theorem C27_plane_partial : forall gcd ops b rs h, gcd_ok gcd -> nb_run gcd nb_new ops = Ok (b, rs) -> nb_build gcd b = Ok h ->
  3 <= count is_constrained ops \/ ~ queried_early ops ->
  (forall v, In (NCon v, true) (combine ops rs) -> incident h v) /\
  exists p1 p2 p3, subsequence [p1; p2; p3] (flat_map vertex_of ops) /\ plane_through h p1 p2 p3.
Proof. exact constrained_on_plane. Qed.
Print Assumptions C27_plane_partial.
(** The excluded histories: every later constrained vertex is accepted, and
    Build still returns the plane of the time of the query, whatever those
    vertices are. *)
Theorem C27_early_query_refuted : forall gcd before after b1 rs1 b2 r b3 rs3, nb_run gcd nb_new before = Ok (b1, rs1) -> 3 <= count is_vertex before ->
  nb_step gcd b1 NLarge = Ok (b2, r) -> nb_run gcd b2 after = Ok (b3, rs3) -> count is_constrained before + count is_constrained after < 3 ->
  nb_build gcd b3 = nb_build gcd b1 /\ forall v q, In (NCon v, q) (combine after rs3) -> q = true.
Proof.
  intros gcd before after b1 rs1 b2 r b3 rs3 R L St R3 C. destruct (nb_run_facts gcd before b1 rs1 R) as (I & _ & C1 & V & _).
  cbn [nb_step] in St. destruct (nb_large_facts gcd b1 b2 r I St) as (I' & _ & C2 & [(X & _)|(_ & S & B & _)]); [lia|]. rewrite B.
  apply (stale_plane gcd after b2 b3 rs3 I' S); [lia|exact R3].
Qed.
Print Assumptions C27_early_query_refuted.
(** A vertex is only rejected when three constrained vertices came before it
    and it is not on the plane that will be built. *)
Theorem C27_rejected : forall gcd ops b rs h, nb_run gcd nb_new ops = Ok (b, rs) -> nb_build gcd b = Ok h ->
  forall v, In (NCon v, false) (combine ops rs) -> 3 < count is_constrained ops /\ ~ incident h v.
Proof. exact rejected_off_plane. Qed.
Print Assumptions C27_rejected.
(** Three vertices of any kind: the plane of that triangle, in that order. *)
Theorem C27_three_vertices : forall gcd ops b rs h v1 v2 v3, gcd_ok gcd -> nb_run gcd nb_new ops = Ok (b, rs) -> flat_map vertex_of ops = [v1; v2; v3] ->
  nb_build gcd b = Ok h -> plane_through h v1 v2 v3.
Proof.
  intros gcd ops b rs h v1 v2 v3 G R V B. destruct (three_vertices gcd ops b rs v1 v2 v3 R V) as [E P]. rewrite E in B. exact (build_info_plane gcd b h v1 v2 v3 G P B).
Qed.
Print Assumptions C27_three_vertices.
(** Three collinear vertices: Build never returns (it divides by zero). *)
Theorem C27_collinear_refuted : forall gcd ops b rs h v1 v2 v3 q1 q2 q3, gcd_ok gcd -> denotes v1 q1 -> denotes v2 q2 -> denotes v3 q3 -> collinear q1 q2 q3 ->
  flat_map vertex_of ops = [v1; v2; v3] -> nb_run gcd nb_new ops = Ok (b, rs) -> nb_build gcd b <> Ok h.
Proof. exact three_collinear. Qed.
Print Assumptions C27_collinear_refuted.
(** HasLargePlane: whether the plane has a coefficient beyond 32 bits. *)
Theorem C27_large : forall gcd ops b rs r, nb_run gcd nb_new (ops ++ [NLarge]) = Ok (b, rs ++ [r]) ->
  (count is_vertex ops < 3 -> r = false) /\ (3 <= count is_vertex ops -> exists h, nb_build gcd b = Ok h /\ (r = false <-> small_plane h)).
Proof. exact large_result. Qed.
Print Assumptions C27_large.
(** The six entries always suffice, and with three vertices three entries are
    there to build from. *)
Theorem C27_array : forall gcd ops b rs, nb_run gcd nb_new ops = Ok (b, rs) ->
  (forall v, exists b', nb_add_unconstrained b v = Ok b') /\
  (count is_constrained ops < 3 -> forall v, exists i, nb_push b true v = Ok i) /\
  (3 <= count is_vertex ops -> exists p1 p2 p3, nb_pick (nb_info b) (3 - nb_count b) 3 = Ok [p1; p2; p3]).
Proof.
  intros gcd ops b rs R. destruct (nb_run_facts gcd ops b rs R) as (I & _ & C & V & _). split; [|split].
  - intros v. destruct (nb_unc_ok gcd b v I) as (b' & E & _). eauto.
  - intros L v. rewrite (nb_push_ok gcd b true v I) by lia. eauto.
  - intros L. destruct (nb_picked gcd b I ltac:(lia)) as (p1 & p2 & p3 & E & _). eauto.
Qed.
Print Assumptions C27_array.

(** Two nudgeable and two fixed vertices, a query in between. *)
Definition hpt (x y z : Z) : hpoint3 := HP (V3 x y z) 1.
Example C27_case : exists b rs h, nb_run zgcd nb_new [NUnc (hpt 0 0 0); NCon (hpt 4 0 1); NLarge; NUnc (hpt 0 4 0); NCon (hpt 4 4 9)] = Ok (b, rs) /\ nb_build zgcd b = Ok h /\
  incident h (hpt 4 0 1) /\ incident h (hpt 4 4 9) /\ ~ incident h (hpt 0 4 0).
Proof. do 3 eexists. split; [vm_compute; reflexivity|]. split; [vm_compute; reflexivity|]. unfold incident. vm_compute. repeat split; discriminate. Qed.
Example C27_rejected_case : exists b h, nb_run zgcd nb_new [NUnc (hpt 9 9 9); NCon (hpt 0 0 0); NCon (hpt 1 0 0); NCon (hpt 0 1 0); NCon (hpt 5 5 0); NCon (hpt 1 1 1)] = Ok (b, [true; true; true; true; true; false]) /\
  nb_build zgcd b = Ok h /\ h = HS (V3 0 0 1) 0.
Proof. do 2 eexists. split; [vm_compute; reflexivity|]. split; vm_compute; reflexivity. Qed.
(** The stale plane: the fixed vertex (0, 0, 5) is not on it. *)
Example C27_early_query_case : exists b h, nb_run zgcd nb_new [NUnc (hpt 0 0 0); NUnc (hpt 1 0 0); NUnc (hpt 0 1 0); NLarge; NCon (hpt 0 0 5)] = Ok (b, [true; true; true; false; true]) /\
  nb_build zgcd b = Ok h /\ ~ incident h (hpt 0 0 5).
Proof. do 2 eexists. split; [vm_compute; reflexivity|]. split; [vm_compute; reflexivity|]. vm_compute. discriminate. Qed.
