(** Property C58: monotone ranges. *)
From Coq Require Import List Bool Arith ZArith QArith Lia.
From Verif Require Import BigUIntModel GeoModel GeoSpec TriModel TriSpec PlanarModel MonoRangeModel MonoRangeSpec MonoChainProofs MonoLoopProofs.
Import ListNotations.
Open Scope nat_scope.

(** CompareComponent of the two point types compares coordinates. *)
Theorem C58_point3 : forall mono v, keyed kind_point3 mono v (fun p => inject_Z (comp p mono)).
Proof. exact keyed_point3. Qed.
Print Assumptions C58_point3.
Theorem C58_homo3 : forall mono v, (forall p, In p v -> hw p <> 0%Z) -> keyed kind_homo3 mono v (fun p => qcomp (hp_point p) mono).
Proof. exact keyed_homo3. Qed.
Print Assumptions C58_homo3.
(** Build on the cycle v[b], ..., v[e-1] has no undefined behaviour and no failed
    assertion.  It takes a prefix and a suffix of the cycle.  Going along the
    first chain and back along the second one is the cycle of the vertices
    taken, in the same direction.  The chains have the same first and the same
    last vertex and never decrease.  What is left, with the two ends of the
    chord, is the remaining range; neither its first nor its last vertex could
    be added between the ends of the chord. *)
Theorem C58_build : forall P dbg (k : kind P) mono v key b e, keyed k mono v key -> b < e <= length v ->
  exists r c1 c2 pre mid suf, mr_build dbg k mono v b e = Ok r /\ get_chains r = (c1, c2) /\
  between v b e = pre ++ mid ++ suf /\ rotation (loop_of c1 c2) (pre ++ suf) /\ same_ends c1 c2 /\ ascending key c1 /\ ascending key c2 /\
  b <= mr_begin r <= mr_end r /\ mr_end r <= e /\
  ((mid = [] /\ mr_begin r = mr_end r) \/
   (exists pre' x y suf', pre = pre' ++ [x] /\ suf = y :: suf' /\ mid <> [] /\ between v (mr_begin r) (mr_end r) = x :: mid ++ [y] /\
      forall m1 z m2, mid = m1 ++ z :: m2 -> m1 = [] \/ m2 = [] -> ~ within key x y z)).
Proof. intros P dbg k mono v key b e K L. exact (build_ok k mono v key K dbg b e L). Qed.
Print Assumptions C58_build.
(** An empty range. *)
Theorem C58_build_empty : forall P dbg (k : kind P) mono v b, mr_build dbg k mono v b b = Ok (MR 0%Z [] [] b b).
Proof. intros P dbg k mono v b. unfold mr_build. rewrite Nat.eqb_refl. reflexivity. Qed.
Print Assumptions C58_build_empty.
(** The remaining range is shorter, unless the range is stuck. *)
Theorem C58_progress : forall P dbg (k : kind P) mono v key b e r, keyed k mono v key -> b < e <= length v -> mr_build dbg k mono v b e = Ok r ->
  (mr_end r - mr_begin r < e - b <-> ~ stuck key (between v b e)).
Proof.
  intros P dbg k mono v key b e r K L E. split.
  - intros LT ST. destruct (stuck_keeps k mono v key K dbg b e r L ST E). lia.
  - intros NS. destruct (build_progress k mono v key K dbg b e r L E) as [H|(_ & _ & ST)]; [exact H|contradiction].
Qed.
Print Assumptions C58_progress.
(** So the loop of ConvexPolygonFactory::Build takes at most one round per
    vertex and cuts the cycle into monotone pieces with the same total boundary,
    or it comes to a stuck range and never returns. *)
Theorem C58_loop : forall P dbg (k : kind P) mono v key, keyed k mono v key ->
  (exists cs, (forall fuel, length v <= fuel -> mono_loop dbg fuel k mono v 0 (length v) = Ok cs) /\ length cs <= length v /\
     Forall (fun c => same_ends (fst c) (snd c) /\ ascending key (fst c) /\ ascending key (snd c)) cs /\
     same_boundary [v] (map (fun c => loop_of (fst c) (snd c)) cs)) \/
  (exists b e, b < e <= length v /\ stuck key (between v b e) /\ forall fuel, mono_loop dbg fuel k mono v 0 (length v) = NoFuel).
Proof.
  intros P dbg k mono v key K. destruct (loop_spec k mono v key K dbg (length v) 0 (length v) ltac:(lia) ltac:(lia)) as [(cs & H1 & H2 & H3 & H4)|(b & e & H1 & H2 & H3 & H4)].
  - left. exists cs. split; [intros fuel F; apply H1; lia|]. split; [lia|]. split; [exact H3|]. unfold between in H4. cbn [skipn] in H4. rewrite Nat.sub_0_r, firstn_all in H4. exact H4.
  - right. exists b, e. split; [lia|]. split; [exact H3|exact H4].
Qed.
Print Assumptions C58_loop.
(** A stuck range is never finished, whatever it is. *)
Theorem C58_stuck_refuted : forall P dbg (k : kind P) mono v key b e, keyed k mono v key -> b < e <= length v -> stuck key (between v b e) ->
  (exists r, mr_build dbg k mono v b e = Ok r /\ mr_begin r = b /\ mr_end r = e) /\ forall fuel, mono_loop dbg fuel k mono v b e = NoFuel.
Proof.
  intros P dbg k mono v key b e K L ST. split; [|exact (stuck_loops k mono v key K dbg b e L ST)].
  destruct (C58_build P dbg k mono v key b e K L) as (r & _ & _ & _ & _ & _ & E & _). exists r. split; [exact E|]. exact (stuck_keeps k mono v key K dbg b e r L ST E).
Qed.
Print Assumptions C58_stuck_refuted.

(** An arrow head in the plane z = 7; y is the monotone axis.  Started at (3, 2)
    it is stuck, started at (0, 0) it is cut into two triangles. *)
Definition arrow : list vec3 := [V3 3 2 7; V3 0 0 7; V3 0 3 7; V3 1 1 7].
Example C58_arrow_stuck : stuck (fun p => inject_Z (comp p 1)) arrow /\ forall fuel, mono_loop true fuel kind_point3 1 arrow 0 4 = NoFuel.
Proof.
  assert (S : stuck (fun p => inject_Z (comp p 1)) arrow). { exists (V3 3 2 7), (V3 0 0 7), [], (V3 0 3 7), (V3 1 1 7). split; [reflexivity|]. left. cbn. repeat split. }
  split; [exact S|]. apply (C58_stuck_refuted vec3 true kind_point3 1 arrow (fun p => inject_Z (comp p 1)) 0 4 (C58_point3 1 arrow)); [cbn; lia|exact S].
Qed.
Example C58_arrow_turned : let v := [V3 0 0 7; V3 0 3 7; V3 1 1 7; V3 3 2 7] in
  mono_loop true 4 kind_point3 1 v 0 4 = Ok [([V3 0 0 7; V3 1 1 7; V3 3 2 7], [V3 0 0 7; V3 3 2 7]); ([V3 0 0 7; V3 0 3 7], [V3 0 0 7; V3 1 1 7; V3 0 3 7])].
Proof. vm_compute. reflexivity. Qed.
(** A range with equal neighbours in the monotone dimension. *)
Example C58_case : let v := [V3 1 0 0; V3 5 0 0; V3 5 4 0; V3 4 4 0; V3 4 2 0; V3 2 2 0; V3 2 4 0; V3 1 4 0] in
  exists r, mr_build true kind_point3 1 v 0 8 = Ok r /\ mr_begin r = 3 /\ mr_end r = 7 /\ length (mr_chain1 r) = 4 /\ length (mr_chain2 r) = 4.
Proof. vm_compute. eexists. repeat split. Qed.
