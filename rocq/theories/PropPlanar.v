(** Property C24: planar ranges. *)
From Coq Require Import List Bool Arith ZArith Lia.
From Verif Require Import BigUIntModel GeoModel ConcatModel ConcatSpec PlanarModel PlanarSpec PlanarProofs.
Import ListNotations.
Open Scope nat_scope.

(** One Build call on the vertices v[b], ..., v[e-1]: no undefined behaviour or
    failed assertion; the output is a prefix and a suffix of the input, all on
    plane(), of length size(); the rest, with the two chord vertices put back,
    stays for the next call; the remaining range shrinks; and the output is
    maximal at both ends. *)
Theorem C24_build : forall dbg v b e, b < e <= length v -> exists r pre mid suf, pr_build dbg v b e = Ok r /\ slice v b e = pre ++ mid ++ suf /\
  outputs v (pr_range r) (pre ++ suf) /\ pr_size r = length (pre ++ suf) /\ Forall (on_plane (pr_plane r)) (pre ++ suf) /\
  b <= pr_begin r <= pr_end r /\ pr_end r <= e /\ pr_end r - pr_begin r < e - b /\
  ((mid = [] /\ suf = [] /\ pr_begin r = pr_end r) \/
   (exists pre' x y suf' m1 m2 z1 z2, pre = pre' ++ [x] /\ suf = y :: suf' /\ mid = z1 :: m1 /\ mid = m2 ++ [z2] /\
      ~ on_plane (pr_plane r) z1 /\ ~ on_plane (pr_plane r) z2 /\
      ~ zero_normal (pr_plane r) /\ slice v (pr_begin r) (pr_end r) = x :: mid ++ [y])).
Proof. exact pr_build_facts. Qed.
Print Assumptions C24_build.
(** An empty input. *)
Theorem C24_build_empty : forall dbg v b, exists r, pr_build dbg v b b = Ok r /\ outputs v (pr_range r) [] /\ pr_size r = 0 /\ pr_begin r = b /\ pr_end r = b /\ zero_normal (pr_plane r).
Proof.
  intros dbg v b. exists (PR cr_new 0 hs_zero b b). unfold pr_build. rewrite Nat.eqb_refl. split; [reflexivity|]. split; [|repeat split].
  exists []. split; [|constructor]. exists (CIt 0 Null), (CIt 0 Null), [], []. repeat split; constructor.
Qed.
Print Assumptions C24_build_empty.
(** A zero plane is returned exactly when every vertex is in line with the
    first and the last one; then the whole input is used up. *)
Theorem C24_zero_plane : forall dbg v b e r, b < e <= length v -> pr_build dbg v b e = Ok r ->
  (zero_normal (pr_plane r) <-> forall first last_, nth_error v b = Some first -> nth_error v (e - 1) = Some last_ -> Forall (in_line last_ first) (slice v b e)) /\
  (zero_normal (pr_plane r) -> pr_begin r = pr_end r).
Proof.
  intros dbg v b e r L E. split; [exact (zero_plane_iff dbg v b e r L E)|]. intros Z. destruct (pr_build_facts dbg v b e L) as (r' & pre & mid & suf & E' & _ & _ & _ & _ & _ & _ & _ & C). rewrite E in E'. injection E' as <-.
  destruct C as [(_ & _ & C)|(? & ? & ? & ? & ? & ? & ? & ? & _ & _ & _ & _ & _ & _ & NZ & _)]; [exact C|contradiction].
Qed.
Print Assumptions C24_zero_plane.
(** When the first and last vertices differ, that is exactly when all vertices
    are collinear. *)
Theorem C24_zero_plane_collinear_partial : forall dbg v b e r first last_, b < e <= length v -> nth_error v b = Some first -> nth_error v (e - 1) = Some last_ -> first <> last_ ->
  pr_build dbg v b e = Ok r -> (zero_normal (pr_plane r) <-> all_in_line (slice v b e)).
Proof.
  intros dbg v b e r f l L F La NE E. rewrite (zero_plane_iff dbg v b e r L E). split.
  - intros H. apply (all_in_line_of l f); [congruence|]. exact (H f l F La).
  - intros H f' l' F' La'. rewrite F in F'. injection F' as <-. rewrite La in La'. injection La' as <-. apply Forall_forall. intros x X.
    assert (IN : forall i y, b <= i < e -> nth_error v i = Some y -> In y (slice v b e)).
    { intros i y I Y. rewrite (slice_split v b i e) by lia. rewrite (slice_split v i (S i) e) by lia. rewrite (slice_one v i y Y). apply in_or_app. right. left. reflexivity. }
    apply H; [apply (IN (e - 1)); [lia|exact La]|apply (IN b); [lia|exact F]|exact X].
Qed.
Print Assumptions C24_zero_plane_collinear_partial.
(** But when the first vertex is repeated at the end the plane is always zero,
    however the other vertices lie: the polygon is dropped. *)
Theorem C24_repeated_first_vertex_refuted : forall dbg v b e p, b < e <= length v -> nth_error v b = Some p -> nth_error v (e - 1) = Some p ->
  exists r, pr_build dbg v b e = Ok r /\ zero_normal (pr_plane r) /\ pr_begin r = pr_end r /\ outputs v (pr_range r) (slice v b e).
Proof.
  intros dbg v b e p L F La. destruct (pr_build_facts dbg v b e L) as (r & pre & mid & suf & E & SL & O & _ & _ & _ & _ & _ & C). exists r. split; [exact E|].
  assert (Z : zero_normal (pr_plane r)).
  { apply (zero_plane_iff dbg v b e r L E). intros f l F' La'. rewrite F in F'. injection F' as <-. rewrite La in La'. injection La' as <-. apply Forall_forall. intros x _. apply in_line_same. }
  split; [exact Z|]. destruct C as [(-> & -> & C)|(? & ? & ? & ? & ? & ? & ? & ? & _ & _ & _ & _ & _ & _ & NZ & _)]; [|contradiction]. split; [exact C|]. rewrite SL. exact O.
Qed.
Print Assumptions C24_repeated_first_vertex_refuted.
(** ConvexPolygonFactory::Build: at most one round per vertex; every round's
    vertices are on its plane; and the boundary edges of all outputs together
    are those of the input cycle (the chords cancel): any antisymmetric edge
    quantity has the same total. *)
Theorem C24_factory : forall dbg v f, antisymmetric f -> exists rs ls, fac_build dbg (length v) v 0 (length v) = Ok rs /\ length rs <= length v /\
  Forall2 (fun r l => outputs v (pr_range r) l /\ Forall (on_plane (pr_plane r)) l) rs ls /\ sum_z (map (cycle_sum f) ls) = cycle_sum f v.
Proof.
  intros dbg v f F. destruct (fac_build_spec dbg v f F (length v) 0 (length v) ltac:(lia) ltac:(lia)) as (rs & ls & E & L & H & S). exists rs, ls. split; [exact E|]. split; [lia|]. split; [exact H|].
  rewrite S. f_equal. unfold slice. cbn [skipn]. rewrite Nat.sub_0_r. apply firstn_all.
Qed.
Print Assumptions C24_factory.
(** For instance every component of the vector area. *)
Theorem C24_vector_area : forall dbg v (i : nat), exists rs ls, fac_build dbg (length v) v 0 (length v) = Ok rs /\
  Forall2 (fun r l => outputs v (pr_range r) l) rs ls /\
  sum_z (map (cycle_sum (fun p q => comp (v3_cross p q) i)) ls) = cycle_sum (fun p q => comp (v3_cross p q) i) v.
Proof.
  intros dbg v i. destruct (C24_factory dbg v (fun p q => comp (v3_cross p q) i)) as (rs & ls & E & _ & H & S).
  - intros [a b c] [d e f]. unfold comp, v3_cross. cbn [vx vy vz]. destruct i as [|[|i]]; lia.
  - exists rs, ls. split; [exact E|]. split; [|exact S]. clear - H. induction H as [|r l rs ls [O _] H IH]; constructor; assumption.
Qed.
Print Assumptions C24_vector_area.

Example C24_case : let v := [V3 0 0 0; V3 1 0 0; V3 2 0 0; V3 2 2 5; V3 1 3 9; V3 0 2 0] in
  exists r rest, fac_build true 6 v 0 6 = Ok (r :: rest) /\ ~ zero_normal (pr_plane r) /\ pr_size r = 4 /\ pr_begin r = 2 /\ pr_end r = 6 /\ length rest = 2.
Proof. vm_compute. do 2 eexists. split; [reflexivity|]. split; [discriminate|]. repeat split. Qed.
Example C24_repeated_first_vertex_case : let v := [V3 0 0 0; V3 1 0 0; V3 1 1 0; V3 0 0 0] in
  exists r, fac_build true 4 v 0 4 = Ok [r] /\ zero_normal (pr_plane r) /\ cycle_sum (fun p q => comp (v3_cross p q) 2) v = 1%Z.
Proof. vm_compute. eexists. repeat split. Qed.
