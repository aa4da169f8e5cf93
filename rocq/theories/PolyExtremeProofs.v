(** GetExtremeIndexBisect finds an extreme vertex. *)
From Coq Require Import List ZArith QArith Lqa Lia Arith ZifyBool.
From Verif Require Import BigUIntModel GeoModel GeoSpec GeoProofs GeoPlaneProofs CvxSpec CvxProofs CvxSeqProofs PolyModel PolySpec PolyBridgeProofs PolySearchProofs.
Import ListNotations.
Open Scope Q_scope.
(** ** Another drop dimension *)
Lemma cross_ratio x y z ux uy uz vx vy vz : x * ux + y * uy + z * uz == 0 -> x * vx + y * vy + z * vz == 0 ->
  x * (uz * vx - ux * vz) == y * (uy * vz - uz * vy) /\ x * (ux * vy - uy * vx) == z * (uy * vz - uz * vy) /\ y * (ux * vy - uy * vx) == z * (uz * vx - ux * vz).
Proof.
  intros B C. repeat split.
  - setoid_replace (x * (uz * vx - ux * vz)) with (y * (uy * vz - uz * vy) + uz * (x * vx + y * vy + z * vz) - vz * (x * ux + y * uy + z * uz)) by ring. rewrite B, C. ring.
  - setoid_replace (x * (ux * vy - uy * vx)) with (z * (uy * vz - uz * vy) - uy * (x * vx + y * vy + z * vz) + vy * (x * ux + y * uy + z * uz)) by ring. rewrite B, C. ring.
  - setoid_replace (y * (ux * vy - uy * vx)) with (z * (uz * vx - ux * vz) + ux * (x * vx + y * vy + z * vz) - vx * (x * ux + y * uy + z * uz)) by ring. rewrite B, C. ring.
Qed.
Lemma plane_turn h d d' a b c : (d < 3)%nat -> (d' < 3)%nat -> side h a == 0 -> side h b == 0 -> side h c == 0 ->
  inject_Z (comp (hn h) d) * turn (qdrop d' a) (qdrop d' b) (qdrop d' c) == inject_Z (comp (hn h) d') * turn (qdrop d a) (qdrop d b) (qdrop d c).
Proof.
  destruct h as [[n0 n1 n2] dd]. unfold side. cbn [hn hd vx vy vz].
  destruct a as [ax ay az], b as [bx by' bz], c as [cx cy cz]. unfold qdot, qpt. cbn [qx qy qz vx vy vz].
  set (x := inject_Z n0). set (y := inject_Z n1). set (z := inject_Z n2). intros L L' Sa Sb Sc.
  assert (B : x * (bx - ax) + y * (by' - ay) + z * (bz - az) == 0) by lra. assert (C : x * (cx - ax) + y * (cy - ay) + z * (cz - az) == 0) by lra. clear Sa Sb Sc.
  destruct d as [|[|[|d]]]; [| | |lia]; (destruct d' as [|[|[|d']]]; [| | |lia]); unfold turn, qcross2, qsub2, qdrop, comp; cbn [qx2 qy2 vx vy vz qx qy qz]; fold x y z;
    set (ux := bx - ax) in *; set (uy := by' - ay) in *; set (uz := bz - az) in *; set (vx := cx - ax) in *; set (vy := cy - ay) in *; set (vz := cz - az) in *;
    clearbody ux uy uz vx vy vz; destruct (cross_ratio _ _ _ _ _ _ _ _ _ B C) as (R1 & R2 & R3); lra.
Qed.
Lemma ratio_sign a b t t' : ~ a == 0 -> a * t' == b * t -> 0 <= a * t -> 0 <= b * t'.
Proof.
  intros A E H. apply (Qmult_le_l _ _ (a * a)); [destruct (Qlt_le_dec 0 a); nra|]. setoid_replace (a * a * 0) with 0 by ring.
  setoid_replace (a * a * (b * t')) with ((a * t') * (a * b)) by ring. rewrite E. setoid_replace (b * t * (a * b)) with ((b * b) * (a * t)) by ring. apply Qmult_le_0_compat; [nra|exact H].
Qed.
Lemma nth_error_map' {A B} (f : A -> B) l i y : nth_error (map f l) i = Some y -> exists x, nth_error l i = Some x /\ y = f x.
Proof. rewrite nth_error_map. destruct (nth_error l i) as [x|]; [|discriminate]. intros [= <-]. eauto. Qed.
Lemma plane_same h d d' a b : (d < 3)%nat -> (d' < 3)%nat -> comp (hn h) d <> 0%Z -> side h a == 0 -> side h b == 0 -> qp2_eq (qdrop d a) (qdrop d b) -> qp2_eq (qdrop d' a) (qdrop d' b).
Proof.
  destruct h as [[n0 n1 n2] dd]. unfold side. cbn [hn hd vx vy vz].
  destruct a as [ax ay az], b as [bx by' bz]. unfold qdot, qpt. cbn [qx qy qz vx vy vz].
  set (x := inject_Z n0). set (y := inject_Z n1). set (z := inject_Z n2). intros L L' N Sa Sb. apply inject_Z_neq0 in N.
  assert (B : x * (bx - ax) + y * (by' - ay) + z * (bz - az) == 0) by lra. clear Sa Sb.
  destruct d as [|[|[|d]]]; [| | |lia]; (destruct d' as [|[|[|d']]]; [| | |lia]); unfold qp2_eq, qdrop; unfold comp in N; cbn [qx2 qy2 vx vy vz qx qy qz] in *; fold x y z in N; intros [E1 E2]; rewrite E1, E2 in *; try (split; reflexivity);
    (assert (P : forall u w, ~ u == 0 -> u * w == 0 -> w == 0) by (intros u w U W; apply Qmult_integral in W as [W|W]; [contradiction|exact W]));
    split; try reflexivity.
  all: try (assert (Z0 : ax == bx) by (pose proof (P x (bx - ax) N ltac:(lra)); lra)); try (assert (Z0 : ay == by') by (pose proof (P y (by' - ay) N ltac:(lra)); lra)); try (assert (Z0 : az == bz) by (pose proof (P z (bz - az) N ltac:(lra)); lra)); exact Z0.
Qed.
(** Any component of the normal that is not 0 will do. *)
Lemma poly_ok_drop {A} (p : poly A) qs d : poly_ok p qs -> (d < 3)%nat -> comp (hn (pplane p)) d <> 0%Z -> poly_ok (Poly (pplane p) d (pedges p)) qs.
Proof.
  intros [V [Dl Dn] Pl Li (T & Nb & (x & y & z & Ix & Iy & Iz & NL))] L N. split; cbn [pplane pdrop pedges]; [exact V|split; [exact L|exact N]|exact Pl|exact Li|].
  unfold pnormal_drop in *. cbn [pplane pdrop]. pose proof (inject_Z_neq0 _ Dn) as D'. pose proof (inject_Z_neq0 _ N) as N'.
  assert (On : forall i a, nth_error qs i = Some a -> side (pplane p) a == 0) by (intros i a E; rewrite Forall_forall in Pl; apply Pl; apply (nth_error_In _ _ E)).
  split; [|split].
  - intros i j k a b c Hij Hjk Ea Eb Ec. apply nth_error_map' in Ea as (a' & Ea & ->). apply nth_error_map' in Eb as (b' & Eb & ->). apply nth_error_map' in Ec as (c' & Ec & ->).
    apply (ratio_sign _ _ (turn (qdrop (pdrop p) a') (qdrop (pdrop p) b') (qdrop (pdrop p) c')) _ D').
    + apply plane_turn; eauto.
    + apply (T i j k); auto; rewrite nth_error_map; [rewrite Ea|rewrite Eb|rewrite Ec]; reflexivity.
  - intros i a b Ea Eb E. apply nth_error_map' in Ea as (a' & Ea & ->). apply nth_error_map' in Eb as (b' & Eb & ->). rewrite map_length in Eb.
    apply (Nb i (qdrop (pdrop p) a') (qdrop (pdrop p) b')); [rewrite nth_error_map, Ea; reflexivity|rewrite map_length, nth_error_map, Eb; reflexivity|].
    apply (plane_same (pplane p) d (pdrop p)); eauto.
  - apply in_map_iff in Ix as (x' & <- & Ix). apply in_map_iff in Iy as (y' & <- & Iy). apply in_map_iff in Iz as (z' & <- & Iz). rewrite Forall_forall in Pl.
    exists (qdrop d x'), (qdrop d y'), (qdrop d z'). repeat split; try (apply in_map; assumption). intros Z. apply NL.
    pose proof (plane_turn (pplane p) (pdrop p) d x' y' z' Dl L (Pl _ Ix) (Pl _ Iy) (Pl _ Iz)) as E. rewrite Z in E. setoid_replace (inject_Z (comp (hn (pplane p)) (pdrop p)) * 0) with 0 in E by ring. symmetry in E. apply Qmult_integral in E as [E|E]; [contradiction|exact E].
Qed.
(** ** The extreme vertex *)
Lemma first_largest_of (f : qpoint -> Q) qs r : (0 < length qs)%nat -> f (cyc o3 qs r) < f (cyc o3 qs (S r)) -> (forall j, f (cyc o3 qs j) <= f (cyc o3 qs (S r))) -> first_largest f qs (S r mod length qs).
Proof.
  intros N L M. exists (cyc o3 qs (S r)). split; [apply cyc_nth_error_mod; exact N|]. split.
  - intros q' I. apply In_nth_error in I as (j & I). assert (Lj : (j < length qs)%nat) by (apply nth_error_Some; congruence). rewrite (cyc_nth_error o3 qs j Lj) in I. injection I as <-. apply M.
  - intros q0 E. replace ((S r mod length qs + length qs - 1) mod length qs)%nat with (r mod length qs)%nat in E.
    + rewrite (cyc_nth_error_mod o3 qs r N) in E. injection E as <-. exact L.
    + set (n := length qs) in *. replace (S r mod n + n - 1)%nat with (S r mod n + (n - 1))%nat by lia. rewrite Nat.add_mod_idemp_l by lia. replace (S r + (n - 1))%nat with (r + 1 * n)%nat by lia. rewrite Nat.mod_add by lia. reflexivity.
Qed.
Lemma extreme_exact {A} dbg (p : poly A) qs v : poly_ok p qs -> v2_is_zero v = false ->
  exists i, extreme_index dbg p v (pdrop p) = Ok (Some i) /\ first_largest (fun q => along2 v (qdrop (pdrop p) q)) qs i.
Proof.
  intros H Vz. pose proof (ok_sees p qs H v) as Se. pose proof (ok_n p qs H) as N. pose proof (ok_length p qs H) as Ln.
  destruct (not_constant _ _ _ (ok_cvx p qs H) (Aff (inject_Z (x2 v)) (inject_Z (y2 v)) 0)) as (i & j & L).
  { cbn [fa fb]. intros [Zx Zy]. unfold v2_is_zero in Vz. assert (x2 v = 0%Z /\ y2 v = 0%Z) by (split; apply inject_Z_injective; assumption). lia. }
  assert (X : forall i, ev (Aff (inject_Z (x2 v)) (inject_Z (y2 v)) 0) (flat_at p qs i) == along2 v (flat_at p qs i)) by (intros; unfold ev, along2; cbn [fa fb fc]; ring). rewrite !X in L.
  destruct (extreme_index_ok dbg p v (pdrop p) _ Vz Se) as (r & E & Lr & M); [exists i, j; exact L|].
  exists (S r mod pcount p)%nat. split; [exact E|]. rewrite <- Ln. apply first_largest_of; [lia|exact Lr|exact M].
Qed.
Lemma first_largest_mono (f g : qpoint -> Q) qs i : (forall a b, In a qs -> In b qs -> f a <= f b -> g a <= g b) -> (forall a b, In a qs -> In b qs -> f a < f b -> g a < g b) -> first_largest f qs i -> first_largest g qs i.
Proof.
  intros M1 M2 (q & E & A & B). pose proof (nth_error_In _ _ E) as I. exists q. split; [exact E|]. split; [intros q' I'; apply M1; auto|]. intros q0 E0. apply M2; [exact (nth_error_In _ _ E0)|exact I|exact (B q0 E0)].
Qed.
Lemma z_parallel n0 n1 n2 v0 v1 v2 : (n0 <> 0 -> v1 * n0 = n1 * v0 -> v2 * n0 = n2 * v0 -> v1 * n2 = v2 * n1)%Z.
Proof. intros N E1 E2. apply (Z.mul_reg_l _ _ n0); [exact N|]. transitivity (v1 * n0 * n2)%Z; [ring|]. rewrite E1. transitivity (v2 * n0 * n1)%Z; [rewrite E2; ring|ring]. Qed.
Lemma extreme_exact3 {A} dbg (p : poly A) qs v : poly_ok p qs -> v3_cross v (hn (pplane p)) <> V3 0 0 0 ->
  exists i, extreme_index3 dbg p v = Ok (Some i) /\ first_largest (along v) qs i.
Proof.
  intros H Nz. destruct (po_drop p qs H) as [Dl Dn]. unfold extreme_index3.
  set (w := v2_scale (v2_sub (v2_scale (drop_dim v (pdrop p)) (pnormal_drop p)) (v2_scale (drop_dim (hn (pplane p)) (pdrop p)) (comp v (pdrop p)))) (zabs_mult (pnormal_drop p))).
  assert (Am : (zabs_mult (pnormal_drop p) * pnormal_drop p > 0)%Z) by (rewrite zabs_mult_sgn by exact Dn; lia).
  assert (W : v2_is_zero w = false).
  { destruct (v2_is_zero w) eqn:E; [|reflexivity]. exfalso. apply Nz. assert (Am0 : zabs_mult (pnormal_drop p) <> 0%Z) by lia. unfold w, v2_is_zero, v2_scale, v2_sub in E. cbn [x2 y2] in E.
    assert (E' : forall t, (t * zabs_mult (pnormal_drop p) = 0)%Z -> t = 0%Z) by (intros t Et; apply Z.mul_eq_0 in Et as [Et|Et]; [exact Et|contradiction]).
    apply andb_prop in E as [E1 E2]. apply Z.eqb_eq, E' in E1. apply Z.eqb_eq, E' in E2. clear Am Am0 E' w Nz H.
    unfold pnormal_drop in *. destruct (hn (pplane p)) as [n0 n1 n2]. destruct v as [v0 v1 v2]. destruct (pdrop p) as [|[|[|d]]]; [| | |lia]; cbn -[Z.mul Z.sub Z.add] in *; unfold v3_cross; cbn [vx vy vz]; [pose proof (z_parallel n0 n1 n2 v0 v1 v2 Dn ltac:(lia) ltac:(lia))|pose proof (z_parallel n1 n0 n2 v1 v0 v2 Dn ltac:(lia) ltac:(lia))|pose proof (z_parallel n2 n0 n1 v2 v0 v1 Dn ltac:(lia) ltac:(lia))]; f_equal; lia. }
  destruct (extreme_exact dbg p qs w H W) as (i & E & F). exists i. split; [exact E|]. pose proof (po_plane p qs H) as Pl. rewrite Forall_forall in Pl.
  assert (D : forall a b, In a qs -> In b qs -> along2 w (qdrop (pdrop p) b) - along2 w (qdrop (pdrop p) a) == inject_Z (zabs_mult (pnormal_drop p) * pnormal_drop p) * (along v b - along v a)).
  { intros a b Ia Ib. pose proof (Pl a Ia) as Sa. pose proof (Pl b Ib) as Sb. unfold side in Sa, Sb. clear F E W Am Nz. unfold w, pnormal_drop in *. set (m := zabs_mult _) in *. clearbody m.
    destruct (hn (pplane p)) as [n0 n1 n2]. destruct v as [v0 v1 v2]. destruct a as [ax ay az], b as [bx by' bz]. unfold qdot, qpt in Sa, Sb. cbn [qx qy qz vx vy vz] in Sa, Sb.
    assert (B : inject_Z n0 * (bx - ax) + inject_Z n1 * (by' - ay) + inject_Z n2 * (bz - az) == 0) by lra. clear Sa Sb.
    assert (Bv : forall v, inject_Z v * (inject_Z n0 * (bx - ax) + inject_Z n1 * (by' - ay) + inject_Z n2 * (bz - az)) == 0) by (intros v; rewrite B; ring). pose proof (Bv v0). pose proof (Bv v1). pose proof (Bv v2).
    unfold along, qdot, qpt. cbn [qx qy qz vx vy vz].
    assert (Lin : forall s (w : vec2) (p q : qpoint2), along2 (v2_scale w s) p - along2 (v2_scale w s) q == inject_Z s * (along2 w p - along2 w q)) by (intros s0 w0 p0 q0; unfold along2, v2_scale; cbn [x2 y2]; rewrite !inject_Z_mult; ring).
    rewrite Lin, inject_Z_mult. setoid_rewrite <- Qmult_assoc. apply Qmult_comp; [reflexivity|].
    destruct (pdrop p) as [|[|[|d]]]; [| | |lia]; unfold along2, drop_dim, v2_sub, v2_scale, qdrop, comp; cbn -[inject_Z Qmult Qplus Qminus Z.mul Z.sub]; rewrite !inject_Z_sub, !inject_Z_mult; lra. }
  assert (K : 0 < inject_Z (zabs_mult (pnormal_drop p) * pnormal_drop p)) by (change 0 with (inject_Z 0); rewrite <- Zlt_Qlt; lia). set (k := inject_Z (zabs_mult (pnormal_drop p) * pnormal_drop p)) in *. clearbody k.
  apply (first_largest_mono _ _ _ _) with (3 := F); intros a b Ia Ib L; pose proof (D a b Ia Ib) as Dab; cbv beta in L.
  - destruct (Qlt_le_dec (along v b) (along v a)) as [X|X]; [|exact X]. assert (k * (along v b - along v a) < 0) by nra. lra.
  - destruct (Qlt_le_dec (along v a) (along v b)) as [X|X]; [exact X|]. assert (k * (along v b - along v a) <= 0) by nra. lra.
Qed.
Lemma extreme_none {A} dbg (p : poly A) : (pdrop p < 3)%nat -> forall v, v3_cross v (hn (pplane p)) = V3 0 0 0 -> extreme_index3 dbg p v = Ok None.
Proof.
  intros Dl v E. unfold extreme_index3, extreme_index.
  replace (v2_is_zero _) with true; [reflexivity|]. symmetry. unfold pnormal_drop. set (m := zabs_mult _). clearbody m. destruct (hn (pplane p)) as [n0 n1 n2]. destruct v as [v0 v1 v2]. unfold v3_cross in E. cbn [vx vy vz] in E. injection E as E0 E1 E2.
  destruct (pdrop p) as [|[|[|d]]]; [| | |lia]; unfold v2_is_zero, v2_scale, v2_sub, drop_dim, comp; cbn -[Z.mul Z.sub]; rewrite andb_true_iff, !Z.eqb_eq; split; apply Z.mul_eq_0; left; lia.
Qed.
