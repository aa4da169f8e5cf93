(** Property C21: comparisons under an infinitesimal shear. *)
From Coq Require Import ZArith QArith List Bool Lia Lqa.
From Verif Require Import BigUIntModel GeoModel GeoSpec GeoProofs RTransModel RTransSpec RTransProofs.
Import ListNotations.
Open Scope Z_scope.

(** RTransform applies the shear with epsilon = 1/eps_inv. *)
Theorem C21_transform : forall p q k, denotes p q -> k <> 0 -> denotes (r_transform p k) (shear (1 / inject_Z k) q).
Proof. exact r_transform_denotes. Qed.
Print Assumptions C21_transform.
(** After a small enough shear, points are ordered by z in reverse
    lexicographic order. *)
Theorem C21_reverse_lexicographic : forall p q, exists e0, (0 < e0)%Q /\
  forall e, (0 < e)%Q -> (e <= e0)%Q -> ((qz (shear e p) < qz (shear e q))%Q <-> revlex_lt p q).
Proof. exact revlex_shear_iff. Qed.
Print Assumptions C21_reverse_lexicographic.
(** The normal used below is that of the sheared plane: it has the sheared
    points on the same side. *)
Theorem C21_sheared_plane : forall e n d q, (qdot (sheared_normal e n) (shear e q) - d == qdot n q - d)%Q.
Proof. exact sheared_plane. Qed.
Print Assumptions C21_sheared_plane.
(** RXYCompareBivector is the XY turn between the sheared normals, for every
    small enough epsilon. *)
Theorem C21_compare : forall u v, exists e0, (0 < e0)%Q /\ forall e, (0 < e)%Q -> (e <= e0)%Q ->
  rxy_compare u v = qsign (xy_turn (sheared_normal e (qpt u)) (sheared_normal e (qpt v))).
Proof.
  intros u v. exists (small (snd (fst (e3 u v))) (snd (e3 u v))). split; [apply small_pos|]. intros e E1 E2. symmetry. apply rxy_small; assumption.
Qed.
Print Assumptions C21_compare.
(** One epsilon serves any finite family, so all comparisons come from one
    arrangement of plane vectors. *)
Theorem C21_compare_family : forall l, exists e0, (0 < e0)%Q /\ forall e u v, (0 < e)%Q -> (e <= e0)%Q -> In u l -> In v l ->
  qsign (xy_turn (sheared_normal e (qpt u)) (sheared_normal e (qpt v))) = rxy_compare u v.
Proof. exact rxy_family. Qed.
Print Assumptions C21_compare_family.
(** Zero exactly for parallel vectors (or a zero vector). *)
Theorem C21_compare_zero : forall u v, rxy_compare u v = 0 <-> parallel (l3 u) (l3 v).
Proof.
  intros u v. rewrite rxy_zero. unfold parallel, l3, v3_cross. destruct u as [a b c], v as [x y z]. cbn [vx vy vz map]. split.
  - intros H. injection H as H1 H2 H3.
    destruct (Z.eq_dec a 0) as [A|A]; [destruct (Z.eq_dec b 0) as [B|B]; [destruct (Z.eq_dec c 0) as [C|C]|]|].
    + subst. exists 1, 0. split; [lia|]. f_equal.
    + exists z, c. split; [lia|]. f_equal; [nia|f_equal; [nia|f_equal; nia]].
    + exists y, b. split; [lia|]. f_equal; [nia|f_equal; [nia|f_equal; nia]].
    + exists x, a. split; [lia|]. f_equal; [nia|f_equal; [nia|f_equal; nia]].
  - intros (s & t & N & H). injection H as H1 H2 H3.
    assert (G : forall k X, k <> 0 -> k * X = 0 -> X = 0) by (intros; nia).
    assert (L : forall p q r t', s * p = t * q -> s * r = t * t' -> s * (p * t' - r * q) = 0 /\ t * (p * t' - r * q) = 0).
    { intros p q r t' E1 E2. split; [replace (s * (p * t' - r * q)) with (s * p * t' - s * r * q) by ring|replace (t * (p * t' - r * q)) with (p * (t * t') - r * (t * q)) by ring; rewrite <- E1, <- E2; ring]. rewrite E1, E2. ring. }
    destruct (L b y c z H2 H3) as [A1 A2], (L c z a x H3 H1) as [B1 B2], (L a x b y H1 H2) as [C1 C2].
    destruct N as [N|N]; f_equal; apply (G _ _ N); assumption.
Qed.
Print Assumptions C21_compare_zero.
Theorem C21_compare_antisymmetric : forall u v, rxy_compare v u = - rxy_compare u v.
Proof. exact rxy_antisym. Qed.
Print Assumptions C21_compare_antisymmetric.
(** The answer depends only on the directions. *)
Theorem C21_compare_scale : forall u v a b, rxy_compare (v3_scale u a) (v3_scale v b) = rxy_compare u v * (Z.sgn a * Z.sgn b).
Proof. exact rxy_scale. Qed.
Print Assumptions C21_compare_scale.
(** A split side on the positive side counts with its normal flipped. *)
Theorem C21_compare_split_side : forall u s,
  rxy_compare_split u s = rxy_compare u (if ss_pos s then v3_neg (hn (ss_split s)) else hn (ss_split s)).
Proof.
  intros u [[n d] [|]]; unfold rxy_compare_split; cbn [ss_pos ss_split hn]; [|lia].
  pose proof (rxy_scale u n 1 (-1)) as S. replace (v3_scale u 1) with u in S by (destruct u as [a b c]; unfold v3_scale; cbn [vx vy vz]; f_equal; lia).
  replace (v3_scale n (-1)) with (v3_neg n) in S by (destruct n as [a b c]; unfold v3_scale, v3_neg; cbn [vx vy vz]; f_equal; lia). rewrite S. reflexivity.
Qed.
Print Assumptions C21_compare_split_side.
Example C21_case :
  rxy_compare (V3 0 0 1) (V3 1 0 0) = 1 /\ rxy_compare (V3 0 1 0) (V3 0 0 1) = 1 /\ rxy_compare (V3 2 4 6) (V3 (-1) (-2) (-3)) = 0 /\
  rxy_compare_split (V3 1 0 0) (SS (HS (V3 0 1 0) 5) true) = -1 /\
  denotes (r_transform (HP (V3 2 4 6) 2) 10) (shear (1 / inject_Z 10) (QP 1 2 3)) /\ r_transform (HP (V3 2 4 6) 2) 10 = HP (V3 200 400 642) 200.
Proof. repeat split; try reflexivity; try discriminate. Qed.
