(** The infinitesimal comparison is the comparison for every small shear. *)
From Coq Require Import ZArith QArith List Bool Lia Lqa ZifyBool.
From Verif Require Import BigUIntModel GeoModel GeoSpec GeoProofs RTransModel RTransSpec.
Import ListNotations.
Open Scope Z_scope.

Lemma r_transform_denotes p q k : denotes p q -> k <> 0 -> denotes (r_transform p k) (shear (1 / inject_Z k) q).
Proof.
  intros (W & X & Y & Z) K. assert (KQ : ~ (inject_Z k == 0)%Q) by (apply inject_Z_neq0, K). unfold r_transform. cbn zeta.
  split; [cbn [hw]; nia|]. unfold shear. cbn [hv hw vx vy vz qx qy qz]. rewrite !inject_Z_plus, !inject_Z_mult, !inject_Z_plus, !inject_Z_mult, X, Y, Z.
  repeat split; field; exact KQ.
Qed.
Lemma sheared_plane e n d q : (qdot (sheared_normal e n) (shear e q) - d == qdot n q - d)%Q.
Proof. unfold qdot, sheared_normal, shear. cbn [qx qy qz]. ring. Qed.

Definition e3 (u v : vec3) : Z * Z * Z := (vx u * vy v - vy u * vx v, vz u * vx v - vx u * vz v, vy u * vz v - vz u * vy v).
Lemma xy_turn_poly e u v : let '(a, b, c) := e3 u v in
  (xy_turn (sheared_normal e (qpt u)) (sheared_normal e (qpt v)) == inject_Z a + e * inject_Z b + e * e * inject_Z c)%Q.
Proof. unfold e3, xy_turn, sheared_normal, qpt. cbn [qx qy qz]. rewrite !inject_Z_sub, !inject_Z_mult. ring. Qed.
Lemma rxy_compare_eq u v : rxy_compare u v = let '(a, b, c) := e3 u v in if a =? 0 then if b =? 0 then Z.sgn c else Z.sgn b else Z.sgn a.
Proof.
  unfold rxy_compare, e3. cbv zeta. rewrite !zcompare_sgn.
  destruct (Z.eqb_spec (vx u * vy v - vy u * vx v) 0) as [E|E]; destruct (Z.eqb_spec (Z.sgn (vx u * vy v - vy u * vx v)) 0); cbn [negb]; try lia.
  destruct (Z.eqb_spec (vz u * vx v - vx u * vz v) 0) as [F|F]; destruct (Z.eqb_spec (Z.sgn (vz u * vx v - vx u * vz v)) 0); cbn [negb]; try lia.
Qed.
(** The sign of a + e b + e^2 c for small e. *)
Definition small (b c : Z) : Q := 1 / inject_Z (1 + Z.abs b + Z.abs c).
Lemma small_pos b c : (0 < small b c)%Q.
Proof. unfold small. apply Qlt_shift_div_l; [change 0%Q with (inject_Z 0); rewrite <- Zlt_Qlt; lia|lra]. Qed.
Lemma abs_bounds z : (- inject_Z (Z.abs z) <= inject_Z z <= inject_Z (Z.abs z))%Q.
Proof. rewrite <- inject_Z_opp, <- !Zle_Qle. lia. Qed.
Lemma pos_ge1 z : 0 < z -> (1 <= inject_Z z)%Q.
Proof. intros H. change 1%Q with (inject_Z 1). rewrite <- Zle_Qle. lia. Qed.
Lemma neg_le1 z : z < 0 -> (inject_Z z <= -1)%Q.
Proof. intros H. change (-1)%Q with (inject_Z (-1)). rewrite <- Zle_Qle. lia. Qed.
Lemma poly_sign a b c e : (0 < e)%Q -> (e <= small b c)%Q ->
  qsign (inject_Z a + e * inject_Z b + e * e * inject_Z c) = if a =? 0 then if b =? 0 then Z.sgn c else Z.sgn b else Z.sgn a.
Proof.
  intros E1 E2. unfold small in E2.
  assert (D : (0 < inject_Z (1 + Z.abs b + Z.abs c))%Q) by (change 0%Q with (inject_Z 0); rewrite <- Zlt_Qlt; lia).
  assert (E3 : (e * inject_Z (1 + Z.abs b + Z.abs c) <= 1)%Q).
  { apply (Qmult_le_r _ _ _ D) in E2. unfold Qdiv in E2. rewrite <- Qmult_assoc, (Qmult_comm (/ _)), Qmult_inv_r, Qmult_1_r in E2 by lra. exact E2. }
  clear E2. rewrite !inject_Z_plus in E3. change (inject_Z 1) with 1%Q in E3. pose proof (abs_bounds b) as B. pose proof (abs_bounds c) as C.
  assert (PB : (0 <= inject_Z (Z.abs b))%Q) by (change 0%Q with (inject_Z 0); rewrite <- Zle_Qle; lia).
  assert (PC : (0 <= inject_Z (Z.abs c))%Q) by (change 0%Q with (inject_Z 0); rewrite <- Zle_Qle; lia).
  assert (EE : (e <= 1)%Q) by nra.
  destruct (Z.eqb_spec a 0) as [A|A].
  - subst a. change (inject_Z 0) with 0%Q. destruct (Z.eqb_spec b 0) as [B0|B0].
    + subst b. change (inject_Z 0) with 0%Q in *. destruct (Z.lt_trichotomy c 0) as [L|[->|L]].
      * rewrite (Z.sgn_neg c L). apply qsign_neg. pose proof (neg_le1 c L). nra.
      * change (Z.sgn 0) with 0. apply qsign_zero. change (inject_Z 0) with 0%Q. ring.
      * rewrite (Z.sgn_pos c L). apply qsign_pos. pose proof (pos_ge1 c L). nra.
    + assert (M : (e * inject_Z (Z.abs c) < 1)%Q) by nra.
      destruct (Z.lt_total b 0) as [L|[->|L]]; [|lia|].
      * rewrite (Z.sgn_neg b L). apply qsign_neg. pose proof (neg_le1 b L). assert (X : (e * inject_Z c <= e * inject_Z (Z.abs c))%Q) by nra. nra.
      * rewrite (Z.sgn_pos b L). apply qsign_pos. pose proof (pos_ge1 b L). assert (X : (- (e * inject_Z (Z.abs c)) <= e * inject_Z c)%Q) by nra. nra.
  - assert (M1 : (- (e * inject_Z (Z.abs b)) <= e * inject_Z b <= e * inject_Z (Z.abs b))%Q) by (split; nra).
    assert (E4 : (0 <= e * e <= e)%Q) by (split; nra).
    assert (M2 : (- (e * inject_Z (Z.abs c)) <= e * e * inject_Z c <= e * inject_Z (Z.abs c))%Q) by (split; nra).
    assert (M3 : (e * inject_Z (Z.abs b) + e * inject_Z (Z.abs c) < 1)%Q) by lra.
    destruct (Z.lt_total a 0) as [L|[->|L]]; [|lia|].
    + rewrite (Z.sgn_neg a L). apply qsign_neg. pose proof (neg_le1 a L). lra.
    + rewrite (Z.sgn_pos a L). apply qsign_pos. pose proof (pos_ge1 a L). lra.
Qed.
Lemma rxy_small u v e : (0 < e)%Q -> (e <= small (snd (fst (e3 u v))) (snd (e3 u v)))%Q ->
  qsign (xy_turn (sheared_normal e (qpt u)) (sheared_normal e (qpt v))) = rxy_compare u v.
Proof.
  intros E1 E2. rewrite rxy_compare_eq. pose proof (xy_turn_poly e u v) as P. destruct (e3 u v) as [[a b] c]. cbn [fst snd] in E2.
  rewrite <- (poly_sign a b c e E1 E2). apply qsign_comp. exact P.
Qed.
(** One bound for a whole family of vectors. *)
Lemma rxy_family l : exists e0, (0 < e0)%Q /\ forall e u v, (0 < e)%Q -> (e <= e0)%Q -> In u l -> In v l ->
  qsign (xy_turn (sheared_normal e (qpt u)) (sheared_normal e (qpt v))) = rxy_compare u v.
Proof.
  assert (G : forall ps : list (vec3 * vec3), exists e0, (0 < e0)%Q /\ forall e p, (0 < e)%Q -> (e <= e0)%Q -> In p ps ->
     qsign (xy_turn (sheared_normal e (qpt (fst p))) (sheared_normal e (qpt (snd p)))) = rxy_compare (fst p) (snd p)).
  { induction ps as [|[u v] ps (e0 & P0 & IH)]; [exists 1%Q; split; [reflexivity|intros e p _ _ []]|].
    set (s := small (snd (fst (e3 u v))) (snd (e3 u v))). pose proof (small_pos (snd (fst (e3 u v))) (snd (e3 u v))) as PS. fold s in PS.
    destruct (Qlt_le_dec e0 s) as [L|L].
    - exists e0. split; [exact P0|]. intros e p E1 E2 [<-|I]; [|apply (IH e p E1 E2 I)]. apply (rxy_small u v e E1). fold s. lra.
    - exists s. split; [exact PS|]. intros e p E1 E2 [<-|I]; [apply rxy_small; assumption|]. apply (IH e p E1); [lra|exact I]. }
  destruct (G (list_prod l l)) as (e0 & P & H). exists e0. split; [exact P|]. intros e u v E1 E2 U V. apply (H e (u, v) E1 E2). apply in_prod; assumption.
Qed.
Lemma rxy_zero u v : rxy_compare u v = 0 <-> v3_cross u v = V3 0 0 0.
Proof.
  rewrite rxy_compare_eq. unfold e3, v3_cross. destruct (Z.eqb_spec (vx u * vy v - vy u * vx v) 0) as [A|A]; [destruct (Z.eqb_spec (vz u * vx v - vx u * vz v) 0) as [B|B]|].
  - split; [intros H; f_equal; lia|intros H; injection H; lia].
  - split; [lia|intros H; injection H; lia].
  - split; [lia|intros H; injection H; lia].
Qed.
Lemma rxy_antisym u v : rxy_compare v u = - rxy_compare u v.
Proof.
  rewrite !rxy_compare_eq. unfold e3. destruct (Z.eqb_spec (vx u * vy v - vy u * vx v) 0), (Z.eqb_spec (vx v * vy u - vy v * vx u) 0); try lia.
  destruct (Z.eqb_spec (vz u * vx v - vx u * vz v) 0), (Z.eqb_spec (vz v * vx u - vx v * vz u) 0); lia.
Qed.
Lemma rxy_scale u v a b : rxy_compare (v3_scale u a) (v3_scale v b) = rxy_compare u v * (Z.sgn a * Z.sgn b).
Proof.
  rewrite !rxy_compare_eq. unfold e3, v3_scale. cbn [vx vy vz].
  replace (vx u * a * (vy v * b) - vy u * a * (vx v * b)) with ((vx u * vy v - vy u * vx v) * (a * b)) by ring.
  replace (vz u * a * (vx v * b) - vx u * a * (vz v * b)) with ((vz u * vx v - vx u * vz v) * (a * b)) by ring.
  replace (vy u * a * (vz v * b) - vz u * a * (vy v * b)) with ((vy u * vz v - vz u * vy v) * (a * b)) by ring.
  rewrite <- Z.sgn_mul. set (k := a * b). generalize (vx u * vy v - vy u * vx v), (vz u * vx v - vx u * vz v), (vy u * vz v - vz u * vy v). intros x y z.
  destruct (Z.eq_dec k 0) as [->|K]; [rewrite !Z.mul_0_r; reflexivity|].
  destruct (Z.eqb_spec (x * k) 0), (Z.eqb_spec x 0); try nia; destruct (Z.eqb_spec (y * k) 0), (Z.eqb_spec y 0); try nia; rewrite ?Z.sgn_mul; reflexivity.
Qed.
Lemma rxy_range u v : -1 <= rxy_compare u v <= 1.
Proof. rewrite rxy_compare_eq. destruct (e3 u v) as [[a b] c]. destruct (a =? 0), (b =? 0); lia. Qed.

(** Points: the z order after a small shear is the reverse lexicographic
    order. *)
Lemma q_cases (x y : Q) : (x < y \/ x == y \/ y < x)%Q.
Proof. destruct (Q_dec x y) as [[H|H]|H]; tauto. Qed.
Lemma shear_pos (a b c : Q) : (0 < c \/ (c == 0 /\ (0 < b \/ (b == 0 /\ 0 < a))))%Q ->
  exists e0, (0 < e0)%Q /\ forall e, (0 < e)%Q -> (e <= e0)%Q -> (0 < c + e * b + e * e * a)%Q.
Proof.
  intros [H|[E [H|[F H]]]].
  - set (m := (1 + (if Qlt_le_dec b 0 then - b else b) + (if Qlt_le_dec a 0 then - a else a))%Q). exists (if Qlt_le_dec (c / m) 1 then (c / m) else 1)%Q.
    assert (M : (1 <= m /\ -b <= m - 1 /\ - a <= m - 1 /\ - b - a <= m - 1)%Q) by (unfold m; destruct (Qlt_le_dec b 0), (Qlt_le_dec a 0); lra).
    assert (P : (0 < c / m)%Q) by (apply Qlt_shift_div_l; lra). split; [destruct (Qlt_le_dec (c / m) 1); lra|].
    intros e E1 E2. assert (EC : (e <= c / m)%Q) by (destruct (Qlt_le_dec (c / m) 1); lra). assert (E3 : (e <= 1)%Q) by (destruct (Qlt_le_dec (c / m) 1); lra).
    assert (EM : (e * m <= c)%Q) by (apply (Qmult_le_r _ _ m) in EC; [|lra]; unfold Qdiv in EC; rewrite <- Qmult_assoc, (Qmult_comm (/ m)), Qmult_inv_r, Qmult_1_r in EC by lra; exact EC).
    assert (A : (- (e * (if Qlt_le_dec b 0 then - b else b)) <= e * b)%Q) by (destruct (Qlt_le_dec b 0); nra).
    assert (B : (- (e * (if Qlt_le_dec a 0 then - a else a)) <= e * e * a)%Q) by (assert (0 <= e * e <= e)%Q by (split; nra); destruct (Qlt_le_dec a 0); nra).
    unfold m in EM. lra.
  - set (m := (1 + (if Qlt_le_dec a 0 then - a else a))%Q). assert (M : (1 <= m)%Q) by (unfold m; destruct (Qlt_le_dec a 0); lra). exists (b / m)%Q. split; [apply Qlt_shift_div_l; lra|].
    intros e E1 E2. assert (EM : (e * m <= b)%Q) by (apply (Qmult_le_r _ _ m) in E2; [|lra]; unfold Qdiv in E2; rewrite <- Qmult_assoc, (Qmult_comm (/ m)), Qmult_inv_r, Qmult_1_r in E2 by lra; exact E2).
    rewrite E. assert (B : (- e * (if Qlt_le_dec a 0 then - a else a) <= e * a)%Q) by (destruct (Qlt_le_dec a 0); nra). unfold m in EM. assert (0 < b + e * a)%Q by lra. nra.
  - exists 1%Q. split; [reflexivity|]. intros e E1 E2. rewrite E, F. pose proof (Qmult_lt_0_compat _ _ E1 E1) as EE. pose proof (Qmult_lt_0_compat _ _ EE H). lra.
Qed.
Lemma revlex_shear p q : revlex_lt p q -> exists e0, (0 < e0)%Q /\ forall e, (0 < e)%Q -> (e <= e0)%Q -> (qz (shear e p) < qz (shear e q))%Q.
Proof.
  intros H. destruct (shear_pos (qx q - qx p) (qy q - qy p) (qz q - qz p)) as (e0 & P & S).
  { destruct H as [H|[E [H|[F H]]]]; [left; lra|right; split; [lra|left; lra]|right; split; [lra|right; split; lra]]. }
  exists e0. split; [exact P|]. intros e E1 E2. specialize (S e E1 E2). unfold shear. cbn [qz]. lra.
Qed.
Lemma revlex_cases p q : revlex_lt p q \/ qp_eq p q \/ revlex_lt q p.
Proof.
  unfold revlex_lt, qp_eq. destruct (q_cases (qz p) (qz q)) as [H|[H|H]]; [tauto| |tauto]. destruct (q_cases (qy p) (qy q)) as [K|[K|K]]; [tauto| |].
  - destruct (q_cases (qx p) (qx q)) as [L|[L|L]]; [tauto|tauto|]. right. right. right. split; [symmetry; exact H|]. right. split; [symmetry; exact K|exact L].
  - right. right. right. split; [symmetry; exact H|]. left. exact K.
Qed.
Lemma revlex_shear_iff p q : exists e0, (0 < e0)%Q /\ forall e, (0 < e)%Q -> (e <= e0)%Q -> (qz (shear e p) < qz (shear e q) <-> revlex_lt p q)%Q.
Proof.
  destruct (revlex_cases p q) as [H|[H|H]].
  - destruct (revlex_shear p q H) as (e0 & P & S). exists e0. split; [exact P|]. intros e E1 E2. specialize (S e E1 E2). tauto.
  - exists 1%Q. split; [reflexivity|]. intros e E1 E2. destruct H as (X & Y & Z). unfold shear, revlex_lt. cbn [qz]. rewrite X, Y, Z. split; [lra|]. intros [K|[_ [K|[_ K]]]]; lra.
  - destruct (revlex_shear q p H) as (e0 & P & S). exists e0. split; [exact P|]. intros e E1 E2. specialize (S e E1 E2). split; [lra|].
    intros K. exfalso. unfold revlex_lt in *. lra.
Qed.
