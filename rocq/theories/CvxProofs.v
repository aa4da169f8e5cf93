(** Affine functions on convex cycles. *)
From Coq Require Import List ZArith QArith Qabs Lqa Lia Arith.
From Verif Require Import BigUIntModel GeoModel GeoSpec CvxSpec.
Import ListNotations.
Open Scope Q_scope.
(** ** Affine functions *)
Record aff := Aff { fa : Q; fb : Q; fc : Q }.
Definition ev (f : aff) (p : qpoint2) : Q := fa f * qx2 p + fb f * qy2 p + fc f.
Definition ev_comp f p q : qp2_eq p q -> ev f p == ev f q.
Proof. intros [A B]. unfold ev. rewrite A, B. reflexivity. Qed.
Lemma turn_comp a b c a' b' c' : qp2_eq a a' -> qp2_eq b b' -> qp2_eq c c' -> turn a b c == turn a' b' c'.
Proof. intros [A1 A2] [B1 B2] [C1 C2]. unfold turn, qcross2, qsub2. cbn [qx2 qy2]. rewrite A1, A2, B1, B2, C1, C2. reflexivity. Qed.
Lemma turn_rot a b c : turn a b c == turn b c a.
Proof. unfold turn, qcross2, qsub2. cbn [qx2 qy2]. ring. Qed.
Lemma turn_swap a b c : turn b a c == - turn a b c.
Proof. unfold turn, qcross2, qsub2. cbn [qx2 qy2]. ring. Qed.
Lemma four_points f i j k l : ev f i * turn j k l + ev f k * turn i j l == ev f j * turn i k l + ev f l * turn i j k.
Proof. unfold ev, turn, qcross2, qsub2. cbn [qx2 qy2]. ring. Qed.
Lemma four_turns i j k l : turn j k l + turn i j l == turn i k l + turn i j k.
Proof. unfold turn, qcross2, qsub2. cbn [qx2 qy2]. ring. Qed.
(** The turn of (a, b, .) as an affine function. *)
Definition turn_aff (a b : qpoint2) : aff := Aff (- (qy2 b - qy2 a)) (qx2 b - qx2 a) (qx2 a * qy2 b - qy2 a * qx2 b).
Lemma turn_aff_ev a b q : ev (turn_aff a b) q == turn a b q.
Proof. unfold ev, turn_aff, turn, qcross2, qsub2. cbn [fa fb fc qx2 qy2]. ring. Qed.
Lemma q_sq_pos x y : ~ (x == 0 /\ y == 0) -> 0 < x * x + y * y.
Proof.
  intros H. assert (X : 0 <= x * x) by nra. assert (Y : 0 <= y * y) by nra. destruct (Qeq_dec (x * x + y * y) 0) as [E|E]; [|lra].
  exfalso. apply H. split; apply Qeq_bool_neq || idtac.
  - destruct (Qeq_dec x 0) as [|N]; [assumption|]. assert (0 < x * x) by (destruct (Qlt_le_dec x 0); nra). lra.
  - destruct (Qeq_dec y 0) as [|N]; [assumption|]. assert (0 < y * y) by (destruct (Qlt_le_dec y 0); nra). lra.
Qed.
(** A function constant along a, b is a multiple of the distance from it. *)
Lemma flat_multiple f a b : ~ qp2_eq a b -> ev f a == ev f b -> exists k, forall q, ev f q - ev f a == k * turn a b q.
Proof.
  intros N E. unfold ev, turn, qcross2, qsub2 in *. cbn [qx2 qy2] in *. unfold qp2_eq in N. set (ex := qx2 b - qx2 a). set (ey := qy2 b - qy2 a).
  assert (P : 0 < ex * ex + ey * ey). { apply q_sq_pos. intros [A B]. apply N. unfold ex, ey in *. split; lra. }
  assert (Z : fa f * ex + fb f * ey == 0) by (unfold ex, ey; lra).
  exists ((fb f * ex - fa f * ey) / (ex * ex + ey * ey)). intros q.
  assert (K : (ex * ex + ey * ey) * (fa f * (qx2 q - qx2 a) + fb f * (qy2 q - qy2 a)) == (fb f * ex - fa f * ey) * (ex * (qy2 q - qy2 a) - ey * (qx2 q - qx2 a))).
  { setoid_replace ((ex * ex + ey * ey) * (fa f * (qx2 q - qx2 a) + fb f * (qy2 q - qy2 a))) with ((fb f * ex - fa f * ey) * (ex * (qy2 q - qy2 a) - ey * (qx2 q - qx2 a)) + (fa f * ex + fb f * ey) * (ex * (qx2 q - qx2 a) + ey * (qy2 q - qy2 a))) by ring. rewrite Z. ring. }
  setoid_replace (fa f * qx2 q + fb f * qy2 q + fc f - (fa f * qx2 a + fb f * qy2 a + fc f)) with (fa f * (qx2 q - qx2 a) + fb f * (qy2 q - qy2 a)) by ring.
  apply (Qmult_inj_l _ _ (ex * ex + ey * ey)); [lra|]. rewrite K. field. lra.
Qed.
(** On the line through a and b, turns around a third point are differences of
    the function. *)
Lemma on_line_turn f a b x y m : turn a b x == 0 -> turn a b y == 0 -> turn x y m * (ev f b - ev f a) == (ev f y - ev f x) * turn a b m.
Proof.
  intros X Y. unfold ev, turn, qcross2, qsub2 in *. cbn [qx2 qy2] in *.
  set (ex := qx2 b - qx2 a) in *. set (ey := qy2 b - qy2 a) in *.
  assert (P : fa f * qx2 b + fb f * qy2 b + fc f - (fa f * qx2 a + fb f * qy2 a + fc f) == fa f * ex + fb f * ey) by (unfold ex, ey; ring). rewrite P.
  assert (Q : fa f * qx2 y + fb f * qy2 y + fc f - (fa f * qx2 x + fb f * qy2 x + fc f) == fa f * (qx2 y - qx2 x) + fb f * (qy2 y - qy2 x)) by ring. rewrite Q. clear P Q.
  (* dx = X1 - x etc: the difference of y and x is parallel to (ex, ey) *)
  assert (D : ex * (qy2 y - qy2 x) == ey * (qx2 y - qx2 x)) by lra.
  set (u := qx2 y - qx2 x) in *. set (w := qy2 y - qy2 x) in *.
  setoid_replace ((u * (qy2 m - qy2 x) - w * (qx2 m - qx2 x)) * (fa f * ex + fb f * ey)) with
    (fa f * (u * ex * (qy2 m - qy2 x) - (ex * w) * (qx2 m - qx2 x)) + fb f * ((ey * u) * (qy2 m - qy2 x) - w * ey * (qx2 m - qx2 x))) by ring.
  setoid_replace ((fa f * u + fb f * w) * (ex * (qy2 m - qy2 a) - ey * (qx2 m - qx2 a))) with
    (fa f * (u * ex * (qy2 m - qy2 a) - (ey * u) * (qx2 m - qx2 a)) + fb f * ((ex * w) * (qy2 m - qy2 a) - w * ey * (qx2 m - qx2 a))) by ring.
  rewrite <- D. 
  assert (E1 : u * ex * (qy2 x - qy2 a) == ex * w * (qx2 x - qx2 a)).
  { setoid_replace (u * ex * (qy2 x - qy2 a)) with (u * (ex * (qy2 x - qy2 a))) by ring. setoid_replace (ex * (qy2 x - qy2 a)) with (ey * (qx2 x - qx2 a)) by lra.
    setoid_replace (u * (ey * (qx2 x - qx2 a))) with ((ey * u) * (qx2 x - qx2 a)) by ring. rewrite <- D. reflexivity. }
  assert (E2 : ex * w * (qy2 x - qy2 a) == w * ey * (qx2 x - qx2 a)).
  { setoid_replace (ex * w * (qy2 x - qy2 a)) with (w * (ex * (qy2 x - qy2 a))) by ring. setoid_replace (ex * (qy2 x - qy2 a)) with (ey * (qx2 x - qx2 a)) by lra. ring. }
  assert (F1 : fa f * (u * ex * (qy2 m - qy2 x) - ex * w * (qx2 m - qx2 x)) == fa f * (u * ex * (qy2 m - qy2 a) - ex * w * (qx2 m - qx2 a))) by (apply Qmult_comp; [reflexivity|lra]).
  assert (F2 : fb f * (ex * w * (qy2 m - qy2 x) - w * ey * (qx2 m - qx2 x)) == fb f * (ex * w * (qy2 m - qy2 a) - w * ey * (qx2 m - qx2 a))) by (apply Qmult_comp; [reflexivity|lra]).
  lra.
Qed.
(** ** Periodic sequences of points *)
Record cvx (n : nat) (s : Q) (P : nat -> qpoint2) : Prop := Cvx {
  c_n : (0 < n)%nat; c_s : ~ s == 0;
  c_period : forall i, P (i + n)%nat = P i;
  c_triple : forall i j k, (i < j)%nat -> (j < k)%nat -> (k < i + n)%nat -> 0 <= s * turn (P i) (P j) (P k);
  c_edge : forall i, ~ qp2_eq (P i) (P (S i));
  c_full : exists i j k, ~ turn (P i) (P j) (P k) == 0 }.
Section Convex.
Context (n : nat) (s : Q) (P : nat -> qpoint2) (C : cvx n s P).
Lemma period_mult i t : P (i + t * n)%nat = P i.
Proof using All. induction t as [|t IH]; [f_equal; lia|]. replace (i + S t * n)%nat with ((i + t * n) + n)%nat by lia. rewrite (c_period n s P C). exact IH. Qed.
(** Every index has a representative in the window that starts at i. *)
Lemma in_window i m : exists m' t u, (i <= m')%nat /\ (m' < i + n)%nat /\ (m' + t * n = m + u * n)%nat.
Proof using All.
  pose proof (c_n n s P C) as N. exists (i + (m + i * n - i) mod n)%nat, ((m + i * n - i) / n)%nat, i. pose proof (Nat.mod_upper_bound (m + i * n - i) n ltac:(lia)). split; [lia|]. split; [lia|].
  pose proof (Nat.div_mod (m + i * n - i) n ltac:(lia)). nia.
Qed.
Lemma same_rep m m' t u : (m' + t * n = m + u * n)%nat -> P m' = P m.
Proof using All. intros H. rewrite <- (period_mult m' t), <- (period_mult m u). f_equal. exact H. Qed.
(** Some vertex is not on the line through two given distinct points. *)
Lemma off_line a b : ~ qp2_eq a b -> exists m, ~ turn a b (P m) == 0.
Proof using All.
  intros N. destruct (c_full n s P C) as (i & j & k & F).
  destruct (Qeq_dec (turn a b (P i)) 0) as [I|I]; [|exists i; exact I]. destruct (Qeq_dec (turn a b (P j)) 0) as [J|J]; [|exists j; exact J]. destruct (Qeq_dec (turn a b (P k)) 0) as [K|K]; [|exists k; exact K].
  exfalso. apply F. 
  assert (X : turn (P i) (P j) (P k) * (ev (Aff (qx2 b - qx2 a) (qy2 b - qy2 a) 0) b - ev (Aff (qx2 b - qx2 a) (qy2 b - qy2 a) 0) a) == 0).
  { rewrite (on_line_turn _ a b (P i) (P j) (P k) I J), K. ring. }
  apply Qmult_integral in X as [X|X]; [exact X|]. exfalso. unfold ev in X. cbn [fa fb fc] in X. 
  assert (0 < (qx2 b - qx2 a) * (qx2 b - qx2 a) + (qy2 b - qy2 a) * (qy2 b - qy2 a)) by (apply q_sq_pos; intros [A B]; apply N; split; lra). lra.
Qed.
End Convex.
Lemma sign_clash x d y e : 0 <= x -> d <= 0 -> x * d == y * e -> (0 < y /\ 0 < e) \/ (y < 0 /\ e < 0) -> False.
Proof. intros X D E [[Y Z]|[Y Z]]; assert (0 < y * e) by nra; assert (x * d <= 0) by nra; lra. Qed.
Section Convex2.
Context (n : nat) (s : Q) (P : nat -> qpoint2) (C : cvx n s P).
(** No function goes above and below a level more than once around. *)
Lemma no_alternation f c i j k l : (i < j)%nat -> (j < k)%nat -> (k < l)%nat -> (l < i + n)%nat ->
  c < ev f (P i) -> ev f (P j) <= c -> c < ev f (P k) -> ev f (P l) <= c -> False.
Proof using All.
  intros Hij Hjk Hkl Hli Fi Fj Fk Fl.
  pose proof (c_triple n s P C j k l Hjk Hkl ltac:(lia)) as B1. pose proof (c_triple n s P C i k l ltac:(lia) Hkl ltac:(lia)) as B2.
  pose proof (c_triple n s P C i j l Hij ltac:(lia) ltac:(lia)) as B3. pose proof (c_triple n s P C i j k Hij Hjk ltac:(lia)) as B4.
  pose proof (four_points f (P i) (P j) (P k) (P l)) as E. pose proof (four_turns (P i) (P j) (P k) (P l)) as T.
  set (t1 := s * turn (P j) (P k) (P l)) in *. set (t2 := s * turn (P i) (P k) (P l)) in *. set (t3 := s * turn (P i) (P j) (P l)) in *. set (t4 := s * turn (P i) (P j) (P k)) in *.
  assert (E' : ev f (P i) * t1 + ev f (P k) * t3 == ev f (P j) * t2 + ev f (P l) * t4).
  { unfold t1, t2, t3, t4. setoid_replace (ev f (P i) * (s * turn (P j) (P k) (P l)) + ev f (P k) * (s * turn (P i) (P j) (P l))) with (s * (ev f (P i) * turn (P j) (P k) (P l) + ev f (P k) * turn (P i) (P j) (P l))) by ring. rewrite E. ring. }
  assert (T' : t1 + t3 == t2 + t4).
  { unfold t1, t2, t3, t4. setoid_replace (s * turn (P j) (P k) (P l) + s * turn (P i) (P j) (P l)) with (s * (turn (P j) (P k) (P l) + turn (P i) (P j) (P l))) by ring. rewrite T. ring. }
  assert (M1 : 0 <= (ev f (P i) - c) * t1) by nra. assert (M3 : 0 <= (ev f (P k) - c) * t3) by nra.
  assert (M2 : 0 <= (c - ev f (P j)) * t2) by nra. assert (M4 : 0 <= (c - ev f (P l)) * t4) by nra.
  assert (Z : (ev f (P i) - c) * t1 + (ev f (P k) - c) * t3 + (c - ev f (P j)) * t2 + (c - ev f (P l)) * t4 == 0).
  { setoid_replace ((ev f (P i) - c) * t1 + (ev f (P k) - c) * t3 + (c - ev f (P j)) * t2 + (c - ev f (P l)) * t4) with ((ev f (P i) * t1 + ev f (P k) * t3) - (ev f (P j) * t2 + ev f (P l) * t4) - c * ((t1 + t3) - (t2 + t4))) by ring. rewrite E', T'. ring. }
  assert (Z1 : t1 == 0). { destruct (Qlt_le_dec 0 t1) as [X|X]; [|lra]. assert (0 < (ev f (P i) - c) * t1) by nra. lra. }
  assert (Z3 : t3 == 0). { destruct (Qlt_le_dec 0 t3) as [X|X]; [|lra]. assert (0 < (ev f (P k) - c) * t3) by nra. lra. }
  assert (Z2 : t2 == 0) by lra. assert (Z4 : t4 == 0) by lra.
  pose proof (c_s n s P C) as S0.
  assert (W3 : turn (P i) (P j) (P l) == 0) by (apply Qmult_integral in Z3 as [X|X]; [contradiction|exact X]).
  assert (W4 : turn (P i) (P j) (P k) == 0) by (apply Qmult_integral in Z4 as [X|X]; [contradiction|exact X]).
  assert (Ne : ~ qp2_eq (P i) (P j)) by (intros X; pose proof (ev_comp f _ _ X); lra).
  destruct (off_line n s P C (P i) (P j) Ne) as (m0 & Off). destruct (in_window n s P C i m0) as (m & t & u & Lm & Um & Em). rewrite <- (same_rep n s P C m0 m t u Em) in Off.
  assert (Wi : turn (P i) (P j) (P i) == 0) by (unfold turn, qcross2, qsub2; cbn [qx2 qy2]; ring).
  assert (Wj : turn (P i) (P j) (P j) == 0) by (unfold turn, qcross2, qsub2; cbn [qx2 qy2]; ring).
  assert (Mi : m <> i) by (intros ->; contradiction). assert (Mj : m <> j) by (intros ->; contradiction).
  assert (Mk : m <> k) by (intros ->; contradiction). assert (Ml : m <> l) by (intros ->; contradiction).
  pose proof (on_line_turn f (P i) (P j) (P j) (P k) (P m) Wj W4) as Tjk. pose proof (on_line_turn f (P i) (P j) (P k) (P l) (P m) W4 W3) as Tkl.
  pose proof (on_line_turn f (P i) (P j) (P l) (P i) (P m) W3 Wi) as Tli.
  set (D := turn (P i) (P j) (P m)) in *.
  assert (Sc : forall X Y, X * (ev f (P j) - ev f (P i)) == Y * D -> (s * X) * (ev f (P j) - ev f (P i)) == Y * (s * D)).
  { intros X Y H. setoid_replace (s * X * (ev f (P j) - ev f (P i))) with (s * (X * (ev f (P j) - ev f (P i)))) by ring. rewrite H. ring. }
  apply Sc in Tjk. apply Sc in Tkl. apply Sc in Tli. assert (SD : ~ s * D == 0) by (intros X; apply Qmult_integral in X as [X|X]; contradiction).
  set (sd := s * D) in *.
  destruct (Nat.lt_ge_cases m j) as [Cm|Cm].
  - pose proof (c_triple n s P C i m j ltac:(lia) Cm ltac:(lia)) as A1. rewrite turn_rot, turn_rot, turn_swap in A1.
    pose proof (c_triple n s P C m k l ltac:(lia) Hkl ltac:(lia)) as A2. rewrite turn_rot in A2.
    assert (sd < 0). { assert (sd <= 0); [|lra]. unfold sd, D. lra. }
    refine (sign_clash _ _ _ _ A2 _ Tkl _); [lra|right; split; lra].
  - destruct (Nat.lt_ge_cases m k) as [Ck|Ck].
    + pose proof (c_triple n s P C i j m Hij ltac:(lia) ltac:(lia)) as A1. pose proof (c_triple n s P C i m l ltac:(lia) ltac:(lia) ltac:(lia)) as A2. rewrite turn_rot, turn_rot in A2.
      fold D in A1. fold sd in A1. refine (sign_clash _ _ _ _ A2 _ Tli _); [lra|left; split; lra].
    + pose proof (c_triple n s P C i j m Hij ltac:(lia) ltac:(lia)) as A1. pose proof (c_triple n s P C j k m ltac:(lia) ltac:(lia) ltac:(lia)) as A2.
      fold D in A1. fold sd in A1. refine (sign_clash _ _ _ _ A2 _ Tjk _); [lra|left; split; lra].
Qed.
(** Every vertex is on the inner side of every edge. *)
Lemma edge_side i j : 0 <= s * turn (P i) (P (S i)) (P j).
Proof using All.
  destruct (in_window n s P C i j) as (m & t & u & Lm & Um & Em). rewrite <- (same_rep n s P C j m t u Em).
  assert (Z : forall a b, s * turn a b a == 0 /\ s * turn a b b == 0) by (intros a b; split; unfold turn, qcross2, qsub2; cbn [qx2 qy2]; ring).
  destruct (Nat.eq_dec m i) as [->|N]; [rewrite (proj1 (Z _ _)); lra|]. destruct (Nat.eq_dec m (S i)) as [->|N']; [rewrite (proj2 (Z _ _)); lra|].
  apply (c_triple n s P C); lia.
Qed.
(** A function constant along an edge has an extreme value there. *)
Lemma flat_edge f i a b : ev f (P i) == ev f (P (S i)) -> ev f (P a) < ev f (P i) -> ev f (P i) < ev f (P b) -> False.
Proof using All.
  intros E A B. destruct (flat_multiple f (P i) (P (S i)) (c_edge n s P C i) E) as (k & K).
  pose proof (K (P a)) as Ka. pose proof (K (P b)) as Kb. pose proof (edge_side i a) as Sa. pose proof (edge_side i b) as Sb. pose proof (c_s n s P C) as S0.
  set (x := turn (P i) (P (S i)) (P a)) in *. set (y := turn (P i) (P (S i)) (P b)) in *.
  assert (KA : k * x < 0) by lra. assert (KB : 0 < k * y) by lra. clear Ka Kb.
  destruct (Qlt_le_dec s 0) as [Sn|Sp].
  - assert (x <= 0) by nra. assert (y <= 0) by nra. destruct (Qlt_le_dec k 0); nra.
  - assert (0 < s) by lra. assert (0 <= x) by nra. assert (0 <= y) by nra. destruct (Qlt_le_dec k 0); nra.
Qed.
(** The function is not constant, unless it is constant everywhere. *)
Lemma not_constant f : ~ (fa f == 0 /\ fb f == 0) -> exists i j, ev f (P i) < ev f (P j).
Proof using All.
  intros N. destruct (c_full n s P C) as (i & j & k & F).
  destruct (Qeq_dec (ev f (P i)) (ev f (P j))) as [E|E].
  2: { destruct (Qlt_le_dec (ev f (P i)) (ev f (P j))); [exists i, j; assumption|exists j, i; lra]. }
  destruct (Qeq_dec (ev f (P i)) (ev f (P k))) as [E'|E'].
  2: { destruct (Qlt_le_dec (ev f (P i)) (ev f (P k))); [exists i, k; assumption|exists k, i; lra]. }
  exfalso. assert (Nij : ~ qp2_eq (P i) (P j)). { intros X. apply F. rewrite (turn_comp _ _ _ (P j) (P j) (P k) X (conj (Qeq_refl _) (Qeq_refl _)) (conj (Qeq_refl _) (Qeq_refl _))). unfold turn, qcross2, qsub2. cbn [qx2 qy2]. ring. }
  destruct (flat_multiple f (P i) (P j) Nij E) as (c & K). pose proof (K (P k)) as Kk. assert (Z : c * turn (P i) (P j) (P k) == 0) by lra. apply Qmult_integral in Z as [Z|Z]; [|contradiction].
  apply N. pose proof (K (QP2 (qx2 (P i) + 1) (qy2 (P i)))) as K1. pose proof (K (QP2 (qx2 (P i)) (qy2 (P i) + 1))) as K2. rewrite Z in K1, K2. unfold ev in K1, K2. cbn [qx2 qy2] in K1, K2. split; lra.
Qed.
End Convex2.
