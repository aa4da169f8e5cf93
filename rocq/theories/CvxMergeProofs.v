(** Joining convex cycles along a common side, and removing straight vertices. *)
From Coq Require Import List ZArith QArith Lqa Lia Arith Morphisms Setoid.
From Verif Require Import BigUIntModel GeoModel GeoSpec CvxSpec CvxProofs CvxSeqProofs CvxCapProofs PolyCapProofs.
Import ListNotations.
Open Scope Q_scope.
#[export] Instance qp2_equiv : Equivalence qp2_eq.
Proof.
  split.
  - intros p. split; reflexivity.
  - intros p q [X Y]. split; symmetry; assumption.
  - intros p q r [X Y] [X' Y']. split; etransitivity; eassumption.
Qed.
#[export] Instance turn_proper : Proper (qp2_eq ==> qp2_eq ==> qp2_eq ==> Qeq) turn.
Proof. intros a a' Ea b b' Eb c c' Ec. apply turn_comp; assumption. Qed.
#[export] Instance lerp_proper : Proper (qp2_eq ==> qp2_eq ==> Qeq ==> qp2_eq) lerp.
Proof. intros a a' [X Y] b b' [X' Y'] t t' E. unfold lerp. split; cbn [qx2 qy2]; rewrite ?X, ?Y, ?X', ?Y', ?E; reflexivity. Qed.
Lemma q_nonneg_pos x y : 0 < y -> 0 <= x * y -> 0 <= x.
Proof. intros. nra. Qed.
Lemma q_pos_pos x y : 0 < y -> 0 < x * y -> 0 < x.
Proof. intros. nra. Qed.
Lemma turn_swap23 a b c : turn a c b == - turn a b c.
Proof. unfold turn, qcross2, qsub2. cbn [qx2 qy2]. ring. Qed.
Lemma turn_same a c : turn a a c == 0.
Proof. unfold turn, qcross2, qsub2. cbn [qx2 qy2]. ring. Qed.
Lemma turn_same13 a b : turn a b a == 0.
Proof. unfold turn, qcross2, qsub2. cbn [qx2 qy2]. ring. Qed.
Lemma turn_same23 a b : turn a b b == 0.
Proof. unfold turn, qcross2, qsub2. cbn [qx2 qy2]. ring. Qed.
(** A point on the line through two others. *)
Lemma line_param p q r : ~ qp2_eq p q -> turn p q r == 0 -> exists t, qp2_eq r (lerp p q t).
Proof.
  intros N T. unfold turn, qcross2, qsub2 in T. cbn [qx2 qy2] in T. destruct (Qeq_dec (qx2 p) (qx2 q)) as [E|E].
  - assert (E' : ~ qy2 q - qy2 p == 0) by (intros Z; apply N; split; [exact E|lra]). exists ((qy2 r - qy2 p) / (qy2 q - qy2 p)). split; unfold lerp; cbn [qx2 qy2]; [|field; exact E'].
    assert (X : (qx2 r - qx2 p) * (qy2 q - qy2 p) == 0) by (setoid_replace (qx2 q - qx2 p) with 0 in T by lra; lra).
    apply Qmult_integral in X as [X|X]; [|contradiction]. setoid_replace (qx2 q - qx2 p) with 0 by lra. setoid_replace (qx2 r) with (qx2 p) by lra. ring.
  - assert (E' : ~ qx2 q - qx2 p == 0) by (intros Z; apply E; lra). exists ((qx2 r - qx2 p) / (qx2 q - qx2 p)). split; unfold lerp; cbn [qx2 qy2]; [field; exact E'|].
    setoid_replace (qy2 r) with (qy2 p + ((qx2 q - qx2 p) * (qy2 r - qy2 p)) / (qx2 q - qx2 p)) by (field; exact E').
    setoid_replace ((qx2 q - qx2 p) * (qy2 r - qy2 p)) with ((qy2 q - qy2 p) * (qx2 r - qx2 p)) by lra. field. exact E'.
Qed.
Lemma turn_back x y t q : turn y (lerp x y t) q == (t - 1) * turn x y q.
Proof. unfold turn, qcross2, qsub2, lerp. cbn [qx2 qy2]. ring. Qed.
Lemma turn_two x y t u q : turn (lerp x y t) (lerp x y u) q == (u - t) * turn x y q.
Proof. unfold turn, qcross2, qsub2, lerp. cbn [qx2 qy2]. ring. Qed.
Definition sc_aff (k : Q) (f : aff) : aff := Aff (k * fa f) (k * fb f) (k * fc f).
Lemma sc_aff_ev k f q : ev (sc_aff k f) q == k * ev f q.
Proof. unfold ev, sc_aff. cbn [fa fb fc]. ring. Qed.
Lemma cvx_three n s P : cvx n s P -> (3 <= n)%nat.
Proof.
  intros C. pose proof (c_n _ _ _ C) as N. destruct (off_line n s P C (P 0%nat) (P 1%nat) (c_edge _ _ _ C 0)) as [m M]. rewrite <- (cvx_mod n s P m C) in M.
  pose proof (Nat.mod_upper_bound m n ltac:(lia)). destruct (m mod n)%nat as [|[|k]] eqn:E; [rewrite turn_same13 in M; exfalso; apply M; reflexivity|rewrite turn_same23 in M; exfalso; apply M; reflexivity|lia].
Qed.
(** The opposite order. *)
Definition backwards (n : nat) (P : nat -> qpoint2) (i : nat) : qpoint2 := P (n - 1 - i mod n)%nat.
Lemma cvx_backwards n s P : cvx n s P -> cvx n (- s) (backwards n P).
Proof.
  intros C. pose proof (cvx_three n s P C) as N. split; [lia|pose proof (c_s _ _ _ C); lra| | | |].
  - intros i. unfold backwards. replace (i + n)%nat with (i + 1 * n)%nat by lia. rewrite Nat.mod_add by lia. reflexivity.
  - intros i j k Hij Hjk Hk. unfold backwards. pose proof (Nat.div_mod i n ltac:(lia)) as Di. pose proof (Nat.mod_upper_bound i n ltac:(lia)) as Bi. set (i0 := (i mod n)%nat) in *.
    assert (M : forall x, (i <= x)%nat -> (x < i + n)%nat -> (x mod n = if (x - i + i0 <? n)%nat then x - i + i0 else x - i + i0 - n)%nat).
    { intros x X1 X2. destruct (Nat.ltb_spec (x - i + i0) n) as [L|L].
      - replace x with (x - i + i0 + (i / n) * n)%nat at 1 by nia. rewrite Nat.mod_add by lia. apply Nat.mod_small. exact L.
      - replace x with (x - i + i0 - n + (i / n + 1) * n)%nat at 1 by nia. rewrite Nat.mod_add by lia. apply Nat.mod_small. lia. }
    rewrite (M j), (M k) by lia. clear M Di. setoid_replace (- s * turn (P (n - 1 - i0)%nat) (P (n - 1 - (if (j - i + i0 <? n)%nat then j - i + i0 else j - i + i0 - n))%nat) (P (n - 1 - (if (k - i + i0 <? n)%nat then k - i + i0 else k - i + i0 - n))%nat))
      with (s * turn (P (n - 1 - (if (k - i + i0 <? n)%nat then k - i + i0 else k - i + i0 - n))%nat) (P (n - 1 - (if (j - i + i0 <? n)%nat then j - i + i0 else j - i + i0 - n))%nat) (P (n - 1 - i0)%nat)) by (unfold turn, qcross2, qsub2; cbn [qx2 qy2]; ring).
    destruct (Nat.ltb_spec (j - i + i0) n) as [L|L], (Nat.ltb_spec (k - i + i0) n) as [L'|L']; [|  |lia|].
    + apply (c_triple _ _ _ C); lia.
    + rewrite turn_rot. apply (c_triple _ _ _ C); lia.
    + rewrite turn_rot, turn_rot. apply (c_triple _ _ _ C); lia.
  - intros i E. unfold backwards in E. destruct (Nat.eq_dec (i mod n) (n - 1)%nat) as [Z|Z].
    + rewrite <- mod_succ, Z in E by lia. replace (S (n - 1)) with n in E by lia. rewrite Nat.mod_same in E by lia. replace (n - 1 - (n - 1))%nat with 0%nat in E by lia. replace (n - 1 - 0)%nat with (n - 1)%nat in E by lia.
      apply (c_edge _ _ _ C (n - 1)%nat). replace (S (n - 1)) with (0 + n)%nat by lia. rewrite (c_period _ _ _ C). symmetry. exact E.
    + pose proof (Nat.mod_upper_bound i n ltac:(lia)). rewrite <- mod_succ in E by lia. rewrite (Nat.mod_small (S (i mod n))) in E by lia. apply (c_edge _ _ _ C (n - 1 - S (i mod n))%nat). symmetry. replace (S (n - 1 - S (i mod n))) with (n - 1 - i mod n)%nat by lia. exact E.
  - destruct (c_full _ _ _ C) as (i & j & k & F). assert (R : forall m, exists m', backwards n P m' = P m).
    { intros m. exists (n - 1 - m mod n)%nat. unfold backwards. pose proof (Nat.mod_upper_bound m n ltac:(lia)). rewrite (Nat.mod_small (n - 1 - m mod n)) by lia. replace (n - 1 - (n - 1 - m mod n))%nat with (m mod n)%nat by lia. apply (cvx_mod n s P m C). }
    destruct (R i) as [i' Ei], (R j) as [j' Ej], (R k) as [k' Ek]. exists i', j', k'. rewrite Ei, Ej, Ek. exact F.
Qed.
(** ** A side with strict corners *)
(** The last vertex of the cycle is a, the one before it u; the first ones are b
    and w; neither a nor b is the middle of a straight side. *)
Lemma corner n s P i j : cvx n s P -> 0 < s * turn (P (n - 1)%nat) (P 0%nat) (P 1%nat) -> (i < j)%nat -> (j <= n - 1)%nat ->
  turn (P i) (P j) (P (n - 1)%nat) * s <= turn (P i) (P j) (P 0%nat) * s -> turn (P i) (P j) (P (n - 2)%nat) * s <= turn (P i) (P j) (P (n - 1)%nat) * s.
Proof.
  intros C S2 Hij Hj Up. pose proof (cvx_three n s P C) as N. destruct (Qlt_le_dec (turn (P i) (P j) (P (n - 1)%nat) * s) (turn (P i) (P j) (P (n - 2)%nat) * s)) as [X|X]; [exfalso|exact X].
  set (a := P (n - 1)%nat) in *. set (u := P (n - 2)%nat) in *. set (b := P 0%nat) in *. set (w := P 1%nat) in *. set (x := P i) in *. set (y := P j) in *.
  assert (Min : forall m, turn x y a * s <= turn x y (P m) * s).
  { intros m. pose proof (peak n _ (cvx_uni n s P (sc_aff (- s) (turn_aff x y)) C) (n - 2)%nat) as Pk. cbv beta in Pk. replace (S (n - 2)) with (n - 1)%nat in Pk by lia. replace (S (n - 1)) with (0 + n)%nat in Pk by lia. rewrite (c_period _ _ _ C) in Pk. fold a u b in Pk.
    assert (Ev : forall q, ev (sc_aff (- s) (turn_aff x y)) q == - (turn x y q * s)) by (intros q; rewrite sc_aff_ev, turn_aff_ev; ring). rewrite !Ev in Pk. specialize (Pk ltac:(lra) ltac:(lra) m). rewrite !Ev in Pk. lra. }
  assert (Ga : turn x y a * s == 0).
  { pose proof (Min i) as M. fold x in M. rewrite turn_same13 in M. pose proof (weak_triple n s P C i j (n - 1)%nat ltac:(lia) ltac:(lia) ltac:(lia)) as T. fold x y a in T. lra. }
  assert (Nu : 0 < turn x y u * s) by lra. assert (NS : ~ s == 0) by exact (c_s _ _ _ C).
  assert (Nxy : ~ qp2_eq x y) by (intros E; rewrite E, turn_same in Nu; lra).
  destruct (Nat.eq_dec j (n - 1)) as [Ej|Ej].
  { assert (i <> n - 2)%nat by (intros ->; unfold x in Nu; fold u in Nu; rewrite turn_same13 in Nu; lra). pose proof (weak_triple n s P C i (n - 2)%nat (n - 1)%nat ltac:(lia) ltac:(lia) ltac:(lia)) as T. fold x u a in T.
    assert (E : y = a) by (unfold y, a; rewrite Ej; reflexivity). rewrite E in Nu. rewrite turn_swap23 in Nu. lra. }
  assert (j <> n - 2)%nat by (intros ->; unfold y in Nu; fold u in Nu; rewrite turn_same23 in Nu; lra).
  destruct (line_param x y a Nxy) as [t Et]. { apply Qmult_integral in Ga as [Z|Z]; [exact Z|contradiction]. }
  assert (T0 : t <= 0).
  { pose proof (weak_triple n s P C i (n - 2)%nat (n - 1)%nat ltac:(lia) ltac:(lia) ltac:(lia)) as T. fold x u a in T. rewrite turn_swap23, Et, turn_from in T. assert (0 <= - t * (turn x y u * s)) by lra. pose proof (q_nonneg_pos (- t) _ Nu H0). lra. }
  assert (Pos : forall m, 0 <= turn x y (P m) * s) by (intros m; specialize (Min m); lra).
  destruct (Nat.eq_dec i 0) as [Ei|Ei].
  - assert (Eb : b = x) by (unfold b, x; rewrite Ei; reflexivity). assert (G : turn x y w * s == 0).
    { pose proof (weak_triple n s P C 0%nat 1%nat j ltac:(lia) ltac:(lia) ltac:(lia)) as T. fold b w y in T. rewrite Eb, turn_swap23 in T. pose proof (Pos 1%nat) as T'. fold w in T'. lra. }
    rewrite Eb, Et in S2. assert (E2 : turn (lerp x y t) x w == - t * turn x y w) by (unfold turn, qcross2, qsub2, lerp; cbn [qx2 qy2]; ring). rewrite E2 in S2. assert (- t * (turn x y w * s) == 0) by (rewrite G; ring). lra.
  - assert (Gb : turn x y b * s == 0).
    { pose proof (weak_triple n s P C 0%nat j (n - 1)%nat ltac:(lia) ltac:(lia) ltac:(lia)) as T. fold b y a in T. rewrite turn_rot, Et, turn_back in T. pose proof (Pos 0%nat) as T'. fold b in T'. 
      destruct (Qlt_le_dec 0 (turn x y b * s)) as [Z|Z]; [|lra]. assert (T2 : 0 <= (t - 1) * (turn x y b * s)) by lra. apply q_nonneg_pos in T2; [|exact Z]. lra. }
    destruct (line_param x y b Nxy) as [r Er]. { apply Qmult_integral in Gb as [Z|Z]; [exact Z|contradiction]. }
    rewrite Et, Er, turn_two in S2. pose proof (Pos 1%nat) as Gw. fold w in Gw. assert (Gw' : 0 < turn x y w * s).
    { destruct (Qlt_le_dec 0 (turn x y w * s)) as [Z|Z]; [exact Z|]. assert ((r - t) * (turn x y w * s) == 0) by (setoid_replace (turn x y w * s) with 0 by lra; ring). lra. }
    pose proof (weak_triple n s P C 1%nat j (n - 1)%nat ltac:(lia) ltac:(lia) ltac:(lia)) as T. fold w y a in T. rewrite turn_rot, Et, turn_back in T. assert (T2 : 0 <= (t - 1) * (turn x y w * s)) by lra. apply q_nonneg_pos in T2; [|exact Gw']. lra.
Qed.
Lemma corner_back n s P i j : cvx n s P -> 0 < s * turn (P (n - 2)%nat) (P (n - 1)%nat) (P 0%nat) -> (i < j)%nat -> (j <= n - 1)%nat ->
  turn (P i) (P j) (P 0%nat) * s <= turn (P i) (P j) (P (n - 1)%nat) * s -> turn (P i) (P j) (P 1%nat) * s <= turn (P i) (P j) (P 0%nat) * s.
Proof.
  intros C S1 Hij Hj Up. pose proof (cvx_three n s P C) as N. pose proof (corner n (- s) (backwards n P) (n - 1 - j)%nat (n - 1 - i)%nat (cvx_backwards n s P C)) as K. unfold backwards in K.
  rewrite !Nat.mod_small in K by lia. replace (n - 1 - (n - 1))%nat with 0%nat in K by lia. replace (n - 1 - 0)%nat with (n - 1)%nat in K by lia. replace (n - 1 - 1)%nat with (n - 2)%nat in K by lia. replace (n - 1 - (n - 2))%nat with 1%nat in K by lia.
  replace (n - 1 - (n - 1 - j))%nat with j in K by lia. replace (n - 1 - (n - 1 - i))%nat with i in K by lia. rewrite !(turn_swap (P i) (P j)) in K.
  assert (R : - turn (P i) (P j) (P 1%nat) * - s <= - turn (P i) (P j) (P 0%nat) * - s); [|lra]. apply K; [|lia|lia|lra].
  setoid_replace (- s * turn (P 0%nat) (P (n - 1)%nat) (P (n - 2)%nat)) with (s * turn (P (n - 2)%nat) (P (n - 1)%nat) (P 0%nat)) by (unfold turn, qcross2, qsub2; cbn [qx2 qy2]; ring). exact S1.
Qed.
(** A point beyond the side from a to b, and inside of the sides next to it, is
    on the inner side of every line from an earlier to a later vertex. *)
Lemma beyond n s P i j q : cvx n s P -> 0 < s * turn (P (n - 2)%nat) (P (n - 1)%nat) (P 0%nat) -> 0 < s * turn (P (n - 1)%nat) (P 0%nat) (P 1%nat) ->
  s * turn (P (n - 1)%nat) (P 0%nat) q <= 0 -> 0 <= s * turn (P (n - 2)%nat) (P (n - 1)%nat) q -> 0 <= s * turn (P 0%nat) (P 1%nat) q ->
  (i < j)%nat -> (j <= n - 1)%nat -> 0 <= s * turn (P i) (P j) q.
Proof.
  intros C S1 S2 B0 B1 B2 Hij Hj. pose proof (cvx_three n s P C) as N.
  pose proof (weak_triple n s P C i j (n - 1)%nat ltac:(lia) ltac:(lia) ltac:(lia)) as Ga.
  assert (Gb : 0 <= s * turn (P i) (P j) (P 0%nat)). { rewrite <- turn_rot. apply (weak_triple n s P C); lia. }
  set (a := P (n - 1)%nat) in *. set (u := P (n - 2)%nat) in *. set (b := P 0%nat) in *. set (w := P 1%nat) in *. set (x := P i) in *. set (y := P j) in *.
  destruct (Qlt_le_dec (turn x y b * s) (turn x y a * s)) as [L|L].
  - pose proof (corner_back n s P i j C S1 Hij Hj) as K. fold a b w x y in K. specialize (K ltac:(lra)).
    assert (E : (s * turn a b w) * (s * turn x y q) == (s * turn a b w) * (s * turn x y b) + (- (s * turn a b q)) * (s * turn x y b - s * turn x y w) + (s * turn b w q) * (s * turn x y a - s * turn x y b)).
    { unfold turn, qcross2, qsub2. cbn [qx2 qy2]. ring. }
    apply (q_pos_mult (s * turn a b w)); [exact S2|]. rewrite E. assert (0 <= (s * turn a b w) * (s * turn x y b)) by (apply Qmult_le_0_compat; lra).
    assert (0 <= (- (s * turn a b q)) * (s * turn x y b - s * turn x y w)) by (apply Qmult_le_0_compat; lra). assert (0 <= (s * turn b w q) * (s * turn x y a - s * turn x y b)) by (apply Qmult_le_0_compat; lra). lra.
  - pose proof (corner n s P i j C S2 Hij Hj L) as K. fold a b u x y in K.
    assert (E : (s * turn u a b) * (s * turn x y q) == (s * turn u a b) * (s * turn x y a) + (- (s * turn a b q)) * (s * turn x y a - s * turn x y u) + (s * turn u a q) * (s * turn x y b - s * turn x y a)).
    { unfold turn, qcross2, qsub2. cbn [qx2 qy2]. ring. }
    apply (q_pos_mult (s * turn u a b)); [exact S1|]. rewrite E. assert (0 <= (s * turn u a b) * (s * turn x y a)) by (apply Qmult_le_0_compat; lra).
    assert (0 <= (- (s * turn a b q)) * (s * turn x y a - s * turn x y u)) by (apply Qmult_le_0_compat; lra). assert (0 <= (s * turn u a q) * (s * turn x y b - s * turn x y a)) by (apply Qmult_le_0_compat; lra). lra.
Qed.
(** ** Joining *)
Lemma lerp_unique u a x y : ~ qp2_eq u a -> qp2_eq (lerp u a x) (lerp u a y) -> x == y.
Proof.
  intros N [X Y]. unfold lerp in X, Y. cbn [qx2 qy2] in X, Y. destruct (Qeq_dec (x - y) 0) as [Z|Z]; [lra|]. exfalso. apply N.
  assert (X' : (x - y) * (qx2 a - qx2 u) == 0) by lra. assert (Y' : (x - y) * (qy2 a - qy2 u) == 0) by lra. apply Qmult_integral in X' as [X'|X']; [contradiction|]. apply Qmult_integral in Y' as [Y'|Y']; [contradiction|]. split; lra.
Qed.
Lemma lerp_lerp u a t r : qp2_eq (lerp (lerp u a t) a r) (lerp u a (t + r * (1 - t))).
Proof. split; unfold lerp; cbn [qx2 qy2]; ring. Qed.
(** A straight vertex of a convex cycle goes on, it does not turn back. *)
Lemma forward n s P i t : cvx n s P -> qp2_eq (P (S (S i))) (lerp (P i) (P (S i)) t) -> 1 < t.
Proof.
  intros C E. destruct (Qlt_le_dec 1 t) as [L|L]; [exact L|exfalso]. destruct (off_line n s P C (P i) (P (S i)) (c_edge _ _ _ C i)) as [m M].
  pose proof (edge_side n s P C i m) as E1. pose proof (edge_side n s P C (S i) m) as E2. rewrite E, turn_back in E2. assert (P1 : 0 < turn (P i) (P (S i)) (P m) * s).
  { assert (~ turn (P i) (P (S i)) (P m) * s == 0) by (intros Z; apply Qmult_integral in Z as [Z|Z]; [contradiction|exact (c_s _ _ _ C Z)]). lra. }
  assert (T : 0 <= (t - 1) * (turn (P i) (P (S i)) (P m) * s)) by lra. apply q_nonneg_pos in T; [|exact P1].
  apply (c_edge _ _ _ C (S i)). rewrite E. setoid_replace t with 1 by lra. split; unfold lerp; cbn [qx2 qy2]; ring.
Qed.
(** The condition at the end a of the common side. *)
Record joint (n : nat) (s : Q) (P Q : nat -> qpoint2) : Prop := Joint {
  j_turn : 0 <= s * turn (P (n - 2)%nat) (P (n - 1)%nat) (Q 1%nat);
  j_ahead : forall t, qp2_eq (Q 1%nat) (lerp (P (n - 2)%nat) (P (n - 1)%nat) t) -> 1 <= t }.
Section Join.
Context (s : Q) (n m : nat) (P Q : nat -> qpoint2) (CP : cvx n s P) (CQ : cvx m s Q).
Context (Ea : qp2_eq (Q 0%nat) (P (n - 1)%nat)) (Eb : qp2_eq (Q (m - 1)%nat) (P 0%nat)) (J : joint n s P Q).
Lemma wrap_last k (R : nat -> qpoint2) : cvx k s R -> R (S (k - 1)) = R 0%nat /\ R (S (S (k - 2))) = R 0%nat /\ R (S (k - 2)) = R (k - 1)%nat /\ R (S (S (k - 1))) = R 1%nat.
Proof using s.
  intros C. pose proof (cvx_three k s R C). replace (S (k - 1)) with (0 + k)%nat by lia. replace (S (S (k - 2))) with (0 + k)%nat by lia. replace (S (0 + k)) with (1 + k)%nat by lia. rewrite !(c_period _ _ _ C). split; [reflexivity|]. split; [reflexivity|]. split; [f_equal; lia|reflexivity].
Qed.
Lemma strict_mine : 0 < s * turn (P (n - 2)%nat) (P (n - 1)%nat) (P 0%nat).
Proof using All.
  destruct (wrap_last n P CP) as (W1 & W2 & W3 & W4). destruct (wrap_last m Q CQ) as (V1 & V2 & V3 & V4). pose proof (cvx_three n s P CP) as N. pose proof (cvx_three m s Q CQ) as M.
  pose proof (edge_side n s P CP (n - 2) 0) as E. rewrite W3 in E. destruct (Qlt_le_dec 0 (s * turn (P (n - 2)%nat) (P (n - 1)%nat) (P 0%nat))) as [L|L]; [exact L|exfalso].
  pose proof (c_edge _ _ _ CP (n - 2)) as Nu. rewrite W3 in Nu. assert (Z : turn (P (n - 2)%nat) (P (n - 1)%nat) (P 0%nat) == 0).
  { assert (Z : s * turn (P (n - 2)%nat) (P (n - 1)%nat) (P 0%nat) == 0) by lra. apply Qmult_integral in Z as [Z|Z]; [destruct (c_s _ _ _ CP Z)|exact Z]. }
  destruct (line_param _ _ _ Nu Z) as [t Et]. assert (T : 1 < t) by (apply (forward n s P (n - 2) t CP); rewrite W2, W3; exact Et).
  pose proof (edge_side m s Q CQ (m - 1) 1) as F. rewrite V1, Eb, Ea, Et, turn_to in F. pose proof (j_turn _ _ _ _ J) as Tu.
  assert (Zc : turn (P (n - 2)%nat) (P (n - 1)%nat) (Q 1%nat) == 0).
  { destruct (Qlt_le_dec 0 (s * turn (P (n - 2)%nat) (P (n - 1)%nat) (Q 1%nat))) as [Y|Y]; [|assert (Z2 : s * turn (P (n - 2)%nat) (P (n - 1)%nat) (Q 1%nat) == 0) by lra; apply Qmult_integral in Z2 as [Z2|Z2]; [destruct (c_s _ _ _ CP Z2)|exact Z2]].
    exfalso. assert (F' : 0 <= (1 - t) * (s * turn (P (n - 2)%nat) (P (n - 1)%nat) (Q 1%nat))) by lra. apply q_nonneg_pos in F'; [|exact Y]. lra. }
  destruct (line_param _ _ _ Nu Zc) as [r Er]. pose proof (j_ahead _ _ _ _ J r Er) as R.
  pose proof (c_edge _ _ _ CQ (m - 1)) as Nb. rewrite V1 in Nb. assert (Zb : turn (Q (m - 1)%nat) (Q 0%nat) (Q 1%nat) == 0) by (rewrite Eb, Ea, Et, turn_to, Zc; ring).
  destruct (line_param _ _ _ Nb Zb) as [r' Er']. assert (R' : 1 < r') by (apply (forward m s Q (m - 1) r' CQ); rewrite V1, V4; exact Er').
  rewrite Eb, Ea, Et, lerp_lerp, Er in Er'. apply lerp_unique in Er'; [|exact Nu]. nra.
Qed.
Lemma strict_other : 0 < s * turn (Q (m - 1)%nat) (Q 0%nat) (Q 1%nat).
Proof using All.
  pose proof strict_mine as S1. destruct (wrap_last m Q CQ) as (V1 & V2 & V3 & V4). pose proof (edge_side m s Q CQ (m - 1) 1) as F. rewrite V1 in F.
  destruct (Qlt_le_dec 0 (s * turn (Q (m - 1)%nat) (Q 0%nat) (Q 1%nat))) as [L|L]; [exact L|exfalso]. assert (Z : s * turn (Q (m - 1)%nat) (Q 0%nat) (Q 1%nat) == 0) by lra. apply Qmult_integral in Z as [Z|Z]; [destruct (c_s _ _ _ CP Z)|].
  pose proof (c_edge _ _ _ CQ (m - 1)) as Nb. rewrite V1 in Nb. destruct (line_param _ _ _ Nb Z) as [r Er]. assert (R : 1 < r) by (apply (forward m s Q (m - 1) r CQ); rewrite V1, V4; exact Er).
  pose proof (j_turn _ _ _ _ J) as Tu. rewrite Er, Ea, Eb, turn_lerp3, turn_same23 in Tu. assert (F' : 0 <= (1 - r) * (s * turn (P (n - 2)%nat) (P (n - 1)%nat) (P 0%nat))) by lra. apply q_nonneg_pos in F'; [lra|exact S1].
Qed.
Lemma beyond_first j : s * turn (P (n - 1)%nat) (P 0%nat) (Q j) <= 0.
Proof using All.
  destruct (wrap_last m Q CQ) as (V1 & _). pose proof (edge_side m s Q CQ (m - 1) j) as F. rewrite V1, Eb, Ea, turn_swap in F. lra.
Qed.
Lemma beyond_before j : 0 <= s * turn (P (n - 2)%nat) (P (n - 1)%nat) (Q j).
Proof using All.
  pose proof strict_mine as S1. pose proof strict_other as S2. destruct (wrap_last m Q CQ) as (V1 & _). pose proof (edge_side m s Q CQ (m - 1) j) as F. rewrite V1 in F. pose proof (edge_side m s Q CQ 0 j) as G. pose proof (j_turn _ _ _ _ J) as Tu.
  rewrite Eb, Ea in S2, F. rewrite Ea in G. apply (q_pos_mult (s * turn (P 0%nat) (P (n - 1)%nat) (Q 1%nat))); [exact S2|].
  assert (E : (s * turn (P 0%nat) (P (n - 1)%nat) (Q 1%nat)) * (s * turn (P (n - 2)%nat) (P (n - 1)%nat) (Q j)) ==
    (s * turn (P 0%nat) (P (n - 1)%nat) (Q j)) * (s * turn (P (n - 2)%nat) (P (n - 1)%nat) (Q 1%nat)) + (s * turn (P (n - 1)%nat) (Q 1%nat) (Q j)) * (s * turn (P (n - 2)%nat) (P (n - 1)%nat) (P 0%nat))) by (unfold turn, qcross2, qsub2; cbn [qx2 qy2]; ring).
  rewrite E. assert (0 <= (s * turn (P 0%nat) (P (n - 1)%nat) (Q j)) * (s * turn (P (n - 2)%nat) (P (n - 1)%nat) (Q 1%nat))) by (apply Qmult_le_0_compat; assumption).
  assert (0 <= (s * turn (P (n - 1)%nat) (Q 1%nat) (Q j)) * (s * turn (P (n - 2)%nat) (P (n - 1)%nat) (P 0%nat))) by (apply Qmult_le_0_compat; lra). lra.
Qed.
End Join.
Lemma joined_triple s n m P Q i j k : cvx n s P -> cvx m s Q -> qp2_eq (Q 0%nat) (P (n - 1)%nat) -> qp2_eq (Q (m - 1)%nat) (P 0%nat) -> joint n s P Q -> joint m s Q P ->
  (i < j)%nat -> (j <= n - 1)%nat -> 0 <= s * turn (P i) (P j) (Q k).
Proof.
  intros CP CQ Ea Eb J1 J2 Hij Hj. symmetry in Ea, Eb. pose proof (strict_mine s m n Q P CQ CP Eb Ea J2) as S3. pose proof (strict_other s m n Q P CQ CP Eb Ea J2) as S4.
  symmetry in Ea, Eb. pose proof (strict_mine s n m P Q CP CQ Ea Eb J1) as S1. 
  apply (beyond n s P i j (Q k) CP); try assumption; [apply (beyond_first s n m P Q CP CQ Ea Eb J1)|apply (beyond_before s n m P Q CP CQ Ea Eb J1)|].
  destruct (wrap_last s m Q CQ) as (V1 & V2 & V3 & V4). pose proof (edge_side m s Q CQ (m - 1) k) as F. rewrite V1 in F. pose proof (edge_side m s Q CQ (m - 2) k) as G. rewrite V3 in G. pose proof (j_turn _ _ _ _ J2) as Tu.
  apply (q_pos_mult (s * turn (Q (m - 2)%nat) (Q (m - 1)%nat) (Q 0%nat))); [exact S3|]. rewrite Ea in S3, F. rewrite Ea, Eb in *.
  assert (E : (s * turn (Q (m - 2)%nat) (P 0%nat) (P (n - 1)%nat)) * (s * turn (P 0%nat) (P 1%nat) (Q k)) ==
    (s * turn (Q (m - 2)%nat) (P 0%nat) (Q k)) * (s * turn (P (n - 1)%nat) (P 0%nat) (P 1%nat)) + (s * turn (P 0%nat) (P (n - 1)%nat) (Q k)) * (s * turn (Q (m - 2)%nat) (P 0%nat) (P 1%nat))) by (unfold turn, qcross2, qsub2; cbn [qx2 qy2]; ring).
  rewrite E. assert (0 <= (s * turn (Q (m - 2)%nat) (P 0%nat) (Q k)) * (s * turn (P (n - 1)%nat) (P 0%nat) (P 1%nat))) by (apply Qmult_le_0_compat; [assumption|lra]).
  assert (0 <= (s * turn (P 0%nat) (P (n - 1)%nat) (Q k)) * (s * turn (Q (m - 2)%nat) (P 0%nat) (P 1%nat))) by (apply Qmult_le_0_compat; assumption). lra.
Qed.
(** The joined cycle: P without its last vertex, then Q without its last one. *)
Definition joined (n : nat) (P Q : nat -> qpoint2) (i : nat) : qpoint2 := if (i <? n - 1)%nat then P i else Q (i - (n - 1))%nat.
Definition joined_list (n m : nat) (P Q : nat -> qpoint2) : list qpoint2 := map (joined n P Q) (seq 0 (n + m - 2)).
Section Joined.
Context (s : Q) (n m : nat) (P Q : nat -> qpoint2) (CP : cvx n s P) (CQ : cvx m s Q).
Context (Ea : qp2_eq (Q 0%nat) (P (n - 1)%nat)) (Eb : qp2_eq (Q (m - 1)%nat) (P 0%nat)) (J1 : joint n s P Q) (J2 : joint m s Q P).
Lemma triple_mine i j k : (i < j)%nat -> (j <= n - 1)%nat -> 0 <= s * turn (P i) (P j) (Q k).
Proof using All. intros. apply (joined_triple s n m P Q); assumption. Qed.
Lemma triple_other i j k : (i < j)%nat -> (j <= m - 1)%nat -> 0 <= s * turn (Q i) (Q j) (P k).
Proof using All. intros. apply (joined_triple s m n Q P); try assumption; symmetry; assumption. Qed.
Lemma joined_edge i : (i < n + m - 2)%nat -> exists a b, (forall q, turn (joined n P Q i) (joined n P Q (S i mod (n + m - 2))) q == turn a b q) /\ ~ qp2_eq (joined n P Q i) (joined n P Q (S i mod (n + m - 2))) /\
  ((i < n - 1)%nat /\ a = P i /\ b = P (S i) \/ (n - 1 <= i)%nat /\ a = Q (i - (n - 1))%nat /\ b = Q (S (i - (n - 1)))).
Proof using CP CQ Ea Eb.
  intros L. pose proof (cvx_three n s P CP) as N. pose proof (cvx_three m s Q CQ) as M. unfold joined. destruct (Nat.ltb_spec i (n - 1)) as [X|X].
  - exists (P i), (P (S i)). rewrite Nat.mod_small by lia. destruct (Nat.ltb_spec (S i) (n - 1)) as [Y|Y].
    + split; [intros q; reflexivity|]. split; [apply (c_edge _ _ _ CP)|left; auto].
    + replace (S i - (n - 1))%nat with 0%nat by lia. replace (S i) with (n - 1)%nat by lia. split; [intros q; rewrite Ea; reflexivity|]. split; [rewrite Ea; replace (n - 1)%nat with (S i) by lia; apply (c_edge _ _ _ CP)|left; auto].
  - exists (Q (i - (n - 1))%nat), (Q (S (i - (n - 1)))). destruct (Nat.eq_dec (S i) (n + m - 2)) as [Y|Y].
    + rewrite Y, Nat.mod_same by lia. destruct (Nat.ltb_spec 0 (n - 1)); [|lia]. replace (i - (n - 1))%nat with (m - 2)%nat by lia. replace (S (m - 2)) with (m - 1)%nat by lia. split; [intros q; rewrite Eb; reflexivity|].
      split; [rewrite <- Eb; replace (m - 1)%nat with (S (m - 2)) by lia; apply (c_edge _ _ _ CQ)|]. right. split; [lia|auto].
    + rewrite Nat.mod_small by lia. destruct (Nat.ltb_spec (S i) (n - 1)); [lia|]. replace (S i - (n - 1))%nat with (S (i - (n - 1))) by lia. split; [intros q; reflexivity|]. split; [apply (c_edge _ _ _ CQ)|]. right. split; [lia|auto].
Qed.
Lemma joined_cycle : convex_cycle s (joined_list n m P Q).
Proof using All.
  pose proof (cvx_three n s P CP) as N. pose proof (cvx_three m s Q CQ) as M. unfold joined_list. split; [|split].
  - intros i j k a b c Hij Hjk Ha Hb Hc. apply fmap_nth_inv in Ha as [_ ->]. apply fmap_nth_inv in Hb as [_ ->]. apply fmap_nth_inv in Hc as [L ->]. unfold joined.
    destruct (Nat.ltb_spec i (n - 1)) as [I|I], (Nat.ltb_spec j (n - 1)) as [Hj'|Hj'], (Nat.ltb_spec k (n - 1)) as [K|K]; try lia.
    + apply (c_triple _ _ _ CP); lia.
    + apply triple_mine; lia.
    + rewrite turn_rot. apply triple_other; lia.
    + apply (c_triple _ _ _ CQ); lia.
  - intros i a b Ha Hb. rewrite fmap_length in Hb. apply fmap_nth_inv in Ha as [L ->]. apply fmap_nth_inv in Hb as [_ ->]. destruct (joined_edge i L) as (x & y & _ & D & _). exact D.
  - destruct (c_full _ _ _ CP) as (i & j & k & F). assert (R : forall t, exists q, In q (map (joined n P Q) (seq 0 (n + m - 2))) /\ qp2_eq q (P t)).
    { intros t. rewrite <- (cvx_mod n s P t CP). pose proof (Nat.mod_upper_bound t n ltac:(lia)) as B. exists (joined n P Q (t mod n)). split; [apply in_map, in_seq; lia|]. unfold joined. destruct (Nat.ltb_spec (t mod n) (n - 1)); [reflexivity|].
      replace (t mod n - (n - 1))%nat with 0%nat by lia. rewrite Ea. replace (n - 1)%nat with (t mod n)%nat by lia. reflexivity. }
    destruct (R i) as (x & Ix & Ex), (R j) as (y & Iy & Ey), (R k) as (z & Iz & Ez). exists x, y, z. split; [exact Ix|]. split; [exact Iy|]. split; [exact Iz|]. rewrite Ex, Ey, Ez. exact F.
Qed.
Lemma joined_polygon q : in_polygon s (joined_list n m P Q) q <-> in_polygon s (map P (seq 0 n)) q \/ in_polygon s (map Q (seq 0 m)) q.
Proof using All.
  pose proof (cvx_three n s P CP) as N. pose proof (cvx_three m s Q CQ) as M. rewrite (fmap_polygon n s P q CP), (fmap_polygon m s Q q CQ).
  destruct (wrap_last s n P CP) as (W1 & _). destruct (wrap_last s m Q CQ) as (V1 & _).
  assert (E : in_polygon s (joined_list n m P Q) q <-> (forall i, (i < n - 1)%nat -> 0 <= s * turn (P i) (P (S i)) q) /\ (forall i, (i < m - 1)%nat -> 0 <= s * turn (Q i) (Q (S i)) q)).
  { unfold joined_list. split.
    - intros H. assert (G : forall i, (i < n + m - 2)%nat -> 0 <= s * turn (joined n P Q i) (joined n P Q (S i mod (n + m - 2))) q).
      { intros i L. apply (H i); [apply fmap_nth; exact L|]. rewrite fmap_length. apply fmap_nth. apply Nat.mod_upper_bound. lia. }
      split; intros i L.
      + specialize (G i ltac:(lia)). destruct (joined_edge i ltac:(lia)) as (a & b & T & _ & [(_ & -> & ->)|(Z & _)]); [|lia]. rewrite T in G. exact G.
      + specialize (G (i + (n - 1))%nat ltac:(lia)). destruct (joined_edge (i + (n - 1)) ltac:(lia)) as (a & b & T & _ & [(Z & _)|(_ & -> & ->)]); [lia|]. rewrite T in G. replace (i + (n - 1) - (n - 1))%nat with i in G by lia. exact G.
    - intros [H1 H2] i a b Ha Hb. rewrite fmap_length in Hb. apply fmap_nth_inv in Ha as [L ->]. apply fmap_nth_inv in Hb as [_ ->]. destruct (joined_edge i L) as (x & y & T & _ & [(Z & -> & ->)|(Z & -> & ->)]); rewrite T; [apply H1; lia|apply H2; lia]. }
  rewrite E. clear E. split.
  - intros [H1 H2]. destruct (Qlt_le_dec (s * turn (P (n - 1)%nat) (P 0%nat) q) 0) as [L|L].
    + right. intros i Li. destruct (Nat.eq_dec i (m - 1)) as [->|Ni]; [|apply H2; lia]. rewrite V1, Ea, Eb, turn_swap. lra.
    + left. intros i Li. destruct (Nat.eq_dec i (n - 1)) as [->|Ni]; [|apply H1; lia]. rewrite W1. exact L.
  - intros [H|H]; split; intros i Li.
    + apply H. lia.
    + pose proof (inside_nonneg n s P CP q (sc_aff s (turn_aff (Q i) (Q (S i)))) H) as K. rewrite sc_aff_ev, turn_aff_ev in K. apply K. intros j. rewrite sc_aff_ev, turn_aff_ev. apply triple_other; lia.
    + pose proof (inside_nonneg m s Q CQ q (sc_aff s (turn_aff (P i) (P (S i)))) H) as K. rewrite sc_aff_ev, turn_aff_ev in K. apply K. intros j. rewrite sc_aff_ev, turn_aff_ev. apply triple_mine; lia.
    + apply H. lia.
Qed.
End Joined.
(** ** Removing a straight vertex *)
Section Straight.
Context (s : Q) (n : nat) (P : nat -> qpoint2) (C : cvx n s P) (Z : turn (P (n - 2)%nat) (P (n - 1)%nat) (P 0%nat) == 0).
Lemma straight_place : exists t, 1 < t /\ qp2_eq (P 0%nat) (lerp (P (n - 2)%nat) (P (n - 1)%nat) t).
Proof using All.
  destruct (wrap_last s n P C) as (W1 & W2 & W3 & W4). pose proof (c_edge _ _ _ C (n - 2)) as Nu. rewrite W3 in Nu. destruct (line_param _ _ _ Nu Z) as [t E]. exists t. split; [|exact E]. apply (forward n s P (n - 2) t C). rewrite W2, W3. exact E.
Qed.
Lemma straight_cycle : convex_cycle s (map P (seq 0 (n - 1))).
Proof using All.
  pose proof (cvx_three n s P C) as N. destruct (wrap_last s n P C) as (W1 & W2 & W3 & W4). destruct straight_place as (t & T & E). pose proof (c_edge _ _ _ C (n - 2)) as Nu. rewrite W3 in Nu. assert (Nz : ~ qp2_eq (P (n - 2)%nat) (P 0%nat)).
  { intros X. rewrite <- X in E. assert (L : qp2_eq (lerp (P (n - 2)%nat) (P (n - 1)%nat) 0) (lerp (P (n - 2)%nat) (P (n - 1)%nat) t)) by (rewrite <- E; split; unfold lerp; cbn [qx2 qy2]; ring). apply lerp_unique in L; [lra|exact Nu]. }
  split; [|split].
  - intros i j k a b c Hij Hjk Ha Hb Hc. apply fmap_nth_inv in Ha as [_ ->]. apply fmap_nth_inv in Hb as [_ ->]. apply fmap_nth_inv in Hc as [L ->]. apply (c_triple _ _ _ C); lia.
  - intros i a b Ha Hb. rewrite fmap_length in Hb. apply fmap_nth_inv in Ha as [L ->]. apply fmap_nth_inv in Hb as [L' ->]. destruct (Nat.eq_dec (S i) (n - 1)) as [Y|Y].
    + rewrite Y, Nat.mod_same by lia. replace i with (n - 2)%nat by lia. exact Nz.
    + rewrite Nat.mod_small by lia. apply (c_edge _ _ _ C).
  - destruct (off_line n s P C _ _ Nz) as [k K]. rewrite <- (cvx_mod n s P k C) in K. pose proof (Nat.mod_upper_bound k n ltac:(lia)) as B. exists (P (n - 2)%nat), (P 0%nat), (P (k mod n)%nat).
    assert (k mod n <> n - 1)%nat by (intros X; rewrite X in K; apply K; rewrite turn_swap23, Z; ring). repeat split; [apply in_map, in_seq; lia|apply in_map, in_seq; lia|apply in_map, in_seq; lia|exact K].
Qed.
Lemma straight_polygon q : in_polygon s (map P (seq 0 (n - 1))) q <-> in_polygon s (map P (seq 0 n)) q.
Proof using All.
  pose proof (cvx_three n s P C) as N. destruct (wrap_last s n P C) as (W1 & W2 & W3 & W4). destruct straight_place as (t & T & E). rewrite (fmap_polygon n s P q C).
  assert (G : in_polygon s (map P (seq 0 (n - 1))) q <-> (forall i, (i < n - 2)%nat -> 0 <= s * turn (P i) (P (S i)) q) /\ 0 <= s * turn (P (n - 2)%nat) (P 0%nat) q).
  { split.
    - intros H. assert (G : forall i, (i < n - 1)%nat -> 0 <= s * turn (P i) (P (S i mod (n - 1))) q) by (intros i L; apply (H i); [apply fmap_nth; exact L|rewrite fmap_length; apply fmap_nth, Nat.mod_upper_bound; lia]).
      split; [intros i L; specialize (G i ltac:(lia)); rewrite Nat.mod_small in G by lia; exact G|]. specialize (G (n - 2)%nat ltac:(lia)). replace (S (n - 2)) with (n - 1)%nat in G by lia. rewrite Nat.mod_same in G by lia. exact G.
    - intros [H1 H2] i a b Ha Hb. rewrite fmap_length in Hb. apply fmap_nth_inv in Ha as [L ->]. apply fmap_nth_inv in Hb as [L' ->]. destruct (Nat.eq_dec (S i) (n - 1)) as [Y|Y].
      + rewrite Y, Nat.mod_same by lia. replace i with (n - 2)%nat by lia. exact H2.
      + rewrite Nat.mod_small by lia. apply H1. lia. }
  rewrite G. clear G. assert (T1 : turn (P (n - 2)%nat) (P 0%nat) q == t * turn (P (n - 2)%nat) (P (n - 1)%nat) q) by (rewrite E; apply turn_from). assert (T2 : turn (P (n - 1)%nat) (P 0%nat) q == (t - 1) * turn (P (n - 2)%nat) (P (n - 1)%nat) q) by (rewrite E; apply turn_back).
  assert (X : forall k, 0 < k -> 0 <= s * (k * turn (P (n - 2)%nat) (P (n - 1)%nat) q) <-> 0 <= s * turn (P (n - 2)%nat) (P (n - 1)%nat) q).
  { intros k K. split; intros Y; [apply (q_pos_mult k); [exact K|lra]|]. assert (0 <= k * (s * turn (P (n - 2)%nat) (P (n - 1)%nat) q)) by (apply Qmult_le_0_compat; lra). lra. }
  rewrite T1, (X t) by lra. split.
  - intros [H1 H2] i L. destruct (Nat.eq_dec i (n - 1)) as [->|Y1]; [rewrite W1, T2; apply X; [lra|exact H2]|]. destruct (Nat.eq_dec i (n - 2)) as [->|Y2]; [rewrite W3; exact H2|]. apply H1. lia.
  - intros H. split; [intros i L; apply H; lia|]. specialize (H (n - 2)%nat ltac:(lia)). rewrite W3 in H. exact H.
Qed.
End Straight.
