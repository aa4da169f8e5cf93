(** Cutting a convex cycle with a line. *)
From Coq Require Import List ZArith QArith Lqa Lia Arith.
From Verif Require Import BigUIntModel GeoModel GeoSpec CvxSpec CvxProofs CvxSeqProofs.
Import ListNotations.
Open Scope Q_scope.
Definition lerp (a b : qpoint2) (t : Q) : qpoint2 := QP2 (qx2 a + t * (qx2 b - qx2 a)) (qy2 a + t * (qy2 b - qy2 a)).
Lemma ev_lerp f a b t : ev f (lerp a b t) == (1 - t) * ev f a + t * ev f b.
Proof. unfold ev, lerp. cbn [qx2 qy2]. ring. Qed.
Lemma turn_lerp3 x y a b t : turn x y (lerp a b t) == (1 - t) * turn x y a + t * turn x y b.
Proof. unfold turn, qcross2, qsub2, lerp. cbn [qx2 qy2]. ring. Qed.
Lemma turn_lerp2 x y a b t : turn x (lerp a b t) y == (1 - t) * turn x a y + t * turn x b y.
Proof. unfold turn, qcross2, qsub2, lerp. cbn [qx2 qy2]. ring. Qed.
Lemma turn_from x b t q : turn x (lerp x b t) q == t * turn x b q.
Proof. unfold turn, qcross2, qsub2, lerp. cbn [qx2 qy2]. ring. Qed.
Lemma turn_to a x t q : turn (lerp a x t) x q == (1 - t) * turn a x q.
Proof. unfold turn, qcross2, qsub2, lerp. cbn [qx2 qy2]. ring. Qed.
Lemma turn_ends a x : turn a x a == 0 /\ turn a x x == 0 /\ turn a a x == 0.
Proof. unfold turn, qcross2, qsub2. cbn [qx2 qy2]. repeat split; ring. Qed.
Lemma q_pos_mult x y : 0 < x -> 0 <= x * y -> 0 <= y.
Proof. intros X Y. destruct (Qlt_le_dec y 0); [nra|assumption]. Qed.
Lemma q_mix t x y : 0 <= t -> t <= 1 -> 0 <= x -> 0 <= y -> 0 <= (1 - t) * x + t * y.
Proof. intros. nra. Qed.
Section Cap.
Context (n : nat) (s : Q) (P : nat -> qpoint2) (C : cvx n s P).
Lemma weak_triple i j k : (i <= j)%nat -> (j <= k)%nat -> (k <= i + n)%nat -> 0 <= s * turn (P i) (P j) (P k).
Proof using All.
  intros Hij Hjk Hk. destruct (Nat.eq_dec i j) as [->|NEQ]; [rewrite (proj2 (proj2 (turn_ends _ _))); lra|].
  destruct (Nat.eq_dec j k) as [->|NEQ2]; [rewrite (proj1 (proj2 (turn_ends _ _))); lra|].
  destruct (Nat.eq_dec k (i + n)) as [->|NEQ3]; [rewrite (c_period _ _ _ C), (proj1 (turn_ends _ _)); lra|]. apply (c_triple _ _ _ C); lia.
Qed.
(** Two vertices and a point on a later edge. *)
Lemma vertices_point i j e t : (i <= j)%nat -> (j <= e)%nat -> (S e <= i + n)%nat -> 0 <= t -> t <= 1 -> 0 <= s * turn (P i) (P j) (lerp (P e) (P (S e)) t).
Proof using All.
  intros. rewrite turn_lerp3. setoid_replace (s * ((1 - t) * turn (P i) (P j) (P e) + t * turn (P i) (P j) (P (S e)))) with ((1 - t) * (s * turn (P i) (P j) (P e)) + t * (s * turn (P i) (P j) (P (S e)))) by ring.
  apply q_mix; try assumption; apply weak_triple; lia.
Qed.
(** A vertex and two points on later edges. *)
Lemma vertex_points i e g t u : (i <= e)%nat -> (S e <= g)%nat -> (S g <= i + n)%nat -> 0 <= t -> t <= 1 -> 0 <= u -> u <= 1 ->
  0 <= s * turn (P i) (lerp (P e) (P (S e)) t) (lerp (P g) (P (S g)) u).
Proof using All.
  intros. rewrite turn_lerp2. setoid_replace (s * ((1 - t) * turn (P i) (P e) (lerp (P g) (P (S g)) u) + t * turn (P i) (P (S e)) (lerp (P g) (P (S g)) u))) with
    ((1 - t) * (s * turn (P i) (P e) (lerp (P g) (P (S g)) u)) + t * (s * turn (P i) (P (S e)) (lerp (P g) (P (S g)) u))) by ring.
  apply q_mix; try assumption; apply vertices_point; try assumption; lia.
Qed.
(** ** Inequalities on the vertices hold in the polygon *)
Lemma argmin (F : nat -> Q) : exists i, (i < n)%nat /\ forall j, (j < n)%nat -> F i <= F j.
Proof using All.
  pose proof (c_n _ _ _ C) as N. clear C. induction n as [|m IH]; [lia|]. destruct (Nat.eq_dec m 0) as [->|NEQ].
  - exists 0%nat. split; [lia|]. intros j L. replace j with 0%nat by lia. lra.
  - destruct (IH ltac:(lia)) as (i & L & Mi). destruct (Qlt_le_dec (F m) (F i)) as [X|X].
    + exists m. split; [lia|]. intros j Lj. destruct (Nat.eq_dec j m) as [->|NEQ']; [lra|]. specialize (Mi j ltac:(lia)). lra.
    + exists i. split; [lia|]. intros j Lj. destruct (Nat.eq_dec j m) as [->|NEQ']; [lra|]. apply Mi. lia.
Qed.
Lemma inside_nonneg q g : (forall i, (i < n)%nat -> 0 <= s * turn (P i) (P (S i)) q) -> (forall i, 0 <= ev g (P i)) -> 0 <= ev g q.
Proof using All.
  intros In' Pos. pose proof (c_n _ _ _ C) as N.
  assert (Pm : forall i, P (i mod n) = P i). { intros i. symmetry. rewrite <- (period_mult n s P C (i mod n) (i / n)). f_equal. pose proof (Nat.div_mod i n ltac:(lia)). lia. }
  assert (In : forall i, 0 <= s * turn (P i) (P (S i)) q).
  { intros i. specialize (In' (i mod n)%nat ltac:(apply Nat.mod_upper_bound; lia)). rewrite Pm in In'.
    rewrite <- (Pm (S (i mod n))) in In'. replace (S (i mod n) mod n)%nat with (S i mod n)%nat in In'; [rewrite Pm in In'; exact In'|].
    replace (S i) with (i + 1)%nat by lia. replace (S (i mod n)) with (i mod n + 1)%nat by lia. rewrite Nat.add_mod_idemp_l by lia. reflexivity. }
  destruct (argmin (fun i => ev g (P i))) as (i0 & L0 & M0).
  assert (Min : forall j, ev g (P i0) <= ev g (P j)). { intros j. rewrite <- (Pm j). apply M0. apply Nat.mod_upper_bound. lia. }
  (* the minimum and its neighbours *)
  set (i := (i0 + n - 1)%nat). assert (Ei : S i = (i0 + n)%nat) by (unfold i; lia).
  assert (Mi : forall j, ev g (P (S i)) <= ev g (P j)) by (intros j; rewrite Ei, (c_period _ _ _ C); apply Min).
  assert (Flat : forall e, ev g (P e) == ev g (P (S e)) -> ev g (P e) == ev g (P (S i)) -> 0 <= ev g q).
  { intros e E Ee. destruct (flat_multiple g (P e) (P (S e)) (c_edge _ _ _ C e) E) as (k & K).
    destruct (off_line n s P C (P e) (P (S e)) (c_edge _ _ _ C e)) as (m & Nm). pose proof (K (P m)) as Km. pose proof (K q) as Kq. pose proof (edge_side n s P C e m) as Sm. pose proof (In e) as Sq. specialize (Mi m). specialize (Pos e).
    set (x := turn (P e) (P (S e)) (P m)) in *. set (y := turn (P e) (P (S e)) q) in *.
    assert (Kx : 0 <= k * x) by lra. assert (Ky : 0 <= k * y); [|lra].
    assert (S0 := c_s _ _ _ C). 
    assert (Px : 0 < s * x). { destruct (proj1 (Qle_lteq _ _) Sm) as [Z|Z]; [exact Z|]. exfalso. assert (Z' : s * x == 0) by lra. apply Qmult_integral in Z' as [Z'|Z']; contradiction. }
    assert (Q1 : 0 <= (s * x) * (k * y)) by (setoid_replace ((s * x) * (k * y)) with ((k * x) * (s * y)) by ring; apply Qmult_le_0_compat; assumption).
    apply (q_pos_mult (s * x)); assumption. }
  destruct (Qeq_dec (ev g (P i)) (ev g (P (S i)))) as [E1|E1]; [apply (Flat i E1 E1)|].
  destruct (Qeq_dec (ev g (P (S i))) (ev g (P (S (S i))))) as [E2|E2]; [apply (Flat (S i) E2 (Qeq_refl _))|]. clear Flat.
  assert (D1 : 0 < ev g (P i) - ev g (P (S i))). { pose proof (Mi i) as X. destruct (proj1 (Qle_lteq _ _) X); [lra|exfalso; apply E1; lra]. }
  assert (D2 : 0 < ev g (P (S (S i))) - ev g (P (S i))). { pose proof (Mi (S (S i))) as X. destruct (proj1 (Qle_lteq _ _) X); [lra|exfalso; apply E2; lra]. }
  assert (T : 0 < s * turn (P i) (P (S i)) (P (S (S i)))).
  { pose proof (edge_side n s P C i (S (S i))) as T0. destruct (proj1 (Qle_lteq _ _) T0) as [Z|Z]; [exact Z|exfalso]. assert (Z' : s * turn (P i) (P (S i)) (P (S (S i))) == 0) by lra.
    apply Qmult_integral in Z' as [Z'|Z']; [exact (c_s _ _ _ C Z')|].
    destruct (off_line n s P C (P i) (P (S i)) (c_edge _ _ _ C i)) as (m & Nm).
    pose proof (on_line_turn g (P i) (P (S i)) (P (S i)) (P (S (S i))) (P m) (proj1 (proj2 (turn_ends _ _))) Z') as On.
    pose proof (edge_side n s P C i m) as Sa. pose proof (edge_side n s P C (S i) m) as Sb.
    set (x := turn (P i) (P (S i)) (P m)) in *. set (y := turn (P (S i)) (P (S (S i))) (P m)) in *.
    assert (Px : 0 < s * x). { destruct (proj1 (Qle_lteq _ _) Sa) as [W|W]; [exact W|]. exfalso. assert (W' : s * x == 0) by lra. apply Qmult_integral in W' as [W'|W']; [exact (c_s _ _ _ C W')|contradiction]. }
    set (u := ev g (P i) - ev g (P (S i))) in *. set (w := ev g (P (S (S i))) - ev g (P (S i))) in *.
    assert (Q1 : - (u * (s * y)) == w * (s * x)). { setoid_replace (ev g (P (S i)) - ev g (P i)) with (- u) in On by (unfold u; ring). setoid_replace (w * (s * x)) with (s * (w * x)) by ring. rewrite <- On. ring. }
    assert (0 < w * (s * x)) by nra. assert (0 <= u * (s * y)) by nra. lra. }
  set (D := turn (P i) (P (S i)) (P (S (S i)))) in *.
  assert (Id : D * (ev g q - ev g (P (S i))) == turn (P i) (P (S i)) q * (ev g (P (S (S i))) - ev g (P (S i))) + turn (P (S i)) (P (S (S i))) q * (ev g (P i) - ev g (P (S i)))).
  { unfold D. unfold ev, turn, qcross2, qsub2. cbn [qx2 qy2]. ring. }
  pose proof (In i) as I1. pose proof (In (S i)) as I2.
  assert (Q1 : 0 <= (s * D) * (ev g q - ev g (P (S i)))).
  { setoid_replace ((s * D) * (ev g q - ev g (P (S i)))) with (s * (D * (ev g q - ev g (P (S i))))) by ring. rewrite Id.
    setoid_replace (s * (turn (P i) (P (S i)) q * (ev g (P (S (S i))) - ev g (P (S i))) + turn (P (S i)) (P (S (S i))) q * (ev g (P i) - ev g (P (S i))))) with
      ((s * turn (P i) (P (S i)) q) * (ev g (P (S (S i))) - ev g (P (S i))) + (s * turn (P (S i)) (P (S (S i))) q) * (ev g (P i) - ev g (P (S i)))) by ring.
    assert (0 <= (s * turn (P i) (P (S i)) q) * (ev g (P (S (S i))) - ev g (P (S i)))) by (apply Qmult_le_0_compat; lra).
    assert (0 <= (s * turn (P (S i)) (P (S (S i))) q) * (ev g (P i) - ev g (P (S i)))) by (apply Qmult_le_0_compat; lra). lra. }
  pose proof (q_pos_mult _ _ T Q1). specialize (Pos (S i)). lra.
Qed.
End Cap.
Section Cap2.
Context (n : nat) (s : Q) (P : nat -> qpoint2) (C : cvx n s P).
(** ** A cap *)
(** The vertices a, ..., b - 1, a point X at or before vertex b, and a point Y at
    or before vertex d. *)
Context (f : aff) (a b d : nat) (t u : Q).
Definition cap_x : qpoint2 := lerp (P (b - 1)) (P b) t.
Definition cap_y : qpoint2 := lerp (P (d - 1)) (P d) u.
Context (Hab : (a < b)%nat) (Hbd : (b < d)%nat) (Ht : 0 < t /\ t <= 1) (Hu : 0 < u /\ u <= 1).
Context (Hd : (d = a + n)%nat /\ u < 1 \/ (S d = a + n)%nat /\ u == 1).
Context (Neg : forall j, (a <= j)%nat -> (j < b)%nat -> ev f (P j) < 0) (PosD : 0 < ev f (P (d - 1))) (X0 : ev f cap_x == 0) (Y0 : ev f cap_y == 0).
Lemma cap_distinct : ~ qp2_eq cap_x cap_y.
Proof using All.
  intros E. set (A := P (b - 1)). set (W := P (d - 1)).
  assert (Sa : forall m, 0 <= s * turn A cap_x (P m)).
  { intros m. unfold cap_x, A. rewrite turn_from. setoid_replace (s * (t * turn (P (b - 1)) (P b) (P m))) with (t * (s * turn (P (b - 1)) (P b) (P m))) by ring. replace b with (S (b - 1)) at 2 by lia. apply Qmult_le_0_compat; [lra|]. apply (edge_side n s P C). }
  assert (Sw : forall m, 0 <= s * turn W cap_x (P m)).
  { intros m. rewrite (turn_comp W cap_x (P m) W cap_y (P m)) by (try exact E; split; reflexivity). unfold cap_y, W. rewrite turn_from. setoid_replace (s * (u * turn (P (d - 1)) (P d) (P m))) with (u * (s * turn (P (d - 1)) (P d) (P m))) by ring. replace d with (S (d - 1)) at 2 by lia. apply Qmult_le_0_compat; [lra|]. apply (edge_side n s P C). }
  assert (Fa : ev f A < 0) by (apply Neg; lia).
  assert (NA : ~ qp2_eq A cap_x) by (intros Z; apply (ev_comp f) in Z; lra).
  assert (Z : s * turn A cap_x W == 0).
  { pose proof (Sa (d - 1)%nat) as Z1. pose proof (Sw (b - 1)%nat) as Z2. fold W in Z1. fold A in Z2.
    assert (Q : turn W cap_x A == - turn A cap_x W) by (unfold turn, qcross2, qsub2; cbn [qx2 qy2]; ring). rewrite Q in Z2. lra. }
  assert (Z' : turn A cap_x W == 0) by (apply Qmult_integral in Z as [Z|Z]; [exfalso; exact (c_s _ _ _ C Z)|exact Z]).
  destruct (off_line n s P C A cap_x NA) as (m & Nm).
  pose proof (on_line_turn f A cap_x W cap_x (P m) Z' (proj1 (proj2 (turn_ends _ _)))) as On. specialize (Sa m). specialize (Sw m).
  set (x := turn A cap_x (P m)) in *. set (y := turn W cap_x (P m)) in *.
  assert (Px : 0 < s * x). { destruct (proj1 (Qle_lteq _ _) Sa) as [V|V]; [exact V|]. exfalso. assert (V' : s * x == 0) by lra. apply Qmult_integral in V' as [V'|V']; [exact (c_s _ _ _ C V')|contradiction]. }
  fold W in PosD. rewrite X0 in On.
  assert (Q1 : (s * y) * (- ev f A) == - (ev f W * (s * x))). { setoid_replace ((s * y) * (- ev f A)) with (s * (y * (0 - ev f A))) by ring. rewrite On. ring. }
  assert (0 <= (s * y) * (- ev f A)) by (apply Qmult_le_0_compat; lra). assert (0 < ev f W * (s * x)) by nra. lra.
Qed.
Definition cap_at (i : nat) : qpoint2 := if (i <? b - a)%nat then P (a + i) else if (i =? b - a)%nat then cap_x else cap_y.
Definition cap_list : list qpoint2 := map cap_at (seq 0 (b - a + 2)).
Lemma cap_length : length cap_list = (b - a + 2)%nat.
Proof using. unfold cap_list. rewrite map_length, seq_length. reflexivity. Qed.
Lemma cap_nth i x : nth_error cap_list i = Some x <-> (i < b - a + 2)%nat /\ x = cap_at i.
Proof using.
  unfold cap_list. rewrite nth_error_map. split.
  - intros E. destruct (nth_error (seq 0 (b - a + 2)) i) as [y|] eqn:Y; [|discriminate]. pose proof (nth_error_Some (seq 0 (b - a + 2)) i) as [L _]. rewrite Y in L. specialize (L ltac:(discriminate)). rewrite seq_length in L. split; [exact L|].
    rewrite (nth_error_nth' _ 0%nat) in Y by (rewrite seq_length; exact L). rewrite seq_nth in Y by exact L. cbn in *. congruence.
  - intros [L ->]. rewrite (nth_error_nth' _ 0%nat) by (rewrite seq_length; exact L). rewrite seq_nth by exact L. reflexivity.
Qed.
Lemma d_le : (d <= a + n)%nat.
Proof using Hd. clear - Hd. destruct Hd as [[E _]|[E _]]; clear - E; lia. Qed.
Lemma cap_turns : in_convex_position s cap_list.
Proof using All.
  intros i j k x y z Hij Hjk Hi Hj Hk. apply cap_nth in Hi as [Li ->]. apply cap_nth in Hj as [Lj ->]. apply cap_nth in Hk as [Lk ->]. unfold cap_at. pose proof d_le as Dl.
  replace (i <? b - a)%nat with true by (symmetry; apply Nat.ltb_lt; lia).
  destruct (Nat.ltb_spec j (b - a)) as [Bj|Bj].
  - destruct (Nat.ltb_spec k (b - a)) as [Bk|Bk]; [apply (c_triple _ _ _ C); lia|]. destruct (Nat.eqb_spec k (b - a)) as [Ek|Ek].
    + unfold cap_x. replace b with (S (b - 1)) at 2 by lia. apply (vertices_point n s P C); try lia; lra.
    + unfold cap_y. replace d with (S (d - 1)) at 2 by lia. apply (vertices_point n s P C); try lia; lra.
  - replace (j =? b - a)%nat with true by (symmetry; apply Nat.eqb_eq; lia). replace (k <? b - a)%nat with false by (symmetry; apply Nat.ltb_ge; lia). replace (k =? b - a)%nat with false by (symmetry; apply Nat.eqb_neq; lia).
    unfold cap_x, cap_y. replace b with (S (b - 1)) at 2 by lia. replace d with (S (d - 1)) at 2 by lia. apply (vertex_points n s P C); try lia; lra.
Qed.
Lemma cap_at_mod i : (i < b - a + 2)%nat -> cap_at (S i mod length cap_list) = (if (S i <? b - a + 2)%nat then cap_at (S i) else P a).
Proof using All.
  intros L. rewrite cap_length. destruct (Nat.ltb_spec (S i) (b - a + 2)) as [X|X]; [rewrite Nat.mod_small by exact X; reflexivity|].
  replace (S i) with (b - a + 2)%nat by lia. rewrite Nat.mod_same by lia. unfold cap_at. replace (0 <? b - a)%nat with true by (symmetry; apply Nat.ltb_lt; lia). f_equal. lia.
Qed.
Lemma cap_cycle : convex_cycle s cap_list.
Proof using All.
  pose proof cap_distinct as XY. pose proof d_le as Dl. pose proof (Neg a ltac:(lia) Hab) as Fa. pose proof (Neg (b - 1)%nat ltac:(lia) ltac:(lia)) as Fb.
  split; [exact cap_turns|]. split.
  - intros i x y Hi Hj. apply cap_nth in Hi as [Li ->]. apply cap_nth in Hj as [Lj ->]. rewrite cap_at_mod by exact Li. unfold cap_at.
    destruct (Nat.ltb_spec (S i) (b - a + 2)) as [L1|L1].
    + destruct (Nat.ltb_spec i (b - a)) as [L2|L2].
      * destruct (Nat.ltb_spec (S i) (b - a)) as [L3|L3]; [replace (a + S i)%nat with (S (a + i)) by lia; apply (c_edge _ _ _ C)|].
        replace (S i =? b - a)%nat with true by (symmetry; apply Nat.eqb_eq; lia). intros E. apply (ev_comp f) in E. pose proof (Neg (a + i)%nat ltac:(lia) ltac:(lia)). lra.
      * replace (i =? b - a)%nat with true by (symmetry; apply Nat.eqb_eq; lia). replace (S i <? b - a)%nat with false by (symmetry; apply Nat.ltb_ge; lia). replace (S i =? b - a)%nat with false by (symmetry; apply Nat.eqb_neq; lia). exact XY.
    + replace (i <? b - a)%nat with false by (symmetry; apply Nat.ltb_ge; lia). replace (i =? b - a)%nat with false by (symmetry; apply Nat.eqb_neq; lia). intros E. apply (ev_comp f) in E. lra.
  - exists cap_x, cap_y, (P a). repeat split.
    + apply (nth_error_In cap_list (b - a)). apply cap_nth. split; [lia|]. unfold cap_at. rewrite Nat.ltb_irrefl, Nat.eqb_refl. reflexivity.
    + apply (nth_error_In cap_list (b - a + 1)). apply cap_nth. split; [lia|]. unfold cap_at. replace (b - a + 1 <? b - a)%nat with false by (symmetry; apply Nat.ltb_ge; lia). replace (b - a + 1 =? b - a)%nat with false by (symmetry; apply Nat.eqb_neq; lia). reflexivity.
    + apply (nth_error_In cap_list 0). apply cap_nth. split; [lia|]. unfold cap_at. replace (0 <? b - a)%nat with true by (symmetry; apply Nat.ltb_lt; lia). f_equal. lia.
    + intros Z. assert (E : ev f cap_x == ev f cap_y) by lra. destruct (flat_multiple f cap_x cap_y XY E) as (k & K). specialize (K (P a)). rewrite Z in K. lra.
Qed.
(** The side of the new edge. *)
Lemma cap_new_side : exists k, 0 < k /\ forall q, s * turn cap_x cap_y q == - k * ev f q.
Proof using All.
  pose proof (Neg a ltac:(lia) Hab) as Fa. assert (E : ev f cap_x == ev f cap_y) by lra. destruct (flat_multiple f cap_x cap_y cap_distinct E) as (k & K).
  assert (T : 0 <= s * turn cap_x cap_y (P a)). { rewrite <- turn_rot. unfold cap_x, cap_y. replace b with (S (b - 1)) at 2 by lia. replace d with (S (d - 1)) at 2 by lia. pose proof d_le. apply (vertex_points n s P C); try lia; lra. }
  pose proof (K (P a)) as Ka. rewrite X0 in Ka. set (x := turn cap_x cap_y (P a)) in *.
  assert (Kn : ~ k == 0) by (intros Z; rewrite Z in Ka; lra).
  assert (S0 := c_s _ _ _ C). exists (- (s / k)). split.
  - assert (k * x < 0) by lra. assert (Kk : 0 < k * k) by nra.
    assert (Q : 0 <= (s * x) * (k * k)) by (apply Qmult_le_0_compat; lra). setoid_replace ((s * x) * (k * k)) with ((s * k) * (k * x)) in Q by ring.
    assert (s * k < 0). { destruct (Qlt_le_dec (s * k) 0) as [Z|Z]; [exact Z|]. exfalso. destruct (proj1 (Qle_lteq _ _) Z) as [W|W]; [nra|]. symmetry in W. apply Qmult_integral in W as [W|W]; contradiction. }
    setoid_replace (- (s / k)) with ((- (s * k)) / (k * k)) by (field; exact Kn). apply Qlt_shift_div_l; [exact Kk|lra].
  - intros q. specialize (K q). rewrite X0 in K. setoid_replace (ev f q) with (k * turn cap_x cap_y q) by lra. field. exact Kn.
Qed.
(** The points of the cap: those of the polygon on the side of the line. *)
Lemma cap_polygon q : in_polygon s cap_list q <-> (forall i, (i < n)%nat -> 0 <= s * turn (P i) (P (S i)) q) /\ ev f q <= 0.
Proof using All.
  pose proof cap_new_side as (kk & Kk & New). pose proof d_le as Dl. pose proof (c_n _ _ _ C) as N.
  assert (All : (forall i, (i < n)%nat -> 0 <= s * turn (P i) (P (S i)) q) -> forall i, 0 <= s * turn (P i) (P (S i)) q).
  { intros Hq i. pose proof (Nat.mod_upper_bound i n ltac:(lia)) as B. specialize (Hq (i mod n)%nat B).
    rewrite <- (period_mult n s P C (i mod n) (i / n)), <- (period_mult n s P C (S (i mod n)) (i / n)) in Hq. pose proof (Nat.div_mod i n ltac:(lia)) as D. replace (i mod n + i / n * n)%nat with i in Hq by lia. replace (S (i mod n) + i / n * n)%nat with (S i) in Hq by lia. exact Hq. }
  assert (Ylast : cap_y = lerp (P (d - 1)) (P d) u) by reflexivity.
  (* the edge from Y to the first vertex is part of the edge before it *)
  assert (Last : exists c, 0 < c /\ forall q, s * turn cap_y (P a) q == c * (s * turn (P (a + n - 1)) (P (a + n)) q)).
  { destruct Hd as [[E1 E2]|[E1 E2]].
    - exists (1 - u). split; [lra|]. intros z. rewrite <- E1. unfold cap_y. replace (P a) with (P d) by (rewrite E1; apply (c_period _ _ _ C)). rewrite turn_to. ring.
    - exists 1. split; [lra|]. intros z. replace (a + n - 1)%nat with d by lia. rewrite (c_period _ _ _ C). rewrite (turn_comp cap_y (P a) z (P d) (P a) z); [ring| |split; reflexivity|split; reflexivity].
      unfold cap_y, lerp, qp2_eq. cbn [qx2 qy2]. rewrite E2. split; ring. }
  destruct Last as (cl & Cl & Last).
  split.
  - intros Hq.
    assert (Gen : forall i, (i < b - a + 2)%nat -> 0 <= s * turn (cap_at i) (if (S i <? b - a + 2)%nat then cap_at (S i) else P a) q).
    { intros i Li. rewrite <- (cap_at_mod i Li). apply (Hq i); apply cap_nth; [split; [exact Li|reflexivity]|]. split; [|reflexivity]. rewrite cap_length. apply Nat.mod_upper_bound. lia. }
    assert (F0 : ev f q <= 0).
    { specialize (Gen (b - a)%nat ltac:(lia)). replace (S (b - a) <? b - a + 2)%nat with true in Gen by (symmetry; apply Nat.ltb_lt; lia). unfold cap_at in Gen. rewrite Nat.ltb_irrefl, Nat.eqb_refl in Gen.
      replace (S (b - a) <? b - a)%nat with false in Gen by (symmetry; apply Nat.ltb_ge; lia). replace (S (b - a) =? b - a)%nat with false in Gen by (symmetry; apply Nat.eqb_neq; lia). rewrite New in Gen.
      destruct (Qlt_le_dec 0 (ev f q)) as [Z|Z]; [nra|exact Z]. }
    split; [|exact F0]. intros i Li. rewrite <- turn_aff_ev.
    (* the cap is itself a convex cycle, and the edge of P has it on its inner side *)
    assert (Cc : cvx (b - a + 2) s (fun j => cap_at (j mod (b - a + 2)))).
    { pose proof cap_cycle as (T1 & T2 & (x & y & z & Ix & Iy & Iz & NZ)).
      assert (Mo : forall j, (j mod (b - a + 2) < b - a + 2)%nat) by (intros j; apply Nat.mod_upper_bound; lia).
      split; [lia|exact (c_s _ _ _ C)| | | |].
      - intros j. f_equal. replace (j + (b - a + 2))%nat with (j + 1 * (b - a + 2))%nat by lia. apply Nat.mod_add. lia.
      - assert (T' : forall i j k, (i < j)%nat -> (j < k)%nat -> (k < b - a + 2)%nat -> 0 <= s * turn (cap_at i) (cap_at j) (cap_at k)).
        { intros i' j k H1 H2 H3. apply (T1 i' j k); [exact H1|exact H2|apply cap_nth; split; [lia|reflexivity]|apply cap_nth; split; [lia|reflexivity]|apply cap_nth; split; [lia|reflexivity]]. }
        set (m := (b - a + 2)%nat) in *. intros i' j k Hij Hjk Hk.
        assert (Wm : forall o, (o < m)%nat -> ((i' + o) mod m = i' mod m + o \/ m <= i' mod m + o /\ (i' + o) mod m + m = i' mod m + o)%nat).
        { intros o Lo. pose proof (Mo i') as B. rewrite <- (Nat.add_mod_idemp_l i' o m) by lia. set (rr := (i' mod m)%nat) in *.
          destruct (Nat.lt_ge_cases (rr + o) m) as [L|L]; [left; apply Nat.mod_small; exact L|right]. split; [exact L|]. replace (rr + o)%nat with ((rr + o - m) + 1 * m)%nat at 1 by lia. rewrite Nat.mod_add by lia. rewrite Nat.mod_small by lia. lia. }
        pose proof (Wm (j - i')%nat ltac:(lia)) as Wj. pose proof (Wm (k - i')%nat ltac:(lia)) as Wk. replace (i' + (j - i'))%nat with j in Wj by lia. replace (i' + (k - i'))%nat with k in Wk by lia.
        pose proof (Mo i') as Bi. pose proof (Mo j) as Bj. pose proof (Mo k) as Bk. set (i1 := (i' mod m)%nat) in *. set (j1 := (j mod m)%nat) in *. set (k1 := (k mod m)%nat) in *.
        destruct Wj as [Wj|Wj], Wk as [Wk|Wk]; [apply T'; lia| |lia|].
        + rewrite <- turn_rot. apply T'; lia.
        + rewrite turn_rot. apply T'; lia.
      - intros j. apply (T2 (j mod (b - a + 2))%nat); [apply cap_nth; split; [apply Mo|reflexivity]|]. apply cap_nth. rewrite cap_length. split; [apply Mo|]. f_equal.
        replace (S (j mod (b - a + 2))) with (j mod (b - a + 2) + 1)%nat by lia. rewrite Nat.add_mod_idemp_l by lia. f_equal. lia.
      - apply In_nth_error in Ix as (i1 & Ix). apply In_nth_error in Iy as (i2 & Iy). apply In_nth_error in Iz as (i3 & Iz). apply cap_nth in Ix as [L1 ->]. apply cap_nth in Iy as [L2 ->]. apply cap_nth in Iz as [L3 ->].
        exists i1, i2, i3. rewrite !Nat.mod_small by assumption. exact NZ. }
    set (g := Aff (s * fa (turn_aff (P i) (P (S i)))) (s * fb (turn_aff (P i) (P (S i)))) (s * fc (turn_aff (P i) (P (S i))))).
    assert (Eg : forall z, ev g z == s * turn (P i) (P (S i)) z) by (intros z; rewrite <- turn_aff_ev; unfold g, ev; cbn [fa fb fc]; ring).
    rewrite turn_aff_ev, <- Eg. apply (inside_nonneg (b - a + 2) s _ Cc).
    + intros j Lj. rewrite (Nat.mod_small j) by exact Lj. specialize (Gen j Lj). rewrite <- (cap_at_mod j Lj), cap_length in Gen. exact Gen.
    + intros j. rewrite Eg. pose proof (Nat.mod_upper_bound j (b - a + 2) ltac:(lia)) as B. set (j' := (j mod (b - a + 2))%nat) in *. unfold cap_at.
      destruct (Nat.ltb_spec j' (b - a)) as [L1|L1]; [apply (edge_side n s P C)|]. 
      destruct (Nat.eqb_spec j' (b - a)) as [L2|L2].
      * unfold cap_x. rewrite turn_lerp3. setoid_replace (s * ((1 - t) * turn (P i) (P (S i)) (P (b - 1)) + t * turn (P i) (P (S i)) (P b))) with ((1 - t) * (s * turn (P i) (P (S i)) (P (b - 1))) + t * (s * turn (P i) (P (S i)) (P b))) by ring. apply q_mix; [lra|lra|apply (edge_side n s P C)|apply (edge_side n s P C)].
      * unfold cap_y. rewrite turn_lerp3. setoid_replace (s * ((1 - u) * turn (P i) (P (S i)) (P (d - 1)) + u * turn (P i) (P (S i)) (P d))) with ((1 - u) * (s * turn (P i) (P (S i)) (P (d - 1))) + u * (s * turn (P i) (P (S i)) (P d))) by ring. apply q_mix; [lra|lra|apply (edge_side n s P C)|apply (edge_side n s P C)].
  - intros [Hp Hf] i x y Hi Hj. specialize (All Hp). apply cap_nth in Hi as [Li ->]. apply cap_nth in Hj as [Lj ->]. rewrite cap_at_mod by exact Li. unfold cap_at.
    destruct (Nat.ltb_spec (S i) (b - a + 2)) as [L1|L1].
    + destruct (Nat.ltb_spec i (b - a)) as [L2|L2].
      * destruct (Nat.ltb_spec (S i) (b - a)) as [L3|L3]; [replace (a + S i)%nat with (S (a + i)) by lia; apply All|].
        replace (S i =? b - a)%nat with true by (symmetry; apply Nat.eqb_eq; lia). replace (a + i)%nat with (b - 1)%nat by lia. unfold cap_x. rewrite turn_from. setoid_replace (s * (t * turn (P (b - 1)) (P b) q)) with (t * (s * turn (P (b - 1)) (P b) q)) by ring. apply Qmult_le_0_compat; [lra|]. replace b with (S (b - 1)) at 2 by lia. apply All.
      * replace (i =? b - a)%nat with true by (symmetry; apply Nat.eqb_eq; lia). replace (S i <? b - a)%nat with false by (symmetry; apply Nat.ltb_ge; lia). replace (S i =? b - a)%nat with false by (symmetry; apply Nat.eqb_neq; lia). rewrite New. nra.
    + replace (i <? b - a)%nat with false by (symmetry; apply Nat.ltb_ge; lia). replace (i =? b - a)%nat with false by (symmetry; apply Nat.eqb_neq; lia). rewrite Last. apply Qmult_le_0_compat; [lra|]. replace (a + n)%nat with (S (a + n - 1)) at 2 by lia. apply All.
Qed.
End Cap2.
