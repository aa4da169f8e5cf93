(** Counter-clockwise triangles with the boundary of the polygon tile it. *)
From Coq Require Import List ZArith QArith Lia Lqa Bool.
From Verif Require Import BigUIntModel GeoModel GeoSpec GeoProofs GeoDirProofs TriModel TriSpec TriProofs TriGeoProofs.
Import ListNotations.
Open Scope Q_scope.
Definition qltb (a b : Q) : bool := negb (Qle_bool b a).
Lemma qltb_lt a b : qltb a b = true <-> a < b.
Proof. unfold qltb. rewrite negb_true_iff. split; [intros H; apply Qnot_le_lt; intros C; apply Qle_bool_iff in C; congruence|]. intros H. apply not_true_iff_false. rewrite Qle_bool_iff. lra. Qed.
Lemma qltb_ge a b : qltb a b = false <-> b <= a.
Proof. unfold qltb. rewrite negb_false_iff. apply Qle_bool_iff. Qed.
(** 1 or -1 for an edge that passes below q to the right or left. *)
Definition passes (q a b : qpoint2) : Q :=
  if qltb (qx2 q) (qx2 a) then
    if qltb (qx2 q) (qx2 b) then 0 else if qltb 0 (turn b a q) then -1 else 0
  else
    if qltb (qx2 q) (qx2 b) then if qltb 0 (turn a b q) then 1 else 0 else 0.
Lemma passes_anti q : anti (passes q).
Proof. intros a b. unfold passes. destruct (qltb (qx2 q) (qx2 a)), (qltb (qx2 q) (qx2 b)); try reflexivity; destruct (qltb 0 _); reflexivity. Qed.
Definition insideb (q : qpoint2) (t : triangle qpoint2) : bool := qltb 0 (turn (t1 t) (t2 t) q) && qltb 0 (turn (t2 t) (t3 t) q) && qltb 0 (turn (t3 t) (t1 t) q).
Lemma insideb_iff q t : insideb q t = true <-> inside_triangle t q.
Proof. unfold insideb, inside_triangle. rewrite !andb_true_iff, !qltb_lt. tauto. Qed.
Definition one (b : bool) : Q := if b then 1 else 0.
Lemma turn_id a b c q : turn a b q + turn b c q + turn c a q == turn a b c.
Proof. unfold turn, qcross2, qsub2; cbn. ring. Qed.
Lemma turn_x a b c q : turn b c q * (qx2 a - qx2 q) + turn c a q * (qx2 b - qx2 q) + turn a b q * (qx2 c - qx2 q) == 0.
Proof. unfold turn, qcross2, qsub2; cbn. ring. Qed.
Lemma turn_vertical a b q : qx2 a == qx2 q -> turn a b q == (qx2 b - qx2 a) * (qy2 q - qy2 a).
Proof. intros E. unfold turn, qcross2, qsub2; cbn. rewrite E. ring. Qed.
(** A point on the line of an edge, between its ends in x, is on the edge. *)
Lemma on_side_between a b q : turn a b q == 0 -> qx2 a <= qx2 q -> qx2 q < qx2 b -> on_side a b q.
Proof.
  intros Z H1 H2. split; [exact Z|]. split; [nra|].
  assert (E : (qy2 q - qy2 a) * (qx2 b - qx2 a) == (qy2 b - qy2 a) * (qx2 q - qx2 a)). { unfold turn, qcross2, qsub2 in Z; cbn in Z. lra. }
  assert (E2 : (qy2 q - qy2 b) * (qx2 b - qx2 a) == (qy2 b - qy2 a) * (qx2 q - qx2 b)). { lra. }
  assert (Pr : (qy2 q - qy2 a) * (qy2 q - qy2 b) * ((qx2 b - qx2 a) * (qx2 b - qx2 a)) == (qy2 b - qy2 a) * (qy2 b - qy2 a) * ((qx2 q - qx2 a) * (qx2 q - qx2 b))).
  { transitivity (((qy2 q - qy2 a) * (qx2 b - qx2 a)) * ((qy2 q - qy2 b) * (qx2 b - qx2 a))); [ring|]. rewrite E, E2. ring. }
  set (Y := (qy2 q - qy2 a) * (qy2 q - qy2 b)) in *. set (D := qx2 b - qx2 a) in *. assert (HD : 0 < D) by (unfold D; lra).
  assert (HDD : 0 < D * D) by nra. assert (HX : (qx2 q - qx2 a) * (qx2 q - qx2 b) <= 0) by nra. set (dy := qy2 b - qy2 a) in *. assert (0 <= dy * dy) by nra.
  destruct (Qlt_le_dec 0 Y) as [C|C]; [exfalso|exact C]. nra.
Qed.
Lemma on_side_sym a b q : on_side a b q -> on_side b a q.
Proof. intros (H1 & H2 & H3). split; [rewrite turn_flip, H1; ring|]. split; [rewrite Qmult_comm; exact H2|rewrite Qmult_comm; exact H3]. Qed.
(** The corner b alone to the right of q. *)
Lemma apex_right a b c q : 0 <= turn a b c -> ~ on_side b c q -> ~ on_side c a q -> qx2 a <= qx2 q -> qx2 c <= qx2 q -> qx2 q < qx2 b ->
  one (qltb 0 (turn a b q)) - one (qltb 0 (turn c b q)) == one (qltb 0 (turn a b q) && qltb 0 (turn b c q) && qltb 0 (turn c a q)).
Proof.
  intros T N1 N2 Ha Hc Hb. pose proof (turn_id a b c q) as I1. pose proof (turn_x a b c q) as I2. pose proof (turn_flip b c q) as Fl.
  destruct (qltb 0 (turn a b q)) eqn:E1; [apply qltb_lt in E1|apply qltb_ge in E1]; destruct (qltb 0 (turn c b q)) eqn:E2; [apply qltb_lt in E2|apply qltb_ge in E2|apply qltb_lt in E2|apply qltb_ge in E2].
  - replace (qltb 0 (turn b c q)) with false by (symmetry; apply qltb_ge; lra). cbn. reflexivity.
  - assert (Nz : ~ turn c b q == 0). { intros C. apply N1, on_side_sym, on_side_between; assumption. }
    assert (B : 0 < turn b c q) by lra. replace (qltb 0 (turn b c q)) with true by (symmetry; apply qltb_lt; exact B). cbn [andb].
    replace (qltb 0 (turn c a q)) with true; [cbn; reflexivity|]. symmetry. apply qltb_lt.
    destruct (Qlt_le_dec 0 (turn c a q)) as [G|G]; [exact G|exfalso].
    assert (P1 : 0 <= turn b c q * (qx2 q - qx2 a)) by nra. assert (P2 : 0 <= turn a b q * (qx2 q - qx2 c)) by nra. assert (P3 : 0 <= - turn c a q * (qx2 b - qx2 q)) by nra.
    assert (Z1 : turn b c q * (qx2 q - qx2 a) == 0) by lra. assert (Z2 : turn a b q * (qx2 q - qx2 c) == 0) by lra. assert (Z3 : turn c a q * (qx2 b - qx2 q) == 0) by lra.
    assert (Xa : qx2 a == qx2 q) by (destruct (Qmult_integral _ _ Z1); lra). assert (Xc : qx2 c == qx2 q) by (destruct (Qmult_integral _ _ Z2); lra).
    assert (Zca : turn c a q == 0) by (destruct (Qmult_integral _ _ Z3); lra).
    apply N2. split; [exact Zca|]. split; [rewrite Xa, Xc; ring_simplify; lra|].
    rewrite (turn_vertical a b q Xa) in E1. rewrite (turn_vertical c b q Xc) in E2.
    assert (Ya : 0 < qy2 q - qy2 a) by nra. assert (Yc : qy2 q - qy2 c <= 0) by nra. nra.
  - exfalso. assert (P1 : turn b c q * (qx2 q - qx2 a) <= 0) by nra. assert (P2 : turn a b q * (qx2 q - qx2 c) <= 0) by nra. assert (P3 : 0 < turn c a q) by lra. assert (P4 : 0 < turn c a q * (qx2 b - qx2 q)) by nra. lra.
  - cbn. reflexivity.
Qed.
(** The corner b alone to the left of q, or below or above it. *)
Lemma apex_left a b c q : 0 <= turn a b c -> ~ on_side a b q -> qx2 q < qx2 a -> qx2 q < qx2 c -> qx2 b <= qx2 q ->
  - one (qltb 0 (turn b a q)) + one (qltb 0 (turn b c q)) == one (qltb 0 (turn a b q) && qltb 0 (turn b c q) && qltb 0 (turn c a q)).
Proof.
  intros T N1 Ha Hc Hb. pose proof (turn_id a b c q) as I1. pose proof (turn_x a b c q) as I2. pose proof (turn_flip a b q) as Fl.
  destruct (qltb 0 (turn b a q)) eqn:E1; [apply qltb_lt in E1|apply qltb_ge in E1]; destruct (qltb 0 (turn b c q)) eqn:E2; [apply qltb_lt in E2|apply qltb_ge in E2|apply qltb_lt in E2|apply qltb_ge in E2].
  - replace (qltb 0 (turn a b q)) with false by (symmetry; apply qltb_ge; lra). cbn. reflexivity.
  - exfalso. assert (P3 : 0 < turn c a q) by lra.
    assert (P1 : turn b c q * (qx2 a - qx2 q) <= 0) by nra. assert (P2 : turn a b q * (qx2 c - qx2 q) < 0) by nra. assert (P4 : turn c a q * (qx2 b - qx2 q) <= 0) by nra. lra.
  - assert (Nz : ~ turn b a q == 0). { intros C. apply N1, on_side_sym, on_side_between; assumption. }
    assert (B : 0 < turn a b q) by lra. replace (qltb 0 (turn a b q)) with true by (symmetry; apply qltb_lt; exact B). cbn [andb].
    replace (qltb 0 (turn c a q)) with true; [cbn; reflexivity|]. symmetry. apply qltb_lt.
    destruct (Qlt_le_dec 0 (turn c a q)) as [G|G]; [exact G|exfalso].
    assert (P1 : 0 < turn b c q * (qx2 a - qx2 q)) by nra. assert (P2 : 0 < turn a b q * (qx2 c - qx2 q)) by nra. assert (P3 : 0 <= turn c a q * (qx2 b - qx2 q)) by nra. lra.
  - destruct (qltb 0 (turn a b q)); cbn; reflexivity.
Qed.
Lemma same_side_out a b c q : (qx2 a <= qx2 q /\ qx2 b <= qx2 q /\ qx2 c <= qx2 q) \/ (qx2 q < qx2 a /\ qx2 q < qx2 b /\ qx2 q < qx2 c) ->
  qltb 0 (turn a b q) && qltb 0 (turn b c q) && qltb 0 (turn c a q) = false.
Proof.
  intros H. apply not_true_iff_false. rewrite !andb_true_iff, !qltb_lt. intros ((T1 & T2) & T3). pose proof (turn_x a b c q) as I2.
  destruct H as [(H1 & H2 & H3)|(H1 & H2 & H3)].
  - assert (P1 : 0 <= turn b c q * (qx2 q - qx2 a)) by nra. assert (P2 : 0 <= turn a b q * (qx2 q - qx2 c)) by nra. assert (P3 : 0 <= turn c a q * (qx2 q - qx2 b)) by nra.
    assert (Z1 : turn b c q * (qx2 q - qx2 a) == 0) by lra. assert (Z3 : turn c a q * (qx2 q - qx2 b) == 0) by lra.
    assert (Xa : qx2 a == qx2 q) by (destruct (Qmult_integral _ _ Z1); lra). assert (Xb : qx2 b == qx2 q) by (destruct (Qmult_integral _ _ Z3); lra).
    rewrite (turn_vertical a b q Xa) in T1. rewrite Xa, Xb in T1. lra.
  - assert (P1 : 0 < turn b c q * (qx2 a - qx2 q)) by nra. assert (P2 : 0 < turn a b q * (qx2 c - qx2 q)) by nra. assert (P3 : 0 < turn c a q * (qx2 b - qx2 q)) by nra. lra.
Qed.
Lemma turn_cycle a b c : turn b c a == turn a b c.
Proof. unfold turn, qcross2, qsub2; cbn. ring. Qed.
Lemma and3_cycle x y z : y && z && x = x && y && z.
Proof. destruct x, y, z; reflexivity. Qed.
Lemma triangle_count q (t : triangle qpoint2) : 0 <= turn (t1 t) (t2 t) (t3 t) -> ~ on_border t q -> tri_sum (passes q) t == one (insideb q t).
Proof.
  intros T N. unfold tri_sum, insideb. destruct t as [w a b c]. cbn [t1 t2 t3] in *. unfold on_border in N. cbn [t1 t2 t3] in N.
  assert (N1 : ~ on_side a b q) by tauto. assert (N2 : ~ on_side b c q) by tauto. assert (N3 : ~ on_side c a q) by tauto. clear N.
  assert (T2 : 0 <= turn b c a) by (rewrite turn_cycle; exact T). assert (T3 : 0 <= turn c a b) by (rewrite turn_cycle; exact T2).
  unfold passes.
  destruct (qltb (qx2 q) (qx2 a)) eqn:Ea; [apply qltb_lt in Ea|apply qltb_ge in Ea];
  (destruct (qltb (qx2 q) (qx2 b)) eqn:Eb; [apply qltb_lt in Eb|apply qltb_ge in Eb]);
  (destruct (qltb (qx2 q) (qx2 c)) eqn:Ec; [apply qltb_lt in Ec|apply qltb_ge in Ec]).
  - rewrite (same_side_out a b c q) by tauto. reflexivity.
  - (* c alone left *) rewrite <- and3_cycle. rewrite <- (apex_left b c a q T2 N2 Eb Ea Ec). destruct (qltb 0 (turn c b q)), (qltb 0 (turn c a q)); reflexivity.
  - (* b alone left *) rewrite <- (apex_left a b c q T N1 Ea Ec Eb). destruct (qltb 0 (turn b a q)), (qltb 0 (turn b c q)); reflexivity.
  - (* a alone right *) rewrite and3_cycle, and3_cycle. rewrite <- and3_cycle, <- and3_cycle. rewrite <- and3_cycle. rewrite <- and3_cycle.
    rewrite <- (apex_right c a b q T3 N1 N2 Ec Eb Ea). destruct (qltb 0 (turn b a q)), (qltb 0 (turn c a q)); reflexivity.
  - (* a alone left *) rewrite <- and3_cycle, <- and3_cycle. rewrite <- (apex_left c a b q T3 N3 Ec Eb Ea). destruct (qltb 0 (turn a b q)), (qltb 0 (turn a c q)); reflexivity.
  - (* b alone right *) rewrite <- (apex_right a b c q T N2 N3 Ea Ec Eb). destruct (qltb 0 (turn a b q)), (qltb 0 (turn c b q)); reflexivity.
  - (* c alone right *) rewrite <- and3_cycle. rewrite <- (apex_right b c a q T2 N3 N1 Eb Ea Ec). destruct (qltb 0 (turn b c q)), (qltb 0 (turn a c q)); reflexivity.
  - rewrite (same_side_out a b c q) by tauto. reflexivity.
Qed.
(** A chain passes below q at most once. *)
Lemma chain_right q a l : rightwards (a :: l) -> qx2 q < qx2 a -> psum (passes q) a l == 0 /\ ~ above (a :: l) q.
Proof.
  revert a. induction l as [|b l IH]; intros a R Hq.
  - split; [reflexivity|]. intros (x & y & [] & _).
  - assert (Rb : rightwards (b :: l)) by (intros x y H; apply R; right; exact H). assert (Hab : qx2 a <= qx2 b) by (apply R; left; reflexivity).
    destruct (IH b Rb ltac:(lra)) as (E & N). split.
    + cbn [psum]. rewrite E. unfold passes. replace (qltb (qx2 q) (qx2 a)) with true by (symmetry; apply qltb_lt; lra). replace (qltb (qx2 q) (qx2 b)) with true by (symmetry; apply qltb_lt; lra). reflexivity.
    + intros (x & y & [Exy|H] & H1 & H2 & H3); [injection Exy as <- <-; lra|]. apply N. exists x, y. repeat split; assumption.
Qed.
Lemma chain_passes q a l : rightwards (a :: l) -> (above (a :: l) q /\ psum (passes q) a l == 1) \/ (~ above (a :: l) q /\ psum (passes q) a l == 0).
Proof.
  revert a. induction l as [|b l IH]; intros a R.
  - right. split; [|reflexivity]. intros (x & y & [] & _).
  - assert (Rb : rightwards (b :: l)) by (intros x y H; apply R; right; exact H). assert (Hab : qx2 a <= qx2 b) by (apply R; left; reflexivity).
    cbn [psum]. destruct (Qlt_le_dec (qx2 q) (qx2 b)) as [L|L].
    + destruct (chain_right q b l Rb L) as (E & N). setoid_rewrite E. unfold passes. replace (qltb (qx2 q) (qx2 b)) with true by (symmetry; apply qltb_lt; lra).
      destruct (qltb (qx2 q) (qx2 a)) eqn:Ea; [apply qltb_lt in Ea|apply qltb_ge in Ea].
      * right. split; [|reflexivity]. intros (x & y & [Exy|H] & H1 & H2 & H3); [injection Exy as <- <-; lra|]. apply N. exists x, y. repeat split; assumption.
      * destruct (qltb 0 (turn a b q)) eqn:Et; [apply qltb_lt in Et; left|apply qltb_ge in Et; right].
        -- split; [|reflexivity]. exists a, b. repeat split; try assumption. left. reflexivity.
        -- split; [|reflexivity]. intros (x & y & [Exy|H] & H1 & H2 & H3); [injection Exy as <- <-; lra|]. apply N. exists x, y. repeat split; assumption.
    + assert (E : passes q a b == 0). { unfold passes. replace (qltb (qx2 q) (qx2 b)) with false by (symmetry; apply qltb_ge; lra). replace (qltb (qx2 q) (qx2 a)) with false by (symmetry; apply qltb_ge; lra). reflexivity. }
      destruct (IH b Rb) as [(Ab & S)|(Ab & S)]; [left|right]; (split; [|rewrite E, S; reflexivity]).
      * destruct Ab as (x & y & H & H1). exists x, y. split; [right; exact H|exact H1].
      * intros (x & y & [Exy|H] & H1 & H2 & H3); [injection Exy as <- <-; lra|]. apply Ab. exists x, y. repeat split; assumption.
Qed.
Fixpoint count_true {A} (p : A -> bool) (l : list A) : nat := match l with [] => 0 | x :: r => (if p x then 1 else 0) + count_true p r end.
Lemma out_count q o : Forall (fun t => 0 <= turn (t1 t) (t2 t) (t3 t)) o -> (forall t, In t o -> ~ on_border t q) -> out_sum (passes q) o == inject_Z (Z.of_nat (count_true (insideb q) o)).
Proof.
  intros C N. induction o as [|t o IH]; [reflexivity|]. rewrite out_sum_cons. inversion C; subst. rewrite IH, (triangle_count q t); [|assumption|apply N; left; reflexivity|assumption|intros x Hx; apply N; right; exact Hx].
  cbn [count_true]. destruct (insideb q t); [|cbn [Nat.add one]; ring]. rewrite Nat2Z.inj_add, inject_Z_plus. reflexivity.
Qed.
Lemma count_zero {A} (p : A -> bool) l : count_true p l = 0%nat -> forall x, In x l -> p x = false.
Proof. induction l as [|y l IH]; intros E x []; cbn [count_true] in E; [subst; destruct (p x); [discriminate|reflexivity]|]. apply IH; [lia|assumption]. Qed.
Lemma count_one {A} (p : A -> bool) l : count_true p l = 1%nat -> exists l1 x l2, l = l1 ++ x :: l2 /\ p x = true /\ forall y, In y (l1 ++ l2) -> p y = false.
Proof.
  induction l as [|a l IH]; intros E; [discriminate|]. cbn [count_true] in E. destruct (p a) eqn:Ea.
  - exists [], a, l. split; [reflexivity|]. split; [exact Ea|]. change (forall y, In y l -> p y = false). apply count_zero. lia.
  - destruct (IH E) as (l1 & x & l2 & E1 & E2 & E3). exists (a :: l1), x, l2. split; [rewrite E1; reflexivity|]. split; [exact E2|]. intros y [<-|H]; [exact Ea|apply E3, H].
Qed.
Theorem tiles (q : qpoint2) m top bottom mx o : rightwards (m :: top ++ [mx]) -> rightwards (m :: bottom) ->
  out_sum (passes q) o == psum (passes q) m bottom - psum (passes q) m (top ++ [mx]) ->
  Forall (fun t => 0 <= turn (t1 t) (t2 t) (t3 t)) o -> (forall t, In t o -> ~ on_border t q) ->
  (above (m :: bottom) q /\ ~ above (m :: top ++ [mx]) q -> exactly_one (fun t => inside_triangle t q) o) /\
  (~ (above (m :: bottom) q /\ ~ above (m :: top ++ [mx]) q) -> forall t, In t o -> ~ inside_triangle t q).
Proof.
  intros RT RB S C N. rewrite (out_count q o C N) in S.
  destruct (chain_passes q _ _ RB) as [(AB & SB)|(AB & SB)]; destruct (chain_passes q _ _ RT) as [(AT & ST)|(AT & ST)]; rewrite SB, ST in S.
  - assert (Z : count_true (insideb q) o = 0%nat). { assert (inject_Z (Z.of_nat (count_true (insideb q) o)) == 0) by lra. unfold Qeq in H; cbn in H. lia. }
    split; [tauto|]. intros _ t Ht Hi. apply insideb_iff in Hi. rewrite (count_zero _ _ Z t Ht) in Hi. discriminate.
  - assert (Z : count_true (insideb q) o = 1%nat). { assert (inject_Z (Z.of_nat (count_true (insideb q) o)) == 1) by lra. unfold Qeq in H; cbn in H. lia. }
    split; [|tauto]. intros _. destruct (count_one _ _ Z) as (l1 & x & l2 & E1 & E2 & E3). exists l1, x, l2. split; [exact E1|]. split; [apply insideb_iff, E2|]. intros y Hy Hi. apply insideb_iff in Hi. rewrite (E3 y Hy) in Hi. discriminate.
  - exfalso. assert (inject_Z (Z.of_nat (count_true (insideb q) o)) == -1) by lra. unfold Qeq in H; cbn in H. lia.
  - assert (Z : count_true (insideb q) o = 0%nat). { assert (inject_Z (Z.of_nat (count_true (insideb q) o)) == 0) by lra. unfold Qeq in H; cbn in H. lia. }
    split; [tauto|]. intros _ t Ht Hi. apply insideb_iff in Hi. rewrite (count_zero _ _ Z t Ht) in Hi. discriminate.
Qed.
Lemma build_boundary {P} dbg (k : kind P) drop mono top bottom o : tri_build dbg k drop mono top bottom = Ok o -> same_boundary (map corners o) [polygon_of top bottom].
Proof.
  intros E f A. destruct (build_spec f dbg k drop mono top bottom o A E) as (m & top' & b' & mx & -> & -> & S & _).
  rewrite out_sum_edges, S. cbn [flat_map]. rewrite app_nil_r. unfold polygon_of.
  destruct (b' ++ [mx]) as [|b0 bt] eqn:Eb; [destruct b'; discriminate|].
  assert (L : last bt b0 = mx) by (rewrite <- (lastc m b0 bt), <- Eb; apply last_last).
  cbn [cycle_edges app]. rewrite path_psum, (psum_app f b0).
  assert (G : forall l a r, psum f a (l ++ r) == psum f a l + psum f (last l a) r).
  { clear. intros l. induction l as [|c l IH]; intros a r; cbn [app psum]; [cbn; ring|]. rewrite IH, lastc. ring. }
  rewrite (G bt b0), L, (psum_rev f m top' A), (psum_app f m top' mx). cbn [psum].
  assert (E2 : last (bt ++ rev (m :: top')) b0 = m). { cbn [rev]. rewrite app_assoc, last_last. reflexivity. }
  rewrite E2, (A (last top' m) mx). ring.
Qed.
Lemma build_area {P} dbg (k : kind P) drop mono top bottom o (pos : P -> qpoint2) : tri_build dbg k drop mono top bottom = Ok o ->
  fold_right (fun t s => double_area (map pos (corners t)) + s) 0 o == double_area (map pos (polygon_of top bottom)).
Proof.
  intros E. assert (A : forall a b, qcross2 (pos b) (pos a) == - qcross2 (pos a) (pos b)) by (intros a b; unfold qcross2; ring).
  pose proof (build_boundary _ _ _ _ _ _ _ E (fun a b => qcross2 (pos a) (pos b)) A) as B.
  assert (M : forall l : list P, double_area (map pos l) == edge_sum (fun a b => qcross2 (pos a) (pos b)) (cycle_edges l)).
  { intros l. unfold double_area. destruct l as [|a l]; [reflexivity|]. cbn [cycle_edges map app].
    rewrite !path_psum. change [pos a] with (map pos [a]). rewrite <- map_app. generalize (l ++ [a]). intros r. revert a. induction r as [|b r IH]; intros a; cbn [map psum]; [reflexivity|]. rewrite IH. reflexivity. }
  cbn [flat_map] in B. rewrite app_nil_r in B. rewrite M, <- B. clear B. induction o as [|t o' IH] using list_ind; [reflexivity|]. clear IH E.
  generalize (t :: o'). intros l. induction l as [|x l IH]; [reflexivity|]. cbn [fold_right map flat_map]. rewrite edge_sum_app, IH, M. reflexivity.
Qed.
Definition to_pos {P} (pos : P -> qpoint2) (t : triangle P) : triangle qpoint2 := map_triangle pos t.
Lemma out_sum_map {P} (f : qpoint2 -> qpoint2 -> Q) (pos : P -> qpoint2) o : out_sum (fun a b => f (pos a) (pos b)) o == out_sum f (map (map_triangle pos) o).
Proof. induction o as [|t o IH]; [reflexivity|]. cbn [map]. rewrite !out_sum_cons, IH. reflexivity. Qed.
Lemma psum_map {P} (f : qpoint2 -> qpoint2 -> Q) (pos : P -> qpoint2) a l : psum (fun a b => f (pos a) (pos b)) a l == psum f (pos a) (map pos l).
Proof. revert a. induction l as [|b l IH]; intros a; [reflexivity|]. cbn [map psum]. rewrite IH. reflexivity. Qed.
(** What Build returns for chains that do not cross. *)
Theorem build_tiles {P} (k : kind P) drop mono good pos (K : kind_ok k drop mono good pos) dbg m top bottom mx :
  chains_ok (map pos (m :: top ++ [mx])) (map pos (m :: bottom ++ [mx])) -> Forall good (m :: top ++ [mx]) -> Forall good (m :: bottom ++ [mx]) ->
  (1 <= length top + length bottom)%nat ->
  exists o, tri_build dbg k drop mono (m :: top) (bottom ++ [mx]) = Ok o /\ length o = (length top + length bottom)%nat /\
    Forall (fun t => 0 <= turn (t1 t) (t2 t) (t3 t)) (map (map_triangle pos) o) /\
    forall q, (forall t, In t (map (map_triangle pos) o) -> ~ on_border t q) ->
      (above (map pos (m :: bottom ++ [mx])) q /\ ~ above (map pos (m :: top ++ [mx])) q -> exactly_one (fun t => inside_triangle t q) (map (map_triangle pos) o)) /\
      (~ (above (map pos (m :: bottom ++ [mx])) q /\ ~ above (map pos (m :: top ++ [mx])) q) -> forall t, In t (map (map_triangle pos) o) -> ~ inside_triangle t q).
Proof.
  intros CO GT GB Len. destruct (build_geo k drop mono good pos K False _ _ CO GT GB ltac:(contradiction) dbg m top bottom mx eq_refl eq_refl Len) as (o & E & C).
  assert (C' : Forall (fun t => 0 <= turn (t1 t) (t2 t) (t3 t)) (map (map_triangle pos) o)). { apply Forall_map. eapply Forall_impl; [|exact C]. intros t Ht. exact (proj1 Ht). }
  exists o. split; [exact E|].
  assert (Ls : length o = (length top + length bottom)%nat).
  { destruct (build_spec (fun _ _ => 0) dbg k drop mono _ _ o ltac:(intros a b; reflexivity) E) as (_ & _ & _ & _ & _ & _ & _ & L). rewrite app_length in L. cbn [length] in L. lia. }
  split; [exact Ls|]. split; [exact C'|]. intros q Hq.
  assert (A : anti (fun a b => passes q (pos a) (pos b))) by (intros a b; apply passes_anti).
  destruct (build_spec _ dbg k drop mono _ _ o A E) as (m' & top' & b'' & mx' & E1 & E2 & S & _). injection E1 as <- <-. apply app_inj_tail in E2 as (<- & <-).
  rewrite (out_sum_map (passes q) pos o), (psum_map (passes q) pos m (bottom ++ [mx])), (psum_map (passes q) pos m (top ++ [mx])), !map_app in S. cbn [map] in S. cbn [map]. rewrite !map_app. cbn [map].
  pose proof (co_top _ _ CO) as RT. pose proof (co_bottom _ _ CO) as RB. cbn [map] in RT, RB. rewrite map_app in RT, RB.
  exact (tiles q (pos m) (map pos top) (map pos bottom ++ [pos mx]) (pos mx) _ RT RB S C' Hq).
Qed.
Lemma seen_turn drop mono a b c : turn (seen drop mono a) (seen drop mono b) (seen drop mono c) == turn (qdrop drop a) (qdrop drop b) (qdrop drop c).
Proof. unfold seen. destruct (Nat.eqb mono _); [reflexivity|]. unfold turn, qcross2, qsub2. cbn [qx2 qy2]. ring. Qed.
Lemma seen_x drop mono a : (drop < 3)%nat -> (mono < 3)%nat -> mono <> drop -> qx2 (seen drop mono a) = qcomp a mono.
Proof. intros H1 H2 H3. destruct drop as [|[|[|]]]; destruct mono as [|[|[|]]]; try lia; reflexivity. Qed.
Lemma qsign_lt q : (qsign q < 0)%Z <-> q < 0.
Proof. unfold qsign, Qlt. cbn. lia. Qed.
Lemma qsign_le q : (qsign q <= 0)%Z <-> q <= 0.
Proof. unfold qsign, Qle. cbn. lia. Qed.
Lemma kind_ok_point3 drop mono : (drop < 3)%nat -> (mono < 3)%nat -> mono <> drop -> kind_ok kind_point3 drop mono (fun _ => True) (fun p => seen drop mono (qpt p)).
Proof.
  intros H1 H2 H3. constructor.
  - intros a b _ _. rewrite !seen_x by assumption. cbn [kind_point3 k_compare]. assert (E : qcomp (qpt a) mono < qcomp (qpt b) mono <-> (comp a mono < comp b mono)%Z).
    { destruct mono as [|[|[|]]]; try lia; cbn [comp qcomp qpt qx qy qz]; rewrite <- Zlt_Qlt; reflexivity. }
    rewrite E. unfold zcompare. destruct (Z.compare_spec (comp a mono) (comp b mono)); lia.
  - intros c a b _ _ _. rewrite seen_turn, <- qsign_le, <- p3_twist_spec by exact H1. cbn [kind_point3 k_twist]. lia.
Qed.
Lemma hp_point_denotes p : hw p <> 0%Z -> denotes p (hp_point p).
Proof.
  intros H. assert (N : ~ inject_Z (hw p) == 0). { intros C. apply H. unfold Qeq in C. cbn in C. lia. }
  unfold denotes, hp_point. cbn [qx qy qz]. split; [exact H|]. repeat split; field; exact N.
Qed.
Lemma kind_ok_homo3 drop mono (s : Z) : (drop < 3)%nat -> (mono < 3)%nat -> mono <> drop -> kind_ok kind_homo3 drop mono (fun p => 0 < s * hw p)%Z (fun p => seen drop mono (hp_point p)).
Proof.
  intros H1 H2 H3. constructor.
  - intros a b Ga Gb. rewrite !seen_x by assumption. cbn [kind_homo3 k_compare].
    rewrite (hp_compare_comp_spec mono a b (hp_point a) (hp_point b)) by (apply hp_point_denotes; nia). rewrite qsign_lt. split; intros; lra.
  - intros c a b Gc Ga Gb. rewrite seen_turn, <- qsign_le. cbn [kind_homo3 k_twist].
    rewrite <- (hp_twist_spec drop c a b (hp_point c) (hp_point a) (hp_point b)); try (apply hp_point_denotes; nia); [lia|exact H1|nia].
Qed.
(** A test for concrete chains. *)
Definition chains_testb (top bottom : list qpoint2) : bool :=
  forallb (fun e => Qle_bool (qx2 (fst e)) (qx2 (snd e))) (path_edges top) && forallb (fun e => Qle_bool (qx2 (fst e)) (qx2 (snd e))) (path_edges bottom) &&
  forallb (fun e => forallb (fun c => negb (Qle_bool (qx2 (fst e)) (qx2 c)) || negb (Qle_bool (qx2 c) (qx2 (snd e))) || Qle_bool 0 (turn (fst e) (snd e) c)) top) (path_edges bottom) &&
  forallb (fun e => forallb (fun c => negb (Qle_bool (qx2 (fst e)) (qx2 c)) || negb (Qle_bool (qx2 c) (qx2 (snd e))) || Qle_bool (turn (fst e) (snd e) c) 0) bottom) (path_edges top).
Lemma chains_test top bottom : chains_testb top bottom = true -> chains_ok top bottom.
Proof.
  unfold chains_testb. rewrite !andb_true_iff, !forallb_forall. intros (((H1 & H2) & H3) & H4). constructor.
  - intros a b H. apply Qle_bool_iff. exact (H1 _ H).
  - intros a b H. apply Qle_bool_iff. exact (H2 _ H).
  - intros a b c H Hc X1 X2. specialize (H3 _ H). rewrite forallb_forall in H3. specialize (H3 c Hc). cbn [fst snd] in H3.
    apply Qle_bool_iff in X1, X2. rewrite X1, X2 in H3. cbn [negb orb] in H3. apply Qle_bool_iff. exact H3.
  - intros a b c H Hc X1 X2. specialize (H4 _ H). rewrite forallb_forall in H4. specialize (H4 c Hc). cbn [fst snd] in H4.
    apply Qle_bool_iff in X1, X2. rewrite X1, X2 in H4. cbn [negb orb] in H4. apply Qle_bool_iff. exact H4.
Qed.
