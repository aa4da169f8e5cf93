(** Proofs about GeoModel: orders on half-spaces, lines, Reduce. *)
From Coq Require Import ZArith QArith Qfield List Bool Lia Lqa ZifyBool.
From Verif Require Import BigUIntModel GeoModel GeoSpec GeoProofs GeoDirProofs GeoAngleProofs GeoPlaneProofs.
Import ListNotations.
Open Scope Z_scope.

(** ** HalfSpace2SidelessCompare *)
Lemma half_parallel u v : v2_half_rotation_lt u v = false -> v2_half_rotation_lt v u = false -> y2 u * x2 v = y2 v * x2 u.
Proof.
  rewrite !half_rotation_value. unfold zless_than. rewrite (xorb_comm (lower_b v)).
  destruct (xorb (lower_b u) (lower_b v)); lia.
Qed.
Lemma sideless_value h1 h2 : x2 (hn2 h1) <> 0 -> x2 (hn2 h2) <> 0 ->
  (hs2_sideless_lt h1 h2 = true <->
   v2_half_rotation_lt (hn2 h1) (hn2 h2) = true \/
   (v2_half_rotation_lt (hn2 h1) (hn2 h2) = false /\ v2_half_rotation_lt (hn2 h2) (hn2 h1) = false /\
    (inject_Z (hd2 h1) / inject_Z (x2 (hn2 h1)) < inject_Z (hd2 h2) / inject_Z (x2 (hn2 h2)))%Q)).
Proof.
  intros H1 H2. unfold hs2_sideless_lt.
  destruct (v2_half_rotation_lt (hn2 h1) (hn2 h2)) eqn:A; [tauto|].
  destruct (v2_half_rotation_lt (hn2 h2) (hn2 h1)) eqn:B; [intuition discriminate|].
  destruct (x2 (hn2 h1) =? 0) eqn:E; [lia|]. cbn [negb].
  rewrite <- rat_lt_spec by assumption. unfold rat_lt. rewrite !zget_sign_neg, zdiff_sign_spec. intuition congruence.
Qed.
(** Lexicographic product of a strict weak order and a key. *)
Lemma swo_lex {A} (P : A -> Prop) (lt : A -> A -> Prop) (key : A -> Q) : (forall a b, {lt a b} + {~ lt a b}) ->
  strict_weak_order P lt -> strict_weak_order P (fun a b => lt a b \/ (~ lt a b /\ ~ lt b a /\ (key a < key b)%Q)).
Proof.
  intros dec (I & T & E). split; [|split].
  - intros a Pa [H|(_ & _ & H)]; [apply (I a Pa H)|lra].
  - intros a b c Pa Pb Pc [H1|(N1 & N2 & K1)] [H2|(N3 & N4 & K2)].
    + left. apply (T a b c); assumption.
    + left. destruct (dec a c) as [L|L]; [exact L|]. exfalso. destruct (dec c a) as [L'|L'].
      * apply N4. apply (T c a b); assumption.
      * destruct (E a c b Pa Pc Pb L L' N4 N3). tauto.
    + left. destruct (dec a c) as [L|L]; [exact L|]. exfalso. destruct (dec c a) as [L'|L'].
      * apply N2. apply (T b c a); assumption.
      * destruct (E b a c Pb Pa Pc N2 N1 L L'). tauto.
    + right. destruct (E a b c Pa Pb Pc N1 N2 N3 N4). repeat split; try assumption. lra.
  - intros a b c Pa Pb Pc N1 N2 N3 N4.
    assert (X1 : ~ lt a b) by tauto. assert (X2 : ~ lt b a) by tauto. assert (X3 : ~ lt b c) by tauto. assert (X4 : ~ lt c b) by tauto.
    destruct (E a b c Pa Pb Pc X1 X2 X3 X4) as [X5 X6].
    assert (K1 : ~ (key a < key b)%Q) by tauto. assert (K2 : ~ (key b < key a)%Q) by tauto.
    assert (K3 : ~ (key b < key c)%Q) by tauto. assert (K4 : ~ (key c < key b)%Q) by tauto.
    assert (K5 : ~ (key a < key c)%Q) by lra. assert (K6 : ~ (key c < key a)%Q) by lra. tauto.
Qed.
Lemma sideless_swo : strict_weak_order (fun h => x2 (hn2 h) <> 0) (fun a b => hs2_sideless_lt a b = true).
Proof.
  pose proof (swo_lex (fun h => x2 (hn2 h) <> 0) (fun a b => v2_half_rotation_lt (hn2 a) (hn2 b) = true)
    (fun h => (inject_Z (hd2 h) / inject_Z (x2 (hn2 h)))%Q)) as L.
  specialize (L (fun a b => bool_dec (v2_half_rotation_lt (hn2 a) (hn2 b)) true)).
  specialize (L ltac:(apply (swo_pullback _ nonzero2 hn2 _ (fun u v => v2_half_rotation_lt u v = true) half_rotation_swo);
     [intros a Ha; left; exact Ha|intros; reflexivity])).
  apply (swo_pullback _ _ (fun h => h) _ _ L); [tauto|]. intros a b Ha Hb. rewrite sideless_value by assumption.
  rewrite <- !not_true_iff_false. tauto.
Qed.
(** On this domain equivalent half-spaces are those with the same line. *)
Lemma cross_mult a b c d : b <> 0 -> d <> 0 -> ((inject_Z a / inject_Z b == inject_Z c / inject_Z d)%Q <-> a * d = c * b).
Proof. intros H1 H2. rewrite <- rat_eq_spec by assumption. unfold rat_eq. apply Z.eqb_eq. Qed.
Lemma sideless_equiv h1 h2 : x2 (hn2 h1) <> 0 -> x2 (hn2 h2) <> 0 ->
  (hs2_sideless_lt h1 h2 = false /\ hs2_sideless_lt h2 h1 = false <-> parallel (l2d h1) (l2d h2)).
Proof.
  intros H1 H2. rewrite <- !not_true_iff_false, !sideless_value by assumption.
  destruct h1 as [[ax ay] ad], h2 as [[bx by_] bd]; unfold l2d in *; cbn [hn2 hd2 x2 y2] in *.
  rewrite <- (parallel_generic _ _ ax bx); [|reflexivity|cbn; auto|lia].
  cbn [List.map]. rewrite !cons_eq.
  pose proof (cross_mult ad ax bd bx H1 H2) as C.
  set (U := V2 ax ay) in *. set (V := V2 bx by_) in *.
  destruct (v2_half_rotation_lt U V) eqn:A, (v2_half_rotation_lt V U) eqn:B.
  - split; [intuition congruence|]. intros (X & Y & W & _). rewrite half_rotation_value in A. unfold zless_than, U, V in A; cbn [x2 y2] in A.
    destruct (xorb _ _) in A; lia.
  - split; [intuition congruence|]. intros (X & Y & W & _). rewrite half_rotation_value in A. unfold zless_than, U, V in A; cbn [x2 y2] in A.
    destruct (xorb _ _) in A; lia.
  - split; [intuition congruence|]. intros (X & Y & W & _). rewrite half_rotation_value in B. unfold zless_than, U, V in B; cbn [x2 y2] in B.
    destruct (xorb _ _) in B; lia.
  - pose proof (half_parallel U V A B) as P. unfold U, V in P; cbn [x2 y2] in P. split.
    + intros [N1 N2]. repeat split; try lia.
      assert (E : (inject_Z ad / inject_Z ax == inject_Z bd / inject_Z bx)%Q).
      { destruct (Q_dec (inject_Z ad / inject_Z ax) (inject_Z bd / inject_Z bx)) as [[L|L]|L]; [exfalso; tauto|exfalso; tauto|exact L]. }
      apply C in E. lia.
    + intros (X & Y & W & _). assert (E : ad * bx = bd * ax) by lia. apply C in E. split; intros [X'|(_ & _ & X')]; try discriminate X'; lra.
Qed.
Lemma sideless_symmetric h1 h2 : x2 (hn2 h1) = 0 -> x2 (hn2 h2) = 0 -> 0 < y2 (hn2 h1) -> y2 (hn2 h2) < 0 ->
  hs2_sideless_lt h1 h2 = hs2_sideless_lt h2 h1.
Proof.
  intros X1 X2 Y1 Y2. unfold hs2_sideless_lt. rewrite !half_rotation_value, X1, X2, !Z.mul_0_r.
  rewrite !zdiff_sign_spec. unfold zless_than. replace (0 <? 0) with false by reflexivity. 
  assert (F : forall b : bool, (if b then false else false) = false) by (intros []; reflexivity).
  rewrite !F. replace (0 =? 0) with true by reflexivity. cbn [negb].
  replace (y2 (hn2 h1) <? 0) with false by lia. replace (y2 (hn2 h2) <? 0) with true by lia. reflexivity.
Qed.

(** ** HalfSpace3Compare *)
Definition hs_key (i : nat) (h : hspace3) : Q :=
  (inject_Z (match i with O => vx (hn h) | 1%nat => vy (hn h) | 2%nat => vz (hn h) | _ => hd h end) / inject_Z (Z.abs (nsum h)))%Q.
Lemma hs_map_lt_total a b : nsum a <> - 2 ^ 63 -> nsum b <> - 2 ^ 63 -> exists r, hs_map_lt a b = Ok r.
Proof. unfold nsum, hs_map_lt. intros H1 H2. rewrite !zabs_ok by assumption. cbn [rbind]. eexists; reflexivity. Qed.
Lemma key_lt a b i : nsum a <> 0 -> nsum b <> 0 ->
  let c := fun h => match i with O => vx (hn h) | 1%nat => vy (hn h) | 2%nat => vz (hn h) | _ => hd h end in
  (c a * Z.abs (nsum b) < c b * Z.abs (nsum a) <-> (hs_key i a < hs_key i b)%Q).
Proof.
  intros Ha Hb c. unfold hs_key. fold (c a) (c b).
  pose proof (frac_sgn (c a) (Z.abs (nsum a)) (c b) (Z.abs (nsum b)) ltac:(lia) ltac:(lia)) as E.
  rewrite <- qsign_sub_gt. rewrite Z.sgn_mul, (Z.sgn_pos (Z.abs (nsum a))), (Z.sgn_pos (Z.abs (nsum b))) in E by lia.
  generalize dependent (qsign (inject_Z (c b) / inject_Z (Z.abs (nsum b)) - inject_Z (c a) / inject_Z (Z.abs (nsum a)))). intros s E.
  generalize dependent (c a * Z.abs (nsum b)); generalize dependent (c b * Z.abs (nsum a)); intros; lia.
Qed.
Definition key4_lt (a b : hspace3) : Prop :=
  (hs_key 0 a < hs_key 0 b \/ (hs_key 0 a == hs_key 0 b /\ (hs_key 1 a < hs_key 1 b \/ (hs_key 1 a == hs_key 1 b /\
   (hs_key 2 a < hs_key 2 b \/ (hs_key 2 a == hs_key 2 b /\ hs_key 3 a < hs_key 3 b))))))%Q.
Lemma hs_map_lt_spec a b r : nsum a <> 0 -> nsum b <> 0 -> hs_map_lt a b = Ok r -> (r = true <-> key4_lt a b).
Proof.
  intros Ha Hb H. unfold hs_map_lt in H. fold (nsum a) (nsum b) in H.
  destruct (zabs (nsum b)) eqn:A1; try discriminate H. cbn [rbind] in H.
  destruct (zabs (nsum a)) eqn:A2; try discriminate H. cbn [rbind] in H. apply zabs_inv in A1, A2. subst. injection H as <-.
  assert (L : forall i x y, nsum x <> 0 -> nsum y <> 0 ->
     let c := fun h => match i with O => vx (hn h) | 1%nat => vy (hn h) | 2%nat => vz (hn h) | _ => hd h end in
     ((c x * Z.abs (nsum y) <? c y * Z.abs (nsum x)) = true <-> (hs_key i x < hs_key i y)%Q)).
  { intros i x y Hx Hy c. rewrite Z.ltb_lt. apply key_lt; assumption. }
  unfold tuple4_lt, key4_lt.
  pose proof (L 0%nat a b Ha Hb) as L0. pose proof (L 0%nat b a Hb Ha) as L0'. cbn beta zeta match in L0, L0'.
  destruct (Q_dec (hs_key 0 a) (hs_key 0 b)) as [[K|K]|K].
  - apply L0 in K as K'. rewrite K'. tauto.
  - apply L0' in K as K'. rewrite (iff_false _ _ L0) by lra. rewrite K'. split; [discriminate|]. intros; lra.
  - rewrite (iff_false _ _ L0), (iff_false _ _ L0') by lra.
    pose proof (lex3_spec Z.ltb _ _ _ _ _ _ _ _ _ _ _ _ (L 1%nat a b Ha Hb) (L 1%nat b a Hb Ha) (L 2%nat a b Ha Hb) (L 2%nat b a Hb Ha) (L 3%nat a b Ha Hb)) as X.
    unfold lex3 in X. rewrite X.
    split; [intros; right; split; [exact K|assumption]|]. intros [C|[_ C]]; [lra|exact C].
Qed.
Lemma key4_swo P : strict_weak_order P key4_lt.
Proof.
  unfold key4_lt. split; [|split].
  - intros a _ H. lra.
  - intros a b c _ _ _ H1 H2. generalize dependent (hs_key 0 a); generalize dependent (hs_key 0 b); generalize dependent (hs_key 0 c).
    generalize dependent (hs_key 1 a); generalize dependent (hs_key 1 b); generalize dependent (hs_key 1 c).
    generalize dependent (hs_key 2 a); generalize dependent (hs_key 2 b); generalize dependent (hs_key 2 c).
    generalize dependent (hs_key 3 a); generalize dependent (hs_key 3 b); generalize dependent (hs_key 3 c). clear. intros.
    destruct H1 as [H1|[H1 [H1'|[H1' [H1''|[H1'' H1''']]]]]]; destruct H2 as [H2|[H2 [H2'|[H2' [H2''|[H2'' H2''']]]]]];
    first [left; lra|right; split; [lra|]; first [left; lra|right; split; [lra|]; first [left; lra|right; split; lra]]].
  - intros a b c _ _ _.
    assert (D : forall x y, ~ key4_lt x y -> ~ key4_lt y x -> forall i, (i < 4)%nat -> (hs_key i x == hs_key i y)%Q).
    { unfold key4_lt. intros x y N1 N2.
      assert (E0 : (hs_key 0 x == hs_key 0 y)%Q) by (destruct (Q_dec (hs_key 0 x) (hs_key 0 y)) as [[L|L]|L]; [exfalso; apply N1; lra|exfalso; apply N2; lra|exact L]).
      assert (E1 : (hs_key 1 x == hs_key 1 y)%Q) by (destruct (Q_dec (hs_key 1 x) (hs_key 1 y)) as [[L|L]|L]; [exfalso; apply N1; right; split; [lra|]; lra|exfalso; apply N2; right; split; [lra|]; lra|exact L]).
      assert (E2 : (hs_key 2 x == hs_key 2 y)%Q) by (destruct (Q_dec (hs_key 2 x) (hs_key 2 y)) as [[L|L]|L]; [exfalso; apply N1; right; split; [lra|]; right; split; [lra|]; lra|exfalso; apply N2; right; split; [lra|]; right; split; [lra|]; lra|exact L]).
      assert (E3 : (hs_key 3 x == hs_key 3 y)%Q) by (destruct (Q_dec (hs_key 3 x) (hs_key 3 y)) as [[L|L]|L]; [exfalso; apply N1; right; split; [lra|]; right; split; [lra|]; right; split; lra|exfalso; apply N2; right; split; [lra|]; right; split; [lra|]; right; split; lra|exact L]).
      intros i Hi. destruct i as [|[|[|[|i]]]]; [assumption..|lia]. }
    intros N1 N2 N3 N4. pose proof (D a b N1 N2) as E. pose proof (D b c N3 N4) as F.
    pose proof (E 0%nat ltac:(lia)). pose proof (E 1%nat ltac:(lia)). pose proof (E 2%nat ltac:(lia)). pose proof (E 3%nat ltac:(lia)).
    pose proof (F 0%nat ltac:(lia)). pose proof (F 1%nat ltac:(lia)). pose proof (F 2%nat ltac:(lia)). pose proof (F 3%nat ltac:(lia)).
    split; intros X; destruct X as [X|[X [X'|[X' [X''|[X'' X''']]]]]]; lra.
Qed.
Definition map_lt_prop (a b : hspace3) : Prop := hs_map_lt a b = Ok true.
Lemma map_lt_prop_key a b : map_domain a -> map_domain b -> (map_lt_prop a b <-> key4_lt a b).
Proof.
  intros [Ha Ha'] [Hb Hb']. unfold map_lt_prop. destruct (hs_map_lt_total a b Ha' Hb') as [r Hr].
  rewrite <- (hs_map_lt_spec a b r Ha Hb Hr). rewrite Hr. split; [intros E; injection E; auto|intros ->; reflexivity].
Qed.
Lemma map_lt_swo : strict_weak_order map_domain map_lt_prop.
Proof.
  apply (swo_pullback map_domain (fun _ => True) (fun h => h) _ key4_lt (key4_swo _)); [auto|]. apply map_lt_prop_key.
Qed.
Lemma map_lt_equiv a b : map_domain a -> map_domain b ->
  (hs_map_lt a b = Ok false /\ hs_map_lt b a = Ok false <-> same_direction (l4 a) (l4 b)).
Proof.
  intros [Ha Ha'] [Hb Hb'].
  unfold hs_map_lt. fold (nsum a) (nsum b). rewrite !zabs_ok by assumption. cbn [rbind].
  assert (T : forall p1 p2 p3 p4 q1 q2 q3 q4, tuple4_lt (p1, p2, p3, p4) (q1, q2, q3, q4) = false /\ tuple4_lt (q1, q2, q3, q4) (p1, p2, p3, p4) = false
     <-> p1 = q1 /\ p2 = q2 /\ p3 = q3 /\ p4 = q4).
  { clear. intros. unfold tuple4_lt, lex3, lex2; cbn [fst snd].
    destruct (p1 <? q1) eqn:A1, (q1 <? p1) eqn:B1; try lia. destruct (p2 <? q2) eqn:A2, (q2 <? p2) eqn:B2; try lia.
    destruct (p3 <? q3) eqn:A3, (q3 <? p3) eqn:B3; try lia. }
  assert (I : forall x y : bool, (Ok x = Ok y) <-> x = y) by (intros; split; congruence).
  rewrite !I, T. clear T I. destruct a as [[ax ay az] ad], b as [[bx by_ bz] bd]; unfold l4, nsum in *; cbn [hn hd vx vy vz] in *.
  set (sa := ax + ay + az) in *. set (sb := bx + by_ + bz) in *. split.
  - intros (A & B & C & D). exists (Z.abs sb), (Z.abs sa). cbn [List.map]. rewrite !cons_eq. repeat split; lia.
  - intros (s & t & Hs & Ht & Hst & M). cbn [List.map] in M. rewrite !cons_eq in M. destruct M as (M1 & M2 & M3 & M4 & _).
    assert (MS : s * sa = t * sb) by (unfold sa, sb; lia).
    repeat split; apply (dir_pos_step s t sa sb); assumption.
Qed.
Lemma map_lt_degenerate a b : nsum a = 0 -> nsum b = 0 -> hs_map_lt a b = Ok false.
Proof.
  unfold nsum, hs_map_lt. intros -> ->. rewrite zabs_ok by discriminate. cbn [rbind Z.abs]. rewrite !Z.mul_0_r. reflexivity.
Qed.
(** ** Compare with a parallel plane *)
Lemma hs_compare_parallel_spec h p i q : (i < 3)%nat -> comp (hn h) i <> 0 -> comp (hn p) i <> 0 ->
  parallel (l3 (hn h)) (l3 (hn p)) -> (side p q == 0)%Q -> hs_compare_parallel h p i = - qsign (side h q).
Proof.
  intros Hi Hh Hp (s & t & Hst & M) Hq. unfold hs_compare_parallel. rewrite zcompare_sgn, zabs_mult_sgn by exact Hp.
  assert (C : forall j, s * comp (hn h) j = t * comp (hn p) j).
  { unfold l3 in M; cbn [List.map] in M. rewrite !cons_eq in M. destruct M as (A & B & D & _). intros [|[|j]]; cbn [comp]; assumption. }
  clear M. assert (Hs : s <> 0) by (intros ->; specialize (C i); nia). assert (Ht : t <> 0) by (intros ->; specialize (C i); nia).
  assert (S : (inject_Z s * (side h q + inject_Z (hd h)) == inject_Z t * inject_Z (hd p))%Q).
  { unfold side, qdot, qpt in *; cbn [qx qy qz] in *.
    assert (P0 := C 0%nat). assert (P1 := C 1%nat). assert (P2 := C 2%nat). cbn [comp] in P0, P1, P2.
    assert (Q0 : (inject_Z s * inject_Z (vx (hn h)) == inject_Z t * inject_Z (vx (hn p)))%Q) by (rewrite <- !inject_Z_mult, P0; reflexivity).
    assert (Q1 : (inject_Z s * inject_Z (vy (hn h)) == inject_Z t * inject_Z (vy (hn p)))%Q) by (rewrite <- !inject_Z_mult, P1; reflexivity).
    assert (Q2 : (inject_Z s * inject_Z (vz (hn h)) == inject_Z t * inject_Z (vz (hn p)))%Q) by (rewrite <- !inject_Z_mult, P2; reflexivity).
    transitivity ((inject_Z s * inject_Z (vx (hn h))) * qx q + (inject_Z s * inject_Z (vy (hn h))) * qy q + (inject_Z s * inject_Z (vz (hn h))) * qz q)%Q; [ring|].
    rewrite Q0, Q1, Q2. transitivity (inject_Z t * (inject_Z (vx (hn p)) * qx q + inject_Z (vy (hn p)) * qy q + inject_Z (vz (hn p)) * qz q - inject_Z (hd p)) + inject_Z t * inject_Z (hd p))%Q; [ring|].
    rewrite Hq. ring. }
  (* e * s = (d_h n_pi - d_p n_hi) s ; multiply by t and use the proportions *)
  set (e := hd h * comp (hn p) i - hd p * comp (hn h) i).
  assert (E : Z.sgn (e * t) = qsign (- side h q) * Z.sgn (s * comp (hn h) i)).
  { apply sgn_of_q. unfold e. specialize (C i). apply (f_equal inject_Z) in C. rewrite !inject_Z_mult in C.
    qpush. transitivity (inject_Z (hd h) * (inject_Z t * inject_Z (comp (hn p) i)) - (inject_Z t * inject_Z (hd p)) * inject_Z (comp (hn h) i))%Q; [ring|].
    rewrite <- C, <- S. ring. }
  rewrite !Z.sgn_mul in E. pose proof (f_equal Z.sgn (C i)) as CC. rewrite !Z.sgn_mul in CC. rewrite CC in E.
  assert (O : qsign (- side h q) = - qsign (side h q)).
  { unfold qsign. destruct (side h q) as [a b]; cbn [Qopp Qnum]. lia. }
  rewrite O in E. destruct (sgn_pm _ Ht) as [Ut|Ut], (sgn_pm _ Hp) as [Up|Up]; rewrite Ut, Up in *; lia.
Qed.
