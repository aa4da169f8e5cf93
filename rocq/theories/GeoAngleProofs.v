(** Proofs about GeoModel: angle comparisons. *)
From Coq Require Import ZArith QArith Qfield List Bool Lia Lqa ZifyBool.
From Verif Require Import BigUIntModel GeoModel GeoSpec GeoProofs GeoDirProofs.
Import ListNotations.
Open Scope Z_scope.

Lemma upper_dec v : x2 v <> 0 \/ y2 v <> 0 -> upper v \/ upper (opposite v).
Proof. unfold upper, opposite; cbn [x2 y2]. lia. Qed.
Lemma upper_not_both v : upper v -> upper (opposite v) -> False.
Proof. unfold upper, opposite; cbn [x2 y2]. lia. Qed.
Lemma normalized_exists v : x2 v <> 0 \/ y2 v <> 0 -> exists n, normalized v n.
Proof. intros H. destruct (upper_dec v H); [exists v|exists (opposite v)]; unfold normalized; auto. Qed.
Lemma opposite_opposite v : opposite (opposite v) = v.
Proof. destruct v as [a b]; unfold opposite; cbn [x2 y2]. f_equal; lia. Qed.
Lemma normalized_unique v n m : normalized v n -> normalized v m -> n = m.
Proof.
  intros [Hn [->| ->]] [Hm [->| ->]]; try reflexivity; exfalso;
  match goal with H1 : upper ?a, H2 : upper (opposite ?a) |- _ => exact (upper_not_both a H1 H2) end.
Qed.
Lemma cot_lt u v : 0 < y2 u -> 0 < y2 v -> ((cot v < cot u)%Q <-> x2 v * y2 u < x2 u * y2 v).
Proof.
  intros Hu Hv. unfold cot.
  pose proof (frac_sgn (x2 v) (y2 v) (x2 u) (y2 u)) as E. rewrite <- qsign_sub_gt.
  specialize (E ltac:(lia) ltac:(lia)). rewrite Z.sgn_mul, (Z.sgn_pos (y2 u)), (Z.sgn_pos (y2 v)) in E by assumption.
  generalize dependent (qsign (inject_Z (x2 u) / inject_Z (y2 u) - inject_Z (x2 v) / inject_Z (y2 v))). intros s E. lia.
Qed.
(** Integer form of the angle order on the upper half plane. *)
Lemma upper_angle_lt_cross u v : upper u -> upper v -> (upper_angle_lt u v <-> y2 u * x2 v < y2 v * x2 u).
Proof.
  intros Hu Hv. unfold upper_angle_lt. split.
  - intros [[A B]|(A & B & C)]; [|apply cot_lt in C; lia].
    destruct Hu as [Hu|[_ Hu]]; nia.
  - intros H. destruct Hu as [Hu|[Hu Hu']], Hv as [Hv|[Hv Hv']].
    + right. rewrite cot_lt by assumption. lia.
    + exfalso. nia.
    + left. split; assumption.
    + exfalso. nia.
Qed.
(** The sign test of IsHalfRotationLessThan. *)
Definition lower_b (v : vec2) : bool := (y2 v <? 0) || ((y2 v =? 0) && (x2 v <? 0)).
Lemma adjust_sign x y : (zget_sign y - (if (0 <=? zget_sign y) && (zget_sign x <? 0) then 1 else 0) <? 0) = lower_b (V2 x y).
Proof.
  rewrite zget_sign_nonneg, zget_sign_neg. unfold lower_b; cbn [x2 y2]. pose proof (zget_sign_sgn y).
  destruct (0 <=? y) eqn:A, (x <? 0) eqn:B, (y <? 0) eqn:C, (y =? 0) eqn:D; cbn [andb orb]; lia.
Qed.
Lemma half_rotation_value u v : v2_half_rotation_lt u v =
  zless_than (xorb (lower_b u) (lower_b v)) (y2 u * x2 v) (y2 v * x2 u).
Proof.
  destruct u as [ux uy], v as [wx wy]. unfold v2_half_rotation_lt, half_rotation_lt. cbn [x2 y2].
  rewrite lxor_neg, !adjust_sign. reflexivity.
Qed.
Lemma lower_upper v : lower_b v = true -> upper (opposite v).
Proof. unfold lower_b, upper, opposite; cbn [x2 y2]. lia. Qed.
Lemma not_lower_upper v : lower_b v = false -> x2 v <> 0 \/ y2 v <> 0 -> upper v.
Proof. unfold lower_b, upper. lia. Qed.
Definition norm (v : vec2) : vec2 := if lower_b v then opposite v else v.
Lemma norm_normalized v : x2 v <> 0 \/ y2 v <> 0 -> normalized v (norm v).
Proof.
  intros H. unfold norm, normalized. destruct (lower_b v) eqn:E; split; auto; [apply lower_upper; exact E|apply not_lower_upper; assumption].
Qed.
Lemma half_rotation_norm u v : v2_half_rotation_lt u v = (y2 (norm u) * x2 (norm v) <? y2 (norm v) * x2 (norm u)).
Proof.
  rewrite half_rotation_value. unfold norm, zless_than, opposite.
  destruct (lower_b u), (lower_b v); cbn [xorb x2 y2]; lia.
Qed.
Lemma half_rotation_spec u v nu nv : normalized u nu -> normalized v nv ->
  (v2_half_rotation_lt u v = true <-> upper_angle_lt nu nv).
Proof.
  intros Hu Hv.
  assert (Nu : x2 u <> 0 \/ y2 u <> 0). { destruct Hu as [Hu [->| ->]]; unfold upper, opposite in Hu; cbn [x2 y2] in Hu; lia. }
  assert (Nv : x2 v <> 0 \/ y2 v <> 0). { destruct Hv as [Hv [->| ->]]; unfold upper, opposite in Hv; cbn [x2 y2] in Hv; lia. }
  rewrite (normalized_unique _ _ _ Hu (norm_normalized u Nu)), (normalized_unique _ _ _ Hv (norm_normalized v Nv)).
  rewrite half_rotation_norm, Z.ltb_lt.
  rewrite upper_angle_lt_cross; [reflexivity| |]; apply norm_normalized; assumption.
Qed.
(** Angles of upper vectors form a strict weak order. *)
Lemma upper_angle_swo : strict_weak_order upper upper_angle_lt.
Proof.
  unfold strict_weak_order, upper_angle_lt. split; [|split].
  - intros a Ha [[A B]|(A & B & C)]; [lia|lra].
  - intros a b c Ha Hb Hc [[A B]|(A & B & C)] [[A' B']|(A' & B' & C')]; try lia.
    right. repeat split; try assumption. lra.
  - intros a b c Ha Hb Hc N1 N2 N3 N4.
    assert (D : forall u v, upper u -> upper v -> ~ ((y2 u = 0 /\ 0 < y2 v) \/ (0 < y2 u /\ 0 < y2 v /\ (cot v < cot u)%Q)) ->
       ~ ((y2 v = 0 /\ 0 < y2 u) \/ (0 < y2 v /\ 0 < y2 u /\ (cot u < cot v)%Q)) ->
       (y2 u = 0 /\ y2 v = 0) \/ (0 < y2 u /\ 0 < y2 v /\ (cot u == cot v)%Q)).
    { intros u v Hu Hv M1 M2. destruct Hu as [Hu|[Hu Hu']], Hv as [Hv|[Hv Hv']].
      - right. repeat split; try assumption. destruct (Q_dec (cot u) (cot v)) as [[L|L]|L]; [exfalso; apply M2|exfalso; apply M1|exact L]; right; auto.
      - exfalso. apply M2. left. auto.
      - exfalso. apply M1. left. auto.
      - left. auto. }
    destruct (D a b Ha Hb N1 N2) as [[A B]|(A & B & C)], (D b c Hb Hc N3 N4) as [[A' B']|(A' & B' & C')]; try (exfalso; clear -A B A' B'; lia).
    + split; intros [[X Y]|(X & Y & W)]; clear -A B A' B' X Y; lia.
    + split; intros [[X Y]|(X & Y & W)]; try (clear -A B A' B' X Y; lia); lra.
Qed.
Lemma swo_pullback {A B} (P : A -> Prop) (R : B -> Prop) (f : A -> B) (lt : A -> A -> Prop) (lt' : B -> B -> Prop) :
  strict_weak_order R lt' -> (forall a, P a -> R (f a)) -> (forall a b, P a -> P b -> (lt a b <-> lt' (f a) (f b))) ->
  strict_weak_order P lt.
Proof.
  intros (I & T & E) HP H. split; [|split].
  - intros a Pa L. apply H in L; auto. apply (I (f a)); auto.
  - intros a b c Pa Pb Pc L1 L2. apply H in L1, L2; auto. apply H; auto. apply (T _ (f b)); auto.
  - intros a b c Pa Pb Pc N1 N2 N3 N4. rewrite H in N1, N2, N3, N4 by auto.
    destruct (E (f a) (f b) (f c) (HP _ Pa) (HP _ Pb) (HP _ Pc) N1 N2 N3 N4) as [X Y]. rewrite !H by auto. auto.
Qed.
Lemma half_rotation_swo : strict_weak_order nonzero2 (fun u v => v2_half_rotation_lt u v = true).
Proof.
  apply (swo_pullback nonzero2 upper norm _ upper_angle_lt upper_angle_swo).
  - intros a Ha. apply norm_normalized. exact Ha.
  - intros a b Ha Hb. apply half_rotation_spec; apply norm_normalized; assumption.
Qed.
Lemma lower_scale v k : k <> 0 -> lower_b (v2_scale v k) = if v2_is_zero v then false else xorb (k <? 0) (lower_b v).
Proof.
  intros H. unfold lower_b, v2_scale, v2_is_zero; cbn [x2 y2].
  destruct (k <? 0) eqn:K; destruct (y2 v <? 0) eqn:Y; destruct (y2 v =? 0) eqn:Y0; destruct (x2 v <? 0) eqn:X; destruct (x2 v =? 0) eqn:X0;
  cbn [andb orb xorb negb]; try lia; nia.
Qed.
Lemma half_rotation_scale u v k m : k <> 0 -> m <> 0 ->
  v2_half_rotation_lt (v2_scale u k) (v2_scale v m) = v2_half_rotation_lt u v.
Proof.
  intros Hk Hm. rewrite !half_rotation_value.
  unfold v2_is_zero. rewrite !lower_scale by assumption. unfold v2_is_zero.
  destruct ((x2 u =? 0) && (y2 u =? 0)) eqn:ZU.
  { assert (X : x2 u = 0 /\ y2 u = 0) by lia. destruct X as [X Y]. unfold v2_scale, zless_than; cbn [x2 y2]. rewrite X, Y.
    destruct (xorb _ _), (xorb _ _); lia. }
  destruct ((x2 v =? 0) && (y2 v =? 0)) eqn:ZV.
  { assert (X : x2 v = 0 /\ y2 v = 0) by lia. destruct X as [X Y]. unfold v2_scale, zless_than; cbn [x2 y2]. rewrite X, Y.
    destruct (xorb _ _), (xorb _ _); lia. }
  unfold v2_scale, zless_than; cbn [x2 y2].
  replace (y2 u * k * (x2 v * m)) with (y2 u * x2 v * (k * m)) by ring.
  replace (y2 v * m * (x2 u * k)) with (y2 v * x2 u * (k * m)) by ring.
  generalize (y2 u * x2 v) (y2 v * x2 u). intros p q. generalize (lower_b u) (lower_b v). intros bu bv.
  assert (KM : (k * m <? 0) = xorb (k <? 0) (m <? 0)) by (destruct (k <? 0) eqn:A, (m <? 0) eqn:B; cbn [xorb]; nia).
  assert (KM0 : k * m <> 0) by nia.
  replace (xorb (xorb (k <? 0) bu) (xorb (m <? 0) bv)) with (xorb (k * m <? 0) (xorb bu bv)) by (rewrite KM; destruct (k <? 0), (m <? 0), bu, bv; reflexivity).
  generalize dependent (k * m). intros r _ Hr. destruct (xorb bu bv), (r <? 0) eqn:R; cbn [xorb];
  match goal with |- (?x <? ?y) = (?z <? ?w) => destruct (x <? y) eqn:E1, (z <? w) eqn:E2; nia end.
Qed.
(** ** Full rotation *)
Lemma rotation_value u v : v2_rotation_lt u v = true <->
  (let q := fun w => if y2 w <? 0 then (if x2 w <? 0 then 2 else 3) else (if x2 w <? 0 then 1 else 0) in
   q u < q v \/ (q u = q v /\ y2 u * x2 v < y2 v * x2 u)).
Proof.
  unfold v2_rotation_lt. rewrite !zget_sign_neg. cbv zeta.
  destruct (y2 u <? 0), (x2 u <? 0), (y2 v <? 0), (x2 v <? 0); cbn; rewrite ?Z.ltb_lt; lia.
Qed.
Lemma rotation_spec u v : nonzero2 u -> nonzero2 v -> (v2_rotation_lt u v = true <-> rotation_lt u v).
Proof.
  intros Hu Hv. rewrite rotation_value. cbv zeta. unfold rotation_lt.
  assert (UU : upper u -> upper v -> (upper_angle_lt u v <-> y2 u * x2 v < y2 v * x2 u)) by apply upper_angle_lt_cross.
  assert (LL : upper (opposite u) -> upper (opposite v) -> (upper_angle_lt (opposite u) (opposite v) <-> y2 u * x2 v < y2 v * x2 u)).
  { intros A B. rewrite upper_angle_lt_cross by assumption. unfold opposite; cbn [x2 y2]. lia. }
  destruct (upper_dec u Hu) as [U|U], (upper_dec v Hv) as [V|V].
  - rewrite <- (UU U V) in *. pose proof (upper_not_both u U) as NU. pose proof (upper_not_both v V) as NV.
    assert (R : (upper u /\ upper (opposite v)) \/ (upper u /\ upper v /\ upper_angle_lt u v) \/ (upper (opposite u) /\ upper (opposite v) /\ upper_angle_lt (opposite u) (opposite v)) <-> upper_angle_lt u v) by tauto.
    rewrite R, (UU U V). unfold upper in U, V.
    destruct (y2 u <? 0) eqn:A, (x2 u <? 0) eqn:B, (y2 v <? 0) eqn:C, (x2 v <? 0) eqn:D; try (exfalso; lia); try lia; nia.
  - assert (R : upper u /\ upper (opposite v)) by tauto. split; [tauto|]. intros _. unfold upper, opposite in U, V; cbn [x2 y2] in V. clear UU LL R.
    destruct (y2 u <? 0) eqn:A, (x2 u <? 0) eqn:B, (y2 v <? 0) eqn:C, (x2 v <? 0) eqn:D; try (exfalso; lia); try lia; nia.
  - pose proof (upper_not_both v V) as NV. assert (NU : ~ upper u) by (intros X; apply (upper_not_both u); assumption).
    split; [|tauto]. intros H. exfalso. clear UU LL. unfold upper, opposite in U, V, NU; cbn [x2 y2] in U.
    destruct (y2 u <? 0) eqn:A, (x2 u <? 0) eqn:B, (y2 v <? 0) eqn:C, (x2 v <? 0) eqn:D; try lia; nia.
  - assert (NU : ~ upper u) by (intros X; apply (upper_not_both u); assumption).
    assert (NV : ~ upper v) by (intros X; apply (upper_not_both v); assumption).
    assert (R : (upper u /\ upper (opposite v)) \/ (upper u /\ upper v /\ upper_angle_lt u v) \/ (upper (opposite u) /\ upper (opposite v) /\ upper_angle_lt (opposite u) (opposite v)) <-> upper_angle_lt (opposite u) (opposite v)) by tauto.
    rewrite R, (LL U V). clear -U V Hu Hv. unfold upper, opposite in U, V; cbn [x2 y2] in U, V.
    destruct (y2 u <? 0) eqn:A, (x2 u <? 0) eqn:B, (y2 v <? 0) eqn:C, (x2 v <? 0) eqn:D; try (exfalso; lia); try lia; nia.
Qed.
