(** Area and centroid. *)
From Coq Require Import List ZArith QArith Lqa Lia Arith ZifyBool.
From Verif Require Import BigUIntModel GeoModel GeoSpec GeoProofs GeoPlaneProofs CvxSpec CvxProofs PolyModel PolySpec PolyOpsModel PolyBridgeProofs PolyCapProofs AreaSpec.
Import ListNotations.
Open Scope Q_scope.
(** ** Sums over the sides *)
(** Over the steps of a path that starts at a. *)
Fixpoint path_sum {B} (f : B -> B -> Q) (a : B) (r : list B) : Q := match r with [] => 0 | b :: r => f a b + path_sum f b r end.
Lemma last_cons {B} (a b : B) r : last (b :: r) a = last r b.
Proof. revert a b. induction r as [|c r IH]; intros a b; [reflexivity|]. change (last (b :: c :: r) a) with (last (c :: r) a). rewrite (IH a c), (IH b c). reflexivity. Qed.
Lemma sides_path {B} (f : B -> B -> Q) a r : qsum (map (fun s => f (fst s) (snd s)) (sides (a :: r))) == path_sum f a r + f (last r a) a.
Proof.
  cbn [sides]. assert (G : forall x, qsum (map (fun s => f (fst s) (snd s)) (combine (x :: r) (r ++ [a]))) == path_sum f x r + f (last r x) a); [|apply G].
  induction r as [|b r IH]; intros x.
  - cbn. ring.
  - change (combine (x :: b :: r) ((b :: r) ++ [a])) with ((x, b) :: combine (b :: r) (r ++ [a])). cbn [map]. cbn [qsum fold_right fst snd path_sum].
    change (f x b + qsum (map (fun s => f (fst s) (snd s)) (combine (b :: r) (r ++ [a]))) == f x b + path_sum f b r + f (last (b :: r) x) a). rewrite IH, last_cons. ring.
Qed.
Lemma path_shift {B} (f f' : B -> B -> Q) (g : B -> Q) : (forall a b, f' a b == f a b + g a - g b) -> forall r a, path_sum f' a r == path_sum f a r + g a - g (last r a).
Proof.
  intros E. induction r as [|b r IH]; intros a; [cbn; ring|]. cbn [path_sum]. rewrite last_cons, IH, E. ring.
Qed.
(** Terms that cancel around the polygon do not matter. *)
Lemma sides_shift {B} (f f' : B -> B -> Q) (g : B -> Q) l : (forall a b, f' a b == f a b + g a - g b) -> qsum (map (fun s => f' (fst s) (snd s)) (sides l)) == qsum (map (fun s => f (fst s) (snd s)) (sides l)).
Proof.
  intros E. destruct l as [|a r]; [reflexivity|]. rewrite !sides_path, (path_shift f f' g E), E. ring.
Qed.
Lemma sides_ext {B} (f f' : B -> B -> Q) l : (forall a b, f' a b == f a b) -> qsum (map (fun s => f' (fst s) (snd s)) (sides l)) == qsum (map (fun s => f (fst s) (snd s)) (sides l)).
Proof. intros E. apply (sides_shift f f' (fun _ => 0)). intros a b. rewrite E. ring. Qed.
(** The area and the moment do not depend on the apex of the fan. *)
Definition cross0 (a b : qpoint2) : Q := qx2 a * qy2 b - qx2 b * qy2 a.
Lemma fan_area_any o l : fan_area o l == qsum (map (fun s => cross0 (fst s) (snd s) / 2) (sides l)).
Proof.
  unfold fan_area. apply (sides_shift (fun a b => cross0 a b / 2) (tri_area o) (fun a => (qx2 o * qy2 a - qy2 o * qx2 a) / 2)). intros a b.
  unfold tri_area, turn, qcross2, qsub2, cross0. cbn [qx2 qy2]. field.
Qed.
Lemma fan_moment_any o l : qx2 (fan_moment o l) == qsum (map (fun s => cross0 (fst s) (snd s) * (qx2 (fst s) + qx2 (snd s)) / 6) (sides l)) /\
  qy2 (fan_moment o l) == qsum (map (fun s => cross0 (fst s) (snd s) * (qy2 (fst s) + qy2 (snd s)) / 6) (sides l)).
Proof.
  unfold fan_moment. cbn [qx2 qy2]. split.
  - apply (sides_shift (fun a b => cross0 a b * (qx2 a + qx2 b) / 6) (fun a b => tri_area o a b * qx2 (tri_center o a b)) (fun a => cross0 o a * (qx2 o + qx2 a) / 6)). intros a b.
    unfold tri_area, turn, qcross2, qsub2, tri_center, cross0. cbn [qx2 qy2]. field.
  - apply (sides_shift (fun a b => cross0 a b * (qy2 a + qy2 b) / 6) (fun a b => tri_area o a b * qy2 (tri_center o a b)) (fun a => cross0 o a * (qy2 o + qy2 a) / 6)). intros a b.
    unfold tri_area, turn, qcross2, qsub2, tri_center, cross0. cbn [qx2 qy2]. field.
Qed.
(** ** The loops *)
Lemma zdivide_exact a b q : (b | a)%Z -> zdivide a b = Ok q -> a = (q * b)%Z /\ b <> 0%Z.
Proof.
  intros [k ->] E. unfold zdivide, zdiv_rem in E. destruct (b =? 0)%Z eqn:B; [discriminate|]. apply Z.eqb_neq in B. destruct ((k * b =? - 2 ^ 63)%Z && (b =? -1)%Z); [discriminate|].
  cbn in E. injection E as <-. rewrite Z.quot_mul by exact B. split; [reflexivity|exact B].
Qed.
Lemma gcd_step gcd den w g nc tc : gcd_ok gcd -> gcd den w = Ok g -> zdivide w g = Ok nc -> zdivide den g = Ok tc -> w = (nc * g)%Z /\ den = (tc * g)%Z /\ g <> 0%Z.
Proof.
  intros [G _] E E1 E2. apply G in E. assert (D1 : (g | w)%Z) by (apply Z.divide_abs_l; rewrite E; apply Z.gcd_divide_r). assert (D2 : (g | den)%Z) by (apply Z.divide_abs_l; rewrite E; apply Z.gcd_divide_l).
  destruct (zdivide_exact _ _ _ D1 E1) as [W N]. destruct (zdivide_exact _ _ _ D2 E2) as [V _]. repeat split; assumption.
Qed.
Lemma after_drop v q d : (d < 3)%nat -> denotes v q -> inject_Z (hp_after_drop v 0 d) == qx2 (qdrop d q) * inject_Z (hw v) /\ inject_Z (hp_after_drop v 1 d) == qy2 (qdrop d q) * inject_Z (hw v).
Proof.
  intros L (_ & X & Y & Z). unfold hp_after_drop, comp_after_drop. destruct d as [|[|[|d]]]; [| | |lia]; cbn [Nat.add Nat.modulo Nat.divmod Nat.sub fst snd comp qdrop qx2 qy2]; split; assumption.
Qed.
Lemma cross_term_q v q w r d : (d < 3)%nat -> denotes v q -> denotes w r -> inject_Z (cross_term v w d) == cross0 (qdrop d q) (qdrop d r) * (inject_Z (hw v) * inject_Z (hw w)).
Proof.
  intros L Dv Dw. destruct (after_drop v q d L Dv) as [V0 V1]. destruct (after_drop w r d L Dw) as [W0 W1]. unfold cross_term, cross0, Z.sub. rewrite inject_Z_plus, inject_Z_opp, !inject_Z_mult, V0, V1, W0, W1. ring.
Qed.
Lemma last_denotes vs qs v q : Forall2 denotes vs qs -> denotes v q -> denotes (last vs v) (last qs q).
Proof.
  intros F. revert v q. induction F as [|w r vs qs D F IH]; intros v q Dv; [exact Dv|]. rewrite !last_cons. apply IH. exact D.
Qed.
Lemma area_loop_spec gcd d : gcd_ok gcd -> (d < 3)%nat -> forall vs qs v q num den n m S, Forall2 denotes vs qs -> denotes v q -> den <> 0%Z -> inject_Z num == S * (inject_Z den * inject_Z (hw v)) ->
  area_loop gcd d v vs num den = Ok (n, m) -> m <> 0%Z /\ inject_Z n == (S + path_sum (fun a b => cross0 (qdrop d a) (qdrop d b)) q qs) * (inject_Z m * inject_Z (hw (last vs v))).
Proof.
  intros G L. induction vs as [|w vs IH]; intros qs v q num den n m S F Dv Nd In E; inversion F; subst; clear F.
  - cbn in E. injection E as <- <-. split; [exact Nd|]. cbn [path_sum last]. rewrite In. ring.
  - cbn [area_loop] in E. destruct (gcd den (hw w)) as [g| | |] eqn:Eg; try discriminate. cbn [rbind] in E. destruct (zdivide (hw w) g) as [nc| | |] eqn:E1; try discriminate. cbn [rbind] in E.
    destruct (zdivide den g) as [tc| | |] eqn:E2; try discriminate. cbn [rbind] in E. destruct (gcd_step gcd den (hw w) g nc tc G Eg E1 E2) as (W & D & Ng).
    pose proof (cross_term_q v q w y d L Dv H1) as T. rewrite last_cons. cbn [path_sum].
    assert (Nt : tc <> 0%Z) by (intros ->; lia). pose proof (proj1 Dv) as Nv. assert (Nd' : (tc * hw v)%Z <> 0%Z) by (intros X; apply Z.mul_eq_0 in X as [X|X]; contradiction).
    refine ((fun IH' => _) (fun X => IH _ _ _ _ _ _ _ (S + cross0 (qdrop d q) (qdrop d y)) H3 H1 Nd' X E)). destruct IH' as [R1 R2]; [|split; [exact R1|rewrite R2; ring]].
    rewrite inject_Z_plus, !inject_Z_mult, T. assert (Wq : inject_Z (hw w) == inject_Z nc * inject_Z g) by (rewrite W, inject_Z_mult; reflexivity). assert (Dq : inject_Z den == inject_Z tc * inject_Z g) by (rewrite D, inject_Z_mult; reflexivity).
    rewrite In, Dq. setoid_rewrite Wq. ring.
Qed.
Lemma centroid_loop_spec gcd d : gcd_ok gcd -> (d < 3)%nat -> forall vs qs v q num c0 c1 den n m0 m1 m S X Y, Forall2 denotes vs qs -> denotes v q -> den <> 0%Z ->
  inject_Z num == S * (inject_Z den * inject_Z (hw v)) ->
  inject_Z c0 == X * ((inject_Z den * inject_Z (hw v)) * (inject_Z den * inject_Z (hw v))) -> inject_Z c1 == Y * ((inject_Z den * inject_Z (hw v)) * (inject_Z den * inject_Z (hw v))) ->
  centroid_loop gcd d v vs num c0 c1 den = Ok (n, m0, m1, m) -> let k := inject_Z m * inject_Z (hw (last vs v)) in
  m <> 0%Z /\ inject_Z n == (S + path_sum (fun a b => cross0 (qdrop d a) (qdrop d b)) q qs) * k /\
  inject_Z m0 == (X + path_sum (fun a b => cross0 (qdrop d a) (qdrop d b) * (qx2 (qdrop d a) + qx2 (qdrop d b))) q qs) * (k * k) /\
  inject_Z m1 == (Y + path_sum (fun a b => cross0 (qdrop d a) (qdrop d b) * (qy2 (qdrop d a) + qy2 (qdrop d b))) q qs) * (k * k).
Proof.
  intros G L. induction vs as [|w vs IH]; intros qs v q num c0 c1 den n m0 m1 m S X Y F Dv Nd In I0 I1 E; inversion F; subst; clear F; cbv zeta.
  - cbn in E. injection E as <- <- <- <-. split; [exact Nd|]. cbn [path_sum last]. rewrite In, I0, I1. repeat split; ring.
  - cbn [centroid_loop] in E. destruct (gcd den (hw w)) as [g| | |] eqn:Eg; try discriminate. cbn [rbind] in E. destruct (zdivide (hw w) g) as [nc| | |] eqn:E1; try discriminate. cbn [rbind] in E.
    destruct (zdivide den g) as [tc| | |] eqn:E2; try discriminate. cbn [rbind] in E. cbv zeta in E. destruct (gcd_step gcd den (hw w) g nc tc G Eg E1 E2) as (W & D & Ng).
    pose proof (cross_term_q v q w y d L Dv H1) as T. destruct (after_drop v q d L Dv) as [V0 V1]. destruct (after_drop w y d L H1) as [W0 W1]. rewrite last_cons. cbn [path_sum].
    assert (Nt : tc <> 0%Z) by (intros ->; lia). pose proof (proj1 Dv) as Nv. assert (Nd' : (tc * hw v)%Z <> 0%Z) by (intros Z; apply Z.mul_eq_0 in Z as [Z|Z]; contradiction).
    assert (Wq : inject_Z (hw w) == inject_Z nc * inject_Z g) by (rewrite W, inject_Z_mult; reflexivity). assert (Dq : inject_Z den == inject_Z tc * inject_Z g) by (rewrite D, inject_Z_mult; reflexivity).
    set (t := cross0 (qdrop d q) (qdrop d y)) in *.
    refine ((fun IH' => _) (fun Z Z0 Z1 => IH _ _ _ _ _ _ _ _ _ _ _ (S + t) (X + t * (qx2 (qdrop d q) + qx2 (qdrop d y))) (Y + t * (qy2 (qdrop d q) + qy2 (qdrop d y))) H3 H1 Nd' Z Z0 Z1 E)).
    destruct IH' as (R1 & R2 & R3 & R4).
    + rewrite inject_Z_plus, !inject_Z_mult, T, In, Dq. setoid_rewrite Wq. ring.
    + rewrite inject_Z_plus, !inject_Z_mult, inject_Z_plus, !inject_Z_mult, T, I0, V0, W0, Dq. setoid_rewrite Wq. ring.
    + rewrite inject_Z_plus, !inject_Z_mult, inject_Z_plus, !inject_Z_mult, T, I1, V1, W1, Dq. setoid_rewrite Wq. ring.
    + split; [exact R1|]. split; [rewrite R2; ring|]. split; [rewrite R3; ring|rewrite R4; ring].
Qed.
(** ** The results *)
Lemma sum_scale {B} (f g : B -> Q) k l : (forall x, f x == k * g x) -> qsum (map f l) == k * qsum (map g l).
Proof. intros E. induction l as [|x l IH]; cbn; [ring|]. fold (qsum (map f l)) (qsum (map g l)). rewrite IH, E. ring. Qed.
Lemma sides_map {B C} (h : B -> C) (f : C -> C -> Q) l : qsum (map (fun s => f (fst s) (snd s)) (sides (map h l))) == qsum (map (fun s => f (h (fst s)) (h (snd s))) (sides l)).
Proof.
  destruct l as [|a r]; [reflexivity|]. rewrite (sides_path (fun a b => f (h a) (h b))). change (map h (a :: r)) with (h a :: map h r). rewrite sides_path.
  assert (P : forall x, path_sum f (h x) (map h r) == path_sum (fun a b => f (h a) (h b)) x r /\ last (map h r) (h x) = h (last r x)).
  { induction r as [|b r IH]; intros x; [split; reflexivity|]. cbn [map path_sum]. rewrite !last_cons. destruct (IH b) as [I1 I2]. split; [rewrite I1; reflexivity|exact I2]. }
  destruct (P a) as [P1 P2]. rewrite P1, P2. reflexivity.
Qed.
Lemma short_area o (l : list qpoint2) : (length l < 3)%nat -> fan_area o l == 0.
Proof.
  intros L. unfold fan_area. destruct l as [|a [|b [|c l]]]; cbn [length] in L; [reflexivity| | |lia]; cbn; unfold tri_area, turn, qcross2, qsub2; cbn [qx2 qy2]; field.
Qed.
Lemma area_ok {A} gcd (p : poly A) qs d n m : gcd_ok gcd -> (d < 3)%nat -> Forall2 (fun e q => denotes (pv e) q) (pedges p) qs -> projected_area gcd p d = Ok (n, m) ->
  m <> 0%Z /\ forall o, inject_Z n / inject_Z m == fan_area o (map (qdrop d) qs).
Proof.
  intros G L F E. unfold projected_area in E. assert (Ln : length qs = pcount p) by (unfold pcount; clear - F; induction F; cbn; congruence). destruct (pcount p <? 3)%nat eqn:C.
  - injection E as <- <-. split; [lia|]. intros o. rewrite short_area by (rewrite map_length; lia). reflexivity.
  - assert (F' : Forall2 denotes (map pv (pedges p)) qs) by (clear - F; induction F; constructor; assumption). destruct (map pv (pedges p)) as [|v vs]; [discriminate|]. inversion F' as [|? q ? qs' Dv Fv]; subst. clear F'.
    destruct (area_loop gcd d v vs (cross_term (last vs v) v d) (hw (last vs v))) as [[a b]| | |] eqn:El; try discriminate. cbn [rbind] in E. injection E as <- <-. cbn [fst snd].
    pose proof (last_denotes vs qs' v q Fv Dv) as Dl. pose proof (proj1 Dl) as Nl. pose proof (proj1 Dv) as Nv.
    destruct (area_loop_spec gcd d G L vs qs' v q _ _ a b (cross0 (qdrop d (last qs' q)) (qdrop d q)) Fv Dv Nl (cross_term_q _ _ v q d L Dl Dv) El) as [R1 R2].
    split; [intros Z; apply Z.mul_eq_0 in Z as [Z|Z]; [apply Z.mul_eq_0 in Z as [Z|Z]; contradiction|discriminate]|]. intros o.
    rewrite fan_area_any, (sides_map (qdrop d) (fun a b => cross0 a b / 2)).
    rewrite (sum_scale (fun s => cross0 (qdrop d (fst s)) (qdrop d (snd s)) / 2) (fun s => cross0 (qdrop d (fst s)) (qdrop d (snd s))) (1 # 2)) by (intros; field).
    rewrite (sides_path (fun a b => cross0 (qdrop d a) (qdrop d b))), !inject_Z_mult, R2. apply inject_Z_neq0 in R1, Nl. change (inject_Z 2) with 2. field. split; assumption.
Qed.
Lemma centroid_2d {A} gcd (p : poly A) qs d c : gcd_ok gcd -> (d < 3)%nat -> Forall2 (fun e q => denotes (pv e) q) (pedges p) qs -> projected_centroid gcd p d = Ok c ->
  (exists o, ~ fan_area o (map (qdrop d) qs) == 0) -> exists q, denotes2 c q /\ is_centroid (map (qdrop d) qs) q.
Proof.
  intros G L F E (o0 & A0). unfold projected_centroid in E.
  assert (F' : Forall2 denotes (map pv (pedges p)) qs) by (clear - F; induction F; constructor; assumption). destruct (map pv (pedges p)) as [|v vs]; [inversion F'; subst; exfalso; apply A0; reflexivity|]. inversion F' as [|? q ? qs' Dv Fv]; subst. clear F'.
  cbv zeta in E. destruct (centroid_loop gcd d v vs _ _ _ _) as [[[[a m0] m1] b]| | |] eqn:El; try discriminate. cbn [rbind] in E. injection E as <-.
  pose proof (last_denotes vs qs' v q Fv Dv) as Dl. pose proof (proj1 Dl) as Nl. pose proof (proj1 Dv) as Nv. destruct (after_drop v q d L Dv) as [V0 V1]. destruct (after_drop _ _ d L Dl) as [W0 W1]. set (ql := last qs' q) in *.
  pose proof (cross_term_q _ ql v q d L Dl Dv) as T.
  refine ((fun R => _) (fun Z0 Z1 => centroid_loop_spec gcd d G L vs qs' v q _ _ _ _ a m0 m1 b (cross0 (qdrop d ql) (qdrop d q)) (cross0 (qdrop d ql) (qdrop d q) * (qx2 (qdrop d ql) + qx2 (qdrop d q))) (cross0 (qdrop d ql) (qdrop d q) * (qy2 (qdrop d ql) + qy2 (qdrop d q))) Fv Dv Nl T Z0 Z1 El)).
  destruct R as (R1 & R2 & R3 & R4).
  { rewrite inject_Z_mult, inject_Z_plus, !inject_Z_mult, T, V0, W0. ring. }
  { rewrite inject_Z_mult, inject_Z_plus, !inject_Z_mult, T, V1, W1. ring. }
  rewrite fan_area_any, (sides_map (qdrop d) (fun a b => cross0 a b / 2)) in A0.
  rewrite (sum_scale (fun s => cross0 (qdrop d (fst s)) (qdrop d (snd s)) / 2) (fun s => cross0 (qdrop d (fst s)) (qdrop d (snd s))) (1 # 2)) in A0 by (intros; field).
  rewrite (sides_path (fun a b => cross0 (qdrop d a) (qdrop d b))) in A0. fold ql in A0.
  set (K := inject_Z b * inject_Z (hw (last vs v))) in *.
  set (S := path_sum (fun a b => cross0 (qdrop d a) (qdrop d b)) q qs' + cross0 (qdrop d ql) (qdrop d q)) in *. assert (NS : ~ S == 0) by lra.
  assert (NK : ~ K == 0). { unfold K. intros Z. apply Qmult_integral in Z as [Z|Z]; revert Z; apply inject_Z_neq0; assumption. }
  assert (R2' : inject_Z a == S * K) by (rewrite R2; unfold S; ring).
  set (X := path_sum (fun a b => cross0 (qdrop d a) (qdrop d b) * (qx2 (qdrop d a) + qx2 (qdrop d b))) q qs' + cross0 (qdrop d ql) (qdrop d q) * (qx2 (qdrop d ql) + qx2 (qdrop d q))) in *.
  set (Y := path_sum (fun a b => cross0 (qdrop d a) (qdrop d b) * (qy2 (qdrop d a) + qy2 (qdrop d b))) q qs' + cross0 (qdrop d ql) (qdrop d q) * (qy2 (qdrop d ql) + qy2 (qdrop d q))) in *.
  assert (R3' : inject_Z m0 == X * (K * K)) by (rewrite R3; unfold X; ring). assert (R4' : inject_Z m1 == Y * (K * K)) by (rewrite R4; unfold Y; ring).
  assert (Wt : inject_Z (a * 3 * b * hw (last vs v)) == 3 * S * K * K) by (rewrite !inject_Z_mult; fold K; rewrite R2'; unfold K; change (inject_Z 3) with 3; ring).
  exists (QP2 (X / (3 * S)) (Y / (3 * S))). split.
  - unfold denotes2. cbn [hw2 hv2 x2 y2 qx2 qy2]. split.
    + intros Z. rewrite Z in Wt. change (inject_Z 0) with 0 in Wt. symmetry in Wt. apply Qmult_integral in Wt as [Wt|Wt]; [|contradiction]. apply Qmult_integral in Wt as [Wt|Wt]; [|contradiction]. apply NS. lra.
    + rewrite Wt, R3', R4'. split; field; exact NS.
  - intros o. destruct (fan_moment_any o (map (qdrop d) (q :: qs'))) as [M0 M1]. rewrite M0, M1. rewrite fan_area_any, (sides_map (qdrop d) (fun a b => cross0 a b / 2)).
    rewrite (sum_scale (fun s => cross0 (qdrop d (fst s)) (qdrop d (snd s)) / 2) (fun s => cross0 (qdrop d (fst s)) (qdrop d (snd s))) (1 # 2)) by (intros; field).
    rewrite (sides_path (fun a b => cross0 (qdrop d a) (qdrop d b))). fold ql. fold S. cbn [qx2 qy2].
    rewrite (sides_map (qdrop d) (fun a b => cross0 a b * (qx2 a + qx2 b) / 6)), (sides_map (qdrop d) (fun a b => cross0 a b * (qy2 a + qy2 b) / 6)).
    rewrite (sum_scale (fun s => cross0 (qdrop d (fst s)) (qdrop d (snd s)) * (qx2 (qdrop d (fst s)) + qx2 (qdrop d (snd s))) / 6) (fun s => cross0 (qdrop d (fst s)) (qdrop d (snd s)) * (qx2 (qdrop d (fst s)) + qx2 (qdrop d (snd s)))) (1 # 6)) by (intros; field).
    rewrite (sum_scale (fun s => cross0 (qdrop d (fst s)) (qdrop d (snd s)) * (qy2 (qdrop d (fst s)) + qy2 (qdrop d (snd s))) / 6) (fun s => cross0 (qdrop d (fst s)) (qdrop d (snd s)) * (qy2 (qdrop d (fst s)) + qy2 (qdrop d (snd s)))) (1 # 6)) by (intros; field).
    rewrite (sides_path (fun a b => cross0 (qdrop d a) (qdrop d b) * (qx2 (qdrop d a) + qx2 (qdrop d b)))), (sides_path (fun a b => cross0 (qdrop d a) (qdrop d b) * (qy2 (qdrop d a) + qy2 (qdrop d b)))). fold ql. fold X. fold Y.
    split; field; exact NS.
Qed.
