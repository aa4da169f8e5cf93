(** Proofs about Extrude. *)
From Coq Require Import List Bool Arith ZArith QArith Lqa Lia Permutation.
From Verif Require Import BigUIntModel GeoModel GeoSpec AabbSpec AreaSpec PlanarSpec PolyModel PolySpec FactoryModel FactorySpec ExtrudeModel ExtrudeSpec MeshOutProofs.
From Verif Require AreaTopProofs PolySpec.
Import ListNotations.
Open Scope Z_scope.
(** ** Sums over cycles *)
Lemma sum_app l m : sum_z (l ++ m) = sum_z l + sum_z m.
Proof. unfold sum_z. induction l as [|x l IH]; cbn [app fold_right]; [lia|]. rewrite IH. lia. Qed.
Lemma sum_perm l m : Permutation l m -> sum_z l = sum_z m.
Proof. unfold sum_z. induction 1; cbn [fold_right] in *; lia. Qed.
Lemma path_sides {A} (f : A -> A -> Z) a x l : path_sum f (x :: l) + f (last (x :: l) a) a = sum_z (map (fun e => f (fst e) (snd e)) (combine (x :: l) (l ++ [a]))).
Proof.
  revert x. induction l as [|y l IH]; intros x; [cbn; lia|]. change (path_sum f (x :: y :: l)) with (f x y + path_sum f (y :: l)). change (last (x :: y :: l) a) with (last (y :: l) a).
  change (combine (x :: y :: l) ((y :: l) ++ [a])) with ((x, y) :: combine (y :: l) (l ++ [a])). cbn [map fst snd]. change (sum_z (?u :: ?v)) with (u + sum_z v). rewrite <- (IH y). lia.
Qed.
Lemma cycle_sides {A} (f : A -> A -> Z) l : cycle_sum f l = sum_z (map (fun e => f (fst e) (snd e)) (sides l)).
Proof. destruct l as [|a l]; [reflexivity|]. unfold cycle_sum, sides. apply path_sides. Qed.
Lemma sides_fst {A} (l : list A) : map fst (sides l) = l.
Proof. destruct l as [|a r]; [reflexivity|]. unfold sides. assert (G : forall (u v : list A), length u = length v -> map fst (combine u v) = u) by (clear; induction u as [|x u IH]; intros [|y v] E; cbn in *; try discriminate; [reflexivity|f_equal; apply IH; lia]). apply G. rewrite app_length. cbn. lia. Qed.
Lemma sides_snd {A} (l : list A) : Permutation (map snd (sides l)) l.
Proof. destruct l as [|a r]; [constructor|]. unfold sides. assert (G : forall (u v : list A), length u = length v -> map snd (combine u v) = v) by (clear; induction u as [|x u IH]; intros [|y v] E; cbn in *; try discriminate; [reflexivity|f_equal; apply IH; lia]). rewrite G by (rewrite app_length; cbn; lia). apply Permutation_sym, Permutation_cons_append. Qed.
Lemma path_snoc {A} (f : A -> A -> Z) l a b : path_sum f (l ++ [a; b]) = path_sum f (l ++ [a]) + f a b.
Proof. induction l as [|x [|y l] IH]; cbn [app path_sum] in *; lia. Qed.
Lemma path_rev {A} (f : A -> A -> Z) l : antisymmetric f -> path_sum f (rev l) = - path_sum f l.
Proof.
  intros H. induction l as [|a [|b l] IH]; [reflexivity|reflexivity|]. cbn [rev] in *. rewrite <- app_assoc. cbn [app]. rewrite path_snoc, IH. change (path_sum f (a :: b :: l)) with (f a b + path_sum f (b :: l)). pose proof (H a b). lia.
Qed.
Lemma last_any {A} (l : list A) a b : l <> [] -> last l a = last l b.
Proof. induction l as [|x [|y l] IH]; intros N; [contradiction|reflexivity|]. apply IH. discriminate. Qed.
Lemma cycle_rev {A} (f : A -> A -> Z) l : antisymmetric f -> cycle_sum f (rev l) = - cycle_sum f l.
Proof.
  intros H. destruct l as [|a l]; [reflexivity|]. destruct (exists_last (l := a :: l) ltac:(discriminate)) as (m & z & E). rewrite E.
  assert (Ez : last (m ++ [z]) a = z) by apply last_last. unfold cycle_sum at 2. destruct (m ++ [z]) as [|a' m'] eqn:Em; [destruct m; discriminate|]. injection E as <- E. rewrite <- Em. rewrite rev_app_distr. cbn [rev app]. unfold cycle_sum.
  change (z :: rev m) with (rev [z] ++ rev m). rewrite <- rev_app_distr. rewrite (path_rev f _ H). rewrite Em. cbn [rev]. rewrite last_last. rewrite Ez. pose proof (H z a). lia.
Qed.
(** ** The faces cancel *)
Section Faces.
Context {V : Type} (offset : V -> V) (g : V -> V -> Z) (anti : antisymmetric g).
Lemma side_sum e : cycle_sum g (face_side offset e) = - g (fst e) (snd e) + (g (fst e) (offset (fst e)) - g (snd e) (offset (snd e))) + g (offset (fst e)) (offset (snd e)).
Proof using anti. destruct e as [a b]. unfold face_side. cbn [fst snd cycle_sum path_sum last]. pose proof (anti a b). pose proof (anti (offset b) b). lia. Qed.
Lemma sum_plus {B} (h k : B -> Z) l : sum_z (map (fun x => h x + k x) l) = sum_z (map h l) + sum_z (map k l).
Proof. unfold sum_z. induction l as [|x l IH]; cbn [map fold_right]; lia. Qed.
Lemma sum_opp {B} (h : B -> Z) l : sum_z (map (fun x => - h x) l) = - sum_z (map h l).
Proof. unfold sum_z. induction l as [|x l IH]; cbn [map fold_right]; lia. Qed.
Theorem faces_cancel cap : sum_z (map (cycle_sum g) (faces offset cap)) = 0.
Proof using anti.
  unfold faces. cbn [map]. rewrite map_app, map_map. change (sum_z (?x :: ?l)) with (x + sum_z l). rewrite sum_app. cbn [map sum_z fold_right].
  rewrite (map_ext _ _ side_sum). rewrite sum_plus. rewrite (sum_plus (fun e => - g (fst e) (snd e)) (fun e => g (fst e) (offset (fst e)) - g (snd e) (offset (snd e)))). rewrite (sum_opp (fun e => g (fst e) (snd e))). rewrite <- cycle_sides.
  assert (E1 : sum_z (map (fun e => g (fst e) (offset (fst e)) - g (snd e) (offset (snd e))) (sides cap)) = 0).
  { unfold Z.sub. rewrite (sum_plus (fun e => g (fst e) (offset (fst e))) (fun e => - g (snd e) (offset (snd e)))). rewrite (sum_opp (fun e => g (snd e) (offset (snd e)))). rewrite <- (map_map fst (fun x => g x (offset x))), <- (map_map snd (fun x => g x (offset x))). rewrite sides_fst. rewrite (sum_perm _ _ (Permutation_map (fun x => g x (offset x)) (sides_snd cap))). lia. }
  assert (E2 : sum_z (map (fun e => g (offset (fst e)) (offset (snd e))) (sides cap)) = cycle_sum (fun a b => g (offset a) (offset b)) cap) by (rewrite cycle_sides; reflexivity).
  assert (E3 : cycle_sum g (map offset (rev cap)) = - cycle_sum (fun a b => g (offset a) (offset b)) cap) by (rewrite cycle_map; apply cycle_rev; intros a b; apply anti).
  lia.
Qed.
End Faces.
(** ** The function builds the faces *)
Lemma side_model {V} (offset : V -> V) cap i : (i < length cap)%nat -> exists e, nth_error (sides cap) i = Some e /\ ex_side offset cap i = Ok (face_side offset e).
Proof.
  intros L. destruct cap as [|x0 cap]; [cbn in L; lia|]. set (l := x0 :: cap) in *. pose proof (AreaTopProofs.sides_at x0 l i L) as E. exists (PolySpec.cyc x0 l i, PolySpec.cyc x0 l (S i)). split; [exact E|].
  unfold ex_side, face_side. cbn [fst snd]. unfold PolySpec.cyc. rewrite (Nat.mod_small i) by exact L. replace (i + 1)%nat with (S i) by lia.
  assert (N : forall j, (j < length l)%nat -> nth_error l j = Some (nth j l x0)) by (intros j J; apply nth_error_nth'; exact J).
  rewrite (N i L), (N (S i mod length l)%nat) by (apply Nat.mod_upper_bound; lia). reflexivity.
Qed.
Lemma ex_sides_ok {V P} (build : list V -> res (list P)) offset cap is : forall es ps, Forall2 (fun i e => ex_side offset cap i = Ok (face_side offset e)) is es -> ex_sides build offset cap is = Ok ps ->
  exists pss, Forall2 (fun v qs => build v = Ok qs) (map (face_side offset) es) pss /\ ps = concat pss.
Proof.
  induction is as [|i is IH]; intros es ps F E; inversion F as [|? e ? es' Fe Fs]; subst; cbn [ex_sides] in E; [injection E as <-; exists []; split; [constructor|reflexivity]|].
  rewrite Fe in E. cbn [rbind] in E. destruct (build (face_side offset e)) as [qs| | |] eqn:B; try discriminate. cbn [rbind] in E. destruct (ex_sides build offset cap is) as [r| | |] eqn:R; try discriminate. cbn [rbind] in E. injection E as <-.
  destruct (IH es' r Fs eq_refl) as (pss & Fp & ->). exists (qs :: pss). split; [constructor; assumption|reflexivity].
Qed.
Lemma seq_sides {V} (offset : V -> V) cap : Forall2 (fun i e => ex_side offset cap i = Ok (face_side offset e)) (seq 0 (length cap)) (sides cap).
Proof.
  assert (G : forall (es : list (V * V)) k, (forall i, (i < length es)%nat -> exists e, nth_error es i = Some e /\ ex_side offset cap (k + i) = Ok (face_side offset e)) -> Forall2 (fun i e => ex_side offset cap i = Ok (face_side offset e)) (seq k (length es)) es).
  { induction es as [|e es IH]; intros k H; [constructor|]. cbn [length seq]. constructor.
    - destruct (H 0%nat) as (e' & E' & H'); [cbn; lia|]. cbn in E'. injection E' as <-. rewrite Nat.add_0_r in H'. exact H'.
    - apply IH. intros i L. destruct (H (S i)) as (e' & E' & H'); [cbn; lia|]. exists e'. split; [exact E'|]. rewrite <- Nat.add_succ_comm in H'. exact H'. }
  rewrite <- (AreaTopProofs.sides_length cap). apply G. intros i L. rewrite AreaTopProofs.sides_length in L. exact (side_model offset cap i L).
Qed.
Lemma extrude_faces {V P} (build : list V -> res (list P)) offset cap ps : extrude_with build offset cap = Ok ps -> exists pss, Forall2 (fun v qs => build v = Ok qs) (faces offset cap) pss /\ ps = concat pss.
Proof.
  intros E. unfold extrude_with in E. destruct (build cap) as [b| | |] eqn:B; try discriminate. cbn [rbind] in E. destruct (ex_sides build offset cap (seq 0 (length cap))) as [s| | |] eqn:Es; try discriminate. cbn [rbind] in E. destruct (build (map offset (rev cap))) as [t| | |] eqn:T; try discriminate. cbn [rbind] in E. injection E as <-.
  destruct (ex_sides_ok build offset cap _ _ s (seq_sides offset cap) Es) as (pss & F & ->). exists (b :: pss ++ [t]). split; [|cbn [concat]; rewrite concat_app; cbn [concat]; rewrite app_nil_r; reflexivity].
  unfold faces. constructor; [exact B|]. apply Forall2_app; [exact F|]. constructor; [exact T|constructor].
Qed.
Lemma parts_all {V A} (build : list V -> res (list (poly A))) point fs pss : Forall (cut_right build point) fs -> Forall2 (fun v qs => build v = Ok qs) fs pss ->
  exists qss, Forall2 poly_ok (concat pss) qss /\ forall f, line_weight f -> sum_z (map (cycle_sum f) qss) = sum_z (map (fun v => cycle_sum f (map point v)) fs).
Proof.
  intros C F. induction F as [|v qs fs pss E F IH]; [exists []; split; [constructor|reflexivity]|]. inversion C as [|? ? Cv Cs]; subst. destruct (Cv qs E) as (q1 & F1 & S1). destruct (IH Cs) as (q2 & F2 & S2).
  exists (q1 ++ q2). split; [cbn [concat]; apply Forall2_app; assumption|]. intros f W. rewrite map_app, sum_app, (S1 f W), (S2 f W). reflexivity.
Qed.
Theorem extrude_cancels {V A} (build : list V -> res (list (poly A))) offset point cap ps : Forall (cut_right build point) (faces offset cap) -> extrude_with build offset cap = Ok ps ->
  exists qss, Forall2 poly_ok ps qss /\ cancels qss.
Proof.
  intros C E. destruct (extrude_faces build offset cap ps E) as (pss & F & ->). destruct (parts_all build point _ pss C F) as (qss & O & S1). exists qss. split; [exact O|]. intros f W. rewrite (S1 f W).
  rewrite (map_ext _ (cycle_sum (fun a b => f (point a) (point b)))) by (intros v; apply cycle_map). apply faces_cancel. intros a b. apply (lw_anti f W).
Qed.
(** ** Covering a point of a line *)
Open Scope Q_scope.
Lemma on_line_spec a b q : on_line_b a b q = true <-> qp_eq (qcross (qsub q a) (qsub b a)) (QP 0 0 0).
Proof. unfold on_line_b, qp_eq. cbn [qx qy qz]. rewrite !andb_true_iff, !Qeq_bool_iff. tauto. Qed.
Definition b2z (b : bool) : Z := if b then 1 else 0.
Definition cover_weight (a b : qpoint) (t : Q) (u v : qpoint) : Z := (b2z (covers_b a b t (u, v)) - b2z (covers_b a b t (v, u)))%Z.
Lemma on_line_eq a b p p' : qp_eq p p' -> on_line_b a b p = on_line_b a b p'.
Proof.
  intros (E1 & E2 & E3). apply eq_true_iff_eq. rewrite !on_line_spec. unfold qp_eq, qcross, qsub. cbn [qx qy qz]. rewrite E1, E2, E3. tauto.
Qed.
Lemma qdot_eq d p p' : qp_eq p p' -> qdot d p == qdot d p'.
Proof. intros (E1 & E2 & E3). unfold qdot. rewrite E1, E2, E3. reflexivity. Qed.
Lemma covers_eq a b t p p' q q' : qp_eq p p' -> qp_eq q q' -> covers_b a b t (p, q) = covers_b a b t (p', q').
Proof.
  intros E F. unfold covers_b. cbn [fst snd]. rewrite (on_line_eq a b p p' E), (on_line_eq a b q q' F). assert (X : forall u v, u == v -> Qle_bool u t = Qle_bool v t) by (intros u v Y; apply eq_true_iff_eq; rewrite !Qle_bool_iff, Y; tauto). rewrite (X _ _ (qdot_eq _ p p' E)), (X _ _ (qdot_eq _ q q' F)). reflexivity.
Qed.
(** A third point of a line through two different points of the line from a to b. *)
Lemma third_on a b p q r : on_line_b a b p = true -> on_line_b a b q = true -> ~ qdot (qsub b a) p == qdot (qsub b a) q -> in_line_q p q r -> on_line_b a b r = true.
Proof.
  rewrite !on_line_spec. unfold in_line_q, qp_eq, qcross, qsub, qdot. destruct a as [a1 a2 a3], b as [b1 b2 b3], p as [p1 p2 p3], q as [q1 q2 q3], r as [r1 r2 r3]. cbn [qx qy qz]. intros (P1 & P2 & P3) (Q1 & Q2 & Q3) N (R1 & R2 & R3).
  set (d1 := b1 - a1) in *. set (d2 := b2 - a2) in *. set (d3 := b3 - a3) in *. set (e1 := q1 - p1) in *. set (e2 := q2 - p2) in *. set (e3 := q3 - p3) in *. set (w1 := r1 - p1) in *. set (w2 := r2 - p2) in *. set (w3 := r3 - p3) in *.
  assert (Q1' : e2 * d3 == e3 * d2) by (unfold e2, e3; lra). assert (Q2' : e3 * d1 == e1 * d3) by (unfold e3, e1; lra). assert (Q3' : e1 * d2 == e2 * d1) by (unfold e1, e2; lra).
  assert (Rd1 : e2 * w3 == e3 * w2) by lra. assert (Rd2 : e3 * w1 == e1 * w3) by lra. assert (Rd3 : e1 * w2 == e2 * w1) by lra.
  assert (G : w2 * d3 - w3 * d2 == 0 /\ w3 * d1 - w1 * d3 == 0 /\ w1 * d2 - w2 * d1 == 0).
  { assert (Ne : ~ e1 == 0 \/ ~ e2 == 0 \/ ~ e3 == 0). { destruct (Qeq_dec e1 0) as [Z1|Z1]; [|tauto]. destruct (Qeq_dec e2 0) as [Z2|Z2]; [|tauto]. destruct (Qeq_dec e3 0) as [Z3|Z3]; [|tauto]. exfalso. apply N. unfold e1, e2, e3 in *. assert (X1 : q1 == p1) by lra. assert (X2 : q2 == p2) by lra. assert (X3 : q3 == p3) by lra. rewrite X1, X2, X3. reflexivity. }
    assert (Can : forall e x, ~ e == 0 -> e * x == 0 -> x == 0) by (intros e x H0 H1; apply Qmult_integral in H1; tauto).
    clearbody d1 d2 d3 e1 e2 e3 w1 w2 w3. clear - Ne Can Q1' Q2' Q3' Rd1 Rd2 Rd3.
    destruct Ne as [Ne|[Ne|Ne]]; (split; [|split]); apply (Can _ _ Ne).
    - transitivity (e1 * w2 * d3 - e1 * w3 * d2); [ring|]. transitivity (w2 * (e1 * d3) - w3 * (e1 * d2)); [ring|]. rewrite <- Q2', Q3'. transitivity (d1 * (e3 * w2 - e2 * w3)); [ring|]. rewrite Rd1. ring.
    - transitivity ((e1 * w3) * d1 - w1 * (e1 * d3)); [ring|]. rewrite <- Q2', <- Rd2. ring.
    - transitivity (w1 * (e1 * d2) - (e1 * w2) * d1); [ring|]. rewrite Q3', Rd3. ring.
    - transitivity (w2 * (e2 * d3) - (e2 * w3) * d2); [ring|]. rewrite Q1', Rd1. ring.
    - assert (X : e2 * (w3 * d1 - w1 * d3) == - (e2 * (w3 * d1 - w1 * d3))); [|lra]. transitivity ((e2 * w3) * d1 - w1 * (e2 * d3)); [ring|]. rewrite Q1', Rd1. transitivity (w2 * (e3 * d1) - d2 * (e3 * w1)); [ring|]. rewrite Q2', Rd2. transitivity (d3 * (e1 * w2) - w3 * (e1 * d2)); [ring|]. rewrite Rd3, Q3'. ring.
    - transitivity ((e2 * d2) * w1 - w2 * (e2 * d1)); [ring|]. rewrite <- Q3'. transitivity (d2 * (e2 * w1 - e1 * w2)); [ring|]. rewrite Rd3. ring.
    - transitivity (w2 * (e3 * d3) - w3 * (e3 * d2)); [ring|]. rewrite <- Q1'. transitivity (d3 * (e3 * w2 - e2 * w3)); [ring|]. rewrite Rd1. ring.
    - transitivity (w3 * (e3 * d1) - d3 * (e3 * w1)); [ring|]. rewrite Q2', Rd2. ring.
    - assert (X : e3 * (w1 * d2 - w2 * d1) == - (e3 * (w1 * d2 - w2 * d1))); [|lra]. transitivity (d2 * (e3 * w1) - w2 * (e3 * d1)); [ring|]. rewrite Rd2, Q2'. transitivity (w3 * (e1 * d2) - d3 * (e1 * w2)); [ring|]. rewrite Q3', Rd3. transitivity (d1 * (e2 * w3) - w1 * (e2 * d3)); [ring|]. rewrite Q1', Rd1. ring. }
  destruct G as (G1 & G2 & G3). unfold w1, w2, w3 in *. repeat split; lra.
Qed.
Lemma cover_at a b t u v : cover_weight a b t u v = if on_line_b a b u && on_line_b a b v then (b2z (Qle_bool (qdot (qsub b a) u) t) - b2z (Qle_bool (qdot (qsub b a) v) t))%Z else 0%Z.
Proof. unfold cover_weight, covers_b. cbn [fst snd]. destruct (on_line_b a b u), (on_line_b a b v), (Qle_bool (qdot (qsub b a) u) t), (Qle_bool (qdot (qsub b a) v) t); reflexivity. Qed.
Lemma in_line_swap p q r : in_line_q p q r -> in_line_q p r q.
Proof. unfold in_line_q, qp_eq, qcross, qsub. cbn [qx qy qz]. intros (A & B & C). repeat split; lra. Qed.
Lemma in_line_turn p q r : in_line_q p q r -> in_line_q q r p.
Proof. unfold in_line_q, qp_eq, qcross, qsub. cbn [qx qy qz]. intros (A & B & C). repeat split; lra. Qed.
Lemma cover_same a b t p q r : on_line_b a b p = true -> on_line_b a b q = true -> on_line_b a b r = false -> in_line_q p q r -> Qle_bool (qdot (qsub b a) p) t = Qle_bool (qdot (qsub b a) q) t.
Proof.
  intros P Q R L. destruct (Qeq_dec (qdot (qsub b a) p) (qdot (qsub b a) q)) as [E|N]; [apply eq_true_iff_eq; rewrite !Qle_bool_iff, E; tauto|]. rewrite (third_on a b p q r P Q N L) in R. discriminate.
Qed.
Lemma cover_line a b t : line_weight (cover_weight a b t).
Proof.
  split.
  - intros p p' q q' E F. unfold cover_weight. rewrite (covers_eq a b t p p' q q' E F), (covers_eq a b t q q' p p' F E). reflexivity.
  - intros p q. unfold cover_weight. lia.
  - intros p q r L. rewrite !cover_at. destruct (on_line_b a b p) eqn:P, (on_line_b a b q) eqn:Q, (on_line_b a b r) eqn:R; cbn [andb]; try lia.
    + rewrite (cover_same a b t p q r P Q R L). lia.
    + rewrite (cover_same a b t p r q P R Q (in_line_swap _ _ _ L)). lia.
    + rewrite (cover_same a b t q r p Q R P (in_line_turn _ _ _ L)). lia.
Qed.
Lemma count_sum {B} (f : B -> bool) l : Z.of_nat (length (filter f l)) = sum_z (map (fun x => b2z (f x)) l).
Proof. unfold sum_z. induction l as [|x l IH]; cbn [filter map fold_right]; [reflexivity|]. destruct (f x); cbn [length b2z]; lia. Qed.
Lemma sum_sides f qss : sum_z (map (cycle_sum f) qss) = sum_z (map (fun e : qpoint * qpoint => f (fst e) (snd e)) (flat_map sides qss)).
Proof. induction qss as [|l qss IH]; [reflexivity|]. cbn [map flat_map]. rewrite map_app, sum_app, <- IH, cycle_sides. reflexivity. Qed.
Theorem cancels_watertight qss : cancels qss -> watertight qss.
Proof.
  intros C a b t. specialize (C _ (cover_line a b t)). rewrite sum_sides in C. apply Nat2Z.inj. rewrite !count_sum. unfold cover_weight in C.
  rewrite (map_ext _ (fun e => b2z (covers_b a b t e) + - b2z (covers_b a b t (swap e)))%Z) in C by (intros [u v]; unfold swap; cbn [fst snd]; lia). rewrite (sum_plus (fun e => b2z (covers_b a b t e)) (fun e => - b2z (covers_b a b t (swap e)))%Z) in C. rewrite (sum_opp (fun e => b2z (covers_b a b t (swap e)))) in C. lia.
Qed.
(** ** Integer points *)
Open Scope Z_scope.
Lemma weight_int f : line_weight f -> edge_weight (fun p q => f (qpt p) (qpt q)).
Proof.
  intros [_ A L]. split; [intros a b; apply A|]. intros p q r H. apply L. unfold in_line, v3_cross, v3_sub in H. injection H as H1 H2 H3. unfold in_line_q, qp_eq, qcross, qsub, qpt. cbn [qx qy qz].
  assert (X : forall u v w z, (u * v - w * z = 0)%Z -> (inject_Z u * inject_Z v - inject_Z w * inject_Z z == 0)%Q) by (intros u v w z E; rewrite <- !inject_Z_mult; unfold Qminus; rewrite <- inject_Z_opp, <- inject_Z_plus; change 0%Q with (inject_Z 0); apply inject_Z_injective; lia).
  assert (Y : forall u v, (inject_Z u - inject_Z v == inject_Z (u - v))%Q) by (intros u v; unfold Z.sub; rewrite inject_Z_plus, inject_Z_opp; reflexivity).
  repeat split; rewrite !Y; apply X; cbn [vx vy vz] in *; assumption.
Qed.
Lemma int_cut {A} dbg fuel (d0 : A) v : (forall ps, cf_build dbg fuel d0 v 0 (length v) = Ok ps -> convex_parts v ps) -> cut_right (fun v => cf_build dbg fuel d0 v 0 (length v)) qpt v.
Proof.
  intros H ps E. destruct (H ps E) as (ls & F & S1). exists (map (map qpt) ls). split.
  - clear S1 E. induction F as [|p l ps ls [O _] F IH]; cbn [map]; constructor; assumption.
  - intros f W. rewrite map_map. rewrite (map_ext _ (cycle_sum (fun p q => f (qpt p) (qpt q)))) by (intros l; apply cycle_map). rewrite cycle_map. apply S1. apply weight_int. exact W.
Qed.
(** ** When every face is built or takes forever *)
Fixpoint build_all_of {V P} (build : list V -> res (list P)) (vs : list (list V)) : res (list P) :=
  match vs with [] => Ok [] | v :: vs => ps <- build v ;; r <- build_all_of build vs ;; Ok (ps ++ r) end.
Lemma build_app {V P} (build : list V -> res (list P)) vs ws : build_all_of build (vs ++ ws) = (a <- build_all_of build vs ;; b <- build_all_of build ws ;; Ok (a ++ b)).
Proof.
  induction vs as [|v vs IH]; cbn [app build_all_of rbind]; [destruct (build_all_of build ws); reflexivity|]. destruct (build v); cbn [rbind]; try reflexivity. rewrite IH. destruct (build_all_of build vs); cbn [rbind]; try reflexivity.
  destruct (build_all_of build ws); cbn [rbind]; try reflexivity. rewrite app_assoc. reflexivity.
Qed.
Lemma sides_run {V P} (build : list V -> res (list P)) offset cap is : forall es, Forall2 (fun i e => ex_side offset cap i = Ok (face_side offset e)) is es -> ex_sides build offset cap is = build_all_of build (map (face_side offset) es).
Proof. induction is as [|i is IH]; intros es F; inversion F as [|? e ? es' Fe Fs]; subst; cbn [ex_sides map build_all_of]; [reflexivity|]. rewrite Fe. cbn [rbind]. rewrite (IH es' Fs). reflexivity. Qed.
Lemma extrude_run {V P} (build : list V -> res (list P)) offset cap : extrude_with build offset cap = build_all_of build (faces offset cap).
Proof.
  unfold extrude_with, faces. cbn [build_all_of]. rewrite build_app, <- (sides_run build offset cap _ _ (seq_sides offset cap)). cbn [build_all_of]. destruct (build cap); cbn [rbind]; try reflexivity. destruct (ex_sides _ _ _ _); cbn [rbind]; try reflexivity.
  destruct (build (map offset (rev cap))); cbn [rbind]; try reflexivity. rewrite app_nil_r. reflexivity.
Qed.
Lemma all_built {V P} (build : list V -> res (list P)) vs : (forall v, In v vs -> exists ps, build v = Ok ps) -> exists ps, build_all_of build vs = Ok ps.
Proof.
  induction vs as [|v vs IH]; intros H; [exists []; reflexivity|]. destruct (H v) as (p & E); [left; reflexivity|]. destruct IH as (q & F); [intros w I; apply H; right; exact I|]. exists (p ++ q). cbn [build_all_of]. rewrite E, F. reflexivity.
Qed.
Lemma one_stuck {V P} (build : list V -> res (list P)) vs v : (forall w, In w vs -> (exists ps, build w = Ok ps) \/ build w = NoFuel) -> In v vs -> build v = NoFuel -> build_all_of build vs = NoFuel.
Proof.
  intros H I E. induction vs as [|w vs IH]; [destruct I|]. cbn [build_all_of]. destruct (H w (or_introl eq_refl)) as [(p & F)|F]; rewrite F; cbn [rbind]; [|reflexivity]. destruct I as [->|I]; [congruence|].
  rewrite IH; [reflexivity| |exact I]. intros u J. apply H. right. exact J.
Qed.
