(** Proofs about boxes. *)
From Coq Require Import ZArith QArith List Bool Lia Lqa ZifyBool.
From Verif Require Import BigUIntModel GeoModel GeoSpec GeoProofs AabbModel AabbSpec.
Import ListNotations.
Open Scope Z_scope.

Lemma inj_pos z : 0 < z -> (0 < inject_Z z)%Q.
Proof. intros H. change 0%Q with (inject_Z 0). rewrite <- Zlt_Qlt. exact H. Qed.
Lemma div_le_iff a d q : (0 < d)%Q -> ((a / d <= q)%Q <-> (a <= q * d)%Q).
Proof. intros H. split; intros L.
  - setoid_replace a with (a / d * d)%Q by (field; intros E; rewrite E in H; discriminate H). apply Qmult_le_compat_r; [exact L|apply Qlt_le_weak, H].
  - apply Qle_shift_div_r; assumption. Qed.
Lemma le_div_iff a d q : (0 < d)%Q -> ((q <= a / d)%Q <-> (q * d <= a)%Q).
Proof. intros H. split; intros L.
  - setoid_replace a with (a / d * d)%Q by (field; intros E; rewrite E in H; discriminate H). apply Qmult_le_compat_r; [exact L|apply Qlt_le_weak, H].
  - apply Qle_shift_div_l; assumption. Qed.
Lemma eq_div_iff a d q : (0 < d)%Q -> ((q == a / d)%Q <-> (q * d == a)%Q).
Proof. intros H. assert (~ d == 0)%Q by (intros E; rewrite E in H; discriminate H). split; intros L.
  - rewrite L. field. assumption.
  - rewrite <- L. field. assumption. Qed.

Lemma all3_true f : all3 f = true <-> forall i, (i < 3)%nat -> f i = true.
Proof. unfold all3. rewrite !andb_true_iff. split.
  - intros [[A B] C] i Hi. destruct i as [|[|[|i]]]; try assumption; lia.
  - intros H. repeat split; apply H; lia. Qed.
Lemma any3_true f : any3 f = true <-> exists i, (i < 3)%nat /\ f i = true.
Proof. unfold any3. rewrite !orb_true_iff. split.
  - intros [[A|B]|C]; [exists 0%nat|exists 1%nat|exists 2%nat]; split; try lia; assumption.
  - intros (i & Hi & H). destruct i as [|[|[|i]]]; auto; lia. Qed.
Lemma qcomp_qpt p i : qcomp (qpt p) i = inject_Z (comp p i).
Proof. destruct i as [|[|i]]; reflexivity. Qed.
Lemma comp_scale v s i : comp (v3_scale v s) i = comp v i * s.
Proof. destruct i as [|[|i]]; reflexivity. Qed.
Lemma comp_neg v i : comp (v3_neg v) i = - comp v i.
Proof. destruct i as [|[|i]]; reflexivity. Qed.
Lemma v3_eq_comp a b : v3_eq a b = true <-> forall i, (i < 3)%nat -> comp a i = comp b i.
Proof. unfold v3_eq. split.
  - intros H i Hi. apply andb_true_iff in H. destruct H as [H Hz]. apply andb_true_iff in H. destruct H as [Hx Hy].
    destruct i as [|[|[|i]]]; cbn [comp]; lia.
  - intros H. pose proof (H 0%nat ltac:(lia)); pose proof (H 1%nat ltac:(lia)); pose proof (H 2%nat ltac:(lia)). cbn [comp] in *.
    rewrite !andb_true_iff. lia. Qed.

(** ** Constructors *)
Lemma bx_make_wf lo hi den : den <> 0 -> box_wf (bx_make lo hi den).
Proof. intros H. unfold bx_make, box_wf. rewrite zget_sign_neg. destruct (Z.ltb_spec den 0); cbn [bden]; lia. Qed.
Lemma bx_make_lo lo hi den i : den <> 0 -> (box_lo (bx_make lo hi den) i == inject_Z (comp lo i) / inject_Z den)%Q.
Proof. intros H. unfold bx_make, box_lo. rewrite zget_sign_neg. destruct (Z.ltb_spec den 0) as [E|E]; cbn [bden bmin]; [|reflexivity].
  rewrite comp_neg, !inject_Z_opp. pose proof (inject_Z_neq0 den H). field. assumption. Qed.
Lemma bx_make_hi lo hi den i : den <> 0 -> (box_hi (bx_make lo hi den) i == inject_Z (comp hi i) / inject_Z den)%Q.
Proof. intros H. unfold bx_make, box_hi. rewrite zget_sign_neg. destruct (Z.ltb_spec den 0) as [E|E]; cbn [bden bmax]; [|reflexivity].
  rewrite comp_neg, !inject_Z_opp. pose proof (inject_Z_neq0 den H). field. assumption. Qed.
Lemma bx_empty_spec q : ~ in_box bx_empty q.
Proof. intros H. destruct (H 0%nat ltac:(lia)) as [A B]. pose proof (Qle_trans _ _ _ A B) as C. cbv in C. apply C. reflexivity. Qed.

(** ** Membership *)
Lemma inside_comp_pt b p i : box_wf b ->
  (negb ((comp p i * bden b <? comp (bmin b) i) || (comp (bmax b) i <? comp p i * bden b)) = true <->
   (box_lo b i <= qcomp (qpt p) i /\ qcomp (qpt p) i <= box_hi b i)%Q).
Proof. intros H. unfold box_lo, box_hi. rewrite (div_le_iff _ _ _ (inj_pos _ H)), (le_div_iff _ _ _ (inj_pos _ H)), qcomp_qpt, <- inject_Z_mult, <- !Zle_Qle.
  rewrite negb_true_iff, orb_false_iff. lia. Qed.
Lemma bx_inside_pt_spec b p : box_wf b -> (bx_inside_pt b p = true <-> in_box b (qpt p)).
Proof. intros H. unfold bx_inside_pt, in_box. rewrite all3_true. split; intros A i Hi; specialize (A i Hi); apply (inside_comp_pt b p i H); exact A. Qed.
Lemma zless_than_scaled w a c x y : w <> 0 -> (inject_Z a == x * inject_Z w)%Q -> (inject_Z c == y * inject_Z w)%Q ->
  (negb (zless_than (w <? 0) a c) = true <-> (y <= x)%Q).
Proof.
  intros Hw Ha Hc. assert (E : (inject_Z (a - c) == (x - y) * inject_Z w)%Q) by (rewrite inject_Z_sub, Ha, Hc; ring).
  apply sgn_of_q in E. unfold zless_than. rewrite negb_true_iff.
  assert (S : (y <= x)%Q <-> qsign (x - y) <> -1).
  { rewrite qsign_sub_lt. split; [intros L G; apply (Qlt_not_le _ _ G L)|apply Qnot_lt_le]. }
  rewrite S. clear S Ha Hc. pose proof (qsign_range (x - y)) as R. destruct (Z.ltb_spec w 0); nia.
Qed.
Lemma inside_comp b p q i : box_wf b -> denotes p q ->
  (negb (zless_than (zget_sign (hw p) <? 0) (comp (hv p) i * bden b) (comp (bmin b) i * hw p)) &&
   negb (zless_than (zget_sign (hw p) <? 0) (comp (bmax b) i * hw p) (comp (hv p) i * bden b)) = true <->
   (box_lo b i <= qcomp q i /\ qcomp q i <= box_hi b i)%Q).
Proof.
  intros H D. unfold box_lo, box_hi. rewrite (div_le_iff _ _ _ (inj_pos _ H)), (le_div_iff _ _ _ (inj_pos _ H)), zget_sign_neg.
  pose proof (denotes_comp p q i D) as C. destruct D as [Hw _]. rewrite andb_true_iff.
  rewrite (zless_than_scaled (hw p) _ _ (qcomp q i * inject_Z (bden b)) (inject_Z (comp (bmin b) i)) Hw), (zless_than_scaled (hw p) _ _ (inject_Z (comp (bmax b) i)) (qcomp q i * inject_Z (bden b)) Hw); rewrite ?inject_Z_mult, ?C; reflexivity || ring.
Qed.
Lemma bx_inside_spec b p q : box_wf b -> denotes p q -> (bx_inside b p = true <-> in_box b q).
Proof. intros H D. unfold bx_inside, in_box. rewrite all3_true. split; intros A i Hi; specialize (A i Hi); apply (inside_comp b p q i H D); exact A. Qed.
Lemma bx_border_pt_spec b p : box_wf b -> (bx_border_pt b p = true <-> on_border b (qpt p)).
Proof.
  intros H. unfold bx_border_pt, on_border. rewrite <- (bx_inside_pt_spec b p H). destruct (bx_inside_pt b p); cbn [negb]; [|split; [discriminate|intros [A _]; discriminate A]].
  rewrite any3_true. split.
  - intros (i & Hi & A). split; [reflexivity|]. exists i. split; [exact Hi|]. unfold box_lo, box_hi. rewrite !(eq_div_iff _ _ _ (inj_pos _ H)), qcomp_qpt, <- inject_Z_mult, !inject_Z_injective. lia.
  - intros [_ (i & Hi & A)]. exists i. split; [exact Hi|]. unfold box_lo, box_hi in A. rewrite !(eq_div_iff _ _ _ (inj_pos _ H)), qcomp_qpt, <- inject_Z_mult, !inject_Z_injective in A. lia.
Qed.
Lemma scaled_eq_iff w a c x y : w <> 0 -> (inject_Z a == x * inject_Z w)%Q -> (inject_Z c == y * inject_Z w)%Q ->
  (a = c <-> (x == y)%Q).
Proof.
  intros Hw Ha Hc. rewrite <- inject_Z_injective, Ha, Hc. pose proof (inject_Z_neq0 w Hw) as N. split; intros E.
  - apply Qmult_inj_r in E; assumption.
  - rewrite E. reflexivity.
Qed.
Lemma bx_border_spec b p q : box_wf b -> denotes p q -> (bx_border b p = true <-> on_border b q).
Proof.
  intros H D. unfold bx_border, on_border. rewrite <- (bx_inside_spec b p q H D). destruct (bx_inside b p); cbn [negb]; [|split; [discriminate|intros [A _]; discriminate A]].
  assert (K : forall i m, comp (hv p) i * bden b = m * hw p <-> (qcomp q i == inject_Z m / inject_Z (bden b))%Q).
  { intros i m. rewrite (eq_div_iff _ _ _ (inj_pos _ H)). pose proof (denotes_comp p q i D) as C. destruct D as [Hw _].
    apply (scaled_eq_iff (hw p)); [exact Hw| |]; rewrite inject_Z_mult, ?C; ring. }
  rewrite any3_true. split.
  - intros (i & Hi & A). split; [reflexivity|]. exists i. split; [exact Hi|]. apply orb_true_iff in A. unfold box_lo, box_hi. rewrite <- !K. lia.
  - intros [_ (i & Hi & A)]. exists i. split; [exact Hi|]. unfold box_lo, box_hi in A. rewrite <- !K in A. lia.
Qed.

(** ** Equality *)
Lemma bound_eq a b x y : 0 < a -> 0 < b -> (x * b = y * a <-> (inject_Z x / inject_Z a == inject_Z y / inject_Z b)%Q).
Proof.
  intros Ha Hb. rewrite (eq_div_iff _ _ _ (inj_pos _ Hb)).
  setoid_replace (inject_Z x / inject_Z a * inject_Z b)%Q with (inject_Z (x * b) / inject_Z a)%Q by (rewrite inject_Z_mult; field; apply inject_Z_neq0; lia).
  split.
  - intros E. rewrite E, inject_Z_mult. field. apply inject_Z_neq0; lia.
  - intros E. apply Qeq_sym in E. apply (eq_div_iff _ _ _ (inj_pos _ Ha)) in E. rewrite <- inject_Z_mult in E. apply (proj1 (inject_Z_injective _ _)) in E. lia.
Qed.
Lemma bx_eq_spec a b : box_wf a -> box_wf b ->
  (bx_eq a b = true <-> forall i, (i < 3)%nat -> (box_lo a i == box_lo b i)%Q /\ (box_hi a i == box_hi b i)%Q).
Proof.
  intros Ha Hb. unfold bx_eq, box_lo, box_hi.
  transitivity (v3_eq (v3_scale (bmin a) (bden b)) (v3_scale (bmin b) (bden a)) = true /\ v3_eq (v3_scale (bmax a) (bden b)) (v3_scale (bmax b) (bden a)) = true).
  { destruct (v3_eq (v3_scale (bmin a) _) _), (v3_eq (v3_scale (bmax a) _) _); cbn; intuition discriminate. }
  rewrite !v3_eq_comp. split.
  - intros [A B] i Hi. specialize (A i Hi). specialize (B i Hi). rewrite !comp_scale in A, B. split; apply (bound_eq _ _ _ _ Ha Hb); assumption.
  - intros A. split; intros i Hi; rewrite !comp_scale; apply (bound_eq _ _ _ _ Ha Hb); apply (A i Hi).
Qed.
Definition corner_point (f : nat -> Q) : qpoint := QP (f 0%nat) (f 1%nat) (f 2%nat).
Lemma qcomp_corner f i : (i < 3)%nat -> qcomp (corner_point f) i = f i.
Proof. intros H. destruct i as [|[|[|i]]]; try reflexivity; lia. Qed.
Lemma nonempty_bounds b q : in_box b q -> forall i, (i < 3)%nat -> (box_lo b i <= box_hi b i)%Q.
Proof. intros H i Hi. destruct (H i Hi) as [A B]. exact (Qle_trans _ _ _ A B). Qed.
Lemma corner_in b f q : in_box b q -> (forall i, (i < 3)%nat -> f i = box_lo b i \/ f i = box_hi b i) -> in_box b (corner_point f).
Proof. intros H F i Hi. rewrite qcomp_corner by exact Hi. pose proof (nonempty_bounds b q H i Hi) as L. destruct (F i Hi) as [E|E]; rewrite E; split; try apply Qle_refl; exact L. Qed.
Lemma bx_eq_sets a b qa qb : box_wf a -> box_wf b -> in_box a qa -> in_box b qb ->
  (bx_eq a b = true <-> forall q, in_box a q <-> in_box b q).
Proof.
  intros Wa Wb Na Nb. rewrite (bx_eq_spec a b Wa Wb). split.
  - intros E q. unfold in_box. split; intros H i Hi; destruct (E i Hi) as [E1 E2]; specialize (H i Hi); rewrite E1, E2 in * || rewrite <- E1, <- E2 in *; try exact H.
  - intros E i Hi.
    pose proof (corner_in a (box_lo a) qa Na (fun _ _ => or_introl eq_refl)) as A1. pose proof (corner_in a (box_hi a) qa Na (fun _ _ => or_intror eq_refl)) as A2.
    pose proof (corner_in b (box_lo b) qb Nb (fun _ _ => or_introl eq_refl)) as B1. pose proof (corner_in b (box_hi b) qb Nb (fun _ _ => or_intror eq_refl)) as B2.
    apply E in A1, A2. apply E in B1, B2. specialize (A1 i Hi). specialize (A2 i Hi). specialize (B1 i Hi). specialize (B2 i Hi).
    rewrite qcomp_corner in A1, A2, B1, B2 by exact Hi. split; apply Qle_antisym; tauto.
Qed.

(** ** GetPlaneSide *)
(** The coordinate of the box that minimises / maximises n*x. *)
Definition near (b : aabb) (h : hspace3) (pos : bool) (i : nat) : Z :=
  if Bool.eqb (0 <? comp (hn h) i) pos then comp (bmin b) i else comp (bmax b) i.
Definition near_point (b : aabb) (h : hspace3) (pos : bool) : qpoint :=
  corner_point (fun i => inject_Z (near b h pos i) / inject_Z (bden b))%Q.
Definition near_value (b : aabb) (h : hspace3) (pos : bool) : Z :=
  near b h pos 0 * comp (hn h) 0 + near b h pos 1 * comp (hn h) 1 + near b h pos 2 * comp (hn h) 2.
Lemma near_in b h pos q : in_box b q -> in_box b (near_point b h pos).
Proof. intros H. unfold near_point. apply (corner_in b _ q H). intros i Hi. unfold near. destruct (Bool.eqb _ _); [left|right]; reflexivity. Qed.
Lemma zget_sign_pos v : (0 <? zget_sign v) = (0 <? v).
Proof. pose proof (zget_sign_sgn v). lia. Qed.
Lemma bx_plane_side_eq b h : box_wf b -> bx_plane_side b h =
  if hd h * bden b <? near_value b h true then 1 else if near_value b h false <? hd h * bden b then -1 else 0.
Proof.
  intros H. unfold bx_plane_side, near_value, near. rewrite !zget_sign_pos, (zabs_mult_sgn (bden b)), !zcompare_sgn by (unfold box_wf in H; lia).
  replace (Z.sgn (bden b)) with 1 by (unfold box_wf in H; lia). rewrite !Z.mul_1_r.
  match goal with |- context [Z.sgn (?a - ?c)] => generalize a; intros m1 end.
  match goal with |- context [Z.sgn (?a - hd h * bden b) <? 0] => generalize a; intros m2 end.
  generalize (hd h * bden b). intros d.
  destruct (Z.ltb_spec d m1), (Z.ltb_spec m2 d), (0 <? Z.sgn (m1 - d)) eqn:E1, (Z.sgn (m2 - d) <? 0) eqn:E2; lia || reflexivity.
Qed.
Lemma near_side b h pos : box_wf b -> (side h (near_point b h pos) * inject_Z (bden b) == inject_Z (near_value b h pos - hd h * bden b))%Q.
Proof.
  intros H. unfold side, near_point, near_value, qdot, corner_point. cbn [qx qy qz qpt]. rewrite inject_Z_sub, !inject_Z_plus, !inject_Z_mult.
  change (vx (hn h)) with (comp (hn h) 0). change (vy (hn h)) with (comp (hn h) 1). change (vz (hn h)) with (comp (hn h) 2).
  field. apply inject_Z_neq0. unfold box_wf in H. lia.
Qed.
Lemma near_side_sign b h pos : box_wf b -> qsign (side h (near_point b h pos)) = Z.sgn (near_value b h pos - hd h * bden b).
Proof. intros H. pose proof (near_side b h pos H) as E. apply Qeq_sym in E. apply sgn_of_q in E. rewrite E. unfold box_wf in H. rewrite (Z.sgn_pos (bden b)) by lia. lia. Qed.
Lemma near_extreme_comp b h q i pos : box_wf b -> in_box b q -> (i < 3)%nat ->
  let n := inject_Z (comp (hn h) i) in let c := (inject_Z (near b h pos i) / inject_Z (bden b))%Q in
  if pos then (n * c <= n * qcomp q i)%Q else (n * qcomp q i <= n * c)%Q.
Proof.
  intros H I Hi n c. destruct (I i Hi) as [A B]. unfold c, n, near. clear c n. unfold box_lo, box_hi in *.
  destruct (Z.ltb_spec 0 (comp (hn h) i)) as [P|P].
  - assert (PQ : (0 <= inject_Z (comp (hn h) i))%Q) by (change 0%Q with (inject_Z 0); rewrite <- Zle_Qle; lia).
    destruct pos; cbn [Bool.eqb]; rewrite (Qmult_comm _ (qcomp q i)), (Qmult_comm _ (_ / _)); apply Qmult_le_compat_r; assumption.
  - assert (PQ : (0 <= - inject_Z (comp (hn h) i))%Q) by (rewrite <- inject_Z_opp; change 0%Q with (inject_Z 0); rewrite <- Zle_Qle; lia).
    destruct pos; cbn [Bool.eqb].
    + assert (M := Qmult_le_compat_r _ _ _ B PQ). lra.
    + assert (M := Qmult_le_compat_r _ _ _ A PQ). lra.
Qed.
Lemma near_extreme b h q : box_wf b -> in_box b q ->
  (side h (near_point b h true) <= side h q /\ side h q <= side h (near_point b h false))%Q.
Proof.
  intros H I. unfold side, near_point, qdot, corner_point. cbn [qx qy qz qpt].
  pose proof (near_extreme_comp b h q 0 true H I ltac:(lia)). pose proof (near_extreme_comp b h q 1 true H I ltac:(lia)). pose proof (near_extreme_comp b h q 2 true H I ltac:(lia)).
  pose proof (near_extreme_comp b h q 0 false H I ltac:(lia)). pose proof (near_extreme_comp b h q 1 false H I ltac:(lia)). pose proof (near_extreme_comp b h q 2 false H I ltac:(lia)).
  cbn [qcomp comp] in *. split; lra.
Qed.
(** The points of a box between two of its points are in the box. *)
Lemma box_convex b p q t : in_box b p -> in_box b q -> (0 <= t <= 1)%Q -> in_box b (qadd p (qscale t (qsub q p))).
Proof.
  intros P Q T i Hi. destruct (P i Hi) as [A1 A2]. destruct (Q i Hi) as [B1 B2].
  assert (E : qcomp (qadd p (qscale t (qsub q p))) i = (qcomp p i + t * (qcomp q i - qcomp p i))%Q) by (destruct i as [|[|i]]; reflexivity).
  rewrite E. generalize dependent (qcomp p i). intros x. generalize dependent (qcomp q i). intros y. intros. generalize dependent (box_lo b i). generalize dependent (box_hi b i). intros. split; nra.
Qed.
Lemma side_affine h p q t : (side h (qadd p (qscale t (qsub q p))) == side h p + t * (side h q - side h p))%Q.
Proof. unfold side, qdot, qadd, qscale, qsub; cbn [qx qy qz]. ring. Qed.
Lemma bx_plane_side_spec b h q0 : box_wf b -> in_box b q0 ->
  (bx_plane_side b h = 1 <-> forall q, in_box b q -> (0 < side h q)%Q) /\
  (bx_plane_side b h = -1 <-> forall q, in_box b q -> (side h q < 0)%Q) /\
  (bx_plane_side b h = 0 <-> exists q, in_box b q /\ (side h q == 0)%Q).
Proof.
  intros H I. rewrite (bx_plane_side_eq b h H).
  pose proof (near_side_sign b h true H) as S1. pose proof (near_side_sign b h false H) as S2.
  pose proof (near_in b h true q0 I) as N1. pose proof (near_in b h false q0 I) as N2.
  set (m1 := near_value b h true) in *. set (m2 := near_value b h false) in *. set (d := hd h * bden b) in *.
  assert (P1 : d < m1 <-> (0 < side h (near_point b h true))%Q) by (rewrite <- qsign_pos, S1; lia).
  assert (P2 : m2 < d <-> (side h (near_point b h false) < 0)%Q) by (rewrite <- qsign_neg, S2; lia).
  assert (A1 : d < m1 <-> forall q, in_box b q -> (0 < side h q)%Q).
  { rewrite P1. split; [intros L q Q; apply (Qlt_le_trans _ _ _ L), (near_extreme b h q H Q)|intros A; apply A, N1]. }
  assert (A2 : m2 < d <-> forall q, in_box b q -> (side h q < 0)%Q).
  { rewrite P2. split; [intros L q Q; apply (Qle_lt_trans _ (side h (near_point b h false))); [apply (near_extreme b h q H Q)|exact L]|intros A; apply A, N2]. }
  clear S1 S2. split; [|split].
  - rewrite <- A1. destruct (Z.ltb_spec d m1), (Z.ltb_spec m2 d); lia.
  - rewrite <- A2. destruct (Z.ltb_spec d m1) as [G|G]; [|destruct (Z.ltb_spec m2 d); lia].
    split; [discriminate|]. intros L. apply A2 in P2 || idtac.
    exfalso. assert (X := proj1 A1 G q0 I). assert (Y := proj1 A2 L q0 I). lra.
  - split.
    + intros E. destruct (Z.ltb_spec d m1) as [G|G]; [discriminate E|]. destruct (Z.ltb_spec m2 d) as [G'|G']; [discriminate E|]. clear E.
      assert (B1 : (side h (near_point b h true) <= 0)%Q) by (apply Qnot_lt_le; rewrite <- P1; lia).
      assert (B2 : (0 <= side h (near_point b h false))%Q) by (apply Qnot_lt_le; rewrite <- P2; lia).
      set (u := side h (near_point b h true)) in *. set (v := side h (near_point b h false)) in *.
      destruct (Qlt_le_dec u v) as [L|L].
      * exists (qadd (near_point b h true) (qscale (- u / (v - u)) (qsub (near_point b h false) (near_point b h true)))). split.
        -- apply box_convex; [assumption|assumption|]. split.
           ++ apply Qle_shift_div_l; lra.
           ++ apply Qle_shift_div_r; lra.
        -- rewrite side_affine. fold u v. field. intros Z. lra.
      * exists (near_point b h true). split; [assumption|]. fold u. lra.
    + intros (q & Q & E). destruct (Z.ltb_spec d m1) as [G|G].
      * exfalso. pose proof (proj1 A1 G q Q). lra.
      * destruct (Z.ltb_spec m2 d) as [G'|G']; [|reflexivity]. exfalso. pose proof (proj1 A2 G' q Q). lra.
Qed.
