(** Proofs about GeoModel: orientation, directions, angles. *)
From Coq Require Import ZArith QArith Qfield List Bool Lia Lqa ZifyBool.
From Verif Require Import BigUIntModel GeoModel GeoSpec GeoProofs.
Import ListNotations.
Open Scope Z_scope.

Lemma sgn_pm z : z <> 0 -> Z.sgn z = 1 \/ Z.sgn z = -1.
Proof. lia. Qed.

(** ** Orientation *)
Lemma p2_twist_spec c p1 p3 : Z.sgn (p2_twist c p1 p3) = qsign (turn (qpt2 c) (qpt2 p1) (qpt2 p3)).
Proof.
  unfold p2_twist. rewrite zget_sign_sgn.
  rewrite (sgn_of_q _ 1 (turn (qpt2 c) (qpt2 p1) (qpt2 p3))); [cbn; lia|].
  unfold turn, qcross2, qsub2, qpt2, v2_cross, v2_sub; cbn [qx2 qy2 x2 y2]. qpush. change (inject_Z 1) with 1%Q. ring.
Qed.
Lemma drop_dim_q d p : (d < 3)%nat -> qpt2 (drop_dim p d) = qdrop d (qpt p).
Proof. intros H. destruct d as [|[|[|d]]]; [reflexivity..|lia]. Qed.
Lemma p3_twist_spec d c p1 p3 : (d < 3)%nat ->
  Z.sgn (p3_twist d c p1 p3) = qsign (turn (qdrop d (qpt c)) (qdrop d (qpt p1)) (qdrop d (qpt p3))).
Proof. intros H. unfold p3_twist. rewrite p2_twist_spec, !drop_dim_q by exact H. reflexivity. Qed.
Lemma denotes_drop d p q : (d < 3)%nat -> denotes p q ->
  (inject_Z (x2 (drop_dim (hv p) d)) == qx2 (qdrop d q) * inject_Z (hw p))%Q /\
  (inject_Z (y2 (drop_dim (hv p) d)) == qy2 (qdrop d q) * inject_Z (hw p))%Q.
Proof.
  intros H (_ & Hx & Hy & Hz). destruct d as [|[|[|d]]]; [| | |lia]; cbn [drop_dim comp Nat.add Nat.modulo Nat.divmod fst snd x2 y2 qdrop qx2 qy2];
  split; assumption.
Qed.
Definition twist_int (d : nat) (c p1 p3 : hpoint3) : Z :=
  v2_cross (v2_sub (v2_scale (drop_dim (hv p1) d) (hw c)) (v2_scale (drop_dim (hv c) d) (hw p1)))
           (v2_sub (v2_scale (drop_dim (hv p3) d) (hw c)) (v2_scale (drop_dim (hv c) d) (hw p3))).
Lemma twist_int_sgn d c p1 p3 qc q1 q3 : (d < 3)%nat -> denotes c qc -> denotes p1 q1 -> denotes p3 q3 ->
  Z.sgn (twist_int d c p1 p3) = qsign (turn (qdrop d qc) (qdrop d q1) (qdrop d q3)) * (Z.sgn (hw p1) * Z.sgn (hw p3)).
Proof.
  intros Hd Hc H1 H3.
  assert (E : Z.sgn (hw p1) * Z.sgn (hw p3) = Z.sgn (hw p1 * hw p3 * (hw c * hw c))).
  { rewrite !Z.sgn_mul. destruct Hc as [Hc _]. destruct (sgn_pm _ Hc) as [-> | ->]; ring. }
  rewrite E. apply sgn_of_q. destruct (denotes_drop d c qc Hd Hc) as [Cx Cy].
  destruct (denotes_drop d p1 q1 Hd H1) as [Ax Ay]. destruct (denotes_drop d p3 q3 Hd H3) as [Bx By].
  unfold twist_int, v2_cross, v2_sub, v2_scale, turn, qcross2, qsub2. cbn [x2 y2 qx2 qy2]. qpush.
  rewrite Cx, Cy, Ax, Ay, Bx, By. ring.
Qed.
Lemma hp_twist_same_sign d c p1 p3 : (hw p1 <? 0) = (hw p3 <? 0) -> hp_twist d c p1 p3 = zget_sign (twist_int d c p1 p3).
Proof.
  intros H. unfold hp_twist. fold (twist_int d c p1 p3). unfold zsign_ext. rewrite <- H.
  rewrite Z.lxor_assoc, Z.lxor_nilpotent, Z.lxor_0_r. reflexivity.
Qed.
Lemma hp_twist_diff_sign d c p1 p3 : (hw p1 <? 0) <> (hw p3 <? 0) -> hp_twist d c p1 p3 = - zget_sign (twist_int d c p1 p3) - 1.
Proof.
  intros H. unfold hp_twist. fold (twist_int d c p1 p3). unfold zsign_ext. rewrite Z.lxor_assoc.
  replace (Z.lxor (if hw p1 <? 0 then -1 else 0) (if hw p3 <? 0 then -1 else 0)) with (-1).
  - rewrite Z.lxor_m1_r. unfold Z.lnot. lia.
  - destruct (hw p1 <? 0), (hw p3 <? 0); try reflexivity; contradiction H; reflexivity.
Qed.
Lemma hp_twist_spec d c p1 p3 qc q1 q3 : (d < 3)%nat -> denotes c qc -> denotes p1 q1 -> denotes p3 q3 ->
  0 < hw p1 * hw p3 -> Z.sgn (hp_twist d c p1 p3) = qsign (turn (qdrop d qc) (qdrop d q1) (qdrop d q3)).
Proof.
  intros Hd Hc H1 H3 S. rewrite hp_twist_same_sign by (destruct (hw p1 <? 0) eqn:E, (hw p3 <? 0) eqn:F; nia).
  rewrite zget_sign_sgn, (twist_int_sgn d c p1 p3 qc q1 q3) by assumption.
  replace (Z.sgn (hw p1) * Z.sgn (hw p3)) with 1; [ring|]. rewrite <- Z.sgn_mul. lia.
Qed.
Lemma hp_twist_opposite d c p1 p3 qc q1 q3 : (d < 3)%nat -> denotes c qc -> denotes p1 q1 -> denotes p3 q3 ->
  hw p1 * hw p3 < 0 ->
  (hp_twist d c p1 p3 < 0 <-> (turn (qdrop d qc) (qdrop d q1) (qdrop d q3) <= 0)%Q) /\
  ((turn (qdrop d qc) (qdrop d q1) (qdrop d q3) == 0)%Q -> hp_twist d c p1 p3 = -1).
Proof.
  intros Hd Hc H1 H3 S. rewrite hp_twist_diff_sign by (destruct (hw p1 <? 0) eqn:E, (hw p3 <? 0) eqn:F; nia).
  pose proof (twist_int_sgn d c p1 p3 qc q1 q3 Hd Hc H1 H3) as E. rewrite <- zget_sign_sgn in E.
  replace (Z.sgn (hw p1) * Z.sgn (hw p3)) with (-1) in E by (rewrite <- Z.sgn_mul; lia).
  set (t := turn _ _ _) in *. clearbody t. split.
  - assert (N : (t <= 0)%Q <-> ~ (0 < t)%Q) by (split; [apply Qle_not_lt|apply Qnot_lt_le]).
    rewrite N, <- qsign_pos. lia.
  - rewrite <- qsign_zero. intros Z0. rewrite Z0 in E. lia.
Qed.
Lemma reduce_sign_spec t : reduce_sign t = Z.sgn t.
Proof. unfold reduce_sign. destruct (0 <? t) eqn:E; [lia|]. destruct (t <? 0) eqn:F; lia. Qed.

(** ** Directions *)
Lemma dir_pos_step a b c c' u v : 0 <= a -> 0 <= b -> 0 < a + b -> c <> 0 -> a * c = b * c' -> a * u = b * v ->
  u * Z.abs c' = v * Z.abs c.
Proof.
  intros Ha Hb Hab Hc E F. assert (b <> 0) by (intros ->; nia).
  apply (Z.mul_reg_l _ _ b); [assumption|].
  replace (b * (u * Z.abs c')) with (u * Z.abs (b * c')) by (rewrite Z.abs_mul, (Z.abs_eq b) by lia; ring).
  rewrite <- E, Z.abs_mul, (Z.abs_eq a) by lia.
  replace (u * (a * Z.abs c)) with (a * u * Z.abs c) by ring. rewrite F. ring.
Qed.
Lemma dir_step a b c c' u v : a <> 0 \/ b <> 0 -> c <> 0 -> a * c = b * c' -> a * u = b * v -> u * c' = v * c.
Proof.
  intros Hab Hc E F. assert (b <> 0). { intros ->. destruct Hab; [|lia]. nia. }
  apply (Z.mul_reg_l _ _ b); [assumption|]. 
  replace (b * (u * c')) with (u * (b * c')) by ring. rewrite <- E.
  replace (u * (a * c)) with (a * u * c) by ring. rewrite F. ring.
Qed.
Lemma cons_eq {A} (a b : A) l m : a :: l = b :: m <-> a = b /\ l = m.
Proof. split; [intros H; injection H; auto|intros [-> ->]; reflexivity]. Qed.
Ltac split_eqs := rewrite ?andb_true_iff, ?Z.eqb_eq in *.
Ltac pos_witness so sm :=
  exists (Z.abs sm), (Z.abs so); cbn [List.map]; repeat rewrite cons_eq; repeat split; lia.
(** Two lists with a non-zero pivot. *)
Lemma v2_same_dir_spec a b r : v2_same_dir a b = Ok r -> (r = true <-> same_direction [x2 a; y2 a] [x2 b; y2 b]).
Proof.
  unfold v2_same_dir. destruct a as [ax ay], b as [bx by_]; cbn [x2 y2].
  destruct (ax =? 0) eqn:E; cbn [negb]; intros H;
  match type of H with context [zabs ?s] => destruct (zabs s) eqn:A1; try discriminate H end; cbn [rbind] in H;
  match type of H with context [zabs ?s] => destruct (zabs s) eqn:A2; try discriminate H end; cbn [rbind] in H;
  apply zabs_inv in A1, A2; subst; injection H as <-; rewrite !andb_true_iff, !Z.eqb_eq.
  - apply Z.eqb_eq in E. subst ax. split.
    + intros [X Y]. destruct (Z.eq_dec ay 0) as [->|N].
      * exists 1, 0. cbn [List.map]. rewrite !cons_eq. repeat split; lia.
      * exists (Z.abs by_), (Z.abs ay). cbn [List.map]. rewrite !cons_eq. repeat split; lia.
    + intros (s & t & Hs & Ht & Hst & M). cbn [List.map] in M. rewrite !cons_eq in M. destruct M as (M1 & M2 & _).
      destruct (Z.eq_dec ay 0) as [->|N]; [lia|].
      split; [apply (dir_pos_step s t ay by_); assumption|apply (dir_pos_step s t ay by_); assumption].
  - apply Z.eqb_neq in E. split.
    + intros [X Y]. exists (Z.abs bx), (Z.abs ax). cbn [List.map]. rewrite !cons_eq. repeat split; lia.
    + intros (s & t & Hs & Ht & Hst & M). cbn [List.map] in M. rewrite !cons_eq in M. destruct M as (M1 & M2 & _).
      split; apply (dir_pos_step s t ax bx); assumption.
Qed.
Lemma v2_same_or_opposite_spec a b : (v2_same_or_opposite_dir a b = true <-> parallel [x2 a; y2 a] [x2 b; y2 b]).
Proof.
  unfold v2_same_or_opposite_dir. destruct a as [ax ay], b as [bx by_]; cbn [x2 y2].
  destruct (ax =? 0) eqn:E; cbn [negb]; rewrite !andb_true_iff, !Z.eqb_eq.
  - apply Z.eqb_eq in E. subst ax. split.
    + intros [X Y]. destruct (Z.eq_dec ay 0) as [->|N].
      * exists 1, 0. cbn [List.map]. rewrite !cons_eq. repeat split; lia.
      * exists by_, ay. cbn [List.map]. rewrite !cons_eq. repeat split; lia.
    + intros (s & t & Hst & M). cbn [List.map] in M. rewrite !cons_eq in M. destruct M as (M1 & M2 & _).
      destruct (Z.eq_dec ay 0) as [->|N]; [lia|].
      split; apply (dir_step s t ay by_); assumption.
  - apply Z.eqb_neq in E. split.
    + intros [X Y]. exists bx, ax. cbn [List.map]. rewrite !cons_eq. repeat split; lia.
    + intros (s & t & Hst & M). cbn [List.map] in M. rewrite !cons_eq in M. destruct M as (M1 & M2 & _).
      split; apply (dir_step s t ax bx); assumption.
Qed.
(** The generic argument for longer tuples: [c]/[c'] is the pivot pair. *)
Lemma same_dir_generic us vs c c' : length us = length vs -> In (c, c') (combine us vs) ->
  (c = 0 -> Forall (fun u => u = 0) us) ->
  (List.map (fun u => u * Z.abs c') us = List.map (fun v => v * Z.abs c) vs <-> same_direction us vs).
Proof.
  intros L Hin Hz. split.
  - intros M. destruct (Z.eq_dec c 0) as [->|N].
    + exists 1, 0. specialize (Hz eq_refl). repeat split; try lia. clear M Hin c'.
      revert vs L. induction us as [|u us IH]; intros [|v vs] L; try discriminate L; [reflexivity|].
      inversion Hz as [|? ? Hu Hus]; subst. cbn [List.map]. rewrite (IH Hus vs) by (cbn in L; lia). f_equal; lia.
    + exists (Z.abs c'), (Z.abs c). repeat split; try lia.
      rewrite (map_ext (Z.mul (Z.abs c')) (fun u => u * Z.abs c')) by (intros; lia).
      rewrite (map_ext (Z.mul (Z.abs c)) (fun v => v * Z.abs c)) by (intros; lia). exact M.
  - intros (a & b & Ha & Hb & Hab & M).
    assert (P : forall u v, In (u, v) (combine us vs) -> a * u = b * v).
    { clear -M L. revert vs L M. induction us as [|u us IH]; intros [|v vs] L M; try discriminate L; cbn [combine In]; [tauto|].
      cbn [List.map] in M. injection M as M1 M2. intros x y [E|E]; [injection E as <- <-; exact M1|].
      apply (IH vs); [cbn in L; lia|exact M2|exact E]. }
    destruct (Z.eq_dec c 0) as [->|N].
    + specialize (Hz eq_refl). clear -Hz L. revert vs L. induction us as [|u us IH]; intros [|v vs] L; try discriminate L; [reflexivity|].
      inversion Hz as [|? ? Hu Hus]; subst. cbn [List.map]. rewrite (IH Hus vs) by (cbn in L; lia). f_equal. cbn. lia.
    + pose proof (P _ _ Hin) as Pc.
      assert (Q : forall u v, In (u, v) (combine us vs) -> u * Z.abs c' = v * Z.abs c).
      { intros u v H. apply (dir_pos_step a b c c' u v); auto. }
      clear -Q L. revert vs L Q. induction us as [|u us IH]; intros [|v vs] L Q; try discriminate L; [reflexivity|].
      cbn [List.map]. f_equal; [apply Q; left; reflexivity|]. apply IH; [cbn in L; lia|]. intros x y H. apply Q. right. exact H.
Qed.
Lemma parallel_generic us vs c c' : length us = length vs -> In (c, c') (combine us vs) ->
  (c = 0 -> Forall (fun u => u = 0) us) ->
  (List.map (fun u => u * c') us = List.map (fun v => v * c) vs <-> parallel us vs).
Proof.
  intros L Hin Hz. split.
  - intros M. destruct (Z.eq_dec c 0) as [->|N].
    + exists 1, 0. specialize (Hz eq_refl). split; [lia|]. clear M Hin c'.
      revert vs L. induction us as [|u us IH]; intros [|v vs] L; try discriminate L; [reflexivity|].
      inversion Hz as [|? ? Hu Hus]; subst. cbn [List.map]. rewrite (IH Hus vs) by (cbn in L; lia). f_equal; lia.
    + exists c', c. split; [lia|].
      rewrite (map_ext (Z.mul c') (fun u => u * c')) by (intros; lia).
      rewrite (map_ext (Z.mul c) (fun v => v * c)) by (intros; lia). exact M.
  - intros (a & b & Hab & M).
    assert (P : forall u v, In (u, v) (combine us vs) -> a * u = b * v).
    { clear -M L. revert vs L M. induction us as [|u us IH]; intros [|v vs] L M; try discriminate L; cbn [combine In]; [tauto|].
      cbn [List.map] in M. injection M as M1 M2. intros x y [E|E]; [injection E as <- <-; exact M1|].
      apply (IH vs); [cbn in L; lia|exact M2|exact E]. }
    destruct (Z.eq_dec c 0) as [->|N].
    + specialize (Hz eq_refl). clear -Hz L. revert vs L. induction us as [|u us IH]; intros [|v vs] L; try discriminate L; [reflexivity|].
      inversion Hz as [|? ? Hu Hus]; subst. cbn [List.map]. rewrite (IH Hus vs) by (cbn in L; lia). f_equal. lia.
    + pose proof (P _ _ Hin) as Pc.
      assert (Q : forall u v, In (u, v) (combine us vs) -> u * c' = v * c).
      { intros u v H. apply (dir_step a b c c' u v); auto. }
      clear -Q L. revert vs L Q. induction us as [|u us IH]; intros [|v vs] L Q; try discriminate L; [reflexivity|].
      cbn [List.map]. f_equal; [apply Q; left; reflexivity|]. apply IH; [cbn in L; lia|]. intros x y H. apply Q. right. exact H.
Qed.
Lemma v3_same_dir_spec a b r : v3_same_dir a b = Ok r -> (r = true <-> same_direction (l3 a) (l3 b)).
Proof.
  unfold v3_same_dir. destruct a as [ax ay az], b as [bx by_ bz]; unfold l3; cbn [vx vy vz]. intros H.
  destruct (ax =? 0) eqn:E; cbn [negb] in H; [destruct (ay =? 0) eqn:F; cbn [negb] in H|];
  match type of H with context [zabs ?s] => destruct (zabs s) eqn:A1; try discriminate H end; cbn [rbind] in H;
  match type of H with context [zabs ?s] => destruct (zabs s) eqn:A2; try discriminate H end; cbn [rbind] in H;
  apply zabs_inv in A1, A2; subst; injection H as <-.
  - rewrite <- (same_dir_generic _ _ az bz); [|reflexivity|cbn; auto|intros ->; repeat constructor; lia].
    cbn [List.map]. rewrite !cons_eq, !andb_true_iff, !Z.eqb_eq. tauto.
  - rewrite <- (same_dir_generic _ _ ay by_); [|reflexivity|cbn; auto|lia].
    cbn [List.map]. rewrite !cons_eq, !andb_true_iff, !Z.eqb_eq. tauto.
  - rewrite <- (same_dir_generic _ _ ax bx); [|reflexivity|cbn; auto|lia].
    cbn [List.map]. rewrite !cons_eq, !andb_true_iff, !Z.eqb_eq. tauto.
Qed.
Lemma v3_same_or_opposite_spec a b : (v3_same_or_opposite_dir a b = true <-> parallel (l3 a) (l3 b)).
Proof.
  unfold v3_same_or_opposite_dir. destruct a as [ax ay az], b as [bx by_ bz]; unfold l3; cbn [vx vy vz].
  destruct (ax =? 0) eqn:E; cbn [negb]; [destruct (ay =? 0) eqn:F; cbn [negb]|].
  - rewrite <- (parallel_generic _ _ az bz); [|reflexivity|cbn; auto|intros ->; repeat constructor; lia].
    cbn [List.map]. rewrite !cons_eq, !andb_true_iff, !Z.eqb_eq. tauto.
  - rewrite <- (parallel_generic _ _ ay by_); [|reflexivity|cbn; auto|lia].
    cbn [List.map]. rewrite !cons_eq, !andb_true_iff, !Z.eqb_eq. tauto.
  - rewrite <- (parallel_generic _ _ ax bx); [|reflexivity|cbn; auto|lia].
    cbn [List.map]. rewrite !cons_eq, !andb_true_iff, !Z.eqb_eq. tauto.
Qed.
Lemma hs_eq_spec a b r : hs_eq a b = Ok r -> (r = true <-> same_direction (l4 a) (l4 b)).
Proof.
  unfold hs_eq, hs_pivot, hs_scaled_eq. destruct a as [[ax ay az] ad], b as [[bx by_ bz] bd]; unfold l4; cbn [hn hd vx vy vz]. intros H.
  destruct (ad =? 0) eqn:D; cbn [negb] in H; [destruct (ax =? 0) eqn:E; cbn [negb] in H; [destruct (ay =? 0) eqn:F; cbn [negb] in H|]|];
  match type of H with context [zabs ?s] => destruct (zabs s) eqn:A1; try discriminate H end; cbn [rbind] in H;
  match type of H with context [zabs ?s] => destruct (zabs s) eqn:A2; try discriminate H end; cbn [rbind] in H;
  apply zabs_inv in A1, A2; subst; injection H as <-.
  - rewrite <- (same_dir_generic _ _ az bz); [|reflexivity|cbn; auto|intros ->; repeat constructor; lia].
    cbn [List.map]. rewrite !cons_eq, !andb_true_iff, !Z.eqb_eq. tauto.
  - rewrite <- (same_dir_generic _ _ ay by_); [|reflexivity|cbn; auto|lia].
    cbn [List.map]. rewrite !cons_eq, !andb_true_iff, !Z.eqb_eq. tauto.
  - rewrite <- (same_dir_generic _ _ ax bx); [|reflexivity|cbn; auto|lia].
    cbn [List.map]. rewrite !cons_eq, !andb_true_iff, !Z.eqb_eq. tauto.
  - rewrite <- (same_dir_generic _ _ ad bd); [|reflexivity|cbn; auto|lia].
    cbn [List.map]. rewrite !cons_eq, !andb_true_iff, !Z.eqb_eq. tauto.
Qed.
Lemma hs_same_or_opposite_spec a b : (hs_same_or_opposite a b = true <-> parallel (l4 a) (l4 b)).
Proof.
  unfold hs_same_or_opposite, hs_pivot, hs_scaled_eq. destruct a as [[ax ay az] ad], b as [[bx by_ bz] bd]; unfold l4; cbn [hn hd vx vy vz].
  destruct (ad =? 0) eqn:D; cbn [negb]; [destruct (ax =? 0) eqn:E; cbn [negb]; [destruct (ay =? 0) eqn:F; cbn [negb]|]|].
  - rewrite <- (parallel_generic _ _ az bz); [|reflexivity|cbn; auto|intros ->; repeat constructor; lia].
    cbn [List.map]. rewrite !cons_eq, !andb_true_iff, !Z.eqb_eq. tauto.
  - rewrite <- (parallel_generic _ _ ay by_); [|reflexivity|cbn; auto|lia].
    cbn [List.map]. rewrite !cons_eq, !andb_true_iff, !Z.eqb_eq. tauto.
  - rewrite <- (parallel_generic _ _ ax bx); [|reflexivity|cbn; auto|lia].
    cbn [List.map]. rewrite !cons_eq, !andb_true_iff, !Z.eqb_eq. tauto.
  - rewrite <- (parallel_generic _ _ ad bd); [|reflexivity|cbn; auto|lia].
    cbn [List.map]. rewrite !cons_eq, !andb_true_iff, !Z.eqb_eq. tauto.
Qed.
Lemma hs2_eq_spec a b r : hs2_eq a b = Ok r -> (r = true <-> same_direction (l2d a) (l2d b)).
Proof.
  unfold hs2_eq. destruct a as [[ax ay] ad], b as [[bx by_] bd]; unfold l2d; cbn [hn2 hd2 x2 y2]. intros H.
  destruct (ad =? 0) eqn:D; cbn [negb] in H; [destruct (ax =? 0) eqn:E; cbn [negb] in H|];
  match type of H with context [zabs ?s] => destruct (zabs s) eqn:A1; try discriminate H end; cbn [rbind] in H;
  match type of H with context [zabs ?s] => destruct (zabs s) eqn:A2; try discriminate H end; cbn [rbind] in H;
  apply zabs_inv in A1, A2; subst; injection H as <-.
  - rewrite <- (same_dir_generic _ _ ay by_); [|reflexivity|cbn; auto|intros ->; repeat constructor; lia].
    cbn [List.map]. rewrite !cons_eq, !andb_true_iff, !Z.eqb_eq. tauto.
  - rewrite <- (same_dir_generic _ _ ax bx); [|reflexivity|cbn; auto|lia].
    cbn [List.map]. rewrite !cons_eq, !andb_true_iff, !Z.eqb_eq. tauto.
  - rewrite <- (same_dir_generic _ _ ad bd); [|reflexivity|cbn; auto|lia].
    cbn [List.map]. rewrite !cons_eq, !andb_true_iff, !Z.eqb_eq. tauto.
Qed.
Lemma hs2_same_line_spec a b : (hs2_same_line a b = true <-> parallel (l2d a) (l2d b)).
Proof.
  unfold hs2_same_line. destruct a as [[ax ay] ad], b as [[bx by_] bd]; unfold l2d; cbn [hn2 hd2 x2 y2].
  destruct (ad =? 0) eqn:D; cbn [negb]; [destruct (ax =? 0) eqn:E; cbn [negb]|].
  - rewrite <- (parallel_generic _ _ ay by_); [|reflexivity|cbn; auto|intros ->; repeat constructor; lia].
    cbn [List.map]. rewrite !cons_eq, !andb_true_iff, !Z.eqb_eq. tauto.
  - rewrite <- (parallel_generic _ _ ax bx); [|reflexivity|cbn; auto|lia].
    cbn [List.map]. rewrite !cons_eq, !andb_true_iff, !Z.eqb_eq. tauto.
  - rewrite <- (parallel_generic _ _ ad bd); [|reflexivity|cbn; auto|lia].
    cbn [List.map]. rewrite !cons_eq, !andb_true_iff, !Z.eqb_eq. tauto.
Qed.
(** Totality: defined unless a pivot is INT64_MIN. *)
Lemma v2_same_dir_total a b : no_min [x2 a; y2 a] -> no_min [x2 b; y2 b] -> exists r, v2_same_dir a b = Ok r.
Proof.
  unfold no_min. rewrite !Forall_cons_iff. intros (A & B & _) (C & D & _). unfold v2_same_dir.
  destruct (x2 a =? 0); cbn [negb]; rewrite !zabs_ok by assumption; cbn [rbind]; eexists; reflexivity.
Qed.
Lemma v3_same_dir_total a b : no_min (l3 a) -> no_min (l3 b) -> exists r, v3_same_dir a b = Ok r.
Proof.
  unfold no_min, l3. rewrite !Forall_cons_iff. intros (A & B & C & _) (D & E & F & _). unfold v3_same_dir.
  destruct (vx a =? 0); cbn [negb]; [destruct (vy a =? 0); cbn [negb]|]; rewrite !zabs_ok by assumption; cbn [rbind]; eexists; reflexivity.
Qed.
Lemma hs_eq_total a b : no_min (l4 a) -> no_min (l4 b) -> exists r, hs_eq a b = Ok r.
Proof.
  unfold no_min, l4. rewrite !Forall_cons_iff. intros (A & B & C & G & _) (D & E & F & H & _). unfold hs_eq, hs_pivot.
  destruct (hd a =? 0); cbn [negb]; [destruct (vx (hn a) =? 0); cbn [negb]; [destruct (vy (hn a) =? 0); cbn [negb]|]|];
  rewrite !zabs_ok by assumption; cbn [rbind]; eexists; reflexivity.
Qed.
Lemma hs2_eq_total a b : no_min (l2d a) -> no_min (l2d b) -> exists r, hs2_eq a b = Ok r.
Proof.
  unfold no_min, l2d. rewrite !Forall_cons_iff. intros (A & B & C & _) (D & E & F & _). unfold hs2_eq.
  destruct (hd2 a =? 0); cbn [negb]; [destruct (x2 (hn2 a) =? 0); cbn [negb]|];
  rewrite !zabs_ok by assumption; cbn [rbind]; eexists; reflexivity.
Qed.
Lemma same_direction_nonzero us vs : length us = length vs -> Exists (fun u => u <> 0) us -> Exists (fun v => v <> 0) vs ->
  (same_direction us vs <-> exists a b, 0 < a /\ 0 < b /\ List.map (Z.mul a) us = List.map (Z.mul b) vs).
Proof.
  intros L Hu Hv. split; [|intros (a & b & Ha & Hb & M); exists a, b; repeat split; try lia; exact M].
  assert (K : forall k (l m : list Z), k <> 0 -> Exists (fun u => u <> 0) l -> length l = length m ->
              List.map (Z.mul k) l <> List.map (Z.mul 0) m).
  { intros k l m Hk Hl. revert m. induction Hl as [x l Hx|x l Hl IH]; intros [|y m] Lm; try discriminate Lm; cbn [List.map]; intros X; injection X as X1 X2.
    - nia. - apply (IH m); [cbn in Lm; lia|exact X2]. }
  intros (a & b & Ha & Hb & Hab & M). exists a, b. repeat split; [| |exact M].
  - destruct (Z.eq_dec a 0) as [->|]; [|lia]. exfalso. apply (K b vs us); [lia|exact Hv|symmetry; exact L|symmetry; exact M].
  - destruct (Z.eq_dec b 0) as [->|]; [|lia]. exfalso. apply (K a us vs); [lia|exact Hu|exact L|exact M].
Qed.
