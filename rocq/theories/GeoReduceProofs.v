(** Proofs about GeoModel: Reduce, and the 2D homogeneous order. *)
From Coq Require Import ZArith QArith Qfield List Bool Lia Lqa ZifyBool Znumtheory.
From Verif Require Import BigUIntModel GeoModel GeoSpec GeoProofs GeoDirProofs GeoAngleProofs GeoPlaneProofs GeoPluckerProofs.
Import ListNotations.
Open Scope Z_scope.

(** ** HomoPoint2 *)
Lemma scaled_lt a b wa wb p q : wa <> 0 -> wb <> 0 -> (inject_Z a == p * inject_Z wa)%Q -> (inject_Z b == q * inject_Z wb)%Q ->
  Z.sgn (b * wa - a * wb) = qsign (q - p) * Z.sgn (wa * wb).
Proof. intros Ha Hb A B. apply sgn_of_q. qpush. rewrite A, B. ring. Qed.
Lemma lex2_pos a1 a2 b1 b2 (p1 p2 q1 q2 : Q) : Z.sgn (b1 - a1) = qsign (q1 - p1) -> Z.sgn (b2 - a2) = qsign (q2 - p2) ->
  (lex2 Z.ltb (a1, a2) (b1, b2) = true <-> (p1 < q1 \/ (p1 == q1 /\ p2 < q2))%Q).
Proof.
  intros E1 E2. unfold lex2; cbn [fst snd]. rewrite <- !qsign_sub_gt, <- E2.
  assert (EQ : (p1 == q1)%Q <-> qsign (q1 - p1) = 0) by (rewrite qsign_sub_eq; split; intros; symmetry; assumption).
  rewrite EQ, <- E1. destruct (a1 <? b1) eqn:A; [split; [left; lia|reflexivity]|].
  destruct (b1 <? a1) eqn:B; [split; [discriminate|lia]|]. lia.
Qed.
Lemma hp2_lex_lt_same_sign a b p q : denotes2 a p -> denotes2 b q -> 0 < hw2 a * hw2 b ->
  (hp2_lex_lt a b = true <-> qlex2_lt p q).
Proof.
  intros (W1 & X1 & Y1) (W2 & X2 & Y2) P. unfold hp2_lex_lt, v2_scale; cbn [x2 y2].
  apply lex2_pos; [rewrite (scaled_lt _ _ _ _ _ _ W1 W2 X1 X2)|rewrite (scaled_lt _ _ _ _ _ _ W1 W2 Y1 Y2)]; rewrite (Z.sgn_pos _ P); ring.
Qed.
Lemma qsign_opp_sub p q : qsign (p - q) = - qsign (q - p).
Proof. rewrite (qsign_comp (p - q) ((q - p) * (-1)))%Q by ring. rewrite qsign_mult. change (qsign (-1)) with (-1). ring. Qed.
Lemma hp2_lex_lt_opposite_sign a b p q : denotes2 a p -> denotes2 b q -> hw2 a * hw2 b < 0 ->
  (hp2_lex_lt a b = true <-> qlex2_lt q p).
Proof.
  intros (W1 & X1 & Y1) (W2 & X2 & Y2) P. unfold hp2_lex_lt, v2_scale; cbn [x2 y2].
  apply lex2_pos; [rewrite (scaled_lt _ _ _ _ _ _ W1 W2 X1 X2), (qsign_opp_sub (qx2 p))|rewrite (scaled_lt _ _ _ _ _ _ W1 W2 Y1 Y2), (qsign_opp_sub (qy2 p))];
  rewrite (Z.sgn_neg _ P); ring.
Qed.
Lemma hp2_eq_spec a b p q : denotes2 a p -> denotes2 b q -> (hp2_eq a b = true <-> qp2_eq p q).
Proof.
  intros (W1 & X1 & Y1) (W2 & X2 & Y2). unfold hp2_eq, v2_eq, v2_scale, qp2_eq; cbn [x2 y2]. rewrite andb_true_iff, !Z.eqb_eq.
  assert (W : hw2 a * hw2 b <> 0) by nia.
  rewrite (q_eq_scaled _ _ (qx2 p) (qx2 q) _ W), (q_eq_scaled _ _ (qy2 p) (qy2 q) _ W);
  [reflexivity|..]; qpush; rewrite ?X1, ?X2, ?Y1, ?Y2; ring.
Qed.

(** ** Reduce *)
Lemma zdivide_ok a b : b <> 0 -> ~ (a = - 2 ^ 63 /\ b = -1) -> zdivide a b = Ok (Z.quot a b).
Proof. intros H1 H2. unfold zdivide. rewrite (zdiv_rem_ok a b H1 H2). reflexivity. Qed.
Lemma quot_exact a f : f <> 0 -> (f | a) -> a = f * Z.quot a f.
Proof. intros Hf [k ->]. rewrite Z.quot_mul by exact Hf. ring. Qed.
Lemma gcd_fold_spec : forall l a d, (d | fold_left Z.gcd l a) <-> (d | a) /\ divides_all d l.
Proof.
  intros l. unfold divides_all. induction l as [|c l IH]; intros a d; cbn [fold_left].
  - split; [auto|tauto].
  - rewrite IH. split.
    + intros [H F]. assert (d | a) by (eapply Z.divide_trans; [exact H|apply Z.gcd_divide_l]).
      assert (d | c) by (eapply Z.divide_trans; [exact H|apply Z.gcd_divide_r]). auto.
    + intros [H F]. inversion F; subst. split; [apply Z.gcd_greatest|]; assumption.
Qed.
Lemma reduce_generic l a f : Z.abs f = fold_left Z.gcd l a -> f <> 0 ->
  let r := List.map (fun c => Z.quot c f) (a :: l) in
  coprime r /\ a :: l = List.map (Z.mul f) r.
Proof.
  intros Hf Hnz r.
  assert (Df : divides_all f (a :: l)).
  { assert (X : (f | fold_left Z.gcd l a)). { rewrite <- Hf. apply Z.divide_abs_r. apply Z.divide_refl. }
    apply gcd_fold_spec in X. unfold divides_all. constructor; tauto. }
  assert (E : a :: l = List.map (Z.mul f) r).
  { unfold r. rewrite map_map. clear -Df Hnz. unfold divides_all in Df. induction (a :: l) as [|c m IH]; [reflexivity|].
    inversion Df; subst. cbn [List.map]. rewrite <- IH by assumption. f_equal. apply quot_exact; assumption. }
  split; [|exact E]. intros d Hd.
  assert (X : divides_all (f * d) (a :: l)).
  { rewrite E. unfold divides_all in *. clear -Hd. induction Hd as [|c m H Hm IH]; cbn [List.map]; constructor; [apply Z.mul_divide_mono_l; exact H|exact IH]. }
  assert (Y : (f * d | f)).
  { apply Z.divide_abs_r. rewrite Hf. apply gcd_fold_spec. inversion X; subst. split; assumption. }
  destruct Y as [k Hk]. exists k. apply (Z.mul_reg_l _ _ f Hnz). lia.
Qed.
Lemma gcd_zero l a : fold_left Z.gcd l a = 0 <-> Forall (fun c => c = 0) (a :: l).
Proof.
  split.
  - intros H. assert (X : (0 | fold_left Z.gcd l a)) by (rewrite H; apply Z.divide_refl).
    apply gcd_fold_spec in X. destruct X as [X Y]. constructor; [apply Z.divide_0_l; exact X|].
    unfold divides_all in Y. eapply Forall_impl; [|exact Y]. intros c; cbn. apply Z.divide_0_l.
  - intros H. inversion H as [|c m H1 H2]; subst. apply Z.divide_0_l. apply gcd_fold_spec. split; [apply Z.divide_refl|].
    unfold divides_all. eapply Forall_impl; [|exact H2]. intros c ->. apply Z.divide_refl.
Qed.
(** Chains of gcd calls. *)
Fixpoint gcd_chain (gcd : Z -> Z -> res Z) (a : Z) (l : list Z) : res Z :=
  match l with [] => Ok a | c :: l => g <- gcd a c ;; gcd_chain gcd g l end.
Lemma fold_gcd_abs l a b : Z.abs a = Z.abs b -> l <> [] -> fold_left Z.gcd l a = fold_left Z.gcd l b.
Proof.
  intros E. destruct l as [|c l]; [congruence|]. intros _. cbn [fold_left]. f_equal.
  rewrite <- (Z.gcd_abs_l a), <- (Z.gcd_abs_l b), E. reflexivity.
Qed.
Lemma fold_gcd_nonneg l a : 0 <= a -> 0 <= fold_left Z.gcd l a.
Proof. revert a. induction l as [|c l IH]; intros a H; cbn [fold_left]; [exact H|]. apply IH, Z.gcd_nonneg. Qed.
Lemma gcd_chain_spec gcd l : gcd_ok gcd -> l <> [] -> forall a g, gcd_chain gcd a l = Ok g -> Z.abs g = fold_left Z.gcd l a.
Proof.
  intros [G _] Hl. induction l as [|c l IH]; [congruence|]. clear Hl. intros a g. cbn [gcd_chain fold_left].
  destruct (gcd a c) as [h| | |] eqn:E; try discriminate. cbn [rbind]. apply G in E. destruct l as [|c' l].
  - cbn [gcd_chain fold_left]. intros X. injection X as <-. exact E.
  - intros H. rewrite (IH ltac:(discriminate) h g H). apply fold_gcd_abs; [|discriminate].
    rewrite E. symmetry. apply Z.abs_eq, Z.gcd_nonneg.
Qed.
Lemma gcd_chain_total gcd l : gcd_ok gcd -> forall a, Forall (fun c => 0 <= c) l -> exists g, gcd_chain gcd a l = Ok g.
Proof.
  intros [_ T]. induction l as [|c l IH]; intros a F; cbn [gcd_chain]; [eexists; reflexivity|].
  inversion F; subst. destruct (T a c ltac:(right; assumption)) as [g ->]. cbn [rbind]. apply IH. assumption.
Qed.
Lemma hs_reduce_chain gcd h : hs_reduce gcd h = (g <- gcd_chain gcd (vx (hn h)) [vy (hn h); vz (hn h); hd h] ;; let f := Z.abs g in
  d <- zdivide (hd h) f ;; x <- zdivide (vx (hn h)) f ;; y <- zdivide (vy (hn h)) f ;; z <- zdivide (vz (hn h)) f ;; Ok (HS (V3 x y z) d)).
Proof.
  unfold hs_reduce, gcd_chain. destruct (gcd (vx (hn h)) (vy (hn h))); cbn [rbind]; try reflexivity.
  destruct (gcd _ (vz (hn h))); cbn [rbind]; try reflexivity. destruct (gcd _ (hd h)); reflexivity.
Qed.
Lemma v3_reduce_chain gcd v : v3_reduce gcd v = (g <- gcd_chain gcd (vx v) [vy v; vz v] ;; let f := Z.abs g in
  x <- zdivide (vx v) f ;; y <- zdivide (vy v) f ;; z <- zdivide (vz v) f ;; Ok (V3 x y z)).
Proof.
  unfold v3_reduce, gcd_chain. destruct (gcd (vx v) (vy v)); cbn [rbind]; try reflexivity. destruct (gcd _ (vz v)); reflexivity.
Qed.
Lemma pl_reduce_chain gcd l : pl_reduce gcd l = (g <- gcd_chain gcd (vx (ld l)) [vy (ld l); vz (ld l); vx (lm l); vy (lm l); vz (lm l)] ;; let f := Z.abs g in
  a <- zdivide (vx (ld l)) f ;; b <- zdivide (vy (ld l)) f ;; c <- zdivide (vz (ld l)) f ;;
  d <- zdivide (vx (lm l)) f ;; e <- zdivide (vy (lm l)) f ;; g <- zdivide (vz (lm l)) f ;; Ok (PL (V3 a b c) (V3 d e g))).
Proof.
  unfold pl_reduce, gcd_chain. destruct (gcd (vx (ld l)) (vy (ld l))); cbn [rbind]; try reflexivity.
  destruct (gcd _ (vz (ld l))); cbn [rbind]; try reflexivity. destruct (gcd _ (vx (lm l))); cbn [rbind]; try reflexivity.
  destruct (gcd _ (vy (lm l))); cbn [rbind]; try reflexivity. destruct (gcd _ (vz (lm l))); reflexivity.
Qed.
Lemma hp_reduce_chain gcd p : hp_reduce gcd p = (f <- gcd_chain gcd (hw p) [vx (hv p); vy (hv p); vz (hv p)] ;;
  let f := if Bool.eqb (zget_sign f <? 0) (zget_sign (hw p) <? 0) then f else - f in
  w <- zdivide (hw p) f ;; x <- zdivide (vx (hv p)) f ;; y <- zdivide (vy (hv p)) f ;; z <- zdivide (vz (hv p)) f ;; Ok (HP (V3 x y z) w)).
Proof.
  unfold hp_reduce, gcd_chain. destruct (gcd (hw p) (vx (hv p))); cbn [rbind]; try reflexivity.
  destruct (gcd _ (vy (hv p))); cbn [rbind]; try reflexivity. destruct (gcd _ (vz (hv p))); reflexivity.
Qed.
(** The gcd chain of a list that is not all zero. *)
Lemma chain_spec gcd c l a g : gcd_ok gcd -> gcd_chain gcd a (c :: l) = Ok g -> Z.abs g = fold_left Z.gcd (c :: l) a.
Proof. intros G. apply gcd_chain_spec; [exact G|discriminate]. Qed.
Lemma chain_nonzero gcd a c l g : gcd_ok gcd -> ~ Forall (fun c => c = 0) (a :: c :: l) -> gcd_chain gcd a (c :: l) = Ok g -> 0 < Z.abs g.
Proof.
  intros G N H. pose proof (chain_spec gcd c l a g G H) as E. rewrite <- gcd_zero in N. lia.
Qed.
Lemma hs_reduce_ok gcd h g : gcd_ok gcd -> ~ Forall (fun c => c = 0) (l4 h) -> gcd_chain gcd (vx (hn h)) [vy (hn h); vz (hn h); hd h] = Ok g ->
  exists r, hs_reduce gcd h = Ok r /\ reduced_form (l4 h) (l4 r).
Proof.
  intros G N H. rewrite hs_reduce_chain, H. cbn [rbind]. unfold l4 in *.
  pose proof (chain_nonzero gcd _ _ _ g G N H) as P.
  pose proof (chain_spec gcd _ _ _ g G H) as E.
  pose proof (reduce_generic _ _ (Z.abs g) (eq_trans (Z.abs_involutive g) E) ltac:(lia)) as [C X].
  rewrite !zdivide_ok by lia. cbn [rbind]. eexists. split; [reflexivity|]. cbn [hn hd vx vy vz].
  split; [exact C|]. exists (Z.abs g). split; [exact P|exact X].
Qed.
Lemma v3_reduce_ok gcd v g : gcd_ok gcd -> ~ Forall (fun c => c = 0) (l3 v) -> gcd_chain gcd (vx v) [vy v; vz v] = Ok g ->
  exists r, v3_reduce gcd v = Ok r /\ reduced_form (l3 v) (l3 r).
Proof.
  intros G N H. rewrite v3_reduce_chain, H. cbn [rbind]. unfold l3 in *.
  pose proof (chain_nonzero gcd _ _ _ g G N H) as P.
  pose proof (chain_spec gcd _ _ _ g G H) as E.
  pose proof (reduce_generic _ _ (Z.abs g) (eq_trans (Z.abs_involutive g) E) ltac:(lia)) as [C X].
  rewrite !zdivide_ok by lia. cbn [rbind]. eexists. split; [reflexivity|]. cbn [vx vy vz].
  split; [exact C|]. exists (Z.abs g). split; [exact P|exact X].
Qed.
Lemma pl_reduce_ok gcd l g : gcd_ok gcd -> ~ Forall (fun c => c = 0) (l6 l) ->
  gcd_chain gcd (vx (ld l)) [vy (ld l); vz (ld l); vx (lm l); vy (lm l); vz (lm l)] = Ok g ->
  exists r, pl_reduce gcd l = Ok r /\ reduced_form (l6 l) (l6 r).
Proof.
  intros G N H. rewrite pl_reduce_chain, H. cbn [rbind]. unfold l6 in *.
  pose proof (chain_nonzero gcd _ _ _ g G N H) as P.
  pose proof (chain_spec gcd _ _ _ g G H) as E.
  pose proof (reduce_generic _ _ (Z.abs g) (eq_trans (Z.abs_involutive g) E) ltac:(lia)) as [C X].
  rewrite !zdivide_ok by lia. cbn [rbind]. eexists. split; [reflexivity|]. cbn [ld lm vx vy vz].
  split; [exact C|]. exists (Z.abs g). split; [exact P|exact X].
Qed.
(** Whenever Reduce returns; and it returns when no component is negative. *)
Ltac invert_chain H g E := match type of H with (rbind ?c _ = _) => destruct c as [g| | |] eqn:E; try discriminate H end.
Lemma hs_reduce_spec gcd h r : gcd_ok gcd -> ~ Forall (fun c => c = 0) (l4 h) -> hs_reduce gcd h = Ok r -> reduced_form (l4 h) (l4 r).
Proof.
  intros G N H. assert (H' := H). rewrite hs_reduce_chain in H. invert_chain H g E.
  destruct (hs_reduce_ok gcd h g G N E) as (r' & R & F). congruence.
Qed.
Lemma v3_reduce_spec gcd v r : gcd_ok gcd -> ~ Forall (fun c => c = 0) (l3 v) -> v3_reduce gcd v = Ok r -> reduced_form (l3 v) (l3 r).
Proof.
  intros G N H. assert (H' := H). rewrite v3_reduce_chain in H. invert_chain H g E.
  destruct (v3_reduce_ok gcd v g G N E) as (r' & R & F). congruence.
Qed.
Lemma pl_reduce_spec gcd l r : gcd_ok gcd -> ~ Forall (fun c => c = 0) (l6 l) -> pl_reduce gcd l = Ok r -> reduced_form (l6 l) (l6 r).
Proof.
  intros G N H. assert (H' := H). rewrite pl_reduce_chain in H. invert_chain H g E.
  destruct (pl_reduce_ok gcd l g G N E) as (r' & R & F). congruence.
Qed.
Lemma hs_reduce_total gcd h : gcd_ok gcd -> ~ Forall (fun c => c = 0) (l4 h) -> Forall (fun c => 0 <= c) (tl (l4 h)) -> exists r, hs_reduce gcd h = Ok r.
Proof.
  intros G N P. destruct (gcd_chain_total gcd _ G (vx (hn h)) P) as [g E]. destruct (hs_reduce_ok gcd h g G N E) as (r & R & _). eauto.
Qed.
Lemma v3_reduce_total gcd v : gcd_ok gcd -> ~ Forall (fun c => c = 0) (l3 v) -> Forall (fun c => 0 <= c) (tl (l3 v)) -> exists r, v3_reduce gcd v = Ok r.
Proof.
  intros G N P. destruct (gcd_chain_total gcd _ G (vx v) P) as [g E]. destruct (v3_reduce_ok gcd v g G N E) as (r & R & _). eauto.
Qed.
Lemma pl_reduce_total gcd l : gcd_ok gcd -> ~ Forall (fun c => c = 0) (l6 l) -> Forall (fun c => 0 <= c) (tl (l6 l)) -> exists r, pl_reduce gcd l = Ok r.
Proof.
  intros G N P. destruct (gcd_chain_total gcd _ G (vx (ld l)) P) as [g E]. destruct (pl_reduce_ok gcd l g G N E) as (r & R & _). eauto.
Qed.
Lemma hp_reduce_facts gcd p g : gcd_ok gcd -> hw p <> 0 -> gcd_chain gcd (hw p) [vx (hv p); vy (hv p); vz (hv p)] = Ok g ->
  let f := if Bool.eqb (zget_sign g <? 0) (zget_sign (hw p) <? 0) then g else - g in
  f <> 0 /\ (f < 0 <-> hw p < 0) /\ coprime (List.map (fun c => Z.quot c f) (lp p)) /\ lp p = List.map (Z.mul f) (List.map (fun c => Z.quot c f) (lp p)).
Proof.
  intros G W H f. pose proof (chain_spec gcd _ _ _ g G H) as E.
  assert (Hg : g <> 0). { intros ->. symmetry in E. apply gcd_zero in E. inversion E; subst. contradiction. }
  assert (Af : Z.abs f = Z.abs g) by (unfold f; destruct (Bool.eqb _ _); lia).
  assert (Hf : f <> 0) by lia. split; [exact Hf|]. split.
  - unfold f. rewrite !zget_sign_neg. destruct (g <? 0) eqn:A, (hw p <? 0) eqn:B; cbn [Bool.eqb]; lia.
  - apply (reduce_generic [vx (hv p); vy (hv p); vz (hv p)] (hw p) f); [lia|exact Hf].
Qed.
Lemma hp_reduce_ok gcd p q g : gcd_ok gcd -> denotes p q -> gcd_chain gcd (hw p) [vx (hv p); vy (hv p); vz (hv p)] = Ok g ->
  ~ (hw p < 0 /\ coprime (lp p) /\ In (- 2 ^ 63) (lp p)) ->
  exists r, hp_reduce gcd p = Ok r /\ denotes r q /\ 0 < hw r /\ coprime (lp r).
Proof.
  intros G Hq H N. pose proof Hq as (W & X & Y & Z). rewrite hp_reduce_chain, H. cbn [rbind].
  destruct (hp_reduce_facts gcd p g G W H) as (Hf & Sf & C & E).
  set (f := if Bool.eqb (zget_sign g <? 0) (zget_sign (hw p) <? 0) then g else - g) in *.
  assert (NU : forall c, In c (lp p) -> ~ (c = - 2 ^ 63 /\ f = -1)).
  { intros c Hc [-> Ef]. apply N. split; [lia|]. split; [|exact Hc].
    intros d Hd. apply (C d). set (r := List.map (fun c => Z.quot c f) _) in *.
    rewrite E in Hd. clear -Hd Ef. clearbody r f. subst f. unfold divides_all in *. induction r as [|c r IH]; [constructor|].
    cbn [List.map] in Hd. inversion Hd; subst. constructor; [|apply IH; assumption].
    apply Z.divide_opp_r. replace (- c) with (-1 * c) by ring. assumption. }
  unfold lp in NU, E, C. cbn [In] in NU.
  rewrite !zdivide_ok by (first [exact Hf | apply NU; tauto]). cbn [rbind]. eexists. split; [reflexivity|].
  cbn [List.map] in E, C. rewrite !cons_eq in E. destruct E as (E1 & E2 & E3 & E4 & _). unfold lp.
  cbn [hw hv vx vy vz]. set (w' := hw p ÷ f) in *. set (x' := vx (hv p) ÷ f) in *. set (y' := vy (hv p) ÷ f) in *. set (z' := vz (hv p) ÷ f) in *.
  assert (W' : 0 < w') by nia. split; [|split; [exact W'|exact C]].
  pose proof (inject_Z_neq0 _ Hf) as Qf.
  split; [cbn [hw]; lia|]. cbn [hv hw vx vy vz].
  rewrite E1, E2 in X. rewrite E1, E3 in Y. rewrite E1, E4 in Z. qpush_in X; qpush_in Y; qpush_in Z.
  repeat split; apply (Qmult_inj_l _ _ (inject_Z f) Qf).
  - rewrite X. ring.
  - rewrite Y. ring.
  - rewrite Z. ring.
Qed.
Lemma hp_reduce_ub gcd p : gcd_ok gcd -> hw p < 0 -> coprime (lp p) -> In (- 2 ^ 63) (lp p) -> forall r, hp_reduce gcd p <> Ok r.
Proof.
  intros G W C I r. rewrite hp_reduce_chain. destruct (gcd_chain _ _ _) as [g| | |] eqn:E; cbn [rbind]; try discriminate.
  pose proof (chain_spec gcd _ _ _ g G E) as X.
  set (f := if Bool.eqb (zget_sign g <? 0) (zget_sign (hw p) <? 0) then g else - g).
  assert (Dg : divides_all g (lp p)).
  { assert (K : (g | fold_left Z.gcd [vx (hv p); vy (hv p); vz (hv p)] (hw p))) by (rewrite <- X; apply Z.divide_abs_r, Z.divide_refl).
    apply gcd_fold_spec in K. constructor; tauto. }
  apply C in Dg. assert (Ag : g = 1 \/ g = -1) by (apply Z.divide_1_r; exact Dg).
  assert (F : f = -1). { unfold f. rewrite !zget_sign_neg. destruct (hw p <? 0) eqn:B; [|lia]. destruct Ag as [-> | ->]; reflexivity. }
  rewrite F. clear f F. unfold zdivide, zdiv_rem. cbn [Z.eqb].
  unfold lp in I; cbn [In] in I.
  destruct (hw p =? - 2 ^ 63) eqn:A1; [discriminate|]. cbn [andb Pos.eqb rbind].
  destruct (vx (hv p) =? - 2 ^ 63) eqn:A2; [discriminate|]. cbn [andb Pos.eqb rbind].
  destruct (vy (hv p) =? - 2 ^ 63) eqn:A3; [discriminate|]. cbn [andb Pos.eqb rbind].
  destruct (vz (hv p) =? - 2 ^ 63) eqn:A4; [discriminate|]. exfalso. lia.
Qed.
Lemma hp_reduce_spec gcd p q r : gcd_ok gcd -> denotes p q -> hp_reduce gcd p = Ok r -> denotes r q /\ 0 < hw r /\ coprime (lp r).
Proof.
  intros G D H. assert (H' := H). rewrite hp_reduce_chain in H. invert_chain H g E.
  destruct (hp_reduce_ok gcd p q g G D E) as (r' & R & F).
  - intros (A & B & C). apply (hp_reduce_ub gcd p G A B C r H').
  - rewrite H' in R. injection R as <-. exact F.
Qed.
Lemma hp_reduce_total gcd p : gcd_ok gcd -> 0 < hw p -> Forall (fun c => 0 <= c) [vx (hv p); vy (hv p); vz (hv p)] -> exists r, hp_reduce gcd p = Ok r.
Proof.
  intros G W P. destruct (gcd_chain_total gcd _ G (hw p) P) as [g E]. destruct (denotes_exists p ltac:(lia)) as [q D].
  destruct (hp_reduce_ok gcd p q g G D E) as (r & R & _); [lia|eauto].
Qed.
