(** IsValidState. *)
From Coq Require Import List ZArith QArith Lqa Lia Arith ZifyBool.
From Verif Require Import BigUIntModel GeoModel GeoSpec GeoProofs GeoPlaneProofs GeoPluckerProofs GeoDirProofs CvxSpec CvxProofs CvxSeqProofs CvxCapProofs PolyModel PolySpec PolyBridgeProofs PolyInfoProofs PolyCapProofs PolyMakeProofs.
Import ListNotations.
Open Scope Q_scope.
(** The checks between an edge and the next one. *)
Definition step_ok {A} (h : hspace3) (d : nat) (a b : pedge A) : Prop :=
  edge_valid b = true /\ hs_coincident h (pv b) = true /\ pl_eq (pl a) (pl_of_hpoints (pv a) (pv b)) = true /\ v3_same_dir (ld (pl a)) (ld (pl_of_hpoints (pv a) (pv b))) = Ok true /\
  (let c := v2_cross (drop_dim (ld (pl a)) d) (drop_dim (ld (pl b)) d) in negb (c =? 0)%Z && zdiff_sign c (comp (hn h) d) = false).
Lemma valid_loop_iff {A} h d (es : list (pedge A)) : forall prev, valid_loop h d prev es = Ok true <-> forall i a b, nth_error (prev :: es) i = Some a -> nth_error es i = Some b -> step_ok h d a b.
Proof.
  induction es as [|e es IH]; intros prev; cbn [valid_loop].
  - split; [intros _ [|i] a b _ E; discriminate E|reflexivity].
  - split.
    + intros V. destruct (edge_valid e) eqn:E1; cbn [negb] in V; [|discriminate]. destruct (hs_coincident h (pv e)) eqn:E2; cbn [negb] in V; [|discriminate]. destruct (pl_eq (pl prev) _) eqn:E3; cbn [negb] in V; [|discriminate].
      destruct (v3_same_dir _ _) as [r| | |] eqn:E4; cbn [rbind] in V; try discriminate. destruct r; cbn [negb] in V; [|discriminate]. destruct (negb _ && _) eqn:E5 in V; [discriminate|].
      intros [|i] a b Ea Eb; cbn [nth_error] in *; [injection Ea as <-; injection Eb as <-; repeat split; assumption|]. exact (proj1 (IH e) V i a b Ea Eb).
    + intros Hs. destruct (Hs 0%nat prev e eq_refl eq_refl) as (E1 & E2 & E3 & E4 & E5). cbv zeta in E5. rewrite E1, E2, E3, E4, E5. cbn [negb rbind]. apply IH. intros i a b Ea Eb. exact (Hs (S i) a b Ea Eb).
Qed.
Lemma prev_nth {B} (l : list B) x i a b : nth_error l 0 = Some x -> nth_error (last l x :: l) i = Some a -> nth_error l i = Some b -> nth_error l ((i + length l - 1) mod length l) = Some a.
Proof.
  intros X Ea Eb. assert (Li : (i < length l)%nat) by (apply nth_error_Some; congruence). destruct i as [|i]; cbn [nth_error] in Ea.
  - injection Ea as <-. rewrite Nat.mod_small by lia. replace (0 + length l - 1)%nat with (length l - 1)%nat by lia. rewrite (last_nth l x). destruct l; [discriminate|reflexivity].
  - replace (S i + length l - 1)%nat with (i + 1 * length l)%nat by lia. rewrite Nat.mod_add by lia. rewrite Nat.mod_small by lia. exact Ea.
Qed.
Lemma valid_state_iff {A} (p : poly A) : pedges p <> [] ->
  (poly_valid_state p = Ok true <-> pnormal_drop p <> 0%Z /\ forall i a b, nth_error (pedges p) i = Some a -> nth_error (pedges p) (S i mod length (pedges p)) = Some b -> step_ok (pplane p) (pdrop p) a b).
Proof.
  intros Ne. unfold poly_valid_state. destruct (pedges p) as [|e es] eqn:Ee; [contradiction|]. clear Ne. destruct (pnormal_drop p =? 0)%Z eqn:Z; [split; [discriminate|intros [X _]; lia]|].
  rewrite valid_loop_iff. assert (X0 : nth_error (e :: es) 0 = Some e) by reflexivity. set (l := e :: es) in *. assert (Ll : (0 < length l)%nat) by (unfold l; cbn; lia). clearbody l. split.
  - intros Hs. split; [lia|]. intros i a b Ea Eb. assert (Li : (i < length l)%nat) by (apply nth_error_Some; congruence).
    apply (Hs (S i mod length l)%nat); [|exact Eb]. destruct (Nat.eq_dec (S i) (length l)) as [E|E].
    + rewrite E, Nat.mod_same by lia. cbn [nth_error]. replace i with (length l - 1)%nat in Ea by lia. rewrite (last_nth l e) in Ea. destruct l; [discriminate|exact Ea].
    + rewrite Nat.mod_small by lia. exact Ea.
  - intros [_ Hs] i a b Ea Eb. assert (Li : (i < length l)%nat) by (apply nth_error_Some; congruence). apply (Hs ((i + length l - 1) mod length l)%nat); [exact (prev_nth l e i a b X0 Ea Eb)|].
    rewrite mod_succ by lia. replace (S (i + length l - 1)) with (i + 1 * length l)%nat by lia. rewrite Nat.mod_add by lia. rewrite Nat.mod_small by lia. exact Eb.
Qed.
(** ** Directions *)
Lemma same_direction_q (a b : vec3) k k' (w : qpoint) : 0 < k -> 0 < k' -> qp_eq (qpt a) (qscale k w) -> qp_eq (qpt b) (qscale k' w) -> same_direction (l3 a) (l3 b).
Proof.
  intros K K' (A1 & A2 & A3) (B1 & B2 & B3). exists (Qnum k' * Zpos (Qden k))%Z, (Qnum k * Zpos (Qden k'))%Z.
  assert (P : forall x, 0 < x -> (0 < Qnum x)%Z) by (intros [x y] X; unfold Qlt in X; cbn in *; lia). pose proof (P k K). pose proof (P k' K').
  split; [lia|]. split; [lia|]. split; [lia|].
  assert (G : forall x y z, inject_Z x == k * z -> inject_Z y == k' * z -> (Qnum k' * Z.pos (Qden k) * x = Qnum k * Z.pos (Qden k') * y)%Z).
  { intros x y z X Y. apply inject_eq. rewrite !inject_Z_mult, X, Y.
    assert (E : forall r, inject_Z (Zpos (Qden r)) * r == inject_Z (Qnum r)) by (intros [r s]; unfold Qeq, Qmult, inject_Z; cbn [Qnum Qden]; lia).
    transitivity (inject_Z (Qnum k') * (inject_Z (Zpos (Qden k)) * k) * z); [ring|]. rewrite E. transitivity (inject_Z (Qnum k) * (inject_Z (Zpos (Qden k')) * k') * z); [rewrite E; ring|ring]. }
  unfold qp_eq, qpt, qscale in *. cbn [qx qy qz] in *. unfold l3. cbn [map]. rewrite (G _ _ _ A1 B1), (G _ _ _ A2 B2), (G _ _ _ A3 B3). reflexivity.
Qed.
Lemma cross_turn d l l' a b c k k' : (d < 3)%nat -> qp_eq (qpt l) (qscale k (qsub b a)) -> qp_eq (qpt l') (qscale k' (qsub c b)) ->
  inject_Z (v2_cross (drop_dim l d) (drop_dim l' d)) == (k * k') * turn (qdrop d a) (qdrop d b) (qdrop d c).
Proof.
  intros L (A1 & A2 & A3) (B1 & B2 & B3). unfold v2_cross, drop_dim, turn, qcross2, qsub2, qpt, qscale, qsub in *. cbn [qx qy qz] in *.
  destruct d as [|[|[|d]]]; [| | |lia]; cbn [x2 y2 comp qdrop qx2 qy2 Nat.add Nat.modulo Nat.divmod Nat.sub fst snd]; unfold Z.sub; rewrite inject_Z_plus, inject_Z_opp, !inject_Z_mult, ?A1, ?A2, ?A3, ?B1, ?B2, ?B3; ring.
Qed.
Lemma reflex_check (c : Z) (m s t : Q) (z : Z) : 0 < m -> inject_Z c == m * t -> s = inject_Z z -> z <> 0%Z -> (negb (c =? 0)%Z && zdiff_sign c z = false <-> 0 <= s * t).
Proof.
  intros M E -> Z. rewrite zdiff_sign_spec.
  assert (Sg : ((c < 0)%Z <-> t < 0) /\ (c = 0%Z <-> t == 0)).
  { split.
    - rewrite Zlt_Qlt. change (inject_Z 0) with 0. rewrite E. split; intros X; [destruct (Qlt_le_dec t 0) as [Y|Y]; [exact Y|nra]|nra].
    - rewrite <- inject_eq, E. change (inject_Z 0) with 0. split; intros X; [apply Qmult_integral in X as [X|X]; [lra|exact X]|rewrite X; ring]. }
  destruct Sg as [S1 S2]. assert (Zs : (z < 0)%Z /\ inject_Z z < 0 \/ (0 < z)%Z /\ 0 < inject_Z z).
  { destruct (Z.lt_total z 0) as [X|[X|X]]; [left|contradiction|right]; (split; [exact X|]); change 0 with (inject_Z 0); rewrite <- Zlt_Qlt; exact X. }
  destruct (c =? 0)%Z eqn:C0; cbn [negb andb].
  - apply Z.eqb_eq in C0. assert (T : t == 0) by (apply S2; exact C0). split; [intros _; rewrite T; lra|reflexivity].
  - assert (T : ~ t == 0) by (intros T; apply S2 in T; lia). destruct (Qlt_le_dec t 0) as [T1|T1].
    + assert (c < 0)%Z by (apply S1; exact T1). replace (c <? 0)%Z with true by lia. destruct Zs as [[Z1 Z2]|[Z1 Z2]].
      * replace (z <? 0)%Z with true by lia. cbn. split; [intros _; nra|reflexivity].
      * replace (z <? 0)%Z with false by lia. cbn. split; [discriminate|intros X; nra].
    + assert (~ (c < 0)%Z) by (intros X; apply S1 in X; lra). replace (c <? 0)%Z with false by lia. assert (T2 : 0 < t) by (destruct (proj1 (Qle_lteq _ _) T1) as [X|X]; [exact X|exfalso; apply T; symmetry; exact X]). destruct Zs as [[Z1 Z2]|[Z1 Z2]].
      * replace (z <? 0)%Z with true by lia. cbn. split; [discriminate|intros X; nra].
      * replace (z <? 0)%Z with false by lia. cbn. split; [intros _; nra|reflexivity].
Qed.
Lemma coincident_side h v q : denotes v q -> (hs_coincident h v = true <-> side h q == 0).
Proof.
  intros D. unfold hs_coincident. rewrite (hs_compare_spec h v q D), Z.eqb_eq. unfold qsign. destruct (side h q) as [x y]. unfold Qeq. cbn. lia.
Qed.
(** ** Accepting *)
Lemma distinct3 d a b : ~ qp2_eq (qdrop d a) (qdrop d b) -> ~ qp_eq a b.
Proof. intros N (X & Y & Z). apply N. destruct d as [|[|d]]; unfold qp2_eq, qdrop; cbn [qx2 qy2]; split; assumption. Qed.
Lemma edge_on_valid l a b : ~ qp_eq a b -> edge_on l a b -> pl_valid l = true.
Proof.
  intros N (_ & (k & K & D)). apply pl_valid_true. intros Z. apply N. apply qsub_zero. apply (proj1 (qp_scale_zero k _ K)). apply (qp_eq_trans _ (qpt (ld l))); [apply qp_eq_sym; exact D|exact Z].
Qed.
Lemma valid_accepts {A} (p : poly A) qs : poly_ok p qs ->
  (forall e e', In e (pedges p) -> In e' (pedges p) -> no_min (l3 (ld (pl e))) /\ no_min (l3 (ld (pl_of_hpoints (pv e) (pv e'))))) -> poly_valid_state p = Ok true.
Proof.
  intros H NM. pose proof (ok_n p qs H) as N. pose proof (ok_length p qs H) as Ln. destruct (po_drop p qs H) as [Dl Dn]. pose proof (ok_cvx p qs H) as C.
  apply valid_state_iff; [intros E; unfold pcount in N; rewrite E in N; cbn in N; lia|]. split; [exact Dn|]. intros i a b Ea Eb. fold (pcount p) in Eb.
  assert (Li : (i < pcount p)%nat) by (apply nth_error_Some; unfold pcount; congruence).
  pose proof (Nat.mod_upper_bound (S i) (pcount p) ltac:(lia)) as Lj.
  destruct (ok_edge p qs H i Li) as (a' & Ea' & Da & Oa). rewrite Ea in Ea'. injection Ea' as <-. destruct (ok_edge p qs H _ Lj) as (b' & Eb' & Db & Ob). rewrite Eb in Eb'. injection Eb' as <-.
  assert (Q1 : cyc o3 qs (S i mod pcount p) = cyc o3 qs (S i)) by (rewrite <- Ln; apply cyc_mod; lia).
  assert (Q2 : cyc o3 qs (S (S i mod pcount p)) = cyc o3 qs (S (S i))) by (rewrite <- Ln; rewrite <- (cyc_mod o3 qs (S (S i mod length qs))), mod_succ, cyc_mod by lia; reflexivity).
  rewrite Q1, Q2 in *. clear Q1 Q2. fold (edge_on (pl a) (cyc o3 qs i) (cyc o3 qs (S i))) in Oa. fold (edge_on (pl b) (cyc o3 qs (S i)) (cyc o3 qs (S (S i)))) in Ob.
  pose proof (distinct3 _ _ _ (c_edge _ _ _ C i)) as NEa. pose proof (distinct3 _ _ _ (c_edge _ _ _ C (S i))) as NEb.
  pose proof (edge_on_valid _ _ _ NEa Oa) as Va. pose proof (edge_on_valid _ _ _ NEb Ob) as Vb.
  set (qa := cyc o3 qs i) in *. set (qb := cyc o3 qs (S i)) in *. set (qc := cyc o3 qs (S (S i))) in *.
  destruct (pl_of_hpoints_repr (pv a) (pv b) qa qb Da Db) as (ke & Ke & De & Le). pose proof (proj2 (pl_of_hpoints_valid (pv a) (pv b) qa qb Da Db) NEa) as Ve.
  destruct Oa as (La & (ka & Ka & Dira)). destruct Ob as (Lb & (kb & Kb & Dirb)).
  assert (Sd : same_direction (l3 (ld (pl a))) (l3 (ld (pl_of_hpoints (pv a) (pv b))))) by (apply (same_direction_q _ _ ka ke (qsub qb qa)); assumption).
  destruct (NM a b (nth_error_In _ _ Ea) (nth_error_In _ _ Eb)) as [Na Ne].
  repeat split.
  - unfold edge_valid. destruct Db as (W & Db'). replace (hw (pv b) =? 0)%Z with false by lia. cbn [negb andb]. rewrite Vb. cbn [andb]. apply (pl_coincident_spec (pl b) (pv b) qb); [split; assumption|exact Lb].
  - apply (coincident_side _ _ qb Db). apply (ok_on_plane p qs H).
  - apply pl_eq_lines; [apply (line_wf_of_point _ qa); assumption|apply (pl_of_hpoints_wf _ _ qa qb); assumption|]. split; [exact Sd|]. intros q.
    rewrite (on_line_repr (pl a) qa qb ka Ka Dira La Va q). symmetry. apply (on_line_repr _ qa qb ke Ke De Le Ve q).
  - destruct (v3_same_dir_total _ _ Na Ne) as (r & Er). rewrite Er. f_equal. apply (v3_same_dir_spec _ _ _ Er). exact Sd.
  - cbv zeta. apply (reflex_check _ (ka * kb) (inject_Z (comp (hn (pplane p)) (pdrop p))) (turn (qdrop (pdrop p) qa) (qdrop (pdrop p) qb) (qdrop (pdrop p) qc)) _); [nra|apply cross_turn; assumption|reflexivity|exact Dn|].
    pose proof (edge_side _ _ _ C i (S (S i))) as T. exact T.
Qed.
(** ** What acceptance means *)
Lemma valid_sound {A} (p : poly A) : pedges p <> [] -> (pdrop p < 3)%nat -> poly_valid_state p = Ok true -> exists qs, poly_local p qs.
Proof.
  intros Ne Dl V. apply (valid_state_iff p Ne) in V as [Dn Hs]. set (n := length (pedges p)) in *.
  assert (N : (0 < n)%nat) by (unfold n; destruct (pedges p); [contradiction|cbn; lia]).
  assert (At : forall i, exists e, nth_error (pedges p) (i mod n) = Some e) by (intros i; destruct (nth_error (pedges p) (i mod n)) as [e|] eqn:E; [eauto|]; apply nth_error_None in E; pose proof (Nat.mod_upper_bound i n ltac:(lia)); lia).
  assert (Sp : forall i, exists a b, nth_error (pedges p) (i mod n) = Some a /\ nth_error (pedges p) (S i mod n) = Some b /\ step_ok (pplane p) (pdrop p) a b).
  { intros i. destruct (At i) as (a & Ea). destruct (At (S i)) as (b & Eb). exists a, b. split; [exact Ea|]. split; [exact Eb|]. apply (Hs (i mod n)%nat a b Ea). rewrite mod_succ by exact N. exact Eb. }
  assert (Ev : forall i e, nth_error (pedges p) (i mod n) = Some e -> edge_valid e = true /\ hs_coincident (pplane p) (pv e) = true).
  { intros i e E. destruct (Sp (i + n - 1)%nat) as (a & b & _ & Eb & St). replace (S (i + n - 1)) with (i + 1 * n)%nat in Eb by lia. rewrite Nat.mod_add in Eb by lia. rewrite E in Eb. injection Eb as <-. destruct St as (S1 & S2 & _). split; assumption. }
  set (val := fun v : hpoint3 => QP (inject_Z (vx (hv v)) / inject_Z (hw v)) (inject_Z (vy (hv v)) / inject_Z (hw v)) (inject_Z (vz (hv v)) / inject_Z (hw v))).
  assert (Dv : forall v, hw v <> 0%Z -> denotes v (val v)) by (intros v W; pose proof (inject_Z_neq0 _ W); split; [exact W|]; unfold val; cbn [qx qy qz]; repeat split; field; assumption).
  assert (De : forall i e, nth_error (pedges p) (i mod n) = Some e -> denotes (pv e) (val (pv e)) /\ pl_valid (pl e) = true /\ line_points (pl e) (val (pv e)) /\ side (pplane p) (val (pv e)) == 0).
  { intros i e E. destruct (Ev i e E) as [E1 E2]. unfold edge_valid in E1. apply andb_prop in E1 as [E1 E3]. apply andb_prop in E1 as [E1 E4]. assert (D : denotes (pv e) (val (pv e))) by (apply Dv; lia).
    split; [exact D|]. split; [exact E4|]. split; [apply (pl_coincident_spec _ _ _ D); exact E3|apply (coincident_side _ _ _ D); exact E2]. }
  assert (Ed : forall i a b, nth_error (pedges p) (i mod n) = Some a -> nth_error (pedges p) (S i mod n) = Some b -> ~ qp_eq (val (pv a)) (val (pv b)) -> edge_on (pl a) (val (pv a)) (val (pv b))).
  { intros i a b Ea Eb Nn. destruct (De _ _ Ea) as (Da & Va & La & _). destruct (De _ _ Eb) as (Db & Vb & Lb & _).
    destruct (Sp i) as (a' & b' & Ea' & Eb' & (_ & _ & S3 & S4 & _)). rewrite Ea in Ea'. injection Ea' as <-. rewrite Eb in Eb'. injection Eb' as <-.
    pose proof (proj1 (v3_same_dir_spec _ _ _ S4) eq_refl) as Sd. destruct (pl_of_hpoints_repr (pv a) (pv b) _ _ Da Db) as (ke & Ke & Dire & Le).
    pose proof (proj2 (pl_of_hpoints_valid (pv a) (pv b) _ _ Da Db) Nn) as Ve. split; [exact La|].
    assert (Ex : forall l, pl_valid l = true -> Exists (fun z => z <> 0%Z) (l3 (ld l))).
    { intros l Vl. unfold pl_valid, v3_is_zero in Vl. unfold l3. destruct (Z.eq_dec (vx (ld l)) 0); [|left; assumption]. right. destruct (Z.eq_dec (vy (ld l)) 0); [|left; assumption]. right. left. lia. }
    apply same_direction_nonzero in Sd as (x & y & X & Y & M); [|reflexivity|apply Ex; exact Va|apply Ex; exact Ve].
    assert (Xq : 0 < inject_Z x) by (change 0 with (inject_Z 0); rewrite <- Zlt_Qlt; exact X). assert (Yq : 0 < inject_Z y) by (change 0 with (inject_Z 0); rewrite <- Zlt_Qlt; exact Y).
    exists (inject_Z y * ke / inject_Z x). split; [apply Qlt_shift_div_l; [exact Xq|nra]|].
    unfold l3 in M. cbn [map] in M. injection M as M1 M2 M3. destruct Dire as (D1 & D2 & D3). unfold qp_eq, qpt, qscale in *. cbn [qx qy qz] in *.
    assert (G : forall u w z, (x * u = y * w)%Z -> inject_Z w == ke * z -> inject_Z u == inject_Z y * ke / inject_Z x * z).
    { intros u w z E0 E2. assert (E1 : inject_Z (x * u) == inject_Z (y * w)) by (rewrite E0; reflexivity). rewrite !inject_Z_mult, E2 in E1. setoid_replace (inject_Z y * ke / inject_Z x * z) with ((inject_Z y * (ke * z)) / inject_Z x) by (field; lra). rewrite <- E1. field. lra. }
    repeat split; eapply G; eassumption. }
  set (qs := map (fun e => val (pv e)) (pedges p)). assert (Lq : length qs = n) by (unfold qs; apply map_length).
  assert (Qa : forall i q, nth_error qs i = Some q -> exists e, nth_error (pedges p) i = Some e /\ q = val (pv e)).
  { intros i q E. unfold qs in E. rewrite nth_error_map in E. destruct (nth_error (pedges p) i) as [e|]; [|discriminate]. injection E as <-. eauto. }
  assert (Sm : forall i q, nth_error qs i = Some q -> (i mod n = i)%nat) by (intros i q E; apply Nat.mod_small; rewrite <- Lq; apply nth_error_Some; congruence).
  exists qs. split.
  - assert (G : forall es : list (pedge A), (forall e, In e es -> denotes (pv e) (val (pv e))) -> Forall2 (fun e q => denotes (pv e) q) es (map (fun e => val (pv e)) es)).
    { clear. induction es as [|e es IH]; intros F; [constructor|]. cbn [map]. constructor; [apply F; left; reflexivity|]. apply IH. intros e' I. apply F. right. exact I. }
    apply G. intros e I. apply In_nth_error in I as (i & I). apply (De i e). rewrite Nat.mod_small; [exact I|]. apply nth_error_Some. congruence.
  - exact Dn.
  - apply Forall_forall. intros q I. apply In_nth_error in I as (i & I). pose proof (Sm _ _ I) as M. apply Qa in I as (e & E & ->). rewrite <- M in E. apply (De i e E).
  - intros i e a b Ee Ea Eb. pose proof (Sm _ _ Ea) as M. rewrite Lq in Eb. apply Qa in Ea as (e1 & E1 & ->). apply Qa in Eb as (e2 & E2 & ->). rewrite Ee in E1. injection E1 as <-. rewrite <- M in Ee. destruct (De _ _ Ee) as (_ & V1 & L1 & _). split; [exact V1|]. split; [exact L1|].
    intros Nn. apply (Ed i e e2 Ee E2 Nn).
  - intros i a b c Li Ea Eb Ec N1 N2. rewrite Lq in Eb, Ec. pose proof (Sm _ _ Ea) as M. apply Qa in Ea as (e1 & E1 & ->). apply Qa in Eb as (e2 & E2 & ->). apply Qa in Ec as (e3 & E3 & ->). rewrite <- M in E1.
    destruct (Ed i e1 e2 E1 E2 N1) as (_ & (k & K & D)). destruct (Ed (S i) e2 e3 E2 E3 N2) as (_ & (k' & K' & D')).
    destruct (Sp i) as (a' & b' & Ea' & Eb' & (_ & _ & _ & _ & S5)). rewrite E1 in Ea'. injection Ea' as <-. rewrite E2 in Eb'. injection Eb' as <-. cbv zeta in S5.
    apply (reflex_check _ (k * k') (inject_Z (comp (hn (pplane p)) (pdrop p))) (turn (qdrop (pdrop p) (val (pv e1))) (qdrop (pdrop p) (val (pv e2))) (qdrop (pdrop p) (val (pv e3)))) _) in S5; [exact S5|nra|apply cross_turn; assumption|reflexivity|exact Dn].
Qed.
