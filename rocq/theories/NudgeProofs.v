(** Proofs about NudgingPlaneBuilder. *)
From Coq Require Import List Bool Arith ZArith QArith Lia ZifyBool.
From Verif Require Import BigUIntModel GeoModel GeoSpec GeoProofs GeoPlaneProofs GeoPluckerProofs GeoReduceProofs ConcatModel PlanarModel NudgeModel NudgeSpec.
Import ListNotations.
Open Scope Z_scope.

(** ** Incidence *)
Lemma incident_denotes h p q : denotes p q -> (incident h p <-> (side h q == 0)%Q).
Proof.
  intros (W & X & Y & Z). unfold incident, side, v3_dot, qdot, qpt; cbn [qx qy qz].
  pose proof (inject_Z_neq0 _ W) as QW. rewrite <- (inject_eq (_ + _) _). qpush. rewrite X, Y, Z. split; intros H.
  - apply (Qmult_inj_r _ _ _ QW).
    transitivity (inject_Z (vx (hn h)) * (qx q * inject_Z (hw p)) + inject_Z (vy (hn h)) * (qy q * inject_Z (hw p)) + inject_Z (vz (hn h)) * (qz q * inject_Z (hw p)) - inject_Z (hw p) * inject_Z (hd h))%Q; [ring|]. rewrite H. ring.
  - transitivity ((inject_Z (vx (hn h)) * qx q + inject_Z (vy (hn h)) * qy q + inject_Z (vz (hn h)) * qz q - inject_Z (hd h)) * inject_Z (hw p) + inject_Z (hw p) * inject_Z (hd h))%Q; [ring|]. rewrite H. ring.
Qed.
Lemma hs_coincident_incident h p : hs_coincident h p = true <-> incident h p.
Proof.
  unfold hs_coincident, hs_compare, incident. rewrite Z.eqb_eq. unfold zcompare, zabs_mult, zsign_ext.
  destruct (hw p <? 0); destruct (Z.compare_spec (v3_dot (hn h) (hv p)) (hw p * hd h)); cbn; lia.
Qed.
Lemma hs_of_hpoints_incident p1 p2 p3 h : hs_of_hpoints p1 p2 p3 = Ok h -> incident h p1 /\ incident h p2 /\ incident h p3.
Proof.
  unfold hs_of_hpoints, incident. destruct p1 as [[x1 y1 z1] w1], p2 as [[x2 y2 z2] w2], p3 as [[x3 y3 z3] w3]. cbn [hv hw vx vy vz].
  unfold zabs. destruct (w2 =? - 2 ^ 63); [discriminate|]. cbn [rbind]. intros E. injection E as <-.
  cbn [hn hd]. unfold v3_dot, v3_scale, v3_cross, v3_sub; cbn [vx vy vz]. set (s := zabs_mult2 w1 w3). clearbody s.
  assert (A : Z.abs w2 = w2 * zabs_mult w2) by (unfold zabs_mult, zsign_ext; destruct (w2 <? 0) eqn:E; [change (Z.lor (-1) 1) with (-1)|change (Z.lor 0 1) with 1]; lia).
  rewrite A. set (t := zabs_mult w2). clearbody t. clear A. repeat split; ring.
Qed.
Lemma l4_inj a b : l4 a = l4 b -> a = b.
Proof. destruct a as [[x y z] d], b as [[x' y' z'] d']. unfold l4; cbn [hn hd vx vy vz]. intros E. injection E as -> -> -> ->. reflexivity. Qed.
(** Reduce only returns for planes that are not all zero. *)
Lemma hs_reduce_nonzero gcd h r : gcd_ok gcd -> hs_reduce gcd h = Ok r -> ~ Forall (fun c => c = 0) (l4 h).
Proof.
  intros G H Z. rewrite hs_reduce_chain in H. invert_chain H g E. cbn [rbind] in H.
  pose proof (chain_spec gcd _ _ _ g G E) as S. assert (S0 : Z.abs g = 0). { rewrite S. apply gcd_zero. exact Z. }
  cbv zeta in H. rewrite S0 in H. unfold zdivide, zdiv_rem in H. cbn in H. discriminate.
Qed.
Lemma hs_reduce_incident gcd h r : gcd_ok gcd -> hs_reduce gcd h = Ok r -> forall p, incident h p <-> incident r p.
Proof.
  intros G H p. pose proof (hs_reduce_nonzero gcd h r G H) as N. destruct (hs_reduce_spec gcd h r G N H) as (_ & f & Pf & E).
  unfold l4 in E. cbn [List.map] in E. injection E as E1 E2 E3 E4. unfold incident, v3_dot. rewrite E1, E2, E3, E4. split; intros X; nia.
Qed.
Lemma hs_reduce_nonzero_result gcd h r : gcd_ok gcd -> hs_reduce gcd h = Ok r -> ~ Forall (fun c => c = 0) (l4 r).
Proof.
  intros G H Z. pose proof (hs_reduce_nonzero gcd h r G H) as N. apply N. destruct (hs_reduce_spec gcd h r G N H) as (_ & f & Pf & E).
  rewrite E. clear - Z. induction Z as [|c l Hc Hl IH]; cbn [List.map]; constructor; [lia|exact IH].
Qed.
Lemma hs_reduce_zero gcd h : gcd_ok gcd -> Forall (fun c => c = 0) (l4 h) -> hs_reduce gcd h = UB.
Proof.
  intros G Z. assert (Z' := Z). rewrite hs_reduce_chain. unfold l4 in Z. 
  assert (Z4 := Z). inversion Z4 as [|? ? A1 T1]; subst. inversion T1 as [|? ? A2 T2]; subst. inversion T2 as [|? ? A3 T3]; subst. inversion T3 as [|? ? A4 T4]; subst.
  destruct (gcd_chain_total gcd [vy (hn h); vz (hn h); hd h] G (vx (hn h))) as [g E].
  { rewrite A2, A3, A4. repeat (constructor; [lia|]). constructor. }
  rewrite E. cbn [rbind]. pose proof (chain_spec gcd _ _ _ g G E) as S.
  assert (S0 : Z.abs g = 0). { rewrite S. apply gcd_zero. exact Z. }
  cbv zeta. rewrite S0. unfold zdivide, zdiv_rem. cbn. reflexivity.
Qed.

(** ** The builder *)
Open Scope nat_scope.
Definition trues (i : list (bool * hpoint3)) : nat := length (filter fst i).
Definition falses (i : list (bool * hpoint3)) : nat := length (filter (fun e => negb (fst e)) i).
Lemma tf i : trues i + falses i = length i.
Proof. unfold trues, falses. induction i as [|[[] v] i IH]; cbn [filter fst negb length]; lia. Qed.
Lemma trues_app i j : trues (i ++ j) = trues i + trues j.
Proof. unfold trues. rewrite filter_app, app_length. reflexivity. Qed.
Lemma nb_pick_spec : forall i unc, unc <= falses i -> exists l, nb_pick i unc (unc + trues i) = Ok l /\ length l = unc + trues i /\
  (forall v, In (true, v) i -> In v l) /\ (forall v, In v l -> In v (map snd i)).
Proof.
  induction i as [|[[] v] i IH]; intros unc L.
  - change (falses []) with 0 in L. assert (unc = 0) by lia. subst. exists []. repeat split; cbn; tauto.
  - change (falses ((true, v) :: i)) with (falses i) in L. change (trues ((true, v) :: i)) with (S (trues i)).
    destruct (IH unc L) as (l & E & Ln & A & B). exists (v :: l). replace (unc + S (trues i)) with (S (unc + trues i)) by lia.
    cbn [nb_pick]. rewrite E. cbn [rbind length In map snd]. repeat split; [lia| |].
    + intros u [X|X]; [injection X as ->; left; reflexivity|right; apply A, X].
    + intros u [X|X]; [left; exact X|right; apply B, X].
  - change (falses ((false, v) :: i)) with (S (falses i)) in L. change (trues ((false, v) :: i)) with (trues i).
    destruct unc as [|u].
    + destruct (IH 0 ltac:(lia)) as (l & E & Ln & A & B). exists l. cbn [Nat.add] in *. split.
      * cbn [nb_pick]. destruct (trues i) eqn:T; [|exact E]. destruct i; cbn [nb_pick] in E; exact E.
      * repeat split; [exact Ln| |].
        -- intros w [X|X]; [discriminate X|apply A, X].
        -- intros w X. right. apply B, X.
    + destruct (IH u ltac:(lia)) as (l & E & Ln & A & B). exists (v :: l). cbn [Nat.add nb_pick]. rewrite E. cbn [rbind length In map snd].
      repeat split; [lia| |].
      * intros w [X|X]; [discriminate X|right; apply A, X].
      * intros w [X|X]; [left; exact X|right; apply B, X].
Qed.
(** Invariant of a builder. *)
Definition nb_ok (gcd : Z -> Z -> res Z) (b : nbuilder) : Prop :=
  nb_count b = trues (nb_info b) /\ nb_count b <= 3 /\ falses (skipn 3 (nb_info b)) = 0 /\
  (nb_count b = 3 -> nb_set b = true /\ nb_build_info gcd b = Ok (nb_plane b)) /\
  (nb_set b = true -> 3 <= length (nb_info b)).
Lemma nb_new_ok gcd : nb_ok gcd nb_new.
Proof. unfold nb_ok, nb_new, trues, falses; cbn. repeat split; try lia; intros; discriminate. Qed.
Lemma nb_ok_length gcd b : nb_ok gcd b -> length (nb_info b) <= 3 + nb_count b.
Proof.
  intros (C & _ & F & _ & _). rewrite <- (firstn_skipn 3 (nb_info b)) at 1. rewrite app_length.
  pose proof (firstn_le_length 3 (nb_info b)). pose proof (tf (skipn 3 (nb_info b))) as T.
  assert (trues (skipn 3 (nb_info b)) <= trues (nb_info b)). { rewrite <- (firstn_skipn 3 (nb_info b)) at 2. rewrite trues_app. lia. } 
  pose proof (firstn_length 3 (nb_info b)). lia.
Qed.
Lemma nb_push_ok gcd b c v : nb_ok gcd b -> nb_count b < 3 \/ length (nb_info b) < 3 -> nb_push b c v = Ok (nb_info b ++ [(c, v)]).
Proof.
  intros I H. pose proof (nb_ok_length gcd b I). pose proof (proj1 (proj2 I)). unfold nb_push. destruct (length (nb_info b) <? 6) eqn:E; [reflexivity|]. lia.
Qed.
Lemma nb_picked gcd b : nb_ok gcd b -> 3 <= length (nb_info b) -> exists p1 p2 p3, nb_pick (nb_info b) (3 - nb_count b) 3 = Ok [p1; p2; p3] /\
  (forall v, In (true, v) (nb_info b) -> In v [p1; p2; p3]) /\ (forall v, In v [p1; p2; p3] -> In v (map snd (nb_info b))).
Proof.
  intros (C & C3 & _) L. pose proof (tf (nb_info b)) as T. destruct (nb_pick_spec (nb_info b) (3 - nb_count b) ltac:(lia)) as (l & E & Ln & A & B).
  rewrite <- C in E, Ln. replace (3 - nb_count b + nb_count b) with 3 in E, Ln by lia.
  destruct l as [|p1 [|p2 [|p3 [|]]]]; cbn [length] in Ln; try lia. exists p1, p2, p3. auto.
Qed.
Lemma nb_build_info_incident gcd b h : gcd_ok gcd -> nb_ok gcd b -> 3 <= length (nb_info b) -> nb_build_info gcd b = Ok h ->
  (forall v, In (true, v) (nb_info b) -> incident h v) /\ ~ Forall (fun c => c = 0%Z) (l4 h).
Proof.
  intros G I L. unfold nb_build_info. destruct (nb_picked gcd b I L) as (p1 & p2 & p3 & E & A & _). rewrite E. cbn [rbind].
  destruct (hs_of_hpoints p1 p2 p3) as [k| | |] eqn:K; try discriminate. cbn [rbind]. intros R.
  destruct (hs_of_hpoints_incident _ _ _ _ K) as (I1 & I2 & I3). split; [|exact (hs_reduce_nonzero_result gcd k h G R)].
  intros v V. apply (hs_reduce_incident gcd k h G R). apply A in V. cbn [In] in V. destruct V as [<-|[<-|[<-|[]]]]; assumption.
Qed.
Lemma filter_false_app i (e : bool * hpoint3) : falses (i ++ [e]) = falses i + (if fst e then 0 else 1).
Proof. unfold falses. rewrite filter_app, app_length. destruct e as [[] v]; reflexivity. Qed.
Lemma skipn_snoc {A} n (l : list A) x : skipn n (l ++ [x]) = if length l <? n then [] else skipn n l ++ [x].
Proof.
  destruct (length l <? n) eqn:E.
  - apply skipn_all2. rewrite app_length. cbn [length]. lia.
  - rewrite skipn_app. replace (n - length l) with 0 by lia. reflexivity.
Qed.
Lemma build_info_ext gcd b c : nb_info b = nb_info c -> nb_count b = nb_count c -> nb_build_info gcd b = nb_build_info gcd c.
Proof. intros E F. unfold nb_build_info. rewrite E, F. reflexivity. Qed.
Lemma nb_unc_ok gcd b v : nb_ok gcd b -> exists b', nb_add_unconstrained b v = Ok b' /\ nb_ok gcd b' /\
  nb_count b' = nb_count b /\ nb_plane b' = nb_plane b /\ nb_set b' = nb_set b /\
  nb_info b' = if length (nb_info b) <? 3 then nb_info b ++ [(false, v)] else nb_info b.
Proof.
  intros I. unfold nb_add_unconstrained. destruct (length (nb_info b) <? 3) eqn:E.
  - rewrite (nb_push_ok gcd b false v I) by lia. cbn [rbind]. eexists. split; [reflexivity|]. cbn [nb_info nb_count nb_plane nb_set].
    split; [|auto]. destruct I as (C & C3 & F & K & St). unfold nb_ok; cbn [nb_info nb_count nb_plane nb_set].
    split; [rewrite trues_app; change (trues [(false, v)]) with 0; lia|]. split; [exact C3|].
    split; [rewrite skipn_snoc, E; reflexivity|]. split.
    + intros X. destruct (K X) as [S' _]. apply St in S'. lia.
    + intros X. apply St in X. lia.
  - exists b. auto 10.
Qed.
Lemma nb_con_facts gcd b v b' r : nb_ok gcd b -> nb_try_constrained gcd b v = Ok (b', r) -> nb_ok gcd b' /\
  ((nb_count b < 3 /\ r = true /\ nb_count b' = S (nb_count b) /\ nb_info b' = nb_info b ++ [(true, v)] /\ (nb_count b' < 3 -> nb_set b' = nb_set b /\ nb_plane b' = nb_plane b)) \/
   (nb_count b = 3 /\ b' = b /\ r = hs_coincident (nb_plane b) v)).
Proof.
  intros I. pose proof I as (C & C3 & F & K & St). unfold nb_try_constrained. destruct (nb_count b <? 3) eqn:E.
  - rewrite (nb_push_ok gcd b true v I) by lia. cbn [rbind nb_count].
    assert (F' : falses (skipn 3 (nb_info b ++ [(true, v)])) = 0).
    { rewrite skipn_snoc. destruct (length (nb_info b) <? 3); [reflexivity|]. rewrite filter_false_app. cbn [fst]. lia. }
    assert (T' : S (nb_count b) = trues (nb_info b ++ [(true, v)])) by (rewrite trues_app; change (trues [(true, v)]) with 1; lia).
    destruct (S (nb_count b) =? 3) eqn:E3.
    + destruct (nb_build_info gcd (NB (nb_info b ++ [(true, v)]) _ _ _)) as [h| | |] eqn:B; try discriminate. cbn [rbind]. intros X. injection X as <- <-.
      split; [|left; cbn [nb_count nb_info nb_set nb_plane]; repeat split; lia].
      unfold nb_ok; cbn [nb_count nb_info nb_set nb_plane]. split; [exact T'|]. split; [lia|]. split; [exact F'|]. split.
      * intros _. split; [reflexivity|]. rewrite <- B. apply build_info_ext; reflexivity.
      * intros _. pose proof (tf (nb_info b ++ [(true, v)])). lia.
    + intros X. injection X as <- <-. split; [|left; cbn [nb_count nb_info nb_set nb_plane]; repeat split; lia].
      unfold nb_ok; cbn [nb_count nb_info nb_set nb_plane]. split; [exact T'|]. split; [lia|]. split; [exact F'|]. split; [lia|].
      intros X. apply St in X. rewrite app_length. lia.
  - intros X. injection X as <- <-. split; [exact I|]. right. split; [lia|auto].
Qed.
Lemma nb_large_facts gcd b b' r : nb_ok gcd b -> nb_has_large gcd b = Ok (b', r) -> nb_ok gcd b' /\ nb_info b' = nb_info b /\ nb_count b' = nb_count b /\
  ((length (nb_info b) < 3 /\ b' = b /\ r = false) \/
   (3 <= length (nb_info b) /\ nb_set b' = true /\ nb_build gcd b = Ok (nb_plane b') /\ r = large_plane (nb_plane b'))).
Proof.
  intros I. pose proof I as (C & C3 & F & K & St). unfold nb_has_large, nb_build. destruct (length (nb_info b) <? 3) eqn:E.
  - intros X. injection X as <- <-. split; [exact I|]. repeat split. left. split; [lia|auto].
  - destruct (nb_set b) eqn:Es.
    + intros X. injection X as <- <-. split; [exact I|]. repeat split. right. rewrite Es. split; [lia|auto].
    + destruct (nb_build_info gcd b) as [h| | |] eqn:B; try discriminate. cbn [rbind]. intros X. injection X as <- <-.
      cbn [nb_info nb_count nb_plane nb_set]. split; [|repeat split; right; split; [lia|auto]].
      unfold nb_ok; cbn [nb_info nb_count nb_plane nb_set]. split; [exact C|]. split; [exact C3|]. split; [exact F|]. split.
      * intros X. split; [reflexivity|]. rewrite <- B. apply build_info_ext; reflexivity.
      * intros _. lia.
Qed.

(** ** Histories *)
Lemma nb_pick_length : forall i unc need l, nb_pick i unc need = Ok l -> need <= length i.
Proof.
  induction i as [|[[] v] i IH]; intros unc [|n] l; cbn [nb_pick length]; try lia; try discriminate.
  - destruct (nb_pick i unc n) as [k| | |] eqn:E; try discriminate. intros _. apply IH in E. lia.
  - destruct unc as [|u].
    + intros E. apply IH in E. lia.
    + destruct (nb_pick i u n) as [k| | |] eqn:E; try discriminate. intros _. apply IH in E. lia.
Qed.
Lemma nb_pick_sub : forall i unc need l, nb_pick i unc need = Ok l -> subsequence l (map snd i).
Proof.
  induction i as [|[[] v] i IH]; intros unc [|n] l; cbn [nb_pick map snd]; try discriminate; try (intros E; injection E as <-; constructor).
  - destruct (nb_pick i unc n) as [k| | |] eqn:E; try discriminate. intros X. injection X as <-. constructor. apply (IH _ _ _ E).
  - destruct unc as [|u].
    + intros E. apply sub_skip. apply (IH _ _ _ E).
    + destruct (nb_pick i u n) as [k| | |] eqn:E; try discriminate. intros X. injection X as <-. constructor. apply (IH _ _ _ E).
Qed.
Lemma subsequence_refl {A} (l : list A) : subsequence l l.
Proof. induction l; constructor; assumption. Qed.
Lemma subsequence_length {A} (k l : list A) : subsequence k l -> length k <= length l.
Proof. induction 1; cbn [length]; lia. Qed.
Lemma subsequence_full {A} (k l : list A) : subsequence k l -> length k = length l -> k = l.
Proof.
  induction 1 as [l|x k l H IH|x k l H IH]; cbn [length]; intros E.
  - destruct l; [reflexivity|discriminate].
  - f_equal. apply IH. lia.
  - apply subsequence_length in H. lia.
Qed.
Lemma subsequence_app_r {A} (k l m : list A) : subsequence k l -> subsequence k (l ++ m).
Proof. induction 1; cbn [app]; constructor; assumption. Qed.
Lemma subsequence_app {A} (k l k' l' : list A) : subsequence k l -> subsequence k' l' -> subsequence (k ++ k') (l ++ l').
Proof.
  intros H. revert k' l'. induction H as [l|x k l H IH|x k l H IH]; intros k' l' H'; cbn [app].
  - induction l as [|x l IHl]; cbn [app]; [exact H'|]. apply sub_skip. exact IHl.
  - constructor. apply IH, H'.
  - apply sub_skip. apply IH, H'.
Qed.
Lemma subsequence_trans {A} (k l m : list A) : subsequence k l -> subsequence l m -> subsequence k m.
Proof.
  intros H1 H2. revert k H1. induction H2 as [m|x l m H IH|x l m H IH]; intros k H1.
  - inversion H1; subst. constructor.
  - inversion H1 as [|x' k' l' H'|x' k' l' H']; subst.
    + constructor.
    + constructor. apply IH. exact H'.
    + apply sub_skip. apply IH. exact H'.
  - apply sub_skip. apply IH. exact H1.
Qed.
Lemma nb_run_app gcd : forall ops b ops', nb_run gcd b (ops ++ ops') = (x <- nb_run gcd b ops ;; y <- nb_run gcd (fst x) ops' ;; Ok (fst y, snd x ++ snd y)).
Proof.
  induction ops as [|o ops IH]; intros b ops'; cbn [app nb_run rbind fst snd].
  - destruct (nb_run gcd b ops') as [[b' r]| | |]; reflexivity.
  - destruct (nb_step gcd b o) as [x| | |]; cbn [rbind]; try reflexivity. rewrite IH.
    destruct (nb_run gcd (fst x) ops) as [y| | |]; cbn [rbind fst snd]; try reflexivity.
    destruct (nb_run gcd (fst y) ops') as [z| | |]; cbn [rbind fst snd]; reflexivity.
Qed.
Lemma nb_run_snoc gcd ops o b b2 rs2 : nb_run gcd b (ops ++ [o]) = Ok (b2, rs2) -> exists b1 rs r, nb_run gcd b ops = Ok (b1, rs) /\ nb_step gcd b1 o = Ok (b2, r) /\ rs2 = rs ++ [r].
Proof.
  rewrite nb_run_app. destruct (nb_run gcd b ops) as [[b1 rs]| | |]; cbn [rbind fst snd]; try discriminate.
  cbn [nb_run]. destruct (nb_step gcd b1 o) as [[b2' r]| | |] eqn:E; cbn [rbind fst snd]; try discriminate. intros X. injection X as <- <-. exists b1, rs, r. auto.
Qed.
Lemma count_app {A} (f : A -> bool) k l : count f (k ++ l) = count f k + count f l.
Proof. unfold count. rewrite filter_app, app_length. reflexivity. Qed.
Lemma combine_app {A B} (k : list A) : forall (l : list B) k' l', length k = length l -> combine (k ++ k') (l ++ l') = combine k l ++ combine k' l'.
Proof. induction k as [|x k IH]; intros [|y l] k' l' E; cbn [length] in E; try discriminate; cbn [app combine]; [reflexivity|]. rewrite IH by lia. reflexivity. Qed.
Lemma nb_run_facts gcd : forall ops b rs, nb_run gcd nb_new ops = Ok (b, rs) ->
  nb_ok gcd b /\ length rs = length ops /\ nb_count b = Nat.min 3 (count is_constrained ops) /\
  Nat.min 3 (length (nb_info b)) = Nat.min 3 (count is_vertex ops) /\ subsequence (map snd (nb_info b)) (flat_map vertex_of ops) /\
  (forall v, In (NCon v, true) (combine ops rs) -> In (true, v) (nb_info b) \/ (nb_count b = 3 /\ incident (nb_plane b) v)) /\
  (forall v, In (NCon v, false) (combine ops rs) -> nb_count b = 3 /\ ~ incident (nb_plane b) v) /\
  (nb_set b = true -> nb_count b < 3 -> exists before after, ops = before ++ NLarge :: after /\ 3 <= count is_vertex before) /\
  ((nb_set b = true -> nb_build_info gcd b = Ok (nb_plane b)) \/ queried_early ops).
Proof.
  intros ops. induction ops as [|o ops IH] using rev_ind; intros b rs R.
  - cbn [nb_run] in R. injection R as <- <-. split; [apply nb_new_ok|]. cbn. repeat split; try tauto; try discriminate; try constructor; try (intros; discriminate).
  - apply nb_run_snoc in R as (b1 & rs1 & r & R & St & ->). destruct (IH b1 rs1 R) as (I & L & C & V & SQ & A & B & E & F). clear IH R.
    rewrite !count_app, !app_length, flat_map_app, combine_app by (symmetry; exact L). cbn [length combine flat_map]. rewrite app_nil_r.
    assert (EX : forall (P : Prop), (exists before after, ops = before ++ NLarge :: after /\ 3 <= count is_vertex before) -> exists before after, ops ++ [o] = before ++ NLarge :: after /\ 3 <= count is_vertex before).
    { intros _ (x & y & -> & N). exists x, (y ++ [o]). rewrite <- app_assoc. auto. }
    assert (EQ : queried_early ops -> queried_early (ops ++ [o])).
    { intros (x & y & -> & N & M). exists x, (y ++ [o]). rewrite <- app_assoc. split; [reflexivity|]. split; [exact N|]. rewrite count_app. lia. }
    destruct o as [v|v|]; cbn [nb_step] in St.
    + destruct (nb_unc_ok gcd b1 v I) as (b' & U & I' & C' & P' & S' & N'). rewrite U in St. cbn [rbind] in St. injection St as <- <-.
      change (count is_constrained [NUnc v]) with 0. change (count is_vertex [NUnc v]) with 1. cbn [vertex_of].
      split; [exact I'|]. split; [lia|]. split; [lia|]. 
      split. { rewrite N'. destruct (length (nb_info b1) <? 3) eqn:EL; [rewrite app_length; cbn [length]; lia|lia]. }
      split. { rewrite N'. destruct (length (nb_info b1) <? 3); [rewrite map_app; apply subsequence_app; [exact SQ|apply subsequence_refl]|apply subsequence_app_r, SQ]. }
      split. { intros u X. apply in_app_or in X. destruct X as [X|[X|[]]]; [|discriminate X]. destruct (A u X) as [X'|X'].
        - left. rewrite N'. destruct (length (nb_info b1) <? 3); [apply in_or_app; left; exact X'|exact X'].
        - right. rewrite C', P'. exact X'. }
      split. { intros u X. apply in_app_or in X. destruct X as [X|[X|[]]]; [|discriminate X]. rewrite C', P'. apply B, X. }
      split. { rewrite S', C'. intros X Y. apply (EX True). apply E; assumption. }
      destruct F as [F|F]; [left|right; apply EQ, F]. rewrite S', P'. intros X. rewrite <- (F X). apply build_info_ext; [|exact C'].
      rewrite N'. pose proof (proj2 (proj2 (proj2 (proj2 I))) X). destruct (length (nb_info b1) <? 3) eqn:EL; [lia|reflexivity].
    + destruct (nb_con_facts gcd b1 v b r I St) as (I' & Cs). split; [exact I'|]. split; [lia|].
      change (count is_constrained [NCon v]) with 1. change (count is_vertex [NCon v]) with 1. cbn [vertex_of].
      destruct Cs as [(C1 & -> & C2 & N' & K)|(C1 & -> & ->)].
      * split; [lia|]. split; [rewrite N', app_length; cbn [length]; lia|].
        split; [rewrite N', map_app; apply subsequence_app; [exact SQ|apply subsequence_refl]|].
        split. { intros u X. apply in_app_or in X. rewrite N'. left. apply in_or_app. destruct X as [X|[X|[]]]; [|injection X as ->; right; left; reflexivity].
          destruct (A u X) as [X'|X']; [left; exact X'|lia]. }
        split. { intros u X. apply in_app_or in X. destruct X as [X|[X|[]]]; [|discriminate X]. apply B in X. lia. }
        split. { intros X Y. apply (EX True). destruct (K Y) as [Es _]. apply E; [congruence|lia]. }
        destruct (Nat.eq_dec (nb_count b) 3) as [C3|C3].
        -- left. intros _. apply (proj1 (proj2 (proj2 (proj2 I')))). exact C3.
        -- pose proof (proj1 (proj2 I')) as C3'. destruct (K ltac:(lia)) as [Es Ep]. destruct (nb_set b1) eqn:S1.
           ++ right. destruct (E eq_refl ltac:(lia)) as (x & y & -> & N). exists x, (y ++ [NCon v]). rewrite <- app_assoc. split; [reflexivity|]. split; [exact N|].
              rewrite count_app. change (count is_constrained [NCon v]) with 1. lia.
           ++ left. intros X. congruence.
      * split; [lia|]. pose proof (proj1 I) as T. pose proof (tf (nb_info b1)) as T'. split; [lia|].
        split; [apply subsequence_app_r, SQ|].
        split. { intros u X. apply in_app_or in X. destruct X as [X|[X|[]]]; [apply A, X|]. injection X as <- X. right. split; [exact C1|]. apply hs_coincident_incident. exact X. }
        split. { intros u X. apply in_app_or in X. destruct X as [X|[X|[]]]; [apply B, X|]. injection X as <- X. split; [exact C1|]. rewrite <- hs_coincident_incident, X. discriminate. }
        split. { intros X Y. lia. }
        left. intros _. apply (proj1 (proj2 (proj2 (proj2 I)))). exact C1.
    + destruct (nb_large_facts gcd b1 b r I St) as (I' & N' & C' & Cs). change (count is_constrained [NLarge]) with 0. change (count is_vertex [NLarge]) with 0. cbn [vertex_of]. rewrite app_nil_r.
      split; [exact I'|]. split; [lia|]. split; [lia|]. split; [rewrite N'; lia|]. split; [rewrite N'; exact SQ|].
      assert (PL : nb_count b1 = 3 -> nb_plane b = nb_plane b1).
      { intros X. destruct Cs as [(_ & -> & _)|(_ & _ & Bd & _)]; [reflexivity|]. destruct (proj1 (proj2 (proj2 (proj2 I))) X) as [S1 _]. unfold nb_build in Bd. rewrite S1 in Bd. congruence. }
      split. { intros u X. apply in_app_or in X. destruct X as [X|[X|[]]]; [|discriminate X]. destruct (A u X) as [X'|[X1 X2]]; [left; rewrite N'; exact X'|right]. rewrite C', (PL X1). auto. }
      split. { intros u X. apply in_app_or in X. destruct X as [X|[X|[]]]; [|discriminate X]. destruct (B u X) as [X1 X2]. rewrite C', (PL X1). auto. }
      split. { intros X Y. destruct Cs as [(_ & -> & _)|(L3 & _)]; [apply (EX True), E; [exact X|lia]|]. exists ops, []. split; [reflexivity|lia]. }
      destruct Cs as [(_ & -> & _)|(L3 & Sb & Bd & _)].
      * destruct F as [F|F]; [left; exact F|right; apply EQ, F].
      * destruct F as [F|F]; [|right; apply EQ, F]. left. intros _. unfold nb_build in Bd. rewrite (build_info_ext gcd b b1 N' C'). destruct (nb_set b1); [rewrite F by reflexivity; exact Bd|exact Bd].
Qed.
Lemma build_enough gcd b h : nb_ok gcd b -> nb_build gcd b = Ok h -> 3 <= length (nb_info b).
Proof.
  intros I. unfold nb_build. destruct (nb_set b) eqn:S; [intros _; apply (proj2 (proj2 (proj2 (proj2 I)))), S|].
  unfold nb_build_info. destruct (nb_pick _ _ _) as [l| | |] eqn:E; try discriminate. intros _. apply (nb_pick_length _ _ _ _ E).
Qed.
(** Histories after which Build uses the accepted vertices. *)
Lemma build_current gcd ops b rs : nb_run gcd nb_new ops = Ok (b, rs) -> 3 <= count is_constrained ops \/ ~ queried_early ops ->
  nb_build gcd b = nb_build_info gcd b.
Proof.
  intros R H. destruct (nb_run_facts gcd ops b rs R) as (I & _ & C & _ & _ & _ & _ & _ & F). unfold nb_build. destruct (nb_set b) eqn:S; [|reflexivity].
  destruct H as [H|H].
  - symmetry. apply (proj1 (proj2 (proj2 (proj2 I)))). lia.
  - destruct F as [F|F]; [symmetry; apply F; reflexivity|contradiction].
Qed.
Lemma qsign_reduce gcd h r v : gcd_ok gcd -> hs_reduce gcd h = Ok r -> qsign (side r v) = qsign (side h v).
Proof.
  intros G H. pose proof (hs_reduce_nonzero gcd h r G H) as N. destruct (hs_reduce_spec gcd h r G N H) as (_ & f & Pf & E).
  unfold l4 in E. cbn [List.map] in E. injection E as E1 E2 E3 E4. symmetry. apply (qsign_scale_pos _ _ (inject_Z f)); [apply inject_Z_pos, Pf|].
  unfold side, qdot, qpt. cbn [qx qy qz]. rewrite E1, E2, E3, E4. qpush. ring.
Qed.
Lemma build_info_plane gcd b h p1 p2 p3 : gcd_ok gcd -> nb_pick (nb_info b) (3 - nb_count b) 3 = Ok [p1; p2; p3] -> nb_build_info gcd b = Ok h ->
  plane_through h p1 p2 p3.
Proof.
  intros G P. unfold nb_build_info. rewrite P. cbn [rbind]. destruct (hs_of_hpoints p1 p2 p3) as [k| | |] eqn:K; try discriminate. cbn [rbind]. intros R q1 q2 q3 D1 D2 D3 v.
  rewrite (qsign_reduce gcd k h v G R). destruct (hs_of_hpoints_side p1 p2 p3 q1 q2 q3 k D1 D2 D3 K) as (Pk & E & _).
  apply (qsign_scale_pos _ _ _ Pk). apply E.
Qed.
Lemma constrained_on_plane gcd ops b rs h : gcd_ok gcd -> nb_run gcd nb_new ops = Ok (b, rs) -> nb_build gcd b = Ok h -> 3 <= count is_constrained ops \/ ~ queried_early ops ->
  (forall v, In (NCon v, true) (combine ops rs) -> incident h v) /\
  exists p1 p2 p3, subsequence [p1; p2; p3] (flat_map vertex_of ops) /\ plane_through h p1 p2 p3.
Proof.
  intros G R B H. pose proof (build_current gcd ops b rs R H) as BC. destruct (nb_run_facts gcd ops b rs R) as (I & _ & C & _ & SQ & A & _ & _ & F).
  pose proof (build_enough gcd b h I B) as L. pose proof B as B'. rewrite BC in B'. destruct (nb_build_info_incident gcd b h G I L B') as [K _].
  destruct (nb_picked gcd b I L) as (p1 & p2 & p3 & P & _ & _). split.
  - intros v V. destruct (A v V) as [X|[X Y]]; [apply K, X|]. destruct (proj1 (proj2 (proj2 (proj2 I))) X) as [S _]. unfold nb_build in B. rewrite S in B. injection B as <-. exact Y.
  - exists p1, p2, p3. split.
    + eapply subsequence_trans; [apply (nb_pick_sub _ _ _ _ P)|exact SQ].
    + apply (build_info_plane gcd b h p1 p2 p3 G P B').
Qed.
Lemma rejected_off_plane gcd ops b rs h : nb_run gcd nb_new ops = Ok (b, rs) -> nb_build gcd b = Ok h ->
  forall v, In (NCon v, false) (combine ops rs) -> 3 < count is_constrained ops /\ ~ incident h v.
Proof.
  intros R B v V. destruct (nb_run_facts gcd ops b rs R) as (I & L & C & _ & _ & A & X & _ & _). destruct (X v V) as [C3 N]. split.
  - clear - R V L. revert b rs R V L. assert (H : forall ops b b' rs v, nb_ok gcd b -> nb_run gcd b ops = Ok (b', rs) -> In (NCon v, false) (combine ops rs) -> 3 < nb_count b + count is_constrained ops).
    { clear. induction ops as [|o ops IH]; intros b b' rs v I R V; cbn [nb_run] in R; [injection R as <- <-; destruct V|].
      destruct (nb_step gcd b o) as [[b1 r]| | |] eqn:St; cbn [rbind fst snd] in R; try discriminate.
      destruct (nb_run gcd b1 ops) as [[b2 rs']| | |] eqn:R'; cbn [rbind fst snd] in R; try discriminate. injection R as <- <-.
      change (count is_constrained (o :: ops)) with (count is_constrained ([o] ++ ops)). rewrite count_app. cbn [combine In] in V.
      destruct o as [u|u|]; cbn [nb_step] in St.
      - destruct (nb_unc_ok gcd b u I) as (b1' & U & I' & C' & _). rewrite U in St. cbn [rbind] in St. injection St as <- <-. destruct V as [V|V]; [discriminate V|].
        specialize (IH _ _ _ _ I' R' V). change (count is_constrained [NUnc u]) with 0. lia.
      - destruct (nb_con_facts gcd b u b1 r I St) as (I' & Cs). change (count is_constrained [NCon u]) with 1. destruct V as [V|V].
        + injection V as -> ->. destruct Cs as [(_ & X & _)|(C3 & _)]; [discriminate X|lia].
        + specialize (IH _ _ _ _ I' R' V). destruct Cs as [(_ & _ & C2 & _)|(C3 & -> & _)]; lia.
      - destruct (nb_large_facts gcd b b1 r I St) as (I' & _ & C' & _). destruct V as [V|V]; [discriminate V|]. specialize (IH _ _ _ _ I' R' V). change (count is_constrained [NLarge]) with 0. lia. }
    intros b rs R V L. apply (H ops nb_new b rs v (nb_new_ok gcd) R V).
  - destruct (proj1 (proj2 (proj2 (proj2 I))) C3) as [S _]. unfold nb_build in B. rewrite S in B. injection B as <-. exact N.
Qed.
(** Once the plane is stored, it stays until three constrained vertices. *)
Lemma stale_plane gcd : forall ops b b' rs, nb_ok gcd b -> nb_set b = true -> nb_count b + count is_constrained ops < 3 -> nb_run gcd b ops = Ok (b', rs) ->
  nb_build gcd b' = Ok (nb_plane b) /\ forall v r, In (NCon v, r) (combine ops rs) -> r = true.
Proof.
  induction ops as [|o ops IH]; intros b b' rs I S C R; cbn [nb_run] in R.
  - injection R as <- <-. unfold nb_build. rewrite S. split; [reflexivity|intros v r []].
  - destruct (nb_step gcd b o) as [[b1 r]| | |] eqn:St; cbn [rbind fst snd] in R; try discriminate.
    destruct (nb_run gcd b1 ops) as [[b2 rs']| | |] eqn:R'; cbn [rbind fst snd] in R; try discriminate. injection R as <- <-.
    change (count is_constrained (o :: ops)) with (count is_constrained ([o] ++ ops)) in C. rewrite count_app in C. cbn [combine In].
    destruct o as [u|u|]; cbn [nb_step] in St.
    + destruct (nb_unc_ok gcd b u I) as (b1' & U & I' & C' & P' & S' & _). rewrite U in St. cbn [rbind] in St. injection St as <- <-. change (count is_constrained [NUnc u]) with 0 in C.
      destruct (IH b1' b2 rs' I' ltac:(congruence) ltac:(lia) R') as [IH1 IH2]. rewrite P' in IH1. split; [exact IH1|]. intros w q [X|X]; [discriminate X|eapply IH2; exact X].
    + change (count is_constrained [NCon u]) with 1 in C. destruct (nb_con_facts gcd b u b1 r I St) as (I' & [(_ & -> & C2 & _ & K)|(C3 & _)]); [|lia]. destruct (K ltac:(lia)) as [Es Ep].
      destruct (IH b1 b2 rs' I' ltac:(congruence) ltac:(lia) R') as [IH1 IH2]. rewrite Ep in IH1. split; [exact IH1|]. intros w q [X|X]; [congruence|eapply IH2; exact X].
    + change (count is_constrained [NLarge]) with 0 in C. destruct (nb_large_facts gcd b b1 r I St) as (I' & N' & C' & [(_ & -> & _)|(_ & S1 & Bd & _)]).
      * destruct (IH b b2 rs' I S ltac:(lia) R') as [IH1 IH2]. split; [exact IH1|]. intros w q [X|X]; [discriminate X|eapply IH2; exact X].
      * unfold nb_build in Bd. rewrite S in Bd. injection Bd as Ep. destruct (IH b1 b2 rs' I' S1 ltac:(lia) R') as [IH1 IH2]. rewrite <- Ep in IH1. split; [exact IH1|]. intros w q [X|X]; [discriminate X|eapply IH2; exact X].
Qed.
Lemma large_plane_spec h : large_plane h = false <-> small_plane h.
Proof.
  unfold large_plane, small_plane, l4, fits32, zhalf. rewrite orb_false_iff, !negb_false_iff, !andb_true_iff. rewrite !Forall_cons_iff. 
  split; [intros H; repeat split; try constructor; lia|]. intros H. lia.
Qed.
Lemma large_result gcd ops b rs r : nb_run gcd nb_new (ops ++ [NLarge]) = Ok (b, rs ++ [r]) ->
  (count is_vertex ops < 3 -> r = false) /\ (3 <= count is_vertex ops -> exists h, nb_build gcd b = Ok h /\ (r = false <-> small_plane h)).
Proof.
  intros R. apply nb_run_snoc in R as (b1 & rs1 & r1 & R & St & E). apply app_inj_tail in E as [-> <-]. cbn [nb_step] in St.
  destruct (nb_run_facts gcd ops b1 rs1 R) as (I & _ & _ & V & _). destruct (nb_large_facts gcd b1 b r I St) as (I' & N' & _ & [(L & -> & ->)|(L & S & _ & ->)]).
  - split; [reflexivity|intros; lia].
  - split; [intros; lia|]. intros _. exists (nb_plane b). unfold nb_build. rewrite S. split; [reflexivity|]. apply large_plane_spec.
Qed.
(** Exactly three vertices: the plane of that triangle. *)
Lemma three_vertices gcd ops b rs v1 v2 v3 : nb_run gcd nb_new ops = Ok (b, rs) -> flat_map vertex_of ops = [v1; v2; v3] ->
  nb_build gcd b = nb_build_info gcd b /\ nb_pick (nb_info b) (3 - nb_count b) 3 = Ok [v1; v2; v3].
Proof.
  intros R V. assert (CV : count is_vertex ops = 3).
  { change 3 with (length [v1; v2; v3]). rewrite <- V. unfold count. clear. induction ops as [|[v|v|] ops IH]; cbn [filter is_vertex flat_map vertex_of app length]; lia. }
  assert (NQ : ~ queried_early ops).
  { intros (x & y & -> & N & M). rewrite count_app in CV. change (count is_vertex (NLarge :: y)) with (count is_vertex y) in CV.
    assert (count is_constrained y <= count is_vertex y). { unfold count. clear. induction y as [|[v|v|] y IH]; cbn [filter is_vertex is_constrained length]; lia. } lia. }
  split; [apply (build_current gcd ops b rs R); right; exact NQ|]. destruct (nb_run_facts gcd ops b rs R) as (I & _ & _ & L & SQ & _).
  assert (L3 : length (nb_info b) = 3). { apply subsequence_length in SQ. rewrite map_length, V in SQ. cbn [length] in SQ. lia. }
  destruct (nb_picked gcd b I ltac:(lia)) as (p1 & p2 & p3 & P & _ & _). rewrite P. f_equal. rewrite <- V. apply subsequence_full.
  - eapply subsequence_trans; [apply (nb_pick_sub _ _ _ _ P)|exact SQ].
  - rewrite V. reflexivity.
Qed.
Lemma three_collinear gcd ops b rs h v1 v2 v3 q1 q2 q3 : gcd_ok gcd -> denotes v1 q1 -> denotes v2 q2 -> denotes v3 q3 -> collinear q1 q2 q3 ->
  flat_map vertex_of ops = [v1; v2; v3] -> nb_run gcd nb_new ops = Ok (b, rs) -> nb_build gcd b <> Ok h.
Proof.
  intros G D1 D2 D3 Co V R B. destruct (three_vertices gcd ops b rs v1 v2 v3 R V) as [E P]. rewrite E in B. unfold nb_build_info in B. rewrite P in B. cbn [rbind] in B.
  destruct (hs_of_hpoints v1 v2 v3) as [k| | |] eqn:K; try discriminate. cbn [rbind] in B. pose proof (hs_reduce_nonzero gcd k h G B) as N. apply N.
  assert (Z : hs_valid k = false). { destruct (hs_valid k) eqn:Hv; [|reflexivity]. apply (hs_of_hpoints_valid v1 v2 v3 q1 q2 q3 k D1 D2 D3 K) in Hv. contradiction. }
  unfold hs_valid, v3_is_zero in Z. apply negb_false_iff in Z. rewrite !andb_true_iff, !Z.eqb_eq in Z. destruct Z as [[Zx Zy] Zz].
  destruct (hs_of_hpoints_incident v1 v2 v3 k K) as (I1 & _). unfold incident, v3_dot in I1. rewrite Zx, Zy, Zz in I1. destruct D1 as (W & _).
  unfold l4. rewrite Zx, Zy, Zz. repeat (constructor; [reflexivity|]). constructor; [|constructor]. nia.
Qed.
