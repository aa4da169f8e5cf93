(** Proofs about meshes whose facets are already flat. *)
From Coq Require Import List Bool Arith ZArith QArith Lia ZifyBool.
From Verif Require Import BigUIntModel GeoModel GeoSpec GeoProofs GeoReduceProofs GeoPlaneProofs ConcatModel ConcatSpec PlanarModel PlanarSpec PlanarProofs NudgeModel NudgeSpec NudgeProofs MeshSpec MeshProofs MeshLoopProofs.
Import ListNotations.
Open Scope Z_scope.
(** ** A plane through three points of a plane *)
(** The coefficients of the two planes are proportional. *)
Definition same_plane (k h : hspace3) : Prop := forall i j, (i < 4)%nat -> (j < 4)%nat -> nth i (l4 k) 0 * nth j (l4 h) 0 = nth j (l4 k) 0 * nth i (l4 h) 0.
Lemma wedge_parallel N1 N2 N3 D x1 y1 z1 w1 x2 y2 z2 w2 x3 y3 z3 w3 :
  N1 * x1 + N2 * y1 + N3 * z1 = w1 * D -> N1 * x2 + N2 * y2 + N3 * z2 = w2 * D -> N1 * x3 + N2 * y3 + N3 * z3 = w3 * D ->
  let m1 := w1 * (y2 * z3 - z2 * y3) + w2 * (y3 * z1 - z3 * y1) + w3 * (y1 * z2 - z1 * y2) in
  let m2 := w1 * (z2 * x3 - x2 * z3) + w2 * (z3 * x1 - x3 * z1) + w3 * (z1 * x2 - x1 * z2) in
  let m3 := w1 * (x2 * y3 - y2 * x3) + w2 * (x3 * y1 - y3 * x1) + w3 * (x1 * y2 - y1 * x2) in
  let d := x1 * (y2 * z3 - z2 * y3) + y1 * (z2 * x3 - x2 * z3) + z1 * (x2 * y3 - y2 * x3) in
  m1 * N2 = m2 * N1 /\ m1 * N3 = m3 * N1 /\ m2 * N3 = m3 * N2 /\ m1 * D = d * N1 /\ m2 * D = d * N2 /\ m3 * D = d * N3.
Proof.
  intros E1 E2 E3 m1 m2 m3 d. set (e1 := N1 * x1 + N2 * y1 + N3 * z1) in *. set (e2 := N1 * x2 + N2 * y2 + N3 * z2) in *. set (e3 := N1 * x3 + N2 * y3 + N3 * z3) in *.
  assert (C : forall u v, w1 * (u 2%nat * e3 - u 3%nat * e2) + w2 * (u 3%nat * e1 - u 1%nat * e3) + w3 * (u 1%nat * e2 - u 2%nat * e1) = v -> v = 0).
  { intros u v <-. rewrite E1, E2, E3. ring. }
  pose proof (C (fun l => match l with 1%nat => z1 | 2%nat => z2 | _ => z3 end) (N1 * m2 - N2 * m1) ltac:(unfold e1, e2, e3, m1, m2; ring)).
  pose proof (C (fun l => match l with 1%nat => y1 | 2%nat => y2 | _ => y3 end) (N3 * m1 - N1 * m3) ltac:(unfold e1, e2, e3, m1, m3; ring)).
  pose proof (C (fun l => match l with 1%nat => x1 | 2%nat => x2 | _ => x3 end) (N2 * m3 - N3 * m2) ltac:(unfold e1, e2, e3, m2, m3; ring)).
  assert (A1 : e1 * (y2 * z3 - z2 * y3) + e2 * (y3 * z1 - z3 * y1) + e3 * (y1 * z2 - z1 * y2) = d * N1) by (unfold e1, e2, e3, d; ring).
  assert (A2 : e1 * (z2 * x3 - x2 * z3) + e2 * (z3 * x1 - x3 * z1) + e3 * (z1 * x2 - x1 * z2) = d * N2) by (unfold e1, e2, e3, d; ring).
  assert (A3 : e1 * (x2 * y3 - y2 * x3) + e2 * (x3 * y1 - y3 * x1) + e3 * (x1 * y2 - y1 * x2) = d * N3) by (unfold e1, e2, e3, d; ring).
  rewrite E1, E2, E3 in A1, A2, A3. repeat split; [lia|lia|lia| | |].
  - rewrite <- A1. unfold m1. ring.
  - rewrite <- A2. unfold m2. ring.
  - rewrite <- A3. unfold m3. ring.
Qed.
Lemma same_plane_intro k h : vx (hn k) * vy (hn h) = vy (hn k) * vx (hn h) -> vx (hn k) * vz (hn h) = vz (hn k) * vx (hn h) -> vy (hn k) * vz (hn h) = vz (hn k) * vy (hn h) ->
  vx (hn k) * hd h = hd k * vx (hn h) -> vy (hn k) * hd h = hd k * vy (hn h) -> vz (hn k) * hd h = hd k * vz (hn h) -> same_plane k h.
Proof.
  intros A B C D E F i j Hi Hj. unfold l4. do 4 (destruct i as [|i]; [do 4 (destruct j as [|j]; [cbn [nth]; lia|]); lia|]). lia.
Qed.
Lemma hs_of_hpoints_same p1 p2 p3 h k : incident h p1 -> incident h p2 -> incident h p3 -> hs_of_hpoints p1 p2 p3 = Ok k -> same_plane k h.
Proof.
  unfold hs_of_hpoints, incident. destruct p1 as [[x1 y1 z1] w1], p2 as [[x2 y2 z2] w2], p3 as [[x3 y3 z3] w3], h as [[N1 N2 N3] D]. cbn [hv hw hn hd]. unfold v3_dot at 1 2 3; cbn [vx vy vz].
  intros E1 E2 E3. destruct (wedge_parallel N1 N2 N3 D x1 y1 z1 w1 x2 y2 z2 w2 x3 y3 z3 w3 E1 E2 E3) as (A & B & C & P & Q & R). cbv zeta in *.
  unfold zabs. destruct (w2 =? - 2 ^ 63); [discriminate|]. cbn [rbind]. intros E. injection E as <-.
  assert (X : Z.abs w2 = w2 * zabs_mult w2) by (unfold zabs_mult, zsign_ext; destruct (w2 <? 0) eqn:E; [change (Z.lor (-1) 1) with (-1)|change (Z.lor 0 1) with 1]; lia).
  rewrite X. set (t := zabs_mult w2). clearbody t. set (s := zabs_mult2 w1 w3). clearbody s. clear X E1 E2 E3.
  assert (K : forall a b c d f, a * b = c * d -> f * a * b = f * c * d) by (intros a b c d f H0; rewrite <- !Z.mul_assoc, H0; reflexivity).
  apply same_plane_intro; unfold v3_dot, v3_scale, v3_cross, v3_sub; cbn [hn hd vx vy vz].
  - apply (K _ _ _ _ (w2 * w2 * t * s)) in A. etransitivity; [|etransitivity; [exact A|]]; ring.
  - apply (K _ _ _ _ (w2 * w2 * t * s)) in B. etransitivity; [|etransitivity; [exact B|]]; ring.
  - apply (K _ _ _ _ (w2 * w2 * t * s)) in C. etransitivity; [|etransitivity; [exact C|]]; ring.
  - apply (K _ _ _ _ (w2 * w2 * t * s)) in P. etransitivity; [|etransitivity; [exact P|]]; ring.
  - apply (K _ _ _ _ (w2 * w2 * t * s)) in Q. etransitivity; [|etransitivity; [exact Q|]]; ring.
  - apply (K _ _ _ _ (w2 * w2 * t * s)) in R. etransitivity; [|etransitivity; [exact R|]]; ring.
Qed.
Lemma valid_some h : hs_valid h = true -> exists j, (j < 3)%nat /\ nth j (l4 h) 0 <> 0.
Proof.
  unfold hs_valid, v3_is_zero. rewrite negb_true_iff, !andb_false_iff, !Z.eqb_neq. intros [[X|X]|X]; [exists 0%nat|exists 1%nat|exists 2%nat]; (split; [lia|exact X]).
Qed.
Lemma same_plane_incident k h p : hs_valid h = true -> same_plane k h -> incident h p -> incident k p.
Proof.
  intros V S I. destruct (valid_some h V) as (j & Hj & N). unfold incident, v3_dot in *.
  pose proof (S 0%nat j ltac:(lia) ltac:(lia)) as S0. pose proof (S 1%nat j ltac:(lia) ltac:(lia)) as S1. pose proof (S 2%nat j ltac:(lia) ltac:(lia)) as S2. pose proof (S 3%nat j ltac:(lia) ltac:(lia)) as S3.
  set (c := nth j (l4 h) 0) in *. set (d := nth j (l4 k) 0) in *. unfold l4 in S0, S1, S2, S3. cbn [nth] in *. apply (Z.mul_cancel_l _ _ c N).
  transitivity (d * (vx (hn h) * vx (hv p) + vy (hn h) * vy (hv p) + vz (hn h) * vz (hv p))).
  - transitivity ((vx (hn k) * c) * vx (hv p) + (vy (hn k) * c) * vy (hv p) + (vz (hn k) * c) * vz (hv p)); [ring|]. rewrite S0, S1, S2. ring.
  - rewrite I. transitivity (hw p * (d * hd h)); [ring|]. rewrite <- S3. ring.
Qed.
Lemma same_plane_reduce gcd k h r : gcd_ok gcd -> same_plane k h -> hs_reduce gcd k = Ok r -> same_plane r h.
Proof.
  intros G S R. pose proof (hs_reduce_nonzero gcd k r G R) as N. destruct (hs_reduce_spec gcd k r G N R) as (_ & f & Pf & E). intros i j Hi Hj. specialize (S i j Hi Hj). rewrite E in S.
  replace 0 with (f * 0) in S by lia. rewrite !map_nth in S. rewrite <- !Z.mul_assoc in S. replace (f * 0) with 0 in S by lia. apply (proj1 (Z.mul_cancel_l _ _ f ltac:(lia))) in S. exact S.
Qed.
(** A coprime tuple divides every proportional tuple. *)
Lemma coprime_divides a b c d x : coprime [a; b; c; d] -> forall y, (y | a * x) -> (y | b * x) -> (y | c * x) -> (y | d * x) -> (y | x).
Proof.
  intros C y A B D E. assert (G : Z.gcd (Z.gcd (Z.gcd a b) c) d = 1).
  { set (g := Z.gcd (Z.gcd (Z.gcd a b) c) d). assert (X : (g | 1)).
    { apply C. assert (G1 : (g | Z.gcd (Z.gcd a b) c)) by apply Z.gcd_divide_l. assert (G2 : (g | Z.gcd a b)) by (eapply Z.divide_trans; [exact G1|apply Z.gcd_divide_l]).
      repeat constructor; [eapply Z.divide_trans; [exact G2|apply Z.gcd_divide_l]|eapply Z.divide_trans; [exact G2|apply Z.gcd_divide_r]|eapply Z.divide_trans; [exact G1|apply Z.gcd_divide_r]|apply Z.gcd_divide_r]. }
    assert (0 <= g) by apply Z.gcd_nonneg. apply Z.divide_1_r_nonneg in X; assumption. }
  assert (X : (y | Z.gcd (Z.gcd (Z.gcd (a * x) (b * x)) (c * x)) (d * x))) by (repeat apply Z.gcd_greatest; assumption).
  rewrite Z.gcd_mul_mono_r in X. rewrite <- (Z.gcd_abs_r _ (c * x)) in X. rewrite Z.abs_mul in X. rewrite (Z.gcd_mul_mono_r (Z.gcd a b) (Z.abs c) (Z.abs x)) in X. rewrite Z.gcd_abs_r, Z.abs_involutive in X.
  rewrite <- (Z.gcd_abs_r _ (d * x)) in X. rewrite Z.abs_mul in X. rewrite (Z.gcd_mul_mono_r _ (Z.abs d) (Z.abs x)) in X. rewrite Z.gcd_abs_r, Z.abs_involutive in X. rewrite G in X. rewrite Z.mul_1_l in X. apply Z.divide_abs_r. exact X.
Qed.
Lemma same_plane_bound k h j : coprime (l4 k) -> hs_valid h = true -> same_plane k h -> (j < 4)%nat -> Z.abs (nth j (l4 k) 0) <= Z.abs (nth j (l4 h) 0).
Proof.
  intros C V S Hj. destruct (Z.eq_dec (nth j (l4 h) 0) 0) as [E|E].
  - destruct (valid_some h V) as (i & Hi & N). pose proof (S j i Hj ltac:(lia)) as X. rewrite E in X. nia.
  - assert (D : (nth j (l4 k) 0 | nth j (l4 h) 0)).
    { apply (coprime_divides _ _ _ _ (nth j (l4 h) 0) C).
      - exists (nth 0 (l4 h) 0). pose proof (S 0%nat j ltac:(lia) Hj) as X. change (vx (hn k)) with (nth 0 (l4 k) 0). lia.
      - exists (nth 1 (l4 h) 0). pose proof (S 1%nat j ltac:(lia) Hj) as X. change (vy (hn k)) with (nth 1 (l4 k) 0). lia.
      - exists (nth 2 (l4 h) 0). pose proof (S 2%nat j ltac:(lia) Hj) as X. change (vz (hn k)) with (nth 2 (l4 k) 0). lia.
      - exists (nth 3 (l4 h) 0). pose proof (S 3%nat j ltac:(lia) Hj) as X. change (hd k) with (nth 3 (l4 k) 0). lia. }
    apply Z.divide_abs_l, Z.divide_abs_r in D. apply Z.divide_pos_le; [lia|exact D].
Qed.
(** ** Builders fed with points of one plane *)
Definition built_on (h k : hspace3) : Prop := coprime (l4 k) /\ same_plane k h.
Definition nb_flat (h : hspace3) (b : nbuilder) : Prop := Forall (fun e => incident h (snd e)) (nb_info b) /\ (nb_set b = true -> built_on h (nb_plane b)).
Lemma nb_flat_info gcd h b k : gcd_ok gcd -> nb_flat h b -> nb_build_info gcd b = Ok k -> built_on h k.
Proof.
  intros G [F _]. unfold nb_build_info. destruct (nb_pick _ _ _) as [l| | |] eqn:P; try discriminate. cbn [rbind]. apply nb_pick_sub in P.
  destruct l as [|p1 [|p2 [|p3 [|]]]]; try discriminate. destruct (hs_of_hpoints p1 p2 p3) as [k0| | |] eqn:K; try discriminate. cbn [rbind]. intros R.
  assert (A : Forall (incident h) [p1; p2; p3]).
  { assert (F' : Forall (incident h) (map snd (nb_info b))) by (apply Forall_map; exact F). clear - P F'. induction P as [l|x k l H IH|x k l H IH]; [constructor| |]; inversion F'; subst; [constructor; auto|auto]. }
  inversion A as [|? ? A1 T1]; subst. inversion T1 as [|? ? A2 T2]; subst. inversion T2 as [|? ? A3 T3]; subst.
  split; [apply (hs_reduce_spec gcd k0 k G (hs_reduce_nonzero gcd k0 k G R) R)|]. apply (same_plane_reduce gcd k0 h k G); [|exact R]. apply (hs_of_hpoints_same p1 p2 p3); assumption.
Qed.
Lemma nb_flat_build gcd h b k : gcd_ok gcd -> nb_flat h b -> nb_build gcd b = Ok k -> built_on h k.
Proof. intros G F. unfold nb_build. destruct (nb_set b) eqn:E; [|apply nb_flat_info; assumption]. intros X. injection X as <-. apply F, E. Qed.
Lemma nb_flat_step gcd h b o b' r : gcd_ok gcd -> hs_valid h = true -> nb_ok gcd b -> nb_flat h b -> Forall (incident h) (vertex_of o) -> nb_step gcd b o = Ok (b', r) ->
  nb_flat h b' /\ match o with NLarge => Forall (fun c => Z.abs c < 2 ^ 31) (l4 h) -> r = false | _ => r = true end.
Proof.
  intros G V I F Vo. pose proof F as [F1 F2]. destruct o as [v|v|]; cbn [nb_step vertex_of] in *.
  - destruct (nb_unc_ok gcd b v I) as (b1 & U & _ & _ & P & S & N). rewrite U. cbn [rbind]. intros E. injection E as <- <-. split; [|reflexivity]. split; [|rewrite P, S; exact F2].
    rewrite N. destruct (length (nb_info b) <? 3)%nat; [|exact F1]. apply Forall_app. split; [exact F1|]. constructor; [|constructor]. cbn [snd]. inversion Vo; assumption.
  - intros E. destruct (nb_con_facts gcd b v b' r I E) as (I' & [(L & -> & C & N & K)|(L & -> & Er)]).
    + assert (F1' : Forall (fun e => incident h (snd e)) (nb_info b')) by (rewrite N; apply Forall_app; split; [exact F1|]; constructor; [|constructor]; cbn [snd]; inversion Vo; assumption).
      split; [|reflexivity]. split; [exact F1'|]. destruct (Nat.lt_ge_cases (nb_count b') 3) as [L3|L3]; [destruct (K L3) as [-> ->]; exact F2|].
      intros _. pose proof I' as (_ & T3 & _ & K2 & _). destruct (K2 ltac:(lia)) as [S B]. apply (nb_flat_info gcd h (NB (nb_info b') (nb_count b') (nb_plane b') false)); [exact G|split; [exact F1'|discriminate]|].
      rewrite <- B. apply build_info_ext; reflexivity.
    + split; [exact F|]. rewrite Er. apply hs_coincident_incident. pose proof I as (_ & _ & _ & K & _). destruct (K L) as [S _]. destruct (F2 S) as [_ Sp].
      apply (same_plane_incident _ h v V Sp). inversion Vo; assumption.
  - intros E. destruct (nb_large_facts gcd b b' r I E) as (I' & N & C & [(L & -> & ->)|(L & S & B & Er)]); [split; [exact F|reflexivity]|].
    assert (Bo : built_on h (nb_plane b')) by (apply (nb_flat_build gcd h b); assumption).
    split; [split; [rewrite N; exact F1|intros _; exact Bo]|]. intros Sm. rewrite Er. apply large_plane_spec. destruct Bo as [Cp Sp]. unfold small_plane, fits32.
    assert (X : forall j, (j < 4)%nat -> - 2 ^ 31 <= nth j (l4 (nb_plane b')) 0 < 2 ^ 31).
    { intros j Hj. pose proof (same_plane_bound _ h j Cp V Sp Hj) as Y. assert (Z.abs (nth j (l4 h) 0) < 2 ^ 31); [|lia]. rewrite Forall_forall in Sm. apply Sm, nth_In. cbn. lia. }
    unfold l4. constructor; [apply (X 0%nat); lia|]. constructor; [apply (X 1%nat); lia|]. constructor; [apply (X 2%nat); lia|]. constructor; [apply (X 3%nat); lia|constructor].
Qed.
Lemma nb_flat_run gcd h : gcd_ok gcd -> hs_valid h = true -> forall ops b b' rs, nb_ok gcd b -> nb_flat h b -> Forall (incident h) (flat_map vertex_of ops) -> nb_run gcd b ops = Ok (b', rs) ->
  nb_flat h b' /\ forall v r, In (NCon v, r) (combine ops rs) -> r = true.
Proof.
  intros G V. induction ops as [|o ops IH]; intros b b' rs I F Vs R; cbn [nb_run] in R; [injection R as <- <-; split; [exact F|intros v r []]|].
  cbn [flat_map] in Vs. apply Forall_app in Vs as [V1 V2].
  destruct (nb_step gcd b o) as [[b1 r1]| | |] eqn:St; cbn [rbind fst snd] in R; try discriminate. destruct (nb_run gcd b1 ops) as [[b2 rs']| | |] eqn:R'; cbn [rbind fst snd] in R; try discriminate. injection R as <- <-.
  assert (I1 : nb_ok gcd b1).
  { destruct o as [v|v|]; cbn [nb_step] in St.
    - destruct (nb_unc_ok gcd b v I) as (b1' & U & I' & _). rewrite U in St. injection St as <- <-. exact I'.
    - apply (nb_con_facts gcd b v b1 r1 I St).
    - apply (nb_large_facts gcd b b1 r1 I St). }
  destruct (nb_flat_step gcd h b o b1 r1 G V I F V1 St) as [F1 Ro]. destruct (IH b1 b2 rs' I1 F1 V2 R') as [F2 K]. split; [exact F2|].
  intros v r [X|X]; [|exact (K v r X)]. injection X as -> ->. exact Ro.
Qed.
Lemma nb_new_flat h : nb_flat h nb_new.
Proof. split; [constructor|discriminate]. Qed.
(** The plane found for a range all of whose vertices are on one plane. *)
Lemma next_range_flat gcd st act first last h k f e : gcd_ok gcd -> (first < last)%nat -> hs_valid h = true ->
  (forall i v, (first <= i < last)%nat -> act_at st act i = Ok v -> incident h (vpt v)) -> next_range gcd st act first last = Ok (k, f, e) -> forall p, incident h p -> incident k p.
Proof.
  intros G L V H NR. destruct (next_range_facts gcd st act first last k f e G L NR) as (_ & _ & _ & _ & _ & _ & ops & rs & b & R & B & FR & _).
  assert (Vs : Forall (incident h) (flat_map vertex_of ops)).
  { unfold from_range in FR. eapply Forall_impl; [|exact FR]. cbn. intros p (i & v & Hi & A & <-). exact (H i v Hi A). }
  destruct (nb_flat_run gcd h G V ops nb_new b rs (nb_new_ok gcd) (nb_new_flat h) Vs R) as [F _]. destruct (nb_flat_build gcd h b k G F B) as [_ S]. intros p. apply same_plane_incident; assumption.
Qed.
Open Scope nat_scope.
Lemma front_whole gcd h st act : gcd_ok gcd -> hs_valid h = true -> Forall (fun c => (Z.abs c < 2 ^ 31)%Z) (l4 h) -> forall fuel b first last b' f e, nb_ok gcd b -> nb_flat h b -> first <= last ->
  (forall i v, first <= i < last -> act_at st act i = Ok v -> incident h (vpt v)) -> range_front gcd fuel st act b first last = Ok (b', f, e) -> f = last /\ e = last.
Proof.
  intros G V Sm. induction fuel as [|fuel IH]; intros b first last b' f e I F L H; cbn [range_front]; [discriminate|]. destruct (Nat.eqb_spec first last) as [->|NE]; [intros E; injection E as <- <- <-; auto|].
  destruct (act_at st act first) as [v| | |] eqn:A; try discriminate. cbn [rbind]. pose proof (H first v ltac:(lia) A) as Hv. destruct (can_add v) eqn:CA.
  - destruct (nb_has_large gcd b) as [[b1 lg]| | |] eqn:HL; try discriminate. cbn [rbind fst snd]. destruct (nb_flat_step gcd h b NLarge b1 lg G V I F ltac:(constructor) HL) as [F1 X]. rewrite (X Sm).
    destruct (nb_large_facts gcd b b1 lg I HL) as (I1 & _). destruct (nb_unc_ok gcd b1 (vpt v) I1) as (b2 & U & I2 & _). rewrite U. cbn [rbind].
    assert (F2 : nb_flat h b2). { apply (nb_flat_step gcd h b1 (NUnc (vpt v)) b2 true G V I1 F1); [constructor; [exact Hv|constructor]|]. cbn [nb_step]. rewrite U. reflexivity. }
    apply (IH b2 (S first) last b' f e I2 F2 ltac:(lia)). intros i w Hi. apply H. lia.
  - destruct (nb_try_constrained gcd b (vpt v)) as [[b1 r]| | |] eqn:TC; try discriminate. cbn [rbind fst snd].
    destruct (nb_flat_step gcd h b (NCon (vpt v)) b1 r G V I F ltac:(constructor; [exact Hv|constructor]) TC) as [F1 ->]. destruct (nb_con_facts gcd b (vpt v) b1 true I TC) as (I1 & _).
    apply (IH b1 (S first) last b' f e I1 F1 ltac:(lia)). intros i w Hi. apply H. lia.
Qed.
Lemma next_range_whole gcd st act first last h k f e : gcd_ok gcd -> first < last -> hs_valid h = true -> Forall (fun c => (Z.abs c < 2 ^ 31)%Z) (l4 h) ->
  (forall i v, first <= i < last -> act_at st act i = Ok v -> incident h (vpt v)) -> next_range gcd st act first last = Ok (k, f, e) -> f = e.
Proof.
  intros G L V Sm H. unfold next_range. destruct last as [|l]; [discriminate|]. destruct (act_at st act l) as [v| | |] eqn:A; try discriminate. cbn [rbind]. pose proof (H l v ltac:(lia) A) as Hv.
  destruct (if can_add v then nb_add_unconstrained nb_new (vpt v) else _) as [b0| | |] eqn:E0; try discriminate. cbn [rbind].
  assert (X : nb_ok gcd b0 /\ nb_flat h b0).
  { destruct (can_add v).
    - destruct (nb_unc_ok gcd nb_new (vpt v) (nb_new_ok gcd)) as (b1 & U & I & _). rewrite U in E0. injection E0 as <-. split; [exact I|].
      apply (nb_flat_step gcd h nb_new (NUnc (vpt v)) b1 true G V (nb_new_ok gcd) (nb_new_flat h)); [constructor; [exact Hv|constructor]|]. cbn [nb_step]. rewrite U. reflexivity.
    - destruct (nb_try_constrained gcd nb_new (vpt v)) as [[b1 r]| | |] eqn:T; try discriminate. cbn [rbind fst] in E0. injection E0 as <-. split; [apply (nb_con_facts gcd nb_new (vpt v) b1 r (nb_new_ok gcd) T)|].
      apply (nb_flat_step gcd h nb_new (NCon (vpt v)) b1 r G V (nb_new_ok gcd) (nb_new_flat h)); [constructor; [exact Hv|constructor]|]. exact T. }
  destruct X as [I0 F0]. destruct (range_front gcd (S l) st act b0 first l) as [[[b f'] e']| | |] eqn:RF; try discriminate. cbn [rbind].
  destruct (nb_build gcd b) as [h'| | |]; try discriminate. cbn [rbind]. intros E. injection E as -> -> ->.
  destruct (front_whole gcd h st act G V Sm _ b0 first l b f e I0 F0 ltac:(lia) ltac:(intros i w Hi; apply H; lia) RF) as [-> ->]. reflexivity.
Qed.
(** ** Vertices that do not move *)
Definition unmoved (orig : list hpoint3) (st : list vinfo) : Prop :=
  length st = length orig /\ forall k v r, nth_error st k = Some v -> nth_error orig k = Some r -> vpt v = r /\ Forall (fun h => incident h r) (vadj v).
Lemma unmoved_set orig st k v : unmoved orig st -> k < length st -> (forall r, nth_error orig k = Some r -> vpt v = r /\ Forall (fun h => incident h r) (vadj v)) -> unmoved orig (set_nth st k v).
Proof.
  intros [L U] K H. split; [rewrite set_nth_length; assumption|]. intros j u r. destruct (Nat.eq_dec j k) as [->|N].
  - rewrite set_nth_same by exact K. intros E. injection E as <-. apply H.
  - rewrite set_nth_other by assumption. apply U.
Qed.
Lemma finalize_unmoved gcd v : Forall (fun h => incident h (vpt v)) (vadj v) -> vi_finalize gcd v = Ok v.
Proof.
  intros F. unfold vi_finalize. assert (X : forallb (fun h => hs_coincident h (vpt v)) (vadj v) = true).
  { apply forallb_forall. intros h Hh. rewrite Forall_forall in F. apply hs_coincident_incident, F, Hh. }
  rewrite X. reflexivity.
Qed.
Lemma try_add_unmoved gcd v h : Forall (fun a => incident a (vpt v)) (vadj v) -> incident h (vpt v) -> exists v', vi_try_add gcd v h = Ok v' /\ vpt v' = vpt v /\ Forall (fun a => incident a (vpt v)) (vadj v').
Proof.
  intros F H. unfold vi_try_add. destruct (can_add v); [|eauto]. destruct (existsb _ (vadj v)); [eauto|]. cbv zeta. cbn [vadj].
  assert (F' : Forall (fun a => incident a (vpt v)) (vadj v ++ [h])) by (apply Forall_app; split; [exact F|constructor; [exact H|constructor]]).
  destruct (_ =? 3); [rewrite finalize_unmoved by exact F'|]; eexists; (split; [reflexivity|split; [reflexivity|exact F']]).
Qed.
Definition on_plane_ids (h : hspace3) (orig : list hpoint3) (act : list nat) : Prop := forall k r, In k act -> nth_error orig k = Some r -> incident h r.
Lemma attach_unmoved gcd act h orig : on_plane_ids h orig act -> forall pos st out st' out', unmoved orig st -> attach gcd st act h out pos = Ok (st', out') -> unmoved orig st'.
Proof.
  intros O. induction pos as [|i pos IH]; intros st out st' out' U; cbn [attach]; [intros E; injection E as <- <-; exact U|].
  destruct (get act i) as [k| | |] eqn:Ga; try discriminate. cbn [rbind]. destruct (get st k) as [v| | |] eqn:Gs; try discriminate. cbn [rbind]. apply get_some in Ga, Gs.
  assert (K : k < length st) by (apply nth_error_Some; congruence). pose proof U as [L Uk].
  destruct (nth_error orig k) as [r|] eqn:R; [|apply nth_error_None in R; lia]. destruct (Uk k v r Gs R) as [<- F].
  destruct (try_add_unmoved gcd v h F (O k _ (nth_error_In _ _ Ga) R)) as (v' & E & P & F'). rewrite E. cbn [rbind]. apply IH. apply unmoved_set; [exact U|exact K|].
  intros r' R'. rewrite R in R'. injection R' as <-. rewrite P. auto.
Qed.
Lemma facet_loop_flat dbg gcd act orig h : gcd_ok gcd -> hs_valid h = true -> on_plane_ids h orig act -> forall fuel st verts polys first last st' verts' polys', unmoved orig st -> first < last ->
  facet_loop dbg gcd fuel st act verts polys first last = Ok (st', verts', polys') ->
  unmoved orig st' /\ exists ps, polys' = polys ++ ps /\ Forall (fun p => forall x, incident h x -> incident (fst p) x) ps /\ (Forall (fun c => (Z.abs c < 2 ^ 31)%Z) (l4 h) -> length ps = 1).
Proof.
  intros G V O. induction fuel as [|fuel IH]; intros st verts polys first last st' verts' polys' U L; cbn [facet_loop]; [discriminate|].
  destruct (next_range gcd st act first last) as [[[k f] e]| | |] eqn:NR; try discriminate. cbn [rbind].
  destruct (check dbg (negb (first =? f))) as [[]| | |]; try discriminate. cbn [rbind].
  assert (H : forall i v, first <= i < last -> act_at st act i = Ok v -> incident h (vpt v)).
  { intros i v Hi A. apply act_at_some in A as (j & A & B). assert (Lj : j < length st) by (apply nth_error_Some; congruence). destruct U as [Lu Uk].
    destruct (nth_error orig j) as [r|] eqn:R; [|apply nth_error_None in R; lia]. destruct (Uk j v r B R) as [-> _]. exact (O j r (nth_error_In _ _ A) R). }
  pose proof (next_range_flat gcd st act first last h k f e G L V H NR) as Hk.
  destruct (next_range_facts gcd st act first last k f e G L NR) as (_ & L3 & Lf & Le & _).
  assert (Ok' : on_plane_ids k orig act) by (intros j r Hj R; apply Hk; exact (O j r Hj R)).
  destruct (attach gcd st act k verts (seq first (f - first))) as [[st1 v1]| | |] eqn:A1; try discriminate. cbn [rbind fst snd].
  destruct (attach gcd st1 act k v1 (rev (seq e (last - e)))) as [[st2 v2]| | |] eqn:A2; try discriminate. cbn [rbind fst snd].
  assert (U2 : unmoved orig st2) by (eapply attach_unmoved; [exact Ok'| |exact A2]; eapply attach_unmoved; [exact Ok'| |exact A1]; exact U).
  destruct (Nat.eqb_spec f e) as [->|NE].
  - intros E. injection E as <- <- <-. split; [exact U2|]. eexists. split; [reflexivity|]. split; [constructor; [exact Hk|constructor]|reflexivity].
  - intros E. destruct (IH st2 v2 _ (f - 1) (S e) st' verts' polys' U2 ltac:(lia) E) as (U' & ps & -> & F & _). split; [exact U'|]. rewrite <- app_assoc. cbn [app]. eexists. split; [reflexivity|].
    split; [constructor; [exact Hk|exact F]|]. intros Sm. exfalso. apply NE. exact (next_range_whole gcd st act first last h k f e G L V Sm H NR).
Qed.
Lemma ends_planes n l : map fst (ends n l) = map fst l.
Proof. revert n. induction l as [|[h ks] l IH]; intros n; [reflexivity|]. cbn [ends map fst]. rewrite IH. reflexivity. Qed.
Lemma rounds_nonempty act first last g : rounds act first last g -> g <> [].
Proof. destruct 1; discriminate. Qed.
Lemma incident_multiple h p r : multiple p r -> incident h p -> incident h r.
Proof.
  intros (f & Hf & A & B & C & D). unfold incident, v3_dot. rewrite A, B, C, D. intros X. apply (proj1 (Z.mul_cancel_l _ _ f Hf)).
  rewrite Z.mul_assoc, <- X. ring.
Qed.
(** A facet of a flat mesh: where its vertices are, and its polygons. *)
Definition flat_result (orig : list hpoint3) (ks : list nat) (h : hspace3) (g : list (hspace3 * list nat)) : Prop :=
  Forall (fun p => forall x, incident h x -> incident (fst p) x) g /\ (Forall (fun c => (Z.abs c < 2 ^ 31)%Z) (l4 h) -> exists k, g = [(k, ks)]).
Lemma unmoved_app orig st t : unmoved orig st -> unmoved (orig ++ t) (st ++ map (fun r => VI r []) t).
Proof.
  intros [L U]. split; [rewrite !app_length, map_length; lia|]. intros k v r. destruct (Nat.lt_ge_cases k (length st)) as [K|K].
  - rewrite !nth_error_app1 by lia. apply U.
  - rewrite !nth_error_app2 by lia. rewrite L, nth_error_map. destruct (nth_error t (k - length orig)); [|discriminate]. cbn [option_map]. intros E E'. injection E as <-. injection E' as <-. split; [reflexivity|constructor].
Qed.
Lemma add_facets_flat dbg gcd : gcd_ok gcd -> forall fs hs m m' orig polys, mesh_ok gcd m orig polys -> m_active m = [] -> unmoved orig (m_store m) ->
  Forall2 (fun h f => hs_valid h = true /\ Forall (incident h) f) hs fs -> add_facets dbg gcd m fs = Ok m' ->
  exists t ids gs, mesh_ok gcd m' (orig ++ t) (polys ++ concat gs) /\ unmoved (orig ++ t) (m_store m') /\ Forall2 (Forall2 (found m')) fs ids /\ Forall2 (fun ks g => rounds ks 0 (length ks) g) ids gs /\
    Forall2 (fun h g => Forall (fun p => forall x, incident h x -> incident (fst p) x) g /\ (Forall (fun c => (Z.abs c < 2 ^ 31)%Z) (l4 h) -> length g = 1)) hs gs /\
    (forall q j, found m q j -> found m' q j).
Proof.
  intros G. induction fs as [|f fs IH]; intros hs m m' orig polys O A U Fl; cbn [add_facets]; inversion Fl as [|h f' hs' fs' [V Vf] Fl']; subst.
  - intros E. injection E as <-. exists [], [], []. cbn [concat]. rewrite !app_nil_r. split; [exact O|]. split; [exact U|]. split; [constructor|]. split; [constructor|]. split; [constructor|auto].
  - destruct (add_all gcd m f) as [m1| | |] eqn:A1; try discriminate. cbn [rbind]. destruct (finish_facet dbg gcd m1) as [m2| | |] eqn:A2; try discriminate. cbn [rbind]. intros E.
    destruct (add_all_ok gcd G f m m1 orig polys O A1) as (t & ids & O1 & S1 & Ac & F1 & K1). rewrite A in Ac. cbn [app] in Ac.
    destruct (finish_ok dbg gcd m1 m2 _ polys G O1 A2) as (g & O2 & R & Ac2 & _ & K2). rewrite Ac in R.
    assert (U1 : unmoved (orig ++ t) (m_store m1)) by (rewrite S1; apply unmoved_app, U).
    assert (On : on_plane_ids h (orig ++ t) (m_active m1)).
    { rewrite Ac. intros k r Hk Rk. assert (exists p, In p f /\ found m1 p k) as (p & Hp & Fp).
      { clear - F1 Hk. induction F1 as [|x y l kk H1 H2 IH]; [destruct Hk|]. destruct Hk as [<-|Hk]; [exists x; split; [left; reflexivity|exact H1]|]. destruct (IH Hk) as (p & Hp & Fp). exists p. split; [right; exact Hp|exact Fp]. }
      destruct O1 as ((_ & M2) & _). destruct (M2 p k Fp) as (r' & R' & Mu). rewrite Rk in R'. injection R' as <-. apply (incident_multiple h p r Mu). rewrite Forall_forall in Vf. apply Vf, Hp. }
    assert (X : unmoved (orig ++ t) (m_store m2) /\ exists ps, m_polys m2 = m_polys m1 ++ ps /\ Forall (fun p => forall x, incident h x -> incident (fst p) x) ps /\ (Forall (fun c => (Z.abs c < 2 ^ 31)%Z) (l4 h) -> length ps = 1)).
    { unfold finish_facet in A2. destruct (check dbg _) as [[]| | |]; try discriminate. cbn [rbind] in A2.
      destruct (facet_loop dbg gcd _ _ _ _ _ _ _) as [[[st verts] ps]| | |] eqn:Lp; try discriminate. cbn [rbind] in A2. injection A2 as <-. cbn [m_store m_polys].
      assert (N : 0 < length (m_active m1)). { destruct (length (m_active m1)) eqn:E0; [|lia]. cbn [facet_loop next_range] in Lp. discriminate. }
      exact (facet_loop_flat dbg gcd (m_active m1) _ h G V On _ _ _ _ _ _ _ _ _ U1 N Lp). }
    destruct X as (U2 & ps & Eps & Fps & Lps).
    assert (Eg : ends (length (concat (map snd polys))) g = ps).
    { pose proof O1 as (_ & _ & _ & _ & P1 & _). pose proof O2 as (_ & _ & _ & _ & P2 & _). rewrite ends_app, Eps, P1 in P2. cbn [Nat.add] in P2. apply app_inv_head in P2. symmetry. exact P2. }
    destruct (IH hs' m2 m' _ _ O2 Ac2 U2 Fl' E) as (t2 & idss & gs & O3 & U3 & F3 & R3 & H3 & K3). exists (t ++ t2), (ids :: idss), (g :: gs). cbn [concat]. rewrite !app_assoc. split; [exact O3|]. split; [exact U3|].
    split; [constructor; [|exact F3]|split; [constructor; assumption|split; [constructor; [|exact H3]|]]].
    + clear - F1 K2 K3. induction F1 as [|x y l k H1 H2 IH]; constructor; [apply K3, K2, H1|exact IH].
    + assert (Em : map fst g = map fst ps) by (rewrite <- Eg; symmetry; apply ends_planes). split.
      * apply Forall_forall. intros p Hp x Hx. apply (in_map fst) in Hp. rewrite Em in Hp. apply in_map_iff in Hp as (p' & Ep & Hp'). rewrite <- Ep. rewrite Forall_forall in Fps. exact (Fps p' Hp' x Hx).
      * intros Sm. specialize (Lps Sm). rewrite <- (map_length fst), Em, map_length. exact Lps.
    + intros q j Hq. apply K3, K2, K1, Hq.
Qed.
Lemma finalize_unmoved_all gcd orig : forall st st' pre, unmoved (pre ++ orig) (map (fun r => VI r []) pre ++ st) -> finalize_vertices gcd st = Ok st' -> length st' = length st /\ forall k r, nth_error orig k = Some r -> exists v, nth_error st' k = Some v /\ vpt v = r.
Proof.
  intros st st' pre. revert st' orig pre. induction st as [|v st IH]; intros st' orig pre U; cbn [finalize_vertices].
  - intros E. injection E as <-. split; [reflexivity|]. intros k r K. destruct U as [L _]. rewrite !app_length, map_length in L. cbn [length] in L. destruct orig as [|? ?]; [destruct k; discriminate|cbn [length] in L; lia].
  - pose proof U as [L Uk]. rewrite !app_length, map_length in L. cbn [length] in L. destruct orig as [|r0 orig]; [cbn [length] in L; lia|].
    destruct (Uk (length pre) v r0) as [P F]; [rewrite nth_error_app2, map_length, Nat.sub_diag by (rewrite map_length; lia); reflexivity|rewrite nth_error_app2, Nat.sub_diag by lia; reflexivity|].
    assert (X : (if length (vadj v) =? 3 then Ok v else vi_finalize gcd v) = Ok v) by (destruct (_ =? 3); [reflexivity|]; apply finalize_unmoved; rewrite P; exact F).
    rewrite X. cbn [rbind]. destruct (finalize_vertices gcd st) as [st1| | |] eqn:E1; try discriminate. cbn [rbind]. intros E. injection E as <-.
    destruct (IH st1 orig (pre ++ [r0])) as [Ln H].
    + split; [rewrite !app_length, map_length, app_length; cbn [length] in *; lia|]. intros k u r. rewrite map_app. cbn [map]. rewrite <- !app_assoc. cbn [app]. intros A B.
      destruct (Nat.eq_dec k (length pre)) as [->|N].
      * rewrite nth_error_app2, map_length, Nat.sub_diag in A by (rewrite map_length; lia). rewrite nth_error_app2, Nat.sub_diag in B by lia. cbn [nth_error] in A, B. injection A as <-. injection B as <-. split; [reflexivity|constructor].
      * apply (Uk k u r); [|exact B]. destruct (Nat.lt_ge_cases k (length pre)) as [K|K]; [rewrite nth_error_app1 in A |- * by (rewrite map_length; lia); exact A|].
        rewrite nth_error_app2 in A |- * by (rewrite map_length; lia). rewrite map_length in *. destruct (k - length pre) as [|d] eqn:Ed; [lia|]. exact A.
    + reflexivity.
    + split; [cbn [length]; lia|]. intros [|k] r; cbn [nth_error]; [intros E; injection E as <-; exists v; auto|apply H].
Qed.
