(** The edges of each line are found and connected. *)
From Coq Require Import List Bool Arith ZArith QArith Qfield Lia ZifyBool Lqa Sorted Permutation.
From Verif Require Import BigUIntModel GeoModel GeoSpec GeoProofs GeoAngleProofs GeoDirProofs GeoLineProofs TriSpec TriTileProofs ConnModel ConnSpec ConnTopProofs ConnPlaneModel ConnPlaneSpec ConnPlaneProofs.
Import ListNotations.
Open Scope Q_scope.

Lemma same_line_sym a b : same_line a b -> same_line b a.
Proof. intros H v. symmetry. apply H. Qed.
Lemma same_line_trans a b c : same_line a b -> same_line b c -> same_line a c.
Proof. intros H G v. exact (iff_trans (H v) (G v)). Qed.
(** A vector parallel to one with a component that is not 0 is a multiple of it. *)
Lemma cross_param s y d : (s < 3)%nat -> ~ qcomp d s == 0 -> qp_eq (qcross y d) (QP 0 0 0) -> qp_eq y (qscale (qcomp y s / qcomp d s) d).
Proof.
  intros Sl N (A & B & C). unfold qcross, qp_eq, qscale in *. cbn [qx qy qz] in *. revert N. pattern s. apply drop_cases; [exact Sl| | |]; cbn [qcomp]; intros N; repeat split; try (field; exact N).
  - apply (Qmult_inj_r _ _ (qx d)); [exact N|]. setoid_replace (qx y / qx d * qy d * qx d) with (qx y * qy d) by (field; exact N). lra.
  - apply (Qmult_inj_r _ _ (qx d)); [exact N|]. setoid_replace (qx y / qx d * qz d * qx d) with (qx y * qz d) by (field; exact N). lra.
  - apply (Qmult_inj_r _ _ (qy d)); [exact N|]. setoid_replace (qy y / qy d * qx d * qy d) with (qy y * qx d) by (field; exact N). lra.
  - apply (Qmult_inj_r _ _ (qy d)); [exact N|]. setoid_replace (qy y / qy d * qz d * qy d) with (qy y * qz d) by (field; exact N). lra.
  - apply (Qmult_inj_r _ _ (qz d)); [exact N|]. setoid_replace (qz y / qz d * qx d * qz d) with (qz y * qx d) by (field; exact N). lra.
  - apply (Qmult_inj_r _ _ (qz d)); [exact N|]. setoid_replace (qz y / qz d * qy d * qz d) with (qz y * qy d) by (field; exact N). lra.
Qed.

Section Group.
Context (plane : hspace3) (drop : nat) (Dr : (drop < 3)%nat) (Np : comp (hn plane) drop <> 0%Z).
Notation sd := (sorted_dim drop).
Notation lt1 := (lt1 drop).
Notation lt2 := (lt2 drop).
Notation ok := (edge_ok plane).
Let H1 := same_line_lt1 plane drop Dr Np.
Lemma comp_q v i : comp v i <> 0%Z -> ~ qcomp (qpt v) i == 0.
Proof. intros N H. apply N. rewrite qcomp_qpt in H. change 0 with (inject_Z 0) in H. apply (proj1 (inject_Z_injective _ _)) in H. exact H. Qed.
Lemma sd_line a b : ok a -> ok b -> same_line a b -> sd a = sd b.
Proof. intros A B S. apply (H1 a b A B) in S. destruct S as [S1 S2]. apply (sd_same plane drop Dr Np a b A B); unfold ConnPlaneProofs.lt1 in *; tauto. Qed.
Lemma edge_directed e s : ok e -> comp (ld (e_line e)) s <> 0%Z -> directed s (e_half e).
Proof.
  intros (_ & (c & Cp & Cd) & _) N. pose proof (qp_comp _ _ s Cd) as C. rewrite qcomp_qpt, qcomp_scale, qcomp_sub in C. unfold directed, forward, along. cbn [e_half h_from h_to h_dir].
  set (f := qcomp (hp_point (e_from e)) s) in *. set (t := qcomp (hp_point (e_to e)) s) in *. destruct (Z.lt_trichotomy (comp (ld (e_line e)) s) 0) as [L|[L|L]]; [|contradiction|].
  - right. split; [|exact L]. apply Qnot_le_lt. intros X. assert (Y : inject_Z (comp (ld (e_line e)) s) < 0) by (change 0 with (inject_Z 0); rewrite <- Zlt_Qlt; exact L). assert (Z : 0 <= c * (t - f)) by (apply Qmult_le_0_compat; lra). lra.
  - left. split; [|exact L]. apply Qnot_le_lt. intros X. assert (Y : 0 < inject_Z (comp (ld (e_line e)) s)) by (change 0 with (inject_Z 0); rewrite <- Zlt_Qlt; exact L). assert (Z : 0 <= c * (f - t)) by (apply Qmult_le_0_compat; lra). lra.
Qed.
Lemma edge_normal e s : (s < 3)%nat -> ok e -> comp (ld (e_line e)) s <> 0%Z -> normals_ok s (e_half e).
Proof.
  intros Sl (_ & _ & _ & Nz & Dz & Fa) N v F.
  assert (E : nonzero2 (seen_normal s (e_half e)) /\ Forall (fun z => Z.abs z <> 2 ^ 63)%Z [x2 (seen_normal s (e_half e)); y2 (seen_normal s (e_half e))]).
  { unfold seen_normal, nonzero2. cbn [x2 y2 e_half h_normal]. destruct (e_normal e) as [nx ny nz], (ld (e_line e)) as [dx dy dz]. unfold l3, v3_dot in *. cbn [vx vy vz] in *. rewrite !Forall_cons_iff in Fa. destruct Fa as (F1 & F2 & F3 & _).
    revert N. pattern s. apply drop_cases; [exact Sl| | |]; cbn [comp Nat.add Nat.modulo Nat.divmod fst snd Nat.sub vx vy vz]; intros N; split; try (repeat constructor; assumption).
    - destruct (Z.eq_dec ny 0) as [->|]; [|auto]. destruct (Z.eq_dec nz 0) as [->|]; [|auto]. exfalso. apply Nz. assert (nx = 0)%Z by nia. congruence.
    - destruct (Z.eq_dec nz 0) as [->|]; [|auto]. destruct (Z.eq_dec nx 0) as [->|]; [|auto]. exfalso. apply Nz. assert (ny = 0)%Z by nia. congruence.
    - destruct (Z.eq_dec nx 0) as [->|]; [|auto]. destruct (Z.eq_dec ny 0) as [->|]; [|auto]. exfalso. apply Nz. assert (nz = 0)%Z by nia. congruence. }
  destruct E as [E1 E2]. rewrite !Forall_cons_iff in E2. destruct E2 as (E2 & E3 & _). unfold nonzero2, no_min in *. destruct F as [[_ ->]|[_ ->]]; cbn [opposite x2 y2]; (split; [lia|]); repeat constructor; lia.
Qed.
Lemma group_line e g : ok e -> (forall x, In x g -> ok x /\ same_line e x) -> StronglySorted (fun a b => ~ lt2 b a) (e :: g) -> line_input (sd e) (map e_half (e :: g)).
Proof.
  intros E G S. set (s := sd e). assert (All : forall x, In x (e :: g) -> ok x /\ same_line e x /\ sd x = s).
  { intros x [<-|I]; [split; [exact E|]; split; [intros v; reflexivity|reflexivity]|]. destruct (G x I) as [X Y]. split; [exact X|]. split; [exact Y|]. symmetry. apply sd_line; assumption. }
  assert (Sl : (s < 3)%nat) by (apply (sd_lt drop Dr)). assert (Ds : forall x, In x (e :: g) -> comp (ld (e_line x)) s <> 0%Z). { intros x I. destruct (All x I) as (X & _ & <-). apply (sd_cases plane drop Dr Np x X). }
  split; [|split; [|split]].
  - exists (hp_point (e_from e)), (qpt (ld (e_line e))). split; [apply comp_q, Ds; left; reflexivity|]. intros h p I Hp. apply in_map_iff in I. destruct I as (x & <- & Ix). cbn [e_half h_from h_to] in Hp. destruct (All x Ix) as (X & L & _).
    destruct X as (P & _). destruct (P p Hp) as (W & Lp & _). split; [exact W|]. apply L in Lp. destruct E as (P' & _). destruct (P' (e_from e)) as (_ & Lf & _); [auto|]. apply (line_points_diff _ _ _ Lf) in Lp.
    pose proof (cross_param s _ _ Sl (comp_q _ _ (Ds e (or_introl eq_refl))) Lp) as C. eexists. destruct C as (C1 & C2 & C3). unfold qp_eq, qadd, qsub, qscale in *. cbn [qx qy qz] in *. split; [|split]; [rewrite <- C1|rewrite <- C2|rewrite <- C3]; ring.
  - apply Forall_forall. intros h I. apply in_map_iff in I. destruct I as (x & <- & Ix). apply edge_directed; [apply All; exact Ix|apply Ds; exact Ix].
  - apply Forall_forall. intros h I. apply in_map_iff in I. destruct I as (x & <- & Ix). apply edge_normal; [exact Sl|apply All; exact Ix|apply Ds; exact Ix].
  - assert (Low : forall x, In x (e :: g) -> low s (e_half x) == beg drop x).
    { intros x Ix. destruct (All x Ix) as (X & _ & Sx). pose proof (edge_directed x s X (Ds x Ix)) as D. unfold beg. rewrite Sx. unfold low, h_begin. unfold directed, forward in D. unfold h_pos. rewrite zget_sign_nonneg.
      destruct D as [[D1 D2]|[D1 D2]]; destruct (Qlt_le_dec _ _) as [Q|Q]; try lra; [replace (0 <=? comp (h_dir (e_half x)) s)%Z with true by lia; reflexivity|replace (0 <=? comp (h_dir (e_half x)) s)%Z with false by lia; reflexivity]. }
    assert (Sub : forall l, incl l (e :: g) -> StronglySorted (fun a b => ~ lt2 b a) l -> StronglySorted (fun a b => low s a <= low s b) (map e_half l)).
    { induction l as [|a l IH]; intros I Sl'; [constructor|]. inversion Sl' as [|? ? Sl1 F]; subst. cbn [map]. constructor; [apply IH; [intros y Y; apply I; right; exact Y|exact Sl1]|].
      rewrite Forall_forall in F |- *. intros h Hh. apply in_map_iff in Hh. destruct Hh as (b & <- & Ib). rewrite !Low by (apply I; cbn [In]; auto). apply Qnot_lt_le. intros X. apply (F b Ib). right.
      destruct (All a (I a (or_introl eq_refl))) as (Oa & La & _). destruct (All b (I b (or_intror Ib))) as (Ob & Lb & _).
      destruct (proj2 (H1 b a Ob Oa) (same_line_trans _ _ _ (same_line_sym _ _ Lb) La)) as [N1 N2]. auto. }
    apply Sub; [apply incl_refl|exact S].
Qed.

(** ** Splitting off a line *)
Lemma prefix_ok e : ok e -> forall l, (forall x, In x l -> ok x) -> StronglySorted (fun a b => ~ lt2 b a) (e :: l) ->
  exists g r, same_line_prefix drop (pl_project2d (e_line e) drop) (map Some l) = Ok (g, map Some r) /\ l = g ++ r /\
    (forall x, In x g -> same_line e x) /\ (forall x, In x r -> ~ same_line e x).
Proof.
  intros E l. induction l as [|a l IH]; intros O S; [exists [], []; split; [reflexivity|]; split; [reflexivity|]; split; intros x []|].
  assert (Oa : ok a) by (apply O; left; reflexivity). cbn [map same_line_prefix].
  pose proof (same_line_2d plane drop Dr Np a e Oa E) as L2. pose proof (H1 a e Oa E) as L3.
  destruct (hs2_same_line (pl_project2d (e_line a) drop) (pl_project2d (e_line e) drop)) eqn:Q; cbn [negb].
  - assert (Sa : same_line e a) by (apply same_line_sym, L3, L2; reflexivity).
    destruct IH as (g & r & Eq & -> & G & R). { intros x X. apply O. right. exact X. } { inversion S as [|? ? S1 F]; subst. inversion S1; subst. inversion F; subst. constructor; assumption. }
    exists (a :: g), r. rewrite Eq. cbn [rbind fst snd]. split; [reflexivity|]. split; [reflexivity|]. split; [intros x [<-|X]; [exact Sa|apply G; exact X]|exact R].
  - exists [], (a :: l). split; [reflexivity|]. split; [reflexivity|]. split; [intros x []|]. intros x X Sx. assert (Na : ~ same_line e a) by (intros Y; apply same_line_sym, L3, L2 in Y; discriminate).
    destruct X as [<-|X]; [contradiction|]. inversion S as [|? ? S1 F]; subst. inversion S1 as [|? ? S2 F2]; subst. rewrite Forall_forall in F, F2. assert (Ox : ok x) by (apply O; right; exact X).
    (* e < a in the order of the lines *)
    assert (La : lt1 e a). { destruct (lt1_dec drop e a) as [Y|Y]; [exact Y|exfalso]. destruct (lt1_dec drop a e) as [Y'|Y']; [apply (F a (or_introl eq_refl)); left; exact Y'|]. apply Na. apply (H1 e a E Oa). auto. }
    assert (Ax : ~ lt1 x a) by (intros Y; apply (F2 x X); left; exact Y). destruct (proj2 (H1 e x E Ox) Sx) as [N1 N2].
    destruct (lt1_swo plane drop Dr Np) as (_ & T & Eq). destruct (lt1_dec drop a x) as [Y|Y]; [apply N1; apply (T e a x); assumption|].
    destruct (Eq e x a E Ox Oa N1 N2 Ax Y) as [Z _]. contradiction.
Qed.
Lemma closed_rest e g r : closed_plane (e :: g ++ r) -> (forall x, In x (e :: g) -> same_line e x) -> (forall x, In x r -> ~ same_line e x) -> closed_plane r.
Proof.
  intros C G R on off s (P & Ne & S1 & S2) D Sl. apply (C on (off ++ e :: g) s); [|exact D|exact Sl]. split; [|split; [exact Ne|split; [exact S1|]]].
  - rewrite app_assoc. change (e :: g ++ r) with ((e :: g) ++ r). rewrite Permutation_app_comm. apply Permutation_app_tail. exact P.
  - intros a b Ia Ib. apply in_app_iff in Ib. destruct Ib as [Ib|Ib]; [apply S2; assumption|]. intros X. apply (R a); [apply (Permutation_in _ (Permutation_sym P)), in_app_iff; left; exact Ia|].
    apply (same_line_trans _ b); [apply G; exact Ib|apply same_line_sym; exact X].
Qed.
Lemma connect_lines_ok dbg ord : (forall l, Permutation (ord l) l) -> forall fuel l, (length l <= fuel)%nat -> (forall x, In x l -> ok x) -> StronglySorted (fun a b => ~ lt2 b a) l -> closed_plane l ->
  exists rs, connect_lines dbg drop ord fuel (map Some l) = Ok rs /\ concat (map r_edges rs) = l /\ forall r, In r rs -> line_done r /\ exists off, line_of l (r_edges r) off.
Proof.
  intros Ord. induction fuel as [|fuel IH]; intros l L O S C.
  - destruct l as [|e l]; [|cbn in L; lia]. exists []. split; [reflexivity|]. split; [reflexivity|]. intros r [].
  - destruct l as [|e l]; [exists []; split; [reflexivity|]; split; [reflexivity|]; intros r []|]. cbn [map connect_lines].
    assert (Oe : ok e) by (apply O; left; reflexivity). destruct (prefix_ok e Oe l (fun x X => O x (or_intror X)) S) as (g & r & Eq & -> & G & R). rewrite Eq. cbn [rbind fst snd].
    assert (G' : forall x, In x (e :: g) -> same_line e x) by (intros x [<-|X]; [intros v; reflexivity|apply G; exact X]).
    assert (Lo : line_of (e :: g ++ r) (e :: g) r).
    { split; [reflexivity|]. split; [discriminate|]. split; [intros a b A B; apply (same_line_trans _ e); [apply same_line_sym, G'; exact A|apply G'; exact B]|].
      intros a b A B X. apply (R b B). apply (same_line_trans _ a); [apply G'; exact A|exact X]. }
    assert (Og : forall x, In x g -> ok x /\ same_line e x) by (intros x X; split; [apply O; right; apply in_app_iff; auto|apply G; exact X]).
    assert (Sg : StronglySorted (fun a b => ~ lt2 b a) (e :: g) /\ StronglySorted (fun a b => ~ lt2 b a) r).
    { clear -S. change (e :: g ++ r) with ((e :: g) ++ r) in S. revert S. generalize (e :: g). intros l. induction l as [|a l IH]; intros S; [split; [constructor|exact S]|].
      cbn [app] in S. inversion S as [|? ? S1 F]; subst. destruct (IH S1) as [I1 I2]. split; [|exact I2]. constructor; [exact I1|]. rewrite Forall_forall in F |- *. intros x X. apply F. apply in_app_iff. auto. }
    destruct Sg as [Sg Sr].
    assert (Dg : forall x, In x (e :: g) -> comp (ld (e_line x)) (sd e) <> 0%Z).
    { intros x [<-|X]; [apply (sd_cases plane drop Dr Np e Oe)|]. destruct (Og x X) as [Ox Sx]. rewrite (sd_line e x Oe Ox Sx). apply (sd_cases plane drop Dr Np x Ox). }
    destruct (connect_closed (sd e) (map e_half (e :: g)) (group_line e g Oe Og Sg) (C _ _ _ Lo Dg (sd_lt drop Dr e)) dbg ord Ord) as (st & E1 & E2 & E3 & E4).
    cbn [map] in E1. rewrite E1. cbn [rbind].
    destruct (IH r) as (rs & F1 & F2 & F3); [cbn in L; rewrite app_length in L; lia|intros x X; apply O; right; apply in_app_iff; auto|exact Sr|exact (closed_rest e g r C G' R)|].
    rewrite F1. cbn [rbind]. eexists. split; [reflexivity|]. split; [cbn [map concat r_edges]; rewrite F2; reflexivity|].
    intros q [<-|Q].
    + split; [|exists r; exact Lo]. split; [exact E2|]. split; [exact E3|]. intros k x Nk. apply E4. cbn [r_edges] in Nk. change (e_half e :: map e_half g) with (map e_half (e :: g)). rewrite nth_error_map, Nk. reflexivity.
    + destruct (F3 q Q) as (D & off & P & Ne & S1 & S2). split; [exact D|]. exists (off ++ e :: g). split; [|split; [exact Ne|split; [exact S1|]]].
      * rewrite app_assoc. change (e :: g ++ r) with ((e :: g) ++ r). rewrite Permutation_app_comm. apply Permutation_app_tail. exact P.
      * intros a b Ia Ib. apply in_app_iff in Ib. destruct Ib as [Ib|Ib]; [apply S2; assumption|]. intros X. apply (R a); [apply (Permutation_in _ (Permutation_sym P)), in_app_iff; left; exact Ia|].
        apply (same_line_trans _ b); [apply G'; exact Ib|apply same_line_sym; exact X].
Qed.

(** ** Empty deeds, and sorting *)
Lemma sorted_split dbg l : (forall e, In (Some e) l -> ok e) -> StronglySorted (fun a b => edge_lt dbg drop b a <> Ok true) l -> exists es, skip_empty l = map Some es /\ present l = es /\ StronglySorted (fun a b => ~ lt2 b a) es /\ forall e, In e es -> ok e.
Proof.
  induction l as [|o l IH]; intros O S; [exists []; split; [reflexivity|]; split; [reflexivity|]; split; [constructor|intros e []]|]. inversion S as [|? ? S1 F]; subst. rewrite Forall_forall in F.
  destruct o as [e|]; [|cbn [skip_empty]; destruct IH as (es & E1 & E2 & E3 & E4); [intros x X; apply O; right; exact X|exact S1|exists es; auto]].
  assert (Al : exists es, l = map Some es).
  { clear -F. induction l as [|o l IH]; [exists []; reflexivity|]. destruct IH as (es & ->); [intros x X; apply F; right; exact X|]. destruct o as [x|]; [exists (x :: es); reflexivity|]. exfalso. apply (F None (or_introl eq_refl)). reflexivity. }
  destruct Al as (es & ->). exists (e :: es). split; [reflexivity|]. split.
  { cbn. f_equal. clear. induction es as [|a es IH]; [reflexivity|]. cbn. f_equal. exact IH. }
  assert (Oes : forall x, In x (e :: es) -> ok x) by (intros x [<-|X]; apply O; [left; reflexivity|right; apply in_map; exact X]). split; [|exact Oes].
  change (Some e :: map Some es) with (map Some (e :: es)) in S. clear -Dr Np S Oes. revert S Oes. generalize (e :: es). intros l. induction l as [|a l IH]; intros S Oes; [constructor|]. cbn [map] in S. inversion S as [|? ? S1 F]; subst. rewrite Forall_forall in F.
  constructor; [apply IH; [exact S1|intros x X; apply Oes; right; exact X]|]. apply Forall_forall. intros b Ib L. apply (F (Some b) (in_map _ _ _ Ib)). destruct (edge_lt_value plane drop Dr Np dbg b a (Oes b (or_intror Ib)) (Oes a (or_introl eq_refl))) as (r & -> & Er). f_equal. apply Er. exact L.
Qed.
Lemma present_perm l l' : Permutation l l' -> Permutation (present l) (present l').
Proof. intros P. unfold present. apply Permutation_flat_map. exact P. Qed.
End Group.
Theorem connect_plane plane drop dbg sort ord l : (forall l, Permutation (ord l) l) -> plane_input plane drop l -> sorts dbg drop sort l -> closed_plane (present l) ->
  exists rs, connect_unsorted dbg drop sort ord l = Ok rs /\ Permutation (concat (map r_edges rs)) (present l) /\ forall r, In r rs -> line_done r /\ exists off, line_of (present l) (r_edges r) off.
Proof.
  intros Ord (Dr & Np & O) [P S] C. destruct (sorted_split plane drop Dr Np dbg (sort l)) as (es & E1 & E2 & E3 & E4); [intros e I; apply O; apply (Permutation_in _ P); exact I|exact S|].
  assert (Pe : Permutation es (present l)) by (rewrite <- E2; apply present_perm; exact P).
  assert (Ce : closed_plane es). { intros on off s (A & B) D Sl. apply (C on off s); [|exact D|exact Sl]. split; [rewrite <- Pe; exact A|exact B]. }
  unfold connect_unsorted, connect_sorted. rewrite E1. destruct (connect_lines_ok plane drop Dr Np dbg ord Ord (length (map Some es)) es) as (rs & F1 & F2 & F3); [rewrite map_length; lia|exact E4|exact E3|exact Ce|].
  exists rs. split; [exact F1|]. split; [rewrite F2; exact Pe|]. intros r R. destruct (F3 r R) as (X & off & Y1 & Y2). split; [exact X|]. exists off. split; [rewrite <- Pe; exact Y1|exact Y2].
Qed.
Theorem edge_order plane drop dbg : (drop < 3)%nat -> comp (hn plane) drop <> 0%Z -> let fine o := match o with Some e => edge_ok plane e | None => True end in
  (forall a b, fine a -> fine b -> exists r, edge_lt dbg drop a b = Ok r) /\ strict_weak_order fine (fun a b => edge_lt dbg drop a b = Ok true).
Proof.
  intros Dr Np fine. assert (V : forall a b, edge_ok plane a -> edge_ok plane b -> (edge_lt dbg drop (Some a) (Some b) = Ok true <-> lt2 drop a b)).
  { intros a b A B. destruct (edge_lt_value plane drop Dr Np dbg a b A B) as (r & -> & E). split; [intros X; injection X as ->; apply E; reflexivity|intros X; f_equal; apply E; exact X]. }
  destruct (lt2_swo plane drop Dr Np) as (I & T & Q). split; [|split; [|split]].
  - intros [a|] [b|] A B; cbn [fine] in *; try (eexists; reflexivity). destruct (edge_lt_value plane drop Dr Np dbg a b A B) as (r & -> & _). eauto.
  - intros [a|] A X; [|discriminate X]. apply (V a a A A) in X. exact (I a A X).
  - intros [a|] [b|] [c|] A B D X Y; try discriminate X; try discriminate Y; try reflexivity. apply (V _ _ A D). apply (T a b c A B D); [apply (V a b A B); exact X|apply (V b c B D); exact Y].
  - intros [a|] [b|] [c|] A B D X1 X2 X3 X4; cbn [fine] in *; try (exfalso; first [apply X1; reflexivity|apply X2; reflexivity|apply X3; reflexivity|apply X4; reflexivity]); try (split; discriminate).
    rewrite (V _ _ A B) in X1. rewrite (V _ _ B A) in X2. rewrite (V _ _ B D) in X3. rewrite (V _ _ D B) in X4. rewrite (V _ _ A D), (V _ _ D A). exact (Q a b c A B D X1 X2 X3 X4).
Qed.
