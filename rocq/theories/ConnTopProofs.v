(** From the input of ConnectEdgesInLine to the facts used by the sweep: the order
    of the keys, generic coordinates, and the theorem about closed lines. *)
From Coq Require Import List Bool Arith ZArith QArith Lia ZifyBool Lqa Sorted Permutation.
From Verif Require Import BigUIntModel GeoModel GeoSpec GeoProofs GeoAngleProofs GeoDirProofs TriSpec TriTileProofs ConnModel ConnSpec ConnListProofs ConnPieceProofs ConnLoopProofs ConnSweepProofs.
Import ListNotations.
Open Scope Z_scope.

(** ** Angles *)
Definition quad (w : vec2) : Z := if y2 w <? 0 then (if x2 w <? 0 then 2 else 3) else (if x2 w <? 0 then 1 else 0).
Definition cross2 (u v : vec2) : Z := x2 u * y2 v - y2 u * x2 v.
Definition ang_le (u v : vec2) : Prop := quad u < quad v \/ (quad u = quad v /\ 0 <= cross2 u v).
Lemma ang_trans u v w : nonzero2 v -> ang_le u v -> ang_le v w -> ang_le u w.
Proof.
  intros N [A|[A A']] [B|[B B']]; [left; lia|left; lia|left; lia|]. right. split; [lia|].
  unfold cross2, quad, nonzero2 in *. destruct u as [a b], v as [c d], w as [e f]; cbn [x2 y2] in *.
  assert (X1 : c * (a * f - b * e) = a * (c * f - d * e) + e * (a * d - b * c)) by ring.
  assert (X2 : d * (a * f - b * e) = b * (c * f - d * e) + f * (a * d - b * c)) by ring.
  generalize dependent (c * f - d * e). intros p. generalize dependent (a * d - b * c). intros q. generalize dependent (a * f - b * e). intros r. intros.
  destruct (d <? 0) eqn:D, (c <? 0) eqn:C, (b <? 0) eqn:B1, (a <? 0) eqn:A1, (f <? 0) eqn:F, (e <? 0) eqn:E1; try lia; nia.
Qed.
Lemma ang_total u v : ang_le u v \/ ang_le v u.
Proof. unfold ang_le, cross2. destruct (Z.lt_trichotomy (quad u) (quad v)) as [H|[H|H]]; [auto| |auto]. destruct (Z.le_ge_cases 0 (x2 u * y2 v - y2 u * x2 v)); [left|right]; right; split; lia. Qed.
Lemma rotation_ang u v : v2_rotation_lt u v = true <-> ~ ang_le v u.
Proof.
  rewrite rotation_value. change ((quad u < quad v \/ (quad u = quad v /\ y2 u * x2 v < y2 v * x2 u)) <-> ~ ang_le v u). unfold ang_le, cross2. generalize (quad u) (quad v). intros a b. nia.
Qed.
Lemma same_ang u v : nonzero2 u -> nonzero2 v -> (same_direction [x2 u; y2 u] [x2 v; y2 v] <-> ang_le u v /\ ang_le v u).
Proof.
  intros U V. unfold same_direction, ang_le, cross2, quad, nonzero2 in *. destruct u as [a b], v as [c d]; cbn [x2 y2 map] in *. split.
  - intros (p & q & P & Q & S & E). injection E as E1 E2. 
    assert (P' : 0 < p). { destruct (Z.eq_dec p 0) as [->|]; [exfalso|lia]. assert (c = 0) by nia. assert (d = 0) by nia. tauto. }
    assert (Q' : 0 < q). { destruct (Z.eq_dec q 0) as [->|]; [exfalso|lia]. assert (a = 0) by nia. assert (b = 0) by nia. tauto. }
    assert (C : p * q * (a * d - b * c) = 0). { replace (p * q * (a * d - b * c)) with ((p * a) * (q * d) - (p * b) * (q * c)) by ring. rewrite E1, E2. ring. }
    assert (C' : a * d - b * c = 0) by (apply Z.mul_eq_0_r in C; lia). assert (Sa : (a <? 0) = (c <? 0)) by (destruct (a <? 0) eqn:X, (c <? 0) eqn:Y; nia). assert (Sb : (b <? 0) = (d <? 0)) by (destruct (b <? 0) eqn:X, (d <? 0) eqn:Y; nia).
    rewrite Sa, Sb. split; right; split; lia.
  - intros [A B]. assert (S : (a <? 0) = (c <? 0) /\ (b <? 0) = (d <? 0) /\ a * d = b * c) by (destruct (a <? 0), (b <? 0), (c <? 0), (d <? 0); lia). destruct S as (S1 & S2 & S3).
    exists (Z.abs c + Z.abs d), (Z.abs a + Z.abs b). repeat (split; [lia|]). f_equal; [|f_equal].
    + destruct (a <? 0) eqn:X, (b <? 0) eqn:Y; nia.
    + destruct (a <? 0) eqn:X, (b <? 0) eqn:Y; nia.
Qed.

(** ** Keys *)
Definition key_valid (k : key) : Prop := nonzero2 (snd k) /\ no_min [x2 (snd k); y2 (snd k)].
Definition key_le (a b : key) : Prop := ~ ang_le (snd b) (snd a) \/ (ang_le (snd a) (snd b) /\ ang_le (snd b) (snd a) /\ (fst a = true \/ fst b = false)).
Lemma key_le_trans a b c : nonzero2 (snd a) -> nonzero2 (snd b) -> nonzero2 (snd c) -> key_le a b -> key_le b c -> key_le a c.
Proof.
  intros Na Nb Nc A B. unfold key_le in *. pose proof (ang_trans (snd c) (snd a) (snd b) Na) as T1. pose proof (ang_trans (snd b) (snd c) (snd a) Nc) as T2. pose proof (ang_trans (snd a) (snd b) (snd c) Nb) as T3. pose proof (ang_trans (snd c) (snd b) (snd a) Nb) as T4.
  assert (Dec : ang_le (snd c) (snd a) \/ ~ ang_le (snd c) (snd a)) by (unfold ang_le; lia). destruct Dec as [D|D]; [|left; exact D]. right.
  destruct A as [A|(A1 & A2 & A3)]; destruct B as [B|(B1 & B2 & B3)].
  - exfalso. pose proof (ang_total (snd c) (snd b)) as [X|X]; [contradiction|]. tauto.
  - exfalso. tauto.
  - exfalso. tauto.
  - split; [tauto|]. split; [exact D|]. destruct A3 as [A3|A3]; [left; exact A3|]. destruct B3 as [B3|B3]; [congruence|right; exact B3].
Qed.
Lemma key_le_total a b : key_le a b \/ key_le b a.
Proof.
  unfold key_le. assert (D1 : ang_le (snd a) (snd b) \/ ~ ang_le (snd a) (snd b)) by (unfold ang_le; lia). assert (D2 : ang_le (snd b) (snd a) \/ ~ ang_le (snd b) (snd a)) by (unfold ang_le; lia).
  destruct D1, D2; [|tauto|tauto|tauto]. destruct (fst a), (fst b); tauto.
Qed.
Lemma key_lt_value a b : key_valid a -> key_valid b -> exists r, key_lt a b = Ok r /\ (r = true <-> ~ key_le b a).
Proof.
  intros [Na Ma] [Nb Mb]. unfold key_lt. destruct (v2_same_dir_total (snd a) (snd b) Ma Mb) as (m & E). rewrite E. cbn [rbind]. eexists. split; [reflexivity|].
  pose proof (v2_same_dir_spec _ _ _ E) as Sp. rewrite (same_ang _ _ Na Nb) in Sp. pose proof (rotation_ang (snd a) (snd b)) as R. pose proof (ang_total (snd a) (snd b)) as T. unfold key_le.
  destruct m; cbn [negb].
  - destruct (proj1 Sp eq_refl) as [S1 S2]. destruct (fst a), (fst b); cbn [Bool.eqb negb andb]; split; intros X; try discriminate; try reflexivity; try (intros [Y|(Y1 & Y2 & [Y|Y])]; [contradiction|discriminate|discriminate]); exfalso; apply X; tauto.
  - rewrite R. assert (S' : ~ (ang_le (snd a) (snd b) /\ ang_le (snd b) (snd a))) by (intros X; apply Sp in X; discriminate). assert (D1 : ang_le (snd a) (snd b) \/ ~ ang_le (snd a) (snd b)) by (unfold ang_le; lia). tauto.
Qed.

(** ** Ranks *)
Definition kb (a b : key) : bool := match key_lt a b with Ok r => r | _ => false end.
Definition rank (ks : list key) (k : key) : Z := Z.of_nat (length (filter (fun j => kb j k) ks)).
Lemma kb_spec a b : key_valid a -> key_valid b -> key_lt a b = Ok (kb a b) /\ (kb a b = true <-> ~ key_le b a).
Proof. intros A B. unfold kb. destruct (key_lt_value a b A B) as (r & -> & H). auto. Qed.
Lemma rank_spec ks a b : Forall key_valid ks -> In a ks -> In b ks -> (rank ks a < rank ks b <-> ~ key_le b a).
Proof.
  intros F Ia Ib. rewrite Forall_forall in F. pose proof (F a Ia) as Va. pose proof (F b Ib) as Vb.
  assert (Mono : forall c d, In c ks -> In d ks -> key_le c d -> forall k, In k ks -> kb k c = true -> kb k d = true).
  { intros c d Ic Id L k Ik H. apply (kb_spec k c (F k Ik) (F c Ic)) in H. apply (kb_spec k d (F k Ik) (F d Id)). intros X. apply H. apply (key_le_trans c d k); try apply F; assumption. }
  assert (Le : forall (f g : key -> bool) l, (forall k, In k l -> f k = true -> g k = true) -> (length (filter f l) <= length (filter g l))%nat).
  { clear. intros f g. induction l as [|k l IH]; intros H; [cbn; lia|]. cbn [filter]. pose proof (H k (or_introl eq_refl)) as Hk. specialize (IH (fun j J => H j (or_intror J))). destruct (f k), (g k); cbn [length]; try lia. }
  assert (Lt : forall (f g : key -> bool) l k, (forall k, In k l -> f k = true -> g k = true) -> In k l -> f k = false -> g k = true -> (length (filter f l) < length (filter g l))%nat).
  { clear -Le. intros f g l k H I Fk Gk. apply in_split in I. destruct I as (l1 & l2 & ->). rewrite !filter_app, !app_length. cbn [filter]. rewrite Fk, Gk. cbn [length].
    pose proof (Le f g l1 (fun j J => H j (in_or_app _ _ _ (or_introl J)))). assert (H2 : (length (filter f l2) <= length (filter g l2))%nat) by (apply Le; intros j J; apply H, in_or_app; right; right; exact J). lia. }
  unfold rank. split.
  - intros H L. pose proof (Le _ _ ks (Mono b a Ib Ia L)). lia.
  - intros H. assert (L : key_le a b) by (destruct (key_le_total a b); tauto). pose proof (Lt _ _ ks a (Mono a b Ia Ib L) Ia) as X.
    assert (Ka : kb a a = false). { destruct (kb a a) eqn:E; [|reflexivity]. apply (kb_spec a a Va Va) in E. destruct (key_le_total a a); contradiction. }
    assert (Kb : kb a b = true) by (apply (kb_spec a b Va Vb); exact H). specialize (X Ka Kb). lia.
Qed.
Lemma rank_kb ks a b : Forall key_valid ks -> In a ks -> In b ks -> key_lt a b = Ok (rank ks a <? rank ks b).
Proof.
  intros F Ia Ib. pose proof F as F'. rewrite Forall_forall in F'. destruct (kb_spec a b (F' a Ia) (F' b Ib)) as [-> H]. f_equal. pose proof (rank_spec ks a b F Ia Ib) as R.
  destruct (kb a b); [symmetry; apply Z.ltb_lt, R, H; reflexivity|]. symmetry. apply Z.ltb_ge. apply Z.nlt_ge. intros X. apply R in X. apply H in X. discriminate.
Qed.

Open Scope Q_scope.
(** A coordinate just after a given one. *)
Lemma just_after (l : list Q) x : exists t, x < t /\ forall e, In e l -> e <= x \/ t < e.
Proof.
  induction l as [|a l (t & T & H)]; [exists (x + 1); split; [lra|intros e []]|]. destruct (Qlt_le_dec x a) as [L|L].
  - destruct (Qlt_le_dec t a) as [M|M].
    + exists t. split; [exact T|]. intros e [<-|I]; [right; exact M|apply H; exact I].
    + exists ((x + a) / 2). assert (Y : (x + a) / 2 == x * (1#2) + a * (1#2)) by (field). split; [lra|]. intros e [<-|I]; [right; lra|]. destruct (H e I); [left; assumption|right; lra].
  - exists t. split; [exact T|]. intros e [<-|I]; [left; exact L|apply H; exact I].
Qed.
Lemma along_value s p : hw p <> 0%Z -> along s p == inject_Z (comp (hv p) s) / inject_Z (hw p).
Proof. intros _. unfold along, hp_point. destruct s as [|[|s]]; cbn; reflexivity. Qed.

Section Top.
Context (s : nat) (hs : list half) (Hin : line_input s hs) (Hc : closed_line s hs).
Notation n := (length hs).
Notation pol := (pol s hs).
Notation lo := (lo s hs).
Notation hi := (hi s hs).
Lemma hat_in i : (i < n)%nat -> nth_error hs i = Some (hat hs i) /\ In (hat hs i) hs.
Proof. intros H. unfold hat. split; [apply nth_error_nth'; exact H|apply nth_In; exact H]. Qed.
Lemma directed_pol h : directed s h -> (h_pos s h = true <-> forward s h) /\ (h_pos s h = false -> along s (h_to h) < along s (h_from h)) .
Proof.
  unfold directed, forward, h_pos. assert (X : (0 <=? zget_sign (comp (h_dir h) s))%Z = negb (comp (h_dir h) s <? 0)%Z) by (rewrite zget_sign_nonneg; lia). rewrite X.
  intros [[F D]|[F D]].
  - replace (comp (h_dir h) s <? 0)%Z with false by lia. cbn [negb]. split; [tauto|discriminate].
  - replace (comp (h_dir h) s <? 0)%Z with true by lia. cbn [negb]. split; [split; [discriminate|intros Y; exfalso; lra]|auto].
Qed.
Lemma dir_of i : (i < n)%nat -> directed s (hat hs i).
Proof. intros H. destruct Hin as (_ & D & _). rewrite Forall_forall in D. apply D. apply hat_in. exact H. Qed.
Lemma pol_fw i : (i < n)%nat -> (pol i = true <-> forward s (hat hs i)).
Proof. intros H. apply directed_pol. apply dir_of. exact H. Qed.
Lemma lo_hi i : (i < n)%nat -> lo i < hi i.
Proof.
  intros H. destruct (directed_pol _ (dir_of i H)) as [A B]. unfold ConnPieceProofs.lo, ConnPieceProofs.hi, h_begin, h_end. destruct (h_pos s (hat hs i)) eqn:E; [apply A; reflexivity|apply B; reflexivity].
Qed.
Lemma covers_lo i t : (i < n)%nat -> (covers s (hat hs i) t <-> lo i < t /\ t < hi i).
Proof.
  intros H. pose proof (lo_hi i H) as L. unfold covers, strictly_inside. unfold ConnPieceProofs.lo, ConnPieceProofs.hi, h_begin, h_end in *. destruct (h_pos s (hat hs i)); split; intros X; try lra; destruct X as [X|X]; lra.
Qed.
Lemma low_lo i : (i < n)%nat -> low s (hat hs i) == lo i.
Proof. intros H. pose proof (lo_hi i H) as L. unfold low, ConnPieceProofs.lo, ConnPieceProofs.hi, h_begin, h_end in *. destruct (Qlt_le_dec _ _), (h_pos s (hat hs i)); lra. Qed.
Lemma sorted_lo i j : (i <= j < n)%nat -> lo i <= lo j.
Proof.
  intros H. destruct (Nat.eq_dec i j) as [->|D]; [lra|]. rewrite <- !low_lo by lia. destruct Hin as (_ & _ & _ & S). unfold hat. clear -S H D. assert (L : (i < j < length hs)%nat) by lia. clear H D. revert i j L. induction S as [|a l S IH F]; intros i j L; [cbn in L; lia|]. rewrite Forall_forall in F.
  destruct j as [|j]; [lia|]. destruct i as [|i]; cbn [nth].
  - apply F. apply nth_In. cbn in L. lia.
  - apply IH. cbn in L. lia.
Qed.
Definition okp (p : hpoint3) : Prop := hw p <> 0%Z /\ exists h, In h hs /\ (p = h_from h \/ p = h_to h).
Lemma loc_lt_okp a b : okp a -> okp b -> (loc_lt s a b = true <-> along s a < along s b).
Proof. intros [Wa _] [Wb _]. exact (hp_lt_comp_spec s a b _ _ (hp_point_denotes a Wa) (hp_point_denotes b Wb)). Qed.
Lemma same_okp a b : okp a -> okp b -> along s a == along s b -> same_point a b.
Proof.
  intros [Wa (h & Ih & Ha)] [Wb (g & Ig & Hg)] E. destruct Hin as ((o & d & Nd & On) & _). destruct (On h a Ih Ha) as (_ & t & Ta). destruct (On g b Ig Hg) as (_ & u & Tb). unfold same_point, along in *.
  destruct (hp_point a) as [ax ay az], (hp_point b) as [bx by_ bz], o as [ox oy oz], d as [dx dy dz]. unfold qp_eq, qadd, qscale in *. cbn [qx qy qz] in *. destruct Ta as (A1 & A2 & A3), Tb as (B1 & B2 & B3).
  assert (T : t == u).
  { destruct s as [|[|s']]; cbn [qcomp qx qy qz] in *; [assert (Z : (t - u) * dx == 0) by (rewrite A1, B1 in E; lra)|assert (Z : (t - u) * dy == 0) by (rewrite A2, B2 in E; lra)|assert (Z : (t - u) * dz == 0) by (rewrite A3, B3 in E; lra)];
    apply Qmult_integral in Z; destruct Z as [Z|Z]; try contradiction; lra. }
  rewrite A1, A2, A3, B1, B2, B3, T. repeat split; reflexivity.
Qed.
Lemma hp_eq_okp a b : okp a -> okp b -> (hp_eq a b = true <-> along s a == along s b).
Proof.
  intros Oa Ob. rewrite (hp_eq_spec a b _ _ (hp_point_denotes a (proj1 Oa)) (hp_point_denotes b (proj1 Ob))). split.
  - unfold qp_eq, along. intros (A & B & C). destruct s as [|[|s']]; cbn [qcomp]; assumption.
  - intros E. apply (same_okp a b Oa Ob E).
Qed.
Lemma half_okp i : (i < n)%nat -> okp (h_begin s (hat hs i)) /\ okp (h_end s (hat hs i)) /\ lo i < hi i.
Proof.
  intros H. destruct (hat_in i H) as [_ I]. assert (O : okp (h_from (hat hs i)) /\ okp (h_to (hat hs i))).
  { destruct Hin as ((o & d & _ & On) & _). split; (split; [eapply On; [exact I|auto]|exists (hat hs i); auto]). }
  destruct O as [O1 O2]. unfold h_begin, h_end. split; [destruct (h_pos _ _); assumption|]. split; [destruct (h_pos _ _); assumption|apply lo_hi; exact H].
Qed.

(** *** The order around the line *)
Lemma facing_key i v : (i < n)%nat -> (facing s (hat hs i) v <-> v = snd (h_key s (hat hs i))).
Proof.
  intros H. pose proof (pol_fw i H) as P. unfold facing, h_key, ConnPieceProofs.pol in *. cbn [snd]. change (drop_dim (h_normal (hat hs i)) s) with (seen_normal s (hat hs i)). destruct (h_pos s (hat hs i)).
  - assert (F : forward s (hat hs i)) by (apply P; reflexivity). split; [intros [[_ X]|[X _]]; [exact X|contradiction]|intros X; left; auto].
  - assert (F : ~ forward s (hat hs i)) by (intros X; apply P in X; discriminate). split; [intros [[X _]|[_ X]]; [contradiction|exact X]|intros X; right; auto].
Qed.
Definition keys : list key := map (h_key s) hs.
Lemma keys_valid : Forall key_valid keys.
Proof.
  unfold keys. apply Forall_forall. intros k K. apply in_map_iff in K. destruct K as (h & <- & Ih). destruct (In_nth _ _ no_half Ih) as (i & Li & Ei). fold (hat hs i) in Ei. rewrite <- Ei.
  destruct Hin as (_ & _ & N & _). rewrite Forall_forall in N. apply (N (hat hs i)); [apply hat_in; exact Li|]. apply facing_key; [exact Li|reflexivity].
Qed.
Definition rk (i : nat) : Z := rank keys (h_key s (hat hs i)).
Lemma key_in i : (i < n)%nat -> In (h_key s (hat hs i)) keys.
Proof. intros H. unfold keys. apply in_map. apply hat_in. exact H. Qed.
Lemma key_okp i j : (i < n)%nat -> (j < n)%nat -> key_lt (h_key s (hat hs i)) (h_key s (hat hs j)) = Ok (rk i <? rk j)%Z.
Proof. intros I J. apply rank_kb; [exact keys_valid|apply key_in; exact I|apply key_in; exact J]. Qed.
Lemma before_rk i j : (i < n)%nat -> (j < n)%nat -> (before s (hat hs i) (hat hs j) <-> (rk i < rk j)%Z).
Proof.
  intros I J. unfold rk. rewrite (rank_spec keys _ _ keys_valid (key_in i I) (key_in j J)).
  pose proof keys_valid as V. rewrite Forall_forall in V. destruct (V _ (key_in i I)) as [Ni _]. destruct (V _ (key_in j J)) as [Nj _].
  unfold before. pose proof (pol_fw i I) as Pi. pose proof (pol_fw j J) as Pj.
  assert (E : (exists u v, facing s (hat hs i) u /\ facing s (hat hs j) v /\ (rotation_lt u v \/ (same_direction [x2 u; y2 u] [x2 v; y2 v] /\ forward s (hat hs i) /\ ~ forward s (hat hs j)))) <->
    (let u := snd (h_key s (hat hs i)) in let v := snd (h_key s (hat hs j)) in v2_rotation_lt u v = true \/ (same_direction [x2 u; y2 u] [x2 v; y2 v] /\ pol i = true /\ pol j = false))).
  { cbv zeta. split.
    - intros (u & v & Fu & Fv & X). apply (facing_key i u I) in Fu. apply (facing_key j v J) in Fv. subst u v. rewrite (rotation_spec _ _ Ni Nj). destruct X as [X|(X1 & X2 & X3)]; [left; exact X|right]. split; [exact X1|]. split; [apply Pi; exact X2|]. destruct (pol j) eqn:Q; [|reflexivity]. exfalso. apply X3, Pj. reflexivity.
    - intros X. exists (snd (h_key s (hat hs i))), (snd (h_key s (hat hs j))). split; [apply facing_key; [exact I|reflexivity]|]. split; [apply facing_key; [exact J|reflexivity]|]. rewrite <- (rotation_spec _ _ Ni Nj). destruct X as [X|(X1 & X2 & X3)]; [left; exact X|right]. split; [exact X1|]. split; [apply Pi; exact X2|]. intros X. apply Pj in X. congruence. }
  rewrite E. cbv zeta. rewrite (same_ang _ _ Ni Nj), rotation_ang. unfold key_le. unfold ConnPieceProofs.pol. cbn [h_key fst] in *.
  set (u := snd (h_key s (hat hs i))) in *. set (v := snd (h_key s (hat hs j))) in *.
  assert (D1 : ang_le u v \/ ~ ang_le u v) by (unfold ang_le; lia). assert (D2 : ang_le v u \/ ~ ang_le v u) by (unfold ang_le; lia). pose proof (ang_total u v) as T.
  change (snd (h_pos s (hat hs i), _)) with u. change (snd (h_pos s (hat hs j), _)) with v.
  destruct (h_pos s (hat hs i)), (h_pos s (hat hs j)); intuition congruence.
Qed.
Lemma met_rk p h m : (p < n)%nat -> (h < n)%nat -> (m < n)%nat -> (met_before s (hat hs p) (hat hs h) (hat hs m) <-> met rk p h m).
Proof. intros P H M. unfold met_before, met. rewrite !before_rk by assumption. tauto. Qed.

(** *** Counterparts *)
Definition at_t (t : Q) (A : list nat) : Prop := forall i, In i A <-> (i < n)%nat /\ lo i < t /\ t < hi i.
Lemma nearest_near t A i j : at_t t A -> (nearest s hs t i j <-> pol i = true /\ pol j = false /\ near rk A i j).
Proof.
  intros At. unfold nearest, near. split.
  - intros (p & m & Np & Nm & Fp & Fm & Cp & Cm & H). pose proof (nth_some_lt _ _ _ Np) as Li. pose proof (nth_some_lt _ _ _ Nm) as Lj.
    apply hat_nth in Np, Nm. subst p m. assert (Pi : pol i = true) by (apply pol_fw; assumption). assert (Pj : pol j = false). { destruct (pol j) eqn:E; [|reflexivity]. exfalso. apply Fm. apply (pol_fw j Lj). exact E. }
    split; [exact Pi|]. split; [exact Pj|]. split; [apply At; split; [exact Li|apply covers_lo; assumption]|]. split; [apply At; split; [exact Lj|apply covers_lo; assumption]|]. split; [congruence|].
    intros k Ik Dk1 Dk2 M. apply At in Ik. destruct Ik as [Lk Ck]. apply (H k (hat hs k)); auto; [apply hat_in; exact Lk|apply covers_lo; assumption|]. apply met_rk; assumption.
  - intros (Pi & Pj & Ii & Ij & D & H). apply At in Ii, Ij. destruct Ii as [Li Ci], Ij as [Lj Cj]. exists (hat hs i), (hat hs j). split; [apply hat_in; exact Li|]. split; [apply hat_in; exact Lj|]. split; [apply pol_fw; assumption|]. split; [intros X; apply (pol_fw j Lj) in X; congruence|].
    split; [apply covers_lo; assumption|]. split; [apply covers_lo; assumption|]. intros k h Nk Ck D1 D2 M. pose proof (nth_some_lt _ _ _ Nk) as Lk. apply hat_nth in Nk. subst h. apply (H k); auto; [apply At; split; [exact Lk|apply covers_lo; assumption]|]. apply met_rk; assumption.
Qed.
Lemma pair_mate t A i j : at_t t A -> (facing_pair s hs t i j <-> mate rk pol A i j).
Proof. intros At. unfold facing_pair, mate. rewrite !(nearest_near t A) by exact At. reflexivity. Qed.
Lemma gen_events t i : generic s hs t -> (i < n)%nat -> ~ t == lo i /\ ~ t == hi i.
Proof. intros G H. destruct (G _ (proj2 (hat_in i H))) as [G1 G2]. unfold ConnPieceProofs.lo, ConnPieceProofs.hi, h_begin, h_end. destruct (h_pos s (hat hs i)); auto. Qed.
Lemma generic_after x : exists t, generic s hs t /\ x < t /\ forall i, (i < n)%nat -> (act s hs x i <-> lo i < t /\ t < hi i).
Proof.
  destruct (just_after (map (fun h => along s (h_from h)) hs ++ map (fun h => along s (h_to h)) hs) x) as (t & T & H). exists t.
  assert (HF : forall h, In h hs -> along s (h_from h) <= x \/ t < along s (h_from h)) by (intros h I; apply H, in_app_iff; left; apply (in_map (fun h => along s (h_from h))); exact I).
  assert (HT : forall h, In h hs -> along s (h_to h) <= x \/ t < along s (h_to h)) by (intros h I; apply H, in_app_iff; right; apply (in_map (fun h => along s (h_to h))); exact I).
  split; [intros h I; specialize (HF h I); specialize (HT h I); split; intros E; destruct HF, HT; lra|]. split; [exact T|].
  intros i Li. destruct (hat_in i Li) as [_ I]. specialize (HF _ I). specialize (HT _ I). unfold act. unfold ConnPieceProofs.lo, ConnPieceProofs.hi, h_begin, h_end. destruct (h_pos s (hat hs i)); split; intros X; repeat split; try lra; try exact Li; destruct X as (X1 & X2) || destruct X as (_ & X1 & X2); destruct HF, HT; lra.
Qed.
Lemma distinct_rk x i j : act s hs x i -> act s hs x j -> i <> j -> rk i <> rk j.
Proof.
  intros Ai Aj D. destruct (generic_after x) as (t & G & _ & At). assert (Li := proj1 Ai). assert (Lj := proj1 Aj). destruct (hat_in i Li) as [Ni _]. destruct (hat_in j Lj) as [Nj _].
  destruct (Hc t G i _ Ni) as [H _]; [apply covers_lo; [exact Li|apply (At i Li); exact Ai]|]. 
  specialize (H j _ Nj ltac:(apply covers_lo; [exact Lj|apply (At j Lj); exact Aj]) ltac:(congruence)). rewrite !before_rk in H by assumption. lia.
Qed.
Lemma mated_rk x A : (forall i, In i A <-> act s hs x i) -> by_rank rk A -> all_mated rk pol A.
Proof.
  intros HA _ i Ii. destruct (generic_after x) as (t & G & _ & At). assert (Ai := Ii). apply HA in Ai. assert (Li := proj1 Ai). destruct (hat_in i Li) as [Ni _].
  destruct (Hc t G i _ Ni) as [_ (j & Pj)]; [apply covers_lo; [exact Li|apply (At i Li); exact Ai]|]. exists j. apply (pair_mate t A); [|exact Pj].
  intros k. rewrite HA. split; [intros X; split; [apply X|apply (At k (proj1 X)); exact X]|intros [Lk X]; apply (At k Lk); exact X].
Qed.
Lemma paired_rk t A a b : generic s hs t -> at_t t A -> by_rank rk A -> mate rk pol A a b -> facing_pair s hs t a b.
Proof. intros _ At _ M. apply (pair_mate t A); assumption. Qed.

Theorem connect_closed dbg ord : (forall l, Permutation (ord l) l) -> exists st, connect_line dbg s ord hs = Ok st /\ c_errors st = [] /\
  (forall i, (i < length (c_pieces st))%nat -> exists j, connected s hs (c_pieces st) i j) /\
  forall e h, nth_error hs e = Some h -> subdivided s (c_pieces st) e h.
Proof.
  intros Ord.
  assert (X0 : exists x0, forall i, (i < n)%nat -> x0 < lo i).
  { destruct hs as [|h hs'] eqn:Eh; [exists 0; intros i Hi; cbn in Hi; lia|]. exists (lo 0%nat - 1). intros i Hi. rewrite <- Eh in *. pose proof (sorted_lo 0 i ltac:(lia)). lra. }
  destruct X0 as (x0 & X0).
  destruct (connect_ok s hs okp (generic s hs) (facing_pair s hs) rk pol_fw loc_lt_okp hp_eq_okp half_okp key_okp distinct_rk mated_rk paired_rk gen_events sorted_lo ord Ord dbg x0 X0) as (y & st & E & S & L).
  exists st. split; [exact E|]. pose proof (si_li _ _ _ _ _ _ _ _ _ S) as Li. split; [apply (li_err _ _ _ _ _ _ _ _ Li)|]. split.
  - intros i Hi. destruct (nth_lt_some _ _ Hi) as (q & Nq). destruct (connect_result s hs okp (generic s hs) (facing_pair s hs) rk y st i q S L Nq) as (j & r & Pq & Nr & Pr & Po & Pl & Ph & Plh & Le & O1 & O2 & O3 & O4 & Pt).
    exists j, q, r. repeat (split; [assumption|]).
    assert (Ends : along s (p_from q) == along s (p_to r) /\ along s (p_to q) == along s (p_from r)). { unfold plo, phi in Pl, Ph. rewrite Po in Pl, Ph. destruct (pol (p_edge q)); cbn [negb] in *; split; lra. }
    split; [apply same_okp; [assumption|assumption|apply Ends]|]. split; [apply same_okp; [assumption|assumption|apply Ends]|].
    intros t G In_. apply Pt; [exact G| |]; unfold plo, phi, strictly_inside in *; destruct (pol (p_edge q)); lra.
  - intros e h Ne. rewrite <- (hat_nth hs e h Ne). apply (pi_sub _ _ _ _ _ _ _ _ _ _ _ (li_pi _ _ _ _ _ _ _ _ Li)). exact (nth_some_lt _ _ _ Ne).
Qed.
End Top.
