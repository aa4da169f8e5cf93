(** SetAdjacentBoundaryAngles marks what SetBoundaryAngles marks with the range of
    the vertices that are not coincident. *)
From Coq Require Import List ZArith QArith Arith Lia Bool.
From Verif Require Import BigUIntModel GeoModel GeoSpec GeoProofs GeoPlaneProofs AabbSpec CvxSpec PolyModel PolySpec PolyBridgeProofs PolyCapProofs PolyChildProofs RTransModel FilterModel BspModel BspSpec BspMarkProofs BspGeoProofs BspPolyProofs BspBoxProofs EvtModel PrimModel KdModel.
Import ListNotations.
Open Scope nat_scope.

Lemma upd_edge_shift es i f : (0 < length es) -> upd_edge es (i mod length es) f = upd_edge es i f.
Proof. intros N. unfold upd_edge. rewrite Nat.mod_mod by lia. reflexivity. Qed.
Lemma upd_edge_same es i j f : i mod length es = j mod length es -> upd_edge es i f = upd_edge es j f.
Proof. intros E. unfold upd_edge. rewrite E. reflexivity. Qed.
Lemma mark_range_same on c k : forall es i j, 0 < length es -> i mod length es = j mod length es -> mark_range on c es i k = mark_range on c es j k.
Proof.
  induction k as [|k IH]; intros es i j N E; cbn [mark_range]; [apply upd_edge_same; exact E|]. rewrite (upd_edge_same es i j _ E). apply IH; rewrite upd_edge_length; [exact N|].
  rewrite <- (mod_succ _ i), <- (mod_succ _ j), E by exact N. reflexivity.
Qed.
Section Adjacent.
Context (b : bpoly) (qs : list qpoint) (c : split_side) (OK : poly_ok (bp_poly b) qs).
Notation n := (bp_count b).
(** Whether vertex i is coincident. *)
Definition co (i : nat) : bool := match nth_error (pedges (bp_poly b)) (i mod n) with Some e => hs_coincident (ss_split c) (pv e) | None => false end.
Lemma n_pos : 0 < n. Proof using OK. exact (ok_n _ _ OK). Qed.
Lemma co_vertex i : exists v, pvertex (bp_poly b) (i mod n) = Ok v /\ hs_coincident (ss_split c) v = co i.
Proof using OK.
  destruct (edge_at _ qs OK i) as (e & E & _). fold (bp_count b) in E. exists (pv e). unfold pvertex, pedge_at, co. fold (bp_count b). rewrite E. split; reflexivity.
Qed.
Lemma co_iff i : co i = true <-> on_split c (cyc o3 qs i).
Proof using OK.
  destruct (edge_at _ qs OK i) as (e & E & D & _). fold (bp_count b) in E. unfold co. rewrite E. unfold hs_coincident. rewrite (hs_compare_spec _ _ _ D), Z.eqb_eq. unfold on_split. apply qsign_zero.
Qed.
Lemma co_same i j : i mod n = j mod n -> co i = co j.
Proof. intros E. unfold co. rewrite E. reflexivity. Qed.
Lemma co_add i : co (i + n) = co i.
Proof using OK. pose proof n_pos. apply co_same. replace (i + n) with (i + 1 * n) by lia. apply Nat.mod_add. lia. Qed.
Context (r : nat * nat) (L1 : fst r < snd r) (L2 : snd r <= fst r + n) (R : forall i, i < n -> ~ on_split c (cyc o3 qs i) <-> in_cyclic_range n r i).
Notation k := (n + fst r - snd r).
Lemma co_from t : t < n -> co (snd r + t) = (t <? k).
Proof using OK L1 L2 R.
  intros T. pose proof n_pos as N. pose proof (ok_length _ _ OK) as Ln. fold (bp_count b) in Ln. pose proof (Nat.mod_upper_bound (snd r + t) n ltac:(lia)) as Mb. destruct (R _ Mb) as [RA RB].
  assert (Co : co (snd r + t) = true <-> on_split c (cyc o3 qs ((snd r + t) mod n))) by (rewrite <- co_iff; rewrite (co_same ((snd r + t) mod n) (snd r + t)) by (apply Nat.mod_mod; lia); reflexivity).
  destruct (Nat.ltb_spec t k) as [X|X].
  - destruct (on_split_dec c (cyc o3 qs ((snd r + t) mod n))) as [Y|Y]; [apply Co; exact Y|exfalso]. destruct (RA Y) as (j & J1 & J2 & J3). destruct (mod_diff_n n j (snd r + t) ltac:(lia) ltac:(lia) J3) as (m & M). destruct m; [lia|nia].
  - apply Bool.not_true_is_false. intros Y. apply Co in Y. apply RB in Y; [exact Y|]. exists (snd r + t - n). split; [lia|]. split; [lia|]. replace (snd r + t) with (snd r + t - n + 1 * n) at 2 by lia. symmetry. apply Nat.mod_add. lia.
Qed.
Context (adj : nat) (A : on_split c (cyc o3 qs adj)).
Lemma seed : exists m, m < k /\ adj mod n = (snd r + m) mod n.
Proof using OK L1 L2 R A.
  pose proof n_pos as N. assert (X : exists t, t < n /\ adj mod n = (snd r + t) mod n).
  { pose proof (Nat.mod_upper_bound adj n ltac:(lia)) as Ha. pose proof (Nat.mod_upper_bound (snd r) n ltac:(lia)) as Hr. destruct (Nat.le_gt_cases (snd r mod n) (adj mod n)) as [H|H].
    - exists (adj mod n - snd r mod n). split; [lia|]. rewrite <- Nat.add_mod_idemp_l by lia. replace (snd r mod n + (adj mod n - snd r mod n)) with (adj mod n) by lia. symmetry. apply Nat.mod_mod. lia.
    - exists (n + adj mod n - snd r mod n). split; [lia|]. rewrite <- Nat.add_mod_idemp_l by lia. replace (snd r mod n + (n + adj mod n - snd r mod n)) with (adj mod n + 1 * n) by lia. rewrite Nat.mod_add by lia. symmetry. apply Nat.mod_mod. lia. }
  destruct X as (t & T & E). exists t. split; [|exact E]. apply co_iff in A. rewrite (co_same _ _ E), (co_from t T) in A. apply Nat.ltb_lt in A. exact A.
Qed.
Lemma co_seed m t : m < k -> adj mod n = (snd r + m) mod n -> t < n -> co (adj + t) = ((m + t <? k) || ((n <=? m + t) && (m + t - n <? k)))%bool.
Proof using OK L1 L2 R.
  intros M E T. pose proof n_pos as N. assert (X : co (adj + t) = co (snd r + (m + t))) by (apply co_same; rewrite <- Nat.add_mod_idemp_l, E, Nat.add_mod_idemp_l by lia; f_equal; lia). rewrite X.
  destruct (Nat.lt_ge_cases (m + t) n) as [Y|Y].
  - rewrite co_from by exact Y. destruct (Nat.leb_spec n (m + t)); [lia|]. cbn [andb]. rewrite orb_false_r. reflexivity.
  - replace (snd r + (m + t)) with (snd r + (m + t - n) + n) by lia. rewrite co_add, co_from by lia. destruct (Nat.ltb_spec (m + t) k); [lia|]. destruct (Nat.leb_spec n (m + t)); [|lia]. reflexivity.
Qed.
Lemma begin_loop m : m < k -> adj mod n = (snd r + m) mod n -> forall i, i < n -> n - m - 1 <= i -> adjacent_begin (ss_split c) b adj i = Ok (Some (adj + n - m)).
Proof using OK L1 L2 R.
  intros M E. induction i as [|i IH]; intros I J; [lia|]. cbn [adjacent_begin]. destruct (co_vertex (adj + S i)) as (v & -> & Hv). cbn [rbind]. rewrite Hv, (co_seed m (S i) M E I).
  destruct (Nat.eq_dec (S i) (n - m - 1)) as [X|X].
  - destruct (Nat.ltb_spec (m + S i) k); [lia|]. destruct (Nat.leb_spec n (m + S i)); [lia|]. cbn [orb andb]. do 2 f_equal. lia.
  - destruct (Nat.leb_spec n (m + S i)); [|lia]. destruct (Nat.ltb_spec (m + S i - n) k); [|lia]. rewrite orb_true_r. apply IH; lia.
Qed.
Lemma end_loop m : m < k -> adj mod n = (snd r + m) mod n -> forall f t, 1 <= t -> t <= k - m -> k - m - t < f -> adjacent_end (ss_split c) b f (adj + n + t) = Ok (adj + n + (k - m)).
Proof using OK L1 L2 R.
  intros M E. pose proof n_pos as N. induction f as [|f IH]; intros t T1 T2 F; [lia|]. cbn [adjacent_end]. destruct (co_vertex (adj + n + t)) as (v & -> & Hv). cbn [rbind]. rewrite Hv. replace (adj + n + t) with (adj + t + n) by lia. rewrite co_add.
  assert (Tn : t < n) by lia. rewrite (co_seed m t M E Tn). destruct (Nat.eq_dec t (k - m)) as [->|X].
  - destruct (Nat.ltb_spec (m + (k - m)) k); [lia|]. destruct (Nat.leb_spec n (m + (k - m))); [lia|]. cbn [orb andb]. f_equal. lia.
  - destruct (Nat.ltb_spec (m + t) k); [|lia]. cbn [orb]. replace (S (adj + t + n)) with (adj + n + S t) by lia. apply IH; lia.
Qed.
Theorem set_adjacent_ok : set_adjacent b c adj = set_angles_except b c r.
Proof using OK L1 L2 R A.
  pose proof n_pos as N. destruct seed as (m & M & E). unfold set_adjacent. destruct (Nat.eqb_spec n 0) as [H0|H0]; [lia|]. rewrite (begin_loop m M E (n - 1)) by lia. cbn [rbind].
  rewrite (end_loop m M E n 1) by lia. cbn [rbind]. set (f := (adj + n - m) mod n). assert (LE : f <= adj + n - m) by (apply Nat.mod_le; lia).
  assert (Q : exists q, adj + n - m = f + q * n) by (exists ((adj + n - m) / n); unfold f; rewrite (Nat.div_mod (adj + n - m) n) at 1 by lia; lia). destruct Q as (q & Q).
  assert (D : (adj + n + (k - m) - f) mod n = k) by (replace (adj + n + (k - m) - f) with (k + q * n) by lia; rewrite Nat.mod_add by lia; apply Nat.mod_small; lia). rewrite D.
  unfold set_angles_except, set_angles. destruct (Nat.eqb_spec f (k + f)) as [H1|H1]; [lia|]. destruct (Nat.eqb_spec (snd r) (n + fst r)) as [H2|H2]; [lia|]. destruct (Nat.eqb_spec n 0) as [H3|H3]; [lia|]. do 2 f_equal.
  replace (k + f - 1 - f) with (n + fst r - 1 - snd r) by lia. apply mark_range_same; [exact N|]. change (length (pedges (bp_poly b))) with n. unfold f. rewrite Nat.mod_mod by lia.
  assert (X : (adj + n - m + m) mod n = (snd r + m) mod n) by (replace (adj + n - m + m) with (adj + 1 * n) by lia; rewrite Nat.mod_add by lia; exact E).
  pose proof (mod_diff_n n) as MD. destruct (Nat.le_gt_cases (snd r) (adj + n - m)) as [Y|Y].
  - destruct (MD (snd r + m) (adj + n - m + m) N ltac:(lia) (eq_sym X)) as (z & Z). replace (adj + n - m) with (snd r + z * n) by lia. apply Nat.mod_add. lia.
  - destruct (MD (adj + n - m + m) (snd r + m) N ltac:(lia) X) as (z & Z). replace (snd r) with (adj + n - m + z * n) by lia. symmetry. apply Nat.mod_add. lia.
Qed.
End Adjacent.
