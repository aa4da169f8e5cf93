(** The binary searches around a polygon. *)
From Coq Require Import List ZArith QArith Lqa Lia Arith ZifyBool.
From Verif Require Import BigUIntModel GeoModel GeoSpec GeoProofs CvxProofs CvxSeqProofs PolyModel PolyBridgeProofs.
Import ListNotations.
Open Scope Q_scope.
Lemma sgn_zero z q : Z.sgn z = qsign q -> (z =? 0)%Z = true <-> q == 0.
Proof. intros E. rewrite <- qsign_zero, <- E. lia. Qed.
Lemma sgn_pos z q : Z.sgn z = qsign q -> (0 <? z)%Z = true <-> 0 < q.
Proof. intros E. rewrite <- qsign_pos, <- E. lia. Qed.
Lemma sgn_neg z q : Z.sgn z = qsign q -> (z <? 0)%Z = true <-> q < 0.
Proof. intros E. rewrite <- qsign_neg, <- E. lia. Qed.
Lemma bfalse (b : bool) P : (b = true <-> P) -> b = false -> ~ P.
Proof. intros I E X. apply I in X. congruence. Qed.
Ltac sgn_cases S z := let E := fresh "B" in destruct z eqn:E; [apply S in E|apply (bfalse _ _ S) in E].
Lemma cycle_index_ok dbg n a b : (0 < n)%nat -> (a <= b + n)%nat -> exists r, cycle_index dbg n a b = Ok r /\ (a <= r)%nat /\ (r < a + n)%nat /\ (r mod n = b mod n)%nat.
Proof.
  intros N L. unfold cycle_index. replace (a <=? b + n)%nat with true by lia. assert (check dbg true = Ok tt) as -> by (destruct dbg; reflexivity). cbn [rbind].
  replace (n =? 0)%nat with false by lia. eexists. split; [reflexivity|]. pose proof (Nat.mod_upper_bound (b + n - a) n ltac:(lia)). split; [lia|]. split; [lia|].
  rewrite Nat.add_mod_idemp_r by lia. replace (a + (b + n - a))%nat with (b + 1 * n)%nat by lia. apply Nat.mod_add. lia.
Qed.
Lemma half_between a b : (a < b)%nat -> (a <= (a + b) / 2 /\ (a + b) / 2 < b)%nat.
Proof. intros L. split; [apply Nat.div_le_lower_bound; lia|apply Nat.div_lt_upper_bound; lia]. Qed.
Lemma half_inside a b : (S a < b)%nat -> (a < (a + b) / 2 /\ (a + b) / 2 < b)%nat.
Proof. intros L. split; [apply Nat.div_le_lower_bound; lia|apply Nat.div_lt_upper_bound; lia]. Qed.
Section Search.
Context {A : Type} (p : poly A) (v : vec2) (d : nat) (F : nat -> Q) (H : sees p v d F).
Notation n := (pcount p).
Lemma u_pos : (0 < n)%nat. Proof using All. exact (u_n _ _ (s_uni p v d F H)). Qed.
Lemma same_mod i j : (i mod n = j mod n)%nat -> F i = F j.
Proof using All. intros E. rewrite <- (u_mod n F (s_uni p v d F H) i), <- (u_mod n F (s_uni p v d F H) j), E. reflexivity. Qed.
Lemma mod_S i : (S (i mod n) mod n = S i mod n)%nat.
Proof using All. pose proof u_pos. replace (S (i mod n)) with (i mod n + 1)%nat by lia. rewrite Nat.add_mod_idemp_l by lia. f_equal. lia. Qed.
Lemma dir_mod i : exists z, edge_dir p v d (i mod n) = Ok z /\ Z.sgn z = qsign (F (S i) - F i).
Proof using All.
  pose proof u_pos. destruct (s_dir p v d F H (i mod n) ltac:(apply Nat.mod_upper_bound; lia)) as (z & E & G). exists z. split; [exact E|]. rewrite G.
  rewrite (same_mod (i mod n) i) by (apply Nat.mod_mod; lia). rewrite (same_mod (S (i mod n)) (S i)) by apply mod_S. reflexivity.
Qed.
Lemma some_slope : (exists i j, F i < F j) -> exists t, (t < n)%nat /\ ~ F t == F (S t).
Proof using All.
  intros (i & j & L). pose proof u_pos as N. pose proof (s_uni p v d F H) as U.
  assert (X : forall k m, (m + k = n)%nat -> (forall t, (t < m)%nat -> F t == F (S t)) \/ exists t, (t < n)%nat /\ ~ F t == F (S t)).
  { assert (Y : forall m, (m <= n)%nat -> (forall t, (t < m)%nat -> F t == F (S t)) \/ exists t, (t < n)%nat /\ ~ F t == F (S t)).
    { induction m as [|m IH]; intros Lm; [left; lia|]. destruct (IH ltac:(lia)) as [X|X]; [|right; exact X].
      destruct (Qeq_dec (F m) (F (S m))) as [E|E]; [left|right; exists m; split; [lia|exact E]].
      intros t Lt. destruct (Nat.eq_dec t m) as [->|]; [exact E|apply X; lia]. }
    intros k m E. apply Y. lia. }
  destruct (X 0%nat n ltac:(lia)) as [Fl|Y]; [exfalso|exact Y].
  assert (C : forall m, (m <= n)%nat -> F m == F 0%nat) by (induction m as [|m IH]; intros Lm; [reflexivity|rewrite <- (Fl m) by lia; apply IH; lia]).
  rewrite <- (u_mod n F U i), <- (u_mod n F U j) in L. pose proof (Nat.mod_upper_bound i n ltac:(lia)). pose proof (Nat.mod_upper_bound j n ltac:(lia)).
  rewrite (C (i mod n)%nat), (C (j mod n)%nat) in L by lia. lra.
Qed.
Lemma scan_before_ok dbg m : (m < n)%nat -> (exists t, (1 <= t)%nat /\ (t <= m)%nat /\ ~ F t == F (S t)) ->
  exists b z, scan_before dbg p v d m = Ok (b, z) /\ (1 <= b)%nat /\ (b <= m)%nat /\ Z.sgn z = qsign (F (S b) - F b) /\ z <> 0%Z /\
    forall t, (b < t)%nat -> (t <= m)%nat -> F t == F (S t).
Proof using All.
  induction m as [|m IH]; intros L (t & T1 & T2 & T3); [lia|]. cbn [scan_before].
  destruct (s_dir p v d F H (S m) L) as (z & E & G). rewrite E. cbn [rbind]. sgn_cases (sgn_zero _ _ G) (z =? 0)%Z.
  - destruct IH as (b & z' & E' & B1 & B2 & G' & Z' & Fl); [lia|exists t; repeat split; [lia| |exact T3]; destruct (Nat.eq_dec t (S m)) as [->|]; [exfalso; apply T3; lra|lia]|].
    exists b, z'. repeat split; try assumption; [lia|]. intros u U1 U2. destruct (Nat.eq_dec u (S m)) as [->|]; [lra|apply Fl; lia].
  - exists (S m), z. repeat split; try assumption; try lia. intros ->. apply B. apply qsign_zero. rewrite <- G. reflexivity.
Qed.
Lemma scan_after_ok fuel i : (exists t, (i <= t)%nat /\ (t < n)%nat /\ (t < i + fuel)%nat /\ ~ F t == F (S t)) ->
  exists a, scan_after p v d fuel i = Ok a /\ (i <= a)%nat /\ (a < n)%nat /\ ~ F a == F (S a) /\ forall t, (i <= t)%nat -> (t < a)%nat -> F t == F (S t).
Proof using All.
  revert i. induction fuel as [|fuel IH]; intros i (t & T1 & T2 & T3 & T4); [lia|]. cbn [scan_after].
  destruct (s_dir p v d F H i ltac:(lia)) as (z & E & G). rewrite E. cbn [rbind]. sgn_cases (sgn_zero _ _ G) (z =? 0)%Z.
  - destruct (IH (S i)) as (a & E' & A1 & A2 & A3 & A4); [exists t; repeat split; try lia; [destruct (Nat.eq_dec t i) as [->|]; [exfalso; apply T4; lra|lia]|exact T4]|].
    exists a. repeat split; try assumption; [lia|]. intros u U1 U2. destruct (Nat.eq_dec u i) as [->|]; [lra|apply A4; lia].
  - exists i. repeat split; try lia. intros X. apply B. lra.
Qed.
Lemma flat_run i k : (forall t, (i <= t)%nat -> (t < i + k)%nat -> F t == F (S t)) -> F i == F (i + k)%nat.
Proof using. clear H. induction k as [|k IH]; intros X; [replace (i + 0)%nat with i by lia; reflexivity|]. rewrite IH by (intros; apply X; lia). replace (i + S k)%nat with (S (i + k))%nat by lia. apply X; lia. Qed.
(** The vertex comparison of the binary search. *)
Lemma less_from_first x x0 i : F 0%nat == inject_Z (v2_dot (drop_dim (hv x0) d) v) / inject_Z (hw x0) -> F i == inject_Z (v2_dot (drop_dim (hv x) d) v) / inject_Z (hw x) ->
  hw x0 <> 0%Z -> hw x <> 0%Z ->
  zless_than (zdiff_sign (hw x0) (hw x)) (v2_dot (drop_dim (hv x0) d) v * hw x) (v2_dot (drop_dim (hv x) d) v * hw x0) = true <-> F 0%nat < F i.
Proof using.
  clear H. intros F0 Fi W0 W. rewrite F0, Fi. set (a := v2_dot _ v). set (b := v2_dot (drop_dim (hv x) d) v). clearbody a b. clear F0 Fi. rewrite zdiff_sign_spec. 
  pose proof (rat_lt_spec a (hw x0) b (hw x) W0 W) as R. unfold rat_lt in R. rewrite !zget_sign_neg in R. exact R.
Qed.
Lemma opposite_loop_ok x0 fuel first last : pvertex p 0 = Ok x0 -> F 0%nat < F 1%nat -> (1 <= first)%nat -> (last <= n)%nat -> (last - first < fuel)%nat ->
  (exists t, (first <= t)%nat /\ (t < last)%nat /\ F (S t) < F t) ->
  exists m, opposite_loop p v d (v2_dot (drop_dim (hv x0) d) v) (hw x0) fuel first last = Ok m /\ (m < n)%nat /\ F (S m) < F m.
Proof using All.
  intros V0 R0. destruct (s_vertex p v d F H 0%nat u_pos) as (x0' & E0 & W0 & F0). rewrite V0 in E0. injection E0 as <-. pose proof (s_uni p v d F H) as U.
  revert first last. induction fuel as [|fuel IH]; intros first last L1 L2 Fu (t & T1 & T2 & T3); [lia|]. cbn [opposite_loop].
  destruct (half_between first last ltac:(lia)) as [M1 M2]. set (mid := ((first + last) / 2)%nat) in *.
  destruct (s_dir p v d F H mid ltac:(lia)) as (z & E & G). rewrite E. cbn [rbind]. sgn_cases (sgn_neg _ _ G) (z <? 0)%Z; [exists mid; repeat split; [lia|lra]|].
  destruct (s_vertex p v d F H mid ltac:(lia)) as (x & Ex & Wx & Fx). rewrite Ex. cbn [rbind].
  assert (Up : F mid <= F (S mid)) by lra.
  assert (t <> mid) by (intros ->; lra).
  sgn_cases (less_from_first x x0 mid F0 Fx W0 Wx) (zless_than (zdiff_sign (hw x0) (hw x)) (v2_dot (drop_dim (hv x0) d) v * hw x) (v2_dot (drop_dim (hv x) d) v * hw x0)).
  - apply IH; [lia|lia|lia|]. exists t. repeat split; [|lia|exact T3]. destruct (Nat.lt_ge_cases t mid) as [X|X]; [|lia]. exfalso.
    exact (falls_after n F U t mid R0 ltac:(lia) X ltac:(lia) T3 Up B0).
  - apply IH; [lia|lia|lia|]. exists t. repeat split; [lia| |exact T3]. destruct (Nat.lt_ge_cases t mid) as [X|X]; [lia|]. exfalso.
    exact (falls_before n F U t mid R0 ltac:(lia) ltac:(lia) ltac:(lia) T3 Up ltac:(lra)).
Qed.
Lemma extreme_loop_ok fuel first last : (first < last)%nat -> (last - first <= S fuel)%nat -> F first < F (S first) -> F (S last) <= F last ->
  exists r, extreme_loop p v d fuel first last = Ok (S r) /\ (first <= r)%nat /\ (r < last)%nat /\ F r < F (S r) /\ F (S (S r)) <= F (S r).
Proof using All.
  revert first last. induction fuel as [|fuel IH]; intros first last L Fu Up Dn; cbn [extreme_loop].
  - replace (S first <? last)%nat with false by lia. exists first. replace last with (S first) in * by lia. repeat split; try lia; assumption.
  - destruct (S first <? last)%nat eqn:X.
    + destruct (half_inside first last ltac:(lia)) as [M1 M2]. set (mid := ((first + last) / 2)%nat) in *.
      destruct (dir_mod mid) as (z & E & G). rewrite E. cbn [rbind]. sgn_cases (sgn_pos _ _ G) (0 <? z)%Z.
      * destruct (IH mid last ltac:(lia) ltac:(lia) ltac:(lra) Dn) as (r & Er & R1 & R2 & R3 & R4). exists r. repeat split; try assumption; lia.
      * destruct (IH first mid ltac:(lia) ltac:(lia) Up ltac:(lra)) as (r & Er & R1 & R2 & R3 & R4). exists r. repeat split; try assumption; lia.
    + exists first. replace last with (S first) in * by lia. repeat split; try lia; assumption.
Qed.
End Search.
Lemma opposite_edges_ok {A} dbg (p : poly A) v d F : sees p v d F -> (exists i j, F i < F j) ->
  exists a b, opposite_edges dbg p v d = Ok (a, b) /\ (a < pcount p)%nat /\ (b < pcount p)%nat /\ F a < F (S a) /\ F (S b) < F b.
Proof.
  intros H NC. pose proof (u_pos p v d F H) as N. pose proof (s_uni p v d F H) as U. unfold opposite_edges.
  destruct (s_dir p v d F H 0%nat N) as (z & E & G). rewrite E. cbn [rbind]. sgn_cases (sgn_zero _ _ G) (z =? 0)%Z.
  - destruct (some_slope p v d F H NC) as (t & T1 & T2). assert (t <> 0)%nat by (intros ->; apply T2; lra).
    destruct (scan_before_ok p v d F H dbg (pcount p - 1) ltac:(lia)) as (b & z' & E' & B1 & B2 & G' & Z' & Fl); [exists t; repeat split; try lia; exact T2|].
    destruct (scan_after_ok p v d F H (S (pcount p)) 1) as (a & Ea & A1 & A2 & A3 & A4); [exists t; repeat split; try lia; exact T2|].
    rewrite E', Ea. cbn [rbind fst snd].
    assert (Fb : F (S b) == F 0%nat).
    { rewrite (flat_run F (S b) (pcount p - S b)) by (intros; apply Fl; lia). replace (S b + (pcount p - S b))%nat with (0 + pcount p)%nat by lia. rewrite (u_period _ _ U). reflexivity. }
    assert (Fa : F 1%nat == F a). { rewrite (flat_run F 1 (a - 1)) by (intros; apply A4; lia). replace (1 + (a - 1))%nat with a by lia. reflexivity. }
    assert (E0 : F 0%nat == F 1%nat) by lra.
    sgn_cases (sgn_pos _ _ G') (0 <? z')%Z.
    + exists b, a. repeat split; try lia; [lra|]. destruct (Qlt_le_dec (F (S a)) (F a)) as [X|X]; [exact X|exfalso].
      assert (F a < F (S a)) by (destruct (proj1 (Qle_lteq _ _) X) as [Y|Y]; [exact Y|contradiction]). apply (u_flat _ _ U 0%nat b (S a) E0); lra.
    + assert (F (S b) < F b). { destruct (Qlt_le_dec (F (S b)) (F b)) as [X|X]; [exact X|exfalso]. apply Z'. assert (Y : F (S b) - F b == 0) by lra. apply qsign_zero in Y. lia. }
      exists a, b. repeat split; try lia; [|lra]. destruct (Qlt_le_dec (F a) (F (S a))) as [X|X]; [exact X|exfalso].
      assert (F (S a) < F a) by (destruct (proj1 (Qle_lteq _ _) X) as [Y|Y]; [exact Y|exfalso; apply A3; lra]). apply (u_flat _ _ U 0%nat (S a) b E0); lra.
  - destruct (s_vertex p v d F H 0%nat N) as (x0 & E0 & _ & _). rewrite E0. cbn [rbind].
    assert (P0 : F (pcount p) = F 0%nat) by apply (u_period _ _ U 0).
    sgn_cases (sgn_neg _ _ G) (z <? 0)%Z.
    + assert (H' := sees_neg p v d F H). cbv beta in H'. assert (1 < pcount p)%nat.
      { destruct (Nat.eq_dec (pcount p) 1) as [X|X]; [rewrite X in P0; exfalso; rewrite P0 in B0; lra|lia]. }
      destruct (descent (fun i => - F i) 1 (pcount p)) as (t & T1 & T2 & T3); [lia|cbv beta; rewrite P0; lra|].
      destruct (opposite_loop_ok p (v2_neg v) d _ H' x0 (S (pcount p)) 1 (pcount p) E0) as (m & Em & M1 & M2); [cbv beta; lra|lia|lia|lia|exists t; repeat split; try lia; exact T3|].
      rewrite Em. cbn [rbind]. exists m, 0%nat. cbv beta in M2. repeat split; try lia; lra.
    + assert (Up : F 0%nat < F 1%nat) by (destruct (Qlt_le_dec (F 0%nat) (F 1%nat)) as [X|X]; [exact X|exfalso; apply B; lra]). assert (1 < pcount p)%nat.
      { destruct (Nat.eq_dec (pcount p) 1) as [X|X]; [rewrite X in P0; exfalso; rewrite P0 in Up; lra|lia]. }
      destruct (descent F 1 (pcount p)) as (t & T1 & T2 & T3); [lia|rewrite P0; lra|].
      destruct (opposite_loop_ok p v d _ H x0 (S (pcount p)) 1 (pcount p) E0) as (m & Em & M1 & M2); [lra|lia|lia|lia|exists t; repeat split; try lia; exact T3|].
      rewrite Em. cbn [rbind]. exists 0%nat, m. repeat split; try lia; lra.
Qed.
(** GetExtremeIndexBisect returns the first vertex of those farthest along v. *)
Lemma extreme_index_ok {A} dbg (p : poly A) v d F : v2_is_zero v = false -> sees p v d F -> (exists i j, F i < F j) ->
  exists r, extreme_index dbg p v d = Ok (Some (S r mod pcount p)%nat) /\ F r < F (S r) /\ forall j, F j <= F (S r).
Proof.
  intros Z H NC. unfold extreme_index. rewrite Z. pose proof (u_pos p v d F H) as N. pose proof (s_uni p v d F H) as U.
  destruct (opposite_edges_ok dbg p v d F H NC) as (a & b & E & A1 & B1 & Up & Dn). rewrite E. cbn [rbind fst snd].
  destruct (cycle_index_ok dbg (pcount p) a b N ltac:(lia)) as (l & El & L1 & L2 & L3). rewrite El. cbn [rbind].
  assert (Fl : F l = F b) by (apply (same_mod p v d F H); exact L3).
  assert (FSl : F (S l) = F (S b)) by (apply (same_mod p v d F H); rewrite <- (mod_S p v d F H l), <- (mod_S p v d F H b), L3; reflexivity).
  assert (a <> l) by (intros <-; rewrite FSl, Fl in Up; lra).
  destruct (extreme_loop_ok p v d F H (S (pcount p)) a l ltac:(lia) ltac:(lia) Up) as (r & Er & R1 & R2 & R3 & R4); [rewrite Fl, FSl; lra|].
  rewrite Er. cbn [rbind]. exists r. split; [reflexivity|]. split; [exact R3|]. exact (peak _ _ U r R3 R4).
Qed.
