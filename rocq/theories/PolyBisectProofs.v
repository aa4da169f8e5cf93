(** FindSplitRangesBisect finds the two sides. *)
From Coq Require Import List ZArith QArith Lqa Lia Arith ZifyBool.
From Verif Require Import BigUIntModel GeoModel GeoSpec GeoProofs CvxProofs CvxSeqProofs PolyModel PolySpec PolyBridgeProofs PolySearchProofs PolyLinearProofs.
Import ListNotations.
Open Scope Q_scope.
Lemma uni_shift n F c : uni n F -> uni n (fun i => F i - c).
Proof.
  intros U. split; [exact (u_n _ _ U)|intros i; rewrite (u_period _ _ U); reflexivity| |].
  - intros e i j k l Hij Hjk Hkl Hli Fi Fj Fk Fl. apply (u_alt _ _ U (e + c) i j k l); try assumption; lra.
  - intros i a b E X Y. apply (u_flat _ _ U i a b); lra.
Qed.
Lemma window_unique n a j j' : (a <= j)%nat -> (j < a + n)%nat -> (a <= j')%nat -> (j' < a + n)%nat -> (j mod n = j' mod n)%nat -> j = j'.
Proof.
  intros A1 A2 B1 B2 E. pose proof (Nat.div_mod j n ltac:(lia)) as D1. pose proof (Nat.div_mod j' n ltac:(lia)) as D2. rewrite E in D1.
  set (q := (j / n)%nat) in *. set (q' := (j' / n)%nat) in *. clearbody q q'. destruct (Nat.lt_trichotomy q q') as [X|[X|X]]; [nia|subst q'; lia|nia].
Qed.
Lemma range_window n a r i i' : (0 < n)%nat -> (a <= fst r)%nat -> (snd r <= a + n)%nat -> (a <= i')%nat -> (i' < a + n)%nat -> (i' mod n = i)%nat ->
  in_cyclic_range n r i <-> (fst r <= i' /\ i' < snd r)%nat.
Proof.
  intros N A1 A2 I1 I2 E. split.
  - intros (j & J1 & J2 & J3). assert (j = i') by (apply (window_unique n a); try lia; congruence). lia.
  - intros [L1 L2]. exists i'. repeat split; assumption.
Qed.
Section Arcs.
Context (n : nat) (G : nat -> Q) (U : uni n G).
Lemma arc y x : (y < x)%nat -> (x < y + n)%nat -> 0 <= G y -> G (S y) < 0 -> G x <= 0 -> 0 < G (S x) -> forall i, (y < i)%nat -> (i < x)%nat -> G i < 0.
Proof using All.
  intros L1 L2 Gy Gy' Gx Gx'. pose proof (uni_opp _ _ U) as UN.
  assert (P : forall i, (y < i)%nat -> (i < x)%nat -> G i <= 0).
  { intros i I1 I2. destruct (Qlt_le_dec 0 (G i)) as [X|X]; [exfalso|exact X]. assert (i <> S y) by (intros ->; lra).
    apply (u_alt _ _ U 0 i x (S x) (S y + n)%nat); try lia; try lra. rewrite (u_period _ _ U). lra. }
  intros i I1 I2. specialize (P i I1 I2) as Pi. destruct (proj1 (Qle_lteq _ _) Pi) as [X|X]; [exact X|exfalso]. assert (i <> S y) by (intros ->; lra).
  destruct (Qlt_le_dec (G x) 0) as [Y|Y].
  - apply (u_alt _ _ UN 0 (S y) i x (S x)); try lia; lra.
  - destruct (Qeq_dec (G i) (G (S i))) as [Z|Z]; [apply (u_flat _ _ U i (S y) (S x) Z); lra|].
    destruct (Nat.eq_dec (S i) x) as [W|W]; [apply Z; rewrite W; lra|]. specialize (P (S i) ltac:(lia) ltac:(lia)).
    assert (G (S i) < 0) by (destruct (proj1 (Qle_lteq _ _) P) as [V|V]; [exact V|exfalso; apply Z; lra]).
    apply (u_alt _ _ UN 0 (S y) i (S i) x); try lia; lra.
Qed.
(** All values are at least 0, first reached at x; then from f on none is 0. *)
Lemma touch x f : (forall j, 0 <= G j) -> G x == 0 -> 0 < G (x + n - 1)%nat -> (x < f)%nat -> (f < x + n)%nat -> 0 < G f -> (forall t, (x <= t)%nat -> (t < f)%nat -> G t == 0) ->
  forall i, (f <= i)%nat -> (i < x + n)%nat -> 0 < G i.
Proof using All.
  intros P Gx Gl L1 L2 Gf Z i I1 I2. specialize (P i) as Pi. destruct (proj1 (Qle_lteq _ _) Pi) as [X|X]; [exact X|exfalso].
  assert (i <> f) by (intros ->; lra). assert (i <> x + n - 1)%nat by (intros ->; lra).
  apply (u_alt _ _ U 0 f i (x + n - 1) (x + n)%nat); try lia; try lra. rewrite (u_period _ _ U). lra.
Qed.
End Arcs.
Section Bisect.
Context {A : Type} (p : poly A) (h : hspace2) (d : nat) (F : nat -> Q) (H : sees p (hn2 h) d F).
Notation n := (pcount p).
Definition off (i : nat) : Q := F i - inject_Z (hd2 h).
Lemma off_uni : uni n off.
Proof using H. apply uni_shift. exact (s_uni _ _ _ _ H). Qed.
Lemma cmp_mod i : vertex_cmp p h d (i mod n) = Ok (qsign (off i)).
Proof using H. pose proof off_uni as U. rewrite <- (u_mod _ _ U i). apply sees_cmp; [exact H|]. apply Nat.mod_upper_bound. pose proof (u_n _ _ U). lia. Qed.
Lemma pos_side_loop_ok fuel first last : (first < last)%nat -> (last - first <= S fuel)%nat -> F first < F (S first) -> F (S last) <= F last ->
  (exists m, pos_side_loop p h d fuel first last = Ok (m, true) /\ (first < m)%nat /\ (m < last)%nat /\ 0 < off m) \/
  (exists r, pos_side_loop p h d fuel first last = Ok (S r, false) /\ (first <= r)%nat /\ (r < last)%nat /\ F r < F (S r) /\ F (S (S r)) <= F (S r)).
Proof using H.
  revert first last. induction fuel as [|fuel IH]; intros first last L Fu Up Dn; cbn [pos_side_loop].
  - replace (S first <? last)%nat with false by lia. right. exists first. replace last with (S first) in * by lia. repeat split; try lia; assumption.
  - destruct (S first <? last)%nat eqn:X.
    + destruct (half_inside first last ltac:(lia)) as [M1 M2]. set (mid := ((first + last) / 2)%nat) in *. rewrite cmp_mod. cbn [rbind].
      destruct (0 <? qsign (off mid))%Z eqn:C.
      { left. exists mid. repeat split; try lia. apply qsign_pos. pose proof (qsign_range (off mid)). lia. }
      destruct (dir_mod p (hn2 h) d F H mid) as (z & E & G). rewrite E. cbn [rbind]. sgn_cases (sgn_pos _ _ G) (0 <? z)%Z.
      * destruct (IH mid last ltac:(lia) ltac:(lia) ltac:(lra) Dn) as [(m & Em & R1 & R2 & R3)|(r & Er & R1 & R2 & R3 & R4)]; [left; exists m|right; exists r]; repeat split; try assumption; lia.
      * destruct (IH first mid ltac:(lia) ltac:(lia) Up ltac:(lra)) as [(m & Em & R1 & R2 & R3)|(r & Er & R1 & R2 & R3 & R4)]; [left; exists m|right; exists r]; repeat split; try assumption; lia.
    + right. exists first. replace last with (S first) in * by lia. repeat split; try lia; assumption.
Qed.
(** The result is a vertex in the half-space, or else the first of the vertices
    nearest to it. *)
Lemma pos_side_vertex_ok dbg same opp : (same < n)%nat -> (opp < n)%nat -> F same < F (S same) -> F (S opp) < F opp ->
  exists x y l, pos_side_vertex dbg p h d same opp = Ok (qsign (off x), x) /\ cycle_index dbg n same opp = Ok l /\ (same < y)%nat /\ (y <= l)%nat /\ (x = y \/ x = y mod n)%nat /\
    (off x <= 0 -> (x < n)%nat /\ (forall j, off j <= off x) /\ off (x + n - 1)%nat < off x).
Proof using H.
  intros Ls Lo Up Dn. pose proof off_uni as U. pose proof (u_n _ _ U) as N. unfold pos_side_vertex.
  destruct (cycle_index_ok dbg n same opp N ltac:(lia)) as (l & El & L1 & L2 & L3). rewrite El. cbn [rbind].
  assert (Fl : F l = F opp) by (apply (same_mod p (hn2 h) d F H); exact L3).
  assert (FSl : F (S l) = F (S opp)) by (apply (same_mod p (hn2 h) d F H); rewrite <- (mod_S p (hn2 h) d F H l), <- (mod_S p (hn2 h) d F H opp), L3; reflexivity).
  assert (same <> l) by (intros <-; rewrite FSl, Fl in Up; lra).
  destruct (pos_side_loop_ok (S n) same l ltac:(lia) ltac:(lia) Up) as [(m & Em & M1 & M2 & M3)|(r & Er & R1 & R2 & R3 & R4)]; [rewrite Fl, FSl; lra| |].
  - rewrite Em. cbn [rbind fst snd]. exists m, m, l. split; [f_equal; f_equal; symmetry; apply qsign_pos; exact M3|]. repeat split; try lia; try (intros; exfalso; lra).
  - rewrite Er. cbn [rbind fst snd]. rewrite cmp_mod. cbn [rbind]. exists (S r mod n)%nat, (S r), l. pose proof (Nat.mod_upper_bound (S r) n ltac:(lia)) as B.
    split; [rewrite (u_mod _ _ U); reflexivity|]. split; [reflexivity|]. split; [lia|]. split; [lia|]. split; [right; reflexivity|]. intros _. split; [exact B|]. split.
    + intros j. rewrite (u_mod _ _ U). unfold off. pose proof (peak _ _ (s_uni _ _ _ _ H) r R3 R4 j). lra.
    + rewrite (u_mod _ _ U). assert (X : off (S r mod n + n - 1)%nat = off r).
      { rewrite <- (u_mod _ _ U (S r mod n + n - 1)), <- (u_mod _ _ U r). f_equal. replace (S r mod n + n - 1)%nat with (S r mod n + (n - 1))%nat by lia. rewrite Nat.add_mod_idemp_l by lia.
        replace (S r + (n - 1))%nat with (r + 1 * n)%nat by lia. apply Nat.mod_add. lia. }
      rewrite X. unfold off. lra.
Qed.
Lemma last_neg_loop_ok fuel first type last : (first < last)%nat -> (last - first <= S fuel)%nat -> off first <= 0 -> type = qsign (off first) -> 0 < off last ->
  exists x, last_neg_loop p h d fuel first type last = Ok (qsign (off x), x) /\ (first <= x)%nat /\ (x < last)%nat /\ off x <= 0 /\ 0 < off (S x).
Proof using H.
  revert first type last. induction fuel as [|fuel IH]; intros first type last L Fu Gf -> Gl; cbn [last_neg_loop].
  - replace (S first <? last)%nat with false by lia. exists first. replace last with (S first) in * by lia. repeat split; try lia; assumption.
  - destruct (S first <? last)%nat eqn:X.
    + destruct (half_inside first last ltac:(lia)) as [M1 M2]. set (mid := ((first + last) / 2)%nat) in *. rewrite cmp_mod. cbn [rbind].
      destruct (qsign (off mid) <=? 0)%Z eqn:C.
      * assert (off mid <= 0). { apply Qnot_lt_le. intros Y. apply qsign_pos in Y. lia. }
        destruct (IH mid (qsign (off mid)) last ltac:(lia) ltac:(lia) H0 eq_refl Gl) as (x & Ex & X1 & X2 & X3 & X4). exists x. repeat split; try assumption; lia.
      * assert (0 < off mid). { apply qsign_pos. pose proof (qsign_range (off mid)). lia. }
        destruct (IH first (qsign (off first)) mid ltac:(lia) ltac:(lia) Gf eq_refl H0) as (x & Ex & X1 & X2 & X3 & X4). exists x. repeat split; try assumption; lia.
    + exists first. replace last with (S first) in * by lia. repeat split; try lia; assumption.
Qed.
Lemma last_neg_side_ok dbg neg pos : (neg <= pos + n)%nat -> off neg < 0 -> 0 < off pos ->
  exists x, last_neg_side dbg p h d neg (-1) pos = Ok (qsign (off x), x) /\ (x < n)%nat /\ off x <= 0 /\ 0 < off (S x).
Proof using H.
  intros L Gn Gp. pose proof off_uni as U. pose proof (u_n _ _ U) as N. unfold last_neg_side.
  destruct (cycle_index_ok dbg n neg pos N L) as (l & El & L1 & L2 & L3). rewrite El. cbn [rbind].
  assert (check dbg (-1 <=? 0)%Z = Ok tt) as -> by (destruct dbg; reflexivity). cbn [rbind].
  assert (Gl : off l = off pos) by (rewrite <- (u_mod _ _ U l), <- (u_mod _ _ U pos), L3; reflexivity).
  assert (neg <> l) by (intros <-; rewrite Gl in Gn; lra).
  destruct (last_neg_loop_ok (S n) neg (-1) l ltac:(lia) ltac:(lia) ltac:(lra)) as (x & Ex & X1 & X2 & X3 & X4); [symmetry; apply qsign_neg; exact Gn|rewrite Gl; exact Gp|].
  rewrite Ex. cbn [rbind fst snd]. exists (x mod n)%nat. rewrite (u_mod _ _ U). split; [reflexivity|]. split; [apply Nat.mod_upper_bound; lia|]. split; [exact X3|].
  rewrite <- (u_mod _ _ U (S (x mod n))), (mod_S p (hn2 h) d F H), (u_mod _ _ U). exact X4.
Qed.
Lemma skip_on_plane_ok fuel i : (exists t, (i <= t)%nat /\ (t < i + fuel)%nat /\ ~ off t == 0) ->
  exists f, skip_on_plane p h d fuel i = Ok f /\ (i <= f)%nat /\ ~ off f == 0 /\ forall t, (i <= t)%nat -> (t < f)%nat -> off t == 0.
Proof using H.
  revert i. induction fuel as [|fuel IH]; intros i (t & T1 & T2 & T3); [lia|]. cbn [skip_on_plane]. rewrite cmp_mod. cbn [rbind].
  destruct (qsign (off i) =? 0)%Z eqn:E.
  - assert (Z : off i == 0) by (apply qsign_zero; lia). destruct (IH (S i)) as (f & Ef & F1 & F2 & F3).
    { exists t. repeat split; try lia; [|exact T3]. destruct (Nat.eq_dec t i) as [->|NEQ]; [contradiction|lia]. }
    exists f. repeat split; try assumption; [lia|]. intros u U1 U2. destruct (Nat.eq_dec u i) as [->|NEQ]; [exact Z|apply F3; lia].
  - exists i. split; [reflexivity|]. split; [lia|]. split; [|intros; lia]. intros X. apply qsign_zero in X. lia.
Qed.
End Bisect.
Lemma off_neg h F i : off (hs2_neg h) (fun i => - F i) i == - off h F i.
Proof. unfold off, hs2_neg. cbn [hd2]. rewrite inject_Z_opp. ring. Qed.
Lemma qsign_opp q : qsign (- q) = (- qsign q)%Z.
Proof. replace (- qsign q)%Z with (qsign (-1) * qsign q)%Z by (change (qsign (-1)) with (-1)%Z; lia). rewrite <- qsign_mult. apply qsign_comp. ring. Qed.
(** Only one side: the range of the vertices that are not on the plane. *)
Lemma one_side {A} dbg (p : poly A) h d F (K : nat -> Q) x z : sees p (hn2 h) d F -> uni (pcount p) K -> (forall i, K i == 0 <-> off h F i == 0) ->
  (z = 0%Z <-> K x == 0) -> (x < pcount p)%nat -> (forall j, K x <= K j) -> 0 <= K x -> K x < K (x + pcount p - 1)%nat ->
  exists f, (if (z =? 0)%Z then c <- vertex_cmp p h d x ;; _ <- check dbg (c =? 0)%Z ;; skip_on_plane p h d (S (pcount p)) (S x) else Ok x) = Ok f /\
    range_ok (pcount p) (f, x + pcount p)%nat /\ forall i, (i < pcount p)%nat -> 0 < K i <-> in_cyclic_range (pcount p) (f, x + pcount p)%nat i.
Proof.
  intros H U Kz Zx Lx Min Pos Prev. pose proof (u_n _ _ U) as N.
  assert (Rep : forall i, (i < pcount p)%nat -> exists i', (x <= i')%nat /\ (i' < x + pcount p)%nat /\ K i' = K i /\ (i' mod pcount p = i)%nat).
  { intros i Li. destruct (u_rep _ _ U x i) as (i' & I1 & I2 & I3 & I4). exists i'. repeat split; try assumption. rewrite I4. apply Nat.mod_small. exact Li. }
  destruct (z =? 0)%Z eqn:E.
  - assert (Kx : K x == 0) by (apply Zx; lia). assert (Ox : off h F x == 0) by (apply Kz; exact Kx).
    pose proof (cmp_mod p h d F H x) as Cm. rewrite Nat.mod_small in Cm by exact Lx. rewrite Cm. cbn [rbind]. apply qsign_zero in Ox. rewrite Ox.
    assert (check dbg (0 =? 0)%Z = Ok tt) as -> by (destruct dbg; reflexivity). cbn [rbind].
    destruct (skip_on_plane_ok p h d F H (S (pcount p)) (S x)) as (f & Ef & F1 & F2 & F3).
    { exists (x + pcount p - 1)%nat. assert (pcount p <> 1)%nat by (intros X; rewrite X in Prev; replace (x + 1 - 1)%nat with x in Prev by lia; lra). repeat split; try lia. rewrite <- Kz. lra. }
    assert (Lf : (f <= x + pcount p - 1)%nat).
    { destruct (Nat.lt_ge_cases (x + pcount p - 1) f) as [X|X]; [exfalso|exact X]. assert (pcount p <> 1)%nat by (intros Y; rewrite Y in Prev; replace (x + 1 - 1)%nat with x in Prev by lia; lra).
      assert (Y : K (x + pcount p - 1)%nat == 0) by (apply Kz; apply F3; lia). lra. }
    assert (Pf : 0 < K f). { specialize (Min f). destruct (proj1 (Qle_lteq _ _) Min) as [X|X]; [lra|]. exfalso. apply F2. apply Kz. lra. }
    exists f. split; [exact Ef|]. split; [split; cbn; lia|]. intros i Li. destruct (Rep i Li) as (i' & I1 & I2 & I3 & I4).
    rewrite (range_window (pcount p) x _ i i') by (cbn [fst snd]; lia). cbn [fst snd]. rewrite <- I3. split.
    + intros X. split; [|lia]. destruct (Nat.lt_ge_cases i' f) as [Y|Y]; [exfalso|exact Y]. destruct (Nat.eq_dec i' x) as [->|NEQ]; [lra|]. assert (Z : K i' == 0) by (apply Kz; apply F3; lia). lra.
    + intros [X Y]. apply (touch _ _ U x f); try assumption; try lia; try lra. { intros j. specialize (Min j). lra. }
      intros t T1 T2. destruct (Nat.eq_dec t x) as [->|NEQ]; [exact Kx|]. apply Kz. apply F3; lia.
  - exists x. split; [reflexivity|]. split; [split; cbn; lia|]. intros i Li. destruct (Rep i Li) as (i' & I1 & I2 & I3 & I4).
    rewrite (range_window (pcount p) x _ i i') by (cbn [fst snd]; lia). cbn [fst snd]. split; [lia|]. intros _. specialize (Min i).
    assert (0 < K x). { destruct (proj1 (Qle_lteq _ _) Pos) as [X|X]; [exact X|]. exfalso. assert (z = 0)%Z by (apply Zx; lra). lia. } lra.
Qed.
Lemma split_bisect_ok {A} dbg (p : poly A) h d F : sees p (hn2 h) d F -> comp (hn (pplane p)) d <> 0%Z -> v2_is_zero (hn2 h) = false -> (exists i j, F i < F j) ->
  exists r, split_bisect dbg p h d = Ok r /\ ranges_exact (pcount p) (off h F) r.
Proof.
  intros H Cd Vz NC. unfold split_bisect.
  assert (CK : forall b, b = true -> check dbg b = Ok tt) by (intros b ->; destruct dbg; reflexivity).
  rewrite (CK (negb _)) by lia. cbn [rbind]. rewrite Vz, CK by reflexivity. cbn [rbind].
  pose proof (off_uni p h d F H) as U. pose proof (uni_opp _ _ U) as UN. pose proof (u_n _ _ U) as N.
  destruct (opposite_edges_ok dbg p (hn2 h) d F H NC) as (a & b & Eo & La & Lb & Up & Dn). rewrite Eo. cbn [rbind fst snd].
  pose proof (sees_neg p (hn2 h) d F H) as H'. unfold neg_side_vertex.
  destruct (pos_side_vertex_ok p (hs2_neg h) d _ H' dbg b a Lb La) as (x & yx & lx & Ex & Ecx & Y1 & Y2 & Y3 & Y4); [lra|lra|]. rewrite Ex. cbn [rbind fst snd].
  rewrite (qsign_comp _ _ (off_neg h F x)), qsign_opp, Z.opp_involutive.
  assert (NE : forall i, (i < pcount p)%nat -> in_cyclic_range (pcount p) (0, 0)%nat i <-> False) by (intros; apply range_empty).
  destruct (0 <=? qsign (off h F x))%Z eqn:Sx.
  { assert (Px : 0 <= off h F x) by (apply Qnot_lt_le; intros X; apply qsign_neg in X; lia).
    destruct Y4 as (Lx & Min & Prev); [rewrite off_neg; lra|]. rewrite !off_neg in Prev.
    assert (Mn : forall j, off h F x <= off h F j) by (intros j; specialize (Min j); rewrite !off_neg in Min; lra).
    destruct (one_side dbg p h d F (off h F) x (qsign (off h F x)) H U (fun i => conj (fun q => q) (fun q => q))) as (f & Ef & R & I); [apply qsign_zero|exact Lx|exact Mn|exact Px|lra|].
    rewrite Ef. cbn [rbind]. eexists. split; [reflexivity|]. split; cbn [neg_range pos_range]; [split; cbn; lia|exact R| |exact I].
    intros i Li. rewrite NE by exact Li. specialize (Mn i). split; [intros; lra|contradiction]. }
  assert (Nx : off h F x < 0) by (apply qsign_neg; pose proof (qsign_range (off h F x)); lia).
  destruct (pos_side_vertex_ok p h d F H dbg a b La Lb Up Dn) as (y & yy & ly & Ey & Ecy & Z1 & Z2 & Z3 & Z4). rewrite Ey. cbn [rbind fst snd].
  destruct (qsign (off h F y) <=? 0)%Z eqn:Sy.
  { assert (Py : off h F y <= 0) by (apply Qnot_lt_le; intros X; apply qsign_pos in X; lia).
    destruct (Z4 Py) as (Ly & Max & Prev).
    destruct (one_side dbg p h d F (fun i => - off h F i) y (qsign (off h F y)) H UN) as (f & Ef & R & I); [intros; split; lra|rewrite qsign_zero; split; lra|exact Ly|intros j; specialize (Max j); lra|lra|lra|].
    rewrite Ef. cbn [rbind]. eexists. split; [reflexivity|]. split; cbn [neg_range pos_range]; [exact R|split; cbn; lia| |].
    - intros i Li. rewrite <- I by exact Li. split; lra.
    - intros i Li. rewrite NE by exact Li. specialize (Max i). split; [intros; lra|contradiction]. }
  assert (Py : 0 < off h F y) by (apply qsign_pos; pose proof (qsign_range (off h F y)); lia).
  (* bounds for the two cycle indices *)
  destruct (cycle_index_ok dbg (pcount p) b a N ltac:(lia)) as (lx' & E1 & W1 & W2 & W3). rewrite Ecx in E1. injection E1 as <-.
  destruct (cycle_index_ok dbg (pcount p) a b N ltac:(lia)) as (ly' & E1 & V1 & V2 & V3). rewrite Ecy in E1. injection E1 as <-.
  assert (AB : a <> b) by (intros ->; lra).
  assert (Bd : (x <= y + pcount p)%nat /\ (y <= x + pcount p)%nat).
  { rewrite (Nat.mod_small a) in W3 by lia. rewrite (Nat.mod_small b) in V3 by lia.
    assert (My : (yx mod pcount p < pcount p)%nat) by (apply Nat.mod_upper_bound; lia). assert (Mz : (yy mod pcount p < pcount p)%nat) by (apply Nat.mod_upper_bound; lia).
    destruct (Nat.lt_ge_cases a b) as [X|X].
    - assert (lx = a + pcount p)%nat by (apply (window_unique (pcount p) b); try lia; rewrite W3; replace (a + pcount p)%nat with (a + 1 * pcount p)%nat by lia; rewrite Nat.mod_add by lia; symmetry; apply Nat.mod_small; lia).
      assert (ly = b) by (apply (window_unique (pcount p) a); try lia; rewrite V3; symmetry; apply Nat.mod_small; lia).
      rewrite (Nat.mod_small yy) in Z3 by lia. lia.
    - assert (lx = a)%nat by (apply (window_unique (pcount p) b); try lia; rewrite W3; symmetry; apply Nat.mod_small; lia).
      assert (ly = b + pcount p)%nat by (apply (window_unique (pcount p) a); try lia; rewrite V3; replace (b + pcount p)%nat with (b + 1 * pcount p)%nat by lia; rewrite Nat.mod_add by lia; symmetry; apply Nat.mod_small; lia).
      rewrite (Nat.mod_small yx) in Y3 by lia. lia. }
  destruct (last_neg_side_ok p h d F H dbg x y (proj1 Bd) Nx Py) as (nb & En & N1 & N2 & N3). rewrite En. cbn [rbind fst snd].
  unfold last_pos_side. change (- (1))%Z with (-1)%Z.
  destruct (last_neg_side_ok p (hs2_neg h) d _ H' dbg y x (proj2 Bd)) as (pb & Ep & P1 & P2 & P3); [rewrite off_neg; lra|rewrite off_neg; lra|]. rewrite Ep. cbn [rbind fst snd].
  rewrite off_neg in P2, P3. rewrite (qsign_comp _ _ (off_neg h F pb)), qsign_opp, Z.opp_involutive.
  set (G := off h F) in *.
  destruct (cycle_index_ok dbg (pcount p) pb nb N ltac:(lia)) as (X & EX & X1 & X2 & X3). rewrite EX. cbn [rbind].
  destruct (cycle_index_ok dbg (pcount p) nb pb N ltac:(lia)) as (Y & EY & T1 & T2 & T3). rewrite EY. cbn [rbind].
  assert (GX : G X = G nb) by (rewrite <- (u_mod _ _ U X), X3; apply (u_mod _ _ U)).
  assert (GSX : G (S X) = G (S nb)) by (rewrite <- (u_mod _ _ U (S X)), <- (mod_S p (hn2 h) d F H X), X3, (mod_S p (hn2 h) d F H nb); apply (u_mod _ _ U)).
  assert (GY : G Y = G pb) by (rewrite <- (u_mod _ _ U Y), T3; apply (u_mod _ _ U)).
  assert (GSY : G (S Y) = G (S pb)) by (rewrite <- (u_mod _ _ U (S Y)), <- (mod_S p (hn2 h) d F H Y), T3, (mod_S p (hn2 h) d F H pb); apply (u_mod _ _ U)).
  assert (pb <> X) by (intros <-; rewrite GSX in P3; lra). assert (nb <> Y) by (intros <-; rewrite GSY in N3; lra).
  pose proof (arc _ _ U pb X ltac:(lia) ltac:(lia) ltac:(lra) ltac:(lra) ltac:(rewrite GX; lra) ltac:(rewrite GSX; lra)) as An.
  pose proof (arc _ _ UN nb Y ltac:(lia) ltac:(lia) ltac:(cbv beta; lra) ltac:(cbv beta; lra) ltac:(cbv beta; rewrite GY; lra) ltac:(cbv beta; rewrite GSY; lra)) as Ap.
  assert (Rep : forall w i, (i < pcount p)%nat -> exists i', (w <= i')%nat /\ (i' < w + pcount p)%nat /\ G i' = G i /\ (i' mod pcount p = i)%nat).
  { intros w i Li. destruct (u_rep _ _ U w i) as (i' & I1 & I2 & I3 & I4). exists i'. repeat split; try assumption. rewrite I4. apply Nat.mod_small. exact Li. }
  (* the arcs also bound the other side *)
  assert (XY : (Y = nb + (pb + pcount p - X) /\ X <= pb + pcount p)%nat).
  { split; [|lia]. apply (window_unique (pcount p) nb); try lia. rewrite T3. 
    assert (Q : ((nb + (pb + pcount p - X) + X) mod pcount p = (pb + X) mod pcount p)%nat).
    { replace (nb + (pb + pcount p - X) + X)%nat with (pb + nb + 1 * pcount p)%nat by lia. rewrite Nat.mod_add by lia. rewrite <- (Nat.add_mod_idemp_r pb X) by lia. rewrite X3. rewrite Nat.add_mod_idemp_r by lia. reflexivity. }
    pose proof (Nat.div_mod (nb + (pb + pcount p - X) + X) (pcount p) ltac:(lia)) as D1. pose proof (Nat.div_mod (pb + X) (pcount p) ltac:(lia)) as D2. rewrite Q in D1.
    set (q1 := ((nb + (pb + pcount p - X) + X) / pcount p)%nat) in *. set (q2 := ((pb + X) / pcount p)%nat) in *.
    assert (Z : (pb + q1 * pcount p = nb + (pb + pcount p - X) + q2 * pcount p)%nat) by lia.
    rewrite <- (Nat.mod_add pb q1) by lia. rewrite Z. apply Nat.mod_add. lia. }
  eexists. split; [reflexivity|]. split; cbn [neg_range pos_range].
  - split; cbn [fst snd]; destruct (qsign (G nb) =? 0)%Z; lia.
  - split; cbn [fst snd]; destruct (qsign (G pb) =? 0)%Z; lia.
  - intros i Li. destruct (Rep (S pb) i Li) as (i' & I1 & I2 & I3 & I4). rewrite (range_window (pcount p) (S pb) _ i i') by (cbn [fst snd]; try (destruct (qsign (G nb) =? 0)%Z); lia). cbn [fst snd]. rewrite <- I3.
    destruct (Nat.lt_ge_cases i' X) as [Q|Q]; [split; [destruct (qsign (G nb) =? 0)%Z; lia|intros _; apply An; lia]|].
    destruct (Nat.eq_dec i' X) as [->|NEQ].
    + rewrite GX. destruct (qsign (G nb) =? 0)%Z eqn:E; [assert (Z : G nb == 0) by (apply qsign_zero; lia); split; [intros; lra|lia]|].
      assert (~ G nb == 0) by (rewrite <- qsign_zero; lia). split; [lia|]. intros _. destruct (proj1 (Qle_lteq _ _) N2); [assumption|contradiction].
    + split; [|destruct (qsign (G nb) =? 0)%Z; lia]. intros Neg. exfalso.
      destruct (Nat.eq_dec i' (pb + pcount p)) as [->|NEQ']; [rewrite (u_period _ _ U) in Neg; lra|].
      specialize (Ap (nb + (i' - X))%nat ltac:(lia) ltac:(lia)).
      assert (Z : G (nb + (i' - X))%nat = G i').
      { rewrite <- (u_mod _ _ U (nb + (i' - X))), <- (u_mod _ _ U i'). f_equal. rewrite <- (Nat.add_mod_idemp_l nb) by lia. rewrite <- X3. rewrite Nat.add_mod_idemp_l by lia. f_equal. lia. }
      cbv beta in Ap. rewrite Z in Ap. lra.
  - intros i Li. destruct (Rep (S nb) i Li) as (i' & I1 & I2 & I3 & I4). rewrite (range_window (pcount p) (S nb) _ i i') by (cbn [fst snd]; try (destruct (qsign (G pb) =? 0)%Z); lia). cbn [fst snd]. rewrite <- I3.
    destruct (Nat.lt_ge_cases i' Y) as [Q|Q]; [split; [destruct (qsign (G pb) =? 0)%Z; lia|intros _; specialize (Ap i' ltac:(lia) Q); cbv beta in Ap; lra]|].
    destruct (Nat.eq_dec i' Y) as [->|NEQ].
    + rewrite GY. destruct (qsign (G pb) =? 0)%Z eqn:E; [assert (Z : G pb == 0) by (apply qsign_zero; lia); split; [intros; lra|lia]|].
      assert (~ G pb == 0) by (rewrite <- qsign_zero; lia). split; [lia|]. intros _. assert (Z : 0 <= G pb) by lra. destruct (proj1 (Qle_lteq _ _) Z); [assumption|exfalso; lra].
    + split; [|destruct (qsign (G pb) =? 0)%Z; lia]. intros Pos. exfalso.
      destruct (Nat.eq_dec i' (nb + pcount p)) as [->|NEQ']; [rewrite (u_period _ _ U) in Pos; lra|].
      specialize (An (pb + (i' - Y))%nat ltac:(lia) ltac:(lia)).
      assert (Z : G (pb + (i' - Y))%nat = G i').
      { rewrite <- (u_mod _ _ U (pb + (i' - Y))), <- (u_mod _ _ U i'). f_equal. rewrite <- (Nat.add_mod_idemp_l pb) by lia. rewrite <- T3. rewrite Nat.add_mod_idemp_l by lia. f_equal. lia. }
      rewrite Z in An. lra.
Qed.
