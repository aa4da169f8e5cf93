(** FindSplitRangesLinear finds the two sides. *)
From Coq Require Import List ZArith QArith Lqa Lia Arith ZifyBool.
From Verif Require Import BigUIntModel GeoModel GeoSpec GeoProofs CvxProofs CvxSeqProofs PolyModel PolySpec PolyBridgeProofs PolySearchProofs.
Import ListNotations.
Open Scope Q_scope.
Lemma range_plain n x y i : (y <= n)%nat -> (i < n)%nat -> in_cyclic_range n (x, y) i <-> (x <= i /\ i < y)%nat.
Proof.
  intros Y I. unfold in_cyclic_range. cbn [fst snd]. split.
  - intros (j & J1 & J2 & J3). rewrite Nat.mod_small in J3 by lia. lia.
  - intros [A B]. exists i. repeat split; try lia. apply Nat.mod_small. exact I.
Qed.
Lemma range_wrap n x y i : (x <= n)%nat -> (y <= x)%nat -> (i < n)%nat -> in_cyclic_range n (x, y + n)%nat i <-> (x <= i \/ i < y)%nat.
Proof.
  intros X Y I. unfold in_cyclic_range. cbn [fst snd]. split.
  - intros (j & J1 & J2 & J3). destruct (Nat.lt_ge_cases j n) as [L|L]; [rewrite Nat.mod_small in J3 by lia; lia|].
    replace j with ((j - n) + 1 * n)%nat in J3 by lia. rewrite Nat.mod_add in J3 by lia. rewrite Nat.mod_small in J3 by lia. lia.
  - intros [A|B]; [exists i; repeat split; try lia; apply Nat.mod_small; exact I|]. exists (i + n)%nat. repeat split; try lia. 
    replace (i + n)%nat with (i + 1 * n)%nat by lia. rewrite Nat.mod_add by lia. apply Nat.mod_small. exact I.
Qed.
Lemma range_empty n i : in_cyclic_range n (0, 0)%nat i <-> False.
Proof. unfold in_cyclic_range. cbn [fst snd]. split; [intros (j & ? & ? & _); lia|contradiction]. Qed.
Section Linear.
Context {A : Type} (p : poly A) (h : hspace2) (d : nat) (G : nat -> Q).
Context (U : uni (pcount p) G) (Hc : forall i, (i < pcount p)%nat -> vertex_cmp p h d i = Ok (qsign (G i))).
Notation n := (pcount p).
Lemma lin_find_ok stop (Sp : nat -> Prop) k i : (forall i, (i < n)%nat -> stop (qsign (G i)) = true <-> Sp i) -> (i + k = n)%nat ->
  exists j c, lin_find p h d stop k i = Ok (j, c) /\ (i <= j)%nat /\ (j <= n)%nat /\ (forall t, (i <= t)%nat -> (t < j)%nat -> ~ Sp t) /\
    ((j < n)%nat -> Sp j /\ c = qsign (G j)).
Proof using Hc.
  intros S. revert i. induction k as [|k IH]; intros i E; cbn [lin_find].
  - exists i, 0%Z. split; [reflexivity|]. repeat split; lia.
  - rewrite Hc by lia. cbn [rbind]. pose proof (S i ltac:(lia)) as Si. destruct (stop (qsign (G i))) eqn:X.
    + exists i, (qsign (G i)). split; [reflexivity|]. split; [lia|]. split; [lia|]. split; [intros; lia|]. intros _. split; [apply Si; reflexivity|reflexivity].
    + destruct (IH (Datatypes.S i) ltac:(lia)) as (j & c & Ej & J1 & J2 & J3 & J4). exists j, c. split; [exact Ej|]. split; [lia|]. split; [lia|]. split; [|exact J4].
      intros t T1 T2. destruct (Nat.eq_dec t i) as [->|NEQ]; [intros Y; apply Si in Y; discriminate|apply J3; lia].
Qed.
(** The sequence seen from the side of the first vertex off the plane. *)
Definition from_side (init : Z) (i : nat) : Q := if (init <? 0)%Z then - G i else G i.
Lemma from_side_uni init : uni n (from_side init).
Proof using U. unfold from_side. destruct (init <? 0)%Z; [apply uni_opp; exact U|exact U]. Qed.
Lemma not_on_iff i : not_on (qsign (G i)) = true <-> ~ G i == 0.
Proof using. unfold not_on. rewrite <- qsign_zero. lia. Qed.
Lemma is_on_iff i : (qsign (G i) =? 0)%Z = true <-> G i == 0.
Proof using. rewrite <- qsign_zero. lia. Qed.
Lemma lxor_unit init i : (init = 1 \/ init = -1)%Z -> (Z.lxor init (qsign (G i)) <? 0)%Z = (if (init <? 0)%Z then negb (qsign (G i) <? 0)%Z else (qsign (G i) <? 0)%Z).
Proof using. intros I. rewrite lxor_neg. destruct I as [-> | ->]; cbn [Z.ltb Z.compare xorb]; [destruct (qsign (G i) <? 0)%Z; reflexivity|destruct (qsign (G i) <? 0)%Z; reflexivity]. Qed.
Lemma side_sign init i : (init = 1 \/ init = -1)%Z -> qsign (from_side init i) = (init * qsign (G i))%Z.
Proof using.
  intros I. unfold from_side. destruct I as [-> | ->]; cbn [Z.ltb Z.compare]; [lia|]. change (-1)%Z with (qsign (-1)). rewrite <- qsign_mult. apply qsign_comp. ring.
Qed.
Lemma leaves_iff init i : (init = 1 \/ init = -1)%Z -> leaves init (qsign (G i)) = true <-> from_side init i <= 0.
Proof using.
  intros I. unfold leaves. rewrite lxor_unit by exact I. pose proof (side_sign init i I) as S. pose proof (qsign_range (G i)) as R.
  destruct (qsign_range (from_side init i)) as [X|[X|X]]; rewrite X in S; [apply qsign_neg in X|apply qsign_zero in X|apply qsign_pos in X]; destruct I as [-> | ->]; cbn [Z.ltb Z.compare]; (split; [intros; first [lra|exfalso; lia]|intros; first [exfalso; lra|lia]]).
Qed.
Lemma back_iff init i : (init = 1 \/ init = -1)%Z -> comes_back init (qsign (G i)) = true <-> 0 <= from_side init i.
Proof using.
  intros I. unfold comes_back. rewrite (Z.leb_antisym 0), <- (lxor_neg init (qsign (G i))) || idtac. replace (0 <=? Z.lxor init (qsign (G i)))%Z with (negb (Z.lxor init (qsign (G i)) <? 0)%Z) by lia. rewrite lxor_unit by exact I.
  pose proof (side_sign init i I) as S. pose proof (qsign_range (G i)) as R.
  destruct (qsign_range (from_side init i)) as [X|[X|X]]; rewrite X in S; [apply qsign_neg in X|apply qsign_zero in X|apply qsign_pos in X]; destruct I as [-> | ->]; cbn [Z.ltb Z.compare]; (split; [intros; first [lra|exfalso; lia]|intros; first [exfalso; lra|lia]]).
Qed.
Lemma same_sign_iff init i : (init = 1 \/ init = -1)%Z -> ~ G i == 0 -> (0 <=? Z.lxor init (qsign (G i)))%Z = true <-> 0 < from_side init i.
Proof using.
  intros I NZ. replace (0 <=? Z.lxor init (qsign (G i)))%Z with (negb (Z.lxor init (qsign (G i)) <? 0)%Z) by lia. rewrite lxor_unit by exact I.
  pose proof (side_sign init i I) as S. pose proof (qsign_range (G i)) as R. rewrite <- qsign_zero in NZ.
  destruct (qsign_range (from_side init i)) as [X|[X|X]]; rewrite X in S; [apply qsign_neg in X|apply qsign_zero in X|apply qsign_pos in X]; destruct I as [-> | ->]; cbn [Z.ltb Z.compare]; (split; [intros; first [lra|exfalso; lia]|intros; first [exfalso; lra|lia]]).
Qed.
Lemma side_zero init i : from_side init i == 0 <-> G i == 0.
Proof using. unfold from_side. destruct (init <? 0)%Z; split; lra. Qed.
Lemma by_exact init first second : (init = 1 \/ init = -1)%Z -> range_ok n first -> range_ok n second ->
  (forall i, (i < n)%nat -> 0 < from_side init i <-> in_cyclic_range n first i) -> (forall i, (i < n)%nat -> from_side init i < 0 <-> in_cyclic_range n second i) ->
  ranges_exact n G (ranges_by init first second).
Proof using.
  intros I R1 R2 F1 F2. unfold ranges_by, from_side in *. destruct I as [-> | ->]; cbn [Z.ltb Z.compare] in *; (split; cbn [neg_range pos_range]; [assumption|assumption| |]); intros i L.
  - apply F2. exact L.
  - apply F1. exact L.
  - rewrite <- F1 by exact L. split; lra.
  - rewrite <- F2 by exact L. split; lra.
Qed.
Lemma skip_zero b z : (b < n)%nat -> z = qsign (G b) ->
  exists c cz, (if (z =? 0)%Z then lin_find p h d not_on (n - S b) (S b) else Ok (b, z)) = Ok (c, cz) /\ (b <= c)%nat /\ (c <= n)%nat /\
    (forall t, (b <= t)%nat -> (t < c)%nat -> G t == 0) /\ ((c < n)%nat -> ~ G c == 0 /\ cz = qsign (G c)).
Proof using Hc.
  intros L ->. destruct (qsign (G b) =? 0)%Z eqn:E.
  - apply is_on_iff in E. destruct (lin_find_ok not_on (fun i => ~ G i == 0) (n - S b) (S b) (fun i _ => not_on_iff i) ltac:(lia)) as (c & cz & Ec & C1 & C2 & C3 & C4).
    exists c, cz. split; [exact Ec|]. split; [lia|]. split; [lia|]. split; [|exact C4].
    intros t T1 T2. destruct (Nat.eq_dec t b) as [->|NEQ]; [exact E|]. destruct (Qeq_dec (G t) 0) as [X|X]; [exact X|]. exfalso. exact (C3 t ltac:(lia) T2 X).
  - exists b, (qsign (G b)). split; [reflexivity|]. split; [lia|]. split; [lia|]. split; [intros; lia|]. intros _. split; [|reflexivity]. rewrite <- is_on_iff, E. discriminate.
Qed.
Ltac sides init := repeat match goal with X : ~ from_side init _ <= 0 |- _ => apply Qnot_le_lt in X end.
Lemma split_linear_ok dbg : comp (hn (pplane p)) d <> 0%Z -> v2_is_zero (hn2 h) = false -> (exists i, ~ G i == 0) ->
  exists r, split_linear dbg p h d = Ok r /\ ranges_exact n G r.
Proof using U Hc.
  intros Cd Vz (w & Hw). pose proof (u_n _ _ U) as N. unfold split_linear.
  assert (CK : forall b, b = true -> check dbg b = Ok tt) by (intros b ->; destruct dbg; reflexivity).
  rewrite (CK (negb _)) by lia. cbn [rbind]. rewrite Vz, CK by reflexivity. cbn [rbind]. rewrite CK by lia. cbn [rbind]. rewrite Hc by exact N. cbn [rbind].
  assert (NE : forall i, (i < n)%nat -> in_cyclic_range n (0, 0)%nat i <-> False) by (intros; apply range_empty).
  destruct (qsign (G 0%nat) =? 0)%Z eqn:E0.
  - apply is_on_iff in E0.
    destruct (lin_find_ok not_on (fun i => ~ G i == 0) (n - 1) 1 (fun i _ => not_on_iff i) ltac:(lia)) as (a & az & Ea & A1 & A2 & A3 & A4). rewrite Ea. cbn [rbind fst snd].
    assert (La : (a < n)%nat).
    { destruct (Nat.lt_ge_cases a n) as [X|X]; [exact X|exfalso]. rewrite <- (u_mod _ _ U) in Hw. pose proof (Nat.mod_upper_bound w n ltac:(lia)).
      destruct (Nat.eq_dec (w mod n) 0) as [Y|Y]; [rewrite Y in Hw; exact (Hw E0)|exact (A3 (w mod n)%nat ltac:(lia) ltac:(lia) Hw)]. }
    replace (n <=? a)%nat with false by lia. destruct (A4 La) as (Ga & ->).
    assert (I : (qsign (G a) = 1 \/ qsign (G a) = -1)%Z) by (rewrite <- qsign_zero in Ga; pose proof (qsign_range (G a)); lia).
    set (init := qsign (G a)) in *. set (K := from_side init). pose proof (from_side_uni init) as UK. fold K in UK. pose proof (uni_opp _ _ UK) as UN.
    assert (Kz : forall i, K i == 0 <-> G i == 0) by (intros; apply side_zero).
    assert (K0 : K 0%nat == 0) by (apply Kz; exact E0). assert (Kn : K n == 0) by (change (K n) with (K (0 + n)%nat); rewrite (u_period _ _ UK 0); exact K0).
    assert (Ka : 0 < K a). { apply qsign_pos. unfold K. rewrite side_sign by exact I. fold init. destruct I as [-> | ->]; reflexivity. }
    assert (Kpre : forall t, (t < a)%nat -> K t == 0).
    { intros t T. apply Kz. destruct (Nat.eq_dec t 0) as [->|NEQ]; [exact E0|]. destruct (Qeq_dec (G t) 0) as [X|X]; [exact X|]. exfalso. exact (A3 t ltac:(lia) T X). }
    destruct (lin_find_ok (leaves init) (fun i => K i <= 0) (n - S a) (S a) (fun i _ => leaves_iff init i I) ltac:(lia)) as (b & bz & Eb & B1 & B2 & B3 & B4). rewrite Eb. cbn [rbind fst snd].
    assert (Kab : forall t, (a <= t)%nat -> (t < b)%nat -> 0 < K t). { intros t T1 T2. destruct (Nat.eq_dec t a) as [->|NEQ]; [exact Ka|]. apply Qnot_le_lt. apply B3; lia. }
    destruct (Nat.eqb_spec b n) as [Eq|Nb].
    + eexists. split; [reflexivity|]. apply by_exact; [exact I|split; cbn; lia|split; cbn; lia| |]; intros i Li; fold K.
      * rewrite range_plain by lia. split; [intros X; destruct (Nat.lt_ge_cases i a) as [Y|Y]; [specialize (Kpre i Y); lra|lia]|intros [X Y]; apply Kab; lia].
      * rewrite NE by exact Li. split; [|contradiction]. intros X. destruct (Nat.lt_ge_cases i a) as [Y|Y]; [specialize (Kpre i Y)|specialize (Kab i Y ltac:(lia))]; lra.
    + destruct (B4 ltac:(lia)) as (Kb & ->). destruct (skip_zero b _ ltac:(lia) eq_refl) as (c & cz & Ec & C1 & C2 & C3 & C4). rewrite Ec. cbn [rbind fst snd].
      assert (Kbc : forall t, (b <= t)%nat -> (t < c)%nat -> K t == 0) by (intros t T1 T2; apply Kz; apply C3; assumption).
      destruct (Nat.eqb_spec c n) as [Eq|Nc].
      * eexists. split; [reflexivity|]. apply by_exact; [exact I|split; cbn; lia|split; cbn; lia| |]; intros i Li; fold K.
        -- rewrite range_plain by lia. split; [|intros [X Y]; apply Kab; lia]. intros X. destruct (Nat.lt_ge_cases i a) as [Y|Y]; [specialize (Kpre i Y); lra|]. destruct (Nat.lt_ge_cases i b) as [Z|Z]; [lia|specialize (Kbc i Z ltac:(lia)); lra].
        -- rewrite NE by exact Li. split; [|contradiction]. intros X. destruct (Nat.lt_ge_cases i a) as [Y|Y]; [specialize (Kpre i Y); lra|]. destruct (Nat.lt_ge_cases i b) as [Z|Z]; [specialize (Kab i Y Z); lra|specialize (Kbc i Z ltac:(lia)); lra].
      * destruct (C4 ltac:(lia)) as (Gc & ->). clear C4.
        assert (Kc : K c < 0).
        { destruct (Qlt_le_dec (K c) 0) as [X|X]; [exact X|exfalso]. assert (Pc : 0 < K c) by (destruct (proj1 (Qle_lteq _ _) X) as [Y|Y]; [exact Y|exfalso; apply Gc, Kz; lra]).
          assert (b <> c) by (intros ->; lra). apply (u_alt _ _ UK 0 a b c n); try lia; try lra. }
        destruct (lin_find_ok (fun x => (x =? 0)%Z) (fun i => G i == 0) (n - S c) (S c) (fun i _ => is_on_iff i) ltac:(lia)) as (e & ez & Ee & E1 & E2 & E3 & E4). rewrite Ee. cbn [rbind fst snd].
        assert (No : forall t, (c < t)%nat -> (t < n)%nat -> K t <= 0). { intros t T1 T2. destruct (Qlt_le_dec 0 (K t)) as [X|X]; [exfalso|exact X]. apply (u_alt _ _ UK 0 a c t n); try lia; lra. }
        assert (Kce : forall t, (c <= t)%nat -> (t < e)%nat -> K t < 0).
        { intros t T1 T2. destruct (Nat.eq_dec t c) as [->|NEQ]; [exact Kc|]. specialize (No t ltac:(lia) ltac:(lia)). destruct (proj1 (Qle_lteq _ _) No) as [Y|Y]; [exact Y|]. exfalso. apply (E3 t ltac:(lia) T2). apply Kz. exact Y. }
        assert (Ken : forall t, (e <= t)%nat -> (t < n)%nat -> K t == 0).
        { intros t T1 T2. destruct (E4 ltac:(lia)) as (Ge & _). apply Kz in Ge. destruct (Nat.eq_dec t e) as [->|NEQ]; [exact Ge|]. specialize (No t ltac:(lia) T2).
          destruct (proj1 (Qle_lteq _ _) No) as [Y|Y]; [exfalso|exact Y]. apply (u_alt _ _ UN 0 c e t (a + n)%nat); try lia; try lra. rewrite (u_period _ _ UK). lra. }
        assert (Q : forall i, (i < n)%nat -> ((i < a)%nat /\ K i == 0) \/ (a <= i /\ i < b)%nat /\ 0 < K i \/ (b <= i /\ i < c)%nat /\ K i == 0 \/ (c <= i /\ i < e)%nat /\ K i < 0 \/ (e <= i)%nat /\ K i == 0).
        { intros i Li. destruct (Nat.lt_ge_cases i a) as [X1|X1]; [left; split; [lia|apply Kpre; lia]|right]. destruct (Nat.lt_ge_cases i b) as [X2|X2]; [left; split; [lia|apply Kab; lia]|right].
          destruct (Nat.lt_ge_cases i c) as [X3|X3]; [left; split; [lia|apply Kbc; lia]|right]. destruct (Nat.lt_ge_cases i e) as [X4|X4]; [left; split; [lia|apply Kce; lia]|right]. split; [lia|apply Ken; lia]. }
        eexists. split; [reflexivity|]. apply by_exact; [exact I|split; cbn; lia|split; cbn; lia| |]; intros i Li; fold K; specialize (Q i Li); rewrite range_plain by lia;
          destruct Q as [[X Y]|[[X Y]|[[X Y]|[[X Y]|[X Y]]]]]; (split; intros; first [lia|lra]).
  - assert (G0 : ~ G 0%nat == 0) by (rewrite <- is_on_iff, E0; discriminate).
    assert (I : (qsign (G 0%nat) = 1 \/ qsign (G 0%nat) = -1)%Z) by (rewrite <- qsign_zero in G0; pose proof (qsign_range (G 0%nat)); lia).
    set (init := qsign (G 0%nat)) in *. set (K := from_side init). pose proof (from_side_uni init) as UK. fold K in UK. pose proof (uni_opp _ _ UK) as UN.
    assert (Kz : forall i, K i == 0 <-> G i == 0) by (intros; apply side_zero).
    assert (K0 : 0 < K 0%nat). { apply qsign_pos. unfold K. rewrite side_sign by exact I. fold init. destruct I as [-> | ->]; reflexivity. }
    assert (Kn : 0 < K n) by (change (K n) with (K (0 + n)%nat); rewrite (u_period _ _ UK 0); exact K0).
    destruct (lin_find_ok (leaves init) (fun i => K i <= 0) (n - 1) 1 (fun i _ => leaves_iff init i I) ltac:(lia)) as (b & bz & Eb & B1 & B2 & B3 & B4). rewrite Eb. cbn [rbind fst snd].
    assert (Kab : forall t, (t < b)%nat -> 0 < K t). { intros t T2. destruct (Nat.eq_dec t 0) as [->|NEQ]; [exact K0|]. apply Qnot_le_lt. apply B3; lia. }
    destruct (Nat.eqb_spec b n) as [Eq|Nb].
    + eexists. split; [reflexivity|]. apply by_exact; [exact I|split; cbn; lia|split; cbn; lia| |]; intros i Li; fold K; specialize (Kab i ltac:(lia)).
      * rewrite range_plain by lia. split; [lia|intros; lra].
      * rewrite NE by exact Li. split; [intros; lra|contradiction].
    + destruct (B4 ltac:(lia)) as (Kb & ->). destruct (skip_zero b _ ltac:(lia) eq_refl) as (c & cz & Ec & C1 & C2 & C3 & C4). rewrite Ec. cbn [rbind fst snd].
      assert (Kbc : forall t, (b <= t)%nat -> (t < c)%nat -> K t == 0) by (intros t T1 T2; apply Kz; apply C3; assumption).
      destruct (Nat.eqb_spec c n) as [Eq|Nc].
      { eexists. split; [reflexivity|]. apply by_exact; [exact I|split; cbn; lia|split; cbn; lia| |]; intros i Li; fold K;
        (assert (Q : (i < b)%nat /\ 0 < K i \/ (b <= i)%nat /\ K i == 0) by (destruct (Nat.lt_ge_cases i b); [left; split; [assumption|apply Kab; assumption]|right; split; [assumption|apply Kbc; lia]])).
        - rewrite range_plain by lia. destruct Q as [[X Y]|[X Y]]; (split; intros; first [lia|lra]).
        - rewrite NE by exact Li. destruct Q as [[X Y]|[X Y]]; (split; intros; first [lra|contradiction]). }
      destruct (C4 ltac:(lia)) as (Gc & ->). clear C4. pose proof (same_sign_iff init c I Gc) as Sc. fold K in Sc. destruct (0 <=? Z.lxor init (qsign (G c)))%Z eqn:Lx.
      * pose proof (proj1 Sc eq_refl) as Kc. assert (b <> c) by (intros ->; lra).
        assert (Kcn : forall t, (c <= t)%nat -> (t < n)%nat -> 0 < K t). { intros t T1 T2. destruct (Qlt_le_dec 0 (K t)) as [X|X]; [exact X|exfalso]. assert (t <> c) by (intros ->; lra). apply (u_alt _ _ UK 0 0 b c t); try lia; lra. }
        set (rr := ranges_by init (c, b + n)%nat (0, 0)%nat).
        assert (V : ranges_valid rr n = true).
        { unfold rr, ranges_by. destruct (init <? 0)%Z; unfold ranges_valid, emit_neg, emit_pos; cbn [neg_range pos_range fst snd]; replace (c =? b + n)%nat with false by lia; replace (c <=? b + n)%nat with true by lia; replace (b + n <=? c + n)%nat with true by lia; reflexivity. }
        rewrite V, CK by reflexivity. cbn [rbind]. exists rr. split; [reflexivity|]. apply by_exact; [exact I|split; cbn; lia|split; cbn; lia| |]; intros i Li; fold K;
        (assert (Q : (i < b)%nat /\ 0 < K i \/ (b <= i /\ i < c)%nat /\ K i == 0 \/ (c <= i)%nat /\ 0 < K i) by
          (destruct (Nat.lt_ge_cases i b); [left; split; [assumption|apply Kab; assumption]|right]; destruct (Nat.lt_ge_cases i c); [left; split; [lia|apply Kbc; assumption]|right; split; [assumption|apply Kcn; lia]])).
        -- rewrite range_wrap by lia. destruct Q as [[X Y]|[[X Y]|[X Y]]]; (split; intros; first [lia|lra]).
        -- rewrite NE by exact Li. destruct Q as [[X Y]|[[X Y]|[X Y]]]; (split; intros; first [lra|contradiction]).
      * assert (Kc : K c < 0).
        { destruct (Qlt_le_dec (K c) 0) as [X|X]; [exact X|exfalso]. destruct (proj1 (Qle_lteq _ _) X) as [Y|Y]; [apply Sc in Y; discriminate|apply Gc, Kz; lra]. }
        destruct (lin_find_ok (comes_back init) (fun i => 0 <= K i) (n - S c) (S c) (fun i _ => back_iff init i I) ltac:(lia)) as (e & ez & Ee & E1 & E2 & E3 & E4). rewrite Ee. cbn [rbind fst snd].
        assert (Kce : forall t, (c <= t)%nat -> (t < e)%nat -> K t < 0). { intros t T1 T2. destruct (Nat.eq_dec t c) as [->|NEQ]; [exact Kc|]. apply Qnot_le_lt. apply E3; lia. }
        assert (Q : forall i, (i < e)%nat -> (i < b)%nat /\ 0 < K i \/ (b <= i /\ i < c)%nat /\ K i == 0 \/ (c <= i)%nat /\ K i < 0).
        { intros i Li. destruct (Nat.lt_ge_cases i b); [left; split; [assumption|apply Kab; assumption]|right]; destruct (Nat.lt_ge_cases i c); [left; split; [lia|apply Kbc; assumption]|right; split; [assumption|apply Kce; lia]]. }
        destruct (Nat.eqb_spec e n) as [Eq|Ne].
        { eexists. split; [reflexivity|]. apply by_exact; [exact I|split; cbn; lia|split; cbn; lia| |]; intros i Li; fold K; specialize (Q i ltac:(lia)); rewrite range_plain by lia; destruct Q as [[X Y]|[[X Y]|[X Y]]]; (split; intros; first [lia|lra]). }
        destruct (E4 ltac:(lia)) as (Ke & ->). destruct (skip_zero e _ ltac:(lia) eq_refl) as (g & gz & Eg & G1 & G2 & G3 & G4). rewrite Eg. cbn [rbind fst snd].
        assert (Keg : forall t, (e <= t)%nat -> (t < g)%nat -> K t == 0) by (intros t T1 T2; apply Kz; apply G3; assumption).
        destruct (Nat.eqb_spec g n) as [Eq|Ng].
        { eexists. split; [reflexivity|]. apply by_exact; [exact I|split; cbn; lia|split; cbn; lia| |]; intros i Li; fold K; rewrite range_plain by lia; (destruct (Nat.lt_ge_cases i e) as [Z|Z]; [destruct (Q i Z) as [[X Y]|[[X Y]|[X Y]]]|specialize (Keg i Z ltac:(lia))]; (split; intros; first [lia|lra])). }
        destruct (G4 ltac:(lia)) as (Gg & ->).
        assert (Kg : 0 < K g).
        { destruct (Qlt_le_dec 0 (K g)) as [X|X]; [exact X|exfalso]. destruct (proj1 (Qle_lteq _ _) X) as [Y|Y]; [|apply Gg, Kz; lra]. assert (e <> g) by (intros ->; lra). apply (u_alt _ _ UN 0 c e g n); try lia; lra. }
        rewrite (proj2 (same_sign_iff init g I Gg) Kg), CK by reflexivity. cbn [rbind].
        assert (Kgn : forall t, (g <= t)%nat -> (t < n)%nat -> 0 < K t). { intros t T1 T2. destruct (Qlt_le_dec 0 (K t)) as [X|X]; [exact X|exfalso]. assert (t <> g) by (intros ->; lra). apply (u_alt _ _ UK 0 0 c g t); try lia; lra. }
        eexists. split; [reflexivity|]. apply by_exact; [exact I|split; cbn; lia|split; cbn; lia| |]; intros i Li; fold K; [rewrite range_wrap by lia|rewrite range_plain by lia]; 
          (destruct (Nat.lt_ge_cases i e) as [Z|Z]; [destruct (Q i Z) as [[X Y]|[[X Y]|[X Y]]]|destruct (Nat.lt_ge_cases i g) as [Z'|Z']; [specialize (Keg i Z Z')|specialize (Kgn i Z' Li)]]; (split; intros; first [lia|lra])).
Qed.
End Linear.
