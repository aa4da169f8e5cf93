(** DiscountBorderPolygons, GetExtraPolygonCount and GetSplitPlane. *)
From Coq Require Import List ZArith QArith Arith Lia Lqa Bool Sorted.
From Verif Require Import BigUIntModel GeoModel GeoSpec GeoProofs AabbSpec AabbTrackerProofs EstModel EvtModel EvtSpec EvtTokProofs EvtProofs EvtArrProofs EvtCostProofs.
Import ListNotations.
Open Scope Z_scope.

Section Disc.
Context (dbg : bool) (d : nat) (ps : list epoly) (evs : list event) (F : list tok).
Notation n := (length ps).
Notation lo := (lo d ps). Notation hi := (hi d ps). Notation key := (key lo hi).
Context (AR : Forall2 (tok_of (nth_error evs)) evs F) (T : toks_ok n lo hi F) (FL : flags_ok d ps evs F).
Notation cnt := (cnt F).
Context (x : Q).
Definition at_x (k : nat) : Prop := exists t, nth_error F k = Some t /\ (key t == x)%Q.
Lemma evs_some k t : nth_error F k = Some t -> exists e, nth_error evs k = Some e /\ ev_start e = fst t.
Proof. intros E. destruct (F2_nth_r AR k t E) as (e & E1 & [E2 _]). exists e. auto. Qed.
Lemma cnt_at f k t : nth_error F k = Some t -> cnt f (S k) = cnt f k + if f t then 1 else 0.
Proof. apply cnt_S. Qed.
Lemma cnt_pos f k : 0 <= cnt f k.
Proof. apply (cnt_mono F f 0 k). lia. Qed.
Lemma down_ok k : forall neg border, at_x k -> cnt fs k <= neg < 2 ^ 64 -> 0 <= border -> border + cnt fs k < 2 ^ 64 ->
  exists b, (b <= k)%nat /\ walk_down dbg evs k neg border = Ok (b, neg - (cnt fs k - cnt fs b), border + (cnt fs k - cnt fs b)) /\ at_x b /\
    (forall j t, (j < b)%nat -> nth_error F j = Some t -> (key t < x)%Q) /\ forall j, (b <= j <= k)%nat -> at_x j.
Proof.
  induction k as [|k IH]; intros neg border (t & Et & Kt) N B NB.
  - destruct (evs_some 0 t Et) as (e & Ee & _). cbn [walk_down]. rewrite Ee. assert (NW : ev_new e = true) by (apply (FL 0%nat e Ee); left; reflexivity). rewrite NW.
    exists 0%nat. split; [lia|]. cbn [EvtCostProofs.cnt]. split; [f_equal; f_equal; [f_equal|]; lia|]. split; [exists t; auto|]. split; [intros j u J; lia|]. intros j J. assert (j = 0)%nat by lia. subst j. exists t. auto.
  - destruct (evs_some (S k) t Et) as (e & Ee & _). cbn [walk_down]. rewrite Ee.
    assert (PK : exists u, nth_error F k = Some u) by (destruct (nth_error F k) as [u|] eqn:E; [exists u; reflexivity|apply nth_error_None in E; pose proof (nth_lt _ _ _ Et); lia]). destruct PK as (u & Eu).
    pose proof (proj1 (SS_nth (t_sorted _ _ _ _ T) k (S k) u t ltac:(lia) Eu Et)) as LE. destruct (ev_new e) eqn:NW.
    + exists (S k). split; [lia|]. split; [f_equal; f_equal; [f_equal|]; lia|]. split; [exists t; auto|]. split.
      * apply (FL (S k) e Ee) in NW as [X|(j & t' & u' & X & A & C & D)]; [discriminate X|]. injection X as <-. rewrite Eu in A. injection A as <-. rewrite Et in C. injection C as <-. rewrite Kt in D.
        intros j v J Ev. destruct (Nat.eq_dec j k) as [->|NE]; [rewrite Eu in Ev; injection Ev as <-; exact D|]. apply (Qle_lt_trans _ (key u)); [|exact D]. exact (proj1 (SS_nth (t_sorted _ _ _ _ T) j k v u ltac:(lia) Ev Eu)).
      * intros j J. assert (j = S k) by lia. subst j. exists t. auto.
    + change (0 <? S k)%nat with true. rewrite check_true. cbn [rbind]. destruct (evs_some k u Eu) as (f & Ef & Fu). rewrite Ef.
      assert (Ku : (key u == x)%Q).
      { rewrite <- Kt. apply Qle_lteq in LE as [LE|LE]; [|exact LE]. exfalso. assert (ev_new e = true); [|congruence]. apply (FL (S k) e Ee). right. exists k, u, t. auto. }
      assert (Cu : cnt fs (S k) = cnt fs k + if fst u then 1 else 0) by apply (cnt_at fs k u Eu). rewrite Fu. pose proof (cnt_pos fs k). destruct (fst u).
      * rewrite !size_small by lia. destruct (IH (neg - 1) (border + 1)) as (b & B1 & -> & B3 & B4 & B5); [exists u; auto|lia|lia|lia|]. exists b. split; [lia|]. split; [f_equal; f_equal; [f_equal|]; lia|]. split; [exact B3|]. split; [exact B4|].
        intros j J. destruct (Nat.eq_dec j (S k)) as [->|NE]; [exists t; auto|apply B5; lia].
      * destruct (IH neg border) as (b & B1 & -> & B3 & B4 & B5); [exists u; auto|lia|lia|lia|]. exists b. split; [lia|]. split; [f_equal; f_equal; [f_equal|]; lia|]. split; [exact B3|]. split; [exact B4|].
        intros j J. destruct (Nat.eq_dec j (S k)) as [->|NE]; [exists t; auto|apply B5; lia].
Qed.
Lemma len_F : length F = (2 * n)%nat.
Proof. exact (toks_length _ _ _ _ T). Qed.
Lemma fe_le k : cnt fe k <= Z.of_nat n.
Proof.
  destruct (Nat.leb_spec k (2 * n)) as [L|L].
  - rewrite <- (cnt_end_all d ps F T). apply cnt_mono. exact L.
  - replace (cnt fe k) with (cnt fe (2 * n)); [rewrite (cnt_end_all d ps F T); lia|]. clear - L T. pose proof (toks_length _ _ _ _ T) as LF. induction L as [|k L IH]; cbn [EvtCostProofs.cnt].
    + destruct (nth_error F (2 * n)) eqn:E; [apply nth_lt in E; lia|lia].
    + destruct (nth_error F k) eqn:E; [apply nth_lt in E; lia|lia].
Qed.
Lemma up_ok fuel : forall k, (0 < k <= 2 * n)%nat -> at_x (k - 1) -> (2 * n - k <= fuel)%nat -> Z.of_nat n < 2 ^ 64 ->
  exists l, (k <= l <= 2 * n)%nat /\ walk_up fuel evs n k (Z.of_nat n - cnt fe k) = Ok (l, Z.of_nat n - cnt fe l) /\
    (forall j, (k <= j < l)%nat -> at_x j) /\ forall j t, (l <= j)%nat -> nth_error F j = Some t -> (x < key t)%Q.
Proof.
  induction fuel as [|fuel IH]; intros k K (u & Eu & Ku) L N.
  - assert (k = 2 * n)%nat by lia. exists k. unfold walk_up. rewrite (proj2 (Nat.leb_le (2 * n) k) ltac:(lia)). split; [lia|]. split; [reflexivity|]. split; [intros; lia|]. intros j t J E. apply nth_lt in E. rewrite len_F in E. lia.
  - cbn [walk_up]. destruct (Nat.leb_spec (2 * n) k) as [G|G].
    + exists k. split; [lia|]. split; [reflexivity|]. split; [intros; lia|]. intros j t J E. apply nth_lt in E. rewrite len_F in E. lia.
    + assert (PK : exists t, nth_error F k = Some t) by (destruct (nth_error F k) as [t|] eqn:E; [exists t; reflexivity|apply nth_error_None in E; rewrite len_F in E; lia]). destruct PK as (t & Et).
      destruct (evs_some k t Et) as (e & Ee & Se). rewrite Ee. pose proof (proj1 (SS_nth (t_sorted _ _ _ _ T) (k - 1) k u t ltac:(lia) Eu Et)) as LE. destruct (ev_new e) eqn:NW.
      * exists k. split; [lia|]. split; [reflexivity|]. split; [intros; lia|]. apply (FL k e Ee) in NW as [X|(j & t' & u' & X & A & C & D)]; [lia|]. replace j with (k - 1)%nat in A by lia. rewrite Eu in A. injection A as <-. rewrite Et in C. injection C as <-.
        rewrite Ku in D. intros j' v J Ev. destruct (Nat.eq_dec j' k) as [->|NE]; [rewrite Et in Ev; injection Ev as <-; exact D|]. apply (Qlt_le_trans _ (key t)); [exact D|]. exact (proj1 (SS_nth (t_sorted _ _ _ _ T) k j' t v ltac:(lia) Et Ev)).
      * assert (Kt : (key t == x)%Q).
        { rewrite <- Ku. apply Qle_lteq in LE as [LE|LE]; [|symmetry; exact LE]. exfalso. assert (ev_new e = true); [|congruence]. apply (FL k e Ee). right. exists (k - 1)%nat, u, t. split; [lia|auto]. }
        assert (Cu : cnt fe (S k) = cnt fe k + if negb (fst t) then 1 else 0) by apply (cnt_at fe k t Et). pose proof (fe_le (S k)) as LEE. pose proof (cnt_pos fe k).
        replace (if ev_start e then Z.of_nat n - cnt fe k else size_mod (Z.of_nat n - cnt fe k - 1)) with (Z.of_nat n - cnt fe (S k)).
        2: { rewrite Se. destruct (fst t); cbn [negb] in Cu; [lia|]. rewrite size_small by lia. lia. }
        destruct (IH (S k)) as (l & L1 & -> & L3 & L4); [lia|replace (S k - 1)%nat with k by lia; exists t; auto|lia|exact N|]. exists l. split; [lia|]. split; [reflexivity|]. split; [|exact L4].
        intros j J. destruct (Nat.eq_dec j k) as [->|NE]; [exists t; auto|apply L3; lia].
Qed.
(** Start events of flat polygons. *)
Definition ff (t : tok) : bool := fst t && Qeq_bool (lo (snd t)) (hi (snd t)).
Lemma border_ok last : (last <= 2 * n)%nat -> (forall j t, nth_error F j = Some t -> (key t == x)%Q -> (j < last)%nat) -> (forall j, (j < last)%nat -> forall t, nth_error F j = Some t -> (key t <= x)%Q) ->
  forall m k border, (k + m <= last)%nat -> (forall j, (k <= j < last)%nat -> at_x j) -> 0 <= border -> border + (cnt ff (k + m) - cnt ff k) < 2 ^ 64 ->
  count_border evs last (seq k m) border = Ok (border + (cnt ff (k + m) - cnt ff k)).
Proof.
  intros L2 LX LY. induction m as [|m IH]; intros k border KM AT B BB; cbn [seq count_border]; [rewrite Nat.add_0_r; f_equal; lia|].
  destruct (AT k ltac:(lia)) as (t & Et & Kt). destruct (F2_nth_r AR k t Et) as (e & Ee & [E1 E2]). rewrite Ee. replace (k + S m)%nat with (S k + m)%nat in * by lia.
  pose proof (cnt_at ff k t Et) as Ck. assert (Q : (ev_start e && (ev_index e <? last)%nat)%bool = ff t).
  { unfold ff. destruct t as [[|] i]; cbn [fst snd] in *; rewrite <- E1 in *; [|reflexivity]. cbn [andb]. destruct E2 as (f & F1 & F2 & F3).
    destruct (F2_nth_l AR _ f F1) as ([y j] & Y & [Y1 Y2]). cbn [fst snd] in *. rewrite F2 in *. subst y. rewrite <- Y2, F3 in Y. destruct (t_order _ _ _ _ T i k _ Et Y) as [O1 O2]. unfold EvtTokProofs.key in Kt. cbn [fst snd] in Kt.
    destruct (Qeq_bool (lo i) (hi i)) eqn:Z.
    - apply Qeq_bool_iff in Z. apply Nat.ltb_lt. apply (LX _ _ Y). unfold EvtTokProofs.key. cbn [fst snd]. rewrite <- Z. exact Kt.
    - apply Nat.ltb_nlt. intros L. assert (X : (lo i == hi i)%Q); [|apply Qeq_bool_iff in X; congruence]. apply Qle_antisym.
      + exact (proj1 (SS_nth (t_sorted _ _ _ _ T) _ _ _ _ O1 Et Y)).
      + rewrite Kt. exact (LY _ L _ Y). }
  rewrite Q. pose proof (cnt_mono F ff (S k) (S k + m) ltac:(lia)) as MN. destruct (ff t).
  - rewrite size_small by lia. rewrite IH; [f_equal; lia|lia|intros j J; apply AT; lia|lia|lia].
  - rewrite IH; [f_equal; lia|lia|intros j J; apply AT; lia|lia|lia].
Qed.
Lemma flat_starts b m : (b <= m)%nat -> (forall j, (b <= j <= m)%nat -> at_x j) -> (exists i, nth_error F m = Some (false, i)) -> cnt fs m - cnt fs b = cnt ff m - cnt ff b.
Proof.
  intros L AT (i & Em). assert (G : forall k, (b <= k <= m)%nat -> cnt fs k - cnt fs b = cnt ff k - cnt ff b); [|apply G; lia].
  induction k as [|k IH]; intros K; [replace b with 0%nat by lia; lia|]. destruct (Nat.eq_dec b (S k)) as [->|NE]; [lia|]. destruct (AT k ltac:(lia)) as (t & Et & Kt).
  rewrite !(cnt_at _ k t Et). specialize (IH ltac:(lia)). replace (ff t) with (fs t); [lia|]. unfold ff, fs. destruct t as [[|] j]; cbn [fst snd andb]; [|reflexivity]. symmetry. apply Qeq_bool_iff.
  destruct (AT m ltac:(lia)) as (u & Eu & Ku). rewrite Em in Eu. injection Eu as <-. pose proof (SS_nth (t_sorted _ _ _ _ T) k m _ _ ltac:(lia) Et Em) as [_ R].
  assert (LE : (lo j <= hi j)%Q).
  { destruct (partner d ps F T _ (nth_error_In _ _ Et)) as (s & e & E1 & E2). cbn [snd] in *. exact (proj1 (SS_nth (t_sorted _ _ _ _ T) _ _ _ _ (proj1 (t_order _ _ _ _ T j s e E1 E2)) E1 E2)). }
  apply Qle_lteq in LE as [LE|LE]; [|exact LE]. exfalso. destruct R as [R _]; [split; [reflexivity|exact LE]|rewrite Kt, Ku; reflexivity|]. discriminate R.
Qed.
Context (m : nat) (xi : nat) (EM : nth_error F m = Some (false, xi)) (KM : (hi xi == x)%Q) (SM : Z.of_nat n < 2 ^ 57).
Lemma start_counts b : (forall j t, (j < b)%nat -> nth_error F j = Some t -> (key t < x)%Q) -> (forall j t, (b <= j)%nat -> nth_error F j = Some t -> (x <= key t)%Q) ->
  counts n (fun i => (lo i < x)%Q) (cnt fs b).
Proof.
  intros B1 B2. pose proof (cnt_counts d ps F T fs true 0 b ltac:(auto) ltac:(lia)) as C. cbn [EvtCostProofs.cnt] in C. rewrite Z.sub_0_r in C. revert C. apply counts_ext. intros i Hi. split.
  - intros (j & J & X & _). exact (B1 j _ (proj2 J) X).
  - intros L. assert (I : In (true, i) F) by (apply (t_all _ _ _ _ T); exact Hi). apply In_nth_error in I as (j & J). exists j. split; [|auto]. split; [lia|].
    destruct (Nat.ltb_spec j b) as [H|H]; [exact H|]. exfalso. pose proof (B2 j _ H J) as G. unfold EvtTokProofs.key in G. cbn [fst snd] in G. lra.
Qed.
Lemma end_counts l : (l <= 2 * n)%nat -> (forall j t, (l <= j)%nat -> nth_error F j = Some t -> (x < key t)%Q) -> (forall j t, (j < l)%nat -> nth_error F j = Some t -> (key t <= x)%Q) ->
  counts n (fun i => (x < hi i)%Q) (Z.of_nat n - cnt fe l).
Proof.
  intros L B1 B2. rewrite <- (cnt_end_all d ps F T). pose proof (cnt_counts d ps F T fe false l (2 * n)) as C. apply (counts_ext n (fun i => exists j, (l <= j < 2 * n)%nat /\ nth_error F j = Some (false, i) /\ fe (false, i) = true)).
  - intros i Hi. split.
    + intros (j & J & X & _). exact (B1 j _ (proj1 J) X).
    + intros G. assert (I : In (false, i) F) by (apply (t_all _ _ _ _ T); exact Hi). apply In_nth_error in I as (j & J). pose proof (nth_lt F _ _ J) as X. rewrite len_F in X. exists j. split; [|auto]. split; [|lia].
      destruct (Nat.leb_spec l j) as [H|H]; [exact H|]. exfalso. pose proof (B2 j _ H J) as Z. unfold EvtTokProofs.key in Z. cbn [fst snd] in Z. lra.
  - apply C; [|exact L]. intros t X. apply negb_true_iff in X. exact X.
Qed.
Lemma flat_counts b l : (b <= l)%nat -> (forall j, (b <= j < l)%nat -> at_x j) -> (forall j, at_x j -> (b <= j < l)%nat) ->
  counts n (fun i => (lo i == x /\ hi i == x)%Q) (cnt ff l - cnt ff b).
Proof.
  intros BL A1 A2. pose proof (cnt_counts d ps F T ff true b l) as C. apply (counts_ext n (fun i => exists j, (b <= j < l)%nat /\ nth_error F j = Some (true, i) /\ ff (true, i) = true)).
  - intros i Hi. split.
    + intros (j & J & X & Y). destruct (A1 j J) as (t & Et & Kt). rewrite X in Et. injection Et as <-. unfold EvtTokProofs.key in Kt. cbn [fst snd] in Kt. unfold ff in Y. cbn [fst snd andb] in Y. apply Qeq_bool_iff in Y. split; [exact Kt|rewrite <- Y; exact Kt].
    + intros [G1 G2]. assert (I : In (true, i) F) by (apply (t_all _ _ _ _ T); exact Hi). apply In_nth_error in I as (j & J). exists j. split; [apply A2; exists (true, i); split; [exact J|exact G1]|]. split; [exact J|]. unfold ff. cbn [fst snd andb]. apply Qeq_bool_iff. rewrite G1, G2. reflexivity.
  - apply C; [|exact BL]. intros t X. apply andb_true_iff in X as [X _]. exact X.
Qed.
Lemma discount_ok p : p_index p = m -> p_neg p = cnt fs (S m) -> p_pos p = Z.of_nat n - cnt fe (S m) -> p_border p = 0 ->
  exists b l, discount dbg n evs p = Ok (Part m (p_cost p) (p_neg_cost p) (p_pos_cost p) (cnt fs b) (Z.of_nat n - cnt fe l) (cnt ff l - cnt ff b) b l) /\
    (b <= m < l)%nat /\ (l <= 2 * n)%nat /\ (forall k, at_x k <-> (b <= k < l)%nat) /\
    counts n (fun i => (lo i < x)%Q) (cnt fs b) /\ counts n (fun i => (x < hi i)%Q) (Z.of_nat n - cnt fe l) /\ counts n (fun i => (lo i == x /\ hi i == x)%Q) (cnt ff l - cnt ff b).
Proof.
  intros P1 P2 P3 P4. pose proof (nth_lt _ _ _ EM) as LM. rewrite len_F in LM. assert (AM : at_x m) by (exists (false, xi); split; [exact EM|exact KM]).
  pose proof (cnt_at fs m _ EM) as CM. change (fs (false, xi)) with false in CM. cbv iota in CM. pose proof (cnt_pos fs m) as CP.
  assert (CN : cnt fs (S m) - cnt fs 0 <= Z.of_nat n) by (apply (counts_le n _ _ _ _ (cnt_counts d ps F T fs true 0 (S m) ltac:(auto) ltac:(lia)) (counts_all n)); trivial).
  change (cnt fs 0) with 0 in CN.
  unfold discount. rewrite P1, P2, P3, P4. destruct (down_ok m (cnt fs (S m)) 0 AM ltac:(lia) ltac:(lia) ltac:(lia)) as (b & B1 & -> & B3 & B4 & B5). cbn [rbind].
  destruct (up_ok (2 * n) (S m)) as (l & L1 & -> & L3 & L4); [lia|replace (S m - 1)%nat with m by lia; exact AM|lia|lia|]. cbn [rbind].
  assert (IN : forall j, (b <= j < l)%nat -> at_x j) by (intros j J; destruct (Nat.leb_spec j m) as [H|H]; [apply B5; lia|apply L3; lia]).
  assert (OUT : forall j, at_x j -> (b <= j < l)%nat).
  { intros j (t & Et & Kt). split.
    - destruct (Nat.leb_spec b j) as [H|H]; [exact H|]. exfalso. pose proof (B4 j t H Et) as G. rewrite Kt in G. exact (Qlt_irrefl _ G).
    - destruct (Nat.ltb_spec j l) as [H|H]; [exact H|]. exfalso. pose proof (L4 j t H Et) as G. rewrite Kt in G. exact (Qlt_irrefl _ G). }
  assert (LOW : forall j t, (j < l)%nat -> nth_error F j = Some t -> (key t <= x)%Q).
  { intros j t J E. destruct (Nat.ltb_spec j b) as [H|H]; [apply Qlt_le_weak; exact (B4 j t H E)|]. destruct (IN j ltac:(lia)) as (u & Eu & Ku). rewrite E in Eu. injection Eu as <-. rewrite Ku. apply Qle_refl. }
  assert (HIGH : forall j t, (b <= j)%nat -> nth_error F j = Some t -> (x <= key t)%Q).
  { intros j t J E. destruct (Nat.leb_spec l j) as [H|H]; [apply Qlt_le_weak; exact (L4 j t H E)|]. destruct (IN j ltac:(lia)) as (u & Eu & Ku). rewrite E in Eu. injection Eu as <-. rewrite Ku. apply Qle_refl. }
  pose proof (flat_counts b l ltac:(lia) IN OUT) as CF. assert (CFN : cnt ff l - cnt ff b <= Z.of_nat n) by (apply (counts_le n _ _ _ _ CF (counts_all n)); trivial).
  pose proof (flat_starts b m ltac:(lia) B5 ltac:(exists xi; exact EM)) as FS. pose proof (cnt_mono F ff b m ltac:(lia)). pose proof (cnt_mono F ff m l ltac:(lia)).
  rewrite (border_ok l ltac:(lia) (fun j t E K => proj2 (OUT j (ex_intro _ t (conj E K)))) (fun j J t => LOW j t J) (l - m) m).
  - replace (m + (l - m))%nat with l by lia. cbn [rbind]. exists b, l. split; [f_equal; f_equal; lia|]. split; [lia|]. split; [lia|]. split; [intros k; split; [apply OUT|apply IN]|].
    split; [exact (start_counts b B4 HIGH)|]. split; [exact (end_counts l ltac:(lia) L4 LOW)|exact CF].
  - lia.
  - intros j J. apply IN. lia.
  - lia.
  - replace (m + (l - m))%nat with l by lia. lia.
Qed.
Lemma extra_counts a b c : (forall i, (i < n)%nat -> (lo i <= hi i)%Q) -> counts n (fun i => (lo i < x)%Q) a -> counts n (fun i => (x < hi i)%Q) b -> counts n (fun i => (lo i == x /\ hi i == x)%Q) c ->
  counts n (fun i => (lo i < x /\ x < hi i)%Q) (a + b + c - Z.of_nat n).
Proof.
  intros W A B C.
  assert (D : exists z, counts n (fun i => (lo i < x /\ x < hi i)%Q) z).
  { exists (Z.of_nat (length (filter (fun i => negb (Qle_bool x (lo i)) && negb (Qle_bool (hi i) x)) (seq 0 n)))). eexists. split; [apply NoDup_filter, seq_NoDup|]. split; [|reflexivity]. intros i. rewrite filter_In, in_seq, andb_true_iff, !negb_true_iff.
    assert (G : forall p q, Qle_bool p q = false <-> (q < p)%Q) by (intros p q; rewrite <- not_true_iff_false, Qle_bool_iff; split; [apply Qnot_le_lt|apply Qlt_not_le]). rewrite !G. intuition lia. }
  destruct D as (z & D). replace (a + b + c - Z.of_nat n) with z; [exact D|].
  assert (E : exists y, counts n (fun i => (lo i < x /\ hi i <= x)%Q) y).
  { exists (Z.of_nat (length (filter (fun i => negb (Qle_bool x (lo i)) && (Qle_bool (hi i) x)) (seq 0 n)))). eexists. split; [apply NoDup_filter, seq_NoDup|]. split; [|reflexivity]. intros i. rewrite filter_In, in_seq, andb_true_iff, !negb_true_iff, Qle_bool_iff.
    assert (G : forall p q, Qle_bool p q = false <-> (q < p)%Q) by (intros p q; rewrite <- not_true_iff_false, Qle_bool_iff; split; [apply Qnot_le_lt|apply Qlt_not_le]). rewrite !G. intuition lia. }
  destruct E as (y & E).
  assert (X1 : a = y + z).
  { apply (counts_unique n (fun i => (lo i < x)%Q)); [exact A|]. eapply counts_ext; [|apply (counts_or n _ _ _ _ E D)].
    - intros i Hi. cbn beta. split; [tauto|]. intros L. destruct (Qlt_le_dec x (hi i)); tauto.
    - intros i Hi [_ L1] [_ L2]. lra. }
  assert (EB : forall i, (i < n)%nat -> (lo i < x /\ hi i <= x)%Q -> (x < hi i)%Q -> False) by (intros i Hi [_ L1] L2; lra).
  assert (X2 : Z.of_nat n = y + b + c).
  { apply (counts_unique n (fun _ => True)); [apply counts_all|]. eapply counts_ext; [|apply (counts_or n _ _ _ _ (counts_or n _ _ _ _ E B EB) C)].
    - intros i Hi. cbn beta. split; [trivial|]. intros _. specialize (W i Hi). destruct (Qlt_le_dec x (hi i)) as [L|L]; [tauto|]. destruct (Qlt_le_dec (lo i) x) as [L'|L']; [tauto|]. right. split; lra.
    - intros i Hi [[L _]|L] [L1 L2]; lra.
  }
  lia.
Qed.
End Disc.
