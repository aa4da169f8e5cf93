(** ApplyPrimary: the invariant of neg_event_points. *)
From Coq Require Import List ZArith QArith Arith Lia Lqa Bool Sorted.
From Verif Require Import BigUIntModel GeoModel GeoSpec EvtModel EvtSpec EvtTokProofs EvtProofs EvtArrProofs PrimModel PrimProofs PrimTokProofs PrimInvProofs.
Import ListNotations.
Open Scope Q_scope.

Section Inv.
Context (n : nat) (lo hi : nat -> Q) (x : Q) (F : list tok) (T : toks_ok n lo hi F).
Notation key := (key lo hi). Notation inN := (inN lo x). Notation inP := (inP hi x). Notation kN := (kN lo hi x).
Notation BO := (BO lo hi x). Notation NO := (NO lo hi x).
Notation NN := (length (BO F ++ NO F)).

Lemma len2 : (NN * 2 = length (filter kN F) + length (BO F))%nat.
Proof.
  assert (H : toks_ok NN (fun c => lo (nth c (BO F ++ NO F) 0%nat)) (fun c => hiN hi x (nth c (BO F ++ NO F) 0%nat)) (map (rename (BO F ++ NO F)) (NFin lo hi x F))).
  { apply (rename_ok _ _ _ _ _ _ (child_N n lo hi x F T)). intros c q Q. rewrite (nth_error_nth _ _ 0%nat Q). split; reflexivity. }
  apply toks_length in H. rewrite map_length in H. unfold NFin in H. rewrite (app_length (filter kN F)), rev_length, map_length in H. lia.
Qed.
Definition refN (L : list tok) (t : tok) (r : nat) : Prop :=
  if fst t then
    if inP (snd t) then exists c, nth_error (BO F) c = Some (snd t) /\ r = (NN * 2 - c - 1)%nat
    else (In (false, snd t) L -> nth_error (filter kN L) r = Some (false, snd t)) /\ (~ In (false, snd t) L -> nth_error (BO F ++ NO F) r = Some (snd t))
  else nth_error (BO F ++ NO F) r = Some (snd t).
Record negI (L : list tok) (tb : Prop) (neg : list (option wev)) : Prop := NegI {
  g_len : length neg = (NN * 2)%nat;
  g_neg : forall k t, nth_error (filter kN L) k = Some t -> exists f r, nth_error neg k = Some (Some (WE f (fst t) (Idx r))) /\ flag key (filter kN L) k f /\ refN L t r;
  g_tail : forall c, (c < length (BO L))%nat -> exists f, nth_error neg (NN * 2 - c - 1) = Some (Some (WE f false (Idx c))) /\
    (f = true <-> tb /\ S c = length (BO F) /\ forall t, In t (filter kN F) -> key t < x) }.
Lemma refN_mono L t u r : kN t = true -> (fst t = true -> inP (snd t) = false -> u <> (false, snd t)) -> refN L t r -> refN (L ++ [u]) t r.
Proof.
  intros _ N. unfold refN. destruct (fst t); [|auto]. specialize (N eq_refl). destruct (inP (snd t)); [auto|]. specialize (N eq_refl). intros [A B]. split.
  - intros I. apply in_app_or in I. destruct I as [I|[I|[]]]; [|contradiction]. rewrite filter_app. apply nth_prefix, A, I.
  - intros I. apply B. intros J. apply I, in_or_app. left. exact J.
Qed.
Lemma kN_of L k t : nth_error (filter kN L) k = Some t -> kN t = true.
Proof. intros E. apply nth_error_In, filter_In in E. tauto. Qed.
Lemma BO_app L R : BO (L ++ R) = BO L ++ BO R.
Proof. unfold PrimTokProofs.BO. rewrite starts_app, filter_app. reflexivity. Qed.
Lemma NO_app L R : NO (L ++ R) = NO L ++ NO R.
Proof. unfold PrimTokProofs.NO. rewrite starts_app, filter_app. reflexivity. Qed.
Lemma neg_skip (L : list tok) t (R : list tok) tb neg : F = L ++ t :: R -> kN t = false -> negI L tb neg -> negI (L ++ [t]) tb neg.
Proof.
  intros E K [G1 G2 G3]. split; [exact G1| |].
  - intros k u. rewrite flt_no by exact K. intros X. destruct (G2 k u X) as (f & r & A & B & C). exists f, r. split; [exact A|]. split; [exact B|]. apply refN_mono; [exact (kN_of _ _ _ X)| |exact C]. intros F1 P1 Y. apply kN_of in X. unfold PrimTokProofs.kN in X, K. destruct t as [s q], u as [s' q']. cbn [fst snd] in *. injection Y as -> ->. rewrite P1 in K. destruct (inN q'); cbn in *; congruence.
  - rewrite BO_app. replace (BO [t]) with (@nil nat); [rewrite app_nil_r; exact G3|]. unfold PrimTokProofs.BO, starts. cbn [filter]. destruct t as [[|] q]; cbn [fst]; [|reflexivity]. cbn [map snd filter]. unfold PrimTokProofs.kN in K. cbn [fst snd orb] in K. rewrite andb_true_r in K. unfold PrimTokProofs.both. rewrite K. reflexivity.
Qed.
Lemma room (L : list tok) t (R : list tok) : F = L ++ t :: R -> kN t = true -> (length (filter kN L) < length (filter kN F))%nat.
Proof. intros E K. rewrite E, filter_app, app_length. cbn [filter]. rewrite K. cbn [length]. lia. Qed.
Lemma BO_le (L R : list tok) : F = L ++ R -> (length (BO L) <= length (BO F))%nat.
Proof. intros ->. rewrite BO_app, app_length. lia. Qed.
Lemma neg_flag (L R : list tok) tb neg : F = L ++ R -> (forall t, In t L -> key t < x) -> (forall t, In t R -> x <= key t) -> length (BO L) = length (BO F) -> ~ tb -> negI L tb neg ->
  exists neg', (if (length (filter kN L) + length (BO L) =? NN * 2) && (0 <? length (BO L)) then
      rbind (get neg (NN * 2 - length (BO L))) (fun o => rbind (got o) (fun w => put neg (NN * 2 - length (BO L)) (Some (WE true (w_start w) (w_ref w))))) else Ok neg) = Ok neg' /\ negI L True neg'.
Proof.
  intros E A B C TB [G1 G2 G3]. pose proof len2 as L2. pose proof (BO_le L R E) as BL. assert (ALL : (forall t, In t (filter kN F) -> key t < x) <-> (length (filter kN L) + length (BO L) = NN * 2)%nat).
  { rewrite L2. rewrite C. assert (LK : length (filter kN F) = (length (filter kN L) + length (filter kN R))%nat) by (rewrite E, filter_app, app_length; reflexivity). rewrite LK. split.
    - intros H. destruct (filter kN R) as [|t l] eqn:FR; [cbn [length]; lia|]. exfalso. assert (I : In t (filter kN R)) by (rewrite FR; left; reflexivity). assert (J : In t (filter kN F)) by (rewrite E, filter_app; apply in_or_app; right; exact I). specialize (H t J). apply filter_In in I. destruct I as [I _]. specialize (B t I). lra.
    - intros H t I. assert (FR : filter kN R = []) by (apply length_zero_iff_nil; lia). rewrite E, filter_app, FR, app_nil_r in I. apply filter_In in I. apply A, I. }
  destruct (Nat.eqb_spec (length (filter kN L) + length (BO L)) (NN * 2)) as [Q|Q]; [destruct (Nat.ltb_spec 0 (length (BO L))) as [Z|Z]|]; cbn [andb].
  - destruct (G3 (length (BO L) - 1)%nat ltac:(lia)) as (f & U1 & U2). replace (NN * 2 - (length (BO L) - 1) - 1)%nat with (NN * 2 - length (BO L))%nat in U1 by lia. rewrite (get_ok _ _ _ U1). cbn [rbind got w_start w_ref]. pose proof (lt_of_nth _ _ _ U1) as LT. rewrite put_ok by exact LT. eexists. split; [reflexivity|]. split.
    + rewrite upd_length by exact LT. exact G1.
    + intros k t X. pose proof (lt_of_nth _ _ _ X). rewrite upd_nth by exact LT. destruct (Nat.eqb_spec k (NN * 2 - length (BO L))); [lia|]. exact (G2 k t X).
    + intros c Hc. rewrite upd_nth by exact LT. destruct (Nat.eqb_spec (NN * 2 - c - 1) (NN * 2 - length (BO L))) as [Y|Y].
      * exists true. replace c with (length (BO L) - 1)%nat by lia. split; [reflexivity|]. split; [intros _|auto]. split; [exact I|]. split; [lia|]. apply ALL. exact Q.
      * destruct (G3 c Hc) as (g & V1 & V2). exists g. split; [exact V1|]. rewrite V2. split; [intros [X _]; contradiction|]. intros (_ & X & _). exfalso. apply Y. lia.
  - exists neg. split; [reflexivity|]. split; [exact G1|exact G2|]. intros c Hc. lia.
  - exists neg. split; [reflexivity|]. split; [exact G1|exact G2|]. intros c Hc. destruct (G3 c Hc) as (g & V1 & V2). exists g. split; [exact V1|]. rewrite V2. split; [intros [X _]; contradiction|]. intros (_ & _ & X). apply ALL in X. contradiction.
Qed.
Lemma neg_none (L : list tok) (tb tb' : Prop) neg : (tb <-> tb') -> negI L tb neg -> negI L tb' neg.
Proof. intros H [G1 G2 G3]. split; [exact G1|exact G2|]. intros c Hc. destruct (G3 c Hc) as (g & V1 & V2). exists g. split; [exact V1|]. rewrite V2, H. reflexivity. Qed.
Lemma child_B (L : list tok) q (R : list tok) : F = L ++ (true, q) :: R -> both lo hi x q = true -> nth_error (BO F) (length (BO L)) = Some q.
Proof. intros E B. rewrite E, BO_app. unfold PrimTokProofs.BO at 2, starts. cbn [filter fst map snd]. rewrite B. apply nth_end. Qed.
Lemma BO_start (L : list tok) q : both lo hi x q = true -> BO (L ++ [(true, q)]) = BO L ++ [q].
Proof. intros B. rewrite BO_app. f_equal. unfold PrimTokProofs.BO, starts. cbn [filter fst map snd]. rewrite B. reflexivity. Qed.
Lemma last_of (f : tok -> bool) L t k u : nth_error (filter f L ++ [t]) k = Some u -> k <> length (filter f L) -> nth_error (filter f L) k = Some u.
Proof. intros Z N. destruct (Nat.lt_ge_cases k (length (filter f L))); [rewrite nth_error_app1 in Z by assumption; exact Z|]. pose proof (lt_of_nth _ _ _ Z) as Q. rewrite len1 in Q. lia. Qed.
Lemma neg_both (L : list tok) q (R : list tok) (tb : Prop) neg f : F = L ++ (true, q) :: R -> both lo hi x q = true -> ~ tb -> negI L tb neg -> (f = true <-> forall w, In w (filter kN L) -> key w < key (true, q)) ->
  exists neg1, put neg (NN * 2 - length (BO L) - 1) (Some (WE false false (Idx (length (BO L))))) = Ok neg1 /\ (length (filter kN L) < NN * 2 - length (BO F))%nat /\
  exists neg2, put neg1 (length (filter kN L)) (Some (WE f true (Idx (NN * 2 - length (BO L) - 1)))) = Ok neg2 /\ negI (L ++ [(true, q)]) tb neg2.
Proof.
  intros E B TB [G1 G2 G3] FL. pose proof len2 as L2. pose proof B as B'. apply andb_true_iff in B'. assert (K : kN (true, q) = true) by (unfold PrimTokProofs.kN; cbn [fst snd orb]; rewrite (proj1 B'); reflexivity). pose proof (room L _ R E K) as RM. pose proof (child_B L q R E B) as CB. pose proof (lt_of_nth _ _ _ CB) as CL.
  rewrite put_ok by lia. eexists. split; [reflexivity|]. split; [lia|]. set (neg1 := upd neg _ _). assert (L1 : length neg1 = (NN * 2)%nat) by (unfold neg1; rewrite upd_length; lia). rewrite put_ok by lia. eexists. split; [reflexivity|]. split.
  - rewrite upd_length by lia. exact L1.
  - intros k t. rewrite (flt_yes kN L _ K). intros Z. rewrite upd_nth by lia. destruct (Nat.eqb_spec k (length (filter kN L))) as [->|N].
    + rewrite nth_end in Z. injection Z as <-. exists f, (NN * 2 - length (BO L) - 1)%nat. split; [reflexivity|]. split; [apply flag_new; [exact (sorted_N n lo hi x F T L _ E)|exact FL]|]. unfold refN. cbn [fst snd]. rewrite (proj2 B'). exists (length (BO L)). auto.
    + apply last_of in Z; [|exact N]. pose proof (lt_of_nth _ _ _ Z) as Lk. destruct (G2 k t Z) as (g & r & D1 & D2 & D3). exists g, r. unfold neg1. rewrite upd_nth by lia. destruct (Nat.eqb_spec k (NN * 2 - length (BO L) - 1)); [lia|]. split; [exact D1|]. split; [apply flag_prefix; assumption|]. apply refN_mono; [exact (kN_of _ _ _ Z)| |exact D3]. intros _ _ Q. discriminate.
  - intros c. rewrite (BO_start L q B), app_length. cbn [length]. intros Hc. rewrite upd_nth by lia. destruct (Nat.eqb_spec (NN * 2 - c - 1) (length (filter kN L))); [lia|]. unfold neg1. rewrite upd_nth by lia. destruct (Nat.eqb_spec (NN * 2 - c - 1) (NN * 2 - length (BO L) - 1)) as [Y|Y].
    + replace c with (length (BO L)) by lia. exists false. split; [reflexivity|]. split; [discriminate|intros [X _]; contradiction].
    + apply G3. lia.
Qed.
Lemma neg_start (L : list tok) q (R : list tok) tb neg f c : F = L ++ (true, q) :: R -> nonly lo hi x q = true -> negI L tb neg -> (f = true <-> forall w, In w (filter kN L) -> key w < key (true, q)) -> nth_error (BO F ++ NO F) c = Some q ->
  exists neg2, put neg (length (filter kN L)) (Some (WE f true (Idx c))) = Ok neg2 /\ negI (L ++ [(true, q)]) tb neg2.
Proof.
  intros E B [G1 G2 G3] FL CI. pose proof len2 as L2. pose proof B as B'. apply andb_true_iff in B'. destruct B' as [B1 B2]. apply negb_true_iff in B2. assert (K : kN (true, q) = true) by (unfold PrimTokProofs.kN; cbn [fst snd orb]; rewrite B1; reflexivity). pose proof (room L _ R E K) as RM.
  rewrite put_ok by lia. eexists. split; [reflexivity|]. split.
  - rewrite upd_length by lia. exact G1.
  - intros k t. rewrite (flt_yes kN L _ K). intros Z. rewrite upd_nth by lia. destruct (Nat.eqb_spec k (length (filter kN L))) as [->|N].
    + rewrite nth_end in Z. injection Z as <-. exists f, c. split; [reflexivity|]. split; [apply flag_new; [exact (sorted_N n lo hi x F T L _ E)|exact FL]|]. unfold refN. cbn [fst snd]. rewrite B2. split; [|intros _; exact CI]. intros I. exfalso. apply in_app_or in I. destruct I as [I|[I|[]]]; [exact (start_first n lo hi F T L q R E I)|discriminate].
    + apply last_of in Z; [|exact N]. pose proof (lt_of_nth _ _ _ Z) as Lk. destruct (G2 k t Z) as (g & r & D1 & D2 & D3). exists g, r. split; [exact D1|]. split; [apply flag_prefix; assumption|]. apply refN_mono; [exact (kN_of _ _ _ Z)| |exact D3]. intros _ _ Q. discriminate.
  - intros c'. rewrite BO_app. unfold PrimTokProofs.BO at 2, starts. cbn [filter fst map snd]. unfold PrimTokProofs.both. rewrite B1, B2. cbn [andb]. rewrite app_nil_r. intros Hc. pose proof (BO_le L _ E). rewrite upd_nth by lia. destruct (Nat.eqb_spec (NN * 2 - c' - 1) (length (filter kN L))); [lia|]. exact (G3 c' Hc).
Qed.
Lemma neg_end (L : list tok) q (R : list tok) tb neg k f : F = L ++ (false, q) :: R -> negI L tb neg -> nonly lo hi x q = true -> nth_error (filter kN L) k = Some (true, q) ->
  (f = true <-> forall w, In w (filter kN L) -> key w < key (false, q)) ->
  exists g r, nth_error neg k = Some (Some (WE g true (Idx r))) /\ (k < length (filter kN L))%nat /\ (length (filter kN L) < NN * 2 - length (BO F))%nat /\
  exists neg1, put neg (length (filter kN L)) (Some (WE f false (Idx r))) = Ok neg1 /\ exists neg2, set_oref neg1 k (Idx (length (filter kN L))) = Ok neg2 /\ negI (L ++ [(false, q)]) tb neg2.
Proof.
  intros E [G1 G2 G3] B KK FL. pose proof len2 as L2. pose proof B as B'. apply andb_true_iff in B'. destruct B' as [B1 B2]. apply negb_true_iff in B2. assert (K : kN (false, q) = true) by (unfold PrimTokProofs.kN; cbn [fst snd orb]; rewrite B1, B2; reflexivity). pose proof (room L _ R E K) as RM. pose proof (BO_le L _ E) as BL.
  destruct (G2 k _ KK) as (g & r & D1 & D2 & D3). cbn [fst] in D1. exists g, r. split; [exact D1|]. pose proof (lt_of_nth _ _ _ KK) as Lk. split; [exact Lk|]. split; [lia|]. rewrite put_ok by lia. eexists. split; [reflexivity|].
  set (neg1 := upd neg _ _). assert (L1 : length neg1 = (NN * 2)%nat) by (unfold neg1; rewrite upd_length; lia). assert (H1 : nth_error neg1 k = Some (Some (WE g true (Idx r)))) by (unfold neg1; rewrite upd_nth by lia; destruct (Nat.eqb_spec k (length (filter kN L))); [lia|exact D1]).
  unfold set_oref. rewrite (get_ok _ _ _ H1). cbn [rbind got w_new w_start]. rewrite put_ok by lia. eexists. split; [reflexivity|]. pose proof (t_new n lo hi F T L _ R E) as NI. unfold refN in D3. cbn [fst snd] in D3. rewrite B2 in D3. destruct D3 as [_ D3]. specialize (D3 NI). split.
  - rewrite upd_length by lia. exact L1.
  - intros j t. rewrite (flt_yes kN L _ K). intros Z. rewrite upd_nth by lia. destruct (Nat.eqb_spec j k) as [->|N].
    + assert (t = (true, q)) by (rewrite (nth_prefix _ _ _ _ KK) in Z; congruence). subst t. exists g, (length (filter kN L)). split; [reflexivity|]. split; [apply flag_prefix; assumption|]. unfold refN. cbn [fst snd]. rewrite B2. split; [intros _; rewrite (flt_yes kN L _ K); apply nth_end|]. intros I. exfalso. apply I, in_elt.
    + unfold neg1. rewrite upd_nth by lia. destruct (Nat.eqb_spec j (length (filter kN L))) as [->|N2].
      * rewrite nth_end in Z. injection Z as <-. exists f, r. split; [reflexivity|]. split; [apply flag_new; [exact (sorted_N n lo hi x F T L _ E)|exact FL]|]. exact D3.
      * apply last_of in Z; [|exact N2]. pose proof (lt_of_nth _ _ _ Z) as Lj. destruct (G2 j t Z) as (g' & r' & X1 & X2 & X3). exists g', r'. split; [exact X1|]. split; [apply flag_prefix; assumption|]. apply refN_mono; [exact (kN_of _ _ _ Z)| |exact X3]. intros F1 _ Q. injection Q as Q. apply N. destruct t as [s q']. cbn [fst snd] in *. subst s q'. exact (NoDup_nth (NoDup_filter kN L ltac:(pose proof (t_nodup _ _ _ _ T) as ND; rewrite E in ND; exact (NoDup_pre _ _ ND))) _ _ _ Z KK).
  - rewrite BO_app. unfold PrimTokProofs.BO at 2, starts. cbn [filter fst map]. rewrite app_nil_r. intros c Hc. rewrite upd_nth by lia. destruct (Nat.eqb_spec (NN * 2 - c - 1) k); [lia|]. unfold neg1. rewrite upd_nth by lia. destruct (Nat.eqb_spec (NN * 2 - c - 1) (length (filter kN L))); [lia|]. exact (G3 c Hc).
Qed.
End Inv.
