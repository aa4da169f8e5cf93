(** ApplyPrimary: the invariants of the loop, for each array. *)
From Coq Require Import List ZArith QArith Arith Lia Lqa Bool Sorted.
From Verif Require Import BigUIntModel GeoModel GeoSpec EvtModel EvtSpec EvtTokProofs EvtProofs EvtArrProofs PrimModel PrimProofs PrimTokProofs.
Import ListNotations.
Open Scope Q_scope.

Definition flag (kf : tok -> Q) (V : list tok) (k : nat) (f : bool) : Prop :=
  f = true <-> k = 0%nat \/ exists j t u, k = S j /\ nth_error V j = Some t /\ nth_error V k = Some u /\ kf t < kf u.
Lemma flag_prefix kf V V' k f : (k < length V)%nat -> flag kf V k f -> flag kf (V ++ V') k f.
Proof.
  intros L H. unfold flag in *. rewrite H. split; (intros [X|(j & t & u & -> & A & B & C)]; [left; exact X|right; exists j, t, u; split; [reflexivity|]]).
  - split; [apply nth_prefix; exact A|split; [apply nth_prefix; exact B|exact C]].
  - rewrite nth_error_app1 in A, B by lia. auto.
Qed.
Lemma flag_new kf V t f : StronglySorted (fun a b => kf a <= kf b) V -> (f = true <-> forall w, In w V -> kf w < kf t) -> flag kf (V ++ [t]) (length V) f.
Proof.
  intros S H. unfold flag. rewrite H. split.
  - intros A. destruct (length V) as [|j] eqn:L; [left; reflexivity|right]. destruct (nth_error V j) as [w|] eqn:E; [|apply nth_error_None in E; lia]. exists j, w, t. split; [reflexivity|]. split; [apply nth_prefix; exact E|]. split; [rewrite <- L; apply nth_end|]. apply A. exact (nth_error_In _ _ E).
  - intros [A|(j & u & v & A & B & C & D)] w I; [destruct V; [destruct I|discriminate]|]. rewrite nth_end in C. injection C as <-. rewrite nth_error_app1 in B by lia. apply In_nth_error in I. destruct I as (k & I). pose proof (lt_of_nth _ _ _ I) as K.
    destruct (Nat.eq_dec k j) as [->|N]; [rewrite B in I; injection I as <-; exact D|]. pose proof (SS_nth S k j w u ltac:(lia) I B) as X. cbn in X. lra.
Qed.

Section Inv.
Context (n : nat) (lo hi : nat -> Q) (x : Q) (W : forall i, (i < n)%nat -> lo i <= hi i) (F : list tok) (T : toks_ok n lo hi F)
  (evs : list event) (AR : Forall2 (tok_of (nth_error evs)) evs F).
Notation key := (key lo hi). Notation keyP := (keyP lo hi x). Notation inN := (inN lo x). Notation inP := (inP hi x). Notation kN := (kN lo hi x). Notation kP := (kP hi x).
Notation BO := (BO lo hi x). Notation NO := (NO lo hi x). Notation PO := (PO lo hi x).
Notation NN := (length (BO F ++ NO F)).

Lemma nd : NoDup F. Proof. exact (t_nodup _ _ _ _ T). Qed.
Lemma t_new (L : list tok) t (R : list tok) : F = L ++ t :: R -> ~ In t L.
Proof. intros E I. pose proof nd as N. rewrite E in N. apply NoDup_remove_2 in N. apply N. apply in_or_app. left. exact I. Qed.
Lemma start_first (L : list tok) q (R : list tok) : F = L ++ (true, q) :: R -> ~ In (false, q) L.
Proof.
  intros E I. apply In_nth_error in I. destruct I as (k & K). pose proof (lt_of_nth _ _ _ K) as B. destruct (t_order _ _ _ _ T q (length L) k) as [X _]; [rewrite E; apply nth_end|rewrite E; apply nth_prefix; exact K|lia].
Qed.
Lemma end_last (L : list tok) q (R : list tok) : F = L ++ (false, q) :: R -> In (true, q) L.
Proof.
  intros E. assert (I : In (true, q) F). { apply (t_all _ _ _ _ T). cbn [snd]. apply (t_all _ _ _ _ T (false, q)). rewrite E. apply in_elt. }
  apply In_nth_error in I. destruct I as (k & K). destruct (t_order _ _ _ _ T q k (length L) K) as [X _]; [rewrite E; apply nth_end|]. rewrite E, nth_error_app1 in K by exact X. exact (nth_error_In _ _ K).
Qed.
Lemma range (L : list tok) t (R : list tok) : F = L ++ t :: R -> (snd t < n)%nat.
Proof. intros E. apply (t_all _ _ _ _ T). rewrite E. apply in_elt. Qed.
Lemma before (L : list tok) t (R : list tok) : F = L ++ t :: R -> forall w, In w L -> key w <= key t.
Proof.
  intros E w I. apply In_nth_error in I. destruct I as (k & K). pose proof (lt_of_nth _ _ _ K) as B. assert (K' : nth_error F k = Some w) by (rewrite E; apply nth_prefix; exact K). assert (T' : nth_error F (length L) = Some t) by (rewrite E; apply nth_end).
  exact (proj1 (SS_nth (t_sorted _ _ _ _ T) k (length L) w t B K' T')).
Qed.
Lemma SS_pre {A} (R : A -> A -> Prop) l r : StronglySorted R (l ++ r) -> StronglySorted R l.
Proof. intros H. apply nth_SS. intros j k a b J A1 B1. apply (SS_nth H j k); [exact J|apply nth_prefix; exact A1|apply nth_prefix; exact B1]. Qed.
Lemma sorted_pre L R : F = L ++ R -> StronglySorted (rel lo hi) L.
Proof. intros E. pose proof (t_sorted _ _ _ _ T) as S. rewrite E in S. exact (SS_pre _ _ _ S). Qed.
Lemma sorted_N L R : F = L ++ R -> StronglySorted (fun a b => key a <= key b) (filter kN L).
Proof. intros E. apply (SS_weaken (rel lo hi)); [|apply SS_filter; exact (sorted_pre L R E)]. intros a b _ _ X. apply X. Qed.
Lemma sorted_P L R : F = L ++ R -> StronglySorted (fun a b => keyP a <= keyP b) (filter kP L).
Proof. intros E. apply (SS_weaken (rel lo hi)); [|apply SS_filter; exact (sorted_pre L R E)]. intros a b I J X. apply filter_In in I, J. apply keyP_le; [apply I|apply J|apply X]. Qed.
Lemma len_F : length F = (2 * n)%nat. Proof. exact (toks_length _ _ _ _ T). Qed.
Lemma len_evs : length evs = length F. Proof. exact (Forall2_length AR). Qed.
(** The start event at i refers to its end event. *)
Lemma start_ref (L : list tok) q (R : list tok) e : F = L ++ (true, q) :: R -> nth_error evs (length L) = Some e -> ev_start e = true /\ (length L < ev_index e)%nat /\ nth_error F (ev_index e) = Some (false, q) /\
  exists f, nth_error evs (ev_index e) = Some f /\ ev_start f = false /\ ev_index f = q.
Proof.
  intros E X. assert (T' : nth_error F (length L) = Some (true, q)) by (rewrite E; apply nth_end). destruct (F2_nth_l AR _ _ X) as (t & T1 & T2 & T3). rewrite T' in T1. injection T1 as <-. cbn [fst snd] in *. rewrite <- T2 in T3. destruct T3 as (f & F1 & F2 & F3).
  destruct (F2_nth_l AR _ _ F1) as ([s i] & U1 & U2 & U3). cbn [fst snd] in *. rewrite F2 in *. subst s. rewrite F3 in U3. subst i. split; [congruence|]. destruct (t_order _ _ _ _ T q _ _ T' U1) as [Y _]. split; [exact Y|]. split; [exact U1|]. exists f. auto.
Qed.

(** ** event_points *)
Definition refP (L : list tok) (t : tok) (r : nat) : Prop :=
  if fst t then (In (false, snd t) L -> nth_error (filter kP L) r = Some (false, snd t)) /\ (~ In (false, snd t) L -> nth_error (BO F ++ PO F) r = Some (snd t))
  else nth_error (BO F ++ PO F) r = Some (snd t).
Definition rest (L : list tok) (t : tok) (e : event) (rr : ref) : Prop :=
  if fst t then rr = Idx (ev_index e)
  else (~ In (true, snd t) L -> rr = Idx (snd t)) /\
       (In (true, snd t) L -> if inP (snd t) then exists r, nth_error (filter kP L) r = Some (true, snd t) /\ rr = Idx (r + NN * 2)
                             else if inN (snd t) then exists r, nth_error (filter kN L) r = Some (true, snd t) /\ rr = Idx r else rr = Gone).
Record evI (L : list tok) (ev : list wev) : Prop := EvI {
  v_len : length ev = length F;
  v_pos : forall k t, nth_error (filter kP L) k = Some t -> exists f r, nth_error ev k = Some (WE f (fst t) (Idx r)) /\ flag keyP (filter kP L) k f /\ refP L t r;
  v_rest : forall k t e, (length L <= k)%nat -> nth_error F k = Some t -> nth_error evs k = Some e -> exists rr, nth_error ev k = Some (WE (ev_new e) (fst t) rr) /\ rest L t e rr }.
Lemma rest_mono L t u e rr : (fst t = false -> u <> (true, snd t)) -> rest L t e rr -> rest (L ++ [u]) t e rr.
Proof.
  intros N. unfold rest. destruct (fst t); [auto|]. specialize (N eq_refl). intros [A B]. split.
  - intros I. apply A. intros J. apply I, in_or_app. left. exact J.
  - intros I. apply in_app_or in I. destruct I as [I|[I|[]]]; [|contradiction]. specialize (B I). rewrite !filter_app. destruct (inP (snd t)); [|destruct (inN (snd t)); [|exact B]]; destruct B as (r & B1 & B2); exists r; (split; [apply nth_prefix; exact B1|exact B2]).
Qed.
Lemma refP_mono L t u r : (fst t = true -> u <> (false, snd t)) -> refP L t r -> refP (L ++ [u]) t r.
Proof.
  intros N. unfold refP. destruct (fst t); [|auto]. specialize (N eq_refl). intros [A B]. split.
  - intros I. apply in_app_or in I. destruct I as [I|[I|[]]]; [|contradiction]. rewrite filter_app. apply nth_prefix, A, I.
  - intros I. apply B. intros J. apply I, in_or_app. left. exact J.
Qed.
Lemma flt_no (f : tok -> bool) L t : f t = false -> filter f (L ++ [t]) = filter f L.
Proof. intros E. rewrite filter_app. cbn [filter]. rewrite E. apply app_nil_r. Qed.
Lemma flt_yes (f : tok -> bool) L t : f t = true -> filter f (L ++ [t]) = filter f L ++ [t].
Proof. intros E. rewrite filter_app. cbn [filter]. rewrite E. reflexivity. Qed.
Lemma in_kP_pre L k q s : nth_error (filter kP L) k = Some (s, q) -> In (s, q) L /\ inP q = true.
Proof. intros E. apply nth_error_In, filter_In in E. exact E. Qed.
Lemma len1 L (t : tok) : length (L ++ [t]) = S (length L).
Proof. rewrite app_length. cbn [length]. lia. Qed.
Lemma ev_skip (L : list tok) q (R : list tok) ev : F = L ++ (false, q) :: R -> inP q = false -> evI L ev -> evI (L ++ [(false, q)]) ev.
Proof.
  intros E K [V1 V2 V3]. split; [exact V1| |].
  - intros k t. rewrite flt_no by exact K. intros X. destruct (V2 k t X) as (f & r & A & B & C). exists f, r. split; [exact A|]. split; [exact B|]. apply refP_mono; [|exact C]. destruct t as [s q']. apply in_kP_pre in X. cbn [fst snd]. intros _ Y. injection Y as <-. destruct X. congruence.
  - intros k t e. rewrite len1. intros Lk X Y. destruct (V3 k t e ltac:(lia) X Y) as (rr & A & B). exists rr. split; [exact A|]. apply rest_mono; [|exact B]. intros _ Z. discriminate.
Qed.
(** The end event of the start event at i. *)
Lemma ev_find (L : list tok) q (R : list tok) ev e : F = L ++ (true, q) :: R -> evI L ev -> nth_error evs (length L) = Some e ->
  nth_error ev (length L) = Some (WE (ev_new e) true (Idx (ev_index e))) /\ exists f, nth_error ev (ev_index e) = Some (WE f false (Idx q)).
Proof.
  intros E [V1 V2 V3] X. destruct (start_ref L q R e E X) as (A & B & C & f & D & G & H). split.
  - destruct (V3 (length L) (true, q) e (le_n _)) as (rr & Y & Z); [rewrite E; apply nth_end|exact X|]. unfold rest in Z. cbn [fst] in Z. subst rr. exact Y.
  - destruct (V3 (ev_index e) (false, q) f ltac:(lia) C D) as (rr & Y & Z). exists (ev_new f). rewrite Y. unfold rest in Z. cbn [fst snd] in Z. destruct Z as [Z _]. rewrite Z; [reflexivity|]. apply (t_new L _ R E).
Qed.
Lemma ev_mark (L : list tok) q (R : list tok) ev e rr f : F = L ++ (true, q) :: R -> evI L ev -> nth_error evs (length L) = Some e -> nth_error ev (ev_index e) = Some (WE f false (Idx q)) ->
  inP q = false -> (if inN q then exists r, nth_error (filter kN (L ++ [(true, q)])) r = Some (true, q) /\ rr = Idx r else rr = Gone) ->
  exists ev', set_ref ev (ev_index e) rr = Ok ev' /\ evI (L ++ [(true, q)]) ev'.
Proof.
  intros E [V1 V2 V3] X Y K RR. destruct (start_ref L q R e E X) as (A & B & C & _). pose proof (lt_of_nth _ _ _ Y) as LT. unfold set_ref. rewrite (get_ok _ _ _ Y). cbn [rbind w_new w_start]. rewrite put_ok by exact LT. eexists. split; [reflexivity|]. pose proof (filter_length_le kP L) as LE. split.
  - rewrite upd_length by exact LT. exact V1.
  - intros k t. rewrite flt_no by exact K. intros Z. destruct (V2 k t Z) as (g & r & D1 & D2 & D3). exists g, r. split; [|split; [exact D2|]].
    + rewrite upd_nth by exact LT. pose proof (lt_of_nth _ _ _ Z). destruct (Nat.eqb_spec k (ev_index e)); [lia|exact D1].
    + apply refP_mono; [|exact D3]. intros _ Q. discriminate.
  - intros k t g. rewrite len1. intros Lk Z G. rewrite upd_nth by exact LT. destruct (Nat.eqb_spec k (ev_index e)) as [->|N].
    + rewrite C in Z. injection Z as <-. destruct (V3 (ev_index e) (false, q) g ltac:(lia) C G) as (r0 & U & _). rewrite Y in U. injection U as -> _. exists rr. split; [reflexivity|]. unfold rest. cbn [fst snd]. rewrite K. split; [intros I; exfalso; apply I, in_elt|]. intros _. exact RR.
    + destruct (V3 k t g ltac:(lia) Z G) as (r0 & U & V). exists r0. split; [exact U|]. apply rest_mono; [|exact V]. intros F1 Q. injection Q as Q. apply N. apply (NoDup_nth nd _ _ t Z). destruct t as [s q']. cbn [fst snd] in *. subst s q'. exact C.
Qed.
Lemma ev_add (L : list tok) q (R : list tok) ev e f c : F = L ++ (true, q) :: R -> evI L ev -> nth_error evs (length L) = Some e -> inP q = true -> nth_error (BO F ++ PO F) c = Some q ->
  (f = true <-> forall w, In w (filter kP L) -> keyP w < keyP (true, q)) ->
  exists ev1, set_ref ev (ev_index e) (Idx (length (filter kP L) + NN * 2)) = Ok ev1 /\
  put ev1 (length (filter kP L)) (WE f true (Idx c)) = Ok (upd ev1 (length (filter kP L)) (WE f true (Idx c))) /\ evI (L ++ [(true, q)]) (upd ev1 (length (filter kP L)) (WE f true (Idx c))).
Proof.
  intros E V X K CI FL. destruct (ev_find L q R ev e E V X) as (_ & g0 & Y). destruct V as [V1 V2 V3]. destruct (start_ref L q R e E X) as (A & B & C & _). pose proof (lt_of_nth _ _ _ Y) as LT. unfold set_ref. rewrite (get_ok _ _ _ Y). cbn [rbind w_new w_start]. rewrite put_ok by exact LT. eexists. split; [reflexivity|]. pose proof (filter_length_le kP L) as LE.
  set (rr := Idx (length (filter kP L) + NN * 2)). set (ev1 := upd ev (ev_index e) (WE g0 false rr)). assert (L1 : length ev1 = length F) by (unfold ev1; rewrite upd_length by exact LT; exact V1).
  assert (LT1 : (length (filter kP L) < length ev1)%nat) by lia. rewrite put_ok by exact LT1. split; [reflexivity|]. assert (KT : kP (true, q) = true) by exact K. split.
  - rewrite upd_length by exact LT1. exact L1.
  - intros k t. rewrite (flt_yes kP L _ KT). intros Z. rewrite upd_nth by exact LT1. destruct (Nat.eqb_spec k (length (filter kP L))) as [->|N].
    + rewrite nth_end in Z. injection Z as <-. exists f, c. split; [reflexivity|]. split; [apply flag_new; [exact (sorted_P L _ E)|exact FL]|]. unfold refP. cbn [fst snd]. split; [|intros _; exact CI]. intros I. exfalso. apply in_app_or in I. destruct I as [I|[I|[]]]; [exact (start_first L q R E I)|discriminate].
    + assert (Z' : nth_error (filter kP L) k = Some t). { destruct (Nat.lt_ge_cases k (length (filter kP L))); [rewrite nth_error_app1 in Z by assumption; exact Z|]. pose proof (lt_of_nth _ _ _ Z) as Q. rewrite len1 in Q. lia. }
      pose proof (lt_of_nth _ _ _ Z') as Lk. destruct (V2 k t Z') as (g & r & D1 & D2 & D3). exists g, r. unfold ev1. rewrite upd_nth by exact LT. destruct (Nat.eqb_spec k (ev_index e)); [lia|]. split; [exact D1|]. split; [apply flag_prefix; assumption|]. apply refP_mono; [|exact D3]. intros _ Q. discriminate.
  - intros k t g. rewrite len1. intros Lk Z G. rewrite upd_nth by exact LT1. destruct (Nat.eqb_spec k (length (filter kP L))) as [->|N0]; [lia|]. unfold ev1. rewrite upd_nth by exact LT. destruct (Nat.eqb_spec k (ev_index e)) as [->|N].
    + rewrite C in Z. injection Z as <-. destruct (V3 (ev_index e) (false, q) g ltac:(lia) C G) as (r0 & U & _). rewrite Y in U. injection U as -> _. exists rr. split; [reflexivity|]. unfold rest. cbn [fst snd]. rewrite K. split; [intros I; exfalso; apply I, in_elt|]. intros _. exists (length (filter kP L)). rewrite (flt_yes kP L _ KT). split; [apply nth_end|reflexivity].
    + destruct (V3 k t g ltac:(lia) Z G) as (r0 & U & V). exists r0. split; [exact U|]. apply rest_mono; [|exact V]. intros F1 Q. injection Q as Q. apply N. apply (NoDup_nth nd _ _ t Z). destruct t as [s q']. cbn [fst snd] in *. subst s q'. exact C.
Qed.
Lemma ev_end (L : list tok) q (R : list tok) ev k f : F = L ++ (false, q) :: R -> evI L ev -> inP q = true -> nth_error (filter kP L) k = Some (true, q) ->
  (f = true <-> forall w, In w (filter kP L) -> keyP w < keyP (false, q)) ->
  exists g r ev2, nth_error ev k = Some (WE g true (Idx r)) /\ (k < length (filter kP L))%nat /\
  put ev (length (filter kP L)) (WE f false (Idx r)) = Ok (upd ev (length (filter kP L)) (WE f false (Idx r))) /\
  set_ref (upd ev (length (filter kP L)) (WE f false (Idx r))) k (Idx (length (filter kP L))) = Ok ev2 /\ evI (L ++ [(false, q)]) ev2.
Proof.
  intros E [V1 V2 V3] K KK FL. destruct (V2 k _ KK) as (g & r & D1 & D2 & D3). cbn [fst] in D1. exists g, r. pose proof (lt_of_nth _ _ _ KK) as Lk. pose proof (filter_length_le kP L) as LE.
  assert (LF : (length L < length F)%nat) by (rewrite E, app_length; cbn [length]; lia). assert (LT : (length (filter kP L) < length ev)%nat) by lia. set (ev1 := upd ev (length (filter kP L)) (WE f false (Idx r))). assert (L1 : length ev1 = length F) by (unfold ev1; rewrite upd_length by exact LT; exact V1).
  assert (G1 : nth_error ev1 k = Some (WE g true (Idx r))) by (unfold ev1; rewrite upd_nth by exact LT; destruct (Nat.eqb_spec k (length (filter kP L))); [lia|exact D1]).
  unfold set_ref. rewrite (get_ok _ _ _ G1). cbn [rbind w_new w_start]. rewrite (put_ok ev1) by lia. eexists. split; [exact D1|]. split; [exact Lk|]. split; [apply put_ok; exact LT|]. split; [reflexivity|]. assert (KT : kP (false, q) = true) by exact K.
  assert (LT1 : (k < length ev1)%nat) by lia. pose proof (t_new L _ R E) as NI. unfold refP in D3. cbn [fst snd] in D3. destruct D3 as [_ D3]. specialize (D3 NI). split.
  - rewrite upd_length by exact LT1. exact L1.
  - intros j t. rewrite (flt_yes kP L _ KT). intros Z. rewrite upd_nth by exact LT1. destruct (Nat.eqb_spec j k) as [->|N].
    + assert (t = (true, q)) by (rewrite (nth_prefix _ _ _ _ KK) in Z; congruence). subst t. exists g, (length (filter kP L)). split; [reflexivity|]. split; [apply flag_prefix; assumption|]. unfold refP. cbn [fst snd]. split; [intros _; rewrite (flt_yes kP L _ KT); apply nth_end|]. intros I. exfalso. apply I, in_elt.
    + unfold ev1. rewrite upd_nth by exact LT. destruct (Nat.eqb_spec j (length (filter kP L))) as [->|N2].
      * rewrite nth_end in Z. injection Z as <-. exists f, r. split; [reflexivity|]. split; [apply flag_new; [exact (sorted_P L _ E)|exact FL]|]. exact D3.
      * assert (Z' : nth_error (filter kP L) j = Some t). { destruct (Nat.lt_ge_cases j (length (filter kP L))); [rewrite nth_error_app1 in Z by assumption; exact Z|]. pose proof (lt_of_nth _ _ _ Z) as Q. rewrite len1 in Q. lia. }
        pose proof (lt_of_nth _ _ _ Z') as Lj. destruct (V2 j t Z') as (g' & r' & H1 & H2 & H3). exists g', r'. split; [exact H1|]. split; [apply flag_prefix; assumption|]. apply refP_mono; [|exact H3]. intros F1 Q. injection Q as Q. apply N. destruct t as [s q']. cbn [fst snd] in *. subst s q'. exact (NoDup_nth (NoDup_filter kP L ltac:(pose proof nd as ND; rewrite E in ND; exact (NoDup_pre _ _ ND))) _ _ _ Z' KK).
  - intros j t e. rewrite len1. intros Lj Z G. rewrite upd_nth by exact LT1. destruct (Nat.eqb_spec j k) as [->|N0]; [lia|]. unfold ev1. rewrite upd_nth by exact LT. destruct (Nat.eqb_spec j (length (filter kP L))) as [->|N1]; [lia|].
    destruct (V3 j t e ltac:(lia) Z G) as (r0 & U & V). exists r0. split; [exact U|]. apply rest_mono; [|exact V]. intros _ Q. discriminate.
Qed.
End Inv.
