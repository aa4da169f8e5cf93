(** ApplyPrimary: the loop and its result. *)
From Coq Require Import List ZArith QArith Arith Lia Lqa Bool Sorted.
From Verif Require Import BigUIntModel GeoModel GeoSpec GeoProofs GeoDirProofs AabbSpec AabbTrackerProofs EvtModel EvtSpec EvtTokProofs EvtProofs EvtArrProofs PrimModel PrimSpec PrimProofs PrimTokProofs PrimInvProofs PrimNegProofs PrimStepProofs.
Import ListNotations.
Open Scope Q_scope.

Lemma skipn_tl {A} (l : list A) : forall k a r, skipn k l = a :: r -> skipn (S k) l = r.
Proof. induction l as [|b l IH]; intros [|k] a r E; cbn [skipn] in *; try discriminate; [injection E as _ <-; reflexivity|exact (IH k a r E)]. Qed.
Lemma F2_of_nth {A B} (R : A -> B -> Prop) l : forall l', length l = length l' -> (forall k a b, nth_error l k = Some a -> nth_error l' k = Some b -> R a b) -> Forall2 R l l'.
Proof. induction l as [|a l IH]; intros [|b l'] L H; try discriminate; constructor; [exact (H 0%nat a b eq_refl eq_refl)|]. apply IH; [cbn [length] in L; lia|]. intros k. exact (H (S k)). Qed.

(** ** IsNewLocationCorrect *)
Lemma new_loop_ok dbg d ps evs F (FIT : Forall (poly_fit d) ps) (AR : Forall2 (tok_of (nth_error evs)) evs F) (T : toks_ok (length ps) (lo d ps) (hi d ps) F) (FL : flags_ok d ps evs F) :
  forall l k prev, skipn (S k) evs = l -> (exists t, nth_error F k = Some t /\ hw prev <> 0%Z /\ coord d prev = key (lo d ps) (hi d ps) t) -> new_location_loop dbg d ps evs prev l = Ok true.
Proof.
  induction l as [|e l IH]; intros k prev E (t & K1 & K2 & K3); [reflexivity|]. cbn [new_location_loop].
  assert (Ee : nth_error evs (S k) = Some e) by (rewrite <- (firstn_skipn (S k) evs), E; rewrite nth_error_app2, firstn_length, Nat.min_l; [replace (S k - S k)%nat with 0%nat by lia; reflexivity| | ]; assert (length (skipn (S k) evs) <> 0%nat) by (rewrite E; discriminate); rewrite skipn_length in *; rewrite ?firstn_length; lia).
  destruct (F2_nth_l AR _ _ Ee) as (u & U & TU). destruct (location dbg d ps FIT _ e u TU) as (v & LV & WV & KV); [apply (t_all _ _ _ _ T); exact (nth_error_In _ _ U)|]. rewrite LV. cbn [rbind].
  rewrite (hp_compare_comp_spec d prev v _ _ (denotes_value prev K2) (denotes_value v WV)), <- !coord_value, K3, KV. pose proof (proj1 (SS_nth (t_sorted _ _ _ _ T) k (S k) t u ltac:(lia) K1 U)) as LE. set (a := key (lo d ps) (hi d ps) t) in *. set (b := key (lo d ps) (hi d ps) u) in *.
  assert (Q : (qsign (a - b) <=? 0)%Z = true). { apply Z.leb_le. pose proof (qsign_range (a - b)) as R. destruct R as [R|[R|R]]; [lia|lia|]. apply qsign_sub_gt in R. lra. } rewrite Q, check_true. cbn [rbind].
  assert (NW : Bool.eqb (ev_new e) (hp_equiv_comp d v prev) = false).
  { pose proof (hp_equiv_comp_spec d v prev _ _ (denotes_value v WV) (denotes_value prev K2)) as H. rewrite <- !coord_value, K3, KV in H. fold a b in H. pose proof (FL _ _ Ee) as G. destruct (ev_new e), (hp_equiv_comp d v prev); try reflexivity; exfalso.
    - apply proj1 in G. destruct (G eq_refl) as [Z|(j & t' & u' & J1 & J2 & J3 & J4)]; [discriminate|]. injection J1 as <-. rewrite K1 in J2. rewrite U in J3. injection J2 as <-. injection J3 as <-. fold a b in J4. apply proj1 in H. specialize (H eq_refl). lra.
    - assert (Z : false = true); [|discriminate]. apply G. right. exists k, t, u. split; [reflexivity|]. split; [exact K1|]. split; [exact U|]. fold a b. destruct (Qlt_le_dec a b) as [Y|Y]; [exact Y|]. assert (X : false = true) by (apply H; lra). discriminate. }
  rewrite NW. apply (IH (S k)); [|exists u; auto]. exact (skipn_tl _ _ _ _ E).
Qed.
Lemma new_correct dbg d ps evs : Forall (poly_fit d) ps -> events_ok d ps evs -> new_location_correct dbg d ps evs = Ok true.
Proof.
  intros FIT OK. destruct (toks_of_events d ps evs OK) as (F & AR & T & FL). unfold new_location_correct. destruct ps as [|p0 ps0] eqn:EP; [reflexivity|]. rewrite <- EP in *. destruct evs as [|e l] eqn:EV; [pose proof (eo_length _ _ _ OK) as Z; rewrite EP in Z; discriminate|]. rewrite <- EV in *.
  assert (E0 : nth_error evs 0 = Some e) by (rewrite EV; reflexivity). rewrite (proj2 (FL _ _ E0) (or_introl eq_refl)), check_true. cbn [rbind]. destruct (F2_nth_l AR _ _ E0) as (u & U & TU). destruct (location dbg d ps FIT _ e u TU) as (v & LV & WV & KV); [apply (t_all _ _ _ _ T); exact (nth_error_In _ _ U)|]. rewrite LV. cbn [rbind].
  apply (new_loop_ok dbg d ps evs F FIT AR T FL l 0 v); [rewrite EV; reflexivity|exists u; auto].
Qed.
Lemma assert_new_ok dbg d ps evs : Forall (poly_fit d) ps -> events_ok d ps evs -> assert_new dbg d ps (Ok evs) = Ok tt.
Proof. intros FIT OK. unfold assert_new. destruct dbg; [|reflexivity]. cbn [rbind]. rewrite new_correct by assumption. reflexivity. Qed.

(** ** Reading the arrays *)
Lemma nth_ext_map {A B} (f : A -> B) l l' : length l = length l' -> (forall k y, nth_error l' k = Some y -> nth_error l k = Some (f y)) -> l = map f l'.
Proof.
  revert l'. induction l as [|a l IH]; intros [|b l'] L H; try discriminate; [reflexivity|]. cbn [map]. f_equal; [specialize (H 0%nat b eq_refl); cbn in H; congruence|]. apply IH; [cbn [length] in L; lia|]. intros k y Y. exact (H (S k) y Y).
Qed.
Lemma collect {A B} (R : A -> nat -> B -> Prop) (l : list A) : (forall k a, nth_error l k = Some a -> exists b, R a k b) -> exists l', length l' = length l /\ forall k b, nth_error l' k = Some b -> exists a, nth_error l k = Some a /\ R a k b.
Proof.
  intros H. assert (G : forall m, (m <= length l)%nat -> exists l', length l' = m /\ forall k b, nth_error l' k = Some b -> exists a, nth_error l k = Some a /\ R a k b).
  { induction m as [|m IH]; intros L; [exists []; split; [reflexivity|intros [|k] b; discriminate]|]. destruct IH as (l' & L1 & L2); [lia|]. destruct (nth_error l m) as [a|] eqn:E; [|apply nth_error_None in E; lia]. destruct (H m a E) as (b & B1). exists (l' ++ [b]). split; [rewrite app_length; cbn [length]; lia|]. intros k c K. destruct (Nat.lt_ge_cases k (length l')) as [X|X]; [rewrite nth_error_app1 in K by exact X; exact (L2 k c K)|]. pose proof (lt_of_nth _ _ _ K) as Y. rewrite app_length in Y. cbn [length] in Y. replace k with m in * by lia. rewrite nth_error_app2 in K by lia. replace (m - length l')%nat with 0%nat in K by lia. injection K as <-. exists a. auto. }
  exact (G (length l) (le_n _)).
Qed.
Lemma read_ok evs : read_events (map (fun e => Some (lift e)) evs) (length evs) = Ok evs.
Proof. induction evs as [|[f s k] evs IH]; cbn [map length read_events lift ev_new ev_start ev_index got rbind w_ref idx w_new w_start]; [reflexivity|]. rewrite IH. reflexivity. Qed.
Lemma read_app l r c : (c <= length l)%nat -> read_events (l ++ r) c = read_events l c.
Proof.
  revert l. induction c as [|c IH]; intros [|o l] L; cbn [length] in L; [destruct r; reflexivity|reflexivity|lia|]. cbn [app read_events]. destruct o; [|reflexivity]. cbn [got rbind]. destruct (idx (w_ref w)); try reflexivity. cbn [rbind]. rewrite IH by lia. reflexivity. Qed.
Lemma views_ok {P} (O : pops P) l : views O (map Some l) = Ok (map (o_view O) l).
Proof. induction l as [|r l IH]; cbn [map views got rbind]; [reflexivity|]. rewrite IH. reflexivity. Qed.
Lemma F2_split {A B} (R1 R2 : A -> B -> Prop) B1 C1 a c : Forall2 R1 B1 a -> Forall2 R2 C1 c -> forall k q, nth_error (B1 ++ C1) k = Some q -> exists y, nth_error (a ++ c) k = Some y /\ ((k < length B1)%nat /\ R1 q y \/ (length B1 <= k)%nat /\ R2 q y).
Proof.
  intros H1 H2 k q E. pose proof (Forall2_length H1) as L. destruct (Nat.lt_ge_cases k (length B1)) as [X|X].
  - rewrite nth_error_app1 in E by exact X. destruct (F2_nth_l H1 k q E) as (y & Y1 & Y2). exists y. split; [apply nth_prefix; exact Y1|auto].
  - rewrite nth_error_app2 in E by exact X. destruct (F2_nth_l H2 _ q E) as (y & Y1 & Y2). exists y. split; [rewrite nth_error_app2 by lia; rewrite <- L; exact Y1|auto].
Qed.

Section Top.
Context {P : Type} (O : pops P) (dbg : bool) (h : hspace3) (ps : list P) (p : part) (d : nat) (evs : list event) (x : Q) (F : list tok).
Notation n := (length ps). Notation vs := (map (o_view O) ps). Notation lo := (lo d vs). Notation hi := (hi d vs).
Notation key := (key lo hi). Notation keyP := (keyP lo hi x). Notation inN := (inN lo x). Notation inP := (inP hi x). Notation kN := (kN lo hi x). Notation kP := (kP hi x).
Notation BO := (BO lo hi x). Notation NO := (NO lo hi x). Notation PO := (PO lo hi x). Notation NN := (length (BO F ++ NO F)). Notation PP := (length (BO F ++ PO F)).
Notation inv := (inv O ps p lo hi x F evs).
Context (FIT : Forall (poly_fit d) vs) (T : toks_ok n lo hi F) (AR : Forall2 (tok_of (nth_error evs)) evs F) (FL : flags_ok d vs evs F)
  (HB : forall k t, nth_error F k = Some t -> ((k < p_begin p)%nat <-> key t < x))
  (HE : forall k t, nth_error F k = Some t -> ((k < p_end p)%nat <-> key t <= x))
  (BX : (p_begin p < p_end p)%nat) (BF : (p_begin p < length F)%nat)
  (CN : neg_count p = NN) (CE : extra ps p = length (BO F))
  (HC : forall q r, nth_error ps q = Some r -> (hs_compare h (e_max (o_view O r)) <=? 0)%Z = negb (inP q))
  (SP : forall r, In r ps -> coord d (e_min (o_view O r)) < x -> x < coord d (e_max (o_view O r)) -> splits O d x r)
  (MKN : forall r, In r ps -> coord d (e_min (o_view O r)) < x -> coord d (e_max (o_view O r)) == x -> markable O false r)
  (MKP : forall r, In r ps -> coord d (e_min (o_view O r)) == x -> x < coord d (e_max (o_view O r)) -> markable O true r)
  (MKB : forall r, In r ps -> coord d (e_min (o_view O r)) == x -> coord d (e_max (o_view O r)) == x -> exists a, o_border O (o_down O r) r = Ok a).
Lemma lo_of q r : nth_error ps q = Some r -> lo q = coord d (e_min (o_view O r)) /\ hi q = coord d (e_max (o_view O r)).
Proof. intros E. unfold EvtSpec.lo, EvtSpec.hi. rewrite nth_error_map, E. auto. Qed.
Lemma SPL q r : nth_error ps q = Some r -> both lo hi x q = true -> exists c, o_split O r = Ok c.
Proof.
  intros E B. apply andb_true_iff in B. destruct B as [B1 B2]. apply inN_iff in B1. apply inP_iff in B2. destruct (lo_of q r E) as [X Y]. rewrite X in B1. rewrite Y in B2. destruct (SP r (nth_error_In _ _ E) B1 B2) as (a & b & S1 & _). eauto.
Qed.
Lemma TNE q r : nth_error ps q = Some r -> nonly lo hi x q = true -> x <= hi q -> exists a, o_touch O false r = Ok a.
Proof.
  intros E B Z. apply andb_true_iff in B. destruct B as [B1 B2]. apply inN_iff in B1. apply negb_true_iff, inP_false in B2. destruct (lo_of q r E) as [X Y]. destruct (MKN r (nth_error_In _ _ E)) as (a & T1 & _); [rewrite <- X; exact B1|rewrite <- Y; lra|eauto].
Qed.
Lemma TPO q r : nth_error ps q = Some r -> ponly lo hi x q = true -> lo q <= x -> exists a, o_touch O true r = Ok a.
Proof.
  intros E B Z. apply andb_true_iff in B. destruct B as [B1 B2]. apply negb_true_iff, inN_false in B1. apply inP_iff in B2. destruct (lo_of q r E) as [X Y]. destruct (MKP r (nth_error_In _ _ E)) as (a & T1 & _); [rewrite <- X; lra|rewrite <- Y; exact B2|eauto].
Qed.
Lemma TBO q r : nth_error ps q = Some r -> bord lo hi x q = true -> exists a, o_border O (o_down O r) r = Ok a.
Proof.
  intros E B. apply andb_true_iff in B. rewrite !negb_true_iff, inN_false, inP_false in B. destruct (lo_of q r E) as [X Y]. assert (W : lo q <= hi q). { rewrite X, Y. rewrite Forall_forall in FIT. destruct (FIT (o_view O r)) as (_ & _ & W); [apply in_map, (nth_error_In _ _ E)|exact W]. }
  apply (MKB r (nth_error_In _ _ E)); [rewrite <- X; lra|rewrite <- Y; lra].
Qed.
Lemma step_ok (L : list tok) t (R : list tok) s : F = L ++ t :: R -> inv L s -> exists s', prim_step O dbg h ps p (length L) s = Ok s' /\ inv (L ++ [t]) s'.
Proof.
  intros E V. assert (XE : exists e, nth_error evs (length L) = Some e) by (destruct (nth_error evs (length L)) eqn:Z; [eauto|apply nth_error_None in Z; rewrite (len_evs F evs AR), E, app_length in Z; cbn [length] in Z; lia]). destruct XE as (e & XE).
  destruct (v_rest _ _ _ _ _ _ _ (z_ev _ _ _ _ _ _ _ _ _ _ (z_0 _ _ _ _ _ _ _ _ _ _ V)) (length L) t e (le_n _)) as (rr & V1 & V2); [rewrite E; apply nth_end|exact XE|].
  unfold prim_step. rewrite (get_ok _ _ _ V1). cbn [rbind w_start]. destruct (at_ok O ps p lo hi x F T evs FL HB HE BX CN CE L t R s e _ (fst t) rr E V XE eq_refl) as (s1 & A1 & A2 & A3). rewrite A1. cbn [rbind]. destruct t as [[|] q]; cbn [fst].
  - unfold rest in V2. cbn [fst] in V2. subst rr. apply (start_ok O dbg h ps p lo hi x F T evs AR HB HE BX CN CE HC SPL TNE TPO TBO L q R s1 e E A2 XE).
  - apply (end_ok O dbg ps p lo hi x F T evs AR HB BX CN CE L q R s1 (ev_new e) rr E A2). rewrite A3. exact V1.
Qed.
Lemma loop_ok (R : list tok) : forall (L : list tok) s, F = L ++ R -> inv L s -> exists s', prim_loop O dbg h ps p (seq (length L) (length R)) s = Ok s' /\ inv F s'.
Proof.
  induction R as [|t R IH]; intros L s E V; [exists s; split; [reflexivity|]; rewrite app_nil_r in E; rewrite E in V |- *; exact V|].
  cbn [length seq prim_loop]. destruct (step_ok L t R s E V) as (s1 & S1 & S2). rewrite S1. cbn [rbind]. destruct (IH (L ++ [t]) s1) as (s' & Z1 & Z2); [rewrite <- app_assoc; exact E|exact S2|]. rewrite len1 in Z1. exists s'. auto.
Qed.
Lemma F_len : length F = (2 * n)%nat.
Proof. exact (toks_length _ _ _ _ T). Qed.
Lemma init_ok : inv [] (PS (map lift evs) (repeat None (neg_count p * 2)) (repeat None n) (repeat None (extra ps p)) (repeat None (extra ps p)) [] [] 0 0 0 true true).
Proof.
  split; [| | |reflexivity].
  - split; cbn [s_ev s_neg s_map s_negs s_poss s_nb s_pb s_extra s_nu s_pu s_nn s_pn]; try reflexivity; try constructor.
    + rewrite map_length. exact (len_evs F evs AR).
    + intros [|k] t; discriminate.
    + intros k t e _ Ht He. exists (Idx (ev_index e)). destruct (F2_nth_l AR k e He) as (u & U1 & U2 & U3). rewrite Ht in U1. injection U1 as <-. rewrite nth_error_map, He. cbn [option_map lift]. rewrite U2. split; [reflexivity|]. unfold rest. rewrite U2. destruct (ev_start e); [reflexivity|]. split; [intros _; rewrite U3; reflexivity|intros []].
    + rewrite repeat_length, CN. reflexivity.
    + intros [|k] t; discriminate.
    + intros c Hc. cbn in Hc. lia.
    + rewrite repeat_length. reflexivity.
    + intros q [].
    + exists [], []. cbn [map app length PrimTokProofs.BO starts filter]. rewrite app_nil_r, CE, Nat.sub_0_r. split; [reflexivity|]. split; [constructor|]. split; [constructor|lia].
    + exists [], []. cbn [map app length PrimTokProofs.BO starts filter]. rewrite app_nil_r, CE, Nat.sub_0_r. split; [reflexivity|]. split; [constructor|]. split; [constructor|lia].
  - intros L' u E. destruct L'; discriminate.
  - intros L' u E. destruct L'; discriminate.
Qed.

(** ** The event points of the children *)
Lemma all_in t : In t F <-> (snd t < n)%nat.
Proof. exact (t_all _ _ _ _ T t). Qed.
Lemma in_end q s : In (s, q) F -> In (false, q) F.
Proof. rewrite !all_in. auto. Qed.
Lemma neg_events neg (negs : list P) (L2 : (NN * 2 = length (filter kN F) + length (BO F))%nat) : negI lo hi x F F True neg ->
  (forall c q, nth_error (BO F ++ NO F) c = Some q -> EvtSpec.lo d (map (o_view O) negs) c == lo q /\ EvtSpec.hi d (map (o_view O) negs) c == hiN hi x q) -> length negs = NN ->
  exists nev, neg = map (fun e => Some (lift e)) nev /\ events_ok d (map (o_view O) negs) nev.
Proof.
  intros [G1 G2 G3] CO LN. set (NF := NFin lo hi x F). assert (LNF : length NF = (NN * 2)%nat) by (unfold NF, NFin; rewrite app_length, rev_length, map_length; lia).
  (* each entry *)
  assert (TL : forall c, (c < length (BO F))%nat -> nth_error NF (NN * 2 - c - 1) = option_map (pair false) (nth_error (BO F) c)).
  { intros c Hc. unfold NF, NFin. rewrite nth_error_app2 by lia. rewrite <- nth_error_map. assert (LM : length (map (@pair bool nat false) (BO F)) = length (BO F)) by apply map_length. destruct (nth_error (map (pair false) (BO F)) c) as [t|] eqn:Et; [|apply nth_error_None in Et; lia]. rewrite (nth_error_nth' _ t); [|rewrite rev_length; lia]. rewrite rev_nth by lia. replace (length (map (pair false) (BO F)) - S (NN * 2 - c - 1 - length (filter kN F)))%nat with c by lia. f_equal. apply nth_error_nth. exact Et. }
  assert (EN : forall k t, nth_error NF k = Some t -> exists e, nth_error neg k = Some (Some (lift e)) /\ ev_start e = fst t /\
     (if fst t then exists c, nth_error (BO F ++ NO F) c = Some (snd t) /\ nth_error NF (ev_index e) = Some (false, snd t) else nth_error (BO F ++ NO F) (ev_index e) = Some (snd t)) /\
     flag (EvtTokProofs.key lo (hiN hi x)) NF k (ev_new e)).
  { intros k t E. destruct (Nat.lt_ge_cases k (length (filter kN F))) as [K|K].
    - pose proof E as E0. unfold NF, NFin in E. rewrite nth_error_app1 in E by exact K. destruct (G2 k t E) as (f & r & D1 & D2 & D3). exists (Ev f (fst t) r). cbn [ev_start ev_index ev_new]. split; [exact D1|]. split; [reflexivity|]. split.
      + unfold refN in D3. pose proof (kN_of _ _ _ _ _ _ E) as KN. assert (I : In t F) by (apply nth_error_In, filter_In in E; tauto). destruct t as [[|] q]; cbn [fst snd] in *; [|exact D3].
        assert (IB : In q (BO F ++ NO F)) by (apply (in_BN n lo hi x F T); split; [apply all_in in I; exact I|]; unfold PrimTokProofs.kN in KN; cbn [fst snd orb] in KN; rewrite andb_true_r in KN; exact KN). apply In_nth_error in IB. destruct IB as (c & IB). exists c. split; [exact IB|]. destruct (inP q).
        * destruct D3 as (c' & D3 & ->). rewrite TL by exact (lt_of_nth _ _ _ D3). rewrite D3. reflexivity.
        * destruct D3 as [D3 _]. specialize (D3 (in_end q true I)). unfold NF, NFin. apply nth_prefix. exact D3.
      + apply flag_prefix; [exact K|]. assert (KE : forall j u, nth_error (filter kN F) j = Some u -> EvtTokProofs.key lo (hiN hi x) u = key u) by (intros j u J; apply key_N; exact (kN_of _ _ _ _ _ _ J)).
        unfold flag in *. rewrite D2. split; (intros [Z|(j & a & b & J1 & J2 & J3 & J4)]; [left; exact Z|right; exists j, a, b; split; [exact J1|split; [exact J2|split; [exact J3|]]]]); [rewrite (KE _ _ J2), (KE _ _ J3); exact J4|rewrite (KE _ _ J2), (KE _ _ J3) in J4; exact J4].
    - pose proof (lt_of_nth _ _ _ E) as K2. rewrite LNF in K2. set (c := (NN * 2 - k - 1)%nat). assert (Hc : (c < length (BO F))%nat) by (unfold c; lia). assert (Kc : k = (NN * 2 - c - 1)%nat) by (unfold c; lia). destruct (nth_error (BO F) c) as [q|] eqn:Q; [|apply nth_error_None in Q; lia].
      assert (Et : t = (false, q)). { rewrite Kc, (TL c Hc), Q in E. cbn [option_map] in E. congruence. } subst t. destruct (G3 c Hc) as (f & D1 & D2). rewrite <- Kc in D1. exists (Ev f false c). cbn [ev_start ev_index ev_new fst snd]. split; [exact D1|]. split; [reflexivity|]. split; [apply nth_prefix; exact Q|].
      assert (QB : both lo hi x q = true) by (apply nth_error_In, filter_In in Q; tauto). apply andb_true_iff in QB. assert (KT : EvtTokProofs.key lo (hiN hi x) (false, q) = x) by (unfold EvtTokProofs.key, hiN; cbn [fst snd]; rewrite (proj2 QB); reflexivity).
      assert (NE : (0 < length (filter kN F))%nat). { apply nth_error_In, (in_BO n lo hi x F T) in Q. destruct Q as [Q _]. assert (I : In (true, q) (filter kN F)) by (apply (in_kN n lo hi x F T); split; [exact Q|unfold PrimTokProofs.kN; cbn [fst snd orb]; rewrite (proj1 QB); reflexivity]). destruct (filter kN F); [destruct I|cbn [length]; lia]. }
      unfold flag. rewrite D2. split.
      + intros (_ & D3 & D4). right. assert (k = length (filter kN F)) by lia. destruct (nth_error (filter kN F) (k - 1)) as [u|] eqn:U; [|apply nth_error_None in U; lia]. exists (k - 1)%nat, u, (false, q). split; [lia|]. split; [unfold NF, NFin; apply nth_prefix; exact U|]. split; [exact E|]. rewrite KT, (key_N lo hi x u (kN_of _ _ _ _ _ _ U)). apply D4. exact (nth_error_In _ _ U).
      + intros [Z|(j & a & b & J1 & J2 & J3 & J4)]; [lia|]. rewrite E in J3. injection J3 as <-. rewrite KT in J4. destruct (Nat.lt_ge_cases j (length (filter kN F))) as [Y|Y].
        * split; [exact I|]. split; [lia|]. unfold NF, NFin in J2. rewrite nth_error_app1 in J2 by exact Y. rewrite (key_N lo hi x a (kN_of _ _ _ _ _ _ J2)) in J4. intros w I0. apply In_nth_error in I0. destruct I0 as (m & M). pose proof (lt_of_nth _ _ _ M). destruct (Nat.eq_dec m j) as [->|NJ]; [rewrite J2 in M; injection M as <-; exact J4|]. pose proof (SS_nth (sorted_N n lo hi x F T F [] (eq_sym (app_nil_r F))) m j w a ltac:(lia) M J2) as Z. cbn in Z. lra.
        * exfalso. assert (Hj : (NN * 2 - j - 1 < length (BO F))%nat) by lia. pose proof (TL _ Hj) as TJ. replace (NN * 2 - (NN * 2 - j - 1) - 1)%nat with j in TJ by lia. rewrite TJ in J2. destruct (nth_error (BO F) (NN * 2 - j - 1)) as [q'|] eqn:Q'; [|discriminate]. injection J2 as <-. apply nth_error_In, filter_In in Q'. destruct Q' as [_ Q']. apply andb_true_iff in Q'. unfold EvtTokProofs.key, hiN in J4. cbn [fst snd] in J4. rewrite (proj2 Q') in J4. lra. }
  destruct (collect (fun t k e => nth_error neg k = Some (Some (lift e)) /\ ev_start e = fst t /\
     (if fst t then exists c, nth_error (BO F ++ NO F) c = Some (snd t) /\ nth_error NF (ev_index e) = Some (false, snd t) else nth_error (BO F ++ NO F) (ev_index e) = Some (snd t)) /\
     flag (EvtTokProofs.key lo (hiN hi x)) NF k (ev_new e)) NF) as (nev & L1 & L3); [intros k t E; exact (EN k t E)|].
  exists nev. split; [apply nth_ext_map; [lia|]; intros k e E; destruct (L3 k e E) as (t & _ & D1 & _); exact D1|].
  pose proof (child_N n lo hi x F T) as TN. fold NF in TN. pose proof (on_once _ _ _ _ TN) as ND.
  assert (TR : toks_ok NN (EvtSpec.lo d (map (o_view O) negs)) (EvtSpec.hi d (map (o_view O) negs)) (map (rename (BO F ++ NO F)) NF)) by (apply (rename_ok _ _ _ _ _ _ TN); exact CO).
  assert (AN : Forall2 (tok_of (nth_error nev)) nev (map (rename (BO F ++ NO F)) NF)).
  { apply F2_of_nth; [rewrite map_length; lia|]. intros k e t E Et. rewrite nth_error_map in Et. destruct (L3 k e E) as (u & U1 & U2 & U3 & U4 & _). rewrite U1 in Et. cbn [option_map] in Et. injection Et as <-. unfold tok_of, rename. cbn [fst snd]. split; [symmetry; exact U3|]. rewrite U3. destruct (fst u).
    - destruct U4 as (c & C1 & C2). destruct (nth_error nev (ev_index e)) as [g|] eqn:G; [|apply nth_error_None in G; pose proof (lt_of_nth _ _ _ C2); lia]. exists g. split; [reflexivity|]. destruct (L3 _ g G) as (w & W1 & W2 & W3 & W4 & _). rewrite C2 in W1. injection W1 as <-. cbn [fst snd] in *. split; [exact W3|]. symmetry. apply nth_index; assumption.
    - symmetry. apply nth_index; assumption. }
  rewrite <- LN in TR. rewrite <- (map_length (o_view O) negs) in TR. apply (events_of_toks d (map (o_view O) negs) nev _ AN TR). intros k a A. destruct (L3 k a A) as (t & T1 & _ & _ & _ & T5). unfold flag in T5. rewrite T5.
  assert (KK : forall u, In u NF -> EvtTokProofs.key (EvtSpec.lo d (map (o_view O) negs)) (EvtSpec.hi d (map (o_view O) negs)) (rename (BO F ++ NO F) u) == EvtTokProofs.key lo (hiN hi x) u).
  { intros u I. apply (on_all _ _ _ _ TN) in I. apply index_nth in I. destruct (CO _ _ I) as [X Y]. unfold EvtTokProofs.key, rename. cbn [fst snd]. destruct (fst u); assumption. }
  split; (intros [Z|(j & u & w & J1 & J2 & J3 & J4)]; [left; exact Z|right]).
  - exists j, (rename (BO F ++ NO F) u), (rename (BO F ++ NO F) w). rewrite !nth_error_map, J2, J3. split; [exact J1|]. split; [reflexivity|]. split; [reflexivity|]. rewrite (KK u (nth_error_In _ _ J2)), (KK w (nth_error_In _ _ J3)). exact J4.
  - rewrite nth_error_map in J2, J3. destruct (nth_error NF j) as [u'|] eqn:U; [|discriminate]. destruct (nth_error NF k) as [w'|] eqn:V; [|discriminate]. injection J2 as <-. injection J3 as <-. exists j, u', w'. split; [exact J1|]. split; [exact U|]. split; [reflexivity|]. rewrite (KK u' (nth_error_In _ _ U)), (KK w' (nth_error_In _ _ V)) in J4. exact J4.
Qed.
Lemma len2P : (PP * 2 = length (filter kP F))%nat.
Proof.
  assert (H : toks_ok PP (fun c => loP lo x (nth c (BO F ++ PO F) 0%nat)) (fun c => hi (nth c (BO F ++ PO F) 0%nat)) (map (rename (BO F ++ PO F)) (filter kP F))).
  { apply (rename_ok _ _ _ _ _ _ (child_P n lo hi x F T)). intros c q Q. rewrite (nth_error_nth _ _ 0%nat Q). split; reflexivity. }
  apply toks_length in H. rewrite map_length in H. lia.
Qed.
Lemma pos_events ev (poss : list P) : evI lo hi x F evs F ev ->
  (forall c q, nth_error (BO F ++ PO F) c = Some q -> EvtSpec.lo d (map (o_view O) poss) c == loP lo x q /\ EvtSpec.hi d (map (o_view O) poss) c == hi q) -> length poss = PP ->
  exists pev, firstn (PP * 2) ev = map lift pev /\ events_ok d (map (o_view O) poss) pev.
Proof.
  intros [V1 V2 _] CO LN. set (NF := filter kP F). pose proof len2P as L2. fold NF in L2.
  assert (EN : forall k t, nth_error NF k = Some t -> exists e, nth_error ev k = Some (lift e) /\ ev_start e = fst t /\
     (if fst t then nth_error NF (ev_index e) = Some (false, snd t) else nth_error (BO F ++ PO F) (ev_index e) = Some (snd t)) /\
     flag (EvtTokProofs.key (loP lo x) hi) NF k (ev_new e)).
  { intros k t E. destruct (V2 k t E) as (f & r & D1 & D2 & D3). exists (Ev f (fst t) r). cbn [ev_start ev_index ev_new]. split; [exact D1|]. split; [reflexivity|]. split; [|exact D2]. unfold refP in D3. assert (I : In t F) by (apply nth_error_In, filter_In in E; tauto). destruct t as [[|] q]; cbn [fst snd] in *; [|exact D3]. destruct D3 as [D3 _]. exact (D3 (in_end q true I)). }
  destruct (collect (fun t k e => nth_error ev k = Some (lift e) /\ ev_start e = fst t /\
     (if fst t then nth_error NF (ev_index e) = Some (false, snd t) else nth_error (BO F ++ PO F) (ev_index e) = Some (snd t)) /\
     flag (EvtTokProofs.key (loP lo x) hi) NF k (ev_new e)) NF) as (pev & L1 & L3); [intros k t E; exact (EN k t E)|].
  assert (LF : (PP * 2 <= length ev)%nat) by (rewrite V1, L2; unfold NF; apply filter_length_le).
  exists pev. split.
  { apply nth_ext_map; [rewrite firstn_length; lia|]. intros k e E. destruct (L3 k e E) as (t & _ & D1 & _). pose proof (lt_of_nth _ _ _ E). rewrite <- (firstn_skipn (PP * 2) ev), nth_error_app1 in D1 by (rewrite firstn_length; lia). exact D1. }
  pose proof (child_P n lo hi x F T) as TN. fold NF in TN. pose proof (on_once _ _ _ _ TN) as ND.
  assert (TR : toks_ok PP (EvtSpec.lo d (map (o_view O) poss)) (EvtSpec.hi d (map (o_view O) poss)) (map (rename (BO F ++ PO F)) NF)) by (apply (rename_ok _ _ _ _ _ _ TN); exact CO).
  assert (AN : Forall2 (tok_of (nth_error pev)) pev (map (rename (BO F ++ PO F)) NF)).
  { apply F2_of_nth; [rewrite map_length; lia|]. intros k e t E Et. rewrite nth_error_map in Et. destruct (L3 k e E) as (u & U1 & U2 & U3 & U4 & _). rewrite U1 in Et. cbn [option_map] in Et. injection Et as <-. unfold tok_of, rename. cbn [fst snd]. split; [symmetry; exact U3|]. rewrite U3. destruct (fst u).
    - destruct (nth_error pev (ev_index e)) as [g|] eqn:G; [|apply nth_error_None in G; pose proof (lt_of_nth _ _ _ U4); lia]. exists g. split; [reflexivity|]. destruct (L3 _ g G) as (w & W1 & W2 & W3 & W4 & _). rewrite U4 in W1. injection W1 as <-. cbn [fst snd] in *. split; [exact W3|]. symmetry. apply nth_index; assumption.
    - symmetry. apply nth_index; assumption. }
  rewrite <- LN in TR. rewrite <- (map_length (o_view O) poss) in TR. apply (events_of_toks d (map (o_view O) poss) pev _ AN TR). intros k a A. destruct (L3 k a A) as (t & T1 & _ & _ & _ & T5). unfold flag in T5. rewrite T5.
  assert (KK : forall u, In u NF -> EvtTokProofs.key (EvtSpec.lo d (map (o_view O) poss)) (EvtSpec.hi d (map (o_view O) poss)) (rename (BO F ++ PO F) u) == EvtTokProofs.key (loP lo x) hi u).
  { intros u I. apply (on_all _ _ _ _ TN) in I. apply index_nth in I. destruct (CO _ _ I) as [X Y]. unfold EvtTokProofs.key, rename. cbn [fst snd]. destruct (fst u); assumption. }
  split; (intros [Z|(j & u & w & J1 & J2 & J3 & J4)]; [left; exact Z|right]).
  - exists j, (rename (BO F ++ PO F) u), (rename (BO F ++ PO F) w). rewrite !nth_error_map, J2, J3. split; [exact J1|]. split; [reflexivity|]. split; [reflexivity|]. rewrite (KK u (nth_error_In _ _ J2)), (KK w (nth_error_In _ _ J3)). exact J4.
  - rewrite nth_error_map in J2, J3. destruct (nth_error NF j) as [u'|] eqn:U; [|discriminate]. destruct (nth_error NF k) as [w'|] eqn:V; [|discriminate]. injection J2 as <-. injection J3 as <-. exists j, u', w'. split; [exact J1|]. split; [exact U|]. split; [reflexivity|]. rewrite (KK u' (nth_error_In _ _ U)), (KK w' (nth_error_In _ _ V)) in J4. exact J4.
Qed.

(** ** The result *)
Notation DN := (DN O ps lo hi x). Notation DP := (DP O ps lo hi x).
Lemma widths_of q : (q < n)%nat -> lo q <= hi q.
Proof. intros L. apply (EvtProofs.widths d vs FIT). rewrite map_length. exact L. Qed.
Lemma lists_of (f : nat -> bool) (C : nat -> Prop) : (forall q, (q < n)%nat -> (f q = true <-> C q)) -> lists n C (filter f (starts F)).
Proof.
  intros H. split; [apply NoDup_filter, NoDup_starts; exact (t_nodup _ _ _ _ T)|]. intros q. rewrite filter_In, in_starts, all_in. cbn [snd]. split; intros [A B]; (split; [exact A|]); apply (H q A); exact B.
Qed.
Lemma bord_iff q : (q < n)%nat -> (bord lo hi x q = true <-> lo q == x /\ hi q == x).
Proof.
  intros L. unfold bord. rewrite andb_true_iff, !negb_true_iff, inN_false, inP_false. pose proof (widths_of q L). split; [intros [A B]; split; lra|intros [A B]; split; lra].
Qed.
Lemma down_iff q : (q < n)%nat -> (down O ps q = true <-> faces_down O ps q).
Proof. intros L. unfold down, faces_down. destruct (nth_error ps q) as [r|]; [|split; [discriminate|intros (r & E & _); discriminate]]. split; [intros E; exists r; auto|intros (r' & E & X); congruence]. Qed.
Lemma fitted q r : nth_error ps q = Some r -> poly_fit d (o_view O r).
Proof. intros E. rewrite Forall_forall in FIT. apply FIT, in_map. exact (nth_error_In _ _ E). Qed.
Lemma splits_of q r : nth_error ps q = Some r -> both lo hi x q = true -> splits O d x r.
Proof. intros E B. apply andb_true_iff in B. destruct B as [B1 B2]. apply inN_iff in B1. apply inP_iff in B2. destruct (lo_of q r E) as [X Y]. rewrite X in B1. rewrite Y in B2. exact (SP r (nth_error_In _ _ E) B1 B2). Qed.
Lemma Forall2_impl_in {A B} (R S : A -> B -> Prop) l l' : Forall2 R l l' -> (forall a b, In a l -> R a b -> S a b) -> Forall2 S l l'.
Proof. induction 1 as [|a b l l' H _ IH]; intros M; constructor; [apply M; [left; reflexivity|exact H]|]. apply IH. intros a' b' I. apply M. right. exact I. Qed.
Lemma coords_at (l : list P) c y : nth_error l c = Some y -> EvtSpec.lo d (map (o_view O) l) c = coord d (e_min (o_view O y)) /\ EvtSpec.hi d (map (o_view O) l) c = coord d (e_max (o_view O y)).
Proof. intros E. unfold EvtSpec.lo, EvtSpec.hi. rewrite nth_error_map, E. auto. Qed.
Lemma fit_all (l : list P) : (forall k y, nth_error l k = Some y -> poly_fit d (o_view O y)) -> Forall (poly_fit d) (map (o_view O) l).
Proof. intros H. apply Forall_forall. intros v I. apply in_map_iff in I. destruct I as (y & <- & I). apply In_nth_error in I. destruct I as (k & K). exact (H k y K). Qed.
Lemma result_ok s : inv F s -> exists negs poss nev pev, divided O d x ps (BO F) (NO F) (PO F) (DP F) (DN F) negs poss nev pev s /\ length negs = NN /\ length poss = PP.
Proof.
  intros V. pose proof (z_0 _ _ _ _ _ _ _ _ _ _ V) as V0. destruct V0 as [A1 A2 A3 A4 A5 A6 A7 A8 A9 A10].
  destruct A4 as (an & cn & EN & N1 & N2 & _), A5 as (ap & cp & EP & P1 & P2 & _). rewrite Nat.sub_diag in EN, EP. cbn [repeat app] in EN, EP. rewrite <- map_app in EN, EP. set (negs := an ++ cn) in *. set (poss := ap ++ cp) in *.
  pose proof (Forall2_length N1) as LN1. pose proof (Forall2_length N2) as LN2. pose proof (Forall2_length P1) as LP1. pose proof (Forall2_length P2) as LP2.
  assert (LN : length negs = NN) by (unfold negs; rewrite !app_length; lia). assert (LP : length poss = PP) by (unfold poss; rewrite !app_length; lia).
  assert (BB : forall k q, (k < length (BO F))%nat -> nth_error (BO F) k = Some q -> both lo hi x q = true) by (intros k q _ E; apply nth_error_In, filter_In in E; tauto).
  assert (CN' : forall c q, nth_error (BO F ++ NO F) c = Some q -> exists y, nth_error negs c = Some y /\ poly_fit d (o_view O y) /\ coord d (e_min (o_view O y)) == lo q /\ coord d (e_max (o_view O y)) == hiN hi x q).
  { intros c q E. destruct (F2_split _ _ _ _ _ _ N1 N2 c q E) as (y & Y1 & [[Y2 Y3]|[Y2 Y3]]); exists y; (split; [exact Y1|]).
    - rewrite nth_error_app1 in E by exact Y2. pose proof (BB c q Y2 E) as B. destruct Y3 as (r & cc & R1 & R2 & ->). destruct (splits_of q r R1 B) as (a & b & S1 & S2 & S3 & S4 & S5 & _). rewrite R2 in S1. injection S1 as ->. cbn [fst]. split; [exact S2|]. destruct (lo_of q r R1) as [X Y]. rewrite X. split; [exact S4|]. apply andb_true_iff in B. unfold hiN. rewrite (proj2 B). exact S5.
    - rewrite nth_error_app2 in E by exact Y2. apply nth_error_In, filter_In in E. destruct E as [_ E]. apply andb_true_iff in E. destruct E as [E0 E]. apply negb_true_iff in E. destruct Y3 as (r & R1 & R2). destruct (lo_of q r R1) as [X Y]. assert (EV : o_view O y = o_view O r). { destruct (Qle_bool x (hi q)) eqn:Z; [|congruence]. apply Qle_bool_iff in Z. apply inN_iff in E0. pose proof (proj1 (inP_false hi x q) E) as E1. destruct (MKN r (nth_error_In _ _ R1)) as (a & T1 & T2); [rewrite <- X; exact E0|rewrite <- Y; lra|congruence]. } rewrite EV. rewrite X. unfold hiN. rewrite E, Y. split; [exact (fitted q r R1)|split; reflexivity]. }
  assert (CP' : forall c q, nth_error (BO F ++ PO F) c = Some q -> exists y, nth_error poss c = Some y /\ poly_fit d (o_view O y) /\ coord d (e_min (o_view O y)) == loP lo x q /\ coord d (e_max (o_view O y)) == hi q).
  { intros c q E. destruct (F2_split _ _ _ _ _ _ P1 P2 c q E) as (y & Y1 & [[Y2 Y3]|[Y2 Y3]]); exists y; (split; [exact Y1|]).
    - rewrite nth_error_app1 in E by exact Y2. pose proof (BB c q Y2 E) as B. destruct Y3 as (r & cc & R1 & R2 & ->). destruct (splits_of q r R1 B) as (a & b & S1 & S2 & S3 & S4 & S5 & S6 & S7). rewrite R2 in S1. injection S1 as ->. cbn [snd]. split; [exact S3|]. destruct (lo_of q r R1) as [X Y]. rewrite Y. apply andb_true_iff in B. unfold loP. rewrite (proj1 B). split; [exact S6|exact S7].
    - rewrite nth_error_app2 in E by exact Y2. apply nth_error_In, filter_In in E. destruct E as [_ E]. apply andb_true_iff in E. destruct E as [E E0]. apply negb_true_iff in E. destruct Y3 as (r & R1 & R2). destruct (lo_of q r R1) as [X Y]. assert (EV : o_view O y = o_view O r). { destruct (Qle_bool (lo q) x) eqn:Z; [|congruence]. apply Qle_bool_iff in Z. apply inP_iff in E0. pose proof (proj1 (inN_false lo x q) E) as E1. destruct (MKP r (nth_error_In _ _ R1)) as (a & T1 & T2); [rewrite <- X; lra|rewrite <- Y; exact E0|congruence]. } rewrite EV. rewrite Y. unfold loP. rewrite E, X. split; [exact (fitted q r R1)|split; reflexivity]. }
  destruct (neg_events (s_neg s) negs (len2 n lo hi x F T)) as (nev & E1 & E2); [| |exact LN|].
  { apply (neg_none lo hi x F F (p_begin p < length F)%nat); [split; auto|exact A2]. }
  { intros c q E. destruct (CN' c q E) as (y & Y1 & _ & Y3 & Y4). destruct (coords_at negs c y Y1) as [X Y]. rewrite X, Y. auto. }
  destruct (pos_events (s_ev s) poss A1) as (pev & E3 & E4); [|exact LP|].
  { intros c q E. destruct (CP' c q E) as (y & Y1 & _ & Y3 & Y4). destruct (coords_at poss c y Y1) as [X Y]. rewrite X, Y. auto. }
  exists negs, poss, nev, pev. split; [|auto].
  assert (FN : firstn (length (BO F)) negs = an) by (unfold negs; rewrite LN1, firstn_app, Nat.sub_diag, firstn_all; cbn [firstn]; apply app_nil_r). assert (SN : skipn (length (BO F)) negs = cn) by (unfold negs; rewrite LN1, skipn_app, Nat.sub_diag, skipn_all; reflexivity).
  assert (FP : firstn (length (BO F)) poss = ap) by (unfold poss; rewrite LP1, firstn_app, Nat.sub_diag, firstn_all; cbn [firstn]; apply app_nil_r). assert (SPo : skipn (length (BO F)) poss = cp) by (unfold poss; rewrite LP1, skipn_app, Nat.sub_diag, skipn_all; reflexivity).
  destruct A3 as [M1 M2]. assert (IB : forall q, In q (BO F ++ NO F) -> (q < n)%nat /\ inN q = true) by (intros q; apply (in_BN n lo hi x F T)). pose proof (nd_BN n lo hi x F T) as ND1. pose proof (nd_BP n lo hi x F T) as ND2.
  assert (MN : forall c q, nth_error (BO F ++ NO F) c = Some q -> nth_error (s_map s) q = Some (Some (Idx c))).
  { intros c q E. destruct (IB q (nth_error_In _ _ E)) as [Q1 Q2]. destruct (M2 q) as (rr & R1 & R2); [apply all_in; exact Q1|]. unfold mapref in R2. rewrite Q2 in R2. destruct R2 as (c' & -> & R2). rewrite (NoDup_nth ND1 _ _ _ E R2). exact R1. }
  split.
  - apply lists_of. intros q _. unfold both. rewrite andb_true_iff, inN_iff, inP_iff. reflexivity.
  - apply lists_of. intros q _. unfold nonly. rewrite andb_true_iff, negb_true_iff, inN_iff, inP_false. reflexivity.
  - apply lists_of. intros q _. unfold ponly. rewrite andb_true_iff, negb_true_iff, inN_false, inP_iff. reflexivity.
  - apply lists_of. intros q L. rewrite andb_true_iff, (bord_iff q L), (down_iff q L). tauto.
  - apply lists_of. intros q L. rewrite andb_true_iff, negb_true_iff, (bord_iff q L), <- (down_iff q L). destruct (down O ps q); intuition congruence.
  - exact EN.
  - exact EP.
  - rewrite FN. apply (Forall2_impl_in _ _ _ _ N1). intros q a _ (r & [c1 c2] & R1 & R2 & ->). exists r, c2. auto.
  - rewrite SN. apply (Forall2_impl_in _ _ _ _ N2). intros q a I (r & R1 & R2). exists r. split; [exact R1|]. apply filter_In in I. destruct I as [_ I]. apply andb_true_iff in I. destruct I as [_ I]. apply negb_true_iff, inP_false in I. destruct (Qle_bool x (hi q)) eqn:Z; [apply Qle_bool_iff in Z; split; [auto|intros X; exfalso; apply X; lra]|split; [intros X; exfalso|intros _; congruence]]. assert (Y : Qle_bool x (hi q) = true) by (apply Qle_bool_iff; lra). congruence.
  - rewrite FP. apply (Forall2_impl_in _ _ _ _ P1). intros q a _ (r & [c1 c2] & R1 & R2 & ->). exists r, c1. auto.
  - rewrite SPo. apply (Forall2_impl_in _ _ _ _ P2). intros q a I (r & R1 & R2). exists r. split; [exact R1|]. apply filter_In in I. destruct I as [_ I]. apply andb_true_iff in I. destruct I as [I _]. apply negb_true_iff, inN_false in I. destruct (Qle_bool (lo q) x) eqn:Z; [apply Qle_bool_iff in Z; split; [auto|intros X; exfalso; apply X; lra]|split; [intros X; exfalso|intros _; congruence]]. assert (Y : Qle_bool (lo q) x = true) by (apply Qle_bool_iff; lra). congruence.
  - exact A6.
  - exact A7.
  - exact M1.
  - intros c q E. apply MN. apply nth_prefix. exact E.
  - intros c q E. apply MN. rewrite nth_error_app2 by lia. replace (length (BO F) + c - length (BO F))%nat with c by lia. exact E.
  - intros c q E. assert (E' : nth_error (BO F ++ PO F) (length (BO F) + c) = Some q) by (rewrite nth_error_app2 by lia; replace (length (BO F) + c - length (BO F))%nat with c by lia; exact E). pose proof (nth_error_In _ _ E) as I. apply (in_PO n lo hi x F T) in I. destruct I as [Q1 Q2]. apply andb_true_iff in Q2. destruct Q2 as [Q2 Q3]. apply negb_true_iff in Q2.
    destruct (M2 q) as (rr & R1 & R2); [apply all_in; exact Q1|]. unfold mapref in R2. rewrite Q2, Q3 in R2. destruct R2 as (c' & -> & R2). rewrite <- (NoDup_nth ND2 _ _ _ E' R2) in R1. rewrite R1, LN. do 3 f_equal. lia.
  - intros q I. assert (Q : (q < n)%nat /\ bord lo hi x q = true). { destruct I as [I|I]; apply filter_In in I; destruct I as [I1 I2]; apply andb_true_iff in I2; apply in_starts, all_in in I1; split; [exact I1|apply I2|exact I1|apply I2]. } destruct Q as [Q1 Q2]. destruct (M2 q) as (rr & R1 & R2); [apply all_in; exact Q1|]. apply andb_true_iff in Q2. rewrite !negb_true_iff in Q2. unfold mapref in R2. rewrite (proj1 Q2), (proj2 Q2) in R2. subst rr. exact R1.
  - exact E1.
  - rewrite LP. exact E3.
  - apply fit_all. intros k y E. pose proof (lt_of_nth _ _ _ E) as K. destruct (nth_error (BO F ++ NO F) k) as [q|] eqn:Q; [|apply nth_error_None in Q; lia]. destruct (CN' k q Q) as (y' & Y1 & Y2 & _). congruence.
  - apply fit_all. intros k y E. pose proof (lt_of_nth _ _ _ E) as K. destruct (nth_error (BO F ++ PO F) k) as [q|] eqn:Q; [|apply nth_error_None in Q; lia]. destruct (CP' k q Q) as (y' & Y1 & Y2 & _). congruence.
  - exact E2.
  - exact E4.
Qed.

Context (OK : events_ok d vs evs) (PI : (p_index p < n * 2)%nat) (PE : exists e, nth_error evs (p_index p) = Some e /\ ev_start e = false)
  (SH : dbg = true -> split_plane dbg d vs evs p = Ok h) (HH : dbg = true -> hs_eq h h = Ok true).
Lemma primary_ok : exists s negs poss nev pev, apply_primary O dbg h ps p d evs = Ok s /\ divided O d x ps (BO F) (NO F) (PO F) (DP F) (DN F) negs poss nev pev s.
Proof.
  destruct (loop_ok F [] _ eq_refl init_ok) as (s & S1 & S2). destruct (result_ok s S2) as (negs & poss & nev & pev & D & LN & LP). exists s, negs, poss, nev, pev. split; [|exact D].
  unfold apply_primary. rewrite (proj2 (Nat.ltb_lt _ _) PI), check_true. cbn [rbind]. destruct PE as (e & PE1 & PE2).
  assert (X1 : (if dbg then rbind (get evs (p_index p)) (fun e => check dbg (negb (ev_start e))) else Ok tt) = Ok tt) by (destruct dbg; [|reflexivity]; rewrite (get_ok _ _ _ PE1); cbn [rbind]; rewrite PE2; reflexivity). rewrite X1. cbn [rbind].
  assert (X2 : (if dbg then rbind (split_plane dbg d vs evs p) (fun h' => rbind (hs_eq h h') (fun b => check dbg b)) else Ok tt) = Ok tt). { destruct dbg eqn:DB; [|reflexivity]. rewrite (SH eq_refl). cbn [rbind]. rewrite (HH eq_refl). reflexivity. } rewrite X2. cbn [rbind].
  rewrite (assert_new_ok dbg d vs evs FIT OK). cbn [rbind]. rewrite F_len in S1. cbn [length] in S1. rewrite (Nat.mul_comm n 2), S1. cbn [rbind].
  pose proof (z_0 _ _ _ _ _ _ _ _ _ _ S2) as V0. pose proof (dv_negs _ _ _ _ _ _ _ _ _ _ _ _ _ _ D) as EN. pose proof (dv_poss _ _ _ _ _ _ _ _ _ _ _ _ _ _ D) as EP. pose proof (len2 n lo hi x F T) as L2. pose proof len2P as L2P.
  rewrite (z_nu _ _ _ _ _ _ _ _ _ _ V0), (z_extra _ _ _ _ _ _ _ _ _ _ V0), (z_pu _ _ _ _ _ _ _ _ _ _ V0), EN, EP, !map_length, LN, LP, <- L2, <- L2P, !Nat.eqb_refl, !check_true. cbn [rbind].
  rewrite !views_ok. cbn [rbind]. assert (LE : length nev = (NN * 2)%nat) by (rewrite (eo_length _ _ _ (dv_negs_ok _ _ _ _ _ _ _ _ _ _ _ _ _ _ D)), map_length, LN; lia). assert (LE' : length pev = (PP * 2)%nat) by (rewrite (eo_length _ _ _ (dv_poss_ok _ _ _ _ _ _ _ _ _ _ _ _ _ _ D)), map_length, LP; lia).
  assert (R1 : read_events (s_neg s) (NN * 2) = Ok nev) by (rewrite (dv_nev _ _ _ _ _ _ _ _ _ _ _ _ _ _ D), <- LE; apply read_ok).
  assert (R2 : read_events (map Some (s_ev s)) (PP * 2) = Ok pev). { rewrite <- (firstn_skipn (PP * 2) (s_ev s)), map_app. pose proof (dv_pev _ _ _ _ _ _ _ _ _ _ _ _ _ _ D) as Z. rewrite LP in Z. rewrite Z. rewrite read_app by (rewrite !map_length; lia). rewrite map_map, <- LE'. apply read_ok. }
  rewrite R1, R2, !assert_new_ok; [destruct dbg; reflexivity| | | |]; apply D.
Qed.
End Top.
