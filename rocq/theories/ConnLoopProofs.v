(** ProcessNeedPartners: the loop ends, and afterwards every active edge is
    connected with its counterpart. *)
From Coq Require Import List Bool Arith ZArith QArith Lia ZifyBool Lqa Sorted Permutation.
From Verif Require Import BigUIntModel GeoModel GeoSpec TriSpec ConnModel ConnSpec ConnListProofs ConnPieceProofs.
Import ListNotations.
Open Scope Q_scope.

(** ** The fields of the entries as functions *)
Definition part (l : list active) (i : nat) : option nat := match ent l i with Some e => a_partner e | None => None end.
Definition pcv (l : list active) (i : nat) : nat := match ent l i with Some e => a_piece e | None => O end.
Definition curv (l : list active) (i : nat) : bool := match ent l i with Some e => a_cur e | None => false end.
Definition keyv (l : list active) (i : nat) : key := match ent l i with Some e => a_key e | None => (true, V2 0 0) end.
Lemma ent_view l i : In i (ids l) -> ent l i = Some (Act i (keyv l i) (pcv l i) (part l i) (curv l i)).
Proof. intros I. destruct (ent_in l i I) as ([a k p q c] & E & X). unfold keyv, pcv, part, curv. rewrite E. cbn in *. subst a. reflexivity. Qed.
(** Only the partners or only the piece of an entry changed. *)
Definition same_rest (l l' : list active) : Prop := ids l' = ids l /\ forall j, keyv l' j = keyv l j /\ curv l' j = curv l j.
Lemma same_rest_refl l : same_rest l l.
Proof. split; [reflexivity|intros; auto]. Qed.
Lemma same_rest_trans l1 l2 l3 : same_rest l1 l2 -> same_rest l2 l3 -> same_rest l1 l3.
Proof. intros [A B] [C D]. split; [congruence|]. intros j. destruct (B j), (D j). split; congruence. Qed.
Lemma set_partner_view l i o : In i (ids l) -> let l' := set_act l i (set_partner o) in same_rest l l' /\ (forall j, pcv l' j = pcv l j) /\ forall j, part l' j = upd (part l) i o j.
Proof.
  intros I l'. assert (E : forall j, ent l' j = if (j =? i)%nat then option_map (set_partner o) (ent l j) else ent l j) by (intros j; apply ent_set_act; reflexivity).
  split; [split; [apply ids_set_act; reflexivity|]|split].
  - intros j. unfold keyv, curv. rewrite E. destruct (j =? i)%nat; [destruct (ent l j); auto|auto].
  - intros j. unfold pcv. rewrite E. destruct (j =? i)%nat; [destruct (ent l j); auto|auto].
  - intros j. unfold part, upd. rewrite E. destruct (j =? i)%nat eqn:B; [|reflexivity]. apply Nat.eqb_eq in B. subst j. rewrite (ent_view l i I). reflexivity.
Qed.
Lemma set_piece_view l i p : In i (ids l) -> let l' := set_act l i (set_piece p) in same_rest l l' /\ (forall j, part l' j = part l j) /\ forall j, pcv l' j = upd (pcv l) i p j.
Proof.
  intros I l'. assert (E : forall j, ent l' j = if (j =? i)%nat then option_map (set_piece p) (ent l j) else ent l j) by (intros j; apply ent_set_act; reflexivity).
  split; [split; [apply ids_set_act; reflexivity|]|split].
  - intros j. unfold keyv, curv. rewrite E. destruct (j =? i)%nat; [destruct (ent l j); auto|auto].
  - intros j. unfold part. rewrite E. destruct (j =? i)%nat; [destruct (ent l j); auto|auto].
  - intros j. unfold pcv, upd. rewrite E. destruct (j =? i)%nat eqn:B; [|reflexivity]. apply Nat.eqb_eq in B. subst j. rewrite (ent_view l i I). reflexivity.
Qed.

(** ** Counting wrong partners *)
Definition wrongb (o : option nat) (t : nat) : bool := match o with Some p => negb (p =? t)%nat | None => false end.
Definition wrong (A : list nat) (tw : nat -> nat) (p : nat -> option nat) : nat := length (filter (fun a => wrongb (p a) (tw a)) A).
Lemma wrong_ext A tw p p' : (forall a, In a A -> p a = p' a) -> wrong A tw p = wrong A tw p'.
Proof. intros H. unfold wrong. f_equal. apply filter_ext_in. intros a I. rewrite (H a I). reflexivity. Qed.
Lemma wrong_upd A tw p i o : NoDup A -> In i A -> wrongb o (tw i) = false -> (wrong A tw (upd p i o) + (if wrongb (p i) (tw i) then 1 else 0) = wrong A tw p)%nat.
Proof.
  unfold wrong. induction A as [|a A IH]; [intros _ []|]. intros N I W. inversion N as [|? ? N1 N2]; subst. cbn [filter]. destruct (Nat.eq_dec a i) as [->|D].
  - unfold upd at 1. rewrite Nat.eqb_refl, W.
    replace (filter (fun a => wrongb (upd p i o a) (tw a)) A) with (filter (fun a => wrongb (p a) (tw a)) A). { destruct (wrongb (p i) (tw i)); cbn [length]; lia. }
    apply filter_ext_in. intros a Ia. unfold upd. replace (a =? i)%nat with false; [reflexivity|]. symmetry. apply Nat.eqb_neq. intros ->. contradiction.
  - destruct I as [I|I]; [contradiction|]. specialize (IH N2 I W). unfold upd at 1. replace (a =? i)%nat with false by lia. destruct (wrongb (p a) (tw a)); cbn [length]; lia.
Qed.
Lemma wrong_le A tw p : (wrong A tw p <= length A)%nat.
Proof. unfold wrong. induction A as [|a A IH]; [cbn; lia|]. cbn [filter]. destruct (wrongb _ _); cbn [length]; lia. Qed.

Lemma check_true dbg b : b = true -> check dbg b = Ok tt.
Proof. intros ->. unfold check. destruct dbg; reflexivity. Qed.

Section Loop.
Context (s : nat) (hs : list half) (okp : hpoint3 -> Prop) (gen : Q -> Prop) (pair : Q -> nat -> nat -> Prop) (rk : nat -> Z).
Context (pol_forward : forall i, (i < length hs)%nat -> (pol s hs i = true <-> forward s (hat hs i))).
Context (loc_lt_ok : forall a b, okp a -> okp b -> (loc_lt s a b = true <-> along s a < along s b)).
Notation PI := (PI s hs okp gen pair).
Notation pol := (pol s hs).

Lemma maybe_split_ok dbg st a loc x A stt tw : PI x A (pcv (c_active st)) stt tw (c_pieces st) -> ids (c_active st) = A -> In a A -> okp loc -> along s loc == x ->
  keyv (c_active st) a = h_key s (hat hs a) -> stt a = (if curv (c_active st) a then Fresh else Stale) ->
  exists st', maybe_split dbg s st a loc = Ok st' /\ same_rest (c_active st) (c_active st') /\ (forall j, part (c_active st') j = part (c_active st) j) /\
    c_need st' = c_need st /\ c_errors st' = c_errors st /\ PI x A (pcv (c_active st')) (upd stt a Fresh) tw (c_pieces st').
Proof.
  intros P Ids I Ol Lx K St. unfold maybe_split. rewrite (get_act_ent _ _ _ (ent_view (c_active st) a ltac:(rewrite Ids; exact I))). cbn [rbind a_cur a_piece a_key].
  destruct (curv (c_active st) a) eqn:C.
  - exists st. split; [reflexivity|]. split; [apply same_rest_refl|]. repeat (split; [reflexivity|]). eapply PI_ext; [|exact P]. intros b Ib. split; [reflexivity|]. unfold upd. destruct (b =? a)%nat eqn:B; [|reflexivity]. apply Nat.eqb_eq in B. subst b. exact St.
  - destruct (stale_facts _ _ _ _ _ _ _ _ _ _ _ _ P I St) as (q & j & r & N & E & En & Pj & Nr & Pr & Jne & Pl & Ph & O1 & O2 & Xr & La & Lo).
    unfold get_piece. rewrite N. cbn [of_option rbind]. rewrite K. cbn [h_key fst]. fold (pol a). rewrite E, Pj.
    assert (Chk : (if pol a then loc_lt s (p_from q) loc && loc_lt s loc (p_to q) else loc_lt s loc (p_from q) && loc_lt s (p_to q) loc) = true).
    { unfold plo, phi in Pl, Ph. rewrite E in Pl, Ph. destruct (pol a); apply andb_true_iff; split; apply loc_lt_ok; try assumption; lra. }
    rewrite (check_true _ _ Chk). cbn [rbind]. destruct (pol a) eqn:Pa.
    + assert (I' : In a (ids (c_active st))) by (rewrite Ids; exact I).
      destruct (set_piece_view (c_active st) a (length (c_pieces st)) I') as (V1 & V2 & V3).
      eexists. split; [reflexivity|]. cbn [with_active with_pieces c_active c_pieces c_need c_errors]. split; [exact V1|]. split; [exact V2|]. split; [reflexivity|]. split; [reflexivity|].
      eapply PI_ext; [|apply (split_pos s hs okp gen pair pol_forward _ _ _ _ _ _ _ loc q j P I St Pa Ol Lx N Pj)]. intros b Ib. split; [|reflexivity]. symmetry. apply V3.
    + unfold upd_piece, get_piece. cbn [with_active with_pieces c_active c_pieces c_need c_errors].
      assert (Li : (pcv (c_active st) a < length (c_pieces st))%nat) by exact (nth_some_lt _ _ _ N). assert (Lj : (j < length (c_pieces st))%nat) by exact (nth_some_lt _ _ _ Nr).
      rewrite nth_snoc, set_nth_length by exact Li. replace (j =? length (c_pieces st))%nat with false by lia. rewrite nth_set_nth by exact Li. replace (j =? pcv (c_active st) a)%nat with false by lia.
      rewrite Nr. cbn [of_option rbind]. eexists. split; [reflexivity|]. cbn [with_active with_pieces c_active c_pieces c_need c_errors]. split; [apply same_rest_refl|]. repeat (split; [reflexivity|]).
      exact (split_neg s hs okp gen pair pol_forward _ _ _ _ _ _ _ loc q j r P I St Pa Ol Lx N Pj Nr).
Qed.

Definition stv (A : list nat) (l : list active) (a : nat) : status :=
  if match part l a with Some b => (b =? tau pol A a)%nat | None => false end then Good else if curv l a then Fresh else Stale.
Lemma stv_good A l a : part l a = Some (tau pol A a) -> stv A l a = Good.
Proof. unfold stv. intros ->. rewrite Nat.eqb_refl. reflexivity. Qed.
Lemma stv_not_good A l a : part l a <> Some (tau pol A a) -> stv A l a = if curv l a then Fresh else Stale.
Proof. unfold stv. intros H. destruct (part l a) as [b|]; [|reflexivity]. destruct (b =? tau pol A a)%nat eqn:E; [|reflexivity]. apply Nat.eqb_eq in E. subst b. congruence. Qed.

Record LI (x : Q) (A : list nat) (st : cstate) : Prop := {
  li_ids : ids (c_active st) = A;
  li_keys : forall a, In a A -> keyv (c_active st) a = h_key s (hat hs a);
  li_part : forall a b, In a A -> part (c_active st) a = Some b -> In b A /\ b <> a;
  li_sym : forall a, In a A -> part (c_active st) a = Some (tau pol A a) -> part (c_active st) (tau pol A a) = Some a;
  li_cover : forall a, In a A -> part (c_active st) a = Some (tau pol A a) \/ In a (c_need st) \/ In (tau pol A a) (c_need st);
  li_need : forall a, In a (c_need st) -> In a A;
  li_err : c_errors st = [];
  li_pi : PI x A (pcv (c_active st)) (stv A (c_active st)) (tau pol A) (c_pieces st) }.

Lemma unpartner_ok dbg st i other : In i (ids (c_active st)) -> (forall old, part (c_active st) i = Some old -> old <> i /\ old <> other) ->
  exists l', unpartner dbg st i other = Ok (CS (c_pieces st) l' (match part (c_active st) i with Some old => old :: c_need st | None => c_need st end) (c_errors st)) /\
    same_rest (c_active st) l' /\ (forall j, pcv l' j = pcv (c_active st) j) /\ forall j, part l' j = upd (part (c_active st)) i None j.
Proof.
  intros I H. unfold unpartner. rewrite (get_act_ent _ _ _ (ent_view _ i I)). cbn [rbind a_partner]. destruct (part (c_active st) i) as [old|] eqn:E.
  - destruct (H old eq_refl) as [D1 D2]. rewrite check_true by lia. cbn [rbind]. destruct (set_partner_view (c_active st) i None I) as (V1 & V2 & V3).
    eexists. split; [unfold with_need, with_active; cbn; reflexivity|]. auto.
  - exists (c_active st). split; [destruct st; reflexivity|]. split; [apply same_rest_refl|]. split; [reflexivity|]. intros j. unfold upd. destruct (j =? i)%nat eqn:B; [|reflexivity]. apply Nat.eqb_eq in B. subst j. exact E.
Qed.

Lemma need_ok dbg loc x A : okp loc -> along s loc == x -> by_rank rk A -> all_mated rk pol A -> forall fuel st, LI x A st ->
  (length (c_need st) + wrong A (tau pol A) (part (c_active st)) <= fuel)%nat ->
  exists st', need_partners dbg s fuel loc st = Ok st' /\ LI x A st' /\ c_need st' = [] /\ forall j, curv (c_active st') j = curv (c_active st) j.
Proof.
  intros Ol Lx B M. pose proof (by_rank_nodup _ _ B) as ND.
  assert (Tau : forall a, In a A -> mate rk pol A a (tau pol A a)) by (intros a I; apply tau_mate; assumption).
  assert (TT : forall a, In a A -> tau pol A (tau pol A a) = a) by (intros a I; apply (tau_tau rk); assumption).
  assert (TN : forall a, In a A -> In (tau pol A a) A /\ tau pol A a <> a /\ pol (tau pol A a) = negb (pol a)).
  { intros a I. destruct (mate_in _ _ _ _ _ (Tau a I)) as (T1 & T2 & T3 & T4). repeat split; [exact T2|congruence|]. rewrite T4, negb_involutive. reflexivity. }
  assert (Tg : forall l a, ids l = A -> In a A -> (if pol a then prev_around l a else next_around l a) = Ok (tau pol A a)).
  { intros l a Il I. rewrite prev_around_ids, next_around_ids, Il. pose proof (mate_target _ _ _ _ _ B (Tau a I)) as X. destruct (pol a); rewrite X; reflexivity. }
  induction fuel as [|f IH]; intros st L Fu.
  { destruct (c_need st) as [|id rest] eqn:Nd; [|cbn [length] in Fu; lia]. exists st. cbn [need_partners]. rewrite Nd. auto. }
  cbn [need_partners]. destruct (c_need st) as [|id rest] eqn:Nd; [exists st; auto|]. cbn [length] in Fu.
  assert (Iid : In id A) by (apply (li_need _ _ _ L); rewrite Nd; left; reflexivity).
  set (t := tau pol A id). destruct (TN id Iid) as (It & Dt & Pt). fold t in It, Dt, Pt.
  cbn [with_need c_active]. pose proof (li_ids _ _ _ L) as Li. assert (Iid' : In id (ids (c_active st))) by (rewrite Li; exact Iid).
  rewrite (get_act_ent _ _ _ (ent_view _ id Iid')). cbn [rbind a_key a_partner]. rewrite (li_keys _ _ _ L id Iid). cbn [h_key fst]. fold (pol id).
  rewrite (Tg _ id Li Iid). cbn [rbind]. fold t.
  destruct (match part (c_active st) id with Some p => (p =? t)%nat | None => false end) eqn:Pid.
  { assert (Pid' : part (c_active st) id = Some t). { destruct (part (c_active st) id) as [p|]; [|discriminate]. f_equal. lia. }
    destruct (IH (with_need st rest)) as (st' & E' & L' & N' & C').
    - constructor; cbn [with_need c_active c_need c_errors c_pieces]; try apply L.
      + intros a Ia. destruct (li_cover _ _ _ L a Ia) as [X|[X|X]]; [left; exact X| |]; rewrite Nd in X.
        * destruct X as [<-|X]; [left; exact Pid'|right; left; exact X].
        * destruct X as [X|X]; [|right; right; exact X]. left. rewrite <- X. rewrite <- (TT a Ia), <- X. fold t. apply (li_sym _ _ _ L id Iid). exact Pid'.
      + intros a Ia. apply (li_need _ _ _ L). rewrite Nd. right. exact Ia.
    - cbn [with_need c_active c_need]. lia.
    - exists st'. auto. }
  assert (Nid : part (c_active st) id <> Some t). { intros X. rewrite X, Nat.eqb_refl in Pid. discriminate. }
  assert (Nt : part (c_active st) t <> Some id). { intros X. apply Nid. rewrite <- (TT id Iid) in X at 1. fold t in X. pose proof (li_sym _ _ _ L t It X) as Y. unfold t in Y at 1. rewrite (TT id Iid) in Y. exact Y. }
  destruct (unpartner_ok dbg (with_need st rest) id t Iid') as (l1 & E1 & R1 & C1 & P1).
  { cbn [with_need c_active]. intros old Po. split; [apply (li_part _ _ _ L _ _ Iid Po)|]. intros ->. exact (Nid Po). }
  rewrite E1. cbn [rbind with_need c_active c_pieces c_need c_errors] in *. clear E1.
  assert (It1 : In t (ids l1)) by (rewrite (proj1 R1), Li; exact It).
  rewrite (get_act_ent _ _ _ (ent_view _ t It1)). cbn [rbind a_key]. destruct (proj2 R1 t) as [K1 _]. rewrite K1, (li_keys _ _ _ L t It). cbn [h_key fst]. fold (pol t). rewrite Pt.
  replace (Bool.eqb (pol id) (negb (pol id))) with false by (destruct (pol id); reflexivity).
  assert (P1t : part l1 t = part (c_active st) t). { rewrite P1. unfold upd. replace (t =? id)%nat with false by lia. reflexivity. }
  set (need1 := match part (c_active st) id with Some old => old :: rest | None => rest end) in *.
  set (st1 := {| c_pieces := c_pieces st; c_active := l1; c_need := need1; c_errors := c_errors st |}).
  destruct (unpartner_ok dbg st1 t id It1) as (l2 & E2 & R2 & C2 & P2).
  { cbn [st1 c_active]. intros old Po. rewrite P1t in Po. split; [apply (li_part _ _ _ L _ _ It Po)|]. intros ->. exact (Nt Po). }
  rewrite E2. cbn [rbind with_active c_active c_pieces c_need c_errors st1] in *. clear E2. rewrite P1t.
  set (need2 := match part (c_active st) t with Some old => old :: need1 | None => need1 end).
  assert (R12 : same_rest (c_active st) l2) by (eapply same_rest_trans; eassumption).
  assert (Iid2 : In id (ids l2)) by (rewrite (proj1 R12); exact Iid').
  destruct (set_partner_view l2 id (Some t) Iid2) as (R3 & C3 & P3). set (l3 := set_act l2 id (set_partner (Some t))) in *.
  assert (It3 : In t (ids l3)) by (rewrite (proj1 R3), (proj1 R12), Li; exact It).
  destruct (set_partner_view l3 t (Some id) It3) as (R4 & C4 & P4). set (l4 := set_act l3 t (set_partner (Some id))) in *.
  assert (R04 : same_rest (c_active st) l4) by (eapply same_rest_trans; [exact R12|]; eapply same_rest_trans; eassumption).
  assert (C04 : forall j, pcv l4 j = pcv (c_active st) j) by (intros j; rewrite C4, C3, C2, C1; reflexivity).
  assert (P04 : forall j, part l4 j = upd (upd (part (c_active st)) id (Some t)) t (Some id) j).
  { intros j. rewrite P4. unfold upd. destruct (j =? t)%nat eqn:B1; [reflexivity|]. rewrite P3. unfold upd. destruct (j =? id)%nat eqn:B2; [reflexivity|]. rewrite P2. unfold upd. rewrite B1, P1. unfold upd. rewrite B2. reflexivity. }
  assert (Li4 : ids l4 = A) by (rewrite (proj1 R04); exact Li).
  set (st4 := {| c_pieces := c_pieces st; c_active := l4; c_need := need2; c_errors := c_errors st |}).
  set (stt := stv A (c_active st)).
  assert (PI4 : PI x A (pcv l4) stt (tau pol A) (c_pieces st)). { eapply PI_ext; [|exact (li_pi _ _ _ L)]. intros a Ia. rewrite C04. auto. }
  assert (Sid : stt id = if curv (c_active st) id then Fresh else Stale) by (apply stv_not_good; exact Nid).
  assert (Stt : stt t = if curv (c_active st) t then Fresh else Stale). { apply stv_not_good. unfold t at 2. rewrite (TT id Iid). exact Nt. }
  destruct (maybe_split_ok dbg st4 id loc x A stt (tau pol A) PI4 Li4 Iid Ol Lx) as (st5 & E5 & R5 & P5 & N5 & F5 & PI5).
  { cbn [st4 c_active]. rewrite (proj1 (proj2 R04 id)). apply (li_keys _ _ _ L id Iid). }
  { cbn [st4 c_active]. rewrite (proj2 (proj2 R04 id)). exact Sid. }
  match goal with |- context [maybe_split dbg s ?z id loc] => change z with st4 end.
  rewrite E5. cbn [rbind]. clear E5. cbn [st4 c_active c_need c_errors] in R5, P5, N5, F5.
  assert (R05 : same_rest (c_active st) (c_active st5)) by (eapply same_rest_trans; eassumption).
  assert (Li5 : ids (c_active st5) = A) by (rewrite (proj1 R05); exact Li).
  destruct (maybe_split_ok dbg st5 t loc x A _ (tau pol A) PI5 Li5 It Ol Lx) as (st6 & E6 & R6 & P6 & N6 & F6 & PI6).
  { rewrite (proj1 (proj2 R05 t)). apply (li_keys _ _ _ L t It). }
  { rewrite (proj2 (proj2 R05 t)). unfold upd. replace (t =? id)%nat with false by lia. exact Stt. }
  rewrite E6. cbn [rbind]. clear E6.
  assert (R06 : same_rest (c_active st) (c_active st6)) by (eapply same_rest_trans; eassumption).
  assert (Li6 : ids (c_active st6) = A) by (rewrite (proj1 R06); exact Li).
  set (st' := upd (upd stt id Fresh) t Fresh) in *.
  assert (Fid : st' id = Fresh). { unfold st', upd. replace (id =? t)%nat with false by lia. rewrite Nat.eqb_refl. reflexivity. }
  assert (Ft : st' t = Fresh). { unfold st', upd. rewrite Nat.eqb_refl. reflexivity. }
  destruct (pi_cur _ _ _ _ _ _ _ _ _ _ _ PI6 id Iid) as (_ & _ & _ & qa & Qa & Ea & _ & Ma). rewrite Fid in Ma. destruct Ma as [_ Ma].
  destruct (pi_cur _ _ _ _ _ _ _ _ _ _ _ PI6 t It) as (_ & _ & _ & qb & Qb & Eb & _ & Mb). rewrite Ft in Mb. destruct Mb as [_ Mb].
  assert (Fr1 : piece_free dbg st6 id = Ok (pcv (c_active st6) id)).
  { unfold piece_free. rewrite (get_act_ent _ _ _ (ent_view _ id ltac:(rewrite Li6; exact Iid))). cbn [rbind a_piece]. unfold get_piece. rewrite Qa. cbn [of_option rbind]. rewrite Ma, check_true by reflexivity. reflexivity. }
  assert (Fr2 : piece_free dbg st6 t = Ok (pcv (c_active st6) t)).
  { unfold piece_free. rewrite (get_act_ent _ _ _ (ent_view _ t ltac:(rewrite Li6; exact It))). cbn [rbind a_piece]. unfold get_piece. rewrite Qb. cbn [of_option rbind]. rewrite Mb, check_true by reflexivity. reflexivity. }
  rewrite Fr1. cbn [rbind]. rewrite Fr2. cbn [rbind].
  assert (Dpc : pcv (c_active st6) id <> pcv (c_active st6) t). { intros X. rewrite X, Qb in Qa. injection Qa as ->. congruence. }
  unfold upd_piece, get_piece. rewrite Qa. cbn [of_option rbind with_pieces c_pieces]. rewrite nth_set_nth by exact (nth_some_lt _ _ _ Qa).
  replace (pcv (c_active st6) t =? pcv (c_active st6) id)%nat with false by lia. rewrite Qb. cbn [of_option rbind with_pieces c_pieces c_active c_need c_errors].
  pose proof (link_pieces s hs okp gen pair _ _ _ _ _ _ id t qa qb PI6 Iid It Fid Ft Pt eq_refl (TT id Iid) Qa Qb) as PI7.
  set (ps7 := set_nth (set_nth (c_pieces st6) (pcv (c_active st6) id) (link (Some (pcv (c_active st6) t)) qa)) (pcv (c_active st6) t) (link (Some (pcv (c_active st6) id)) qb)) in *.
  match goal with |- exists _, need_partners _ _ _ _ ?z = _ /\ _ => set (st7 := z) end.
  assert (Part7 : forall j, part (c_active st6) j = upd (upd (part (c_active st)) id (Some t)) t (Some id) j) by (intros j; rewrite P6, P5; apply P04).
  assert (Pid7 : part (c_active st6) id = Some t). { rewrite Part7. unfold upd. replace (id =? t)%nat with false by lia. rewrite Nat.eqb_refl. reflexivity. }
  assert (Pt7 : part (c_active st6) t = Some id). { rewrite Part7. unfold upd. rewrite Nat.eqb_refl. reflexivity. }
  assert (Po7 : forall j, j <> id -> j <> t -> part (c_active st6) j = part (c_active st) j). { intros j J1 J2. rewrite Part7. unfold upd. replace (j =? t)%nat with false by lia. replace (j =? id)%nat with false by lia. reflexivity. }
  assert (Need7 : c_need st6 = need2) by congruence.
  assert (InNeed : forall a, In a rest -> In a need2). { intros a Ia. unfold need2, need1. destruct (part (c_active st) t), (part (c_active st) id); cbn [In]; auto. }
  assert (L7 : LI x A st7).
  { constructor; cbn [st7 with_pieces c_active c_need c_errors c_pieces].
    - exact Li6.
    - intros a Ia. rewrite (proj1 (proj2 R06 a)). apply (li_keys _ _ _ L a Ia).
    - intros a b Ia Pb. destruct (Nat.eq_dec a id) as [->|D1]; [rewrite Pid7 in Pb; injection Pb as <-; auto|]. destruct (Nat.eq_dec a t) as [->|D2]; [rewrite Pt7 in Pb; injection Pb as <-; auto|].
      rewrite (Po7 a D1 D2) in Pb. exact (li_part _ _ _ L a b Ia Pb).
    - intros a Ia Pb. destruct (Nat.eq_dec a id) as [->|D1]; [exact Pt7|]. destruct (Nat.eq_dec a t) as [->|D2]; [unfold t at 1; rewrite (TT id Iid); exact Pid7|].
      rewrite (Po7 a D1 D2) in Pb. rewrite Po7; [exact (li_sym _ _ _ L a Ia Pb)| |].
      + intros X. apply D2. unfold t. rewrite <- X. symmetry. apply TT. exact Ia.
      + intros X. apply D1. rewrite <- (TT a Ia), X. apply TT. exact Iid.
    - intros a Ia. destruct (Nat.eq_dec a id) as [->|D1]; [left; exact Pid7|]. destruct (Nat.eq_dec a t) as [->|D2]; [left; unfold t at 2; rewrite (TT id Iid); exact Pt7|].
      rewrite (Po7 a D1 D2), Need7. destruct (li_cover _ _ _ L a Ia) as [X|[X|X]]; [left; exact X| |]; rewrite Nd in X.
      + destruct X as [X|X]; [congruence|]. right. left. apply InNeed. exact X.
      + destruct X as [X|X]; [|right; right; apply InNeed; exact X]. exfalso. apply D2. unfold t. rewrite X. symmetry. apply TT. exact Ia.
    - rewrite Need7. intros a Ia. assert (X : In a rest \/ part (c_active st) id = Some a \/ part (c_active st) t = Some a).
      { unfold need2, need1 in Ia. destruct (part (c_active st) t), (part (c_active st) id); cbn [In] in Ia; intuition (subst; auto). }
      destruct X as [X|[X|X]]; [apply (li_need _ _ _ L); rewrite Nd; right; exact X|exact (proj1 (li_part _ _ _ L _ _ Iid X))|exact (proj1 (li_part _ _ _ L _ _ It X))].
    - rewrite F6, F5. apply (li_err _ _ _ L).
    - eapply PI_ext; [|exact PI7]. intros a Ia. split; [reflexivity|]. unfold upd at 1. destruct (a =? t)%nat eqn:B1.
      + apply Nat.eqb_eq in B1. subst a. symmetry. apply stv_good. unfold t at 2. rewrite (TT id Iid). exact Pt7.
      + unfold upd at 1. destruct (a =? id)%nat eqn:B2.
        * apply Nat.eqb_eq in B2. subst a. symmetry. apply stv_good. exact Pid7.
        * unfold st', upd. rewrite B1, B2. unfold stt, stv. rewrite (Po7 a) by lia. rewrite (proj2 (proj2 R06 a)). reflexivity. }
  destruct (IH st7 L7) as (st8 & E8 & L8 & N8 & C8).
  { cbn [st7 with_pieces c_active c_need]. rewrite Need7. rewrite (wrong_ext _ _ _ _ (fun a _ => Part7 a)).
    pose proof (wrong_upd A (tau pol A) (part (c_active st)) id (Some t) ND Iid) as W1. cbn [wrongb] in W1. fold t in W1. rewrite Nat.eqb_refl in W1. specialize (W1 eq_refl).
    pose proof (wrong_upd A (tau pol A) (upd (part (c_active st)) id (Some t)) t (Some id) ND It) as W2. assert (TTt : tau pol A t = id) by exact (TT id Iid). cbn [wrongb] in W2. rewrite TTt, Nat.eqb_refl in W2. specialize (W2 eq_refl).
    assert (X1 : (length need1 = length rest + if wrongb (part (c_active st) id) t then 1 else 0)%nat).
    { unfold need1. destruct (part (c_active st) id) as [o|] eqn:X; cbn [wrongb length]; [|lia]. destruct (o =? t)%nat eqn:Y; [apply Nat.eqb_eq in Y; congruence|]. cbn. lia. }
    assert (X2 : (length need2 = length need1 + if wrongb (upd (part (c_active st)) id (Some t) t) id then 1 else 0)%nat).
    { unfold need2, upd. replace (t =? id)%nat with false by lia. destruct (part (c_active st) t) as [o|] eqn:X; cbn [wrongb length]; [|lia]. destruct (o =? id)%nat eqn:Y; [apply Nat.eqb_eq in Y; congruence|]. cbn. lia. }
    lia. }
  exists st8. split; [exact E8|]. split; [exact L8|]. split; [exact N8|]. intros j. rewrite C8. cbn [st7 with_pieces c_active]. apply (proj2 R06 j).
Qed.
Lemma all_ok dbg loc x A st : okp loc -> along s loc == x -> by_rank rk A -> all_mated rk pol A -> LI x A st ->
  exists st', all_partners dbg s loc st = Ok st' /\ LI x A st' /\ c_need st' = [] /\ forall j, curv (c_active st') j = curv (c_active st) j.
Proof.
  intros Ol Lx B M L. unfold all_partners. apply (need_ok dbg loc x A Ol Lx B M _ st L).
  pose proof (wrong_le A (tau pol A) (part (c_active st))). pose proof (li_ids _ _ _ L) as X. assert (length (c_active st) = length A) by (rewrite <- X; unfold ids; rewrite map_length; reflexivity). lia.
Qed.
End Loop.
