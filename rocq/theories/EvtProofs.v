(** MakeEventPoints. *)
From Coq Require Import List ZArith QArith Arith Lia Lqa Bool Sorted.
From Verif Require Import BigUIntModel GeoModel GeoSpec GeoProofs AabbSpec AabbTrackerProofs EvtModel EvtSpec EvtTokProofs.
Import ListNotations.
Open Scope Q_scope.

Lemma check_true dbg : check dbg true = Ok tt.
Proof. destruct dbg; reflexivity. Qed.
Lemma Forall2_length {A B} {R : A -> B -> Prop} {l l'} : Forall2 R l l' -> length l = length l'.
Proof. induction 1; cbn [length]; congruence. Qed.
Definition tok_of (arr : nat -> option event) (e : event) (t : tok) : Prop :=
  fst t = ev_start e /\
  (if ev_start e then exists f, arr (ev_index e) = Some f /\ ev_start f = false /\ ev_index f = snd t else ev_index e = snd t).
Lemma tok_of_mono arr arr' e t : (forall k f, arr k = Some f -> arr' k = Some f) -> tok_of arr e t -> tok_of arr' e t.
Proof. intros M [A B]. split; [exact A|]. destruct (ev_start e); [|exact B]. destruct B as (f & B & C). exists f. split; [apply M, B|exact C]. Qed.
Lemma fin_at_cons n fin e k f : (length fin < 2 * n)%nat -> fin_at n fin k = Some f -> fin_at n (e :: fin) k = Some f.
Proof.
  intros L H. unfold fin_at in *. cbn [length]. destruct (Nat.leb_spec (2 * n - length fin) k) as [X|X]; [|discriminate H].
  destruct (Nat.leb_spec (2 * n - S (length fin)) k) as [Y|Y]; [|lia]. replace (k - (2 * n - S (length fin)))%nat with (S (k - (2 * n - length fin))) by lia. exact H.
Qed.
Lemma fin_at_head n fin e : (length fin < 2 * n)%nat -> fin_at n (e :: fin) (2 * n - S (length fin)) = Some e.
Proof. intros L. unfold fin_at. cbn [length]. rewrite Nat.leb_refl, Nat.sub_diag. reflexivity. Qed.
Lemma fin_at_full n fin k : length fin = (2 * n)%nat -> fin_at n fin k = nth_error fin k.
Proof. intros L. unfold fin_at. rewrite L, Nat.sub_diag. cbn [Nat.leb]. rewrite Nat.sub_0_r. reflexivity. Qed.

Section Make.
Context (dbg : bool) (d : nat) (ps : list epoly) (FIT : Forall (poly_fit d) ps).
Notation n := (length ps).
Notation lo := (lo d ps). Notation hi := (hi d ps).
Notation key := (key lo hi). Notation tless := (tless lo hi). Notation inv := (inv n lo hi).
Lemma widths i : (i < n)%nat -> lo i <= hi i.
Proof.
  intros H. unfold EvtSpec.lo, EvtSpec.hi. destruct (nth_error ps i) as [p|] eqn:E; [|apply nth_error_None in E; lia].
  apply nth_error_In in E. rewrite Forall_forall in FIT. apply (FIT p E).
Qed.
Lemma location arr e t : tok_of arr e t -> (snd t < n)%nat -> exists v, ev_location dbg arr ps e = Ok v /\ hw v <> 0%Z /\ coord d v = key t.
Proof.
  intros [A B] H. destruct (nth_error ps (snd t)) as [p|] eqn:E; [|apply nth_error_None in E; lia].
  rewrite Forall_forall in FIT. pose proof (FIT p (nth_error_In _ _ E)) as (P1 & P2 & _). unfold ev_location, EvtTokProofs.key. rewrite A. destruct (ev_start e).
  - destruct B as (f & F1 & F2 & F3). rewrite F1, F2, F3, (proj2 (Nat.ltb_lt _ _) H), E. exists (e_min p). rewrite !check_true. cbn [rbind]. unfold EvtSpec.lo. rewrite E. auto.
  - rewrite B, E. exists (e_max p). unfold EvtSpec.hi. rewrite E. auto.
Qed.
Lemma coord_value v : coord d v = qcomp (value v) d.
Proof. rewrite qcomp_value. reflexivity. Qed.
Lemma less_spec arr a b ta tb : tok_of arr a ta -> tok_of arr b tb -> (snd ta < n)%nat -> (snd tb < n)%nat ->
  exists c, ev_less dbg arr d ps a b = Ok c /\ (c = true <-> tless ta tb).
Proof.
  intros A B Ha Hb. destruct (location arr a ta A Ha) as (va & LA & WA & KA), (location arr b tb B Hb) as (vb & LB & WB & KB).
  unfold ev_less. rewrite LA, LB. cbn [rbind]. rewrite (hp_compare_comp_spec d va vb _ _ (denotes_value va WA) (denotes_value vb WB)), <- !coord_value, KA, KB.
  eexists. split; [reflexivity|]. unfold EvtTokProofs.tless. destruct (Z.eqb_spec (qsign (key ta - key tb)) 0) as [Z|Z].
  - apply qsign_sub_eq in Z. destruct A as [-> _], B as [-> _]. rewrite andb_true_iff, negb_true_iff. split; [intros [X Y]; right; auto|].
    intros [X|X]; [rewrite Z in X; exfalso; exact (Qlt_irrefl _ X)|tauto].
  - rewrite Z.ltb_lt. pose proof (qsign_range (key ta - key tb)) as R. rewrite <- qsign_sub_lt. split; [intros; left; lia|].
    intros [X|[X _]]; [lia|]. exfalso. apply Z. apply qsign_sub_eq. exact X.
Qed.
Lemma rforall_ok {A} (f : A -> res bool) (P : A -> Prop) l : (forall x, In x l -> exists b, f x = Ok b /\ (b = true <-> P x)) ->
  exists b, rforall f l = Ok b /\ (b = true <-> forall x, In x l -> P x).
Proof.
  induction l as [|x l IH]; intros H; [exists true; split; [reflexivity|split; [intros _ x []|reflexivity]]|].
  destruct (H x (or_introl eq_refl)) as (b & E & B). destruct IH as (c & F & C); [intros y Y; apply H; right; exact Y|].
  exists (b && c)%bool. cbn [rforall]. rewrite E, F. cbn [rbind]. split; [reflexivity|]. rewrite andb_true_iff, B, C. split.
  - intros [U V] y [<-|Y]; [exact U|exact (V y Y)].
  - intros U. split; [apply U; left; reflexivity|intros y Y; apply U; right; exact Y].
Qed.
Definition sim (st : list event * list event) (H F : list tok) : Prop :=
  Forall2 (tok_of (fin_at n (snd st))) (fst st) H /\ Forall2 (tok_of (fin_at n (snd st))) (snd st) F.
Lemma Forall2_in_l {A B} (R : A -> B -> Prop) l l' x : Forall2 R l l' -> In x l -> exists y, In y l' /\ R x y.
Proof. induction 1 as [|a b l l' S _ IH]; intros I; [destruct I|]. destruct I as [->|I]; [exists b; split; [left; reflexivity|exact S]|]. destruct (IH I) as (y & Y & T). exists y. split; [right; exact Y|exact T]. Qed.
Lemma Forall2_in_r {A B} (R : A -> B -> Prop) l l' y : Forall2 R l l' -> In y l' -> exists x, In x l /\ R x y.
Proof. induction 1 as [|a b l l' S _ IH]; intros I; [destruct I|]. destruct I as [->|I]; [exists a; split; [left; reflexivity|exact S]|]. destruct (IH I) as (x & Y & T). exists x. split; [right; exact Y|exact T]. Qed.
Lemma Forall2_mono {A B} (R S : A -> B -> Prop) l l' : (forall x y, R x y -> S x y) -> Forall2 R l l' -> Forall2 S l l'.
Proof. intros M. induction 1; constructor; auto. Qed.
Lemma tok_fun arr e t u : tok_of arr e t -> tok_of arr e u -> t = u.
Proof.
  intros [A B] [C D]. destruct t as [a i], u as [b j]. cbn [fst snd] in *. rewrite <- C in A. subst a. f_equal. destruct (ev_start e); [|congruence].
  destruct B as (f & B1 & _ & B2), D as (g & D1 & _ & D2). congruence.
Qed.
(** Popping. *)
Lemma pop_ok heap fin H F k : sim (heap, fin) H F -> inv H F ->
  pop_heap (ev_less dbg (fin_at n fin) d ps) k heap = NoFuel \/
  exists e rest t H', pop_heap (ev_less dbg (fin_at n fin) d ps) k heap = Ok (e, rest) /\ S (length rest) = length heap /\ tok_of (fin_at n fin) e t /\
    Forall2 (tok_of (fin_at n fin)) rest H' /\ tstep t H H' /\ forall h, In h H -> ~ tless t h.
Proof.
  intros [SH SF] V. cbn [fst snd] in *. unfold pop_heap. destruct (nth_error heap k) as [e|] eqn:E; [|left; reflexivity].
  pose proof (nth_error_split heap k E) as (A & B & EH & LA). pose proof SH as SH'. rewrite EH in SH'. apply Forall2_app_inv_l in SH' as (HA & HB & FA & FB & EHT). inversion FB as [|e' t B' HB' TE FB' X1 X2]; subst e' B'. clear FB. subst HB.
  assert (RH : forall h, In h H -> (snd h < n)%nat) by (intros h I; apply (i_range _ _ _ _ _ V), in_or_app; left; exact I).
  assert (It : In t H) by (rewrite EHT; apply in_or_app; right; left; reflexivity).
  destruct (rforall_ok (fun x => c <- ev_less dbg (fin_at n fin) d ps e x ;; Ok (negb c)) (fun x => forall h, tok_of (fin_at n fin) x h -> ~ tless t h) heap) as (b & RB & BB).
  { intros x I. destruct (Forall2_in_l _ _ _ x SH I) as (h & Ih & Th). destruct (less_spec _ e x t h TE Th (RH t It) (RH h Ih)) as (c & LC & CC). exists (negb c). rewrite LC. cbn [rbind]. split; [reflexivity|].
    rewrite negb_true_iff. split.
    - intros C h' Th'. rewrite <- (tok_fun _ _ _ _ Th Th'). intros Y. apply CC in Y. congruence.
    - intros C. destruct c; [|reflexivity]. exfalso. apply (C h Th), CC. reflexivity. }
  rewrite RB. cbn [rbind]. destruct b; [|left; reflexivity]. right. exists e, (A ++ B), t, (HA ++ HB').
  split; [f_equal; f_equal; rewrite EH; f_equal; [rewrite <- LA, firstn_app, Nat.sub_diag, firstn_all; cbn [firstn]; apply app_nil_r|]|].
  { rewrite skipn_app, <- LA. rewrite skipn_all2 by lia. replace (S (length A) - length A)%nat with 1%nat by lia. reflexivity. }
  split; [rewrite EH, !app_length; cbn [length]; lia|]. split; [exact TE|]. split; [apply Forall2_app; assumption|]. split; [exists HA, HB'; split; [exact EHT|reflexivity]|].
  intros h Ih. destruct (Forall2_in_r _ _ _ h SH Ih) as (x & Ix & Tx). exact (proj1 BB eq_refl x Ix h Tx).
Qed.
Lemma step_ok heap fin H F k : sim (heap, fin) H F -> inv H F -> (length fin < 2 * n)%nat ->
  make_step dbg d ps k (heap, fin) = NoFuel \/
  exists heap' fin' H' F', make_step dbg d ps k (heap, fin) = Ok (heap', fin') /\ sim (heap', fin') H' F' /\ inv H' F' /\ length fin' = S (length fin).
Proof.
  intros SM V L. pose proof SM as [SH SF]. cbn [fst snd] in SH, SF. pose proof (Forall2_length SH) as LH. pose proof (Forall2_length SF) as LF.
  assert (NE : H <> []) by (apply (inv_nonempty _ _ _ _ _ V); lia). assert (LH0 : (length heap <> 0)%nat) by (destruct H; [congruence|cbn [length] in LH; lia]).
  unfold make_step. rewrite (proj2 (Nat.eqb_neq _ _) LH0). cbn [negb]. rewrite check_true. cbn [rbind].
  destruct (pop_ok heap fin H F k SM V) as [->|(e & rest & t & H' & -> & LR & TE & FR & ST & MX)]; [left; reflexivity|]. right. cbn [rbind].
  pose proof (inv_size _ _ _ _ _ V) as SZ. destruct (Nat.ltb_spec (length rest + length fin) (2 * n)) as [_|X]; [|lia]. cbn [negb].
  assert (MONO : forall e' x y, tok_of (fin_at n fin) x y -> tok_of (fin_at n (e' :: fin)) x y).
  { intros e' x y. apply tok_of_mono. intros j f. apply fin_at_cons. exact L. }
  destruct t as [b i]. pose proof TE as [TE1 TE2]. cbn [fst snd] in TE1, TE2. destruct (ev_start e) eqn:ES.
  - subst b. exists rest, (e :: fin), H', ((true, i) :: F). split; [reflexivity|]. split; [split; cbn [fst snd]|split; [exact (inv_start _ _ _ widths i H H' F V ST MX)|reflexivity]].
    + apply (Forall2_mono _ _ _ _ (MONO e)), FR.
    + constructor; [apply MONO, TE|apply (Forall2_mono _ _ _ _ (MONO e)), SF].
  - subst b. assert (It : In (false, i) H) by (destruct ST as (A & B & -> & _); apply in_or_app; right; left; reflexivity).
    pose proof (inv_size_end _ _ _ i _ _ V It) as SZ'. destruct (Nat.ltb_spec (length rest) (2 * n - S (length fin))) as [_|X]; [|lia]. cbn [negb].
    eexists _, (e :: fin), (H' ++ [(true, i)]), ((false, i) :: F). split; [reflexivity|]. split; [split; cbn [fst snd]|split; [exact (inv_end _ _ _ widths i H H' F V ST MX)|reflexivity]].
    + apply Forall2_app; [apply (Forall2_mono _ _ _ _ (MONO e)), FR|]. constructor; [|constructor]. split; [reflexivity|]. cbn [ev_start ev_index snd]. exists e. rewrite (fin_at_head n fin e L). auto.
    + constructor; [apply MONO, TE|apply (Forall2_mono _ _ _ _ (MONO e)), SF].
Qed.
Lemma loop_ok choose k : forall heap fin H F, sim (heap, fin) H F -> inv H F -> (length fin + k = 2 * n)%nat ->
  make_loop dbg d ps choose k (heap, fin) = NoFuel \/
  exists fin' F', make_loop dbg d ps choose k (heap, fin) = Ok ([], fin') /\ sim ([], fin') [] F' /\ inv [] F' /\ length fin' = (2 * n)%nat.
Proof.
  induction k as [|k IH]; intros heap fin H F SM V L; cbn [make_loop].
  - right. pose proof (inv_size _ _ _ _ _ V) as SZ. pose proof (Forall2_length (proj1 SM)) as LH. pose proof (Forall2_length (proj2 SM)) as LF. cbn [fst snd] in LH, LF.
    assert (H = []) by (apply length_zero_iff_nil; lia). assert (heap = []) by (apply length_zero_iff_nil; lia). subst. exists fin, F. split; [reflexivity|]. split; [exact SM|]. split; [exact V|lia].
  - destruct (step_ok heap fin H F (choose k) SM V ltac:(lia)) as [->|(heap' & fin' & H' & F' & -> & SM' & V' & L')]; [left; reflexivity|]. cbn [rbind]. apply (IH heap' fin' H' F' SM' V'). lia.
Qed.
(** There is always an element that may be popped. *)
Lemma tless_trans a b c : tless a b -> tless b c -> tless a c.
Proof.
  unfold EvtTokProofs.tless. intros [A|(A & A1 & A2)] [B|(B & B1 & B2)].
  - left. exact (Qlt_trans _ _ _ A B).
  - left. rewrite <- B. exact A.
  - left. rewrite A. exact B.
  - right. split; [rewrite A; exact B|auto].
Qed.
Lemma tless_irrefl a : ~ tless a a.
Proof. intros [A|(_ & A & B)]; [exact (Qlt_irrefl _ A)|congruence]. Qed.
Lemma tless_dec a b : {tless a b} + {~ tless a b}.
Proof.
  unfold EvtTokProofs.tless. destruct (Qlt_le_dec (key a) (key b)) as [L|L]; [left; left; exact L|]. destruct (Qeq_dec (key a) (key b)) as [E|E].
  - destruct (fst a) eqn:A, (fst b) eqn:B; try (right; intros [X|(_ & X & Y)]; [apply Qle_not_lt in L; contradiction|congruence]). left. right. auto.
  - right. intros [X|(X & _)]; [apply Qle_not_lt in L; contradiction|contradiction].
Qed.
Lemma max_exists H : H <> [] -> exists t, In t H /\ forall h, In h H -> ~ tless t h.
Proof.
  induction H as [|x H IH]; [congruence|]. intros _. destruct H as [|y H].
  - exists x. split; [left; reflexivity|]. intros h [<-|[]]. apply tless_irrefl.
  - destruct IH as (m & I & M); [congruence|]. destruct (tless_dec m x) as [T|T].
    + exists x. split; [left; reflexivity|]. intros h [<-|J]; [apply tless_irrefl|]. intros X. apply (M h J). exact (tless_trans _ _ _ T X).
    + exists m. split; [right; exact I|]. intros h [<-|J]; [exact T|exact (M h J)].
Qed.
Lemma Forall2_nth_error_r {A B} (R : A -> B -> Prop) l l' y : Forall2 R l l' -> In y l' -> exists k x, nth_error l k = Some x /\ R x y.
Proof.
  induction 1 as [|a b l l' Rab _ IH]; intros I; [destruct I|]. destruct I as [->|I]; [exists 0%nat, a; split; [reflexivity|exact Rab]|].
  destruct (IH I) as (k & x & Y & T). exists (S k), x. split; [exact Y|exact T].
Qed.
Lemma step_legal heap fin H F : sim (heap, fin) H F -> inv H F -> (length fin < 2 * n)%nat -> exists k, make_step dbg d ps k (heap, fin) <> NoFuel.
Proof.
  intros SM V L. pose proof SM as [SH SF]. cbn [fst snd] in SH, SF. pose proof (Forall2_length SH) as LH. pose proof (Forall2_length SF) as LF.
  assert (NE : H <> []) by (apply (inv_nonempty _ _ _ _ _ V); lia). assert (LH0 : (length heap <> 0)%nat) by (destruct H; [congruence|cbn [length] in LH; lia]).
  destruct (max_exists H NE) as (t & It & MX). destruct (Forall2_nth_error_r _ _ _ t SH It) as (k & e & Ek & Te). exists k.
  unfold make_step. rewrite (proj2 (Nat.eqb_neq _ _) LH0). cbn [negb]. rewrite check_true. cbn [rbind].
  assert (RH : forall h, In h H -> (snd h < n)%nat) by (intros h I; apply (i_range _ _ _ _ _ V), in_or_app; left; exact I).
  assert (X : rforall (fun x => c <- ev_less dbg (fin_at n fin) d ps e x ;; Ok (negb c)) heap = Ok true).
  { destruct (rforall_ok (fun x => c <- ev_less dbg (fin_at n fin) d ps e x ;; Ok (negb c)) (fun _ => True) heap) as (b & RB & BB).
    - intros x I. destruct (Forall2_in_l _ _ _ x SH I) as (h & Ih & Th). destruct (less_spec _ e x t h Te Th (RH t It) (RH h Ih)) as (c & LC & CC). exists (negb c). rewrite LC. cbn [rbind]. split; [reflexivity|].
      split; [trivial|]. intros _. destruct c; [|reflexivity]. exfalso. apply (MX h Ih), CC. reflexivity.
    - rewrite RB. f_equal. apply BB. trivial. }
  unfold pop_heap. rewrite Ek, X. cbn [rbind]. destruct (negb _); [discriminate|]. destruct (ev_start e); [discriminate|]. destruct (negb _); discriminate.
Qed.
Lemma loop_legal k : forall heap fin H F, sim (heap, fin) H F -> inv H F -> (length fin + k = 2 * n)%nat -> exists choose, make_loop dbg d ps choose k (heap, fin) <> NoFuel.
Proof.
  induction k as [|k IH]; intros heap fin H F SM V L; [exists (fun _ => 0%nat); discriminate|].
  destruct (step_legal heap fin H F SM V ltac:(lia)) as (c & C). destruct (step_ok heap fin H F c SM V ltac:(lia)) as [X|(heap' & fin' & H' & F' & E & SM' & V' & L')]; [contradiction|].
  destruct (IH heap' fin' H' F' SM' V' ltac:(lia)) as (ch & CH). exists (fun j => if j =? k then c else ch j)%nat. cbn [make_loop]. rewrite Nat.eqb_refl, E. cbn [rbind].
  replace (make_loop dbg d ps (fun j => if (j =? k)%nat then c else ch j) k (heap', fin')) with (make_loop dbg d ps ch k (heap', fin')); [exact CH|].
  assert (G : forall m st, (m <= k)%nat -> make_loop dbg d ps ch m st = make_loop dbg d ps (fun j => if (j =? k)%nat then c else ch j) m st).
  { induction m as [|m IHm]; intros st M; [reflexivity|]. cbn [make_loop]. destruct (Nat.eqb_spec m k) as [X|X]; [lia|].
    destruct (make_step dbg d ps (ch m) st); cbn [rbind]; try reflexivity. apply IHm. lia. }
  apply G. lia.
Qed.
End Make.
