(** Redirectable values: chains, the loops of primary(), and every operation. *)
From Coq Require Import List Bool Arith Lia.
From Verif Require Import BigUIntModel DeedModel RedirModel RedirSpec.
Import ListNotations.

Inductive leadsn (s : rstate) : nat -> nat -> nat -> Prop :=
| leadsn_end : forall p, redir s p = Some p -> leadsn s 0 p p
| leadsn_step : forall k x y p, redir s x = Some y -> y <> x -> leadsn s k y p -> leadsn s (S k) x p.
Lemma leads_n s x p : leads s x p <-> exists k, leadsn s k x p.
Proof.
  split.
  - intros H. induction H as [p E|x y p E N H [k IH]]; [exists 0; constructor; exact E|exists (S k); econstructor; eassumption].
  - intros [k H]. induction H as [p E|k x y p E N H IH]; [constructor; exact E|econstructor; eassumption].
Qed.
Lemma leadsn_det s k x p : leadsn s k x p -> forall k' p', leadsn s k' x p' -> k' = k /\ p' = p.
Proof.
  intros H. induction H as [p E|k x y p E N H IH]; intros k' p' H'; inversion H' as [q E'|k2 x2 y2 q E' N' H2]; subst; try congruence.
  - auto.
  - assert (y2 = y) as -> by congruence. destruct (IH _ _ H2). subst. auto.
Qed.
Lemma leads_det s x p p' : leads s x p -> leads s x p' -> p' = p.
Proof. intros H H'. apply leads_n in H, H'. destruct H as [k H], H' as [k' H']. exact (proj2 (leadsn_det s k x p H _ _ H')). Qed.
Lemma leads_live s x p : leads s x p -> live s x.
Proof. intros H. destruct H; unfold live; congruence. Qed.
Lemma leads_primary s x p : leads s x p -> redir s p = Some p.
Proof. intros H. induction H; assumption. Qed.
Lemma leads_self s x : leads s x x <-> redir s x = Some x.
Proof. split; [apply leads_primary|apply leads_end]. Qed.
Lemma leads_ext s s' : (forall x, redir s' x = redir s x) -> forall x p, leads s x p -> leads s' x p.
Proof. intros E x p H. induction H as [p Q|x y p Q N H IH]; [constructor; congruence|apply (leads_step _ _ y); congruence]. Qed.

(** Re-pointing [x] does not affect chains shorter than its own. *)
Lemma avoid s x r k q : leadsn s k x q -> forall j z p, leadsn s j z p -> j < k -> leadsn (rset s x r) j z p.
Proof.
  intros HX j z p H. induction H as [p E|j z y p E N H IH]; intros L.
  - constructor. cbn [redir rset]. unfold upd. destruct (Nat.eqb_spec p x) as [->|_]; [|exact E]. destruct (leadsn_det _ _ _ _ HX 0 x (leadsn_end s x E)). lia.
  - apply (leadsn_step _ j z y p); [|exact N|apply IH; lia]. cbn [redir rset]. unfold upd. destruct (Nat.eqb_spec z x) as [->|_]; [|exact E]. destruct (leadsn_det _ _ _ _ HX (S j) p (leadsn_step s _ _ _ _ E N H)). lia.
Qed.
(** Pointing [x] straight at its primary changes no primary. *)
Definition compressed (s : rstate) (x p : nat) (s' : rstate) : Prop := (forall z, redir s' z = if z =? x then Some p else redir s z) /\ forall z, vals s' z = vals s z.
Lemma compressed_leads s x p s' : leads s x p -> compressed s x p s' -> forall z q, leads s z q <-> leads s' z q.
Proof.
  intros HX [C _]. assert (P : redir s p = Some p) by exact (leads_primary _ _ _ HX).
  assert (P' : leads s' p p) by (constructor; rewrite C; destruct (p =? x); [reflexivity|exact P]).
  assert (X' : leads s' x p).
  { destruct (Nat.eq_dec x p) as [->|N]; [exact P'|]. apply (leads_step _ _ p); [rewrite C, Nat.eqb_refl; reflexivity|congruence|exact P']. }
  assert (F : forall z q, leads s z q -> leads s' z q).
  { intros z q H. induction H as [q E|z y q E N H IH].
    - destruct (Nat.eqb_spec q x) as [->|N]; [|constructor; rewrite C; destruct (Nat.eqb_spec q x); [contradiction|exact E]]. assert (p = x) as -> by exact (leads_det s x x p (leads_end s x E) HX). exact P'.
    - destruct (Nat.eqb_spec z x) as [->|NX].
      + assert (p = q) as <- by exact (leads_det s x q p (leads_step s x y q E N H) HX). exact X'.
      + apply (leads_step _ z y q); [|exact N|exact IH]. rewrite C. destruct (Nat.eqb_spec z x); [contradiction|exact E]. }
  intros z q. split; [apply F|]. intros H. induction H as [q E|z y q E N H IH].
  - rewrite C in E. destruct (Nat.eqb_spec q x) as [QX|N]; [|constructor; exact E]. injection E as PQ. subst. exact HX.
  - rewrite C in E. destruct (Nat.eqb_spec z x) as [->|NX]; [|exact (leads_step s z y q E N IH)]. injection E as ->. assert (q = y) as ->; [|exact HX]. exact (leads_det s' y y q P' H).
Qed.
Lemma primary_n s k x p : leadsn s k x p -> exists s', (forall n, k < n -> r_primary n s x = Ok (p, s')) /\ compressed s x p s'.
Proof.
  revert s. induction k as [k IH] using lt_wf_ind. intros s H. inversion H as [q E|j x0 y q E N H2]; subst.
  - exists s. split.
    + intros n L. destruct n as [|n]; [lia|]. cbn [r_primary]. unfold rget. rewrite E. cbn [rbind]. rewrite E. cbn [rbind]. rewrite Nat.eqb_refl. reflexivity.
    + split; [|reflexivity]. intros z. destruct (Nat.eqb_spec z p) as [->|_]; [exact E|reflexivity].
  - inversion H2 as [q E2|j2 x0 y2 q E2 N2 H3]; subst.
    + exists s. split.
      * intros n L. destruct n as [|n]; [lia|]. cbn [r_primary]. unfold rget. rewrite E. cbn [rbind]. rewrite E2. cbn [rbind]. rewrite Nat.eqb_refl. reflexivity.
      * split; [|reflexivity]. intros z. destruct (Nat.eqb_spec z x) as [->|_]; [exact E|reflexivity].
    + assert (NX : y2 <> x) by (intros ->; destruct (leadsn_det _ _ _ _ H _ _ H3); lia).
      assert (H4 : leadsn (rset s x y2) (S j2) x p).
      { apply (leadsn_step _ j2 x y2 p); [cbn [redir rset]; unfold upd; rewrite Nat.eqb_refl; reflexivity|exact NX|]. exact (avoid s x y2 _ p H j2 y2 p H3 ltac:(lia)). }
      destruct (IH (S j2) ltac:(lia) _ H4) as (s' & R & C). exists s'. split.
      * intros n L. destruct n as [|n]; [lia|]. cbn [r_primary]. unfold rget. rewrite E. cbn [rbind]. rewrite E2. cbn [rbind]. destruct (Nat.eqb_spec y y2); [congruence|]. apply R. lia.
      * destruct C as [C V]. split; [|exact V]. intros z. rewrite C. cbn [redir rset]. unfold upd. destruct (z =? x); reflexivity.
Qed.
Lemma primary_spec s x p : leads s x p -> exists N s', (forall n, N <= n -> r_primary n s x = Ok (p, s')) /\ compressed s x p s'.
Proof. intros H. apply leads_n in H. destruct H as [k H]. destruct (primary_n s k x p H) as (s' & R & C). exists (S k), s'. split; [intros n L; apply R; lia|exact C]. Qed.
Lemma walk_n s k x p : leadsn s k x p -> forall n, k < n -> r_walk n s x = Ok p.
Proof.
  intros H. induction H as [p E|k x y p E N H IH]; intros n L; (destruct n as [|n]; [lia|]); cbn [r_walk]; unfold rget; rewrite E; cbn [rbind].
  - rewrite Nat.eqb_refl. reflexivity.
  - destruct (Nat.eqb_spec x y); [congruence|]. apply IH. lia.
Qed.
Lemma primary_const_spec s x p : leads s x p -> exists N, forall n, N <= n -> r_primary_const n s x = Ok p.
Proof.
  intros H. apply leads_n in H. destruct H as [k H]. exists (S k). intros n L. unfold r_primary_const, rget. inversion H as [q E|j x0 y q E N H2]; subst; rewrite E; cbn [rbind].
  - apply (walk_n s 0); [exact H|lia].
  - apply (walk_n s j); [exact H2|lia].
Qed.

Lemma alive_r s x : live s x -> exists r, redir s x = Some r.
Proof. unfold live. destruct (redir s x); [eauto|contradiction]. Qed.
Lemma dead_r s x : ~ live s x -> redir s x = None.
Proof. unfold live. destruct (redir s x); [intros H; exfalso; apply H; discriminate|reflexivity]. Qed.
Lemma live_iff s x : live s x <-> redir s x <> None.
Proof. reflexivity. Qed.
Lemma compressed_live s x p s' : live s x -> compressed s x p s' -> forall y, live s' y <-> live s y.
Proof. intros L [C _] y. unfold live. rewrite C. destruct (Nat.eqb_spec y x) as [->|_]; [split; [intros _; exact L|discriminate]|reflexivity]. Qed.
Lemma compressed_sound s x p s' : rsound s -> leads s x p -> compressed s x p s' -> rsound s'.
Proof.
  intros [R1 R2] H C. constructor.
  - intros y L. apply (compressed_live s x p s' (leads_live _ _ _ H) C) in L. destruct (R1 y L) as [q Q]. exists q. apply (compressed_leads s x p s' H C). exact Q.
  - intros y. destruct C as [C V]. rewrite V. rewrite R2. rewrite <- !leads_self. apply (compressed_leads s x p s' H). split; assumption.
Qed.

Lemma new_spec s x v : rsound s -> ~ live s x -> exists s', r_new s x v = Ok s' /\ rsound s' /\ reffect (RNew x v) s s'.
Proof.
  intros [R1 R2] F. pose proof (dead_r s x F) as E. unfold r_new, fresh. rewrite E. cbn [rbind]. eexists. split; [reflexivity|].
  set (s' := RS _ _).
  assert (L : forall y p, leads s y p -> leads s' y p).
  { intros y p H. induction H as [p Q|y z p Q N H IH]; [constructor|apply (leads_step _ _ z); [|exact N|exact IH]]; subst s'; cbn [redir]; unfold upd; [destruct (Nat.eqb_spec p x)|destruct (Nat.eqb_spec y x)]; congruence. }
  assert (X : leads s' x x) by (constructor; subst s'; cbn [redir]; unfold upd; rewrite Nat.eqb_refl; reflexivity).
  split; [constructor|split].
  - intros y Ly. destruct (Nat.eq_dec y x) as [->|N]; [eauto|]. assert (Ly' : live s y) by (unfold live in *; subst s'; cbn [redir] in Ly; unfold upd in Ly; destruct (Nat.eqb_spec y x); congruence). destruct (R1 y Ly') as [p P]. eauto.
  - intros y. subst s'. cbn [redir vals]. unfold upd. destruct (Nat.eqb_spec y x) as [->|N]; [split; [reflexivity|discriminate]|apply R2].
  - intros y. unfold live. subst s'. cbn [redir]. unfold upd. destruct (Nat.eqb_spec y x) as [->|N]; [split; [tauto|discriminate]|tauto].
  - split; [exact X|]. split; [subst s'; cbn [vals]; unfold upd; rewrite Nat.eqb_refl; reflexivity|]. split; [exact L|]. intros y N. subst s'. cbn [vals]. unfold upd. destruct (Nat.eqb_spec y x); [contradiction|reflexivity].
Qed.
Lemma copy_spec s x y : rsound s -> ~ live s x -> live s y -> exists s', r_copy s x y = Ok s' /\ rsound s' /\ reffect (RCopy x y) s s'.
Proof.
  intros [R1 R2] F Ly. pose proof (dead_r s x F) as E. destruct (alive_r s y Ly) as [r R]. unfold r_copy, fresh, rget. rewrite E, R. cbn [rbind]. eexists. split; [reflexivity|].
  set (s' := rset _ _ _).
  assert (NX : forall z, redir s z <> Some x).
  { intros z Q. destruct (R1 z ltac:(unfold live; congruence)) as [p P]. inversion P as [q E1|z0 w q E1 N H]; subst; [congruence|]. assert (w = x) as -> by congruence. apply F. exact (leads_live _ _ _ H). }
  assert (L : forall z p, leads s z p -> leads s' z p).
  { intros z p H. induction H as [p Q|z w p Q N H IH]; [constructor|apply (leads_step _ _ w); [|exact N|exact IH]]; subst s'; cbn [redir rset]; unfold upd; [destruct (Nat.eqb_spec p x)|destruct (Nat.eqb_spec z x)]; congruence. }
  destruct (R1 y Ly) as [p P].
  assert (X : leads s' x p).
  { assert (RN : r <> x) by (intros ->; exact (NX y R)). apply (leads_step _ x r); [subst s'; cbn [redir rset]; unfold upd; rewrite Nat.eqb_refl; reflexivity|exact RN|]. apply L. inversion P as [q E1|z0 w q E1 N H]; subst; [assert (r = p) as -> by congruence; exact P|]. assert (r = w) as -> by congruence. exact H. }
  split; [constructor|split].
  - intros z Lz. destruct (Nat.eq_dec z x) as [->|N]; [eauto|]. assert (Lz' : live s z) by (unfold live in *; subst s'; cbn [redir rset] in Lz; unfold upd in Lz; destruct (Nat.eqb_spec z x); congruence). destruct (R1 z Lz') as [q Q]. eauto.
  - intros z. subst s'. cbn [redir vals rset]. unfold upd. destruct (Nat.eqb_spec z x) as [->|N]; [|apply R2]. rewrite R2, E. split; [discriminate|]. intros Q. exfalso. apply (NX y). congruence.
  - intros z. unfold live. subst s'. cbn [redir rset]. unfold upd. destruct (Nat.eqb_spec z x) as [->|N]; [split; [tauto|discriminate]|tauto].
  - split; [exists p; split; [exact X|exact (L y p P)]|]. split; [exact L|reflexivity].
Qed.
Lemma touch_spec s x : rsound s -> live s x -> exists s', (exists N, forall n, N <= n -> rstep n s (RTouch x) = Ok s') /\ rsound s' /\ reffect (RTouch x) s s'.
Proof.
  intros R L. destruct (rs_leads s R x L) as [p P]. destruct (primary_spec s x p P) as (N & s' & Q & C). exists s'.
  assert (V : vals s' p <> None) by (rewrite (proj2 C); apply (rs_vals s R); exact (leads_primary _ _ _ P)). split; [|split].
  - exists N. intros n Hn. cbn [rstep]. unfold r_deref. rewrite (Q n Hn). cbn [rbind fst snd]. destruct (vals s' p); [reflexivity|contradiction].
  - exact (compressed_sound s x p s' R P C).
  - split; [intros y; exact (compressed_live s x p s' L C y)|]. split; [intros y q; apply (compressed_leads s x p s' P C)|exact (proj2 C)].
Qed.
Lemma destroy_spec s x : rsound s -> rallowed s (RDestroy x) -> exists s', r_destroy s x = Ok s' /\ rsound s' /\ reffect (RDestroy x) s s'.
Proof.
  intros [R1 R2] [Lx F]. destruct (alive_r s x Lx) as [r R]. unfold r_destroy, rget. rewrite R. cbn [rbind].
  assert (S1 : exists v, (if r =? x then vdestroy s x else Ok s) = Ok (RS (redir s) v) /\ (forall y, y <> x -> v y = vals s y) /\ v x = None).
  { destruct (Nat.eqb_spec r x) as [->|N].
    - unfold vdestroy. assert (V : vals s x <> None) by (apply R2; exact R). destruct (vals s x) eqn:E; [|contradiction]. eexists. split; [reflexivity|]. split; [intros y N; unfold upd; destruct (Nat.eqb_spec y x); [contradiction|reflexivity]|unfold upd; rewrite Nat.eqb_refl; reflexivity].
    - exists (vals s). split; [destruct s; reflexivity|]. split; [reflexivity|]. destruct (vals s x) eqn:E; [|reflexivity]. exfalso. apply N. assert (Q : redir s x = Some x) by (apply R2; congruence). congruence. }
  destruct S1 as (v & -> & V1 & V2). cbn [rbind redir vals]. eexists. split; [reflexivity|]. set (s' := RS _ _).
  assert (L : forall y p, y <> x -> leads s y p -> leads s' y p).
  { intros y p N H. induction H as [p Q|y z p Q NZ H IH].
    - constructor. subst s'. cbn [redir]. unfold upd. destruct (Nat.eqb_spec p x); [contradiction|exact Q].
    - assert (z <> x) by (intros ->; exact (F y N Q)). apply (leads_step _ y z); [|exact NZ|auto]. subst s'. cbn [redir]. unfold upd. destruct (Nat.eqb_spec y x); [contradiction|exact Q]. }
  split; [constructor|split].
  - intros y Ly. assert (y <> x /\ live s y) as [N Ly'] by (unfold live in *; subst s'; cbn [redir] in Ly; unfold upd in Ly; destruct (Nat.eqb_spec y x); [congruence|auto]). destruct (R1 y Ly') as [p P]. eauto.
  - intros y. subst s'. cbn [redir vals]. unfold upd. destruct (Nat.eqb_spec y x) as [->|N]; [rewrite V2; split; congruence|rewrite (V1 y N); apply R2].
  - intros y. unfold live. subst s'. cbn [redir]. unfold upd. destruct (Nat.eqb_spec y x) as [->|N]; [split; [congruence|tauto]|tauto].
  - split; [exact L|]. split; [intros _; exact V2|exact V1].
Qed.

(** *** Redirect *)
Lemma repoint_leads s x p q : leads s x p -> redir s q = Some q -> q <> x -> forall s', (forall z, redir s' z = if z =? x then Some q else redir s z) ->
  leads s' x q /\ (forall y w, leads s y w -> w <> p -> leads s' y w) /\ (p = x -> forall y, leads s y x -> leads s' y q) /\
  (p <> x -> leads s' p p /\ forall y, leads s y p -> leads s' y p \/ leads s' y q).
Proof.
  intros HX HQ N s' C.
  assert (Q' : leads s' q q) by (constructor; rewrite C; destruct (Nat.eqb_spec q x); [contradiction|exact HQ]).
  assert (X' : leads s' x q) by (apply (leads_step _ x q); [rewrite C, Nat.eqb_refl; reflexivity|exact N|exact Q']).
  assert (G : forall y w, leads s y w -> leads s' y w \/ (leads s' y q /\ w = p)).
  { intros y w H. induction H as [w E|y z w E NZ H IH].
    - destruct (Nat.eqb_spec w x) as [->|NX]; [right; split; [exact X'|exact (leads_det s x p x HX (leads_end s x E))]|left; constructor; rewrite C; destruct (Nat.eqb_spec w x); [contradiction|exact E]].
    - destruct (Nat.eqb_spec y x) as [->|NX]; [right; split; [exact X'|exact (leads_det s x p w HX (leads_step s x z w E NZ H))]|].
      assert (E' : redir s' y = Some z) by (rewrite C; destruct (Nat.eqb_spec y x); [contradiction|exact E]).
      destruct IH as [IH|[IH W]]; [left|right; split; [|exact W]]; exact (leads_step s' y z _ E' NZ IH). }
  split; [exact X'|]. split; [|split].
  - intros y w H NW. destruct (G y w H) as [A|[_ A]]; [exact A|contradiction].
  - intros -> y H. destruct (G y x H) as [A|[A _]]; [|exact A]. pose proof (leads_primary _ _ _ A) as B. rewrite C, Nat.eqb_refl in B. congruence.
  - intros NP. pose proof (leads_primary _ _ _ HX) as P. split; [constructor; rewrite C; destruct (Nat.eqb_spec p x); [contradiction|exact P]|]. intros y H. destruct (G y p H) as [A|[A _]]; auto.
Qed.
Lemma redirect_spec s x to : rsound s -> live s x -> live s to ->
  exists s', (exists N, forall n, N <= n -> r_redirect n s x to = Ok s') /\ rsound s' /\ reffect (RRedirect x to) s s'.
Proof.
  intros R Lx Lt. destruct (rs_leads s R to Lt) as [q Q]. destruct (rs_leads s R x Lx) as [p P].
  destruct (primary_spec s to q Q) as (N1 & s1 & P1 & C1). pose proof (compressed_sound s to q s1 R Q C1) as R1. pose proof (compressed_leads s to q s1 Q C1) as E1. pose proof (compressed_live s to q s1 Lt C1) as L1.
  assert (Lx1 : live s1 x) by (apply L1; exact Lx). destruct (alive_r s1 x Lx1) as [r Rx].
  assert (PX : leads s1 x p) by (apply E1; exact P). assert (QX : leads s1 to q) by (apply E1; exact Q).
  assert (HQ : redir s1 q = Some q) by exact (leads_primary _ _ _ QX).
  destruct (Nat.eq_dec q r) as [->|NQ].
  - exists s1. split; [exists N1; intros n Hn; unfold r_redirect; rewrite (P1 n Hn); cbn [rbind fst snd]; unfold rget; rewrite Rx; cbn [rbind]; rewrite Nat.eqb_refl; reflexivity|]. split; [exact R1|]. split; [exact L1|].
    assert (X : leads s1 x r). { destruct (Nat.eq_dec x r) as [->|NX]; [constructor; exact HQ|]. apply (leads_step _ x r); [exact Rx|congruence|constructor; exact HQ]. }
    assert (p = r) as -> by exact (leads_det s1 x r p X PX).
    split; [|split; [|split; [|split]]].
    + intros q' H. assert (q' = r) as -> by exact (leads_det s to r q' Q H). split; [exact X|exact QX].
    + intros _ _ y w H _. apply E1. exact H.
    + intros HX q' H. assert (q' = r) as -> by exact (leads_det s to r q' Q H). assert (r = x) as -> by exact (leads_det s x x r HX P). split; [intros y Hy; apply E1; exact Hy|contradiction].
    + intros p' q' H _ _. assert (p' = r) as -> by exact (leads_det s x r p' P H). split; [constructor; exact HQ|]. intros y Hy. left. apply E1. exact Hy.
    + intros y _. exact (proj2 C1 y).
  - assert (NX : q <> x).
    { intros ->. apply NQ. congruence. }
    assert (S1 : exists v, (if r =? x then vdestroy s1 x else Ok s1) = Ok (RS (redir s1) v) /\ (forall y, y <> x -> v y = vals s1 y) /\ v x = None).
    { destruct (Nat.eqb_spec r x) as [->|N].
      - unfold vdestroy. assert (V : vals s1 x <> None) by (apply (rs_vals s1 R1); exact Rx). destruct (vals s1 x) eqn:E; [|contradiction]. eexists. split; [reflexivity|]. split; [intros y N; unfold upd; destruct (Nat.eqb_spec y x); [contradiction|reflexivity]|unfold upd; rewrite Nat.eqb_refl; reflexivity].
      - exists (vals s1). split; [destruct s1; reflexivity|]. split; [reflexivity|]. destruct (vals s1 x) eqn:E; [|reflexivity]. exfalso. apply N. assert (B : redir s1 x = Some x) by (apply (rs_vals s1 R1); congruence). congruence. }
    destruct S1 as (v & SV & V1 & V2). set (s2 := RS (redir s1) v) in *.
    assert (Q2 : leads s2 to q) by (apply (leads_ext s1 s2); [reflexivity|exact QX]).
    destruct (primary_spec s2 to q Q2) as (N2 & s3 & P3 & C3).
    assert (T1 : redir s1 to = Some q) by (rewrite (proj1 C1), Nat.eqb_refl; reflexivity).
    assert (D3 : forall z, redir s3 z = redir s1 z).
    { intros z. rewrite (proj1 C3). destruct (Nat.eqb_spec z to) as [->|_]; [symmetry; exact T1|reflexivity]. }
    exists (rset s3 x q).
    assert (C : forall z, redir (rset s3 x q) z = if z =? x then Some q else redir s1 z).
    { intros z. cbn [redir rset]. unfold upd. destruct (z =? x); [reflexivity|apply D3]. }
    destruct (repoint_leads s1 x p q PX HQ NX (rset s3 x q) C) as (G1 & G2 & G3 & G4).
    split; [|split; [constructor|split]].
    + exists (Nat.max N1 N2). intros n Hn. unfold r_redirect. rewrite (P1 n) by lia. cbn [rbind fst snd]. unfold rget. rewrite Rx. cbn [rbind]. destruct (Nat.eqb_spec q r); [contradiction|]. rewrite SV. cbn [rbind]. rewrite (P3 n) by lia. cbn [rbind fst snd]. reflexivity.
    + intros y Ly. assert (Ly1 : live s1 y). { unfold live in *. rewrite C in Ly. destruct (Nat.eqb_spec y x) as [YX|YX]; [subst y; exact Lx1|exact Ly]. }
      destruct (rs_leads s1 R1 y Ly1) as [w W]. destruct (Nat.eq_dec w p) as [->|NW]; [|eauto]. destruct (Nat.eq_dec p x) as [->|NP]; [eauto|]. destruct (proj2 (G4 NP) y W); eauto.
    + intros y. cbn [vals rset]. rewrite (proj2 C3). subst s2. cbn [vals]. rewrite C. destruct (Nat.eqb_spec y x) as [->|N]; [rewrite V2; split; congruence|rewrite (V1 y N); apply (rs_vals s1 R1)].
    + intros y. rewrite <- L1. unfold live. rewrite C. destruct (Nat.eqb_spec y x) as [->|N]; [split; [intros _; exact Lx1|discriminate]|reflexivity].
    + split; [|split; [|split; [|split]]].
      * intros q' H. assert (q' = q) as -> by exact (leads_det s to q q' Q H). split; [exact G1|].
        destruct (Nat.eq_dec to x) as [->|NT]; [exact G1|]. destruct (Nat.eq_dec q p) as [->|NP]; [|exact (G2 to q QX NP)]. destruct (proj2 (G4 NX) to QX); assumption.
      * intros p' H y w W NW. assert (p' = p) as -> by exact (leads_det s x p p' P H). apply G2; [apply E1; exact W|exact NW].
      * intros HX q' H. assert (q' = q) as -> by exact (leads_det s to q q' Q H). assert (p = x) as -> by exact (leads_det s x x p HX P). split; [intros y Hy; apply (G3 eq_refl); apply E1; exact Hy|]. intros _. cbn [vals rset]. rewrite (proj2 C3). exact V2.
      * intros p' q' H H' NP. assert (p' = p) as -> by exact (leads_det s x p p' P H). assert (q' = q) as -> by exact (leads_det s to q q' Q H'). destruct (G4 NP) as [A B]. split; [exact A|]. intros y Hy. apply B. apply E1. exact Hy.
      * intros y Hy. cbn [vals rset]. rewrite (proj2 C3). subst s2. cbn [vals]. destruct (Nat.eq_dec y x) as [->|N]; [|rewrite (V1 y N); apply (proj2 C1)].
        destruct Hy as [Hy|[Hy|Hy]]; [contradiction| |exfalso; apply NX; exact (leads_det s to x q Hy Q)].
        rewrite V2. destruct (vals s x) eqn:E; [|reflexivity]. exfalso. apply Hy. constructor. apply (rs_vals s R). congruence.
Qed.
Lemma rstep_ok s o : rsound s -> rallowed s o -> exists s', (exists N, forall n, N <= n -> rstep n s o = Ok s') /\ rsound s' /\ reffect o s s'.
Proof.
  intros R A. destruct o as [x v|x y|x|x y|x]; cbn [rallowed] in A.
  - destruct (new_spec s x v R A) as (s' & S & H). exists s'. split; [exists 0; intros n _; exact S|exact H].
  - destruct A as [A B]. destruct (copy_spec s x y R A B) as (s' & S & H). exists s'. split; [exists 0; intros n _; exact S|exact H].
  - exact (touch_spec s x R A).
  - destruct A as [A B]. exact (redirect_spec s x y R A B).
  - destruct (destroy_spec s x R A) as (s' & S & H). exists s'. split; [exists 0; intros n _; exact S|exact H].
Qed.
Lemma rsound_empty : rsound rs_empty.
Proof. constructor; cbn; [intros x H; exfalso; apply H; reflexivity|intros x; split; [congruence|discriminate]]. Qed.
Lemma enough_unique (f g : nat -> res rstate) a b : (exists N, forall n, N <= n -> f n = Ok a) -> (exists N, forall n, N <= n -> f n = Ok b) -> a = b.
Proof. intros [N H] [M K]. specialize (H (Nat.max N M) ltac:(lia)). specialize (K (Nat.max N M) ltac:(lia)). congruence. Qed.
Lemma rhistory_sound l s : rhistory l s -> rsound s.
Proof.
  intros H. induction H as [|l s o s' H IH A E]; [exact rsound_empty|]. destruct (rstep_ok s o IH A) as (s2 & E2 & R & _). assert (s' = s2) as -> by exact (enough_unique (fun n => rstep n s o) (fun n => rstep n s o) _ _ E E2). exact R.
Qed.

(** *** Classes *)
Lemma class_live s x y : same_class s x y -> live s x /\ live s y.
Proof. intros (p & A & B). split; eapply leads_live; eassumption. Qed.
Lemma class_refl s x : rsound s -> live s x -> same_class s x x.
Proof. intros R L. destruct (rs_leads s R x L) as [p P]. exists p. auto. Qed.
Lemma class_sym s x y : same_class s x y -> same_class s y x.
Proof. intros (p & A & B). exists p. auto. Qed.
Lemma class_trans s x y z : same_class s x y -> same_class s y z -> same_class s x z.
Proof. intros (p & A & B) (q & C & D). assert (q = p) as -> by exact (leads_det s y p q B C). exists p. auto. Qed.
(** When primaries survive, classes of old handles do not change. *)
Lemma class_kept s s' : rsound s -> (forall y p, leads s y p -> leads s' y p) -> forall x y, live s x -> live s y -> (same_class s' x y <-> same_class s x y).
Proof.
  intros R F x y Lx Ly. destruct (rs_leads s R x Lx) as [p P], (rs_leads s R y Ly) as [q Q]. split; intros (w & A & B).
  - assert (w = p) as -> by exact (leads_det s' x p w (F _ _ P) A). assert (p = q) as -> by exact (leads_det s' y q p (F _ _ Q) B). exists q. auto.
  - exists w. auto.
Qed.
Lemma eq_spec s x y : rsound s -> live s x -> live s y -> exists N b, (forall n, N <= n -> r_eq n s x y = Ok b) /\ (b = true <-> same_class s x y).
Proof.
  intros R Lx Ly. destruct (rs_leads s R x Lx) as [p P], (rs_leads s R y Ly) as [q Q].
  destruct (primary_const_spec s x p P) as [N1 H1], (primary_const_spec s y q Q) as [N2 H2]. exists (Nat.max N1 N2), (p =? q). split.
  - intros n L. unfold r_eq. rewrite (H1 n), (H2 n) by lia. reflexivity.
  - rewrite Nat.eqb_eq. split.
    + intros ->. exists q. auto.
    + intros (w & A & B). pose proof (leads_det s x p w P A). pose proof (leads_det s y q w Q B). congruence.
Qed.
Lemma deref_const_spec s x : rsound s -> live s x -> exists N p v, leads s x p /\ vals s p = Some v /\ forall n, N <= n -> r_deref_const n s x = Ok v.
Proof.
  intros R L. destruct (rs_leads s R x L) as [p P]. destruct (primary_const_spec s x p P) as [N H]. assert (V : vals s p <> None) by (apply (rs_vals s R); exact (leads_primary _ _ _ P)). destruct (vals s p) as [v|] eqn:E; [|contradiction].
  exists N, p, v. split; [exact P|]. split; [exact E|]. intros n Hn. unfold r_deref_const. rewrite (H n Hn). cbn [rbind]. rewrite E. reflexivity.
Qed.
(** Redirecting a primary unites two classes. *)
Lemma redirect_primary_unites s a b : rsound s -> leads s a a -> live s b -> ~ same_class s a b ->
  exists s', (exists enough, forall fuel, enough <= fuel -> r_redirect fuel s a b = Ok s') /\ rsound s' /\ (forall x, live s' x <-> live s x) /\
    forall x y, live s x -> live s y -> (same_class s' x y <-> same_class s x y \/ (same_class s x a /\ same_class s y b) \/ (same_class s x b /\ same_class s y a)).
Proof.
  intros R A Lb NC. destruct (redirect_spec s a b R (leads_live _ _ _ A) Lb) as (s' & E & R' & L & G1 & G2 & G3 & _). exists s'. split; [exact E|]. split; [exact R'|]. split; [exact L|].
  destruct (rs_leads s R b Lb) as [q Q]. specialize (G3 A q Q). destruct G3 as [G3 _]. specialize (G2 a A).
  assert (NQ : q <> a) by (intros ->; apply NC; exists a; auto).
  intros x y Lx Ly. destruct (rs_leads s R x Lx) as [p P], (rs_leads s R y Ly) as [w W].
  assert (CA : forall z u, leads s z u -> (same_class s z a <-> u = a)).
  { intros z u U. split; [intros (v & B & C); pose proof (leads_det s z u v U B); pose proof (leads_det s a a v A C); congruence|intros ->; exists a; auto]. }
  assert (CB : forall z u, leads s z u -> (same_class s z b <-> u = q)).
  { intros z u U. split; [intros (v & B & C); pose proof (leads_det s z u v U B); pose proof (leads_det s b q v Q C); congruence|intros ->; exists q; auto]. }
  rewrite (CA x p P), (CA y w W), (CB x p P), (CB y w W).
  assert (CS : same_class s x y <-> p = w).
  { split; [intros (v & B & C); pose proof (leads_det s x p v P B); pose proof (leads_det s y w v W C); congruence|intros ->; exists w; auto]. }
  rewrite CS. set (f := fun u => if u =? a then q else u).
  assert (F : forall z u, leads s z u -> leads s' z (f u)).
  { intros z u U. unfold f. destruct (Nat.eqb_spec u a) as [->|N]; [exact (G3 z U)|exact (G2 z u U N)]. }
  assert (CS' : same_class s' x y <-> f p = f w).
  { pose proof (F x p P) as P'. pose proof (F y w W) as W'. split; [intros (v & B & C); pose proof (leads_det s' x _ v P' B); pose proof (leads_det s' y _ v W' C); congruence|intros H; exists (f w); rewrite H in P'; auto]. }
  rewrite CS'. unfold f. destruct (Nat.eqb_spec p a), (Nat.eqb_spec w a); subst; intuition congruence.
Qed.
Lemma primary_merger_unites : unites primary_merger.
Proof.
  intros s a b R La Lb NC. destruct (rs_leads s R a La) as [p P]. destruct (primary_spec s a p P) as (N & s1 & H & C).
  pose proof (compressed_sound s a p s1 R P C) as R1. pose proof (compressed_leads s a p s1 P C) as E1. pose proof (compressed_live s a p s1 La C) as L1.
  assert (CE : forall x y, same_class s x y <-> same_class s1 x y) by (intros x y; split; intros (w & A & B); exists w; split; apply E1; assumption).
  assert (PP : same_class s1 a p) by (exists p; split; apply E1; [exact P|constructor; exact (leads_primary _ _ _ P)]).
  destruct (redirect_primary_unites s1 p b R1) as (s' & [N2 E] & R' & L' & G).
  - apply E1. constructor. exact (leads_primary _ _ _ P).
  - apply L1. exact Lb.
  - intros Q. apply NC. apply CE. exact (class_trans s1 a p b PP Q).
  - exists s'. split; [exists (Nat.max N N2); intros n Hn; unfold primary_merger; rewrite (H n) by lia; cbn [rbind fst snd]; apply E; lia|]. split; [exact R'|]. split; [intros x; rewrite L'; apply L1|].
    intros x y Lx Ly. rewrite (G x y (proj2 (L1 x) Lx) (proj2 (L1 y) Ly)). rewrite !CE.
    assert (S : forall z, same_class s1 z p <-> same_class s1 z a) by (intros z; split; intros Q; [exact (class_trans s1 z p a Q (class_sym _ _ _ PP))|exact (class_trans s1 z a p Q PP)]).
    rewrite (S x), (S y). reflexivity.
Qed.

(** *** The mapper *)
Lemma joined_cons e edges x y : joined edges x y -> joined (e :: edges) x y.
Proof. intros H. induction H; [apply j_refl|apply j_pair; right; assumption|apply j_sym; assumption|eapply j_trans; eassumption]. Qed.
Lemma joined_unmentioned edges x y : joined edges x y -> x = y \/ (mentioned edges x /\ mentioned edges y).
Proof.
  intros H. induction H as [x|a b H|x y H IH|x y z H IH H' IH'].
  - auto.
  - right. split; exists (a, Some b); auto.
  - intuition.
  - destruct IH as [->|[A B]]; [exact IH'|]. destruct IH' as [<-|[C D]]; auto.
Qed.
Lemma joined_none a edges x y : joined ((a, None) :: edges) x y <-> joined edges x y.
Proof.
  split; [|apply joined_cons]. intros H. induction H as [x|b c H|x y H IH|x y z H IH H' IH']; [apply j_refl| |apply j_sym; exact IH|exact (j_trans _ _ _ _ IH IH')].
  destruct H as [H|H]; [discriminate|apply j_pair; exact H].
Qed.
Lemma joined_some a b edges x y : joined ((a, Some b) :: edges) x y <-> joined edges x y \/ (joined edges x a /\ joined edges y b) \/ (joined edges x b /\ joined edges y a).
Proof.
  split.
  - intros H. induction H as [x|c d H|x y H IH|x y z H IH H' IH'].
    + left. apply j_refl.
    + destruct H as [H|H]; [injection H as <- <-; right; left; split; apply j_refl|left; apply j_pair; exact H].
    + destruct IH as [IH|[[A B]|[A B]]]; [left; apply j_sym; exact IH|right; right; auto|right; left; auto].
    + assert (T : forall u v w, joined edges u v -> joined edges v w -> joined edges u w) by exact (j_trans edges). assert (S : forall u v, joined edges u v -> joined edges v u) by exact (j_sym edges).
      destruct IH as [A|[[A B]|[A B]]], IH' as [C|[[C D]|[C D]]]; eauto 8.
  - assert (AB : joined ((a, Some b) :: edges) a b) by (apply j_pair; left; reflexivity).
    intros [H|[[A B]|[A B]]]; [apply joined_cons; exact H| |]; apply (joined_cons (a, Some b)) in A, B.
    + exact (j_trans _ _ _ _ A (j_trans _ _ _ _ AB (j_sym _ _ _ B))).
    + exact (j_trans _ _ _ _ A (j_trans _ _ _ _ (j_sym _ _ _ AB) (j_sym _ _ _ B))).
Qed.
(** State after the edges [done] (most recent first). *)
Definition merged (done : list (nat * option nat)) (s : rstate) : Prop :=
  rsound s /\ (forall x, live s x <-> mentioned done x) /\ forall x y, live s x -> live s y -> (same_class s x y <-> joined done x y).
Lemma mentioned_cons e done x : mentioned (e :: done) x <-> fst e = x \/ snd e = Some x \/ mentioned done x.
Proof.
  split.
  - intros (e' & [<-|H] & Q); [tauto|right; right; exists e'; auto].
  - intros [H|[H|(e' & H & Q)]]; [exists e; cbn; auto|exists e; cbn; auto|exists e'; cbn; auto].
Qed.
Lemma map_spec factory m : unites m -> forall done s e, merged done s -> exists s', (exists N, forall n, N <= n -> m_map factory m n s e = Ok s') /\ merged (e :: done) s'.
Proof.
  intros U done s [a o] (R & L & J).
  (* after the first insertion *)
  assert (S1 : exists s1, (match redir s a with Some _ => Ok s | None => r_new s a (factory a) end) = Ok s1 /\ merged ((a, None) :: done) s1).
  { destruct (redir s a) as [r|] eqn:E.
    - exists s. split; [reflexivity|]. split; [exact R|]. assert (La : live s a) by (unfold live; congruence). split.
      + intros x. rewrite mentioned_cons. cbn [fst snd]. rewrite <- L. split; [tauto|]. intros [<-|[H|H]]; [exact La|discriminate|exact H].
      + intros x y Lx Ly. rewrite joined_none. exact (J x y Lx Ly).
    - assert (F : ~ live s a) by (unfold live; rewrite E; auto). destruct (new_spec s a (factory a) R F) as (s1 & N & R1 & L1 & X & V & G & _). exists s1. split; [exact N|]. split; [exact R1|]. split.
      + intros x. rewrite L1, mentioned_cons. cbn [fst snd]. rewrite <- L. split; [intros [->|H]; auto|intros [->|[H|H]]; [auto|discriminate|auto]].
      + intros x y Lx Ly. rewrite joined_none. apply L1 in Lx, Ly.
        assert (K : forall z, live s z -> (same_class s1 a z <-> joined done a z)).
        { intros z Lz. split.
          - intros (p & A & B). destruct (rs_leads s R z Lz) as [q Q]. assert (p = a) as -> by exact (leads_det s1 a a p X A). assert (a = q) as -> by exact (leads_det s1 z q a (G _ _ Q) B). exfalso. apply F. unfold live. rewrite (leads_primary _ _ _ Q). discriminate.
          - intros H. destruct (joined_unmentioned _ _ _ H) as [->|[M _]]; [contradiction|]. exfalso. apply F. apply L. exact M. }
        destruct Lx as [->|Lx], Ly as [->|Ly].
        * split; [intros _; apply j_refl|intros _; exists a; auto].
        * exact (K y Ly).
        * split; intros H; [apply j_sym, (K x Lx), class_sym, H|apply class_sym, (K x Lx), j_sym, H].
        * rewrite (class_kept s s1 R G x y Lx Ly). exact (J x y Lx Ly). }
  destruct S1 as (s1 & E1 & R1 & L1 & J1). unfold m_map. cbn [fst snd]. rewrite E1. cbn [rbind].
  destruct o as [b|]; [|exists s1; split; [exists 0; reflexivity|split; [exact R1|split; assumption]]].
  assert (La : live s1 a) by (apply L1; rewrite mentioned_cons; left; reflexivity).
  destruct (Nat.eqb_spec b a) as [->|NB].
  - exists s1. split; [exists 0; reflexivity|]. split; [exact R1|]. split.
    + intros x. rewrite L1, !mentioned_cons. cbn [fst snd]. split; [intros [H|[H|H]]; auto; discriminate|]. intros [H|[H|H]]; auto. injection H as ->. auto.
    + intros x y Lx Ly. rewrite (J1 x y Lx Ly), joined_none, joined_some. split; [tauto|]. intros [H|[[A B]|[A B]]]; [exact H| |]; exact (j_trans _ _ _ _ A (j_sym _ _ _ B)).
  - destruct (redir s1 b) as [r|] eqn:E.
    + assert (Lb : live s1 b) by (unfold live; congruence).
      assert (LM : forall x, live s1 x <-> mentioned ((a, Some b) :: done) x).
      { intros x. rewrite L1, !mentioned_cons. cbn [fst snd]. split; [intros [H|[H|H]]; auto; discriminate|]. intros [H|[H|H]]; auto. injection H as <-. apply L1 in Lb. rewrite mentioned_cons in Lb. exact Lb. }
      destruct (eq_spec s1 b a R1 Lb La) as (N & t & H & T). destruct t.
      * exists s1. split; [exists N; intros n Hn; rewrite (H n Hn); reflexivity|]. split; [exact R1|]. split; [exact LM|].
        assert (AB : joined done b a) by (apply (joined_none a done b a); apply (J1 b a Lb La); apply T; reflexivity).
        intros x y Lx Ly. rewrite (J1 x y Lx Ly), joined_none, joined_some. split; [tauto|]. intros [A|[[A B]|[A B]]]; [exact A| |].
        -- exact (j_trans _ _ _ _ A (j_trans _ _ _ _ (j_sym _ _ _ AB) (j_sym _ _ _ B))).
        -- exact (j_trans _ _ _ _ A (j_trans _ _ _ _ AB (j_sym _ _ _ B))).
      * assert (NC : ~ same_class s1 a b) by (intros Q; apply class_sym in Q; apply T in Q; discriminate).
        destruct (U s1 a b R1 La Lb NC) as (s' & [N2 M] & R' & L' & G). exists s'. split; [exists (Nat.max N N2); intros n Hn; rewrite (H n) by lia; cbn [rbind]; apply M; lia|]. split; [exact R'|]. split; [intros x; rewrite L'; apply LM|].
        intros x y Lx Ly. apply L' in Lx, Ly. rewrite (G x y Lx Ly), (J1 x y Lx Ly), (J1 x a Lx La), (J1 y b Ly Lb), (J1 x b Lx Lb), (J1 y a Ly La), !joined_none, joined_some. reflexivity.
    + assert (F : ~ live s1 b) by (unfold live; rewrite E; auto). destruct (copy_spec s1 b a R1 F La) as (s' & C & R' & L' & X & G & _). exists s'. split; [exists 0; intros n _; exact C|]. split; [exact R'|]. split.
      * intros x. rewrite L', L1, !mentioned_cons. cbn [fst snd]. split; [intros [->|[H|[H|H]]]; auto; discriminate|]. intros [H|[H|H]]; auto. injection H as ->. auto.
      * assert (NJ : forall z, joined done b z -> z = b).
        { intros z H. destruct (joined_unmentioned _ _ _ H) as [->|[M _]]; [reflexivity|]. exfalso. apply F. apply L1. rewrite mentioned_cons. auto. }
        assert (KZ : forall z, live s1 z -> (same_class s' b z <-> joined done a z)).
        { intros z Lz. rewrite <- (joined_none a done a z), <- (J1 a z La Lz), <- (class_kept s1 s' R1 G a z La Lz). split; intros H; [exact (class_trans s' a b z (class_sym _ _ _ X) H)|exact (class_trans s' b a z X H)]. }
        assert (NZ : forall z, live s1 z -> ~ joined done z b) by (intros z Lz H; apply j_sym, NJ in H; subst z; contradiction).
        assert (AA : joined done a a) by apply j_refl. assert (BB : joined done b b) by apply j_refl.
        intros x y Lx Ly. rewrite joined_some. apply L' in Lx, Ly. destruct Lx as [->|Lx], Ly as [->|Ly].
        -- split; [intros _; left; exact BB|intros _; apply (class_refl s' b R'); apply L'; auto].
        -- rewrite (KZ y Ly). split; [intros H; right; right; split; [exact BB|apply j_sym; exact H]|]. intros [H|[[_ H]|[_ H]]]; [exfalso; apply (NZ y Ly), j_sym, H|exfalso; exact (NZ y Ly H)|apply j_sym; exact H].
        -- split; [intros H; apply class_sym, (KZ x Lx) in H; right; left; split; [apply j_sym; exact H|exact BB]|]. intros [H|[[H _]|[H _]]]; [exfalso; exact (NZ x Lx H)| |exfalso; exact (NZ x Lx H)]. apply class_sym, (KZ x Lx), j_sym, H.
        -- rewrite (class_kept s1 s' R1 G x y Lx Ly), (J1 x y Lx Ly), joined_none. split; [tauto|]. intros [H|[[_ H]|[H _]]]; [exact H|exfalso; exact (NZ y Ly H)|exfalso; exact (NZ x Lx H)].
Qed.
Lemma map_all_spec factory m : unites m -> forall edges done s, merged done s -> exists s', (exists N, forall n, N <= n -> m_map_all factory m n s edges = Ok s') /\ merged (rev edges ++ done) s'.
Proof.
  intros U edges. induction edges as [|e edges IH]; intros done s M.
  - exists s. split; [exists 0; reflexivity|exact M].
  - destruct (map_spec factory m U done s e M) as (s1 & [N1 E1] & M1). destruct (IH (e :: done) s1 M1) as (s' & [N2 E2] & M2). exists s'. split.
    + exists (Nat.max N1 N2). intros n Hn. cbn [m_map_all]. rewrite (E1 n) by lia. cbn [rbind]. apply E2. lia.
    + cbn [rev]. rewrite <- app_assoc. exact M2.
Qed.
Lemma joined_incl e1 e2 : (forall e, In e e1 -> In e e2) -> forall x y, joined e1 x y -> joined e2 x y.
Proof. intros I x y H. induction H; [apply j_refl|apply j_pair; auto|apply j_sym; assumption|eapply j_trans; eassumption]. Qed.

(** *** Tearing everything down *)
Lemma teardown l : forall s, (forall x, vals s x <> None <-> redir s x = Some x) -> NoDup l -> (forall x, In x l -> live s x) ->
  exists s', rrun 0 s (map RDestroy l) = Ok s' /\ (forall x, vals s' x <> None <-> redir s' x = Some x) /\ (forall x, In x l -> ~ live s' x /\ vals s' x = None) /\ (forall x, ~ In x l -> redir s' x = redir s x /\ vals s' x = vals s x).
Proof.
  induction l as [|x l IH]; intros s V ND L.
  - exists s. split; [reflexivity|]. split; [exact V|]. split; [intros x []|auto].
  - inversion ND as [|? ? NI ND']; subst. destruct (alive_r s x (L x (or_introl eq_refl))) as [r R].
    assert (S1 : exists s1, r_destroy s x = Ok s1 /\ redir s1 x = None /\ vals s1 x = None /\ (forall y, y <> x -> redir s1 y = redir s y /\ vals s1 y = vals s y)).
    { unfold r_destroy, rget. rewrite R. cbn [rbind]. destruct (Nat.eqb_spec r x) as [->|N].
      - unfold vdestroy. assert (Q : vals s x <> None) by (apply V; exact R). destruct (vals s x) eqn:E; [|contradiction]. cbn [rbind redir vals]. eexists. split; [reflexivity|]. cbn [redir vals]. unfold upd. rewrite Nat.eqb_refl. split; [reflexivity|]. split; [reflexivity|]. intros y NY. destruct (Nat.eqb_spec y x); [contradiction|auto].
      - cbn [rbind]. eexists. split; [reflexivity|]. cbn [redir vals]. unfold upd. rewrite Nat.eqb_refl. split; [reflexivity|]. split.
        + destruct (vals s x) eqn:E; [|reflexivity]. exfalso. apply N. assert (Q : redir s x = Some x) by (apply V; congruence). congruence.
        + intros y NY. destruct (Nat.eqb_spec y x); [contradiction|auto]. }
    destruct S1 as (s1 & E & D1 & D2 & F). destruct (IH s1) as (s' & E' & V' & K & G).
    + intros y. destruct (Nat.eq_dec y x) as [->|N]; [rewrite D1, D2; split; congruence|destruct (F y N) as [-> ->]; apply V].
    + exact ND'.
    + intros y Hy. assert (y <> x) by (intros ->; contradiction). unfold live. rewrite (proj1 (F y H)). apply L. right. exact Hy.
    + exists s'. cbn [map rrun rstep]. rewrite E. cbn [rbind]. split; [exact E'|]. split; [exact V'|]. split.
      * intros y [<-|Hy]; [|exact (K y Hy)]. destruct (G x NI) as [A B]. split; [unfold live; rewrite A, D1; auto|rewrite B; exact D2].
      * intros y Hy. assert (y <> x) by (intros ->; apply Hy; left; reflexivity). destruct (G y ltac:(intros Q; apply Hy; right; exact Q)) as [A B]. destruct (F y H) as [A' B']. split; congruence.
Qed.
