(** C26: redirectable values; C41: merging the representations of a vertex. *)
From Coq Require Import List Bool Arith Lia.
From Verif Require Import BigUIntModel DeedModel RedirModel RedirSpec RedirProofs.
Import ListNotations.

(** Every allowed operation terminates, keeps the handles sound and does what it
    is documented to do. *)
Theorem C26_step s o : rsound s -> rallowed s o ->
  exists s', (exists enough, forall fuel, enough <= fuel -> rstep fuel s o = Ok s') /\ rsound s' /\ reffect o s s'.
Proof. exact (rstep_ok s o). Qed.
Print Assumptions C26_step.

(** So every history of allowed operations reaches only sound states. *)
Theorem C26_history l s : rhistory l s -> rsound s.
Proof. exact (rhistory_sound l s). Qed.
Print Assumptions C26_history.

(** In every reachable state a handle gives access to the live value of its
    primary, and == decides whether two handles share it. *)
Theorem C26_access l s x : rhistory l s -> live s x -> exists enough p v, leads s x p /\ vals s p = Some v /\ forall fuel, enough <= fuel -> r_deref_const fuel s x = Ok v.
Proof. intros H. exact (deref_const_spec s x (rhistory_sound l s H)). Qed.
Print Assumptions C26_access.
Theorem C26_equality l s x y : rhistory l s -> live s x -> live s y ->
  exists enough b, (forall fuel, enough <= fuel -> r_eq fuel s x y = Ok b) /\ (b = true <-> exists p, leads s x p /\ leads s y p).
Proof. intros H. exact (eq_spec s x y (rhistory_sound l s H)). Qed.
Print Assumptions C26_equality.

(** Access through a handle that is not const gives the same value, although it
    shortens the chain. *)
Theorem C26_access_mutable l s x : rhistory l s -> live s x ->
  exists enough p v s', leads s x p /\ vals s p = Some v /\ (forall fuel, enough <= fuel -> r_deref fuel s x = Ok (v, s')) /\
    (forall y q, leads s y q -> leads s' y q) /\ forall y, vals s' y = vals s y.
Proof.
  intros H L. pose proof (rhistory_sound l s H) as R. destruct (deref_const_spec s x R L) as (_ & p & v & P & V & _).
  destruct (primary_spec s x p P) as (N & s' & E & C). destruct (rstep_ok s (RTouch x) R L) as (t & [N2 E2] & _ & _ & K).
  assert (D : forall fuel, N <= fuel -> r_deref fuel s x = Ok (v, s')).
  { intros n Hn. unfold r_deref. rewrite (E n Hn). cbn [rbind fst snd]. rewrite (proj2 C), V. reflexivity. }
  assert (t = s') as ->.
  { specialize (E2 (Nat.max N N2) ltac:(lia)). cbn [rstep] in E2. rewrite D in E2 by lia. cbn [rbind snd] in E2. congruence. }
  exists N, p, v, s'. split; [exact P|]. split; [exact V|]. split; [exact D|]. exact K.
Qed.
Print Assumptions C26_access_mutable.

(** IsPrimary holds exactly for the handles that keep a value. *)
Theorem C26_is_primary l s x : rhistory l s -> live s x ->
  exists enough b, (forall fuel, enough <= fuel -> r_is_primary fuel s x = Ok b) /\ (b = true <-> vals s x <> None).
Proof.
  intros H L. pose proof (rhistory_sound l s H) as R. destruct (rs_leads s R x L) as [p P]. destruct (primary_const_spec s x p P) as [N E].
  exists N, (p =? x). split; [intros n Hn; unfold r_is_primary; rewrite (E n Hn); reflexivity|]. rewrite (rs_vals s R x), Nat.eqb_eq. split.
  - intros ->. exact (leads_primary _ _ _ P).
  - intros Q. exact (leads_det s x p x P (leads_end s x Q)) || (symmetry; exact (leads_det s x p x P (leads_end s x Q))).
Qed.
Print Assumptions C26_is_primary.

(** Each value is destroyed exactly once: destroying all handles, in any order,
    is defined (destroying a value twice would not be) and leaves no value. *)
Theorem C26_teardown l s order : rhistory l s -> NoDup order -> (forall x, In x order <-> live s x) ->
  exists s', rrun 0 s (map RDestroy order) = Ok s' /\ forall x, ~ live s' x /\ vals s' x = None.
Proof.
  intros H ND O. pose proof (rhistory_sound l s H) as R. destruct (teardown order s (rs_vals s R) ND (fun x Hx => proj1 (O x) Hx)) as (s' & E & V & K & G). exists s'. split; [exact E|].
  intros x. destruct (in_dec Nat.eq_dec x order) as [I|I]; [exact (K x I)|]. destruct (G x I) as [A B]. assert (D : ~ live s x) by (intros Q; apply I, O, Q). pose proof (dead_r s x D) as Z.
  split; [unfold live; rewrite A, Z; auto|]. rewrite B. destruct (vals s x) eqn:E2; [|reflexivity]. exfalso. assert (Q : redir s x = Some x) by (apply (rs_vals s R); congruence). congruence.
Qed.
Print Assumptions C26_teardown.

(** Redirecting a handle that is not primary moves only the handles that still
    point through it.  Looking at a handle (operator* on a non-const handle)
    makes it point past [x], so whether [a] follows [x] to its new class depends
    on whether [a] was looked at before: for every chain a -> x -> p and every
    handle [w] of another class the two outcomes differ. *)
Theorem C26_looking_changes_outcome_refuted s a x p w : rsound s -> redir s a = Some x -> redir s x = Some p -> redir s p = Some p -> a <> x -> x <> p ->
  redir s w = Some w -> w <> p ->
  exists s1 s2 s3 : rstate, (exists enough, forall fuel, enough <= fuel -> rstep fuel s (RRedirect x w) = Ok s1) /\ leads s1 a w /\
    (exists enough, forall fuel, enough <= fuel -> rstep fuel s (RTouch a) = Ok s2) /\ (exists enough, forall fuel, enough <= fuel -> rstep fuel s2 (RRedirect x w) = Ok s3) /\ leads s3 a p.
Proof.
  intros R A X P NA NX W NW.
  assert (LP : leads s p p) by (constructor; exact P). assert (LX : leads s x p) by (apply (leads_step s x p p X); [congruence|exact LP]). assert (LA : leads s a p) by (apply (leads_step s a x p A); [congruence|exact LX]). assert (LW : leads s w w) by (constructor; exact W).
  assert (D : forall t, redir t a = Some x \/ redir t a = Some p -> redir t x = Some p -> redir t p = Some p -> redir t w = Some w -> rsound t ->
    exists t', (exists enough, forall fuel, enough <= fuel -> rstep fuel t (RRedirect x w) = Ok t') /\ forall z, redir t' z = if z =? x then Some w else redir t z).
  { intros t TA TX TP TW RT. assert (NWX : w <> x) by congruence. cbn [rstep].
    exists (rset t x w). split.
    - exists 1. intros [|n] Hn; [lia|]. unfold r_redirect. cbn [r_primary]. unfold rget. rewrite TW. cbn [rbind]. rewrite TW. cbn [rbind]. rewrite Nat.eqb_refl. cbn [rbind fst snd]. rewrite TX. cbn [rbind].
      destruct (Nat.eqb_spec w p); [contradiction|]. destruct (Nat.eqb_spec p x); [congruence|]. cbn [rbind]. cbn [r_primary]. unfold rget. rewrite TW. cbn [rbind]. rewrite TW. cbn [rbind]. rewrite Nat.eqb_refl. reflexivity.
    - intros z. reflexivity. }
  destruct (D s (or_introl A) X P W R) as (s1 & E1 & C1). destruct (rstep_ok s (RTouch a) R (leads_live s a p LA)) as (s2 & E2 & R2 & _).
  destruct (primary_spec s a p LA) as (N & s2' & E2' & C2).
  assert (s2 = s2') as <-.
  { apply (enough_unique (fun n => rstep n s (RTouch a)) (fun n => rstep n s (RTouch a))); [exact E2|]. exists N. intros n Hn. cbn [rstep]. unfold r_deref. rewrite (E2' n Hn). cbn [rbind fst snd].
    destruct (vals s2' p) eqn:Q; [reflexivity|]. exfalso. rewrite (proj2 C2) in Q. assert (V : vals s p <> None) by (apply (rs_vals s R); exact P). contradiction. }
  assert (B : forall z, z <> a -> redir s2 z = redir s z) by (intros z NZ; rewrite (proj1 C2); destruct (Nat.eqb_spec z a); [contradiction|reflexivity]).
  assert (BA : redir s2 a = Some p) by (rewrite (proj1 C2), Nat.eqb_refl; reflexivity).
  assert (NPA : p <> a) by congruence. assert (NWA : w <> a) by congruence.
  destruct (D s2 (or_intror BA)) as (s3 & E3 & C3); [rewrite B; [exact X|congruence]|rewrite B; [exact P|exact NPA]|rewrite B; [exact W|exact NWA]|exact R2|].
  exists s1, s2, s3. split; [exact E1|]. split; [|split; [exact E2|split; [exact E3|]]].
  - apply (leads_step s1 a x w); [rewrite C1; destruct (Nat.eqb_spec a x); [contradiction|exact A]|congruence|]. apply (leads_step s1 x w w); [rewrite C1, Nat.eqb_refl; reflexivity|congruence|]. constructor. rewrite C1. destruct (Nat.eqb_spec w x); [congruence|exact W].
  - apply (leads_step s3 a p p); [rewrite C3; destruct (Nat.eqb_spec a x); [contradiction|exact BA]|exact NPA|]. constructor. rewrite C3. destruct (Nat.eqb_spec p x); [congruence|]. rewrite B by exact NPA. exact P.
Qed.
Print Assumptions C26_looking_changes_outcome_refuted.

(** Destroying a handle others still point at leaves them dangling: using them
    is undefined. *)
Theorem C26_dangling_refuted s x y fuel : rsound s -> redir s y = Some x -> y <> x -> exists s', r_destroy s x = Ok s' /\ r_primary_const (S fuel) s' y = UB.
Proof.
  intros R E N. assert (L : live s x). { destruct (rs_leads s R y) as [p P]; [unfold live; congruence|]. inversion P as [q Q|z w q Q NZ H]; subst; [congruence|]. assert (w = x) as -> by congruence. exact (leads_live _ _ _ H). }
  assert (ND : NoDup [x]) by (constructor; [intros []|constructor]).
  destruct (teardown [x] s (rs_vals s R) ND) as (s' & E' & _ & K & G); [intros z [<-|[]]; exact L|]. exists s'. cbn [map rrun rstep] in E'. destruct (r_destroy s x) as [s2| | |]; try discriminate. cbn [rbind] in E'. injection E' as ->. split; [reflexivity|].
  unfold r_primary_const, rget. destruct (G y ltac:(intros [Q|[]]; congruence)) as [-> _]. rewrite E. cbn [rbind r_walk]. unfold rget. rewrite (dead_r s' x (proj1 (K x (or_introl eq_refl)))). reflexivity.
Qed.
Print Assumptions C26_dangling_refuted.

(** Two handles, a copy and a redirect. *)
Example C26_case : exists s, rhistory [RNew 0 7; RNew 1 8; RCopy 2 0; RRedirect 0 1] s /\ leads s 2 1 /\ r_deref_const 5 s 2 = Ok 8 /\ vals s 0 = None /\
  r_is_primary 5 s 2 = Ok false /\ r_is_primary 5 s 1 = Ok true.
Proof.
  eassert (H1 : rhistory [RNew 0 7] _).
  { apply (rh_step [] rs_empty (RNew 0 7) _ rh_nil); [intros Q; apply Q; reflexivity|exists 0; intros n _; reflexivity]. }
  eassert (H2 : rhistory [RNew 0 7; RNew 1 8] _).
  { apply (rh_step [_] _ (RNew 1 8) _ H1); [intros Q; apply Q; reflexivity|exists 0; intros n _; reflexivity]. }
  eassert (H3 : rhistory [RNew 0 7; RNew 1 8; RCopy 2 0] _).
  { apply (rh_step [_; _] _ (RCopy 2 0) _ H2); [split; [intros Q; apply Q; reflexivity|discriminate]|exists 0; intros n _; reflexivity]. }
  eassert (H4 : rhistory [RNew 0 7; RNew 1 8; RCopy 2 0; RRedirect 0 1] _).
  { apply (rh_step [_; _; _] _ (RRedirect 0 1) _ H3); [split; discriminate|exists 1; intros [|n] Hn; [lia|reflexivity]]. }
  eexists. split; [exact H4|]. split; [|repeat split; reflexivity]. eapply leads_step; [reflexivity|discriminate|]. eapply leads_step; [reflexivity|discriminate|]. constructor. reflexivity.
Qed.

(** A chain 0 -> 1 -> 2 and another class, as the refutation needs. *)
Example C26_chain_case : exists s, rsound s /\ redir s 0 = Some 1 /\ redir s 1 = Some 2 /\ redir s 2 = Some 2 /\ redir s 3 = Some 3.
Proof.
  eassert (H1 : rhistory [RNew 0 5] _).
  { apply (rh_step [] rs_empty (RNew 0 5) _ rh_nil); [intros Q; apply Q; reflexivity|exists 0; intros n _; reflexivity]. }
  eassert (H2 : rhistory [RNew 0 5; RNew 1 6] _).
  { apply (rh_step [_] _ (RNew 1 6) _ H1); [intros Q; apply Q; reflexivity|exists 0; intros n _; reflexivity]. }
  eassert (H3 : rhistory [RNew 0 5; RNew 1 6; RRedirect 0 1] _).
  { apply (rh_step [_; _] _ (RRedirect 0 1) _ H2); [split; discriminate|exists 1; intros [|n] Hn; [lia|reflexivity]]. }
  eassert (H4 : rhistory [RNew 0 5; RNew 1 6; RRedirect 0 1; RNew 2 7] _).
  { apply (rh_step [_; _; _] _ (RNew 2 7) _ H3); [intros Q; apply Q; reflexivity|exists 0; intros n _; reflexivity]. }
  eassert (H5 : rhistory [RNew 0 5; RNew 1 6; RRedirect 0 1; RNew 2 7; RRedirect 1 2] _).
  { apply (rh_step [_; _; _; _] _ (RRedirect 1 2) _ H4); [split; discriminate|exists 1; intros [|n] Hn; [lia|reflexivity]]. }
  eassert (H6 : rhistory [RNew 0 5; RNew 1 6; RRedirect 0 1; RNew 2 7; RRedirect 1 2; RNew 3 8] _).
  { apply (rh_step [_; _; _; _; _] _ (RNew 3 8) _ H5); [intros Q; apply Q; reflexivity|exists 0; intros n _; reflexivity]. }
  eexists. split; [exact (rhistory_sound _ _ H6)|]. repeat split.
Qed.

(** ** The vertex mapper *)
(** With a merger that unites the classes of its arguments, mapping every edge
    once identifies exactly the double points joined by edges around a vertex. *)
Theorem C41_merged factory m edges : unites m ->
  exists s, (exists enough, forall fuel, enough <= fuel -> m_map_all factory m fuel rs_empty edges = Ok s) /\
  (forall x, live s x <-> mentioned edges x) /\
  forall x y, mentioned edges x -> mentioned edges y -> ((exists p, leads s x p /\ leads s y p) <-> joined edges x y).
Proof.
  intros U. destruct (map_all_spec factory m U edges [] rs_empty) as (s & E & R & L & J).
  - split; [exact rsound_empty|]. split; [intros x; split; [intros H; exfalso; apply H; reflexivity|intros (e & [] & _)]|]. intros x y H. exfalso. apply H. reflexivity.
  - rewrite app_nil_r in L, J. assert (ML : forall x, mentioned (rev edges) x <-> mentioned edges x) by (intros x; split; intros (e & I & Q); exists e; split; auto; apply in_rev; [exact I|rewrite rev_involutive; exact I]).
    assert (JL : forall x y, joined (rev edges) x y <-> joined edges x y) by (intros x y; split; apply joined_incl; intros e I; [apply in_rev; exact I|rewrite <- in_rev; exact I]).
    exists s. split; [exact E|]. split; [intros x; rewrite L; apply ML|]. intros x y Mx My. rewrite <- JL. apply (J x y); apply L, ML; assumption.
Qed.
Print Assumptions C41_merged.

(** Redirecting the primary of the first argument is such a merger. *)
Theorem C41_primary_merger : unites primary_merger.
Proof. exact primary_merger_unites. Qed.
Print Assumptions C41_primary_merger.

(** The merger the exporter passes, a.Redirect(b), is not.  Whenever the first
    argument is not primary its own primary is left out, whatever the merger is
    called on. *)
Theorem C41_exporter_merger_refuted s a b p : rsound s -> live s b -> leads s a p -> p <> a -> ~ same_class s a b ->
  exists s', (exists enough, forall fuel, enough <= fuel -> vtk_merger fuel s a b = Ok s') /\ same_class s' a b /\ ~ same_class s' p b.
Proof.
  intros R Lb A N NC. destruct (redirect_spec s a b R (leads_live _ _ _ A) Lb) as (s' & E & R' & L & G1 & G2 & G3 & G4 & _). exists s'. split; [exact E|].
  destruct (rs_leads s R b Lb) as [q Q]. destruct (G1 q Q) as [GA GB]. destruct (G4 p q A Q N) as [GP _]. split; [exists q; auto|].
  intros (w & W1 & W2). assert (w = p) as -> by exact (leads_det s' p p w GP W1). assert (p = q) as -> by exact (leads_det s' b q p GB W2). apply NC. exists q. auto.
Qed.
Print Assumptions C41_exporter_merger_refuted.

(** With it, the four representations 0, 1, 2, 3 around one vertex end in two
    different classes although every edge has been mapped; the exporter then
    writes two different points for the same vertex. *)
Theorem C41_exporter_ring_refuted fuel factory : 2 <= fuel -> let edges := [(0, Some 1); (2, Some 3); (1, Some 2); (3, Some 0)] in
  exists s, m_map_all factory vtk_merger fuel rs_empty edges = Ok s /\ joined edges 0 1 /\ joined edges 0 2 /\ joined edges 0 3 /\ r_eq fuel s 0 1 = Ok false /\ leads s 0 0 /\ leads s 1 2.
Proof.
  intros Hf edges. destruct fuel as [|[|n]]; [lia|lia|]. eexists. split; [reflexivity|].
  assert (J1 : joined edges 0 1) by (apply j_pair; cbn; auto). assert (J2 : joined edges 1 2) by (apply j_pair; cbn; auto). assert (J3 : joined edges 2 3) by (apply j_pair; cbn; auto).
  split; [exact J1|]. split; [exact (j_trans _ _ _ _ J1 J2)|]. split; [exact (j_trans _ _ _ _ (j_trans _ _ _ _ J1 J2) J3)|]. split; [reflexivity|].
  split; [constructor; reflexivity|]. eapply leads_step; [reflexivity|discriminate|]. constructor. reflexivity.
Qed.
Print Assumptions C41_exporter_ring_refuted.
