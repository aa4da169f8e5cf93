(** ApplySecondary: the invariant of the loops and what keeps it. *)
From Coq Require Import List ZArith QArith Arith Lia Lqa Bool Sorted Permutation.
From Verif Require Import BigUIntModel GeoModel GeoSpec GeoProofs EvtModel EvtSpec EvtTokProofs EvtProofs EvtArrProofs PrimModel PrimProofs PrimTokProofs PrimInvProofs PrimTopProofs SecondModel SecondSpec SecondArrProofs SecondHeapProofs SecondInvProofs.
Import ListNotations.
Open Scope Q_scope.

Section Steps.
Context (dbg : bool) (d : nat) (ps negs poss : list epoly) (extra : nat) (pmap : list ref) (CA : carried d ps negs poss extra pmap) (WIDE : forall i, (i < length ps)%nat -> lo d ps i < hi d ps i)
  (evs : list event) (F : list tok) (AR : Forall2 (tok_of (nth_error evs)) evs F) (TK : toks_ok (length ps) (lo d ps) (hi d ps) F) (FL : flags_ok d ps evs F)
  (FN : Forall (poly_fit d) negs) (FP : Forall (poly_fit d) poss) (GONE : dbg = true -> forall q, nth_error pmap q <> Some Gone).
Notation n := (length ps).
Notation kid b := (kids negs poss b).
Notation klo b := (lo d (kids negs poss b)).
Notation khi b := (hi d (kids negs poss b)).
Notation kkey b := (key (lo d (kids negs poss b)) (hi d (kids negs poss b))).
Notation pkey := (key (lo d ps) (hi d ps)).
Notation enc := (encode negs).
Notation logic := (logic d negs poss extra pmap F).
Notation mainI := (mainI d ps negs poss extra pmap evs F).
Notation heapI := (heapI d negs poss extra pmap F).
Notation heap_el := (heap_el d negs poss extra pmap F).
Notation mref_ok := (mref_ok d negs poss extra pmap F).
Notation own := (own negs poss extra pmap).
Notation late := (late d negs poss).
Notation tgt := (tgt d negs poss extra).
Notation rd := (rd F).
Notation hkey := (hkey d negs poss).
Notation front := (front d negs poss).
Notation inside := (inside negs poss).

Record kid_ok (T : bool -> list tok) (K : bool -> child) (b : bool) : Prop := KidOk {
  ko_arr : arr_ok (length (kid b)) (kkey b) (T b) (K b);
  ko_nodup : NoDup (T b);
  ko_sorted : StronglySorted (rel (klo b) (khi b)) (T b) }.
Record core (p : nat) (T : bool -> list tok) (M : list mainev) (H : list mevent) (K : bool -> child) : Prop := Core {
  co_p : (p <= n * 2)%nat;
  co_logic : logic p T;
  co_main : mainI p T M;
  co_heap : heapI p T H;
  co_kids : forall b, kid_ok T K b;
  co_front : forall e l, H = e :: l -> front e H }.
Lemma F_len : length F = (n * 2)%nat.
Proof. rewrite (toks_length _ _ _ _ TK). lia. Qed.
Lemma F_at p : (p < n * 2)%nat -> exists u, nth_error F p = Some u /\ (snd u < n)%nat.
Proof.
  intros L. destruct (nth_error F p) as [u|] eqn:E; [|apply nth_error_None in E; rewrite F_len in E; lia]. exists u. split; [reflexivity|]. apply (t_all _ _ _ _ TK), (nth_error_In _ _ E).
Qed.
Lemma pmap_at q : (q < n)%nat -> exists r, nth_error pmap q = Some r.
Proof. intros L. destruct (nth_error pmap q) as [r|] eqn:E; [eauto|]. apply nth_error_None in E. rewrite (ca_length _ _ _ _ _ _ CA) in E. lia. Qed.
Lemma F_mono j k u v : (j <= k)%nat -> nth_error F j = Some u -> nth_error F k = Some v -> pkey u <= pkey v.
Proof.
  intros L A B. destruct (Nat.eq_dec j k) as [->|N]; [rewrite A in B; injection B as <-; apply Qle_refl|]. exact (proj1 (SS_nth (t_sorted _ _ _ _ TK) j k u v ltac:(lia) A B)).
Qed.
Lemma F_end q : (q < n)%nat -> exists e, nth_error F e = Some (false, q).
Proof. intros L. apply In_nth_error. apply (t_all _ _ _ _ TK). exact L. Qed.
Lemma code_tgt q c : nth_error pmap q = Some (Idx c) -> code negs extra (fst (tgt c)) (snd (tgt c)) = c.
Proof. intros E. destruct (tgt_own CA q c E) as [_ X]. rewrite E in X. injection X as X. auto. Qed.
Lemma tgt_inj q c q' c' : nth_error pmap q = Some (Idx c) -> nth_error pmap q' = Some (Idx c') -> tgt c = tgt c' -> q = q'.
Proof. intros A B E. pose proof (code_tgt q c A) as X. rewrite E, (code_tgt q' c' B) in X. subst c'. exact (ca_once _ _ _ _ _ _ CA _ _ _ A B). Qed.
Lemma tok_in p T b s i : logic p T -> In (s, i) (T b) -> (i < length (kid b))%nat.
Proof. intros LG I. assert (X : In (true, i) (T b)) by (destruct s; [exact I|exact (lg_end LG _ _ I)]). exact (proj1 (lg_start LG b i X)). Qed.
Lemma tok_room (l : list tok) m t : NoDup l -> (forall s i, In (s, i) l -> (i < m)%nat) -> ~ In t l -> (snd t < m)%nat -> (length l < m * 2)%nat.
Proof.
  intros N R I L. assert (Y : incl (t :: l) (list_prod [false; true] (seq 0 m))).
  { intros [s i] X. apply in_prod; [destruct s; cbn [In]; auto|]. apply in_seq. destruct X as [->|X]; [cbn [snd] in L; lia|]. apply R in X. lia. }
  apply NoDup_incl_length in Y; [|constructor; assumption]. rewrite prod_length, seq_length in Y. cbn [length] in Y. lia.
Qed.
Lemma tok_le (l : list tok) m : NoDup l -> (forall s i, In (s, i) l -> (i < m)%nat) -> (length l <= m * 2)%nat.
Proof.
  intros N R. assert (Y : incl l (list_prod [false; true] (seq 0 m))).
  { intros [s i] X. apply in_prod; [destruct s; cbn [In]; auto|]. apply in_seq. apply R in X. lia. }
  apply NoDup_incl_length in Y; [|assumption]. rewrite prod_length, seq_length in Y. cbn [length] in Y. lia.
Qed.
Lemma used_le p T M H K b : core p T M H K -> (c_used (K b) <= length (kid b) * 2)%nat.
Proof.
  intros C. destruct (co_kids _ _ _ _ _ C b) as [[_ -> _] N _]. apply tok_le; [exact N|]. intros s i. apply (tok_in p T b s i (co_logic _ _ _ _ _ C)).
Qed.
Lemma heap_inside p T H : heapI p T H -> forall h, In h H -> inside h.
Proof. intros I h J. apply (hp_el I) in J. pose proof (el_lt _ _ _ J) as L. destruct (ca_extra _ _ _ _ _ _ CA). unfold SecondHeapProofs.inside. destruct (m_pos h); cbn [kids]; lia. Qed.

(** ** Writing an event of a child at x *)
Definition TF (x : Q) (T : bool -> list tok) (K : bool -> child) : Prop :=
  (forall b t, In t (T b) -> kkey b t <= x) /\ (forall b, c_fresh (K b) = true <-> forall t, In t (T b) -> kkey b t < x).
Definition clean (x : Q) (T : bool -> list tok) : Prop := forall b i, In (true, i) (T b) -> klo b i < x.
Definition left (K : bool -> child) (p : nat) : nat := (length negs * 2 - c_used (K false) + (length poss * 2 - c_used (K true)) + (n * 2 - p))%nat.
Lemma kids_push T K K' b t x c : (forall b, kid_ok T K b) -> TF x T K -> K' b = c -> (forall b', b' <> b -> K' b' = K b') -> arr_ok (length (kid b)) (kkey b) (T b ++ [t]) c -> c_fresh c = false -> c_used c = S (c_used (K b)) -> (length (T b) < length (kid b) * 2)%nat -> ~ In t (T b) -> kkey b t == x ->
  (forall w, In w (T b) -> nz (klo b) (khi b) w -> kkey b w == x -> nz (klo b) (khi b) t) ->
  (forall b', kid_ok (push T b t) K' b') /\ TF x (push T b t) K' /\ forall p, (left K' p < left K p)%nat.
Proof.
  intros KO [T1 T2] KB KN' A CF CU RM N KX TI. split; [|split].
  - intros b'. destruct (bool_dec b' b) as [->|NE].
    + destruct (KO b) as [KA KN KS]. constructor; rewrite ?push_same, ?KB; [exact A| |].
      * apply NoDup_join; [exact KN|repeat constructor; intros []|]. intros y Y [<-|[]]. exact (N Y).
      * apply SS_app; [exact KS|repeat constructor|]. intros y z Y [<-|[]]. pose proof (T1 b y Y). split; [lra|]. intros NZ Q. apply (TI y Y NZ). lra.
    + destruct (KO b') as [KA KN KS]. constructor; rewrite ?push_other by exact NE; rewrite ?(KN' b' NE); assumption.
  - split.
    + intros b' w I. apply in_push in I as [I|[-> ->]]; [exact (T1 b' w I)|lra].
    + intros b'. destruct (bool_dec b' b) as [->|NE].
      * rewrite KB, CF. split; [discriminate|]. intros H. assert (X : In t (push T b t b)) by (apply in_push; auto). apply H in X. lra.
      * rewrite (KN' b' NE). rewrite push_other by exact NE. apply T2.
  - intros p. destruct (KO b) as [[_ U _] _ _]. assert (X : K' (negb b) = K (negb b)) by (apply KN'; destruct b; discriminate). unfold left. destruct b; cbn [kids negb] in *; rewrite KB, CU, X; lia.
Qed.
Lemma set_other K b c b' : b' <> b -> set_kid K b c b' = K b'.
Proof. intros N. unfold set_kid. destruct (Bool.eqb b' b) eqn:E; [apply eqb_prop in E; congruence|reflexivity]. Qed.
Lemma set_same K b c : set_kid K b c b = c.
Proof. unfold set_kid. rewrite eqb_reflx. reflexivity. Qed.
Lemma emit_start p T K x b i : (forall b, kid_ok T K b) -> TF x T K -> logic p T -> (i < length (kid b))%nat -> ~ In (true, i) (T b) -> klo b i == x ->
  exists K', emit dbg poss true b i K = Ok K' /\ (forall b', kid_ok (push T b (true, i)) K' b') /\ TF x (push T b (true, i)) K' /\ forall p, (left K' p < left K p)%nat.
Proof.
  intros KO TT LG L N KX. destruct (KO b) as [KA KN KS]. assert (RM : (length (T b) < length (kid b) * 2)%nat) by (apply (tok_room _ _ (true, i)); [exact KN|intros s j; apply (tok_in p T b s j LG)|exact N|exact L]).
  destruct (arr_start (length (kid b)) (kkey b) (T b) (sorted_key _ _ _ KS) (K b) i KA N) as (a & A1 & A2).
  { intros X. exact (N (lg_end LG _ _ X)). } { exact RM. } { destruct TT as [_ T2]. rewrite (T2 b). unfold key at 2. cbn [fst snd]. split; intros H t I; specialize (H t I); [|]; unfold key in *; cbn [fst snd] in *; lra. }
  unfold emit. assert (CK : check (dbg && b) (c_used (K b) <? length poss * 2)%nat = Ok tt).
  { destruct b; [|rewrite andb_false_r; reflexivity]. rewrite (ar_used _ _ _ _ KA). apply Nat.ltb_lt in RM. cbn [kids] in RM. rewrite RM. apply check_true. }
  rewrite CK. cbn [rbind]. rewrite A1. cbn [rbind]. eexists. split; [reflexivity|]. eapply kids_push; try eassumption; try apply set_same; try (intros; apply set_other; assumption); try reflexivity. intros w I [W _] _. split; [reflexivity|]. cbn [snd]. exact (kid_wide CA WIDE b i L).
Qed.
Lemma emit_end p T K x b i k : (forall b, kid_ok T K b) -> TF x T K -> logic p T -> clean x T -> nth_error (T b) k = Some (true, i) -> ~ In (false, i) (T b) -> khi b i == x ->
  exists f K1 K', nth_error (c_arr (K b)) k = Some (Some (Ev f true i)) /\ (k < c_used (K b))%nat /\ link b k K = Ok K1 /\ emit dbg poss false b i K1 = Ok K' /\ (forall b', kid_ok (push T b (false, i)) K' b') /\ TF x (push T b (false, i)) K' /\ forall p, (left K' p < left K p)%nat.
Proof.
  intros KO TT LG CL NT N KX. destruct (KO b) as [KA KN KS]. assert (L : (i < length (kid b))%nat) by (apply (tok_in p T b true i LG), (nth_error_In _ _ NT)). assert (RM : (length (T b) < length (kid b) * 2)%nat) by (apply (tok_room _ _ (false, i)); [exact KN|intros s j; apply (tok_in p T b s j LG)|exact N|exact L]).
  destruct (arr_end (length (kid b)) (kkey b) (T b) KN (sorted_key _ _ _ KS) (K b) i k KA NT N RM) as (f & a & a' & A1 & A2 & A3 & A4).
  { destruct TT as [_ T2]. rewrite (T2 b). split; intros H t I; specialize (H t I); unfold key in *; cbn [fst snd] in *; lra. }
  exists f. unfold link. rewrite (get_ok _ _ _ A1). cbn [rbind got]. cbn [ev_new ev_start]. rewrite A2. cbn [rbind]. eexists _, _. split; [exact A1|]. split; [rewrite (ar_used _ _ _ _ KA); exact (lt_of_nth _ _ _ NT)|]. split; [reflexivity|].
  unfold emit. rewrite set_same. cbn [c_used c_arr c_fresh].
  assert (CK : check (dbg && b) (c_used (K b) <? length poss * 2)%nat = Ok tt).
  { destruct b; [|rewrite andb_false_r; reflexivity]. rewrite (ar_used _ _ _ _ KA). apply Nat.ltb_lt in RM. cbn [kids] in RM. rewrite RM. apply check_true. }
  rewrite CK. cbn [rbind]. rewrite A3. cbn [rbind]. split; [reflexivity|]. eapply kids_push; try eassumption; try apply set_same; try (intros; rewrite !set_other by assumption; reflexivity); try reflexivity.
  intros [w j] I [W _] Q. cbn [fst] in W. subst w. pose proof (CL b j I). unfold key in Q. cbn [fst snd] in Q. lra.
Qed.
(** ** The events at x that are left *)
Definition TH (x : Q) (H : list mevent) (hl : option hpoint3) (ph : bool) : Prop :=
  (forall h, In h H -> x <= hkey h) /\
  (if ph then exists h l v, H = h :: l /\ hkey h == x /\ hl = Some v /\ hw v <> 0%Z /\ coord d v == x else forall h, In h H -> x < hkey h).
Definition TM (x : Q) (p : nat) (pm : bool) : Prop :=
  (forall k u, (p <= k)%nat -> nth_error F k = Some u -> x <= pkey u) /\
  (if pm then exists u, nth_error F p = Some u /\ pkey u == x else forall k u, (p <= k)%nat -> nth_error F k = Some u -> x < pkey u).
Definition noH (x : Q) (H : list mevent) : Prop := forall h, In h H -> m_start h = false -> x < hkey h.
Definition noM (x : Q) (p : nat) : Prop := forall k q, (p <= k)%nat -> nth_error F k = Some (false, q) -> x < hi d ps q.
Definition newflag (p : nat) : Prop := dbg = true -> p = (n * 2)%nat \/ exists g, nth_error evs p = Some g /\ ev_new g = true.
Lemma main_at p T M k u : mainI p T M -> nth_error F k = Some u -> exists r g, nth_error evs k = Some g /\ nth_error M k = Some (MV (ev_new g) (fst u) r).
Proof.
  intros MI E. destruct u as [[|] q]; cbn [fst].
  - destruct (mi_start MI k q E) as (e & f & g & G & -> & _ & X). eauto.
  - destruct (mi_end MI k q E) as (r & f & g & G & -> & X & _). eauto.
Qed.
Lemma main_next x p p' T M u : TM x p true -> nth_error F p = Some u -> mainI p' T M -> exists pm, main_still n M (S p) = Ok pm /\ TM x (S p) pm /\ (pm = false -> newflag (S p)).
Proof.
  intros [A (u' & U1 & U2)] E MI. rewrite E in U1. injection U1 as <-. pose proof (lt_of_nth _ _ _ E) as L. rewrite F_len in L. unfold main_still. destruct (Nat.eqb_spec (S p) (n * 2)) as [X|X].
  - exists false. split; [reflexivity|]. split; [|intros _ _; left; exact X]. split; [intros k v K; apply A; lia|]. intros k v K V. apply lt_of_nth in V. rewrite F_len in V. lia.
  - destruct (F_at (S p) ltac:(lia)) as (v & V & _). destruct (main_at _ _ _ _ _ MI V) as (r & g & G & W). rewrite (get_ok _ _ _ W). cbn [rbind v_new]. exists (negb (ev_new g)). split; [reflexivity|]. pose proof (FL (S p) g G) as FG. split.
    + split; [intros k w K; apply A; lia|]. destruct (ev_new g); cbn [negb].
      * intros k w K KW. destruct (proj1 FG eq_refl) as [Y|(j & t & t' & Y1 & Y2 & Y3 & Y4)]; [discriminate|]. injection Y1 as <-. rewrite E in Y2. injection Y2 as <-. rewrite V in Y3. injection Y3 as <-. pose proof (F_mono _ _ _ _ K V KW). lra.
      * exists v. split; [exact V|]. assert (N : ~ pkey u < pkey v) by (intros Y; assert (Z : false = true) by (apply FG; right; exists p, u, v; auto); discriminate). pose proof (F_mono p (S p) u v ltac:(lia) E V). lra.
    + intros Z _. right. exists g. split; [exact G|]. destruct (ev_new g); [reflexivity|discriminate].
Qed.
Lemma heap_next x p T c l v : heapI p T l -> (forall h, In h l -> x <= hkey h) -> hw v <> 0%Z -> coord d v == x ->
  match settle d negs poss c l with
  | Ok l' => heapI p T l' /\ (forall e r, l' = e :: r -> front e l') /\ (forall h, In h l' <-> In h l) /\ exists ph, still d negs poss (Some v) l' = Ok ph /\ TH x l' (Some v) ph
  | r => r = NoFuel end.
Proof.
  intros I HX V VX. pose proof (heap_inside _ _ _ I) as IN. destruct (settle_ok FN FP c l IN) as [->|(l' & -> & P & FR)]; [reflexivity|]. pose proof (heap_perm _ _ _ _ P I) as I'. assert (EQ : forall h, In h l' <-> In h l) by (intros h; split; apply Permutation_in; [apply Permutation_sym|]; exact P). split; [exact I'|]. split; [exact FR|]. split; [exact EQ|].
  destruct (still_ok FN FP v l' V (heap_inside _ _ _ I')) as (ph & S1 & S2). exists ph. split; [exact S1|]. split; [intros h J; apply HX, EQ, J|]. destruct ph.
  - destruct (proj1 S2 eq_refl) as (h & r & -> & Y). exists h, r, v. split; [reflexivity|]. split; [lra|]. auto.
  - destruct l' as [|h r]; [intros h []|]. assert (N : ~ hkey h == coord d v) by (intros Y; assert (Z : false = true) by (apply S2; eauto); discriminate). intros h' J. pose proof (proj1 (FR h r eq_refl h' J)). pose proof (HX h (proj1 (EQ h) (or_introl eq_refl))). destruct (Qlt_le_dec x (hkey h)); lra.
Qed.

(** ** The invariant *)
Definition below (p : nat) (T : bool -> list tok) (H : list mevent) : Prop :=
  (forall b t h, In t (T b) -> In h H -> kkey b t < hkey h) /\ (forall b t k u, In t (T b) -> (p <= k)%nat -> nth_error F k = Some u -> kkey b t < pkey u).
Definition looping (x : Q) (s : sstate) (T : bool -> list tok) : Prop :=
  TF x T (s_kids s) /\ TH x (s_heap s) (s_hloc s) (s_ph s) /\ TM x (s_at s) (s_pm s) /\ (s_pm s = false -> newflag (s_at s)).
Definition phase (s : sstate) (T : bool -> list tok) : Prop :=
  match s_pc s with
  | AtTop | AtSkip => below (s_at s) T (s_heap s) /\ newflag (s_at s)
  | AtCompare => below (s_at s) T (s_heap s) /\ newflag (s_at s) /\ forall b q, nth_error F (s_at s) = Some (b, q) -> nth_error pmap q <> Some Gone
  | AtLoop | AtHeapEnds => exists x, looping x s T /\ (clean x T \/ noH x (s_heap s) /\ noM x (s_at s))
  | AtMainEnds => exists x, looping x s T /\ noH x (s_heap s) /\ (clean x T \/ noM x (s_at s))
  | AtHeapStarts | AtMainStarts => exists x, looping x s T /\ noH x (s_heap s) /\ noM x (s_at s)
  end.
Definition inv (s : sstate) : Prop := exists T, core (s_at s) T (s_main s) (s_heap s) (s_kids s) /\ phase s T.
Definition final (s : sstate) : Prop := s_at s = (n * 2)%nat /\ exists T, core (s_at s) T (s_main s) (s_heap s) (s_kids s) /\ below (s_at s) T (s_heap s).
(** The steps that do not write an event go down in this order. *)
Definition top_start (s : sstate) : bool := match s_heap s with h :: _ => m_start h | [] => false end.
Definition main_start (s : sstate) : bool := match nth_error (s_main s) (s_at s) with Some w => v_start w | None => false end.
Definition rank (s : sstate) : nat :=
  let hs := s_ph s && top_start s in let he := s_ph s && negb (top_start s) in
  let ms := s_pm s && main_start s in let me := s_pm s && negb (main_start s) in
  let idle := negb (s_ph s) && negb (s_pm s) in
  match s_pc s with
  | AtTop => 11 | AtSkip => 10 | AtCompare => 9
  | AtLoop => if idle then 12 else if he || me then 3 else 8
  | AtHeapEnds => if idle then 16 else if he || me then 2 else 7
  | AtMainEnds => if idle then 15 else if me then 1 else if he then 20 else 6
  | AtHeapStarts => if idle then 14 else if hs || ms then 5 else 19
  | AtMainStarts => if idle then 13 else if ms then 4 else 18
  end.
Definition pot (s : sstate) : nat := (32 * left (s_kids s) (s_at s) + rank s)%nat.
Lemma rank_lt s : (rank s < 32)%nat.
Proof. unfold rank. destruct (s_pc s); repeat match goal with |- context [if ?b then _ else _] => destruct b end; lia. Qed.
Lemma pot_left s s' : (left (s_kids s') (s_at s') < left (s_kids s) (s_at s))%nat -> (pot s' < pot s)%nat.
Proof. intros L. unfold pot. pose proof (rank_lt s'). lia. Qed.
Definition good (c : nat) (s : sstate) : Prop :=
  (exists s', second_step dbg d n negs poss extra pmap c s = Ok (inl s') /\ inv s' /\ (pot s' < pot s)%nat) \/ second_step dbg d n negs poss extra pmap c s = Ok (inr s) /\ final s.
(** Each step can be made when an order of the heap is chosen that is allowed. *)
Definition can_step (s : sstate) : Prop := exists l, (forall h, In h l -> inside h) /\ forall c, match settle d negs poss c l with Ok _ => good c s | _ => second_step dbg d n negs poss extra pmap c s = NoFuel end.
Lemma simple s : (forall c, good c s) -> can_step s.
Proof. intros G. exists []. split; [intros h []|]. intros c. cbn [settle]. apply G. Qed.

(** ** The single steps *)
Notation step := (second_step dbg d n negs poss extra pmap).
(** The next event of the parent. *)
Lemma start_at p T M q : mainI p T M -> nth_error F p = Some (true, q) -> exists g e f r, nth_error M p = Some (MV (ev_new g) true (Val e)) /\ nth_error evs p = Some g /\ nth_error F e = Some (false, q) /\ nth_error M e = Some (MV f false (Val q)) /\ nth_error pmap q = Some r /\ mapped pmap M e = Ok r.
Proof.
  intros MI E. destruct (mi_start MI p q E) as (e & f & g & G & -> & EE & X). destruct (mi_end MI e q EE) as (r & f' & g' & _ & _ & Y & [R _]). rewrite (R (rd_new TK _ _ E)) in Y. destruct (pmap_at q) as (m & PM); [apply (t_all _ _ _ _ TK (true, q)), (nth_error_In _ _ E)|].
  exists g, e, f', m. repeat (split; [assumption|]). unfold mapped. rewrite (get_ok _ _ _ Y). cbn [rbind v_ref]. apply (get_ok _ _ _ PM).
Qed.
Lemma end_at p T M q : logic p T -> mainI p T M -> nth_error F p = Some (false, q) -> exists g r, nth_error M p = Some (MV (ev_new g) false r) /\ nth_error evs p = Some g /\
  (nth_error pmap q = Some Gone /\ r = Skipped \/ exists c, nth_error pmap q = Some (Idx c) /\ ((exists k, nth_error (T (fst (tgt c))) k = Some (true, snd (tgt c)) /\ r = Val (enc (fst (tgt c)) k)) \/
    r = Waiting /\ (c < extra)%nat /\ ~ In (true, c) (T (late c)) /\ forall H, heapI p T H -> exists e, In (ME true (late c) c (Some e)) H)).
Proof.
  intros LG MI E. destruct (mi_end MI p q E) as (r & f & g & G & -> & X & [_ R]). specialize (R (rd_start TK _ _ E)). exists g, r. split; [exact X|]. split; [exact G|]. destruct (pmap_at q) as (m & PM); [apply (t_all _ _ _ _ TK (false, q)), (nth_error_In _ _ E)|]. rewrite PM in R. destruct m as [c|]; [|left; auto]. right. exists c. split; [exact PM|]. destruct R as [R1 R2].
  destruct (in_dec tok_eq_dec (true, snd (tgt c)) (T (fst (tgt c)))) as [I|I].
  - left. apply In_nth_error in I as (k & K). exists k. auto.
  - right. split; [exact (R2 I)|]. pose proof (tgt_own CA q c PM) as O. destruct (Nat.lt_ge_cases c extra) as [L|L].
    + split; [exact L|]. rewrite (tgt_split c L) in I. cbn [fst snd] in I. split; [exact I|]. intros H HI. exists p. apply (hp_el HI). apply (HLate _ _ _ _ _ _ _ _ q); auto. exact (rd_start TK _ _ E).
    + exfalso. apply I. destruct (own_cases CA _ _ _ O) as [(L' & X')|(L' & _)]; [rewrite PM in X'; injection X' as X'; lia|]. exact (lg_whole LG _ _ _ O L' (rd_start TK _ _ E)).
Qed.
Lemma waiting_late x p T M H K q c : core p T M H K -> (forall h, In h H -> x <= hkey h) -> nth_error pmap q = Some (Idx c) -> (c < extra)%nat -> (forall H, heapI p T H -> exists e, In (ME true (late c) c (Some e)) H) -> x < hi d ps q.
Proof.
  intros C HX PM L W. destruct (W H (co_heap _ _ _ _ _ C)) as (e & I). apply HX in I. unfold SecondHeapProofs.hkey, key in I. cbn [m_pos m_start m_poly fst snd] in I. pose proof (tgt_hi CA q c PM) as Y. rewrite (tgt_split c L) in Y. cbn [fst snd] in Y. destruct (split_own CA q c (late c) PM L) as [Z _]. pose proof (kid_wide CA WIDE (late c) c Z). lra.
Qed.
(** An event of a polygon in the split plane. *)
Lemma border_start p T M H K q e : core p T M H K -> nth_error F p = Some (true, q) -> nth_error pmap q = Some Gone -> nth_error F e = Some (false, q) -> exists M', set_main M e Skipped = Ok M' /\ core (S p) T M' H K.
Proof.
  intros [A B C D E G] FP' PM FE. destruct (main_set TK p T (S p) T M q e Skipped C FE) as (M' & X & Y).
  - intros q' r N R. apply (mref_read _ _ _ _ _ FP'); [congruence|exact R].
  - split; [intros X; exfalso; apply X, (rd_S _ _ _ FP'); right; reflexivity|]. intros _. rewrite PM. reflexivity.
  - exists M'. split; [exact X|]. constructor; try assumption.
    + apply lt_of_nth in FP'. rewrite F_len in FP'. lia.
    + exact (logic_border _ _ _ _ B FP' PM).
    + apply (heap_skip _ _ _ _ D FP'). intros q' c' Z. injection Z as <-. congruence.
Qed.
Lemma border_end p T M H K q : core p T M H K -> nth_error F p = Some (false, q) -> nth_error pmap q = Some Gone -> core (S p) T M H K.
Proof.
  intros [A B C D E G] FP' PM. constructor; try assumption.
  - apply lt_of_nth in FP'. rewrite F_len in FP'. lia.
  - exact (logic_border _ _ _ _ B FP' PM).
  - apply (main_keep _ _ _ _ _ C). intros q' r. apply (mref_read _ _ _ _ _ FP'). discriminate.
  - apply (heap_skip _ _ _ _ D FP'). intros q' c' Z. discriminate.
Qed.
Lemma below_S p T H : below p T H -> below (S p) T H.
Proof. intros [A B]. split; [exact A|]. intros b t k u I L. apply (B b t k u I). lia. Qed.
Lemma gone_flag p q : nth_error pmap q = Some Gone -> newflag p.
Proof. intros G D. exfalso. exact (GONE D q G). Qed.
Lemma left_S K p : (p < n * 2)%nat -> (left K (S p) < left K p)%nat.
Proof. intros L. unfold left. lia. Qed.
Lemma pot_rank s s' : s_kids s' = s_kids s -> s_at s' = s_at s -> (rank s' < rank s)%nat -> (pot s' < pot s)%nat.
Proof. intros A B R. unfold pot. rewrite A, B. lia. Qed.
Lemma step_top M p H K hl ph pm : inv (SS AtTop M p H K hl ph pm) -> can_step (SS AtTop M p H K hl ph pm).
Proof.
  intros (T & C & B & NF). cbn [s_pc s_main s_at s_heap s_kids s_hloc s_ph s_pm] in *. apply simple. intros c. unfold good, second_step. cbn [s_pc s_main s_at s_heap s_kids s_hloc s_ph s_pm]. destruct (Nat.ltb_spec p (n * 2)) as [L|L].
  - left. exists (SS AtSkip M p H K hl ph pm). split; [|split].
    + destruct (F_at p L) as (u & U & _). destruct (main_at _ _ _ _ _ (co_main _ _ _ _ _ C) U) as (r & g & G & W). assert (NG : dbg = true -> ev_new g = true) by (intros D; destruct (NF D) as [X|(g' & G' & NG)]; [lia|]; rewrite G in G'; injection G' as <-; exact NG). clear - W NG. destruct dbg; [|reflexivity]. rewrite (get_ok _ _ _ W). cbn [rbind v_new]. rewrite (NG eq_refl). reflexivity.
    + exists T. split; [exact C|]. split; assumption.
    + apply pot_rank; try reflexivity. unfold rank. cbn [s_pc]. lia.
  - right. split; [reflexivity|]. split; [cbn [s_at]; pose proof (co_p _ _ _ _ _ C); lia|]. exists T. auto.
Qed.
Lemma step_skip M p H K hl ph pm : inv (SS AtSkip M p H K hl ph pm) -> can_step (SS AtSkip M p H K hl ph pm).
Proof.
  intros (T & C & B & NF). cbn [s_pc s_main s_at s_heap s_kids s_hloc s_ph s_pm] in *. apply simple. intros c. unfold good, second_step. cbn [s_pc]. unfold skip_step. cbn [s_pc s_main s_at s_heap s_kids s_hloc s_ph s_pm]. left.
  assert (NX : (forall b q, nth_error F p = Some (b, q) -> nth_error pmap q <> Some Gone) -> inv (SS AtCompare M p H K hl ph pm) /\ (pot (SS AtCompare M p H K hl ph pm) < pot (SS AtSkip M p H K hl ph pm))%nat).
  { intros N. split; [exists T; split; [exact C|]; split; [exact B|]; split; [exact NF|exact N]|]. apply pot_rank; try reflexivity. unfold rank. cbn [s_pc]. lia. }
  destruct (Nat.ltb_spec p (n * 2)) as [L|L].
  - destruct (F_at p L) as ([[|] q] & U & _).
    + destruct (start_at _ _ _ _ (co_main _ _ _ _ _ C) U) as (g & e & f & r & X1 & X2 & X3 & X4 & X5 & X6). rewrite (get_ok _ _ _ X1). cbn [rbind v_start v_ref val]. rewrite X6. cbn [rbind]. destruct r as [i|].
      * eexists. split; [reflexivity|]. apply NX. intros b q' Y. rewrite U in Y. injection Y as <- <-. congruence.
      * destruct (border_start _ _ _ _ _ _ _ C U X5 X3) as (M' & Y1 & Y2). rewrite Y1. cbn [rbind]. eexists. split; [reflexivity|]. split; [|apply pot_left; cbn [s_kids s_at]; apply left_S; exact L]. exists T. split; [exact Y2|]. split; [exact (below_S _ _ _ B)|exact (gone_flag _ _ X5)].
    + destruct (end_at _ _ _ _ (co_logic _ _ _ _ _ C) (co_main _ _ _ _ _ C) U) as (g & r & X1 & X2 & [(X3 & ->)|(i & X3 & X4)]); rewrite (get_ok _ _ _ X1); cbn [rbind v_start v_ref].
      * eexists. split; [reflexivity|]. split; [|apply pot_left; cbn [s_kids s_at]; apply left_S; exact L]. exists T. split; [exact (border_end _ _ _ _ _ _ C U X3)|]. split; [exact (below_S _ _ _ B)|exact (gone_flag _ _ X3)].
      * exists (SS AtCompare M p H K hl ph pm). split; [destruct X4 as [(k & _ & ->)|(-> & _)]; reflexivity|]. apply NX. intros b q' Y. rewrite U in Y. injection Y as <- <-. congruence.
  - eexists. split; [reflexivity|]. apply NX. intros b q Y. apply lt_of_nth in Y. rewrite F_len in Y. lia.
Qed.
Lemma step_loop M p H K hl ph pm : inv (SS AtLoop M p H K hl ph pm) -> can_step (SS AtLoop M p H K hl ph pm).
Proof.
  intros (T & C & x & LP & TI). cbn [s_pc s_main s_at s_heap s_kids s_hloc s_ph s_pm] in *. apply simple. intros c. unfold good, second_step. cbn [s_pc s_main s_at s_heap s_kids s_hloc s_ph s_pm]. left. eexists. split; [reflexivity|]. destruct (ph || pm) eqn:I.
  - split; [exists T; split; [exact C|]; exists x; split; [exact LP|exact TI]|]. apply pot_rank; try reflexivity. unfold rank, top_start, main_start. cbn [s_pc s_main s_at s_heap s_ph s_pm]. destruct ph, pm; try discriminate I; cbn [negb andb orb]; repeat match goal with |- context [if ?b then _ else _] => destruct b end; lia.
  - apply orb_false_iff in I as [-> ->]. destruct LP as ([T1 _] & [_ H2] & [_ M2] & NF). cbn [s_pc s_main s_at s_heap s_kids s_hloc s_ph s_pm] in *. split.
    + exists T. split; [exact C|]. split; [|exact (NF eq_refl)]. split.
      * intros b t h I J. pose proof (T1 b t I). pose proof (H2 h J). cbn [s_heap] in *. lra.
      * intros b t k u I L U. pose proof (T1 b t I). pose proof (M2 k u L U). lra.
    + apply pot_rank; try reflexivity. unfold rank. cbn [s_pc s_ph s_pm negb andb]. lia.
Qed.

Ltac fields := cbn [s_pc s_main s_at s_heap s_kids s_hloc s_ph s_pm] in *.
Lemma kid_fresh T K : (forall b, kid_ok T K b) -> forall b, kid_ok T (fun b => fresh (K b)) b.
Proof. intros H b. destruct (H b) as [[A1 A2 A3] B C]. constructor; try assumption. constructor; assumption. Qed.
Lemma decode_enc b k : (k < length (kid b) * 2)%nat -> decode negs (enc b k) = (b, k).
Proof.
  intros L. unfold decode, encode. destruct b; cbn [kids] in L.
  - destruct (Nat.ltb_spec (length negs * 2 + k) (length negs * 2)); [lia|]. f_equal. lia.
  - apply Nat.ltb_lt in L. rewrite L. reflexivity.
Qed.
Lemma end_absent p T q c : logic p T -> nth_error F p = Some (false, q) -> nth_error pmap q = Some (Idx c) -> ~ In (false, snd (tgt c)) (T (fst (tgt c))).
Proof.
  intros LG E PM I. pose proof (tgt_own CA q c PM) as O. apply (lg_tgt LG _ _ _ O) in I; [exact (rd_new TK _ _ E I)|]. rewrite (code_tgt q c PM). apply surjective_pairing.
Qed.
Lemma arr_entry p T M H K b k i : core p T M H K -> nth_error (T b) k = Some (true, i) -> ~ In (false, i) (T b) -> exists f, nth_error (c_arr (K b)) k = Some (Some (Ev f true i)).
Proof.
  intros C NT N. destruct (ar_at _ _ _ _ (ko_arr _ _ _ (co_kids _ _ _ _ _ C b)) k _ NT) as (f & r & E & _ & A). unfold aref in A. cbn [fst snd] in *. rewrite (proj2 A N) in E. eauto.
Qed.
Lemma T_lt p T M H K b k t : core p T M H K -> nth_error (T b) k = Some t -> (k < length (kid b) * 2)%nat.
Proof. intros C NT. pose proof (used_le _ _ _ _ _ b C) as L. rewrite (ar_used _ _ _ _ (ko_arr _ _ _ (co_kids _ _ _ _ _ C b))) in L. pose proof (lt_of_nth _ _ _ NT). lia. Qed.
Lemma compare_ok p T M H K v u w y : core p T M H K -> hw v <> 0%Z -> coord d v = y -> (forall h, In h H -> y <= hkey h) -> nth_error F p = Some u -> nth_error M p = Some w -> nth_error pmap (snd u) <> Some Gone ->
  compare_main dbg d negs poss extra pmap v w M K = Ok (qsign (y - pkey u)).
Proof.
  intros C V VY HY FU MW NG. unfold compare_main. destruct u as [[|] q]; cbn [snd] in NG.
  - destruct (start_at _ _ _ _ (co_main _ _ _ _ _ C) FU) as (g & e & f & r & X1 & X2 & X3 & X4 & X5 & X6). rewrite MW in X1. injection X1 as ->. cbn [v_start v_ref val rbind]. rewrite X6. cbn [rbind]. destruct r as [i|]; [|congruence]. unfold key. cbn [fst snd].
    assert (Z : exists r, (if (i <? extra)%nat then a <- get negs i ;; b <- get poss i ;; Ok (if hp_lt_comp d (e_min a) (e_min b) then e_min a else e_min b)
            else if (i <? length negs)%nat then a <- get negs i ;; Ok (e_min a)
            else _ <- check dbg (i - length negs <? length poss)%nat ;; b <- get poss (i - length negs) ;; Ok (e_min b)) = Ok r /\ hw r <> 0%Z /\ coord d r == lo d ps q).
    { destruct (Nat.ltb_spec i extra) as [L|L].
      - destruct (split_parts CA q i X5 L) as (P1 & P2 & P3 & _). destruct (ca_extra _ _ _ _ _ _ CA) as [CE1 CE2].
        destruct (kid_get FN FP false i ltac:(cbn [kids]; lia)) as (a & A1 & A2 & _ & A3 & _), (kid_get FN FP true i ltac:(cbn [kids]; lia)) as (b & B1 & B2 & _ & B3 & _). cbn [kids] in *. rewrite (get_ok _ _ _ A1), (get_ok _ _ _ B1). cbn [rbind]. eexists. split; [reflexivity|]. pose proof (lt_spec (d := d) (e_min a) (e_min b) A2 B2) as LS. rewrite A3, B3 in LS. destruct (hp_lt_comp d (e_min a) (e_min b)).
        + split; [exact A2|]. rewrite A3. apply proj1 in LS. specialize (LS eq_refl). lra.
        + split; [exact B2|]. rewrite B3. assert (NL : ~ lo d negs i < lo d poss i) by (intros Z; apply LS in Z; discriminate). lra.
      - destruct (Nat.ltb_spec i (length negs)) as [M'|M'].
        + destruct (kid_get FN FP false i M') as (a & A1 & A2 & _ & A3 & _). cbn [kids] in *. rewrite (get_ok _ _ _ A1). cbn [rbind]. eexists. split; [reflexivity|]. split; [exact A2|]. rewrite A3. exact (proj1 (ca_neg _ _ _ _ _ _ CA q i X5 (conj L M'))).
        + destruct (ca_pos _ _ _ _ _ _ CA q i X5 M') as (L1 & L2 & _). destruct (kid_get FN FP true (i - length negs) (proj2 L1)) as (a & A1 & A2 & _ & A3 & _). cbn [kids] in *. destruct L1 as [_ L1]. apply Nat.ltb_lt in L1. rewrite L1, check_true. cbn [rbind]. rewrite (get_ok _ _ _ A1). cbn [rbind]. eexists. split; [reflexivity|]. split; [exact A2|]. rewrite A3. exact L2. }
    destruct Z as (r & -> & R1 & R2). cbn [rbind]. rewrite (comp_spec v r V R1), VY. f_equal. apply qsign_comp. lra.
  - destruct (end_at _ _ _ _ (co_logic _ _ _ _ _ C) (co_main _ _ _ _ _ C) FU) as (g & r & X1 & X2 & [(X3 & _)|(i & X3 & X4)]); [congruence|]. rewrite MW in X1. injection X1 as ->. cbn [v_start v_ref]. unfold key. cbn [fst snd]. destruct X4 as [(k & K1 & ->)|(-> & L & N & W)].
    + rewrite (decode_enc _ _ (T_lt _ _ _ _ _ _ _ _ C K1)). destruct (arr_entry _ _ _ _ _ _ _ _ C K1 (end_absent _ _ _ _ (co_logic _ _ _ _ _ C) FU X3)) as (f & A1). rewrite (get_ok _ _ _ A1). cbn [rbind got ev_index]. destruct (tgt_own CA q i X3) as [LI _]. destruct (kid_get FN FP _ _ LI) as (a & B1 & _ & B2 & _ & B3). rewrite (get_ok _ _ _ B1). cbn [rbind]. rewrite (comp_spec v (e_max a) V B2), VY, B3. f_equal. apply qsign_comp. rewrite (tgt_hi CA q i X3). reflexivity.
    + pose proof (waiting_late y _ _ _ _ _ q i C HY X3 L W) as Y. f_equal. symmetry. apply qsign_sub_lt. exact Y.
Qed.
Lemma compare_fresh v w M K : compare_main dbg d negs poss extra pmap v w M (fun b => fresh (K b)) = compare_main dbg d negs poss extra pmap v w M K.
Proof. unfold compare_main. destruct (v_start w); [reflexivity|]. destruct (v_ref w); reflexivity. Qed.
Lemma step_compare M p H K hl ph pm : inv (SS AtCompare M p H K hl ph pm) -> can_step (SS AtCompare M p H K hl ph pm).
Proof.
  intros (T & C & B & NF & NG). fields. apply simple. intros c. unfold good, second_step. cbn [s_pc]. fields. destruct (Nat.eqb_spec p (n * 2)) as [E|E]; [right; split; [reflexivity|]; split; [exact E|]; exists T; auto|left].
  pose proof (co_p _ _ _ _ _ C) as LP. destruct (F_at p ltac:(lia)) as (u & U & UL). destruct (main_at _ _ _ _ _ (co_main _ _ _ _ _ C) U) as (r & g & G & W). assert (CF : core p T M H (fun b => fresh (K b))) by (destruct C; constructor; try assumption; apply kid_fresh; assumption).
  assert (TMX : forall x, x <= pkey u -> forall k v, (p <= k)%nat -> nth_error F k = Some v -> x <= pkey v) by (intros x X k v L V; pose proof (F_mono p k u v L U V); lra).
  destruct B as [B1 B2]. assert (TFX : forall x, (forall b t, In t (T b) -> kkey b t < x) -> TF x T (fun b => fresh (K b))).
  { intros x X. split; [intros b t I; apply Qlt_le_weak, X, I|]. intros b. cbn [fresh c_fresh]. split; [intros _; apply X|reflexivity]. }
  assert (CL : forall x, (forall b t, In t (T b) -> kkey b t < x) -> clean x T) by (intros x X b i I; exact (X b _ I)).
  unfold compare_step. fields. destruct H as [|h l].
  - eexists. split; [reflexivity|]. assert (X : forall b t, In t (T b) -> kkey b t < pkey u) by (intros b t I; exact (B2 b t p u I (le_n _) U)). split.
    + exists T. split; [exact CF|]. exists (pkey u). split; [|left; apply CL, X]. split; [apply TFX, X|]. split; [split; intros h []|]. split; [|discriminate]. split; [apply TMX, Qle_refl|]. exists u. split; [exact U|reflexivity].
    + unfold pot. cbn [s_kids s_at]. change (left (fun b => fresh (K b)) p) with (left K p). unfold rank. cbn [s_pc s_ph s_pm negb andb orb]. destruct (negb _); lia.
  - pose proof (heap_inside _ _ _ (co_heap _ _ _ _ _ C)) as IN. destruct (h_loc_ok FN FP h (IN h (or_introl eq_refl))) as (v & V1 & V2 & V3). rewrite V1, (get_ok _ _ _ W). cbn [rbind]. assert (FR : forall h', In h' (h :: l) -> hkey h <= hkey h') by (intros h' I; exact (proj1 (co_front _ _ _ _ _ C h l eq_refl h' I))).
    assert (NGU : nth_error pmap (snd u) <> Some Gone) by (destruct u as [b q]; exact (NG b q U)). rewrite compare_fresh, (compare_ok _ _ _ _ _ v u _ _ C V2 V3 FR U W NGU). cbn [rbind]. eexists. split; [reflexivity|].
    assert (XH : forall b t, In t (T b) -> kkey b t < hkey h) by (intros b t I; exact (B1 b t h I (or_introl eq_refl))). assert (XM : forall b t, In t (T b) -> kkey b t < pkey u) by (intros b t I; exact (B2 b t p u I (le_n _) U)).
    assert (PT : forall a b, a || b = true -> (pot (SS AtLoop M p (h :: l) (fun b => fresh (K b)) (Some v) a b) < pot (SS AtCompare M p (h :: l) K hl ph pm))%nat).
    { intros a b AB. unfold pot. cbn [s_kids s_at]. change (left (fun b => fresh (K b)) p) with (left K p). unfold rank. cbn [s_pc s_ph s_pm]. destruct a, b; try discriminate AB; cbn [negb andb]; match goal with |- context [if ?b then _ else _] => destruct b end; lia. }
    destruct (qsign_range (hkey h - pkey u)) as [Q|[Q|Q]]; rewrite Q; cbn [Z.leb Z.compare]; (split; [|apply PT; reflexivity]); exists T; (split; [exact CF|]).
    + apply qsign_sub_lt in Q. exists (hkey h). split; [|left; apply CL, XH]. split; [apply TFX, XH|]. split; [split; [exact FR|]; exists h, l, v; split; [reflexivity|]; split; [reflexivity|]; split; [reflexivity|]; split; [exact V2|]; rewrite V3; reflexivity|]. split; [|intros _; exact NF]. split; [apply TMX; lra|]. intros k w L KW. pose proof (F_mono p k u w L U KW). lra.
    + apply qsign_sub_eq in Q. exists (hkey h). split; [|left; apply CL, XH]. split; [apply TFX, XH|]. split; [split; [exact FR|]; exists h, l, v; split; [reflexivity|]; split; [reflexivity|]; split; [reflexivity|]; split; [exact V2|]; rewrite V3; reflexivity|]. split; [|discriminate]. split; [apply TMX; lra|]. exists u. split; [exact U|lra].
    + apply qsign_sub_gt in Q. exists (pkey u). split; [|left; apply CL, XM]. split; [apply TFX, XM|]. split; [split; [intros h' I; pose proof (FR h' I); lra|]; intros h' I; pose proof (FR h' I); lra|]. split; [|discriminate]. split; [apply TMX; lra|]. exists u. split; [exact U|lra].
Qed.
Lemma step_heap_ends M p H K hl ph pm : inv (SS AtHeapEnds M p H K hl ph pm) -> can_step (SS AtHeapEnds M p H K hl ph pm).
Proof.
  intros (T & C & x & (TT & TH' & TM' & NF) & TI). fields. destruct TH' as [H1 H2].
  assert (NX : noH x H -> clean x T \/ noM x p -> inv (SS AtMainEnds M p H K hl ph pm)) by (intros NH Y; exists T; split; [exact C|]; exists x; split; [split; [exact TT|]; split; [split; assumption|]; split; assumption|]; split; assumption).
  assert (TI' : clean x T \/ noM x p) by (destruct TI as [Y|[_ Y]]; auto). destruct ph.
  - destruct H2 as (h & l & v & -> & HX & -> & V1 & V2). pose proof (co_front _ _ _ _ _ C h l eq_refl) as FR. destruct (m_start h) eqn:SH.
    + apply simple. intros c. unfold good, second_step. cbn [s_pc]. unfold heap_end_step. fields. rewrite SH. left. eexists. split; [reflexivity|]. split.
      * apply NX; [|exact TI']. intros h' I E. destruct (FR h' I) as [Y1 Y2]. destruct (Qlt_le_dec x (hkey h')) as [Z|Z]; [exact Z|]. rewrite Y2 in E; [discriminate|lra|exact SH].
      * apply pot_rank; try reflexivity. unfold rank, top_start. cbn [s_pc s_main s_at s_heap s_ph s_pm]. rewrite SH. cbn [negb andb orb]. destruct (pm && negb _); lia.
    + pose proof (proj1 (hp_el (co_heap _ _ _ _ _ C) h) (or_introl eq_refl)) as EL. destruct EL as [q i e PM L R N FE|q i PM L R N|q i k PM L R NT N]; cbn [m_start] in SH; try discriminate. clear SH.
      assert (CL : clean x T). { destruct TI as [Y|[Y _]]; [exact Y|]. specialize (Y _ (or_introl eq_refl) eq_refl). lra. }
      set (b := negb (late i)) in *. unfold SecondHeapProofs.hkey, key in HX. cbn [m_pos m_start m_poly fst snd] in HX.
      destruct (emit_end p T K x b i k (co_kids _ _ _ _ _ C) TT (co_logic _ _ _ _ _ C) CL NT N HX) as (f & K1 & K' & _ & _ & LK & EM & KO & TT' & LF).
      pose proof (heap_end _ _ _ _ _ (co_heap _ _ _ _ _ C)) as HE. fold b in HE. exists l. split; [exact (heap_inside _ _ _ HE)|]. intros c.
      assert (HL : forall h, In h l -> x <= hkey h) by (intros h I; apply H1; right; exact I). pose proof (heap_next x p _ c l v HE HL V1 V2) as HN.
      unfold good, second_step. cbn [s_pc]. unfold heap_end_step. fields. cbn [m_start m_pos m_poly m_partner]. rewrite LK. cbn [rbind]. rewrite EM. cbn [rbind]. destruct (settle d negs poss c l) as [l'| | |] eqn:SE; try discriminate HN; [|reflexivity]. destruct HN as (H1' & H2' & H3' & ph & PH & TH'). cbn [rbind]. rewrite PH. cbn [rbind]. left. eexists. split; [reflexivity|]. split.
      * exists (push T b (false, i)). split.
        { destruct C as [C1 C2 C3 C4 C5 C6]. constructor; try assumption; fields.
          - exact (logic_heap_end _ _ _ C2 L (nth_error_In _ _ NT)).
          - apply (main_keep _ _ _ _ _ C3). intros q' r'. apply mref_push. intros; discriminate. }
        { exists x. split; [split; [exact TT'|]; split; [exact TH'|]; split; assumption|]. left. intros b' j I. apply in_push in I as [I|[_ I]]; [exact (CL b' j I)|discriminate]. }
      * apply pot_left. fields. apply LF.
  - apply simple. intros c. unfold good, second_step. cbn [s_pc]. unfold heap_end_step. fields. left. eexists. split; [reflexivity|]. split.
    + apply NX; [|exact TI']. intros h I _. exact (H2 h I).
    + apply pot_rank; try reflexivity. unfold rank. cbn [s_pc s_main s_at s_heap s_ph s_pm]. destruct pm; cbn [negb andb orb]; [|lia]. unfold main_start. cbn [s_main s_at]. destruct (negb _); lia.
Qed.

Lemma rd_S_old p u t : nth_error F p = Some u -> rd p t -> rd (S p) t.
Proof. intros E R. apply (rd_S _ _ _ E). left. exact R. Qed.
Lemma TM_end x p q : TM x p true -> nth_error F p = Some (true, q) -> noM x p.
Proof.
  intros [A (u & U1 & U2)] E. rewrite E in U1. injection U1 as <-. intros k q' L K. assert (NE : (p < k)%nat) by (destruct (Nat.eq_dec p k) as [->|]; [rewrite E in K; discriminate|lia]). destruct (SS_nth (t_sorted _ _ _ _ TK) _ _ _ _ NE E K) as [R1 R2]. destruct (Qlt_le_dec x (hi d ps q')) as [Z|Z]; [exact Z|exfalso].
  assert (NZ : nz (lo d ps) (hi d ps) (true, q)) by (split; [reflexivity|]; apply WIDE; apply (t_all _ _ _ _ TK (true, q)), (nth_error_In _ _ E)). unfold key in *. cbn [fst snd] in *. destruct (R2 NZ ltac:(lra)) as [X _]. discriminate.
Qed.
Lemma noM_S x p : noM x p -> noM x (S p).
Proof. intros N k q L. apply N. lia. Qed.
(** The child of an end event of the parent is not on the heap. *)
Lemma tgt_not_heap p T q c h : nth_error pmap q = Some (Idx c) -> In (true, snd (tgt c)) (T (fst (tgt c))) -> heap_el p T h -> hid h <> tgt c.
Proof.
  intros PM I E X. destruct (Nat.lt_ge_cases c extra) as [L|L].
  - rewrite (tgt_split c L) in *. cbn [fst snd] in I. destruct E as [q' c' e A1 A2 A3 A4 A5|q' c' A1 A2 A3 A4|q' c' k A1 A2 A3 A4 A5]; unfold hid in X; cbn [m_pos m_poly] in X; injection X as X Y; subst c'; [exact (A4 I)| |]; destruct (late c); discriminate.
  - pose proof (el_lt _ _ _ E) as L'. destruct (own_cases CA _ _ _ (tgt_own CA q c PM)) as [(L2 & E2)|(L2 & _)]; [rewrite PM in E2; injection E2 as E2; lia|]. unfold hid in X. rewrite <- X in L2. cbn [snd] in L2. lia.
Qed.
Lemma step_main_ends M p H K hl ph pm : inv (SS AtMainEnds M p H K hl ph pm) -> can_step (SS AtMainEnds M p H K hl ph pm).
Proof.
  intros (T & C & x & (TT & TH' & TM' & NF) & NH & TI). fields. apply simple. intros c. unfold good, second_step. cbn [s_pc]. unfold main_end_step. fields. left.
  assert (NX : noM x p -> inv (SS AtHeapStarts M p H K hl ph pm)) by (intros NM; exists T; split; [exact C|]; exists x; split; [split; [exact TT|]; split; [exact TH'|]; split; assumption|]; split; assumption). destruct pm.
  - pose proof TM' as [M1 (u & U & UX)]. pose proof (lt_of_nth _ _ _ U) as L. rewrite F_len in L. destruct u as [[|] q].
    + destruct (start_at _ _ _ _ (co_main _ _ _ _ _ C) U) as (g & e & f & r & X1 & _). rewrite (get_ok _ _ _ X1). cbn [rbind v_start]. eexists. split; [reflexivity|]. split; [apply NX, (TM_end _ _ _ TM' U)|]. apply pot_rank; try reflexivity. unfold rank, main_start. cbn [s_pc s_main s_at s_heap s_ph s_pm]. rewrite X1. cbn [v_start negb andb orb]. rewrite !andb_false_r. cbn [andb]. rewrite orb_true_r. destruct ph; cbn [andb]; [|lia]. destruct (negb _); lia.
    + unfold key in UX. cbn [fst snd] in UX. destruct (end_at _ _ _ _ (co_logic _ _ _ _ _ C) (co_main _ _ _ _ _ C) U) as (g & r & X1 & X2 & [(X3 & ->)|(i & X3 & X4)]); rewrite (get_ok _ _ _ X1); cbn [rbind v_start v_ref].
      * pose proof (border_end _ _ _ _ _ _ C U X3) as C'. destruct (main_next x p (S p) T M _ TM' U (co_main _ _ _ _ _ C')) as (pm' & Y1 & Y2 & Y3). rewrite Y1. cbn [rbind]. eexists. split; [reflexivity|]. split; [|apply pot_left; fields; apply left_S; exact L].
        exists T. split; [exact C'|]. exists x. split; [split; [exact TT|]; split; [exact TH'|]; split; assumption|]. split; [exact NH|]. destruct TI as [Y|Y]; [left; exact Y|right; apply noM_S, Y].
      * destruct X4 as [(k & NT & ->)|(-> & LE & N & W)]; [|exfalso; pose proof (waiting_late x _ _ _ _ _ q i C (proj1 TH') X3 LE W); lra].
        assert (CL : clean x T) by (destruct TI as [Y|Y]; [exact Y|]; specialize (Y p q (le_n _) U); lra). pose proof (end_absent _ _ _ _ (co_logic _ _ _ _ _ C) U X3) as N. pose proof (tgt_hi CA q i X3) as HI. destruct (tgt i) as [b j] eqn:TG. cbn [fst snd] in *. rewrite (decode_enc _ _ (T_lt _ _ _ _ _ _ _ _ C NT)).
        destruct (emit_end p T K x b j k (co_kids _ _ _ _ _ C) TT (co_logic _ _ _ _ _ C) CL NT N ltac:(lra)) as (f & K1 & K' & E1 & E2 & LK & EM & KO & TT' & LF). apply Nat.ltb_lt in E2. rewrite E2, check_true. cbn [rbind]. rewrite (get_ok _ _ _ E1). cbn [rbind got ev_index]. rewrite LK. cbn [rbind]. rewrite EM. cbn [rbind].
        assert (MI : mainI (S p) (push T b (false, j)) M) by (apply (main_keep _ _ _ _ _ (co_main _ _ _ _ _ C)); intros q' r' R; apply mref_push; [intros; discriminate|]; apply (mref_read _ _ _ _ _ U); [discriminate|exact R]).
        destruct (main_next x p (S p) _ M _ TM' U MI) as (pm' & Y1 & Y2 & Y3). rewrite Y1. cbn [rbind]. eexists. split; [reflexivity|]. split; [|apply pot_left; fields; specialize (LF (S p)); pose proof (left_S K p L); lia].
        pose proof (nth_error_In _ _ NT) as IT. exists (push T b (false, j)). split.
        { constructor; fields; try assumption.
          - pose proof (logic_main_end CA p T q i (co_logic _ _ _ _ _ C) U X3) as Z. rewrite TG in Z. exact (Z IT).
          - apply heap_push.
            + apply (heap_skip _ _ _ _ (co_heap _ _ _ _ _ C) U). intros; discriminate.
            + intros h E. rewrite <- TG. apply (tgt_not_heap (S p) T q i h X3); [rewrite TG; exact IT|exact E].
            + intros h E. rewrite <- TG. apply (tgt_not_heap (S p) (push T b (false, j)) q i h X3); [rewrite TG; cbn [fst snd]; apply in_push; left; exact IT|exact E].
          - exact (co_front _ _ _ _ _ C). }
        { exists x. split; [split; [exact TT'|]; split; [exact TH'|]; split; assumption|]. split; [exact NH|]. left. intros b' j' I. apply in_push in I as [I|[_ I]]; [exact (CL b' j' I)|discriminate]. }
  - eexists. split; [reflexivity|]. split.
    + apply NX. intros k q L E. exact (proj2 TM' k _ L E).
    + apply pot_rank; try reflexivity. unfold rank. cbn [s_pc s_main s_at s_heap s_ph s_pm]. destruct ph; cbn [negb andb orb]; [|lia]. unfold top_start. cbn [s_heap]. destruct H as [|h l]; [destruct TH' as [_ (h & l & v & X & _)]; discriminate|]. destruct (m_start h); cbn; lia.
Qed.
Lemma mref_new p T q c b i k : nth_error pmap q = Some (Idx c) -> tgt c = (b, i) -> rd p (true, q) -> ~ In (true, i) (T b) -> k = length (T b) -> mref_ok p (push T b (true, i)) q (Val (enc b k)).
Proof.
  intros PM TG R N ->. split; [intros X; contradiction|]. intros _. rewrite PM, TG. cbn [fst snd]. split.
  - intros j J. apply nth_push in J as [J|(_ & -> & _)]; [exfalso; exact (N (nth_error_In _ _ J))|reflexivity].
  - intros X. exfalso. apply X, in_push. auto.
Qed.
Lemma mref_other p T q c b i q' r : nth_error pmap q = Some (Idx c) -> tgt c = (b, i) -> q' <> q -> mref_ok p T q' r -> mref_ok p (push T b (true, i)) q' r.
Proof.
  intros PM TG NE. apply mref_push. intros c' PM' A B. injection B as B. apply NE. apply (tgt_inj q' c' q c PM' PM). rewrite TG, (surjective_pairing (tgt c')). congruence.
Qed.
Lemma step_heap_starts M p H K hl ph pm : inv (SS AtHeapStarts M p H K hl ph pm) -> can_step (SS AtHeapStarts M p H K hl ph pm).
Proof.
  intros (T & C & x & (TT & TH' & TM' & NF) & NH & NM). fields. destruct TH' as [H1 H2].
  assert (NX : inv (SS AtMainStarts M p H K hl ph pm)) by (exists T; split; [exact C|]; exists x; split; [split; [exact TT|]; split; [split; assumption|]; split; assumption|]; split; assumption). destruct ph.
  - destruct H2 as (h & l & v & -> & HX & -> & V1 & V2). pose proof (co_front _ _ _ _ _ C h l eq_refl) as FR. destruct (m_start h) eqn:SH.
    + assert (US : forall b, c_used (K b) = length (T b)) by (intros b; apply (ar_used _ _ _ _ (ko_arr _ _ _ (co_kids _ _ _ _ _ C b)))).
      pose proof (proj1 (hp_el (co_heap _ _ _ _ _ C) h) (or_introl eq_refl)) as EL. destruct EL as [q i e PM L R N FE|q i PM L R N|q i k PM L R NT N]; cbn [m_start] in SH; try discriminate; clear SH; unfold SecondHeapProofs.hkey, key in HX; cbn [m_pos m_start m_poly fst snd] in HX.
      * set (b := late i) in *. destruct (split_own CA q i b PM L) as [IL _]. destruct (emit_start p T K x b i (co_kids _ _ _ _ _ C) TT (co_logic _ _ _ _ _ C) IL N HX) as (K' & EM & KO & TT' & LF).
        destruct (main_set TK p T p (push T b (true, i)) M q e (Val (enc b (c_used (K b)))) (co_main _ _ _ _ _ C) FE) as (M' & SM & MI).
        { intros q' r NE. apply (mref_other p T q i b i q' r PM); [apply tgt_split; exact L|exact NE]. } { apply (mref_new p T q i b i _ PM (tgt_split _ L) R N (US b)). }
        pose proof (heap_late _ _ _ _ _ (co_heap _ _ _ _ _ C)) as HE. fold b in HE. exists l. split; [exact (heap_inside _ _ _ HE)|]. intros c.
        assert (HL : forall h, In h l -> x <= hkey h) by (intros h I; apply H1; right; exact I). pose proof (heap_next x p _ c l v HE HL V1 V2) as HN.
        assert (DB : (if dbg && b then f <- get M e ;; check dbg (negb (v_start f)) else Ok tt) = Ok tt) by (destruct (mi_end (co_main _ _ _ _ _ C) e q FE) as (r' & f' & g' & _ & _ & Y & _); rewrite (get_ok _ _ _ Y); cbn [rbind v_start negb]; rewrite check_true; destruct (dbg && b); reflexivity).
        unfold good, second_step. cbn [s_pc]. unfold heap_start_step. fields. cbn [m_start m_pos m_poly m_partner negb]. rewrite DB. cbn [rbind]. rewrite SM. cbn [rbind]. rewrite EM. cbn [rbind]. destruct (settle d negs poss c l) as [l'| | |] eqn:SE; try discriminate HN; [|reflexivity]. destruct HN as (H1' & H2' & H3' & ph & PH & TH'). cbn [rbind]. rewrite PH. cbn [rbind]. left. eexists. split; [reflexivity|]. split; [|apply pot_left; fields; apply LF].
        exists (push T b (true, i)). split.
        { destruct C as [C1 C2 C3 C4 C5 C6]. constructor; try assumption; fields. exact (logic_heap_start CA _ _ _ _ _ C2 PM L R). }
        { exists x. split; [split; [exact TT'|]; split; [exact TH'|]; split; assumption|]. split; [|exact NM]. intros h I. apply NH. right. apply H3', I. }
      * set (b := negb (late i)) in *. destruct (split_own CA q i b PM L) as [IL _]. destruct (emit_start p T K x b i (co_kids _ _ _ _ _ C) TT (co_logic _ _ _ _ _ C) IL N HX) as (K' & EM & KO & TT' & LF).
        pose proof (heap_early _ _ _ _ (co_logic _ _ _ _ _ C) (co_heap _ _ _ _ _ C)) as HE. fold b in HE. rewrite <- (US b) in HE. set (l0 := l ++ _) in HE. exists l0. split; [exact (heap_inside _ _ _ HE)|]. intros c.
        assert (HK : hkey (ME false b i (Some (c_used (K b)))) = khi b i) by reflexivity. pose proof (kid_wide CA WIDE b i IL) as KW.
        assert (HL : forall h, In h l0 -> x <= hkey h) by (intros h I; apply in_app_iff in I as [I|[<-|[]]]; [apply H1; right; exact I|rewrite HK; lra]). pose proof (heap_next x p _ c l0 v HE HL V1 V2) as HN.
        unfold good, second_step. cbn [s_pc]. unfold heap_start_step. fields. cbn [m_start m_pos m_poly m_partner negb rbind]. rewrite EM. cbn [rbind]. fold l0. destruct (settle d negs poss c l0) as [l'| | |] eqn:SE; try discriminate HN; [|reflexivity]. destruct HN as (H1' & H2' & H3' & ph & PH & TH'). cbn [rbind]. rewrite PH. cbn [rbind]. left. eexists. split; [reflexivity|]. split; [|apply pot_left; fields; apply LF].
        exists (push T b (true, i)). split.
        { destruct C as [C1 C2 C3 C4 C5 C6]. constructor; try assumption; fields; [exact (logic_heap_start CA _ _ _ _ _ C2 PM L R)|]. apply (main_keep _ _ _ _ _ C3). intros q' r'. apply mref_push. intros c' PM' A B. injection B as B. pose proof (code_tgt q' c' PM') as CT. rewrite A, <- B, (code_split _ _ L) in CT. subst c'. rewrite (tgt_split _ L) in A. unfold b in A. cbn [fst] in A. destruct (late i); discriminate. }
        { exists x. split; [split; [exact TT'|]; split; [exact TH'|]; split; assumption|]. split; [|exact NM]. intros h I SH. apply H3' in I. apply in_app_iff in I as [I|[<-|[]]]; [apply NH; [right; exact I|exact SH]|rewrite HK; lra]. }
    + apply simple. intros c. unfold good, second_step. cbn [s_pc]. unfold heap_start_step. fields. rewrite SH. cbn [negb]. left. eexists. split; [reflexivity|]. split; [exact NX|]. apply pot_rank; try reflexivity. unfold rank, top_start. cbn [s_pc s_main s_at s_heap s_ph s_pm]. rewrite SH. cbn [negb andb orb]. destruct (pm && _); lia.
  - apply simple. intros c. unfold good, second_step. cbn [s_pc]. unfold heap_start_step. fields. left. eexists. split; [reflexivity|]. split; [exact NX|]. apply pot_rank; try reflexivity. unfold rank. cbn [s_pc s_main s_at s_heap s_ph s_pm negb andb orb]. destruct pm; cbn [negb andb]; [|lia]. unfold main_start. cbn [s_main s_at]. match goal with |- context [if ?b then _ else _] => destruct b end; lia.
Qed.

Lemma late_ok a b c : nth_error negs c = Some a -> nth_error poss c = Some b -> (hp_compare_comp d (e_max a) (e_max b) <=? 0)%Z = late c.
Proof.
  intros A B. rewrite Forall_forall in FN, FP. destruct (FN a (nth_error_In _ _ A)) as (_ & A1 & _), (FP b (nth_error_In _ _ B)) as (_ & B1 & _). rewrite (comp_spec _ _ A1 B1). unfold SecondInvProofs.late, hi. rewrite A, B. destruct (Qle_bool (coord d (e_max a)) (coord d (e_max b))) eqn:E.
  - apply Qle_bool_iff in E. destruct (qsign_range (coord d (e_max a) - coord d (e_max b))) as [Q|[Q|Q]]; rewrite Q; try reflexivity. apply qsign_sub_gt in Q. lra.
  - assert (N : ~ coord d (e_max a) <= coord d (e_max b)) by (rewrite <- Qle_bool_iff; congruence). destruct (qsign_range (coord d (e_max a) - coord d (e_max b))) as [Q|[Q|Q]]; rewrite Q; try reflexivity; [apply qsign_sub_lt in Q|apply qsign_sub_eq in Q]; lra.
Qed.
Lemma step_main_starts M p H K hl ph pm : inv (SS AtMainStarts M p H K hl ph pm) -> can_step (SS AtMainStarts M p H K hl ph pm).
Proof.
  intros (T & C & x & (TT & TH' & TM' & NF) & NH & NM). fields.
  assert (NX : inv (SS AtLoop M p H K hl ph pm)) by (exists T; split; [exact C|]; exists x; split; [split; [exact TT|]; split; [exact TH'|]; split; assumption|]; right; split; assumption). destruct pm.
  - pose proof TM' as [M1 (u & U & UX)]. pose proof (lt_of_nth _ _ _ U) as L. rewrite F_len in L. destruct u as [[|] q].
    + unfold key in UX. cbn [fst snd] in UX. destruct (start_at _ _ _ _ (co_main _ _ _ _ _ C) U) as (g & e & f & r & X1 & X2 & X3 & X4 & X5 & X6).
      assert (RQ : rd (S p) (true, q)) by (apply (rd_S _ _ _ U); right; reflexivity). destruct r as [i|].
      * destruct (Nat.lt_ge_cases i extra) as [LE|LE].
        { destruct (ca_extra _ _ _ _ _ _ CA) as [CE1 CE2]. destruct (kid_get FN FP false i ltac:(cbn [kids]; lia)) as (a & A1 & _), (kid_get FN FP true i ltac:(cbn [kids]; lia)) as (b & B1 & _). cbn [kids] in A1, B1. pose proof (late_ok a b i A1 B1) as LO.
          pose proof (heap_split CA TK p T H q i e (co_logic _ _ _ _ _ C) (co_heap _ _ _ _ _ C) U X5 LE X3) as HS. set (l0 := H ++ _) in HS. pose proof (heap_inside _ _ _ HS) as IN. exists l0. split; [exact IN|]. intros c.
          assert (NT : forall b, ~ In (true, i) (T b)) by (intros b' I; apply (rd_new TK _ _ U); apply (proj2 (lg_start (co_logic _ _ _ _ _ C) b' i I)); exact (split_own CA q i b' X5 LE)).
          destruct (main_set TK p T (S p) T M q e Waiting (co_main _ _ _ _ _ C) X3) as (M' & SM & MI).
          { intros q' r' NE R. apply (mref_read _ _ _ _ _ U); [congruence|exact R]. } { split; [intros Z; contradiction|]. intros _. rewrite X5, (tgt_split i LE). cbn [fst snd]. split; [|reflexivity]. intros k Z. exfalso. exact (NT _ (nth_error_In _ _ Z)). }
          pose proof (heap_size _ _ _ HS) as SZ. unfold l0 in SZ. rewrite app_length in SZ. cbn [length] in SZ. assert (SZ' : (extra * 2 <? length H + 2)%nat = false) by (apply Nat.ltb_ge; lia).
          unfold good, second_step. cbn [s_pc]. unfold main_start_step. fields. rewrite (get_ok _ _ _ X1). cbn [rbind v_start negb v_ref val]. rewrite X6. cbn [rbind]. rewrite (proj2 (Nat.ltb_lt _ _) LE), (get_ok _ _ _ A1), (get_ok _ _ _ B1). cbn [rbind]. rewrite LO, SZ'. fold l0.
          destruct (settle_ok FN FP c l0 IN) as [->|(l' & -> & PE & FR)]; [reflexivity|]. cbn [rbind]. rewrite SM. cbn [rbind].
          assert (HK : forall b, hkey (ME true b i (if b then if late i then Some e else None else if late i then None else Some e)) = klo b i) by (intros b'; destruct b', (late i); reflexivity).
          destruct (split_parts CA q i X5 LE) as (P1 & P2 & P3 & _).
          assert (HL : forall h, In h l0 -> x <= hkey h). { intros h I. unfold l0 in I. apply in_app_iff in I as [I|[<-|[<-|[]]]]; [exact (proj1 TH' h I)| |]; [rewrite (HK false)|rewrite (HK true)]; lra. }
          assert (EX : exists h, In h l0 /\ hkey h == x). { destruct P3 as [P3|P3]; [exists (ME true false i (if late i then None else Some e))|exists (ME true true i (if late i then Some e else None))]; (split; [unfold l0; apply in_app_iff; right; cbn [In]; auto|]); [rewrite (HK false)|rewrite (HK true)]; lra. }
          pose proof (heap_perm _ _ _ _ PE HS) as HS'. destruct EX as (h0 & E1 & E2). apply (Permutation_in _ PE) in E1. destruct l' as [|h l']; [destruct E1|]. destruct (h_loc_ok FN FP h (heap_inside _ _ _ HS' h (or_introl eq_refl))) as (v & V1 & V2 & V3). rewrite V1. cbn [rbind]. fields.
          assert (HX : hkey h == x). { pose proof (proj1 (FR h l' eq_refl h0 E1)). pose proof (HL h (Permutation_in _ (Permutation_sym PE) (or_introl eq_refl))). lra. }
          destruct (main_next x p (S p) T M' _ TM' U MI) as (pm' & Y1 & Y2 & Y3). rewrite Y1. cbn [rbind]. left. eexists. split; [reflexivity|]. split; [|apply pot_left; fields; apply left_S; exact L].
          exists T. split.
          { constructor; fields; try assumption; [|exact (co_kids _ _ _ _ _ C)]. exact (logic_split CA _ _ _ _ (co_logic _ _ _ _ _ C) U X5 LE). }
          { exists x. split; [|split].
            - split; [exact TT|]. split; [|split; assumption]. split; [intros h' I; apply HL; exact (Permutation_in _ (Permutation_sym PE) I)|]. exists h, l', v. split; [reflexivity|]. split; [exact HX|]. split; [reflexivity|]. split; [exact V2|]. rewrite V3. exact HX.
            - fields. intros h' I SH. apply (Permutation_in _ (Permutation_sym PE)) in I. unfold l0 in I. apply in_app_iff in I as [I|[<-|[<-|[]]]]; [exact (NH h' I SH)|discriminate|discriminate].
            - apply noM_S, NM. } }
        { apply simple. intros c. pose proof (tgt_own CA q i X5) as O. destruct (own_cases CA _ _ _ O) as [(L2 & E2)|(L2 & _ & _ & _ & KL & _)]; [rewrite X5 in E2; injection E2 as E2; lia|]. assert (TG : tgt i = (if (i <? length negs)%nat then (false, i) else (true, (i - length negs)%nat))) by (unfold SecondInvProofs.tgt; rewrite (proj2 (Nat.ltb_ge _ _) LE); destruct (i <? length negs)%nat; reflexivity).
          unfold good, second_step. cbn [s_pc]. unfold main_start_step. fields. rewrite (get_ok _ _ _ X1). cbn [rbind v_start negb v_ref val]. rewrite X6. cbn [rbind]. rewrite (proj2 (Nat.ltb_ge _ _) LE), <- TG. destruct (tgt i) as [b j] eqn:TGE. cbn [fst snd] in *.
          assert (NT : ~ In (true, j) (T b)) by (intros I; apply (rd_new TK _ _ U); apply (proj2 (lg_start (co_logic _ _ _ _ _ C) b j I)); exact O).
          destruct (emit_start p T K x b j (co_kids _ _ _ _ _ C) TT (co_logic _ _ _ _ _ C) (proj1 O) NT ltac:(lra)) as (K' & EM & KO & TT' & LF). rewrite EM. cbn [rbind].
          destruct (main_set TK p T (S p) (push T b (true, j)) M q e (Val (enc b (c_used (K b)))) (co_main _ _ _ _ _ C) X3) as (M' & SM & MI).
          { intros q' r NE R. apply (mref_other (S p) T q i b j q' r X5 TGE NE). apply (mref_read _ _ _ _ _ U); [congruence|exact R]. } { apply (mref_new (S p) T q i b j _ X5 TGE RQ NT). apply (ar_used _ _ _ _ (ko_arr _ _ _ (co_kids _ _ _ _ _ C b))). }
          rewrite SM. cbn [rbind]. fields. destruct (main_next x p (S p) _ M' _ TM' U MI) as (pm' & Y1 & Y2 & Y3). rewrite Y1. cbn [rbind]. left. eexists. split; [reflexivity|]. split; [|apply pot_left; fields; specialize (LF (S p)); pose proof (left_S K p L); lia].
          exists (push T b (true, j)). split.
          { constructor; fields; try assumption; [| |exact (co_front _ _ _ _ _ C)].
            - pose proof (logic_whole CA p T q i (co_logic _ _ _ _ _ C) U X5 LE) as Z. rewrite TGE in Z. exact Z.
            - apply heap_push.
              + apply (heap_skip _ _ _ _ (co_heap _ _ _ _ _ C) U). intros q' c' Z. injection Z as <-. intros Z. rewrite X5 in Z. injection Z as <-. exact LE.
              + intros h E Z. apply el_lt in E. unfold hid in Z. injection Z as _ Z. lia.
              + intros h E Z. apply el_lt in E. unfold hid in Z. injection Z as _ Z. lia. }
          { exists x. split; [split; [exact TT'|]; split; [exact TH'|]; split; assumption|]. split; [exact NH|]. apply noM_S, NM. } }
      * apply simple. intros c. unfold good, second_step. cbn [s_pc]. unfold main_start_step. fields. rewrite (get_ok _ _ _ X1). cbn [rbind v_start negb v_ref val]. rewrite X6. cbn [rbind]. destruct (border_start _ _ _ _ _ _ _ C U X5 X3) as (M' & Y1 & C'). rewrite Y1. cbn [rbind]. fields. destruct (main_next x p (S p) T M' _ TM' U (co_main _ _ _ _ _ C')) as (pm' & Y2 & Y3 & Y4). rewrite Y2. cbn [rbind]. left. eexists. split; [reflexivity|]. split; [|apply pot_left; fields; apply left_S; exact L].
        exists T. split; [exact C'|]. exists x. split; [split; [exact TT|]; split; [exact TH'|]; split; assumption|]. split; [exact NH|apply noM_S, NM].
    + apply simple. intros c. destruct (main_at _ _ _ _ _ (co_main _ _ _ _ _ C) U) as (r & g & _ & W). cbn [fst] in W. unfold good, second_step. cbn [s_pc]. unfold main_start_step. fields. rewrite (get_ok _ _ _ W). cbn [rbind v_start negb]. left. eexists. split; [reflexivity|]. split; [exact NX|]. apply pot_rank; try reflexivity. unfold rank, main_start. cbn [s_pc s_main s_at s_heap s_ph s_pm]. rewrite W. cbn [v_start negb andb orb]. rewrite !andb_false_r. cbn [andb]. match goal with |- context [if ?b then _ else _] => destruct b end; lia.
  - apply simple. intros c. unfold good, second_step. cbn [s_pc]. unfold main_start_step. fields. left. eexists. split; [reflexivity|]. split; [exact NX|]. apply pot_rank; try reflexivity. unfold rank. cbn [s_pc s_main s_at s_heap s_ph s_pm negb andb orb]. destruct ph; cbn [negb andb]; [|lia]. match goal with |- context [if ?b then _ else _] => destruct b end; lia.
Qed.
Lemma steps s : inv s -> can_step s.
Proof.
  destruct s as [[] M p H K hl ph pm]; [apply step_top|apply step_skip|apply step_compare|apply step_loop|apply step_heap_ends|apply step_main_ends|apply step_heap_starts|apply step_main_starts].
Qed.
(** ** All steps *)
Lemma loop_ok choose : forall fuel s, inv s -> second_loop dbg d n negs poss extra pmap choose fuel s = NoFuel \/ exists s', second_loop dbg d n negs poss extra pmap choose fuel s = Ok s' /\ final s'.
Proof.
  induction fuel as [|fuel IH]; intros s I; [left; reflexivity|]. cbn [second_loop]. destruct (steps s I) as (l & IN & ST). specialize (ST (choose fuel)). destruct (settle_ok FN FP (choose fuel) l IN) as [E|(l' & E & _)]; rewrite E in ST; [rewrite ST; left; reflexivity|]. destruct ST as [(s' & -> & I' & _)|[-> FI]]; cbn [rbind]; [apply IH, I'|]. right. eauto.
Qed.
Lemma loop_ext choose choose' : forall fuel, (forall k, (k < fuel)%nat -> choose k = choose' k) -> forall s, second_loop dbg d n negs poss extra pmap choose fuel s = second_loop dbg d n negs poss extra pmap choose' fuel s.
Proof.
  induction fuel as [|fuel IH]; intros E s; [reflexivity|]. cbn [second_loop]. rewrite (E fuel) by lia. destruct (second_step dbg d n negs poss extra pmap (choose' fuel) s) as [[s'|s']| | |]; cbn [rbind]; try reflexivity. apply IH. intros k L. apply E. lia.
Qed.
Lemma loop_ends : forall fuel s, inv s -> (pot s < fuel)%nat -> exists choose s', second_loop dbg d n negs poss extra pmap choose fuel s = Ok s'.
Proof.
  induction fuel as [|fuel IH]; intros s I L; [lia|]. destruct (steps s I) as (l & IN & ST). destruct (settle_some FN FP l IN) as (c & l' & E). specialize (ST c). rewrite E in ST. destruct ST as [(s' & E' & I' & P)|[E' _]].
  - destruct (IH s' I' ltac:(lia)) as (ch & s2 & R). exists (fun k => if (k =? fuel)%nat then c else ch k), s2. cbn [second_loop]. rewrite Nat.eqb_refl, E'. cbn [rbind]. rewrite <- R. apply loop_ext. intros k K. destruct (Nat.eqb_spec k fuel); [lia|reflexivity].
  - exists (fun _ => c), s. cbn [second_loop]. rewrite E'. reflexivity.
Qed.
(** ** The end *)
Lemma final_empty s T : s_at s = (n * 2)%nat -> core (s_at s) T (s_main s) (s_heap s) (s_kids s) -> below (s_at s) T (s_heap s) -> s_heap s = [].
Proof.
  intros E C [B _]. rewrite E in C. destruct (s_heap s) as [|h l] eqn:HE; [reflexivity|exfalso]. pose proof (proj1 (hp_el (co_heap _ _ _ _ _ C) h) (or_introl eq_refl)) as EL. pose proof (co_logic _ _ _ _ _ C) as LG.
  assert (Z : forall q c, nth_error pmap q = Some (Idx c) -> (c < extra)%nat -> In (false, c) (T (late c)) /\ khi (late c) c == hi d ps q /\ forall b, khi b c <= hi d ps q).
  { intros q c PM L. pose proof (split_own CA q c (late c) PM L) as O. split; [|split; [|intros b; exact (proj2 (kid_range CA _ _ _ (split_own CA q c b PM L)))]].
    - apply (lg_tgt LG _ _ _ O); [rewrite (code_split _ _ L); apply tgt_split; exact L|]. apply (rd_all TK). exact (pmap_lt CA _ _ PM).
    - pose proof (tgt_hi CA q c PM) as Y. rewrite (tgt_split c L) in Y. exact Y. }
  destruct EL as [q i e PM L R N FE|q i PM L R N|q i k PM L R NT N]; destruct (Z q i PM L) as (Z1 & Z2 & Z3).
  - exact (N (lg_end LG _ _ Z1)).
  - specialize (B _ _ _ Z1 (or_introl eq_refl)). unfold SecondHeapProofs.hkey, key in B. cbn [m_pos m_start m_poly fst snd] in B. specialize (Z3 (negb (late i))). pose proof (kid_wide CA WIDE (negb (late i)) i (proj1 (split_own CA q i _ PM L))). lra.
  - specialize (B _ _ _ Z1 (or_introl eq_refl)). unfold SecondHeapProofs.hkey, key in B. cbn [m_pos m_start m_poly fst snd] in B. specialize (Z3 (negb (late i))). lra.
Qed.
Lemma final_toks p T M K : core p T M [] K -> p = (n * 2)%nat -> forall b, toks_ok (length (kid b)) (klo b) (khi b) (T b).
Proof.
  intros C -> b. pose proof (co_logic _ _ _ _ _ C) as LG. destruct (co_kids _ _ _ _ _ C b) as [KA KN KS].
  assert (NO : forall h, ~ heap_el (n * 2) T h) by (intros h E; apply (hp_el (co_heap _ _ _ _ _ C)) in E; destruct E).
  assert (AL : forall i, (i < length (kid b))%nat -> In (false, i) (T b)).
  { intros i L. destruct (own_exists CA b i L) as (q & O). pose proof (pmap_lt CA _ _ (proj2 O)) as QL. destruct (own_cases CA _ _ _ O) as [(I & E)|(I & TG & _)].
    - assert (R : rd (n * 2) (true, q)) by (apply (rd_all TK); exact QL). destruct (bool_dec b (late i)) as [->|NE].
      + apply (lg_tgt LG _ _ _ O); [rewrite (code_split _ _ I); apply tgt_split; exact I|]. apply (rd_all TK). exact QL.
      + assert (BE : b = negb (late i)) by (revert NE; clear; generalize (late i); intros m; destruct b, m; cbn; congruence). subst b. destruct (in_dec tok_eq_dec (false, i) (T (negb (late i)))) as [X|X]; [exact X|exfalso]. destruct (in_dec tok_eq_dec (true, i) (T (negb (late i)))) as [Y|Y].
        * apply In_nth_error in Y as (k & Y). exact (NO _ (HOpen _ _ _ _ _ _ _ _ q i k E I R Y X)).
        * exact (NO _ (HEarly _ _ _ _ _ _ _ _ q i E I R Y)).
    - apply (lg_tgt LG _ _ _ O TG). apply (rd_all TK). exact QL. }
  constructor.
  - exact KN.
  - intros [s i]. cbn [snd]. split; [apply (tok_in _ _ _ _ _ LG)|]. intros L. destruct s; [apply (lg_end LG)|]; apply AL, L.
  - exact KS.
  - intros i s e S1 S2. assert (L : (i < length (kid b))%nat) by (apply (tok_in _ _ _ _ _ LG (nth_error_In _ _ S1))). pose proof (kid_wide CA WIDE b i L) as W. split; [|intros X; lra]. destruct (Nat.lt_trichotomy s e) as [X|[X|X]]; [exact X| |].
    + subst e. rewrite S1 in S2. discriminate.
    + pose proof (proj1 (SS_nth KS _ _ _ _ X S2 S1)) as Y. unfold key in Y. cbn [fst snd] in Y. lra.
Qed.
Lemma init_inv : inv (SS AtTop (map main_of evs) 0 [] (fun b => Child (repeat None (length (kid b) * 2)) 0 true) None false false).
Proof.
  exists (fun _ => []). fields. split.
  - constructor.
    + lia.
    + constructor.
      * intros b i [].
      * intros b i [].
      * intros b i q _ _ R. destruct R.
      * intros b i q _ _. split; intros [].
    + apply main_init; assumption.
    + constructor; [|constructor]. intros h. split; [intros []|]. intros []; exfalso; match goal with R : SecondInvProofs.rd _ _ _ |- _ => destruct R end.
    + intros b. constructor; [|constructor|constructor]. constructor; cbn [c_arr c_used].
      * apply repeat_length.
      * reflexivity.
      * intros k t E. destruct k; discriminate.
    + intros e l E. discriminate.
  - split; [split; [intros b t h []|intros b t k u []]|]. intros D. destruct (nth_error evs 0) as [g|] eqn:G; [right; exists g; split; [exact G|]; apply (FL 0%nat g G); left; reflexivity|]. left. apply nth_error_None in G. rewrite (Forall2_length AR), F_len in G. fields. lia.
Qed.
End Steps.
