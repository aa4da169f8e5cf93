(** ApplySecondary: what the event points of the parent, the heap and the children
    hold when p events have been read and the pairs T written. *)
From Coq Require Import List ZArith QArith Arith Lia Lqa Bool Sorted Permutation.
From Verif Require Import BigUIntModel GeoModel GeoSpec EvtModel EvtSpec EvtTokProofs EvtProofs EvtArrProofs PrimModel PrimProofs PrimInvProofs PrimTopProofs SecondModel SecondSpec SecondArrProofs.
Import ListNotations.
Open Scope Q_scope.

Definition push (T : bool -> list tok) (b : bool) (t : tok) : bool -> list tok := fun x => if Bool.eqb x b then T x ++ [t] else T x.
Lemma push_same T b t : push T b t b = T b ++ [t].
Proof. unfold push. rewrite eqb_reflx. reflexivity. Qed.
Lemma push_other T b t x : x <> b -> push T b t x = T x.
Proof. unfold push. destruct (Bool.eqb x b) eqn:E; [apply eqb_prop in E; congruence|reflexivity]. Qed.
Lemma in_push T b t x u : In u (push T b t x) <-> In u (T x) \/ x = b /\ u = t.
Proof.
  destruct (bool_dec x b) as [->|N]; [rewrite push_same, in_app_iff; cbn [In]; intuition|rewrite push_other by exact N; intuition].
Qed.
Lemma nth_push T b t x k u : nth_error (push T b t x) k = Some u <-> nth_error (T x) k = Some u \/ x = b /\ k = length (T b) /\ u = t.
Proof.
  destruct (bool_dec x b) as [->|N]; [rewrite push_same|rewrite push_other by exact N; intuition]. split.
  - intros E. apply nth_app1 in E as [E|[-> ->]]; auto.
  - intros [E|(_ & -> & ->)]; [apply nth_prefix; exact E|apply nth_end].
Qed.
Definition hid (h : mevent) : bool * nat := (m_pos h, m_poly h).

Section Core.
Context (d : nat) (ps negs poss : list epoly) (extra : nat) (pmap : list ref) (CA : carried d ps negs poss extra pmap) (WIDE : forall i, (i < length ps)%nat -> lo d ps i < hi d ps i)
  (evs : list event) (F : list tok) (AR : Forall2 (tok_of (nth_error evs)) evs F) (TK : toks_ok (length ps) (lo d ps) (hi d ps) F).
Notation n := (length ps).
Notation kid b := (kids negs poss b).
Notation klo b := (lo d (kids negs poss b)).
Notation khi b := (hi d (kids negs poss b)).
Notation kkey b := (key (lo d (kids negs poss b)) (hi d (kids negs poss b))).
Notation pkey := (key (lo d ps) (hi d ps)).
Notation enc := (encode negs).

(** ** Polygons of the children *)
Definition code (b : bool) (i : nat) : nat := if b then if (i <? extra)%nat then i else (length negs + i)%nat else i.
Definition own (b : bool) (i q : nat) : Prop := (i < length (kid b))%nat /\ nth_error pmap q = Some (Idx (code b i)).
Definition late (c : nat) : bool := Qle_bool (hi d negs c) (hi d poss c).
(** The child that gets an end event with the end event of the parent. *)
Definition tgt (c : nat) : bool * nat := if (c <? extra)%nat then (late c, c) else if (c <? length negs)%nat then (false, c) else (true, (c - length negs)%nat).
Lemma own_exists b i : (i < length (kid b))%nat -> exists q, own b i q.
Proof.
  intros L. destruct CA. destruct (ca_onto (code b i)) as (q & Q); [|exists q; split; assumption]. destruct b; cbn [code kids] in *; [|left; exact L]. destruct (Nat.ltb_spec i extra); [left; lia|right; lia].
Qed.
Lemma own_unique b i q q' : own b i q -> own b i q' -> q = q'.
Proof. intros [_ A] [_ B]. exact (ca_once _ _ _ _ _ _ CA _ _ _ A B). Qed.
Lemma pmap_lt q r : nth_error pmap q = Some r -> (q < n)%nat.
Proof. intros E. rewrite <- (ca_length _ _ _ _ _ _ CA). exact (lt_of_nth _ _ _ E). Qed.
Lemma tgt_own q c : nth_error pmap q = Some (Idx c) -> own (fst (tgt c)) (snd (tgt c)) q.
Proof.
  intros E. destruct CA as [_ [X1 X2] _ _ CP _ _]. unfold tgt. destruct (Nat.ltb_spec c extra) as [L|L]; cbn [fst snd].
  - destruct (late c); (split; [cbn [kids]; lia|]); cbn [code]; [|exact E]. apply Nat.ltb_lt in L. rewrite L. exact E.
  - destruct (Nat.ltb_spec c (length negs)) as [M|M]; cbn [fst snd]; [split; [exact M|exact E]|]. destruct (CP q c E M) as (Y & _). split; [cbn [kids]; lia|]. cbn [code]. destruct (Nat.ltb_spec (c - length negs) extra); [lia|]. replace (length negs + (c - length negs))%nat with c by lia. exact E.
Qed.
Lemma split_own q c b : nth_error pmap q = Some (Idx c) -> (c < extra)%nat -> own b c q.
Proof.
  intros E L. destruct CA as [_ [X1 X2] _ _ _ _ _]. destruct b; (split; [cbn [kids]; lia|]); cbn [code]; [|exact E]. apply Nat.ltb_lt in L. rewrite L. exact E.
Qed.
(** A child is a part of a polygon that was split, or has the same extent. *)
Lemma own_cases b i q : own b i q -> (i < extra)%nat /\ nth_error pmap q = Some (Idx i) \/
  (extra <= i)%nat /\ tgt (code b i) = (b, i) /\ (extra <= code b i)%nat /\ nth_error pmap q = Some (Idx (code b i)) /\ klo b i == lo d ps q /\ khi b i == hi d ps q.
Proof.
  intros [L E]. destruct CA as [_ [X1 X2] _ CN CP _ _]. destruct (Nat.lt_ge_cases i extra) as [I|I].
  - left. split; [exact I|]. destruct b; cbn [code] in E; [|exact E]. apply Nat.ltb_lt in I. rewrite I in E. exact E.
  - right. split; [exact I|]. destruct b; cbn [code kids] in *.
    + destruct (Nat.ltb_spec i extra) as [X|_]; [lia|]. unfold tgt. destruct (Nat.ltb_spec (length negs + i) extra); [lia|]. destruct (Nat.ltb_spec (length negs + i) (length negs)); [lia|]. replace (length negs + i - length negs)%nat with i by lia. split; [reflexivity|]. split; [lia|]. split; [exact E|]. destruct (CP _ _ E ltac:(lia)) as (_ & Y). replace (length negs + i - length negs)%nat with i in Y by lia. exact Y.
    + unfold tgt. destruct (Nat.ltb_spec i extra); [lia|]. destruct (Nat.ltb_spec i (length negs)); [|lia]. split; [reflexivity|]. split; [lia|]. split; [exact E|]. exact (CN _ _ E ltac:(lia)).
Qed.
Lemma split_parts q c : nth_error pmap q = Some (Idx c) -> (c < extra)%nat -> parts (lo d ps q) (hi d ps q) (klo false c) (khi false c) (klo true c) (khi true c).
Proof. exact (ca_split _ _ _ _ _ _ CA q c). Qed.
Lemma kid_wide b i : (i < length (kid b))%nat -> klo b i < khi b i.
Proof.
  intros L. destruct (own_exists b i L) as (q & Q). destruct (own_cases b i q Q) as [(I & E)|(_ & _ & _ & E & A & B)]; pose proof (WIDE q (pmap_lt _ _ E)) as W; [|lra].
  destruct (split_parts q i E I) as (_ & _ & _ & _ & _ & _ & _ & _ & P). destruct b; apply P in W; apply W.
Qed.
Lemma kid_range b i q : own b i q -> lo d ps q <= klo b i /\ khi b i <= hi d ps q.
Proof.
  intros Q. destruct (own_cases b i q Q) as [(I & E)|(_ & _ & _ & E & A & B)]; [|lra]. destruct (split_parts q i E I) as (P1 & P2 & _ & P4 & P5 & _). destruct b; auto.
Qed.
Lemma tgt_hi q c : nth_error pmap q = Some (Idx c) -> khi (fst (tgt c)) (snd (tgt c)) == hi d ps q.
Proof.
  intros E. unfold tgt. destruct (Nat.ltb_spec c extra) as [L|L]; cbn [fst snd].
  - destruct (split_parts q c E L) as (_ & _ & _ & P4 & P5 & P6 & _). unfold late. cbn [kids] in *. destruct (Qle_bool (hi d negs c) (hi d poss c)) eqn:Q.
    + apply Qle_bool_iff in Q. cbn [kids] in *. lra.
    + cbn [kids] in *. assert (H : ~ hi d negs c <= hi d poss c) by (rewrite <- Qle_bool_iff; congruence). lra.
  - pose proof (tgt_own q c E) as O. unfold tgt in O. rewrite (proj2 (Nat.ltb_ge c extra) L) in O. destruct (Nat.ltb_spec c (length negs)) as [M|M]; cbn [fst snd] in *; destruct (own_cases _ _ _ O) as [(I & E2)|(_ & _ & _ & _ & _ & B)]; try exact B.
    + lia.
    + rewrite E in E2. injection E2 as E2. lia.
Qed.

(** ** Reading the events of the parent *)
Definition rd (p : nat) (t : tok) : Prop := In t (firstn p F).
Lemma rd_S p u t : nth_error F p = Some u -> (rd (S p) t <-> rd p t \/ t = u).
Proof. intros E. unfold rd. rewrite (firstn_S _ _ _ E), in_app_iff. cbn [In]. intuition. Qed.
Lemma rd_new p u : nth_error F p = Some u -> ~ rd p u.
Proof.
  intros E I. unfold rd in I. apply In_nth_error in I as (k & K). pose proof (lt_of_nth _ _ _ K) as L. rewrite firstn_length in L. assert (G : nth_error F k = Some u) by (rewrite <- (firstn_skipn p F); apply nth_prefix; exact K).
  pose proof (NoDup_nth (t_nodup _ _ _ _ TK) _ _ _ E G). lia.
Qed.
Lemma rd_start p q : nth_error F p = Some (false, q) -> rd p (true, q).
Proof.
  intros E. assert (L : (q < n)%nat) by (apply (t_all _ _ _ _ TK (false, q)); exact (nth_error_In _ _ E)). destruct (In_nth_error F (true, q)) as (s & S1); [apply (t_all _ _ _ _ TK); exact L|]. destruct (t_order _ _ _ _ TK q s p S1 E) as [O _]. unfold rd.
  apply (nth_error_In _ s). rewrite <- (firstn_skipn p F) in S1. rewrite nth_error_app1 in S1; [exact S1|]. rewrite firstn_length. pose proof (lt_of_nth _ _ _ E). lia.
Qed.
Lemma rd_all t : (snd t < n)%nat -> rd (n * 2) t.
Proof. intros L. unfold rd. rewrite firstn_all2; [apply (t_all _ _ _ _ TK); exact L|]. rewrite (toks_length _ _ _ _ TK). lia. Qed.
Lemma rd_iff p t : rd p t <-> exists k, (k < p)%nat /\ nth_error F k = Some t.
Proof.
  unfold rd. split.
  - intros I. apply In_nth_error in I as (k & K). pose proof (lt_of_nth _ _ _ K) as L. rewrite firstn_length in L. exists k. split; [lia|]. rewrite <- (firstn_skipn p F). apply nth_prefix. exact K.
  - intros (k & L & K). apply (nth_error_In _ k). rewrite <- (firstn_skipn p F) in K. rewrite nth_error_app1 in K; [exact K|]. rewrite firstn_length. assert (nth_error (firstn p F ++ skipn p F) k <> None) by congruence. rewrite firstn_skipn in H. apply nth_error_Some in H. lia.
Qed.

(** ** Which events have been written *)
Record logic (p : nat) (T : bool -> list tok) : Prop := Logic {
  lg_start : forall b i, In (true, i) (T b) -> (i < length (kid b))%nat /\ forall q, own b i q -> rd p (true, q);
  lg_end : forall b i, In (false, i) (T b) -> In (true, i) (T b);
  lg_whole : forall b i q, own b i q -> (extra <= i)%nat -> rd p (true, q) -> In (true, i) (T b);
  lg_tgt : forall b i q, own b i q -> tgt (code b i) = (b, i) -> (In (false, i) (T b) <-> rd p (false, q)) }.
Lemma logic_border p T s q : logic p T -> nth_error F p = Some (s, q) -> nth_error pmap q = Some Gone -> logic (S p) T.
Proof.
  intros [A B C D] E G. constructor.
  - intros b i I. destruct (A b i I) as [A1 A2]. split; [exact A1|]. intros q' O. apply (rd_S _ _ _ E). left. exact (A2 q' O).
  - exact B.
  - intros b i q' O L R. apply (rd_S _ _ _ E) in R as [R|R]; [exact (C b i q' O L R)|]. injection R as _ ->. destruct O as [_ O]. congruence.
  - intros b i q' O Q. rewrite (D b i q' O Q), (rd_S _ _ _ E). split; [auto|]. intros [R|R]; [exact R|]. injection R as _ ->. destruct O as [_ O]. congruence.
Qed.
Lemma logic_split p T q c : logic p T -> nth_error F p = Some (true, q) -> nth_error pmap q = Some (Idx c) -> (c < extra)%nat -> logic (S p) T.
Proof.
  intros [A B C D] E G L. constructor.
  - intros b i I. destruct (A b i I) as [A1 A2]. split; [exact A1|]. intros q' O. apply (rd_S _ _ _ E). left. exact (A2 q' O).
  - exact B.
  - intros b i q' O L' R. apply (rd_S _ _ _ E) in R as [R|R]; [exact (C b i q' O L' R)|]. injection R as ->. destruct (own_cases _ _ _ O) as [(I & _)|(_ & _ & X & Y & _)]; [lia|]. rewrite G in Y. injection Y as Y. lia.
  - intros b i q' O Q. rewrite (D b i q' O Q), (rd_S _ _ _ E). split; [auto|]. intros [R|R]; [exact R|discriminate].
Qed.
Lemma logic_whole p T q c : logic p T -> nth_error F p = Some (true, q) -> nth_error pmap q = Some (Idx c) -> (extra <= c)%nat -> logic (S p) (push T (fst (tgt c)) (true, snd (tgt c))).
Proof.
  intros [A B C D] E G L. pose proof (tgt_own q c G) as OC. destruct (tgt c) as [b0 i0] eqn:TC. cbn [fst snd] in *. constructor.
  - intros b i I. apply in_push in I as [I|[-> I]].
    + destruct (A b i I) as [A1 A2]. split; [exact A1|]. intros q' O. apply (rd_S _ _ _ E). left. exact (A2 q' O).
    + injection I as ->. split; [exact (proj1 OC)|]. intros q' O. rewrite <- (own_unique _ _ _ _ OC O). apply (rd_S _ _ _ E). right. reflexivity.
  - intros b i I. apply in_push. apply in_push in I as [I|[_ I]]; [left; exact (B b i I)|discriminate].
  - intros b i q' O L' R. apply in_push. apply (rd_S _ _ _ E) in R as [R|R]; [left; exact (C b i q' O L' R)|]. injection R as ->. right. destruct (own_cases _ _ _ O) as [(I & _)|(_ & Q & X & Y & _)]; [lia|]. rewrite G in Y. injection Y as Y. rewrite <- Y, TC in Q. injection Q as -> ->. auto.
  - intros b i q' O Q. rewrite in_push, (D b i q' O Q), (rd_S _ _ _ E). split; (intros [R|R]; [auto|exfalso]); [destruct R as [_ R]; discriminate|discriminate].
Qed.
Lemma logic_main_end p T q c : logic p T -> nth_error F p = Some (false, q) -> nth_error pmap q = Some (Idx c) -> In (true, snd (tgt c)) (T (fst (tgt c))) -> logic (S p) (push T (fst (tgt c)) (false, snd (tgt c))).
Proof.
  intros [A B C D] E G L. pose proof (tgt_own q c G) as OC. destruct (tgt c) as [b0 i0] eqn:TC. cbn [fst snd] in *. assert (CC : code b0 i0 = c) by (destruct OC as [_ X]; rewrite G in X; injection X as X; auto). constructor.
  - intros b i I. apply in_push in I as [I|[_ I]]; [|discriminate]. destruct (A b i I) as [A1 A2]. split; [exact A1|]. intros q' O. apply (rd_S _ _ _ E). left. exact (A2 q' O).
  - intros b i I. apply in_push. left. apply in_push in I as [I|[-> I]]; [exact (B b i I)|]. injection I as ->. exact L.
  - intros b i q' O L' R. apply in_push. left. apply (rd_S _ _ _ E) in R as [R|R]; [exact (C b i q' O L' R)|discriminate].
  - intros b i q' O Q. rewrite in_push, (D b i q' O Q), (rd_S _ _ _ E). split; (intros [R|R]; [auto|right]).
    + destruct R as [-> R]. injection R as ->. rewrite (own_unique _ _ _ _ O OC). reflexivity.
    + injection R as ->. destruct O as [_ O]. rewrite G in O. injection O as O. rewrite <- O, TC in Q. injection Q as -> ->. auto.
Qed.
Lemma logic_heap_start p T q c b : logic p T -> nth_error pmap q = Some (Idx c) -> (c < extra)%nat -> rd p (true, q) -> logic p (push T b (true, c)).
Proof.
  intros [A B C D] G L R0. pose proof (split_own q c b G L) as OC. constructor.
  - intros b' i I. apply in_push in I as [I|[-> I]]; [exact (A b' i I)|]. injection I as ->. split; [exact (proj1 OC)|]. intros q' O. rewrite <- (own_unique _ _ _ _ OC O). exact R0.
  - intros b' i I. apply in_push. apply in_push in I as [I|[_ I]]; [left; exact (B b' i I)|discriminate].
  - intros b' i q' O L' R. apply in_push. left. exact (C b' i q' O L' R).
  - intros b' i q' O Q. rewrite in_push, (D b' i q' O Q). split; [|auto]. intros [R|[_ R]]; [exact R|discriminate].
Qed.
Lemma tgt_split c : (c < extra)%nat -> tgt c = (late c, c).
Proof. intros L. unfold tgt. apply Nat.ltb_lt in L. rewrite L. reflexivity. Qed.
Lemma code_split b c : (c < extra)%nat -> code b c = c.
Proof. intros L. unfold code. apply Nat.ltb_lt in L. rewrite L. destruct b; reflexivity. Qed.
Lemma logic_heap_end p T c : logic p T -> (c < extra)%nat -> In (true, c) (T (negb (late c))) -> logic p (push T (negb (late c)) (false, c)).
Proof.
  intros [A B C D] L I0. constructor.
  - intros b' i I. apply in_push in I as [I|[_ I]]; [exact (A b' i I)|discriminate].
  - intros b' i I. apply in_push. left. apply in_push in I as [I|[-> I]]; [exact (B b' i I)|]. injection I as ->. exact I0.
  - intros b' i q' O L' R. apply in_push. left. exact (C b' i q' O L' R).
  - intros b' i q' O Q. rewrite in_push, (D b' i q' O Q). split; [|auto]. intros [R|[-> R]]; [exact R|]. injection R as ->. rewrite (code_split _ _ L), (tgt_split _ L) in Q. injection Q as Q. destruct (late c); discriminate.
Qed.

(** ** The event points of the parent *)
Definition mref_ok (p : nat) (T : bool -> list tok) (q : nat) (r : mref) : Prop :=
  (~ rd p (true, q) -> r = Val q) /\
  (rd p (true, q) -> match nth_error pmap q with
    | Some (Idx c) => (forall k, nth_error (T (fst (tgt c))) k = Some (true, snd (tgt c)) -> r = Val (enc (fst (tgt c)) k)) /\ (~ In (true, snd (tgt c)) (T (fst (tgt c))) -> r = Waiting)
    | _ => r = Skipped end).
Record mainI (p : nat) (T : bool -> list tok) (M : list mainev) : Prop := MainI {
  mi_len : length M = (n * 2)%nat;
  mi_start : forall k q, nth_error F k = Some (true, q) -> exists e f g, nth_error evs k = Some g /\ f = ev_new g /\ nth_error F e = Some (false, q) /\ nth_error M k = Some (MV f true (Val e));
  mi_end : forall k q, nth_error F k = Some (false, q) -> exists r f g, nth_error evs k = Some g /\ f = ev_new g /\ nth_error M k = Some (MV f false r) /\ mref_ok p T q r }.
Lemma main_init : mainI 0 (fun _ => []) (map main_of evs).
Proof.
  constructor.
  - rewrite map_length, (Forall2_length AR), (toks_length _ _ _ _ TK). lia.
  - intros k q E. destruct (F2_nth_r AR k _ E) as (g & G & [G1 G2]). cbn [fst snd] in *. rewrite <- G1 in G2. destruct G2 as (f & H1 & H2 & H3). destruct (F2_nth_l AR _ _ H1) as ([s j] & J1 & [J2 J3]). cbn [fst snd] in *. rewrite H2 in J2, J3. subst s. exists (ev_index g), (ev_new g), g. split; [exact G|]. split; [reflexivity|]. split; [rewrite J1; congruence|]. rewrite nth_error_map, G. cbn [option_map]. unfold main_of. rewrite <- G1. reflexivity.
  - intros k q E. destruct (F2_nth_r AR k _ E) as (g & G & [G1 G2]). cbn [fst snd] in *. rewrite <- G1 in G2. exists (Val q), (ev_new g), g. split; [exact G|]. split; [reflexivity|]. split; [rewrite nth_error_map, G; cbn [option_map]; unfold main_of; rewrite <- G1, G2; reflexivity|]. split; [reflexivity|]. intros R. unfold rd in R. destruct R.
Qed.
(** Only the entry of polygon q changes. *)
Lemma main_keep p T p' T' M : mainI p T M -> (forall q r, mref_ok p T q r -> mref_ok p' T' q r) -> mainI p' T' M.
Proof. intros [A B C] H. constructor; [exact A|exact B|]. intros k q E. destruct (C k q E) as (r & f & g & X1 & X2 & X3 & X4). exists r, f, g. auto. Qed.
Lemma main_set p T p' T' M q e r0 : mainI p T M -> nth_error F e = Some (false, q) -> (forall q' r, q' <> q -> mref_ok p T q' r -> mref_ok p' T' q' r) -> mref_ok p' T' q r0 ->
  exists M', set_main M e r0 = Ok M' /\ mainI p' T' M'.
Proof.
  intros [A B C] E H R. destruct (C e q E) as (r & f & g & X1 & X2 & X3 & X4). unfold set_main. rewrite (get_ok _ _ _ X3). cbn [rbind v_new v_start]. pose proof (lt_of_nth _ _ _ X3) as L. rewrite (put_ok _ _ _ L). eexists. split; [reflexivity|]. constructor.
  - rewrite upd_length by exact L. exact A.
  - intros k q' K. destruct (B k q' K) as (e' & f' & g' & Y1 & Y2 & Y3 & Y4). exists e', f', g'. rewrite upd_nth by exact L. destruct (Nat.eqb_spec k e) as [->|N]; [congruence|auto].
  - intros k q' K. rewrite upd_nth by exact L. destruct (Nat.eqb_spec k e) as [->|N].
    + rewrite E in K. injection K as <-. exists r0, f, g. auto.
    + destruct (C k q' K) as (r' & f' & g' & Y1 & Y2 & Y3 & Y4). exists r', f', g'. repeat (split; [assumption|]). apply H; [|exact Y4]. intros ->. apply N. exact (NoDup_nth (t_nodup _ _ _ _ TK) _ _ _ K E).
Qed.
Lemma mref_read p T q r u : nth_error F p = Some u -> u <> (true, q) -> mref_ok p T q r -> mref_ok (S p) T q r.
Proof.
  intros E N [A B]. split.
  - intros R. apply A. intros X. apply R, (rd_S _ _ _ E). left. exact X.
  - intros R. apply B. apply (rd_S _ _ _ E) in R as [R|R]; [exact R|congruence].
Qed.
Lemma mref_push p T q r b t : (forall c, nth_error pmap q = Some (Idx c) -> fst (tgt c) = b -> t <> (true, snd (tgt c))) -> mref_ok p T q r -> mref_ok p (push T b t) q r.
Proof.
  intros N [A B]. split; [exact A|]. intros R. specialize (B R). destruct (nth_error pmap q) as [[c|]|]; try exact B. specialize (N c eq_refl). destruct B as [B1 B2]. split.
  - intros k K. apply nth_push in K as [K|(X & _ & Y)]; [exact (B1 k K)|]. exfalso. exact (N X (eq_sym Y)).
  - intros I. apply B2. intros X. apply I, in_push. left. exact X.
Qed.

(** ** The heap *)
Inductive heap_el (p : nat) (T : bool -> list tok) : mevent -> Prop :=
| HLate q c e : nth_error pmap q = Some (Idx c) -> (c < extra)%nat -> rd p (true, q) -> ~ In (true, c) (T (late c)) -> nth_error F e = Some (false, q) -> heap_el p T (ME true (late c) c (Some e))
| HEarly q c : nth_error pmap q = Some (Idx c) -> (c < extra)%nat -> rd p (true, q) -> ~ In (true, c) (T (negb (late c))) -> heap_el p T (ME true (negb (late c)) c None)
| HOpen q c k : nth_error pmap q = Some (Idx c) -> (c < extra)%nat -> rd p (true, q) -> nth_error (T (negb (late c))) k = Some (true, c) -> ~ In (false, c) (T (negb (late c))) -> heap_el p T (ME false (negb (late c)) c (Some k)).
Record heapI (p : nat) (T : bool -> list tok) (H : list mevent) : Prop := HeapI {
  hp_el : forall h, In h H <-> heap_el p T h;
  hp_once : NoDup (map hid H) }.
Lemma heap_perm p T H H' : Permutation H H' -> heapI p T H -> heapI p T H'.
Proof.
  intros P [A B]. split.
  - intros h. rewrite <- A. split; apply Permutation_in; [apply Permutation_sym, P|exact P].
  - apply (Permutation_NoDup (l := map hid H)); [apply Permutation_map, P|exact B].
Qed.
Lemma el_lt p T h : heap_el p T h -> (m_poly h < extra)%nat.
Proof. intros []; assumption. Qed.
Lemma el_read p T h u : nth_error F p = Some u -> (forall q c, u = (true, q) -> nth_error pmap q = Some (Idx c) -> (extra <= c)%nat) -> heap_el p T h <-> heap_el (S p) T h.
Proof.
  intros E N. assert (R : forall q c, nth_error pmap q = Some (Idx c) -> (c < extra)%nat -> rd (S p) (true, q) -> rd p (true, q)).
  { intros q c X Y Z. apply (rd_S _ _ _ E) in Z as [Z|Z]; [exact Z|]. specialize (N q c (eq_sym Z) X). lia. }
  assert (R' : forall t, rd p t -> rd (S p) t) by (intros t X; apply (rd_S _ _ _ E); left; exact X).
  split; intros []; [apply (HLate _ _ q)|apply (HEarly _ _ q)|apply (HOpen _ _ q)|apply (HLate _ _ q)|apply (HEarly _ _ q)|apply (HOpen _ _ q)]; eauto.
Qed.
Lemma el_push p T h b s i : hid h <> (b, i) -> heap_el p T h <-> heap_el p (push T b (s, i)) h.
Proof.
  intros N. assert (IN : forall b' c, (b', c) <> (b, i) -> forall s', In (s', c) (push T b (s, i) b') <-> In (s', c) (T b')).
  { intros b' c X s'. rewrite in_push. split; [|auto]. intros [Y|[-> Y]]; [exact Y|]. injection Y as -> ->. congruence. }
  unfold hid in N. split; intros X; revert N; destruct X; cbn [m_pos m_poly]; intros N.
  - apply (HLate _ _ q); try assumption. rewrite IN by exact N. assumption.
  - apply (HEarly _ _ q); try assumption. rewrite IN by exact N. assumption.
  - apply (HOpen _ _ q); try assumption; [apply nth_push; left; assumption|]. rewrite IN by exact N. assumption.
  - apply (HLate _ _ q); try assumption. rewrite IN in H2 by exact N. assumption.
  - apply (HEarly _ _ q); try assumption. rewrite IN in H2 by exact N. assumption.
  - apply (HOpen _ _ q); try assumption; [apply nth_push in H2 as [H2|(X & _ & Y)]; [exact H2|]|rewrite IN in H3 by exact N; exact H3]. injection Y as _ Y. subst. congruence.
Qed.
Lemma in_tail p T h0 l h : heapI p T (h0 :: l) -> In h l <-> In h (h0 :: l) /\ hid h <> hid h0.
Proof.
  intros [_ N]. cbn [map] in N. inversion N as [|? ? N1 N2]; subst. split.
  - intros I. split; [right; exact I|]. intros E. apply N1. rewrite <- E. apply in_map, I.
  - intros [[->|I] X]; [congruence|exact I].
Qed.
Lemma tail_once p T h0 l : heapI p T (h0 :: l) -> NoDup (map hid l).
Proof. intros [_ N]. cbn [map] in N. inversion N; assumption. Qed.
(** Elements are removed, T grows. *)
Lemma heap_pop p T h0 l s : heapI p T (h0 :: l) -> (forall h, heap_el p (push T (m_pos h0) (s, m_poly h0)) h -> hid h <> hid h0) -> heapI p (push T (m_pos h0) (s, m_poly h0)) l.
Proof.
  intros I N. split; [|exact (tail_once _ _ _ _ I)]. intros h. rewrite (in_tail _ _ _ _ h I), (hp_el _ _ _ I). split.
  - intros [E X]. apply el_push; assumption.
  - intros E. split; [apply (el_push _ _ _ (m_pos h0) s (m_poly h0)); [exact (N h E)|exact E]|exact (N h E)].
Qed.
Lemma heap_end p T c k l : heapI p T (ME false (negb (late c)) c (Some k) :: l) -> heapI p (push T (negb (late c)) (false, c)) l.
Proof.
  intros I. apply (heap_pop p T (ME false (negb (late c)) c (Some k)) l false I). cbn [m_pos m_poly]. unfold hid. cbn [m_pos m_poly].
  assert (K : In (true, c) (T (negb (late c)))). { pose proof (proj1 (hp_el _ _ _ I _) (or_introl eq_refl)) as E. inversion E as [q1 c1 e1 A1 A2 A3 A4 A5 HE|q2 c2 A1 A2 A3 A4 HE|q3 c3 k3 A1 A2 A3 A4 A5 HE]. subst. exact (nth_error_In _ _ A4). }
  intros h []; cbn [m_pos m_poly]; intros X; injection X as X Y; subst c0.
  - destruct (late c); discriminate.
  - apply H2. apply in_push. left. exact K.
  - apply H3. apply in_push. right. auto.
Qed.
Lemma heap_late p T c e l : heapI p T (ME true (late c) c (Some e) :: l) -> heapI p (push T (late c) (true, c)) l.
Proof.
  intros I. apply (heap_pop p T (ME true (late c) c (Some e)) l true I). cbn [m_pos m_poly]. unfold hid. cbn [m_pos m_poly].
  intros h []; cbn [m_pos m_poly]; intros X; injection X as X Y; subst c0.
  - apply H2. apply in_push. right. auto.
  - destruct (late c); discriminate.
  - destruct (late c); discriminate.
Qed.
Lemma heap_early p T c l : logic p T -> heapI p T (ME true (negb (late c)) c None :: l) -> heapI p (push T (negb (late c)) (true, c)) (l ++ [ME false (negb (late c)) c (Some (length (T (negb (late c)))))]).
Proof.
  intros LG I. set (b := negb (late c)). pose proof (proj1 (hp_el _ _ _ I _) (or_introl eq_refl)) as E0.
  assert (X : exists q, nth_error pmap q = Some (Idx c) /\ (c < extra)%nat /\ rd p (true, q) /\ ~ In (true, c) (T b)).
  { inversion E0 as [q1 c1 e1 A1 A2 A3 A4 A5 HE|q2 c2 A1 A2 A3 A4 HE|q3 c3 k3 A1 A2 A3 A4 A5 HE]; subst; eauto. }
  destruct X as (q0 & A1 & A2 & A3 & A4). assert (LB : late c <> b) by (unfold b; destruct (late c); discriminate). split.
  - intros h. rewrite in_app_iff. cbn [In]. rewrite (in_tail _ _ _ _ h I), (hp_el _ _ _ I). split.
    + intros [[E X]|[<-|[]]]; [apply el_push; assumption|]. apply (HOpen _ _ q0); try assumption; [fold b; rewrite push_same; apply nth_end|]. fold b. intros Y. apply in_push in Y as [Y|[_ Y]]; [|discriminate]. exact (A4 (lg_end _ _ LG _ _ Y)).
    + intros E. destruct (bool_dec (m_pos h) b) as [H1|H1]; [destruct (Nat.eq_dec (m_poly h) c) as [H2|H2]|].
      * right. left. destruct E as [q c' e B1 B2 B3 B4 B5|q c' B1 B2 B3 B4|q c' k B1 B2 B3 B4 B5]; cbn [m_pos m_poly] in H1, H2; subst c'; [congruence| |].
        { exfalso. apply B4. apply in_push. right. auto. }
        { fold b in B4 |- *. apply nth_push in B4 as [B4|(_ & -> & _)]; [exfalso; exact (A4 (nth_error_In _ _ B4))|reflexivity]. }
      * left. assert (N : hid h <> (b, c)) by (unfold hid; congruence). split; [apply (el_push _ _ _ b true c); assumption|exact N].
      * left. assert (N : hid h <> (b, c)) by (unfold hid; congruence). split; [apply (el_push _ _ _ b true c); assumption|exact N].
  - rewrite map_app. cbn [map]. apply NoDup_join; [exact (tail_once _ _ _ _ I)|repeat constructor; intros []|]. intros x J [<-|[]]. apply in_map_iff in J as (h & H1 & H2). apply (in_tail _ _ _ _ h I) in H2 as [_ H2]. apply H2. exact H1.
Qed.
Lemma heap_skip p T H u : heapI p T H -> nth_error F p = Some u -> (forall q c, u = (true, q) -> nth_error pmap q = Some (Idx c) -> (extra <= c)%nat) -> heapI (S p) T H.
Proof. intros [A B] E N. split; [|exact B]. intros h. rewrite A. apply (el_read _ _ _ _ E N). Qed.
Lemma heap_push p T H b s i : heapI p T H -> (forall h, heap_el p T h -> hid h <> (b, i)) -> (forall h, heap_el p (push T b (s, i)) h -> hid h <> (b, i)) -> heapI p (push T b (s, i)) H.
Proof.
  intros [A B] N1 N2. split; [|exact B]. intros h. rewrite A. split; intros E.
  - apply el_push; [exact (N1 h E)|exact E].
  - apply (el_push _ _ _ b s i); [exact (N2 h E)|exact E].
Qed.
(** Both parts of a polygon are added. *)
Lemma heap_split p T H q c e : logic p T -> heapI p T H -> nth_error F p = Some (true, q) -> nth_error pmap q = Some (Idx c) -> (c < extra)%nat -> nth_error F e = Some (false, q) ->
  heapI (S p) T (H ++ [ME true false c (if late c then None else Some e); ME true true c (if late c then Some e else None)]).
Proof.
  intros LG [A B] E M L EE.
  assert (NR : ~ rd p (true, q)) by (apply rd_new; exact E).
  assert (NT : forall b, ~ In (true, c) (T b)) by (intros b I; destruct (lg_start _ _ LG b c I) as [_ X]; exact (NR (X q (split_own q c b M L)))).
  assert (R' : forall t, rd p t -> rd (S p) t) by (intros t X; apply (rd_S _ _ _ E); left; exact X).
  assert (RQ : rd (S p) (true, q)) by (apply (rd_S _ _ _ E); right; reflexivity).
  assert (TWO : In (ME true (late c) c (Some e)) [ME true false c (if late c then None else Some e); ME true true c (if late c then Some e else None)] /\ In (ME true (negb (late c)) c None) [ME true false c (if late c then None else Some e); ME true true c (if late c then Some e else None)]).
  { destruct (late c); cbn [negb In]; auto. }
  assert (UQ : forall q' c', nth_error pmap q' = Some (Idx c') -> (true, q') = (true, q) -> c' = c) by (intros q' c' X Y; injection Y as ->; congruence).
  split.
  - intros h. rewrite in_app_iff, A. split.
    + intros [X|X].
      * destruct X; [apply (HLate _ _ q0)|apply (HEarly _ _ q0)|apply (HOpen _ _ q0)]; auto.
      * assert (X' : h = ME true (late c) c (Some e) \/ h = ME true (negb (late c)) c None) by (destruct (late c); cbn [negb In] in *; intuition). destruct X' as [->| ->]; [apply (HLate _ _ q)|apply (HEarly _ _ q)]; auto.
    + intros X. destruct X as [q' c' e' B1 B2 B3 B4 B5|q' c' B1 B2 B3 B4|q' c' k B1 B2 B3 B4 B5]; apply (rd_S _ _ _ E) in B3 as [B3|B3].
      * left. apply (HLate _ _ q'); assumption.
      * right. pose proof (UQ _ _ B1 B3). injection B3 as ->. subst c'. rewrite (NoDup_nth (t_nodup _ _ _ _ TK) _ _ _ B5 EE). apply TWO.
      * left. apply (HEarly _ _ q'); assumption.
      * right. pose proof (UQ _ _ B1 B3). subst c'. apply TWO.
      * left. apply (HOpen _ _ q'); assumption.
      * exfalso. pose proof (UQ _ _ B1 B3). subst c'. exact (NT _ (nth_error_In _ _ B4)).
  - rewrite map_app. apply NoDup_join; [exact B| |].
    + cbn [map]. unfold hid. cbn [m_pos m_poly]. repeat constructor; cbn [In]; intros X; [destruct X as [X|[]]; discriminate|destruct X].
    + intros x J K. apply in_map_iff in J as (h & <- & H2). apply A in H2. assert (HC : m_poly h = c) by (cbn [map] in K; unfold hid in K; cbn [m_pos m_poly In] in K; destruct K as [K|[K|[]]]; injection K; auto).
      destruct H2 as [q' c' e' B1 B2 B3 B4 B5|q' c' B1 B2 B3 B4|q' c' k B1 B2 B3 B4 B5]; cbn [m_poly] in HC; subst c'; apply NR; rewrite (ca_once _ _ _ _ _ _ CA q q' c M B1); exact B3.
Qed.
Lemma heap_size p T H : heapI p T H -> (length H <= extra * 2)%nat.
Proof.
  intros [A B]. assert (Y : incl (map hid H) (list_prod [false; true] (seq 0 extra))).
  { intros x J. apply in_map_iff in J as (h & <- & J). apply A in J. pose proof (el_lt _ _ _ J) as L. unfold hid. apply in_prod; [destruct (m_pos h); cbn [In]; auto|apply in_seq; lia]. }
  apply (NoDup_incl_length B) in Y. rewrite map_length, prod_length, seq_length in Y. cbn [length] in Y. lia.
Qed.
End Core.
(** The polygons and arrays are known from the hypotheses. *)
Arguments lg_start {d negs poss extra pmap F p T}.
Arguments lg_end {d negs poss extra pmap F p T}.
Arguments lg_whole {d negs poss extra pmap F p T}.
Arguments lg_tgt {d negs poss extra pmap F p T}.
Arguments mi_len {d ps negs poss extra pmap evs F p T M}.
Arguments mi_start {d ps negs poss extra pmap evs F p T M}.
Arguments mi_end {d ps negs poss extra pmap evs F p T M}.
Arguments hp_el {d negs poss extra pmap F p T H}.
Arguments hp_once {d negs poss extra pmap F p T H}.
Arguments own_exists {d} {ps} {negs} {poss} {extra} {pmap} CA b i _.
Arguments own_unique {d} {ps} {negs} {poss} {extra} {pmap} CA b i q q' _ _.
Arguments pmap_lt {d} {ps} {negs} {poss} {extra} {pmap} CA q r _.
Arguments tgt_own {d} {ps} {negs} {poss} {extra} {pmap} CA q c _.
Arguments split_own {d} {ps} {negs} {poss} {extra} {pmap} CA q c b _ _.
Arguments own_cases {d} {ps} {negs} {poss} {extra} {pmap} CA b i q _.
Arguments split_parts {d} {ps} {negs} {poss} {extra} {pmap} CA q c _ _.
Arguments kid_wide {d} {ps} {negs} {poss} {extra} {pmap} CA WIDE b i _.
Arguments kid_range {d} {ps} {negs} {poss} {extra} {pmap} CA b i q _.
Arguments tgt_hi {d} {ps} {negs} {poss} {extra} {pmap} CA q c _.
Arguments rd_S {F} p u t _.
Arguments rd_new {d} {ps} {F} TK p u _ _.
Arguments rd_start {d} {ps} {F} TK p q _.
Arguments rd_all {d} {ps} {F} TK t _.
Arguments rd_iff {F} p t.
Arguments logic_border {d} {negs} {poss} {extra} {pmap} {F} p T s q _ _ _.
Arguments logic_split {d} {ps} {negs} {poss} {extra} {pmap} CA {F} p T q c _ _ _ _.
Arguments logic_whole {d} {ps} {negs} {poss} {extra} {pmap} CA {F} p T q c _ _ _ _.
Arguments logic_main_end {d} {ps} {negs} {poss} {extra} {pmap} CA {F} p T q c _ _ _ _.
Arguments logic_heap_start {d} {ps} {negs} {poss} {extra} {pmap} CA {F} p T q c b _ _ _ _.
Arguments tgt_split {d} {negs} {poss} {extra} c _.
Arguments code_split {negs} {extra} b c _.
Arguments logic_heap_end {d} {negs} {poss} {extra} {pmap} {F} p T c _ _ _.
Arguments main_init {d} {ps} {negs} {poss} {extra} {pmap} {evs} {F} AR TK.
Arguments main_keep {d} {ps} {negs} {poss} {extra} {pmap} {evs} {F} p T p' T' M _ _.
Arguments main_set {d} {ps} {negs} {poss} {extra} {pmap} {evs} {F} TK p T p' T' M q e r0 _ _ _ _.
Arguments mref_read {d} {negs} {poss} {extra} {pmap} {F} p T q r u _ _ _.
Arguments mref_push {d} {negs} {poss} {extra} {pmap} {F} p T q r b t _ _.
Arguments heap_perm {d} {negs} {poss} {extra} {pmap} {F} p T H H' _ _.
Arguments el_lt {d} {negs} {poss} {extra} {pmap} {F} p T h _.
Arguments el_read {d} {negs} {poss} {extra} {pmap} {F} p T h u _ _.
Arguments el_push {d} {negs} {poss} {extra} {pmap} {F} p T h b s i _.
Arguments in_tail {d} {negs} {poss} {extra} {pmap} {F} p T h0 l h _.
Arguments tail_once {d} {negs} {poss} {extra} {pmap} {F} p T h0 l _.
Arguments heap_pop {d} {negs} {poss} {extra} {pmap} {F} p T h0 l s _ _.
Arguments heap_end {d} {negs} {poss} {extra} {pmap} {F} p T c k l _.
Arguments heap_late {d} {negs} {poss} {extra} {pmap} {F} p T c e l _.
Arguments heap_early {d} {negs} {poss} {extra} {pmap} {F} p T c l _ _.
Arguments heap_skip {d} {negs} {poss} {extra} {pmap} {F} p T H u _ _ _.
Arguments heap_push {d} {negs} {poss} {extra} {pmap} {F} p T H b s i _ _ _.
Arguments heap_split {d} {ps} {negs} {poss} {extra} {pmap} CA {F} TK p T H q c e _ _ _ _ _ _.
Arguments heap_size {d} {negs} {poss} {extra} {pmap} {F} p T H _.
