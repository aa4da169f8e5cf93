(** ApplyPrimary: one step of the loop. *)
From Coq Require Import List ZArith QArith Arith Lia Lqa Bool Sorted.
From Verif Require Import BigUIntModel GeoModel GeoSpec EvtModel EvtSpec EvtTokProofs EvtProofs EvtArrProofs PrimModel PrimProofs PrimTokProofs PrimInvProofs PrimNegProofs.
Import ListNotations.
Open Scope Q_scope.

Section Step.
Context {P : Type} (O : pops P) (dbg : bool) (h : hspace3) (ps : list P) (p : part).
Notation n := (length ps).
Context (lo hi : nat -> Q) (x : Q) (W : forall i, (i < n)%nat -> lo i <= hi i) (F : list tok) (T : toks_ok n lo hi F)
  (evs : list event) (AR : Forall2 (tok_of (nth_error evs)) evs F).
Notation key := (key lo hi). Notation keyP := (keyP lo hi x). Notation inN := (inN lo x). Notation inP := (inP hi x). Notation kN := (kN lo hi x). Notation kP := (kP hi x).
Notation BO := (BO lo hi x). Notation NO := (NO lo hi x). Notation PO := (PO lo hi x).
Notation NN := (length (BO F ++ NO F)).
Context (FL : forall k a, nth_error evs k = Some a -> (ev_new a = true <-> k = 0%nat \/ exists j t u, k = S j /\ nth_error F j = Some t /\ nth_error F k = Some u /\ key t < key u))
  (HB : forall k t, nth_error F k = Some t -> ((k < p_begin p)%nat <-> key t < x))
  (HE : forall k t, nth_error F k = Some t -> ((k < p_end p)%nat <-> key t <= x))
  (BX : (p_begin p < p_end p)%nat)
  (CN : neg_count p = NN) (CE : extra ps p = length (BO F))
  (HC : forall q r, nth_error ps q = Some r -> (hs_compare h (e_max (o_view O r)) <=? 0)%Z = negb (inP q))
  (SPL : forall q r, nth_error ps q = Some r -> both lo hi x q = true -> exists c, o_split O r = Ok c)
  (TNE : forall q r, nth_error ps q = Some r -> nonly lo hi x q = true -> x <= hi q -> exists a, o_touch O false r = Ok a)
  (TPO : forall q r, nth_error ps q = Some r -> ponly lo hi x q = true -> lo q <= x -> exists a, o_touch O true r = Ok a)
  (TBO : forall q r, nth_error ps q = Some r -> bord lo hi x q = true -> exists a, o_border O (o_down O r) r = Ok a).

Definition down (q : nat) : bool := match nth_error ps q with Some r => o_down O r | None => false end.
Definition neg_part (q : nat) (a : P) : Prop := exists r c, nth_error ps q = Some r /\ o_split O r = Ok c /\ a = fst c.
Definition pos_part (q : nat) (a : P) : Prop := exists r c, nth_error ps q = Some r /\ o_split O r = Ok c /\ a = snd c.
Definition neg_whole (q : nat) (a : P) : Prop := exists r, nth_error ps q = Some r /\ (if Qle_bool x (hi q) then o_touch O false r else Ok r) = Ok a.
Definition pos_whole (q : nat) (a : P) : Prop := exists r, nth_error ps q = Some r /\ (if Qle_bool (lo q) x then o_touch O true r else Ok r) = Ok a.
Definition on_plane (b : bool) (q : nat) (a : P) : Prop := exists r, nth_error ps q = Some r /\ o_border O b r = Ok a.
Definition DN (L : list tok) := filter (fun q => bord lo hi x q && negb (down q)) (starts L).
Definition DP (L : list tok) := filter (fun q => bord lo hi x q && down q) (starts L).
Definition mapref (q : nat) (rr : ref) : Prop :=
  if inN q then exists c, rr = Idx c /\ nth_error (BO F ++ NO F) c = Some q
  else if inP q then exists c, rr = Idx (c + NN) /\ nth_error (BO F ++ PO F) c = Some q
  else rr = Gone.
Definition mapI (L : list tok) (m : list (option ref)) : Prop := length m = n /\ forall q, In (true, q) L -> exists rr, nth_error m q = Some (Some rr) /\ mapref q rr.
Definition listI (part whole : nat -> P -> Prop) (B C : list nat) (l : list (option P)) : Prop :=
  exists a c, l = map Some a ++ repeat None (length (BO F) - length B) ++ map Some c /\ Forall2 part B a /\ Forall2 whole C c /\ (length B <= length (BO F))%nat.
Record inv0 (L : list tok) (tb : Prop) (s : pstate P) : Prop := Inv0 {
  z_ev : evI lo hi x F evs L (s_ev s);
  z_neg : negI lo hi x F L tb (s_neg s);
  z_map : mapI L (s_map s);
  z_negs : listI neg_part neg_whole (BO L) (NO L) (s_negs s);
  z_poss : listI pos_part pos_whole (BO L) (PO L) (s_poss s);
  z_nb : Forall2 (on_plane false) (DN L) (s_nb s);
  z_pb : Forall2 (on_plane true) (DP L) (s_pb s);
  z_extra : s_extra s = length (BO L);
  z_nu : s_nu s = length (filter kN L);
  z_pu : s_pu s = length (filter kP L) }.
Definition nn (L : list tok) (b : bool) (y : Q) : Prop := b = true <-> forall w, In w (filter kN L) -> key w < y.
Definition pn (L : list tok) (b : bool) (y : Q) : Prop := b = true <-> forall w, In w (filter kP L) -> keyP w < y.
Record inv (L : list tok) (s : pstate P) : Prop := Inv {
  z_0 : inv0 L (p_begin p < length L)%nat s;
  z_nn : forall L' u, L = L' ++ [u] -> nn L (s_nn s) (key u);
  z_pn : forall L' u, L = L' ++ [u] -> (p_begin p < length L)%nat -> pn L (s_pn s) (key u);
  z_pn0 : (length L <= p_begin p)%nat -> s_pn s = true }.
Record mid (L : list tok) (t : tok) (s : pstate P) : Prop := Mid {
  y_0 : inv0 L (p_begin p <= length L)%nat s;
  y_nn : nn L (s_nn s) (key t);
  y_pn : (p_begin p <= length L)%nat -> pn L (s_pn s) (key t);
  y_pn0 : (length L < p_begin p)%nat -> s_pn s = true }.

(** ** Lists of polygons *)
Lemma F2_snoc {A B} (R : A -> B -> Prop) l l' a b : Forall2 R l l' -> R a b -> Forall2 R (l ++ [a]) (l' ++ [b]).
Proof. intros H X. apply Forall2_app; [exact H|constructor; [exact X|constructor]]. Qed.
Lemma list_len part whole B C l : listI part whole B C l -> length l = (length (BO F) + length C)%nat.
Proof. intros (a & c & -> & H1 & H2 & H3). rewrite !app_length, !map_length, repeat_length, <- (Forall2_length H1), <- (Forall2_length H2). lia. Qed.
Lemma list_whole (part whole : nat -> P -> Prop) B C l q r : listI part whole B C l -> whole q r -> listI part whole B (C ++ [q]) (l ++ [Some r]).
Proof.
  intros (a & c & -> & H1 & H2 & H3) X. exists a, (c ++ [r]). split; [rewrite map_app, <- !app_assoc; reflexivity|]. split; [exact H1|]. split; [apply F2_snoc; assumption|exact H3].
Qed.
Lemma list_part (part whole : nat -> P -> Prop) B C l q r : listI part whole B C l -> part q r -> (length B < length (BO F))%nat -> exists l', put l (length B) (Some r) = Ok l' /\ listI part whole (B ++ [q]) C l'.
Proof.
  intros H X LT. pose proof (list_len _ _ _ _ _ H) as LL. destruct H as (a & c & -> & H1 & H2 & H3). rewrite put_ok by lia. eexists. split; [reflexivity|]. exists (a ++ [r]), c. rewrite app_length. cbn [length]. split; [|split; [apply F2_snoc; assumption|split; [exact H2|lia]]].
  rewrite (Forall2_length H1) in *. unfold upd. rewrite firstn_app, map_length, Nat.sub_diag. cbn [firstn]. rewrite app_nil_r, firstn_all2 by (rewrite map_length; lia). rewrite map_app, <- app_assoc. f_equal. cbn [map app]. f_equal. rewrite skipn_app, skipn_all2 by (rewrite map_length; lia). rewrite map_length. cbn [app]. replace (S (length a) - length a)%nat with 1%nat by lia. destruct (length (BO F) - length a)%nat as [|k] eqn:K; [lia|]. cbn [repeat app skipn]. f_equal. f_equal. lia.
Qed.

(** ** Facts about the event *)
Lemma old_t (L : list tok) t (R : list tok) : F = L ++ t :: R -> nth_error F (length L) = Some t.
Proof. intros E. rewrite E. apply nth_end. Qed.
Lemma begin_lt L t R : F = L ++ t :: R -> ((length L < p_begin p)%nat <-> key t < x).
Proof. intros E. apply HB. exact (old_t L t R E). Qed.
Lemma keyP_early w : kP w = true -> key w < x -> keyP w = x.
Proof.
  unfold PrimTokProofs.kP, PrimTokProofs.keyP, EvtTokProofs.key. destruct w as [[|] q]; cbn [fst snd]; intros K X; [|apply inP_iff in K; lra]. unfold loP. rewrite (proj2 (inN_iff lo x q) X). reflexivity.
Qed.
Lemma keyP_late w : x <= key w -> keyP w = key w.
Proof.
  unfold PrimTokProofs.keyP, EvtTokProofs.key. destruct w as [[|] q]; cbn [fst snd]; intros X; [|reflexivity]. unfold loP. rewrite (proj2 (inN_false lo x q) X). reflexivity.
Qed.
Lemma early_BO (L : list tok) : (forall t, In t L -> key t < x) -> filter kP L = map (pair true) (BO L).
Proof.
  induction L as [|[s q] L IH]; intros H; [reflexivity|]. assert (X : key (s, q) < x) by (apply H; left; reflexivity). specialize (IH (fun t I => H t (or_intror I))). unfold PrimTokProofs.BO, starts in *. cbn [filter fst]. unfold EvtTokProofs.key in X. cbn [fst snd] in X. unfold PrimTokProofs.kP at 1. cbn [snd].
  destruct s; cbn [map snd filter].
  - unfold PrimTokProofs.both at 1. rewrite (proj2 (inN_iff lo x q) X). cbn [andb]. destruct (inP q); cbn [map]; rewrite IH; reflexivity.
  - replace (inP q) with false; [exact IH|]. symmetry. apply inP_false. lra.
Qed.
Lemma early (L : list tok) t (R : list tok) : F = L ++ t :: R -> (length L <= p_begin p)%nat -> forall w, In w L -> key w < x.
Proof.
  intros E LE w I. apply In_nth_error in I. destruct I as (k & K). pose proof (lt_of_nth _ _ _ K) as B. apply (HB k); [rewrite E; apply nth_prefix; exact K|lia].
Qed.
Lemma pn_early (L : list tok) t (R : list tok) y : F = L ++ t :: R -> (length L <= p_begin p)%nat -> y == x -> pn L (length (BO L) =? 0)%nat y.
Proof.
  intros E LE Y. unfold pn. pose proof (early L t R E LE) as EA. rewrite (early_BO L EA). rewrite Nat.eqb_eq. split.
  - intros Z w I. apply length_zero_iff_nil in Z. rewrite Z in I. destruct I.
  - intros H. destruct (BO L) as [|q l] eqn:Q; [reflexivity|]. exfalso. assert (I : In (true, q) (filter kP L)) by (rewrite (early_BO L EA), Q; left; reflexivity). specialize (H (true, q) (or_introl eq_refl)). apply filter_In in I. destruct I as [I K]. rewrite (keyP_early _ K (EA _ I)) in H. lra.
Qed.
(** Only the events before p_begin start polygons on both sides. *)
Lemma BO_late (L R : list tok) : F = L ++ R -> (p_begin p <= length L)%nat -> length (BO L) = length (BO F).
Proof.
  intros E LE. rewrite E, BO_app, app_length. assert (Z : BO R = []); [|rewrite Z; cbn [length]; lia]. assert (H : forall t, In t R -> x <= key t).
  { intros t I. apply In_nth_error in I. destruct I as (k & K). assert (K' : nth_error F (length L + k) = Some t) by (rewrite E, nth_error_app2 by lia; replace (length L + k - length L)%nat with k by lia; exact K). pose proof (HB _ _ K') as X. destruct (Qlt_le_dec (key t) x) as [Y|Y]; [apply X in Y; lia|exact Y]. }
  clear - H. induction R as [|[s q] R IH]; [reflexivity|]. specialize (IH (fun t I => H t (or_intror I))). unfold PrimTokProofs.BO, starts in *. cbn [filter fst]. destruct s; [|exact IH]. cbn [map snd filter]. assert (X : x <= key (true, q)) by (apply H; left; reflexivity). unfold EvtTokProofs.key in X. cbn [fst snd] in X. unfold PrimTokProofs.both at 1. rewrite (proj2 (inN_false lo x q) X). exact IH.
Qed.
Lemma late (L R : list tok) : F = L ++ R -> (p_begin p <= length L)%nat -> forall t, In t R -> x <= key t.
Proof.
  intros E LE t I. apply In_nth_error in I. destruct I as (k & K). assert (K' : nth_error F (length L + k) = Some t) by (rewrite E, nth_error_app2 by lia; replace (length L + k - length L)%nat with k by lia; exact K). pose proof (HB _ _ K') as X. destruct (Qlt_le_dec (key t) x) as [Y|Y]; [apply X in Y; lia|exact Y].
Qed.

(** ** Lines 570-587 *)
Lemma at_ok (L : list tok) t (R : list tok) s e f ss rr : F = L ++ t :: R -> inv L s -> nth_error evs (length L) = Some e -> f = WE (ev_new e) ss rr ->
  exists s', at_location p (length L) f s = Ok s' /\ mid L t s' /\ s_ev s' = s_ev s.
Proof.
  intros E [Z0 ZN ZP ZP0] X ->. unfold at_location. cbn [w_new]. pose proof (FL _ _ X) as NW. pose proof (old_t L t R E) as OT. pose proof (before n lo hi F T L t R E) as BE. destruct (ev_new e) eqn:NE.
  - assert (NNT : forall w, In w L -> key w < key t).
    { destruct (proj1 NW eq_refl) as [Z|(j & a & b & J1 & J2 & J3 & J4)]; [destruct L; [intros w []|discriminate]|]. rewrite OT in J3. injection J3 as <-. intros w I. apply In_nth_error in I. destruct I as (k & K). pose proof (lt_of_nth _ _ _ K) as B. assert (K' : nth_error F k = Some w) by (rewrite E; apply nth_prefix; exact K).
      destruct (Nat.eq_dec k j) as [->|N]; [rewrite J2 in K'; injection K' as <-; exact J4|]. pose proof (proj1 (SS_nth (t_sorted _ _ _ _ T) k j w a ltac:(lia) K' J2)). lra. }
    assert (NNt : nn L true (key t)) by (split; [intros _ w I; apply filter_In in I; apply NNT, I|reflexivity]).
    destruct (Nat.eqb_spec (length L) (p_begin p)) as [EQ|NQ].
    + destruct Z0 as [A1 A2 A3 A4 A5 A6 A7 A8 A9 A10]. rewrite A8, A9, CN. pose proof (BO_late L _ E ltac:(lia)) as BL.
      destruct (neg_flag n lo hi x F T L (t :: R) (p_begin p < length L)%nat (s_neg s) E (early L t R E ltac:(lia)) (late L _ E ltac:(lia)) BL ltac:(lia) A2) as (neg' & U1 & U2). rewrite U1. cbn [rbind]. eexists. split; [reflexivity|]. split; [|reflexivity]. split; cbn [s_ev s_neg s_map s_negs s_poss s_nb s_pb s_extra s_nu s_pu s_nn s_pn].
      * split; cbn [s_ev s_neg s_map s_negs s_poss s_nb s_pb s_extra s_nu s_pu s_nn s_pn]; try assumption; try reflexivity. apply (neg_none lo hi x F L True); [split; [intros _; lia|auto]|exact U2].
      * exact NNt.
      * intros _. apply (pn_early L t R _ E); [lia|]. apply Qle_antisym; [|apply (late L _ E ltac:(lia)); left; reflexivity]. apply (HE (length L) t OT). lia.
      * lia.
    + eexists. split; [reflexivity|]. split; [|reflexivity]. split; cbn [s_ev s_neg s_map s_negs s_poss s_nb s_pb s_extra s_nu s_pu s_nn s_pn].
      * destruct Z0 as [A1 A2 A3 A4 A5 A6 A7 A8 A9 A10]. split; cbn [s_ev s_neg s_map s_negs s_poss s_nb s_pb s_extra s_nu s_pu s_nn s_pn]; try assumption. apply (neg_none lo hi x F L (p_begin p < length L)%nat); [split; lia|exact A2].
      * exact NNt.
      * intros LE. split; [|reflexivity]. intros _ w I. apply filter_In in I. destruct I as [I K]. pose proof (NNT w I) as Y. destruct (Qlt_le_dec (key w) x) as [C|C]; [|rewrite (keyP_late w C); exact Y]. rewrite (keyP_early w K C).
        destruct (nth_error L (p_begin p)) as [u|] eqn:U; [|apply nth_error_None in U; lia]. pose proof (NNT u (nth_error_In _ _ U)) as V. assert (U' : nth_error F (p_begin p) = Some u) by (rewrite E; apply nth_prefix; exact U). destruct (Qlt_le_dec (key u) x) as [Q|Q]; [apply (HB _ _ U') in Q; lia|lra].
      * reflexivity.
  - eexists. split; [reflexivity|]. split; [|reflexivity]. destruct L as [|u0 L0 _] using rev_ind; [exfalso; assert (false = true) by (apply NW; left; reflexivity); discriminate|].
    assert (KE : key u0 == key t). { apply Qle_antisym; [apply BE, in_elt|]. destruct (Qlt_le_dec (key u0) (key t)) as [Y|Y]; [|exact Y]. exfalso. assert (false = true); [|discriminate]. apply NW. right. exists (length L0), u0, t. rewrite len1. split; [reflexivity|]. split; [rewrite E; apply nth_prefix, nth_end|]. split; [rewrite len1 in OT; exact OT|exact Y]. }
    assert (NB : length (L0 ++ [u0]) <> p_begin p). { intros EQ. pose proof (early _ t R E ltac:(lia) u0 (in_elt _ _ _)) as Y. pose proof (late _ _ E ltac:(lia) t (or_introl eq_refl)). lra. }
    split.
    + destruct Z0 as [A1 A2 A3 A4 A5 A6 A7 A8 A9 A10]. split; try assumption. apply (neg_none lo hi x F (L0 ++ [u0]) (p_begin p < length (L0 ++ [u0]))%nat); [split; lia|exact A2].
    + pose proof (ZN L0 u0 eq_refl) as Q. unfold nn in *. rewrite Q. split; intros H w I; specialize (H w I); lra.
    + intros LE. pose proof (ZP L0 u0 eq_refl ltac:(lia)) as Q. unfold pn in *. rewrite Q. split; intros H w I; specialize (H w I); lra.
    + intros LT. apply ZP0. lia.
Qed.

(** ** The other arrays *)
Lemma starts_start L q : starts (L ++ [(true, q)]) = starts L ++ [q].
Proof. rewrite starts_app. reflexivity. Qed.
Lemma starts_end L q : starts (L ++ [(false, q)]) = starts L.
Proof. rewrite starts_app. apply app_nil_r. Qed.
Lemma flt1 (f : nat -> bool) l q : filter f (l ++ [q]) = filter f l ++ if f q then [q] else [].
Proof. rewrite filter_app. cbn [filter]. destruct (f q); reflexivity. Qed.
Lemma map_start L m q rr : mapI L m -> (q < n)%nat -> mapref q rr -> exists m', put m q (Some rr) = Ok m' /\ mapI (L ++ [(true, q)]) m'.
Proof.
  intros [M1 M2] Q R. rewrite put_ok by lia. eexists. split; [reflexivity|]. split; [rewrite upd_length by lia; exact M1|]. intros q' I. rewrite upd_nth by lia. destruct (Nat.eqb_spec q' q) as [->|N]; [exists rr; auto|]. apply M2. apply in_app_or in I. destruct I as [I|[I|[]]]; [exact I|]. injection I as <-. contradiction.
Qed.
Lemma map_end L m q : mapI L m -> mapI (L ++ [(false, q)]) m.
Proof. intros [M1 M2]. split; [exact M1|]. intros q' I. apply M2. apply in_app_or in I. destruct I as [I|[I|[]]]; [exact I|discriminate]. Qed.
Lemma mk_inv (L : list tok) t (R : list tok) s s' : F = L ++ t :: R -> mid L t s -> inv0 (L ++ [t]) (p_begin p <= length L)%nat s' ->
  (kN t = false /\ s_nn s' = s_nn s \/ kN t = true /\ s_nn s' = false) ->
  ((length L < p_begin p)%nat -> s_pn s' = s_pn s) -> ((p_begin p <= length L)%nat -> kP t = false /\ s_pn s' = s_pn s \/ kP t = true /\ s_pn s' = false) -> inv (L ++ [t]) s'.
Proof.
  intros E [Y0 YN YP YP0] Z HN HP0 HP. split.
  - rewrite len1. destruct Z as [A1 A2 A3 A4 A5 A6 A7 A8 A9 A10]. split; try assumption. apply (neg_none lo hi x F _ (p_begin p <= length L)%nat); [split; lia|exact A2].
  - intros L' u Q. apply app_inj_tail in Q. destruct Q as [<- <-]. destruct HN as [[K ->]|[K ->]].
    + unfold nn in *. rewrite flt_no by exact K. exact YN.
    + split; [discriminate|]. intros H. exfalso. rewrite flt_yes in H by exact K. specialize (H t (in_elt _ _ _)). lra.
  - intros L' u Q. apply app_inj_tail in Q. destruct Q as [<- <-]. rewrite len1. intros LE. assert (LE' : (p_begin p <= length L)%nat) by lia. destruct (HP LE') as [[K ->]|[K ->]].
    + specialize (YP LE'). unfold pn in *. rewrite flt_no by exact K. exact YP.
    + split; [discriminate|]. intros H. exfalso. rewrite flt_yes in H by exact K. specialize (H t (in_elt _ _ _)). rewrite (keyP_late t) in H by (apply (late L _ E LE'); left; reflexivity). lra.
  - rewrite len1. intros LE. rewrite HP0 by lia. apply YP0. lia.
Qed.
Lemma Qle_bool_eq a b c d : (a <= b <-> c <= d) -> Qle_bool a b = Qle_bool c d.
Proof. intros H. apply eq_true_iff_eq. rewrite !Qle_bool_iff. exact H. Qed.
Lemma side_start (L : list tok) q (R : list tok) : F = L ++ (true, q) :: R -> (p_begin p <=? length L)%nat = negb (inN q).
Proof.
  intros E. pose proof (begin_lt L _ R E) as H. unfold EvtTokProofs.key in H. cbn [fst snd] in H. rewrite <- inN_iff in H. destruct (Nat.leb_spec (p_begin p) (length L)) as [Q|Q]; [destruct (inN q); [apply proj2 in H; specialize (H eq_refl); lia|reflexivity]|rewrite (proj1 H Q); reflexivity].
Qed.
Lemma side_end k q : nth_error F k = Some (false, q) -> (k <? p_end p)%nat = negb (inP q).
Proof.
  intros E. pose proof (HE k _ E) as H. unfold EvtTokProofs.key in H. cbn [fst snd] in H. rewrite <- inP_false in H. destruct (Nat.ltb_spec k (p_end p)) as [Q|Q]; [rewrite (proj1 H Q); reflexivity|]. destruct (inP q); [reflexivity|]. apply proj2 in H. specialize (H eq_refl). lia.
Qed.
Lemma touch_neg k q : nth_error F k = Some (false, q) -> (p_begin p <=? k)%nat = Qle_bool x (hi q).
Proof.
  intros E. pose proof (HB k _ E) as H. unfold EvtTokProofs.key in H. cbn [fst snd] in H. apply eq_true_iff_eq. rewrite Nat.leb_le, Qle_bool_iff. destruct (Qlt_le_dec (hi q) x) as [Y|Y]; [apply H in Y as Z|]; (split; intros X); try lra; try lia. destruct (Nat.le_gt_cases (p_begin p) k) as [Z|Z]; [exact Z|apply H in Z; lra].
Qed.
Lemma touch_pos (L : list tok) q (R : list tok) : F = L ++ (true, q) :: R -> (length L <? p_end p)%nat = Qle_bool (lo q) x.
Proof.
  intros E. pose proof (HE _ _ (old_t L _ R E)) as H. unfold EvtTokProofs.key in H. cbn [fst snd] in H. apply eq_true_iff_eq. rewrite Nat.ltb_lt, Qle_bool_iff. exact H.
Qed.
Lemma child_app (L : list tok) q (R : list tok) (f : nat -> bool) : F = L ++ (true, q) :: R -> f q = true -> nth_error (BO F ++ filter f (starts F)) (length (BO F) + length (filter f (starts L))) = Some q.
Proof.
  intros E B. rewrite nth_error_app2 by lia. replace (length (BO F) + length (filter f (starts L)) - length (BO F))%nat with (length (filter f (starts L))) by lia. rewrite E at 1. rewrite starts_app. unfold starts at 2. cbn [filter fst map snd]. rewrite filter_app. cbn [filter]. rewrite B. apply nth_end.
Qed.

(** ** Start events *)
Lemma start_ok (L : list tok) q (R : list tok) s e : F = L ++ (true, q) :: R -> mid L (true, q) s -> nth_error evs (length L) = Some e ->
  exists s', start_event O dbg h ps p (length L) (WE (ev_new e) true (Idx (ev_index e))) s = Ok s' /\ inv (L ++ [(true, q)]) s'.
Proof.
  intros E M X. pose proof M as M0. destruct M0 as [Y0 YN YP YP0]. destruct Y0 as [A1 A2 A3 A4 A5 A6 A7 A8 A9 A10].
  destruct (ev_find n lo hi x F T evs AR L q R (s_ev s) e E A1 X) as (V1 & f & V2). destruct (start_ref n lo hi F T evs AR L q R e E X) as (S1 & S2 & S3 & _). pose proof (range n lo hi F T L _ R E) as RQ. cbn [snd] in RQ.
  destruct (nth_error ps q) as [r|] eqn:PQ; [|apply nth_error_None in PQ; lia].
  unfold start_event. cbn [w_ref idx rbind]. rewrite (get_ok _ _ _ V2). cbn [rbind w_ref idx]. rewrite (get_ok _ _ _ PQ). cbn [rbind]. rewrite (side_end _ _ S3), (HC q r PQ), Bool.eqb_reflx, check_true. cbn [rbind]. rewrite (side_start L q R E), negb_involutive.
  pose proof (begin_lt L _ R E) as BL. unfold EvtTokProofs.key in BL. cbn [fst snd] in BL. pose proof (inN_iff lo x q) as IN.
  destruct (inN q) eqn:N1, (inP q) eqn:P1; cbn [negb].
  - (* both *) assert (B : both lo hi x q = true) by (unfold PrimTokProofs.both; rewrite N1, P1; reflexivity). assert (LB : (length L < p_begin p)%nat) by (apply BL, IN; reflexivity). assert (KN : kN (true, q) = true) by (unfold PrimTokProofs.kN; cbn [fst snd orb]; rewrite N1; reflexivity).
    unfold start_both. destruct (SPL q r PQ B) as (c & SC). rewrite SC. cbn [rbind]. rewrite A8, A9, A10, CN, CE. pose proof (child_B lo hi x F L q R E B) as CB. pose proof (lt_of_nth _ _ _ CB) as CL.
    destruct (list_part neg_part neg_whole _ _ _ q (fst c) A4) as (l1 & U1 & U2); [exists r, c; auto|exact CL|]. rewrite U1. cbn [rbind].
    destruct (list_part pos_part pos_whole _ _ _ q (snd c) A5) as (l2 & U3 & U4); [exists r, c; auto|exact CL|]. rewrite U3. cbn [rbind].
    destruct (map_start L (s_map s) q (Idx (length (BO L))) A3 RQ) as (m & U5 & U6); [unfold mapref; rewrite N1; exists (length (BO L)); split; [reflexivity|apply nth_prefix; exact CB]|]. rewrite U5. cbn [rbind].
    destruct (neg_both n lo hi x F T L q R _ (s_neg s) (s_nn s) E B (proj1 (Nat.lt_nge _ _) LB) A2 YN) as (neg1 & U7 & U8 & neg2 & U9 & U10). rewrite U7. cbn [rbind]. rewrite (proj2 (Nat.ltb_lt _ _) U8), check_true. cbn [rbind]. rewrite U9. cbn [rbind].
    destruct (ev_add n lo hi x F T evs AR L q R (s_ev s) e (length (BO L) =? 0)%nat (length (BO L)) E A1 X P1 (nth_prefix _ _ _ _ CB)) as (ev1 & U11 & U12 & U13).
    { apply (pn_early L _ R _ E); [lia|]. unfold PrimTokProofs.keyP, EvtTokProofs.key, loP. cbn [fst snd]. rewrite N1. reflexivity. }
    rewrite U11. cbn [rbind]. rewrite U12. cbn [rbind]. eexists. split; [reflexivity|]. apply (mk_inv L _ R s); cbn [s_ev s_neg s_map s_negs s_poss s_nb s_pb s_extra s_nu s_pu s_nn s_pn]; [exact E|exact M| |right; auto|auto|lia].
    assert (BOs : BO (L ++ [(true, q)]) = BO L ++ [q]) by (apply BO_start; exact B). assert (NOs : NO (L ++ [(true, q)]) = NO L) by (unfold PrimTokProofs.NO; rewrite starts_start, flt1; unfold PrimTokProofs.nonly at 2; rewrite N1, P1; apply app_nil_r). assert (POs : PO (L ++ [(true, q)]) = PO L) by (unfold PrimTokProofs.PO; rewrite starts_start, flt1; unfold PrimTokProofs.ponly at 2; rewrite N1, P1; apply app_nil_r).
    split; cbn [s_ev s_neg s_map s_negs s_poss s_nb s_pb s_extra s_nu s_pu s_nn s_pn].
    + exact U13.
    + exact U10.
    + exact U6.
    + rewrite BOs, NOs. exact U2.
    + rewrite BOs, POs. exact U4.
    + unfold DN in *. rewrite starts_start, flt1. unfold PrimTokProofs.bord at 2. rewrite N1. cbn [negb andb]. rewrite app_nil_r. exact A6.
    + unfold DP in *. rewrite starts_start, flt1. unfold PrimTokProofs.bord at 2. rewrite N1. cbn [negb andb]. rewrite app_nil_r. exact A7.
    + rewrite BOs, app_length. cbn [length]. lia.
    + rewrite flt_yes, app_length by exact KN. cbn [length]. lia.
    + rewrite flt_yes, app_length by exact P1. cbn [length]. lia.
  - (* negative *) assert (B : nonly lo hi x q = true) by (unfold PrimTokProofs.nonly; rewrite N1, P1; reflexivity). assert (LB : (length L < p_begin p)%nat) by (apply BL, IN; reflexivity). assert (KN : kN (true, q) = true) by (unfold PrimTokProofs.kN; cbn [fst snd orb]; rewrite N1; reflexivity).
    assert (BOs : BO (L ++ [(true, q)]) = BO L) by (unfold PrimTokProofs.BO; rewrite starts_start, flt1; unfold PrimTokProofs.both at 2; rewrite N1, P1; apply app_nil_r). assert (NOs : NO (L ++ [(true, q)]) = NO L ++ [q]) by (unfold PrimTokProofs.NO; rewrite starts_start, flt1, B; reflexivity). assert (POs : PO (L ++ [(true, q)]) = PO L) by (unfold PrimTokProofs.PO; rewrite starts_start, flt1; unfold PrimTokProofs.ponly at 2; rewrite N1, P1; apply app_nil_r).
    unfold start_neg. pose proof (list_len _ _ _ _ _ A4) as LN. rewrite A9, LN. pose proof (child_app L q R _ E B) as CI. fold (NO F) in CI. fold (NO L) in CI.
    destruct (ev_mark n lo hi x F T evs AR L q R (s_ev s) e (Idx (length (filter kN L))) f E A1 X V2 P1) as (ev' & U1 & U2). { rewrite N1. exists (length (filter kN L)). rewrite flt_yes by exact KN. split; [apply nth_end|reflexivity]. } rewrite U1. cbn [rbind].
    destruct (map_start L (s_map s) q (Idx (length (BO F) + length (NO L))) A3 RQ) as (m & U5 & U6); [unfold mapref; rewrite N1; eexists; split; [reflexivity|exact CI]|]. rewrite U5. cbn [rbind]. rewrite (touch_neg _ _ S3).
    assert (TT : exists a, (if Qle_bool x (hi q) then o_touch O false r else Ok r) = Ok a) by (destruct (Qle_bool x (hi q)) eqn:Z; [apply Qle_bool_iff in Z; exact (TNE q r PQ B Z)|eauto]). destruct TT as (r' & TT). rewrite TT. cbn [rbind].
    destruct (neg_start n lo hi x F T L q R _ (s_neg s) (s_nn s) _ E B A2 YN CI) as (neg2 & U9 & U10). rewrite U9. cbn [rbind]. eexists. split; [reflexivity|].
    apply (mk_inv L _ R s); cbn [s_ev s_neg s_map s_negs s_poss s_nb s_pb s_extra s_nu s_pu s_nn s_pn]; [exact E|exact M| |right; auto|auto|left; split; [exact P1|reflexivity]].
    split; cbn [s_ev s_neg s_map s_negs s_poss s_nb s_pb s_extra s_nu s_pu s_nn s_pn].
    + exact U2.
    + exact U10.
    + exact U6.
    + rewrite BOs, NOs. apply list_whole; [exact A4|]. exists r. auto.
    + rewrite BOs, POs. exact A5.
    + unfold DN in *. rewrite starts_start, flt1. unfold PrimTokProofs.bord at 2. rewrite N1. cbn [negb andb]. rewrite app_nil_r. exact A6.
    + unfold DP in *. rewrite starts_start, flt1. unfold PrimTokProofs.bord at 2. rewrite N1. cbn [negb andb]. rewrite app_nil_r. exact A7.
    + rewrite BOs. exact A8.
    + rewrite flt_yes, app_length by exact KN. cbn [length]. lia.
    + rewrite flt_no by exact P1. exact A10.
  - (* positive *) assert (B : ponly lo hi x q = true) by (unfold PrimTokProofs.ponly; rewrite N1, P1; reflexivity). assert (LB : (p_begin p <= length L)%nat) by (destruct (Nat.le_gt_cases (p_begin p) (length L)) as [Z|Z]; [exact Z|apply BL, IN in Z; discriminate]). assert (KN : kN (true, q) = false) by (unfold PrimTokProofs.kN; cbn [fst snd orb]; rewrite N1; reflexivity).
    assert (BOs : BO (L ++ [(true, q)]) = BO L) by (unfold PrimTokProofs.BO; rewrite starts_start, flt1; unfold PrimTokProofs.both at 2; rewrite N1, P1; apply app_nil_r). assert (POs : PO (L ++ [(true, q)]) = PO L ++ [q]) by (unfold PrimTokProofs.PO; rewrite starts_start, flt1, B; reflexivity). assert (NOs : NO (L ++ [(true, q)]) = NO L) by (unfold PrimTokProofs.NO; rewrite starts_start, flt1; unfold PrimTokProofs.nonly at 2; rewrite N1, P1; apply app_nil_r).
    pose proof (child_app L q R _ E B) as CI. fold (PO F) in CI. fold (PO L) in CI. assert (XK : x <= key (true, q)) by (apply (late L _ E LB); left; reflexivity).
    assert (NL : length (s_negs s) = NN). { rewrite (list_len _ _ _ _ _ A4), app_length. f_equal. rewrite E at 1. rewrite NO_app. assert (Z : NO ((true, q) :: R) = []); [|rewrite Z, app_nil_r; reflexivity]. pose proof (late L _ E LB) as H. clear - H. induction ((true, q) :: R) as [|[s0 q0] R0 IH]; [reflexivity|]. specialize (IH (fun t I => H t (or_intror I))). unfold PrimTokProofs.NO, starts in *. cbn [filter fst]. destruct s0; [|exact IH]. cbn [map snd filter]. assert (X : x <= key (true, q0)) by (apply H; left; reflexivity). unfold EvtTokProofs.key in X. cbn [fst snd] in X. unfold PrimTokProofs.nonly at 1. rewrite (proj2 (inN_false lo x q0) X). exact IH. }
    unfold start_pos. rewrite A10, NL, (list_len _ _ _ _ _ A5), CN.
    destruct (ev_add n lo hi x F T evs AR L q R (s_ev s) e (s_pn s) _ E A1 X P1 CI) as (ev1 & U11 & U12 & U13). { rewrite (keyP_late _ XK). exact (YP LB). }
    rewrite U11. cbn [rbind]. destruct (map_start L (s_map s) q (Idx (length (BO F) + length (PO L) + NN)) A3 RQ) as (m & U5 & U6); [unfold mapref; rewrite N1, P1; eexists; split; [reflexivity|exact CI]|]. rewrite U5. cbn [rbind]. rewrite (touch_pos L q R E).
    assert (TT : exists a, (if Qle_bool (lo q) x then o_touch O true r else Ok r) = Ok a) by (destruct (Qle_bool (lo q) x) eqn:Z; [apply Qle_bool_iff in Z; exact (TPO q r PQ B Z)|eauto]). destruct TT as (r' & TT). rewrite TT. cbn [rbind].
    rewrite U12. cbn [rbind]. eexists. split; [reflexivity|].
    apply (mk_inv L _ R s); cbn [s_ev s_neg s_map s_negs s_poss s_nb s_pb s_extra s_nu s_pu s_nn s_pn]; [exact E|exact M| |left; auto|lia|right; split; [exact P1|reflexivity]].
    split; cbn [s_ev s_neg s_map s_negs s_poss s_nb s_pb s_extra s_nu s_pu s_nn s_pn].
    + exact U13.
    + apply (neg_skip lo hi x F L _ R); assumption.
    + exact U6.
    + rewrite BOs, NOs. exact A4.
    + rewrite BOs, POs. apply list_whole; [exact A5|]. exists r. auto.
    + unfold DN in *. rewrite starts_start, flt1. unfold PrimTokProofs.bord at 2. rewrite N1, P1. cbn [negb andb]. rewrite app_nil_r. exact A6.
    + unfold DP in *. rewrite starts_start, flt1. unfold PrimTokProofs.bord at 2. rewrite N1, P1. cbn [negb andb]. rewrite app_nil_r. exact A7.
    + rewrite BOs. exact A8.
    + rewrite flt_no by exact KN. exact A9.
    + rewrite flt_yes, app_length by exact P1. cbn [length]. lia.
  - (* border *) assert (KN : kN (true, q) = false) by (unfold PrimTokProofs.kN; cbn [fst snd orb]; rewrite N1; reflexivity).
    assert (BOs : BO (L ++ [(true, q)]) = BO L) by (unfold PrimTokProofs.BO; rewrite starts_start, flt1; unfold PrimTokProofs.both at 2; rewrite N1, P1; apply app_nil_r). assert (POs : PO (L ++ [(true, q)]) = PO L) by (unfold PrimTokProofs.PO; rewrite starts_start, flt1; unfold PrimTokProofs.ponly at 2; rewrite N1, P1; apply app_nil_r). assert (NOs : NO (L ++ [(true, q)]) = NO L) by (unfold PrimTokProofs.NO; rewrite starts_start, flt1; unfold PrimTokProofs.nonly at 2; rewrite N1, P1; apply app_nil_r).
    unfold start_border. destruct (TBO q r PQ) as (r' & TT); [unfold PrimTokProofs.bord; rewrite N1, P1; reflexivity|]. rewrite TT. cbn [rbind]. destruct (map_start L (s_map s) q Gone A3 RQ) as (m & U5 & U6); [unfold mapref; rewrite N1, P1; reflexivity|]. rewrite U5. cbn [rbind].
    destruct (ev_mark n lo hi x F T evs AR L q R (s_ev s) e Gone f E A1 X V2 P1) as (ev' & U1 & U2). { rewrite N1. reflexivity. } rewrite U1. cbn [rbind]. eexists. split; [reflexivity|].
    apply (mk_inv L _ R s); cbn [s_ev s_neg s_map s_negs s_poss s_nb s_pb s_extra s_nu s_pu s_nn s_pn]; [exact E|exact M| |left; auto|auto|left; split; [exact P1|reflexivity]].
    assert (DQ : down q = o_down O r) by (unfold down; rewrite PQ; reflexivity).
    split; cbn [s_ev s_neg s_map s_negs s_poss s_nb s_pb s_extra s_nu s_pu s_nn s_pn].
    + exact U2.
    + apply (neg_skip lo hi x F L _ R); assumption.
    + exact U6.
    + rewrite BOs, NOs. exact A4.
    + rewrite BOs, POs. exact A5.
    + unfold DN in *. rewrite starts_start, flt1. unfold PrimTokProofs.bord at 2. rewrite N1, P1, DQ. cbn [negb andb]. destruct (o_down O r) eqn:OD; cbn [negb]; [rewrite app_nil_r; exact A6|]. apply F2_snoc; [exact A6|]. exists r. auto.
    + unfold DP in *. rewrite starts_start, flt1. unfold PrimTokProofs.bord at 2. rewrite N1, P1, DQ. cbn [negb andb]. destruct (o_down O r) eqn:OD; [|rewrite app_nil_r; exact A7]. apply F2_snoc; [exact A7|]. exists r. auto.
    + rewrite BOs. exact A8.
    + rewrite flt_no by exact KN. exact A9.
    + rewrite flt_no by exact P1. exact A10.
Qed.

(** ** End events *)
Lemma kN_count (L R : list tok) : F = L ++ R -> (length (filter kN L) <= length (BO L) + length (NO L) * 2)%nat.
Proof.
  intros E. set (ends := map snd (filter (fun t => negb (fst t) && nonly lo hi x (snd t)) L)). assert (H1 : length (filter kN L) = (length (BO L) + length (NO L) + length ends)%nat).
  { unfold ends. rewrite map_length. clear - L. induction L as [|[s q] L IH]; [reflexivity|]. unfold PrimTokProofs.BO, PrimTokProofs.NO, starts in *. cbn [filter fst snd]. assert (K : kN (s, q) = inN q && (s || negb (inP q))) by reflexivity. assert (K1 : both lo hi x q = inN q && inP q) by reflexivity. assert (K2 : nonly lo hi x q = inN q && negb (inP q)) by reflexivity.
    rewrite K. destruct s; cbn [map snd filter negb andb orb]; rewrite ?K1, ?K2; destruct (inN q), (inP q); cbn [andb negb length]; lia. }
  assert (ND : NoDup L) by (pose proof (t_nodup _ _ _ _ T) as ND; rewrite E in ND; exact (NoDup_pre _ _ ND)).
  assert (H2 : (length ends <= length (NO L))%nat); [|lia]. apply NoDup_incl_length.
  - unfold ends. clear - ND. induction ND as [|[s q] L N ND IH]; [constructor|]. cbn [filter fst snd]. destruct s; cbn [negb andb]; [exact IH|]. destruct (nonly lo hi x q); [|exact IH]. cbn [map snd]. constructor; [|exact IH]. intros I. apply in_map_iff in I. destruct I as ([s' q'] & Q & I). cbn [snd] in Q. subst q'. apply filter_In in I. destruct I as [I J]. destruct s'; [discriminate|contradiction].
  - intros q I. apply in_map_iff in I. destruct I as ([s' q'] & Q & I). cbn [snd] in Q. subst q'. apply filter_In in I. destruct I as [I J]. cbn [fst snd] in J. apply andb_true_iff in J. destruct J as [J1 J2]. destruct s'; [discriminate|]. apply filter_In. split; [|exact J2]. apply in_starts. apply in_split in I. destruct I as (L1 & L2 & ->). rewrite <- app_assoc in E. cbn [app] in E. apply in_or_app. left. exact (end_last n lo hi F T L1 q _ E).
Qed.
Lemma end_ok (L : list tok) q (R : list tok) s nw rr : F = L ++ (false, q) :: R -> mid L (false, q) s -> nth_error (s_ev s) (length L) = Some (WE nw false rr) ->
  exists s', end_event dbg ps p (WE nw false rr) s = Ok s' /\ inv (L ++ [(false, q)]) s'.
Proof.
  intros E M X. pose proof M as M0. destruct M0 as [Y0 YN YP YP0]. destruct Y0 as [A1 A2 A3 A4 A5 A6 A7 A8 A9 A10].
  assert (XE : exists e, nth_error evs (length L) = Some e) by (destruct (nth_error evs (length L)) eqn:Z; [eauto|apply nth_error_None in Z; rewrite (len_evs F evs AR), E, app_length in Z; cbn [length] in Z; lia]). destruct XE as (e & XE).
  destruct (v_rest _ _ _ _ _ _ _ A1 (length L) (false, q) e (le_n _) (old_t L _ R E) XE) as (r0 & V1 & V2). rewrite X in V1. injection V1 as _ <-. unfold rest in V2. cbn [fst snd] in V2. destruct V2 as [_ V2]. specialize (V2 (end_last n lo hi F T L q R E)).
  assert (BOs : BO (L ++ [(false, q)]) = BO L) by (unfold PrimTokProofs.BO; rewrite starts_end; reflexivity). assert (POs : PO (L ++ [(false, q)]) = PO L) by (unfold PrimTokProofs.PO; rewrite starts_end; reflexivity). assert (NOs : NO (L ++ [(false, q)]) = NO L) by (unfold PrimTokProofs.NO; rewrite starts_end; reflexivity).
  pose proof (list_len _ _ _ _ _ A4) as LN. unfold end_event. cbn [w_ref].
  destruct (inP q) eqn:P1; [|destruct (inN q) eqn:N1].
  - (* positive *) destruct V2 as (k & V2 & ->). assert (LB : (p_begin p <= length L)%nat). { destruct (Nat.le_gt_cases (p_begin p) (length L)) as [Z|Z]; [exact Z|]. apply (begin_lt L _ R E) in Z. unfold EvtTokProofs.key in Z. cbn [fst snd] in Z. apply inP_iff in P1. lra. } assert (XK : x <= key (false, q)) by (apply (late L _ E LB); left; reflexivity).
    assert (NL : length (s_negs s) = NN). { rewrite LN, app_length. f_equal. rewrite E at 1. rewrite NO_app. assert (Z : NO ((false, q) :: R) = []); [|rewrite Z, app_nil_r; reflexivity]. pose proof (late L _ E LB) as H. clear - H. induction ((false, q) :: R) as [|[s0 q0] R0 IH]; [reflexivity|]. specialize (IH (fun t I => H t (or_intror I))). unfold PrimTokProofs.NO, starts in *. cbn [filter fst]. destruct s0; [|exact IH]. cbn [map snd filter]. assert (X : x <= key (true, q0)) by (apply H; left; reflexivity). unfold EvtTokProofs.key in X. cbn [fst snd] in X. unfold PrimTokProofs.nonly at 1. rewrite (proj2 (inN_false lo x q0) X). exact IH. }
    rewrite NL. destruct (Nat.ltb_spec (k + NN * 2) (NN * 2)) as [Z|_]; [lia|]. replace (k + NN * 2 - NN * 2)%nat with k by lia. rewrite A10.
    destruct (ev_end n lo hi x F T evs L q R (s_ev s) k (s_pn s) E A1 P1 V2) as (g & r & ev2 & U1 & U2 & U3 & U4 & U5). { rewrite (keyP_late _ XK). exact (YP LB). }
    rewrite (proj2 (Nat.ltb_lt _ _) U2), check_true. cbn [rbind]. rewrite (get_ok _ _ _ U1). cbn [rbind w_ref]. rewrite U3. cbn [rbind]. rewrite U4. cbn [rbind]. eexists. split; [reflexivity|]. assert (KN : kN (false, q) = false) by (unfold PrimTokProofs.kN; cbn [fst snd orb]; rewrite P1; apply andb_false_r).
    apply (mk_inv L _ R s); cbn [s_ev s_neg s_map s_negs s_poss s_nb s_pb s_extra s_nu s_pu s_nn s_pn]; [exact E|exact M| |left; auto|lia|right; split; [exact P1|reflexivity]].
    split; cbn [s_ev s_neg s_map s_negs s_poss s_nb s_pb s_extra s_nu s_pu s_nn s_pn]; rewrite ?BOs, ?NOs, ?POs; unfold DN, DP; rewrite ?starts_end; try assumption.
    + apply (neg_skip lo hi x F L _ R); assumption.
    + apply map_end. exact A3.
    + rewrite flt_no by exact KN. exact A9.
    + rewrite flt_yes, app_length by exact P1. cbn [length]. lia.
  - (* negative *) destruct V2 as (k & V2 & ->). assert (B : nonly lo hi x q = true) by (unfold PrimTokProofs.nonly; rewrite N1, P1; reflexivity). assert (KN : kN (false, q) = true) by (unfold PrimTokProofs.kN; cbn [fst snd orb]; rewrite N1, P1; reflexivity).
    destruct (neg_end n lo hi x F T L q R _ (s_neg s) k (s_nn s) E A2 B V2 YN) as (g & r & U1 & U2 & U3 & neg1 & U4 & neg2 & U5 & U6).
    assert (KL : (k < length (s_negs s) * 2)%nat). { rewrite LN. pose proof (kN_count L _ E). pose proof (BO_le n lo hi x F T L _ E). lia. }
    rewrite (proj2 (Nat.ltb_lt _ _) KL), A9, (proj2 (Nat.ltb_lt _ _) U2), check_true. cbn [rbind]. rewrite (get_ok _ _ _ U1). cbn [rbind got w_start w_ref]. rewrite check_true. cbn [rbind]. rewrite CN, CE, (proj2 (Nat.ltb_lt _ _) U3), check_true. cbn [rbind]. rewrite U4. cbn [rbind]. rewrite U5. cbn [rbind]. eexists. split; [reflexivity|].
    apply (mk_inv L _ R s); cbn [s_ev s_neg s_map s_negs s_poss s_nb s_pb s_extra s_nu s_pu s_nn s_pn]; [exact E|exact M| |right; auto|auto|left; split; [exact P1|reflexivity]].
    split; cbn [s_ev s_neg s_map s_negs s_poss s_nb s_pb s_extra s_nu s_pu s_nn s_pn]; rewrite ?BOs, ?NOs, ?POs; unfold DN, DP; rewrite ?starts_end; try assumption.
    + apply (ev_skip lo hi x F evs L q R); assumption.
    + apply map_end. exact A3.
    + rewrite flt_yes, app_length by exact KN. cbn [length]. lia.
    + rewrite flt_no by exact P1. exact A10.
  - (* border *) subst rr. eexists. split; [reflexivity|]. assert (KN : kN (false, q) = false) by (unfold PrimTokProofs.kN; cbn [fst snd orb]; rewrite N1; reflexivity).
    apply (mk_inv L _ R s); [exact E|exact M| |left; auto|auto|left; split; [exact P1|reflexivity]].
    split; rewrite ?BOs, ?NOs, ?POs; unfold DN, DP; rewrite ?starts_end; try assumption.
    + apply (ev_skip lo hi x F evs L q R); assumption.
    + apply (neg_skip lo hi x F L _ R); assumption.
    + apply map_end. exact A3.
    + rewrite flt_no by exact KN. exact A9.
    + rewrite flt_no by exact P1. exact A10.
Qed.
End Step.
