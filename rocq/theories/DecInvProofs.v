(** The polygons that EmitTriangle builds are convex. *)
From Coq Require Import List ZArith QArith Lia Lqa Bool Permutation.
From Verif Require Import BigUIntModel GeoModel GeoSpec CvxSpec TriModel TriSpec PolySpec CvxProofs TriProofs TriGeoProofs DecModel DecSpec DecCvxProofs DecOrdProofs.
Import ListNotations.
Open Scope Q_scope.
(** What else the operations of a point type have to compute. *)
Record kind_dec {P} (k : kind P) (drop : nat) (good : P -> Prop) (pos : P -> qpoint2) : Prop := KindDec {
  kd_nonneg : forall c a b, good c -> good a -> good b -> (0 <= k_twist k drop c a b)%Z <-> 0 <= turn (pos c) (pos a) (pos b);
  kd_nonpos : forall c a b, good c -> good a -> good b -> (k_twist k drop c a b <= 0)%Z <-> turn (pos c) (pos a) (pos b) <= 0;
  kd_equal : forall a b, good a -> good b -> k_equal k a b = true -> qp2_eq (pos a) (pos b) }.
Lemma map_app_inv {A B} (f : A -> B) l m n : map f l = m ++ n -> exists m' n', l = m' ++ n' /\ map f m' = m /\ map f n' = n.
Proof.
  revert m n. induction l as [|a l IH]; intros m n E.
  - destruct m; [|discriminate]. exists [], []. repeat split. exact E.
  - destruct m as [|x m].
    + exists [], (a :: l). repeat split. exact E.
    + cbn [map app] in E. injection E as E1 E2. destruct (IH m n E2) as (m' & n' & H1 & H2 & H3). exists (a :: m'), n'. rewrite H1. cbn [map]. rewrite H2, E1. repeat split. exact H3.
Qed.
Lemma adj_map {A B} (f : A -> B) l u v : adj (map f l) u v -> exists a b, adj l a b /\ f a = u /\ f b = v.
Proof.
  intros (l1 & l2 & E). destruct (map_app_inv f l l1 _ E) as (m1 & m2 & E1 & E2 & E3). destruct m2 as [|a [|b m2]]; try discriminate. injection E3 as E3 E4 E5.
  exists a, b. split; [exists m1, m2; exact E1|]. split; assumption.
Qed.
Lemma adj3_map {A B} (f : A -> B) l u v w : adj3 (map f l) u v w -> exists a b c, adj3 l a b c /\ f a = u /\ f b = v /\ f c = w.
Proof.
  intros (l1 & l2 & E). destruct (map_app_inv f l l1 _ E) as (m1 & m2 & E1 & E2 & E3). destruct m2 as [|a [|b [|c m2]]]; try discriminate. injection E3 as E3 E4 E5 E6.
  exists a, b, c. split; [exists m1, m2; exact E1|]. repeat split; assumption.
Qed.
Lemma adj_pairs {A} (R : A -> A -> Prop) l a b : ForallOrdPairs R l -> adj l a b -> R a b.
Proof.
  intros F (l1 & l2 & E). subst l. induction l1 as [|x l1 IH]; inversion F as [|? ? F1 F2]; subst; [inversion F1; assumption|apply IH; assumption].
Qed.
Lemma last_map {A B} (f : A -> B) l x y : l <> [] -> last (map f l) y = f (last l x).
Proof.
  intros N. induction l as [|a l IH]; [contradiction|]. destruct l as [|b l]; [reflexivity|]. change (last (map f (a :: b :: l)) y) with (last (map f (b :: l)) y). rewrite IH by discriminate. reflexivity.
Qed.
Section Inv.
Context {P : Type} (k : kind P) (drop : nat) (good : P -> Prop) (pos : P -> qpoint2) (KD : kind_dec k drop good pos).
Notation X p := (qx2 (pos p)).
Notation Y p := (qy2 (pos p)).
Notation tn a b c := (turn (pos a) (pos b) (pos c)).
Context (ord TF BF : list P) (ND : NoDup ord) (DP : forall a b, In a ord -> In b ord -> qp2_eq (pos a) (pos b) -> a = b)
  (SX : forall a b, bef ord a b -> X a <= X b) (GO : Forall good ord)
  (NM : forall a b c, In a ord -> In b ord -> In c ord -> (- 2 ^ 63 < k_twist k drop c a b < 2 ^ 63)%Z).
(** How the chains run along vertical lines, for polygons that turn in the
    direction s. *)
Record discipline (s : Q) : Prop := Discipline {
  di_rt : forall a b c, bef ord a b -> bef ord b c -> X a == X b -> X b == X c -> In b TF -> In c TF -> 0 < s * (Y c - Y b) -> 0 < s * (Y b - Y a);
  di_td : forall b c p, bef ord b c -> bef ord c p -> X b == X c -> X c == X p -> In c TF -> s * (Y c - Y b) < 0 -> s * (Y p - Y c) < 0;
  di_rb : forall a b c, bef ord a b -> bef ord b c -> X a == X b -> X b == X c -> In b BF -> In c BF -> 0 < - s * (Y c - Y b) -> 0 < - s * (Y b - Y a);
  di_bd : forall b c p, bef ord b c -> bef ord c p -> X b == X c -> X c == X p -> In c BF -> - s * (Y c - Y b) < 0 -> - s * (Y p - Y c) < 0 }.
Context (allowed : Q -> Prop) (AL : forall s, allowed s -> (s = 1 \/ s = -1) /\ discipline s).
Definition start_edge (s : Q) (a b : P) : Prop := X a == X b -> 0 < s * (Y a - Y b).
Record tri_good (t : triangle P) : Prop := TriGood {
  tg_ord : tri_ord ord t; tg_tag : tagged TF BF t;
  tg_pos : 0 < tn (t1 t) (t2 t) (t3 t) -> allowed 1; tg_neg : tn (t1 t) (t2 t) (t3 t) < 0 -> allowed (-1);
  tg_start : forall s, allowed s -> 0 <= s * tn (t1 t) (t2 t) (t3 t) -> start_edge s (t1 t) (t2 t) }.
Definition poly (s : md_state P) : list P := md_top s ++ rev (md_bottom s).
Definition signed (s : Q) (o : Z) : Prop := (s = 1 /\ o = (-1)%Z) \/ (s = -1 /\ o = 1%Z).
Definition shape_of (o : Z) (l : list qpoint2) (a b : P) : Prop :=
  (o = 0%Z /\ all_flat l /\ forall s, allowed s -> start_edge s a b) \/
  (exists s, allowed s /\ signed s o /\ in_convex_position s l /\ not_in_line l /\ start_edge s a b).
Record md_inv (d : P) (s : md_state P) : Prop := MdInv {
  mi_T : md_top s <> []; mi_B : md_bottom s <> [];
  mi_oT : ForallOrdPairs (fun c b => bef ord b c) (md_top s); mi_oB : ForallOrdPairs (fun c b => bef ord b c) (md_bottom s);
  mi_TF : forall c b, adj (md_top s) c b -> In c TF; mi_BF : forall c b, adj (md_bottom s) c b -> In c BF;
  mi_nd : NoDup (poly s); mi_in : incl (poly s) ord;
  mi_shape : shape_of (md_or s) (map pos (poly s)) (last (md_top s) d) (last (md_bottom s) d) }.
Lemma good_in a : In a ord -> good a.
Proof. rewrite Forall_forall in GO. apply GO. Qed.
Lemma bef_ne a b : bef ord a b -> ~ qp2_eq (pos a) (pos b).
Proof.
  intros H C. destruct (bef_in _ _ _ H) as (Ia & Ib). pose proof (DP a b Ia Ib C). subst b. exact (bef_irrefl ord a ND H).
Qed.
Lemma flat3 a b c : tn a b c == 0 -> all_flat (map pos [a; b; c]).
Proof.
  intros T. assert (H : forall x y z, turn x y z == turn y z x) by (intros; unfold turn, qcross2, qsub2; cbn; ring). assert (H' : forall x y z, turn x y z == - turn y x z) by (intros; unfold turn, qcross2, qsub2; cbn; ring).
  assert (Z1 : forall x y, turn x x y == 0) by (intros; unfold turn, qcross2, qsub2; cbn; ring). assert (Z2 : forall x y, turn x y y == 0) by (intros; unfold turn, qcross2, qsub2; cbn; ring). assert (Z3 : forall x y, turn x y x == 0) by (intros; unfold turn, qcross2, qsub2; cbn; ring).
  assert (T1 : tn b c a == 0) by (rewrite <- H; exact T). assert (T2 : tn c a b == 0) by (rewrite <- H; exact T1).
  assert (T3 : tn b a c == 0) by (rewrite H', T; ring). assert (T4 : tn a c b == 0) by (rewrite H', T2; ring). assert (T5 : tn c b a == 0) by (rewrite H', T1; ring).
  intros x y z Hx Hy Hz. cbn [map In] in Hx, Hy, Hz.
  destruct Hx as [<-|[<-|[<-|[]]]]; destruct Hy as [<-|[<-|[<-|[]]]]; destruct Hz as [<-|[<-|[<-|[]]]]; first [assumption|apply Z1|apply Z2|apply Z3].
Qed.
(** ** The sign of a triangle *)
Lemma reduced_sign a b c : good a -> good b -> good c ->
  (reduce_sign (k_twist k drop b a c) = (-1)%Z /\ 0 < tn a b c) \/ (reduce_sign (k_twist k drop b a c) = 1%Z /\ tn a b c < 0) \/ (reduce_sign (k_twist k drop b a c) = 0%Z /\ tn a b c == 0).
Proof.
  intros Ga Gb Gc. pose proof (kd_nonneg _ _ _ _ KD b a c Gb Ga Gc) as H1. pose proof (kd_nonpos _ _ _ _ KD b a c Gb Ga Gc) as H2.
  pose proof (turn_flip (pos a) (pos b) (pos c)) as T. unfold reduce_sign. destruct (Z.ltb_spec 0 (k_twist k drop b a c)) as [L|L].
  - right; left. split; [reflexivity|]. assert (~ tn b a c <= 0) by (intros C; apply H2 in C; lia). lra.
  - destruct (Z.ltb_spec (k_twist k drop b a c) 0) as [L'|L'].
    + left. split; [reflexivity|]. assert (~ 0 <= tn b a c) by (intros C; apply H1 in C; lia). lra.
    + right; right. split; [reflexivity|]. apply H1 in L'. apply H2 in L. lra.
Qed.
Lemma turn_flip3 a b c : tn c b a == - tn a b c.
Proof. unfold turn, qcross2, qsub2; cbn. ring. Qed.
Lemma convex3 s a b c : 0 <= s * tn a b c -> in_convex_position s (map pos [a; b; c]).
Proof.
  intros H i j m x y z Hij Hjm Hx Hy Hz. assert (m < 3)%nat by (change 3%nat with (length (map pos [a; b; c])); apply nth_error_Some; congruence).
  assert (i = 0 /\ j = 1 /\ m = 2)%nat as (-> & -> & ->) by lia. cbn in Hx, Hy, Hz. injection Hx as <-. injection Hy as <-. injection Hz as <-. exact H.
Qed.
Lemma start_shape d t out : tri_good t -> md_inv d (md_start k drop t out).
Proof.
  intros [TO TT TP TN TS]. destruct TO as (O12 & O13 & O23). unfold tagged in TT.
  destruct (bef_in _ _ _ O13) as (I1 & I3). destruct (bef_in _ _ _ O23) as (I2 & _).
  assert (N13 : t1 t <> t3 t) by (intros C; rewrite C in O13; exact (bef_irrefl ord _ ND O13)). assert (N23 : t2 t <> t3 t) by (intros C; rewrite C in O23; exact (bef_irrefl ord _ ND O23)).
  assert (N12 : t1 t <> t2 t) by (intros C; rewrite C in O12; destruct O12 as [O|O]; exact (bef_irrefl ord _ ND O)).
  assert (SH : forall l, (l = [t3 t; t1 t; t2 t] \/ l = [t1 t; t2 t; t3 t]) -> shape_of (reduce_sign (k_twist k drop (t2 t) (t1 t) (t3 t))) (map pos l) (t1 t) (t2 t)).
  { intros l El. assert (TE : forall s, 0 <= s * tn (t1 t) (t2 t) (t3 t) -> in_convex_position s (map pos l)).
    { intros s H. destruct El as [-> | ->]; apply convex3; [|exact H]. rewrite turn_rot. exact H. }
    assert (NE : ~ tn (t1 t) (t2 t) (t3 t) == 0 -> not_in_line (map pos l)).
    { intros H. exists (pos (t1 t)), (pos (t2 t)), (pos (t3 t)). destruct El as [-> | ->]; cbn [map In]; tauto. }
    destruct (reduced_sign (t1 t) (t2 t) (t3 t) (good_in _ I1) (good_in _ I2) (good_in _ I3)) as [(E & S)|[(E & S)|(E & S)]]; rewrite E.
    - right. exists 1. split; [apply TP, S|]. split; [left; split; reflexivity|]. split; [apply TE; lra|]. split; [apply NE; lra|apply TS; [apply TP, S|lra]].
    - right. exists (-1). split; [apply TN, S|]. split; [right; split; reflexivity|]. split; [apply TE; lra|]. split; [apply NE; lra|apply TS; [apply TN, S|lra]].
    - left. split; [reflexivity|]. split; [|intros s Hs; apply TS; [exact Hs|rewrite S; lra]].
      assert (F : all_flat (map pos [t1 t; t2 t; t3 t])) by (apply flat3, S). destruct El as [-> | ->]; [|exact F]. intros a b c Ha Hb Hc. apply F; cbn [map In] in *; tauto. }
  unfold md_start. destruct (t_top t) eqn:Et; split; cbn [md_top md_bottom md_or poly]; unfold poly; cbn [md_top md_bottom rev app last]; try discriminate.
  - constructor; [constructor; [exact O13|constructor]|constructor; constructor].
  - constructor; constructor.
  - intros c b (l1 & l2 & E). destruct l1 as [|? [|? [|]]]; try discriminate. injection E as <- <- _. exact TT.
  - intros c b (l1 & l2 & E). destruct l1 as [|? [|]]; discriminate.
  - repeat constructor; cbn; intuition congruence.
  - intros x [<-|[<-|[<-|[]]]]; assumption.
  - apply SH. left. reflexivity.
  - constructor; constructor.
  - constructor; [constructor; [exact O23|constructor]|constructor; constructor].
  - intros c b (l1 & l2 & E). destruct l1 as [|? [|]]; discriminate.
  - intros c b (l1 & l2 & E). destruct l1 as [|? [|? [|]]]; try discriminate. injection E as <- <- _. exact TT.
  - repeat constructor; cbn; intuition congruence.
  - intros x [<-|[<-|[<-|[]]]]; assumption.
  - apply SH. right. reflexivity.
Qed.
(** ** The emitted polygons *)
Lemma nodup_neighbours l : NoDup l -> incl l ord -> (2 <= length l)%nat -> neighbours_distinct (map pos l).
Proof.
  intros N I L i u v Hu Hv C. rewrite map_length in Hv. rewrite nth_error_map in Hu, Hv.
  destruct (nth_error l i) as [a|] eqn:Ea; [|discriminate]. destruct (nth_error l (S i mod length l)) as [b|] eqn:Eb; [|discriminate]. cbn in Hu, Hv. injection Hu as <-. injection Hv as <-.
  assert (a = b) by (apply DP; [apply I; eapply nth_error_In, Ea|apply I; eapply nth_error_In, Eb|exact C]). subst b.
  assert (Li : (i < length l)%nat) by (apply nth_error_Some; congruence).
  assert (E : i = (S i mod length l)%nat) by (apply (bef_unique l i _ a N Ea Eb)).
  destruct (Nat.eq_dec (S i) (length l)) as [D|D]; [rewrite D, Nat.mod_same in E by lia; lia|rewrite Nat.mod_small in E by lia; lia].
Qed.
Definition oriented_in (o : Z) (l : list qpoint2) : Prop := oriented o l /\ (o = (-1)%Z -> allowed 1) /\ (o = 1%Z -> allowed (-1)).
Lemma inv_oriented d s : md_inv d s -> oriented_in (md_or s) (map pos (poly s)).
Proof.
  intros [H1 H2 _ _ _ _ N I SH]. destruct SH as [(E & F & _)|(s0 & A & SG & C & NL & _)].
  - split; [right; right; split; [exact E|exact F]|]. rewrite E. split; discriminate.
  - assert (CC : convex_cycle s0 (map pos (poly s))).
    { split; [exact C|]. split; [|exact NL]. apply nodup_neighbours; [exact N|exact I|].
      unfold poly. rewrite app_length, rev_length. destruct (md_top s); [contradiction|]. destruct (md_bottom s); [contradiction|]. cbn [length]. lia. }
    destruct SG as [(-> & E)|(-> & E)]; (split; [|rewrite E; split; [intros G; first [discriminate G|exact A]|intros G; first [discriminate G|exact A]]]); [left|right; left]; (split; [exact E|exact CC]).
Qed.
(** ** One more triangle *)
Lemma word_mul_ok a o : (- 2 ^ 63 < a < 2 ^ 63)%Z -> (o = 1 \/ o = -1 \/ o = 0)%Z -> word_mul a o = Ok (a * o)%Z.
Proof.
  intros H O. unfold word_mul. assert (E : (- 2 ^ 63 <=? a * o)%Z && (a * o <? 2 ^ 63)%Z = true); [|rewrite E; reflexivity].
  apply andb_true_iff. rewrite Z.leb_le, Z.ltb_lt. destruct O as [-> | [-> | ->]]; lia.
Qed.
Lemma fits_ok o p1 p2 p3 a b : (o = 1 \/ o = -1 \/ o = 0)%Z -> In p1 ord -> In p2 ord -> In p3 ord -> In a ord -> In b ord ->
  md_fits k drop o p1 p2 p3 a b = Ok ((k_twist k drop p1 a p3 * o <=? 0)%Z && (0 <=? k_twist k drop p2 b p3 * o)%Z).
Proof.
  intros O I1 I2 I3 Ia Ib. unfold md_fits. rewrite word_mul_ok by (auto; apply NM; assumption). cbn [rbind].
  destruct (_ <=? 0)%Z; [|reflexivity]. rewrite word_mul_ok by (auto; apply NM; assumption). reflexivity.
Qed.
Lemma side_top s L p : allowed s -> ForallOrdPairs (fun c b => bef ord b c) L -> (forall c b, adj L c b -> In c TF) -> (forall q, In q L -> bef ord q p) -> side_ok s (map pos L) (pos p).
Proof.
  intros A F T B. destruct (AL s A) as (_ & D). split.
  - intros c b H. apply adj_map in H as (c' & b' & H & <- & <-). pose proof (adj_pairs _ _ _ _ F H) as G. split; [apply SX, G|apply bef_ne, G].
  - intros q H. apply in_map_iff in H as (q' & <- & H). split; [apply SX, B, H|apply bef_ne, B, H].
  - intros c b a H. apply adj3_map in H as (c' & b' & a' & H & <- & <- & <-). destruct (adj3_adj _ _ _ _ H) as (H1 & H2).
    intros E1 E2. apply (di_rt s D a' b' c' (adj_pairs _ _ _ _ F H2) (adj_pairs _ _ _ _ F H1) E1 E2 (T _ _ H2) (T _ _ H1)).
  - intros c b H. apply adj_map in H as (c' & b' & H & <- & <-). destruct (adj_in _ _ _ H) as (Ic & _). intros E1 E2. apply (di_td s D b' c' p (adj_pairs _ _ _ _ F H) (B _ Ic) E1 E2 (T _ _ H)).
Qed.
Lemma side_bottom s L p : allowed s -> ForallOrdPairs (fun c b => bef ord b c) L -> (forall c b, adj L c b -> In c BF) -> (forall q, In q L -> bef ord q p) -> side_ok (- s) (map pos L) (pos p).
Proof.
  intros A F T B. destruct (AL s A) as (_ & D). split.
  - intros c b H. apply adj_map in H as (c' & b' & H & <- & <-). pose proof (adj_pairs _ _ _ _ F H) as G. split; [apply SX, G|apply bef_ne, G].
  - intros q H. apply in_map_iff in H as (q' & <- & H). split; [apply SX, B, H|apply bef_ne, B, H].
  - intros c b a H. apply adj3_map in H as (c' & b' & a' & H & <- & <- & <-). destruct (adj3_adj _ _ _ _ H) as (H1 & H2).
    intros E1 E2. apply (di_rb s D a' b' c' (adj_pairs _ _ _ _ F H2) (adj_pairs _ _ _ _ F H1) E1 E2 (T _ _ H2) (T _ _ H1)).
  - intros c b H. apply adj_map in H as (c' & b' & H & <- & <-). destruct (adj_in _ _ _ H) as (Ic & _). intros E1 E2. apply (di_bd s D b' c' p (adj_pairs _ _ _ _ F H) (B _ Ic) E1 E2 (T _ _ H)).
Qed.
Lemma not_in_line_incl l m : incl l m -> not_in_line l -> not_in_line m.
Proof. intros I (a & b & c & Ha & Hb & Hc & H). exists a, b, c. repeat split; [apply I, Ha|apply I, Hb|apply I, Hc|exact H]. Qed.
Lemma flat_incl l m : incl l m -> all_flat m -> all_flat l.
Proof. intros I F a b c Ha Hb Hc. apply F; apply I; assumption. Qed.
Lemma all_before L h p : ForallOrdPairs (fun c b => bef ord b c) (h :: L) -> bef ord h p -> forall q, In q (h :: L) -> bef ord q p.
Proof. intros F B q [<-|H]; [exact B|]. inversion F as [|? ? F1 _]; subst. rewrite Forall_forall in F1. exact (bef_trans ord q h p ND (F1 q H) B). Qed.
Lemma step_inv dbg d s t : md_inv d s -> tri_good t ->
  exists s', md_triangle dbg k drop s t = Ok s' /\ md_inv d s' /\ (md_out s' = md_out s \/ md_out s' = md_emit s).
Proof.
  intros I TG. pose proof I as [NT NB OT OB HT HB N IN SH]. destruct s as [[|a ra] [|b rb] o out]; cbn [md_top md_bottom md_or md_out] in *; try contradiction.
  unfold md_triangle. cbn [md_top md_bottom md_or md_out negb]. replace (check dbg true) with (Ok tt : res unit) by (destruct dbg; reflexivity). cbn [rbind].
  destruct (k_equal k a (t1 t) && k_equal k b (t2 t)) eqn:Em.
  2:{ eexists. split; [reflexivity|]. split; [apply start_shape, TG|right; reflexivity]. }
  apply andb_true_iff in Em as (Em1 & Em2). pose proof TG as [TO TT TP TN TS]. destruct TO as (O12 & O13 & O23). destruct (bef_in _ _ _ O13) as (I1 & I3). destruct (bef_in _ _ _ O23) as (I2 & _).
  unfold poly in IN, N. cbn [md_top md_bottom] in IN, N.
  assert (Ia : In a ord) by (apply IN; left; reflexivity). assert (Ib : In b ord) by (apply IN; apply in_or_app; right; apply in_rev; rewrite rev_involutive; left; reflexivity).
  apply (kd_equal _ _ _ _ KD) in Em1; [|apply good_in, Ia|apply good_in, I1]. apply (DP _ _ Ia I1) in Em1. apply (kd_equal _ _ _ _ KD) in Em2; [|apply good_in, Ib|apply good_in, I2]. apply (DP _ _ Ib I2) in Em2.
  destruct t as [tag u v p]. unfold tagged in TT. cbn [t1 t2 t3 t_top] in *. subst u v.
  assert (K1 : k_equal k a p = false). { destruct (k_equal k a p) eqn:E; [exfalso|reflexivity]. apply (kd_equal _ _ _ _ KD) in E; [|apply good_in, Ia|apply good_in, I3]. exact (bef_ne _ _ O13 E). }
  assert (K2 : k_equal k b p = false). { destruct (k_equal k b p) eqn:E; [exfalso|reflexivity]. apply (kd_equal _ _ _ _ KD) in E; [|apply good_in, Ib|apply good_in, I3]. exact (bef_ne _ _ O23 E). }
  rewrite K1, K2. cbv zeta.
  set (o' := if (o =? 0)%Z then reduce_sign (k_twist k drop b a p) else o) in *.
  set (pt := match ra with a0 :: _ => a0 | [] => last (b :: rb) b end). set (pb := match rb with a0 :: _ => a0 | [] => last (a :: ra) a end).
  assert (L2 : forall (z : P) l, In (last (z :: l) z) (z :: l)). { intros z l. assert (G := app_removelast_last z (l := z :: l) ltac:(discriminate)). rewrite G at 2. apply in_or_app. right. left. reflexivity. }
  assert (INT : forall x, In x (a :: ra) -> In x ord) by (intros x Hx; apply IN, in_or_app; left; exact Hx).
  assert (INB : forall x, In x (b :: rb) -> In x ord) by (intros x Hx; apply IN, in_or_app; right; apply in_rev; rewrite rev_involutive; exact Hx).
  assert (Ipt : In pt ord). { unfold pt. destruct ra as [|a0 ra]; [apply INB, L2|apply INT; right; left; reflexivity]. }
  assert (Ipb : In pb ord). { unfold pb. destruct rb as [|a0 rb]; [apply INT, L2|apply INB; right; left; reflexivity]. }
  assert (OO : (o' = 1 \/ o' = -1 \/ o' = 0)%Z).
  { unfold o'. destruct (Z.eqb_spec o 0) as [->|No].
    - destruct (reduced_sign a b p (good_in _ Ia) (good_in _ Ib) (good_in _ I3)) as [(-> & _)|[(-> & _)|(-> & _)]]; auto.
    - destruct SH as [(C & _)|(s0 & _ & [(_ & ->)|(_ & ->)] & _)]; auto. }
  rewrite (fits_ok o' a b p pt pb OO Ia Ib I3 Ipt Ipb). cbn [rbind].
  destruct ((k_twist k drop a pt p * o' <=? 0)%Z && (0 <=? k_twist k drop b pb p * o')%Z) eqn:EF.
  2:{ eexists. split; [reflexivity|]. split; [apply start_shape, TG|right; reflexivity]. }
  apply andb_true_iff in EF as (EF1 & EF2). apply Z.leb_le in EF1, EF2.
  assert (BT : forall q, In q (a :: ra) -> bef ord q p) by (apply all_before; [exact OT|exact O13]). assert (BB : forall q, In q (b :: rb) -> bef ord q p) by (apply all_before; [exact OB|exact O23]).
  assert (BA : forall q, In q ((a :: ra) ++ rev (b :: rb)) -> bef ord q p). { intros q Hq. apply in_app_or in Hq. destruct Hq as [Hq|Hq]; [apply BT, Hq|apply BB, in_rev, Hq]. }
  assert (Np : ~ In p ((a :: ra) ++ rev (b :: rb))) by (intros C; exact (bef_irrefl ord p ND (BA p C))).
  (* the new polygon *)
  assert (SH' : forall l, (l = p :: (a :: ra) ++ rev (b :: rb) \/ l = ((a :: ra) ++ rev (b :: rb)) ++ [p]) -> shape_of o' (map pos l) (last (a :: ra) d) (last (b :: rb) d)).
  { intros l El.
    assert (Il : forall x, In x l <-> x = p \/ In x ((a :: ra) ++ rev (b :: rb))). { intros x. destruct El as [-> | ->]; [cbn [In]; intuition congruence|]. rewrite in_app_iff. cbn [In]. intuition congruence. }
    unfold poly in SH. cbn [md_top md_bottom] in SH.
    assert (NAB : ~ qp2_eq (pos a) (pos b)) by (intros C; destruct O12 as [O|O]; apply bef_ne in O; apply O; [exact C|split; symmetry; apply C]).
    assert (Ial : In (pos a) (map pos ((a :: ra) ++ rev (b :: rb)))) by (left; reflexivity).
    assert (Ibl : In (pos b) (map pos ((a :: ra) ++ rev (b :: rb)))) by (apply in_map, in_or_app; right; apply in_rev; rewrite rev_involutive; left; reflexivity).
    assert (Sub : incl (map pos ((a :: ra) ++ rev (b :: rb))) (map pos l)). { intros x Hx. apply in_map_iff in Hx as (y & <- & Hy). apply in_map, Il. right. exact Hy. }
    assert (Main : forall s, allowed s -> signed s o' -> start_edge s (last (a :: ra) d) (last (b :: rb) d) -> in_convex_position s (map pos ((a :: ra) ++ rev (b :: rb))) -> in_convex_position s (map pos l)).
    { intros s A SG SE CV. destruct (AL s A) as (S1 & _). assert (S1' : s == 1 \/ s == -1) by (destruct S1 as [-> | ->]; [left|right]; reflexivity).
      assert (FP : ForallOrdPairs (fun u v => 0 <= s * turn u v (pos p)) (map pos (a :: ra) ++ rev (map pos (b :: rb)))).
      { apply (fits_convex s (map pos (a :: ra)) (map pos (b :: rb)) (pos p) S1'); [discriminate|discriminate|apply side_top; assumption|apply side_bottom; assumption| | | |].
        - rewrite (last_map pos (a :: ra) d), (last_map pos (b :: rb) d) by discriminate. exact SE.
        - rewrite <- map_rev, <- map_app. exact CV.
        - assert (E : prev (map pos (a :: ra)) (map pos (b :: rb)) = pos pt). { unfold pt. destruct ra; [apply (last_map pos (b :: rb) b); discriminate|reflexivity]. }
          rewrite E. cbn [map List.hd]. rewrite turn_flip. pose proof (kd_nonneg _ _ _ _ KD a pt p (good_in _ Ia) (good_in _ Ipt) (good_in _ I3)) as H1. pose proof (kd_nonpos _ _ _ _ KD a pt p (good_in _ Ia) (good_in _ Ipt) (good_in _ I3)) as H2.
          destruct SG as [(-> & Eo)|(-> & Eo)]; rewrite Eo in EF1; [assert (G : 0 <= tn a pt p) by (apply H1; lia)|assert (G : tn a pt p <= 0) by (apply H2; lia)]; lra.
        - assert (E : prev (map pos (b :: rb)) (map pos (a :: ra)) = pos pb). { unfold pb. destruct rb; [apply (last_map pos (a :: ra) a); discriminate|reflexivity]. }
          rewrite E. cbn [map List.hd]. rewrite turn_flip. pose proof (kd_nonneg _ _ _ _ KD b pb p (good_in _ Ib) (good_in _ Ipb) (good_in _ I3)) as H1. pose proof (kd_nonpos _ _ _ _ KD b pb p (good_in _ Ib) (good_in _ Ipb) (good_in _ I3)) as H2.
          destruct SG as [(-> & Eo)|(-> & Eo)]; rewrite Eo in EF2; [assert (G : tn b pb p <= 0) by (apply H2; lia)|assert (G : 0 <= tn b pb p) by (apply H1; lia)]; lra. }
      rewrite <- map_rev, <- map_app in FP. destruct El as [-> | ->]; [cbn [map]; apply convex_cons; assumption|]. rewrite map_app. cbn [map]. apply convex_snoc; assumption. }
    unfold o' in *. destruct (Z.eqb_spec o 0) as [Eo|No].
    - destruct SH as [(_ & F & SE)|(s0 & _ & [(_ & C)|(_ & C)] & _)]; [|lia|lia].
      destruct (reduced_sign a b p (good_in _ Ia) (good_in _ Ib) (good_in _ I3)) as [(E & T)|[(E & T)|(E & T)]]; rewrite E in *.
      + right. exists 1. split; [apply TP, T|]. split; [left; split; reflexivity|]. split; [apply Main; [apply TP, T|left; split; reflexivity|apply SE, TP, T|apply flat_convex, F]|]. split; [|apply SE, TP, T].
        exists (pos a), (pos b), (pos p). split; [apply Sub, Ial|]. split; [apply Sub, Ibl|]. split; [apply in_map, Il; left; reflexivity|]. lra.
      + right. exists (-1). split; [apply TN, T|]. split; [right; split; reflexivity|]. split; [apply Main; [apply TN, T|right; split; reflexivity|apply SE, TN, T|apply flat_convex, F]|]. split; [|apply SE, TN, T].
        exists (pos a), (pos b), (pos p). split; [apply Sub, Ial|]. split; [apply Sub, Ibl|]. split; [apply in_map, Il; left; reflexivity|]. lra.
      + left. split; [reflexivity|]. split; [|exact SE]. apply (flat_incl _ (pos p :: map pos ((a :: ra) ++ rev (b :: rb)))).
        * intros x Hx. apply in_map_iff in Hx as (y & <- & Hy). apply Il in Hy. destruct Hy as [->|Hy]; [left; reflexivity|right; apply in_map, Hy].
        * exact (flat_more _ _ _ _ F Ial Ibl NAB T).
    - destruct SH as [(C & _)|(s0 & A & SG & CV & NL & SE)]; [contradiction|]. right. exists s0. split; [exact A|]. split; [exact SG|]. split; [apply Main; assumption|]. split; [|exact SE]. exact (not_in_line_incl _ _ Sub NL). }
  assert (LL : forall x z (l : list P), last (x :: z :: l) d = last (z :: l) d) by reflexivity.
  destruct tag; (eexists; split; [reflexivity|]); (split; [|left; reflexivity]); split; cbn [md_top md_bottom md_or md_out]; unfold poly; cbn [md_top md_bottom]; try discriminate; try assumption.
  - constructor; [apply Forall_forall; exact BT|exact OT].
  - intros x y H. destruct H as (l1 & l2 & E). destruct l1 as [|z l1]; [injection E as <- _; exact TT|]. injection E as _ E. apply (HT x y). exists l1, l2. exact E.
  - cbn [app]. constructor; assumption.
  - intros x [<-|Hx]; [exact I3|apply IN, Hx].
  - rewrite LL. apply SH'. left. reflexivity.
  - constructor; [apply Forall_forall; exact BB|exact OB].
  - intros x y H. destruct H as (l1 & l2 & E). destruct l1 as [|z l1]; [injection E as <- _; exact TT|]. injection E as _ E. apply (HB x y). exists l1, l2. exact E.
  - change (rev (p :: b :: rb)) with (rev (b :: rb) ++ [p]). rewrite app_assoc. apply (Permutation_NoDup (l := p :: (a :: ra) ++ rev (b :: rb))); [apply Permutation_cons_append|constructor; assumption].
  - change (rev (p :: b :: rb)) with (rev (b :: rb) ++ [p]). rewrite app_assoc. intros x Hx. apply in_app_or in Hx. destruct Hx as [Hx|[<-|[]]]; [apply IN, Hx|exact I3].
  - rewrite LL. apply SH'. right. change (rev (p :: b :: rb)) with (rev (b :: rb) ++ [p]). apply app_assoc.
Qed.
Definition all_oriented (out : list (Z * list P)) : Prop := Forall (fun e => oriented_in (fst e) (map pos (snd e))) out.
Lemma emit_oriented d s : md_inv d s -> all_oriented (md_out s) -> all_oriented (md_emit s).
Proof. intros I O. unfold md_emit. apply Forall_app. split; [exact O|]. constructor; [|constructor]. cbn [fst snd]. exact (inv_oriented d s I). Qed.
Theorem triangles_oriented dbg d : forall ts s, md_inv d s -> all_oriented (md_out s) -> Forall tri_good ts ->
  exists s', md_triangles dbg k drop s ts = Ok s' /\ all_oriented (md_emit s').
Proof.
  induction ts as [|t ts IH]; intros s I O F; cbn [md_triangles].
  - exists s. split; [reflexivity|exact (emit_oriented d s I O)].
  - inversion F as [|? ? F1 F2]; subst. destruct (step_inv dbg d s t I F1) as (s1 & E1 & I1 & H1). rewrite E1. cbn [rbind]. apply (IH s1 I1); [|exact F2].
    destruct H1 as [-> | ->]; [exact O|exact (emit_oriented d s I O)].
Qed.
Theorem fold_oriented dbg ts : Forall tri_good ts -> exists s', md_triangles dbg k drop (MD [] [] 0 []) ts = Ok s' /\ all_oriented (md_emit s').
Proof.
  intros F. destruct ts as [|t ts]; cbn [md_triangles].
  - eexists. split; [reflexivity|]. constructor; [|constructor]. split; [|split; discriminate]. right; right. split; [reflexivity|]. intros a b c [].
  - inversion F as [|? ? F1 F2]; subst. cbn [md_triangle md_top md_out rbind]. apply (triangles_oriented dbg (t1 t)); [apply start_shape, F1|constructor|exact F2].
Qed.
End Inv.
