(** Proofs about OrientModel. *)
From Coq Require Import List Bool Arith ZArith QArith Lqa Lia ZifyBool.
From Verif Require Import BigUIntModel GeoModel GeoSpec CvxSpec GeoProofs GeoPluckerProofs TriModel TriSpec TriProofs TriGeoProofs TriTileProofs MonoRangeModel MonoRangeSpec MonoChainProofs MonoLoopProofs
  DecModel DecSpec DecProofs DecOrdProofs DecInvProofs DecTopProofs OrientModel OrientSpec.
Import ListNotations.
Open Scope Q_scope.
(** What DetectOrientation needs of a point type. *)
Record kind_orient {P} (k : kind P) (mono : nat) (good : P -> Prop) (pos : P -> qpoint2) : Prop := KindOrient {
  kr_le : forall a b, good a -> good b -> (k_compare k mono a b <= 0)%Z <-> qx2 (pos a) <= qx2 (pos b);
  kr_refl : forall a, good a -> k_equal k a a = true }.
Section Detect.
Context {P : Type} (k : kind P) (drop mono : nat) (good : P -> Prop) (pos : P -> qpoint2) (KD : kind_dec k drop good pos) (KR : kind_orient k mono good pos).
Notation X p := (qx2 (pos p)).
Notation Y p := (qy2 (pos p)).
Notation tn a b c := (turn (pos a) (pos b) (pos c)).
Notation sorted := (ForallOrdPairs (fun a b => X a <= X b)).
Lemma twist_zero c a b : good c -> good a -> good b -> k_twist k drop c a b = 0%Z <-> tn c a b == 0.
Proof.
  intros Gc Ga Gb. pose proof (kd_nonneg _ _ _ _ KD c a b Gc Ga Gb) as H1. pose proof (kd_nonpos _ _ _ _ KD c a b Gc Ga Gb) as H2. split; intros H.
  - assert (0 <= tn c a b) by (apply H1; lia). assert (tn c a b <= 0) by (apply H2; lia). lra.
  - assert (0 <= k_twist k drop c a b)%Z by (apply H1; lra). assert (k_twist k drop c a b <= 0)%Z by (apply H2; lra). lia.
Qed.
Lemma twist_pos c a b : good c -> good a -> good b -> (0 < k_twist k drop c a b)%Z <-> 0 < tn c a b.
Proof. intros Gc Ga Gb. pose proof (kd_nonpos _ _ _ _ KD c a b Gc Ga Gb) as H2. split; intros H; [apply Qnot_le_lt|apply Z.nle_gt]; intros C; apply H2 in C; [lia|lra]. Qed.
Lemma twist_neg c a b : good c -> good a -> good b -> (k_twist k drop c a b < 0)%Z <-> tn c a b < 0.
Proof. intros Gc Ga Gb. pose proof (kd_nonneg _ _ _ _ KD c a b Gc Ga Gb) as H2. split; intros H; [apply Qnot_le_lt|apply Z.nle_gt]; intros C; apply H2 in C; [lia|lra]. Qed.
Lemma sorted_tail a l : sorted (a :: l) -> sorted l.
Proof. intros H. inversion H. assumption. Qed.
Lemma sorted_head a l x : sorted (a :: l) -> In x (a :: l) -> X a <= X x.
Proof. intros H [<-|Hx]; [apply Qle_refl|]. inversion H as [|? ? F ?]; subst. rewrite Forall_forall in F. apply F. exact Hx. Qed.
Lemma sorted_last l z x : sorted (l ++ [z]) -> In x (l ++ [z]) -> X x <= X z.
Proof.
  induction l as [|a l IH]; intros H Hx; cbn [app] in *.
  - destruct Hx as [<-|[]]. apply Qle_refl.
  - destruct Hx as [<-|Hx]; [|apply IH; [eapply sorted_tail; exact H|exact Hx]]. eapply sorted_head; [exact H|]. right. apply in_or_app. right. left. reflexivity.
Qed.
Notation loop := (od_loop _ k drop mono).
Lemma loop_step dbg m col p1 c1 p2 c2 : od_loop dbg k drop mono m col (p1 :: c1) (p2 :: c2) =
  if (k_compare k mono p1 p2 <=? 0)%Z then
    if (k_twist k drop m col p1 =? 0)%Z then od_loop dbg k drop mono m col c1 (p2 :: c2) else Ok (Some (Bool.eqb true (0 <? k_twist k drop m col p1)%Z))
  else if (k_twist k drop m col p2 =? 0)%Z then od_loop dbg k drop mono m col (p1 :: c1) c2 else Ok (Some (Bool.eqb false (0 <? k_twist k drop m col p2)%Z)).
Proof. reflexivity. Qed.
(** What the loop finds is off the line, and no vertex of the other chain that is
    off the line comes before it. *)
Lemma loop_sound dbg m col b : forall c1 c2, Forall good c1 -> Forall good c2 -> sorted c1 -> sorted c2 -> od_loop dbg k drop mono m col c1 c2 = Ok (Some b) ->
  exists (w : bool) v, In v (if w then c1 else c2) /\ k_twist k drop m col v <> 0%Z /\ b = Bool.eqb w (0 <? k_twist k drop m col v)%Z /\
    forall p, In p (if w then c2 else c1) -> k_twist k drop m col p <> 0%Z -> if w then X v <= X p else X v < X p.
Proof.
  induction c1 as [|p1 c1 IH1].
  - intros c2 _ _ _ _ E. destruct c2 as [|? [|? ?]]; cbn in E; [destruct dbg; discriminate|discriminate|destruct dbg; discriminate].
  - induction c2 as [|p2 c2 IH2]; intros G1 G2 S1 S2 E; [cbn in E; destruct dbg; discriminate|]. rewrite loop_step in E.
    assert (Gp1 : good p1) by (inversion G1; assumption). assert (Gp2 : good p2) by (inversion G2; assumption).
    pose proof (kr_le _ _ _ _ KR p1 p2 Gp1 Gp2) as LE. destruct (k_compare k mono p1 p2 <=? 0)%Z eqn:C.
    + assert (L : X p1 <= X p2) by (apply LE; lia). destruct (Z.eqb_spec (k_twist k drop m col p1) 0) as [Z|N].
      * destruct (IH1 (p2 :: c2) ltac:(inversion G1; assumption) G2 (sorted_tail _ _ S1) S2 E) as (w & v & H1 & H2 & H3 & H4). exists w, v. split; [destruct w; [right|]; exact H1|]. split; [exact H2|]. split; [exact H3|].
        intros p Hp Np. apply H4; [|exact Np]. destruct w; [exact Hp|]. destruct Hp as [<-|Hp]; [contradiction|exact Hp].
      * injection E as <-. exists true, p1. split; [left; reflexivity|]. split; [exact N|]. split; [reflexivity|]. intros p Hp _. pose proof (sorted_head _ _ _ S2 Hp). lra.
    + assert (L : X p2 < X p1) by (apply Qnot_le_lt; intros C'; apply LE in C'; lia). destruct (Z.eqb_spec (k_twist k drop m col p2) 0) as [Z|N].
      * destruct (IH2 G1 ltac:(inversion G2; assumption) S1 (sorted_tail _ _ S2) E) as (w & v & H1 & H2 & H3 & H4). exists w, v. split; [destruct w; [|right]; exact H1|]. split; [exact H2|]. split; [exact H3|].
        intros p Hp Np. apply H4; [|exact Np]. destruct w; [|exact Hp]. destruct Hp as [<-|Hp]; [contradiction|exact Hp].
      * injection E as <-. exists false, p2. split; [left; reflexivity|]. split; [exact N|]. split; [reflexivity|]. intros p Hp _. pose proof (sorted_head _ _ _ S1 Hp). lra.
Qed.
(** It finds one if there is one that is not on the last vertical line. *)
Lemma loop_finds dbg m col mx v : k_twist k drop m col v <> 0%Z -> X v < X mx \/ v = mx -> forall c1 c2, Forall good (c1 ++ [mx]) -> Forall good (c2 ++ [mx]) -> sorted (c1 ++ [mx]) -> sorted (c2 ++ [mx]) ->
  In v (c1 ++ [mx]) \/ In v (c2 ++ [mx]) -> exists b, od_loop dbg k drop mono m col (c1 ++ [mx]) (c2 ++ [mx]) = Ok (Some b).
Proof.
  intros NV V. induction c1 as [|p1 c1 IH1]; induction c2 as [|p2 c2 IH2]; intros G1 G2 S1 S2 Hv.
  - cbn [app]. rewrite loop_step. cbn [app In] in Hv. assert (v = mx) as -> by intuition congruence. apply Z.eqb_neq in NV. rewrite NV. destruct (_ <=? 0)%Z; eexists; reflexivity.
  - cbn [app] in *. rewrite loop_step. assert (Gm : good mx) by (inversion G1; assumption). assert (Gp2 : good p2) by (inversion G2; assumption).
    pose proof (kr_le _ _ _ _ KR mx p2 Gm Gp2) as LE. destruct (k_compare k mono mx p2 <=? 0)%Z eqn:C.
    + assert (L : X mx <= X p2) by (apply LE; lia). assert (v = mx) as ->.
      { destruct V as [V|V]; [|exact V]. exfalso. destruct Hv as [[<-|[]]|Hv]; [lra|]. pose proof (sorted_head _ _ _ S2 Hv). lra. }
      apply Z.eqb_neq in NV. rewrite NV. eexists. reflexivity.
    + destruct (Z.eqb_spec (k_twist k drop m col p2) 0) as [Z|N]; [|eexists; reflexivity]. apply IH2; [exact G1|inversion G2; assumption|exact S1|eapply sorted_tail; exact S2|].
      destruct Hv as [Hv|[<-|Hv]]; [left; exact Hv|contradiction|right; exact Hv].
  - cbn [app] in *. rewrite loop_step. assert (Gm : good mx) by (inversion G2; assumption). assert (Gp1 : good p1) by (inversion G1; assumption).
    pose proof (kr_le _ _ _ _ KR p1 mx Gp1 Gm) as LE. assert (L : X p1 <= X mx) by (apply (sorted_last (p1 :: c1) mx); [exact S1|left; reflexivity]).
    apply LE in L. assert (C : (k_compare k mono p1 mx <=? 0)%Z = true) by lia. rewrite C.
    destruct (Z.eqb_spec (k_twist k drop m col p1) 0) as [Z|N]; [|eexists; reflexivity]. apply (IH1 []); [inversion G1; assumption|exact G2|eapply sorted_tail; exact S1|exact S2|].
    destruct Hv as [[<-|Hv]|Hv]; [contradiction|left; exact Hv|right; exact Hv].
  - cbn [app] in *. rewrite loop_step. destruct (k_compare k mono p1 p2 <=? 0)%Z eqn:C.
    + destruct (Z.eqb_spec (k_twist k drop m col p1) 0) as [Z|N]; [|eexists; reflexivity]. apply (IH1 (p2 :: c2)); [inversion G1; assumption|exact G2|eapply sorted_tail; exact S1|exact S2|].
      destruct Hv as [[<-|Hv]|Hv]; [contradiction|left; exact Hv|right; exact Hv].
    + destruct (Z.eqb_spec (k_twist k drop m col p2) 0) as [Z|N]; [|eexists; reflexivity]. apply IH2; [exact G1|inversion G2; assumption|exact S1|eapply sorted_tail; exact S2|].
      destruct Hv as [Hv|[<-|Hv]]; [left; exact Hv|contradiction|right; exact Hv].
Qed.
(** It finds none if all are on the line. *)
Lemma loop_flat m col mx : forall c1 c2, Forall good (c1 ++ [mx]) -> Forall good (c2 ++ [mx]) -> sorted (c1 ++ [mx]) -> sorted (c2 ++ [mx]) ->
  (forall v, In v (c1 ++ [mx]) \/ In v (c2 ++ [mx]) -> k_twist k drop m col v = 0%Z) -> od_loop false k drop mono m col (c1 ++ [mx]) (c2 ++ [mx]) = Ok None.
Proof.
  assert (END : forall c, od_loop false k drop mono m col [] c = Ok None) by (intros [|? [|? ?]]; reflexivity).
  induction c1 as [|p1 c1 IH1]; induction c2 as [|p2 c2 IH2]; intros G1 G2 S1 S2 F; cbn [app] in *; rewrite loop_step.
  - rewrite !F by (left; left; reflexivity). assert (Gm : good mx) by (inversion G1; assumption). pose proof (proj2 (kr_le _ _ _ _ KR mx mx Gm Gm) (Qle_refl _)) as L. assert (C : (k_compare k mono mx mx <=? 0)%Z = true) by lia. rewrite C. apply END.
  - rewrite (F mx), (F p2) by (cbn [In]; tauto). destruct (_ <=? 0)%Z; [apply END|]. apply IH2; [exact G1|inversion G2; assumption|exact S1|eapply sorted_tail; exact S2|]. intros v Hv. apply F. cbn [In]. tauto.
  - assert (Gm : good mx) by (inversion G2; assumption). assert (Gp1 : good p1) by (inversion G1; assumption).
    pose proof (kr_le _ _ _ _ KR p1 mx Gp1 Gm) as LE. assert (L : X p1 <= X mx) by (apply (sorted_last (p1 :: c1) mx); [exact S1|left; reflexivity]).
    apply LE in L. assert (C : (k_compare k mono p1 mx <=? 0)%Z = true) by lia. rewrite C, (F p1) by (cbn [In]; tauto). apply (IH1 []); [inversion G1; assumption|exact G2|eapply sorted_tail; exact S1|exact S2|]. intros v Hv. apply F. cbn [In app] in *. tauto.
  - rewrite (F p1), (F p2) by (cbn [In]; tauto). destruct (_ <=? 0)%Z.
    + apply (IH1 (p2 :: c2)); [inversion G1; assumption|exact G2|eapply sorted_tail; exact S1|exact S2|]. intros v Hv. apply F. cbn [In app] in *. tauto.
    + apply IH2; [exact G1|inversion G2; assumption|exact S1|eapply sorted_tail; exact S2|]. intros v Hv. apply F. cbn [In]. tauto.
Qed.

(** ** DetectOrientation *)
(** Without vertices equal to the minimum. *)
Lemma detect_apart dbg m f1 f2 r1 r2 : good m -> good f1 -> good f2 -> ~ tn m f1 f2 == 0 ->
  od_detect dbg k drop mono (m :: f1 :: r1) (m :: f2 :: r2) = Ok (Some (k_twist k drop m f1 f2 <? 0)%Z).
Proof.
  intros Gm G1 G2 N. unfold od_detect. rewrite (kr_refl _ _ _ _ KR m Gm). assert (Z : (k_twist k drop m f1 f2 =? 0)%Z = false). { apply Z.eqb_neq. intros C. apply N. apply twist_zero; assumption. }
  rewrite Z. destruct dbg; reflexivity.
Qed.
Lemma detect_loop dbg m f1 f2 r1 r2 : good m -> good f1 -> good f2 -> tn m f1 f2 == 0 -> ~ qp2_eq (pos f1) (pos m) -> ~ qp2_eq (pos f2) (pos m) ->
  od_detect dbg k drop mono (m :: f1 :: r1) (m :: f2 :: r2) = od_loop dbg k drop mono m f1 (f1 :: r1) (f2 :: r2).
Proof.
  intros Gm G1 G2 N D1 D2. unfold od_detect. rewrite (kr_refl _ _ _ _ KR m Gm). assert (Z : (k_twist k drop m f1 f2 =? 0)%Z = true). { apply Z.eqb_eq. apply twist_zero; assumption. }
  rewrite Z. assert (E1 : k_equal k f1 m = false). { destruct (k_equal k f1 m) eqn:E; [|reflexivity]. exfalso. apply D1. apply (kd_equal _ _ _ _ KD); assumption. }
  assert (E2 : k_equal k f2 m = false). { destruct (k_equal k f2 m) eqn:E; [|reflexivity]. exfalso. apply D2. apply (kd_equal _ _ _ _ KD); assumption. }
  cbn [od_skip]. rewrite E1, E2. cbn [orb negb]. destruct dbg; reflexivity.
Qed.
End Detect.

(** ** Which chain is the top chain *)
Section Roles.
Context {P : Type} (k : kind P) (drop mono : nat) (good : P -> Prop) (pos : P -> qpoint2) (KD : kind_dec k drop good pos) (KR : kind_orient k mono good pos).
Notation X p := (qx2 (pos p)).
Notation Y p := (qy2 (pos p)).
Notation tn a b c := (turn (pos a) (pos b) (pos c)).
Notation sorted := (ForallOrdPairs (fun a b => X a <= X b)).
Context (m mx f1 f2 : P) (c1 c2 r1 r2 : list P) (E1 : c1 ++ [mx] = f1 :: r1) (E2 : c2 ++ [mx] = f2 :: r2)
  (G1 : Forall good (m :: c1 ++ [mx])) (G2 : Forall good (m :: c2 ++ [mx])) (S1 : sorted (m :: c1 ++ [mx])) (S2 : sorted (m :: c2 ++ [mx])).
Lemma role_good : good m /\ good f1 /\ good f2 /\ Forall good (c1 ++ [mx]) /\ Forall good (c2 ++ [mx]).
Proof.
  pose proof G1 as H1. pose proof G2 as H2. inversion H1 as [|? ? Hm Hc1]; inversion H2 as [|? ? _ Hc2]; subst. split; [exact Hm|]. split; [rewrite E1 in Hc1; inversion Hc1; assumption|]. split; [rewrite E2 in Hc2; inversion Hc2; assumption|]. split; assumption.
Qed.
(** The line through the first edges divides the chains. *)
Lemma role_split dbg (top1 : bool) v : X m < X f1 -> X m < X f2 -> tn m f1 f2 == 0 ->
  (forall p, In p (c1 ++ [mx]) -> if top1 then 0 <= tn m f1 p else tn m f1 p <= 0) -> (forall p, In p (c2 ++ [mx]) -> if top1 then tn m f1 p <= 0 else 0 <= tn m f1 p) ->
  In v (c1 ++ [mx]) \/ In v (c2 ++ [mx]) -> ~ tn m f1 v == 0 -> X v < X mx \/ v = mx ->
  od_detect dbg k drop mono (m :: c1 ++ [mx]) (m :: c2 ++ [mx]) = Ok (Some top1).
Proof.
  intros D1 D2 T A1 A2 Hv Nv V. destruct role_good as (Gm & Gf1 & Gf2 & F1 & F2).
  rewrite E1, E2. rewrite (detect_loop k drop mono good pos KD KR) by (try assumption; intros (C & _); lra). rewrite <- E1, <- E2.
  assert (Gv : good v). { rewrite Forall_forall in F1, F2. destruct Hv; auto. }
  destruct (loop_finds k drop mono good pos KR dbg m f1 mx v) with (c1 := c1) (c2 := c2) as (b & EB); try assumption; try (eapply sorted_tail; eassumption).
  { intros C. apply Nv. apply (twist_zero k drop good pos KD); assumption. }
  rewrite EB. do 2 f_equal. destruct (loop_sound k drop mono good pos KR dbg m f1 b _ _ F1 F2 (sorted_tail pos _ _ S1) (sorted_tail pos _ _ S2) EB) as (w & u & H1 & H2 & -> & _).
  assert (Gu : good u). { rewrite Forall_forall in F1, F2. destruct w; auto. }
  pose proof (twist_pos k drop good pos KD m f1 u Gm Gf1 Gu) as TP. pose proof (twist_zero k drop good pos KD m f1 u Gm Gf1 Gu) as TZ.
  assert (NZ : ~ tn m f1 u == 0) by (intros C; apply H2, TZ, C). set (t := tn m f1 u) in *. set (z := k_twist k drop m f1 u) in *.
  assert (S : if Bool.eqb w top1 then 0 <= t else t <= 0). { destruct w, top1; cbn [Bool.eqb]; (apply A1; exact H1) || (apply A2; exact H1). }
  destruct w, top1; cbn [Bool.eqb] in *; destruct (Z.ltb_spec 0 z) as [L|L]; try reflexivity; exfalso;
    first [assert (0 < t) by (apply TP; exact L); lra|assert (0 < t) by lra; apply TP in H; lia].
Qed.
(** The chains leave straight up and down. *)
Lemma role_vertical dbg (up1 first1 : bool) : X f1 == X m -> X f2 == X m -> (if up1 then Y m < Y f1 else Y f1 < Y m) -> ~ Y f2 == Y m ->
  first_right (map pos (if first1 then m :: c1 ++ [mx] else m :: c2 ++ [mx])) (map pos (if first1 then m :: c2 ++ [mx] else m :: c1 ++ [mx])) (negb first1) ->
  od_detect dbg k drop mono (m :: c1 ++ [mx]) (m :: c2 ++ [mx]) = Ok (Some (Bool.eqb up1 (negb first1))).
Proof.
  intros V1 V2 U N2 (m' & r' & FR1 & FR2 & FR3 & FR4). destruct role_good as (Gm & Gf1 & Gf2 & F1 & F2).
  assert (m' = pos m) as -> by (destruct first1; cbn in FR1; congruence). apply in_map_iff in FR2. destruct FR2 as (r & <- & Hr).
  assert (T : forall p, tn m f1 p == - ((Y f1 - Y m) * (X p - X m))). { intros p. unfold turn, qcross2, qsub2; cbn. rewrite V1. ring. }
  rewrite E1, E2. assert (T0 : tn m f1 f2 == 0) by (rewrite T, V2; ring). assert (NE1 : ~ qp2_eq (pos f1) (pos m)) by (intros (_ & C); destruct up1; lra). assert (NE2 : ~ qp2_eq (pos f2) (pos m)) by (intros (_ & C); lra).
  rewrite (detect_loop k drop mono good pos KD KR) by assumption. rewrite <- E1, <- E2.
  assert (NY : ~ Y f1 - Y m == 0) by (destruct up1; lra).
  assert (OFF : forall p, good p -> k_twist k drop m f1 p <> 0%Z <-> ~ X p == X m).
  { intros p Gp. split; intros H C; apply H.
    - apply (twist_zero k drop good pos KD); [assumption..|]. rewrite T, C. ring.
    - apply (twist_zero k drop good pos KD) in C; [|assumption..]. rewrite T in C. apply Qopp_comp in C. rewrite Qopp_opp in C. apply Qmult_integral in C. destruct C; [contradiction|lra]. }
  assert (Hr' : In r (c1 ++ [mx]) \/ In r (c2 ++ [mx])). { destruct first1, Hr as [<-|Hr]; try lra; [left|right]; exact Hr. }
  assert (Gr : good r). { rewrite Forall_forall in F1, F2. destruct Hr'; auto. }
  assert (GE : forall p, In p (c1 ++ [mx]) \/ In p (c2 ++ [mx]) -> X m <= X p). { intros p [Hp|Hp]; [eapply (sorted_head pos); [exact S1|right; exact Hp]|eapply (sorted_head pos); [exact S2|right; exact Hp]]. }
  assert (RM : X r < X mx \/ X r == X mx). { assert (H : X r <= X mx). { destruct Hr' as [H|H]; [apply (sorted_last pos c1); [eapply sorted_tail; exact S1|exact H]|apply (sorted_last pos c2); [eapply sorted_tail; exact S2|exact H]]. } lra. }
  assert (FD : exists v, k_twist k drop m f1 v <> 0%Z /\ (X v < X mx \/ v = mx) /\ (In v (c1 ++ [mx]) \/ In v (c2 ++ [mx]))).
  { assert (Gmx : good mx). { rewrite Forall_forall in F1. apply F1. apply in_or_app. right. left. reflexivity. }
    destruct RM as [RM|RM]; [exists r|exists mx]; (split; [apply OFF; [assumption|lra]|]); split; auto. left. apply in_or_app. right. left. reflexivity. }
  destruct FD as (v & D1 & D2 & D3). destruct (loop_finds k drop mono good pos KR dbg m f1 mx v D1 D2 c1 c2 F1 F2 (sorted_tail pos _ _ S1) (sorted_tail pos _ _ S2) D3) as (b & EB).
  rewrite EB. do 2 f_equal. destruct (loop_sound k drop mono good pos KR dbg m f1 b _ _ F1 F2 (sorted_tail pos _ _ S1) (sorted_tail pos _ _ S2) EB) as (w & u & H1 & H2 & -> & H4).
  assert (Gu : good u). { rewrite Forall_forall in F1, F2. destruct w; auto. }
  assert (Hu : X m < X u). { assert (X m <= X u) by (apply GE; destruct w; auto). apply (OFF u Gu) in H2. lra. }
  assert (NR : k_twist k drop m f1 r <> 0%Z) by (apply OFF; [exact Gr|lra]).
  assert (W : w = first1).
  { destruct w, first1; try reflexivity; exfalso; cbn [negb] in *; cbn iota in *.
    - destruct Hr as [<-|Hr]; [lra|]. specialize (H4 r Hr NR). specialize (FR4 (pos u) ltac:(apply in_map; right; exact H1) Hu). lra.
    - destruct Hr as [<-|Hr]; [lra|]. specialize (H4 r Hr NR). specialize (FR4 (pos u) ltac:(apply in_map; right; exact H1) Hu). lra. }
  subst w. pose proof (twist_pos k drop good pos KD m f1 u Gm Gf1 Gu) as TP. rewrite T in TP. set (z := k_twist k drop m f1 u) in *.
  assert (Z : (0 <? z)%Z = negb up1). { destruct up1; cbn [negb]; destruct (Z.ltb_spec 0 z) as [L|L]; try reflexivity; exfalso; [apply TP in L; nra|]. assert (0 < z)%Z by (apply TP; nra). lia. }
  rewrite Z. destruct up1, first1; reflexivity.
Qed.
End Roles.
