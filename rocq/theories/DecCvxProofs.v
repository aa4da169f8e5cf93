(** When a vertex can be added to a convex polygon bounded by two chains. *)
From Coq Require Import List ZArith QArith Lia Lqa Bool.
From Verif Require Import BigUIntModel GeoModel GeoSpec CvxSpec TriModel TriSpec PolySpec CvxProofs.
Import ListNotations.
Open Scope Q_scope.
Notation X p := (qx2 p).
Notation Y p := (qy2 p).
Definition adj {A} (l : list A) (a b : A) : Prop := exists l1 l2, l = l1 ++ a :: b :: l2.
Definition adj3 {A} (l : list A) (a b c : A) : Prop := exists l1 l2, l = l1 ++ a :: b :: c :: l2.
Lemma adj_cons {A} (x : A) l a b : adj l a b -> adj (x :: l) a b.
Proof. intros (l1 & l2 & ->). exists (x :: l1), l2. reflexivity. Qed.
Lemma adj3_cons {A} (x : A) l a b c : adj3 l a b c -> adj3 (x :: l) a b c.
Proof. intros (l1 & l2 & ->). exists (x :: l1), l2. reflexivity. Qed.
Lemma adj_in {A} (l : list A) a b : adj l a b -> In a l /\ In b l.
Proof. intros (l1 & l2 & ->). split; apply in_or_app; right; [left|right; left]; reflexivity. Qed.
Lemma adj3_adj {A} (l : list A) a b c : adj3 l a b c -> adj l a b /\ adj l b c.
Proof. intros (l1 & l2 & ->). split; [exists l1, (c :: l2); reflexivity|exists (l1 ++ [a]), l2; rewrite <- app_assoc; reflexivity]. Qed.
Lemma adj_rev {A} (l : list A) a b : adj (rev l) a b -> adj l b a.
Proof. intros (l1 & l2 & E). exists (rev l2), (rev l1). rewrite <- (rev_involutive l), E, rev_app_distr. cbn [rev]. rewrite <- !app_assoc. reflexivity. Qed.
Lemma adj_app {A} (l m : list A) a b : adj (l ++ m) a b -> adj l a b \/ adj m a b \/ ((exists l', l = l' ++ [a]) /\ exists m', m = b :: m').
Proof.
  intros (l1 & l2 & E). revert l1 E. induction l as [|x l IH]; intros l1 E.
  - right; left. exists l1, l2. exact E.
  - destruct l1 as [|y l1].
    + cbn [app] in E. injection E as -> E. destruct l as [|z l].
      * cbn [app] in E. right; right. split; [exists []; reflexivity|exists l2; exact E].
      * cbn [app] in E. injection E as -> E. left. exists [], l. reflexivity.
    + cbn [app] in E. injection E as -> E. destruct (IH l1 E) as [H|[H|((l' & ->) & H)]]; [left; apply adj_cons, H|right; left; exact H|].
      right; right. split; [exists (y :: l'); reflexivity|exact H].
Qed.
(** ** Arithmetic of four points *)
Lemma chain s a b c p : (s == 1 \/ s == -1) -> X a <= X b -> X b <= X c -> X c <= X p -> ~ qp2_eq b c -> s * turn a b c <= 0 -> s * turn b c p <= 0 ->
  (X a == X b -> X b == X c -> 0 < s * (Y c - Y b) -> 0 < s * (Y b - Y a)) -> (X b == X c -> X c == X p -> s * (Y c - Y b) < 0 -> s * (Y p - Y c) < 0) -> s * turn a b p <= 0.
Proof.
  intros S X1 X2 X3 N T1 T2 H1 H2.
  assert (E1 : s * turn a b c == (X b - X a) * (s * (Y c - Y b)) - s * (Y b - Y a) * (X c - X b)) by (unfold turn, qcross2, qsub2; cbn; ring).
  assert (E2 : s * turn b c p == (X c - X b) * (s * (Y p - Y c)) - s * (Y c - Y b) * (X p - X c)) by (unfold turn, qcross2, qsub2; cbn; ring).
  assert (E3 : s * turn a b p == (X b - X a) * (s * (Y c - Y b) + s * (Y p - Y c)) - s * (Y b - Y a) * ((X c - X b) + (X p - X c))) by (unfold turn, qcross2, qsub2; cbn; ring).
  rewrite E1 in T1. rewrite E2 in T2. rewrite E3. clear E1 E2 E3.
  assert (N' : X b == X c -> ~ s * (Y c - Y b) == 0). { intros E C. apply N. split; [exact E|]. destruct S as [S|S]; rewrite S in C; lra. }
  assert (D : forall u v, u == v <-> v - u == 0) by (intros; split; intros; lra). rewrite D in N', H1, H2. rewrite (D (X b) (X c)) in H1. rewrite (D (X c) (X p)) in H2.
  assert (L : forall u v, u <= v <-> 0 <= v - u) by (intros; split; intros; lra). rewrite L in X1, X2, X3.
  set (x1 := X b - X a) in *. set (x2 := X c - X b) in *. set (x3 := X p - X c) in *. set (y1 := s * (Y b - Y a)) in *. set (y2 := s * (Y c - Y b)) in *. set (y3 := s * (Y p - Y c)) in *.
  clearbody x1 x2 x3 y1 y2 y3. destruct (Qlt_le_dec 0 x2) as [P2|P2].
  - assert (I : (x1 * (y2 + y3) - y1 * (x2 + x3)) * x2 == x1 * (x2 * y3 - y2 * x3) + (x1 * y2 - y1 * x2) * (x2 + x3)) by ring.
    destruct (Qlt_le_dec 0 (x1 * (y2 + y3) - y1 * (x2 + x3))) as [C|C]; [exfalso|exact C]. set (g := x1 * (y2 + y3) - y1 * (x2 + x3)) in *. clearbody g. nra.
  - assert (Z2 : x2 == 0) by lra. specialize (N' Z2). rewrite Z2 in *. destruct (Qlt_le_dec 0 y2) as [P|P].
    + assert (Z1 : x1 == 0) by nra. specialize (H1 Z1 (Qeq_refl 0) P). rewrite Z1. nra.
    + assert (P' : y2 < 0) by lra. assert (Z3 : x3 == 0) by nra. specialize (H2 (Qeq_refl 0) Z3 P'). rewrite Z3. nra.
Qed.
(** u comes before v in the order of directions from p, which is to the right of
    both. *)
Definition ahead (s : Q) (p u v : qpoint2) : Prop :=
  (X u <= X p /\ ~ qp2_eq u p) /\ (X v <= X p /\ ~ qp2_eq v p) /\ 0 <= s * turn u v p /\ ~ (X u == X p /\ X v == X p /\ s * (Y u - Y p) < 0 /\ 0 < s * (Y v - Y p)).
Lemma ahead_trans s p u v w : (s == 1 \/ s == -1) -> ahead s p u v -> ahead s p v w -> ahead s p u w.
Proof.
  intros S (U & V & T1 & N1) (_ & W & T2 & N2). split; [exact U|]. split; [exact W|]. destruct U as (Xu & Nu), V as (Xv & Nv), W as (Xw & Nw).
  assert (E1 : s * turn u v p == (X u - X p) * (s * (Y v - Y p)) - s * (Y u - Y p) * (X v - X p)) by (unfold turn, qcross2, qsub2; cbn; ring).
  assert (E2 : s * turn v w p == (X v - X p) * (s * (Y w - Y p)) - s * (Y v - Y p) * (X w - X p)) by (unfold turn, qcross2, qsub2; cbn; ring).
  assert (E3 : s * turn u w p == (X u - X p) * (s * (Y w - Y p)) - s * (Y u - Y p) * (X w - X p)) by (unfold turn, qcross2, qsub2; cbn; ring).
  rewrite E1 in T1. rewrite E2 in T2. rewrite E3. clear E1 E2 E3.
  assert (NZ : forall q, ~ qp2_eq q p -> ~ (X q - X p == 0 /\ s * (Y q - Y p) == 0)). { intros q Nq (C1 & C2). apply Nq. split; [lra|]. destruct S as [S|S]; rewrite S in C2; lra. }
  apply NZ in Nu, Nv, Nw. clear NZ S. assert (D : forall q, X q == X p <-> X q - X p == 0) by (intros; split; intros; lra). rewrite !D in *. clear D.
  assert (L : forall q, X q <= X p <-> X q - X p <= 0) by (intros; split; intros; lra). rewrite L in *.
  set (a := X u - X p) in *. set (c := X v - X p) in *. set (e := X w - X p) in *. set (b := s * (Y u - Y p)) in *. set (d := s * (Y v - Y p)) in *. set (f := s * (Y w - Y p)) in *. clearbody a b c d e f. clear L.
  destruct (Qlt_le_dec c 0) as [C|C].
  - split.
    + destruct (Qlt_le_dec (a * f - b * e) 0) as [G|G]; [exfalso|exact G].
      assert (I : c * (a * f - b * e) == a * (c * f - d * e) + e * (a * d - b * c)) by ring. set (g := a * f - b * e) in *. clearbody g. nra.
    + intros (Za & Ze & B & F). rewrite Za in T1. nra.
  - assert (Zc : c == 0) by lra. rewrite Zc in *. destruct (Qlt_le_dec 0 d) as [P|P].
    + assert (Za : a == 0) by nra. assert (B : 0 < b). { destruct (Qlt_le_dec 0 b) as [B|B]; [exact B|]. exfalso. destruct (Qlt_le_dec b 0) as [B'|B']; [apply N1; repeat split; assumption|]. apply Nu. split; lra. }
      split; [rewrite Za; nra|]. intros (_ & _ & B' & _). lra.
    + assert (P' : d < 0). { destruct (Qlt_le_dec d 0) as [Q|Q]; [exact Q|]. exfalso. apply Nv. split; lra. }
      assert (Ze : e == 0) by nra. assert (F : f < 0). { destruct (Qlt_le_dec f 0) as [F|F]; [exact F|]. exfalso. destruct (Qlt_le_dec 0 f) as [F'|F']; [apply N2; repeat split; assumption|]. apply Nw. split; lra. }
      split; [rewrite Ze; nra|]. intros (_ & _ & _ & F'). lra.
Qed.
Lemma ahead_pairs s p : (s == 1 \/ s == -1) -> forall l, (forall a b, adj l a b -> ahead s p a b) -> ForallOrdPairs (fun u v => 0 <= s * turn u v p) l.
Proof.
  intros S l H.
  assert (G : ForallOrdPairs (ahead s p) l).
  { induction l as [|a l IH]; [constructor|]. assert (IH' : ForallOrdPairs (ahead s p) l) by (apply IH; intros x y Hxy; apply H, adj_cons, Hxy). constructor; [|exact IH'].
    destruct l as [|b l]; [constructor|]. assert (AB : ahead s p a b) by (apply H; exists [], l; reflexivity). constructor; [exact AB|].
    inversion IH' as [|? ? F _]; subst. eapply Forall_impl; [|exact F]. intros z Hz. exact (ahead_trans s p a b z S AB Hz). }
  clear H. induction G as [|a l F _ IH]; constructor; [|exact IH]. eapply Forall_impl; [|exact F]. intros z (_ & _ & Hz & _). exact Hz.
Qed.
(** ** One side of the polygon, its newest vertex first *)
Record side_ok (s : Q) (L : list qpoint2) (p : qpoint2) : Prop := SideOk {
  so_x : forall c b, adj L c b -> X b <= X c /\ ~ qp2_eq b c;
  so_p : forall q, In q L -> X q <= X p /\ ~ qp2_eq q p;
  so_run : forall c b a, adj3 L c b a -> X a == X b -> X b == X c -> 0 < s * (Y c - Y b) -> 0 < s * (Y b - Y a);
  so_on : forall c b, adj L c b -> X b == X c -> X c == X p -> s * (Y c - Y b) < 0 -> s * (Y p - Y c) < 0 }.
Lemma side_tail s x L p : side_ok s (x :: L) p -> side_ok s L p.
Proof.
  intros [H1 H2 H3 H4]. split.
  - intros c b H. apply H1, adj_cons, H.
  - intros q H. apply H2. right. exact H.
  - intros c b a H. apply H3, adj3_cons, H.
  - intros c b H. apply H4, adj_cons, H.
Qed.
Lemma side_edges s p : (s == 1 \/ s == -1) -> forall L, side_ok s L p -> (forall c b a, adj3 L c b a -> s * turn a b c <= 0) ->
  (forall c b L', L = c :: b :: L' -> s * turn b c p <= 0) -> forall c b, adj L c b -> s * turn b c p <= 0.
Proof.
  intros S. induction L as [|c0 [|b0 L] IH]; intros O T F c b (l1 & l2 & E).
  - destruct l1; discriminate.
  - destruct l1 as [|? [|]]; discriminate.
  - assert (T0 : s * turn b0 c0 p <= 0) by (apply (F c0 b0 L eq_refl)). destruct l1 as [|x l1].
    + cbn [app] in E. injection E as <- <- <-. exact T0.
    + cbn [app] in E. injection E as <- E. apply (IH (side_tail _ _ _ _ O)).
      * intros c1 b1 a1 H. apply T, adj3_cons, H.
      * intros c1 b1 L' E'. injection E' as <- ->.
        assert (A3 : adj3 (c0 :: b0 :: b1 :: L') c0 b0 b1) by (exists [], L'; reflexivity). destruct (adj3_adj _ _ _ _ A3) as (A1 & A2).
        destruct (so_x _ _ _ O _ _ A1) as (Xa & Na). destruct (so_x _ _ _ O _ _ A2) as (Xb & _). destruct (so_p _ _ _ O c0) as (Xc & _); [left; reflexivity|].
        apply (chain s b1 b0 c0 p S Xb Xa Xc Na (T _ _ _ A3) T0); [apply (so_run _ _ _ O _ _ _ A3)|apply (so_on _ _ _ O _ _ A1)].
      * exists l1, l2. exact E.
Qed.
(** ** Convex position *)
Lemma convex_cons s p l : in_convex_position s l -> ForallOrdPairs (fun u v => 0 <= s * turn u v p) l -> in_convex_position s (p :: l).
Proof.
  intros C F i j k a b c Hij Hjk Ha Hb Hc. destruct j as [|j]; [lia|]. destruct k as [|k]; [lia|]. cbn [nth_error] in Hb, Hc. destruct i as [|i].
  - cbn in Ha. injection Ha as <-.
    assert (G : 0 <= s * turn b c p). { clear C. revert j k Hij Hjk Hb Hc. induction F as [|x l Fx _ IH]; intros j k Hij Hjk Hb Hc; [destruct j; discriminate|].
      destruct k as [|k]; [lia|]. cbn [nth_error] in Hc. destruct j as [|j].
      - injection Hb as <-. rewrite Forall_forall in Fx. apply Fx. eapply nth_error_In, Hc.
      - apply (IH j k); [lia|lia|exact Hb|exact Hc]. }
    rewrite turn_rot. exact G.
  - apply (C i j k a b c); [lia|lia|exact Ha|exact Hb|exact Hc].
Qed.
Lemma convex_snoc s p l : in_convex_position s l -> ForallOrdPairs (fun u v => 0 <= s * turn u v p) l -> in_convex_position s (l ++ [p]).
Proof.
  intros C F i j k a b c Hij Hjk Ha Hb Hc.
  assert (Lk : (k < length (l ++ [p]))%nat) by (apply nth_error_Some; congruence). rewrite app_length in Lk. cbn [length] in Lk.
  rewrite nth_error_app1 in Ha by lia. rewrite nth_error_app1 in Hb by lia. destruct (Nat.eq_dec k (length l)) as [->|Nk].
  - rewrite nth_error_app2, Nat.sub_diag in Hc by lia. cbn in Hc. injection Hc as <-. clear C Lk Hjk.
    revert i j Hij Ha Hb. induction F as [|x l Fx _ IH]; intros i j Hij Ha Hb; [destruct j; discriminate|]. destruct j as [|j]; [lia|]. cbn [nth_error] in Hb. destruct i as [|i].
    + injection Ha as <-. rewrite Forall_forall in Fx. apply Fx. eapply nth_error_In, Hb.
    + apply (IH i j); [lia|exact Ha|exact Hb].
  - rewrite nth_error_app1 in Hc by lia. exact (C i j k a b c Hij Hjk Ha Hb Hc).
Qed.
Definition prev (L M : list qpoint2) : qpoint2 := match L with _ :: a :: _ => a | _ => last M o2 end.
(** The test of EmitTriangle is enough. *)
Theorem fits_convex s RT RB p : (s == 1 \/ s == -1) -> RT <> [] -> RB <> [] -> side_ok s RT p -> side_ok (- s) RB p ->
  (X (last RT o2) == X (last RB o2) -> 0 < s * (Y (last RT o2) - Y (last RB o2))) -> in_convex_position s (RT ++ rev RB) ->
  s * turn (prev RT RB) (List.hd o2 RT) p <= 0 -> 0 <= s * turn (prev RB RT) (List.hd o2 RB) p ->
  ForallOrdPairs (fun u v => 0 <= s * turn u v p) (RT ++ rev RB).
Proof.
  intros SG NT NB OT OB G2 CV P1 P2. assert (S' : - s == 1 \/ - s == -1) by (destruct SG as [SG|SG]; [right|left]; rewrite SG; reflexivity).
  assert (TT : forall c b a, adj3 RT c b a -> s * turn a b c <= 0).
  { intros c b a (l1 & l2 & E). assert (G : 0 <= s * turn c b a).
    { apply (CV (length l1) (S (length l1)) (S (S (length l1))) c b a); [lia|lia| | |]; rewrite E, <- app_assoc, nth_error_app2 by lia.
      - rewrite Nat.sub_diag. reflexivity.
      - rewrite Nat.sub_succ_l, Nat.sub_diag by lia. reflexivity.
      - rewrite !Nat.sub_succ_l, Nat.sub_diag by lia. reflexivity. }
    assert (Et : turn a b c == - turn c b a) by (unfold turn, qcross2, qsub2; cbn; ring). rewrite Et. lra. }
  assert (TB : forall c b a, adj3 RB c b a -> (- s) * turn a b c <= 0).
  { intros c b a (l1 & l2 & E). assert (Er : RT ++ rev RB = (RT ++ rev l2) ++ a :: b :: c :: rev l1). { rewrite E, rev_app_distr. cbn [rev]. rewrite <- !app_assoc. reflexivity. }
    set (m := RT ++ rev l2) in *. assert (G : 0 <= s * turn a b c).
    { apply (CV (length m) (S (length m)) (S (S (length m))) a b c); [lia|lia| | |]; rewrite Er, nth_error_app2 by lia.
      - rewrite Nat.sub_diag. reflexivity.
      - rewrite Nat.sub_succ_l, Nat.sub_diag by lia. reflexivity.
      - rewrite !Nat.sub_succ_l, Nat.sub_diag by lia. reflexivity. }
    lra. }
  assert (ET : forall c b, adj RT c b -> s * turn b c p <= 0).
  { apply (side_edges s p SG RT OT TT). intros c b L' E. rewrite E in P1. exact P1. }
  assert (EB : forall c b, adj RB c b -> (- s) * turn b c p <= 0).
  { apply (side_edges (- s) p S' RB OB TB). intros c b L' E. rewrite E in P2. cbn [prev List.hd] in P2. lra. }
  apply ahead_pairs; [exact SG|]. intros u v H. destruct (adj_app _ _ _ _ H) as [H1|[H1|((l' & E1) & (m' & E2))]].
  - destruct (adj_in _ _ _ H1) as (Iu & Iv). split; [apply (so_p _ _ _ OT u Iu)|]. split; [apply (so_p _ _ _ OT v Iv)|]. split; [specialize (ET u v H1); rewrite turn_swap in ET; lra|].
    intros (Xu & Xv & D & U). assert (s * (Y u - Y v) < 0) by lra. pose proof (so_on _ _ _ OT u v H1 ltac:(lra) Xu H0). lra.
  - apply adj_rev in H1. destruct (adj_in _ _ _ H1) as (Iv & Iu). split; [apply (so_p _ _ _ OB u Iu)|]. split; [apply (so_p _ _ _ OB v Iv)|]. split; [specialize (EB v u H1); lra|].
    intros (Xu & Xv & D & U). assert (- s * (Y v - Y u) < 0) by lra. pose proof (so_on _ _ _ OB v u H1 ltac:(lra) Xv H0). lra.
  - (* the edge between the oldest vertices *)
    assert (Eu : last RT o2 = u) by (rewrite E1; apply last_last).
    assert (Ev : exists r', RB = r' ++ [v]) by (exists (rev m'); rewrite <- (rev_involutive RB), E2; reflexivity). destruct Ev as (r' & Ev).
    assert (Ev' : last RB o2 = v) by (rewrite Ev; apply last_last). rewrite Eu, Ev' in G2.
    assert (Iu : In u RT) by (rewrite E1; apply in_or_app; right; left; reflexivity). assert (Iv : In v RB) by (rewrite Ev; apply in_or_app; right; left; reflexivity).
    split; [apply (so_p _ _ _ OT u Iu)|]. split; [apply (so_p _ _ _ OB v Iv)|]. split.
    2:{ intros (Xu & Xv & D & U). pose proof (G2 ltac:(lra)). lra. }
    destruct l' as [|t1 l'] using rev_ind.
    { cbn [app] in E1. rewrite E1 in P1. cbn [prev List.hd] in P1. rewrite Ev', turn_swap in P1. lra. }
    clear IHl'. destruct r' as [|b1 r'] using rev_ind.
    { cbn [app] in Ev. rewrite Ev in P2. cbn [prev List.hd] in P2. rewrite Eu in P2. lra. }
    clear IHr'. assert (AT : adj RT t1 u) by (exists l', []; rewrite E1, <- app_assoc; reflexivity). assert (AB : adj RB b1 v) by (exists r', []; rewrite Ev, <- app_assoc; reflexivity).
    destruct (so_x _ _ _ OT _ _ AT) as (Xt & Nt). destruct (so_x _ _ _ OB _ _ AB) as (Xb & Nb).
    destruct (so_p _ _ _ OT t1 (proj1 (adj_in _ _ _ AT))) as (Xt1 & _). destruct (so_p _ _ _ OB b1 (proj1 (adj_in _ _ _ AB))) as (Xb1 & _).
    assert (EQ : RT ++ rev RB = l' ++ t1 :: u :: v :: b1 :: rev r'). { rewrite E1, Ev, !rev_app_distr. cbn [rev app]. rewrite <- !app_assoc. reflexivity. }
    destruct (Qlt_le_dec (X v) (X u)) as [L|L].
    + assert (G : 0 <= s * turn t1 u v).
      { apply (CV (length l') (S (length l')) (S (S (length l'))) t1 u v); [lia|lia| | |]; rewrite EQ, nth_error_app2 by lia.
        - rewrite Nat.sub_diag. reflexivity.
        - rewrite Nat.sub_succ_l, Nat.sub_diag by lia. reflexivity.
        - rewrite !Nat.sub_succ_l, Nat.sub_diag by lia. reflexivity. }
      assert (G' : s * turn v u p <= 0).
      { apply (chain s v u t1 p SG ltac:(lra) Xt Xt1 Nt); [|apply (ET t1 u AT)| |apply (so_on _ _ _ OT _ _ AT)].
        - assert (Et : turn v u t1 == - turn t1 u v) by (unfold turn, qcross2, qsub2; cbn; ring). rewrite Et. lra.
        - intros C. lra. }
      rewrite turn_swap in G'. lra.
    + assert (G : 0 <= s * turn u v b1).
      { apply (CV (S (length l')) (S (S (length l'))) (S (S (S (length l')))) u v b1); [lia|lia| | |]; rewrite EQ, nth_error_app2 by lia.
        - rewrite !Nat.sub_succ_l, Nat.sub_diag by lia. reflexivity.
        - rewrite !Nat.sub_succ_l, Nat.sub_diag by lia. reflexivity.
        - rewrite !Nat.sub_succ_l, Nat.sub_diag by lia. reflexivity. }
      assert (G' : (- s) * turn u v p <= 0).
      { apply (chain (- s) u v b1 p S' L Xb Xb1 Nb); [lra|apply (EB b1 v AB)| |apply (so_on _ _ _ OB _ _ AB)].
        intros E _ _. specialize (G2 E). lra. }
      lra.
Qed.
(** Points on one line. *)
Definition all_flat (l : list qpoint2) : Prop := forall a b c, In a l -> In b l -> In c l -> turn a b c == 0.
Lemma flat_more l u v p : all_flat l -> In u l -> In v l -> ~ qp2_eq u v -> turn u v p == 0 -> all_flat (p :: l).
Proof.
  intros F Iu Iv N T.
  assert (On : forall a, In a (p :: l) -> turn u v a == 0) by (intros a [<-|Ha]; [exact T|apply F; assumption]).
  intros a b c Ha Hb Hc. pose proof (On a Ha) as Ta. pose proof (On b Hb) as Tb. pose proof (On c Hc) as Tc.
  assert (N' : ~ (X v - X u == 0 /\ Y v - Y u == 0)) by (intros (C1 & C2); apply N; split; lra).
  assert (I1 : turn a b c * (X v - X u) == (X b - X a) * (turn u v c - turn u v a) - (X c - X a) * (turn u v b - turn u v a)) by (unfold turn, qcross2, qsub2; cbn; ring).
  assert (I2 : turn a b c * (Y v - Y u) == (Y b - Y a) * (turn u v c - turn u v a) - (Y c - Y a) * (turn u v b - turn u v a)) by (unfold turn, qcross2, qsub2; cbn; ring).
  rewrite Ta, Tb, Tc in I1, I2. destruct (Qeq_dec (X v - X u) 0) as [E|E].
  - destruct (Qeq_dec (Y v - Y u) 0) as [E'|E']; [tauto|]. apply (Qmult_inj_r _ _ (Y v - Y u) E'). rewrite I2. ring.
  - apply (Qmult_inj_r _ _ (X v - X u) E). rewrite I1. ring.
Qed.
Lemma flat_convex s l : all_flat l -> in_convex_position s l.
Proof.
  intros F i j k a b c _ _ Ha Hb Hc. rewrite (F a b c) by (eapply nth_error_In; eassumption). lra.
Qed.
