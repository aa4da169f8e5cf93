(** The triangles of a polygon bounded by two chains that do not cross are
    counter-clockwise. *)
From Coq Require Import List ZArith QArith Lia Lqa Bool.
From Verif Require Import BigUIntModel GeoModel GeoSpec TriModel TriSpec TriProofs.
Import ListNotations.
Open Scope Q_scope.
(** What the operations of a point type have to compute for points that satisfy
    [good], seen at [pos]. *)
Record kind_ok {P} (k : kind P) (drop mono : nat) (good : P -> Prop) (pos : P -> qpoint2) : Prop := KindOk {
  ko_compare : forall a b, good a -> good b -> (k_compare k mono a b < 0)%Z <-> qx2 (pos a) < qx2 (pos b);
  ko_twist : forall c a b, good c -> good a -> good b -> (k_twist k drop c a b <= 0)%Z <-> turn (pos c) (pos a) (pos b) <= 0 }.
Lemma turn_flip a b c : turn b a c == - turn a b c.
Proof. unfold turn, qcross2, qsub2; cbn. ring. Qed.
Lemma turn_flip2 a b c : turn a c b == - turn a b c.
Proof. unfold turn, qcross2, qsub2; cbn. ring. Qed.
(** If v is left of a0 a1 and a1 turns right towards a2, then v is left of a1 a2. *)
Lemma next_left a0 a1 a2 v : qx2 a0 <= qx2 a1 -> qx2 a1 <= qx2 a2 -> qx2 a2 <= qx2 v -> turn a0 a1 a2 < 0 -> 0 <= turn a0 a1 v -> 0 <= turn a1 a2 v.
Proof.
  intros X1 X2 X3 R L.
  assert (Id : turn a1 a2 v * (qx2 a1 - qx2 a0) == - turn a0 a1 a2 * (qx2 v - qx2 a1) + turn a0 a1 v * (qx2 a2 - qx2 a1)) by (unfold turn, qcross2, qsub2; cbn; ring).
  destruct (Qlt_le_dec (qx2 a0) (qx2 a1)) as [Lt|Ge].
  - destruct (Qlt_le_dec (turn a1 a2 v) 0) as [N|N]; [exfalso|exact N]. nra.
  - exfalso. assert (E : qx2 a0 == qx2 a1) by lra.
    assert (R' : turn a0 a1 a2 == - ((qy2 a1 - qy2 a0) * (qx2 a2 - qx2 a0))). { unfold turn, qcross2, qsub2; cbn. rewrite E. ring. }
    assert (L' : turn a0 a1 v == - ((qy2 a1 - qy2 a0) * (qx2 v - qx2 a0))). { unfold turn, qcross2, qsub2; cbn. rewrite E. ring. }
    rewrite R' in R. rewrite L' in L. set (dy := qy2 a1 - qy2 a0) in *. assert (0 < dy) by (destruct (Qlt_le_dec 0 dy); [assumption|nra]). nra.
Qed.
Definition flip_y (q : qpoint2) : qpoint2 := QP2 (qx2 q) (- qy2 q).
Lemma turn_flip_y a b c : turn (flip_y a) (flip_y b) (flip_y c) == - turn a b c.
Proof. unfold turn, qcross2, qsub2, flip_y; cbn. ring. Qed.
Lemma next_right a0 a1 a2 v : qx2 a0 <= qx2 a1 -> qx2 a1 <= qx2 a2 -> qx2 a2 <= qx2 v -> 0 < turn a0 a1 a2 -> turn a0 a1 v <= 0 -> turn a1 a2 v <= 0.
Proof.
  intros X1 X2 X3 R L. pose proof (next_left (flip_y a0) (flip_y a1) (flip_y a2) (flip_y v) X1 X2 X3) as H. rewrite !turn_flip_y in H.
  assert (G : 0 <= - turn a1 a2 v) by (apply H; lra). lra.
Qed.
Section Geo.
Context {P : Type} (k : kind P) (drop mono : nat) (good : P -> Prop) (pos : P -> qpoint2) (K : kind_ok k drop mono good pos) (upright : Prop).
Notation X p := (qx2 (pos p)).
Notation Y p := (qy2 (pos p)).
Notation tn a b c := (turn (pos a) (pos b) (pos c)).
(** a, b, c bends away from the inside. *)
Definition reflex (cur : bool) (a b c : P) : Prop := if cur then 0 < tn a b c else tn a b c < 0.
(** v is not outside of the edge from a to b. *)
Definition sees (cur : bool) (a b v : P) : Prop := if cur then tn a b v <= 0 else 0 <= tn a b v.
(** The triangle is counter-clockwise or flat; and its first corner is above the
    second one on a vertical line, if the chains are. *)
Definition ccw (t : triangle P) : Prop := 0 <= tn (t1 t) (t2 t) (t3 t) /\ (upright -> X (t1 t) == X (t2 t) -> Y (t2 t) <= Y (t1 t)).
(** The newer one of two vertices on a vertical line is further outside. *)
Definition outer (cur : bool) (a b : P) : Prop := upright -> X a == X b -> if cur then Y b <= Y a else Y a <= Y b.
Fixpoint stack_ok (cur : bool) (s : list P) : Prop :=
  match s with
  | a :: (b :: r') as r => X b <= X a /\ match r' with c :: _ => reflex cur c b a | [] => True end /\ stack_ok cur r
  | _ => True
  end.
Lemma stack_cons cur a b r : stack_ok cur (a :: b :: r) <-> X b <= X a /\ match r with c :: _ => reflex cur c b a | [] => True end /\ stack_ok cur (b :: r).
Proof. reflexivity. Qed.
Lemma stack_tail cur a r : stack_ok cur (a :: r) -> stack_ok cur r.
Proof. destruct r as [|b r]; [intros _; exact I|]. rewrite stack_cons. intros (_ & _ & H). exact H. Qed.
Lemma stack_head cur a r y : stack_ok cur (a :: r) -> In y r -> X y <= X a.
Proof.
  revert a. induction r as [|b r IH]; intros a H Hy; [contradiction|]. destruct Hy as [Hy|Hy].
  - subst y. rewrite stack_cons in H. apply H.
  - rewrite stack_cons in H. destruct H as (H1 & _ & H3). specialize (IH b H3 Hy). lra.
Qed.
Lemma pairs_see cur v : forall stack, stack_ok cur stack -> (forall y, In y stack -> X y <= X v) ->
  (forall pre a b, stack = pre ++ [a; b] -> sees cur b a v) -> forall pre a b post, stack = pre ++ a :: b :: post -> sees cur b a v.
Proof.
  intros stack. induction stack as [|a [|b [|c r]] IH]; intros H Hv Hf pre x y post E.
  - destruct pre; discriminate.
  - destruct pre as [|? [|]]; discriminate.
  - apply (Hf pre x y). destruct pre as [|p0 [|p1 [|p2 pre]]]; cbn in E; try discriminate. injection E as -> -> <-. reflexivity.
  - assert (IH' : forall pre x y post, b :: c :: r = pre ++ x :: y :: post -> sees cur y x v).
    { apply IH; [apply (stack_tail cur a), H|intros z Hz; apply Hv; right; exact Hz|]. intros pre' a' b' E'. apply (Hf (a :: pre')). rewrite E'. reflexivity. }
    destruct pre as [|p0 pre].
    + cbn in E. injection E as <- <- <-. pose proof (IH' [] b c r eq_refl) as G. rewrite stack_cons in H. destruct H as (H1 & H2 & H3). rewrite stack_cons in H3. destruct H3 as (H3 & _).
      assert (Xa : X a <= X v) by (apply Hv; left; reflexivity).
      destruct cur; cbn [sees reflex] in *; [apply (next_right (pos c) (pos b) (pos a) (pos v))|apply (next_left (pos c) (pos b) (pos a) (pos v))]; assumption.
    + cbn in E. injection E as _ E. apply (IH' pre x y post E).
Qed.
Lemma pairs_outer cur : forall stack, stack_ok cur stack -> (forall pre a b, stack = pre ++ [a; b] -> outer cur a b) ->
  forall pre a b post, stack = pre ++ a :: b :: post -> outer cur a b.
Proof.
  intros stack H Hf pre a b [|c post] E; [exact (Hf pre a b E)|]. intros _ EX. revert stack H E Hf. induction pre as [|p0 pre IH]; intros stack H E Hf.
  - cbn [app] in E. rewrite E in H. rewrite stack_cons in H. destruct H as (H1 & H2 & H3). rewrite stack_cons in H3. destruct H3 as (H3 & _).
    assert (R : tn c b a == (X b - X c) * (Y a - Y b)). { unfold turn, qcross2, qsub2; cbn. rewrite EX. ring. }
    destruct cur; cbn [reflex] in H2; rewrite R in H2; apply Qnot_lt_le; intros C; nra.
  - destruct stack as [|q stack]; [discriminate|]. cbn [app] in E. injection E as -> E. apply (IH stack (stack_tail cur p0 _ H) E). intros pre' a' b' E'. apply (Hf (p0 :: pre')). rewrite E'. reflexivity.
Qed.
Lemma fan_pairs cur (next : P) : forall l t, In t (fan_out cur next l) -> exists l1 a b l2, l = l1 ++ a :: b :: l2 /\ t = (if cur then Tri (negb cur) b a next else Tri (negb cur) a b next).
Proof.
  induction l as [|a [|b l] IH]; intros t H; [contradiction|contradiction|]. rewrite fan_cons in H. destruct H as [<-|H].
  - exists [], a, b, l. split; reflexivity.
  - destruct (IH t H) as (l1 & a' & b' & l2 & E & Et). exists (a :: l1), a', b', l2. rewrite E. split; [reflexivity|exact Et].
Qed.
Lemma fan_ccw cur v stack : stack_ok cur stack -> (forall y, In y stack -> X y <= X v) -> (forall pre a b, stack = pre ++ [a; b] -> sees cur b a v) ->
  (forall pre a b, stack = pre ++ [a; b] -> outer cur a b) -> Forall ccw (fan_out cur v (rev stack)).
Proof.
  intros H Hv Hf Ho. apply Forall_forall. intros t Ht. destruct (fan_pairs cur v _ t Ht) as (l1 & a & b & l2 & E & ->).
  assert (E' : stack = rev l2 ++ b :: a :: rev l1). { rewrite <- (rev_involutive stack), E, rev_app_distr. cbn [rev]. rewrite <- !app_assoc. reflexivity. }
  pose proof (pairs_see cur v stack H Hv Hf (rev l2) b a (rev l1) E') as S1.
  pose proof (pairs_outer cur stack H Ho (rev l2) b a (rev l1) E') as S2. unfold ccw. destruct cur; cbn [sees] in S1; cbn [t1 t2 t3].
  - rewrite turn_flip. split; [lra|]. intros U EX. apply (S2 U EX).
  - split; [exact S1|]. intros U EX. apply (S2 U). symmetry. exact EX.
Qed.
Lemma pop_ccw cur v : good v -> forall stack s' o, Forall good stack -> stack_ok cur stack ->
  (forall pre a b, stack = pre ++ [a; b] -> outer cur a b) -> pop_convex k drop cur v stack = (s', o) ->
  Forall ccw o /\ stack_ok cur s' /\ exists popped, stack = popped ++ s' /\ match s' with a :: b :: _ => reflex cur b a v | _ => True end.
Proof.
  intros Gv stack. induction stack as [|a [|b r] IH]; intros s' o Gs H Ho E.
  - injection E as <- <-. repeat split; [constructor|exists []; repeat split].
  - injection E as <- <-. repeat split; [constructor|exists []; repeat split].
  - rewrite pop_cons in E. inversion Gs as [|? ? Ga Gs1]; subst. inversion Gs1 as [|? ? Gb Gs2]; subst.
    assert (Tw : (k_twist k drop (if cur then b else a) (if cur then a else b) v <= 0)%Z <-> turn (pos (if cur then b else a)) (pos (if cur then a else b)) (pos v) <= 0) by (apply (ko_twist _ _ _ _ _ K); [destruct cur; assumption|destruct cur; assumption|exact Gv]).
    destruct (_ <=? 0)%Z eqn:Et.
    + apply Z.leb_le, Tw in Et. destruct (pop_convex k drop cur v (b :: r)) as [s1 o1] eqn:E1. cbn [fst snd] in E. injection E as <- <-.
      assert (Ho' : forall pre a' b', b :: r = pre ++ [a'; b'] -> outer cur a' b') by (intros pre a' b' E'; apply (Ho (a :: pre)); rewrite E'; reflexivity).
      pose proof (pairs_outer cur _ H Ho [] a b r eq_refl) as S2.
      destruct (IH s1 o1 Gs1 (stack_tail cur a _ H) Ho' eq_refl) as (F1 & F2 & popped & F3 & F4). split; [constructor; [|exact F1]|split; [exact F2|exists (a :: popped); split; [cbn; rewrite F3; reflexivity|exact F4]]].
      unfold ccw. cbn [t1 t2 t3]. rewrite turn_flip. split; [lra|]. destruct cur; intros U EX; apply (S2 U); [|symmetry]; exact EX.
    + injection E as <- <-. split; [constructor|]. split; [exact H|]. exists []. split; [reflexivity|].
      assert (N : ~ turn (pos (if cur then b else a)) (pos (if cur then a else b)) (pos v) <= 0). { intros C. apply Tw, Z.leb_le in C. congruence. }
      apply Qnot_le_lt in N. destruct cur; cbn [reflex]; [exact N|]. rewrite turn_flip. lra.
Qed.
(** ** The state *)
Context (TF BF : list P) (CO : chains_ok (map pos TF) (map pos BF)) (GT : Forall good TF) (GB : Forall good BF)
  (UP : upright -> forall a b, In a BF -> In b TF -> X a == X b -> Y a <= Y b).
Lemma path_edges_map (l : list P) a b : In (a, b) (path_edges l) -> In (pos a, pos b) (path_edges (map pos l)).
Proof.
  unfold path_edges. revert a b. induction l as [|x [|y l] IH]; intros a b H; [contradiction|contradiction|].
  cbn [tl combine map] in *. destruct H as [E|H]; [injection E as <- <-; left; reflexivity|right; apply IH; exact H].
Qed.
Lemma path_edges_mid (l1 l2 : list P) a b : In (a, b) (path_edges (l1 ++ a :: b :: l2)).
Proof.
  unfold path_edges. induction l1 as [|x l1 IH]; [left; reflexivity|]. cbn [app tl]. destruct (l1 ++ a :: b :: l2) as [|z zs] eqn:E; [destruct l1; discriminate|]. right. exact IH.
Qed.
Lemma sorted_in (l : list P) : rightwards (map pos l) -> forall l1 a l2 y, l = l1 ++ a :: l2 -> In y l2 -> X a <= X y.
Proof.
  intros R l1 a l2. revert l1 a. induction l2 as [|b l2 IH]; intros l1 a y E H; [contradiction|].
  assert (Xab : X a <= X b). { apply R. apply path_edges_map. rewrite E. apply path_edges_mid. }
  destruct H as [<-|H]; [exact Xab|]. specialize (IH (l1 ++ [a]) b y). rewrite <- app_assoc in IH. specialize (IH E H). lra.
Qed.
Record geo_inv (m : P) (T B : list P) (s : tri_state P) : Prop := GeoInv {
  gi_two : (2 <= length (ts_stack s))%nat; gi_T : T <> []; gi_B : B <> [];
  gi_stack : stack_ok (ts_top s) (ts_stack s);
  gi_back : hd_error (ts_stack s) = Some (last (if ts_top s then T else B) m);
  gi_front : last (ts_stack s) m = last (if ts_top s then B else T) m;
  gi_chain : incl (removelast (ts_stack s)) (if ts_top s then TF else BF);
  gi_good : Forall good (ts_stack s);
  gi_ccw : Forall ccw (ts_out s) }.
Lemma last_split (m : P) l : l <> [] -> exists l', l = l' ++ [last l m].
Proof. intros N. exists (removelast l). apply app_removelast_last, N. Qed.
Lemma inv_outer m T B s : geo_inv m T B s -> incl T TF -> incl B BF -> forall pre a b, ts_stack s = pre ++ [a; b] -> outer (ts_top s) a b.
Proof.
  intros I iT iB pre a b E U EX.
  assert (Eb : b = last (if ts_top s then B else T) m). { rewrite <- (gi_front _ _ _ _ I), E. change (pre ++ [a; b]) with (pre ++ [a] ++ [b]). rewrite app_assoc, last_last. reflexivity. }
  assert (Ha : In a (if ts_top s then TF else BF)). { apply (gi_chain _ _ _ _ I). rewrite E. change (pre ++ [a; b]) with (pre ++ [a] ++ [b]). rewrite app_assoc, removelast_last. apply in_or_app. right. left. reflexivity. }
  destruct (ts_top s).
  - destruct (last_split m B (gi_B _ _ _ _ I)) as (B' & EB). apply (UP U b a); [|exact Ha|symmetry; exact EX]. apply iB. rewrite EB, <- Eb. apply in_or_app. right. left. reflexivity.
  - destruct (last_split m T (gi_T _ _ _ _ I)) as (T' & ET). apply (UP U a b); [exact Ha| |exact EX]. apply iT. rewrite ET, <- Eb. apply in_or_app. right. left. reflexivity.
Qed.
(** Moving to the other chain. *)
Lemma switch_geo m T B v s : geo_inv m T B s -> incl T TF -> incl B BF -> (forall y, In y (ts_stack s) -> X y <= X v) ->
  In (last (if ts_top s then B else T) m, v) (path_edges (if ts_top s then BF else TF)) ->
  exists s', switch_chains v s = Ok s' /\ ts_stack s' = [last (if ts_top s then T else B) m] /\ Forall ccw (ts_out s').
Proof.
  intros I iT iB Hv He. unfold switch_chains. pose proof (gi_back _ _ _ _ I) as Hb. destruct (ts_stack s) as [|b r] eqn:Es; [discriminate|]. injection Hb as Hb.
  eexists. split; [reflexivity|]. cbn [ts_stack ts_out]. split; [rewrite Hb; reflexivity|]. apply Forall_app. split; [apply (gi_ccw _ _ _ _ I)|].
  change (rev r ++ [b]) with (rev (b :: r)). rewrite <- Es in *. apply fan_ccw; [apply (gi_stack _ _ _ _ I)|exact Hv| |exact (inv_outer m T B s I iT iB)].
  intros pre c d E.
  assert (Ed : d = last (if ts_top s then B else T) m). { rewrite <- (gi_front _ _ _ _ I), E. change (pre ++ [c; d]) with (pre ++ [c] ++ [d]). rewrite app_assoc, last_last. reflexivity. }
  assert (Hc : In c (if ts_top s then TF else BF)). { apply (gi_chain _ _ _ _ I). rewrite E. change (pre ++ [c; d]) with (pre ++ [c] ++ [d]). rewrite app_assoc, removelast_last. apply in_or_app. right. left. reflexivity. }
  rewrite <- Ed in He. apply path_edges_map in He.
  assert (Xdc : X d <= X c). { pose proof (gi_stack _ _ _ _ I) as G. rewrite E in G. clear -G. induction pre as [|p0 pre IH]; [apply G|]. apply IH. apply (stack_tail (ts_top s) p0). exact G. }
  assert (Xcv : X c <= X v). { apply Hv. rewrite E. apply in_or_app. right. left. reflexivity. }
  destruct (ts_top s); cbn [sees].
  - pose proof (co_above _ _ CO _ _ (pos c) He (in_map pos _ _ Hc) Xdc Xcv) as G. rewrite turn_flip2 in G. lra.
  - pose proof (co_below _ _ CO _ _ (pos c) He (in_map pos _ _ Hc) Xdc Xcv) as G. rewrite turn_flip2 in G. lra.
Qed.
Lemma process_geo (dbg : bool) (m : P) (T B : list P) (v : P) (is_top : bool) (s : tri_state P) : geo_inv m T B s -> incl T TF -> incl B BF -> good v -> (forall y, In y (ts_stack s) -> X y <= X v) ->
  In (last (if is_top then T else B) m, v) (path_edges (if is_top then TF else BF)) -> In v (if is_top then TF else BF) ->
  exists s', process_vertex dbg k drop is_top v s = Ok s' /\ geo_inv m (if is_top then T ++ [v] else T) (if is_top then B else B ++ [v]) s' /\
    (forall y, In y (ts_stack s') -> X y <= X v).
Proof.
  intros I iT iB Gv Hv He Hin. unfold process_vertex, check. rewrite (proj2 (Nat.leb_le _ _) (gi_two _ _ _ _ I)). replace (dbg && negb true) with false by (destruct dbg; reflexivity). cbn [rbind].
  assert (NT : (if is_top then T ++ [v] else T) <> []) by (destruct is_top; [destruct T; discriminate|apply (gi_T _ _ _ _ I)]).
  assert (NB : (if is_top then B else B ++ [v]) <> []) by (destruct is_top; [apply (gi_B _ _ _ _ I)|destruct B; discriminate]).
  assert (Lv : Some v = Some (last (if is_top then if is_top then T ++ [v] else T else if is_top then B else B ++ [v]) m)) by (destruct is_top; rewrite last_last; reflexivity).
  assert (Lo : forall z, z = last (if is_top then B else T) m -> z = last (if is_top then if is_top then B else B ++ [v] else if is_top then T ++ [v] else T) m) by (intros z ->; destruct is_top; reflexivity).
  destruct (Bool.eqb is_top (ts_top s)) eqn:Eb; cbn [negb].
  - apply Bool.eqb_prop in Eb. destruct (pop_convex k drop is_top v (ts_stack s)) as [st o] eqn:Ep. eexists. split; [reflexivity|].
    pose proof (gi_stack _ _ _ _ I) as Hs. rewrite <- Eb in Hs.
    pose proof (inv_outer m T B s I iT iB) as Ho. rewrite <- Eb in Ho.
    destruct (pop_ccw is_top v Gv _ _ _ (gi_good _ _ _ _ I) Hs Ho Ep) as (F1 & F2 & popped & F3 & F4).
    assert (Nst : st <> []). { destruct (pop_spec (fun _ _ => 0) k drop is_top v ltac:(intros ? ?; ring) (ts_stack s) st o) as (G & _); [|exact Ep|exact G]. intros C. pose proof (gi_two _ _ _ _ I) as G2. rewrite C in G2. cbn in G2. lia. }
    assert (Inc : incl st (ts_stack s)) by (rewrite F3; apply incl_appr, incl_refl).
    split.
    + split; cbn [ts_stack ts_top ts_out]; try assumption.
      * destruct st; [contradiction|cbn; lia].
      * rewrite <- Eb. destruct st as [|a [|b st]]; [contradiction| |].
        -- rewrite stack_cons. split; [apply Hv, Inc; left; reflexivity|]. split; exact Logic.I.
        -- rewrite stack_cons. split; [apply Hv, Inc; left; reflexivity|]. split; [exact F4|exact F2].
      * rewrite <- Eb. cbn [hd_error]. exact Lv.
      * rewrite <- Eb. apply Lo. rewrite lastc, (last_nonempty v m st Nst). pose proof (gi_front _ _ _ _ I) as G. rewrite <- Eb in G. rewrite <- G, F3.
        clear -Nst. induction popped as [|x l IH]; [reflexivity|]. cbn [app]. rewrite lastc, (last_nonempty x m); [exact IH|]. destruct l; [exact Nst|discriminate].
      * rewrite <- Eb. intros y Hy. destruct st as [|a st]; [contradiction|]. change (removelast (v :: a :: st)) with (v :: removelast (a :: st)) in Hy. destruct Hy as [<-|Hy]; [exact Hin|].
        pose proof (gi_chain _ _ _ _ I) as G. rewrite <- Eb in G. apply G. rewrite F3, removelast_app by discriminate. apply in_or_app. right. exact Hy.
      * constructor; [exact Gv|]. apply Forall_forall. intros y Hy. pose proof (gi_good _ _ _ _ I) as G. rewrite Forall_forall in G. apply G, Inc, Hy.
      * apply Forall_app. split; [apply (gi_ccw _ _ _ _ I)|exact F1].
    + cbn [ts_stack]. intros y [<-|Hy]; [lra|apply Hv, Inc, Hy].
  - assert (Eb' : ts_top s = negb is_top) by (destruct is_top, (ts_top s); cbn in *; congruence).
    assert (He' : In (last (if ts_top s then B else T) m, v) (path_edges (if ts_top s then BF else TF))) by (rewrite Eb'; destruct is_top; exact He).
    destruct (switch_geo m T B v s I iT iB Hv He') as (s1 & E1 & E2 & E3). rewrite E1. cbn [rbind]. eexists. split; [reflexivity|].
    assert (Hl : In (last (if ts_top s then T else B) m) (ts_stack s)). { pose proof (gi_back _ _ _ _ I) as G. destruct (ts_stack s); [discriminate|]. injection G as G. rewrite <- G. left. reflexivity. }
    split.
    + split; cbn [ts_stack ts_top ts_out]; rewrite ?E2; try assumption.
      * cbn; lia.
      * rewrite stack_cons. split; [apply Hv, Hl|]. split; exact Logic.I.
      * cbn [last]. apply Lo. rewrite Eb'. destruct is_top; reflexivity.
      * cbn [removelast]. intros y [<-|[]]. exact Hin.
      * constructor; [exact Gv|constructor; [|constructor]]. pose proof (gi_good _ _ _ _ I) as G. rewrite Forall_forall in G. apply G, Hl.
    + cbn [ts_stack]. rewrite E2. intros y [<-|[<-|[]]]; [lra|apply Hv, Hl].
Qed.
Lemma edge_next (F T rest : list P) m v : F = T ++ v :: rest -> T <> [] -> In (last T m, v) (path_edges F).
Proof. intros E N. destruct (last_split m T N) as (T' & ET). set (z := last T m) in *. clearbody z. rewrite E, ET, <- app_assoc. apply path_edges_mid. Qed.
Lemma loop_geo dbg m mx : forall top bottom s T B, geo_inv m T B s -> TF = T ++ top ++ [mx] -> BF = B ++ bottom -> (exists b', bottom = b' ++ [mx]) ->
  (forall y z, In y (ts_stack s) -> In z (top ++ bottom) -> X y <= X z) ->
  exists rest s' B', tri_loop dbg k drop mono top bottom s = Ok (rest, s') /\ geo_inv m (T ++ top) B' s' /\ BF = B' ++ rest /\ (exists b', rest = b' ++ [mx]) /\
    (forall y z, In y (ts_stack s') -> In z rest -> X y <= X z).
Proof.
  assert (GFT : forall y, In y TF -> good y) by (apply Forall_forall; exact GT). assert (GFB : forall y, In y BF -> good y) by (apply Forall_forall; exact GB).
  intros top. induction top as [|t top IHt].
  - intros bottom s T B I ET EB M Hn. exists bottom, s, B. rewrite app_nil_r. repeat split; try assumption; try (apply I). 
  - induction bottom as [|b bottom IHb]; intros s T B I ET EB (b' & M) Hn; [destruct b'; discriminate|].
    cbn [tri_loop].
    assert (HtF : In t TF) by (rewrite ET; apply in_or_app; right; left; reflexivity). assert (HbF : In b BF) by (rewrite EB; apply in_or_app; right; left; reflexivity).
    assert (HmF : In mx TF) by (rewrite ET; apply in_or_app; right; right; apply in_or_app; right; left; reflexivity).
    assert (St : forall z, In z top -> X t <= X z). { intros z Hz. apply (sorted_in TF (co_top _ _ CO) T t (top ++ [mx]) z); [exact ET|apply in_or_app; left; exact Hz]. }
    assert (Stm : X t <= X mx). { apply (sorted_in TF (co_top _ _ CO) T t (top ++ [mx]) mx); [exact ET|apply in_or_app; right; left; reflexivity]. }
    assert (Sb : forall z, In z bottom -> X b <= X z). { intros z Hz. apply (sorted_in BF (co_bottom _ _ CO) B b bottom z); [exact EB|exact Hz]. }
    destruct (k_compare k mono b t <? 0)%Z eqn:Ec.
    + apply Z.ltb_lt in Ec. apply (ko_compare _ _ _ _ _ K) in Ec; [|apply GFB, HbF|apply GFT, HtF].
      destruct (process_geo dbg m T B b false s I ltac:(rewrite ET; apply incl_appl, incl_refl) ltac:(rewrite EB; apply incl_appl, incl_refl) (GFB b HbF)) as (s1 & E1 & I1 & H1).
      { intros y Hy. apply Hn; [exact Hy|]. apply in_or_app. right. left. reflexivity. }
      { apply (edge_next BF B bottom m b EB (gi_B _ _ _ _ I)). } { exact HbF. }
      cbn iota in I1. rewrite E1. cbn [rbind].
      destruct bottom as [|b1 bottom].
      { exfalso. destruct b' as [|? [|? ?]]; try discriminate. injection M as <-. lra. }
      destruct b' as [|b0' b'']; [discriminate|]. cbn [app] in M. injection M as _ M.
      destruct (IHb s1 T (B ++ [b]) I1 ET) as (rest & s' & B' & R1 & R2 & R3 & R4 & R5).
      { rewrite <- app_assoc. exact EB. } { exists b''. exact M. }
      { intros y z Hy Hz. specialize (H1 y Hy). cbn [app] in Hz. destruct Hz as [<-|Hz]; [lra|]. apply in_app_or in Hz. destruct Hz as [Hz|Hz]; [specialize (St z Hz); lra|specialize (Sb z Hz); lra]. }
      exists rest, s', B'. repeat split; try assumption; apply R2.
    + apply Z.ltb_ge in Ec. assert (Xtb : X t <= X b). { apply Qnot_lt_le. intros C. apply (ko_compare _ _ _ _ _ K) in C; [lia|apply GFB, HbF|apply GFT, HtF]. }
      destruct (process_geo dbg m T B t true s I ltac:(rewrite ET; apply incl_appl, incl_refl) ltac:(rewrite EB; apply incl_appl, incl_refl) (GFT t HtF)) as (s1 & E1 & I1 & H1).
      { intros y Hy. apply Hn; [exact Hy|]. left. reflexivity. }
      { apply (edge_next TF T (top ++ [mx]) m t ET (gi_T _ _ _ _ I)). } { exact HtF. }
      cbn iota in I1. rewrite E1. cbn [rbind].
      destruct (IHt (b :: bottom) s1 (T ++ [t]) B I1) as (rest & s' & B' & R1 & R2 & R3 & R4 & R5).
      { rewrite <- app_assoc. exact ET. } { exact EB. } { exists b'. exact M. }
      { intros y z Hy Hz. specialize (H1 y Hy). apply in_app_or in Hz. destruct Hz as [Hz|Hz]; [specialize (St z Hz); lra|]. destruct Hz as [<-|Hz]; [lra|specialize (Sb z Hz); lra]. }
      exists rest, s', B'. rewrite <- app_assoc in R2. repeat split; try assumption; apply R2.
Qed.
Lemma finish_geo dbg m mx : forall rest prev s T B, geo_inv m T B s -> TF = T ++ [mx] -> BF = B ++ prev :: rest -> last rest prev = mx ->
  (forall y z, In y (ts_stack s) -> In z (prev :: rest) -> X y <= X z) ->
  exists o, tri_finish dbg k drop prev rest s = Ok o /\ Forall ccw o.
Proof.
  assert (GFB : forall y, In y BF -> good y) by (apply Forall_forall; exact GB).
  induction rest as [|b rest IH]; intros prev s T B I ET EB M Hn; cbn [tri_finish].
  - cbn in M. subst prev. destruct (switch_geo m T B mx s I ltac:(rewrite ET; apply incl_appl, incl_refl) ltac:(rewrite EB; apply incl_appl, incl_refl)) as (s1 & E1 & E2 & E3).
    { intros y Hy. apply Hn; [exact Hy|left; reflexivity]. }
    { destruct (ts_top s); [apply (edge_next BF B [] m mx EB (gi_B _ _ _ _ I))|apply (edge_next TF T [] m mx ET (gi_T _ _ _ _ I))]. }
    rewrite E1. cbn [rbind]. rewrite E2. cbn. exists (ts_out s1). split; [destruct dbg; reflexivity|exact E3].
  - assert (HpF : In prev BF) by (rewrite EB; apply in_or_app; right; left; reflexivity).
    destruct (process_geo dbg m T B prev false s I ltac:(rewrite ET; apply incl_appl, incl_refl) ltac:(rewrite EB; apply incl_appl, incl_refl) (GFB prev HpF)) as (s1 & E1 & I1 & H1).
    { intros y Hy. apply Hn; [exact Hy|left; reflexivity]. } { apply (edge_next BF B (b :: rest) m prev EB (gi_B _ _ _ _ I)). } { exact HpF. }
    cbn iota in I1. rewrite E1. cbn [rbind]. apply (IH b s1 T (B ++ [prev]) I1 ET).
    + rewrite <- app_assoc. exact EB.
    + rewrite lastc in M. exact M.
    + intros y z Hy Hz. specialize (H1 y Hy). assert (X prev <= X z) by (apply (sorted_in BF (co_bottom _ _ CO) B prev (b :: rest) z EB Hz)). lra.
Qed.
Theorem build_geo dbg m top b' mx : TF = (m :: top) ++ [mx] -> BF = m :: b' ++ [mx] -> (1 <= length top + length b')%nat ->
  exists o, tri_build dbg k drop mono (m :: top) (b' ++ [mx]) = Ok o /\ Forall ccw o.
Proof.
  intros ET EB Len. assert (GFT : forall y, In y TF -> good y) by (apply Forall_forall; exact GT). assert (GFB : forall y, In y BF -> good y) by (apply Forall_forall; exact GB).
  assert (SB : forall z, In z (b' ++ [mx]) -> X m <= X z) by (intros z Hz; apply (sorted_in BF (co_bottom _ _ CO) [] m (b' ++ [mx]) z EB Hz)).
  assert (ST : forall z, In z (top ++ [mx]) -> X m <= X z) by (intros z Hz; apply (sorted_in TF (co_top _ _ CO) [] m (top ++ [mx]) z ET Hz)).
  assert (Main : forall top' bot' s T B, geo_inv m T B s -> TF = T ++ top' ++ [mx] -> BF = B ++ bot' -> (exists b', bot' = b' ++ [mx]) -> (forall y z, In y (ts_stack s) -> In z (top' ++ bot') -> X y <= X z) ->
     exists o, (r <- tri_loop dbg k drop mono top' bot' s ;; match fst r with [] => UB | b :: rest => tri_finish dbg k drop b rest (snd r) end) = Ok o /\ Forall ccw o).
  { intros top' bot' s T B I E1 E2 M Hn. destruct (loop_geo dbg m mx top' bot' s T B I E1 E2 M Hn) as (rest & s' & B' & R1 & R2 & R3 & (r' & R4) & R5). rewrite R1. cbn [rbind fst snd].
    destruct rest as [|b rest]; [destruct r'; discriminate|]. apply (finish_geo dbg m mx rest b s' _ B' R2); [rewrite <- app_assoc; exact E1|exact R3| |exact R5].
    assert (G : last (b :: rest) m = mx) by (rewrite R4; apply last_last). rewrite lastc in G. exact G. }
  unfold tri_build. destruct (b' ++ [mx]) as [|b0 bottom'] eqn:Eb; [destruct b'; discriminate|].
  assert (Hb0F : In b0 BF) by (rewrite EB; right; left; reflexivity).
  destruct (match top with [] => true | t1 :: _ => (k_compare k mono b0 t1 <? 0)%Z end) eqn:Ef.
  - assert (Hb1 : exists b1, bottom' = b1 ++ [mx] /\ forall z, In z top -> X b0 <= X z).
    { assert (Nb : b' <> [] /\ forall z, In z top -> X b0 <= X z).
      { destruct top as [|t1 top].
        - split; [|intros z []]. intros ->. cbn in Len. lia.
        - assert (Ht1 : In t1 TF) by (rewrite ET; right; left; reflexivity). apply Z.ltb_lt in Ef. apply (ko_compare _ _ _ _ _ K) in Ef; [|apply GFB, Hb0F|apply GFT, Ht1].
          assert (S1 : forall z, In z (top ++ [mx]) -> X t1 <= X z) by (intros z Hz; apply (sorted_in TF (co_top _ _ CO) [m] t1 (top ++ [mx]) z ET Hz)). split.
          + intros ->. injection Eb as <- <-. assert (Hm : In mx (top ++ [mx])) by (apply in_or_app; right; left; reflexivity). specialize (S1 mx Hm). lra.
          + intros z [<-|Hz]; [lra|]. assert (Hm : In z (top ++ [mx])) by (apply in_or_app; left; exact Hz). specialize (S1 z Hm). lra. }
      destruct Nb as (Nb & Hz). destruct b' as [|x b'']; [contradiction|]. cbn [app] in Eb. injection Eb as <- <-. exists b''. split; [reflexivity|exact Hz]. }
    destruct Hb1 as (b1 & Eb1 & Hz).
    apply (Main top bottom' _ [m] [m; b0]).
    + split; cbn [ts_stack ts_top ts_out]; try discriminate.
      * cbn; lia.
      * rewrite stack_cons. split; [apply SB; left; reflexivity|split; exact Logic.I].
      * reflexivity.
      * reflexivity.
      * cbn [removelast]. intros y [<-|[]]. exact Hb0F.
      * constructor; [apply GFB, Hb0F|constructor; [apply GFT; rewrite ET; left; reflexivity|constructor]].
      * constructor.
    + exact ET.
    + rewrite EB. reflexivity.
    + exists b1. exact Eb1.
    + cbn [ts_stack]. assert (S0 : forall z, In z (top ++ bottom') -> X b0 <= X z).
      { intros z H. apply in_app_or in H. destruct H as [H|H]; [apply Hz, H|]. apply (sorted_in BF (co_bottom _ _ CO) [m] b0 bottom' z EB H). }
      assert (Xm : X m <= X b0) by (apply SB; left; reflexivity).
      intros y z [<-|[<-|[]]] H; specialize (S0 z H); lra.
  - destruct top as [|t1 top]; [discriminate|]. assert (Ht1 : In t1 TF) by (rewrite ET; right; left; reflexivity).
    assert (Xtb : X t1 <= X b0). { apply Z.ltb_ge in Ef. apply Qnot_lt_le. intros C. apply (ko_compare _ _ _ _ _ K) in C; [lia|apply GFB, Hb0F|apply GFT, Ht1]. }
    apply (Main top (b0 :: bottom') _ [m; t1] [m]).
    + split; cbn [ts_stack ts_top ts_out]; try discriminate.
      * cbn; lia.
      * rewrite stack_cons. split; [apply ST; left; reflexivity|split; exact Logic.I].
      * reflexivity.
      * reflexivity.
      * cbn [removelast]. intros y [<-|[]]. exact Ht1.
      * constructor; [apply GFT, Ht1|constructor; [apply GFT; rewrite ET; left; reflexivity|constructor]].
      * constructor.
    + exact ET.
    + exact EB.
    + exists b'. symmetry. exact Eb.
    + cbn [ts_stack]. assert (S0 : forall z, In z (top ++ b0 :: bottom') -> X t1 <= X z).
      { intros z H. apply in_app_or in H. destruct H as [H|[<-|H]].
        - apply (sorted_in TF (co_top _ _ CO) [m] t1 (top ++ [mx]) z ET). apply in_or_app. left. exact H.
        - exact Xtb.
        - assert (X b0 <= X z) by (apply (sorted_in BF (co_bottom _ _ CO) [m] b0 bottom' z EB H)). lra. }
      assert (Xm : X m <= X t1) by (apply ST; left; reflexivity).
      intros y z [<-|[<-|[]]] H; specialize (S0 z H); lra.
Qed.
End Geo.
