(** Proofs about [tri_build] that hold for every point type and all chains. *)
From Coq Require Import List ZArith QArith Lia Lqa Bool.
From Verif Require Import BigUIntModel GeoModel GeoSpec TriModel TriSpec.
Import ListNotations.
Open Scope Q_scope.
Section Generic.
Context {P : Type}.
Implicit Types (f : P -> P -> Q) (l : list P) (o : list (triangle P)).
Lemma last_nonempty (d d' : P) l : l <> [] -> last l d = last l d'.
Proof. induction l as [|a [|b l] IH]; [contradiction|reflexivity|]. intros _. apply IH. discriminate. Qed.
Lemma lastc (a c : P) l : last (c :: l) a = last l c.
Proof. destruct l as [|p l]; [reflexivity|]. exact (last_nonempty a c (p :: l) ltac:(discriminate)). Qed.
(** Sum over a path. *)
Fixpoint psum f (a : P) l : Q := match l with [] => 0 | b :: r => f a b + psum f b r end.
Definition anti f : Prop := forall a b, f b a == - f a b.
Lemma edge_sum_app f (l1 l2 : list (P * P)) : edge_sum f (l1 ++ l2) == edge_sum f l1 + edge_sum f l2.
Proof. unfold edge_sum. induction l1 as [|e l1 IH]; cbn [app fold_right]; [ring|]. rewrite IH. ring. Qed.
Lemma path_psum f a l : edge_sum f (path_edges (a :: l)) == psum f a l.
Proof.
  revert a. induction l as [|b l IH]; intros a; [reflexivity|].
  change (path_edges (a :: b :: l)) with ((a, b) :: path_edges (b :: l)). unfold edge_sum in *. cbn [fold_right fst snd psum]. rewrite IH. reflexivity.
Qed.
Lemma psum_app f a l b : psum f a (l ++ [b]) == psum f a l + f (last l a) b.
Proof.
  revert a. induction l as [|c l IH]; intros a; [cbn; ring|]. cbn [app psum]. rewrite IH.
  assert (E : last (c :: l) a = last l c). { apply lastc. }
  rewrite E. ring.
Qed.
Lemma psum_rev f a l : anti f -> forall b, psum f b (rev (a :: l)) == f b (last l a) - psum f a l.
Proof.
  intros A. revert a. induction l as [|c l IH]; intros a b; [cbn; ring|].
  change (rev (a :: c :: l)) with (rev (c :: l) ++ [a]). rewrite psum_app, IH.
  assert (E1 : last (rev (c :: l)) b = c). { cbn [rev]. apply last_last. }
  assert (E2 : last (c :: l) a = last l c). { apply lastc. }
  rewrite E1, E2, (A a c). cbn [psum]. ring.
Qed.
Definition tri_sum f (t : triangle P) : Q := f (t1 t) (t2 t) + f (t2 t) (t3 t) + f (t3 t) (t1 t).
Definition out_sum f o : Q := fold_right (fun t s => tri_sum f t + s) 0 o.
Lemma out_sum_app f o1 o2 : out_sum f (o1 ++ o2) == out_sum f o1 + out_sum f o2.
Proof. unfold out_sum. induction o1 as [|e l1 IH]; cbn [app fold_right]; [ring|]. rewrite IH. ring. Qed.
Lemma out_sum_edges f o : edge_sum f (flat_map cycle_edges (map corners o)) == out_sum f o.
Proof.
  induction o as [|t o IH]; [reflexivity|]. cbn [map flat_map]. rewrite edge_sum_app, IH. unfold out_sum. cbn [fold_right]. apply Qplus_comp; [|reflexivity].
  unfold corners, cycle_edges, tri_sum, edge_sum, path_edges. cbn. ring.
Qed.
(** Sum along the stack from its front to its back (its head). *)
Fixpoint ssum f (s : list P) : Q := match s with a :: (b :: _) as r => f b a + ssum f r | _ => 0 end.
Lemma ssum_rev f a l b : psum f a (l ++ [b]) == ssum f (b :: rev (a :: l)).
Proof.
  revert b. induction l as [|c l IH] using rev_ind; intros b; [cbn; ring|].
  rewrite psum_app, last_last, IH. cbn [rev]. rewrite rev_app_distr. cbn [rev app ssum]. ring.
Qed.
Definition sgn_of (cur : bool) : Q := if cur then 1 else -1.
Lemma out_sum_cons f t o : out_sum f (t :: o) = tri_sum f t + out_sum f o.
Proof. reflexivity. Qed.
Lemma fan_cons cur (next : P) a b l : fan_out cur next (a :: b :: l) = (if cur then Tri (negb cur) b a next else Tri (negb cur) a b next) :: fan_out cur next (b :: l).
Proof. reflexivity. Qed.
Lemma fan_sum f cur next : anti f -> forall a l, out_sum f (fan_out cur next (a :: l)) ==
  sgn_of cur * (- psum f a l + f a next - f (last l a) next).
Proof.
  intros A a l. revert a. induction l as [|b l IH]; intros a; [cbn; ring|].
  rewrite fan_cons, out_sum_cons, IH.
  assert (E2 : last (b :: l) a = last l b). { apply lastc. }
  rewrite E2. cbn [psum].
  destruct cur; unfold tri_sum, sgn_of; cbn [t1 t2 t3]; [rewrite (A a b), (A b next)|rewrite (A a next)]; ring.
Qed.
Lemma fan_length cur (next : P) l : length (fan_out cur next l) = (length l - 1)%nat.
Proof. induction l as [|a [|b l] IH]; [reflexivity|reflexivity|]. rewrite fan_cons. cbn [length] in *. rewrite IH. lia. Qed.
Lemma pop_cons k drop cur (v : P) a b r : pop_convex k drop cur v (a :: b :: r) =
  if (k_twist k drop (if cur then b else a) (if cur then a else b) v <=? 0)%Z then
    (fst (pop_convex k drop cur v (b :: r)), Tri cur (if cur then a else b) (if cur then b else a) v :: snd (pop_convex k drop cur v (b :: r)))
  else (a :: b :: r, []).
Proof.
  assert (E : pop_convex k drop cur v (a :: b :: r) = if (k_twist k drop (if cur then b else a) (if cur then a else b) v <=? 0)%Z then
    let '(s, o) := pop_convex k drop cur v (b :: r) in (s, Tri cur (if cur then a else b) (if cur then b else a) v :: o) else (a :: b :: r, [])) by reflexivity.
  rewrite E. destruct (pop_convex k drop cur v (b :: r)); reflexivity.
Qed.
Lemma pop_spec f k drop cur v : anti f -> forall stack s' o, stack <> [] -> pop_convex k drop cur v stack = (s', o) ->
  s' <> [] /\ out_sum f o == sgn_of cur * (- ssum f stack + ssum f s' - f (List.hd v stack) v + f (List.hd v s') v) /\
  (length o + length s' = length stack)%nat /\ last s' v = last stack v.
Proof.
  intros A stack. induction stack as [|a [|b r] IH]; intros s' o N E.
  - contradiction.
  - cbn [pop_convex] in E. injection E as <- <-. repeat split; [discriminate|cbn; ring].
  - rewrite pop_cons in E. destruct (_ <=? 0)%Z.
    + destruct (pop_convex k drop cur v (b :: r)) as [s1 o1] eqn:E1. injection E as <- <-.
      destruct (IH s1 o1 ltac:(discriminate) eq_refl) as (N1 & S1 & L1 & La). repeat split.
      * exact N1.
      * rewrite out_sum_cons, S1. cbn [List.hd ssum].
        destruct cur; unfold tri_sum, sgn_of; cbn [t1 t2 t3]; [rewrite (A b a), (A a v)|rewrite (A b v)]; ring.
      * cbn [length] in *. lia.
      * rewrite La. reflexivity.
    + injection E as <- <-. repeat split; [discriminate|cbn; ring].
Qed.
(** What has been done when the vertices T of the top chain and B of the bottom
    chain, both starting with the minimum m, have been processed. *)
Record tri_inv f (m : P) (T B : list P) (s : tri_state P) : Prop := TriInv {
  ti_two : (2 <= length (ts_stack s))%nat;
  ti_sum : out_sum f (ts_out s) == psum f m B - psum f m T + sgn_of (ts_top s) * ssum f (ts_stack s);
  ti_count : (length (ts_out s) + length (ts_stack s) = length T + length B + 1)%nat;
  ti_back : List.hd m (ts_stack s) = last (if ts_top s then T else B) m;
  ti_front : last (ts_stack s) m = last (if ts_top s then B else T) m }.
Lemma hd_nonempty (d d' : P) l : l <> [] -> List.hd d l = List.hd d' l.
Proof. destruct l; [contradiction|reflexivity]. Qed.
Lemma hd_last_rev (d : P) l : List.hd d (rev l) = last l d.
Proof. induction l as [|a l IH] using rev_ind; [reflexivity|]. rewrite rev_app_distr, last_last. reflexivity. Qed.
Lemma ssum_path f a l : ssum f (rev (a :: l)) == psum f a l.
Proof. destruct l as [|b l] using rev_ind; [cbn; ring|]. rewrite ssum_rev. cbn [rev]. rewrite rev_app_distr. reflexivity. Qed.
(** SwitchChains. *)
Lemma switch_spec f m T B next s s' : anti f -> tri_inv f m T B s -> switch_chains next s = Ok s' ->
  ts_stack s' = [last (if ts_top s then T else B) m] /\ ts_top s' = ts_top s /\
  out_sum f (ts_out s') == psum f m B - psum f m T + sgn_of (ts_top s) * (f (last (if ts_top s then B else T) m) next - f (last (if ts_top s then T else B) m) next) /\
  (length (ts_out s') = length T + length B)%nat.
Proof.
  intros A [I1 I2 I3 I4 I5] E. unfold switch_chains in E. destruct (ts_stack s) as [|b r] eqn:Es; [discriminate|]. injection E as <-. cbn [ts_stack ts_top ts_out].
  cbn [List.hd] in I4. repeat split.
  - rewrite <- I4. reflexivity.
  - rewrite out_sum_app, I2.
    destruct (rev (b :: r)) as [|x l] eqn:Er. { apply (f_equal (@length P)) in Er. rewrite rev_length in Er. discriminate. }
    change (rev r ++ [b]) with (rev (b :: r)). rewrite Er, fan_sum by exact A.
    assert (S1 : ssum f (b :: r) == psum f x l). { rewrite <- (rev_involutive (b :: r)), Er. apply ssum_path. }
    assert (F1 : x = last (b :: r) m). { rewrite <- hd_last_rev, Er. reflexivity. }
    assert (F2 : last l x = b). { assert (G : last (x :: l) m = b). { rewrite <- Er. cbn [rev]. apply last_last. } rewrite <- G. symmetry. apply lastc. }
    rewrite S1, F2, F1, I5, I4. ring.
  - change (rev r ++ [b]) with (rev (b :: r)). rewrite app_length, fan_length, rev_length. cbn [length] in *. lia.
Qed.
Definition add_to (is_top c : bool) (l : list P) (v : P) : list P := if Bool.eqb is_top c then l ++ [v] else l.
Lemma process_spec f dbg k drop m T B is_top v s s' : anti f -> tri_inv f m T B s -> process_vertex dbg k drop is_top v s = Ok s' ->
  tri_inv f m (if is_top then T ++ [v] else T) (if is_top then B else B ++ [v]) s' /\ ts_top s' = is_top.
Proof.
  intros A I E. unfold process_vertex in E.
  pose proof (ti_two _ _ _ _ _ I) as I1. unfold check in E. rewrite (proj2 (Nat.leb_le _ _) I1) in E. destruct dbg; cbn [rbind] in E.
  all: destruct (Bool.eqb is_top (ts_top s)) eqn:Eb; cbn [negb] in E;
    [apply Bool.eqb_prop in Eb; destruct (pop_convex k drop is_top v (ts_stack s)) as [st o] eqn:Ep; injection E as <-;
     assert (Ns : ts_stack s <> []) by (intros X; rewrite X in I1; cbn in I1; lia);
     destruct (pop_spec f k drop is_top v A _ _ _ Ns Ep) as (Nst & So & Lo & La);
     destruct I as [_ I2 I3 I4 I5]; rewrite (hd_nonempty m v) in I4 by exact Ns; rewrite (last_nonempty v m st Nst), (last_nonempty v m (ts_stack s) Ns) in La;
     split; [|symmetry; exact Eb]; split; cbn [ts_stack ts_top ts_out];
     [destruct st; [contradiction|cbn [length]; lia]
     |rewrite out_sum_app, I2, So; destruct st as [|x st]; [contradiction|]; cbn [ssum List.hd];
      rewrite I4, <- Eb; destruct is_top; rewrite psum_app; unfold sgn_of; ring
     |rewrite app_length; cbn [length]; destruct is_top; rewrite app_length; cbn [length]; lia
     |cbn [List.hd]; rewrite <- Eb; destruct is_top; rewrite last_last; reflexivity
     |rewrite <- Eb in *; destruct st as [|x st]; [contradiction|]; change (last (v :: x :: st) m) with (last (x :: st) m); rewrite La, I5; destruct is_top; reflexivity]
    |destruct (switch_chains v s) as [s1| | |] eqn:Es; try discriminate; cbn [rbind] in E; injection E as <-;
     destruct (switch_spec f m T B v s s1 A I Es) as (S1 & S2 & S3 & S4);
     assert (Eb' : ts_top s = negb is_top) by (destruct is_top, (ts_top s); cbn in *; congruence);
     rewrite Eb' in *; split; [|reflexivity]; split; cbn [ts_stack ts_top ts_out]; rewrite ?S1;
     [cbn; lia
     |rewrite S3; cbn [ssum]; destruct is_top; rewrite psum_app; unfold sgn_of; cbn [negb]; ring
     |rewrite S4; cbn [length]; destruct is_top; rewrite app_length; cbn [length]; lia
     |cbn [List.hd]; destruct is_top; rewrite last_last; reflexivity
     |cbn [last]; destruct is_top; reflexivity]].
Qed.
Lemma loop_spec f dbg k drop mono m : anti f -> forall top bottom s rest s' T B, tri_inv f m T B s ->
  tri_loop dbg k drop mono top bottom s = Ok (rest, s') ->
  exists done, bottom = done ++ rest /\ tri_inv f m (T ++ top) (B ++ done) s'.
Proof.
  intros A top. induction top as [|t top IHt]; intros bottom.
  - intros s rest s' T B I E. cbn [tri_loop] in E. injection E as <- <-. exists []. rewrite !app_nil_r. split; [reflexivity|exact I].
  - induction bottom as [|b bottom IHb]; intros s rest s' T B I E; cbn [tri_loop] in E.
    + destruct dbg; discriminate.
    + destruct (_ <? 0)%Z.
      * destruct (process_vertex dbg k drop false b s) as [s1| | |] eqn:Ev; try discriminate. cbn [rbind] in E.
        destruct (process_spec f dbg k drop m T B false b s s1 A I Ev) as (I1 & _).
        destruct (IHb s1 rest s' _ _ I1 E) as (d & Ed & Id). exists (b :: d). split; [rewrite Ed; reflexivity|]. rewrite <- app_assoc in Id. exact Id.
      * destruct (process_vertex dbg k drop true t s) as [s1| | |] eqn:Ev; try discriminate. cbn [rbind] in E.
        destruct (process_spec f dbg k drop m T B true t s s1 A I Ev) as (I1 & _).
        destruct (IHt _ _ _ _ _ _ I1 E) as (d & Ed & Id). exists d. split; [exact Ed|]. rewrite <- app_assoc in Id. exact Id.
Qed.
Lemma finish_spec f dbg k drop m : anti f -> forall rest prev s T B o, tri_inv f m T B s -> tri_finish dbg k drop prev rest s = Ok o ->
  out_sum f o == psum f m (B ++ prev :: rest) - psum f m (T ++ [last rest prev]) /\ (length o = length T + length (B ++ prev :: rest) - 1)%nat.
Proof.
  intros A rest. induction rest as [|b rest IH]; intros prev s T B o I E; cbn [tri_finish] in E.
  - destruct (switch_chains prev s) as [s1| | |] eqn:Es; try discriminate. cbn [rbind] in E.
    destruct (switch_spec f m T B prev s s1 A I Es) as (S1 & S2 & S3 & S4). rewrite S1 in E. cbn in E. assert (Eo : o = ts_out s1) by (destruct dbg; injection E as <-; reflexivity).
    subst o. rewrite S3, S4, app_length. cbn [last length]. split; [|lia].
    rewrite !psum_app. destruct (ts_top s); unfold sgn_of; ring.
  - destruct (process_vertex dbg k drop false prev s) as [s1| | |] eqn:Ev; try discriminate. cbn [rbind] in E.
    destruct (process_spec f dbg k drop m T B false prev s s1 A I Ev) as (I1 & _).
    destruct (IH b s1 _ _ o I1 E) as (S1 & L1).
    assert (El : last (b :: rest) prev = last rest b). { apply lastc. }
    rewrite El. rewrite <- app_assoc in S1, L1. split; assumption.
Qed.
Theorem build_spec f dbg k drop mono top bottom o : anti f -> tri_build dbg k drop mono top bottom = Ok o ->
  exists m top' b' mx, top = m :: top' /\ bottom = b' ++ [mx] /\
  out_sum f o == psum f m bottom - psum f m (top' ++ [mx]) /\ (length o = length top + length bottom - 2)%nat.
Proof.
  intros A E. unfold tri_build in E. destruct top as [|m top]. { destruct dbg; discriminate. } destruct bottom as [|b0 bottom]. { destruct dbg; discriminate. }
  assert (Mx : exists b' mx, b0 :: bottom = b' ++ [mx]). { destruct (rev (b0 :: bottom)) as [|x r] eqn:Er. { apply (f_equal (@length P)) in Er. rewrite rev_length in Er. discriminate. } exists (rev r), x. rewrite <- (rev_involutive (b0 :: bottom)), Er. reflexivity. }
  destruct Mx as (b' & mx & Mx). exists m, top, b', mx. split; [reflexivity|]. split; [exact Mx|].
  assert (Main : forall T B top' bot' c s, tri_inv f m T B s -> T ++ top' = top -> B ++ bot' = b0 :: bottom ->
     (r <- tri_loop dbg k drop mono top' bot' s ;; match fst r with [] => UB | b :: rest => tri_finish dbg k drop b rest (snd r) end) = c -> c = Ok o ->
     out_sum f o == psum f m (b0 :: bottom) - psum f m (top ++ [mx]) /\ (length o = length (m :: top) + length (b0 :: bottom) - 2)%nat).
  { intros T B top' bot' c s I ET EB Ec Eo. subst c. destruct (tri_loop dbg k drop mono top' bot' s) as [[rest s1]| | |] eqn:El; try discriminate.
    cbn [rbind fst snd] in Eo. destruct (loop_spec f dbg k drop mono m A _ _ _ _ _ _ _ I El) as (d & Ed & I1).
    destruct rest as [|b rest]; [discriminate|]. destruct (finish_spec f dbg k drop m A rest b s1 _ _ o I1 Eo) as (S1 & L1).
    rewrite <- app_assoc, <- Ed, EB, ET in S1. rewrite <- app_assoc, <- Ed, EB, ET in L1.
    assert (Elast : last rest b = mx). { assert (G : last (b0 :: bottom) m = mx) by (rewrite Mx; apply last_last). rewrite <- EB, Ed, app_assoc in G. rewrite <- G.
      clear. assert (X : forall l : list P, last (l ++ b :: rest) m = last rest b). { induction l as [|x l IH]; [cbn [app]; apply lastc|]. cbn [app]. destruct (l ++ b :: rest) eqn:Q; [destruct l; discriminate|]. exact IH. } symmetry. apply X. }
    rewrite Elast in S1. split; [exact S1|]. cbn [length] in *. lia. }
  set (first := match top with [] => true | t1 :: _ => (k_compare k mono b0 t1 <? 0)%Z end) in E. destruct first.
  - eapply (Main [] [b0] top bottom); [|reflexivity|reflexivity|reflexivity|exact E].
    split; cbn; try lia; try reflexivity. ring.
  - destruct top as [|t1 top]; [discriminate|].
    eapply (Main [t1] [] top (b0 :: bottom)); [|reflexivity|reflexivity|reflexivity|exact E].
    split; cbn; try lia; try reflexivity. ring.
Qed.
(** Every corner of a triangle is an input vertex. *)
Lemma fan_in cur (next : P) l t x : In t (fan_out cur next l) -> In x (corners t) -> x = next \/ In x l.
Proof.
  induction l as [|a [|b l] IH]; intros Ht Hx; [contradiction|contradiction|]. rewrite fan_cons in Ht. destruct Ht as [<-|Ht].
  - destruct cur; cbn in Hx; cbn; intuition.
  - destruct (IH Ht Hx) as [G|G]; [left; exact G|right; right; exact G].
Qed.
Lemma pop_in k drop cur (v : P) : forall stack s' o, pop_convex k drop cur v stack = (s', o) ->
  incl s' stack /\ forall t x, In t o -> In x (corners t) -> x = v \/ In x stack.
Proof.
  induction stack as [|a [|b r] IH]; intros s' o E.
  - injection E as <- <-. split; [apply incl_refl|contradiction].
  - injection E as <- <-. split; [apply incl_refl|contradiction].
  - rewrite pop_cons in E. destruct (_ <=? 0)%Z.
    + destruct (pop_convex k drop cur v (b :: r)) as [s1 o1] eqn:E1. injection E as <- <-. destruct (IH s1 o1 eq_refl) as (G1 & G2). split.
      * intros x Hx. right. apply G1, Hx.
      * intros t x [<-|Ht] Hx; [destruct cur; cbn in Hx; cbn; intuition|]. destruct (G2 t x Ht Hx); [left; assumption|right; right; assumption].
    + injection E as <- <-. split; [apply incl_refl|contradiction].
Qed.
Definition all_in (V : list P) (s : tri_state P) : Prop := incl (ts_stack s) V /\ forall t x, In t (ts_out s) -> In x (corners t) -> In x V.
Lemma switch_in V next s s' : all_in V s -> In next V -> switch_chains next s = Ok s' -> all_in V s'.
Proof.
  intros (S1 & S2) Hn E. unfold switch_chains in E. destruct (ts_stack s) as [|b r] eqn:Es; [discriminate|]. injection E as <-. split; cbn [ts_stack ts_out].
  - intros x [<-|[]]. apply S1. left. reflexivity.
  - intros t x Ht Hx. apply in_app_or in Ht. destruct Ht as [Ht|Ht]; [eapply S2; eassumption|]. destruct (fan_in _ _ _ _ _ Ht Hx) as [->|Hi]; [exact Hn|]. apply S1. rewrite in_rev. exact Hi.
Qed.
Lemma process_in V dbg k drop is_top v s s' : all_in V s -> In v V -> process_vertex dbg k drop is_top v s = Ok s' -> all_in V s'.
Proof.
  intros I Hv E. unfold process_vertex in E. destruct (check dbg _) as [[]| | |]; try discriminate. cbn [rbind] in E. destruct (negb _).
  - destruct (switch_chains v s) as [s1| | |] eqn:Es; try discriminate. cbn [rbind] in E. injection E as <-. destruct (switch_in V v s s1 I Hv Es) as (S1 & S2). split; cbn [ts_stack ts_out]; [|exact S2]. intros x [<-|Hx]; [exact Hv|apply S1, Hx].
  - destruct (pop_convex k drop is_top v (ts_stack s)) as [st o] eqn:Ep. injection E as <-. destruct I as (S1 & S2). destruct (pop_in _ _ _ _ _ _ _ Ep) as (G1 & G2). split; cbn [ts_stack ts_out].
    + intros x [<-|Hx]; [exact Hv|apply S1, G1, Hx].
    + intros t x Ht Hx. apply in_app_or in Ht. destruct Ht as [Ht|Ht]; [eapply S2; eassumption|]. destruct (G2 t x Ht Hx) as [->|Hi]; [exact Hv|apply S1, Hi].
Qed.
Lemma loop_in V dbg k drop mono : forall top bottom s rest s', all_in V s -> incl top V -> incl bottom V -> tri_loop dbg k drop mono top bottom s = Ok (rest, s') -> all_in V s' /\ incl rest V.
Proof.
  intros top. induction top as [|t top IHt]; intros bottom.
  - intros s rest s' I _ H E. cbn [tri_loop] in E. injection E as <- <-. split; assumption.
  - induction bottom as [|b bottom IHb]; intros s rest s' I Ht Hb E; cbn [tri_loop] in E.
    + destruct dbg; discriminate.
    + destruct (_ <? 0)%Z; (destruct (process_vertex dbg k drop _ _ s) as [s1| | |] eqn:Ev; [|discriminate|discriminate|discriminate]); cbn [rbind] in E.
      * apply (IHb s1 rest s'); [eapply process_in; [exact I| |exact Ev]; apply Hb; left; reflexivity|exact Ht|intros x Hx; apply Hb; right; exact Hx|exact E].
      * apply (IHt _ s1 rest s') in E; [exact E|eapply process_in; [exact I| |exact Ev]; apply Ht; left; reflexivity|intros x Hx; apply Ht; right; exact Hx|exact Hb].
Qed.
Lemma finish_in V dbg k drop : forall rest prev s o, all_in V s -> In prev V -> incl rest V -> tri_finish dbg k drop prev rest s = Ok o -> forall t x, In t o -> In x (corners t) -> In x V.
Proof.
  intros rest. induction rest as [|b rest IH]; intros prev s o I Hp Hr E; cbn [tri_finish] in E.
  - destruct (switch_chains prev s) as [s1| | |] eqn:Es; try discriminate. cbn [rbind] in E. destruct (check dbg _) as [[]| | |]; try discriminate. cbn [rbind] in E. injection E as <-.
    apply (switch_in V prev s s1 I Hp Es).
  - destruct (process_vertex dbg k drop false prev s) as [s1| | |] eqn:Ev; try discriminate. cbn [rbind] in E.
    apply (IH b s1 o); [eapply process_in; eassumption|apply Hr; left; reflexivity|intros x Hx; apply Hr; right; exact Hx|exact E].
Qed.
Theorem build_in dbg k drop mono top bottom o : tri_build dbg k drop mono top bottom = Ok o -> forall t x, In t o -> In x (corners t) -> In x (top ++ bottom).
Proof.
  intros E. unfold tri_build in E. destruct top as [|m top]. { destruct dbg; discriminate. } destruct bottom as [|b0 bottom]. { destruct dbg; discriminate. }
  set (V := (m :: top) ++ b0 :: bottom).
  assert (HT : incl (m :: top) V) by apply incl_appl, incl_refl. assert (HB : incl (b0 :: bottom) V) by apply incl_appr, incl_refl. clearbody V.
  assert (Main : forall top' bot' s, all_in V s -> incl top' V -> incl bot' V ->
     (r <- tri_loop dbg k drop mono top' bot' s ;; match fst r with [] => UB | b :: rest => tri_finish dbg k drop b rest (snd r) end) = Ok o -> forall t x, In t o -> In x (corners t) -> In x V).
  { intros top' bot' s I Ht Hb Eo. destruct (tri_loop dbg k drop mono top' bot' s) as [[rest s1]| | |] eqn:El; try discriminate. cbn [rbind fst snd] in Eo.
    destruct (loop_in V dbg k drop mono top' bot' s rest s1 I Ht Hb El) as (I1 & Hr). destruct rest as [|b rest]; [discriminate|].
    eapply finish_in; [exact I1| | |exact Eo]; [apply Hr; left; reflexivity|intros x Hx; apply Hr; right; exact Hx]. }
  destruct (match top with [] => true | t1 :: _ => (k_compare k mono b0 t1 <? 0)%Z end).
  - eapply (Main top bottom); [|intros x Hx; apply HT; right; exact Hx|intros x Hx; apply HB; right; exact Hx|exact E].
    split; cbn; [|contradiction]. intros x [<-|[<-|[]]]; [apply HB|apply HT]; left; reflexivity.
  - destruct top as [|t1 top]; [discriminate|]. eapply (Main top (b0 :: bottom)); [|intros x Hx; apply HT; right; right; exact Hx|exact HB|exact E].
    split; cbn; [|contradiction]. intros x [<-|[<-|[]]]; apply HT; [right|]; left; reflexivity.
Qed.
End Generic.
