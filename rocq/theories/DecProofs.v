(** The polygons of [md_build] have the boundary of the input. *)
From Coq Require Import List ZArith QArith Lia Lqa Bool.
From Verif Require Import BigUIntModel GeoModel GeoSpec TriModel TriSpec TriProofs TriTileProofs MonoRangeSpec MonoLoopProofs DecModel.
Import ListNotations.
Open Scope Q_scope.
Section Boundary.
Context {P A : Type} (k : kind P) (pos : P -> A) (good : P -> Prop) (EQ : forall a b, good a -> good b -> k_equal k a b = true -> pos a = pos b).
Context (f : A -> A -> Q) (AN : anti f).
Lemma anti_same a : f a a == 0.
Proof. pose proof (AN a a). lra. Qed.
Lemma cyc_push (p a : A) l : cyc f (p :: a :: l) == cyc f (a :: l) + (f a (last l a) + f (last l a) p + f p a).
Proof. rewrite !cyc_cons. cbn [app psum]. rewrite !psum_app, (AN (last l a) a). ring. Qed.
Definition whole (out : list (Z * list P)) : Q := fold_right (fun e s => cyc f (map pos (snd e)) + s) 0 out.
Lemma whole_app o1 o2 : whole (o1 ++ o2) == whole o1 + whole o2.
Proof. unfold whole. induction o1 as [|e o1 IH]; cbn [app fold_right]; [ring|]. rewrite IH. ring. Qed.
Notation g := (fun a b => f (pos a) (pos b)).
Definition shape (s : md_state P) : Prop := (md_top s = [] /\ md_bottom s = []) \/ (md_top s <> [] /\ md_bottom s <> []).
Definition all_good (s : md_state P) : Prop := Forall good (md_top s) /\ Forall good (md_bottom s).
Lemma start_sum drop t out : whole (md_emit (md_start k drop t out)) == whole out + tri_sum g t.
Proof.
  unfold md_emit, md_start. cbn [md_out md_or md_top md_bottom]. rewrite whole_app. apply Qplus_comp; [reflexivity|].
  unfold whole, tri_sum. cbn [fold_right snd]. destruct (t_top t); cbn [rev app map]; rewrite cyc_cons; cbn [app psum]; ring.
Qed.
Lemma step_sum dbg drop s t s' : shape s -> all_good s -> good (t1 t) -> good (t2 t) -> good (t3 t) -> md_triangle dbg k drop s t = Ok s' ->
  whole (md_emit s') == whole (if md_top s then md_out s else md_emit s) + tri_sum g t /\ shape s' /\ all_good s' /\ md_top s' <> [].
Proof.
  intros SH (G1 & G2) GA GB GC E. unfold md_triangle in E. unfold shape in SH.
  assert (ST : forall out, shape (md_start k drop t out) /\ all_good (md_start k drop t out) /\ md_top (md_start k drop t out) <> []).
  { intros out. unfold md_start, shape, all_good; cbn [md_top md_bottom]. destruct (t_top t); (split; [right; split; discriminate|]); (split; [|discriminate]); split; repeat constructor; assumption. }
  destruct (md_top s) as [|a ra] eqn:ET.
  - injection E as <-. split; [apply start_sum|]. apply ST.
  - destruct SH as [(C & _)|(_ & NB)]; [discriminate|]. destruct (md_bottom s) as [|b rb] eqn:EB; [contradiction|]. cbn [negb] in E.
    replace (check dbg true) with (Ok tt : res unit) in E by (destruct dbg; reflexivity). cbn [rbind] in E.
    destruct (k_equal k a (t1 t) && k_equal k b (t2 t)) eqn:Em; [|injection E as <-; split; [apply start_sum|]; apply ST].
    apply andb_true_iff in Em as (Em1 & Em2). cbv zeta in E. destruct (md_fits _ _ _ _ _ _ _ _) as [fits| | |] eqn:EF; cbn [rbind] in E; try discriminate.
    destruct fits; [|injection E as <-; split; [apply start_sum|]; apply ST].
    assert (Ga : good a) by (inversion G1; assumption). assert (Gb : good b) by (inversion G2; assumption).
    pose proof (EQ _ _ Ga GA Em1) as Pa. pose proof (EQ _ _ Gb GB Em2) as Pb.
    assert (CUR : forall p, cyc f (pos p :: map pos ((a :: ra) ++ rev (b :: rb))) == cyc f (map pos ((a :: ra) ++ rev (b :: rb))) + tri_sum g (Tri true (t1 t) (t2 t) p)).
    { intros p. cbn [app map]. rewrite cyc_push. cbn [rev]. rewrite !app_assoc, map_app. cbn [map]. rewrite last_last. unfold tri_sum; cbn [t1 t2 t3]. rewrite Pa, Pb. ring. }
    assert (Z1 : k_equal k (t1 t) (t3 t) = true -> tri_sum g t == 0). { intros Z. unfold tri_sum. rewrite (EQ _ _ GA GC Z), (AN (pos (t3 t)) (pos (t2 t))), anti_same. ring. }
    assert (Z2 : k_equal k (t2 t) (t3 t) = true -> tri_sum g t == 0). { intros Z. unfold tri_sum. rewrite (EQ _ _ GB GC Z), (AN (pos (t1 t)) (pos (t3 t))), anti_same. ring. }
    assert (EM : whole (md_emit s) == whole (md_out s) + cyc f (map pos ((a :: ra) ++ rev (b :: rb)))). { unfold md_emit. rewrite whole_app, ET, EB. unfold whole at 2. cbn [fold_right snd]. ring. }
    destruct (t_top t) eqn:Et; injection E as <-; unfold shape, all_good; cbn [md_top md_bottom]; unfold md_emit at 1; cbn [md_top md_bottom md_or md_out]; rewrite whole_app; unfold whole at 2; cbn [fold_right snd].
    + destruct (k_equal k (t1 t) (t3 t)) eqn:Ek.
      * split; [rewrite EM, (Z1 eq_refl); ring|]. split; [right; split; discriminate|]. split; [split; assumption|discriminate].
      * split; [|split; [right; split; discriminate|split; [split; [constructor; assumption|assumption]|discriminate]]].
        change ((t3 t :: a :: ra) ++ rev (b :: rb)) with (t3 t :: (a :: ra) ++ rev (b :: rb)). cbn [map]. change (pos a :: map pos (ra ++ rev (b :: rb))) with (map pos ((a :: ra) ++ rev (b :: rb))). rewrite CUR, EM. unfold tri_sum; cbn [t1 t2 t3]. ring.
    + destruct (k_equal k (t2 t) (t3 t)) eqn:Ek.
      * split; [rewrite EM, (Z2 eq_refl); ring|]. split; [right; split; discriminate|]. split; [split; assumption|discriminate].
      * split; [|split; [right; split; discriminate|split; [split; [assumption|constructor; assumption]|discriminate]]].
        change (rev (t3 t :: b :: rb)) with (rev (b :: rb) ++ [t3 t]). rewrite app_assoc, map_app, cyc_app. cbn [map app]. change (pos a :: map pos (ra ++ rev (b :: rb))) with (map pos ((a :: ra) ++ rev (b :: rb))). rewrite CUR, EM. unfold tri_sum; cbn [t1 t2 t3]. ring.
Qed.
Lemma triangles_sum dbg drop : forall ts s s', shape s -> all_good s -> (forall t x, In t ts -> In x (corners t) -> good x) -> md_triangles dbg k drop s ts = Ok s' ->
  whole (md_emit s') == whole (md_emit s) + out_sum g ts.
Proof.
  induction ts as [|t ts IH]; intros s s' SH G GT E; cbn [md_triangles] in E.
  - injection E as <-. unfold out_sum; cbn. ring.
  - destruct (md_triangle dbg k drop s t) as [s1| | |] eqn:E1; cbn [rbind] in E; try discriminate.
    assert (GC : forall x, In x (corners t) -> good x) by (intros x; apply GT; left; reflexivity).
    destruct (step_sum dbg drop s t s1 SH G) as (S1 & S2 & S3 & _); [apply GC; cbn; auto|apply GC; cbn; auto|apply GC; cbn; auto|exact E1|].
    rewrite (IH s1 s' S2 S3) by (try exact E; intros t' x Ht; apply GT; right; exact Ht). rewrite S1, out_sum_cons.
    destruct SH as [(H1 & H2)|(H1 & H2)].
    + rewrite H1. unfold md_emit. rewrite whole_app, H1, H2. unfold whole at 3. cbn. unfold cyc; cbn. ring.
    + destruct (md_top s) eqn:Et; [contradiction|]. ring.
Qed.
End Boundary.
Theorem md_boundary {P A} dbg (k : kind P) drop mono top bottom out (pos : P -> A) (good : P -> Prop) :
  (forall a b, good a -> good b -> k_equal k a b = true -> pos a = pos b) -> Forall good (top ++ bottom) -> md_build dbg k drop mono top bottom = Ok out ->
  same_boundary (map (fun e => map pos (snd e)) out) [map pos (polygon_of top bottom)].
Proof.
  intros EQ G E f AN. unfold md_build in E. destruct (tri_build dbg k drop mono top bottom) as [ts| | |] eqn:ET; cbn [rbind] in E; try discriminate.
  destruct (md_triangles _ _ _ _ _) as [s| | |] eqn:ES; cbn [rbind] in E; try discriminate. injection E as <-.
  assert (AN' : anti f) by exact AN.
  pose proof (triangles_sum k pos good EQ f AN' dbg drop ts (MD [] [] 0 []) s) as H.
  assert (H' : whole pos f (md_emit s) == whole pos f (md_emit (MD [] [] 0 [])) + out_sum (fun a b => f (pos a) (pos b)) ts).
  { apply H; [left; split; reflexivity|split; constructor| |exact ES]. intros t x Ht Hx. rewrite Forall_forall in G. apply G. exact (build_in dbg k drop mono top bottom ts ET t x Ht Hx). }
  rewrite edge_sum_flat.
  assert (W : forall o, fold_right (fun l s => cyc f l + s) 0 (map (fun e => map pos (snd e)) o) == whole pos f o). { induction o as [|e o IH]; [reflexivity|]. cbn [map fold_right]. rewrite IH. reflexivity. }
  rewrite W, H'. unfold md_emit. cbn [md_out md_top md_bottom app rev md_or]. unfold whole. cbn [fold_right snd map]. unfold cyc at 1. cbn [cycle_edges]. unfold edge_sum at 1. cbn [fold_right].
  pose proof (build_boundary dbg k drop mono top bottom ts ET (fun a b => f (pos a) (pos b)) ltac:(intros a b; apply AN)) as B.
  rewrite out_sum_edges in B. rewrite B. cbn [flat_map]. rewrite !app_nil_r.
  assert (M : forall l : list P, edge_sum (fun a b => f (pos a) (pos b)) (cycle_edges l) == edge_sum f (cycle_edges (map pos l))).
  { intros l. destruct l as [|a l]; [reflexivity|]. cbn [cycle_edges map app]. rewrite !path_psum. change [pos a] with (map pos [a]). rewrite <- map_app. generalize (l ++ [a]). intros r. revert a. induction r as [|b r IH]; intros a; cbn [map psum]; [reflexivity|]. rewrite IH. reflexivity. }
  rewrite M. ring.
Qed.
