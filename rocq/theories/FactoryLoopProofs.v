(** ConvexPolygonFactory: areas and loops. *)
From Coq Require Import List Bool Arith ZArith QArith Lqa Lia ZifyBool.
From Verif Require Import BigUIntModel GeoModel GeoSpec CvxSpec GeoProofs GeoPlaneProofs ConcatModel ConcatSpec PlanarModel PlanarSpec PlanarProofs TriModel TriSpec TriProofs TriGeoProofs TriTileProofs
  MonoRangeModel MonoRangeSpec MonoChainProofs MonoLoopProofs DecModel DecSpec DecProofs DecTopProofs OrientModel OrientProofs OrientTopProofs PolyModel PolySpec FactoryModel FactorySpec FactoryProofs.
Import ListNotations.
Open Scope Q_scope.
(** ** Areas *)
Definition fq (f : vec3 -> vec3 -> Z) (p q : vec3) : Q := inject_Z (f p q).
Lemma fq_anti f : edge_weight f -> forall a b, fq f b a == - fq f a b.
Proof. intros (H & _) a b. unfold fq. rewrite <- inject_Z_opp. specialize (H a b). replace (f b a) with (- f a b)%Z by lia. reflexivity. Qed.
Lemma path_sum_q (f : vec3 -> vec3 -> Z) l a : edge_sum (fun p q => inject_Z (f p q)) (path_edges (a :: l)) == inject_Z (path_sum f (a :: l)).
Proof. revert a. induction l as [|b l IH]; intros a; [reflexivity|]. change (path_edges (a :: b :: l)) with ((a, b) :: path_edges (b :: l)). unfold edge_sum in *. cbn [fold_right fst snd]. rewrite IH. cbn [path_sum]. rewrite inject_Z_plus. reflexivity. Qed.
Lemma path_sum_snoc (f : vec3 -> vec3 -> Z) x : forall l a, path_sum f (a :: l ++ [x]) = (path_sum f (a :: l) + f (last l a) x)%Z.
Proof. induction l as [|b l IH]; intros a; [cbn; ring|]. cbn [app]. change (path_sum f (a :: b :: l ++ [x])) with (f a b + path_sum f (b :: l ++ [x]))%Z. rewrite IH, last_next. change (path_sum f (a :: b :: l)) with (f a b + path_sum f (b :: l))%Z. ring. Qed.
Lemma area_cyc (f : vec3 -> vec3 -> Z) l : MonoLoopProofs.cyc (fq f) l == inject_Z (cycle_sum f l).
Proof.
  unfold MonoLoopProofs.cyc, cycle_sum, cycle_edges. destruct l as [|a l]; [reflexivity|]. unfold fq. cbn [app]. rewrite (path_sum_q f), path_sum_snoc, last_next. reflexivity.
Qed.
Lemma boundary_area f ls l : edge_weight f -> same_boundary ls [l] -> sum_z (map (cycle_sum f) ls) = cycle_sum f l.
Proof.
  intros W B. specialize (B (fq f) (fq_anti f W)). rewrite !edge_sum_flat in B. cbn [fold_right] in B. rewrite area_cyc in B.
  assert (S : fold_right (fun l s => MonoLoopProofs.cyc (fq f) l + s) 0 ls == inject_Z (sum_z (map (cycle_sum f) ls))). { clear. induction ls as [|l ls IH]; [reflexivity|]. cbn [fold_right map sum_z]. rewrite IH, area_cyc. unfold sum_z. rewrite <- inject_Z_plus. reflexivity. }
  rewrite S, Qplus_0_r in B. apply (proj1 (inject_Z_injective _ _)) in B. exact B.
Qed.
Lemma area_rev f l : edge_weight f -> cycle_sum f (rev l) = (- cycle_sum f l)%Z.
Proof. intros W. pose proof (cyc_rev (fq f) (fq_anti f W) l) as H. rewrite !area_cyc in H. rewrite <- inject_Z_opp in H. apply (proj1 (inject_Z_injective _ _)) in H. exact H. Qed.
Lemma area_rotation (f : vec3 -> vec3 -> Z) l l' : rotation l l' -> cycle_sum f l = cycle_sum f l'.
Proof. intros R. pose proof (cyc_rotation (fq f) l l' R) as H. rewrite !area_cyc in H. apply (proj1 (inject_Z_injective _ _)) in H. exact H. Qed.
Lemma area_line f l : edge_weight f -> all_in_line l -> cycle_sum f l = 0%Z.
Proof.
  destruct l as [|a l]; [reflexivity|]. intros (AN & AD) AL. unfold cycle_sum.
  assert (G : forall m b, In b (a :: l) -> incl m (a :: l) -> path_sum f (b :: m) = (f a (last m b) - f a b)%Z).
  { induction m as [|c m IH]; intros b Hb I; [cbn; lia|]. change (path_sum f (b :: c :: m)) with (f b c + path_sum f (c :: m))%Z. rewrite IH, last_next; [|apply I; left; reflexivity|intros x Hx; apply I; right; exact Hx].
    assert (L : in_line a b c) by (apply AL; [left; reflexivity|exact Hb|apply I; left; reflexivity]). apply AD in L. lia. }
  rewrite G; [|left; reflexivity|intros x Hx; right; exact Hx]. rewrite last_next. pose proof (AN a a). pose proof (AN a (last l a)). lia.
Qed.
Lemma cross_weight i : edge_weight (fun p q => comp (v3_cross p q) i).
Proof.
  split.
  - intros [a1 a2 a3] [b1 b2 b3]. destruct i as [|[|]]; unfold comp, v3_cross; cbn [vx vy vz]; ring.
  - intros [a1 a2 a3] [b1 b2 b3] [c1 c2 c3] L. unfold in_line in L. assert (E : comp (v3_cross (v3_sub (V3 b1 b2 b3) (V3 a1 a2 a3)) (v3_sub (V3 c1 c2 c3) (V3 a1 a2 a3))) i = 0%Z) by (rewrite L; destruct i as [|[|]]; reflexivity).
    clear L. destruct i as [|[|]]; unfold comp, v3_cross, v3_sub in *; cbn [vx vy vz] in *; lia.
Qed.
(** Points of a plane that are on one line without the drop axis. *)
Lemma flat_in_line plane drop mono l : (drop < 3)%nat -> comp (hn plane) drop <> 0%Z -> Forall (on_plane plane) l -> flat (map (fun p => seen drop mono (qpt p)) l) -> all_in_line l.
Proof.
  intros Dl Dc On F a b c Ha Hb Hc. rewrite Forall_forall in On. pose proof (On a Ha) as Pa. pose proof (On b Hb) as Pb. pose proof (On c Hc) as Pc. unfold on_plane in *.
  assert (T : turn (qdrop drop (qpt a)) (qdrop drop (qpt b)) (qdrop drop (qpt c)) == 0).
  { rewrite <- (seen_turn drop mono). apply F; apply in_map_iff; [exists a|exists b|exists c]; split; try reflexivity; assumption. }
  assert (Z : comp (v3_cross (v3_sub b a) (v3_sub c a)) drop = 0%Z).
  { clear - T Dl. unfold turn, qcross2, qsub2, qdrop, qpt in T. destruct drop as [|[|[|]]]; [| | |lia]; cbn [qx2 qy2 qx qy qz] in T; unfold comp, v3_cross, v3_sub; cbn [vx vy vz]; unfold Qeq in T; cbn in T; lia. }
  unfold in_line. destruct plane as [[n1 n2 n3] d], a as [a1 a2 a3], b as [b1 b2 b3], c as [c1 c2 c3]. unfold v3_dot, v3_cross, v3_sub in *. cbn [hn hd vx vy vz comp] in *.
  set (u1 := (b1 - a1)%Z) in *. set (u2 := (b2 - a2)%Z) in *. set (u3 := (b3 - a3)%Z) in *. set (w1 := (c1 - a1)%Z) in *. set (w2 := (c2 - a2)%Z) in *. set (w3 := (c3 - a3)%Z) in *.
  assert (U : (n1 * u1 + n2 * u2 + n3 * u3 = 0)%Z) by (unfold u1, u2, u3; lia). assert (W : (n1 * w1 + n2 * w2 + n3 * w3 = 0)%Z) by (unfold w1, w2, w3; lia).
  clearbody u1 u2 u3 w1 w2 w3. clear - U W Z Dl Dc.
  (* the cross product is parallel to the normal *)
  assert (K1 : (n1 * (u3 * w1 - u1 * w3) = n2 * (u2 * w3 - u3 * w2))%Z).
  { assert (K : (n1 * (u3 * w1 - u1 * w3) - n2 * (u2 * w3 - u3 * w2) = u3 * (n1 * w1 + n2 * w2 + n3 * w3) - w3 * (n1 * u1 + n2 * u2 + n3 * u3))%Z) by ring. rewrite U, W in K. lia. }
  assert (K2 : (n2 * (u1 * w2 - u2 * w1) = n3 * (u3 * w1 - u1 * w3))%Z).
  { assert (K : (n2 * (u1 * w2 - u2 * w1) - n3 * (u3 * w1 - u1 * w3) = u1 * (n1 * w1 + n2 * w2 + n3 * w3) - w1 * (n1 * u1 + n2 * u2 + n3 * u3))%Z) by ring. rewrite U, W in K. lia. }
  assert (K3 : (n3 * (u2 * w3 - u3 * w2) = n1 * (u1 * w2 - u2 * w1))%Z).
  { assert (K : (n3 * (u2 * w3 - u3 * w2) - n1 * (u1 * w2 - u2 * w1) = u2 * (n1 * w1 + n2 * w2 + n3 * w3) - w2 * (n1 * u1 + n2 * u2 + n3 * u3))%Z) by ring. rewrite U, W in K. lia. }
  assert (ZP : forall n x, n <> 0%Z -> (n * x = 0)%Z -> x = 0%Z) by (intros n x N M; apply Zmult_integral in M; tauto).
  destruct drop as [|[|[|]]]; [| | |lia]; cbn [comp vx vy vz] in *; try rewrite Z in K1; try rewrite Z in K2; try rewrite Z in K3; f_equal; try exact Z; apply (ZP _ _ Dc); lia.
Qed.
(** ** All calls for one piece *)
Definition sound {A} (v : list vec3) (ps : list (poly A)) (area : (vec3 -> vec3 -> Z) -> Z) : Prop := exists ls, Forall2 (convex_part v) ps ls /\ forall i, edge_weight i -> sum_z (map (cycle_sum i) ls) = area i.
Lemma sum_z_app a b : sum_z (a ++ b) = (sum_z a + sum_z b)%Z.
Proof. induction a as [|x a IH]; [reflexivity|]. cbn [app]. unfold sum_z in *. cbn [fold_right]. rewrite IH. ring. Qed.
Lemma sound_app {A} v (ps qs : list (poly A)) f g : sound v ps f -> sound v qs g -> sound v (ps ++ qs) (fun i => f i + g i)%Z.
Proof. intros (ls & F & S) (ms & G & T). exists (ls ++ ms). split; [apply Forall2_app; assumption|]. intros i W. rewrite map_app, sum_z_app, S, T by exact W. reflexivity. Qed.
Lemma sound_ext {A} v (ps : list (poly A)) f g : (forall i, edge_weight i -> f i = g i) -> sound v ps f -> sound v ps g.
Proof. intros E (ls & F & S). exists ls. split; [exact F|]. intros i W. rewrite S by exact W. apply E, W. Qed.
Lemma sound_incl {A} v v' (ps : list (poly A)) f : incl v v' -> sound v ps f -> sound v' ps f.
Proof.
  intros I (ls & F & S). exists ls. split; [|exact S]. clear S. induction F as [|p l ps ls (H1 & H2) F IH]; constructor; [|exact IH]. split; [exact H1|]. intros x Hx. apply I, H2, Hx.
Qed.
Lemma sound_nil {A} v : @sound A v [] (fun _ => 0%Z).
Proof. exists []. split; [constructor|reflexivity]. Qed.
Section Emits.
Context {A : Type} (dbg : bool) (d0 : A) (plane : hspace3) (drop mono : nat) (v : list vec3).
Context (Dl : (drop < 3)%nat) (Dc : comp (hn plane) drop <> 0%Z) (On : Forall (on_plane plane) v) (Ne : Forall near v).
Notation pos := (fun p => seen drop mono (qpt p)).
Lemma sub_all {P : vec3 -> Prop} l : Forall P v -> incl l v -> Forall P l.
Proof using Type. rewrite !Forall_forall. intros F I x Hx. apply F, I, Hx. Qed.
Lemma emits_ok es : Forall (fun e => oriented (fst e) (map pos (snd e)) /\ incl (snd e) v) es ->
  exists ps, cf_emits dbg d0 plane drop (cf_plane_orientation (hn plane) drop) es = Ok ps /\ sound v ps (fun i => sum_z (map (cycle_sum i) (map snd es))).
Proof using All.
  induction es as [|[o l] es IH]; intros F; [exists []; split; [reflexivity|exact (sound_nil v)]|]. inversion F as [|? ? (Or & I) F']; subst. cbn [fst snd] in *. destruct (IH F') as (ps & E & S). cbn [cf_emits].
  destruct (Z.eq_dec o 0) as [->|N].
  - exists ps. unfold cf_emit at 1. cbn [fst]. change (0 =? 0)%Z with true. cbn [rbind]. rewrite E. split; [reflexivity|]. eapply sound_ext; [|exact S]. intros i W. cbn [map snd sum_z fold_right]. rewrite (area_line i l W); [reflexivity|].
    apply (flat_in_line plane drop mono); try assumption; [apply sub_all; assumption|]. destruct Or as [(C & _)|[(C & _)|(_ & H)]]; [discriminate|discriminate|exact H].
  - destruct (emit_ok dbg d0 plane drop mono o l Dl Dc (sub_all l On I) (sub_all l Ne I) N Or) as (p & E1 & P). rewrite E1. cbn [rbind]. rewrite E. exists (p :: ps). split; [reflexivity|].
    apply (sound_ext _ _ (fun i => cycle_sum i l + sum_z (map (cycle_sum i) (map snd es)))%Z); [reflexivity|]. apply (sound_app v [p] ps); [|exact S]. exists [l]. split; [constructor; [split; assumption|constructor]|]. intros i W. cbn [map sum_z fold_right]. ring.
Qed.
End Emits.
(** The emitted vertices are vertices of the chains. *)
Lemma md_in {P} dbg (k : kind P) drop V : forall ts s s', (forall t x, In t ts -> In x (corners t) -> In x V) -> incl (md_top s) V -> incl (md_bottom s) V -> Forall (fun e => incl (snd e) V) (md_out s) ->
  md_triangles dbg k drop s ts = Ok s' -> incl (md_top s') V /\ incl (md_bottom s') V /\ Forall (fun e => incl (snd e) V) (md_out s').
Proof.
  induction ts as [|t ts IH]; intros s s' C T B O E; [injection E as <-; auto|]. cbn [md_triangles] in E. destruct (md_triangle dbg k drop s t) as [s1| | |] eqn:E1; try discriminate. cbn [rbind] in E.
  assert (C1 : In (t1 t) V) by (apply (C t); cbn; auto). assert (C2 : In (t2 t) V) by (apply (C t); cbn; auto). assert (C3 : In (t3 t) V) by (apply (C t); cbn; auto).
  assert (EM : Forall (fun e => incl (snd e) V) (md_emit s)). { apply Forall_app. split; [exact O|]. constructor; [|constructor]. cbn [snd]. apply incl_app; [exact T|]. intros x Hx. apply in_rev in Hx. apply B, Hx. }
  assert (ST : forall out, Forall (fun e => incl (snd e) V) out -> incl (md_top (md_start k drop t out)) V /\ incl (md_bottom (md_start k drop t out)) V /\ Forall (fun e => incl (snd e) V) (md_out (md_start k drop t out))).
  { intros out Ho. unfold md_start. cbn [md_top md_bottom md_out]. destruct (t_top t); split; try (intros x Hx; cbn in Hx; intuition (subst; assumption)); split; try exact Ho; intros x Hx; cbn in Hx; intuition (subst; assumption). }
  assert (S1 : incl (md_top s1) V /\ incl (md_bottom s1) V /\ Forall (fun e => incl (snd e) V) (md_out s1)).
  { unfold md_triangle in E1. destruct (md_top s) as [|a tp] eqn:Et; [injection E1 as <-; apply ST; exact O|]. destruct (md_bottom s) as [|b bt] eqn:Eb; [destruct dbg; discriminate|].
    destruct (check dbg _) as [[]| | |]; try discriminate. cbn [rbind] in E1. destruct (k_equal k a (t1 t) && k_equal k b (t2 t)); [|injection E1 as <-; apply ST; exact EM].
    match type of E1 with rbind ?x _ = _ => destruct x as [[]| | |]; try discriminate end; cbn [rbind] in E1; injection E1 as <-; [|apply ST; exact EM].
    destruct (t_top t); cbn [md_top md_bottom md_out]; rewrite ?Et, ?Eb.
    - split; [|split; [exact B|exact O]]. destruct (k_equal k (t1 t) (t3 t)); [exact T|]. apply incl_cons; [exact C3|exact T].
    - split; [exact T|]. split; [|exact O]. destruct (k_equal k (t2 t) (t3 t)); [exact B|]. apply incl_cons; [exact C3|exact B]. }
  destruct S1 as (H1 & H2 & H3). apply (IH s1 s'); try assumption. intros t' x Ht. apply C. right. exact Ht.
Qed.
Lemma md_build_in {P} dbg (k : kind P) drop mono top bottom out : md_build dbg k drop mono top bottom = Ok out -> Forall (fun e => incl (snd e) (top ++ bottom)) out.
Proof.
  intros E. unfold md_build in E. destruct (tri_build dbg k drop mono top bottom) as [ts| | |] eqn:ET; cbn [rbind] in E; try discriminate.
  destruct (md_triangles _ _ _ _ _) as [s| | |] eqn:ES; cbn [rbind] in E; try discriminate. injection E as <-.
  destruct (md_in dbg k drop (top ++ bottom) ts (MD [] [] 0 []) s) as (H1 & H2 & H3); [exact (build_in dbg k drop mono top bottom ts ET)|intros x []|intros x []|constructor|exact ES|].
  apply Forall_app. split; [exact H3|]. constructor; [|constructor]. cbn [snd]. apply incl_app; [exact H1|]. intros x Hx. apply in_rev in Hx. apply H2, Hx.
Qed.
Lemma in_removelast {B} (l : list B) x : In x (removelast l) -> In x l.
Proof. induction l as [|a l IH]; [auto|]. cbn [removelast]. destruct l as [|b l]; [intros []|]. intros [<-|H]; [left; reflexivity|right; apply IH, H]. Qed.
Lemma od_build_in {P} dbg (k : kind P) drop mono c1 c2 out : od_build dbg k drop mono c1 c2 = Ok out -> Forall (fun e => incl (snd e) (c1 ++ c2)) out.
Proof.
  intros E. unfold od_build in E. destruct (od_detect dbg k drop mono c1 c2) as [d| | |]; try discriminate. cbn [rbind] in E.
  assert (I : forall a b : list P, incl (removelast a ++ tl b) (a ++ b)). { intros a b x Hx. apply in_app_iff in Hx. apply in_app_iff. destruct Hx as [Hx|Hx]; [left; apply in_removelast, Hx|right; destruct b; [exact Hx|right; exact Hx]]. }
  destruct d as [[]|].
  - destruct (md_build _ _ _ _ _ _) as [o| | |] eqn:EM; try discriminate. injection E as <-. rewrite Forall_map. eapply Forall_impl; [|exact (md_build_in _ _ _ _ _ _ _ EM)].
    intros e He. cbn [od_flip snd]. intros x Hx. apply in_rev in Hx. apply I, He, Hx.
  - eapply Forall_impl; [|exact (md_build_in _ _ _ _ _ _ _ E)]. intros e He x Hx. apply He, I in Hx. apply in_app_iff in Hx. apply in_app_iff. tauto.
  - injection E as <-. constructor; [|constructor]. cbn [snd]. intros x Hx. apply I. apply in_app_iff in Hx. apply in_app_iff. rewrite <- in_rev in Hx. exact Hx.
Qed.
