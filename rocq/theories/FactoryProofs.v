(** ConvexPolygonFactory: one call of EmitOriented. *)
From Coq Require Import List Bool Arith ZArith QArith Lqa Lia ZifyBool.
From Verif Require Import BigUIntModel GeoModel GeoSpec CvxSpec GeoProofs GeoPlaneProofs GeoPluckerProofs GeoDirProofs ConcatModel PlanarModel PlanarSpec PlanarProofs TriModel TriSpec TriProofs TriGeoProofs TriTileProofs
  MonoRangeModel MonoRangeSpec MonoLoopProofs DecModel DecSpec DecProofs DecTopProofs OrientModel OrientProofs OrientTopProofs PolyModel PolySpec PolyBridgeProofs PolyInfoProofs PolyCapProofs PolyMakeProofs PolyValidProofs FactoryModel FactorySpec.
From Verif Require Import CvxProofs.
Import ListNotations.
Open Scope Q_scope.
(** ** The axes *)
Lemma mono_ok drop : (drop < 3)%nat -> (cf_mono drop < 2)%nat /\ cf_mono drop <> drop.
Proof. intros H. destruct drop as [|[|[|]]]; [cbv; lia|cbv; lia|cbv; lia|lia]. Qed.
Lemma first_nonzero_ok n d : first_nonzero n = Some d -> (d < 3)%nat /\ comp n d <> 0%Z.
Proof.
  unfold first_nonzero. destruct (negb (vx n =? 0)%Z) eqn:E; [intros [= <-]; cbn; lia|]. destruct (negb (vy n =? 0)%Z) eqn:E2; [intros [= <-]; cbn; lia|].
  destruct (negb (vz n =? 0)%Z) eqn:E3; [intros [= <-]; cbn; lia|discriminate].
Qed.
Lemma first_nonzero_none n : first_nonzero n = None -> n = V3 0 0 0.
Proof.
  unfold first_nonzero. destruct (negb (vx n =? 0)%Z) eqn:E; [discriminate|]. destruct (negb (vy n =? 0)%Z) eqn:E2; [discriminate|].
  destruct (negb (vz n =? 0)%Z) eqn:E3; [discriminate|]. intros _. destruct n as [x y z]; cbn in *. f_equal; lia.
Qed.
(** ** Seen and dropped *)
Lemma seen_qdrop drop mono a b : qp2_eq (qdrop drop a) (qdrop drop b) -> qp2_eq (seen drop mono a) (seen drop mono b).
Proof. intros (E1 & E2). unfold seen, qp2_eq. destruct (Nat.eqb _ _); cbn; [split; assumption|]. rewrite E1, E2. split; reflexivity. Qed.
Lemma convex_seen drop mono s qs : convex_cycle s (map (seen drop mono) qs) -> convex_cycle s (map (qdrop drop) qs).
Proof.
  intros (C1 & C2 & C3).
  assert (NE : forall i a, nth_error (map (qdrop drop) qs) i = Some a -> exists q, a = qdrop drop q /\ nth_error (map (seen drop mono) qs) i = Some (seen drop mono q)).
  { intros i a E. rewrite nth_error_map in *. destruct (nth_error qs i) as [q|]; [|discriminate]. injection E as <-. exists q. split; reflexivity. }
  split; [|split].
  - intros i j k a b c Hij Hjk Ea Eb Ec. destruct (NE _ _ Ea) as (qa & -> & Ea'). destruct (NE _ _ Eb) as (qb & -> & Eb'). destruct (NE _ _ Ec) as (qc & -> & Ec').
    rewrite <- (seen_turn drop mono). exact (C1 i j k _ _ _ Hij Hjk Ea' Eb' Ec').
  - intros i a b Ea Eb. rewrite map_length in Eb. destruct (NE _ _ Ea) as (qa & -> & Ea'). destruct (NE _ _ Eb) as (qb & -> & Eb'). intros Q.
    apply (C2 i (seen drop mono qa) (seen drop mono qb) Ea'); [rewrite map_length; exact Eb'|]. apply seen_qdrop. exact Q.
  - destruct C3 as (a & b & c & Ha & Hb & Hc & N). apply in_map_iff in Ha as (qa & <- & Ha). apply in_map_iff in Hb as (qb & <- & Hb). apply in_map_iff in Hc as (qc & <- & Hc).
    exists (qdrop drop qa), (qdrop drop qb), (qdrop drop qc). rewrite seen_turn in N. repeat split; try (apply in_map; assumption). exact N.
Qed.
Lemma convex_sign s s' l : 0 < s * s' -> convex_cycle s l -> convex_cycle s' l.
Proof.
  intros H (C1 & C2 & C3). split; [|split; assumption]. intros i j k a b c Hij Hjk Ea Eb Ec. specialize (C1 i j k a b c Hij Hjk Ea Eb Ec).
  set (t := turn a b c) in *. destruct (Qlt_le_dec (s' * t) 0) as [L|L]; [exfalso|exact L]. destruct (Qlt_le_dec 0 s) as [P|P]; [|destruct (Qlt_le_dec s 0) as [N|N]; [|assert (E : s == 0) by lra; rewrite E in H; lra]]; nra.
Qed.
(** ** Edges *)
Lemma v3_qpt_differ a b : a <> b -> ~ qp_eq (qpt a) (qpt b).
Proof. intros N (E1 & E2 & E3). apply N. destruct a, b. unfold qpt in *. cbn in *. unfold Qeq in *. cbn in *. f_equal; lia. Qed.
Lemma last_next {A} (p d : A) rest : last (p :: rest) d = last rest p.
Proof. revert p. induction rest as [|x rest IH]; intros p; [reflexivity|]. change (last (p :: x :: rest) d) with (last (x :: rest) d). rewrite IH. destruct rest; [reflexivity|]. cbn [last]. clear. revert a. induction rest as [|y rest IH]; intros a; [reflexivity|]. cbn [last]. exact (IH y). Qed.
Lemma edges_all {A} (d0 : A) : forall rest prev, (forall a b, In (a, b) (path_edges (prev :: rest)) -> a <> b) -> cf_edges d0 prev rest = (chain_edges_pt d0 prev rest, last rest prev).
Proof.
  induction rest as [|p rest IH]; intros prev D; [reflexivity|]. cbn [cf_edges chain_edges_pt].
  assert (V : pl_valid (pl_of_points prev p) = true). { apply pl_of_points_valid, v3_qpt_differ, D. left. reflexivity. }
  rewrite V, IH; [rewrite last_next; reflexivity|]. intros a b Hab. apply D. right. exact Hab.
Qed.
Lemma array_chain {A} (d0 : A) first : forall rest prev, array_edges d0 first (map (fun v => HP v 1) (prev :: rest)) = chain_edges d0 (HP prev 1) (map (fun v => HP v 1) rest ++ [first]).
Proof. induction rest as [|p rest IH]; intros prev; [reflexivity|]. change (map (fun v => HP v 1) (prev :: p :: rest)) with (HP prev 1 :: map (fun v => HP v 1) (p :: rest)). cbn [array_edges]. rewrite IH. reflexivity. Qed.
Lemma chain_pt_snoc {A} (d0 : A) : forall rest prev x, chain_edges_pt d0 prev (rest ++ [x]) = chain_edges_pt d0 prev rest ++ [PE (HP (last rest prev) 1) (pl_of_points (last rest prev) x) d0].
Proof.
  induction rest as [|p rest IH]; intros prev x; [reflexivity|]. cbn [app chain_edges_pt]. rewrite IH, last_next. reflexivity.
Qed.
Lemma cycle_all {A} (d0 : A) first rest : (forall a b, In (a, b) (cycle_edges (first :: rest)) -> a <> b) -> cf_cycle d0 first rest = array_edges d0 (HP first 1) (map (fun v => HP v 1) (first :: rest)).
Proof.
  intros D. unfold cf_cycle. cbn [cycle_edges app] in D.
  assert (SP : forall a b, In (a, b) (path_edges (first :: rest)) -> a <> b).
  { intros a b Hab. apply D. revert Hab. clear. generalize first at 1 2 as f. induction rest as [|p rest IH]; intros f H; [destruct H|]. destruct H as [H|H]; [left; exact H|right; apply (IH p); exact H]. }
  rewrite (edges_all d0 rest first SP).
  assert (V : pl_valid (pl_of_points (last rest first) first) = true).
  { apply pl_of_points_valid, v3_qpt_differ, D. clear. generalize first at 1 3. induction rest as [|p rest IH]; intros f; [left; reflexivity|]. right. rewrite last_next. exact (IH p). }
  rewrite V, <- (chain_pt_snoc d0), chain_pt_eq, array_chain, map_app. reflexivity.
Qed.
(** ** The plane *)
Lemma on_plane_side h p : on_plane h p <-> side h (qpt p) == 0.
Proof. unfold on_plane, side, qdot, qpt, v3_dot. cbn [qx qy qz]. rewrite <- !inject_Z_mult, <- !inject_Z_plus. unfold Qeq, Qminus. cbn. lia. Qed.
Lemma flip_value o po : (o = 1 \/ o = -1)%Z -> (po = 1 \/ po = -1)%Z -> Z.lor (Z.lxor o po) 1 = (o * po)%Z.
Proof. intros [-> | ->] [-> | ->]; reflexivity. Qed.
Lemma plane_orientation_value n d : comp n d <> 0%Z -> cf_plane_orientation n d = (- Z.sgn (comp n d))%Z.
Proof. intros N. unfold cf_plane_orientation, zabs_mult, zsign_ext. destruct (comp n d) as [|z|z]; [contradiction|reflexivity|reflexivity]. Qed.
Lemma comp_scale n s d : comp (v3_scale n s) d = (comp n d * s)%Z.
Proof. destruct d as [|[|]]; reflexivity. Qed.
(** ** One call *)
Definition near (p : vec3) : Prop := Forall (fun c => - 2 ^ 30 < c < 2 ^ 30)%Z [vx p; vy p; vz p].
Lemma near_no_min a b : near a -> near b -> no_min (l3 (ld (pl_of_hpoints (HP a 1) (HP b 1)))).
Proof.
  unfold near. rewrite !Forall_cons_iff. intros (A1 & A2 & A3 & _) (B1 & B2 & B3 & _).
  unfold pl_of_hpoints. cbn [hv hw ld]. change (zabs_mult2 1 1) with 1%Z. unfold no_min, l3, v3_scale, v3_sub. cbn [vx vy vz]. repeat constructor; lia.
Qed.
Lemma emit_ok {A} dbg (d0 : A) plane drop mono o l : (drop < 3)%nat -> comp (hn plane) drop <> 0%Z -> Forall (on_plane plane) l -> Forall near l -> o <> 0%Z -> oriented o (map (fun p => seen drop mono (qpt p)) l) ->
  exists p, cf_emit dbg d0 plane drop (cf_plane_orientation (hn plane) drop) (o, l) = Ok [p] /\ poly_ok p (map qpt l).
Proof.
  intros Dl Dc On Ne No Or. set (s := Z.sgn (comp (hn plane) drop)) in *. assert (Hs : (s = 1 \/ s = -1)%Z) by (unfold s; lia).
  assert (Ho : (o = 1 \/ o = -1)%Z /\ convex_cycle (inject_Z (- o)) (map (qdrop drop) (map qpt l))).
  { rewrite <- map_map in Or. destruct Or as [(-> & C)|[(-> & C)|(-> & _)]]; [split; [right; reflexivity|]|split; [left; reflexivity|]|contradiction]; apply convex_seen with (mono := mono); exact C. }
  destruct Ho as (Ho & C).
  destruct l as [|first rest]. { destruct C as (_ & _ & (x & _ & _ & [] & _)). }
  unfold cf_emit. cbn [fst snd]. replace (o =? 0)%Z with false by lia. rewrite plane_orientation_value by exact Dc. fold s. rewrite flip_value by (try lia; exact Ho).
  set (h := HS (v3_scale (hn plane) (o * - s)) (hd plane * (o * - s))).
  assert (Hd : comp (hn h) drop = (comp (hn plane) drop * (o * - s))%Z) by (unfold h; cbn [hn]; apply comp_scale).
  assert (Hn0 : comp (hn h) drop <> 0%Z) by (rewrite Hd; nia).
  assert (ON : Forall (fun q => side h q == 0) (map qpt (first :: rest))).
  { rewrite Forall_map. eapply Forall_impl; [|exact On]. intros p Hp. apply on_plane_side. unfold on_plane in *. unfold h. cbn [hn hd]. rewrite <- Hp. unfold v3_dot, v3_scale. cbn [vx vy vz]. ring. }
  assert (CX : convex_cycle (inject_Z (comp (hn h) drop)) (map (qdrop drop) (map qpt (first :: rest)))).
  { apply (convex_sign (inject_Z (- o))); [|exact C]. rewrite <- inject_Z_mult. change 0 with (inject_Z 0). rewrite <- Zlt_Qlt. rewrite Hd. unfold s in *. nia. }
  assert (DN : Forall2 denotes (map (fun v => HP v 1) (first :: rest)) (map qpt (first :: rest))).
  { clear. induction (first :: rest) as [|v vs IH]; [constructor|]. cbn [map]. constructor; [|exact IH]. unfold denotes. cbn [hw hv qpt qx qy qz]. change (inject_Z 1) with 1. split; [discriminate|]. repeat split; ring. }
  destruct (make_array d0 h drop _ _ DN Dl Hn0 ON CX) as (p & E & P). unfold poly_of_array in E. cbn [map] in E.
  rewrite cycle_all.
  2:{ destruct CX as (_ & ND & _). intros a b Hab EQ. subst b. rewrite map_map in ND. set (L := first :: rest) in *.
      assert (NE : exists i, nth_error L i = Some a /\ nth_error L (S i mod length L) = Some a).
      { clear - Hab. unfold L, cycle_edges in Hab. unfold path_edges in Hab. apply In_nth_error in Hab. destruct Hab as (i & Hi). fold L in Hi. 
        assert (LL : (i < length L)%nat). { assert (H : (i < length (combine (L ++ [first]) (tl (L ++ [first]))))%nat) by (apply nth_error_Some; rewrite Hi; discriminate). rewrite combine_length in H. unfold L in *. cbn [app tl] in H. rewrite app_length in H. cbn [length] in *. rewrite app_length in H. cbn [length] in H. lia. }
        assert (H1 : nth_error (L ++ [first]) i = Some a /\ nth_error (tl (L ++ [first])) i = Some a).
        { clear - Hi. revert Hi. generalize (L ++ [first]), (tl (L ++ [first])). intros l l'. revert l l'. induction i as [|i IH]; intros [|x l] [|y l'] H; try discriminate; [injection H as <- <-; split; reflexivity|exact (IH _ _ H)]. }
        destruct H1 as (H1 & H2). exists i. split; [rewrite nth_error_app1 in H1 by exact LL; exact H1|].
        assert (H3 : nth_error (L ++ [first]) (S i) = Some a) by (unfold L in *; cbn [app tl nth_error] in *; exact H2).
        destruct (Nat.eq_dec (S i) (length L)) as [Q|Q].
        - rewrite Q, Nat.mod_same by (unfold L; cbn; lia). rewrite Q in H3. rewrite nth_error_app2, Nat.sub_diag in H3 by lia. unfold L. exact H3.
        - rewrite Nat.mod_small by lia. rewrite nth_error_app1 in H3 by lia. exact H3. }
      destruct NE as (i & N1 & N2). apply (ND i (qdrop drop (qpt a)) (qdrop drop (qpt a))); [rewrite nth_error_map, N1; reflexivity|rewrite map_length, nth_error_map, N2; reflexivity|split; reflexivity]. }
  assert (EP : p = Poly h drop (array_edges d0 (HP first 1) (map (fun v => HP v 1) (first :: rest)))) by (injection E as <-; reflexivity).
  rewrite <- EP. exists p. split; [|exact P]. destruct dbg; [|reflexivity].
  assert (VS : poly_valid_state p = Ok true).
  { apply (valid_accepts p _ P). assert (AE : forall e, In e (pedges p) -> exists a b, In a (first :: rest) /\ In b (first :: rest) /\ pv e = HP a 1 /\ pl e = pl_of_hpoints (HP a 1) (HP b 1)).
    { rewrite EP. cbn [pedges]. assert (F0 : In first (first :: rest)) by (left; reflexivity). revert F0. generalize (first :: rest) as L. generalize first as f. clear. intros f L F0.
      assert (G : forall M, incl M L -> forall e, In e (array_edges d0 (HP f 1) (map (fun v => HP v 1) M)) -> exists a b, In a L /\ In b L /\ pv e = HP a 1 /\ pl e = pl_of_hpoints (HP a 1) (HP b 1)).
      { induction M as [|x M IH]; intros I e He; [destruct He|]. cbn [map array_edges] in He. destruct He as [<-|He]; [|apply IH; [intros y Hy; apply I; right; exact Hy|exact He]].
        cbn [pv pl]. destruct M as [|y M]; [exists x, f|exists x, y]; cbn [map]; repeat split; try exact F0; try (apply I; cbn; auto; fail). }
      apply G. apply incl_refl. }
    rewrite Forall_forall in Ne. intros e e' He He'. destruct (AE e He) as (a & b & Ia & Ib & Va & La). destruct (AE e' He') as (a' & b' & Ia' & Ib' & Va' & La').
    rewrite La, Va, Va'. split; apply near_no_min; apply Ne; assumption. }
  rewrite VS. reflexivity.
Qed.
