(** Proofs about the output of MeshPlaneRepairer. *)
From Coq Require Import List Bool Arith ZArith QArith Lia ZifyBool.
From Verif Require Import BigUIntModel GeoModel GeoSpec GeoProofs GeoReduceProofs GeoPlaneProofs ConcatModel ConcatSpec PlanarModel PlanarSpec PlanarProofs NudgeModel NudgeSpec NudgeProofs MeshSpec MeshProofs MeshLoopProofs MeshPointProofs MeshFlatProofs.
Import ListNotations.
Open Scope nat_scope.

(** ** Sharing *)
Lemma multiple_denotes p r q : multiple p r -> denotes p q -> denotes r q.
Proof.
  intros (f & Hf & A & B & C & D) (W & X & Y & Z). unfold denotes. rewrite A, B, C, D in *. assert (Wr : hw r <> 0%Z) by nia. split; [exact Wr|].
  apply inject_Z_neq0 in Hf. rewrite !inject_Z_mult in X, Y, Z.
  repeat split; apply (proj1 (Qmult_inj_r _ _ _ Hf)); rewrite (Qmult_comm _ (inject_Z f)); [rewrite X|rewrite Y|rewrite Z]; ring.
Qed.
Lemma multiple_same p r : multiple p r -> hw p <> 0%Z -> same_point p r.
Proof. intros M W. destruct (denotes_exists p W) as [q D]. exists q. split; [exact D|]. eapply multiple_denotes; eassumption. Qed.
Lemma found_same gcd orig mp p1 p2 i1 i2 q1 q2 : gcd_ok gcd -> map_ok gcd orig mp -> map_find mp p1 = Some i1 -> map_find mp p2 = Some i2 -> denotes p1 q1 -> denotes p2 q2 -> (i1 = i2 <-> qp_eq q1 q2).
Proof.
  intros G [M1 M2] F1 F2 D1 D2. destruct (M2 p1 i1 F1) as (r1 & R1 & U1). destruct (M2 p2 i2 F2) as (r2 & R2 & U2).
  pose proof (multiple_denotes _ _ _ U1 D1) as E1. pose proof (multiple_denotes _ _ _ U2 D2) as E2. split.
  - intros <-. rewrite R1 in R2. injection R2 as <-. exact (denotes_unique _ _ _ E1 E2).
  - intros Q. assert (K : forall i r q, nth_error orig i = Some r -> denotes r q -> (0 < hw r)%Z /\ coprime (lp r)).
    { intros i r q R D. destruct (M1 i r R) as [_ [p P]]. assert (W : hw p <> 0%Z). { intros Z. apply (hp_reduce_weight gcd p r G P) in Z. destruct D. contradiction. }
      destruct (denotes_exists p W) as [q' D']. apply (hp_reduce_spec gcd p q' r G D' P). }
    destruct (K _ _ _ R1 E1) as [W1 C1]. destruct (K _ _ _ R2 E2) as [W2 C2].
    assert (E2' : denotes r2 q1). { destruct E2 as (W & X & Y & Z). destruct Q as (Q1 & Q2 & Q3). split; [exact W|]. rewrite X, Y, Z, Q1, Q2, Q3. repeat split; reflexivity. }
    pose proof (canonical_unique r1 r2 q1 E1 E2' W1 W2 C1 C2). subst r2. destruct (M1 i1 r1 R1) as [A _]. destruct (M1 i2 r1 R2) as [B _]. congruence.
Qed.
Lemma run_ok dbg gcd : gcd_ok gcd -> forall ops m m' l orig polys, mesh_ok gcd m orig polys -> mesh_run dbg gcd m ops m' l ->
  exists orig' polys', mesh_ok gcd m' orig' polys' /\ (forall p i, In (p, i) l -> found m' p i) /\ (forall q j, found m q j -> found m' q j).
Proof.
  intros G. induction ops as [|o ops IH]; intros m m' l orig polys O R; inversion R; subst.
  - exists orig, polys. split; [exact O|]. split; [intros p i []|auto].
  - match goal with X : add_vertex_info gcd m p = Ok (?m1, ?j) |- _ => rename X into A; rename j into i1 end.
    assert (A' : add_vertex gcd m p = Ok (Mesh (m_store m1) (m_map m1) (m_verts m1) (m_polys m1) (m_active m1 ++ [i1]))) by (unfold add_vertex; rewrite A; reflexivity).
    destruct (add_vertex_ok gcd m p _ orig polys G O A') as (t & i' & O1 & _ & Ac & F1 & K1).
    destruct O as (Mo & Ln & _). destruct (add_vertex_facts gcd m p m1 i1 orig G Mo Ln A) as (_ & _ & _ & _ & Fp & _).
    match goal with X : mesh_run _ _ _ ops m' _ |- _ => destruct (IH _ _ _ _ _ O1 X) as (o2 & p2 & O2 & F2 & K2) end.
    exists o2, p2. split; [exact O2|]. split; [|auto]. intros x i [E|E]; [|exact (F2 x i E)]. injection E as <- <-. apply K2. exact Fp.
  - match goal with X : finish_facet dbg gcd m = Ok ?m1 |- _ => destruct (finish_ok dbg gcd m m1 orig polys G O X) as (g & O1 & _ & _ & _ & K1) end.
    match goal with X : mesh_run _ _ _ ops m' _ |- _ => destruct (IH _ _ _ _ _ O1 X) as (o2 & p2 & O2 & F2 & K2) end.
    exists o2, p2. split; [exact O2|]. split; [exact F2|]. intros q j Hq. apply K2, K1, Hq.
Qed.
(** ** Planarity *)
Lemma covered_incident gcd st st' k h : gcd_ok gcd -> Forall vi_ok st -> finalize_vertices gcd st = Ok st' -> ~ no_plane h -> covered_at st k h -> incident h (pos_in st' k).
Proof.
  intros G F E N (v & V & C). destruct (finalize_vertices_facts gcd G st st' F E) as [_ H]. destruct (H k v V) as (v' & V' & A & I & Fu & _). unfold pos_in. rewrite V'.
  destruct C as [(a & Ha & [->|S])|[X Y]].
  - rewrite Forall_forall in I. apply I, Ha.
  - rewrite Forall_forall in F, I. apply (same_or_opposite_incident a h); [|exact S|apply I, Ha]. destruct (F v (nth_error_In _ _ V)) as (_ & Z & _). rewrite Forall_forall in Z. apply Z, Ha.
  - rewrite (Fu X). exact Y.
Qed.
Lemma repair_planar dbg gcd fs out h ps : gcd_ok gcd -> repair dbg gcd fs = Ok out -> In (h, ps) out -> length ps <= 4 -> Forall (incident h) ps.
Proof.
  intros G R I L. destruct (repair_facts dbg gcd fs out G R) as (m & orig & ids & gs & st & _ & O & F & _ & _ & -> & _). destruct O as (_ & _ & Fv & _ & _ & P).
  apply in_map_iff in I as ([k ks] & E & Hp). cbn [fst snd] in E. injection E as <- <-. rewrite map_length in L. rewrite Forall_forall in P. destruct (P _ Hp) as [N C]. cbn [fst snd] in N, C.
  apply Forall_map. eapply Forall_impl; [|exact (C L)]. intros j. apply (covered_incident gcd (m_store m) st j k G Fv F N).
Qed.
(** ** Boundary *)
Open Scope Z_scope.
Lemma rounds_boundary act f : antisymmetric f -> forall first last g, rounds act first last g -> (last <= first + 4)%nat \/ length g = 1%nat -> sum_z (map (fun p => cycle_sum f (snd p)) g) = cycle_sum f (slice act first last).
Proof.
  intros F. induction 1 as [h first last A B|h first last i e rest A B C D E R IH]; intros H; cbn [map sum_z fold_right snd]; [lia|].
  destruct H as [H|H]; [|cbn [length] in H; destruct rest; [apply rounds_nonempty in R; contradiction|discriminate]]. specialize (E H). subst e. fold (sum_z (map (fun p => cycle_sum f (snd p)) rest)).
  rewrite IH by lia. destruct (nth_error act (i - 1)) as [x|] eqn:X; [|apply nth_error_None in X; lia]. destruct (nth_error act (last - 1)) as [y|] eqn:Y; [|apply nth_error_None in Y; lia].
  assert (S1 : slice act first i = slice act first (i - 1) ++ [x]). { rewrite (slice_split act first (i - 1) i) by lia. f_equal. replace i with (S (i - 1)) at 2 by lia. apply slice_one, X. }
  assert (S2 : slice act (last - 1) last = [y]). { replace last with (S (last - 1)) at 2 by lia. apply slice_one, Y. }
  assert (S3 : slice act (i - 1) (S (last - 1)) = x :: slice act i (last - 1) ++ [y]).
  { replace (S (last - 1)) with last by lia. rewrite (slice_split act (i - 1) i last) by lia. rewrite (slice_split act i (last - 1) last) by lia. rewrite S2. replace i with (S (i - 1)) at 2 by lia. rewrite (slice_one act (i - 1) x X). reflexivity. }
  assert (S4 : slice act first last = (slice act first (i - 1) ++ [x]) ++ slice act i (last - 1) ++ [y]).
  { rewrite (slice_split act first i last) by lia. rewrite S1. rewrite (slice_split act i (last - 1) last) by lia. rewrite S2. reflexivity. }
  rewrite S4, S3, S2, S1. cbn [rev app]. symmetry. apply cycle_split, F.
Qed.
Lemma path_map {A B} (F : B -> B -> Z) (g : A -> B) l : path_sum F (map g l) = path_sum (fun a b => F (g a) (g b)) l.
Proof. induction l as [|a [|b l] IH]; [reflexivity|reflexivity|]. cbn [map path_sum] in *. rewrite IH. reflexivity. Qed.
Lemma last_map {A B} (g : A -> B) l d : last (map g l) (g d) = g (last l d).
Proof. induction l as [|a [|b l] IH]; [reflexivity|reflexivity|]. exact IH. Qed.
Lemma cycle_map {A B} (F : B -> B -> Z) (g : A -> B) l : cycle_sum F (map g l) = cycle_sum (fun a b => F (g a) (g b)) l.
Proof. destruct l as [|a l]; [reflexivity|]. unfold cycle_sum. rewrite path_map. cbn [map]. change (g a :: map g l) with (map g (a :: l)). rewrite last_map. reflexivity. Qed.
Lemma slice_all {A} (l : list A) : slice l 0 (length l) = l.
Proof. unfold slice. rewrite Nat.sub_0_r. cbn [skipn]. apply firstn_all. Qed.
Definition name_of (m : mesh) (p : hpoint3) : nat := match map_find (m_map m) p with Some i => i | None => O end.
Lemma found_names m : forall l ids, Forall2 (found m) l ids -> ids = map (name_of m) l.
Proof. induction 1 as [|x y l k H1 H2 IH]; [reflexivity|]. cbn [map]. f_equal; [|exact IH]. unfold name_of. rewrite H1. reflexivity. Qed.
Lemma repair_groups dbg gcd fs out : gcd_ok gcd -> repair dbg gcd fs = Ok out -> exists (name : hpoint3 -> nat) (pos : nat -> hpoint3) gs,
  out = map (fun p => (fst p, map pos (snd p))) (concat gs) /\ Forall2 (fun f g => rounds (map name f) 0 (length f) g) fs gs /\
  (forall p1 p2 q1 q2, In p1 (concat fs) -> In p2 (concat fs) -> denotes p1 q1 -> denotes p2 q2 -> (name p1 = name p2 <-> qp_eq q1 q2)).
Proof.
  intros G R. destruct (repair_facts dbg gcd fs out G R) as (m & orig & ids & gs & st & _ & O & F & Fd & Rd & -> & _). exists (name_of m), (pos_in st), gs. split; [reflexivity|]. split.
  - clear - Fd Rd. revert gs Rd. induction Fd as [|f ks fs idss H1 H2 IH]; intros gs Rd; inversion Rd; subst; constructor; [|apply IH; assumption].
    pose proof (found_names m f ks H1) as E. subst ks. rewrite map_length in *. assumption.
  - intros p1 p2 q1 q2 I1 I2 D1 D2. assert (K : forall p, In p (concat fs) -> map_find (m_map m) p = Some (name_of m p)).
    { intros p Hp. apply in_concat in Hp as (f & Hf & Hp). clear - Fd Hf Hp. induction Fd as [|f' ks fs idss H1 H2 IH]; [destruct Hf|]. destruct Hf as [->|Hf]; [|exact (IH Hf)].
      clear - H1 Hp. induction H1 as [|x y l kk X1 X2 IH]; [destruct Hp|]. destruct Hp as [->|Hp]; [unfold name_of; rewrite X1; reflexivity|exact (IH Hp)]. }
    destruct O as (M & _). exact (found_same gcd orig _ p1 p2 _ _ q1 q2 G M (K p1 I1) (K p2 I2) D1 D2).
Qed.
(** ** Flat meshes *)
Lemma repair_flat dbg gcd fs hs out : gcd_ok gcd -> Forall2 (fun h f => hs_valid h = true /\ Forall (incident h) f) hs fs -> Forall finite_points fs -> repair dbg gcd fs = Ok out ->
  exists gs, out = concat gs /\ Forall2 (fun h g => Forall (fun c => Z.abs c < 2 ^ 31) (l4 h) -> length g = 1%nat) hs gs /\
    Forall2 (fun f g => Forall (fun o => Forall (incident (fst o)) (snd o) /\ forall r, In r (snd o) -> exists p, In p f /\ same_point p r) g /\ (forall o, g = [o] -> Forall2 same_point f (snd o))) fs gs.
Proof.
  intros G Fl Fin. unfold repair. destruct (add_facets dbg gcd mesh_new fs) as [m| | |] eqn:A; try discriminate. cbn [rbind]. unfold finalize_mesh.
  destruct (finalize_vertices gcd (m_store m)) as [st| | |] eqn:F; try discriminate. cbn [rbind]. intros E.
  assert (U0 : unmoved [] (m_store mesh_new)) by (split; [reflexivity|intros [|k]; discriminate]).
  destruct (add_facets_flat dbg gcd G fs hs mesh_new m [] [] (mesh_new_ok gcd) eq_refl U0 Fl A) as (orig & ids & gs & O & U & Fd & R & H & _). cbn [app] in *.
  assert (Pos : forall k r, nth_error orig k = Some r -> pos_in st k = r).
  { intros k r K. destruct (finalize_unmoved_all gcd orig (m_store m) st [] U F) as [_ X]. destruct (X k r K) as (v & V & P). unfold pos_in. rewrite V. exact P. }
  assert (Lt : Forall (fun p => Forall (fun k => (k < length st)%nat) (snd p)) (concat gs)).
  { pose proof O as (_ & _ & Fv & _). destruct (finalize_vertices_facts gcd G _ _ Fv F) as [Ln _]. rewrite Ln. assert (Fl' : forall p i, found m p i -> (i < length (m_store m))%nat) by (intros x i; apply (found_lt gcd m orig _ x i O)).
    clear - Fd R Fl'. apply Forall_forall. intros p Hp. apply Forall_forall. intros k Hk. apply in_concat in Hp as (g & Hg & Hp). revert fs Fd. induction R as [|ks g' ids gs R1 R2 IH]; intros fs Fd; [destruct Hg|]. inversion Fd as [|f ? fs' ? F1 F2]; subst. destruct Hg as [->|Hg]; [|exact (IH Hg fs' F2)].
    pose proof (rounds_in _ _ _ _ R1 p k Hp Hk) as Hk'. clear - F1 Hk' Fl'. induction F1 as [|x y l kk H1 H2 IH]; [destruct Hk'|]. destruct Hk' as [<-|Hk']; [eapply Fl'; eassumption|apply IH, Hk']. }
  pose proof O as ((M1 & M2) & _ & _ & V & P & _). rewrite V, P in E. apply (produce_facts st (concat gs) [] out Lt) in E. subst out.
  exists (map (map (fun p => (fst p, map (pos_in st) (snd p)))) gs). split; [rewrite concat_map; reflexivity|]. split.
  - clear - H. induction H as [|h g hs gs H1 H2 IH]; constructor; [rewrite map_length; apply H1|exact IH].
  - assert (Sp : forall p k, hw p <> 0 -> found m p k -> same_point p (pos_in st k) /\ (forall h, incident h p -> incident h (pos_in st k))).
    { intros p k W Fk. destruct (M2 p k Fk) as (r & Rk & Mu). rewrite (Pos k r Rk). split; [apply multiple_same; assumption|]. intros h. apply incident_multiple, Mu. }
    clear - Fd R H Fl Fin Sp. revert ids gs hs Fd R H Fl. induction Fin as [|f fs Wf Ws IH]; intros ids gs hs Fd R H Fl; inversion Fd as [|? ks ? ids' F1 F2]; subst; inversion R as [|? g ? gs' R1 R2]; subst; [constructor|].
    inversion H as [|h ? hs' ? [H1 _] H2]; subst. inversion Fl as [|? ? ? ? [V Vf] Fl']; subst. cbn [map]. constructor; [|eapply IH; eassumption].
    assert (Idx : forall k, In k ks -> exists p, In p f /\ found m p k). { clear - F1. intros k Hk. induction F1 as [|x y l kk X1 X2 IH]; [destruct Hk|]. destruct Hk as [->|Hk]; [exists x; split; [left; reflexivity|exact X1]|]. destruct (IH Hk) as (p & Hp & Fp). exists p. split; [right; exact Hp|exact Fp]. }
    unfold finite_points in Wf. rewrite Forall_forall in Wf, Vf. split.
    + apply Forall_map, Forall_forall. intros [h' kk] Hp. cbn [fst snd]. rewrite Forall_forall in H1. specialize (H1 _ Hp). cbn [fst] in H1. split.
      * apply Forall_map, Forall_forall. intros k Hk. destruct (Idx k (rounds_in _ _ _ _ R1 _ k Hp Hk)) as (p & Ip & Fp). apply H1. apply (Sp p k (Wf p Ip) Fp). apply Vf, Ip.
      * intros r Hr. apply in_map_iff in Hr as (k & <- & Hk). destruct (Idx k (rounds_in _ _ _ _ R1 _ k Hp Hk)) as (p & Ip & Fp). exists p. split; [exact Ip|]. apply (Sp p k (Wf p Ip) Fp).
    + intros o Ho. destruct g as [|[h' kk] [|]]; cbn [map] in Ho; try discriminate. injection Ho as <-. cbn [fst snd].
      assert (kk = ks). { inversion R1; subst; [apply slice_all|]. match goal with X : rounds _ _ _ [] |- _ => apply rounds_nonempty in X; contradiction end. } subst kk.
      assert (Wf' : forall p, In p f -> hw p <> 0) by exact Wf. clear - F1 Wf' Sp. induction F1 as [|x y l kk X1 X2 IH]; cbn [map]; constructor; [apply (Sp x y); [apply Wf'; left; reflexivity|exact X1]|]. apply IH. intros p Hp. apply Wf'. right. exact Hp.
Qed.
(** ** Termination *)
Lemma rbind_fuel {A B} (x : res A) (f : A -> res B) : x <> NoFuel -> (forall a, x = Ok a -> f a <> NoFuel) -> rbind x f <> NoFuel.
Proof. destruct x as [a| | |]; cbn [rbind]; intros H K; [apply K; reflexivity|discriminate|discriminate|contradiction]. Qed.
Lemma zdivide_fuel a b : zdivide a b <> NoFuel.
Proof. unfold zdivide, zdiv_rem. destruct (b =? 0); [discriminate|]. destruct (_ && _); discriminate. Qed.
Lemma hs_reduce_fuel gcd h : gcd_returns gcd -> hs_reduce gcd h <> NoFuel.
Proof. intros G. unfold hs_reduce. do 3 (apply rbind_fuel; [apply G|intros ? _]). cbv zeta. do 4 (apply rbind_fuel; [apply zdivide_fuel|intros ? _]). discriminate. Qed.
Lemma hp_reduce_fuel gcd h : gcd_returns gcd -> hp_reduce gcd h <> NoFuel.
Proof. intros G. unfold hp_reduce. do 3 (apply rbind_fuel; [apply G|intros ? _]). cbv zeta. do 4 (apply rbind_fuel; [apply zdivide_fuel|intros ? _]). discriminate. Qed.
Lemma nb_pick_fuel : forall i u n, nb_pick i u n <> NoFuel.
Proof.
  induction i as [|[[] v] i IH]; intros u [|n]; cbn [nb_pick]; try discriminate; [apply rbind_fuel; [apply IH|discriminate]|].
  destruct u; [apply IH|]. apply rbind_fuel; [apply IH|discriminate].
Qed.
Lemma nb_build_info_fuel gcd b : gcd_returns gcd -> nb_build_info gcd b <> NoFuel.
Proof.
  intros G. unfold nb_build_info. apply rbind_fuel; [apply nb_pick_fuel|]. intros l _. destruct l as [|p1 [|p2 [|p3 [|]]]]; try discriminate.
  apply rbind_fuel; [|intros h _; apply hs_reduce_fuel, G]. unfold hs_of_hpoints. cbv zeta. apply rbind_fuel; [unfold zabs; destruct (_ =? _); discriminate|discriminate].
Qed.
Lemma nb_has_large_fuel gcd b : gcd_returns gcd -> nb_has_large gcd b <> NoFuel.
Proof. intros G. unfold nb_has_large. destruct (_ <? _)%nat; [discriminate|]. destruct (nb_set b); [discriminate|]. apply rbind_fuel; [apply nb_build_info_fuel, G|discriminate]. Qed.
Lemma nb_push_fuel b c v : nb_push b c v <> NoFuel.
Proof. unfold nb_push. destruct (_ <? _)%nat; discriminate. Qed.
Lemma nb_unc_fuel b v : nb_add_unconstrained b v <> NoFuel.
Proof. unfold nb_add_unconstrained. destruct (_ <? _)%nat; [|discriminate]. apply rbind_fuel; [apply nb_push_fuel|discriminate]. Qed.
Lemma nb_con_fuel gcd b v : gcd_returns gcd -> nb_try_constrained gcd b v <> NoFuel.
Proof.
  intros G. unfold nb_try_constrained. destruct (_ <? _)%nat; [|discriminate]. apply rbind_fuel; [apply nb_push_fuel|]. intros i _. cbv zeta. destruct (_ =? 3)%nat; [|discriminate].
  apply rbind_fuel; [apply nb_build_info_fuel, G|discriminate].
Qed.
Lemma get_fuel {A} (l : list A) i : get l i <> NoFuel.
Proof. unfold get. destruct (nth_error l i); discriminate. Qed.
Lemma act_at_fuel st act i : act_at st act i <> NoFuel.
Proof. unfold act_at. apply rbind_fuel; [apply get_fuel|]. intros k _. apply get_fuel. Qed.
Open Scope nat_scope.
Lemma range_back_fuel gcd st act : gcd_returns gcd -> forall fuel b last, last < fuel -> range_back gcd fuel st act b last <> NoFuel.
Proof.
  intros G. induction fuel as [|fuel IH]; intros b last L; [lia|]. cbn [range_back]. destruct last as [|l]; [discriminate|]. apply rbind_fuel; [apply act_at_fuel|]. intros v _. destruct (can_add v).
  - apply rbind_fuel; [apply nb_has_large_fuel, G|]. intros [b1 []] _; cbn [fst snd]; [discriminate|]. apply rbind_fuel; [apply nb_unc_fuel|]. intros b2 _. apply IH. lia.
  - apply rbind_fuel; [apply nb_con_fuel, G|]. intros [b1 []] _; cbn [fst snd]; [apply IH; lia|discriminate].
Qed.
Lemma range_front_fuel gcd st act : gcd_returns gcd -> forall fuel b first last, first <= last -> last - first < fuel -> range_front gcd fuel st act b first last <> NoFuel.
Proof.
  intros G. induction fuel as [|fuel IH]; intros b first last L F; [lia|]. cbn [range_front]. destruct (Nat.eqb_spec first last) as [->|NE]; [discriminate|]. apply rbind_fuel; [apply act_at_fuel|]. intros v _. destruct (can_add v).
  - apply rbind_fuel; [apply nb_has_large_fuel, G|]. intros [b1 []] _; cbn [fst snd]; [discriminate|]. apply rbind_fuel; [apply nb_unc_fuel|]. intros b2 _. apply IH; lia.
  - apply rbind_fuel; [apply nb_con_fuel, G|]. intros [b1 []] _; cbn [fst snd]; [apply IH; lia|]. apply rbind_fuel; [apply range_back_fuel; [exact G|lia]|discriminate].
Qed.
Lemma next_range_fuel gcd st act first last : gcd_returns gcd -> first < last -> next_range gcd st act first last <> NoFuel.
Proof.
  intros G L. unfold next_range. destruct last as [|l]; [discriminate|]. apply rbind_fuel; [apply act_at_fuel|]. intros v _. apply rbind_fuel.
  { destruct (can_add v); [apply nb_unc_fuel|]. apply rbind_fuel; [apply nb_con_fuel, G|discriminate]. }
  intros b _. apply rbind_fuel; [apply range_front_fuel; [exact G|lia|lia]|]. intros [[b' f] e] _. apply rbind_fuel; [|discriminate].
  unfold nb_build. destruct (nb_set b'); [discriminate|]. apply nb_build_info_fuel, G.
Qed.
Lemma finalize_fuel gcd v : gcd_returns gcd -> vi_finalize gcd v <> NoFuel.
Proof.
  intros G. unfold vi_finalize. destruct (forallb _ _); [discriminate|]. apply rbind_fuel; [destruct (vadj v) as [|a [|b [|c [|]]]]; discriminate|]. intros q _. apply rbind_fuel; [apply hp_reduce_fuel, G|discriminate].
Qed.
Lemma attach_fuel gcd act h : gcd_returns gcd -> forall pos st out, attach gcd st act h out pos <> NoFuel.
Proof.
  intros G. induction pos as [|i pos IH]; intros st out; cbn [attach]; [discriminate|]. apply rbind_fuel; [apply get_fuel|]. intros k _. apply rbind_fuel; [apply get_fuel|]. intros v _.
  apply rbind_fuel; [|intros v' _; apply IH]. unfold vi_try_add. destruct (can_add v); [|discriminate]. destruct (existsb _ _); [discriminate|]. cbv zeta. destruct (_ =? 3); [apply finalize_fuel, G|discriminate].
Qed.
Lemma facet_loop_fuel dbg gcd act : gcd_ok gcd -> gcd_returns gcd -> forall fuel st verts polys first last, first < last -> last - first <= fuel -> facet_loop dbg gcd fuel st act verts polys first last <> NoFuel.
Proof.
  intros G T. induction fuel as [|fuel IH]; intros st verts polys first last L F; [lia|]. cbn [facet_loop]. apply rbind_fuel; [apply next_range_fuel; assumption|]. intros [[h f] e] NR.
  destruct (next_range_facts gcd st act first last h f e G L NR) as (_ & L3 & Lf & Le & _).
  apply rbind_fuel; [unfold check; destruct (_ && _); discriminate|]. intros _ _. apply rbind_fuel; [apply attach_fuel, T|]. intros y _. apply rbind_fuel; [apply attach_fuel, T|]. intros z _.
  destruct (Nat.eqb_spec f e); [discriminate|]. apply IH; lia.
Qed.
Lemma add_vertex_fuel gcd m p : gcd_returns gcd -> add_vertex gcd m p <> NoFuel.
Proof.
  intros G. unfold add_vertex. apply rbind_fuel; [|discriminate]. unfold add_vertex_info. destruct (map_find _ _); [discriminate|]. apply rbind_fuel; [apply hp_reduce_fuel, G|]. intros r _. destruct (map_find _ _); discriminate.
Qed.
Lemma finish_fuel dbg gcd m : gcd_ok gcd -> gcd_returns gcd -> finish_facet dbg gcd m <> NoFuel.
Proof.
  intros G T. unfold finish_facet. apply rbind_fuel; [unfold check; destruct (_ && _); discriminate|]. intros _ _. apply rbind_fuel; [|intros [[st v] p] _; discriminate].
  destruct (length (m_active m)) as [|n] eqn:E; [cbn; discriminate|]. apply facet_loop_fuel; [exact G|exact T|lia|lia].
Qed.
Lemma repair_returns dbg gcd fs : gcd_ok gcd -> gcd_returns gcd -> repair dbg gcd fs <> NoFuel.
Proof.
  intros G T. unfold repair. apply rbind_fuel.
  - generalize mesh_new. induction fs as [|f fs IH]; intros m; cbn [add_facets]; [discriminate|]. apply rbind_fuel; [|intros m1 _; apply rbind_fuel; [apply finish_fuel; assumption|intros m2 _; apply IH]].
    revert m. induction f as [|p f IHf]; intros m; cbn [add_all]; [discriminate|]. apply rbind_fuel; [apply add_vertex_fuel, T|]. intros m1 _. apply IHf.
  - intros m _. unfold finalize_mesh. apply rbind_fuel.
    + induction (m_store m) as [|v st IH]; cbn [finalize_vertices]; [discriminate|]. apply rbind_fuel; [destruct (_ =? 3); [discriminate|apply finalize_fuel, T]|]. intros v' _. apply rbind_fuel; [exact IH|discriminate].
    + intros st _. generalize 0. induction (m_polys m) as [|[h e] ps IH]; intros n; cbn [produce]; [discriminate|]. apply rbind_fuel; [|intros l _; apply rbind_fuel; [apply IH|discriminate]].
      generalize (firstn (e - n) (skipn n (m_verts m))). intros ks. induction ks as [|k ks IHk]; [discriminate|]. apply rbind_fuel; [apply get_fuel|]. intros v _. apply rbind_fuel; [exact IHk|discriminate].
Qed.
From Verif Require BigIntModel BigIntDivProofs GeoBridge.
Lemma zgcd_returns : gcd_returns GeoBridge.zgcd.
Proof.
  intros a b. unfold GeoBridge.zgcd. destruct (GeoBridge.canon_spec a) as [Ca Va], (GeoBridge.canon_spec b) as [Cb Vb].
  destruct (BigIntDivProofs.gcd_any_fuel (S (Z.to_nat (Z.abs b))) (GeoBridge.canon a) (GeoBridge.canon b) Ca Cb ltac:(rewrite Vb; lia)) as [(x & E & _)|E]; rewrite E by lia; cbn [rbind]; discriminate.
Qed.
