(** What pushing one polygon to the children of a node does. *)
From Coq Require Import List Bool Arith ZArith QArith Lqa Lia ZifyBool Morphisms Setoid Permutation.
From Verif Require Import BigUIntModel GeoModel GeoSpec GeoProofs AabbModel AabbSpec AabbProofs AabbTrackerProofs AabbSplitProofs CvxSpec CvxProofs CvxCapProofs CvxMergeProofs PolyModel PolySpec PolyBridgeProofs PolyInfoProofs PolyCapProofs PolyChildProofs PolyTopProofs MergeProofs RTransModel FilterModel BspModel BspSpec BspGeoProofs BspMarkProofs BspBoxProofs.
Import ListNotations.
Open Scope Q_scope.
(** ** The working invariant *)
Definition path_ok (w : path) : Prop := forall l s r, w = l ++ s :: r -> fresh_plane l (ss_split s).
Lemma path_valid w s : path_ok w -> In s w -> hs_valid (ss_split s) = true.
Proof. intros P I. apply in_split in I as (l & r & E). exact (proj1 (P l s r E)). Qed.
Lemma path_snoc w c : path_ok w -> fresh_plane w (ss_split c) -> path_ok (w ++ [c]).
Proof.
  intros P F l s r E. destruct (exists_last (l := s :: r) ltac:(discriminate)) as (r' & x & Er). rewrite Er, app_assoc in E. apply app_inj_tail in E as [E <-].
  destruct r' as [|y r']; cbn in Er; injection Er as -> Er; [rewrite app_nil_r in E; subst; exact F|]. apply (P l y r'). exact E.
Qed.
Lemma path_distinct w s s' : path_ok w -> In s w -> In s' w -> same_plane (ss_split s) (ss_split s') -> s = s'.
Proof.
  intros P I I' Sp. apply in_split in I as (l & r & E). rewrite E in I'. apply in_app_iff in I' as [I'|[I'|I']]; [exfalso|exact I'|exfalso].
  - destruct (P l s r E) as [_ F]. apply (F s' I'). intros q. symmetry. apply Sp.
  - apply in_split in I' as (l' & r' & E'). subst r. destruct (P (l ++ s :: l') s' r') as [_ F]; [rewrite E, <- app_assoc; reflexivity|]. exact (F s ltac:(apply in_elt) Sp).
Qed.
Record st (w : path) (b : bpoly) (qs : list qpoint) : Prop := St {
  s_ok : poly_ok (bp_poly b) qs;
  s_cell : forall q s, In q qs -> In s w -> on_side s q;
  s_on : first_in (fun s => same_plane (ss_split s) (pplane (bp_poly b))) w (bp_on b) /\ last_in (fun s => same_plane (ss_split s) (pplane (bp_poly b))) w (bp_on b);
  s_faces : forall s, bp_on b = Some s -> faces_out s (pplane (bp_poly b));
  s_edges : forall i e, nth_error (pedges (bp_poly b)) i = Some e -> edge_exact w (cyc o3 qs i) (cyc o3 qs (S i)) (pd e);
  s_box : forall t, bp_box b = Some t -> tracks t (map pv (pedges (bp_poly b))) }.
Lemma lies_on_iff b qs s : poly_ok (bp_poly b) qs -> hs_valid (ss_split s) = true -> lies_on s b <-> same_plane (ss_split s) (pplane (bp_poly b)).
Proof.
  intros H V. split.
  - intros L. apply (plane_of_vertices _ qs H (ss_split s) V). intros q I. apply (L q). apply (point_iff _ qs q H). apply vertex_point; assumption.
  - intros Sp q P. apply (point_iff _ qs q H) in P. apply Sp. apply P.
Qed.
Lemma st_stored w b qs : path_ok w -> st w b qs -> stored w b.
Proof.
  intros P [Ok Cell [On1 On2] Fa Ed Bx]. assert (E : forall s, In s w -> lies_on s b <-> same_plane (ss_split s) (pplane (bp_poly b))) by (intros s I; apply (lies_on_iff b qs); [exact Ok|exact (path_valid w s P I)]).
  split; [exists qs; exact Ok| | |exact Fa| |exact Bx].
  - intros q Q. apply (point_iff _ qs q Ok) in Q. apply Forall_forall. intros s I. unfold on_side. pose proof (fun q' Iq => Cell q' s Iq I) as C. unfold on_side in C. destruct (ss_pos s); [exact (side_all _ qs _ Ok C q Q)|exact (side_all_neg _ qs _ Ok C q Q)].
  - split; [revert On1; apply first_iff|revert On2; apply last_iff]; intros s I; symmetry; apply E; exact I.
  - intros i u v d He. destruct (edge_iff _ qs i u v d Ok He) as (e & Ee & <- & Eu & Ev). apply (edge_exact_eq w (cyc o3 qs i) (cyc o3 qs (S i))); [symmetry; exact Eu|symmetry; exact Ev|]. apply Ed. exact Ee.
Qed.
Lemma stored_st w b : path_ok w -> stored w b -> exists qs, st w b qs.
Proof.
  intros P [[qs Ok] Cell [On1 On2] Fa Ed Bx]. exists qs. assert (E : forall s, In s w -> lies_on s b <-> same_plane (ss_split s) (pplane (bp_poly b))) by (intros s I; apply (lies_on_iff b qs); [exact Ok|exact (path_valid w s P I)]).
  split; [exact Ok| | |exact Fa| |exact Bx].
  - intros q s Iq Is. assert (Q : bp_point b q) by (apply (point_iff _ qs q Ok), vertex_point; assumption). pose proof (Cell q Q) as C. unfold in_cell in C. rewrite Forall_forall in C. exact (C s Is).
  - split; [revert On1; apply first_iff|revert On2; apply last_iff]; exact E.
  - intros i e Ee. apply (Ed i). apply has_edge_at; assumption.
Qed.
(** ** Marked polygons *)
Record marks (b b' : bpoly) : Prop := Marks {
  mk_id : bp_id b' = bp_id b;
  mk_plane : pplane (bp_poly b') = pplane (bp_poly b) /\ pdrop (bp_poly b') = pdrop (bp_poly b);
  mk_box : bp_box b' = bp_box b;
  mk_shape : map shape (pedges (bp_poly b')) = map shape (pedges (bp_poly b));
  mk_created : map (fun e => created_by (pd e)) (pedges (bp_poly b')) = map (fun e => created_by (pd e)) (pedges (bp_poly b)) }.
Lemma marks_ok b b' qs : marks b b' -> poly_ok (bp_poly b) qs -> poly_ok (bp_poly b') qs.
Proof.
  intros [_ [P D] _ E _] H. destruct (bp_poly b') as [pp pd es] eqn:Eb. cbn [pplane pdrop pedges] in *. subst pp pd. apply poly_ok_shape; assumption.
Qed.
Lemma marks_point b b' qs q : marks b b' -> poly_ok (bp_poly b) qs -> bp_point b q <-> bp_point b' q.
Proof.
  intros M H. unfold bp_point. rewrite (point_iff _ qs q H), (point_iff _ qs q (marks_ok b b' qs M H)). destruct (mk_plane _ _ M) as [-> ->]. reflexivity.
Qed.
Lemma marks_pieces b b' qs : marks b b' -> poly_ok (bp_poly b) qs -> pieces b [b'].
Proof.
  intros M H. split.
  - constructor; [|constructor]. split; [apply (mk_id _ _ M)|apply (mk_plane _ _ M)].
  - intros q. rewrite (marks_point b b' qs q M H). split; [intros Q; exists b'; split; [left; reflexivity|exact Q]|intros (x & [<-|[]] & Q); exact Q].
  - constructor; constructor.
  - intros x i u v d [<-|[]] He. destruct (created_by d) eqn:Cd; [left; discriminate|right]. destruct He as (qs' & e & H' & Ee & Ed & Eu & Ev).
    pose proof (mk_created _ _ M) as Mc. assert (Ec : nth_error (map (fun e => created_by (pd e)) (pedges (bp_poly b'))) i = Some None) by (rewrite (map_nth_error _ _ _ Ee), Ed, Cd; reflexivity).
    rewrite Mc, nth_error_map in Ec. destruct (nth_error (pedges (bp_poly b)) i) as [e0|] eqn:Ee0; [|discriminate]. cbn in Ec. injection Ec as Ec.
    assert (H0 : poly_ok (bp_poly b) qs').
    { destruct (bp_poly b) as [pp pdr es] eqn:Eb. assert (M' := mk_plane _ _ M). rewrite Eb in M'. cbn [pplane pdrop] in M'. destruct M' as [<- <-]. apply poly_ok_shape; [exact H'|]. symmetry. pose proof (mk_shape _ _ M) as Ms. rewrite Eb in Ms. exact Ms. }
    exists i, u, v, (pd e0). split; [exists qs', e0; repeat (split; [assumption||reflexivity|]); exact Ev|]. split; [exact Ec|]. exact (segment_refl u v).
Qed.
Lemma marks_vertices b b' : marks b b' -> map pv (pedges (bp_poly b')) = map pv (pedges (bp_poly b)).
Proof. intros M. pose proof (f_equal (map fst) (mk_shape _ _ M)) as E. rewrite !map_map in E. exact E. Qed.
Lemma map_nth_ext {B C} (f g : B -> C) l l' : (forall i, option_map f (nth_error l i) = option_map g (nth_error l' i)) -> map f l = map g l'.
Proof. intros E. apply nth_error_ext. intros i. rewrite !nth_error_map. apply E. Qed.
Lemma mark_range_marks b on c pos k on' : marks b (BP (Poly (pplane (bp_poly b)) (pdrop (bp_poly b)) (mark_range on c (pedges (bp_poly b)) pos k)) (bp_box b) (bp_id b) on').
Proof.
  split; cbn; [reflexivity|split; reflexivity|reflexivity| |].
  - apply (shape_of_nth _ _ (marked on c (length (pedges (bp_poly b))) pos k)). intros i. apply mark_range_nth.
  - apply map_nth_ext. intros i. rewrite mark_range_nth. destruct (nth_error (pedges (bp_poly b)) i) as [[v l d]|]; [|reflexivity]. cbn. unfold marked. destruct (hits _ _ _ _); [reflexivity|]. destruct (_ =? _)%nat; reflexivity.
Qed.
Lemma marks_refl b on' : marks b (BP (bp_poly b) (bp_box b) (bp_id b) on').
Proof. split; cbn; [reflexivity|split; reflexivity|reflexivity|reflexivity|reflexivity]. Qed.
Lemma vertices_on b qs w o : poly_ok (bp_poly b) qs -> last_in (fun s => same_plane (ss_split s) (pplane (bp_poly b))) w (bp_on b) -> bp_on b = Some o -> In o w /\ forall i, on_split o (cyc o3 qs i).
Proof.
  intros H L E. rewrite E in L. destruct (last_some _ _ _ L) as [I Sp]. split; [exact I|]. intros i. apply (on_plane_vertices _ qs H _ Sp). apply cyc_In. rewrite (ok_length _ _ H). apply (ok_n _ _ H).
Qed.
(** ** A polygon on one side *)
Lemma one_side w b qs c r : st w b qs -> (forall q, In q qs -> on_side c q) -> (fst r < snd r)%nat -> (snd r <= fst r + bp_count b)%nat ->
  (forall i, (i < bp_count b)%nat -> ~ on_split c (cyc o3 qs i) <-> in_cyclic_range (bp_count b) r i) ->
  exists b', set_angles_except b c r = Ok b' /\ st (w ++ [c]) b' qs /\ marks b b' /\ bp_on b' = bp_on b.
Proof.
  intros [Ok Cell [On1 On2] Fa Ed Bx] Cs L1 L2 R. destruct r as [x y]. cbn [fst snd] in *. pose proof (ok_n _ _ Ok) as N. pose proof (ok_length _ _ Ok) as Ln. fold (bp_count b) in *.
  assert (Rm : forall i, ~ on_split c (cyc o3 qs i) <-> exists j, (x <= j)%nat /\ (j < y)%nat /\ (j mod bp_count b = i mod bp_count b)%nat).
  { intros i. rewrite <- (cyc_mod o3 qs i), Ln by lia. rewrite (R (i mod bp_count b)%nat) by (apply Nat.mod_upper_bound; lia). reflexivity. }
  assert (Out : ~ same_plane (ss_split c) (pplane (bp_poly b))).
  { intros Sp. apply (proj2 (Rm x)); [exists x; repeat split; lia|]. apply (on_plane_vertices _ qs Ok _ Sp). apply cyc_In. lia. }
  (* the other vertices *)
  assert (Cm : forall i, on_split c (cyc o3 qs i) <-> exists j, (y <= j)%nat /\ (j < bp_count b + x)%nat /\ (j mod bp_count b = i mod bp_count b)%nat).
  { intros i. split.
    - intros O. assert (No : ~ exists j, (x <= j)%nat /\ (j < y)%nat /\ (j mod bp_count b = i mod bp_count b)%nat) by (intros E; exact (proj2 (Rm i) E O)).
      assert (exists j, (x <= j)%nat /\ (j < bp_count b + x)%nat /\ (j mod bp_count b = i mod bp_count b)%nat) as (j & J1 & J2 & J3).
      { pose proof (Nat.mod_upper_bound i (bp_count b) ltac:(lia)). pose proof (Nat.mod_upper_bound x (bp_count b) ltac:(lia)). destruct (Nat.le_gt_cases (x mod bp_count b) (i mod bp_count b)).
        - exists (x + (i mod bp_count b - x mod bp_count b))%nat. split; [lia|]. split; [lia|]. rewrite (same_shift_n (bp_count b) x (x mod bp_count b)) by (try lia; symmetry; apply Nat.mod_mod; lia). replace (x mod bp_count b + (i mod bp_count b - x mod bp_count b))%nat with (i mod bp_count b)%nat by lia. apply Nat.mod_mod. lia.
        - exists (x + (bp_count b + i mod bp_count b - x mod bp_count b))%nat. split; [lia|]. split; [lia|]. rewrite (same_shift_n (bp_count b) x (x mod bp_count b)) by (try lia; symmetry; apply Nat.mod_mod; lia). replace (x mod bp_count b + (bp_count b + i mod bp_count b - x mod bp_count b))%nat with (i mod bp_count b + 1 * bp_count b)%nat by lia. rewrite Nat.mod_add by lia. apply Nat.mod_mod. lia. }
      exists j. split; [|split; assumption]. destruct (Nat.lt_ge_cases j y); [|assumption]. exfalso. apply No. exists j. repeat split; assumption.
    - intros (j & J1 & J2 & J3). destruct (on_split_dec c (cyc o3 qs i)) as [O|O]; [exact O|exfalso]. apply Rm in O as (k & K1 & K2 & K3). rewrite <- J3 in K3. destruct (mod_diff_n (bp_count b) k j ltac:(lia) ltac:(lia) K3) as (m & Em). destruct m; [lia|nia]. }
  assert (Cell' : forall q s, In q qs -> In s (w ++ [c]) -> on_side s q) by (intros q s Iq Is; apply in_app_iff in Is as [Is|[<-|[]]]; [apply Cell; assumption|apply Cs; exact Iq]).
  unfold set_angles_except, set_angles. cbn [fst snd]. destruct (Nat.eqb_spec y (bp_count b + x)) as [Ey|Ey].
  - exists b. split; [reflexivity|]. split; [|split; [destruct b; apply (marks_refl (BP _ _ _ _))|reflexivity]]. split; [exact Ok|exact Cell'|split; [apply first_keep|apply last_keep]; assumption|exact Fa| |exact Bx].
    intros i e Ee. apply exact_same; [|exact (Ed i e Ee)]. intros O. apply Cm in O as (j & J1 & J2 & _). lia.
  - destruct (Nat.eqb_spec (bp_count b) 0) as [E0|_]; [lia|]. eexists. split; [reflexivity|]. split; [|split; [apply mark_range_marks|reflexivity]].
    pose proof (mark_range_marks b (bp_on b) c y (bp_count b + x - 1 - y) (bp_on b)) as M. unfold with_edges. split; [exact (marks_ok _ _ _ M Ok)|exact Cell'|split; [apply first_keep|apply last_keep]; assumption|exact Fa| |].
    + intros i e Ee. cbn [bp_poly pedges] in Ee. rewrite mark_range_nth in Ee. destruct (nth_error (pedges (bp_poly b)) i) as [e0|] eqn:Ee0; [|discriminate]. cbn [option_map] in Ee. injection Ee as <-. cbn [set_data pd]. specialize (Ed i e0 Ee0).
      assert (Li : (i < bp_count b)%nat) by (apply nth_error_Some; congruence). assert (Mi : (i mod bp_count b = i)%nat) by (apply Nat.mod_small; exact Li). fold (pcount (bp_poly b)). fold (bp_count b).
      unfold marked. destruct (hits (bp_count b) y (bp_count b + x - 1 - y) i) eqn:Hi.
      * apply hits_iff in Hi as (j & J1 & J2 & J3). apply exact_both; [apply Cm; exists j; repeat split; lia| | |exact Ed].
        -- apply Cm. exists (S j). repeat split; [lia|lia|]. rewrite <- mod_succ by lia. rewrite J3. reflexivity.
        -- intros o Eo. destruct (vertices_on b qs w o Ok On2 Eo) as [I V]. split; [exact I|split; apply V].
      * destruct (Nat.eqb_spec ((y + (bp_count b + x - 1 - y)) mod bp_count b) i) as [Ei|Ei].
        -- replace (y + (bp_count b + x - 1 - y))%nat with (bp_count b + x - 1)%nat in Ei by lia. apply exact_vertex; [apply Cm; exists (bp_count b + x - 1)%nat; repeat split; lia| |exact Ed].
           apply Rm. exists x. split; [lia|]. split; [lia|]. rewrite <- Ei, mod_succ by lia. replace (S (bp_count b + x - 1)) with (x + 1 * bp_count b)%nat by lia. rewrite Nat.mod_add by lia. reflexivity.
        -- apply exact_same; [|exact Ed]. intros O. apply Cm in O as (j & J1 & J2 & J3). rewrite Mi in J3. destruct (Nat.eq_dec j (bp_count b + x - 1)) as [->|Nj].
           { apply Ei. rewrite <- J3. f_equal. lia. }
           assert (hits (bp_count b) y (bp_count b + x - 1 - y) i = true) by (apply hits_iff; exists j; repeat split; [lia|lia|exact J3]). congruence.
    + intros t Et. rewrite (marks_vertices _ _ M). apply Bx. exact Et.
Qed.
(** ** A polygon on the plane *)
Lemma on_plane_facing p (h : hspace3) (a b : Z) : a <> 0%Z -> b <> 0%Z -> qp_eq (qscale (inject_Z a) (qpt (hn h))) (qscale (inject_Z b) (qpt (hn p))) -> faces_out (SS h (zdiff_sign a b)) p.
Proof.
  intros Na Nb E. set (x := inject_Z a). set (y := inject_Z b). assert (Ny : ~ y == 0) by (intros Z; apply Nb; apply inject_Z_injective; exact Z). assert (Nx : ~ x == 0) by (intros Z; apply Na; apply inject_Z_injective; exact Z).
  assert (G : forall k, k * y == x -> qp_eq (qpt (hn p)) (qscale k (qpt (hn h)))).
  { intros k Ek. destruct E as (E1 & E2 & E3). fold x y in E1, E2, E3. unfold qscale in *. cbn [qx qy qz] in *. rewrite <- Ek in E1, E2, E3. 
    repeat split; cbn [qx qy qz]; apply (Qmult_inj_l _ _ y Ny); [rewrite <- E1|rewrite <- E2|rewrite <- E3]; ring. }
  unfold faces_out. cbn [ss_pos ss_split]. rewrite zdiff_sign_spec.
  assert (Sx : (0 < a)%Z -> 0 < x) by (intros L; unfold x; change 0 with (inject_Z 0); rewrite <- Zlt_Qlt; exact L). assert (Sx' : (a < 0)%Z -> x < 0) by (intros L; unfold x; change 0 with (inject_Z 0); rewrite <- Zlt_Qlt; exact L).
  assert (Sy : (0 < b)%Z -> 0 < y) by (intros L; unfold y; change 0 with (inject_Z 0); rewrite <- Zlt_Qlt; exact L). assert (Sy' : (b < 0)%Z -> y < 0) by (intros L; unfold y; change 0 with (inject_Z 0); rewrite <- Zlt_Qlt; exact L).
  assert (Dx : x / y * y == x) by (field; exact Ny). set (k := x / y) in *.
  destruct (Z.ltb_spec a 0), (Z.ltb_spec b 0); cbn [xorb].
  - exists k. split; [specialize (Sx' ltac:(lia)); specialize (Sy' ltac:(lia)); nra|]. apply G. exact Dx.
  - exists (- k). split; [specialize (Sx' ltac:(lia)); specialize (Sy ltac:(lia)); nra|]. rewrite (G k Dx). unfold qscale. repeat split; cbn [qx qy qz]; ring.
  - exists (- k). split; [specialize (Sx ltac:(lia)); specialize (Sy' ltac:(lia)); nra|]. rewrite (G k Dx). unfold qscale. repeat split; cbn [qx qy qz]; ring.
  - exists k. split; [specialize (Sx ltac:(lia)); specialize (Sy ltac:(lia)); nra|]. apply G. exact Dx.
Qed.
Lemma on_plane w b qs h : st w b qs -> bp_on b = None -> hs_valid h = true -> (forall q, In q qs -> side h q == 0) ->
  let c := SS h (zdiff_sign (pnormal_drop (bp_poly b)) (comp (hn h) (pdrop (bp_poly b)))) in
  exists b', set_angles b c 0 (bp_count b + 1) = Ok b' /\ st (w ++ [c]) (BP (bp_poly b') (bp_box b') (bp_id b') (Some c)) qs /\ marks b (BP (bp_poly b') (bp_box b') (bp_id b') (Some c)).
Proof.
  intros [Ok Cell [On1 On2] Fa Ed Bx] No V Z c. pose proof (ok_n _ _ Ok) as N. pose proof (ok_length _ _ Ok) as Ln. fold (bp_count b) in *. destruct (plane_of_vertices _ qs Ok h V Z) as (Sp & Nh & En).
  unfold set_angles. destruct (Nat.eqb_spec 0 (bp_count b + 1)); [lia|]. destruct (Nat.eqb_spec (bp_count b) 0); [lia|]. eexists. split; [reflexivity|]. cbn [with_edges bp_poly bp_box bp_id].
  pose proof (mark_range_marks b (bp_on b) c 0 (bp_count b + 1 - 1 - 0) (Some c)) as M. split; [|exact M]. split; cbn [bp_on bp_poly bp_box pplane].
  - exact (marks_ok _ _ _ M Ok).
  - intros q s Iq Is. apply in_app_iff in Is as [Is|[<-|[]]]; [apply Cell; assumption|]. unfold on_side. cbn [c ss_split]. specialize (Z q Iq). destruct (ss_pos c); lra.
  - rewrite No in *. split; [apply first_new; [exact On1|exact Sp]|apply last_new; exact Sp].
  - intros s Es. injection Es as <-. apply on_plane_facing; [exact (proj2 (po_drop _ _ Ok))|exact Nh|exact En].
  - intros i e Ee. cbn [pedges] in Ee. rewrite mark_range_nth in Ee. destruct (nth_error (pedges (bp_poly b)) i) as [e0|] eqn:Ee0; [|discriminate]. cbn [option_map] in Ee. injection Ee as <-. cbn [set_data pd].
    assert (Li : (i < bp_count b)%nat) by (apply nth_error_Some; congruence). unfold marked. fold (pcount (bp_poly b)). fold (bp_count b). replace (hits _ _ _ _) with true.
    2:{ symmetry. apply hits_iff. exists i. repeat split; [lia|lia|]. apply Nat.mod_small. exact Li. }
    apply exact_both; [unfold on_split; cbn [c ss_split]; apply Z, cyc_In; lia|unfold on_split; cbn [c ss_split]; apply Z, cyc_In; lia| |exact (Ed i e0 Ee0)]. rewrite No. discriminate.
  - intros t Et. pose proof (marks_vertices _ _ M) as Ev. cbn [bp_poly] in Ev. rewrite Ev. apply Bx. exact Et.
Qed.
(** ** A polygon that is cut *)
Lemma cyc_is (l : list qpoint) i x : nth_error l (i mod length l) = Some x -> cyc o3 l i = x.
Proof. intros E. unfold cyc. apply nth_error_nth. exact E. Qed.
Lemma seq_nth (f : nat -> qpoint) a m k : (k < m)%nat -> nth_error (map f (seq a m)) k = Some (f (a + k)%nat).
Proof. intros L. rewrite nth_error_map, (nth_error_nth' _ 0%nat) by (rewrite seq_length; exact L). rewrite seq_nth by exact L. reflexivity. Qed.
Lemma edges_neg (R : qpoint -> qpoint -> bdata -> Prop) f X Y a m (es : list (pedge bdata)) x y : length es = m -> (0 < m)%nat ->
  (forall k e, nth_error es k = Some e -> R (f (a + k)%nat) (if (S k <? m)%nat then f (a + S k)%nat else X) (pd e)) -> R X Y (pd x) -> R Y (f a) (pd y) ->
  forall i e, nth_error (es ++ [x; y]) i = Some e -> R (cyc o3 (map f (seq a m) ++ [X; Y]) i) (cyc o3 (map f (seq a m) ++ [X; Y]) (S i)) (pd e).
Proof.
  intros L M Run Cut Ver i e Ee. assert (Lt : length (map f (seq a m) ++ [X; Y]) = (m + 2)%nat) by (rewrite app_length, map_length, seq_length; reflexivity).
  assert (Li : (i < m + 2)%nat) by (assert (i < length (es ++ [x; y]))%nat by (apply nth_error_Some; congruence); rewrite app_length in *; cbn [length] in *; lia).
  assert (C : forall j, (j < m)%nat -> cyc o3 (map f (seq a m) ++ [X; Y]) j = f (a + j)%nat) by (intros j J; apply cyc_is; rewrite Lt, Nat.mod_small, nth_error_app1 by (rewrite ?map_length, ?seq_length; lia); apply seq_nth; exact J).
  assert (CX : cyc o3 (map f (seq a m) ++ [X; Y]) m = X) by (apply cyc_is; rewrite Lt, Nat.mod_small, nth_error_app2 by (rewrite ?map_length, ?seq_length; lia); rewrite map_length, seq_length, Nat.sub_diag; reflexivity).
  assert (CY : cyc o3 (map f (seq a m) ++ [X; Y]) (S m) = Y) by (apply cyc_is; rewrite Lt, Nat.mod_small, nth_error_app2 by (rewrite ?map_length, ?seq_length; lia); rewrite map_length, seq_length; replace (S m - m)%nat with 1%nat by lia; reflexivity).
  assert (CZ : cyc o3 (map f (seq a m) ++ [X; Y]) (S (S m)) = f a) by (apply cyc_is; rewrite Lt; replace (S (S m)) with (m + 2)%nat by lia; rewrite Nat.mod_same by lia; destruct m; [lia|reflexivity]).
  destruct (Nat.lt_ge_cases i m) as [I|I].
  - rewrite nth_error_app1 in Ee by lia. specialize (Run i e Ee). rewrite C by exact I. destruct (Nat.ltb_spec (S i) m) as [I'|I']; [rewrite C by exact I'; exact Run|]. assert (S i = m) as -> by lia. rewrite CX. exact Run.
  - rewrite nth_error_app2 in Ee by lia. rewrite L in Ee. destruct (Nat.eq_dec i m) as [->|]; [rewrite Nat.sub_diag in Ee; injection Ee as <-; rewrite CX, CY; exact Cut|].
    assert (i = S m) as -> by lia. replace (S m - m)%nat with 1%nat in Ee by lia. injection Ee as <-. rewrite CY, CZ. exact Ver.
Qed.
Lemma edges_pos (R : qpoint -> qpoint -> bdata -> Prop) f X Y a m (es : list (pedge bdata)) x y : length es = m -> (0 < m)%nat ->
  (forall k e, nth_error es k = Some e -> R (f (a + k)%nat) (if (S k <? m)%nat then f (a + S k)%nat else Y) (pd e)) -> R Y X (pd y) -> R X (f a) (pd x) ->
  forall i e, nth_error (x :: es ++ [y]) i = Some e -> R (cyc o3 (X :: map f (seq a m) ++ [Y]) i) (cyc o3 (X :: map f (seq a m) ++ [Y]) (S i)) (pd e).
Proof.
  intros L M Run Cut Ver i e Ee. set (l := X :: map f (seq a m) ++ [Y]). assert (Lt : length l = (m + 2)%nat) by (unfold l; cbn [length]; rewrite app_length, map_length, seq_length; cbn [length]; lia).
  assert (Li : (i < m + 2)%nat) by (assert (i < length (x :: es ++ [y]))%nat by (apply nth_error_Some; congruence); cbn [length] in *; rewrite app_length in *; cbn [length] in *; lia).
  assert (C : forall j, (j < m)%nat -> cyc o3 l (S j) = f (a + j)%nat) by (intros j J; apply cyc_is; rewrite Lt, Nat.mod_small by lia; cbn [l nth_error]; rewrite nth_error_app1 by (rewrite ?map_length, ?seq_length; lia); apply seq_nth; exact J).
  assert (CX : cyc o3 l 0 = X) by (apply cyc_is; rewrite Lt, Nat.mod_small by lia; reflexivity).
  assert (CY : cyc o3 l (S m) = Y) by (apply cyc_is; rewrite Lt, Nat.mod_small by lia; cbn [l nth_error]; rewrite nth_error_app2 by (rewrite ?map_length, ?seq_length; lia); rewrite map_length, seq_length, Nat.sub_diag; reflexivity).
  assert (CZ : cyc o3 l (S (S m)) = X) by (apply cyc_is; rewrite Lt; replace (S (S m)) with (m + 2)%nat by lia; rewrite Nat.mod_same by lia; reflexivity).
  destruct i as [|i]; [cbn in Ee; injection Ee as <-; rewrite CX, (C 0%nat M), Nat.add_0_r; exact Ver|]. cbn [nth_error] in Ee. destruct (Nat.lt_ge_cases i m) as [I|I].
  - rewrite nth_error_app1 in Ee by lia. specialize (Run i e Ee). rewrite C by exact I. destruct (Nat.ltb_spec (S i) m) as [I'|I']; [rewrite C by exact I'; exact Run|]. assert (S i = m) as -> by lia. rewrite CY. exact Run.
  - rewrite nth_error_app2 in Ee by lia. rewrite L in Ee. assert (i = m) as -> by lia. rewrite Nat.sub_diag in Ee. injection Ee as <-. rewrite CY, CZ. exact Cut.
Qed.
Section Cut.
Context (w : path) (b : bpoly) (qs : list qpoint) (HS : st w b qs).
Notation n := (bp_count b).
Notation q_ := (cyc o3 qs).
Notation p := (bp_poly b).
(** An edge that is exact and a part of an edge of b, or new. *)
Definition good_edge (w' : path) (u v : qpoint) (d : bdata) : Prop := edge_exact w' u v d /\ (created_by d <> None \/
  exists j u' v' d', has_edge p j u' v' d' /\ created_by d' = None /\ on_segment u' v' u /\ on_segment u' v' v).
Lemma cyc_same i j : (i mod n = j mod n)%nat -> q_ i = q_ j.
Proof using HS. exact (q_same p qs (s_ok _ _ _ HS) i j). Qed.
Lemma edge_mod j e : nth_error (pedges p) (j mod n) = Some e -> has_edge p (j mod n) (q_ j) (q_ (S j)) (pd e) /\ edge_exact w (q_ j) (q_ (S j)) (pd e).
Proof using HS.
  intros Ee. pose proof (ok_n p qs (s_ok _ _ _ HS)) as N. fold n in N. pose proof (has_edge_at p qs _ e (s_ok _ _ _ HS) Ee) as He. pose proof (s_edges _ _ _ HS _ e Ee) as Ex.
  rewrite (cyc_same (j mod n) j) in * by (apply Nat.mod_mod; lia). rewrite (cyc_same (S (j mod n)) (S j)) in * by (apply mod_succ; exact N). split; assumption.
Qed.
Lemma run_exact c a m X t (es : list (pedge bdata)) : (forall k, (k < m)%nat -> ~ on_split c (q_ (a + k))) -> (0 < m)%nat -> length es = m -> (forall k, (k < m)%nat -> nth_error es k = nth_error (pedges p) ((a + k) mod n)) ->
  0 < t -> t <= 1 -> X = between (q_ (a + m - 1)) (q_ (a + m)) t ->
  forall k e, nth_error es k = Some e -> good_edge (w ++ [c]) (q_ (a + k)) (if (S k <? m)%nat then q_ (a + S k) else X) (pd e).
Proof using HS.
  intros Off M L N T0 T1 -> k e Ee. assert (Lk : (k < m)%nat) by (rewrite <- L; apply nth_error_Some; congruence). rewrite N in Ee by exact Lk. destruct (edge_mod _ _ Ee) as [He Ex]. rewrite <- Nat.add_succ_r in He, Ex. destruct (Nat.ltb_spec (S k) m) as [I|I].
  - split; [apply exact_same; [apply Off; exact Lk|exact Ex]|]. destruct (created_by (pd e)) eqn:Ec; [left; discriminate|right]. exists ((a + k) mod n)%nat, (q_ (a + k)), (q_ (a + S k)), (pd e). split; [exact He|]. split; [exact Ec|apply segment_refl].
  - replace (a + m - 1)%nat with (a + k)%nat by lia. replace (a + m)%nat with (a + S k)%nat by lia. split; [apply exact_same; [apply Off; exact Lk|apply exact_start; [exact T0|exact Ex]]|].
    destruct (created_by (pd e)) eqn:Ec; [left; discriminate|right]. exists ((a + k) mod n)%nat, (q_ (a + k)), (q_ (a + S k)), (pd e). split; [exact He|]. split; [exact Ec|]. split; [apply segment_refl|apply segment_between; lra].
Qed.
Lemma vertex_exact c a d Y u o y ed ed1 : on_split c Y -> ~ on_split c (q_ a) -> (0 < d)%nat -> 0 < u -> Y = between (q_ (d - 1)) (q_ d) u ->
  nth_error (pedges p) (d mod n) = Some ed -> nth_error (pedges p) ((d - 1) mod n) = Some ed1 ->
  match o with None => u == 1 /\ (S d mod n = a mod n)%nat /\ y = ed | Some pt => u < 1 /\ (d mod n = a mod n)%nat /\ y = edge_source bsp_edges ed1 pt end ->
  good_edge (w ++ [c]) Y (q_ a) (mark_vertex c (pd y)).
Proof using HS.
  intros On Off Dp U0 EY Ed Ed1 O. destruct (edge_mod d ed Ed) as [He Ex], (edge_mod (d - 1) ed1 Ed1) as [He1 Ex1]. replace (S (d - 1)) with d in He1, Ex1 by lia. destruct o as [pt|].
  - destruct O as (U1 & Ea & ->). rewrite <- (cyc_same d a Ea) in *. split.
    + apply exact_vertex; [exact On|exact Off|]. rewrite EY. cbn [edge_source pd]. apply exact_end; [exact U0|exact U1| |exact Ex1].
      pose proof (ok_n p qs (s_ok _ _ _ HS)) as N. pose proof (ok_length p qs (s_ok _ _ _ HS)) as Ln. intros s Is. pose proof (s_cell _ _ _ HS (q_ (d - 1)) s ltac:(apply cyc_In; lia) Is) as C1. pose proof (s_cell _ _ _ HS (q_ d) s ltac:(apply cyc_In; lia) Is) as C2. unfold on_side in *. destruct (ss_pos s); [left|right]; split; assumption.
    + cbn [mark_vertex edge_source pd bsp_edges ei_source created_by]. destruct (created_by (pd ed1)) eqn:Ec; [left; discriminate|right]. exists ((d - 1) mod n)%nat, (q_ (d - 1)), (q_ d), (pd ed1). split; [exact He1|]. split; [exact Ec|]. split; [rewrite EY; apply segment_between; lra|apply segment_refl].
  - destruct O as (U1 & Ea & ->). rewrite <- (cyc_same (S d) a Ea) in *. assert (E : qp_eq (q_ d) Y) by (rewrite EY; unfold between, qadd, qscale, qsub; repeat split; cbn [qx qy qz]; rewrite U1; ring). split.
    + apply exact_vertex; [exact On|exact Off|]. apply (edge_exact_eq w (q_ d) (q_ (S d))); [exact E|reflexivity|exact Ex].
    + cbn [mark_vertex created_by]. destruct (created_by (pd ed)) eqn:Ec; [left; discriminate|right]. exists (d mod n)%nat, (q_ d), (q_ (S d)), (pd ed). split; [exact He|]. split; [exact Ec|]. split; [|apply segment_refl]. apply (segment_eq (q_ d) (q_ (S d)) (q_ d)); [reflexivity|reflexivity|exact E|apply segment_refl].
Qed.
Lemma cut_exact c X Y h a' b' (x : pedge bdata) : path_ok w -> first_co (pd x) = None -> on_split c X -> on_split c Y -> side p.(pplane) X == 0 -> side p.(pplane) Y == 0 -> ~ qp2_eq (qdrop (pdrop p) X) (qdrop (pdrop p) Y) ->
  h = ss_split c -> In a' qs -> In b' qs -> side h a' < 0 -> 0 < side h b' -> good_edge (w ++ [c]) X Y (mark_created c (mark_edge (bp_on b) c (pd x))).
Proof using HS.
  intros P Fx OX OY PX PY Ne -> Ia Ib Na Pb. split; [|left; discriminate]. pose proof (s_ok _ _ _ HS) as Ok. pose proof (po_plane _ _ Ok) as Pl. rewrite Forall_forall in Pl. apply exact_cut; [exact Fx|exact OX|exact OY|]. destruct (s_on _ _ _ HS) as [On _]. revert On. apply first_iff. intros s Is. split.
  - intros Sp. split; apply Sp; assumption.
  - intros [SX SY]. apply (plane_of_vertices p qs Ok (ss_split s) (path_valid w s P Is)). intros q Iq.
    apply (crossing p qs Ok (ss_split c) (ss_split s) X Y a' b'); try assumption; [apply Pl; exact Ia|apply Pl; exact Ib| |apply Pl; exact Iq].
    pose proof (s_cell _ _ _ HS a' s Ia Is) as C1. pose proof (s_cell _ _ _ HS b' s Ib Is) as C2. unfold on_side in *. destruct (ss_pos s); [left|right]; split; assumption.
Qed.
End Cut.
Lemma mark_neg on c (es : list (pedge bdata)) x y : mark_range on c (es ++ [x; y]) (length es) 1 = es ++ [set_data (mark_edge on c) x; set_data (mark_vertex c) y].
Proof.
  cbn [mark_range]. unfold upd_edge. rewrite !app_length. cbn [length]. rewrite (Nat.mod_small (length es)) by lia. rewrite upd_at, !app_length. cbn [length]. rewrite (Nat.mod_small (S (length es))) by lia.
  replace (S (length es)) with (length (es ++ [set_data (mark_edge on c) x])) by (rewrite app_length; cbn; lia).
  change (es ++ [set_data (mark_edge on c) x; y]) with (es ++ [set_data (mark_edge on c) x] ++ [y]). rewrite app_assoc, upd_at, <- app_assoc. reflexivity.
Qed.
Lemma mark_pos on c (es : list (pedge bdata)) x y : mark_range on c (x :: es ++ [y]) (S (length es)) 1 = set_data (mark_vertex c) x :: es ++ [set_data (mark_edge on c) y].
Proof.
  cbn [mark_range]. unfold upd_edge. cbn [length]. rewrite !app_length. cbn [length]. rewrite (Nat.mod_small (S (length es))) by lia.
  change (x :: es ++ [y]) with ((x :: es) ++ [y]). change (S (length es)) with (length (x :: es)). rewrite upd_at. rewrite app_length. cbn [length]. replace (S (length es) + 1)%nat with (S (S (length es))) by lia. rewrite Nat.mod_same by lia. reflexivity.
Qed.
Lemma between_one_side h a b t : 0 <= t -> t <= 1 -> side h a <= 0 -> side h b <= 0 -> side h (between a b t) <= 0.
Proof. intros. rewrite side_at. nra. Qed.
Lemma split_step dbg w b qs h i : path_ok w -> st w b qs -> info_ok (bp_poly b) qs h i -> (fst (neg_range (si_ranges i)) <= bp_count b)%nat -> emit_neg (si_ranges i) = true -> emit_pos (si_ranges i) = true ->
  match (c <- bp_split_children dbg b i ;; set_child_angles dbg c h) with
  | Ok (x, y) => (exists qn, st (w ++ [SS h false]) x qn) /\ (exists qp, st (w ++ [SS h true]) y qp) /\ pieces b [x; y] /\ bp_on x = bp_on b /\ bp_on y = bp_on b /\ (bp_box b = None -> bp_box x = None /\ bp_box y = None)
  | UB => bp_box b <> None
  | _ => False
  end.
Proof.
  intros P HS I St0 En Ep. pose proof (s_ok _ _ _ HS) as Okb. pose proof (ok_n _ _ Okb) as N. pose proof (ok_length _ _ Okb) as Ln. fold (bp_count b) in *.
  destruct (split_children_shape dbg bsp_edges (bp_poly b) qs Okb h i I En Ep) as (neg & pos & X & Y & Esc & Sh & Ng & Ps & HX & HY & Sok). cbv zeta in Ng, Ps, Sok.
  pose proof Sh as [(neg1 & pos1 & x1 & x2 & y1 & y2 & eb & eb1 & ed & ed1 & t & u & Sh')]. cbv zeta in Sh'.
  destruct Sh' as ((Lab & Lb & Lcd & Ld) & Ene & Epe & Ln1 & N1 & Lp1 & P1 & Eb & Eb1 & Ed & Ed1 & T0 & EX & U0 & EY & M2 & M1).
  assert (Bx : match (match bp_box b with None => Ok (None, None) | Some t => x <- AabbModel.split_children dbg t (bp_count b) (map pv (pedges neg)) (map pv (pedges pos)) (fst (neg_range (si_ranges i))) (snd (neg_range (si_ranges i))) (fst (pos_range (si_ranges i))) (snd (pos_range (si_ranges i))) ;; Ok (Some (fst x), Some (snd x)) end) with
    | Ok (tn, tp) => (forall t, tn = Some t -> tracks t (map pv (pedges neg))) /\ (forall t, tp = Some t -> tracks t (map pv (pedges pos))) /\ (bp_box b = None -> tn = None /\ tp = None) | UB => bp_box b <> None | _ => False end).
  { destruct (bp_box b) as [tr|] eqn:Et; [|split; [|split]; [discriminate|discriminate|intros _; split; reflexivity]].
    pose proof (tracker_split bsp_edges (bp_poly b) qs Okb h i neg pos X Y Sh Ng Ps HX HY Sok St0 dbg tr (s_box _ _ _ HS tr Et)) as T. fold (bp_count b) in T.
    destruct (AabbModel.split_children _ _ _ _ _ _ _ _ _) as [[tn tp]| | |]; cbn [rbind]; [|exact T|discriminate|exact T]. destruct T as [Tn Tp]. split; [intros ? Ex; injection Ex as <-; exact Tn|]. split; [intros ? Ex; injection Ex as <-; exact Tp|]. discriminate. }
  unfold bp_split_children. rewrite Esc. cbn [rbind fst snd]. cbv zeta.
  destruct (match bp_box b with None => _ | Some t => _ end) as [[tn tp]| | |]; cbn [rbind]; [|exact Bx|exact Bx|exact Bx]. destruct Bx as (Btn & Btp & Bno). cbn [fst snd].
  set (a := fst (neg_range (si_ranges i))) in *. set (b2 := snd (neg_range (si_ranges i))) in *. set (c := fst (pos_range (si_ranges i))) in *. set (d := snd (pos_range (si_ranges i))) in *.
  set (cn := SS h false). set (cp := SS h true).
  (* the children *)
  assert (Cn : bp_count (BP neg tn (bp_id b) (bp_on b)) = (length neg1 + 2)%nat) by (unfold bp_count, pcount; cbn [bp_poly]; rewrite Ene, app_length; reflexivity).
  assert (Cp : bp_count (BP pos tp (bp_id b) (bp_on b)) = S (length pos1 + 1)%nat) by (unfold bp_count, pcount; cbn [bp_poly]; rewrite Epe; cbn [length]; rewrite app_length; reflexivity).
  unfold set_child_angles. cbn [fst snd]. rewrite Cn, Cp. 
  replace (check dbg (2 <? length neg1 + 2)) with (@Ok unit tt) by (destruct (Nat.ltb_spec 2 (length neg1 + 2)); [destruct dbg; reflexivity|lia]). cbn [rbind].
  replace (check dbg (2 <? S (length pos1 + 1))) with (@Ok unit tt) by (destruct (Nat.ltb_spec 2 (S (length pos1 + 1))); [destruct dbg; reflexivity|lia]). cbn [rbind].
  unfold set_angles at 1. rewrite Cn. destruct (Nat.eqb_spec (length neg1 + 2 - 2) (length neg1 + 2)); [lia|]. destruct (Nat.eqb_spec (length neg1 + 2) 0); [lia|]. cbn [rbind].
  replace (length neg1 + 2 - 2)%nat with (length neg1) by lia. replace (length neg1 + 2 - 1 - length neg1)%nat with 1%nat by lia. cbn [bp_poly bp_on]. rewrite Ene, mark_neg.
  unfold set_created at 1. cbn [with_edges bp_poly pedges]. rewrite nth_error_app2, Nat.sub_diag by lia. cbn [nth_error rbind]. rewrite upd_at.
  unfold set_angles at 1. rewrite Cp. destruct (Nat.eqb_spec (S (length pos1 + 1) - 1) (S (length pos1 + 1) + 1)); [lia|]. destruct (Nat.eqb_spec (S (length pos1 + 1)) 0); [lia|]. cbn [rbind].
  replace (S (length pos1 + 1) - 1)%nat with (S (length pos1)) by lia. replace (S (length pos1 + 1) + 1 - 1 - S (length pos1))%nat with 1%nat by lia. cbn [bp_poly bp_on]. rewrite Epe, mark_pos.
  unfold set_created at 1. cbn [with_edges bp_poly pedges nth_error]. rewrite nth_error_app2, Nat.sub_diag by lia. cbn [nth_error rbind].
  change (upd (set_data (mark_vertex (SS h true)) x1 :: pos1 ++ [set_data (mark_edge (bp_on b) (SS h true)) y1]) (S (length pos1)) (set_data (mark_created (SS h true)))) with (set_data (mark_vertex cp) x1 :: upd (pos1 ++ [set_data (mark_edge (bp_on b) cp) y1]) (length pos1) (set_data (mark_created cp))).
  rewrite upd_at. unfold with_edges. cbn [bp_poly bp_box bp_id bp_on pplane pdrop]. fold cn.
  (* the parts *)
  pose proof (so_neg _ _ _ _ _ _ _ Sok) as On. pose proof (so_pos _ _ _ _ _ _ _ Sok) as Op. destruct (so_plane _ _ _ _ _ _ _ Sok) as [Pn Pp]. destruct (so_drop _ _ _ _ _ _ _ Sok) as [Dn Dp].
  assert (T1 : t <= 1) by (destruct (si_point2 i); destruct M2; lra). assert (U1 : u <= 1) by (destruct (si_point1 i); destruct M1; lra).
  assert (In_q : forall j, In (cyc o3 qs j) qs) by (intros j; apply cyc_In; lia).
  pose proof (Ng a ltac:(lia) Lab) as Na. pose proof (Ps c ltac:(lia) Lcd) as Pc.
  pose proof (cut_distinct (bp_poly b) qs h neg pos _ _ X Y Sok) as Xy. pose proof (X_plane (bp_poly b) qs h neg pos _ _ X Y Sok) as PX. pose proof (Y_plane (bp_poly b) qs h neg pos _ _ X Y Sok) as PY.
  assert (Fx : first_co (pd x2) = None) by (destruct (si_point2 i); destruct M2 as (_ & _ & -> & _); reflexivity). assert (Fy : first_co (pd y1) = None) by (destruct (si_point1 i); destruct M1 as (_ & _ & -> & _); reflexivity).
  assert (Gn : forall k e, nth_error (neg1 ++ [set_data (mark_created cn) (set_data (mark_edge (bp_on b) cn) x2); set_data (mark_vertex cn) y2]) k = Some e ->
    good_edge b (w ++ [cn]) (cyc o3 (map (cyc o3 qs) (seq a (b2 - a)) ++ [X; Y]) k) (cyc o3 (map (cyc o3 qs) (seq a (b2 - a)) ++ [X; Y]) (S k)) (pd e)).
  { apply edges_neg; [exact Ln1|lia| | |].
    - apply (run_exact w b qs HS cn a (b2 - a) X t); [|lia|exact Ln1|exact N1|exact T0|exact T1|].
      + intros k Lk O. unfold on_split in O. cbn [cn ss_split] in O. specialize (Ng (a + k)%nat ltac:(lia) ltac:(lia)). lra.
      + replace (a + (b2 - a))%nat with b2 by lia. exact EX.
    - apply (cut_exact w b qs HS cn X Y h (cyc o3 qs a) (cyc o3 qs c) x2); try assumption; try reflexivity; apply In_q.
    - apply (vertex_exact w b qs HS cn a d Y u (si_point1 i) y2 ed ed1); try assumption; [unfold on_split; cbn [cn ss_split]; lra|lia|]. destruct (si_point1 i); (split; [apply M1|split; apply M1]). }
  assert (Gp : forall k e, nth_error (set_data (mark_vertex cp) x1 :: pos1 ++ [set_data (mark_created cp) (set_data (mark_edge (bp_on b) cp) y1)]) k = Some e ->
    good_edge b (w ++ [cp]) (cyc o3 (X :: map (cyc o3 qs) (seq c (d - c)) ++ [Y]) k) (cyc o3 (X :: map (cyc o3 qs) (seq c (d - c)) ++ [Y]) (S k)) (pd e)).
  { apply edges_pos; [exact Lp1|lia| | |].
    - apply (run_exact w b qs HS cp c (d - c) Y u); [|lia|exact Lp1|exact P1|exact U0|exact U1|].
      + intros k Lk O. unfold on_split in O. cbn [cp ss_split] in O. specialize (Ps (c + k)%nat ltac:(lia) ltac:(lia)). lra.
      + replace (c + (d - c))%nat with d by lia. exact EY.
    - apply (cut_exact w b qs HS cp Y X h (cyc o3 qs a) (cyc o3 qs c) y1); try assumption; try reflexivity; try apply In_q. intros E. apply Xy. symmetry. exact E.
    - apply (vertex_exact w b qs HS cp c b2 X t (si_point2 i) x1 eb eb1); try assumption; [unfold on_split; cbn [cp ss_split]; lra|lia|]. destruct (si_point2 i); (split; [apply M2|split; apply M2]). }
  assert (Nsp : forall f, ~ same_plane (ss_split (SS h f)) (pplane (bp_poly b))).
  { intros f Sp. cbn [ss_split] in Sp. pose proof (on_plane_vertices (bp_poly b) qs Okb h Sp _ (In_q a)). lra. }
  assert (Okn : poly_ok (Poly (pplane (bp_poly b)) (pdrop (bp_poly b)) (neg1 ++ [set_data (mark_created cn) (set_data (mark_edge (bp_on b) cn) x2); set_data (mark_vertex cn) y2])) (map (cyc o3 qs) (seq a (b2 - a)) ++ [X; Y])).
  { rewrite <- Pn, <- Dn. apply poly_ok_shape; [exact On|]. rewrite Ene, !map_app. reflexivity. }
  assert (Okp : poly_ok (Poly (pplane (bp_poly b)) (pdrop (bp_poly b)) (set_data (mark_vertex cp) x1 :: pos1 ++ [set_data (mark_created cp) (set_data (mark_edge (bp_on b) cp) y1)])) (X :: map (cyc o3 qs) (seq c (d - c)) ++ [Y])).
  { rewrite <- Pp, <- Dp. apply poly_ok_shape; [exact Op|]. rewrite Epe. cbn [map]. rewrite !map_app. reflexivity. }
  pose proof (st_stored w b qs P HS) as Sto.
  rewrite Pn, Dn, Pp, Dp.
  split; [|split; [|split; [|split; [|split]]]].
  - exists (map (cyc o3 qs) (seq a (b2 - a)) ++ [X; Y]). split; cbn [bp_poly bp_on bp_box pplane pedges].
    + exact Okn.
    + intros q s Iq Is. pose proof (vertex_point _ _ q Okn Iq) as V. cbn [pplane pdrop] in V. apply (so_neg_points _ _ _ _ _ _ _ Sok) in V as [V1 V2]. apply in_app_iff in Is as [Is|[<-|[]]]; [|exact V2].
      assert (C : in_cell w q) by (apply (st_cell _ _ Sto), (point_iff _ qs q Okb); exact V1). unfold in_cell in C. rewrite Forall_forall in C. exact (C s Is).
    + destruct (s_on _ _ _ HS) as [O1 O2]. split; [apply first_keep|apply last_keep]; try assumption; apply Nsp.
    + exact (s_faces _ _ _ HS).
    + intros k e Ee. exact (proj1 (Gn k e Ee)).
    + intros tr Et. specialize (Btn tr Et). rewrite Ene, !map_app in Btn. rewrite map_app. exact Btn.
  - exists (X :: map (cyc o3 qs) (seq c (d - c)) ++ [Y]). split; cbn [bp_poly bp_on bp_box pplane pedges].
    + exact Okp.
    + intros q s Iq Is. pose proof (vertex_point _ _ q Okp Iq) as V. cbn [pplane pdrop] in V. apply (so_pos_points _ _ _ _ _ _ _ Sok) in V as [V1 V2]. apply in_app_iff in Is as [Is|[<-|[]]]; [|exact V2].
      assert (C : in_cell w q) by (apply (st_cell _ _ Sto), (point_iff _ qs q Okb); exact V1). unfold in_cell in C. rewrite Forall_forall in C. exact (C s Is).
    + destruct (s_on _ _ _ HS) as [O1 O2]. split; [apply first_keep|apply last_keep]; try assumption; apply Nsp.
    + exact (s_faces _ _ _ HS).
    + intros k e Ee. exact (proj1 (Gp k e Ee)).
    + intros tr Et. specialize (Btp tr Et). rewrite Epe in Btp. cbn [map] in *. rewrite !map_app in *. exact Btp.
  - split.
    + constructor; [|constructor; [|constructor]]; (split; [reflexivity|split; reflexivity]).
    + intros q. unfold bp_point. cbn [bp_poly]. rewrite (point_iff _ qs q Okb). split.
      * intros Q. destruct (Qlt_le_dec (side h q) 0) as [L|L].
        -- eexists. split; [left; reflexivity|]. apply (point_iff _ _ q Okn). cbn [pplane pdrop]. apply (so_neg_points _ _ _ _ _ _ _ Sok). split; [exact Q|lra].
        -- eexists. split; [right; left; reflexivity|]. apply (point_iff _ _ q Okp). cbn [pplane pdrop]. apply (so_pos_points _ _ _ _ _ _ _ Sok). split; [exact Q|exact L].
      * intros (z & [<-|[<-|[]]] & Q); cbn [bp_poly] in Q; [apply (point_iff _ _ q Okn), (so_neg_points _ _ _ _ _ _ _ Sok) in Q|apply (point_iff _ _ q Okp), (so_pos_points _ _ _ _ _ _ _ Sok) in Q]; exact (proj1 Q).
    + constructor; [constructor; [|constructor]|constructor; constructor]. intros q. pose proof (po_plane _ _ Okb) as Pl. rewrite Forall_forall in Pl. apply (inner_sides (pplane (bp_poly b)) h _ _ (cyc o3 qs a)).
      * intros z Q. apply (point_iff _ _ z Okn), (so_neg_points _ _ _ _ _ _ _ Sok) in Q. exact (proj2 Q).
      * intros z Q. apply (point_iff _ _ z Okp), (so_pos_points _ _ _ _ _ _ _ Sok) in Q. exact (proj2 Q).
      * apply Pl, In_q.
      * exact Na.
    + intros z k u' v' d' Iz He. assert (G : forall qs' w', poly_ok (bp_poly z) qs' -> (forall k e, nth_error (pedges (bp_poly z)) k = Some e -> good_edge b w' (cyc o3 qs' k) (cyc o3 qs' (S k)) (pd e)) -> created_by d' <> None \/ exists j u0 v0 d0, has_edge (bp_poly b) j u0 v0 d0 /\ created_by d0 = None /\ on_segment u0 v0 u' /\ on_segment u0 v0 v').
      { intros qs' w' Oz Gz. destruct (edge_iff _ qs' k u' v' d' Oz He) as (e & Ee & <- & Eu & Ev). destruct (Gz k e Ee) as [_ [C|(j & u0 & v0 & d0 & H0 & C0 & S1 & S2)]]; [left; exact C|right]. exists j, u0, v0, d0. split; [exact H0|]. split; [exact C0|].
        split; [apply (segment_eq u0 v0 (cyc o3 qs' k)); try reflexivity; [symmetry; exact Eu|exact S1]|apply (segment_eq u0 v0 (cyc o3 qs' (S k))); try reflexivity; [symmetry; exact Ev|exact S2]]. }
      destruct Iz as [<-|[<-|[]]]; [exact (G _ _ Okn Gn)|exact (G _ _ Okp Gp)].
  - reflexivity.
  - reflexivity.
  - exact Bno.
Qed.
