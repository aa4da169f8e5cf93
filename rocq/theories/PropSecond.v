(** Property C66: ApplySecondary. *)
From Coq Require Import List ZArith QArith Arith Lia Lqa Bool Sorted.
From Verif Require Import BigUIntModel GeoModel GeoSpec EstModel EvtModel EvtSpec EvtTokProofs EvtProofs EvtArrProofs PropEvt PropPrim PrimModel PrimSpec PrimProofs PrimTopProofs SecondModel SecondSpec SecondArrProofs SecondHeapProofs SecondInvProofs SecondStepProofs SecondCarryProofs.
Import ListNotations.
Open Scope Q_scope.

(** ApplySecondary, when no polygon is flat in the dimension, and without assertions
    or without polygons in the split plane: whatever the order of equal elements in
    the heap is, nothing is undefined, no assertion fails and the event points of
    both children are correct. *)
Theorem C66_apply_secondary : forall dbg d ps negs poss extra pmap evs choose fuel, Forall (poly_fit d) negs -> Forall (poly_fit d) poss -> events_ok d ps evs -> carried d ps negs poss extra pmap ->
  (forall i, (i < length ps)%nat -> lo d ps i < hi d ps i) -> (dbg = true -> ~ In Gone pmap) ->
  apply_secondary dbg d (length ps) negs poss extra pmap choose fuel evs = NoFuel \/
  exists nev pev, apply_secondary dbg d (length ps) negs poss extra pmap choose fuel evs = Ok (nev, pev) /\ events_ok d negs nev /\ events_ok d poss pev.
Proof.
  intros dbg d ps negs poss extra pmap evs choose fuel FN FP OK CA WIDE NG. destruct (toks_of_events d ps evs OK) as (F & AR & TK & FL).
  assert (GONE : dbg = true -> forall q, nth_error pmap q <> Some Gone) by (intros D q E; exact (NG D (nth_error_In _ _ E))).
  unfold apply_secondary. set (s0 := SS AtTop _ _ _ _ _ _ _). destruct (loop_ok dbg d ps negs poss extra pmap CA WIDE evs F TK FL FN FP GONE choose fuel s0 (init_inv dbg d ps negs poss extra pmap evs F AR TK FL GONE)) as [->|(s & -> & E & T & C & B)]; [left; reflexivity|right]. cbn [rbind].
  pose proof (final_empty d ps negs poss extra pmap CA WIDE evs F TK s T E C B) as HE. rewrite HE in C |- *. pose proof (final_toks d ps negs poss extra pmap CA WIDE evs F TK _ T _ _ C E) as TO.
  destruct (arr_done d negs (T false) _ (ko_arr _ _ _ _ _ _ (co_kids _ _ _ _ _ _ _ _ _ _ _ _ _ C false)) (TO false)) as (nev & N1 & N2). destruct (arr_done d poss (T true) _ (ko_arr _ _ _ _ _ _ (co_kids _ _ _ _ _ _ _ _ _ _ _ _ _ C true)) (TO true)) as (pev & P1 & P2).
  exists nev, pev. split; [|auto]. cbn [length]. rewrite Nat.eqb_refl, check_true. cbn [rbind]. rewrite N1. cbn [rbind]. rewrite P1. cbn [rbind]. rewrite (assert_new_ok dbg d negs nev FN N2). cbn [rbind]. rewrite (assert_new_ok dbg d poss pev FP P2). reflexivity.
Qed.
Print Assumptions C66_apply_secondary.
(** It ends: with allowed orders of the heap the result is reached in a number of
    steps that is linear in the numbers of polygons. *)
Theorem C66_apply_secondary_ends : forall dbg d ps negs poss extra pmap evs, Forall (poly_fit d) negs -> Forall (poly_fit d) poss -> events_ok d ps evs -> carried d ps negs poss extra pmap ->
  (forall i, (i < length ps)%nat -> lo d ps i < hi d ps i) -> (dbg = true -> ~ In Gone pmap) ->
  exists choose nev pev, apply_secondary dbg d (length ps) negs poss extra pmap choose (64 * (length ps + length negs + length poss) + 32) evs = Ok (nev, pev).
Proof.
  intros dbg d ps negs poss extra pmap evs FN FP OK CA WIDE NG. destruct (toks_of_events d ps evs OK) as (F & AR & TK & FL).
  assert (GONE : dbg = true -> forall q, nth_error pmap q <> Some Gone) by (intros D q E; exact (NG D (nth_error_In _ _ E))).
  set (s0 := SS AtTop (map main_of evs) 0 [] (fun b => Child (repeat None (length (kids negs poss b) * 2)) 0 true) None false false).
  destruct (loop_ends dbg d ps negs poss extra pmap CA WIDE evs F TK FL FN FP GONE (64 * (length ps + length negs + length poss) + 32) s0 (init_inv dbg d ps negs poss extra pmap evs F AR TK FL GONE)) as (choose & s & E).
  { unfold pot, left, rank, s0. cbn [s_kids s_at s_pc c_used]. lia. }
  exists choose. destruct (C66_apply_secondary dbg d ps negs poss extra pmap evs choose (64 * (length ps + length negs + length poss) + 32) FN FP OK CA WIDE NG) as [H|(nev & pev & H & _)]; [exfalso|eauto].
  unfold apply_secondary in H. fold s0 in H. rewrite E in H. cbn [rbind] in H. destruct (loop_ok dbg d ps negs poss extra pmap CA WIDE evs F TK FL FN FP GONE choose (64 * (length ps + length negs + length poss) + 32) s0 (init_inv dbg d ps negs poss extra pmap evs F AR TK FL GONE)) as [X|(s' & X & E' & T & C & B)]; rewrite X in E; [discriminate|]. injection E as <-.
  pose proof (final_empty d ps negs poss extra pmap CA WIDE evs F TK s' T E' C B) as HE. rewrite HE in C, H. pose proof (final_toks d ps negs poss extra pmap CA WIDE evs F TK _ T _ _ C E') as TO.
  destruct (arr_done d negs (T false) _ (ko_arr _ _ _ _ _ _ (co_kids _ _ _ _ _ _ _ _ _ _ _ _ _ C false)) (TO false)) as (nev & N1 & N2). destruct (arr_done d poss (T true) _ (ko_arr _ _ _ _ _ _ (co_kids _ _ _ _ _ _ _ _ _ _ _ _ _ C true)) (TO true)) as (pev & P1 & P2).
  cbn [length] in H. rewrite Nat.eqb_refl, check_true in H. cbn [rbind] in H. rewrite N1 in H. cbn [rbind] in H. rewrite P1 in H. cbn [rbind] in H. rewrite (assert_new_ok dbg d negs nev FN N2) in H. cbn [rbind] in H. rewrite (assert_new_ok dbg d poss pev FP P2) in H. discriminate.
Qed.
Print Assumptions C66_apply_secondary_ends.
(** After ApplyPrimary in dimension d, the event points of the polygons in another
    dimension d', where they look like [view], are divided correctly. *)
Theorem C66_after_primary : forall P (O : pops P) d x ps B N R D U negs poss nev pev s, divided O d x ps B N R D U negs poss nev pev s ->
  forall dbg d' (view : P -> epoly) evs choose fuel, Forall (poly_fit d) (map (o_view O) ps) -> events_ok d' (map view ps) evs -> Forall (poly_fit d') (map view negs) -> Forall (poly_fit d') (map view poss) ->
  (forall b r a, In r ps -> o_touch O b r = Ok a -> view a = view r) ->
  (forall r a b, In r ps -> coord d (e_min (o_view O r)) < x -> x < coord d (e_max (o_view O r)) -> o_split O r = Ok (a, b) -> parts (coord d' (e_min (view r))) (coord d' (e_max (view r))) (coord d' (e_min (view a))) (coord d' (e_max (view a))) (coord d' (e_min (view b))) (coord d' (e_max (view b)))) ->
  (forall r, In r ps -> coord d' (e_min (view r)) < coord d' (e_max (view r))) -> (dbg = true -> D = [] /\ U = []) ->
  exists pmap, s_map s = map Some pmap /\
    (apply_secondary dbg d' (length ps) (map view negs) (map view poss) (length B) pmap choose fuel evs = NoFuel \/
     exists nev' pev', apply_secondary dbg d' (length ps) (map view negs) (map view poss) (length B) pmap choose fuel evs = Ok (nev', pev') /\ events_ok d' (map view negs) nev' /\ events_ok d' (map view poss) pev').
Proof.
  intros P O d x ps B N R D U negs poss nev pev s DV dbg d' view evs choose fuel FIT OK FN FP TO SP WI NG. destruct (carried_of_divided O d x ps B N R D U negs poss nev pev s DV FIT d' view TO SP) as (pmap & M & CA & GO). exists pmap. split; [exact M|]. rewrite <- (map_length view ps). apply C66_apply_secondary; try assumption.
  - intros i L. rewrite map_length in L. destruct (nth_error ps i) as [r|] eqn:E; [|apply nth_error_None in E; lia]. unfold lo, hi. rewrite nth_error_map, E. cbn [option_map]. exact (WI r (nth_error_In _ _ E)).
  - intros DB I. destruct (NG DB) as [-> ->]. destruct (GO _ I eq_refl) as (q & [J|J]); destruct J.
Qed.
Print Assumptions C66_after_primary.

Definition at_x (a : Z) : hpoint3 := HP (V3 a 0 0) 1.
Definition iv (p : Z * Z) : epoly := EP (at_x (fst p)) (at_x (snd p)) 7.
Fixpoint pick (l : list (nat * nat)) (k : nat) : nat := match l with [] => 0%nat | (j, c) :: l => if (j =? k)%nat then c else pick l k end.

(** ** A polygon in the split plane *)
(** The first polygon is split, the second one lies in the split plane. *)
Definition plane_ps : list epoly := map iv [(1, 4); (3, 4)]%Z.
Definition plane_negs : list epoly := map iv [(1, 2)]%Z.
Definition plane_poss : list epoly := map iv [(2, 4)]%Z.
Definition plane_map : list ref := [Idx 0; Gone].
Definition plane_events : list event := [Ev true true 3; Ev true true 2; Ev true false 1; Ev false false 0]%nat.
Lemma fit_all d l : forallb (fun p => negb (hw (e_min p) =? 0)%Z && negb (hw (e_max p) =? 0)%Z && Qle_bool (coord d (e_min p)) (coord d (e_max p))) l = true -> Forall (poly_fit d) l.
Proof.
  intros H. rewrite forallb_forall in H. apply Forall_forall. intros p I. apply H in I. apply andb_true_iff in I as [I L]. apply andb_true_iff in I as [A B].
  repeat split; [apply negb_true_iff, Z.eqb_neq in A; exact A|apply negb_true_iff, Z.eqb_neq in B; exact B|apply Qle_bool_iff, L].
Qed.
Lemma plane_carried : carried 0 plane_ps plane_negs plane_poss 1 plane_map.
Proof.
  constructor; try reflexivity.
  - cbn. lia.
  - intros q c H L. destruct q as [|[|q]]; cbn in H; [|discriminate|destruct q; discriminate]. injection H as <-. unfold parts. vm_compute. intuition discriminate.
  - intros q c H L. destruct q as [|[|q]]; cbn in H; [|discriminate|destruct q; discriminate]. injection H as <-. lia.
  - intros q c H L. destruct q as [|[|q]]; cbn in H; [|discriminate|destruct q; discriminate]. injection H as <-. cbn in L. lia.
  - intros c L. cbn in L. exists 0%nat. cbn. do 2 f_equal. lia.
  - intros q q' c H H'. destruct q as [|[|q]]; cbn in H; [|discriminate|destruct q; discriminate]. destruct q' as [|[|q']]; cbn in H'; [reflexivity|discriminate|destruct q'; discriminate].
Qed.
Lemma plane_ok : events_ok 0 plane_ps plane_events.
Proof.
  destruct (C40_make_event_points true 0 plane_ps (pick [(1, 1)]%nat) (fit_all 0 plane_ps eq_refl)) as [E|(evs & E & OK)]; vm_compute in E; [discriminate|]. injection E as <-. exact OK.
Qed.
(** assert(event_points_pos->new_location) does not hold when events of polygons in
    the split plane have been skipped. *)
Theorem C66_assertion_refuted : ~ (forall d ps negs poss extra pmap evs choose fuel, Forall (poly_fit d) ps -> Forall (poly_fit d) negs -> Forall (poly_fit d) poss ->
  events_ok d ps evs -> carried d ps negs poss extra pmap -> (forall i, (i < length ps)%nat -> lo d ps i < hi d ps i) ->
  apply_secondary true d (length ps) negs poss extra pmap choose fuel evs <> AssertFail).
Proof.
  intros H. apply (H 0%nat plane_ps plane_negs plane_poss 1%nat plane_map plane_events (pick [(27, 1)]%nat) 40%nat); try (apply fit_all; reflexivity).
  - exact plane_ok.
  - exact plane_carried.
  - intros i L. cbn in L. destruct i as [|[|i]]; [reflexivity|reflexivity|lia].
  - vm_compute. reflexivity.
Qed.
Print Assumptions C66_assertion_refuted.
(** Without assertions the same call is fine. *)
Example plane_release : apply_secondary false 0 2 plane_negs plane_poss 1 plane_map (pick [(27, 1)]%nat) 40 plane_events = Ok ([Ev true true 1; Ev true false 0], [Ev true true 1; Ev true false 0])%nat.
Proof. vm_compute. reflexivity. Qed.

(** It meets the hypotheses of C66_apply_secondary without assertions. *)
Example plane_fine : forall choose fuel, apply_secondary false 0 2 plane_negs plane_poss 1 plane_map choose fuel plane_events = NoFuel \/
  exists nev pev, apply_secondary false 0 2 plane_negs plane_poss 1 plane_map choose fuel plane_events = Ok (nev, pev) /\ events_ok 0 plane_negs nev /\ events_ok 0 plane_poss pev.
Proof.
  intros choose fuel. apply (C66_apply_secondary false 0 plane_ps plane_negs plane_poss 1 plane_map); try (apply fit_all; reflexivity); [exact plane_ok|exact plane_carried| |discriminate]. intros i L. cbn in L. destruct i as [|[|i]]; [reflexivity|reflexivity|lia].
Qed.

(** ** With assertions *)
(** Three polygons at the plane x = 2: the first is divided, the others are on one
    side.  ApplyPrimary divides the event points in x, ApplySecondary those in y. *)
Definition xy (a b : Z) : hpoint3 := HP (V3 a b 0) 1.
Definition pxy (a b c e : Z) : epoly := EP (xy a b) (xy c e) 7.
Definition three : list epoly := [pxy 0 0 4 8; pxy 0 1 2 3; pxy 2 2 4 6]%Z.
Definition three_ops : pops epoly := POps (fun r => r) (fun _ => false) (fun _ r => Ok r) (fun _ r => Ok r) (fun r => if (vy (hv (e_max r)) =? 8)%Z then Ok (EP (e_min r) (xy 2 5) 7, EP (xy 2 3) (e_max r) 7) else UB).
Definition three_x : list event := [Ev true true 2; Ev false true 5; Ev true false 1; Ev false true 4; Ev true false 2; Ev false false 0]%nat.
Definition three_y : list event := [Ev true true 5; Ev true true 3; Ev true true 4; Ev true false 1; Ev true false 2; Ev true false 0]%nat.
Definition three_part : part := Part 2 6 3 3 2 2 0 2 4.
Lemma three_ok : events_ok 0 three three_x /\ events_ok 1 three three_y.
Proof.
  split; [destruct (C40_make_event_points true 0 three (fun k => nth k [0; 0; 0; 2; 1; 0] 0)%nat (fit_all 0 three eq_refl)) as [E|(evs & E & OK)]|destruct (C40_make_event_points true 1 three (fun k => nth k [0; 1; 1; 0; 1; 0] 0)%nat (fit_all 1 three eq_refl)) as [E|(evs & E & OK)]]; vm_compute in E; try discriminate; injection E as <-; exact OK.
Qed.
Lemma three_plane : lowest_cost true None 0 three three_x = Ok (Some (Part 2 6 3 3 2 2 0 0 0)) /\ discount true 3 three_x (Part 2 6 3 3 2 2 0 0 0) = Ok three_part /\ split_plane true 0 three three_x three_part = Ok (HS (V3 1 0 0) 2).
Proof. vm_compute. auto. Qed.
Example three_primary : exists s B N R D U negs poss nev pev, apply_primary three_ops true (HS (V3 1 0 0) 2) three three_part 0 three_x = Ok s /\ divided three_ops 0 2 three B N R D U negs poss nev pev s.
Proof.
  destruct three_plane as (P1 & P2 & P3). apply (C65_apply_primary epoly three_ops true true 0%nat three three_x None 0%Z (Part 2 6 3 3 2 2 0 0 0) three_part (HS (V3 1 0 0) 2) 2); try assumption; try (left; reflexivity); try (cbn; lia).
  - change (Forall (poly_fit 0) three). apply fit_all. reflexivity.
  - exact (proj1 three_ok).
  - exists []. split; [constructor|]. split; [|reflexivity]. intros i. split; [intros []|]. intros [L N]. apply N. destruct (nth_error (map (o_view three_ops) three) i) as [r|] eqn:E; [exists r; auto|]. apply nth_error_None in E. rewrite map_length in E. lia.
  - exists 0%nat, 2%nat, 1%nat. split; [split; eexists; (split; [reflexivity|split; reflexivity])|]. right. split; vm_compute; reflexivity.
  - intros _. unfold no_min. cbn [l4 hn hd vx vy vz]. repeat (apply Forall_cons; [discriminate|]). apply Forall_nil.
  - intros r I A B. cbv [In three] in I. destruct I as [<-|[<-|[<-|[]]]]; try (exfalso; vm_compute in B; discriminate B); try (exfalso; vm_compute in A; discriminate A).
    eexists _, _. split; [reflexivity|]. unfold poly_fit. vm_compute. repeat split; discriminate.
  - intros r _ _ _. exists r. split; reflexivity.
  - intros r _ _ _. exists r. split; reflexivity.
  - intros r _ _ _. exists r. reflexivity.
Qed.
Example three_after_primary : forall s B N R D U negs poss nev pev, divided three_ops 0 2 three B N R D U negs poss nev pev s -> Forall (poly_fit 1) negs -> Forall (poly_fit 1) poss ->
  forall choose fuel, exists pmap, s_map s = map Some pmap /\ (apply_secondary false 1 3 (map (o_view three_ops) negs) (map (o_view three_ops) poss) (length B) pmap choose fuel three_y = NoFuel \/
    exists nev' pev', apply_secondary false 1 3 (map (o_view three_ops) negs) (map (o_view three_ops) poss) (length B) pmap choose fuel three_y = Ok (nev', pev') /\ events_ok 1 (map (o_view three_ops) negs) nev' /\ events_ok 1 (map (o_view three_ops) poss) pev').
Proof.
  intros s B N R D U negs poss nev pev DV FN FP choose fuel. refine (C66_after_primary _ _ _ _ _ _ _ _ _ _ _ _ _ _ _ DV false 1%nat (o_view three_ops) three_y choose fuel _ _ _ _ _ _ _ _).
  - change (Forall (poly_fit 0) three). apply fit_all. reflexivity.
  - exact (proj2 three_ok).
  - change (fun r : epoly => r) with (@id epoly). rewrite map_id. exact FN.
  - rewrite map_id. exact FP.
  - intros b r a _ E. cbn in E. injection E as <-. reflexivity.
  - intros r a b I _ _ E. cbv [In three] in I. destruct I as [<-|[<-|[<-|[]]]]; cbn in E; try discriminate. injection E as <- <-. unfold parts. vm_compute. intuition discriminate.
  - intros r I. cbv [In three] in I. destruct I as [<-|[<-|[<-|[]]]]; reflexivity.
  - discriminate.
Qed.
(** The same with the lists that result, in debug. *)
Definition three_negs : list epoly := [pxy 0 0 2 5; pxy 0 1 2 3]%Z.
Definition three_poss : list epoly := [pxy 2 3 4 8; pxy 2 2 4 6]%Z.
Example three_lists : exists s, apply_primary three_ops true (HS (V3 1 0 0) 2) three three_part 0 three_x = Ok s /\ s_map s = map Some [Idx 0; Idx 1; Idx 3] /\ s_negs s = map Some three_negs /\ s_poss s = map Some three_poss.
Proof. eexists. split; [vm_compute; reflexivity|]. auto. Qed.
Lemma three_carried : carried 1 three three_negs three_poss 1 [Idx 0; Idx 1; Idx 3].
Proof.
  constructor; try reflexivity.
  - cbn. lia.
  - intros q c H L. destruct q as [|[|[|q]]]; cbn in H; try (destruct q; discriminate H); injection H as <-; try lia; unfold parts; vm_compute; intuition discriminate.
  - intros q c H L. cbn in L. destruct q as [|[|[|q]]]; cbn in H; try (destruct q; discriminate H); injection H as <-; try lia; vm_compute; auto.
  - intros q c H L. cbn in L. destruct q as [|[|[|q]]]; cbn in H; try (destruct q; discriminate H); injection H as <-; try lia; (split; [cbn; lia|]); vm_compute; auto.
  - intros c L. cbn in L. destruct c as [|[|[|[|c]]]]; try lia; [exists 0%nat|exists 1%nat|exists 2%nat]; reflexivity.
  - intros q q' c H H'. destruct q as [|[|[|q]]]; cbn in H; try (destruct q; discriminate H); injection H as <-; destruct q' as [|[|[|q']]]; cbn in H'; try (destruct q'; discriminate H'); congruence.
Qed.
Example three_secondary : exists nev pev, apply_secondary true 1 3 three_negs three_poss 1 [Idx 0; Idx 1; Idx 3] (fun _ => 0%nat) 100 three_y = Ok (nev, pev) /\ events_ok 1 three_negs nev /\ events_ok 1 three_poss pev.
Proof.
  destruct (C66_apply_secondary true 1 three three_negs three_poss 1 [Idx 0; Idx 1; Idx 3] three_y (fun _ => 0%nat) 100) as [E|H]; try (apply fit_all; reflexivity).
  - exact (proj2 three_ok).
  - exact three_carried.
  - intros i L. cbn in L. destruct i as [|[|[|i]]]; [reflexivity|reflexivity|reflexivity|lia].
  - intros _ I. cbn in I. intuition discriminate.
  - vm_compute in E. discriminate.
  - exact H.
Qed.

(** ** Flat polygons *)
(** Four polygons, the first and the last of which are split; the last one and the
    second one are flat. *)
Definition flat_ps : list epoly := map iv [(0, 3); (3, 3); (1, 3); (1, 1)]%Z.
Definition flat_negs : list epoly := map iv [(0, 3); (1, 1)]%Z.
Definition flat_poss : list epoly := map iv [(1, 2); (1, 1); (3, 3); (1, 3)]%Z.
Definition flat_pmap : list ref := [Idx 0; Idx 4; Idx 5; Idx 1]%nat.
Definition flat_events : list event := [Ev true true 4; Ev true true 2; Ev false false 3; Ev false true 7; Ev true false 0; Ev false true 6; Ev false false 1; Ev false false 2]%nat.
Definition flat_result : list event := [Ev true true 4; Ev false true 2; Ev false false 1; Ev false true 7; Ev true false 0; Ev true true 6; Ev false false 2; Ev false false 3]%nat.
Lemma flat_carried : carried 0 flat_ps flat_negs flat_poss 2 flat_pmap.
Proof.
  constructor; try reflexivity.
  - cbn. lia.
  - intros q c H L. destruct q as [|[|[|[|q]]]]; cbn in H; try (destruct q; discriminate H); injection H as <-; try lia; unfold parts; vm_compute; intuition discriminate.
  - intros q c H L. cbn in L. destruct q as [|[|[|[|q]]]]; cbn in H; try (destruct q; discriminate H); injection H as <-; lia.
  - intros q c H L. cbn in L. destruct q as [|[|[|[|q]]]]; cbn in H; try (destruct q; discriminate H); injection H as <-; try lia; (split; [cbn; lia|]); vm_compute; auto.
  - intros c L. cbn in L. destruct c as [|[|[|[|[|[|c]]]]]]; try lia; [exists 0%nat|exists 3%nat|exists 1%nat|exists 2%nat]; reflexivity.
  - intros q q' c H H'. destruct q as [|[|[|[|q]]]]; cbn in H; try (destruct q; discriminate H); injection H as <-; destruct q' as [|[|[|[|q']]]]; cbn in H'; try (destruct q'; discriminate H'); congruence.
Qed.
Lemma flat_ok : events_ok 0 flat_ps flat_events.
Proof.
  destruct (C40_make_event_points true 0 flat_ps (pick [(7, 2); (6, 1); (5, 3); (3, 1); (1, 1)]%nat) (fit_all 0 flat_ps eq_refl)) as [E|(evs & E & OK)]; vm_compute in E; [discriminate|]. injection E as <-. exact OK.
Qed.
(** The event points of a child are not correct: the start event of a polygon that
    is not flat precedes the events of a flat one at the same location. *)
Theorem C66_flat_refuted : exists d ps negs poss extra pmap evs choose fuel nev pev, Forall (poly_fit d) ps /\ Forall (poly_fit d) negs /\ Forall (poly_fit d) poss /\
  events_ok d ps evs /\ carried d ps negs poss extra pmap /\ (forall dbg, apply_secondary dbg d (length ps) negs poss extra pmap choose fuel evs = Ok (nev, pev)) /\ ~ events_ok d poss pev.
Proof.
  exists 0%nat, flat_ps, flat_negs, flat_poss, 2%nat, flat_pmap, flat_events, (pick [(75, 1); (70, 2); (66, 1)]%nat), 100%nat, [Ev true true 3; Ev true true 2; Ev false false 1; Ev true false 0]%nat, flat_result.
  repeat (split; [apply fit_all; reflexivity|]). split; [exact flat_ok|]. split; [exact flat_carried|]. split; [intros []; vm_compute; reflexivity|].
  intros OK. destruct (eo_ties _ _ _ OK 0%nat 1%nat 1 1) as (e & i & [(a & A1 & A2 & A3) (b & B1 & B2 & B3)] & W).
  - lia.
  - exists 0%nat, 4%nat, 0%nat. split; [split; eexists; (split; [reflexivity|split; reflexivity])|]. left. split; [reflexivity|vm_compute; reflexivity].
  - exists 1%nat, 2%nat, 1%nat. split; [split; eexists; (split; [reflexivity|split; reflexivity])|]. left. split; [reflexivity|vm_compute; reflexivity].
  - reflexivity.
  - exists 4%nat, 0%nat. split; [split; eexists; (split; [reflexivity|split; reflexivity])|]. vm_compute. reflexivity.
  - cbn in A1. injection A1 as <-. cbn in A3. subst e. cbn in B1. injection B1 as <-. cbn in B3. subst i. vm_compute in W. discriminate.
Qed.
Print Assumptions C66_flat_refuted.
(** The next split of that child in the same dimension counts the polygon as one in
    the split plane and as one on the positive side.  Then an assertion of
    ApplyPrimary fails; without assertions each of the two lists of polygons gets a
    polygon without vertices. *)
Definition whole : pops epoly := POps (fun r => r) (fun _ => false) (fun _ r => Ok r) (fun _ r => Ok r) (fun _ => UB).
Theorem C66_next_split_refuted : exists p0 p h s, lowest_cost true None 0 flat_poss flat_result = Ok (Some p0) /\ discount true 4 flat_result p0 = Ok p /\ split_plane true 0 flat_poss flat_result p = Ok h /\
  extra_count p 4 = 1%Z /\ (forall i, (i < 4)%nat -> ~ (lo 0 flat_poss i < 1 /\ 1 < hi 0 flat_poss i)) /\ (forall v, hs_compare h v = hs_compare (HS (V3 1 0 0) 1) v) /\
  apply_primary whole true h flat_poss p 0 flat_result = AssertFail /\
  apply_primary whole false h flat_poss p 0 flat_result = Ok s /\ In None (s_negs s) /\ In None (s_poss s).
Proof.
  eexists _, _, _, _. split; [vm_compute; reflexivity|]. split; [vm_compute; reflexivity|]. split; [vm_compute; reflexivity|]. split; [vm_compute; reflexivity|]. split.
  - intros i L. destruct i as [|[|[|[|i]]]]; [..|lia]; vm_compute; intros [A B]; discriminate.
  - split; [reflexivity|]. split; [vm_compute; reflexivity|]. split; [vm_compute; reflexivity|]. cbn. auto.
Qed.
Print Assumptions C66_next_split_refuted.
