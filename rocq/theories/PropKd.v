(** Property C67: splitting a node with event points. *)
From Coq Require Import List Bool Arith ZArith QArith Lia Lqa Permutation ZifyBool.
From Verif Require Import BigUIntModel GeoModel GeoSpec GeoProofs AabbModel AabbSpec CvxSpec PolyModel PolySpec RTransModel FilterModel BspModel BspSpec BspPolyProofs BspHistSpec BspHistProofs PropBsp PropPoly PropMerge PolyCapProofs PolyTopProofs
  EstModel EstSpec EvtModel EvtSpec EvtTokProofs EvtArrProofs EvtCostProofs EvtDiscProofs PropEvt PrimModel PrimSpec PropPrim SecondModel SecondSpec KdModel KdSpec KdOtherProofs KdProofs.
Import ListNotations.
Open Scope Q_scope.

Lemma contents_st w x : path_ok w -> node_ok w x -> Forall (fun b => exists qs, st w b qs) (n_contents x).
Proof. intros P H. pose proof (no_contents _ _ H) as F. rewrite Forall_forall in *. intros b I. exact (stored_st w b P (proj1 (F b I))). Qed.
Lemma box_boxed l : Forall has_box l -> boxed l.
Proof. unfold boxed. apply Forall_impl. intros b (qs & t & _ & E & _). congruence. Qed.
(** Split(partition, ...), for the partition of GetLowestCost and
    DiscountBorderPolygons, does to a leaf what Split(half_space) does with the plane
    of GetSplitPlane, but for the order of the polygons.  The children's polygons
    have boxes, and the event points that it leaves are right for them. *)
Theorem C67_split : forall wide dbg d w x evs excl ec p0 p h y x1, (forall l s r, w = l ++ s :: r -> fresh_plane l (ss_split s)) -> node_ok w x -> boxed (n_contents x) -> n_contents x <> [] -> (d < 3)%nat ->
  events_ok d (map (bp_view d) (n_contents x)) evs -> (Z.of_nat (length (n_contents x)) < 2 ^ 57)%Z -> wide = true \/ (Z.of_nat (length (n_contents x)) < 2 ^ 31)%Z ->
  counts (length (n_contents x)) (fun i => ~ included excl (map (bp_view d) (n_contents x)) i) ec ->
  lowest_cost wide excl ec (map (bp_view d) (n_contents x)) evs = Ok (Some p0) -> discount dbg (length (n_contents x)) evs p0 = Ok p -> split_plane dbg d (map (bp_view d) (n_contents x)) evs p = Ok h ->
  event_at d (map (bp_view d) (n_contents x)) evs (p_index p0) y -> (dbg = true -> no_min (l4 h)) -> bn_split dbg h x = Ok x1 ->
  exists x2 s nev pev, bn_split_kd dbg d evs p x = Ok (x2, s) /\ reordered x1 x2 /\ boxed (n_contents (n_neg x2)) /\ boxed (n_contents (n_pos x2)) /\
    s_neg s = map (fun e => Some (lift e)) nev /\ firstn (length (n_contents (n_pos x2)) * 2) (s_ev s) = map lift pev /\
    events_ok d (map (bp_view d) (n_contents (n_neg x2))) nev /\ events_ok d (map (bp_view d) (n_contents (n_pos x2))) pev.
Proof.
  intros wide dbg d w x evs excl ec p0 p h y x1 P H BX NE Hd EV SZ WD EC LC DI SH EX NM BS. pose proof (contents_st w x P H) as SC. destruct x as [|s0 cs bs infos c1 c2]; [contradiction NE; reflexivity|]. cbn [n_contents] in *.
  destruct (kd_ok w wide dbg d cs bs infos s0 c1 c2 evs excl ec p0 p h y x1 P Hd SC BX EV ltac:(destruct cs; [congruence|cbn; lia]) SZ WD EC LC DI SH EX (or_introl NM) BS) as (n2 & p2 & s & B & N & R & D & U & nev & pev & K & RE & DV & B1 & B2 & _).
  exists (BNode h [] [] infos n2 p2), s, nev, pev. cbn [n_neg n_pos]. split; [exact K|]. split; [exact RE|]. split; [exact (box_boxed _ B1)|]. split; [exact (box_boxed _ B2)|]. split; [exact (dv_nev _ _ _ _ _ _ _ _ _ _ _ _ _ _ DV)|]. split; [exact (dv_pev _ _ _ _ _ _ _ _ _ _ _ _ _ _ DV)|]. split; [exact (dv_negs_ok _ _ _ _ _ _ _ _ _ _ _ _ _ _ DV)|exact (dv_poss_ok _ _ _ _ _ _ _ _ _ _ _ _ _ _ DV)].
Qed.
Print Assumptions C67_split.
(** ApplySecondary then divides the event points of another dimension, if no polygon
    is flat there and, with assertions, none is in the plane. *)
Theorem C67_other_dimension : forall wide dbg d w x evs excl ec p0 p h y x1, (forall l s r, w = l ++ s :: r -> fresh_plane l (ss_split s)) -> node_ok w x -> boxed (n_contents x) -> n_contents x <> [] -> (d < 3)%nat ->
  events_ok d (map (bp_view d) (n_contents x)) evs -> (Z.of_nat (length (n_contents x)) < 2 ^ 57)%Z -> wide = true \/ (Z.of_nat (length (n_contents x)) < 2 ^ 31)%Z ->
  counts (length (n_contents x)) (fun i => ~ included excl (map (bp_view d) (n_contents x)) i) ec ->
  lowest_cost wide excl ec (map (bp_view d) (n_contents x)) evs = Ok (Some p0) -> discount dbg (length (n_contents x)) evs p0 = Ok p -> split_plane dbg d (map (bp_view d) (n_contents x)) evs p = Ok h ->
  event_at d (map (bp_view d) (n_contents x)) evs (p_index p0) y -> (dbg = true -> no_min (l4 h)) -> bn_split dbg h x = Ok x1 ->
  exists x2 s pmap, bn_split_kd dbg d evs p x = Ok (x2, s) /\ s_map s = map Some pmap /\
    forall d' evs' choose fuel, (d' < 3)%nat -> events_ok d' (map (bp_view d') (n_contents x)) evs' -> (forall r, In r (n_contents x) -> coord d' (e_min (bp_view d' r)) < coord d' (e_max (bp_view d' r))) ->
      (dbg = true -> forall r, In r (n_contents x) -> ~ (coord d (e_min (bp_view d r)) == y /\ coord d (e_max (bp_view d r)) == y)) ->
      let r := apply_secondary dbg d' (length (n_contents x)) (map (bp_view d') (n_contents (n_neg x2))) (map (bp_view d') (n_contents (n_pos x2))) (Z.to_nat (extra_count p (Z.of_nat (length (n_contents x))))) pmap choose fuel evs' in
      r = NoFuel \/ exists nev pev, r = Ok (nev, pev) /\ events_ok d' (map (bp_view d') (n_contents (n_neg x2))) nev /\ events_ok d' (map (bp_view d') (n_contents (n_pos x2))) pev.
Proof.
  intros wide dbg d w x evs excl ec p0 p h y x1 P H BX NE Hd EV SZ WD EC LC DI SH EX NM BS. pose proof (contents_st w x P H) as SC. destruct x as [|s0 cs bs infos c1 c2]; [contradiction NE; reflexivity|]. cbn [n_contents] in *. assert (N0 : (0 < length cs)%nat) by (destruct cs; [congruence|cbn; lia]).
  destruct (kd_ok w wide dbg d cs bs infos s0 c1 c2 evs excl ec p0 p h y x1 P Hd SC BX EV N0 SZ WD EC LC DI SH EX (or_introl NM) BS) as (n2 & p2 & s & B & N & R & D & U & nev & pev & K & RE & DV & _ & _ & _ & _ & OT).
  pose proof (fits w d Hd cs SC BX) as FIT. assert (LV : length (map (bp_view d) cs) = length cs) by apply map_length.
  destruct (C40_split wide dbg d (map (bp_view d) cs) evs excl ec p0 Hd FIT EV ltac:(lia) ltac:(lia) ltac:(rewrite LV; exact WD) ltac:(rewrite LV; exact EC) LC) as (q & y' & h' & D1 & EX' & _ & _ & _ & C4 & _). rewrite LV, DI in D1. injection D1 as <-. rewrite LV in C4.
  assert (YY : y == y'). { destruct (toks_of_events d (map (bp_view d) cs) evs EV) as (F & AR & T & FL). apply (event_at_iff _ _ _ F AR T) in EX, EX'. destruct EX as (t1 & T1 & T2), EX' as (u & U1 & U2). rewrite T1 in U1. injection U1 as <-. rewrite T2, U2. reflexivity. }
  assert (LB : Z.to_nat (extra_count p (Z.of_nat (length cs))) = length B).
  { destruct (dv_crossing _ _ _ _ _ _ _ _ _ _ _ _ _ _ DV) as [NB IB]. apply (counts_length _ _ _ B C4). split; [exact NB|]. intros q. rewrite IB. change (map (o_view (kd_ops dbg d h)) cs) with (map (bp_view d) cs). split; intros (A & A1 & A2); split; try assumption; split; lra. }
  assert (TO : forall (b : bool) r a, In r cs -> o_touch (kd_ops dbg d h) b r = Ok a -> (fun _ : bpoly => EP (HP (V3 0 0 0) 1) (HP (V3 0 0 0) 1) 0%nat) a = (fun _ : bpoly => EP (HP (V3 0 0 0) 1) (HP (V3 0 0 0) 1) 0%nat) r) by reflexivity.
  destruct (SecondCarryProofs.carried_of_divided (kd_ops dbg d h) d y cs B N R D U (n_contents n2) (n_contents p2) nev pev s DV FIT 0%nat (fun _ => EP (HP (V3 0 0 0) 1) (HP (V3 0 0 0) 1) 0%nat) TO) as (pmap & M & _); [intros r a b _ _ _ _; unfold parts; cbn; repeat split; try (left; reflexivity); discriminate|].
  exists (BNode h [] [] infos n2 p2), s, pmap. cbn [n_neg n_pos]. split; [exact K|]. split; [exact M|]. intros d' evs' choose fuel D' EV' NF DB. rewrite LB. destruct (OT d' dbg evs' choose fuel D' EV' NF) as (pmap' & M' & X).
  - intros DT. specialize (DB DT). assert (G : forall q, (q < length cs)%nat -> ~ (lo d (map (bp_view d) cs) q == y /\ hi d (map (bp_view d) cs) q == y)).
    { intros q L. destruct (nth_error cs q) as [r|] eqn:E; [|apply nth_error_None in E; lia]. unfold lo, hi. rewrite nth_error_map, E. exact (DB r (nth_error_In _ _ E)). }
    destruct (dv_down _ _ _ _ _ _ _ _ _ _ _ _ _ _ DV) as [_ ID], (dv_up _ _ _ _ _ _ _ _ _ _ _ _ _ _ DV) as [_ IU]. change (map (o_view (kd_ops dbg d h)) cs) with (map (bp_view d) cs) in *.
    split; [destruct D as [|q D]; [reflexivity|destruct (proj1 (ID q) (or_introl eq_refl)) as (L & E1 & E2 & _)]|destruct U as [|q U]; [reflexivity|destruct (proj1 (IU q) (or_introl eq_refl)) as (L & E1 & E2 & _)]]; destruct (G q L); auto.
  - assert (pmap' = pmap) as ->; [|exact X]. rewrite M in M'. clear - M'. revert pmap' M'. induction pmap as [|a l IH]; intros [|b l'] E; cbn in E; try discriminate; [reflexivity|]. injection E as -> E. rewrite (IH _ E). reflexivity.
Qed.
Print Assumptions C67_other_dimension.

(** Three triangles, of which the plane found cuts one and touches the others. *)
Definition slanted : hspace3 := HS (V3 1 1 1) 0.
Definition tri (k : Z) : list vec3 := [V3 k 0 (- k); V3 (k + 2) 0 (- k - 2); V3 k 2 (- k - 2)].
Lemma tri_case k : (k = 0 \/ k = 1 \/ k = 2)%Z -> exists p, poly_of_points tt slanted 2 (tri k) = Ok p /\ poly_ok p (rotate 2 (map qpt (tri k))).
Proof. intros [-> | [-> | ->]]; (apply (C47_from_points unit tt slanted 2); [lia|discriminate|repeat constructor|apply convex_test; vm_compute; reflexivity]). Qed.
Definition tri_poly (k : Z) : poly unit := match poly_of_points tt slanted 2 (tri k) with Ok p => p | _ => Poly slanted 2 [] end.
Definition tris : list bop := [OAdd 0 (map tri_poly [0; 1; 2]%Z)].
Definition tris_tree : bnode := match run_ops true true tris bn_new with Ok t => t | _ => BNil end.
Definition tris_choose (d : nat) : nat -> nat := match d with O => fun k => nth k [0; 0; 0; 1; 1; 2]%nat 0%nat | _ => fun _ => 0%nat end.
Definition tris_events (d : nat) : list event :=
  match d with
  | O => [Ev true true 2; Ev true true 4; Ev true false 0; Ev false true 5; Ev true false 1; Ev true false 2]%nat
  | _ => [Ev true true 3; Ev false true 4; Ev false true 5; Ev true false 2; Ev false false 1; Ev false false 0]%nat
  end.
Definition tris_part : part := Part 2 6 3 3 2 2 0 0 0.
Definition tris_part' : part := Part 2 6 3 3 2 2 0 2 4.
Lemma tris_legal : legal_ops true true tris bn_new.
Proof.
  cbn [legal_ops tris]. split; [|intros; exact I]. split; [|left; reflexivity]. cbn [map]. unfold tri_poly.
  destruct (tri_case 0) as (p & -> & P); [auto|]. destruct (tri_case 1) as (q & -> & Q); [auto|]. destruct (tri_case 2) as (r & -> & R); [auto|]. repeat (constructor; [eexists; eassumption|]). constructor.
Qed.
Lemma tris_run : run_ops true true tris bn_new = Ok tris_tree.
Proof. unfold tris_tree. vm_compute. reflexivity. Qed.
Lemma tris_node : node_ok [] tris_tree /\ boxed (n_contents tris_tree).
Proof.
  split; [apply (proj2 (built true true tris tris_tree tris_legal tris_run)); apply at_root; vm_compute; discriminate|]. vm_compute. repeat (constructor; [discriminate|]). constructor.
Qed.
Lemma path_nil : forall l s r, ([] : path) = l ++ s :: r -> fresh_plane l (ss_split s).
Proof. intros l s r E. destruct l; discriminate. Qed.
Lemma tris_made d : (d < 2)%nat -> events_ok d (map (bp_view d) (n_contents tris_tree)) (tris_events d).
Proof.
  intros L. destruct (C40_make_event_points true d (map (bp_view d) (n_contents tris_tree)) (tris_choose d)) as [E|(evs & E & OK)].
  - destruct tris_node as [H B]. exact (fits [] d ltac:(lia) _ (contents_st [] _ path_nil H) B).
  - destruct d as [|[|d]]; [vm_compute in E; discriminate|vm_compute in E; discriminate|lia].
  - destruct d as [|[|d]]; [| |lia]; vm_compute in E; injection E as <-; exact OK.
Qed.
Example tris_case : let cs := n_contents tris_tree in let h := HS (V3 1 0 0) 2 in
  lowest_cost true None 0 (map (bp_view 0) cs) (tris_events 0) = Ok (Some tris_part) /\ discount true 3 (tris_events 0) tris_part = Ok tris_part' /\ split_plane true 0 (map (bp_view 0) cs) (tris_events 0) tris_part' = Ok h /\
  event_at 0 (map (bp_view 0) cs) (tris_events 0) 2 2 /\ no_min (l4 h) /\ (exists x1, bn_split true h tris_tree = Ok x1) /\
  (forall d r, (d < 2)%nat -> In r cs -> coord d (e_min (bp_view d r)) < coord d (e_max (bp_view d r))) /\
  exists x2 s, bn_split_kd true 0 (tris_events 0) tris_part' tris_tree = Ok (x2, s) /\ s_map s = map Some [Idx 1; Idx 0; Idx 3] /\
    map bp_count (n_contents (n_neg x2)) = [4; 3]%nat /\ map bp_count (n_contents (n_pos x2)) = [3; 3]%nat /\
    apply_secondary true 1 3 (map (bp_view 1) (n_contents (n_neg x2))) (map (bp_view 1) (n_contents (n_pos x2))) 1 [Idx 1; Idx 0; Idx 3] (fun _ => 0%nat) 60 (tris_events 1) =
      Ok ([Ev true true 3; Ev false true 2; Ev true false 0; Ev false false 1], [Ev true true 3; Ev false true 2; Ev true false 0; Ev true false 1])%nat.
Proof.
  intros cs h. split; [vm_compute; reflexivity|]. split; [vm_compute; reflexivity|]. split; [vm_compute; reflexivity|]. split.
  { exists 0%nat, 2%nat, 0%nat. split; [split; eexists; (split; [reflexivity|split; reflexivity])|]. right. split; [reflexivity|vm_compute; reflexivity]. }
  split; [vm_compute; repeat constructor; discriminate|]. split; [eexists; vm_compute; reflexivity|]. split.
  { intros d r L I. destruct d as [|[|d]]; [| |lia]; vm_compute in I; destruct I as [<-|[<-|[<-|[]]]]; vm_compute; reflexivity. }
  eexists _, _. split; [vm_compute; reflexivity|]. cbn [s_map n_neg n_pos n_contents]. split; [reflexivity|]. split; [reflexivity|]. split; [reflexivity|]. vm_compute. reflexivity.
Qed.
