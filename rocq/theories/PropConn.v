(** C62: connecting the half-edges that lie on one line. *)
From Coq Require Import List Bool Arith ZArith QArith Lia ZifyBool Lqa Sorted Permutation.
From Verif Require Import BigUIntModel GeoModel GeoSpec GeoProofs GeoAngleProofs GeoDirProofs TriSpec TriTileProofs ConnModel ConnSpec ConnListProofs ConnPieceProofs ConnSweepProofs ConnTopProofs.
Import ListNotations.
Open Scope Z_scope.

(** ConnectEdgesInLine on the part of a closed surface that lies on a line: it
    returns, in debug builds without a failing assertion, calls no error, cuts
    every half-edge into consecutive pieces, and every piece has a partner: a piece
    with the same end points in the opposite direction, whose half-edge is the
    nearest one around the line everywhere between these points.  [ord] is the
    order in which equal end points come out of the heap. *)
Theorem C62_closed dbg s ord hs : (forall l, Permutation (ord l) l) -> line_input s hs -> closed_line s hs ->
  exists st, connect_line dbg s ord hs = Ok st /\ c_errors st = [] /\
    (forall i, (i < length (c_pieces st))%nat -> exists j, connected s hs (c_pieces st) i j) /\
    (forall e h, nth_error hs e = Some h -> subdivided s (c_pieces st) e h).
Proof. intros Ord Hin Hc. exact (connect_closed s hs Hin Hc dbg ord Ord). Qed.
Print Assumptions C62_closed.

(** ** A case
    Two pairs of half-edges on the x axis.  While the second pair is there, the
    first pair is separated. *)
Definition on_x (x : Z) : hpoint3 := HP (V3 x 0 0) 1.
Definition fwd (a b : Z) (n : vec3) : half := Half (V3 1 0 0) (on_x a) (on_x b) n.
Definition bwd (a b : Z) (n : vec3) : half := Half (V3 (-1) 0 0) (on_x b) (on_x a) n.
Definition four : list half := [fwd 0 4 (V3 0 0 1); bwd 0 4 (V3 0 1 0); fwd 1 3 (V3 0 0 (-1)); bwd 1 3 (V3 0 (-1) 0)].
Ltac line_case := unfold line_input; split; [exists (QP 0 0 0), (QP 1 0 0); split; [vm_compute; discriminate|]; intros h p I [-> | ->]; cbn in I;
    repeat match goal with H : _ \/ _ |- _ => destruct H | H : False |- _ => destruct H end; subst; split; try (cbn; discriminate);
    (exists 0%Q; vm_compute; repeat split; reflexivity) || (exists 1%Q; vm_compute; repeat split; reflexivity) || (exists 2%Q; vm_compute; repeat split; reflexivity) || (exists 3%Q; vm_compute; repeat split; reflexivity) || (exists 4%Q; vm_compute; repeat split; reflexivity)
  |split; [repeat (apply Forall_cons; [|]); try apply Forall_nil; (left; split; vm_compute; reflexivity) || (right; split; vm_compute; reflexivity)
  |split; [repeat (apply Forall_cons; [|]); try apply Forall_nil; intros v [[_ ->]|[_ ->]]; (split; [(left; vm_compute; discriminate) || (right; vm_compute; discriminate)|unfold no_min; repeat (apply Forall_cons; [vm_compute; discriminate|]); apply Forall_nil])
  |repeat (apply SSorted_cons); repeat (apply Forall_cons; [|]); try apply Forall_nil; try apply SSorted_nil; vm_compute; discriminate]]].
Lemma four_input : line_input 0 four.
Proof. line_case. Qed.
Lemma four_rk : rk 0 four 0 = 1 /\ rk 0 four 1 = 2 /\ rk 0 four 2 = 3 /\ rk 0 four 3 = 0.
Proof. vm_compute. auto. Qed.
Lemma four_ends k t : (k < 4)%nat -> (covers 0 (hat four k) t <-> (if (k <? 2)%nat then 0 < t /\ t < 4 else 1 < t /\ t < 3)%Q).
Proof.
  intros K. rewrite (covers_lo 0 four four_input k t K). destruct k as [|[|[|[|k]]]]; [| | | |lia]; cbn [Nat.ltb Nat.leb];
  unfold lo, hi, along, h_begin, h_end, Qlt; cbn; lia.
Qed.
Lemma four_at t : at_t 0 four t (if Qlt_le_dec 1 t then (if Qlt_le_dec t 3 then [0; 1; 2; 3]%nat else if Qlt_le_dec t 4 then [0; 1]%nat else []) else if Qlt_le_dec 0 t then [0; 1]%nat else []).
Proof.
  intros k. assert (X : (k < 4)%nat -> (lo 0 four k < t /\ t < hi 0 four k <-> (if (k <? 2)%nat then 0 < t /\ t < 4 else 1 < t /\ t < 3))%Q) by (intros K; rewrite <- (four_ends k t K); symmetry; apply covers_lo; [exact four_input|exact K]).
  cbn [length four]. assert (K : (k < 4 \/ ~ k < 4)%nat) by lia. destruct K as [K|K].
  - rewrite (X K). destruct k as [|[|[|[|k]]]]; [| | | |lia]; cbn [Nat.ltb Nat.leb]; repeat (destruct (Qlt_le_dec _ _)); cbn [In]; split; intros Y; repeat (destruct Y as [Y|Y]; try discriminate Y); try contradiction; try (split; [lia|]; lra); try tauto; destruct Y as [_ Y]; lra.
  - split; [|lia]. intros Y. exfalso. repeat (destruct (Qlt_le_dec _ _)); cbn [In] in Y; intuition lia.
Qed.
Lemma four_mid (r : nat -> Z) (po : nat -> bool) : r 0%nat = 1 -> r 1%nat = 2 -> r 2%nat = 3 -> r 3%nat = 0 -> po 0%nat = true -> po 1%nat = false -> po 2%nat = true -> po 3%nat = false ->
  forall a b c d, In (a, b) [(0, 3); (2, 1)]%nat -> In (c, d) [(a, b); (b, a)] -> mate r po [0; 1; 2; 3]%nat c d.
Proof.
  intros R0 R1 R2 R3 P0 P1 P2 P3 x y c d I J. cbn [In] in I, J. assert (X : (c = x /\ d = y) \/ (c = y /\ d = x)) by (destruct J as [J|[J|[]]]; injection J as <- <-; auto).
  unfold mate, near, met. destruct I as [I|[I|[]]]; injection I as <- <-; destruct X as [[-> ->]|[-> ->]]; [left|right|left|right]; repeat (split; [assumption || discriminate || (cbn [In]; tauto)|]); intros k [<-|[<-|[<-|[<-|[]]]]]; try congruence; lia.
Qed.
Lemma four_out (r : nat -> Z) (po : nat -> bool) : po 0%nat = true -> po 1%nat = false -> forall c d, In (c, d) [(0, 1); (1, 0)]%nat -> mate r po [0; 1]%nat c d.
Proof.
  intros P0 P1 c d I. cbn [In] in I. unfold mate, near, met. destruct I as [I|[I|[]]]; injection I as <- <-; [left|right]; repeat (split; [assumption || discriminate || (cbn [In]; tauto)|]); intros k [<-|[<-|[]]]; congruence.
Qed.
Lemma four_closed : closed_line 0 four.
Proof.
  intros t G i a Ni Ca. pose proof (nth_some_lt _ _ _ Ni) as Li. rewrite <- (hat_nth four i a Ni) in *.
  pose proof (before_rk 0 four four_input) as B. destruct four_rk as (R0 & R1 & R2 & R3).
  split.
  - intros j b Nj Cb D. pose proof (nth_some_lt _ _ _ Nj) as Lj. rewrite <- (hat_nth four j b Nj). rewrite !B by assumption. cbn in Li, Lj.
    destruct i as [|[|[|[|i]]]], j as [|[|[|[|j]]]]; lia.
  - pose proof (fun j => pair_mate 0 four four_input t _ i j (four_at t)) as M. apply (four_ends i t Li) in Ca. cbn in Li.
    assert (P : pol 0 four 0 = true /\ pol 0 four 1 = false /\ pol 0 four 2 = true /\ pol 0 four 3 = false) by (vm_compute; auto). destruct P as (P0 & P1 & P2 & P3).
    pose proof (four_mid _ _ R0 R1 R2 R3 P0 P1 P2 P3) as Mid. pose proof (four_out (rk 0 four) _ P0 P1) as Out.
    destruct (Qlt_le_dec 1 t); [destruct (Qlt_le_dec t 3); [|destruct (Qlt_le_dec t 4)]|destruct (Qlt_le_dec 0 t)]; destruct i as [|[|[|[|i]]]]; try lia; cbn [Nat.ltb Nat.leb] in Ca; try (exfalso; lra);
      first [exists 1%nat; apply M, Out; cbn [In]; tauto|exists 0%nat; apply M, Out; cbn [In]; tauto|eexists; apply M; apply (Mid 0 3)%nat; cbn [In]; tauto|eexists; apply M; apply (Mid 2 1)%nat; cbn [In]; tauto].
Qed.
Example C62_case : exists st, connect_line true 0 (fun l => l) four = Ok st /\ c_errors st = [] /\
  map (fun p => (p_edge p, vx (hv (p_from p)), vx (hv (p_to p)), p_partner p)) (c_pieces st) =
    [(0%nat, 0, 1, Some 5%nat); (1%nat, 4, 3, Some 7%nat); (2%nat, 1, 3, Some 6%nat); (3%nat, 3, 1, Some 4%nat);
     (0%nat, 1, 3, Some 3%nat); (1%nat, 1, 0, Some 0%nat); (1%nat, 3, 1, Some 2%nat); (0%nat, 3, 4, Some 1%nat)].
Proof. eexists. split; [vm_compute; reflexivity|]. split; reflexivity. Qed.

(** ** Open surfaces
    A half-edge that outlives its partner and finds no other one is put into the
    list of edges without partners twice.  It is split twice at the same point:
    debug builds fail an assertion of SplitEdge, release builds leave a piece that
    begins and ends at this point. *)
Lemma walk_strict s ps h l a b i q : walk s ps h a l b -> forward s h -> In i l -> nth_error ps i = Some q -> (along s (p_from q) < along s (p_to q))%Q.
Proof.
  revert a. induction l as [|j l IH]; intros a W F I Nq; [destruct I|]. cbn [walk] in W. destruct W as (p & Np & Fp & Wf & _ & W). destruct I as [->|I]; [|exact (IH _ W F I Nq)].
  assert (p = q) by congruence. subst p. rewrite Fp. exact (Wf F).
Qed.
Definition open_line : list half := [fwd 0 2 (V3 0 0 1); bwd 0 1 (V3 0 1 0)].
Theorem C62_open_refuted : exists hs, line_input 0 hs /\ connect_line true 0 (fun l => l) hs = AssertFail /\
  exists st e h, connect_line false 0 (fun l => l) hs = Ok st /\ nth_error hs e = Some h /\ ~ subdivided 0 (c_pieces st) e h.
Proof.
  exists open_line. split; [line_case|]. split; [vm_compute; reflexivity|].
  destruct (connect_line false 0 (fun l => l) open_line) as [st| | |] eqn:E; vm_compute in E; try discriminate. injection E as <-.
  eexists _, 0%nat, _. split; [reflexivity|]. split; [reflexivity|]. intros (l & _ & Il & W).
  assert (I : In 2%nat l) by (apply Il; eexists; split; reflexivity).
  pose proof (walk_strict _ _ _ _ _ _ _ _ W ltac:(vm_compute; reflexivity) I eq_refl) as X. vm_compute in X. discriminate.
Qed.
Print Assumptions C62_open_refuted.

(** Two half-edges that come between connected ones and are connected with each
    other: no error is reported, although the outer two are not neighbours and
    the surface is not closed. *)
Definition nested_line : list half := [bwd 0 4 (V3 0 (-1) 0); fwd 0 4 (V3 0 0 1); bwd 1 3 (V3 0 (-2) (-1)); fwd 1 3 (V3 0 1 2)].
Theorem C62_silent_refuted : exists hs, line_input 0 hs /\ exists st, (forall dbg, connect_line dbg 0 (fun l => l) hs = Ok st) /\ c_errors st = [] /\
  exists i, (i < length (c_pieces st))%nat /\ forall j, ~ connected 0 hs (c_pieces st) i j.
Proof.
  assert (Hin : line_input 0 nested_line) by line_case. exists nested_line. split; [exact Hin|].
  destruct (connect_line false 0 (fun l => l) nested_line) as [st| | |] eqn:E; vm_compute in E; try discriminate. injection E as <-.
  eexists. split; [intros []; vm_compute; reflexivity|]. split; [reflexivity|]. exists 0%nat. split; [cbn; lia|].
  intros j (q & r & Nq & Nr & Pq & _ & _ & _ & H). injection Nq as <-. injection Pq as <-. injection Nr as <-. cbn [p_edge p_from p_to] in H.
  assert (G : generic 0 nested_line 2). { intros h I. cbn in I. destruct I as [<-|[<-|[<-|[<-|[]]]]]; split; vm_compute; discriminate. }
  specialize (H 2%Q G ltac:(right; split; vm_compute; reflexivity)).
  assert (At : at_t 0 nested_line 2 [0; 1; 2; 3]%nat). { intros k. split; [intros [<-|[<-|[<-|[<-|[]]]]]; (split; [cbn; lia|split; vm_compute; reflexivity])|]. intros [K _]. cbn in K. cbn [In]. lia. }
  apply (pair_mate 0 nested_line Hin 2 _ 0 1 At) in H. assert (R : rk 0 nested_line 0 = 0 /\ rk 0 nested_line 1 = 3 /\ rk 0 nested_line 2 = 1) by (vm_compute; auto). destruct R as (R0 & R1 & R2).
  destruct H as [(P & _)|(_ & _ & _ & _ & _ & H)]; [vm_compute in P; discriminate|]. apply (H 2%nat); [cbn; tauto|discriminate|discriminate|]. unfold met. lia.
Qed.
Print Assumptions C62_silent_refuted.
