(** C74: from the polygons of a closed surface to the finished mesh. *)
From Coq Require Import List Bool Arith ZArith QArith Lia Permutation.
From Verif Require Import BigUIntModel GeoModel GeoSpec PolyModel PolySpec LinkModel LinkSpec LinkTopProofs TidyModel TidySpec TidyProofs SplitModel SplitSpec SplitProofs SplitLineProofs ConnModel ConnSpec FinishModel FinishProofs.
From Verif Require PropLink PropTidy PropSplit.
Import ListNotations.
Open Scope nat_scope.

(** Polygons without partners whose edges are on lines that are closed.  Connecting
    line by line (C73) gives a mesh [st1].  Merging along the edges of any nodes, in
    any order, and removing the empty polygons returns with all assertions
    satisfied.  In the finished mesh no polygon is empty, all are convex, every edge
    has a partner that fits, going around a vertex comes back to the first edge,
    and for every direction the polygons that face it cover the same points as at
    the beginning.  Missing: the code connects the edges of a node when it leaves the
    node, after it has merged polygons along the edges of other nodes; here all edges
    are connected before the first merge. *)
Theorem C74_finished_partial : forall dbg ord st ls, (forall x, Permutation (ord x) x) -> polys_ok st -> mesh_no_min st -> (forall i h, half_in st i h -> f_partner h = None) -> closed_lines st ls ->
  exists cs st1, Forall2 (fun l c => connect_line dbg (n_dim l) ord (n_halves l) = Ok c /\ exists gs, shows_pieces st1 gs (c_pieces c)) ls cs /\ edited dbg st st1 /\
    forall nodes, (forall drop l i h, In (drop, l) nodes -> half_in st1 i h -> In (f_id h) l -> comp (f_dir h) ((drop + 1) mod 3) <> 0%Z \/ comp (f_dir h) ((drop + 2) mod 3) <> 0%Z) ->
      exists r, finished dbg st1 nodes = Ok r /\ mesh_ok r /\ closed_mesh r /\ no_empty r /\ (forall v q, v <> V3 0 0 0 -> (surface r v q <-> surface st v q)) /\
        forall i h, half_in r i h -> exists n, 0 < n /\ LinkSpec.walk r n (f_id h) = Ok (Some (f_id h)).
Proof.
  intros dbg ord st ls Ord M N Pn Cl. destruct (PropSplit.C73_closed dbg ord st ls Ord M Pn Cl) as (cs & st1 & F & E & M1 & C1 & Sh & Fa). exists cs, st1. split; [exact F|]. split; [exact E|]. intros nodes D.
  destruct (leave_nodes_ok dbg nodes st1 M1 C1 (edited_min dbg st st1 E N) D) as (s2 & R & M2 & C2 & S2). exists (filter_empty s2). destruct (PropTidy.C72_filter s2 M2) as (M3 & N3 & _ & C3 & _ & S3).
  split; [unfold finished; rewrite R; reflexivity|]. split; [exact M3|]. split; [exact (C3 C2)|]. split; [exact N3|]. split; [intros v q Nv; rewrite (S3 v q), (S2 v q Nv); apply same_surface; assumption|].
  intros i h H. exact (proj2 (PropLink.C64_around _ i h M3 (C3 C2) H)).
Qed.
Print Assumptions C74_finished_partial.

(** LeaveInteriorNode for one node, in a consistent mesh in which other edges may
    have partners already: the edges of the node are those of [ls], with no partners
    so far, and are all edges on their lines.  They are connected, in debug builds
    IsValidState is asserted, and polygons are merged along any of the edges of the
    node.  The mesh is consistent again and has what this theorem needs for the next
    node.  Exactly the edges of the node have got partners, and the same points are
    covered.
    In a traversal, the mesh is that of the polygons accepted since the node was
    entered; no other ones are reached from them. *)
Theorem C74_node : forall dbg ord st ls drop rest, let group := concat (map n_ids ls) in (forall x, Permutation (ord x) x) -> mesh_ok st -> even st -> mesh_no_min st ->
  (forall i h, half_in st i h -> In (f_id h) group -> f_partner h = None) -> NoDup group -> whole_lines st group ->
  (forall l, In l ls -> Forall2 (describes st) (n_ids l) (n_halves l) /\ line_input (n_dim l) (n_halves l) /\ closed_line (n_dim l) (n_halves l)) ->
  (forall i h, half_in st i h -> In (f_id h) group -> comp (f_dir h) ((drop + 1) mod 3) <> 0%Z \/ comp (f_dir h) ((drop + 2) mod 3) <> 0%Z) ->
  exists cs st1 gs, Forall2 (fun l c => connect_line dbg (n_dim l) ord (n_halves l) = Ok c /\ exists g, shows_pieces st1 g (c_pieces c)) ls cs /\ edited dbg st st1 /\
    incl group gs /\ (forall x, In x gs -> In x group \/ fresh st x) /\
    forall l, incl l gs -> exists st2, leave_checked dbg drop st1 l rest = Ok st2 /\ mesh_ok st2 /\ even st2 /\ mesh_no_min st2 /\
      (forall i h, half_in st2 i h -> if in_dec Nat.eq_dec (f_id h) gs then f_partner h <> None else exists j h0, half_in st j h0 /\ f_id h0 = f_id h /\ f_dir h0 = f_dir h /\ (f_partner h0 = None <-> f_partner h = None)) /\
      forall v q, v <> V3 0 0 0 -> (surface st2 v q <-> surface st v q).
Proof.
  intros dbg ord st ls drop rest group Ord M Ev N Pn Nd Wl Each D. destruct (lines_group dbg ord st ls Ord M Pn Nd Each) as (cs & st1 & gs & F & E & M1 & X & C). exists cs, st1, gs. split; [exact F|]. split; [exact E|]. split; [exact (ex_incl _ _ _ _ X)|]. split; [exact (ex_new _ _ _ _ X)|].
  intros l Il. pose proof (ex_views _ _ _ _ X) as V. destruct (PropTidy.C72_leave dbg drop st1 l rest M1 (group_even st group st1 gs Ev Wl X C) (edited_min dbg st st1 E N)) as (st2 & R & _ & M2 & Ev2 & N2 & K & S2).
  - intros i h H I. destruct (ex_part _ _ _ _ X i h H (Il _ I)) as (h0 & H0 & I0 & Dh & _). rewrite Dh. exact (D i h0 H0 I0).
  - exists st2. repeat (split; [assumption|]). split; [|intros v q Nv; rewrite (S2 v q Nv); apply same_surface; [exact (views_shows _ _ V)|exact (views_faces _ _ V)]].
    intros i h H. destruct (K i h H) as (j & h1 & H1 & E1 & E2 & E3). destruct (in_dec Nat.eq_dec (f_id h) gs) as [I|I]; [rewrite <- E1 in I; pose proof (C j h1 H1 I); tauto|]. exists j, h1. split; [apply (ex_from _ _ _ _ X); [exact H1|congruence]|]. auto.
Qed.
Print Assumptions C74_node.

(** The triangle of C73 that is two triangles on the back side: at the end both
    sides are one triangle. *)
Example C74_case : polys_ok PropSplit.sheet /\ mesh_no_min PropSplit.sheet /\ (forall i h, half_in PropSplit.sheet i h -> f_partner h = None) /\ closed_lines PropSplit.sheet PropSplit.sheet_lines.
Proof. destruct PropSplit.C73_case as (A & B & C). split; [exact A|]. split; [apply PropLink.no_min_test; vm_compute; reflexivity|]. split; [exact B|exact C]. Qed.
Definition sheet_connected : res mesh :=
  a <- split_connected true PropSplit.sheet 1 (PropSplit.pt 2 0) true 9 ;; a <- link_edges true a 1 3 ;; a <- link_edges true a 9 6 ;; a <- link_edges true a 0 4 ;; a <- link_edges true a 2 8 ;; link_edges true a 5 7.
Example C74_run : exists st1, sheet_connected = Ok st1 /\ map (fun p => length (pedges p)) st1 = [4; 3; 3] /\
  (forall i h, half_in st1 i h -> comp (f_dir h) ((2 + 1) mod 3) <> 0%Z \/ comp (f_dir h) ((2 + 2) mod 3) <> 0%Z) /\
  exists r, finished true st1 [(2, [0; 1; 2; 3; 4; 5; 6; 7; 8])] = Ok r /\ map (fun p => (hn (pplane p), map (fun e => hv (pv e)) (pedges p))) r =
    [(V3 0 0 1, [V3 0 4 0; V3 0 0 0; V3 4 0 0]); (V3 0 0 (-1), [V3 0 0 0; V3 0 4 0; V3 4 0 0])].
Proof.
  eexists. split; [vm_compute; reflexivity|]. split; [vm_compute; reflexivity|]. split; [|eexists; split; [vm_compute; reflexivity|vm_compute; reflexivity]].
  intros i h H. apply all_halves_in in H. vm_compute in H. repeat (destruct H as [H|H]; [injection H as <- <-; vm_compute; (left; discriminate) || (right; discriminate)|]). destruct H.
Qed.
(** One node with the edges between the two triangles of the back side: the hypotheses
    of C74_node, and the run of the node. *)
Definition inner_line : line := Line 0 [PropSplit.back 2 (-4) 0 4; PropSplit.back (-2) 4 2 0] [5; 7].
Lemma apart_dir a b c d : (a * d - b * c <> 0 \/ a * c + b * d < 0)%Z -> ~ same_direction (l3 (V3 a b 0)) (l3 (V3 c d 0)).
Proof.
  intros H (x & y & X & Y & S & E). unfold l3 in E. cbn [map vx vy vz] in E. assert (E1 : (x * a = y * c)%Z) by congruence. assert (E2 : (x * b = y * d)%Z) by congruence. destruct H as [H|H].
  - assert (x * (a * d - b * c) = 0)%Z by (replace (x * (a * d - b * c))%Z with (x * a * d - x * b * c)%Z by ring; rewrite E1, E2; ring).
    assert (y * (a * d - b * c) = 0)%Z by (replace (y * (a * d - b * c))%Z with (a * (y * d) - b * (y * c))%Z by ring; rewrite <- E1, <- E2; ring). nia.
  - assert (x * (a * c + b * d) = y * (c * c + d * d))%Z by (replace (x * (a * c + b * d))%Z with (x * a * c + x * b * d)%Z by ring; rewrite E1, E2; ring).
    assert (0 <= y * (c * c + d * d))%Z by (apply Z.mul_nonneg_nonneg; nia). assert (x = 0)%Z by nia. subst x. assert (0 <= c * c)%Z by (apply Z.square_nonneg). assert (0 <= d * d)%Z by (apply Z.square_nonneg). assert (c * c + d * d = 0)%Z by nia. assert (c = 0)%Z by nia. assert (d = 0)%Z by nia. subst. lia.
Qed.
Example C74_node_case : let group := concat (map n_ids [inner_line]) in mesh_ok PropSplit.sheet /\ even PropSplit.sheet /\ mesh_no_min PropSplit.sheet /\
  (forall i h, half_in PropSplit.sheet i h -> In (f_id h) group -> f_partner h = None) /\ NoDup group /\ whole_lines PropSplit.sheet group /\
  (forall l, In l [inner_line] -> Forall2 (describes PropSplit.sheet) (n_ids l) (n_halves l) /\ line_input (n_dim l) (n_halves l) /\ closed_line (n_dim l) (n_halves l)) /\
  (forall i h, half_in PropSplit.sheet i h -> In (f_id h) group -> comp (f_dir h) ((2 + 1) mod 3) <> 0%Z \/ comp (f_dir h) ((2 + 2) mod 3) <> 0%Z).
Proof.
  destruct C74_case as (A & B & C & _ & _ & D). cbn [map concat app n_ids inner_line]. split; [destruct A; split; try assumption; intros i h d H E; rewrite (C i h H) in E; discriminate|]. split; [intros i j h g H G _ _; rewrite (C i h H), (C j g G); tauto|]. split; [exact B|].
  split; [intros i h H _; exact (C i h H)|]. split; [repeat constructor; cbn; intuition discriminate|]. split; [|split].
  - intros i j h g t H G Ih Ig S. exfalso. apply all_halves_in in H. apply all_halves_in in G. vm_compute in H, G. revert Ih Ig S.
    repeat (destruct H as [H|H]; [injection H as <- <-; repeat (destruct G as [G|G]; [injection G as <- <-; cbn [f_id f_dir In]; intros Ih Ig; try (exfalso; lia); apply apart_dir; lia|]); destruct G|]). destruct H.
  - intros l [<-|[]]. exact (D inner_line (or_intror (or_intror (or_intror (or_introl eq_refl))))).
  - intros i h H _. apply all_halves_in in H. vm_compute in H. repeat (destruct H as [H|H]; [injection H as <- <-; vm_compute; (left; discriminate) || (right; discriminate)|]). destruct H.
Qed.
Example C74_node_run : exists st1 st2, link_edges true PropSplit.sheet 5 7 = Ok st1 /\ leave_checked true 2 st1 [5; 7] [0; 1; 2; 3; 4; 6; 8] = Ok st2 /\ map (fun p => map (fun e => hv (pv e)) (pedges p)) st2 =
  [[V3 0 4 0; V3 0 0 0; V3 4 0 0]; [V3 0 0 0; V3 0 4 0; V3 4 0 0]; []].
Proof. eexists. eexists. split; [vm_compute; reflexivity|]. split; vm_compute; reflexivity. Qed.
