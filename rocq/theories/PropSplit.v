(** C73: the steps of ConnectEdgesInLine on the polygons that have the edges. *)
From Coq Require Import List Bool Arith ZArith QArith Lia ZifyBool Lqa Sorted Permutation.
From Verif Require Import BigUIntModel GeoModel GeoSpec PolyModel PolySpec TriSpec LinkModel LinkSpec LinkProofs LinkGoodProofs LinkTopProofs TidySpec SplitModel SplitSpec SplitProofs SplitLineProofs ConnModel ConnSpec ConnListProofs ConnPieceProofs ConnSweepProofs ConnTopProofs.
From Verif Require PropLink PropConn.
Import ListNotations.
Open Scope nat_scope.

(** MaybeSplitEdge on an edge with a location strictly between its end points: the
    edge ends there, and an edge with the number [new] goes from there to the old
    end in the same polygon, right after the first one.  The part that is passed
    later on the line has no partner; the other one keeps the partner of the edge,
    and the partner refers to it.  All other edges are as before, and the polygons
    show the same points with the same normals. *)
Theorem C73_split : forall dbg (st : mesh) i h new m (pos : bool) t, polys_ok st -> mutual st -> half_in st i h -> fresh st new -> hw m <> 0%Z ->
  (0 < t)%Q -> (t < 1)%Q -> qp_eq (hp_point m) (between (f_from h) (f_to h) t) ->
  let a := part h (f_id h) (if pos then f_partner h else None) (f_from h) (hp_point m) in
  let b := part h new (if pos then None else f_partner h) (hp_point m) (f_to h) in
  exists st', split_connected dbg st (f_id h) m pos new = Ok st' /\ polys_ok st' /\ mutual st' /\
    (exists p k, nth_error st' i = Some p /\ half_at p k a /\ half_at p (S k) b) /\
    (forall j g, half_in st' j g <-> (j = i /\ (g = a \/ g = b)) \/ exists g0, half_in st j g0 /\ f_id g0 <> f_id h /\ g = if pos then g0 else redirected (f_id h) new g0) /\
    (forall l q, shows st' l q <-> shows st l q) /\ forall l v, faces st' l v <-> faces st l v.
Proof.
  intros dbg st i h new m pos t M Mu H F W T0 T1 Em a b. destruct (split_result dbg st M Mu i h H new F m W t T0 T1 Em pos) as (st' & R & M' & V & P & I). exists st'. split; [exact R|]. split; [exact M'|].
  split; [exact (split_mutual st M Mu i h H new F m pos st' I)|]. split; [exact P|]. split; [exact I|]. split; [exact (views_shows _ _ V)|exact (views_faces _ _ V)].
Qed.
Print Assumptions C73_split.

(** The assignments that connect two edges. *)
Theorem C73_link : forall dbg st i j a b, polys_ok st -> mutual st -> half_in st i a -> half_in st j b -> f_id a <> f_id b -> f_partner a = None -> f_partner b = None ->
  exists st', link_edges dbg st (f_id a) (f_id b) = Ok st' /\ polys_ok st' /\ mutual st' /\ (forall l q, shows st' l q <-> shows st l q) /\ (forall l v, faces st' l v <-> faces st l v) /\
    forall l g, half_in st' l g <-> exists g0, half_in st l g0 /\ g = if f_id g0 =? f_id a then with_partner g0 (Some (f_id b)) else if f_id g0 =? f_id b then with_partner g0 (Some (f_id a)) else g0.
Proof.
  intros dbg st i j a b M Mu A B N Pa Pb. destruct (link_result dbg st i j a b M Mu A B N Pa Pb) as (st' & R & M' & Mu' & V & I). exists st'. repeat (split; [assumption|]). split; [exact (views_shows _ _ V)|]. split; [exact (views_faces _ _ V)|exact I].
Qed.
Print Assumptions C73_link.

(** ConnectEdgesInLine on a line of a mesh whose edges on the line have no partners
    yet: the steps of C62 are splits and connections of edges of the mesh, all of
    which return, and lead to edges that are the pieces of C62, with the
    corresponding partners.  Edges that are not on the line are unchanged. *)
Theorem C73_line : forall dbg ord l st, (forall x, Permutation (ord x) x) -> polys_ok st -> mutual st -> NoDup (n_ids l) -> Forall2 (describes st) (n_ids l) (n_halves l) ->
  (forall i h, half_in st i h -> In (f_id h) (n_ids l) -> f_partner h = None) -> line_input (n_dim l) (n_halves l) -> closed_line (n_dim l) (n_halves l) ->
  exists c st' gs, connect_line dbg (n_dim l) ord (n_halves l) = Ok c /\ edited dbg st st' /\ polys_ok st' /\ mutual st' /\ shows_pieces st' gs (c_pieces c) /\ incl (n_ids l) gs /\
    (forall j g, ~ In (f_id g) gs -> (half_in st' j g <-> half_in st j g)) /\ (forall x, In x gs -> In x (n_ids l) \/ fresh st x) /\
    (forall l q, shows st' l q <-> shows st l q) /\ forall l v, faces st' l v <-> faces st l v.
Proof.
  intros dbg ord l st Ord M Mu N D Pn Li Cl. destruct (line_goes dbg ord Ord l st M Mu N D Pn Li Cl) as (c & st' & gs & R & _ & E & [X1 X2 X3 X4 X5 _] & M' & Mu' & S). exists c, st', gs. repeat (split; [assumption|]).
  split; [intros j g Ng; split; [intros G; exact (X4 j g G Ng)|intros G; apply X3; [exact G|intros Z; exact (Ng (X1 _ Z))]]|]. split; [exact X2|]. split; [exact (views_shows _ _ X5)|exact (views_faces _ _ X5)].
Qed.
Print Assumptions C73_line.

(** The edges of some lines, as when a node is left: in a consistent mesh in which
    these edges have no partners but others may have.  Afterwards the mesh is
    consistent, all edges on the lines have partners, and the others are
    unchanged. *)
Theorem C73_group : forall dbg ord st ls, (forall x, Permutation (ord x) x) -> mesh_ok st -> (forall i h, half_in st i h -> In (f_id h) (concat (map n_ids ls)) -> f_partner h = None) -> NoDup (concat (map n_ids ls)) ->
  (forall l, In l ls -> Forall2 (describes st) (n_ids l) (n_halves l) /\ line_input (n_dim l) (n_halves l) /\ closed_line (n_dim l) (n_halves l)) ->
  exists cs st' gs, Forall2 (fun l c => connect_line dbg (n_dim l) ord (n_halves l) = Ok c /\ exists g, shows_pieces st' g (c_pieces c)) ls cs /\ edited dbg st st' /\ mesh_ok st' /\
    incl (concat (map n_ids ls)) gs /\ (forall x, In x gs -> In x (concat (map n_ids ls)) \/ fresh st x) /\ (forall i h, half_in st' i h -> In (f_id h) gs -> f_partner h <> None) /\
    (forall j g, ~ In (f_id g) gs -> (half_in st' j g <-> half_in st j g)) /\ (forall l q, shows st' l q <-> shows st l q) /\ forall l v, faces st' l v <-> faces st l v.
Proof.
  intros dbg ord st ls Ord M Pn N Each. destruct (lines_group dbg ord st ls Ord M Pn N Each) as (cs & st' & gs & F & E & M' & [X1 X2 X3 X4 X5 _] & C). exists cs, st', gs. repeat (split; [assumption|]).
  split; [intros j g Ng; split; [intros G; exact (X4 j g G Ng)|intros G; apply X3; [exact G|intros Z; exact (Ng (X1 _ Z))]]|]. split; [exact (views_shows _ _ X5)|exact (views_faces _ _ X5)].
Qed.
Print Assumptions C73_group.

(** A mesh without partners, whose edges are on lines that are closed: connecting
    line by line returns, and then the mesh is consistent, every edge has a partner
    (so it has what C64 and C72 need), and the polygons show the same points with
    the same normals. *)
Theorem C73_closed : forall dbg ord st ls, (forall x, Permutation (ord x) x) -> polys_ok st -> (forall i h, half_in st i h -> f_partner h = None) -> closed_lines st ls ->
  exists cs st', Forall2 (fun l c => connect_line dbg (n_dim l) ord (n_halves l) = Ok c /\ exists gs, shows_pieces st' gs (c_pieces c)) ls cs /\ edited dbg st st' /\ mesh_ok st' /\ closed_mesh st' /\
    (forall l q, shows st' l q <-> shows st l q) /\ forall l v, faces st' l v <-> faces st l v.
Proof.
  intros dbg ord st ls Ord M Pn C. destruct (lines_closed dbg ord st ls Ord M Pn C) as (cs & st' & F & E & M' & Cl & V). exists cs, st'. repeat (split; [assumption|]). split; [exact (views_shows _ _ V)|exact (views_faces _ _ V)].
Qed.
Print Assumptions C73_closed.

(** ** Cases *)
(** The edge between the points (4, 0, 2) and (4, 2, 2) of the cuboid of C64, split
    in the middle. *)
Example C73_split_case : exists h, half_in PropLink.cuboid 1 h /\ f_partner h <> None /\ polys_ok PropLink.cuboid /\ mutual PropLink.cuboid /\ fresh PropLink.cuboid 99 /\
  (0 < 1 # 2)%Q /\ (1 # 2 < 1)%Q /\ qp_eq (hp_point (HP (V3 4 1 2) 1)) (between (f_from h) (f_to h) (1 # 2)) /\
  forall pos, exists st', split_connected true PropLink.cuboid (f_id h) (HP (V3 4 1 2) 1) pos 99 = Ok st' /\ map (fun p => length (pedges p)) st' = [4; 5; 4; 5; 5; 4; 4].
Proof.
  destruct PropLink.cuboid_ok as (A & B & _). eexists. split; [eexists; exists 2; split; [reflexivity|]; eexists; eexists; split; [reflexivity|split; reflexivity]|].
  split; [vm_compute; discriminate|]. split; [destruct A; split; assumption|]. split.
  - intros i h d H D. destruct (mo_partner _ A i h d H D) as (j & g & G1 & G2 & G3 & G4). split; [|exists j, g; auto]. intros ->. destruct (half_unique _ j i g h (mo_once _ A) G1 H G2) as [-> ->].
    apply all_halves_in in H. assert (T : forallb (fun x => match f_partner (snd x) with Some d => negb (d =? f_id (snd x)) | None => true end) (all_halves PropLink.cuboid) = true) by (vm_compute; reflexivity). rewrite forallb_forall in T. specialize (T _ H). cbn [snd] in T. rewrite D in T. rewrite Nat.eqb_refl in T. discriminate.
  - split; [|split; [reflexivity|]; split; [reflexivity|]; split; [vm_compute; auto|intros [|]; eexists; split; vm_compute; reflexivity]]. intros i h H. apply all_halves_in in H. assert (T : forallb (fun x => negb (f_id (snd x) =? 99)) (all_halves PropLink.cuboid) = true) by (vm_compute; reflexivity). rewrite forallb_forall in T. specialize (T _ H). apply negb_true_iff, Nat.eqb_neq in T. exact T.
Qed.

(** A triangle seen from both sides.  The back side is two triangles, so that the
    long edge of the front side has to be split. *)
Definition sheet_faces : list PropLink.face :=
  [ (HS (V3 0 0 1) 0, 2, [V3 0 0 0; V3 4 0 0; V3 0 4 0]); (HS (V3 0 0 (-1)) 0, 2, [V3 0 0 0; V3 0 4 0; V3 2 0 0]); (HS (V3 0 0 (-1)) 0, 2, [V3 2 0 0; V3 0 4 0; V3 4 0 0]) ].
Definition sheet : mesh := redata (LinkModel.set_partner None) (PropLink.link sheet_faces).
Lemma sheet_ok : polys_ok sheet.
Proof.
  assert (A : mesh_ok sheet); [|destruct A; split; assumption]. apply links_test_ok; [vm_compute; reflexivity|]. intros p I. right. unfold sheet, PropLink.link, sheet_faces, redata in I. cbn [PropLink.link_from map In] in I.
  destruct I as [<-|[<-|[<-|[]]]]; (eapply PropLink.linked_ok; [|reflexivity|reflexivity|vm_compute; reflexivity|vm_compute; reflexivity]; vm_compute; reflexivity).
Qed.
Definition pt (x y : Z) : hpoint3 := HP (V3 x y 0) 1.
Definition front (dx dy x y : Z) : half := Half (V3 dx dy 0) (pt x y) (pt (x + dx) (y + dy)) (V3 0 0 1).
Definition back (dx dy x y : Z) : half := Half (V3 dx dy 0) (pt x y) (pt (x + dx) (y + dy)) (V3 0 0 (-1)).
Definition sheet_lines : list line :=
  [ Line 0 [front 4 0 0 0; back (-2) 0 2 0; back (-2) 0 4 0] [1; 3; 6]; Line 1 [front 0 (-4) 0 4; back 0 4 0 0] [0; 4];
    Line 0 [front (-4) 4 4 0; back 4 (-4) 0 4] [2; 8]; Line 0 [back 2 (-4) 0 4; back (-2) 4 2 0] [5; 7] ].
Ltac on_line o d := exists o, d; split; [vm_compute; discriminate|]; intros h p I [-> | ->]; cbn in I;
  repeat match goal with H : _ \/ _ |- _ => destruct H | H : False |- _ => destruct H end; subst; (split; [cbn; discriminate|]);
  (exists 0%Q; vm_compute; repeat split; reflexivity) || (exists 1%Q; vm_compute; repeat split; reflexivity) || (exists (1#2)%Q; vm_compute; repeat split; reflexivity).
Ltac other_input := split; [repeat (apply Forall_cons; [|]); try apply Forall_nil; (left; split; vm_compute; reflexivity) || (right; split; vm_compute; reflexivity)
  |split; [repeat (apply Forall_cons; [|]); try apply Forall_nil; intros v [[_ ->]|[_ ->]]; (split; [(left; vm_compute; discriminate) || (right; vm_compute; discriminate)|unfold no_min; repeat (apply Forall_cons; [vm_compute; discriminate|]); apply Forall_nil])
  |repeat (apply SSorted_cons); repeat (apply Forall_cons; [|]); try apply Forall_nil; try apply SSorted_nil; vm_compute; discriminate]].
Lemma sheet_input l : In l sheet_lines -> line_input (n_dim l) (n_halves l).
Proof.
  intros [<-|[<-|[<-|[<-|[]]]]]; cbn [n_dim n_halves].
  - split; [on_line (QP 0 0 0) (QP 4 0 0)|other_input].
  - split; [on_line (QP 0 0 0) (QP 0 4 0)|other_input].
  - split; [on_line (QP 0 4 0) (QP 4 (-4) 0)|other_input].
  - split; [on_line (QP 0 4 0) (QP 2 (-4) 0)|other_input].
Qed.
(** Wherever there are edges on the line, there are exactly two. *)
Lemma closed_pairs s hs : line_input s hs -> (forall t i, generic s hs t -> i < length hs -> (lo s hs i < t)%Q -> (t < hi s hs i)%Q -> exists j, j < length hs /\ rk s hs i <> rk s hs j /\ pol s hs i = negb (pol s hs j) /\
  (lo s hs j < t)%Q /\ (t < hi s hs j)%Q /\ forall k, k < length hs -> (lo s hs k < t)%Q -> (t < hi s hs k)%Q -> k = i \/ k = j) -> closed_line s hs.
Proof.
  intros Hin P t G i a Ni Ca. pose proof (nth_some_lt _ _ _ Ni) as Li. rewrite <- (hat_nth hs i a Ni) in Ca |- *. apply (covers_lo s hs Hin i t Li) in Ca as [C1 C2]. destruct (P t i G Li C1 C2) as (j & J & R & Po & D1 & D2 & U). split.
  - intros k b Nk Ck Nki. pose proof (nth_some_lt _ _ _ Nk) as Lk. rewrite <- (hat_nth hs k b Nk) in *. apply (covers_lo s hs Hin k t Lk) in Ck as [K1 K2]. destruct (U k Lk K1 K2) as [->|Ek]; [contradiction|]. rewrite !(before_rk s hs Hin) by assumption. rewrite Ek. lia.
  - exists j. apply (pair_mate s hs Hin t [i; j]).
    + intros k. split; [intros [<-|[<-|[]]]; auto|]. intros (K & K1 & K2). cbn [In]. destruct (U k K K1 K2); auto.
    + unfold mate, near, met. destruct (pol s hs j) eqn:Pj; cbn [negb] in Po; [right|left]; repeat (split; [assumption || (cbn [In]; tauto) || congruence|]); intros k [<-|[<-|[]]]; congruence.
Qed.
Ltac ends := repeat match goal with
  | |- context [lo ?s ?hs ?k] => let v := eval vm_compute in (lo s hs k) in change (lo s hs k) with v in *
  | |- context [hi ?s ?hs ?k] => let v := eval vm_compute in (hi s hs k) in change (hi s hs k) with v in *
  | H : context [lo ?s ?hs ?k] |- _ => let v := eval vm_compute in (lo s hs k) in change (lo s hs k) with v in *
  | H : context [hi ?s ?hs ?k] |- _ => let v := eval vm_compute in (hi s hs k) in change (hi s hs k) with v in * end.
Lemma sheet_closed_line l : In l sheet_lines -> closed_line (n_dim l) (n_halves l).
Proof.
  intros I. apply (closed_pairs _ _ (sheet_input l I)). cbn [In sheet_lines] in I. destruct I as [<-|[<-|[<-|[<-|[]]]]]; intros t i G Li A B; cbn [n_dim n_halves length] in *.
  - destruct (G _ (or_intror (or_introl eq_refl))) as [G1 _]. assert (N2 : ~ (t == 2)%Q) by exact G1. clear G G1. destruct i as [|[|[|i]]]; [|exists 0|exists 0|lia].
    + assert (C : (t < 2 \/ 2 < t)%Q) by (destruct (Qlt_le_dec t 2) as [X|X]; [auto|]; apply Qle_lteq in X as [X|X]; [auto|exfalso; apply N2; symmetry; exact X]). clear N2. destruct C as [X|X]; [exists 1|exists 2]; (split; [lia|]); (split; [vm_compute; discriminate|]); (split; [reflexivity|]); (split; [ends; lra|]); (split; [ends; lra|]); intros [|[|[|k]]] K K1 K2; auto; try lia; exfalso; ends; lra.
    + split; [lia|]. split; [vm_compute; discriminate|]. split; [reflexivity|]. split; [ends; lra|]. split; [ends; lra|]. intros [|[|[|k]]] K K1 K2; auto; try lia; exfalso; ends; lra.
    + split; [lia|]. split; [vm_compute; discriminate|]. split; [reflexivity|]. split; [ends; lra|]. split; [ends; lra|]. intros [|[|[|k]]] K K1 K2; auto; try lia; exfalso; ends; lra.
  - destruct i as [|[|i]]; [exists 1|exists 0|lia]; (split; [lia|]); (split; [vm_compute; discriminate|]); (split; [reflexivity|]); (split; [ends; lra|]); (split; [ends; lra|]); intros [|[|k]] K K1 K2; auto; lia.
  - destruct i as [|[|i]]; [exists 1|exists 0|lia]; (split; [lia|]); (split; [vm_compute; discriminate|]); (split; [reflexivity|]); (split; [ends; lra|]); (split; [ends; lra|]); intros [|[|k]] K K1 K2; auto; lia.
  - destruct i as [|[|i]]; [exists 1|exists 0|lia]; (split; [lia|]); (split; [vm_compute; discriminate|]); (split; [reflexivity|]); (split; [ends; lra|]); (split; [ends; lra|]); intros [|[|k]] K K1 K2; auto; lia.
Qed.
Lemma sheet_describes l : In l sheet_lines -> Forall2 (describes sheet) (n_ids l) (n_halves l).
Proof.
  intros [<-|[<-|[<-|[<-|[]]]]]; cbn [n_ids n_halves]; repeat (apply Forall2_cons); try apply Forall2_nil.
  all: match goal with |- describes sheet ?id _ => let i := eval vm_compute in (id / 3) in let k := eval vm_compute in (id mod 3) in exists i; eexists; split; [eexists; exists k; split; [reflexivity|]; eexists; eexists; split; [reflexivity|split; reflexivity]|]; split; [reflexivity|split; reflexivity] end.
Qed.
Example C73_case : polys_ok sheet /\ (forall i h, half_in sheet i h -> f_partner h = None) /\ closed_lines sheet sheet_lines.
Proof.
  split; [exact sheet_ok|]. split; [|split; [|split]].
  - intros i h H. apply all_halves_in in H. assert (T : forallb (fun x => match f_partner (snd x) with None => true | Some _ => false end) (all_halves sheet) = true) by (vm_compute; reflexivity). rewrite forallb_forall in T. specialize (T _ H). cbn [snd] in T. destruct (f_partner h); [discriminate|reflexivity].
  - apply nodup_test_ok. vm_compute. reflexivity.
  - intros i h H. apply all_halves_in in H. assert (T : forallb (fun x => existsb (Nat.eqb (f_id (snd x))) (concat (map n_ids sheet_lines))) (all_halves sheet) = true) by (vm_compute; reflexivity). rewrite forallb_forall in T. specialize (T _ H). apply existsb_exists in T as (y & Y & E). apply Nat.eqb_eq in E. cbn [snd] in E. congruence.
  - intros l I. split; [exact (sheet_describes l I)|]. split; [exact (sheet_input l I)|exact (sheet_closed_line l I)].
Qed.
(** The front side gets the vertex (2, 0, 0). *)
Example C73_run : exists c, connect_line true 0 (fun l => l) [front 4 0 0 0; back (-2) 0 2 0; back (-2) 0 4 0] = Ok c /\
  map (fun p => (p_edge p, vx (hv (p_from p)), vx (hv (p_to p)), p_partner p)) (c_pieces c) = [(0, 0%Z, 2%Z, Some 1); (1, 2%Z, 0%Z, Some 0); (2, 4%Z, 2%Z, Some 3); (0, 2%Z, 4%Z, Some 2)] /\
  exists a b d, split_connected true sheet 1 (pt 2 0) true 9 = Ok a /\ link_edges true a 1 3 = Ok b /\ link_edges true b 9 6 = Ok d /\ map (fun p => length (pedges p)) d = [4; 3; 3] /\
    map (fun x => (f_id (snd x), f_partner (snd x))) (all_halves d) = [(0, None); (1, Some 3); (9, Some 6); (2, None); (3, Some 1); (4, None); (5, None); (6, Some 9); (7, None); (8, None)].
Proof. eexists. split; [vm_compute; reflexivity|]. split; [vm_compute; reflexivity|]. eexists. eexists. eexists. split; [vm_compute; reflexivity|]. split; [vm_compute; reflexivity|]. split; [vm_compute; reflexivity|]. split; vm_compute; reflexivity. Qed.
