(** Property C64: links between the edges of polygons. *)
From Coq Require Import List Bool Arith ZArith QArith Lqa Lia.
From Verif Require Import BigUIntModel GeoModel GeoSpec CvxSpec PolyModel PolySpec MergeSpec PolyOpsModel PolyBridgeProofs PolyInfoProofs PolyCapProofs PolyTopProofs PropPoly CvxMergeProofs MergeProofs MergeTopProofs TriSpec LinkModel LinkSpec LinkProofs LinkMergeProofs LinkGoodProofs LinkSpliceProofs LinkPolyProofs LinkTopProofs.
Import ListNotations.
Open Scope Q_scope.

(** ** Merging two polygons *)
(** Along two partner edges of a consistent mesh: the call returns with all
    assertions satisfied, in debug and release builds, and leaves a consistent
    mesh.  On success the polygons faced the same way, polygon [i] covers the points
    of both, polygon [j] is empty and every other polygon covers what it did; no
    edge is new or has lost its partner.  Otherwise nothing is changed, for one of
    the reasons of C34_refused. *)
Theorem C64_merge : forall dbg st nz i j ha hb p o k m, mesh_ok st -> even st -> mesh_no_min st ->
  nth_error st i = Some p -> nth_error st j = Some o -> half_at p k ha -> half_at o m hb -> f_partner ha = Some (f_id hb) -> (nz < 3)%nat -> comp (f_dir ha) nz <> 0%Z ->
  exists st' b, merge_polygon dbg st nz i k j m = Ok (st', b) /\ mesh_ok st' /\ even st' /\ mesh_no_min st' /\ kept st st' /\ (closed_mesh st -> closed_mesh st') /\
    if b then same_direction (l3 (hn (pplane p))) (l3 (hn (pplane o))) /\ length st' = length st /\
      (exists p', nth_error st' i = Some p' /\ pplane p' = pplane p /\ pdrop p' = pdrop p) /\
      (exists o', nth_error st' j = Some o' /\ pedges o' = []) /\
      forall l q, shows st' l q <-> if (l =? j)%nat then False else if (l =? i)%nat then shows st i q \/ shows st j q else shows st l q
    else st' = st /\ (~ same_direction (l3 (hn (pplane p))) (l3 (hn (pplane o))) \/ not_convex (in_either p (pts p) o (pts o)) \/
      (MergeSpec.straight_at (pts p) k /\ MergeSpec.straight_at (pts o) (S m)) \/ (MergeSpec.straight_at (pts p) (S k) /\ MergeSpec.straight_at (pts o) m)).
Proof.
  intros dbg st nz i j ha hb p o k m M Ev Nm P Q Ha Hb Pa Nz Dz.
  destruct (merge_polygon_ok dbg st nz i j ha hb p o k m (conj M (conj Ev Nm)) P Q Ha Hb Pa Nz Dz) as (st' & b & R1 & (M' & Ev' & Nm') & R3 & IJ & R4).
  exists st', b. split; [exact R1|]. split; [exact M'|]. split; [exact Ev'|]. split; [exact Nm'|]. split; [exact R3|]. split; [exact (kept_closed _ _ R3)|]. destruct b.
  - destruct R4 as (S0 & Mg). split; [exact S0|]. exact (merged_shows st st' i j p o P Q IJ Mg).
  - destruct R4 as (E & Tm). split; [exact E|]. destruct (partners_common st i j ha hb p o k m nz M P Q Ha Hb Pa Nz Dz) as [H O K Mm N Ea Eb Ne]. exact (refused dbg (edge_fixed true) p o (pts p) (pts o) nz k m H O K Mm N Ea Eb Ne (Tm _)).
Qed.
Print Assumptions C64_merge.

(** ** Merging along all edges of a plane *)
(** [drop] is the drop dimension of the plane, so that the direction of an edge on
    it has a nonzero component other than [drop].  The loop returns with all
    assertions satisfied, leaves a consistent mesh and, for every direction, covers
    the same points with polygons that face this direction. *)
Theorem C64_merge_all : forall dbg drop st l, mesh_ok st -> even st -> mesh_no_min st ->
  (forall i h, half_in st i h -> In (f_id h) l -> comp (f_dir h) ((drop + 1) mod 3) <> 0%Z \/ comp (f_dir h) ((drop + 2) mod 3) <> 0%Z) ->
  exists st', merge_all dbg drop st l = Ok st' /\ mesh_ok st' /\ even st' /\ mesh_no_min st' /\ kept st st' /\ (closed_mesh st -> closed_mesh st') /\
    forall v q, v <> V3 0 0 0 -> (surface st' v q <-> surface st v q).
Proof.
  intros dbg drop st l M Ev Nm D. destruct (merge_all_ok dbg drop l st (conj M (conj Ev Nm)) D) as (st' & R1 & (M' & Ev' & Nm') & R3 & R4).
  exists st'. split; [exact R1|]. split; [exact M'|]. split; [exact Ev'|]. split; [exact Nm'|]. split; [exact R3|]. split; [exact (kept_closed _ _ R3)|]. intros v q Nv. apply R4. apply nonzero_iff. exact Nv.
Qed.
Print Assumptions C64_merge_all.

(** ** Around a vertex *)
(** In a mesh without open edges, GetNextAroundVertex always leads to an edge that
    starts at the same point, and repeating it comes back to the first edge. *)
Theorem C64_around : forall st i h, mesh_ok st -> closed_mesh st -> half_in st i h ->
  (forall n, exists j g, half_in st j g /\ walk st n (f_id h) = Ok (Some (f_id g)) /\ qp_eq (f_from g) (f_from h)) /\
  exists n, (0 < n)%nat /\ walk st n (f_id h) = Ok (Some (f_id h)).
Proof. intros st i h M C H. split; [exact (walk_ok st M C i h H)|exact (walk_returns st M C i h H)]. Qed.
Print Assumptions C64_around.

(** ** A cuboid whose top is two squares *)
(** Faces with the planes, drop dimensions and vertices given; partners are the
    edges between the same points. *)
Definition face := (hspace3 * nat * list vec3)%type.
Definition face_poly (f : face) : poly unit := match poly_of_points tt (fst (fst f)) (snd (fst f)) (snd f) with Ok p => p | _ => Poly (fst (fst f)) 0 [] end.
Definition vec_eqb (a b : vec3) : bool := ((vx a =? vx b) && (vy a =? vy b) && (vz a =? vz b))%Z.
Definition sides (f : face) : list (vec3 * vec3) := let vs := map (fun e => hv (pv e)) (pedges (face_poly f)) in combine vs (tl vs ++ firstn 1 vs).
Fixpoint find_side (s : vec3 * vec3) (n : nat) (l : list (vec3 * vec3)) : option nat :=
  match l with [] => None | t :: l => if vec_eqb (fst s) (snd t) && vec_eqb (snd s) (fst t) then Some n else find_side s (S n) l end.
Definition link_poly (all : list (vec3 * vec3)) (i s : nat) (f : face) : poly cdata :=
  Poly (pplane (face_poly f)) (pdrop (face_poly f)) (map (fun x => PE (pv (snd (snd x))) (pl (snd (snd x))) (CD (fst x) i (find_side (fst (snd x)) 0 all))) (combine (seq s (length (sides f))) (combine (sides f) (pedges (face_poly f))))).
Fixpoint link_from (all : list (vec3 * vec3)) (i s : nat) (fs : list face) : mesh :=
  match fs with [] => [] | f :: fs => link_poly all i s f :: link_from all (S i) (s + length (sides f)) fs end.
Definition link (fs : list face) : mesh := link_from (concat (map sides fs)) 0 0 fs.
Definition top_faces : list face :=
  [ (HS (V3 0 0 1) 2, 2%nat, [V3 0 0 2; V3 2 0 2; V3 2 2 2; V3 0 2 2]); (HS (V3 0 0 1) 2, 2%nat, [V3 2 0 2; V3 4 0 2; V3 4 2 2; V3 2 2 2]) ].
Definition other_faces : list face :=
  [ (HS (V3 0 0 (-1)) 0, 2%nat, [V3 0 0 0; V3 0 2 0; V3 4 2 0; V3 4 0 0]);
    (HS (V3 0 (-1) 0) 0, 1%nat, [V3 0 0 0; V3 4 0 0; V3 4 0 2; V3 2 0 2; V3 0 0 2]);
    (HS (V3 0 1 0) 2, 1%nat, [V3 0 2 0; V3 0 2 2; V3 2 2 2; V3 4 2 2; V3 4 2 0]);
    (HS (V3 (-1) 0 0) 0, 0%nat, [V3 0 0 0; V3 0 0 2; V3 0 2 2; V3 0 2 0]);
    (HS (V3 1 0 0) 4, 0%nat, [V3 4 0 0; V3 4 2 0; V3 4 2 2; V3 4 0 2]) ].
Definition cuboid : mesh := link (top_faces ++ other_faces).
Definition face_test (f : face) : bool :=
  let d := snd (fst f) in let h := fst (fst f) in let qs := map (qdrop d) (map qpt (snd f)) in let s := inject_Z (comp (hn h) d) in
  (d <? 3)%nat && negb (comp (hn h) d =? 0)%Z && forallb (fun v => Qeq_bool (side h (qpt v)) 0) (snd f) && (tri_test s qs && edge_test qs && full_test qs).
Lemma face_ok f : face_test f = true -> exists p, poly_of_points tt (fst (fst f)) (snd (fst f)) (snd f) = Ok p /\ poly_ok p (rotate (length (snd f) - 1) (map qpt (snd f))).
Proof.
  destruct f as [[h d] vs]. unfold face_test. cbn [fst snd]. intros T. apply andb_prop in T as [T T4]. apply andb_prop in T as [T T3]. apply andb_prop in T as [T1 T2].
  apply (C47_from_points unit tt h d vs); [apply Nat.ltb_lt; exact T1|intros Z; rewrite Z in T2; discriminate|apply Forall_forall; intros v I; rewrite forallb_forall in T3; apply Qeq_bool_iff; exact (T3 v I)|apply convex_test; exact T4].
Qed.
Lemma linked_ok f (p : poly cdata) : face_test f = true -> pplane p = pplane (face_poly f) -> pdrop p = pdrop (face_poly f) -> map shape (pedges p) = map shape (pedges (face_poly f)) -> pts p = rotate (length (snd f) - 1) (map qpt (snd f)) -> poly_ok p (pts p).
Proof.
  intros T E1 E2 E3 E4. destruct (face_ok f T) as (r & R & O). unfold face_poly in *. rewrite R in *. rewrite E4. destruct p as [pp pd es]. cbn [pplane pdrop pedges] in *. subst pp pd. apply poly_ok_shape; assumption.
Qed.
Lemma closed_even st : closed_mesh st -> even st.
Proof. intros C i j h g H G _ _. split; intros X; exfalso; [exact (C _ _ H X)|exact (C _ _ G X)]. Qed.
Lemma closed_test st : forallb (fun x => match f_partner (snd x) with Some _ => true | None => false end) (all_halves st) = true -> closed_mesh st.
Proof. intros T i h H Z. rewrite forallb_forall in T. apply all_halves_in in H. specialize (T _ H). cbn [snd] in T. rewrite Z in T. discriminate. Qed.
Definition small (v : vec3) : bool := forallb (fun x => negb (x =? - 2 ^ 63)%Z) (l3 v).
Lemma small_ok v : small v = true -> no_min (l3 v).
Proof. unfold small, no_min. intros T. apply Forall_forall. intros x I. rewrite forallb_forall in T. specialize (T x I). apply negb_true_iff, Z.eqb_neq in T. exact T. Qed.
Lemma no_min_test st : forallb (fun p => small (hn (pplane p))) st && forallb (fun x => small (f_dir (snd x))) (all_halves st) = true -> mesh_no_min st.
Proof.
  intros T. apply andb_prop in T as [T1 T2]. rewrite forallb_forall in T1, T2. split; [intros i p P; apply small_ok, T1; exact (nth_error_In _ _ P)|]. intros i h H. apply all_halves_in in H. apply small_ok. exact (T2 _ H).
Qed.
Lemma cuboid_ok : mesh_ok cuboid /\ closed_mesh cuboid /\ mesh_no_min cuboid.
Proof.
  split; [|split; [apply closed_test; vm_compute; reflexivity|apply no_min_test; vm_compute; reflexivity]].
  apply links_test_ok; [vm_compute; reflexivity|]. intros p I. right. unfold cuboid, link, top_faces, other_faces in I. cbn [app link_from In] in I.
  destruct I as [<-|[<-|[<-|[<-|[<-|[<-|[<-|[]]]]]]]]; (eapply linked_ok; [|reflexivity|reflexivity|vm_compute; reflexivity|vm_compute; reflexivity]; vm_compute; reflexivity).
Qed.
(** The two squares become a rectangle with four vertices; the vertices in the
    middle of the edges of the front and the back are removed as well. *)
Example merge_case : exists p o k m ha hb, nth_error cuboid 0 = Some p /\ nth_error cuboid 1 = Some o /\ half_at p k ha /\ half_at o m hb /\ f_partner ha = Some (f_id hb) /\ comp (f_dir ha) 1 <> 0%Z /\
  exists st', merge_polygon true cuboid 1 0 k 1 m = Ok (st', true) /\ map (fun p => length (pedges p)) cuboid = [4; 4; 4; 5; 5; 4; 4]%nat /\ map (fun p => length (pedges p)) st' = [4; 0; 4; 4; 4; 4; 4]%nat.
Proof.
  eexists. eexists. exists 2%nat, 0%nat. eexists. eexists. split; [reflexivity|]. split; [reflexivity|]. split; [eexists; eexists; split; [reflexivity|split; reflexivity]|]. split; [eexists; eexists; split; [reflexivity|split; reflexivity]|].
  split; [vm_compute; reflexivity|]. split; [vm_compute; discriminate|]. eexists. split; [vm_compute; reflexivity|]. split; vm_compute; reflexivity.
Qed.
Example merge_all_case : (forall i h, half_in cuboid i h -> In (f_id h) [0; 1; 2; 3; 4; 5; 6; 7]%nat -> comp (f_dir h) ((2 + 1) mod 3) <> 0%Z \/ comp (f_dir h) ((2 + 2) mod 3) <> 0%Z) /\
  exists st', merge_all true 2 cuboid [0; 1; 2; 3; 4; 5; 6; 7]%nat = Ok st' /\ map (fun p => length (pedges p)) st' = [4; 0; 4; 4; 4; 4; 4]%nat.
Proof.
  split; [|eexists; split; vm_compute; reflexivity]. intros i h H I. apply all_halves_in in H.
  assert (T : forallb (fun x => negb (existsb (Nat.eqb (f_id (snd x))) [0; 1; 2; 3; 4; 5; 6; 7]%nat) || negb (comp (f_dir (snd x)) 0 =? 0)%Z || negb (comp (f_dir (snd x)) 1 =? 0)%Z) (all_halves cuboid) = true) by (vm_compute; reflexivity).
  rewrite forallb_forall in T. specialize (T _ H). cbn [snd] in T. replace (existsb (Nat.eqb (f_id h)) [0; 1; 2; 3; 4; 5; 6; 7]%nat) with true in T by (symmetry; apply existsb_exists; exists (f_id h); split; [exact I|apply Nat.eqb_refl]).
  cbn [negb orb] in T. change ((2 + 1) mod 3)%nat with 0%nat. change ((2 + 2) mod 3)%nat with 1%nat. apply orb_prop in T as [T|T]; [left|right]; intros Z; rewrite Z in T; discriminate.
Qed.
Example around_case : map (fun n => walk cuboid n 0) [1; 2; 3]%nat = [Ok (Some 25); Ok (Some 19); Ok (Some 0)]%nat.
Proof. vm_compute. reflexivity. Qed.

(** ** Open edges *)
(** Two squares with a common edge and one in another plane: where the outline goes
    straight on, one edge has a partner and the other one has none.  The mesh is
    consistent, but merging the squares dereferences a null pointer. *)
Definition open_faces : list face :=
  [ (HS (V3 0 0 1) 2, 2%nat, [V3 0 0 2; V3 2 0 2; V3 2 2 2; V3 0 2 2]); (HS (V3 0 0 1) 2, 2%nat, [V3 2 0 2; V3 4 0 2; V3 4 2 2; V3 2 2 2]);
    (HS (V3 0 (-1) 0) 0, 1%nat, [V3 2 0 0; V3 4 0 0; V3 4 0 2; V3 2 0 2]) ].
Definition open_mesh : mesh := link open_faces.
Theorem C64_open_refuted : mesh_ok open_mesh /\ mesh_no_min open_mesh /\ exists p o k m ha hb, nth_error open_mesh 0 = Some p /\ nth_error open_mesh 1 = Some o /\ half_at p k ha /\ half_at o m hb /\ f_partner ha = Some (f_id hb) /\ comp (f_dir ha) 1 <> 0%Z /\
  forall dbg, merge_polygon dbg open_mesh 1 0 k 1 m = UB.
Proof.
  split; [|split; [apply no_min_test; vm_compute; reflexivity|]].
  - apply links_test_ok; [vm_compute; reflexivity|]. intros p I. right. unfold open_mesh, link, open_faces in I. cbn [link_from In] in I. destruct I as [<-|[<-|[<-|[]]]]; (eapply linked_ok; [|reflexivity|reflexivity|vm_compute; reflexivity|vm_compute; reflexivity]; vm_compute; reflexivity).
  - eexists. eexists. exists 2%nat, 0%nat. eexists. eexists. split; [reflexivity|]. split; [reflexivity|]. split; [eexists; eexists; split; [reflexivity|split; reflexivity]|]. split; [eexists; eexists; split; [reflexivity|split; reflexivity]|].
    split; [vm_compute; reflexivity|]. split; [vm_compute; discriminate|]. intros [|]; vm_compute; reflexivity.
Qed.
Print Assumptions C64_open_refuted.
(** The other way round, the call succeeds, but then partners have different end
    points. *)
Definition open_faces' : list face :=
  [ (HS (V3 0 0 1) 2, 2%nat, [V3 0 0 2; V3 2 0 2; V3 2 2 2; V3 0 2 2]); (HS (V3 0 0 1) 2, 2%nat, [V3 2 0 2; V3 4 0 2; V3 4 2 2; V3 2 2 2]);
    (HS (V3 0 (-1) 0) 0, 1%nat, [V3 0 0 0; V3 2 0 0; V3 2 0 2; V3 0 0 2]) ].
Definition open_mesh' : mesh := link open_faces'.
Theorem C64_open_unequal_refuted : mesh_ok open_mesh' /\ mesh_no_min open_mesh' /\ exists p o k m ha hb, nth_error open_mesh' 0 = Some p /\ nth_error open_mesh' 1 = Some o /\ half_at p k ha /\ half_at o m hb /\ f_partner ha = Some (f_id hb) /\ comp (f_dir ha) 1 <> 0%Z /\
  forall dbg, exists st', merge_polygon dbg open_mesh' 1 0 k 1 m = Ok (st', true) /\ exists i h j g, half_in st' i h /\ half_in st' j g /\ f_partner h = Some (f_id g) /\ f_partner g = Some (f_id h) /\ ~ qp_eq (f_to h) (f_from g).
Proof.
  split; [|split; [apply no_min_test; vm_compute; reflexivity|]].
  - apply links_test_ok; [vm_compute; reflexivity|]. intros p I. right. unfold open_mesh', link, open_faces' in I. cbn [link_from In] in I. destruct I as [<-|[<-|[<-|[]]]]; (eapply linked_ok; [|reflexivity|reflexivity|vm_compute; reflexivity|vm_compute; reflexivity]; vm_compute; reflexivity).
  - eexists. eexists. exists 2%nat, 0%nat. eexists. eexists. split; [reflexivity|]. split; [reflexivity|]. split; [eexists; eexists; split; [reflexivity|split; reflexivity]|]. split; [eexists; eexists; split; [reflexivity|split; reflexivity]|].
    split; [vm_compute; reflexivity|]. split; [vm_compute; discriminate|]. intros [|]; (eexists; split; [vm_compute; reflexivity|]; exists 0%nat; eexists; exists 2%nat; eexists; split; [eexists; exists 1%nat; split; [reflexivity|eexists; eexists; split; [reflexivity|split; reflexivity]]|]; split; [eexists; exists 3%nat; split; [reflexivity|eexists; eexists; split; [reflexivity|split; reflexivity]]|]; split; [vm_compute; reflexivity|]; split; [vm_compute; reflexivity|]; intros (X & _ & _); vm_compute in X; discriminate).
Qed.
Print Assumptions C64_open_unequal_refuted.
