(** C70: the border of a node without the walls of the box. *)
From Coq Require Import List ZArith QArith Bool Lia Lqa.
From Verif Require Import BigUIntModel GeoModel GeoSpec AabbModel AabbSpec CvxSpec PolyModel PolySpec RTransModel FilterModel BspModel BspSpec BspHistSpec BspTreeProofs TravSpec AabbPlaneModel PropAabbPlane PropBsp NodeBorderModel NodeBorderSpec NodeBorderProofs.
Import ListNotations.
Open Scope Q_scope.
Local Arguments Z.of_nat : simpl never.

(** For a tree built in any legal way, the node that the path ds leads to, and a box
    that all planes of the path cross: the function returns the border of the node. *)
Theorem C70_border : forall dbg ops t ds w x b, legal_ops dbg false ops bn_new -> run_ops dbg false ops bn_new = Ok t -> reaches t ds w x -> thick b -> Forall (crosses b) w ->
  exists ys, node_border dbg false b ds t = Ok ys /\ border_of b w ys.
Proof.
  intros dbg ops t ds w x b L E (A & <-) Tk Cs. pose proof (border_ok false dbg b t w x Tk (built dbg false ops t L E) A Cs) as G.
  destruct (node_border dbg false b (map ss_pos w) t) as [ys| | |]; cbn [good] in G; try discriminate; try contradiction. exists ys. split; [reflexivity|exact G].
Qed.
Print Assumptions C70_border.
(** The same for polygons with bounding boxes; the computation of a bounding box may
    have undefined behaviour (C05). *)
Theorem C70_border_boxed : forall dbg ops t ds w x b, legal_ops dbg true ops bn_new -> run_ops dbg true ops bn_new = Ok t -> reaches t ds w x -> thick b -> Forall (crosses b) w ->
  match node_border dbg true b ds t with Ok ys => border_of b w ys | UB => True | _ => False end.
Proof.
  intros dbg ops t ds w x b L E (A & <-) Tk Cs. pose proof (border_ok true dbg b t w x Tk (built dbg true ops t L E) A Cs) as G.
  destruct (node_border dbg true b (map ss_pos w) t) as [ys| | |]; cbn [good] in G; try exact I; try contradiction. exact G.
Qed.
Print Assumptions C70_border_boxed.
(** If a plane of the path does not cross the box, also if it only touches it, an
    assertion fails. *)
Theorem C70_missed : forall ops t ds w x b, legal_ops true false ops bn_new -> run_ops true false ops bn_new = Ok t -> reaches t ds w x -> thick b ->
  (exists s, In s w /\ at_most_line (outward s) b) -> node_border true false b ds t = AssertFail.
Proof.
  intros ops t ds w x b L E (A & <-) Tk Ex. destruct (border_miss false b t w x Tk (built true false ops t L E) A Ex) as [H|[H _]]; [exact H|discriminate].
Qed.
Print Assumptions C70_missed.

(** The planes x = 1 and y + z = 2 and the cube from (0, 0, 0) to (2, 2, 2): the node
    with x <= 1 and y + z >= 2 has a rectangle and a triangle as its border. *)
Definition nb_ops : list bop := [OSplit [] (HS (V3 1 0 0) 1); OSplit [false] (HS (V3 0 1 1) 2)].
Definition nb_path : path := [SS (HS (V3 1 0 0) 1) false; SS (HS (V3 0 1 1) 2) true].
Lemma nb_legal : legal_ops true false nb_ops bn_new.
Proof.
  cbn [legal_ops nb_ops]. split. { eexists [], _. split; [split; [apply at_root; discriminate|reflexivity]|]. split; [reflexivity|]. split; [reflexivity|]. intros s []. }
  intros t1 E1. vm_compute in E1. injection E1 as <-. split; [|intros; exact I].
  eexists [_], _. split; [split; [apply at_neg, at_root; discriminate|reflexivity]|]. split; [reflexivity|]. split; [reflexivity|]. intros s [<-|[]] Sm. destruct (Sm (QP 1 1 2)) as [K _]. vm_compute in K. discriminate (K eq_refl).
Qed.
Lemma cube_thick : thick cube_box.
Proof. split; [reflexivity|]. intros i I. destruct i as [|[|[|i]]]; [reflexivity|reflexivity|reflexivity|lia]. Qed.
Lemma cross_of b s p : thick b -> hs_valid (outward s) = true -> bx_intersect_plane true b (outward s) = Ok (Some p) -> crosses b s.
Proof. intros [D T] V E M. destruct (C57_thick_box true b (outward s) D V T) as (r & E' & R). rewrite E in E'. injection E' as <-. exact (C57_exclusive _ _ _ R M). Qed.
Example border_case : legal_ops true false nb_ops bn_new /\ thick cube_box /\ Forall (crosses cube_box) nb_path /\
  exists t x, run_ops true false nb_ops bn_new = Ok t /\ reaches t [false; true] nb_path x /\
    (exists ys, node_border true false cube_box [false; true] t = Ok ys /\ map (fun y => length (pedges (bp_poly y))) ys = [4; 3]%nat /\ map (fun y => hn (pplane (bp_poly y))) ys = [V3 0 (-1) (-1); V3 1 0 0]) /\
    facet_point [] (SS (HS (V3 1 0 0) 1) false) [SS (HS (V3 0 1 1) 2) true] (QP 1 (3 # 2) (3 # 2)) /\ in_box cube_box (QP 1 (3 # 2) (3 # 2)) /\
    node_border true false (Box (V3 0 0 0) (V3 1 1 1) 1) [false; true] t = AssertFail.
Proof.
  split; [exact nb_legal|]. split; [exact cube_thick|]. split.
  { constructor; [|constructor; [|constructor]]; (eapply cross_of; [exact cube_thick|reflexivity|vm_compute; reflexivity]). }
  eexists _, _. split; [vm_compute; reflexivity|]. split; [split; [apply at_neg, at_pos, at_root; discriminate|reflexivity]|].
  split; [eexists; split; [vm_compute; reflexivity|split; reflexivity]|]. split.
  - split; [vm_compute; reflexivity|]. split; [constructor|]. constructor; [vm_compute; reflexivity|constructor].
  - split; [|vm_compute; reflexivity]. intros i I. destruct i as [|[|[|i]]]; [| | |lia]; split; vm_compute; discriminate.
Qed.
