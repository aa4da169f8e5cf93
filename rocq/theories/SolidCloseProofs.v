(** A closed surface: the formula of GetCentroid is the centroid of the solid. *)
From Coq Require Import List Bool Arith ZArith QArith Lqa Lia Permutation Morphisms Setoid.
From Verif Require Import BigUIntModel GeoModel GeoSpec GeoProofs AreaSpec AreaProofs CvxMergeProofs MergeProofs SolidModel SolidSpec SolidProofs.
Import ListNotations.
Open Scope Q_scope.
Lemma qsum_app l l' : qsum (l ++ l') == qsum l + qsum l'.
Proof. unfold qsum. induction l as [|x l IH]; cbn [fold_right app]; [ring|]. rewrite IH. ring. Qed.
Lemma qsum_perm l l' : Permutation l l' -> qsum l == qsum l'.
Proof. induction 1; cbn [qsum fold_right]; unfold qsum in *; lra. Qed.
Lemma qsum_ext {B} (f g : B -> Q) l : (forall x, f x == g x) -> qsum (map f l) == qsum (map g l).
Proof. intros E. induction l as [|x l IH]; cbn [map qsum fold_right]; [reflexivity|]. unfold qsum in IH. rewrite IH, E. reflexivity. Qed.
Lemma qsum_plus {B} (f g : B -> Q) l : qsum (map (fun x => f x + g x) l) == qsum (map f l) + qsum (map g l).
Proof. induction l as [|x l IH]; cbn [map qsum fold_right]; [ring|]. unfold qsum in IH. rewrite IH. ring. Qed.
Lemma qsum_scale {B} k (f : B -> Q) l : qsum (map (fun x => k * f x) l) == k * qsum (map f l).
Proof. induction l as [|x l IH]; cbn [map qsum fold_right]; [ring|]. unfold qsum in IH. rewrite IH. ring. Qed.
(** An antisymmetric function of the sides of a closed surface adds up to 0. *)
Section Sides.
Context (g : qpoint -> qpoint -> Q) (anti : forall a b, g b a == - g a b) (ext : forall a a' b b', qp_eq a a' -> qp_eq b b' -> g a b == g a' b').
Definition round (t : qpoint * qpoint * qpoint) : Q := let '(a, b, c) := t in g a b + g b c + g c a.
Definition side_term (s : qpoint * qpoint) : Q := g (fst s) (snd s).
Lemma fan_path a : forall r b, qsum (map round (map (fun s => (a, fst s, snd s)) (combine (b :: r) r))) == g a b + path_sum g b r + g (last r b) a.
Proof using anti.
  induction r as [|c r IH]; intros b; cbn [combine map qsum fold_right path_sum].
  - cbn [last]. rewrite (anti a b). ring.
  - specialize (IH c). change (last (c :: r) b) with (last (c :: r) b). rewrite last_cons. unfold qsum in IH. rewrite IH. unfold round. cbn [fst snd]. rewrite (anti a c). ring.
Qed.
Lemma polygon_round l : qsum (map round (triangles l)) == qsum (map side_term (sides l)).
Proof using anti.
  destruct l as [|a [|b r]].
  - reflexivity.
  - unfold side_term. cbn. pose proof (anti a a). lra.
  - unfold side_term. rewrite (sides_path g a (b :: r)). unfold triangles. cbn [tl]. rewrite fan_path. cbn [path_sum]. rewrite last_cons. ring.
Qed.
Lemma all_round ps : qsum (map round (flat_map triangles ps)) == qsum (map side_term (flat_map sides ps)).
Proof using anti. induction ps as [|l ps IH]; cbn [flat_map]; [reflexivity|]. rewrite !map_app, !qsum_app, IH, polygon_round. reflexivity. Qed.
Lemma closed_round ps : closed_surface ps -> qsum (map round (flat_map triangles ps)) == 0.
Proof using anti ext.
  intros (ts & P & O). rewrite all_round. pose proof (qsum_perm _ _ (Permutation_map side_term P)) as E1. assert (E2 : qsum (map side_term (flat_map sides ps)) == - qsum (map side_term ts)); [|lra].
  clear E1 P. induction O as [|s t l l' [O1 O2] O IH]; cbn [map qsum fold_right]; [reflexivity|]. unfold qsum in IH. rewrite IH. unfold side_term. rewrite (ext _ _ _ _ O1 O2), (anti (fst t) (snd t)). ring.
Qed.
End Sides.
(** The field with curl: h is the first component of the cross product. *)
Definition hx (a b : qpoint) : Q := qy a * qz b - qz a * qy b.
Definition edge_form (o a b : qpoint) : Q :=
  let a' := qsub a o in let b' := qsub b o in
  - (qx o * qx o) * hx a b / 4 - hx a' b' * (qx a' * qx a' + qx a' * qx b' + qx b' * qx b') / 24 - qx o * hx a' b' * (qx a' + qx b') / 6.
Lemma edge_form_anti o a b : edge_form o b a == - edge_form o a b.
Proof. unfold edge_form, hx, qsub. cbn [qx qy qz]. field. Qed.
Lemma moment_term o a b c : tet_volume o a b c * qx (tet_center o a b c) == qx (tri_normal a b c) * square_sum (qx a) (qx b) (qx c) / 48 + (edge_form o a b + edge_form o b c + edge_form o c a).
Proof. unfold tet_volume, tet_center, edge_form, hx, tri_normal, square_sum, qdot, qcross, qsub, qadd, qscale. cbn [qx qy qz]. field. Qed.
Definition vol_form (o a b : qpoint) : Q := - qdot o (qcross a b) / 6.
Lemma vol_form_anti o a b : vol_form o b a == - vol_form o a b.
Proof. unfold vol_form, qdot, qcross. cbn [qx qy qz]. field. Qed.
Lemma volume_form o a b c : tet_volume o a b c == det a b c / 6 + (vol_form o a b + vol_form o b c + vol_form o c a).
Proof. unfold tet_volume, vol_form, det, qdot, qcross, qsub. cbn [qx qy qz]. field. Qed.
(** The other coordinates by turning the axes. *)
Definition turned (q : qpoint) : qpoint := QP (qy q) (qz q) (qx q).
Lemma tet_turned o a b c : tet_volume (turned o) (turned a) (turned b) (turned c) == tet_volume o a b c.
Proof. unfold tet_volume, turned, qdot, qcross, qsub. cbn [qx qy qz]. field. Qed.
Lemma moment_term_y o a b c : tet_volume o a b c * qy (tet_center o a b c) == qy (tri_normal a b c) * square_sum (qy a) (qy b) (qy c) / 48 + (edge_form (turned o) (turned a) (turned b) + edge_form (turned o) (turned b) (turned c) + edge_form (turned o) (turned c) (turned a)).
Proof. rewrite <- tet_turned. pose proof (moment_term (turned o) (turned a) (turned b) (turned c)) as M. exact M. Qed.
Lemma moment_term_z o a b c : tet_volume o a b c * qz (tet_center o a b c) == qz (tri_normal a b c) * square_sum (qz a) (qz b) (qz c) / 48 + (edge_form (turned (turned o)) (turned (turned a)) (turned (turned b)) + edge_form (turned (turned o)) (turned (turned b)) (turned (turned c)) + edge_form (turned (turned o)) (turned (turned c)) (turned (turned a))).
Proof. rewrite <- tet_turned, <- tet_turned. pose proof (moment_term (turned (turned o)) (turned (turned a)) (turned (turned b)) (turned (turned c))) as M. exact M. Qed.
Lemma edge_form_ext o a a' b b' : qp_eq a a' -> qp_eq b b' -> edge_form o a b == edge_form o a' b'.
Proof. intros (X & Y & Z) (X' & Y' & Z'). unfold edge_form, hx, qsub. cbn [qx qy qz]. rewrite X, Y, Z, X', Y', Z'. reflexivity. Qed.
Lemma vol_form_ext o a a' b b' : qp_eq a a' -> qp_eq b b' -> vol_form o a b == vol_form o a' b'.
Proof. intros (X & Y & Z) (X' & Y' & Z'). unfold vol_form, qdot, qcross. cbn [qx qy qz]. rewrite X, Y, Z, X', Y', Z'. reflexivity. Qed.
Lemma turned_ext a a' : qp_eq a a' -> qp_eq (turned a) (turned a').
Proof. intros (X & Y & Z). repeat split; assumption. Qed.
Lemma qsum_det ts : qsum (map (fun t : qpoint * qpoint * qpoint => let '(a, b, c) := t in tet_volume origin a b c) ts) == qsum (map det_term ts) / 6.
Proof.
  induction ts as [|[[a b] c] ts IH]; cbn [map qsum fold_right]; [reflexivity|]. unfold qsum in IH. rewrite IH. unfold tet_volume, det_term, det, origin, qdot, qcross, qsub. cbn [qx qy qz]. field.
Qed.
Lemma solid_volume_any o ps : closed_surface ps -> solid_volume o ps == qsum (map det_term (flat_map triangles ps)) / 6.
Proof.
  intros C. pose proof (closed_round (vol_form o) (vol_form_anti o) (vol_form_ext o) ps C) as Z. unfold solid_volume. rewrite (qsum_ext _ (fun t => (1 # 6) * det_term t + round (vol_form o) t)); [rewrite qsum_plus, qsum_scale, Z; field|].
  intros [[a b] c]. rewrite volume_form. unfold det_term, round. field.
Qed.
Lemma solid_moment_any f g o ps : closed_surface ps -> (forall a b, g b a == - g a b) -> (forall a a' b b', qp_eq a a' -> qp_eq b b' -> g a b == g a' b') ->
  (forall a b c, tet_volume o a b c * f (tet_center o a b c) == f (tri_normal a b c) * square_sum (f a) (f b) (f c) / 48 + (g a b + g b c + g c a)) -> solid_moment f o ps == normal_sum f ps / 48.
Proof.
  intros C An Ex T. pose proof (closed_round g An Ex ps C) as Z. unfold solid_moment, normal_sum. rewrite (qsum_ext _ (fun t => (1 # 48) * norm_term f t + round g t)); [rewrite qsum_plus, qsum_scale, Z; unfold norm_term; field|].
  intros [[a b] c]. rewrite T. unfold norm_term, round. field.
Qed.
Lemma solid_moments o ps : closed_surface ps -> solid_moment qx o ps == normal_sum qx ps / 48 /\ solid_moment qy o ps == normal_sum qy ps / 48 /\ solid_moment qz o ps == normal_sum qz ps / 48.
Proof.
  intros C. split; [|split].
  - apply (solid_moment_any qx (edge_form o)); [exact C|apply edge_form_anti|apply edge_form_ext|apply moment_term].
  - apply (solid_moment_any qy (fun a b => edge_form (turned o) (turned a) (turned b))); [exact C|intros; apply edge_form_anti|intros; apply edge_form_ext; apply turned_ext; assumption|intros; apply moment_term_y].
  - apply (solid_moment_any qz (fun a b => edge_form (turned (turned o)) (turned (turned a)) (turned (turned b)))); [exact C|intros; apply edge_form_anti|intros; apply edge_form_ext; apply turned_ext, turned_ext; assumption|intros; apply moment_term_z].
Qed.
