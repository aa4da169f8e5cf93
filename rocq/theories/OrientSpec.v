(** When it can be told from their start which of two chains is the top one. *)
From Coq Require Import List ZArith QArith.
From Verif Require Import GeoModel GeoSpec TriModel TriSpec.
Import ListNotations.
Open Scope Q_scope.
(** The chains start with the edges m t and m b. *)
Definition starts {A} (tops bottoms : list A) (m t b : A) : Prop := exists tr br, tops = m :: t :: tr /\ bottoms = m :: b :: br.
(** The first edges are not on one line. *)
Definition apart (tops bottoms : list qpoint2) : Prop := exists m t b, starts tops bottoms m t b /\ ~ turn m t b == 0.
(** The first edges are on one line, to the right; no vertex of the top chain is
    below that line and none of the bottom chain is above; and the last vertex,
    or one to the left of it, is not on the line. *)
Definition split (tops bottoms : list qpoint2) : Prop := exists m t b, starts tops bottoms m t b /\
  qx2 m < qx2 t /\ qx2 m < qx2 b /\ turn m t b == 0 /\
  (forall p, In p tops -> 0 <= turn m t p) /\ (forall p, In p bottoms -> turn m t p <= 0) /\
  exists p, In p (tops ++ bottoms) /\ ~ turn m t p == 0 /\ (qx2 p < qx2 (last tops m) \/ p = last tops m).
(** The chains leave the first vertex straight up and down. *)
Definition upright_start (tops bottoms : list qpoint2) : Prop := exists m t b, starts tops bottoms m t b /\
  qx2 t == qx2 m /\ qx2 b == qx2 m /\ qy2 b < qy2 m /\ qy2 m < qy2 t.
(** Some vertex of the chain [c] is to the right of the first vertex, and so far
    to the left that none of [c'] between them (strictly: and none straight above
    or below it). *)
Definition first_right (c c' : list qpoint2) (strict : bool) : Prop := exists m r, hd_error c = Some m /\ In r c /\ qx2 m < qx2 r /\
  forall p, In p c' -> qx2 m < qx2 p -> if strict then qx2 r < qx2 p else qx2 r <= qx2 p.
(** DetectOrientation can tell which chain is the top one. *)
Definition told (tops bottoms : list qpoint2) (top_is_first : bool) : Prop := apart tops bottoms \/ split tops bottoms \/
  (upright_start tops bottoms /\ if top_is_first then first_right bottoms tops true else first_right tops bottoms true).
