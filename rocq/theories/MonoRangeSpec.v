(** Monotone pieces of a cycle of vertices. *)
From Coq Require Import List ZArith QArith.
From Verif Require Import GeoModel GeoSpec TriModel TriSpec MonoRangeModel.
Import ListNotations.
Open Scope Q_scope.
(** CompareComponent compares the numbers [key] of the vertices. *)
Definition keyed {P} (k : kind P) (mono : nat) (v : list P) (key : P -> Q) : Prop :=
  forall a b, In a v -> In b v -> (k_compare k mono a b ?= 0)%Z = (key a ?= key b).
(** The vertices along a chain never decrease. *)
Definition ascending {P} (key : P -> Q) (l : list P) : Prop := forall a b, In (a, b) (path_edges l) -> key a <= key b.
(** The cycle along the first chain and back along the second one; the chains
    have their ends in common. *)
Definition loop_of {P} (c1 c2 : list P) : list P := c1 ++ removelast (tl (rev c2)).
(** The same cycle, started somewhere else. *)
Definition rotation {A} (l l' : list A) : Prop := exists x y, l = x ++ y /\ l' = y ++ x.
Definition same_ends {A} (l l' : list A) : Prop := exists a z, hd_error l = Some a /\ hd_error l' = Some a /\ hd_error (rev l) = Some z /\ hd_error (rev l') = Some z.
(** The number of z is between those of x and y. *)
Definition within {P} (key : P -> Q) (x y z : P) : Prop := (key x <= key z /\ key z <= key y) \/ (key y <= key z /\ key z <= key x).
(** The first vertex is between the last vertex and the one before it, and the
    last vertex between the first vertex and the second one. *)
Definition stuck {P} (key : P -> Q) (l : list P) : Prop := exists a0 a1 m z1 z0, l = a0 :: a1 :: m ++ [z1; z0] /\
  ((key a1 < key z0 /\ key z0 < key a0 /\ key a0 < key z1) \/ (key z1 < key a0 /\ key a0 < key z0 /\ key z0 < key a1)).
