(** Planar decomposition of vertex cycles. *)
From Coq Require Import List ZArith.
From Verif Require Import BigUIntModel GeoModel ConcatModel ConcatSpec PlanarModel.
Import ListNotations.
Open Scope Z_scope.
(** The vertices shown by an output range. *)
Definition outputs (v : list vec3) (r : concat_range) (l : list vec3) : Prop :=
  exists refs, shows (fun _ => length v) r refs /\ Forall2 (fun p x => fst p = O /\ nth_error v (snd p) = Some x) refs l.
Definition on_plane (h : hspace3) (p : vec3) : Prop := v3_dot (hn h) p = hd h.
Definition zero_normal (h : hspace3) : Prop := hn h = V3 0 0 0.
(** Three points on one line (or two of them equal). *)
Definition in_line (p q r : vec3) : Prop := v3_cross (v3_sub q p) (v3_sub r p) = V3 0 0 0.
Definition all_in_line (l : list vec3) : Prop := forall p q r, In p l -> In q l -> In r l -> in_line p q r.
(** Sum of f over the edges of a path, and of a closed cycle. *)
Fixpoint path_sum {A} (f : A -> A -> Z) (l : list A) : Z :=
  match l with
  | a :: ((b :: _) as t) => f a b + path_sum f t
  | _ => 0
  end.
Definition cycle_sum {A} (f : A -> A -> Z) (l : list A) : Z :=
  match l with [] => 0 | a :: _ => path_sum f l + f (last l a) a end.
Definition antisymmetric {A} (f : A -> A -> Z) : Prop := forall a b, f a b + f b a = 0.
Definition sum_z (l : list Z) : Z := fold_right Z.add 0 l.
