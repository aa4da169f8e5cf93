(** What a ConcatRange should show: plain list operations on the sequence of
    element positions. *)
From Coq Require Import List Arith.
From Verif Require Import BigUIntModel ConcatModel.
Import ListNotations.
(** Positions i, ..., j-1 of container c. *)
Definition elements (c i j : nat) : list (nat * nat) := map (fun k => (c, k)) (seq i (j - i)).
(** Elements n, ..., m-1 of a sequence. *)
Definition slice {A} (l : list A) (n m : nat) : list A := firstn (m - n) (skipn n l).
Fixpoint shown (h : history) : list (nat * nat) :=
  match h with
  | HNew => []
  | HAppend h c i j => shown h ++ elements c i j
  | HPrepend h c i j => elements c i j ++ shown h
  | HClear h => []
  | HAppendFrom h o n m => shown h ++ slice (shown o) n m
  | HPrependFrom h o n m => slice (shown o) n m ++ shown h
  end.
(** The caller passes valid ranges. *)
Fixpoint valid (size : nat -> nat) (h : history) : Prop :=
  match h with
  | HNew => True
  | HAppend h c i j | HPrepend h c i j => valid size h /\ i <= j <= size c
  | HClear h => valid size h
  | HAppendFrom h o n m | HPrependFrom h o n m => valid size h /\ valid size o /\ n <= m <= length (shown o)
  end.
(** No range taken from another ConcatRange is prepended to a non-empty one. *)
Fixpoint no_prepend_from (h : history) : Prop :=
  match h with
  | HNew => True
  | HAppend h _ _ _ | HPrepend h _ _ _ | HClear h => no_prepend_from h
  | HAppendFrom h o _ _ => no_prepend_from h /\ no_prepend_from o
  | HPrependFrom h o n m => no_prepend_from h /\ no_prepend_from o /\ (shown h = [] \/ n = m)
  end.
(** The element position an iterator stands on. *)
Definition stands_on (a : cit) (p : nat * nat) : Prop := ci_pos a = At (fst p) (snd p).
(** Iterating from begin() to end() visits exactly [v], and backwards exactly
    its reverse. *)
Definition shows (size : nat -> nat) (r : concat_range) (v : list (nat * nat)) : Prop :=
  exists b e fwd bwd, cr_begin r = Ok b /\ cr_end r = Ok e /\
    walk (length v) size r b e = Ok fwd /\ Forall2 stands_on fwd v /\
    walk_back (length v) r e b = Ok bwd /\ Forall2 stands_on bwd (rev v).
