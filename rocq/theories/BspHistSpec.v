(** Histories of a BSP tree: adding polygons and splitting leaves. *)
From Coq Require Import List ZArith QArith Permutation.
From Verif Require Import BigUIntModel GeoModel PolyModel PolySpec RTransModel FilterModel BspModel BspSpec.
Import ListNotations.

(** A polygon as the caller passes it: no edge says anything about any plane. *)
Definition fresh_poly (id : nat) (p : poly unit) : bpoly :=
  BP (Poly (pplane p) (pdrop p) (map (fun e => PE (pv e) (pl e) bd_new) (pedges p))) None id None.
(** AddContents with an id, or Split of the node that a path of children leads to
    (true: the positive child). *)
Inductive bop := OAdd (id : nat) (ps : list (poly unit)) | OSplit (at_ : list bool) (h : hspace3).
Definition do_op (dbg boxed : bool) (o : bop) (t : bnode) : res bnode :=
  match o with OAdd id ps => add_contents dbg boxed id ps t | OSplit ds h => at_path ds (bn_split dbg h) t end.
Definition run_ops (dbg boxed : bool) (ops : list bop) (t : bnode) : res bnode := rfold (do_op dbg boxed) ops t.
(** The node that the path ds leads to, and the planes passed on the way. *)
Definition reaches (t : bnode) (ds : list bool) (w : path) (x : bnode) : Prop := at_node t w x /\ map ss_pos w = ds.
(** What the caller has to see to: convex polygons, with an id for which there is
    room if the tree has been split already; and for Split a leaf and a plane that
    is not one of its ancestors'. *)
Definition legal (t : bnode) (o : bop) : Prop :=
  match o with
  | OAdd id ps => Forall (fun p => exists qs, poly_ok p qs) ps /\ (leaf t \/ knows t id)
  | OSplit ds h => exists w x, reaches t ds w x /\ leaf x /\ fresh_plane w h
  end.
Fixpoint legal_ops (dbg boxed : bool) (ops : list bop) (t : bnode) : Prop :=
  match ops with [] => True | o :: ops => legal t o /\ forall t', do_op dbg boxed o t = Ok t' -> legal_ops dbg boxed ops t' end.
(** All polygons that have been added. *)
Definition added_polys (ops : list bop) : list bpoly :=
  flat_map (fun o => match o with OAdd id ps => map (fresh_poly id) ps | OSplit _ _ => [] end) ops.

(** ** Split() *)
(** What std::nth_element promises about the middle of the result, for fractions:
    nothing before it is larger, nothing after it is smaller. *)
Definition nth_ok (nth : list (Z * Z) -> list (Z * Z)) : Prop := forall l, Forall (fun x => snd x <> 0%Z) l -> Permutation (nth l) l /\
  forall m, nth_error (nth l) (length l / 2) = Some m ->
    (forall x, In x (firstn (length l / 2) (nth l)) -> rat_lt (fst m) (snd m) (fst x) (snd x) = false) /\
    (forall x, In x (skipn (S (length l / 2)) (nth l)) -> rat_lt (fst x) (snd x) (fst m) (snd m) = false).
(** Split() of the node that a path leads to. *)
Definition auto_step (dbg : bool) (gcd : Z -> Z -> res Z) (nth : list (Z * Z) -> list (Z * Z)) (t t' : bnode) : Prop :=
  exists ds w x, reaches t ds w x /\ leaf x /\ n_contents x <> [] /\ at_path ds (bn_split_auto dbg gcd nth) t = Ok t'.
(** k such steps, one after the other. *)
Inductive auto_steps (dbg : bool) (gcd : Z -> Z -> res Z) (nth : list (Z * Z) -> list (Z * Z)) : nat -> bnode -> bnode -> Prop :=
| as_none t : auto_steps dbg gcd nth 0 t t
| as_one k t t' t'' : auto_step dbg gcd nth t t' -> auto_steps dbg gcd nth k t' t'' -> auto_steps dbg gcd nth (S k) t t''.
(** Each leaf has at most 40 polygons that are not on its border. *)
Definition small_leaves (t : bnode) : Prop := forall w x, at_node t w x -> leaf x -> (length (n_contents x) <= 40)%nat.
(** Sum of 2^n - 1 over the leaves, n being their numbers of such polygons. *)
Fixpoint budget (t : bnode) : nat :=
  match t with BNil => 0 | BNode s cs _ _ n p => if hs_valid s then budget n + budget p else 2 ^ length cs - 1 end.
