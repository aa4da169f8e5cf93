(** Executable model of RedirectableValue (include/walnut/redirectable_value.h)
    and of VertexDoublePoint3Mapper (include/walnut/vertex_double_point3_mapper.h).

    Handles are identified by their addresses.  [redir] is redirect_ of every
    live handle; [vals] is the value_ storage of an address, None when no value
    has been constructed there or it has been destroyed.  Loops take fuel;
    running out is the distinct outcome NoFuel.  Values are natural numbers. *)
From Coq Require Import List Bool Arith.
From Verif Require Import BigUIntModel DeedModel.
Import ListNotations.

(** redirect_ and value_, 91-92. *)
Record rstate := RS { redir : nat -> option nat; vals : nat -> option nat }.
Definition rs_empty : rstate := RS (fun _ => None) (fun _ => None).
Definition rget (s : rstate) (x : nat) : res nat := match redir s x with Some r => Ok r | None => UB end.
Definition rset (s : rstate) (x r : nat) : rstate := RS (upd (redir s) x (Some r)) (vals s).
(** ~Value() on storage that holds no value is undefined. *)
Definition vdestroy (s : rstate) (x : nat) : res rstate :=
  match vals s x with Some _ => Ok (RS (redir s) (upd (vals s) x None)) | None => UB end.
(** The value constructors, 14-16 and 24-27. *)
Definition r_new (s : rstate) (x v : nat) : res rstate :=
  _ <- fresh (redir s x) ;; Ok (RS (upd (redir s) x (Some x)) (upd (vals s) x (Some v))).
(** The copy constructors, 18-22. *)
Definition r_copy (s : rstate) (x other : nat) : res rstate :=
  _ <- fresh (redir s x) ;; r <- rget s other ;; Ok (rset s x r).
(** ~RedirectableValue, 29-33; the memory is released. *)
Definition r_destroy (s : rstate) (x : nat) : res rstate :=
  r <- rget s x ;;
  s <- (if r =? x then vdestroy s x else Ok s) ;;
  Ok (RS (upd (redir s) x None) (vals s)).
(** primary() const, 63-69. *)
Fixpoint r_walk (fuel : nat) (s : rstate) (r : nat) : res nat :=
  match fuel with
  | O => NoFuel
  | S fuel => r' <- rget s r ;; if r =? r' then Ok r else r_walk fuel s r'
  end.
Definition r_primary_const (fuel : nat) (s : rstate) (x : nat) : res nat := r <- rget s x ;; r_walk fuel s r.
(** primary(), 71-76. *)
Fixpoint r_primary (fuel : nat) (s : rstate) (x : nat) : res (nat * rstate) :=
  match fuel with
  | O => NoFuel
  | S fuel => r <- rget s x ;; r' <- rget s r ;; if r =? r' then Ok (r, s) else r_primary fuel (rset s x r') x
  end.
(** operator==, 39-41. *)
Definition r_eq (fuel : nat) (s : rstate) (x y : nat) : res bool :=
  p <- r_primary_const fuel s x ;; q <- r_primary_const fuel s y ;; Ok (p =? q).
(** operator* and operator-> const, 47-49 and 55-57. *)
Definition r_deref_const (fuel : nat) (s : rstate) (x : nat) : res nat :=
  p <- r_primary_const fuel s x ;; match vals s p with Some v => Ok v | None => UB end.
(** operator* and operator->, 43-45 and 51-53. *)
Definition r_deref (fuel : nat) (s : rstate) (x : nat) : res (nat * rstate) :=
  ps <- r_primary fuel s x ;; match vals (snd ps) (fst ps) with Some v => Ok (v, snd ps) | None => UB end.
(** IsPrimary, 59-61. *)
Definition r_is_primary (fuel : nat) (s : rstate) (x : nat) : res bool := p <- r_primary_const fuel s x ;; Ok (p =? x).
(** Redirect, 80-88. *)
Definition r_redirect (fuel : nat) (s : rstate) (x to : nat) : res rstate :=
  ps <- r_primary fuel s to ;;
  let s := snd ps in
  r <- rget s x ;;
  if fst ps =? r then Ok s else
  s <- (if r =? x then vdestroy s x else Ok s) ;;
  ps <- r_primary fuel s to ;;
  Ok (rset (snd ps) x (fst ps)).

Inductive rop := RNew (x v : nat) | RCopy (x other : nat) | RTouch (x : nat) | RRedirect (x to : nat) | RDestroy (x : nat).
Definition rstep (fuel : nat) (s : rstate) (o : rop) : res rstate :=
  match o with
  | RNew x v => r_new s x v
  | RCopy x y => r_copy s x y
  | RTouch x => vs <- r_deref fuel s x ;; Ok (snd vs)
  | RRedirect x y => r_redirect fuel s x y
  | RDestroy x => r_destroy s x
  end.
Fixpoint rrun (fuel : nat) (s : rstate) (l : list rop) : res rstate :=
  match l with [] => Ok s | o :: l => s' <- rstep fuel s o ;; rrun fuel s' l end.

(** Map, vertex_double_point3_mapper.h 59-91.  The map is keyed by
    DoublePoint3, here a natural number that is also the address of its entry;
    [factory] gives the new values.  [edge] is the pair of the double point of
    the edge's vertex and, when there is a next edge around the vertex, of that
    edge's vertex. *)
Definition m_map (factory : nat -> nat) (merger : nat -> rstate -> nat -> nat -> res rstate) (fuel : nat) (s : rstate) (edge : nat * option nat) : res rstate :=
  let first := fst edge in
  s <- (match redir s first with Some _ => Ok s | None => r_new s first (factory first) end) ;;
  match snd edge with
  | None => Ok s
  | Some next =>
    if next =? first then Ok s else
    match redir s next with
    | None => r_copy s next first
    | Some _ => e <- r_eq fuel s next first ;; if e then Ok s else merger fuel s first next
    end
  end.
Fixpoint m_map_all (factory : nat -> nat) (merger : nat -> rstate -> nat -> nat -> res rstate) (fuel : nat) (s : rstate) (edges : list (nat * option nat)) : res rstate :=
  match edges with [] => Ok s | e :: l => s <- m_map factory merger fuel s e ;; m_map_all factory merger fuel s l end.
(** The merger of vtk_interface/include/walnut/walnut_to_vtk_mesh.h 49-52:
    a.Redirect(b). *)
Definition vtk_merger (fuel : nat) (s : rstate) (a b : nat) : res rstate := r_redirect fuel s a b.
(** a.primary().Redirect(b); not in the code, used to show what a merger has to do. *)
Definition primary_merger (fuel : nat) (s : rstate) (a b : nat) : res rstate :=
  ps <- r_primary fuel s a ;; r_redirect fuel (snd ps) (fst ps) b.
