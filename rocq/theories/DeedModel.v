(** Executable model of deeds (include/walnut/deed.h).

    Deeds and targets are identified by their addresses; a dead address holds
    nothing.  The union of object_ and is_lender_ (deed.h 159-163) is modelled
    by its three meanings, assuming the address of a deed differs from that of
    every DeedTarget.  Using a dead address is undefined behaviour. *)
From Coq Require Import List Bool Arith.
From Verif Require Import BigUIntModel.
Import ListNotations.

Inductive slot := SNull | SObj (t : nat) | SLent.
(** GenericDeed, deed.h 159-164: the union and lender_. *)
Record deed := Dd { d_slot : slot; d_lender : option nat }.
(** The deeds, and owner_ of each DeedTarget, deed.h 49. *)
Record state := St { deeds : nat -> option deed; targets : nat -> option (option nat) }.
Definition st_empty : state := St (fun _ => None) (fun _ => None).
Definition upd {A} (f : nat -> A) (k : nat) (v : A) : nat -> A := fun x => if x =? k then v else f x.
Definition set_deed (s : state) (d : nat) (v : option deed) : state := St (upd (deeds s) d v) (targets s).
Definition set_target (s : state) (t : nat) (v : option (option nat)) : state := St (deeds s) (upd (targets s) t v).
Definition get_deed (s : state) (d : nat) : res deed := match deeds s d with Some v => Ok v | None => UB end.
Definition get_target (s : state) (t : nat) : res (option nat) := match targets s t with Some o => Ok o | None => UB end.
(** Memory for a new object must not be in use. *)
Definition fresh {A} (v : option A) : res unit := match v with None => Ok tt | Some _ => UB end.
(** is_lender, deed.h 108-110. *)
Definition is_lent (v : deed) : bool := match d_slot v with SLent => true | _ => false end.
(** p->object_ = x and p->owner_ = x. *)
Definition write_slot (s : state) (d : nat) (x : slot) : res state := v <- get_deed s d ;; Ok (set_deed s d (Some (Dd x (d_lender v)))).
Definition write_owner (s : state) (t : nat) (o : option nat) : res state := _ <- get_target s t ;; Ok (set_target s t (Some o)).
(** if (object_) object_->owner_ = o. *)
Definition own_slot (s : state) (x : slot) (o : option nat) : res state :=
  match x with SObj t => write_owner s t o | SNull => Ok s | SLent => UB end.

(** GenericDeed(), 55. *)
Definition d_new (s : state) (d : nat) : res state := _ <- fresh (deeds s d) ;; Ok (set_deed s d (Some (Dd SNull None))).
(** GenericDeed(DeedTarget pointer), 57-63. *)
Definition d_make (s : state) (d : nat) (object : option nat) : res state :=
  _ <- fresh (deeds s d) ;;
  match object with
  | None => UB
  | Some t =>
    o <- get_target s t ;;
    s <- (match o with Some l => write_slot s l SLent | None => Ok s end) ;;
    write_owner (set_deed s d (Some (Dd (SObj t) o))) t (Some d)
  end.
(** GenericDeed(GenericDeed&&), 67-76. *)
Definition d_move (dbg : bool) (s : state) (d other : nat) : res state :=
  _ <- fresh (deeds s d) ;;
  v <- get_deed s other ;;
  _ <- check dbg (negb (is_lent v)) ;;
  let s := set_deed (set_deed s d (Some v)) other (Some (Dd SNull None)) in
  own_slot s (d_slot v) (Some d).
(** Return, 112-123. *)
Definition d_return (dbg : bool) (s : state) (d : nat) : res state :=
  v <- get_deed s d ;;
  _ <- check dbg (negb (is_lent v)) ;;
  s <- (match d_lender v with Some l => write_slot s l (d_slot v) | None => Ok s end) ;;
  s <- own_slot s (d_slot v) (d_lender v) ;;
  Ok (set_deed s d (Some (Dd SNull None))).
(** ~GenericDeed, 78-88; the memory is released. *)
Definition d_destroy (dbg : bool) (s : state) (d : nat) : res state :=
  v <- get_deed s d ;;
  _ <- check dbg (negb (is_lent v)) ;;
  s <- (match d_lender v with Some l => write_slot s l (d_slot v) | None => Ok s end) ;;
  s <- own_slot s (d_slot v) (d_lender v) ;;
  Ok (set_deed s d None).
(** swap and move assignment, 90-106. *)
Definition d_swap (dbg : bool) (s : state) (d other : nat) : res state :=
  vo <- get_deed s other ;;
  _ <- check dbg (negb (is_lent vo)) ;;
  v <- get_deed s d ;;
  _ <- check dbg (negb (is_lent v)) ;;
  s <- own_slot s (d_slot v) (Some other) ;;
  s <- own_slot s (d_slot vo) (Some d) ;;
  Ok (set_deed (set_deed s d (Some vo)) other (Some v)).
(** GenericDeed::Lend, 137-140, 150-153; the result is constructed at [d]. *)
Definition g_lend (dbg : bool) (s : state) (d lender : nat) : res state :=
  _ <- fresh (deeds s d) ;;
  v <- get_deed s lender ;;
  _ <- check dbg (negb (is_lent v)) ;;
  Ok (set_deed (set_deed s d (Some (Dd (d_slot v) (Some lender)))) lender (Some (Dd SLent (d_lender v)))).
(** Deed<T>::Lend, 198-200: moved out of a temporary at [tmp]. *)
Definition d_lend (dbg : bool) (s : state) (d tmp lender : nat) : res state :=
  s <- g_lend dbg s tmp lender ;; s <- d_move dbg s d tmp ;; d_destroy dbg s tmp.
(** get, 142-145. *)
Definition d_get (dbg : bool) (s : state) (d : nat) : res (option nat) :=
  v <- get_deed s d ;; _ <- check dbg (negb (is_lent v)) ;;
  match d_slot v with SNull => Ok None | SObj t => Ok (Some t) | SLent => UB end.

(** DeedTarget() and the copy constructor, 23-28. *)
Definition t_new (s : state) (t : nat) : res state := _ <- fresh (targets s t) ;; Ok (set_target s t (Some None)).
(** DeedTarget(DeedTarget&&), 207-213. *)
Definition t_move (s : state) (t other : nat) : res state :=
  _ <- fresh (targets s t) ;;
  o <- get_target s other ;;
  let s := set_target (set_target s t (Some o)) other (Some None) in
  match o with Some d => write_slot s d (SObj t) | None => Ok s end.
(** Copy assignment, 36-38. *)
Definition t_copy_assign (s : state) (t other : nat) : res state := _ <- get_target s t ;; _ <- get_target s other ;; Ok s.
(** operator=(DeedTarget&&), 221-230. *)
Definition t_assign (s : state) (t other : nat) : res state :=
  o1 <- get_target s t ;;
  o2 <- get_target s other ;;
  s <- (match o1 with Some d => write_slot s d (SObj other) | None => Ok s end) ;;
  let s := set_target (set_target s t (Some o2)) other (Some o1) in
  match o2 with Some d => write_slot s d (SObj t) | None => Ok s end.
(** ~DeedTarget, 215-219. *)
Definition t_destroy (s : state) (t : nat) : res state :=
  o <- get_target s t ;;
  s <- (match o with Some d => write_slot s d SNull | None => Ok s end) ;;
  Ok (set_target s t None).

Inductive op :=
| DNew (d : nat) | DMake (d t : nat) | DMove (d other : nat) | DSwap (d other : nat) | DReturn (d : nat) | DDestroy (d : nat)
| DLend (d tmp lender : nat)
| TNew (t : nat) | TMove (t other : nat) | TCopyAssign (t other : nat) | TAssign (t other : nat) | TDestroy (t : nat).
Definition step (dbg : bool) (s : state) (o : op) : res state :=
  match o with
  | DNew d => d_new s d
  | DMake d t => d_make s d (Some t)
  | DMove d x => d_move dbg s d x
  | DSwap d x => d_swap dbg s d x
  | DReturn d => d_return dbg s d
  | DDestroy d => d_destroy dbg s d
  | DLend d tmp x => d_lend dbg s d tmp x
  | TNew t => t_new s t
  | TMove t x => t_move s t x
  | TCopyAssign t x => t_copy_assign s t x
  | TAssign t x => t_assign s t x
  | TDestroy t => t_destroy s t
  end.
Fixpoint run (dbg : bool) (s : state) (l : list op) : res state :=
  match l with [] => Ok s | o :: l => s' <- step dbg s o ;; run dbg s' l end.
