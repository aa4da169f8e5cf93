(** Ownership as a user of deeds understands it. *)
From Coq Require Import List Bool Arith.
From Verif Require Import BigUIntModel DeedModel.
Import ListNotations.
Definition live_deed (s : state) (d : nat) : Prop := deeds s d <> None.
Definition live_target (s : state) (t : nat) : Prop := targets s t <> None.
(** [d] gives access to [t]. *)
Definition holds (s : state) (d t : nat) : Prop := d_get true s d = Ok (Some t).
(** [d] has been lent out; [d'] is the deed that borrowed from it. *)
Definition lent (s : state) (d : nat) : Prop := exists m, deeds s d = Some (Dd SLent m).
Definition borrowed_from (s : state) (d lender : nat) : Prop := exists x, deeds s d = Some (Dd x (Some lender)).
(** The deeds an operation uses must not be lent out at that moment. *)
Definition uses (o : op) : list nat :=
  match o with
  | DMove _ x => [x] | DSwap d x => [d; x] | DReturn d | DDestroy d => [d] | DLend _ _ x => [x]
  | _ => []
  end.
Definition allowed (s : state) (o : op) : Prop :=
  (forall d, In d (uses o) -> live_deed s d /\ ~ lent s d) /\
  match o with
  | DNew d => ~ live_deed s d
  | DMake d t => ~ live_deed s d /\ live_target s t
  | DMove d _ => ~ live_deed s d
  | DLend d tmp _ => ~ live_deed s d /\ ~ live_deed s tmp /\ d <> tmp
  | TNew t => ~ live_target s t
  | TMove t x => ~ live_target s t /\ live_target s x
  | TCopyAssign t x | TAssign t x => live_target s t /\ live_target s x
  | TDestroy t => live_target s t
  | _ => True
  end.
(** What every state should satisfy. *)
Record consistent (s : state) : Prop := {
  (** A target is held by at most one deed; the deed points at a live target. *)
  co_one : forall d d' t, holds s d t -> holds s d' t -> d = d';
  co_live : forall d t, holds s d t -> live_target s t;
  (** The holder is the deed the target knows. *)
  co_owner : forall d t, holds s d t <-> targets s t = Some (Some d);
  (** A lender is lent out to exactly one deed. *)
  co_lender : forall d l, borrowed_from s d l -> lent s l;
  co_borrower : forall l, lent s l -> exists d, borrowed_from s d l;
  co_unique : forall d d' l, borrowed_from s d l -> borrowed_from s d' l -> d = d'
}.
(** Following the lenders ends at a deed that borrowed from nobody. *)
Inductive rooted (s : state) : nat -> Prop :=
| rooted_end : forall d x, deeds s d = Some (Dd x None) -> rooted s d
| rooted_step : forall d x l, deeds s d = Some (Dd x (Some l)) -> rooted s l -> rooted s d.
Definition sound (s : state) : Prop := consistent s /\ forall d, live_deed s d -> rooted s d.
(** States reached from the empty state by allowed operations. *)
Inductive history (dbg : bool) : list op -> state -> Prop :=
| history_nil : history dbg [] st_empty
| history_step : forall l s o s', history dbg l s -> allowed s o -> step dbg s o = Ok s' -> history dbg (l ++ [o]) s'.
(** [d] gives access to nothing. *)
Definition null (s : state) (d : nat) : Prop := d_get true s d = Ok None.
(** [d'] afterwards stands where [d] stood before: same access, same lender. *)
Definition takes_place (s : state) (d : nat) (s' : state) (d' : nat) : Prop :=
  (forall t, holds s d t -> holds s' d' t) /\ (null s d -> null s' d') /\ forall l, borrowed_from s d l <-> borrowed_from s' d' l.
Definition same_but (s s' : state) (P : nat -> Prop) : Prop := forall d, ~ P d -> deeds s' d = deeds s d.
(** [l] gets back what [d] gives access to. *)
Definition gives_back (s s' : state) (d : nat) : Prop :=
  (forall l, borrowed_from s d l -> (forall t, holds s d t -> holds s' l t) /\ (null s d -> null s' l)) /\
  (forall t, holds s d t -> (forall l, ~ borrowed_from s d l) -> targets s' t = Some None) /\
  same_but s s' (fun y => y = d \/ borrowed_from s d y).
(** The borrowings do not change. *)
Definition same_loans (s s' : state) : Prop := forall d l, borrowed_from s d l <-> borrowed_from s' d l.
Definition effect (o : op) (s s' : state) : Prop :=
  match o with
  | DNew d => null s' d /\ (forall l, ~ borrowed_from s' d l) /\ same_but s s' (fun y => y = d)
  | DMake d t => holds s' d t /\ (forall l, holds s l t -> lent s' l /\ borrowed_from s' d l) /\ same_but s s' (fun y => y = d \/ holds s y t)
  | DMove d x => takes_place s x s' d /\ null s' x /\ (forall l, ~ borrowed_from s' x l) /\ same_but s s' (fun y => y = d \/ y = x)
  | DSwap d x => takes_place s x s' d /\ takes_place s d s' x /\ same_but s s' (fun y => y = d \/ y = x)
  | DReturn d => null s' d /\ (forall l, ~ borrowed_from s' d l) /\ gives_back s s' d
  | DDestroy d => ~ live_deed s' d /\ gives_back s s' d
  | DLend d tmp x => (forall t, holds s x t -> holds s' d t) /\ (null s x -> null s' d) /\ lent s' x /\ borrowed_from s' d x /\
      (forall l, borrowed_from s x l <-> borrowed_from s' x l) /\ same_but s s' (fun y => y = d \/ y = x)
  | TNew t => targets s' t = Some None /\ same_but s s' (fun _ => False)
  | TMove t x => (forall d, holds s d x -> holds s' d t) /\ targets s' x = Some None /\ same_loans s s' /\ same_but s s' (fun y => holds s y x)
  | TCopyAssign t x => s' = s
  | TAssign t x => (forall d, holds s d x -> holds s' d t) /\ (forall d, holds s d t -> holds s' d x) /\ same_loans s s' /\ same_but s s' (fun y => holds s y x \/ holds s y t)
  | TDestroy t => (forall d, holds s d t -> null s' d) /\ same_loans s s' /\ same_but s s' (fun y => holds s y t)
  end /\
  (** which targets are alive afterwards *)
  forall u, live_target s' u <->
    match o with TNew t | TMove t _ => u = t \/ live_target s u | TDestroy t => u <> t /\ live_target s u | _ => live_target s u end.
