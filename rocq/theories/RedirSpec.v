(** Redirectable values as a user understands them: each handle stands for one
    value, kept by the handle's primary. *)
From Coq Require Import List Bool Arith.
From Verif Require Import BigUIntModel RedirModel.
Import ListNotations.
(** Following redirects from [x] ends at [p]. *)
Inductive leads (s : rstate) : nat -> nat -> Prop :=
| leads_end : forall p, redir s p = Some p -> leads s p p
| leads_step : forall x y p, redir s x = Some y -> y <> x -> leads s y p -> leads s x p.
Definition live (s : rstate) (x : nat) : Prop := redir s x <> None.
Record rsound (s : rstate) : Prop := {
  (** following redirects ends *)
  rs_leads : forall x, live s x -> exists p, leads s x p;
  (** the values that exist are exactly those of the primaries *)
  rs_vals : forall x, vals s x <> None <-> redir s x = Some x
}.
Definition rallowed (s : rstate) (o : rop) : Prop :=
  match o with
  | RNew x _ => ~ live s x
  | RCopy x y => ~ live s x /\ live s y
  | RTouch x => live s x
  | RRedirect x y => live s x /\ live s y
  | RDestroy x => live s x /\ forall y, y <> x -> redir s y <> Some x
  end.
Definition same_class (s : rstate) (x y : nat) : Prop := exists p, leads s x p /\ leads s y p.
Definition reffect (o : rop) (s s' : rstate) : Prop :=
  (forall y, live s' y <-> match o with RNew x _ | RCopy x _ => y = x \/ live s y | RDestroy x => y <> x /\ live s y | _ => live s y end) /\
  match o with
  | RNew x v => leads s' x x /\ vals s' x = Some v /\ (forall y p, leads s y p -> leads s' y p) /\ forall y, y <> x -> vals s' y = vals s y
  | RCopy x y => same_class s' x y /\ (forall y p, leads s y p -> leads s' y p) /\ forall y, vals s' y = vals s y
  | RTouch x => (forall y p, leads s y p -> leads s' y p) /\ forall y, vals s' y = vals s y
  | RDestroy x => (forall y p, y <> x -> leads s y p -> leads s' y p) /\ (leads s x x -> vals s' x = None) /\ forall y, y <> x -> vals s' y = vals s y
  | RRedirect x to =>
    (** from then on [x] stands for the value of [to] *)
    (forall q, leads s to q -> leads s' x q /\ leads s' to q) /\
    (** other classes are left alone *)
    (forall p, leads s x p -> forall y q, leads s y q -> q <> p -> leads s' y q) /\
    (** redirecting a primary merges the two classes; its value is destroyed *)
    (leads s x x -> forall q, leads s to q -> (forall y, leads s y x -> leads s' y q) /\ (q <> x -> vals s' x = None)) /\
    (** redirecting another handle takes it out of its class *)
    (forall p q, leads s x p -> leads s to q -> p <> x -> leads s' p p /\ forall y, leads s y p -> leads s' y p \/ leads s' y q) /\
    (** no other value is touched *)
    forall y, y <> x \/ ~ leads s x x \/ leads s to x -> vals s' y = vals s y
  end.
Inductive rhistory : list rop -> rstate -> Prop :=
| rh_nil : rhistory [] rs_empty
| rh_step : forall l s o s', rhistory l s -> rallowed s o -> (exists enough, forall fuel, enough <= fuel -> rstep fuel s o = Ok s') -> rhistory (l ++ [o]) s'.

(** *** Merging the representations of a vertex *)
(** [x] and [y] are joined by a chain of edge / next-edge pairs. *)
Inductive joined (edges : list (nat * option nat)) : nat -> nat -> Prop :=
| j_refl : forall x, joined edges x x
| j_pair : forall a b, In (a, Some b) edges -> joined edges a b
| j_sym : forall x y, joined edges x y -> joined edges y x
| j_trans : forall x y z, joined edges x y -> joined edges y z -> joined edges x z.
Definition mentioned (edges : list (nat * option nat)) (x : nat) : Prop := exists e, In e edges /\ (fst e = x \/ snd e = Some x).
(** What a merger has to do: unite the classes of its two arguments. *)
Definition unites (m : nat -> rstate -> nat -> nat -> res rstate) : Prop :=
  forall s a b, rsound s -> live s a -> live s b -> ~ same_class s a b ->
  exists s', (exists enough, forall fuel, enough <= fuel -> m fuel s a b = Ok s') /\ rsound s' /\ (forall x, live s' x <-> live s x) /\
    forall x y, live s x -> live s y -> (same_class s' x y <-> same_class s x y \/ (same_class s x a /\ same_class s y b) \/ (same_class s x b /\ same_class s y a)).
