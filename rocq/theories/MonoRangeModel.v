(** Executable model of MonotoneRange (include/walnut/monotone_range.h) and of
    the loop over monotone ranges in ConvexPolygonFactory::Build
    (include/walnut/convex_polygon_factory.h 48-62).

    The class is a template over the iterator; an iterator is an index into the
    sequence [v], a pointer to a vertex is the vertex.  Dereferencing outside
    [v] and decrementing the index 0 are undefined.  IsEquivalentComponent
    (point3.h 133-136, homo_point3.h 304-311) is CompareComponent = 0, as both
    compare the same two numbers.  ConcatRange (property C23) is modelled by the
    list of the vertices it presents. *)
From Coq Require Import List Bool Arith ZArith.
From Verif Require Import BigUIntModel GeoModel TriModel PlanarModel.
Import ListNotations.
Open Scope nat_scope.

(** The vertices between two iterators. *)
Definition between {A} (v : list A) (b e : nat) : list A := firstn (e - b) (skipn b v).
(** chain_dir_, chain1_ and chain2_, 148-158, and the two in-out
    iterators of Build. *)
Record mrange (P : Type) := MR { mr_dir : Z; mr_chain1 : list P; mr_chain2 : list P; mr_begin : nat; mr_end : nat }.
Arguments MR {P}. Arguments mr_dir {P}. Arguments mr_chain1 {P}. Arguments mr_chain2 {P}. Arguments mr_begin {P}. Arguments mr_end {P}.
(** GetDir, 161-183; returns the direction and remaining_begin. *)
Fixpoint get_dir {P} (fuel : nat) (k : kind P) (mono : nat) (v : list P) (prev : P) (rb re : nat) : res (Z * nat) :=
  match fuel with
  | O => NoFuel
  | S f =>
    if rb =? re then Ok (0%Z, rb)
    else
      p <- get v rb ;;
      if (k_compare k mono p prev =? 0)%Z then get_dir f k mono v prev (S rb) re else Ok (k_compare k mono p prev, rb)
  end.
Definition decrement (i : nat) : res nat := match i with O => UB | S j => Ok j end.
(** FollowDirReverse, 185-198. *)
Fixpoint follow_reverse {P} (fuel : nat) (k : kind P) (mono : nat) (v : list P) (dir : Z) (next : P) (re : nat) : res nat :=
  match fuel with
  | O => NoFuel
  | S f =>
    p <- get v re ;;
    if (0 <=? k_compare k mono next p * dir)%Z then re' <- decrement re ;; follow_reverse f k mono v dir p re'
    else Ok (S re)
  end.
(** FollowDir, 200-209. *)
Fixpoint follow {P} (fuel : nat) (k : kind P) (mono : nat) (v : list P) (dir : Z) (prev : P) (rb : nat) : res nat :=
  match fuel with
  | O => NoFuel
  | S f =>
    p <- get v rb ;;
    if (0 <=? k_compare k mono p prev * dir)%Z then follow f k mono v dir p (S rb) else Ok rb
  end.
(** FollowDirUpTo, 211-222. *)
Fixpoint follow_up_to {P} (fuel : nat) (k : kind P) (mono : nat) (v : list P) (dir : Z) (prev : P) (rb : nat) (up_to : P) : res nat :=
  match fuel with
  | O => NoFuel
  | S f =>
    p <- get v rb ;;
    if (0 <? k_compare k mono up_to p * dir)%Z && (0 <=? k_compare k mono p prev * dir)%Z
    then follow_up_to f k mono v dir p (S rb) up_to else Ok rb
  end.
(** FollowDirUpToReverse, 224-239. *)
Fixpoint follow_up_to_reverse {P} (fuel : nat) (k : kind P) (mono : nat) (v : list P) (dir : Z) (next : P) (re : nat) (up_to : P) : res nat :=
  match fuel with
  | O => NoFuel
  | S f =>
    p <- get v re ;;
    if (0 <=? k_compare k mono next p * dir)%Z && (0 <? k_compare k mono p up_to * dir)%Z
    then re' <- decrement re ;; follow_up_to_reverse f k mono v dir p re' up_to
    else Ok (S re)
  end.
(** The while loop of step 4, 338-342. *)
Fixpoint skip_equal {P} (fuel : nat) (k : kind P) (mono : nat) (v : list P) (rb re : nat) : res nat :=
  match fuel with
  | O => NoFuel
  | S f =>
    if rb =? re then Ok rb
    else
      p <- get v rb ;; q <- get v re ;;
      if (k_compare k mono p q =? 0)%Z then skip_equal f k mono v (S rb) re else Ok rb
  end.
(** The while loop of step 5, 361-365. *)
Fixpoint skip_equal_reverse {P} (fuel : nat) (k : kind P) (mono : nat) (v : list P) (last_accepted : P) (rb re : nat) : res nat :=
  match fuel with
  | O => NoFuel
  | S f =>
    if rb =? re then Ok re
    else
      q <- get v re ;;
      if (k_compare k mono last_accepted q =? 0)%Z then re' <- decrement re ;; skip_equal_reverse f k mono v last_accepted rb re'
      else Ok re
  end.
(** Build, 241-374. *)
Definition mr_build {P} (dbg : bool) (k : kind P) (mono : nat) (v : list P) (b e : nat) : res (mrange P) :=
  let fuel := S (length v) in
  if b =? e then Ok (MR 0%Z [] [] b e)
  else
    (* Step 1 *)
    re <- decrement e ;;
    last <- get v re ;;
    t <- get_dir fuel k mono v last b re ;;
    let '(dir, rb) := t in
    if (dir =? 0)%Z then
      Ok (MR 0%Z (between v b e) (between v re e ++ (if re =? b then [] else between v b (S b))) rb re)
    else
      _ <- check dbg (negb (rb =? re)) ;;
      (* Step 2 *)
      re1 <- decrement re ;;
      re <- follow_reverse fuel k mono v dir last re1 ;;
      _ <- check dbg (negb (re =? rb)) ;;
      _ <- check dbg (negb (re =? e)) ;;
      (* Step 3 *)
      prev <- get v rb ;;
      rb <- follow fuel k mono v dir prev (S rb) ;;
      _ <- check dbg (negb (rb =? b)) ;;
      let chain1 := between v re e ++ between v b rb in
      (* Step 4 *)
      rbeg <- decrement rb ;;
      prev <- get v rbeg ;;
      up_to <- get v re ;;
      rb <- follow_up_to fuel k mono v (- dir) prev rb up_to ;;
      _ <- check dbg (negb (rb =? rbeg)) ;;
      rb <- skip_equal fuel k mono v rb re ;;
      (* Step 5 *)
      let rend := S re in
      next <- get v re ;;
      re2 <- decrement re ;;
      la <- decrement rb ;;
      last_accepted <- get v la ;;
      re <- follow_up_to_reverse fuel k mono v (- dir) next re2 last_accepted ;;
      re <- (if rb =? re then Ok re
             else re3 <- decrement re ;; re4 <- skip_equal_reverse fuel k mono v last_accepted rb re3 ;; Ok (S re4)) ;;
      let chain2 := between v rbeg rb ++ between v re rend in
      if rb =? re then Ok (MR dir chain1 chain2 rb re)
      else rb' <- decrement rb ;; Ok (MR dir chain1 chain2 rb' (S re)).
(** GetChains, 376-393: both chains from their begin to their end iterator. *)
Definition get_chains {P} (r : mrange P) : list P * list P :=
  if (0 <=? mr_dir r)%Z then (mr_chain1 r, rev (mr_chain2 r)) else (mr_chain2 r, rev (mr_chain1 r)).
(** The loop of ConvexPolygonFactory::Build(plane, begin, end), 48-62: the
    chains handed to the decomposer. *)
Fixpoint mono_loop {P} (dbg : bool) (fuel : nat) (k : kind P) (mono : nat) (v : list P) (b e : nat) : res (list (list P * list P)) :=
  if b =? e then Ok []
  else
    match fuel with
    | O => NoFuel
    | S f => r <- mr_build dbg k mono v b e ;; t <- mono_loop dbg f k mono v (mr_begin r) (mr_end r) ;; Ok (get_chains r :: t)
    end.
