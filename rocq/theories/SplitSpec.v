(** Splitting an edge of a mesh in two. *)
From Coq Require Import List ZArith QArith.
From Verif Require Import BigUIntModel GeoModel GeoSpec PolyModel PolySpec TriSpec LinkModel LinkSpec SplitModel ConnModel ConnSpec.
Import ListNotations.

(** Partners refer to each other.  They need not have the same end points: while a
    line is processed, an edge reaches beyond its partner until it is split. *)
Definition mutual (st : mesh) : Prop := forall i h d, half_in st i h -> f_partner h = Some d ->
  d <> f_id h /\ exists j g, half_in st j g /\ f_id g = d /\ f_partner g = Some (f_id h).
(** A part of a half-edge. *)
Definition part (h : hedge) (id : nat) (partner : option nat) (a b : qpoint) : hedge := HE id (f_poly h) partner a b (f_dir h).
(** The half-edge with another partner. *)
Definition with_partner (h : hedge) (o : option nat) : hedge := HE (f_id h) (f_poly h) o (f_from h) (f_to h) (f_dir h).
(** A link to [old] now leads to [new]. *)
Definition redirected (old new : nat) (h : hedge) : hedge :=
  with_partner h (match f_partner h with Some d => Some (if (d =? old)%nat then new else d) | None => None end).
Definition fresh (st : mesh) (new : nat) : Prop := forall i h, half_in st i h -> f_id h <> new.

(** The pieces of ConnModel are edges of the mesh: piece [i] is the edge with the
    number that [gs] has at [i], with the same end points and the partner that
    corresponds. *)
Definition shows_pieces (st : mesh) (gs : list nat) (ps : list piece) : Prop := NoDup gs /\ length gs = length ps /\
  forall i q id, nth_error ps i = Some q -> nth_error gs i = Some id -> exists j h, half_in st j h /\ f_id h = id /\
    f_from h = hp_point (p_from q) /\ f_to h = hp_point (p_to q) /\
    match p_partner q with None => f_partner h = None | Some d => exists d', nth_error gs d = Some d' /\ f_partner h = Some d' end.

(** [st'] is the result of splitting edges, in each case with an unused number for
    the new edge, and of connecting edges. *)
Inductive edited (dbg : bool) : mesh -> mesh -> Prop :=
  | ed_none st : edited dbg st st
  | ed_split st st1 st2 id m pos new : fresh st new -> split_connected dbg st id m pos new = Ok st1 -> edited dbg st1 st2 -> edited dbg st st2
  | ed_link st st1 st2 a b : link_edges dbg st a b = Ok st1 -> edited dbg st1 st2 -> edited dbg st st2.
(** [g] goes in the direction of [h] and has its end points on the line of [h]. *)
Definition in_line (g h : hedge) : Prop := f_dir g = f_dir h /\ exists t u, qp_eq (f_from g) (between (f_from h) (f_to h) t) /\ qp_eq (f_to g) (between (f_from h) (f_to h) u).
(** A line: the dimension used along it, what is read from its edges and their
    numbers. *)
Record line := Line { n_dim : nat; n_halves : list half; n_ids : list nat }.
(** The half-edge has the end points of the edge.  Nothing is demanded of its
    direction and normal, beyond what [line_input] and [closed_line] say about the
    half-edges of a line, so the theorems hold in particular for those of the
    edge and its polygon, which the code reads. *)
Definition describes (st : mesh) (id : nat) (h : half) : Prop := exists j g, half_in st j g /\ f_id g = id /\ f_from g = hp_point (h_from h) /\ f_to g = hp_point (h_to h).
(** The lines have all edges of the mesh, each one once, and on each line they
    are part of a closed surface. *)
Definition closed_lines (st : mesh) (ls : list line) : Prop := NoDup (concat (map n_ids ls)) /\ (forall i h, half_in st i h -> In (f_id h) (concat (map n_ids ls))) /\
  forall l, In l ls -> Forall2 (describes st) (n_ids l) (n_halves l) /\ line_input (n_dim l) (n_halves l) /\ closed_line (n_dim l) (n_halves l).
(** The edges [gs] are all edges on their lines: no other edge that goes in the same
    direction begins or ends on the line of one of them. *)
Definition whole_lines (st : mesh) (gs : list nat) : Prop := forall i j h g t, half_in st i h -> half_in st j g -> In (f_id h) gs -> ~ In (f_id g) gs -> same_direction (l3 (f_dir h)) (l3 (f_dir g)) ->
  ~ qp_eq (f_from g) (between (f_from h) (f_to h) t) /\ ~ qp_eq (f_to g) (between (f_from h) (f_to h) t).
