(** Specification vocabulary for planes fitted to vertices and for the repaired
    mesh. *)
From Coq Require Import List ZArith QArith.
From Verif Require Import BigUIntModel GeoModel GeoSpec NudgeModel.
Import ListNotations.
Open Scope Z_scope.
(** The homogeneous point (x, y, z, w) satisfies the plane's equation.  When
    it denotes a rational point this says that the point is on the plane
    ([incident_denotes]). *)
Definition incident (h : hspace3) (p : hpoint3) : Prop := v3_dot (hn h) (hv p) = hw p * hd h.
(** Calls that add a vertex, and those that add a constrained one. *)
Definition is_vertex (o : nbop) : bool := match o with NLarge => false | _ => true end.
Definition is_constrained (o : nbop) : bool := match o with NCon _ => true | _ => false end.
Definition vertex_of (o : nbop) : list hpoint3 := match o with NUnc v | NCon v => [v] | NLarge => [] end.
Definition count {A} (f : A -> bool) (l : list A) : nat := length (filter f l).
(** HasLargePlane was called with three or more vertices present, and a
    constrained vertex came after it. *)
Definition queried_early (ops : list nbop) : Prop :=
  exists before after, ops = before ++ NLarge :: after /\ (3 <= count is_vertex before)%nat /\ (1 <= count is_constrained after)%nat.
(** Some coefficient does not fit in 32 bits. *)
Definition fits32 (z : Z) : Prop := - 2 ^ 31 <= z < 2 ^ 31.
Definition small_plane (h : hspace3) : Prop := Forall fits32 (l4 h).
(** In the same order, possibly with some left out. *)
Inductive subsequence {A} : list A -> list A -> Prop :=
| sub_nil l : subsequence [] l
| sub_take x k l : subsequence k l -> subsequence (x :: k) (x :: l)
| sub_skip x k l : subsequence k l -> subsequence k (x :: l).
(** h is the plane of the triangle, oriented so that the triangle is
    counter-clockwise seen from the positive side. *)
Definition plane_of (h : hspace3) (q1 q2 q3 : qpoint) : Prop :=
  forall v, qsign (side h v) = qsign (side_of_triangle q1 q2 q3 v).
(** h is the oriented plane of three homogeneous points, if they denote points. *)
Definition plane_through (h : hspace3) (p1 p2 p3 : hpoint3) : Prop :=
  forall q1 q2 q3, denotes p1 q1 -> denotes p2 q2 -> denotes p3 q3 -> plane_of h q1 q2 q3.

(** ** Meshes *)
(** Every coefficient is zero: no plane. *)
Definition no_plane (h : hspace3) : Prop := Forall (fun c => c = 0) (l4 h).
(** Calls on a MeshPlaneRepairer: AddVertex and FinishFacet. *)
Inductive mop := MVertex (p : hpoint3) | MFinish.
(** A history of calls, with the vertex record each AddVertex used. *)
Inductive mesh_run (dbg : bool) (gcd : Z -> Z -> res Z) : mesh -> list mop -> mesh -> list (hpoint3 * nat) -> Prop :=
| mr_nil m : mesh_run dbg gcd m [] m []
| mr_vertex m p m1 i ops m2 l : add_vertex_info gcd m p = Ok (m1, i) ->
    mesh_run dbg gcd (Mesh (m_store m1) (m_map m1) (m_verts m1) (m_polys m1) (m_active m1 ++ [i])) ops m2 l ->
    mesh_run dbg gcd m (MVertex p :: ops) m2 ((p, i) :: l)
| mr_finish m m1 ops m2 l : finish_facet dbg gcd m = Ok m1 -> mesh_run dbg gcd m1 ops m2 l -> mesh_run dbg gcd m (MFinish :: ops) m2 l.
(** All vertices of a facet on one plane. *)
Definition flat_facet (f : list hpoint3) : Prop := exists h, hs_valid h = true /\ Forall (incident h) f.
