(** Vocabulary of the statements about the finite element on the tetrahedra of a mesh. *)
From Coq Require Import List Arith Bool Reals.
From Verif Require Import Base RSum MatrixModel MonomialsSpec TriangleModel TriangleSpec TetModel TetLocalModel.
Import ListNotations.
Local Open Scope R_scope.

(** vertex [w] of the reference tetrahedron (and of the reference triangle): the origin, then the unit points of the axes *)
Definition ref_vertex (w : nat) : point := fun d => if (w =? S d)%nat then 1 else 0.
(** the two points have the same three coordinates *)
Definition same3 (x y : point) : Prop := forall c, (c < 3)%nat -> x c = y c.
(** edge [e] joins the vertices [a] and [b], in one of the two orders *)
Definition joins (g : Tet_Geometry) (e a b : nat) : Prop := nth_error (tg_Edges g) e = Some (a, b) \/ nth_error (tg_Edges g) e = Some (b, a).
(** the vertices of the face [f] are [v0], [v1], [v2] and its edges [e0], [e1], [e2], each from a vertex to the next *)
Definition face_of (g : Tet_Geometry) (f v0 v1 v2 e0 e1 e2 : nat) : Prop :=
  nth_error (tg_Faces g) f = Some ([v0; v1; v2], [e0; e1; e2]) /\
  (v0 < 4 /\ v1 < 4 /\ v2 < 4 /\ v0 <> v1 /\ v1 <> v2 /\ v2 <> v0)%nat /\
  (e0 < 6 /\ e1 < 6 /\ e2 < 6)%nat /\ joins g e0 v0 v1 /\ joins g e1 v1 v2 /\ joins g e2 v2 v0.

(** [g] describes the tetrahedron with vertices [V]: the map takes the vertices of the reference tetrahedron to [V] and has an
    inverse; the six edges are the six pairs of vertices; the four faces are the four triples of vertices, with their three edges;
    the plane description of every face, rotated and translated, has the vertices of the face. *)
Definition tetrahedron (g : Tet_Geometry) (V : nat -> point) : Prop :=
  (forall w, (w < 4)%nat -> same3 (affine (mt_B (tg_Map g)) (mt_b (tg_Map g)) (ref_vertex w)) (V w)) /\
  inverse3 (mt_B (tg_Map g)) (mt_BInv (tg_Map g)) /\
  (forall e, (e < 6)%nat -> exists a b, nth_error (tg_Edges g) e = Some (a, b) /\ (a < 4)%nat /\ (b < 4)%nat /\ a <> b) /\
  (forall a b, (a < 4)%nat -> (b < 4)%nat -> a <> b -> exists e, (e < 6)%nat /\ joins g e a b) /\
  (6 <= length (tg_EdgesDirection g))%nat /\
  (forall f, (f < 4)%nat -> exists v0 v1 v2 e0 e1 e2, face_of g f v0 v1 v2 e0 e1 e2) /\
  (forall w, (w < 4)%nat -> exists f v0 v1 v2 e0 e1 e2, (f < 4)%nat /\ face_of g f v0 v1 v2 e0 e1 e2 /\ v0 <> w /\ v1 <> w /\ v2 <> w) /\
  (forall f v0 v1 v2 e0 e1 e2, (f < 4)%nat -> face_of g f v0 v1 v2 e0 e1 e2 -> exists dir m rot trans,
     nth_error (tg_Faces_2D_Geometry g) f = Some (3%nat, dir, m) /\ (3 <= length dir)%nat /\
     nth_error (tg_FacesRotationMatrix g) f = Some rot /\ nth_error (tg_FacesTranslation g) f = Some trans /\
     forall k, (k < 3)%nat -> same3 (affine rot trans (affine (mt_B m) (mt_b m) (ref_vertex k))) (V (nth k [v0; v1; v2] 0%nat))).

(** the test for equal points accepts equal points and tells the nodes of the element [data] apart *)
Definition tells_nodes_apart (g : Tet_Geometry) (data : Tet_Data) : Prop :=
  (forall x y, same3 x y -> tg_Same g x y = true) /\
  (forall d d' x y, (d < te_NumBasisFunctions data)%nat -> (d' < te_NumBasisFunctions data)%nat -> d <> d' ->
     same3 x (affine (mt_B (tg_Map g)) (mt_b (tg_Map g)) (fun c => m_at (te_DofPositions data) c d)) ->
     same3 y (affine (mt_B (tg_Map g)) (mt_b (tg_Map g)) (fun c => m_at (te_DofPositions data) c d')) -> tg_Same g x y = false).

(** the vertex at which edge [e] starts, and the one at which it ends, in the orientation of the mesh *)
Definition edge_start (g : Tet_Geometry) (e : nat) : nat :=
  let '(a, b) := nth e (tg_Edges g) (0, 0)%nat in if nth e (tg_EdgesDirection g) true then a else b.
Definition edge_end (g : Tet_Geometry) (e : nat) : nat :=
  let '(a, b) := nth e (tg_Edges g) (0, 0)%nat in if nth e (tg_EdgesDirection g) true then b else a.

(** [b] are the barycentric coordinates of [x] with respect to the vertices [V] *)
Definition barycentric (V : nat -> point) (x : point) (b : nat -> R) : Prop :=
  rsum 4 b = 1 /\ forall c, (c < 3)%nat -> rsum 4 (fun k => b k * V k c) = x c.
(** [x] lies on a plane of the lattice of the tetrahedron [V], parallel to the face opposite to vertex [k], strictly between that face
    (included) and the point [node] *)
Definition lattice_plane_below (order : nat) (V : nat -> point) (node x : point) : Prop :=
  exists bn bx, barycentric V node bn /\ barycentric V x bx /\ exists k p, (k < 4)%nat /\ bx k = INR p / INR order /\ INR p / INR order < bn k.
(** the triple product u . (v x w) *)
Definition triple (u v w : point) : R :=
  u 0%nat * (v 1%nat * w 2%nat - v 2%nat * w 1%nat) + u 1%nat * (v 2%nat * w 0%nat - v 0%nat * w 2%nat) + u 2%nat * (v 0%nat * w 1%nat - v 1%nat * w 0%nat).
