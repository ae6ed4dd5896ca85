(** Vocabulary of the statements about ZFEM: nothing here refers to the model's functions. *)
From Coq Require Import List Arith Bool Reals.
From Verif Require Import Base RSum MatrixModel GreenSpec.
Import ListNotations.
Local Open Scope nat_scope.

(** The nodes of the star triangulation of a polygon: its centre, its corners, the nodes inside the segment from the
    centre to a corner, the nodes inside a side, the nodes inside a triangle. *)
Inductive node := Centre | Corner (v : nat) | Spoke (v q : nat) | Side (v q : nat) | Inner (t q : nat).

(** nodes of a polygon with V corners, n1 nodes inside a segment, n2 inside a triangle *)
Definition is_node (V n1 n2 : nat) (x : node) : Prop :=
  match x with
  | Centre => True
  | Corner v => v < V
  | Spoke v q | Side v q => v < V /\ q < n1
  | Inner t q => t < V /\ q < n2
  end.

(** Node number l of triangle t, with corners centre, t, t + 1: the three corners, the nodes of the three sides (from the
    centre to t; the side of the polygon; the one towards the centre, listed from the centre), the others. *)
Definition node_of (V n1 t l : nat) : node :=
  let next := (t + 1) mod V in
  match l with
  | 0 => Centre
  | 1 => Corner t
  | 2 => Corner next
  | _ => let r := l - 3 in
         if r <? n1 then Spoke t r
         else if r <? 2 * n1 then Side t (r - n1)
         else if r <? 3 * n1 then Spoke next (r - 2 * n1)
         else Inner t (r - 3 * n1)
  end.

(** on the boundary of the polygon *)
Definition on_boundary (x : node) : Prop := match x with Corner _ | Side _ _ => True | _ => False end.

(** ** Positions *)
Local Open Scope R_scope.

(** The triangles of a polygon: triangle v has corners the centre, vertex v, vertex v + 1 and is not flat; the polygon lies in the plane. *)
Record star (vertices : Mat) (centre : nat -> R) (triangles : list Mat) (directions : list bool) : Prop := {
  st_some : (1 <= m_cols vertices)%nat;
  st_plane : centre 2%nat = 0 /\ forall v, (v < m_cols vertices)%nat -> m_at vertices 2 v = 0;
  st_directions : length directions = m_cols vertices;
  st_triangles : forall v, (v < m_cols vertices)%nat -> exists T, nth_error triangles v = Some T /\ m_cols T = 3%nat /\
    (forall c, (c < 3)%nat -> m_at T c 0 = centre c /\ m_at T c 1 = m_at vertices c v /\ m_at T c 2 = m_at vertices c ((v + 1) mod m_cols vertices)) /\
    (m_at T 0 1 - m_at T 0 0) * (m_at T 1 2 - m_at T 1 0) <> (m_at T 0 2 - m_at T 0 0) * (m_at T 1 1 - m_at T 1 0) }.

(** coordinate c of a node; [inner q]: the coordinates of the q-th node inside the reference triangle *)
Definition position (order : nat) (vertices : Mat) (centre : nat -> R) (directions : list bool) (inner : nat -> R * R) (x : node) (c : nat) : R :=
  let V := m_cols vertices in
  let vertex v := m_at vertices c v in
  let s q := INR (S q) / INR order in
  match x with
  | Centre => centre c
  | Corner v => vertex v
  | Spoke v q => (1 - s q) * centre c + s q * vertex v
  | Side v q => if nth v directions true then (1 - s q) * vertex v + s q * vertex ((v + 1) mod V)%nat
                else (1 - s q) * vertex ((v + 1) mod V)%nat + s q * vertex v
  | Inner t q => centre c + fst (inner q) * (vertex t - centre c) + snd (inner q) * (vertex ((t + 1) mod V)%nat - centre c)
  end.

(** a polynomial of degree k that vanishes at all the points is zero *)
Definition unisolvent (k : nat) (points : Mat) : Prop := forall f fx fy, poly2 k f fx fy ->
  (forall i, (i < m_cols points)%nat -> f (m_at points 0 i) (m_at points 1 i) = 0) -> forall x y, f x y = 0.

(** the two ends of side w lie on the line through the ends of side v *)
Definition aligned (vertices : Mat) (v w : nat) : Prop :=
  let next i := ((i + 1) mod m_cols vertices)%nat in
  let dx := m_at vertices 0 (next v) - m_at vertices 0 v in
  let dy := m_at vertices 1 (next v) - m_at vertices 1 v in
  let on i := dx * (m_at vertices 1 i - m_at vertices 1 v) = dy * (m_at vertices 0 i - m_at vertices 0 v) in
  on w /\ on (next w).

(** m sides on different lines *)
Definition lines (vertices : Mat) (m : nat) : Prop := exists e : nat -> nat, (forall i, (i < m)%nat -> (e i < m_cols vertices)%nat) /\
  forall i j, (i < m)%nat -> (j < m)%nat -> i <> j -> ~ aligned vertices (e i) (e j).
