(** Vocabulary of the statements about polygon quadratures: no function of the model is used. *)
From Coq Require Import List Arith Bool Reals.
From Verif Require Import Base RSum MatrixModel VemQuadModel.
Import ListNotations.
Local Open Scope R_scope.

(** twice the signed area of the triangle with vertices (ax,ay), (bx,by), (cx,cy) *)
Definition cross (ax ay bx by_ cx cy : R) : R := (bx - ax) * (cy - ay) - (cx - ax) * (by_ - ay).
(** signed area of a triangle whose vertices are the columns of T *)
Definition signed_area (T : Mat) : R := cross (m_at T 0 0) (m_at T 1 0) (m_at T 0 1) (m_at T 1 1) (m_at T 0 2) (m_at T 1 2) / 2.
Definition area (T : Mat) : R := Rabs (signed_area T).

(** the points and the weights of a rule have consistent sizes *)
Definition rule (q : QuadratureData) : Prop := m_rows (q_Points q) = 3%nat /\ v_size (q_Weights q) = m_cols (q_Points q).
Definition triangles (tris : list Mat) : Prop := Forall (fun T => m_rows T = 3%nat /\ m_cols T = 3%nat) tris.

(** value of a rule on a function of the index of the point *)
Definition apply_rule (w : Vec) (f : nat -> R) : R := rsum (v_size w) (fun q => v_at w q * f q).

(** barycentric combination of the vertices of T: the image of the reference point (x, y) *)
Definition in_triangle (T : Mat) (x y : R) (d : nat) : R := (1 - x - y) * m_at T d 0 + x * m_at T d 1 + y * m_at T d 2.

(** index of the vertex that follows vertex i of an n-gon, and of the one that precedes it *)
Definition following (n i : nat) : nat := if (i =? n - 1)%nat then 0%nat else S i.
Definition preceding (n i : nat) : nat := if (i =? 0)%nat then (n - 1)%nat else (i - 1)%nat.

(** polygon of n vertices, edge i joins vertex i to the following one; consistent sizes of all the edge data *)
Record edge_data (vertices : Mat) (lengths : Vec) (dirs : list bool) (tangents normals : Mat) : Prop := {
  ed_vertices : m_rows vertices = 3%nat;
  ed_lengths : v_size lengths = m_cols vertices;
  ed_dirs : length dirs = m_cols vertices;
  ed_tangents : m_rows tangents = 3%nat /\ m_cols tangents = m_cols vertices;
  ed_normals : (2 <= m_rows normals)%nat /\ m_cols normals = m_cols vertices }.
(** the tangents are the differences of consecutive vertices *)
Definition tangents_ok (vertices tangents : Mat) : Prop :=
  forall i d, (i < m_cols vertices)%nat -> (d < 3)%nat ->
    m_at tangents d i = m_at vertices d (following (m_cols vertices) i) - m_at vertices d i.
(** a one dimensional rule: abscissae in the first row *)
Definition segment_rule (points : Mat) (weights : Vec) : Prop :=
  v_size weights = m_cols points /\ ((0 < m_cols points)%nat -> (0 < m_rows points)%nat).

(** point at parameter s from (vertex a) to (vertex b), coordinate d *)
Definition along (vertices : Mat) (a b : nat) (s : R) (d : nat) : R := (1 - s) * m_at vertices d a + s * m_at vertices d b.
(** first and last vertex of edge i for its own orientation *)
Definition edge_first (vertices : Mat) (dirs : list bool) (i : nat) : nat := if nth i dirs true then i else following (m_cols vertices) i.
Definition edge_last (vertices : Mat) (dirs : list bool) (i : nat) : nat := if nth i dirs true then following (m_cols vertices) i else i.

(** component d of the vectors "weight times normal" *)
Definition normal_weights (r : Edges_QuadratureData) (d : nat) : Vec := nth d (eq_WeightsTimesNormal r) (vzero 0).
