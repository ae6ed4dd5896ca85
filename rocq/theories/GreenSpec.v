(** Polynomials of two variables, exact reference rules, triangulated polygons: vocabulary for the divergence theorem. *)
From Coq Require Import List Arith Bool Reals Permutation.
From Verif Require Import Base RSum MatrixModel VemQuadModel VemQuadSpec.
Import ListNotations.
Local Open Scope R_scope.

(** [poly2 n f fx fy]: f is a polynomial of total degree at most n, fx and fy are its partial derivatives *)
Inductive poly2 (n : nat) : (R -> R -> R) -> (R -> R -> R) -> (R -> R -> R) -> Prop :=
| poly2_mono a b : (a + b <= n)%nat ->
    poly2 n (fun x y => x ^ a * y ^ b) (fun x y => INR a * x ^ (a - 1) * y ^ b) (fun x y => INR b * x ^ a * y ^ (b - 1))
| poly2_add f fx fy g gx gy : poly2 n f fx fy -> poly2 n g gx gy ->
    poly2 n (fun x y => f x y + g x y) (fun x y => fx x y + gx x y) (fun x y => fy x y + gy x y)
| poly2_scal c f fx fy : poly2 n f fx fy -> poly2 n (fun x y => c * f x y) (fun x y => c * fx x y) (fun x y => c * fy x y)
| poly2_ext f fx fy g gx gy : poly2 n f fx fy ->
    (forall x y, f x y = g x y) -> (forall x y, fx x y = gx x y) -> (forall x y, fy x y = gy x y) -> poly2 n g gx gy.

(** a rule on the reference triangle is exact for degree n: the integral of x^a y^b is a! b! / (a + b + 2)! *)
Definition exact_triangle (n : nat) (q : QuadratureData) : Prop :=
  forall a b, (a + b <= n)%nat ->
    apply_rule (q_Weights q) (fun j => m_at (q_Points q) 0 j ^ a * m_at (q_Points q) 1 j ^ b) = INR (fact a * fact b) / INR (fact (a + b + 2)).
(** a rule on [0, 1] with weights [ext] at the ends is exact for degree n: the integral of s^a is 1 / (a + 1) *)
Definition exact_segment (n : nat) (ext : R * R) (points : Mat) (weights : Vec) : Prop :=
  forall a, (a <= n)%nat ->
    fst ext * 0 ^ a + snd ext * 1 ^ a + apply_rule weights (fun q => m_at points 0 q ^ a) = / INR (a + 1).

(** length times outward normal of edge i is its tangent turned by a right angle (counterclockwise polygons) *)
Definition normals_ok (vertices : Mat) (lengths : Vec) (normals : Mat) : Prop :=
  forall i, (i < m_cols vertices)%nat -> let j := following (m_cols vertices) i in
    m_at normals 0 i * Rabs (v_at lengths i) = m_at vertices 1 j - m_at vertices 1 i /\
    m_at normals 1 i * Rabs (v_at lengths i) = - (m_at vertices 0 j - m_at vertices 0 i).

(** oriented sides, as pairs of points *)
Definition col2 (A : Mat) (j : nat) : R * R := (m_at A 0 j, m_at A 1 j).
Definition sides (T : Mat) : list ((R * R) * (R * R)) := [(col2 T 0, col2 T 1); (col2 T 1, col2 T 2); (col2 T 2, col2 T 0)].
Definition polygon_sides (vertices : Mat) : list ((R * R) * (R * R)) :=
  map (fun i => (col2 vertices i, col2 vertices (following (m_cols vertices) i))) (seq 0 (m_cols vertices)).
Definition reverse_side (s : (R * R) * (R * R)) : (R * R) * (R * R) := (snd s, fst s).
(** counterclockwise triangles whose sides are those of the polygon and inner sides met twice, once in each direction *)
Definition triangulates (tris : list Mat) (vertices : Mat) : Prop :=
  triangles tris /\ Forall (fun T => 0 <= signed_area T) tris /\
  exists inner, Permutation (flat_map sides tris) (polygon_sides vertices ++ inner ++ map reverse_side inner).
(** area of a polygon from its vertices *)
Definition shoelace (vertices : Mat) : R := rsum (m_cols vertices) (fun i => let j := following (m_cols vertices) i in
  m_at vertices 0 i * m_at vertices 1 j - m_at vertices 0 j * m_at vertices 1 i) / 2.
