(** Vocabulary of the statements about the two dimensional virtual element. *)
From Coq Require Import List Arith Bool ZArith Reals.
From Verif Require Import Base RSum MatrixModel MonomialsModel MonomialsSpec VemQuadModel VemQuadSpec GreenSpec VemModel.
Import ListNotations.
Local Open Scope R_scope.

(** the reference rules of order k: the triangle rule is exact for degree 2k, the edge rule has k + 1 points, the first and the last
    at the ends with equal weights, and is exact for degree 2k - 1 *)
Record good_rules (gauss_triangle lobatto : nat -> QuadratureData) (k : nat) : Prop := {
  gr_triangle : rule (gauss_triangle (2 * k)%nat);
  gr_triangle_exact : exact_triangle (2 * k) (gauss_triangle (2 * k)%nat);
  gr_edge : rule (lobatto (2 * k - 1)%nat);
  gr_edge_points : m_cols (q_Points (lobatto (2 * k - 1)%nat)) = (k + 1)%nat;
  gr_edge_first : m_at (q_Points (lobatto (2 * k - 1)%nat)) 0 0 = 0;
  gr_edge_last : m_at (q_Points (lobatto (2 * k - 1)%nat)) 0 k = 1;
  gr_edge_ends : v_at (q_Weights (lobatto (2 * k - 1)%nat)) 0 = v_at (q_Weights (lobatto (2 * k - 1)%nat)) k;
  gr_edge_exact : forall a, (a <= 2 * k - 1)%nat ->
    apply_rule (q_Weights (lobatto (2 * k - 1)%nat)) (fun q => m_at (q_Points (lobatto (2 * k - 1)%nat)) 0 q ^ a) = / INR (a + 1) }.

(** consistent geometric data of a counterclockwise polygon of positive area *)
Record good_polygon (p : Polygon) : Prop := {
  gp_edges : edge_data (pg_Vertices p) (pg_EdgesLength p) (pg_EdgesDirection p) (pg_EdgesTangent p) (pg_EdgesNormal p);
  gp_tangents : tangents_ok (pg_Vertices p) (pg_EdgesTangent p);
  gp_normals : normals_ok (pg_Vertices p) (pg_EdgesLength p) (pg_EdgesNormal p);
  gp_triangulation : triangulates (pg_TriangulationVertices p) (pg_Vertices p);
  gp_area : 0 < shoelace (pg_Vertices p);
  gp_measure : pg_Measure p <> 0;
  gp_diameter : pg_Diameter p <> 0 }.

(** ** Matrices *)
(** X solves A X = B *)
Definition solves (A X B : Mat) : Prop :=
  forall i j, (i < m_rows A)%nat -> (j < m_cols B)%nat -> rsum (m_cols A) (fun l => m_at A i l * m_at X l j) = m_at B i j.
(** the first n rows and columns *)
Definition corner (A : Mat) (n : nat) : Mat := {| m_rows := n; m_cols := n; m_at := m_at A |}.
Definition top (A : Mat) (n : nat) : Mat := {| m_rows := n; m_cols := m_cols A; m_at := m_at A |}.
Definition nonsingular (A : Mat) : Prop := m_rows A = m_cols A /\
  forall x : nat -> R, (forall i, (i < m_rows A)%nat -> rsum (m_cols A) (fun j => m_at A i j * x j) = 0) -> forall j, (j < m_cols A)%nat -> x j = 0.
Definition positive_definite (A : Mat) : Prop := m_rows A = m_cols A /\
  (forall i j, (i < m_rows A)%nat -> (j < m_rows A)%nat -> m_at A i j = m_at A j i) /\
  forall x : nat -> R, (exists j, (j < m_cols A)%nat /\ x j <> 0) ->
    0 < rsum (m_rows A) (fun i => rsum (m_cols A) (fun j => x i * m_at A i j * x j)).
(** a solver that is exact for the matrices of a class *)
Definition exact_for (C : Mat -> Prop) (s : Solver) : Prop := forall A B, m_rows A = m_cols A -> m_rows A = m_rows B -> C A ->
  solves A {| m_rows := m_cols A; m_cols := m_cols B; m_at := s A B |} B.
(** entry of a product *)
Definition product (A B : Mat) (i j : nat) : R := rsum (m_cols A) (fun l => m_at A i l * m_at B l j).
Definition delta (i j : nat) : R := if (i =? j)%nat then 1 else 0.

(** the dofs of a function: its values at the vertices and at the points of the edges,
    then its moments against the first scaled monomials divided by the measure (internal quadrature) *)
Definition boundary_points (l : VEM_2D_Local) : Mat := q_Points (eq_Quadrature (lv_BoundaryQuadrature l)).
Definition scaled_monomial (ref : VEM_2D_Reference) (l : VEM_2D_Local) (i : nat) (x y : R) : R :=
  mono (expo (Exponents (rv_Monomials ref)) i) (scaled (lv_Centroid l) (lv_Diameter l) (fun d => match d with 0%nat => x | 1%nat => y | _ => 0 end)).
Definition dofs_of (ref : VEM_2D_Reference) (l : VEM_2D_Local) (f : R -> R -> R) (j : nat) : R :=
  if (j <? lv_NumBoundaryBasisFunctions l)%nat then f (m_at (boundary_points l) 0 j) (m_at (boundary_points l) 1 j)
  else let i := (j - lv_NumBoundaryBasisFunctions l)%nat in
    / lv_Measure l * apply_rule (q_Weights (lv_InternalQuadrature l)) (fun q =>
      let x := m_at (q_Points (lv_InternalQuadrature l)) 0 q in let y := m_at (q_Points (lv_InternalQuadrature l)) 1 q in f x y * scaled_monomial ref l i x y).

(** the polynomial whose coefficients a projector computes from the dofs u *)
Definition projected (ref : VEM_2D_Reference) (l : VEM_2D_Local) (P : Mat) (u : nat -> R) (x y : R) : R :=
  rsum (m_rows P) (fun i => rsum (m_cols P) (fun j => m_at P i j * u j) * scaled_monomial ref l i x y).
(** sums of the quadratures of the space: inside, on the boundary, on the boundary with component d of the outward normal *)
Definition inside (l : VEM_2D_Local) (f : R -> R -> R) : R :=
  apply_rule (q_Weights (lv_InternalQuadrature l)) (fun q => f (m_at (q_Points (lv_InternalQuadrature l)) 0 q) (m_at (q_Points (lv_InternalQuadrature l)) 1 q)).
Definition around (l : VEM_2D_Local) (f : R -> R -> R) : R :=
  apply_rule (q_Weights (eq_Quadrature (lv_BoundaryQuadrature l))) (fun q => f (m_at (boundary_points l) 0 q) (m_at (boundary_points l) 1 q)).
(** the sum over the boundary of component d of the normal times g times the boundary dofs u *)
Definition flux (l : VEM_2D_Local) (d : nat) (g : R -> R -> R) (u : nat -> R) : R :=
  apply_rule (normal_weights (lv_BoundaryQuadrature l) d) (fun q => g (m_at (boundary_points l) 0 q) (m_at (boundary_points l) 1 q) * u q).
(** the moments of the dofs u against the polynomial with coefficients a on the first monomials *)
Definition moment (l : VEM_2D_Local) (a u : nat -> R) : R :=
  lv_Measure l * rsum (lv_NumInternalBasisFunctions l) (fun i => a i * u (lv_NumBoundaryBasisFunctions l + i)%nat).

(** a virtual element space of order k on the polygon p *)
Record vem_space (gauss_triangle lobatto : nat -> QuadratureData) (junk : nat -> nat -> R) (lu llt : Solver) (k : nat) (p : Polygon)
  (ref : VEM_2D_Reference) (l : VEM_2D_Local) : Prop := {
  vs_order : (1 <= k)%nat;
  vs_rules : good_rules gauss_triangle lobatto k;
  vs_polygon : good_polygon p;
  vs_lu : exact_for nonsingular lu;
  vs_llt : exact_for positive_definite llt;
  vs_reference : VEM_PCC_2D_Create gauss_triangle lobatto k = Ok ref;
  vs_local : VEM_PCC_2D_CreateLocalSpace junk lu llt ref p = Ok l }.

(** the values of the basis functions A (one row for each point, one column for each dof) applied to the dofs u *)
Definition combine (A : Mat) (u : nat -> R) (q : nat) : R := rsum (m_cols A) (fun j => m_at A q j * u j).
