(** Vocabulary of the statements about the two dimensional mixed virtual element. *)
From Coq Require Import List Arith Bool ZArith Reals.
From Verif Require Import Base RSum MatrixModel MonomialsModel MonomialsSpec VemQuadModel VemQuadSpec GreenSpec VemModel VemSpec VemMccModel.
Import ListNotations.
Local Open Scope R_scope.

(** the reference rules of order k: the triangle rule is exact for degree 2k + 2 and has non-negative weights,
    the segment rule has k + 1 points and is exact for degree 2k + 1 *)
Record good_mixed_rules (gauss_triangle gauss_segment : nat -> QuadratureData) (k : nat) : Prop := {
  gm_triangle : rule (gauss_triangle (2 * (k + 1))%nat);
  gm_triangle_exact : exact_triangle (2 * (k + 1)) (gauss_triangle (2 * (k + 1))%nat);
  gm_triangle_nonneg : forall q, (q < v_size (q_Weights (gauss_triangle (2 * (k + 1))%nat)))%nat -> 0 <= v_at (q_Weights (gauss_triangle (2 * (k + 1))%nat)) q;
  gm_segment : rule (gauss_segment (2 * k + 1)%nat);
  gm_segment_points : m_cols (q_Points (gauss_segment (2 * k + 1)%nat)) = (k + 1)%nat;
  gm_segment_exact : forall a, (a <= 2 * k + 1)%nat ->
    apply_rule (q_Weights (gauss_segment (2 * k + 1)%nat)) (fun q => m_at (q_Points (gauss_segment (2 * k + 1)%nat)) 0 q ^ a) = / INR (a + 1) }.

(** what is used of a singular value decomposition of a matrix T with fewer rows than columns:
    the last right singular vectors are orthonormal and orthogonal to the rows of T *)
Definition completes (svd : Svd) (T : Mat) : Prop :=
  (forall r s, (m_rows T <= r < m_cols T)%nat -> (m_rows T <= s < m_cols T)%nat -> rsum (m_cols T) (fun c => svd T r c * svd T s c) = delta r s) /\
  (forall a r, (a < m_rows T)%nat -> (m_rows T <= r < m_cols T)%nat -> rsum (m_cols T) (fun c => m_at T a c * svd T r c) = 0).

(** ** The velocity space seen from outside *)
(** a scaled monomial *)
Definition mcc_monomial (ref : MCC_2D_Reference) (l : MCC_Local) (i : nat) (x y : R) : R :=
  mono (expo (Exponents (rm_Monomials ref)) i) (scaled (lm_Centroid l) (lm_Diameter l) (fun d => match d with 0%nat => x | 1%nat => y | _ => 0 end)).
(** the polynomial with coefficients a on the first n monomials *)
Definition mcc_polynomial (ref : MCC_2D_Reference) (l : MCC_Local) (n : nat) (a : nat -> R) (x y : R) : R :=
  rsum n (fun i => a i * mcc_monomial ref l i x y).
(** component d of the vector polynomial whose coefficients are a row of a matrix with 2 Nk columns *)
Definition mcc_vector (ref : MCC_2D_Reference) (l : MCC_Local) (T : Mat) (r d : nat) (x y : R) : R :=
  mcc_polynomial ref l (lm_Nk l) (fun c => m_at T r (lm_Nk l * d + c)%nat) x y.
(** the vector polynomials in the order of the rows of the projection: the gradients, then the others *)
Definition mcc_basis (ref : MCC_2D_Reference) (l : MCC_Local) (d a : nat) (x y : R) : R :=
  if (a <? lm_NkNabla l)%nat then mcc_vector ref l (lm_TkNabla l) a d x y else mcc_vector ref l (lm_TkBigOPlus l) (a - lm_NkNabla l) d x y.
(** sums with the quadratures of the space: inside and on the boundary *)
Definition mcc_points (l : MCC_Local) : Mat := q_Points (lm_InternalQuadrature l).
Definition mcc_boundary_points (l : MCC_Local) : Mat := q_Points (eq_Quadrature (lm_BoundaryQuadrature l)).
Definition mcc_inside (l : MCC_Local) (f : R -> R -> R) : R :=
  apply_rule (q_Weights (lm_InternalQuadrature l)) (fun q => f (m_at (mcc_points l) 0 q) (m_at (mcc_points l) 1 q)).
(** sign of the edge that holds boundary point j: the edges may be oriented as the polygon or not *)
Definition mcc_sign (l : MCC_Local) (p : Polygon) (j : nat) : R := if nth (j / (lm_Order l + 1)) (pg_EdgesDirection p) true then 1 else -1.
(** outflow through the boundary of the field with normal components u, weighted by g *)
Definition mcc_outflow (l : MCC_Local) (p : Polygon) (g : R -> R -> R) (u : nat -> R) : R :=
  apply_rule (q_Weights (eq_Quadrature (lm_BoundaryQuadrature l)))
    (fun j => g (m_at (mcc_boundary_points l) 0 j) (m_at (mcc_boundary_points l) 1 j) * (mcc_sign l p j * u j)).
(** outflow through edge i alone: the reference segment rule times the length *)
Definition mcc_edge_outflow (ref : MCC_2D_Reference) (l : MCC_Local) (p : Polygon) (i : nat) (u : nat -> R) : R :=
  Rabs (v_at (pg_EdgesLength p) i) * apply_rule (q_Weights (vq_ReferenceSegmentQuadrature (rm_Quadrature ref)))
    (fun q => (if nth i (pg_EdgesDirection p) true then 1 else -1) * u ((lm_Order l + 1) * i + q)%nat).

(** gx, gy are the partial derivatives of the scaled monomials *)
Definition mcc_gradients (ref : MCC_2D_Reference) (l : MCC_Local) (gx gy : nat -> R -> R -> R) : Prop := forall i x y,
  derivable_pt_lim (fun t => mcc_monomial ref l i t y) x (gx i x y) /\ derivable_pt_lim (fun t => mcc_monomial ref l i x t) y (gy i x y).
(** the dofs of a field (f0, f1): its component along the normal of the edge at the points of the edges,
    its moments against the gradients of the scaled monomials of degree 1 to k and against the other vector polynomials, divided by the measure *)
Definition mcc_dof (ref : MCC_2D_Reference) (l : MCC_Local) (p : Polygon) (gx gy : nat -> R -> R -> R) (f0 f1 : R -> R -> R) (j : nat) : R :=
  let nb := lm_NumBoundaryBasisFunctions l in let nn := lm_NumNablaInternalBasisFunctions l in
  if (j <? nb)%nat then
    let x := m_at (mcc_boundary_points l) 0 j in let y := m_at (mcc_boundary_points l) 1 j in let e := (j / (lm_Order l + 1))%nat in
    mcc_sign l p j * (f0 x y * m_at (pg_EdgesNormal p) 0 e + f1 x y * m_at (pg_EdgesNormal p) 1 e)
  else if (j <? nb + nn)%nat then
    / lm_Measure l * mcc_inside l (fun x y => f0 x y * gx (j - nb + 1)%nat x y + f1 x y * gy (j - nb + 1)%nat x y)
  else
    / lm_Measure l * mcc_inside l (fun x y => f0 x y * mcc_vector ref l (lm_TkBigOPlus l) (j - nb - nn) 0 x y +
                                              f1 x y * mcc_vector ref l (lm_TkBigOPlus l) (j - nb - nn) 1 x y).

(** ** A mixed virtual element space of order k on the polygon p *)
Record mcc_space (gauss_triangle gauss_segment : nat -> QuadratureData) (junk : nat -> nat -> R) (llt : Solver) (svd : Svd) (k : nat) (p : Polygon)
  (ref : MCC_2D_Reference) (l : MCC_Local) : Prop := {
  ms_rules : good_mixed_rules gauss_triangle gauss_segment k;
  ms_polygon : good_polygon p;
  ms_llt : exact_for positive_definite llt;
  ms_reference : MCC_Velocity_Create gauss_triangle gauss_segment k = Ok ref;
  ms_local : MCC_CreateLocalSpace junk llt svd ref p = Ok l;
  ms_svd : completes svd (lm_TkNabla l) }.
