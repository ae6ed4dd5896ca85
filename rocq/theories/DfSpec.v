(** Vocabulary of the statements about the two dimensional divergence free virtual element. *)
From Coq Require Import List Arith Bool ZArith Reals.
From Verif Require Import Base RSum MatrixModel MonomialsModel MonomialsSpec GBasisModel LagrangeSpec VemQuadModel VemQuadSpec VemModel VemSpec DfModel GreenSpec.
Import ListNotations.
Local Open Scope R_scope.

(** the reference rules of order k: those of the primal element, the rule on the triangle has nonnegative weights, the points of the edge
    rule are distinct, and the second edge rule has k + 2 points, the first and the last at the ends with equal weights, and is exact for degree 2k + 1 *)
Record df_rules (gauss_triangle lobatto : nat -> QuadratureData) (k : nat) : Prop := {
  fr_order : (2 <= k)%nat;
  fr_rules : good_rules gauss_triangle lobatto k;
  fr_weights : forall q, (q < v_size (q_Weights (gauss_triangle (2 * k)%nat)))%nat -> 0 <= v_at (q_Weights (gauss_triangle (2 * k)%nat)) q;
  fr_distinct : distinct (k + 1) (m_at (q_Points (lobatto (2 * k - 1)%nat)) 0);
  fr_segment : rule (lobatto (2 * k + 1)%nat);
  fr_segment_points : m_cols (q_Points (lobatto (2 * k + 1)%nat)) = (k + 2)%nat;
  fr_segment_first : m_at (q_Points (lobatto (2 * k + 1)%nat)) 0 0 = 0;
  fr_segment_last : m_at (q_Points (lobatto (2 * k + 1)%nat)) 0 (k + 1) = 1;
  fr_segment_ends : v_at (q_Weights (lobatto (2 * k + 1)%nat)) 0 = v_at (q_Weights (lobatto (2 * k + 1)%nat)) (k + 1);
  fr_segment_exact : forall a, (a <= 2 * k + 1)%nat ->
    apply_rule (q_Weights (lobatto (2 * k + 1)%nat)) (fun q => m_at (q_Points (lobatto (2 * k + 1)%nat)) 0 q ^ a) = / INR (a + 1) }.

(** the Reduced classes divide by the measure of the polygon, which must be its area *)
Definition df_polygon (v : DF_Variant) (p : Polygon) : Prop :=
  good_polygon p /\ match v with Full => True | Reduced => pg_Measure p = shoelace (pg_Vertices p) end.

(** a divergence free space of order k on the polygon p *)
Record df_space (v : DF_Variant) (gauss_triangle lobatto : nat -> QuadratureData) (junk : nat -> nat -> R) (lu llt : Solver) (k : nat) (p : Polygon)
  (ref : DF_Velocity_Reference) (l : DF_Local) : Prop := {
  fs_rules : df_rules gauss_triangle lobatto k;
  fs_polygon : df_polygon v p;
  fs_lu : exact_for nonsingular lu;
  fs_llt : exact_for positive_definite llt;
  fs_reference : DF_Velocity_Create v gauss_triangle lobatto k = Ok ref;
  fs_local : DF_CreateLocalSpace v junk lu llt ref p = Ok l }.

(** ** The boundary *)
Section Boundary.
Variables (lobatto : nat -> QuadratureData) (k : nat) (p : Polygon).
Let V := pg_Vertices p.
Let nv := m_cols V.

(** the number of boundary dofs of one component, and the dof at point i of edge e *)
Definition df_scalar : nat := (nv + (k - 1) * nv)%nat.
Definition df_point_dof (e i : nat) : nat :=
  if (i =? 0)%nat then edge_first V (pg_EdgesDirection p) e else if (i =? k)%nat then edge_last V (pg_EdgesDirection p) e
  else (nv + (k - 1) * e + (i - 1))%nat.
(** t d e: component d of the trace on edge e, the polynomial of degree k with the values of the dofs at the points of the edge *)
Definition df_traces (u : nat -> R) (t : nat -> nat -> R -> R) : Prop := forall d e, (d < 2)%nat -> (e < nv)%nat ->
  (exists a, forall s, t d e s = polynomial (k + 1) a s) /\
  forall i, (i <= k)%nat -> t d e (m_at (q_Points (lobatto (2 * k - 1)%nat)) 0 i) = u (d * df_scalar + df_point_dof e i)%nat.
(** the value of g at the point of parameter s of edge e *)
Definition df_at (g : R -> R -> R) (e : nat) (s : R) : R :=
  g (along V (edge_first V (pg_EdgesDirection p) e) (edge_last V (pg_EdgesDirection p) e) s 0)
    (along V (edge_first V (pg_EdgesDirection p) e) (edge_last V (pg_EdgesDirection p) e) s 1).
(** the sum along the boundary of a function of the edge and of the parameter, with the rule exact for degree 2k + 1 *)
Definition df_around (F : nat -> R -> R) : R := rsum nv (fun e => Rabs (v_at (pg_EdgesLength p) e) *
  apply_rule (q_Weights (lobatto (2 * k + 1)%nat)) (fun q => F e (m_at (q_Points (lobatto (2 * k + 1)%nat)) 0 q))).
Definition df_normal (d e : nat) : R := m_at (pg_EdgesNormal p) d e.
(** the flux of the trace with weight g *)
Definition df_flux (t : nat -> nat -> R -> R) (g : R -> R -> R) : R :=
  df_around (fun e s => df_at g e s * (df_normal 0 e * t 0%nat e s + df_normal 1 e * t 1%nat e s)).
End Boundary.

(** ** The interior *)
Definition df_inside (l : DF_Local) (f : R -> R -> R) : R :=
  apply_rule (q_Weights (ld_InternalQuadrature l)) (fun q => f (m_at (q_Points (ld_InternalQuadrature l)) 0 q) (m_at (q_Points (ld_InternalQuadrature l)) 1 q)).
(** the scaled monomials and the coordinates they are written in *)
Definition df_scaled (l : DF_Local) (d : nat) (x y : R) : R := scaled (ld_Centroid l) (ld_Diameter l) (fun d => match d with 0%nat => x | 1%nat => y | _ => 0 end) d.
Definition df_monomial (ref : DF_Velocity_Reference) (l : DF_Local) (i : nat) (x y : R) : R :=
  mono (expo (Exponents (rd_Monomials ref)) i) (scaled (ld_Centroid l) (ld_Diameter l) (fun d => match d with 0%nat => x | 1%nat => y | _ => 0 end)).
(** the polynomial whose coefficients the rows of P compute from the dofs u *)
Definition df_poly (ref : DF_Velocity_Reference) (l : DF_Local) (P : Mat) (u : nat -> R) (x y : R) : R :=
  rsum (m_rows P) (fun i => rsum (m_cols P) (fun j => m_at P i j * u j) * df_monomial ref l i x y).
(** matrix d of a list *)
Definition of_list (l : list Mat) (d : nat) : Mat := nth d l (mzero 0 0).

(** the dofs of a field f0, f1 with divergence dv: the values at the points of the boundary of the first component, those of the second one,
    the moments against the first fields (y, - x) times a monomial, and, if the space has them, the moments of the divergence against the monomials after the first *)
Definition df_dofs (ref : DF_Velocity_Reference) (l : DF_Local) (f0 f1 dv : R -> R -> R) (j : nat) : R :=
  let ns := (ld_NumVertexBasisFunctions l + ld_NumEdgeBasisFunctions l)%nat in
  let P := q_Points (eq_Quadrature (ld_EdgesDOFs l)) in
  if (j <? ns)%nat then f0 (m_at P 0 j) (m_at P 1 j)
  else if (j <? 2 * ns)%nat then f1 (m_at P 0 (j - ns)) (m_at P 1 (j - ns))
  else if (j <? 2 * ns + ld_NumBigOPlusInternalBasisFunctions l)%nat then
    let c := (j - 2 * ns)%nat in
    df_inside l (fun x y => df_monomial ref l c x y * (df_scaled l 1 x y * f0 x y - df_scaled l 0 x y * f1 x y))
  else let c := (j - 2 * ns - ld_NumBigOPlusInternalBasisFunctions l)%nat in df_inside l (fun x y => df_monomial ref l (1 + c) x y * dv x y).

(** the number of basis functions *)
Definition df_size (v : DF_Variant) (k nv : nat) : nat :=
  (2 * (nv + (k - 1) * nv) + (match v with Full => k * (k + 1) / 2 - 1 | Reduced => 0 end + (k - 2) * (k - 1) / 2))%nat.

(** the stabilization matrix of projection P with factor c: symmetric, its form is c times the sum of the squares of the differences between
    the dofs of the projection and those of the function, and it vanishes on polynomials *)
Definition df_stabilizes (v : DF_Variant) (k : nat) (ref : DF_Velocity_Reference) (l : DF_Local) (P : list Mat) (c : R) (S : Mat) : Prop :=
  m_rows S = ld_NumBasisFunctions l /\ m_cols S = ld_NumBasisFunctions l /\ (forall i j, m_at S i j = m_at S j i) /\
  (forall u r0 r1 r0x r0y r1x r1y, (forall x y, r0 x y = df_poly ref l (of_list P 0) u x y) -> (forall x y, r1 x y = df_poly ref l (of_list P 1) u x y) -> poly2 k r0 r0x r0y -> poly2 k r1 r1x r1y ->
     rsum (ld_NumBasisFunctions l) (fun i => rsum (ld_NumBasisFunctions l) (fun j => u i * m_at S i j * u j)) =
     c * rsum (ld_NumBasisFunctions l) (fun q => (df_dofs ref l r0 r1 (fun x y => r0x x y + r1y x y) q - u q) ^ 2)) /\
  (forall f0 f1 f0x f0y f1x f1y i, poly2 k f0 f0x f0y -> poly2 k f1 f1x f1y -> match v with Full => True | Reduced => exists a, forall x y, f0x x y + f1y x y = a end ->
     combine S (df_dofs ref l f0 f1 (fun x y => f0x x y + f1y x y)) i = 0).

(** the matrices of a list give, at the points, the functions f 0, f 1, ... of the dofs *)
Definition df_gives (l : DF_Local) (points : Mat) (L : list Mat) (n : nat) (f : nat -> (nat -> R) -> R -> R -> R) : Prop :=
  length L = n /\ forall d, (d < n)%nat -> m_rows (of_list L d) = m_cols points /\ m_cols (of_list L d) = ld_NumBasisFunctions l /\
    forall u q, combine (of_list L d) u q = f d u (m_at points 0 q) (m_at points 1 q).

(** values and derivatives of the projections in the four ways the interface gives them *)
Definition df_values_at (k : nat) (ref : DF_Velocity_Reference) (l : DF_Local) (points : Mat) (values derivatives : DF_ProjectionTypes -> outcome (list Mat)) : Prop :=
  (exists L, values DF_Pi0k = Ok L /\ df_gives l points L 2 (fun d u => df_poly ref l (of_list (ld_Pi0k l) d) u)) /\
  (exists L, values DF_Pi0km2 = Ok L /\ df_gives l points L 2 (fun d u => df_poly ref l (of_list (ld_Pi0km2 l) d) u)) /\
  (exists L f, derivatives DF_PiNabla = Ok L /\ df_gives l points L 4 f /\
     forall u d, (d < 2)%nat -> poly2 k (df_poly ref l (of_list (ld_PiNabla l) d) u) (f (2 * d)%nat u) (f (2 * d + 1)%nat u)) /\
  (exists L, derivatives DF_Pi0km1Der = Ok L /\ df_gives l points L 4 (fun d u => df_poly ref l (of_list (ld_Pi0km1Der l) d) u)) /\
  values DF_PiNabla = Throw /\ values DF_Pi0km1Der = Throw /\ derivatives DF_Pi0k = Throw /\ derivatives DF_Pi0km2 = Throw.
