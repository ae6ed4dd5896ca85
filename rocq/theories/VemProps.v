(** Properties C51, C52, C53, C69 - C73: the two dimensional virtual element. *)
From Coq Require Import List Arith Bool Lia ZArith Reals Lra.
From Verif Require Import Base RSum MatrixModel MonomialsModel MonomialsSpec LagrangeModel VemQuadModel VemQuadSpec GreenSpec GreenProofs PolyProofs VemModel VemSpec GaussModel VemProofs5 VemQuadProps.
Import ListNotations.
Local Open Scope R_scope.

(** C69: on every polygon with consistent data the reference element and the local space are created *)
Theorem C69_space_exists : forall gt lob junk lu llt k p, (1 <= k)%nat -> good_rules gt lob k -> good_polygon p -> exact_for nonsingular lu -> exact_for positive_definite llt ->
  exists ref l, vem_space gt lob junk lu llt k p ref l.
Proof. exact C69_all. Qed.

(** C69: the numbers of basis functions and of monomials *)
Theorem C69_sizes : forall gt lob junk lu llt k p ref l, vem_space gt lob junk lu llt k p ref l ->
  lv_NumBoundaryBasisFunctions l = (k * m_cols (pg_Vertices p))%nat /\ (2 * lv_NumInternalBasisFunctions l = k * (k - 1))%nat /\
  lv_NumBasisFunctions l = (lv_NumBoundaryBasisFunctions l + lv_NumInternalBasisFunctions l)%nat /\
  (2 * lv_NumProjectorBasisFunctions l = (k + 1) * (k + 2))%nat /\ (2 * lv_Nkm1 l = k * (k + 1))%nat.
Proof. exact sizes_all. Qed.

(** C69: the matrices given to the two solvers are nonsingular and positive definite *)
Theorem C69_well_posed : forall gt lob junk lu llt k p ref l, vem_space gt lob junk lu llt k p ref l ->
  nonsingular (lv_Gmatrix l) /\ positive_definite (lv_Hmatrix l) /\ positive_definite (corner (lv_Hmatrix l) (lv_Nkm1 l)) /\
  m_rows (lv_Gmatrix l) = lv_NumProjectorBasisFunctions l /\ m_rows (lv_Hmatrix l) = lv_NumProjectorBasisFunctions l.
Proof. exact wellposed_all. Qed.

(** C70: the columns of D are the dofs of the scaled monomials *)
Theorem C70_dofs_matrix : forall gt lob junk lu llt k p ref l, vem_space gt lob junk lu llt k p ref l ->
  m_rows (lv_Dmatrix l) = lv_NumBasisFunctions l /\ m_cols (lv_Dmatrix l) = lv_NumProjectorBasisFunctions l /\
  forall i j, (i < lv_NumBasisFunctions l)%nat -> (j < lv_NumProjectorBasisFunctions l)%nat -> m_at (lv_Dmatrix l) i j = dofs_of ref l (scaled_monomial ref l j) i.
Proof. exact D_all. Qed.

(** C70: every polynomial of degree k is recovered from its dofs *)
Theorem C70_reproduction : forall gt lob junk lu llt k p ref l, vem_space gt lob junk lu llt k p ref l ->
  forall f fx fy, poly2 k f fx fy -> forall x y,
  projected ref l (lv_PiNabla l) (dofs_of ref l f) x y = f x y /\ projected ref l (lv_Pi0k l) (dofs_of ref l f) x y = f x y /\
  (poly2 (k - 1) f fx fy -> projected ref l (lv_Pi0km1 l) (dofs_of ref l f) x y = f x y) /\
  exists P0 P1, lv_Pi0km1Der l = [P0; P1] /\ projected ref l P0 (dofs_of ref l f) x y = fx x y /\ projected ref l P1 (dofs_of ref l f) x y = fy x y.
Proof. exact reproduce_all. Qed.

(** C52: the identities between the matrices *)
Theorem C52_matrix_identities : forall gt lob junk lu llt k p ref l, vem_space gt lob junk lu llt k p ref l ->
  forall i j, (i < lv_NumProjectorBasisFunctions l)%nat -> (j < lv_NumProjectorBasisFunctions l)%nat ->
  product (lv_Bmatrix l) (lv_Dmatrix l) i j = m_at (lv_Gmatrix l) i j /\ product (lv_PiNabla l) (lv_Dmatrix l) i j = delta i j /\
  product (lv_Cmatrix l) (lv_Dmatrix l) i j = m_at (lv_Hmatrix l) i j /\ product (lv_Pi0k l) (lv_Dmatrix l) i j = delta i j /\
  ((i < lv_Nkm1 l)%nat -> rsum (lv_Nkm1 l) (fun c => m_at (lv_Hmatrix l) i c * product (lv_Pi0km1 l) (lv_Dmatrix l) c j) = m_at (lv_Hmatrix l) i j) /\
  ((i < lv_Nkm1 l)%nat -> (j < lv_Nkm1 l)%nat -> product (lv_Pi0km1 l) (lv_Dmatrix l) i j = delta i j).
Proof. exact projectors_D_all. Qed.

(** C52: for arbitrary dofs, the L2 projections have the moments given by the dofs, the others are those of the energy projection *)
Theorem C52_moments : forall gt lob junk lu llt k p ref l, vem_space gt lob junk lu llt k p ref l ->
  forall u i, (i < lv_NumProjectorBasisFunctions l)%nat ->
  let m := scaled_monomial ref l i in let PN := projected ref l (lv_PiNabla l) u in
  let given := if (i <? lv_NumInternalBasisFunctions l)%nat then lv_Measure l * u (lv_NumBoundaryBasisFunctions l + i)%nat else inside l (fun x y => PN x y * m x y) in
  inside l (fun x y => projected ref l (lv_Pi0k l) u x y * m x y) = given /\
  ((i < lv_Nkm1 l)%nat -> inside l (fun x y => projected ref l (lv_Pi0km1 l) u x y * m x y) = given).
Proof. exact orthogonal_all. Qed.

(** C71: for arbitrary dofs, PiNabla is the energy projection: its products with gradients are obtained from the dofs by parts *)
Theorem C71_energy_projection : forall gt lob junk lu llt k p ref l, vem_space gt lob junk lu llt k p ref l ->
  forall u g gx gy gxx gxy gyx gyy (c : nat -> R), poly2 k g gx gy -> poly2 (k - 1) gx gxx gxy -> poly2 (k - 1) gy gyx gyy ->
  (forall x y, gxx x y + gyy x y = rsum (lv_NumInternalBasisFunctions l) (fun i => c i * scaled_monomial ref l i x y)) ->
  exists px py, poly2 k (projected ref l (lv_PiNabla l) u) px py /\
    inside l (fun x y => px x y * gx x y + py x y * gy x y) = flux l 0 gx u + flux l 1 gy u - moment l c u.
Proof. exact energy_all. Qed.

(** C71: its mean value is that of the dofs *)
Theorem C71_mean_value : forall gt lob junk lu llt k p ref l, vem_space gt lob junk lu llt k p ref l ->
  forall u, 
  let PN := projected ref l (lv_PiNabla l) u in
  (k = 1%nat -> around l PN = rsum (lv_NumBoundaryBasisFunctions l) (fun q => v_at (q_Weights (eq_Quadrature (lv_BoundaryQuadrature l))) q * u q)) /\
  ((2 <= k)%nat -> inside l PN = lv_Measure l * u (lv_NumBoundaryBasisFunctions l)).
Proof. exact constant_all. Qed.

(** C72: for arbitrary dofs, Pi0km1Der[d] is the L2 projection of the derivative *)
Theorem C72_derivative_projection : forall gt lob junk lu llt k p ref l, vem_space gt lob junk lu llt k p ref l ->
  forall d u g gx gy (c : nat -> R), (d < 2)%nat -> poly2 (k - 1) g gx gy ->
  (forall x y, (match d with 0%nat => gx | _ => gy end) x y = rsum (lv_NumInternalBasisFunctions l) (fun i => c i * scaled_monomial ref l i x y)) ->
  exists P, nth_error (lv_Pi0km1Der l) d = Some P /\ inside l (fun x y => projected ref l P u x y * g x y) = flux l d g u - moment l c u.
Proof. exact derivative_projection_all. Qed.

(** C73: values and derivatives at points are those of the projected polynomials *)
Theorem C73_values_at_points : forall gt lob junk lu llt k p ref l, vem_space gt lob junk lu llt k p ref l ->
  forall junk' points, m_rows points = 3%nat ->
  (exists A, VEM_Values junk' ref l Pi0k_t points = Ok A /\ m_rows A = m_cols points /\ m_cols A = lv_NumBasisFunctions l /\
    forall u q, combine A u q = projected ref l (lv_Pi0k l) u (m_at points 0 q) (m_at points 1 q)) /\
  (exists A, VEM_Values junk' ref l Pi0km1_t points = Ok A /\ m_rows A = m_cols points /\ m_cols A = lv_NumBasisFunctions l /\
    forall u q, combine A u q = projected ref l (lv_Pi0km1 l) u (m_at points 0 q) (m_at points 1 q)) /\
  (exists A0 A1, VEM_DerivativeValues junk' ref l PiNabla_t points = Ok [A0; A1] /\ m_rows A0 = m_cols points /\ m_cols A0 = lv_NumBasisFunctions l /\ m_rows A1 = m_cols points /\ m_cols A1 = lv_NumBasisFunctions l /\
    forall u, exists gx gy, poly2 k (projected ref l (lv_PiNabla l) u) gx gy /\
      forall q, combine A0 u q = gx (m_at points 0 q) (m_at points 1 q) /\ combine A1 u q = gy (m_at points 0 q) (m_at points 1 q)) /\
  (exists P0 P1 A0 A1, lv_Pi0km1Der l = [P0; P1] /\ VEM_DerivativeValues junk' ref l Pi0km1Der_t points = Ok [A0; A1] /\ m_rows A0 = m_cols points /\ m_cols A0 = lv_NumBasisFunctions l /\ m_rows A1 = m_cols points /\ m_cols A1 = lv_NumBasisFunctions l /\
    forall u q, combine A0 u q = projected ref l P0 u (m_at points 0 q) (m_at points 1 q) /\ combine A1 u q = projected ref l P1 u (m_at points 0 q) (m_at points 1 q)).
Proof. exact values_all. Qed.

(** C73: the same at the internal quadrature points *)
Theorem C73_values_at_quadrature : forall gt lob junk lu llt k p ref l, vem_space gt lob junk lu llt k p ref l ->
  let points := q_Points (lv_InternalQuadrature l) in
  (exists A, VEM_Values_quadrature l Pi0k_t = Ok A /\ m_rows A = m_cols points /\ m_cols A = lv_NumBasisFunctions l /\
    forall u q, combine A u q = projected ref l (lv_Pi0k l) u (m_at points 0 q) (m_at points 1 q)) /\
  (exists A, VEM_Values_quadrature l Pi0km1_t = Ok A /\ m_rows A = m_cols points /\ m_cols A = lv_NumBasisFunctions l /\
    forall u q, combine A u q = projected ref l (lv_Pi0km1 l) u (m_at points 0 q) (m_at points 1 q)) /\
  (exists A0 A1, VEM_DerivativeValues_quadrature l PiNabla_t = Ok [A0; A1] /\ m_rows A0 = m_cols points /\ m_cols A0 = lv_NumBasisFunctions l /\ m_rows A1 = m_cols points /\ m_cols A1 = lv_NumBasisFunctions l /\
    forall u, exists gx gy, poly2 k (projected ref l (lv_PiNabla l) u) gx gy /\
      forall q, combine A0 u q = gx (m_at points 0 q) (m_at points 1 q) /\ combine A1 u q = gy (m_at points 0 q) (m_at points 1 q)) /\
  (exists P0 P1 A0 A1, lv_Pi0km1Der l = [P0; P1] /\ VEM_DerivativeValues_quadrature l Pi0km1Der_t = Ok [A0; A1] /\ m_rows A0 = m_cols points /\ m_cols A0 = lv_NumBasisFunctions l /\ m_rows A1 = m_cols points /\ m_cols A1 = lv_NumBasisFunctions l /\
    forall u q, combine A0 u q = projected ref l P0 u (m_at points 0 q) (m_at points 1 q) /\ combine A1 u q = projected ref l P1 u (m_at points 0 q) (m_at points 1 q)).
Proof. exact quadrature_values_all. Qed.

(** C53: Laplacian at the internal quadrature points *)
Theorem C53_laplacian_quadrature : forall gt lob junk lu llt k p ref l, vem_space gt lob junk lu llt k p ref l ->
  let points := q_Points (lv_InternalQuadrature l) in
  exists A, VEM_LaplacianValues_quadrature l Pi0km1Der_t = Ok A /\ m_rows A = m_cols points /\ m_cols A = lv_NumBasisFunctions l /\
    (forall u, exists P0 P1 gxx gxy gyx gyy, lv_Pi0km1Der l = [P0; P1] /\ poly2 (k - 1) (projected ref l P0 u) gxx gxy /\ poly2 (k - 1) (projected ref l P1 u) gyx gyy /\
      forall q, combine A u q = gxx (m_at points 0 q) (m_at points 1 q) + gyy (m_at points 0 q) (m_at points 1 q)) /\
    (forall f fx fy fxx fxy fyx fyy, poly2 k f fx fy -> poly2 (k - 1) fx fxx fxy -> poly2 (k - 1) fy fyx fyy ->
      forall q, combine A (dofs_of ref l f) q = fxx (m_at points 0 q) (m_at points 1 q) + fyy (m_at points 0 q) (m_at points 1 q)).
Proof. exact laplacian_all. Qed.

(** C53: the overload with points multiplies in the wrong order *)
Theorem C53_laplacian_points_refuted : forall gt lob junk lu llt k p ref l, vem_space gt lob junk lu llt k p ref l ->
  forall junk' points, m_rows points = 3%nat ->
  (m_cols points <> lv_Nkm1 l -> VEM_LaplacianValues junk' ref l Pi0km1Der_t points = UB) /\
  (m_cols points = lv_Nkm1 l -> exists A, VEM_LaplacianValues junk' ref l Pi0km1Der_t points = Ok A /\ m_cols A = lv_NumProjectorBasisFunctions l).
Proof. exact laplacian_points_all. Qed.

(** C51: dofi-dofi stabilization of any projector *)
Theorem C51_dofi_dofi : forall P coefficient D, m_cols D = m_rows P -> m_rows D = m_cols P ->
  exists S, utilities_DofiDofi P coefficient D = Ok S /\ m_rows S = m_rows D /\ m_cols S = m_rows D /\
    (forall i j, m_at S i j = m_at S j i) /\
    (0 <= coefficient -> forall x : nat -> R, 0 <= rsum (m_rows S) (fun i => rsum (m_cols S) (fun j => x i * m_at S i j * x j))) /\
    (forall x : nat -> R, rsum (m_rows S) (fun i => rsum (m_cols S) (fun j => x i * m_at S i j * x j)) =
      coefficient * rsum (m_rows D) (fun q => (rsum (m_cols D) (fun c => m_at D q c * rsum (m_cols P) (fun j => m_at P c j * x j)) - x q) ^ 2)) /\
    ((forall i j, (i < m_rows P)%nat -> (j < m_rows P)%nat -> product P D i j = delta i j) ->
      forall i c, (c < m_cols D)%nat -> product S D i c = 0).
Proof. exact C51_dofi_all. Qed.

(** C51: D-recipe stabilization of any projector *)
Theorem C51_d_recipe : forall P K w D, m_cols D = m_rows P -> m_rows D = m_cols P -> m_rows K = m_rows D -> m_cols K = m_rows D -> v_size w = m_rows D ->
  exists S, utilities_DRecipe P K w D = Ok S /\ m_rows S = m_rows D /\ m_cols S = m_rows D /\
    (forall i j, m_at S i j = m_at S j i) /\
    (forall x : nat -> R, rsum (m_rows S) (fun i => rsum (m_cols S) (fun j => x i * m_at S i j * x j)) =
      rsum (m_rows D) (fun q => Rmax (m_at K q q) (v_at w q) * (rsum (m_cols D) (fun c => m_at D q c * rsum (m_cols P) (fun j => m_at P c j * x j)) - x q) ^ 2)) /\
    ((forall i, (i < m_rows D)%nat -> 0 <= v_at w i) -> forall x : nat -> R, 0 <= rsum (m_rows S) (fun i => rsum (m_cols S) (fun j => x i * m_at S i j * x j))) /\
    ((forall i j, (i < m_rows P)%nat -> (j < m_rows P)%nat -> product P D i j = delta i j) ->
      forall i c, (c < m_cols D)%nat -> product S D i c = 0).
Proof. exact C51_drecipe_all. Qed.

(** C51: the stabilization of a space vanishes exactly on polynomials: it is the squared distance between the dofs and those of the projection *)
Theorem C51_space_stabilization : forall gt lob junk lu llt k p ref l, vem_space gt lob junk lu llt k p ref l ->
  forall t, t = PiNabla_t \/ t = Pi0k_t -> exists S, VEM_DofiDofi l t = Ok S /\ m_rows S = lv_NumBasisFunctions l /\ m_cols S = lv_NumBasisFunctions l /\
  (forall i j, m_at S i j = m_at S j i) /\
  (forall f fx fy, poly2 k f fx fy -> forall i, combine S (dofs_of ref l f) i = 0) /\
  (forall u : nat -> R, rsum (m_rows S) (fun i => rsum (m_cols S) (fun j => u i * m_at S i j * u j)) =
    (match t with PiNabla_t => 1 | _ => lv_Measure l end) * rsum (lv_NumBasisFunctions l) (fun q =>
       (dofs_of ref l (projected ref l (match t with PiNabla_t => lv_PiNabla l | _ => lv_Pi0k l end) u) q - u q) ^ 2)).
Proof. exact stabilization_all. Qed.

(** ** Examples: the trapezium with spaces of order 2, Simpson's rule on the edges, the lattice rule of degree 4 *)
Definition lattice_x : list nat := [0;1;2;3;4;0;1;2;3;0;1;2;0;1;0]%nat.
Definition lattice_y : list nat := [0;0;0;0;0;1;1;1;1;2;2;2;3;3;4]%nat.
Definition lattice_w : list R := [0;4;-1;4;0;4;8;8;4;-1;8;-1;4;4;0].
Definition lattice_rule : QuadratureData := {|
  q_Points := {| m_rows := 3; m_cols := 15; m_at := fun d j => match d with 0%nat => INR (nth j lattice_x 0%nat) / 4 | 1%nat => INR (nth j lattice_y 0%nat) / 4 | _ => 0 end |};
  q_Weights := {| v_size := 15; v_at := fun j => nth j lattice_w 0 / 90 |} |}.
Definition simpson_rule : QuadratureData := {|
  q_Points := {| m_rows := 3; m_cols := 3; m_at := fun d j => match d, j with 0%nat, 1%nat => 1/2 | 0%nat, 2%nat => 1 | _, _ => 0 end |};
  q_Weights := {| v_size := 3; v_at := fun j => match j with 1%nat => 2/3 | _ => 1/6 end |} |}.
Definition trapezium : Polygon := {| pg_Vertices := trap_vertices; pg_Centroid := fun d => match d with 0%nat => 7/3 | 1%nat => 16/9 | _ => 0 end;
  pg_Measure := 18; pg_Diameter := 7; pg_TriangulationVertices := trap_tris; pg_EdgesLength := trap_lengths; pg_EdgesDirection := trap_dirs;
  pg_EdgesTangent := trap_tangents; pg_EdgesNormal := trap_normals |}.
Example lattice_exact : rule lattice_rule /\ exact_triangle 4 lattice_rule.
Proof.
  split; [split; reflexivity|]. intros a b H. destruct a as [|[|[|[|[|a]]]]]; try lia; destruct b as [|[|[|[|[|b]]]]]; try lia; unfold apply_rule; cbn; field.
Qed.
Example trapezium_good : good_polygon trapezium.
Proof.
  constructor; cbn; try lra.
  - apply trap_edge_data.
  - apply trap_tangents_ok.
  - apply trap_normals_ok.
  - apply trap_triangulates.
  - unfold shoelace. cbn. lra.
Qed.
Example simpson_good : good_rules (fun _ => lattice_rule) (fun _ => simpson_rule) 2.
Proof.
  constructor; cbn; try lra; try reflexivity.
  - apply lattice_exact.
  - apply lattice_exact.
  - split; reflexivity.
  - intros a H. four a; unfold apply_rule; cbn; field.
Qed.
Example vem_case : forall junk, exists ref l, vem_space (fun _ => lattice_rule) (fun _ => simpson_rule) junk gauss_solver gauss_solver 2 trapezium ref l /\
  lv_NumBasisFunctions l = 9%nat /\ lv_NumProjectorBasisFunctions l = 6%nat.
Proof.
  intros junk. destruct (C69_space_exists (fun _ => lattice_rule) (fun _ => simpson_rule) junk gauss_solver gauss_solver 2 trapezium ltac:(lia) simpson_good trapezium_good gauss_nonsingular gauss_positive) as (ref & l & VS).
  exists ref, l. split; auto. destruct (C69_sizes _ _ _ _ _ _ _ _ _ VS) as (s1 & s2 & s3 & s4 & s5). cbn in s1. lia.
Qed.
(** the same polygon with spaces of order 1 *)
Definition ends_rule : QuadratureData := {|
  q_Points := {| m_rows := 3; m_cols := 2; m_at := fun d j => match d, j with 0%nat, 1%nat => 1 | _, _ => 0 end |};
  q_Weights := {| v_size := 2; v_at := fun _ => 1/2 |} |}.
Example ends_good : good_rules (fun _ => midpoint_rule) (fun _ => ends_rule) 1.
Proof.
  constructor; cbn; try lra; try reflexivity; try apply midpoint_exact.
  - split; reflexivity.
  - intros a H. destruct a as [|[|a]]; try lia; unfold apply_rule; cbn; field.
Qed.
Example vem_case_1 : forall junk, exists ref l, vem_space (fun _ => midpoint_rule) (fun _ => ends_rule) junk gauss_solver gauss_solver 1 trapezium ref l /\
  lv_NumBasisFunctions l = 4%nat /\ lv_NumProjectorBasisFunctions l = 3%nat /\ lv_NumInternalBasisFunctions l = 0%nat.
Proof.
  intros junk. destruct (C69_space_exists (fun _ => midpoint_rule) (fun _ => ends_rule) junk gauss_solver gauss_solver 1 trapezium ltac:(lia) ends_good trapezium_good gauss_nonsingular gauss_positive) as (ref & l & VS).
  exists ref, l. split; auto. destruct (C69_sizes _ _ _ _ _ _ _ _ _ VS) as (s1 & s2 & s3 & s4 & s5). cbn in s1. lia.
Qed.
(** the dofs of x y are reproduced by the three projections *)
Example C70_case : forall junk, exists ref l, vem_space (fun _ => lattice_rule) (fun _ => simpson_rule) junk gauss_solver gauss_solver 2 trapezium ref l /\
  forall x y, projected ref l (lv_PiNabla l) (dofs_of ref l (fun x y => x ^ 1 * y ^ 1)) x y = x * y /\ projected ref l (lv_Pi0k l) (dofs_of ref l (fun x y => x ^ 1 * y ^ 1)) x y = x * y.
Proof.
  intros junk. destruct (vem_case junk) as (ref & l & VS & _). exists ref, l. split; auto. intros x y.
  destruct (C70_reproduction _ _ _ _ _ _ _ _ _ VS _ _ _ (poly2_mono 2 1 1 ltac:(lia)) x y) as (A & B & _). rewrite A, B. split; ring.
Qed.
(** C71, C72 with the test polynomial x^2 / 2: its Laplacian is the first monomial *)
Example C71_case : forall junk u, exists ref l, vem_space (fun _ => lattice_rule) (fun _ => simpson_rule) junk gauss_solver gauss_solver 2 trapezium ref l /\
  exists px py, poly2 2 (projected ref l (lv_PiNabla l) u) px py /\
    inside l (fun x y => px x y * x + py x y * 0) = flux l 0 (fun x y => x) u + flux l 1 (fun x y => 0) u - lv_Measure l * u 8%nat.
Proof.
  intros junk u. destruct (vem_case junk) as (ref & l & VS & _). exists ref, l. split; auto. destruct (C69_sizes _ _ _ _ _ _ _ _ _ VS) as (s1 & s2 & s3 & s4 & s5). cbn in s1, s2, s4, s5.
  assert (P2 : poly2 2 (fun x y => 1 / 2 * (x ^ 2 * y ^ 0)) (fun x y => 1 / 2 * (INR 2 * x ^ 1 * y ^ 0)) (fun x y => 1 / 2 * (INR 0 * x ^ 2 * y ^ 0))) by (apply poly2_scal, (poly2_mono 2 2 0); lia).
  assert (Px : poly2 1 (fun x y => x ^ 1 * y ^ 0) (fun x y => INR 1 * x ^ 0 * y ^ 0) (fun x y => INR 0 * x ^ 1 * y ^ 0)) by (apply (poly2_mono 1 1 0); lia).
  assert (Py : poly2 1 (fun x y => 0 * (x ^ 0 * y ^ 0)) (fun x y => 0 * (INR 0 * x ^ 0 * y ^ 0)) (fun x y => 0 * (INR 0 * x ^ 0 * y ^ 0))) by (apply poly2_scal, (poly2_mono 1 0 0); lia).
  destruct (C71_energy_projection _ _ _ _ _ _ _ _ _ VS u (fun x y => 1 / 2 * (x ^ 2 * y ^ 0)) (fun x y => x) (fun _ _ => 0) (fun _ _ => 1) (fun _ _ => 0) (fun _ _ => 0) (fun _ _ => 0) (fun _ => 1)) as (px & py & A & B).
  - apply (poly2_ext _ _ _ _ _ _ _ P2); intros; cbv beta; cbn; lra.
  - apply (poly2_ext _ _ _ _ _ _ _ Px); intros; cbv beta; cbn; lra.
  - apply (poly2_ext _ _ _ _ _ _ _ Py); intros; cbv beta; cbn; lra.
  - intros x y. replace (lv_NumInternalBasisFunctions l) with 1%nat by lia. cbn [rsum]. rewrite (VemProofs4.scaled_phi _ _ _ _ _ _ _ _ _ VS 0 x y) by (cbn; lia). unfold phi, mn. change (ea 0) with 0%nat. change (eb 0) with 0%nat. cbn [pow]. ring.
  - exists px, py. split; auto. rewrite B. unfold moment. replace (lv_NumInternalBasisFunctions l) with 1%nat by lia. replace (lv_NumBoundaryBasisFunctions l) with 8%nat by lia. cbn [rsum Nat.add]. ring.
Qed.
(** on the trapezium with order 2 the overload of the Laplacian with points fails for any number of points but three *)
Example C53_case : forall junk, exists ref l, vem_space (fun _ => lattice_rule) (fun _ => simpson_rule) junk gauss_solver gauss_solver 2 trapezium ref l /\
  VEM_LaplacianValues junk ref l Pi0km1Der_t (mzero 3 4) = UB.
Proof.
  intros junk. destruct (vem_case junk) as (ref & l & VS & _). exists ref, l. split; auto. apply (C53_laplacian_points_refuted _ _ _ _ _ _ _ _ _ VS); [reflexivity|].
  destruct (C69_sizes _ _ _ _ _ _ _ _ _ VS) as (_ & _ & _ & _ & s5). cbn in *. lia.
Qed.
Print Assumptions C69_space_exists.
Print Assumptions C69_sizes.
Print Assumptions C69_well_posed.
Print Assumptions C70_dofs_matrix.
Print Assumptions C70_reproduction.
Print Assumptions C52_matrix_identities.
Print Assumptions C52_moments.
Print Assumptions C71_energy_projection.
Print Assumptions C71_mean_value.
Print Assumptions C72_derivative_projection.
Print Assumptions C73_values_at_points.
Print Assumptions C73_values_at_quadrature.
Print Assumptions C53_laplacian_quadrature.
Print Assumptions C53_laplacian_points_refuted.
Print Assumptions C51_dofi_dofi.
Print Assumptions C51_d_recipe.
Print Assumptions C51_space_stabilization.
