(** Model of the Raviart-Thomas triangle: FEM/MCC/2D/FEM_Triangle_RT_MCC_2D_ReferenceElement.hpp and
    FEM/MCC/2D/FEM_Triangle_RT_MCC_2D_LocalSpace.{hpp,cpp}, and VEM_Quadrature_2D::Compute_MCC_2D. *)
From Coq Require Import List Arith Bool ZArith Reals.
From Verif Require Import Base RSum MatrixModel MonomialsModel LagrangeModel VemQuadModel VemModel.
Import ListNotations.
Local Open Scope R_scope.

(** Eigen (not in /repo): A.rightCols(n) *)
Definition rightCols (A : Mat) (n : nat) : outcome Mat :=
  if (n <=? m_cols A)%nat then mat_block A 0 (m_cols A - n) (m_rows A) n else UB.
(** Eigen (not in /repo): A.middleRows(r, n) *)
Definition middleRows (A : Mat) (r n : nat) : outcome Mat := mat_block A r 0 n (m_cols A).
(** Eigen (not in /repo): A.middleCols(c, n) *)
Definition middleCols (A : Mat) (c n : nat) : outcome Mat := mat_block A 0 c (m_rows A) n.
(** Eigen (not in /repo): A.topRightCorner(r, c) *)
Definition topRightCorner (A : Mat) (r c : nat) : outcome Mat :=
  if (c <=? m_cols A)%nat then mat_block A 0 (m_cols A - c) r c else UB.
(** Eigen (not in /repo): A.bottomRightCorner(r, c) *)
Definition bottomRightCorner (A : Mat) (r c : nat) : outcome Mat :=
  if ((c <=? m_cols A) && (r <=? m_rows A))%nat then mat_block A (m_rows A - r) (m_cols A - c) r c else UB.
(** Eigen (not in /repo): A.row(d).segment(a, n).transpose() *)
Definition row_segment (A : Mat) (d a n : nat) : outcome Vec :=
  if ((d <? m_rows A) && (a + n <=? m_cols A))%nat then Ok {| v_size := n; v_at := fun q => m_at A d (a + q)%nat |} else UB.
(** Eigen (not in /repo): A.row(d).asDiagonal() * B * C, evaluated from the left *)
Definition row_diag (A : Mat) (d : nat) (B C : Mat) : outcome Mat :=
  r <- mrow A d ;;
  if (m_cols A =? m_rows B)%nat
  then mmul {| m_rows := m_rows B; m_cols := m_cols B; m_at := fun i j => r i * m_at B i j |} C else UB.
(** Eigen (not in /repo): A.block(r, c, n, n) *= x *)
Definition block_scale (A : Mat) (r c n : nat) (x : R) : outcome Mat :=
  B <- mat_block A r c n n ;; mat_set_block A r c n n (mscal x B).
(** Eigen (not in /repo): c * (points.colwise() - center), points with three rows *)
Definition centered (c : R) (points : Mat) (center : nat -> R) : outcome Mat :=
  if (m_rows points =? 3)%nat
  then Ok {| m_rows := 3; m_cols := m_cols points; m_at := fun d q => c * (m_at points d q - center d) |} else UB.

(** std::map with keys std::array<bool, 3> (lists of three booleans): insert does nothing if the key is present, at throws if it is absent *)
Fixpoint bools_eqb (a b : list bool) : bool :=
  match a, b with [], [] => true | x :: a, y :: b => Bool.eqb x y && bools_eqb a b | _, _ => false end.
(** std::map<std::vector<bool>, A> as a list of pairs *)
Definition key_map (A : Type) := list (list bool * A).
(** std::map::at *)
Fixpoint map_at {A} (m : key_map A) (k : list bool) : outcome A :=
  match m with [] => Throw | (k', a) :: m => if bools_eqb k' k then Ok a else map_at m k end.
(** std::map::insert: an existing key keeps its value *)
Definition map_insert {A} (m : key_map A) (k : list bool) (a : A) : key_map A :=
  match map_at m k with Ok _ => m | _ => m ++ [(k, a)] end.

(** ** Quadrature: VEM_Quadrature_2D.cpp 115-126.  [gauss_triangle], [gauss_segment]: the rules gedim returns for an order.
    The copies in ReferenceSegmentInternalPoints and ReferenceSegmentInternalWeights are not modelled. *)
Definition Compute_MCC_2D (gauss_triangle gauss_segment : nat -> QuadratureData) (order : nat) : VEM_QuadratureData_2D :=
  {| vq_ReferenceSegmentQuadrature := gauss_segment (2 * order + 1)%nat; vq_ReferenceEdgeDOFsQuadrature := no_quadrature;
     vq_ReferenceTriangleQuadrature := gauss_triangle (2 * (order + 1))%nat;
     vq_ReferenceEdgeDOFsInternalPoints := mzero 0 0; vq_ReferenceEdgeDOFsInternalWeights := vzero 0;
     vq_ReferenceEdgeDOFsExtremaWeights := (0, 0) |}.

(** ** Reference element *)

(** FEM_Triangle_RT_MCC_2D_ReferenceElement.hpp 43-49 *)
Record RT_BasisFunctions := {
  rb_MonomialsCoefficients : Mat;
  rb_ReferenceBasisFunctionValues : list Mat;
  rb_ReferenceBasisFunctionDivergenceValues : Mat }.

(** FEM_Triangle_RT_MCC_2D_ReferenceElement.hpp 29-87; the data of pressure and velocity are inlined.  The fields with a constant default value
    (TriangleVertices, EdgeLengths, EdgeTangents, EdgeNormals) are the definitions below. *)
Record RT_Reference := {
  rt_Dimension : nat; rt_Order : nat; rt_Nk : nat; rt_Nkm1 : nat;
  rt_Quadrature : VEM_QuadratureData_2D;
  rt_BoundaryQuadrature : key_map Edges_QuadratureData;
  rt_monomials_2D : Monomials_Data; rt_center_2D : nat -> R; rt_scale_2D : R;
  rt_monomials_1D : Monomials_Data; rt_center_1D : nat -> R; rt_scale_1D : R;
  rt_VanderBoundary1D : Mat;
  rt_v_NumDofs0D : nat; rt_v_NumDofs1D : nat; rt_v_NumDofs2D : nat; rt_v_NumBasisFunctions : nat;
  rt_basis_functions : key_map RT_BasisFunctions;
  rt_p_NumDofs0D : nat; rt_p_NumDofs1D : nat; rt_p_NumDofs2D : nat; rt_p_NumBasisFunctions : nat;
  rt_p_ReferenceBasisFunctionValues : Mat }.

(** 78: rows (0,1,0), (0,0,1), (0,0,0) *)
Definition TriangleVertices : Mat := {| m_rows := 3; m_cols := 3; m_at := fun i j =>
  match i, j with 0%nat, 1%nat => 1 | 1%nat, 2%nat => 1 | _, _ => 0 end |}.
(** 79 *)
Definition EdgeLengths : Vec := {| v_size := 3; v_at := fun e => match e with 1%nat => sqrt 2 | _ => 1 end |}.
(** 80: rows (1,-1,0), (0,1,-1), (0,0,0) *)
Definition EdgeTangents : Mat := {| m_rows := 3; m_cols := 3; m_at := fun i j =>
  match i, j with 0%nat, 0%nat => 1 | 0%nat, 1%nat => -1 | 1%nat, 1%nat => 1 | 1%nat, 2%nat => -1 | _, _ => 0 end |}.
(** 81-82: rows (0, 1/sqrt 2, -1), (-1, 1/sqrt 2, 0), (0,0,0) *)
Definition EdgeNormals : Mat := {| m_rows := 3; m_cols := 3; m_at := fun i j =>
  match i, j with 0%nat, 1%nat => 1 / sqrt 2 | 0%nat, 2%nat => -1 | 1%nat, 0%nat => -1 | 1%nat, 1%nat => 1 / sqrt 2 | _, _ => 0 end |}.

(** 101-112: the right hand side; [n1]: NumDofs1D, [N]: NumBasisFunctions *)
Definition rt_B (n1 N : nat) (dirs : list bool) : outcome Mat :=
  for_loop 3 (fun e B =>
    dir <- idx_ dirs e ;;
    block_scale B (e * n1) (e * n1) n1 (if (dir : bool) then 1 else -1)) (midentity N).

(** 114-266: the matrix of the degrees of freedom; [n]: Order + 1, [n1]: NumDofs1D, [N]: NumBasisFunctions,
    [V1]: VanderBoundary1D, [WN]: WeightsTimesNormal, [V2]: VanderBoundary2D, [xy]: xy_boundary,
    [PV]: ReferenceBasisFunctionValues of the pressure, [W]: weights of the triangle *)
Definition rt_G (order n1 N Nk Nkm1 : nat) (V1 : Mat) (WN : list Vec) (V2 xy PV : Mat) (W : Vec) : outcome Mat :=
  let n := (order + 1)%nat in
  WN0 <- idx_ WN 0 ;; WN1 <- idx_ WN 1 ;;
  let G := mzero N N in
  (** edge 1, 127-139 *)
  w <- vec_segment WN1 0 n ;; T <- topRows V2 n ;; M <- weighted V1 w T ;;
  G <- mat_set_block G 0 Nk n Nk M ;;
  y <- row_segment xy 1 0 n ;; w <- vcwise w y ;; T <- topRightCorner V2 n n ;; M <- weighted V1 w T ;;
  G <- mat_set_block G 0 (2 * Nk) n n M ;;
  (** edge 2, 141-187 *)
  w0 <- vec_segment WN0 (1 * n) n ;; T <- middleRows V2 n n ;; M <- weighted V1 w0 T ;;
  G <- mat_set_block G (1 * n) 0 n Nk M ;;
  w1 <- vec_segment WN1 (1 * n) n ;; M <- weighted V1 w1 T ;;
  G <- mat_set_block G (1 * n) Nk n Nk M ;;
  x <- row_segment xy 0 (1 * n) n ;; y <- row_segment xy 1 (1 * n) n ;;
  wx <- vcwise w0 x ;; wy <- vcwise w1 y ;; w <- vadd wx wy ;;
  T <- (if (Nk <? n)%nat then UB else mat_block V2 n (Nk - n) n n) ;; M <- weighted V1 w T ;;
  G <- mat_set_block G (1 * n) (2 * Nk) n n M ;;
  (** edge 3, 189-214 *)
  w0 <- vec_segment WN0 (2 * n) n ;; T <- bottomRows V2 n ;; M <- weighted V1 w0 T ;;
  G <- mat_set_block G (2 * n1) 0 n1 Nk M ;;
  x <- row_segment xy 0 (2 * n) n ;; w <- vcwise w0 x ;; T <- bottomRightCorner V2 n n ;; M <- weighted V1 w T ;;
  G <- mat_set_block G (2 * n1) (2 * Nk) n1 n M ;;
  (** internal dofs, 216-265 *)
  if (0 <? order)%nat then
    PL <- leftCols PV Nkm1 ;; M <- weighted PL W PV ;;
    G <- mat_set_block G (3 * n1) 0 Nkm1 Nk M ;;
    G <- mat_set_block G (3 * n1 + Nkm1) Nk Nkm1 Nk M ;;
    PR <- rightCols PV n ;;
    c1 <- mcol PV 1 ;; w <- vcwise W {| v_size := m_rows PV; v_at := c1 |} ;; M <- weighted PL w PR ;;
    G <- mat_set_block G (3 * n1) (2 * Nk) Nkm1 n M ;;
    c2 <- mcol PV 2 ;; w <- vcwise W {| v_size := m_rows PV; v_at := c2 |} ;; M <- weighted PL w PR ;;
    mat_set_block G (3 * n1 + Nkm1) (2 * Nk) Nkm1 n M
  else Ok G.

(** 95-268; [lu]: partialPivLu().solve; [junk]: contents of matrices after resize *)
Definition rt_MonomialsCoefficients (junk : nat -> nat -> R) (lu : Solver) (dirs : list bool) (ref : RT_Reference) : outcome Mat :=
  BQ <- map_at (rt_BoundaryQuadrature ref) dirs ;;
  B <- rt_B (rt_v_NumDofs1D ref) (rt_v_NumBasisFunctions ref) dirs ;;
  V2 <- Vander 2 junk (rt_monomials_2D ref) (q_Points (eq_Quadrature BQ)) (rt_center_2D ref) (rt_scale_2D ref) ;;
  xy <- centered (1 / rt_scale_2D ref) (q_Points (eq_Quadrature BQ)) (rt_center_2D ref) ;;
  G <- rt_G (rt_Order ref) (rt_v_NumDofs1D ref) (rt_v_NumBasisFunctions ref) (rt_Nk ref) (rt_Nkm1 ref) (rt_VanderBoundary1D ref)
         (eq_WeightsTimesNormal BQ) V2 xy (rt_p_ReferenceBasisFunctionValues ref) (q_Weights (vq_ReferenceTriangleQuadrature (rt_Quadrature ref))) ;;
  msolve lu G B.

(** 365-392 *)
Definition EvaluateVelocityBasisFunctions (junk : nat -> nat -> R) (points C : Mat) (ref : RT_Reference) : outcome (list Mat) :=
  xy <- centered (1 / rt_scale_2D ref) points (rt_center_2D ref) ;;
  V <- Vander 2 junk (rt_monomials_2D ref) points (rt_center_2D ref) (rt_scale_2D ref) ;;
  VR <- rightCols V (rt_Order ref + 1) ;;
  CT <- topRows C (rt_Nk ref) ;; CM <- middleRows C (rt_Nk ref) (rt_Nk ref) ;; CB <- bottomRows C (rt_Order ref + 1) ;;
  A <- mmul V CT ;; B <- row_diag xy 0 VR CB ;; v0 <- madd A B ;;
  A <- mmul V CM ;; B <- row_diag xy 1 VR CB ;; v1 <- madd A B ;;
  Ok [v0; v1].

(** 394-401 *)
Definition EvaluatePressureBasisFunctions (junk : nat -> nat -> R) (points : Mat) (ref : RT_Reference) : outcome Mat :=
  Vander 2 junk (rt_monomials_2D ref) points (rt_center_2D ref) (rt_scale_2D ref).

(** 403-430 *)
Definition EvaluateVelocityBasisFunctionsDivergence (junk : nat -> nat -> R) (points C : Mat) (ref : RT_Reference) : outcome Mat :=
  xy <- centered (1 / rt_scale_2D ref) points (rt_center_2D ref) ;;
  V <- Vander 2 junk (rt_monomials_2D ref) points (rt_center_2D ref) (rt_scale_2D ref) ;;
  VD <- VanderDerivatives Monomials_2D junk (rt_monomials_2D ref) V (rt_scale_2D ref) ;;
  VD0 <- idx_ VD 0 ;; VD1 <- idx_ VD 1 ;;
  CT <- topRows C (rt_Nk ref) ;; CM <- middleRows C (rt_Nk ref) (rt_Nk ref) ;; CB <- bottomRows C (rt_Order ref + 1) ;;
  A <- mmul VD0 CT ;; B <- mmul VD1 CM ;; S <- madd A B ;;
  VR <- rightCols V (rt_Order ref + 1) ;; A <- mmul (mscal (2 * (1 / rt_scale_2D ref)) VR) CB ;; S <- madd S A ;;
  VR <- rightCols VD0 (rt_Order ref + 1) ;; A <- row_diag xy 0 VR CB ;; S <- madd S A ;;
  VR <- rightCols VD1 (rt_Order ref + 1) ;; A <- row_diag xy 1 VR CB ;; madd S A.

(** 274-281 *)
Definition rt_directions : list (list bool) :=
  [[true; true; true]; [true; true; false]; [false; true; true]; [true; false; true];
   [false; false; true]; [false; true; false]; [true; false; false]; [false; false; false]].

(** FEM_Triangle_RT_MCC_2D_ReferenceElement.hpp 274-300: the two maps filled in *)
Definition rt_set_maps (ref : RT_Reference) (bq : key_map Edges_QuadratureData) (bf : key_map RT_BasisFunctions) : RT_Reference :=
  {| rt_Dimension := rt_Dimension ref; rt_Order := rt_Order ref; rt_Nk := rt_Nk ref; rt_Nkm1 := rt_Nkm1 ref;
     rt_Quadrature := rt_Quadrature ref; rt_BoundaryQuadrature := bq;
     rt_monomials_2D := rt_monomials_2D ref; rt_center_2D := rt_center_2D ref; rt_scale_2D := rt_scale_2D ref;
     rt_monomials_1D := rt_monomials_1D ref; rt_center_1D := rt_center_1D ref; rt_scale_1D := rt_scale_1D ref;
     rt_VanderBoundary1D := rt_VanderBoundary1D ref;
     rt_v_NumDofs0D := rt_v_NumDofs0D ref; rt_v_NumDofs1D := rt_v_NumDofs1D ref; rt_v_NumDofs2D := rt_v_NumDofs2D ref;
     rt_v_NumBasisFunctions := rt_v_NumBasisFunctions ref; rt_basis_functions := bf;
     rt_p_NumDofs0D := rt_p_NumDofs0D ref; rt_p_NumDofs1D := rt_p_NumDofs1D ref; rt_p_NumDofs2D := rt_p_NumDofs2D ref;
     rt_p_NumBasisFunctions := rt_p_NumBasisFunctions ref;
     rt_p_ReferenceBasisFunctionValues := rt_p_ReferenceBasisFunctionValues ref |}.

(** 271-313: body of the loop over the directions *)
Definition rt_direction_step (junk : nat -> nat -> R) (lu : Solver) (e : nat) (ref : RT_Reference) : outcome RT_Reference :=
  dirs <- idx_ rt_directions e ;;
  BQ <- PolygonEdgesQuadrature junk (vq_ReferenceSegmentQuadrature (rt_Quadrature ref)) TriangleVertices EdgeLengths dirs EdgeTangents EdgeNormals ;;
  let ref := rt_set_maps ref (map_insert (rt_BoundaryQuadrature ref) dirs BQ) (rt_basis_functions ref) in
  C <- rt_MonomialsCoefficients junk lu dirs ref ;;
  let points := q_Points (vq_ReferenceTriangleQuadrature (rt_Quadrature ref)) in
  V <- EvaluateVelocityBasisFunctions junk points C ref ;;
  D <- EvaluateVelocityBasisFunctionsDivergence junk points C ref ;;
  Ok (rt_set_maps ref (rt_BoundaryQuadrature ref) (map_insert (rt_basis_functions ref) dirs
        {| rb_MonomialsCoefficients := C; rb_ReferenceBasisFunctionValues := V; rb_ReferenceBasisFunctionDivergenceValues := D |})).

(** 316-363 *)
Definition RT_Create (gauss_triangle gauss_segment : nat -> QuadratureData) (junk : nat -> nat -> R) (lu : Solver) (order : nat)
  : outcome RT_Reference :=
  let Q := Compute_MCC_2D gauss_triangle gauss_segment order in
  m2 <- Compute Monomials_2D order ;;
  let c2 := fun d : nat => match d with 0%nat => 1 / 3 | 1%nat => 1 / 3 | _ => 0 end in
  m1 <- Compute Monomials_1D order ;;
  let c1 := fun d : nat => match d with 0%nat => 1 / 2 | _ => 0 end in
  PV <- Vander 2 junk m2 (q_Points (vq_ReferenceTriangleQuadrature Q)) c2 1 ;;
  V1 <- Vander 1 junk m1 (q_Points (vq_ReferenceSegmentQuadrature Q)) c1 1 ;;
  let n1 := (order + 1)%nat in
  let n2 := (2 * order * (order + 1) / 2)%nat in
  let np := ((order + 1) * (order + 2) / 2)%nat in
  for_loop (length rt_directions) (rt_direction_step junk lu)
    {| rt_Dimension := 2; rt_Order := order; rt_Nk := ((order + 1) * (order + 2) / 2)%nat; rt_Nkm1 := (order * (order + 1) / 2)%nat;
       rt_Quadrature := Q; rt_BoundaryQuadrature := [];
       rt_monomials_2D := m2; rt_center_2D := c2; rt_scale_2D := 1;
       rt_monomials_1D := m1; rt_center_1D := c1; rt_scale_1D := 1;
       rt_VanderBoundary1D := V1;
       rt_v_NumDofs0D := 0; rt_v_NumDofs1D := n1; rt_v_NumDofs2D := n2; rt_v_NumBasisFunctions := ((2 + 1) * n1 + n2)%nat;
       rt_basis_functions := [];
       rt_p_NumDofs0D := 0; rt_p_NumDofs1D := 0; rt_p_NumDofs2D := np; rt_p_NumBasisFunctions := np;
       rt_p_ReferenceBasisFunctionValues := PV |}.

(** ** Local space *)

(** Gedim::MapTriangle (not in /repo, the map of VemQuadModel): determinant of the map of the triangle T *)
Definition mapTriangle_det (T : Mat) : R := mapTriangle_B T 0 0 * mapTriangle_B T 1 1 - mapTriangle_B T 0 1 * mapTriangle_B T 1 0.
(** MapTriangle::FInv: inverse of B times (x - v0), third coordinate included *)
Definition mapTriangle_BInv (T : Mat) (i k : nat) : R :=
  match i, k with
  | 0%nat, 0%nat => mapTriangle_B T 1 1 / mapTriangle_det T | 0%nat, 1%nat => - mapTriangle_B T 0 1 / mapTriangle_det T
  | 1%nat, 0%nat => - mapTriangle_B T 1 0 / mapTriangle_det T | 1%nat, 1%nat => mapTriangle_B T 0 0 / mapTriangle_det T
  | 2%nat, 2%nat => 1
  | _, _ => 0
  end.
(** Gedim::MapTriangle::FInv (not in /repo) *)
Definition mapTriangle_FInv (T : Mat) (P : Mat) : outcome Mat :=
  if ((m_rows T =? 3) && (m_cols T =? 3) && (m_rows P =? 3))%nat
  then Ok {| m_rows := 3; m_cols := m_cols P; m_at := fun i q => rsum 3 (fun k => mapTriangle_BInv T i k * (m_at P k q - m_at T k 0)) |}
  else UB.

(** FEM_MCC_2D_LocalSpace_Data.hpp 29-39: the members used *)
Record MCC_Polygon := { mp_Vertices : Mat; mp_EdgesDirection : list bool; mp_EdgesLength : Vec }.

(** FEM_MCC_2D_LocalSpace_Data.hpp 41-52; MapData is given by the vertices *)
Record RT_Local := {
  rl_Vertices : Mat;
  rl_Order : nat; rl_NumVelocityBasisFunctions : nat; rl_NumPressureBasisFunctions : nat;
  rl_EdgesDirection : list bool;
  rl_InternalQuadrature : QuadratureData; rl_BoundaryQuadrature : list QuadratureData }.

(** FEM_Triangle_RT_MCC_2D_LocalSpace.cpp 51-63 *)
Definition rt_InternalQuadrature (q : QuadratureData) (T : Mat) : outcome QuadratureData :=
  F <- mapTriangle_F T (q_Points q) ;;
  let det := mapTriangle_DetJ T (q_Points q) in
  w <- vcwise (q_Weights q) {| v_size := v_size det; v_at := fun j => Rabs (v_at det j) |} ;;
  Ok {| q_Points := F; q_Weights := w |}.

(** FEM_Triangle_RT_MCC_2D_LocalSpace.cpp 65-91: edges_quadrature.at(e) is inside the vector *)
Definition rt_BoundaryQuadrature_local (ref : RT_Reference) (T : Mat) (dirs : list bool) (q : QuadratureData) (p : MCC_Polygon)
  : outcome (list QuadratureData) :=
  for_loop (length (mp_EdgesDirection p)) (fun e acc =>
    len <- vec_get (mp_EdgesLength p) e ;;
    BQ <- map_at (rt_BoundaryQuadrature ref) dirs ;;
    P <- middleCols (q_Points (eq_Quadrature BQ)) (e * rt_v_NumDofs1D ref) (rt_v_NumDofs1D ref) ;;
    F <- mapTriangle_F T P ;;
    Ok (acc ++ [{| q_Points := F; q_Weights := vscal (Rabs len) (q_Weights q) |}])) [].

(** FEM_Triangle_RT_MCC_2D_LocalSpace.cpp 24-49 *)
Definition RT_CreateLocalSpace (ref : RT_Reference) (p : MCC_Polygon) : outcome RT_Local :=
  if negb (m_cols (mp_Vertices p) =? 3)%nat then Throw else
  d0 <- idx_ (mp_EdgesDirection p) 0 ;; d1 <- idx_ (mp_EdgesDirection p) 1 ;; d2 <- idx_ (mp_EdgesDirection p) 2 ;;
  let dirs := [d0; d1; d2] in
  I <- rt_InternalQuadrature (vq_ReferenceTriangleQuadrature (rt_Quadrature ref)) (mp_Vertices p) ;;
  B <- rt_BoundaryQuadrature_local ref (mp_Vertices p) dirs (vq_ReferenceSegmentQuadrature (rt_Quadrature ref)) p ;;
  Ok {| rl_Vertices := mp_Vertices p; rl_Order := rt_Order ref;
        rl_NumVelocityBasisFunctions := rt_v_NumBasisFunctions ref; rl_NumPressureBasisFunctions := rt_p_NumBasisFunctions ref;
        rl_EdgesDirection := dirs; rl_InternalQuadrature := I; rl_BoundaryQuadrature := B |}.

(** FEM_Triangle_RT_MCC_2D_LocalSpace.cpp 93-104 *)
Definition MapVelocityValues (l : RT_Local) (values : list Mat) : outcome (list Mat) :=
  r0 <- idx_ values 0 ;; r1 <- idx_ values 1 ;;
  let T := rl_Vertices l in
  v0 <- madd (mscal (mapTriangle_B T 0 0) r0) (mscal (mapTriangle_B T 0 1) r1) ;;
  v1 <- madd (mscal (mapTriangle_B T 1 0) r0) (mscal (mapTriangle_B T 1 1) r1) ;;
  Ok [mscal (1 / mapTriangle_det T) v0; mscal (1 / mapTriangle_det T) v1].
(** FEM_Triangle_RT_MCC_2D_LocalSpace.cpp 106-112 *)
Definition MapPressureValues (l : RT_Local) (values : Mat) : Mat := values.
(** FEM_Triangle_RT_MCC_2D_LocalSpace.cpp 114-120 *)
Definition MapVelocityDivergenceValues (l : RT_Local) (values : Mat) : Mat := mscal (1 / mapTriangle_det (rl_Vertices l)) values.

(** FEM_Triangle_RT_MCC_2D_LocalSpace.hpp 53-75: at the quadrature points *)
Definition RT_PressureValues (ref : RT_Reference) (l : RT_Local) : Mat := MapPressureValues l (rt_p_ReferenceBasisFunctionValues ref).
(** FEM_Triangle_RT_MCC_2D_LocalSpace.hpp 53-75 *)
Definition RT_VelocityValues (ref : RT_Reference) (l : RT_Local) : outcome (list Mat) :=
  b <- map_at (rt_basis_functions ref) (rl_EdgesDirection l) ;; MapVelocityValues l (rb_ReferenceBasisFunctionValues b).
(** FEM_Triangle_RT_MCC_2D_LocalSpace.hpp 53-75 *)
Definition RT_VelocityDivergenceValues (ref : RT_Reference) (l : RT_Local) : outcome Mat :=
  b <- map_at (rt_basis_functions ref) (rl_EdgesDirection l) ;; Ok (MapVelocityDivergenceValues l (rb_ReferenceBasisFunctionDivergenceValues b)).
(** FEM_Triangle_RT_MCC_2D_LocalSpace.hpp 77-123: at given points *)
Definition RT_PressureValues_at (junk : nat -> nat -> R) (ref : RT_Reference) (l : RT_Local) (points : Mat) : outcome Mat :=
  P <- mapTriangle_FInv (rl_Vertices l) points ;;
  A <- EvaluatePressureBasisFunctions junk P ref ;; Ok (MapPressureValues l A).
(** FEM_Triangle_RT_MCC_2D_LocalSpace.hpp 77-123 *)
Definition RT_VelocityValues_at (junk : nat -> nat -> R) (ref : RT_Reference) (l : RT_Local) (points : Mat) : outcome (list Mat) :=
  P <- mapTriangle_FInv (rl_Vertices l) points ;;
  b <- map_at (rt_basis_functions ref) (rl_EdgesDirection l) ;;
  A <- EvaluateVelocityBasisFunctions junk P (rb_MonomialsCoefficients b) ref ;; MapVelocityValues l A.
(** FEM_Triangle_RT_MCC_2D_LocalSpace.hpp 77-123 *)
Definition RT_VelocityDivergenceValues_at (junk : nat -> nat -> R) (ref : RT_Reference) (l : RT_Local) (points : Mat) : outcome Mat :=
  P <- mapTriangle_FInv (rl_Vertices l) points ;;
  b <- map_at (rt_basis_functions ref) (rl_EdgesDirection l) ;;
  A <- EvaluateVelocityBasisFunctionsDivergence junk P (rb_MonomialsCoefficients b) ref ;; Ok (MapVelocityDivergenceValues l A).
