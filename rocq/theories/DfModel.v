(** Model of the two dimensional divergence free virtual element, full and reduced:
    VEM/DF_PCC/2D/VEM_DF_PCC_2D_ReferenceElement.hpp, VEM_DF_PCC_2D_Reduced_ReferenceElement.hpp,
    VEM_DF_PCC_2D_Velocity_LocalSpace.{hpp,cpp}, VEM_DF_PCC_2D_Reduced_Velocity_LocalSpace.{hpp,cpp},
    VEM_DF_PCC_2D_Pressure_LocalSpace.{hpp,cpp}, VEM_DF_PCC_2D_Reduced_Pressure_LocalSpace.{hpp,cpp}
    and VEM/DF_PCC/VEM_DF_PCC_Utilities.hpp. *)
From Coq Require Import List Arith Bool ZArith Reals.
From Verif Require Import Base RSum MatrixModel MonomialsModel GBasisModel LagrangeModel VemQuadModel VemModel VemMccModel.
Import ListNotations.
Local Open Scope R_scope.

(** ** Eigen *)

(** Eigen (not in /repo): A.middleCols(c, n) *)
Definition middleCols (A : Mat) (c n : nat) : outcome Mat := mat_block A 0 c (m_rows A) n.
(** Eigen (not in /repo): A.middleCols(c, n) = B *)
Definition set_middleCols (A : Mat) (c n : nat) (B : Mat) : outcome Mat := mat_set_block A 0 c (m_rows A) n B.
(** Eigen (not in /repo): A.middleCols(c, n) += B *)
Definition add_middleCols (A : Mat) (c n : nat) (B : Mat) : outcome Mat :=
  A0 <- middleCols A c n ;; S <- madd A0 B ;; set_middleCols A c n S.
(** Eigen (not in /repo): A.bottomRows(n) += B *)
Definition add_bottomRows (A : Mat) (n : nat) (B : Mat) : outcome Mat :=
  A0 <- bottomRows A n ;; S <- madd A0 B ;; set_bottomRows A n S.
(** Eigen (not in /repo): v.transpose() *)
Definition as_row (v : Vec) : Mat := {| m_rows := 1; m_cols := v_size v; m_at := fun _ j => v_at v j |}.
(** Eigen (not in /repo): A.row(0) as a vector *)
Definition row0 (A : Mat) : outcome Vec := r <- mrow A 0 ;; Ok {| v_size := m_cols A; v_at := r |}.
(** the two leading entries of the interpolation points, VEM_DF_PCC_Utilities.hpp 41 and 171 *)
Definition ends01 : Vec := {| v_size := 2; v_at := fun i => if (i =? 0)%nat then 0 else 1 |}.

(** the two families of classes: VEM_DF_PCC_2D_... and VEM_DF_PCC_2D_Reduced_... *)
Inductive DF_Variant := Full | Reduced.

(** ** Quadrature: VEM_Quadrature_2D.hpp 24-37, the fields of [VEM_QuadratureData_2D] and the two segment fields used here *)
Record DF_Quadrature := {
  dq_base : VEM_QuadratureData_2D;
  dq_ReferenceSegmentInternalPoints : Mat;
  dq_ReferenceSegmentInternalWeights : Vec;
  dq_ReferenceSegmentExtremaWeights : R * R }.

(** VEM_Quadrature_2D.cpp 74-90 and 92-108: the inner points, the inner weights and the end weights of a rule on the segment;
    a rule with less than two points is outside the block ([UB]) *)
Definition split_segment (order : nat) (edge : QuadratureData) : outcome (Mat * Vec * (R * R)) :=
  if (order =? 1)%nat then Ok (mzero 0 0, vzero 0, (1 / 2, 1 / 2)) else
  let n := m_cols (q_Points edge) in
  if (n <? 2)%nat then UB else
  P <- mat_block (q_Points edge) 0 1 3 (n - 2) ;;
  W <- vec_segment (q_Weights edge) 1 (n - 2) ;;
  w0 <- vec_get (q_Weights edge) 0 ;;
  w1 <- (if (v_size (q_Weights edge) =? 0)%nat then UB else vec_get (q_Weights edge) (v_size (q_Weights edge) - 1)) ;;
  Ok (P, W, (w0, w1)).

(** VEM_Quadrature_2D.cpp 66-113; for order 0 the argument 2 * order - 1 wraps around: not modelled ([UB]) *)
Definition Compute_DF_PCC_2D (gauss_triangle lobatto : nat -> QuadratureData) (order : nat) : outcome DF_Quadrature :=
  if (order =? 0)%nat then UB else
  let segment := lobatto (2 * order + 1)%nat in
  ' (SP, SW, Sext) <- split_segment order segment ;;
  let edge := lobatto (2 * order - 1)%nat in
  ' (EP, EW, Eext) <- split_segment order edge ;;
  Ok {| dq_base := {| vq_ReferenceSegmentQuadrature := segment; vq_ReferenceEdgeDOFsQuadrature := edge;
                      vq_ReferenceTriangleQuadrature := gauss_triangle (2 * order)%nat;
                      vq_ReferenceEdgeDOFsInternalPoints := EP; vq_ReferenceEdgeDOFsInternalWeights := EW;
                      vq_ReferenceEdgeDOFsExtremaWeights := Eext |};
        dq_ReferenceSegmentInternalPoints := SP; dq_ReferenceSegmentInternalWeights := SW;
        dq_ReferenceSegmentExtremaWeights := Sext |}.

(** ** Reference elements *)

(** I_VEM_DF_PCC_2D_ReferenceElement.hpp 41-53: velocity *)
Record DF_Velocity_Reference := {
  rd_Dimension : nat; rd_Order : nat; rd_NumDofs0D : nat; rd_NumDofs1D : nat;
  rd_NumDofs2D_Divergence : nat; rd_NumDofs2D_BigOPlus : nat;
  rd_Monomials : Monomials_Data; rd_GBasis : GBasis_Data; rd_Quadrature : DF_Quadrature }.

(** VEM_DF_PCC_2D_ReferenceElement.hpp 52-73; the Reduced class sets NumDofs2D_Divergence to 0
    (VEM_DF_PCC_2D_Reduced_ReferenceElement.hpp 52-73).  For order 1 the factor order - 2 wraps around and is multiplied by 0. *)
Definition DF_Velocity_Create (v : DF_Variant) (gauss_triangle lobatto : nat -> QuadratureData) (order : nat) : outcome DF_Velocity_Reference :=
  m <- Compute Monomials_2D order ;;
  g <- GBasis_2D_Compute order ;;
  q <- Compute_DF_PCC_2D gauss_triangle lobatto order ;;
  Ok {| rd_Dimension := 2; rd_Order := order; rd_NumDofs0D := 1; rd_NumDofs1D := order - 1;
        rd_NumDofs2D_Divergence := match v with Full => (order * (order + 1) / 2 - 1)%nat | Reduced => 0%nat end;
        rd_NumDofs2D_BigOPlus := ((order - 2) * (order - 1) / 2)%nat;
        rd_Monomials := m; rd_GBasis := g; rd_Quadrature := q |}.

(** I_VEM_DF_PCC_2D_ReferenceElement.hpp 24-35: pressure *)
Record DF_Pressure_Reference := {
  rp_Dimension : nat; rp_Order : nat; rp_NumDofs0D : nat; rp_NumDofs1D : nat; rp_NumDofs2D : nat;
  rp_Monomials : Monomials_Data; rp_Quadrature : DF_Quadrature }.

(** VEM_DF_PCC_2D_ReferenceElement.hpp 29-46; the Reduced class takes the monomials of degree 0 and one dof
    (VEM_DF_PCC_2D_Reduced_ReferenceElement.hpp 29-46) *)
Definition DF_Pressure_Create (v : DF_Variant) (gauss_triangle lobatto : nat -> QuadratureData) (order : nat) : outcome DF_Pressure_Reference :=
  m <- Compute Monomials_2D (match v with Full => (order - 1)%nat | Reduced => 0%nat end) ;;
  q <- Compute_DF_PCC_2D gauss_triangle lobatto order ;;
  Ok {| rp_Dimension := 2; rp_Order := order; rp_NumDofs0D := 0; rp_NumDofs1D := 0;
        rp_NumDofs2D := match v with Full => (order * (order + 1) / 2)%nat | Reduced => 1%nat end;
        rp_Monomials := m; rp_Quadrature := q |}.

(** ** Local space of the velocity: VEM_DF_PCC_2D_LocalSpace_Data.hpp.  The geometry has the fields of [Polygon].
    Not modelled: the fields CreateLocalSpace of these classes does not set. *)
Record DF_Local := {
  ld_Dimension : nat; ld_Order : nat;
  ld_NumVertexBasisFunctions : nat; ld_NumEdgeBasisFunctions : nat; ld_NumBoundaryBasisFunctions : nat;
  ld_NumDivergenceInternalBasisFunctions : nat; ld_NumBigOPlusInternalBasisFunctions : nat; ld_NumInternalBasisFunctions : nat;
  ld_NumBasisFunctions : nat;
  ld_NKp1 : nat; ld_Nk : nat; ld_Nkm1 : nat; ld_Nkm2 : nat; ld_Nkm3 : nat;
  ld_InternalQuadrature : QuadratureData; ld_BoundaryQuadrature : Edges_QuadratureData; ld_EdgesDOFs : Edges_QuadratureData;
  ld_Diameter : R; ld_Measure : R; ld_Centroid : nat -> R;
  ld_VanderInternal : Mat; ld_VanderInternalDerivatives : list Mat;
  ld_VanderBoundary : Mat; ld_VanderBoundaryDerivatives : list Mat; ld_VanderBoundaryKp1 : Mat;
  ld_VanderGBigOPlus : list Mat; ld_VanderGBigOPluskm2 : list Mat; ld_VectorDecompositionMatrices : list (list Mat);
  ld_VanderKp1EdgeProjections : Mat;
  ld_HmatrixKp1 : Mat; ld_Hmatrix : Mat;
  ld_Dmatrix : list Mat;
  ld_Wmatrix : Mat; ld_Vmatrix : Mat;
  ld_Cmatrixkm2 : list Mat;
  ld_Gmatrix : Mat; ld_Bmatrix : list Mat; ld_PiNabla : list Mat;
  ld_Cmatrix : list Mat; ld_Pi0km2 : list Mat; ld_Pi0k : list Mat;
  ld_Ematrix : list Mat; ld_Pi0km1Der : list Mat }.

(** VEM_DF_PCC_Utilities.hpp 37-43 and 165-173: the coefficients and the values of the edge functions at the parameters y *)
Definition df_edge_values (junk : nat -> nat -> R) (order : nat) (edge_points y : Vec) : outcome Mat :=
  x <- joined (order + 1) ends01 edge_points ;;
  c <- Lagrange_1D_coefficients junk x ;;
  Lagrange_1D_values junk x c y.

(** VEM_DF_PCC_2D_Velocity_LocalSpace.cpp 155-163: the first row of a matrix of points, empty if there are none *)
Definition df_first_row (P : Mat) : outcome Vec := if (0 <? m_rows P)%nat then row_vec P 0 else Ok (vzero 0).

(** VEM_DF_PCC_2D_Velocity_LocalSpace.cpp 165-198: the values at the boundary points of the interpolants of the boundary dofs *)
Definition df_edge_projections (order ne : nat) (nv : nat) (dirs : list bool) (npoints : nat) (EF : Mat) : outcome Mat :=
  K <- mat_set_block (mzero (nv + order * nv) (nv + ne)) 0 0 nv nv (midentity nv) ;;
  ' (K, _) <- for_loop nv (fun e s =>
    let '(K, offset) := s in
    dir <- idx_ dirs e ;;
    let origin := if (dir : bool) then e else ((e + 1) mod nv)%nat in
    let fin := if (dir : bool) then ((e + 1) mod nv)%nat else e in
    c0 <- mat_block EF 0 0 (m_rows EF) 1 ;;
    K <- mat_set_block K offset origin npoints 1 c0 ;;
    c1 <- mat_block EF 0 1 (m_rows EF) 1 ;;
    K <- mat_set_block K offset fin npoints 1 c1 ;;
    cr <- rightCols EF (order - 1) ;;
    K <- mat_set_block K offset (nv + e * (order - 1)) npoints (order - 1) cr ;;
    Ok (K, (offset + npoints)%nat)) (K, nv) ;;
  Ok K.

(** VEM_DF_PCC_2D_Velocity_LocalSpace.cpp 230-251, one component; the Reduced class has no divergence rows
    (VEM_DF_PCC_2D_Reduced_Velocity_LocalSpace.cpp 223-239) *)
Definition df_Dmatrix (v : DF_Variant) (ns nb nbig ndiv N Nk : nat) (w : Vec) (VB VI VGd VIDd : Mat) (d : nat) : outcome Mat :=
  D <- mat_set_block (mzero N Nk) (d * ns) 0 ns Nk VB ;;
  A <- weighted VGd w VI ;;
  D <- mat_set_block D nb 0 nbig (m_cols D) A ;;
  match v with
  | Full => VIm <- middleCols VI 1 ndiv ;; A <- weighted VIm w VIDd ;; set_bottomRows D ndiv A
  | Reduced => Ok D
  end.

(** VEM_DF_PCC_2D_Velocity_LocalSpace.cpp 207-228, and VEM_DF_PCC_2D_Reduced_Velocity_LocalSpace.cpp 207-221.
    Returns Wmatrix and Vmatrix *)
Definition df_Divergence (v : DF_Variant) (llt : Solver) (measure : R) (ns nb nbig ndiv N Nkm1 : nat) (wN0 wN1 : Vec) (H : Mat) : outcome (Mat * Mat) :=
  match v with
  | Full =>
      W <- mat_set_block (mzero Nkm1 N) 1 (nb + nbig) ndiv ndiv (midentity ndiv) ;;
      W <- mat_set_block W 0 0 1 ns (as_row wN0) ;;
      W <- mat_set_block W 0 ns 1 ns (as_row wN1) ;;
      Hm <- topLeftCorner H Nkm1 Nkm1 ;;
      V <- msolve llt Hm W ;;
      Ok (W, V)
  | Reduced =>
      W <- mat_set_block (mzero 1 N) 0 0 1 ns (as_row wN0) ;;
      W <- mat_set_block W 0 ns 1 ns (as_row wN1) ;;
      Ok (W, mscal (1 / measure) W)
  end.

(** VEM_DF_PCC_2D_Velocity_LocalSpace.cpp 260-263 (and the three products that follow): diameter * VD.block * VB^T * weights * projections *)
Definition df_boundary_moments (diam : R) (Gb VBm : Mat) (wN : Vec) (K : Mat) : outcome Mat :=
  A <- mmul (mscal diam Gb) (mtrans VBm) ;; A <- mdiag A wN ;; mmul A K.

(** VEM_DF_PCC_2D_Velocity_LocalSpace.cpp 253-301, one component; [Gr], [P] are VectorDecompositionMatrices[d][0] and [d][1].
    [ncol] is Nkm1, or 1 in the Reduced class (VEM_DF_PCC_2D_Reduced_Velocity_LocalSpace.cpp 280 and 284) *)
Definition df_Cmatrix (ncol : nat) (diam : R) (ns nb nbig N NKp1 Nk Nkm3 : nat) (Gr P VBp : Mat) (wN0 wN1 : Vec) (K Hp V : Mat) : outcome Mat :=
  Gb <- mat_block Gr 0 1 Nk (NKp1 - 1) ;;
  VBm <- middleCols VBp 1 (NKp1 - 1) ;;
  A0 <- df_boundary_moments diam Gb VBm wN0 K ;;
  C <- set_middleCols (mzero Nk N) 0 ns A0 ;;
  A1 <- df_boundary_moments diam Gb VBm wN1 K ;;
  C <- set_middleCols C ns ns A1 ;;
  Pb <- topLeftCorner P Nk Nkm3 ;;
  C <- add_middleCols C nb nbig Pb ;;
  Hb <- mat_block Hp 1 0 (NKp1 - 1) ncol ;;
  A <- mmul (mscal (- diam) Gb) Hb ;; A <- mmul A V ;;
  madd C A.

(** VEM_DF_PCC_2D_Velocity_LocalSpace.cpp 341-347 *)
Definition df_Gmatrix (measure : R) (w : Vec) (VI VID0 VID1 : Mat) : outcome Mat :=
  G0 <- weighted VID0 w VID0 ;; G1 <- weighted VID1 w VID1 ;; G <- madd G0 G1 ;;
  g <- mmulv (mscal (1 / measure) (mtrans VI)) w ;;
  set_row0 G g.

(** VEM_DF_PCC_2D_Velocity_LocalSpace.cpp 349-366, one component *)
Definition df_Bmatrix (measure diam : R) (ns N Nk Nkm2 d : nat) (laplacian VBD0 VBD1 : Mat) (wN0 wN1 : Vec) (Ckm2 : Mat) : outcome Mat :=
  B0 <- mdiag (mtrans VBD0) wN0 ;; B1 <- mdiag (mtrans VBD1) wN1 ;; BX <- madd B0 B1 ;;
  r <- row0 Ckm2 ;;
  B <- set_row0 (mzero Nk N) (vscal (1 / measure) r) ;;
  B <- add_middleCols B (d * ns) ns BX ;;
  L <- topLeftCorner laplacian Nk Nkm2 ;;
  A <- mmul (mscal (-1 / (diam * diam)) L) Ckm2 ;;
  madd B A.

(** VEM_DF_PCC_2D_Velocity_LocalSpace.cpp 307-312: EnhancedMassMatrix and its middle rows *)
Definition df_enhanced (N Nkm1 Nkm3 : nat) (w : Vec) (VI VG0 VG1 Pi0 Pi1 : Mat) : outcome Mat :=
  A <- weighted VG0 w VI ;; A <- mmul A Pi0 ;; E <- madd (mzero (m_cols VG0) N) A ;;
  A <- weighted VG1 w VI ;; A <- mmul A Pi1 ;; E <- madd E A ;;
  if (Nkm1 <? Nkm3)%nat then UB else middleRows E Nkm3 (Nkm1 - Nkm3).

(** VEM_DF_PCC_2D_Velocity_LocalSpace.cpp 314-320, one component *)
Definition df_enhance_C (Nk Nkm1 Nkm2 Nkm3 : nat) (P C tmpE : Mat) : outcome Mat :=
  if ((Nk <? Nkm2) || (Nkm1 <? Nkm3))%nat then UB else
  Pb <- mat_block P Nkm2 Nkm3 (Nk - Nkm2) (Nkm1 - Nkm3) ;;
  A <- mmul Pb tmpE ;;
  add_bottomRows C (Nk - Nkm2) A.

(** VEM_DF_PCC_2D_Velocity_LocalSpace.cpp 386-397: Ematrix[2 * d1 + d2]; [D] is the derivative matrix of direction d2 *)
Definition df_Ematrix (diam : R) (ns Nkm1 Nkm2 d1 : nat) (D VB : Mat) (wN : Vec) (Ckm2 : Mat) : outcome Mat :=
  Dc <- topLeftCorner D Nkm1 Nkm2 ;;
  E <- mmul (mscal (- (1 / diam)) Dc) Ckm2 ;;
  VBl <- leftCols VB Nkm1 ;;
  A <- mdiag (mtrans VBl) wN ;;
  add_middleCols E (d1 * ns) ns A.

(** VEM_DF_PCC_2D_Velocity_LocalSpace.cpp 24-85 with InitializeProjectorsComputation 88-205 inlined
    (and VEM_DF_PCC_2D_Reduced_Velocity_LocalSpace.cpp 24-86, 88-205): quadratures, sizes, projectors.
    The loops over the two components are written out.  [junk]: contents of matrices after resize.  [lu], [llt]: the linear solvers. *)
Definition DF_CreateLocalSpace (v : DF_Variant) (junk : nat -> nat -> R) (lu llt : Solver) (ref : DF_Velocity_Reference) (p : Polygon) : outcome DF_Local :=
  let q := dq_base (rd_Quadrature ref) in
  let SP := dq_ReferenceSegmentInternalPoints (rd_Quadrature ref) in
  let order := rd_Order ref in
  let measure := pg_Measure p in
  let diam := pg_Diameter p in
  IQ <- PolygonInternalQuadrature (vq_ReferenceTriangleQuadrature q) (pg_TriangulationVertices p) ;;
  BQ <- PolygonEdgesLobattoQuadrature junk SP (dq_ReferenceSegmentInternalWeights (rd_Quadrature ref))
          (dq_ReferenceSegmentExtremaWeights (rd_Quadrature ref)) (pg_Vertices p) (pg_EdgesLength p) (pg_EdgesDirection p)
          (pg_EdgesTangent p) (pg_EdgesNormal p) ;;
  ED <- PolygonEdgesLobattoQuadrature junk (vq_ReferenceEdgeDOFsInternalPoints q) (vq_ReferenceEdgeDOFsInternalWeights q)
          (vq_ReferenceEdgeDOFsExtremaWeights q) (pg_Vertices p) (pg_EdgesLength p) (pg_EdgesDirection p)
          (pg_EdgesTangent p) (pg_EdgesNormal p) ;;
  (** InitializeProjectorsComputation *)
  let nv := m_cols (pg_Vertices p) in
  let ne := (rd_NumDofs1D ref * nv)%nat in
  let ns := (nv + ne)%nat in
  let nb := (2 * ns)%nat in
  let ndiv := rd_NumDofs2D_Divergence ref in
  let nbig := rd_NumDofs2D_BigOPlus ref in
  let ni := (ndiv + nbig)%nat in
  let N := (nb + ni)%nat in
  let NKp1 := ((order + 3) * (order + 2) / 2)%nat in
  let Nk := ((order + 1) * (order + 2) / 2)%nat in
  let Nkm1 := (order * (order + 1) / 2)%nat in
  let Nkm2 := ((order - 1) * order / 2)%nat in
  let Nkm3 := ((order - 2) * (order - 1) / 2)%nat in
  let w := q_Weights IQ in
  VIp <- Vander 2 junk (gb_monomials (rd_GBasis ref)) (q_Points IQ) (pg_Centroid p) diam ;;
  VI <- leftCols VIp Nk ;;
  VID <- VanderDerivatives Monomials_2D junk (rd_Monomials ref) VI diam ;;
  VB <- Vander 2 junk (rd_Monomials ref) (q_Points (eq_Quadrature ED)) (pg_Centroid p) diam ;;
  VBD <- VanderDerivatives Monomials_2D junk (rd_Monomials ref) VB diam ;;
  VBp <- Vander 2 junk (gb_monomials (rd_GBasis ref)) (q_Points (eq_Quadrature BQ)) (pg_Centroid p) diam ;;
  VG <- VanderGBigOPlus_2D (rd_GBasis ref) VI ;;
  VG0 <- idx_ VG 0 ;; VG1 <- idx_ VG 1 ;;
  VGm0 <- leftCols VG0 Nkm3 ;; VGm1 <- leftCols VG1 Nkm3 ;;
  edge_points <- df_first_row (vq_ReferenceEdgeDOFsInternalPoints q) ;;
  segment_points <- df_first_row SP ;;
  EF <- df_edge_values junk order edge_points segment_points ;;
  K <- df_edge_projections order ne nv (pg_EdgesDirection p) (v_size segment_points) EF ;;
  roots <- vsqrt w ;;
  Hp <- mcc_gram roots VIp ;;
  H <- topLeftCorner Hp Nk Nk ;;
  VID0 <- idx_ VID 0 ;; VID1 <- idx_ VID 1 ;; VBD0 <- idx_ VBD 0 ;; VBD1 <- idx_ VBD 1 ;;
  eN0 <- idx_ (eq_WeightsTimesNormal ED) 0 ;; eN1 <- idx_ (eq_WeightsTimesNormal ED) 1 ;;
  bN0 <- idx_ (eq_WeightsTimesNormal BQ) 0 ;; bN1 <- idx_ (eq_WeightsTimesNormal BQ) 1 ;;
  (** ComputePolynomialBasisDofs *)
  D0 <- df_Dmatrix v ns nb nbig ndiv N Nk w VB VI VGm0 VID0 0 ;;
  D1 <- df_Dmatrix v ns nb nbig ndiv N Nk w VB VI VGm1 VID1 1 ;;
  (** ComputeDivergenceCoefficients *)
  ' (W, V) <- df_Divergence v llt measure ns nb nbig ndiv N Nkm1 eN0 eN1 H ;;
  (** ComputeCMatrixkm2 *)
  let ncol := match v with Full => Nkm1 | Reduced => 1%nat end in
  VD0 <- idx_ (gb_VectorDecomposition (rd_GBasis ref)) 0 ;; Gr0 <- idx_ VD0 0 ;; P0 <- idx_ VD0 1 ;;
  VD1 <- idx_ (gb_VectorDecomposition (rd_GBasis ref)) 1 ;; Gr1 <- idx_ VD1 0 ;; P1 <- idx_ VD1 1 ;;
  C0 <- df_Cmatrix ncol diam ns nb nbig N NKp1 Nk Nkm3 Gr0 P0 VBp bN0 bN1 K Hp V ;;
  C1 <- df_Cmatrix ncol diam ns nb nbig N NKp1 Nk Nkm3 Gr1 P1 VBp bN0 bN1 K Hp V ;;
  Ck0 <- topRows C0 Nkm2 ;; Ck1 <- topRows C1 Nkm2 ;;
  (** ComputePiNabla *)
  G <- df_Gmatrix measure w VI VID0 VID1 ;;
  B0 <- df_Bmatrix measure diam ns N Nk Nkm2 0 (Laplacian (rd_Monomials ref)) VBD0 VBD1 eN0 eN1 Ck0 ;;
  B1 <- df_Bmatrix measure diam ns N Nk Nkm2 1 (Laplacian (rd_Monomials ref)) VBD0 VBD1 eN0 eN1 Ck1 ;;
  Pi0 <- msolve lu G B0 ;; Pi1 <- msolve lu G B1 ;;
  (** ComputeL2Projectors *)
  tmpE <- df_enhanced N Nkm1 Nkm3 w VI VG0 VG1 Pi0 Pi1 ;;
  CC0 <- df_enhance_C Nk Nkm1 Nkm2 Nkm3 P0 C0 tmpE ;;
  CC1 <- df_enhance_C Nk Nkm1 Nkm2 Nkm3 P1 C1 tmpE ;;
  Q0 <- msolve llt H CC0 ;; Q1 <- msolve llt H CC1 ;;
  H2 <- topLeftCorner H Nkm2 Nkm2 ;;
  S0 <- msolve llt H2 Ck0 ;; S1 <- msolve llt H2 Ck1 ;;
  (** ComputeL2ProjectorsOfDerivatives *)
  Dx <- idx_ (DerivativeMatrices (rd_Monomials ref)) 0 ;; Dy <- idx_ (DerivativeMatrices (rd_Monomials ref)) 1 ;;
  E00 <- df_Ematrix diam ns Nkm1 Nkm2 0 Dx VB eN0 Ck0 ;;
  E01 <- df_Ematrix diam ns Nkm1 Nkm2 0 Dy VB eN1 Ck0 ;;
  E10 <- df_Ematrix diam ns Nkm1 Nkm2 1 Dx VB eN0 Ck1 ;;
  E11 <- df_Ematrix diam ns Nkm1 Nkm2 1 Dy VB eN1 Ck1 ;;
  H1 <- topLeftCorner H Nkm1 Nkm1 ;;
  F00 <- msolve llt H1 E00 ;; F01 <- msolve llt H1 E01 ;; F10 <- msolve llt H1 E10 ;; F11 <- msolve llt H1 E11 ;;
  Ok {| ld_Dimension := rd_Dimension ref; ld_Order := order;
        ld_NumVertexBasisFunctions := nv; ld_NumEdgeBasisFunctions := ne; ld_NumBoundaryBasisFunctions := nb;
        ld_NumDivergenceInternalBasisFunctions := ndiv; ld_NumBigOPlusInternalBasisFunctions := nbig; ld_NumInternalBasisFunctions := ni;
        ld_NumBasisFunctions := N;
        ld_NKp1 := NKp1; ld_Nk := Nk; ld_Nkm1 := Nkm1; ld_Nkm2 := Nkm2; ld_Nkm3 := Nkm3;
        ld_InternalQuadrature := IQ; ld_BoundaryQuadrature := BQ; ld_EdgesDOFs := ED;
        ld_Diameter := diam; ld_Measure := measure; ld_Centroid := pg_Centroid p;
        ld_VanderInternal := VI; ld_VanderInternalDerivatives := VID;
        ld_VanderBoundary := VB; ld_VanderBoundaryDerivatives := VBD; ld_VanderBoundaryKp1 := VBp;
        ld_VanderGBigOPlus := VG; ld_VanderGBigOPluskm2 := [VGm0; VGm1];
        ld_VectorDecompositionMatrices := gb_VectorDecomposition (rd_GBasis ref);
        ld_VanderKp1EdgeProjections := K;
        ld_HmatrixKp1 := Hp; ld_Hmatrix := H;
        ld_Dmatrix := [D0; D1]; ld_Wmatrix := W; ld_Vmatrix := V;
        ld_Cmatrixkm2 := [Ck0; Ck1];
        ld_Gmatrix := G; ld_Bmatrix := [B0; B1]; ld_PiNabla := [Pi0; Pi1];
        ld_Cmatrix := [CC0; CC1]; ld_Pi0km2 := [S0; S1]; ld_Pi0k := [Q0; Q1];
        ld_Ematrix := [E00; E01; E10; E11]; ld_Pi0km1Der := [F00; F01; F10; F11] |}.

(** ** Evaluation *)

(** VEM_DF_PCC_Utilities.hpp 27-33 *)
Inductive DF_ProjectionTypes := DF_Pi0km2 | DF_Pi0k | DF_PiNabla | DF_Pi0km1Der.

(** VEM_DF_PCC_Utilities.hpp 86-108 *)
Definition df_utilities_Values (dimension : nat) (t : DF_ProjectionTypes) (Nkm2 : nat) (pi0km2 pi0k : list Mat) (vander : Mat) : outcome (list Mat) :=
  match t with
  | DF_Pi0km2 => for_loop dimension (fun i r => V <- leftCols vander Nkm2 ;; P <- idx_ pi0km2 i ;; A <- mmul V P ;; Ok (r ++ [A])) []
  | DF_Pi0k => for_loop dimension (fun i r => P <- idx_ pi0k i ;; A <- mmul vander P ;; Ok (r ++ [A])) []
  | _ => Throw
  end.

(** VEM_DF_PCC_Utilities.hpp 45-77 *)
Definition df_utilities_DerivativeValues (dimension : nat) (t : DF_ProjectionTypes) (Nkm1 : nat) (vander : Mat) (vander_der piNabla pi0km1Der : list Mat)
  : outcome (list Mat) :=
  match t with
  | DF_PiNabla => for_loop dimension (fun j r => for_loop dimension (fun i r =>
        V <- idx_ vander_der i ;; P <- idx_ piNabla j ;; A <- mmul V P ;; Ok (r ++ [A])) r) []
  | DF_Pi0km1Der => for_loop dimension (fun j r => for_loop dimension (fun i r =>
        V <- leftCols vander Nkm1 ;; P <- idx_ pi0km1Der (dimension * j + i) ;; A <- mmul V P ;; Ok (r ++ [A])) r) []
  | _ => Throw
  end.

(** VEM_DF_PCC_Utilities.hpp 79-84; VEM_DF_PCC_2D_Velocity_LocalSpace.hpp 220-223 with Nkm1 columns,
    VEM_DF_PCC_2D_Reduced_Velocity_LocalSpace.hpp 221-224 with one *)
Definition DF_DivergenceValues (v : DF_Variant) (l : DF_Local) : outcome Mat :=
  V <- leftCols (ld_VanderInternal l) (match v with Full => ld_Nkm1 l | Reduced => 1%nat end) ;; mmul V (ld_Vmatrix l).
(** VEM_DF_PCC_2D_Velocity_LocalSpace.hpp 118-127 *)
Definition DF_Values_quadrature (l : DF_Local) (t : DF_ProjectionTypes) : outcome (list Mat) :=
  df_utilities_Values (ld_Dimension l) t (ld_Nkm2 l) (ld_Pi0km2 l) (ld_Pi0k l) (ld_VanderInternal l).
(** VEM_DF_PCC_2D_Velocity_LocalSpace.hpp 129-140 *)
Definition DF_DerivativeValues_quadrature (l : DF_Local) (t : DF_ProjectionTypes) : outcome (list Mat) :=
  df_utilities_DerivativeValues (ld_Dimension l) t (ld_Nkm1 l) (ld_VanderInternal l) (ld_VanderInternalDerivatives l) (ld_PiNabla l) (ld_Pi0km1Der l).
(** VEM_DF_PCC_2D_Velocity_LocalSpace.hpp 183-188 *)
Definition DF_PolynomialsValues (junk : nat -> nat -> R) (ref : DF_Velocity_Reference) (p : Polygon) (points : Mat) : outcome Mat :=
  Vander 2 junk (rd_Monomials ref) points (pg_Centroid p) (pg_Diameter p).
(** VEM_DF_PCC_2D_Velocity_LocalSpace.hpp 199-208 *)
Definition DF_PolynomialsDerivativeValues (junk : nat -> nat -> R) (ref : DF_Velocity_Reference) (p : Polygon) (points : Mat) : outcome (list Mat) :=
  V <- DF_PolynomialsValues junk ref p points ;;
  VanderDerivatives Monomials_2D junk (rd_Monomials ref) V (pg_Diameter p).
(** VEM_DF_PCC_2D_Velocity_LocalSpace.hpp 142-155 *)
Definition DF_Values (junk : nat -> nat -> R) (ref : DF_Velocity_Reference) (p : Polygon) (l : DF_Local) (t : DF_ProjectionTypes) (points : Mat) : outcome (list Mat) :=
  V <- DF_PolynomialsValues junk ref p points ;;
  df_utilities_Values (ld_Dimension l) t (ld_Nkm2 l) (ld_Pi0km2 l) (ld_Pi0k l) V.
(** VEM_DF_PCC_2D_Velocity_LocalSpace.hpp 157-172 *)
Definition DF_DerivativeValues (junk : nat -> nat -> R) (ref : DF_Velocity_Reference) (p : Polygon) (l : DF_Local) (t : DF_ProjectionTypes) (points : Mat) : outcome (list Mat) :=
  V <- DF_PolynomialsValues junk ref p points ;;
  VD <- DF_PolynomialsDerivativeValues junk ref p points ;;
  df_utilities_DerivativeValues (ld_Dimension l) t (ld_Nkm1 l) V VD (ld_PiNabla l) (ld_Pi0km1Der l).

(** ** Stabilization *)

(** VEM_DF_PCC_Utilities.hpp 175-191 *)
Definition df_utilities_DofiDofi (dimension : nat) (projector : list Mat) (coefficient : R) (dmatrix : list Mat) : outcome Mat :=
  D <- idx_ dmatrix 0 ;; P <- idx_ projector 0 ;;
  S <- mmul D P ;;
  S <- for_from 1 (dimension - 1) (fun d S => D <- idx_ dmatrix d ;; P <- idx_ projector d ;; A <- mmul D P ;; madd S A) S ;;
  let S := sub_diagonal S in
  mmul (mscal coefficient (mtrans S)) S.

(** VEM_DF_PCC_2D_Velocity_LocalSpace.hpp 86-104 *)
Definition DF_DofiDofi (l : DF_Local) (t : DF_ProjectionTypes) : outcome Mat :=
  match t with
  | DF_PiNabla => df_utilities_DofiDofi (ld_Dimension l) (ld_PiNabla l) 1 (ld_Dmatrix l)
  | DF_Pi0k => df_utilities_DofiDofi (ld_Dimension l) (ld_Pi0k l) (ld_Measure l) (ld_Dmatrix l)
  | _ => Throw
  end.

(** ** Local space of the pressure: VEM_DF_PCC_2D_LocalSpace_Data.hpp *)
Record DF_Pressure := {
  lq_Dimension : nat; lq_Order : nat; lq_NumBasisFunctions : nat; lq_Nk : nat; lq_Nkm1 : nat;
  lq_InternalQuadrature : QuadratureData; lq_Centroid : nat -> R; lq_Diameter : R;
  lq_VanderInternal : Mat; lq_Hmatrix : Mat }.

(** VEM_DF_PCC_2D_Pressure_LocalSpace.cpp 24-71 (VEM_DF_PCC_2D_Reduced_Pressure_LocalSpace.cpp is the same) *)
Definition DF_Pressure_CreateLocalSpace (junk : nat -> nat -> R) (ref : DF_Pressure_Reference) (p : Polygon) : outcome DF_Pressure :=
  IQ <- PolygonInternalQuadrature (vq_ReferenceTriangleQuadrature (dq_base (rp_Quadrature ref))) (pg_TriangulationVertices p) ;;
  VI <- Vander 2 junk (rp_Monomials ref) (q_Points IQ) (pg_Centroid p) (pg_Diameter p) ;;
  roots <- vsqrt (q_Weights IQ) ;;
  H <- mcc_gram roots VI ;;
  Ok {| lq_Dimension := rp_Dimension ref; lq_Order := rp_Order ref; lq_NumBasisFunctions := rp_NumDofs2D ref;
        lq_Nk := ((rp_Order ref + 1) * (rp_Order ref + 2) / 2)%nat; lq_Nkm1 := (rp_Order ref * (rp_Order ref + 1) / 2)%nat;
        lq_InternalQuadrature := IQ; lq_Centroid := pg_Centroid p; lq_Diameter := pg_Diameter p;
        lq_VanderInternal := VI; lq_Hmatrix := H |}.
(** VEM_DF_PCC_2D_Pressure_LocalSpace.hpp 48-51 *)
Definition DF_Pressure_Values_quadrature (l : DF_Pressure) : outcome Mat := Ok (lq_VanderInternal l).
(** VEM_DF_PCC_2D_Pressure_LocalSpace.hpp 53-58 *)
Definition DF_Pressure_Values (junk : nat -> nat -> R) (ref : DF_Pressure_Reference) (l : DF_Pressure) (points : Mat) : outcome Mat :=
  Vander 2 junk (rp_Monomials ref) points (lq_Centroid l) (lq_Diameter l).
