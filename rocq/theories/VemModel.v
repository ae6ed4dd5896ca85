(** Model of the two dimensional conforming virtual element: VEM/PCC/2D/VEM_PCC_2D_ReferenceElement.hpp,
    VEM/PCC/2D/VEM_PCC_2D_LocalSpace.{hpp,cpp} and VEM/PCC/VEM_PCC_Utilities.hpp. *)
From Coq Require Import List Arith Bool ZArith Reals.
From Verif Require Import Base RSum MatrixModel MonomialsModel LagrangeModel VemQuadModel.
Import ListNotations.
Local Open Scope R_scope.

(** ** Eigen *)

(** Eigen (not in /repo): A.leftCols(n); a size larger than the matrix is undefined, here and below *)
Definition leftCols (A : Mat) (n : nat) : outcome Mat := mat_block A 0 0 (m_rows A) n.
(** Eigen (not in /repo): A.topRows(n) *)
Definition topRows (A : Mat) (n : nat) : outcome Mat := mat_block A 0 0 n (m_cols A).
(** Eigen (not in /repo): A.bottomRows(n) *)
Definition bottomRows (A : Mat) (n : nat) : outcome Mat :=
  if (n <=? m_rows A)%nat then mat_block A (m_rows A - n) 0 n (m_cols A) else UB.
(** Eigen (not in /repo): A.topLeftCorner(r, c) *)
Definition topLeftCorner (A : Mat) (r c : nat) : outcome Mat := mat_block A 0 0 r c.
(** Eigen (not in /repo): A.leftCols(n) = B *)
Definition set_leftCols (A : Mat) (n : nat) (B : Mat) : outcome Mat := mat_set_block A 0 0 (m_rows A) n B.
(** Eigen (not in /repo): A.rightCols(n) = B *)
Definition set_rightCols (A : Mat) (n : nat) (B : Mat) : outcome Mat :=
  if (n <=? m_cols A)%nat then mat_set_block A 0 (m_cols A - n) (m_rows A) n B else UB.
(** Eigen (not in /repo): A.topRows(n) = B *)
Definition set_topRows (A : Mat) (n : nat) (B : Mat) : outcome Mat := mat_set_block A 0 0 n (m_cols A) B.
(** Eigen (not in /repo): A.bottomRows(n) = B *)
Definition set_bottomRows (A : Mat) (n : nat) (B : Mat) : outcome Mat :=
  if (n <=? m_rows A)%nat then mat_set_block A (m_rows A - n) 0 n (m_cols A) B else UB.
(** Eigen (not in /repo): A.topLeftCorner(r, c) = B *)
Definition set_topLeftCorner (A : Mat) (r c : nat) (B : Mat) : outcome Mat := mat_set_block A 0 0 r c B.
(** Eigen (not in /repo): A.topRightCorner(r, c) = B *)
Definition set_topRightCorner (A : Mat) (r c : nat) (B : Mat) : outcome Mat :=
  if (c <=? m_cols A)%nat then mat_set_block A 0 (m_cols A - c) r c B else UB.
(** Eigen (not in /repo): MatrixXd::Identity(n, n) *)
Definition midentity (n : nat) : Mat := {| m_rows := n; m_cols := n; m_at := fun i j => if (i =? j)%nat then 1 else 0 |}.
(** A.row(0) = v, a vector with as many coefficients *)
Definition set_row0 (A : Mat) (v : Vec) : outcome Mat :=
  if (v_size v =? m_cols A)%nat then mat_set_row A 0 (v_at v) else UB.
(** Eigen (not in /repo): A.transpose() * w.asDiagonal() * B *)
Definition weighted (A : Mat) (w : Vec) (B : Mat) : outcome Mat := AW <- mdiag (mtrans A) w ;; mmul AW B.
(** A.partialPivLu().solve(B), A.llt().solve(B): the coefficients are those of a [solver];
    what is assumed of it (an exact solution) is stated in each theorem *)
Definition Solver := Mat -> Mat -> nat -> nat -> R.
(** Eigen (not in /repo): the solution of A X = B; the sizes must agree *)
Definition msolve (solver : Solver) (A B : Mat) : outcome Mat :=
  if ((m_rows A =? m_cols A) && (m_rows A =? m_rows B))%nat
  then Ok {| m_rows := m_cols A; m_cols := m_cols B; m_at := solver A B |} else UB.

(** ** Reference element: VEM_PCC_2D_ReferenceElement.hpp 28-46, I_VEM_PCC_2D_ReferenceElement.hpp *)
Record VEM_2D_Reference := {
  rv_Dimension : nat; rv_Order : nat; rv_NumDofs0D : nat; rv_NumDofs1D : nat; rv_NumDofs2D : nat;
  rv_Monomials : Monomials_Data;
  rv_Quadrature : VEM_QuadratureData_2D }.

(** VEM_PCC_2D_ReferenceElement.hpp 28-45, Create *)
Definition VEM_PCC_2D_Create (gauss_triangle lobatto : nat -> QuadratureData) (order : nat) : outcome VEM_2D_Reference :=
  m <- Compute Monomials_2D order ;;
  q <- Compute_PCC_2D gauss_triangle lobatto order ;;
  Ok {| rv_Dimension := 2; rv_Order := order; rv_NumDofs0D := 1; rv_NumDofs1D := order - 1;
        rv_NumDofs2D := (order * (order - 1) / 2)%nat; rv_Monomials := m; rv_Quadrature := q |}.

(** ** Geometry: VEM_PCC_2D_LocalSpace_Data.hpp 25-40 (the tolerances are not used here) *)
Record Polygon := {
  pg_Vertices : Mat; pg_Centroid : nat -> R; pg_Measure : R; pg_Diameter : R;
  pg_TriangulationVertices : list Mat;
  pg_EdgesLength : Vec; pg_EdgesDirection : list bool; pg_EdgesTangent : Mat; pg_EdgesNormal : Mat }.

(** ** Local space: VEM_PCC_2D_LocalSpace_Data.hpp 42-104.
    Not modelled: fields not set by CreateLocalSpace (NumEdgeDofs, the KL fields, the inertia and orthogonal fields);
    Qmatrix and QmatrixInv are identities and are not used by this class. *)
Record VEM_2D_Local := {
  lv_Dimension : nat; lv_Order : nat;
  lv_NumVertexBasisFunctions : nat; lv_NumEdgeBasisFunctions : nat; lv_NumBoundaryBasisFunctions : nat;
  lv_NumInternalBasisFunctions : nat; lv_NumBasisFunctions : nat; lv_NumProjectorBasisFunctions : nat;
  lv_Nkm1 : nat; lv_Nkm2 : nat;
  lv_InternalQuadrature : QuadratureData; lv_BoundaryQuadrature : Edges_QuadratureData;
  lv_Diameter : R; lv_Measure : R; lv_Centroid : nat -> R;
  lv_VanderInternal : Mat; lv_VanderInternalDerivatives : list Mat;
  lv_VanderBoundary : Mat; lv_VanderBoundaryDerivatives : list Mat;
  lv_Hmatrix : Mat;
  lv_Gmatrix : Mat; lv_Bmatrix : Mat; lv_PiNabla : Mat;
  lv_Cmatrix : Mat; lv_Pi0km1 : Mat; lv_Pi0k : Mat;
  lv_Ematrix : list Mat; lv_Pi0km1Der : list Mat;
  lv_Dmatrix : Mat }.

(** VEM_PCC_2D_LocalSpace.cpp 315-356; the arguments are the members read from localSpace.
    Returns Gmatrix, Bmatrix, PiNabla. *)
Definition ComputePiNabla (lu : Solver) (order nb ni N Nk : nat) (laplacian : Mat) (measure diam : R)
  (wI wB : Vec) (wN : list Vec) (VI : Mat) (VID : list Mat) (VB : Mat) (VBD : list Mat) : outcome (Mat * Mat * Mat) :=
  VID0 <- idx_ VID 0 ;; VID1 <- idx_ VID 1 ;; VBD0 <- idx_ VBD 0 ;; VBD1 <- idx_ VBD 1 ;;
  wN0 <- idx_ wN 0 ;; wN1 <- idx_ wN 1 ;;
  G0 <- weighted VID0 wI VID0 ;; G1 <- weighted VID1 wI VID1 ;; G <- madd G0 G1 ;;
  B0 <- mdiag (mtrans VBD0) wN0 ;; B1 <- mdiag (mtrans VBD1) wN1 ;; BL <- madd B0 B1 ;;
  B <- set_leftCols (mzero Nk N) nb BL ;;
  ' (G, B) <-
    (if (order =? 1)%nat then
       B <- set_row0 B wB ;;
       g <- mmulv (mtrans VB) wB ;; G <- set_row0 G g ;;
       Ok (G, B)
     else
       g <- mmulv (mtrans VI) wI ;; G <- set_row0 G g ;;
       L <- leftCols laplacian ni ;;
       B <- set_rightCols B ni (mscal (- measure / (diam * diam)) L) ;;
       B <- mat_set B 0 nb measure ;;
       Ok (G, B)) ;;
  Pi <- msolve lu G B ;;
  Ok (G, B, Pi).

(** VEM_PCC_Utilities.hpp 46-72; returns Cmatrix, Pi0km1, Pi0k *)
Definition ComputeL2Projectors (llt : Solver) (measure : R) (order Nkm1 Nk ni N : nat) (H Pi : Mat) : outcome (Mat * Mat * Mat) :=
  if (Nk <? ni)%nat then UB else
  Hb <- bottomRows H (Nk - ni) ;;
  HP <- mmul Hb Pi ;;
  C <- set_bottomRows (mzero Nk N) (Nk - ni) HP ;;
  C <- (if (1 <? order)%nat then
          if (N <? ni)%nat then UB else
          C <- set_topLeftCorner C ni (N - ni) (mzero ni (N - ni)) ;;
          set_topRightCorner C ni ni (mscal measure (midentity ni))
        else Ok C) ;;
  Hm <- topLeftCorner H Nkm1 Nkm1 ;;
  Cm <- topRows C Nkm1 ;;
  P1 <- msolve llt Hm Cm ;;
  P <- msolve llt H C ;;
  Ok (C, P1, P).

(** VEM_PCC_2D_LocalSpace.cpp 373-400, one direction: [D] is D_x or D_y *)
Definition derivative_projector (llt : Solver) (measure diam : R) (order Nkm1 nb ni N : nat) (H VB D : Mat) (wN : Vec) : outcome (Mat * Mat) :=
  VBl <- leftCols VB Nkm1 ;;
  EL <- mdiag (mtrans VBl) wN ;;
  E <- set_leftCols (mzero Nkm1 N) nb EL ;;
  E <- (if (1 <? order)%nat then
          Dc <- topLeftCorner D Nkm1 ni ;;
          set_rightCols E ni (mscal (- (measure / diam)) Dc)
        else Ok E) ;;
  Hm <- topLeftCorner H Nkm1 Nkm1 ;;
  P <- msolve llt Hm E ;;
  Ok (E, P).

(** VEM_PCC_2D_LocalSpace.cpp 358-371 *)
Definition ComputePolynomialsDofs (measure : R) (order nb ni N Nk : nat) (VB H : Mat) : outcome Mat :=
  D <- set_topRows (mzero N Nk) nb VB ;;
  if (1 <? order)%nat then
    Ht <- topRows H ni ;;
    set_bottomRows D ni (mscal (/ measure) Ht)
  else Ok D.

(** VEM_PCC_2D_LocalSpace.cpp 24-71, with InitializeProjectorsComputation 260-313 inlined.
    [junk]: contents of matrices after resize.  [lu], [llt]: the two linear solvers. *)
Definition VEM_PCC_2D_CreateLocalSpace (junk : nat -> nat -> R) (lu llt : Solver) (ref : VEM_2D_Reference) (p : Polygon)
  : outcome VEM_2D_Local :=
  let q := rv_Quadrature ref in
  let m := rv_Monomials ref in
  let order := rv_Order ref in
  let measure := pg_Measure p in
  let diam := pg_Diameter p in
  IQ <- PolygonInternalQuadrature (vq_ReferenceTriangleQuadrature q) (pg_TriangulationVertices p) ;;
  BQ <- PolygonEdgesLobattoQuadrature junk (vq_ReferenceEdgeDOFsInternalPoints q) (vq_ReferenceEdgeDOFsInternalWeights q)
          (vq_ReferenceEdgeDOFsExtremaWeights q) (pg_Vertices p) (pg_EdgesLength p) (pg_EdgesDirection p)
          (pg_EdgesTangent p) (pg_EdgesNormal p) ;;
  (** InitializeProjectorsComputation *)
  let nv := m_cols (pg_Vertices p) in
  let ne := (rv_NumDofs1D ref * nv)%nat in
  let nb := (nv + ne)%nat in
  let ni := rv_NumDofs2D ref in
  let N := (nb + ni)%nat in
  let Nk := NumMonomials m in
  let Nkm1 := (Nk - order - 1)%nat in
  let Nkm2 := ((order - 1) * order / 2)%nat in
  VI <- Vander 2 junk m (q_Points IQ) (pg_Centroid p) diam ;;
  VID <- VanderDerivatives Monomials_2D junk m VI diam ;;
  VB <- Vander 2 junk m (q_Points (eq_Quadrature BQ)) (pg_Centroid p) diam ;;
  VBD <- VanderDerivatives Monomials_2D junk m VB diam ;;
  H <- weighted VI (q_Weights IQ) VI ;;
  ' (G, B, Pi) <- ComputePiNabla lu order nb ni N Nk (Laplacian m) measure diam (q_Weights IQ)
                    (q_Weights (eq_Quadrature BQ)) (eq_WeightsTimesNormal BQ) VI VID VB VBD ;;
  ' (C, Pi0km1, Pi0k) <- ComputeL2Projectors llt measure order Nkm1 Nk ni N H Pi ;;
  D0 <- idx_ (DerivativeMatrices m) 0 ;; D1 <- idx_ (DerivativeMatrices m) 1 ;;
  wN0 <- idx_ (eq_WeightsTimesNormal BQ) 0 ;; wN1 <- idx_ (eq_WeightsTimesNormal BQ) 1 ;;
  ' (E0, P0) <- derivative_projector llt measure diam order Nkm1 nb ni N H VB D0 wN0 ;;
  ' (E1, P1) <- derivative_projector llt measure diam order Nkm1 nb ni N H VB D1 wN1 ;;
  D <- ComputePolynomialsDofs measure order nb ni N Nk VB H ;;
  Ok {| lv_Dimension := rv_Dimension ref; lv_Order := order;
        lv_NumVertexBasisFunctions := nv; lv_NumEdgeBasisFunctions := ne; lv_NumBoundaryBasisFunctions := nb;
        lv_NumInternalBasisFunctions := ni; lv_NumBasisFunctions := N; lv_NumProjectorBasisFunctions := Nk;
        lv_Nkm1 := Nkm1; lv_Nkm2 := Nkm2;
        lv_InternalQuadrature := IQ; lv_BoundaryQuadrature := BQ;
        lv_Diameter := diam; lv_Measure := measure; lv_Centroid := pg_Centroid p;
        lv_VanderInternal := VI; lv_VanderInternalDerivatives := VID;
        lv_VanderBoundary := VB; lv_VanderBoundaryDerivatives := VBD;
        lv_Hmatrix := H; lv_Gmatrix := G; lv_Bmatrix := B; lv_PiNabla := Pi;
        lv_Cmatrix := C; lv_Pi0km1 := Pi0km1; lv_Pi0k := Pi0k;
        lv_Ematrix := [E0; E1]; lv_Pi0km1Der := [P0; P1]; lv_Dmatrix := D |}.

(** ** Evaluation *)

(** VEM_PCC_Utilities.hpp 27-34 *)
Inductive ProjectionTypes := Pi0km1_t | Pi0k_t | PiNabla_t | Pi0km1Der_t | Pi0klm1_t.

(** VEM_PCC_Utilities.hpp 152-167 *)
Definition utilities_Values (t : ProjectionTypes) (Nkm1 : nat) (pi0km1 pi0k vander : Mat) : outcome Mat :=
  match t with
  | Pi0km1_t => V <- leftCols vander Nkm1 ;; mmul V pi0km1
  | Pi0k_t => mmul vander pi0k
  | _ => Throw
  end.

(** VEM_PCC_Utilities.hpp 101-130 *)
Definition utilities_DerivativeValues (dimension : nat) (t : ProjectionTypes) (Nkm1 : nat) (vander : Mat) (vander_der : list Mat)
  (piNabla : Mat) (pi0km1Der : list Mat) : outcome (list Mat) :=
  match t with
  | PiNabla_t => for_loop dimension (fun i r => V <- idx_ vander_der i ;; A <- mmul V piNabla ;; Ok (r ++ [A])) []
  | Pi0km1Der_t => for_loop dimension (fun i r =>
        V <- leftCols vander Nkm1 ;; P <- idx_ pi0km1Der i ;; A <- mmul V P ;; Ok (r ++ [A])) []
  | _ => Throw
  end.

(** VEM_PCC_Utilities.hpp 132-150 *)
Definition utilities_LaplacianValues (dimension : nat) (t : ProjectionTypes) (Nkm1 : nat) (vander_der pi0km1Der : list Mat) : outcome Mat :=
  match t with
  | Pi0km1Der_t =>
      V0 <- idx_ vander_der 0 ;; V0 <- leftCols V0 Nkm1 ;; P0 <- idx_ pi0km1Der 0 ;;
      A <- mmul V0 P0 ;;
      for_from 1 (dimension - 1) (fun d A =>
        V <- idx_ vander_der d ;; V <- leftCols V Nkm1 ;; P <- idx_ pi0km1Der d ;; B <- mmul V P ;; madd A B) A
  | _ => Throw
  end.

(** VEM_PCC_2D_LocalSpace.hpp 202-211 *)
Definition VEM_PolynomialsValues (junk : nat -> nat -> R) (ref : VEM_2D_Reference) (l : VEM_2D_Local) (points : Mat) : outcome Mat :=
  Vander 2 junk (rv_Monomials ref) points (lv_Centroid l) (lv_Diameter l).
(** 221-229 *)
Definition VEM_PolynomialsDerivativeValues (junk : nat -> nat -> R) (ref : VEM_2D_Reference) (l : VEM_2D_Local) (points : Mat) : outcome (list Mat) :=
  V <- VEM_PolynomialsValues junk ref l points ;;
  VanderDerivatives Monomials_2D junk (rv_Monomials ref) V (lv_Diameter l).
(** 112-123; the type Pi0klm1 needs members set by Compute3DUtilities_DF_PCC only: not modelled *)
Definition VEM_Values_quadrature (l : VEM_2D_Local) (t : ProjectionTypes) : outcome Mat :=
  utilities_Values t (lv_Nkm1 l) (lv_Pi0km1 l) (lv_Pi0k l) (lv_VanderInternal l).
(** 125-135 *)
Definition VEM_DerivativeValues_quadrature (l : VEM_2D_Local) (t : ProjectionTypes) : outcome (list Mat) :=
  utilities_DerivativeValues (lv_Dimension l) t (lv_Nkm1 l) (lv_VanderInternal l) (lv_VanderInternalDerivatives l) (lv_PiNabla l) (lv_Pi0km1Der l).
(** 137-147 *)
Definition VEM_Values (junk : nat -> nat -> R) (ref : VEM_2D_Reference) (l : VEM_2D_Local) (t : ProjectionTypes) (points : Mat) : outcome Mat :=
  V <- VEM_PolynomialsValues junk ref l points ;;
  utilities_Values t (lv_Nkm1 l) (lv_Pi0km1 l) (lv_Pi0k l) V.
(** 149-163 *)
Definition VEM_DerivativeValues (junk : nat -> nat -> R) (ref : VEM_2D_Reference) (l : VEM_2D_Local) (t : ProjectionTypes) (points : Mat) : outcome (list Mat) :=
  V <- VEM_PolynomialsValues junk ref l points ;;
  VD <- VEM_PolynomialsDerivativeValues junk ref l points ;;
  utilities_DerivativeValues (lv_Dimension l) t (lv_Nkm1 l) V VD (lv_PiNabla l) (lv_Pi0km1Der l).
(** 165-173 *)
Definition VEM_LaplacianValues_quadrature (l : VEM_2D_Local) (t : ProjectionTypes) : outcome Mat :=
  utilities_LaplacianValues (lv_Dimension l) t (lv_Nkm1 l) (lv_VanderInternalDerivatives l) (lv_Pi0km1Der l).
(** 175-186: the last two arguments are passed in the order (Pi0km1Der, derivatives) *)
Definition VEM_LaplacianValues (junk : nat -> nat -> R) (ref : VEM_2D_Reference) (l : VEM_2D_Local) (t : ProjectionTypes) (points : Mat) : outcome Mat :=
  VD <- VEM_PolynomialsDerivativeValues junk ref l points ;;
  utilities_LaplacianValues (lv_Dimension l) t (lv_Nkm1 l) (lv_Pi0km1Der l) VD.

(** ** Stabilization *)

(** stabMatrix.diagonal().array() -= 1 *)
Definition sub_diagonal (A : Mat) : Mat :=
  {| m_rows := m_rows A; m_cols := m_cols A; m_at := fun i j => m_at A i j - (if (i =? j)%nat then 1 else 0) |}.
(** VEM_PCC_Utilities.hpp 234-243 *)
Definition utilities_DofiDofi (projector : Mat) (coefficient : R) (D : Mat) : outcome Mat :=
  S <- mmul D projector ;;
  let S := sub_diagonal S in
  mmul (mscal coefficient (mtrans S)) S.
(** VEM_PCC_Utilities.hpp 245-263: max_matrix has coercivity_matrix.cols() rows and two columns,
    filled by the diagonal and by the vector: other sizes are an Eigen assertion *)
Definition utilities_DRecipe (projector coercivity : Mat) (vector_coefficients : Vec) (D : Mat) : outcome Mat :=
  S <- mmul D projector ;;
  let S := sub_diagonal S in
  if ((Nat.min (m_rows coercivity) (m_cols coercivity) =? m_cols coercivity) && (v_size vector_coefficients =? m_cols coercivity))%nat then
    let weights := {| v_size := m_cols coercivity; v_at := fun i => Rmax (m_at coercivity i i) (v_at vector_coefficients i) |} in
    weighted S weights S
  else UB.
(** VEM_PCC_2D_LocalSpace.hpp 91-104 *)
Definition VEM_DofiDofi (l : VEM_2D_Local) (t : ProjectionTypes) : outcome Mat :=
  match t with
  | PiNabla_t => utilities_DofiDofi (lv_PiNabla l) 1 (lv_Dmatrix l)
  | Pi0k_t => utilities_DofiDofi (lv_Pi0k l) (lv_Measure l) (lv_Dmatrix l)
  | _ => Throw
  end.
