(** Model of the two dimensional mixed virtual element: VEM/MCC/2D/VEM_MCC_2D_ReferenceElement.hpp,
    VEM/MCC/2D/VEM_MCC_2D_Velocity_LocalSpace.{hpp,cpp}, VEM/MCC/2D/VEM_MCC_2D_Pressure_LocalSpace.{hpp,cpp}
    and the parts of VEM/MCC/VEM_MCC_Utilities.hpp they use. *)
From Coq Require Import List Arith Bool ZArith Reals.
From Verif Require Import Base RSum MatrixModel MonomialsModel LagrangeModel VemQuadModel VemModel.
Import ListNotations.
Local Open Scope R_scope.

(** ** Eigen *)

(** Eigen (not in /repo): A.rightCols(n) *)
Definition rightCols (A : Mat) (n : nat) : outcome Mat :=
  if (n <=? m_cols A)%nat then mat_block A 0 (m_cols A - n) (m_rows A) n else UB.
(** Eigen (not in /repo): A.bottomLeftCorner(r, c) *)
Definition bottomLeftCorner (A : Mat) (r c : nat) : outcome Mat :=
  if (r <=? m_rows A)%nat then mat_block A (m_rows A - r) 0 r c else UB.
(** Eigen (not in /repo): A.middleRows(r, n) *)
Definition middleRows (A : Mat) (r n : nat) : outcome Mat := mat_block A r 0 n (m_cols A).
(** Eigen (not in /repo): a matrix of r rows and c columns filled by [<< A, B] with the two blocks side by side *)
Definition beside (r c : nat) (A B : Mat) : outcome Mat :=
  if ((m_rows A =? r) && (m_rows B =? r) && (m_cols A + m_cols B =? c))%nat
  then Ok {| m_rows := r; m_cols := c; m_at := fun i j => if (j <? m_cols A)%nat then m_at A i j else m_at B i (j - m_cols A)%nat |}
  else UB.
(** Eigen (not in /repo): a matrix of r rows and c columns filled by [<< A, B] with B under A *)
Definition stacked (r c : nat) (A B : Mat) : outcome Mat :=
  if ((m_cols A =? c) && (m_cols B =? c) && (m_rows A + m_rows B =? r))%nat
  then Ok {| m_rows := r; m_cols := c; m_at := fun i j => if (i <? m_rows A)%nat then m_at A i j else m_at B (i - m_rows A)%nat j |}
  else UB.
(** Eigen (not in /repo): a vector of size n filled by [<< v, w] *)
Definition joined (n : nat) (v w : Vec) : outcome Vec :=
  if (v_size v + v_size w =? n)%nat
  then Ok {| v_size := n; v_at := fun i => if (i <? v_size v)%nat then v_at v i else v_at w (i - v_size v)%nat |}
  else UB.
(** Eigen (not in /repo): v.array().sqrt(); the root of a negative coefficient is not a number: not modelled ([UB]) *)
Definition vsqrt (v : Vec) : outcome Vec :=
  if forallb (fun i => if Rlt_dec (v_at v i) 0 then false else true) (seq 0 (v_size v))
  then Ok {| v_size := v_size v; v_at := fun i => sqrt (v_at v i) |} else UB.
(** Eigen (not in /repo): w.asDiagonal() * A *)
Definition diagm (w : Vec) (A : Mat) : outcome Mat :=
  if (v_size w =? m_rows A)%nat
  then Ok {| m_rows := m_rows A; m_cols := m_cols A; m_at := fun i j => v_at w i * m_at A i j |} else UB.
(** Eigen (not in /repo): MatrixXd(v.asDiagonal()) *)
Definition diagonal_matrix (v : Vec) : Mat :=
  {| m_rows := v_size v; m_cols := v_size v; m_at := fun i j => if (i =? j)%nat then v_at v i else 0 |}.
(** Eigen (not in /repo): VectorXd::Constant(n, x) *)
Definition vconst (n : nat) (x : R) : Vec := {| v_size := n; v_at := fun _ => x |}.

(** LAPACK_utilities::svd(A, V, S) (not in /repo): V has as many rows and columns as A has columns, its rows are
    right singular vectors; the coefficients are those of an [Svd] and what is assumed of it is stated in each theorem *)
Definition Svd := Mat -> nat -> nat -> R.

(** ** Quadrature: VEM_Quadrature_2D.cpp 115-125.  [gauss_segment]: the rule Quadrature_Gauss1D of gedim for an order.
    ReferenceSegmentInternalPoints and ReferenceSegmentInternalWeights, copies of the segment rule, are not used here. *)
Definition Compute_MCC_2D (gauss_triangle gauss_segment : nat -> QuadratureData) (order : nat) : VEM_QuadratureData_2D :=
  {| vq_ReferenceSegmentQuadrature := gauss_segment (2 * order + 1)%nat; vq_ReferenceEdgeDOFsQuadrature := no_quadrature;
     vq_ReferenceTriangleQuadrature := gauss_triangle (2 * (order + 1))%nat;
     vq_ReferenceEdgeDOFsInternalPoints := mzero 0 0; vq_ReferenceEdgeDOFsInternalWeights := vzero 0;
     vq_ReferenceEdgeDOFsExtremaWeights := (0, 0) |}.

(** ** Reference elements: I_VEM_MCC_2D_ReferenceElement.hpp 44-56 (edge_ortho and Monomials_1D are not set by this element) *)
Record MCC_2D_Reference := {
  rm_Dimension : nat; rm_Order : nat; rm_NumDofs0D : nat; rm_NumDofs1D : nat; rm_NumDofs2D : nat;
  rm_Monomials : Monomials_Data;
  rm_Quadrature : VEM_QuadratureData_2D }.

(** VEM_MCC_2D_ReferenceElement.hpp 52-69, velocity: rm_Monomials is MonomialsKp1 *)
Definition MCC_Velocity_Create (gauss_triangle gauss_segment : nat -> QuadratureData) (order : nat) : outcome MCC_2D_Reference :=
  m <- Compute Monomials_2D (order + 1) ;;
  Ok {| rm_Dimension := 2; rm_Order := order; rm_NumDofs0D := 0; rm_NumDofs1D := order + 1;
        rm_NumDofs2D := (order * (order + 2))%nat; rm_Monomials := m; rm_Quadrature := Compute_MCC_2D gauss_triangle gauss_segment order |}.

(** VEM_MCC_2D_ReferenceElement.hpp 29-46, pressure *)
Definition MCC_Pressure_Create (gauss_triangle gauss_segment : nat -> QuadratureData) (order : nat) : outcome MCC_2D_Reference :=
  m <- Compute Monomials_2D order ;;
  Ok {| rm_Dimension := 2; rm_Order := order; rm_NumDofs0D := 0; rm_NumDofs1D := 0;
        rm_NumDofs2D := ((order + 1) * (order + 2) / 2)%nat; rm_Monomials := m; rm_Quadrature := Compute_MCC_2D gauss_triangle gauss_segment order |}.

(** ** Local space of the velocity: VEM_MCC_2D_LocalSpace_Data.hpp 41-100.  The geometry (25-39) has the fields of [Polygon].
    Not modelled: the fields CreateLocalSpace of this class does not set (the face, edge and TkNabla fields after QmatrixInvKp1),
    and QmatrixInvKp1, an identity. *)
Record MCC_Local := {
  lm_Order : nat; lm_Dimension : nat;
  lm_NumBoundaryBasisFunctions : nat; lm_NumNablaInternalBasisFunctions : nat; lm_NumBigOPlusInternalBasisFunctions : nat;
  lm_NumInternalBasisFunctions : nat; lm_NumBasisFunctions : nat;
  lm_InternalQuadrature : QuadratureData; lm_BoundaryQuadrature : Edges_QuadratureData;
  lm_VanderInternal : Mat; lm_VanderInternalKp1 : Mat; lm_VanderBoundary : Mat; lm_VanderBoundaryKp1 : Mat;
  lm_Diameter : R; lm_Measure : R; lm_Centroid : nat -> R;
  lm_Nk : nat; lm_NkNabla : nat;
  lm_Hmatrix : Mat; lm_QmatrixKp1 : Mat; lm_TkNabla : Mat; lm_TkBigOPlus : Mat;
  lm_GkVanderInternal : Mat; lm_GkVanderBoundaryTimesNormal : Mat;
  lm_Wmatrix : Mat; lm_Vmatrix : Mat; lm_Gmatrix : Mat; lm_Bmatrix : Mat; lm_Pi0k : Mat; lm_Dmatrix : Mat }.

(** VEM_MCC_2D_Velocity_LocalSpace.cpp 120-127: TkNabla << dx, dy with dx, dy the last NkNabla rows and first Nk columns
    of the derivative matrices divided by the diameter *)
Definition mcc_TkNabla (dim Nk NkNabla : nat) (diam : R) (m : Monomials_Data) : outcome Mat :=
  D0 <- idx_ (DerivativeMatrices m) 0 ;; D1 <- idx_ (DerivativeMatrices m) 1 ;;
  dx <- bottomLeftCorner D0 NkNabla Nk ;; dy <- bottomLeftCorner D1 NkNabla Nk ;;
  beside NkNabla (dim * Nk) (mscal (1 / diam) dx) (mscal (1 / diam) dy).

(** 129-131 and 141: TkBigOPlus = V.transpose().rightCols(dim * Nk - NkNabla).transpose() *)
Definition mcc_TkBigOPlus (svd : Svd) (dim Nk NkNabla : nat) (T : Mat) : outcome Mat :=
  let V := {| m_rows := m_cols T; m_cols := m_cols T; m_at := svd T |} in
  if (dim * Nk <? NkNabla)%nat then UB else
  A <- rightCols (mtrans V) (dim * Nk - NkNabla) ;;
  Ok (mtrans A).

(** 133-137 (and 246-251, VEM_MCC_2D_Velocity_LocalSpace.hpp 123-126): the values of the monomials, transposed, twice on the diagonal;
    [n] is the number of points *)
Definition mcc_Vander2k (dim Nk n : nat) (V : Mat) : outcome Mat :=
  up <- beside Nk (dim * n) (mtrans V) (mzero (m_cols V) (m_rows V)) ;;
  down <- beside Nk (dim * n) (mzero (m_cols V) (m_rows V)) (mtrans V) ;;
  stacked (dim * Nk) (dim * n) up down.

(** 139-148 (and 253-259, hpp 128-134): the values of the vector polynomials, gradients first *)
Definition mcc_GkVander (dim Nk n : nat) (TN TB V : Mat) : outcome Mat :=
  V2 <- mcc_Vander2k dim Nk n V ;;
  GN <- mmul TN V2 ;;
  GB <- mmul TB V2 ;;
  stacked (dim * Nk) (dim * n) GN GB.

(** 108-111: temp.transpose() * temp with temp = sqrt(weights).asDiagonal() * A *)
Definition mcc_gram (roots : Vec) (A : Mat) : outcome Mat := T <- diagm roots A ;; mmul (mtrans T) T.

(** 204-229: the component d of the normals and the signs of the edges, at each point of the edges.
    Returns edgeNormalsVector[0], edgeNormalsVector[1], edgeDirectionsVector *)
Definition mcc_edge_vectors (junk : nat -> nat -> R) (order nb : nat) (vertices normals : Mat) (dirs : list bool) : outcome (Vec * Vec * Vec) :=
  ' (n0, n1, s, _) <- for_loop (m_cols vertices) (fun i st =>
      let '(n0, n1, s, offset) := st in
      normal <- normal_col normals i ;;
      dir <- idx_ dirs i ;;
      let direction := if (dir : bool) then 1 else -1 in
      let n := (order + 1)%nat in
      n0 <- vec_set_segment n0 offset n (vconst n (normal 0%nat * direction)) ;;
      n1 <- vec_set_segment n1 offset n (vconst n (normal 1%nat * direction)) ;;
      s <- vec_set_segment s offset n (vconst n direction) ;;
      Ok (n0, n1, s, (offset + n)%nat)) (vzero nb, vzero nb, {| v_size := nb; v_at := junk 0%nat |}, 0%nat) ;;
  Ok (n0, n1, s).

(** 196-262; returns W2, B2Nabla, GkVanderBoundaryTimesNormal *)
Definition mcc_ValuesOnBoundary (junk : nat -> nat -> R) (dim order nb N Nk NkNabla : nat) (vertices normals : Mat) (dirs : list bool)
  (w : Vec) (VB VBp TN TB : Mat) : outcome (Mat * Mat * Mat) :=
  ' (n0, n1, s) <- mcc_edge_vectors junk order nb vertices normals dirs ;;
  ws <- vcwise w s ;;
  A <- mdiag (mtrans VB) ws ;;
  W2 <- mat_set_block (mzero Nk N) 0 0 Nk nb A ;;
  R <- rightCols VBp NkNabla ;;
  A <- mdiag (mtrans R) ws ;;
  B2 <- mat_set_block (mzero NkNabla N) 0 0 NkNabla nb A ;;
  C <- stacked (dim * nb) nb (diagonal_matrix n0) (diagonal_matrix n1) ;;
  G <- mcc_GkVander dim Nk (v_size w) TN TB VB ;;
  GC <- mmul G C ;;
  Ok (W2, B2, mtrans GC).

(** 157-172; returns Wmatrix, Vmatrix *)
Definition mcc_Divergence (llt : Solver) (measure : R) (order Nk nb nn N : nat) (W2 H : Mat) : outcome (Mat * Mat) :=
  W1 <- (if (0 <? order)%nat then mat_set_block (mzero Nk N) 1 nb nn nn (mscal (- measure) (midentity nn)) else Ok (mzero Nk N)) ;;
  W <- madd W1 W2 ;;
  V <- msolve llt H W ;;
  Ok (W, V).

(** 174-194; returns Bmatrix, Pi0k *)
Definition mcc_L2Projectors (llt : Solver) (measure : R) (dim Nk NkNabla no N : nat) (w : Vec) (VI VIp V B2 G : Mat) : outcome (Mat * Mat) :=
  R <- rightCols VIp NkNabla ;;
  HH <- weighted R w VI ;;
  B1 <- mmul (mscal (-1) HH) V ;;
  BN <- madd B1 B2 ;;
  BO <- set_rightCols (mzero no N) no (mscal measure (midentity no)) ;;
  B <- stacked (dim * Nk) N BN BO ;;
  P <- msolve llt G B ;;
  Ok (B, P).

(** VEM_MCC_Utilities.hpp 31-55 *)
Definition mcc_PolynomialBasisDofs (dim : nat) (measure : R) (order Nk nb nn no N : nat) (GB G : Mat) : outcome Mat :=
  D <- set_topRows (mzero N (dim * Nk)) nb GB ;;
  if (0 <? order)%nat then
    Gt <- topRows G nn ;;
    D <- mat_set_block D nb 0 nn (dim * Nk) (mscal (1 / measure) Gt) ;;
    Gb <- bottomRows G no ;;
    set_bottomRows D no (mscal (1 / measure) Gb)
  else Ok D.

(** VEM_MCC_2D_Velocity_LocalSpace.cpp 25-68 with InitializeProjectorsComputation 70-155 inlined.
    [junk]: contents of storage after resize.  The unsigned differences 87-88 do not wrap (Nk >= order + 1). *)
Definition MCC_CreateLocalSpace (junk : nat -> nat -> R) (llt : Solver) (svd : Svd) (ref : MCC_2D_Reference) (p : Polygon) : outcome MCC_Local :=
  let q := rm_Quadrature ref in
  let m := rm_Monomials ref in
  let order := rm_Order ref in
  let dim := rm_Dimension ref in
  let measure := pg_Measure p in
  let diam := pg_Diameter p in
  IQ <- PolygonInternalQuadrature (vq_ReferenceTriangleQuadrature q) (pg_TriangulationVertices p) ;;
  BQ <- PolygonEdgesQuadrature junk (vq_ReferenceSegmentQuadrature q) (pg_Vertices p) (pg_EdgesLength p) (pg_EdgesDirection p)
          (pg_EdgesTangent p) (pg_EdgesNormal p) ;;
  (** InitializeProjectorsComputation *)
  let Nk := ((order + 1) * (order + 2) / 2)%nat in
  let NkNabla := (Nk + (order + 1))%nat in
  let nb := (rm_NumDofs1D ref * v_size (pg_EdgesLength p))%nat in
  let nn := (Nk - 1)%nat in
  let no := (Nk - (order + 1))%nat in
  let ni := rm_NumDofs2D ref in
  let N := (nb + ni)%nat in
  let w := q_Weights IQ in
  VIp <- Vander 2 junk m (q_Points IQ) (pg_Centroid p) diam ;;
  VI <- leftCols VIp Nk ;;
  VBp <- Vander 2 junk m (q_Points (eq_Quadrature BQ)) (pg_Centroid p) diam ;;
  VB <- leftCols VBp Nk ;;
  roots <- vsqrt w ;;
  H <- mcc_gram roots VI ;;
  TN <- mcc_TkNabla dim Nk NkNabla diam m ;;
  TB <- mcc_TkBigOPlus svd dim Nk NkNabla TN ;;
  GI <- mcc_GkVander dim Nk (v_size w) TN TB VI ;;
  roots2 <- joined (dim * v_size w) roots roots ;;
  G <- mcc_gram roots2 (mtrans GI) ;;
  ' (W2, B2, GB) <- mcc_ValuesOnBoundary junk dim order nb N Nk NkNabla (pg_Vertices p) (pg_EdgesNormal p) (pg_EdgesDirection p)
                      (q_Weights (eq_Quadrature BQ)) VB VBp TN TB ;;
  ' (W, V) <- mcc_Divergence llt measure order Nk nb nn N W2 H ;;
  ' (B, P) <- mcc_L2Projectors llt measure dim Nk NkNabla no N w VI VIp V B2 G ;;
  D <- mcc_PolynomialBasisDofs dim measure order Nk nb nn no N GB G ;;
  Ok {| lm_Order := order; lm_Dimension := dim; lm_NumBoundaryBasisFunctions := nb; lm_NumNablaInternalBasisFunctions := nn;
        lm_NumBigOPlusInternalBasisFunctions := no; lm_NumInternalBasisFunctions := ni; lm_NumBasisFunctions := N;
        lm_InternalQuadrature := IQ; lm_BoundaryQuadrature := BQ;
        lm_VanderInternal := VI; lm_VanderInternalKp1 := VIp; lm_VanderBoundary := VB; lm_VanderBoundaryKp1 := VBp;
        lm_Diameter := diam; lm_Measure := measure; lm_Centroid := pg_Centroid p; lm_Nk := Nk; lm_NkNabla := NkNabla;
        lm_Hmatrix := H; lm_QmatrixKp1 := midentity (NumMonomials m); lm_TkNabla := TN; lm_TkBigOPlus := TB;
        lm_GkVanderInternal := GI; lm_GkVanderBoundaryTimesNormal := GB;
        lm_Wmatrix := W; lm_Vmatrix := V; lm_Gmatrix := G; lm_Bmatrix := B; lm_Pi0k := P; lm_Dmatrix := D |}.

(** ** Evaluation (the projection type Pi0k is the only one of MCC::ProjectionTypes, VEM_MCC_Utilities.hpp 24-27) *)

(** VEM_MCC_Utilities.hpp 226-238 *)
Definition mcc_utilities_Values (dim : nat) (projector GVander : Mat) : outcome (list Mat) :=
  if (dim =? 0)%nat then UB else
  let n := (m_cols GVander / dim)%nat in
  A <- mmul (mtrans GVander) projector ;;
  for_loop dim (fun d r => X <- middleRows A (n * d) n ;; set_idx r d X) (repeat (mzero dim (m_cols projector)) dim).
(** VEM_MCC_2D_Velocity_LocalSpace.hpp 96-106 *)
Definition MCC_Values_quadrature (l : MCC_Local) : outcome (list Mat) :=
  mcc_utilities_Values (lm_Dimension l) (lm_Pi0k l) (lm_GkVanderInternal l).
(** VEM_MCC_2D_Velocity_LocalSpace.hpp 108-148 *)
Definition MCC_Values (junk : nat -> nat -> R) (ref : MCC_2D_Reference) (l : MCC_Local) (points : Mat) : outcome (list Mat) :=
  let n := m_cols points in
  let dim := lm_Dimension l in
  Vp <- Vander 2 junk (rm_Monomials ref) points (lm_Centroid l) (lm_Diameter l) ;;
  V <- leftCols Vp (lm_Nk l) ;;
  G <- mcc_GkVander dim (lm_Nk l) n (lm_TkNabla l) (lm_TkBigOPlus l) V ;;
  A <- mmul (mtrans G) (lm_Pi0k l) ;;
  for_loop dim (fun d r => X <- middleRows A (n * d) n ;; set_idx r d X) (repeat (mzero dim (m_cols (lm_Pi0k l))) dim).
(** VEM_MCC_2D_Velocity_LocalSpace.hpp 150-153 *)
Definition MCC_DivergenceValues (l : MCC_Local) : outcome Mat := mmul (lm_VanderInternal l) (lm_Vmatrix l).
(** VEM_MCC_2D_Velocity_LocalSpace.hpp 155-158 *)
Definition MCC_PolynomialsValues_quadrature (l : MCC_Local) : Mat := lm_VanderInternal l.
(** VEM_MCC_2D_Velocity_LocalSpace.hpp 160-166 *)
Definition MCC_PolynomialsValues (junk : nat -> nat -> R) (ref : MCC_2D_Reference) (l : MCC_Local) (points : Mat) : outcome Mat :=
  V <- Vander 2 junk (rm_Monomials ref) points (lm_Centroid l) (lm_Diameter l) ;; leftCols V (lm_Nk l).
(** VEM_MCC_2D_Velocity_LocalSpace.hpp 84-94; VEM_MCC_Utilities.hpp 57-67 is the same text as VEM_PCC_Utilities.hpp 234-243 *)
Definition MCC_DofiDofi (l : MCC_Local) : outcome Mat := utilities_DofiDofi (lm_Pi0k l) (lm_Measure l) (lm_Dmatrix l).

(** ** Local space of the pressure: VEM_MCC_2D_LocalSpace_Data.hpp 102-120 *)
Record MCC_Pressure_Local := {
  lq_Order : nat; lq_Dimension : nat; lq_Nk : nat; lq_Nkm1 : nat; lq_NumBasisFunctions : nat;
  lq_Diameter : R; lq_Centroid : nat -> R;
  lq_InternalQuadrature : QuadratureData; lq_VanderInternal : Mat; lq_Qmatrix : Mat; lq_Hmatrix : Mat }.

(** VEM_MCC_2D_Pressure_LocalSpace.cpp 24-68: Qmatrix is not assigned, it keeps the size 0 x 0 of a new MatrixXd *)
Definition MCC_Pressure_CreateLocalSpace (junk : nat -> nat -> R) (ref : MCC_2D_Reference) (p : Polygon) : outcome MCC_Pressure_Local :=
  let order := rm_Order ref in
  IQ <- PolygonInternalQuadrature (vq_ReferenceTriangleQuadrature (rm_Quadrature ref)) (pg_TriangulationVertices p) ;;
  VI <- Vander 2 junk (rm_Monomials ref) (q_Points IQ) (pg_Centroid p) (pg_Diameter p) ;;
  roots <- vsqrt (q_Weights IQ) ;;
  H <- mcc_gram roots VI ;;
  Ok {| lq_Order := order; lq_Dimension := rm_Dimension ref; lq_Nk := ((order + 1) * (order + 2) / 2)%nat;
        lq_Nkm1 := (order * (order + 1) / 2)%nat; lq_NumBasisFunctions := rm_NumDofs2D ref;
        lq_Diameter := pg_Diameter p; lq_Centroid := pg_Centroid p;
        lq_InternalQuadrature := IQ; lq_VanderInternal := VI; lq_Qmatrix := mzero 0 0; lq_Hmatrix := H |}.
(** VEM_MCC_2D_Pressure_LocalSpace.hpp 49-52 (and 62-65) *)
Definition MCC_Pressure_Values_quadrature (l : MCC_Pressure_Local) : outcome Mat := mmul (lq_VanderInternal l) (mtrans (lq_Qmatrix l)).
(** VEM_MCC_2D_Pressure_LocalSpace.hpp 54-60 (and 67-73) *)
Definition MCC_Pressure_Values (junk : nat -> nat -> R) (ref : MCC_2D_Reference) (l : MCC_Pressure_Local) (points : Mat) : outcome Mat :=
  V <- Vander 2 junk (rm_Monomials ref) points (lq_Centroid l) (lq_Diameter l) ;; mmul V (mtrans (lq_Qmatrix l)).
(** PDETools/LocalSpace/LocalSpace_MCC_2D.cpp 122-128, the space of the pressure of the pair:
    Qmatrix is the corner of the QmatrixKp1 of the velocity *)
Definition MCC_Pair_Pressure (junk : nat -> nat -> R) (ref_pressure : MCC_2D_Reference) (p : Polygon) (velocity : MCC_Local) : outcome MCC_Pressure_Local :=
  l <- MCC_Pressure_CreateLocalSpace junk ref_pressure p ;;
  Q <- topLeftCorner (lm_QmatrixKp1 velocity) (lm_Nk velocity) (lm_Nk velocity) ;;
  Ok {| lq_Order := lq_Order l; lq_Dimension := lq_Dimension l; lq_Nk := lq_Nk l; lq_Nkm1 := lq_Nkm1 l; lq_NumBasisFunctions := lq_NumBasisFunctions l;
        lq_Diameter := lq_Diameter l; lq_Centroid := lq_Centroid l; lq_InternalQuadrature := lq_InternalQuadrature l;
        lq_VanderInternal := lq_VanderInternal l; lq_Qmatrix := Q; lq_Hmatrix := lq_Hmatrix l |}.
