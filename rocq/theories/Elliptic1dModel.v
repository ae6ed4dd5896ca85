(** Model of the driver of the elliptic problem on networks of segments, examples/Elliptic_PCC_1D: the quadrature and the tables of the finite
    element on the segment, the assembled system, the reported errors and values.  The linear solver is outside: PostProcessSolution takes any
    solution vector.  Files without a path are in /repo/PolyDiM/examples/Elliptic_PCC_1D/src. *)
From Coq Require Import List Arith Bool Reals.
From Verif Require Import Base RSum MatrixModel DofsModel AssemblerModel AssemblerSpec EquationModel VemQuadModel VemModel LagrangeModel DriverModel ParabolicModel Mcc2dModel.
Import ListNotations.
Local Open Scope R_scope.

(** FEM_PCC_1D_ReferenceElement.hpp 36-51: the fields of LagrangeModel, the quadrature and the two tables *)
Record FEM_1D_Reference := {
  rf_data : FEM_1D_Data;
  rf_Quadrature : QuadratureData;
  rf_Values : Mat;
  rf_Derivatives : list Mat }.

(** FEM_PCC_1D_ReferenceElement.hpp 66-68 *)
Definition computed_quadrature_order (order quadrature_order : nat) : nat := if (quadrature_order =? 0)%nat then (2 * order)%nat else quadrature_order.

(** FEM_PCC_1D_ReferenceElement.hpp 56-162, Create; [gauss n]: Quadrature_Gauss1D::FillPointsAndWeights(n) (gedim, not in /repo) *)
Definition FEM_1D_CreateReference (junk : nat -> nat -> R) (lobatto : nat -> Vec) (gauss : nat -> QuadratureData) (order : nat) (type : FEM_PCC_1D_Types)
  (quadrature_order : nat) : outcome FEM_1D_Reference :=
  data <- FEM_1D_Create junk lobatto order type ;;
  let Q := gauss (computed_quadrature_order order quadrature_order) in
  V <- FEM_1D_Values junk (q_Points Q) data ;;
  D <- FEM_1D_Derivatives junk (q_Points Q) data ;;
  Ok {| rf_data := data; rf_Quadrature := Q; rf_Values := V; rf_Derivatives := D |}.

(** FEM_PCC_1D_LocalSpace.cpp 96-105, InternalQuadrature, with DetJ (FEM_PCC_1D_LocalSpace.hpp 75-79); the product of arrays of different sizes
    is undefined *)
Definition seg_InternalQuadrature (junk : nat -> nat -> R) (Q : QuadratureData) (l : FEM_1D_Local) : outcome QuadratureData :=
  P <- seg_F junk (l1_Origin l) (l1_Tangent l) (q_Points Q) ;;
  if negb (v_size (q_Weights Q) =? m_cols (q_Points Q))%nat then UB else
  Ok {| q_Points := P; q_Weights := {| v_size := v_size (q_Weights Q); v_at := fun q => v_at (q_Weights Q) q * Rabs (l1_Length l) |} |}.

(** Gedim::MeshUtilities::MeshGeometricData1D (not in /repo, read at assembler.cpp 134-137, 255-258, 270, 298-299) *)
Record MeshGeometricData1D := { Cell1DsVertices : list Mat; Cell1DsTangents : list (nat -> R); Cell1DsLengths : list R }.

(** what Assemble and PostProcessSolution compute of the local space of a cell *)
Record SegmentSpace := { ss_Quadrature : QuadratureData; ss_Values : Mat; ss_Derivatives : list Mat }.

(** assembler.cpp 134-144 and 255-265: CreateLocalSpace (FEM_PCC_1D_LocalSpace.cpp 23-64) and the two tables (FEM_PCC_1D_LocalSpace.hpp 94-105);
    the tolerance is not read *)
Definition segment_space (junk : nat -> nat -> R) (ref : FEM_1D_Reference) (G : MeshGeometricData1D) (c : nat) : outcome SegmentSpace :=
  V <- at_ (Cell1DsVertices G) c ;;
  O <- mat_col V 3 0 ;;
  T <- at_ (Cell1DsTangents G) c ;;
  L <- at_ (Cell1DsLengths G) c ;;
  l <- FEM_1D_CreateLocalSpace junk (rf_data ref) {| sg_Origin := O; sg_Tangent := T; sg_Length := L |} ;;
  Q <- seg_InternalQuadrature junk (rf_Quadrature ref) l ;;
  V <- seg_MapValues junk (l1_NumberOfBasisFunctions l) (l1_DofsMeshOrder l) (rf_Values ref) ;;
  D <- seg_MapDerivatives junk (l1_NumberOfBasisFunctions l) (l1_DofsMeshOrder l) (l1_Length l) (rf_Derivatives ref) ;;
  Ok {| ss_Quadrature := Q; ss_Values := V; ss_Derivatives := D |}.

(** test_definition.hpp 36-47, I_Test: functions of the point instead of functions of matrices of points *)
Record EllipticProblem1D := {
  ep_diffusion : R -> R -> R -> R; ep_reaction : R -> R -> R -> R; ep_source : R -> R -> R -> R;
  ep_strong : nat -> R -> R -> R -> R; ep_weak : nat -> R -> R -> R -> R }.

(** assembler.cpp 146-160 and 172: local_A + local_M and local_rhs *)
Definition segment_cell (sp : SegmentSpace) (P : EllipticProblem1D) : outcome (Mat * Vec) :=
  let Q := ss_Quadrature sp in
  K <- function_evaluation (q_Points Q) (ep_diffusion P) ;;
  c <- function_evaluation (q_Points Q) (ep_reaction P) ;;
  f <- function_evaluation (q_Points Q) (ep_source P) ;;
  A <- ComputeCellDiffusionMatrix K (ss_Derivatives sp) (ss_Derivatives sp) (q_Weights Q) ;;
  M <- ComputeCellReactionMatrix c (ss_Values sp) (ss_Values sp) (q_Weights Q) ;;
  b <- ComputeCellForcingTerm f (ss_Values sp) (q_Weights Q) ;;
  A <- madd A M ;;
  Ok (A, b).

(** assembler.cpp 77-110: end p of a cell *)
Definition weak_end (m : Mesh2D) (info : MeshDOFsInfo) (data : DOFsData) (h : nat -> R -> R -> R -> R) (c p : nat) (s : list R) : outcome (list R) :=
  v <- idx_ (Cell1D_vertices (md_mesh m) c) p ;;
  bi <- at_ (CellsBoundaryInfo info 0) v ;;
  if negb (is_weak (bi_type bi)) then Ok s else
  x <- function_evaluation (column3 (md_coords m v)) (h (bi_marker bi)) ;;
  let direction := if (p =? 0)%nat then -1 else 1 in
  row <- at_ (CellsDOFs data 0) v ;;
  add_weak row {| v_size := v_size x; v_at := fun i => direction * v_at x i |} 0 1 s.

(** assembler.cpp 68-111, ComputeWeakTerm *)
Definition weak_ends (m : Mesh2D) (info : MeshDOFsInfo) (data : DOFsData) (h : nat -> R -> R -> R -> R) (c : nat) (s : list R) : outcome (list R) :=
  for_loop 2 (weak_end m info data h c) s.

(** assembler.cpp 25-66, ComputeStrongTerm: each vertex as in DriverModel *)
Definition strong_vertices (m : Mesh2D) (info : MeshDOFsInfo) (data : DOFsData) (g : nat -> R -> R -> R -> R) (s : list R) : outcome (list R) :=
  for_loop (Cell0Ds_number (md_mesh m)) (fun v s => strong_vertex m info data g s v) s.

(** assembler.cpp 132-179: one cell *)
Definition segment_step (m : Mesh2D) (info : MeshDOFsInfo) (data : DOFsData) (junk : nat -> nat -> R) (ref : FEM_1D_Reference) (G : MeshGeometricData1D)
  (P : EllipticProblem1D) (c : nat) (st : asm_state) : outcome asm_state :=
  sp <- segment_space junk ref G c ;;
  Ab <- segment_cell sp P ;;
  _ <- at_ (CellsGlobalDOFs data 1) c ;;
  st <- assemble_lhs_rhs 1 c (single_handler data) (single_handler data) (fst Ab) (list_of_vec (snd Ab)) st ;;
  w <- weak_ends m info data (ep_weak P) c (asm_rhs st) ;;
  Ok {| trip_DOFs := trip_DOFs st; trip_Strongs := trip_Strongs st; asm_rhs := w |}.

(** assembler.hpp, Elliptic_PCC_1D_Problem_Data; the matrices are the recorded triplets (Create adds the duplicates up; that the first is declared
    symmetric is not modelled: it is proved symmetric) *)
Record SegmentData := {
  sd_globalMatrixA : list triplet;
  sd_dirichletMatrixA : list triplet;
  sd_rightHandSide : list R;
  sd_solutionDirichlet : list R }.

(** assembler.cpp 113-192, Assemble *)
Definition segment_assemble (m : Mesh2D) (info : MeshDOFsInfo) (data : DOFsData) (junk : nat -> nat -> R) (ref : FEM_1D_Reference) (G : MeshGeometricData1D)
  (P : EllipticProblem1D) : outcome SegmentData :=
  st <- for_loop (Cell1Ds_number (md_mesh m)) (segment_step m info data junk ref G P) (asm_init (NumberDOFs data)) ;;
  g <- strong_vertices m info data (ep_strong P) (repeat 0 (NumberStrongs data)) ;;
  Ok {| sd_globalMatrixA := trip_DOFs st; sd_dirichletMatrixA := trip_Strongs st;
        sd_rightHandSide := if (0 <? NumberStrongs data)%nat then SubtractionMultiplication (asm_rhs st) (trip_Strongs st) g else asm_rhs st;
        sd_solutionDirichlet := g |}.

(** ** Errors *)

(** assembler.hpp, PostProcess_Data *)
Record SegmentErrors := {
  se_residual_norm : R;
  se_cell0Ds_numeric : list R; se_cell0Ds_exact : list R;
  se_cell1Ds_error_L2 : list R; se_cell1Ds_norm_L2 : list R; se_cell1Ds_error_H1 : list R; se_cell1Ds_norm_H1 : list R;
  se_error_L2 : R; se_norm_L2 : R; se_error_H1 : R; se_norm_H1 : R;
  se_mesh_size : R }.

(** the numbers of one cell, in the order of the code; lists of them instead of vectors written at index c = 0, 1, ... *)
Record SegmentCellErrors := { sc_error_L2 : R; sc_norm_L2 : R; sc_error_H1 : R; sc_norm_H1 : R }.

(** assembler.cpp 274-283: the unknowns of a cell *)
Definition segment_solution (data : DOFsData) (uD uS : list R) (c : nat) : outcome Vec :=
  lc <- local_count_dofs 1 c [data] ;;
  u <- global_solution_to_local_solution 1 c [data] (l_num_total_dofs lc) (l_offsets_DOFs lc) [0%nat] [0%nat] uD uS ;;
  Ok (vec_of_list u).

(** assembler.cpp 267-296: the numbers of a cell; [T], [L]: its tangent and length; only the components 0 and 1 of the exact derivatives are read *)
Definition segment_cell_errors (sp : SegmentSpace) (T : nat -> R) (L : R) (exact : R -> R -> R -> R) (exact_d : R -> R -> R -> nat -> R) (u : Vec)
  : outcome SegmentCellErrors :=
  let Q := ss_Quadrature sp in
  x <- function_evaluation (q_Points Q) exact ;;
  xd <- function_evaluation_array 3 (q_Points Q) exact_d ;;
  x0 <- idx_ xd 0 ;; x1 <- idx_ xd 1 ;;
  t <- vadd {| v_size := v_size x0; v_at := fun q => v_at x0 q * (T 0%nat / L) |} {| v_size := v_size x1; v_at := fun q => v_at x1 q * (T 1%nat / L) |} ;;
  n <- mmulv (ss_Values sp) u ;;
  d <- vsub n x ;;
  el <- vdot (q_Weights Q) (vsquare d) ;;
  nl <- vdot (q_Weights Q) (vsquare n) ;;
  D0 <- idx_ (ss_Derivatives sp) 0 ;;
  nd <- mmulv D0 u ;;
  dd <- vsub nd t ;;
  eh <- vdot (q_Weights Q) (vsquare dd) ;;
  nh <- vdot (q_Weights Q) (vsquare nd) ;;
  Ok {| sc_error_L2 := el; sc_norm_L2 := nl; sc_error_H1 := eh; sc_norm_H1 := nh |}.

(** assembler.cpp 194-308, PostProcessSolution; the values at the vertices as in DriverModel, the activity is not read *)
Definition segment_errors (m : Mesh2D) (data : DOFsData) (junk : nat -> nat -> R) (ref : FEM_1D_Reference) (G : MeshGeometricData1D)
  (exact : R -> R -> R -> R) (exact_d : R -> R -> R -> nat -> R) (D : SegmentData) (solution : list R) : outcome SegmentErrors :=
  let residual := if (0 <? NumberDOFs data)%nat
    then sqrt (lsum (fun r => (triplets_row (sd_globalMatrixA D) solution r - nth r (sd_rightHandSide D) 0) ^ 2) (seq 0 (NumberDOFs data)))
    else 0 in
  vs <- extract_solution_on_cell0Ds (all_active m) data solution (sd_solutionDirichlet D) (Some exact) ;;
  s <- for_loop (Cell1Ds_number (md_mesh m)) (fun c s =>
    sp <- segment_space junk ref G c ;;
    T <- idx_ (Cell1DsTangents G) c ;;
    L <- idx_ (Cell1DsLengths G) c ;;
    u <- segment_solution data solution (sd_solutionDirichlet D) c ;;
    x <- segment_cell_errors sp T L exact exact_d u ;;
    h <- at_ (Cell1DsLengths G) c ;;
    Ok (fst s ++ [x], if Rlt_dec (snd s) h then h else snd s)) ([], 0) ;;
  let cells := fst s in
  Ok {| se_residual_norm := residual;
        se_cell0Ds_numeric := fst vs; se_cell0Ds_exact := snd vs;
        se_cell1Ds_error_L2 := map sc_error_L2 cells; se_cell1Ds_norm_L2 := map sc_norm_L2 cells;
        se_cell1Ds_error_H1 := map sc_error_H1 cells; se_cell1Ds_norm_H1 := map sc_norm_H1 cells;
        se_error_L2 := sqrt (sum_list (map sc_error_L2 cells)); se_norm_L2 := sqrt (sum_list (map sc_norm_L2 cells));
        se_error_H1 := sqrt (sum_list (map sc_error_H1 cells)); se_norm_H1 := sqrt (sum_list (map sc_norm_H1 cells));
        se_mesh_size := snd s |}.
