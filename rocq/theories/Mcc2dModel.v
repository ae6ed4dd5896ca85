(** Model of PDETools/LocalSpace/LocalSpace_MCC_2D.cpp for the methods VEM_MCC and FEM_RT_MCC, and of the driver of the mixed problem,
    examples/Elliptic_MCC_2D/src/assembler.cpp.
    Not modelled: the variants VEM_MCC_Partial, VEM_MCC_Ortho, VEM_MCC_EdgeOrtho, VEM_MCC_Ortho_EdgeOrtho, the assertions. *)
From Coq Require Import List Arith Bool Reals.
From Verif Require Import Base RSum MatrixModel DofsModel AssemblerModel EquationModel VemQuadModel VemModel DriverModel VemMccModel.
From Verif Require RtModel.
Import ListNotations.
Local Open Scope R_scope.

(** LocalSpace_MCC_2D.hpp 96-142: what the driver asks of the local space of one cell (the reference element and the local space data are the
    closure of the functions) *)
Record MixedSpace := {
  mx_InternalQuadrature : QuadratureData;
  mx_VelocityValues : outcome (list Mat);
  mx_DivergenceValues : outcome Mat;
  mx_PressureValues : outcome Mat;
  mx_StabilizationMatrix : outcome Mat;
  mx_EdgeQuadrature : nat -> outcome QuadratureData;
  mx_EdgeDofsCoordinates : nat -> outcome QuadratureData;
  mx_EdgeDofs : nat -> QuadratureData -> Vec -> outcome Vec;
  mx_ValuesOnEdges : nat -> outcome Mat }.

(** Eigen (not in /repo): A.middleCols(c, n) *)
Definition middle_cols (A : Mat) (c n : nat) : outcome Mat := mat_block A 0 c (m_rows A) n.

(** ** VEM_MCC *)

(** LocalSpace_MCC_2D.cpp 340-355, EdgeQuadrature *)
Definition MCC_EdgeQuadrature (ref : MCC_2D_Reference) (l : MCC_Local) (ed : nat) : outcome QuadratureData :=
  let n := m_cols (q_Points (vq_ReferenceSegmentQuadrature (rm_Quadrature ref))) in
  P <- middle_cols (q_Points (eq_Quadrature (lm_BoundaryQuadrature l))) (n * ed) n ;;
  w <- vec_segment (q_Weights (eq_Quadrature (lm_BoundaryQuadrature l))) (n * ed) n ;;
  Ok {| q_Points := P; q_Weights := w |}.

(** LocalSpace_MCC_2D.cpp 432-442, EdgeDofsCoordinates: no weights *)
Definition MCC_EdgeDofsCoordinates (ref : MCC_2D_Reference) (l : MCC_Local) (ed : nat) : outcome QuadratureData :=
  P <- middle_cols (q_Points (eq_Quadrature (lm_BoundaryQuadrature l))) (rm_NumDofs1D ref * ed) (rm_NumDofs1D ref) ;;
  Ok {| q_Points := P; q_Weights := vzero 0 |}.

(** LocalSpace_MCC_2D.cpp: the branches VEM_MCC of VelocityBasisFunctionsValues (158-165), PressureBasisFunctionsValues (206-212),
    VelocityBasisFunctionsDivergenceValues (227-234), VelocityBasisFunctionsValuesOnEdges (252-259), EdgeQuadrature (340-355),
    InternalQuadrature (364-382), StabilizationMatrix (403-424), EdgeDofsCoordinates (432-442), EdgeDofs (473-479) *)
Definition MCC_space (ref : MCC_2D_Reference) (p : Polygon) (l : MCC_Local) (lq : MCC_Pressure_Local) : MixedSpace := {|
  mx_InternalQuadrature := lm_InternalQuadrature l;
  mx_VelocityValues := MCC_Values_quadrature l;
  mx_DivergenceValues := MCC_DivergenceValues l;
  mx_PressureValues := MCC_Pressure_Values_quadrature lq;
  mx_StabilizationMatrix := MCC_DofiDofi l;
  mx_EdgeQuadrature := MCC_EdgeQuadrature ref l;
  mx_EdgeDofsCoordinates := MCC_EdgeDofsCoordinates ref l;
  mx_EdgeDofs := fun ed Q values => dir <- idx_ (pg_EdgesDirection p) ed ;; Ok (vscal (if (dir : bool) then 1 else -1) values);
  mx_ValuesOnEdges := fun ed => dir <- idx_ (pg_EdgesDirection p) ed ;; Ok (mscal (if (dir : bool) then 1 else -1) (midentity (rm_NumDofs1D ref))) |}.

(** LocalSpace_MCC_2D.cpp 101-130, CreateLocalSpace for VEM_MCC; [geometry]: the entries of mesh_geometric_data of the cell *)
Definition Create_MCC (junk : nat -> nat -> R) (llt : Solver) (svd : Svd) (ref refq : MCC_2D_Reference) (geometry : nat -> Polygon) (c : nat) : outcome MixedSpace :=
  l <- MCC_CreateLocalSpace junk llt svd ref (geometry c) ;;
  lq <- MCC_Pair_Pressure junk refq (geometry c) l ;;
  Ok (MCC_space ref (geometry c) l lq).

(** ** FEM_RT_MCC *)

(** LocalSpace_MCC_2D.cpp 296-308: the values along the normal at the points of the edge, the columns of its unknowns *)
Definition RT_ValuesOnEdges (junk : nat -> nat -> R) (ref : RtModel.RT_Reference) (p : Polygon) (l : RtModel.RT_Local) (ed : nat) : outcome Mat :=
  Q <- idx_ (RtModel.rl_BoundaryQuadrature l) ed ;;
  V <- RtModel.RT_VelocityValues_at junk ref l (q_Points Q) ;;
  V0 <- idx_ V 0 ;; V1 <- idx_ V 1 ;;
  n0 <- mat_get (pg_EdgesNormal p) 0 ed ;; n1 <- mat_get (pg_EdgesNormal p) 1 ed ;;
  N <- madd (mscal n0 V0) (mscal n1 V1) ;;
  middle_cols N (ed * RtModel.rt_v_NumDofs1D ref) (RtModel.rt_v_NumDofs1D ref).

(** LocalSpace_MCC_2D.cpp: the branches FEM_RT_MCC of VelocityBasisFunctionsValues (166-169), PressureBasisFunctionsValues (213-216),
    VelocityBasisFunctionsDivergenceValues (235-239), VelocityBasisFunctionsValuesOnEdges (296-308), EdgeQuadrature (356-358),
    InternalQuadrature (364-382), StabilizationMatrix (417-420), EdgeDofsCoordinates (456-458), EdgeDofs (517-524) *)
Definition RT_space (junk : nat -> nat -> R) (ref : RtModel.RT_Reference) (p : Polygon) (l : RtModel.RT_Local) : MixedSpace := {|
  mx_InternalQuadrature := RtModel.rl_InternalQuadrature l;
  mx_VelocityValues := RtModel.RT_VelocityValues ref l;
  mx_DivergenceValues := RtModel.RT_VelocityDivergenceValues ref l;
  mx_PressureValues := Ok (RtModel.RT_PressureValues ref l);
  mx_StabilizationMatrix := Ok (mzero (RtModel.rl_NumVelocityBasisFunctions l) (RtModel.rl_NumVelocityBasisFunctions l));
  mx_EdgeQuadrature := fun ed => at_ (RtModel.rl_BoundaryQuadrature l) ed;
  mx_EdgeDofsCoordinates := fun ed => at_ (RtModel.rl_BoundaryQuadrature l) ed;
  mx_EdgeDofs := fun ed Q values =>
    dir <- idx_ (pg_EdgesDirection p) ed ;;
    twv (mscal (if (dir : bool) then 1 else -1) (RtModel.rt_VanderBoundary1D ref)) (q_Weights Q) values;
  mx_ValuesOnEdges := RT_ValuesOnEdges junk ref p l |}.

(** LocalSpace_MCC_2D.cpp 131-144, CreateLocalSpace for FEM_RT_MCC *)
Definition Create_RT (junk : nat -> nat -> R) (ref : RtModel.RT_Reference) (geometry : nat -> Polygon) (c : nat) : outcome MixedSpace :=
  l <- RtModel.RT_CreateLocalSpace ref {| RtModel.mp_Vertices := pg_Vertices (geometry c); RtModel.mp_EdgesDirection := pg_EdgesDirection (geometry c);
                                          RtModel.mp_EdgesLength := pg_EdgesLength (geometry c) |} ;;
  Ok (RT_space junk ref (geometry c) l).

(** ** The driver *)

(** The methods of I_Test (Elliptic_MCC_2D/src/test_definition.hpp) are functions of the point, or of the marker and the point *)
Record MixedProblem := {
  mp_inverse_diffusion : R -> R -> R -> nat -> R;
  mp_advection : R -> R -> R -> nat -> R;
  mp_reaction : R -> R -> R -> R;
  mp_source : R -> R -> R -> R;
  mp_strong : nat -> R -> R -> R -> R;
  mp_weak : nat -> R -> R -> R -> R }.

(** assembler.cpp 37-73: one edge of ComputeStrongTerm *)
Definition mixed_strong_edge (info : MeshDOFsInfo) (data : DOFsData) (edges : list nat) (space : MixedSpace) (g : nat -> R -> R -> R -> R)
  (ed : nat) (s : list R) : outcome (list R) :=
  e <- idx_ edges ed ;;
  bi <- at_ (CellsBoundaryInfo info 1) e ;;
  row <- at_ (CellsDOFs data 1) e ;;
  if negb (is_strong (bi_type bi)) || (length row =? 0)%nat then Ok s else
  Q <- mx_EdgeDofsCoordinates space ed ;;
  values <- function_evaluation (q_Points Q) (g (bi_marker bi)) ;;
  dofs <- mx_EdgeDofs space ed Q values ;;
  set_strong_dofs row dofs s.

(** assembler.cpp 27-74, ComputeStrongTerm *)
Definition mixed_strong_term (info : MeshDOFsInfo) (data : DOFsData) (edges : list nat) (space : MixedSpace) (g : nat -> R -> R -> R -> R) (s : list R) : outcome (list R) :=
  for_loop (length edges) (mixed_strong_edge info data edges space g) s.

(** assembler.cpp 86-124: one edge of ComputeWeakTerm *)
Definition mixed_weak_edge (info : MeshDOFsInfo) (data : DOFsData) (edges : list nat) (space : MixedSpace) (g : nat -> R -> R -> R -> R)
  (ed : nat) (s : list R) : outcome (list R) :=
  e <- idx_ edges ed ;;
  bi <- at_ (CellsBoundaryInfo info 1) e ;;
  if negb (is_weak (bi_type bi)) then Ok s else
  Q <- mx_EdgeQuadrature space ed ;;
  values <- function_evaluation (q_Points Q) (g (bi_marker bi)) ;;
  B <- mx_ValuesOnEdges space ed ;;
  weak <- twv (mscal (-1) B) (q_Weights Q) values ;;
  row <- at_ (CellsDOFs data 1) e ;;
  add_weak row weak 0 1 s.

(** assembler.cpp 76-125, ComputeWeakTerm *)
Definition mixed_weak_term (info : MeshDOFsInfo) (data : DOFsData) (edges : list nat) (space : MixedSpace) (g : nat -> R -> R -> R -> R) (s : list R) : outcome (list R) :=
  for_loop (length edges) (mixed_weak_edge info data edges space g) s.

(** assembler.cpp 156-205: the matrix and the right-hand side of a cell; [n]: number of the unknowns of the cell, [np]: those of the pressure *)
Definition mixed_cell (space : MixedSpace) (P : MixedProblem) (n np : nat) : outcome (Mat * Vec) :=
  V <- mx_VelocityValues space ;;
  D <- mx_DivergenceValues space ;;
  Pv <- mx_PressureValues space ;;
  let Q := mx_InternalQuadrature space in
  reaction <- function_evaluation (q_Points Q) (mp_reaction P) ;;
  advection <- function_evaluation_array 3 (q_Points Q) (mp_advection P) ;;
  K <- function_evaluation_array 9 (q_Points Q) (mp_inverse_diffusion P) ;;
  source <- function_evaluation (q_Points Q) (mp_source P) ;;
  A <- ComputeCellDiffusionMatrix_tensor K V V (q_Weights Q) ;;
  k <- k_max K ;;
  S <- mx_StabilizationMatrix space ;;
  A <- madd A (mscal k S) ;;
  M <- ComputeCellReactionMatrix reaction Pv Pv (q_Weights Q) ;;
  T <- ComputeCellAdvectionMatrix advection Pv V (q_Weights Q) ;;
  B <- twb Pv (q_Weights Q) D ;;
  b <- ComputeCellForcingTerm source Pv (q_Weights Q) ;;
  BT <- madd B T ;;
  top <- beside (m_rows A) n A (mscal (-1) (mtrans BT)) ;;
  bottom <- beside (m_rows B) n B M ;;
  E <- stacked n n top bottom ;;
  r <- joined n (vzero (n - np)) b ;;
  Ok (E, r).

(** assembler.cpp 210-214: the two handlers of a cell *)
Definition mixed_handlers (d0 d1 : DOFsData) (cd : count_dofs_data) (lc : local_count_dofs_data) : local_matrix_to_global_matrix_dofs_data :=
  {| dofs_data := [d0; d1]; local_offsets := l_offsets_DOFs lc; global_offsets_DOFs := offsets_DOFs cd; global_offsets_Strongs := offsets_Strongs cd |}.

(** assembler.hpp, Elliptic_MCC_2D_Problem_Data; the matrices are the recorded triplets (Create adds the duplicates up) *)
Record MixedData := {
  md_globalMatrixA : list triplet;
  md_neumannMatrixA : list triplet;
  md_rightHandSide : list R;
  md_solutionNeumann : list R }.

(** Gedim (not in /repo): row r of the product of the created matrix and a vector (assembler.cpp 235-236, 280-283) *)
Definition triplets_row (ts : list triplet) (v : list R) (r : nat) : R :=
  lsum (fun t => match t with (i, j, a) => if (i =? r)%nat then a * nth j v 0 else 0 end) ts.
(** Gedim (not in /repo): SubtractionMultiplication(A, v) *)
Definition SubtractionMultiplication (b : list R) (ts : list triplet) (v : list R) : list R :=
  map (fun r => nth r b 0 - triplets_row ts v r) (seq 0 (length b)).

(** assembler.cpp 146-228: one cell; the state is the pair of the global containers and of the strong values *)
Definition mixed_step (m : Mesh2D) (info0 : MeshDOFsInfo) (d0 d1 : DOFsData) (cd : count_dofs_data) (create : nat -> outcome MixedSpace) (P : MixedProblem)
  (c : nat) (s : asm_state * list R) : outcome (asm_state * list R) :=
  space <- create c ;;
  lc <- local_count_dofs 2 c [d0; d1] ;;
  gp <- at_ (CellsGlobalDOFs d1 2) c ;;
  Ar <- mixed_cell space P (l_num_total_dofs lc) (length gp) ;;
  st <- assemble_lhs_rhs 2 c (mixed_handlers d0 d1 cd lc) (mixed_handlers d0 d1 cd lc) (fst Ar) (list_of_vec (snd Ar)) (fst s) ;;
  w <- mixed_weak_term info0 d0 (Cell2D_edges (md_mesh m) c) space (mp_weak P) (asm_rhs st) ;;
  g <- mixed_strong_term info0 d0 (Cell2D_edges (md_mesh m) c) space (mp_strong P) (snd s) ;;
  Ok ({| trip_DOFs := trip_DOFs st; trip_Strongs := trip_Strongs st; asm_rhs := w |}, g).

(** assembler.cpp 127-239, Assemble; [cd]: the result of count_dofs, an argument in the code *)
Definition mixed_assemble (m : Mesh2D) (info0 : MeshDOFsInfo) (d0 d1 : DOFsData) (create : nat -> outcome MixedSpace) (P : MixedProblem) : outcome MixedData :=
  cd <- count_dofs [d0; d1] ;;
  s <- for_loop (Cell2Ds_number (md_mesh m)) (mixed_step m info0 d0 d1 cd create P) (asm_init (num_total_dofs cd), repeat 0 (num_total_strong cd)) ;;
  Ok {| md_globalMatrixA := trip_DOFs (fst s); md_neumannMatrixA := trip_Strongs (fst s);
        md_rightHandSide := if (0 <? num_total_strong cd)%nat then SubtractionMultiplication (asm_rhs (fst s)) (trip_Strongs (fst s)) (snd s) else asm_rhs (fst s);
        md_solutionNeumann := snd s |}.

(** ** Errors *)

(** assembler.hpp, PostProcess_Data *)
Record MixedErrors := {
  me_residual_norm : R;
  me_numeric_pressure : list R; me_exact_pressure : list R;
  me_cells_error_pressure : list R; me_cells_super_error_pressure : list R; me_cells_norm_pressure : list R;
  me_cells_error_velocity : list R; me_cells_norm_velocity : list R;
  me_error_pressure : R; me_super_error_pressure : R; me_norm_pressure : R; me_error_velocity : R; me_norm_velocity : R;
  me_mesh_size : R }.

(** the numbers of one cell, in the order of the code; lists of them instead of vectors written at index c, c = 0, 1, ... *)
Record MixedCellErrors := { ce_numeric : R; ce_exact : R; ce_error_p : R; ce_super_p : R; ce_norm_p : R; ce_error_v : R; ce_norm_v : R }.

(** assembler.cpp 319-366: the numbers of a cell; [v], [r]: the unknowns of velocity and pressure of the cell *)
Definition mixed_cell_errors (llt : Solver) (space : MixedSpace) (exact_p : R -> R -> R -> R) (exact_v : R -> R -> R -> nat -> R) (v r : Vec) : outcome MixedCellErrors :=
  V <- mx_VelocityValues space ;;
  Pv <- mx_PressureValues space ;;
  let Q := mx_InternalQuadrature space in
  xp <- function_evaluation (q_Points Q) exact_p ;;
  xv <- function_evaluation_array 3 (q_Points Q) exact_v ;;
  rhs <- twv Pv (q_Weights Q) xp ;;
  H <- twb Pv (q_Weights Q) Pv ;;
  C <- msolve llt H {| m_rows := v_size rhs; m_cols := 1; m_at := fun i _ => v_at rhs i |} ;;
  n <- mmulv Pv r ;;
  i <- mmulv Pv {| v_size := m_rows C; v_at := fun i => m_at C i 0%nat |} ;;
  numeric <- vdot (q_Weights Q) n ;;
  exact <- vdot (q_Weights Q) xp ;;
  d <- vsub n xp ;;
  sd <- vsub n i ;;
  ep <- vdot (q_Weights Q) (vsquare d) ;;
  np <- vdot (q_Weights Q) (vsquare n) ;;
  V0 <- idx_ V 0 ;; n0 <- mmulv V0 v ;; x0 <- idx_ xv 0 ;; d0 <- vsub n0 x0 ;;
  V1 <- idx_ V 1 ;; n1 <- mmulv V1 v ;; x1 <- idx_ xv 1 ;; d1 <- vsub n1 x1 ;;
  dv <- vadd (vsquare d0) (vsquare d1) ;;
  nv <- vadd (vsquare n0) (vsquare n1) ;;
  es <- vdot (q_Weights Q) (vsquare sd) ;;
  ev <- vdot (q_Weights Q) dv ;;
  norm_v <- vdot (q_Weights Q) nv ;;
  Ok {| ce_numeric := numeric; ce_exact := exact; ce_error_p := ep; ce_super_p := es; ce_norm_p := np; ce_error_v := ev; ce_norm_v := norm_v |}.

(** assembler.cpp 298-327: the unknowns of a cell, split *)
Definition mixed_local_solution (d0 d1 : DOFsData) (cd : count_dofs_data) (uD uS : list R) (c : nat) : outcome (Vec * Vec) :=
  lc <- local_count_dofs 2 c [d0; d1] ;;
  gp <- at_ (CellsGlobalDOFs d1 2) c ;;
  u <- global_solution_to_local_solution 2 c [d0; d1] (l_num_total_dofs lc) (l_offsets_DOFs lc) (offsets_DOFs cd) (offsets_Strongs cd) uD uS ;;
  v <- vec_segment (vec_of_list u) 0 (l_num_total_dofs lc - length gp) ;;
  r <- vec_segment (vec_of_list u) (l_num_total_dofs lc - length gp) (length gp) ;;
  Ok (v, r).

(** assembler.cpp 265-379, PostProcessSolution; [diameters]: mesh_geometric_data.Cell2DsDiameters *)
Definition mixed_errors (m : Mesh2D) (d0 d1 : DOFsData) (create : nat -> outcome MixedSpace) (llt : Solver) (diameters : list R)
  (exact_p : R -> R -> R -> R) (exact_v : R -> R -> R -> nat -> R) (D : MixedData) (solution : list R) : outcome MixedErrors :=
  cd <- count_dofs [d0; d1] ;;
  let residual := if (0 <? num_total_dofs cd)%nat
    then sqrt (lsum (fun r => (triplets_row (md_globalMatrixA D) solution r - nth r (md_rightHandSide D) 0) ^ 2) (seq 0 (num_total_dofs cd)))
    else 0 in
  s <- for_loop (Cell2Ds_number (md_mesh m)) (fun c s =>
    space <- create c ;;
    vr <- mixed_local_solution d0 d1 cd solution (md_solutionNeumann D) c ;;
    x <- mixed_cell_errors llt space exact_p exact_v (fst vr) (snd vr) ;;
    h <- at_ diameters c ;;
    Ok (fst s ++ [x], if Rlt_dec (snd s) h then h else snd s)) ([], 0) ;;
  let cells := fst s in
  Ok {| me_residual_norm := residual;
        me_numeric_pressure := map ce_numeric cells; me_exact_pressure := map ce_exact cells;
        me_cells_error_pressure := map ce_error_p cells; me_cells_super_error_pressure := map ce_super_p cells; me_cells_norm_pressure := map ce_norm_p cells;
        me_cells_error_velocity := map ce_error_v cells; me_cells_norm_velocity := map ce_norm_v cells;
        me_error_pressure := sqrt (sum_list (map ce_error_p cells)); me_super_error_pressure := sqrt (sum_list (map ce_super_p cells));
        me_norm_pressure := sqrt (sum_list (map ce_norm_p cells));
        me_error_velocity := sqrt (sum_list (map ce_error_v cells)); me_norm_velocity := sqrt (sum_list (map ce_norm_v cells));
        me_mesh_size := snd s |}.
