(** Model of the driver of the heat equation, examples/Parabolic_PCC_2D: the matrices assembled once, the data assembled at each time, the
    time steps of the theta method, the values reported at each time.  As in DriverModel the local spaces enter through the functions of
    PDETools/LocalSpace/LocalSpace_PCC_2D.hpp, one record for each cell; the linear solver (Gedim::Eigen_LUSolver) is a parameter.
    Files without a path are in /repo/PolyDiM/examples/Parabolic_PCC_2D. *)
From Coq Require Import List Arith Bool Reals.
From Verif Require Import Base RSum MatrixModel DofsModel AssemblerModel AssemblerSpec EquationModel VemQuadModel VemModel DriverModel.
Import ListNotations.
Local Open Scope R_scope.

(** LocalSpace_PCC_2D.hpp 96-176: the functions of DriverModel and StabilizationMatrix with the projection Pi0k (LocalSpace_PCC_2D.cpp 359-382) *)
Record ParabolicSpace := { ps_space : LocalSpace; ps_StabilizationPi0k : outcome Mat }.
(** CreateLocalSpace (assembler.cpp 363-367, 453-457) with the Pi0k stabilisation forgotten *)
Definition spaces (create : nat -> outcome ParabolicSpace) (c : nat) : outcome LocalSpace := p <- create c ;; Ok (ps_space p).
(** the driver does not read the activity of cells and vertices (loops at assembler.cpp 41, 362, 451, 520, 554) *)
Definition all_active (m : Mesh2D) : Mesh2D :=
  {| md_mesh := md_mesh m; md_active0 := fun _ => true; md_active2 := fun _ => true; md_coords := md_coords m |}.

(** src/assembler.cpp 27-161: statement by statement the interpolation of assembler_PCC_2D_functions.cpp 442-577 *)
Definition ComputeInitalCondition (m : Mesh2D) (data : DOFsData) (order : nat) (create : nat -> outcome ParabolicSpace) (u0 : R -> R -> R -> R)
  : outcome (list R * list R) := evaluate_function_on_dofs m data order (spaces create) u0.

(** src/assembler.cpp 163-244 at a fixed time: g is strong_boundary_condition at that time; the rows of the vertices and of the edges are those
    of DriverModel *)
Definition ComputeStrongTerm (m : Mesh2D) (info : MeshDOFsInfo) (data : DOFsData) (space : LocalSpace) (g : nat -> R -> R -> R -> R) (c : nat)
  (s : list R) : outcome (list R) :=
  s <- foldM (strong_vertex m info data g) (Cell2D_vertices (md_mesh m) c) s ;;
  for_loop (length (Cell2D_edges (md_mesh m) c)) (strong_edge info data (Cell2D_edges (md_mesh m) c) space g) s.

(** src/assembler.cpp 246-342 at a fixed time: h is weak_boundary_condition at that time, gauss the rule Quadrature_Gauss1D of order 2 * order,
    p the entries of mesh_geometric_data of the cell *)
Definition ComputeWeakTerm (m : Mesh2D) (info : MeshDOFsInfo) (data : DOFsData) (p : Polygon) (gauss : QuadratureData) (space : LocalSpace)
  (h : nat -> R -> R -> R -> R) (c : nat) (s : list R) : outcome (list R) :=
  for_loop (m_cols (pg_Vertices p)) (fun ed s =>
    e <- idx_ (Cell2D_edges (md_mesh m) c) ed ;;
    bi <- at_ (CellsBoundaryInfo info 1) e ;;
    if negb (is_weak (bi_type bi)) then Ok s else
    b <- weak_values gauss p space (h (bi_marker bi)) ed ;;
    s <- for_loop 2 (fun p s =>
      v <- idx_ (Cell1D_vertices (md_mesh m) e) p ;;
      row <- at_ (CellsDOFs data 0) v ;;
      add_weak row b p 0 s) s ;;
    row <- at_ (CellsDOFs data 1) e ;;
    add_weak row b 2 1 s) s.

(** src/assembler.cpp 369-399: local_A + local_A_stab and local_M + local_M_stab of a cell (the unused diameter is not modelled) *)
Definition static_cell (space : ParabolicSpace) (diffusion : R -> R -> R -> R) : outcome (Mat * Mat) :=
  let sp := ps_space space in
  let Q := ls_InternalQuadrature sp in
  V <- ls_Values sp Pi0km1_t ;;
  D <- ls_DerivativeValues sp ;;
  K <- function_evaluation (q_Points Q) diffusion ;;
  A <- ComputeCellDiffusionMatrix K D D (q_Weights Q) ;;
  k <- max_abs K ;;
  SA <- ls_StabilizationMatrix sp ;;
  M <- ComputeCellReactionMatrix {| v_size := m_cols (q_Points Q); v_at := fun _ => 1 |} V V (q_Weights Q) ;;
  SM <- ps_StabilizationPi0k space ;;
  A <- madd A (mscal k SA) ;;
  M <- madd M SM ;;
  Ok (A, M).

(** src/assembler.cpp 344-429: (globalMatrixA, dirichletMatrixA) and (globalMatrixM, dirichletMatrixM) as recorded triplets *)
Definition StaticAssemble (m : Mesh2D) (data : DOFsData) (create : nat -> outcome ParabolicSpace) (diffusion : R -> R -> R -> R)
  : outcome (asm_state * asm_state) :=
  for_loop (Cell2Ds_number (md_mesh m)) (fun c s =>
    space <- create c ;;
    AM <- static_cell space diffusion ;;
    sA <- assemble_lhs 2 c (single_handler data) (single_handler data) (fst AM) (fst s) ;;
    sM <- assemble_lhs 2 c (single_handler data) (single_handler data) (snd AM) (snd s) ;;
    Ok (sA, sM)) (asm_init (NumberDOFs data), asm_init (NumberDOFs data)).

(** src/assembler.cpp 459-468: the local right-hand side of a cell, f the source_term at a fixed time *)
Definition forcing_cell (space : LocalSpace) (f : R -> R -> R -> R) : outcome Vec :=
  let Q := ls_InternalQuadrature space in
  V <- ls_Values space Pi0km1_t ;;
  values <- function_evaluation (q_Points Q) f ;;
  ComputeCellForcingTerm values V (q_Weights Q).

(** src/assembler.cpp 432-491 at a fixed time: (rightHandSide, solutionDirichlet) *)
Definition Assemble (m : Mesh2D) (info : MeshDOFsInfo) (data : DOFsData) (geometry : nat -> Polygon) (gauss : QuadratureData)
  (create : nat -> outcome ParabolicSpace) (f : R -> R -> R -> R) (g h : nat -> R -> R -> R -> R) : outcome (list R * list R) :=
  for_loop (Cell2Ds_number (md_mesh m)) (fun c s =>
    space <- spaces create c ;;
    b <- forcing_cell space f ;;
    st <- assemble_rhs 2 c (single_handler data) (list_of_vec b) {| trip_DOFs := []; trip_Strongs := []; asm_rhs := fst s |} ;;
    uD <- ComputeStrongTerm m info data space g c (snd s) ;;
    r <- ComputeWeakTerm m info data (geometry c) gauss space h c (asm_rhs st) ;;
    Ok (r, uD)) (repeat 0 (NumberDOFs data), repeat 0 (NumberStrongs data)).

(** src/program_utilities.cpp 339-354: coords is EquispaceCoordinates(TimeStep, true) of gedim (not in /repo) *)
Definition create_time_steps (coords : list R) (t0 t1 : R) : list R := map (fun s => (t1 - t0) * s + t0) coords.

(** main.cpp 182-196: X *= a; X += Y on the matrices of the triplets *)
Definition scaled_sum (a : R) (X Y : list triplet) (r j : nat) : R := a * entry X r j + entry Y r j.
(** a matrix of m columns times a vector (Eigen) *)
Definition times_vector (m : nat) (X : nat -> nat -> R) (u : list R) (r : nat) : R := rsum m (fun j => X r j * nth j u 0).
(** main.cpp 217-225: the right-hand side of a step; A = (A, A_D), M = (M, M_D) *)
Definition step_rhs (N NS : nat) (dt theta : R) (A M : asm_state) (f f' u uD uD' : list R) : list R :=
  map (fun r => nth r f' 0 * (dt * theta) + nth r f 0 * (dt * (1 - theta))
    + times_vector N (scaled_sum (- dt * (1 - theta)) (trip_DOFs A) (trip_DOFs M)) u r
    + times_vector NS (scaled_sum (- dt * (1 - theta)) (trip_Strongs A) (trip_Strongs M)) uD r
    - times_vector NS (scaled_sum (dt * theta) (trip_Strongs A) (trip_Strongs M)) uD' r) (seq 0 N).

(** Gedim::Eigen_LUSolver (not in /repo; main.cpp 198-201, 232): the solution of the system of size N with the matrix and the right-hand side given *)
Definition LUSolver := nat -> (nat -> nat -> R) -> list R -> list R.

(** PostProcess_Data (src/assembler.hpp) of one time, without the cell values and the mesh size *)
Record StepData := {
  sd_solution : list R; sd_dirichlet : list R; sd_residual : R;
  sd_vertices : list R * list R;
  sd_L2 : Post_Process_Data_Error; sd_H1 : Post_Process_Data_Error }.

(** src/assembler.cpp 506-515: A.u - rhs, its norm; zero when there is no free unknown *)
Definition residual_norm (N : nat) (A : nat -> nat -> R) (u rhs : list R) : R :=
  if (0 <? N)%nat then sqrt (rsum N (fun r => (times_vector N A u r - nth r rhs 0) * (times_vector N A u r - nth r rhs 0))) else 0.
(** src/assembler.cpp 493-607: the values at the vertices and the errors are the expressions of assembler_PCC_2D_functions.cpp 699-755 and 757-918
    on all the vertices and cells; pe_exact is not computed by this driver *)
Definition PostProcessSolution (m : Mesh2D) (data : DOFsData) (create : nat -> outcome ParabolicSpace) (A : nat -> nat -> R) (rhs u uD : list R)
  (exact : R -> R -> R -> R) (exact_gradient : R -> R -> R -> nat -> R) : outcome StepData :=
  v <- extract_solution_on_cell0Ds (all_active m) data u uD (Some exact) ;;
  eL <- compute_error_L2 (all_active m) data (spaces create) u uD (Some exact) ;;
  eH <- compute_error_H1 (all_active m) data (spaces create) u uD (Some exact_gradient) ;;
  Ok {| sd_solution := u; sd_dirichlet := uD; sd_residual := residual_norm (NumberDOFs data) A u rhs; sd_vertices := v; sd_L2 := eL; sd_H1 := eH |}.

(** test_definition.hpp, I_Test: the data of a problem; the time is the last argument *)
Record Problem := {
  pb_diffusion : R -> R -> R -> R;
  pb_source : R -> R -> R -> R -> R;
  pb_strong : nat -> R -> R -> R -> R -> R;
  pb_weak : nat -> R -> R -> R -> R -> R;
  pb_initial : R -> R -> R -> R;
  pb_exact : R -> R -> R -> R -> R;
  pb_gradient : R -> R -> R -> R -> nat -> R }.

(** main.cpp 208-277: one step; the state is (u_k, u_D_k, f_k) and the data reported so far *)
Definition time_step (solver : LUSolver) (m : Mesh2D) (info : MeshDOFsInfo) (data : DOFsData) (geometry : nat -> Polygon) (gauss : QuadratureData)
  (create : nat -> outcome ParabolicSpace) (pb : Problem) (dt theta : R) (A M : asm_state) (t : R) (s : list R * list R * list R * list StepData)
  : outcome (list R * list R * list R * list StepData) :=
  let '(u, uD, f, out) := s in
  fD <- Assemble m info data geometry gauss create (fun x y z => pb_source pb x y z t) (fun i x y z => pb_strong pb i x y z t) (fun i x y z => pb_weak pb i x y z t) ;;
  let f' := fst fD in let uD' := snd fD in
  let rhs := step_rhs (NumberDOFs data) (NumberStrongs data) dt theta A M f f' u uD uD' in
  let Kp1 := scaled_sum (dt * theta) (trip_DOFs A) (trip_DOFs M) in
  let u' := if (0 <? NumberDOFs data)%nat then solver (NumberDOFs data) Kp1 rhs else repeat 0 (NumberDOFs data) in
  d <- PostProcessSolution m data create Kp1 rhs u' uD' (fun x y z => pb_exact pb x y z t) (fun x y z d => pb_gradient pb x y z t d) ;;
  Ok (u', uD', f', out ++ [d]).

(** main.cpp 124-280: the data reported at each time (the residual of the first one is that of matrix A and right-hand side f_k) *)
Definition run (solver : LUSolver) (m : Mesh2D) (info : MeshDOFsInfo) (data : DOFsData) (geometry : nat -> Polygon) (gauss : QuadratureData) (order : nat)
  (create : nat -> outcome ParabolicSpace) (pb : Problem) (dt theta : R) (times : list R) : outcome (list StepData) :=
  AM <- StaticAssemble m data create (pb_diffusion pb) ;;
  u <- ComputeInitalCondition m data order create (pb_initial pb) ;;
  t0 <- idx_ times 0 ;;
  fD <- Assemble m info data geometry gauss create (fun x y z => pb_source pb x y z t0) (fun i x y z => pb_strong pb i x y z t0) (fun i x y z => pb_weak pb i x y z t0) ;;
  d0 <- PostProcessSolution m data create (entry (trip_DOFs (fst AM))) (fst fD) (fst u) (snd u) (fun x y z => pb_exact pb x y z t0) (fun x y z d => pb_gradient pb x y z t0 d) ;;
  s <- for_from 1 (length times - 1) (fun i s =>
    t <- at_ times i ;;
    time_step solver m info data geometry gauss create pb dt theta (fst AM) (snd AM) t s) (fst u, snd u, fst fD, [d0]) ;;
  Ok (snd s).

(** the virtual element: LocalSpace_PCC_2D.cpp 359-382 passes the projection type on *)
Definition Create_parabolic_VEM (space : nat -> outcome LocalSpace) (local : nat -> outcome VEM_2D_Local) (c : nat) : outcome ParabolicSpace :=
  sp <- space c ;; l <- local c ;; Ok {| ps_space := sp; ps_StabilizationPi0k := VEM_DofiDofi l Pi0k_t |}.
