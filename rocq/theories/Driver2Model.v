(** Model of the drivers of PDETools/Assembler/assembler_PCC_2D_functions.cpp that linearise around a given discrete function (source terms and
    elliptic operator with coefficients depending on the solution, Navier-Stokes operators), of the diffusion operator and of the evaluation on
    the quadrature points. *)
From Coq Require Import List Arith Bool Reals.
From Verif Require Import Base RSum MatrixModel DofsModel AssemblerModel EquationModel LagrangeModel VemQuadModel VemModel DriverModel.
Import ListNotations.
Local Open Scope R_scope.

(** ** Coefficients depending on the solution *)

(** assembler_PCC_2D_functions.cpp 48, 67: the std::array {u_gradient.at(0)[i], u_gradient.at(1)[i], 0.0} *)
Definition gradient3 (gx gy : R) (d : nat) : R := match d with O => gx | 1%nat => gy | _ => 0 end.
(** assembler_PCC_2D_functions.cpp 36-53; points, u and the two components of the gradient are read at each column of points, unchecked *)
Definition function_evaluation_u (points : Mat) (u gx gy : Vec) (f : R -> R -> R -> R -> (nat -> R) -> R) : outcome Vec :=
  if ((m_cols points =? 0) || ((3 <=? m_rows points) && (m_cols points <=? v_size u) && (m_cols points <=? v_size gx) && (m_cols points <=? v_size gy)))%nat
  then Ok {| v_size := m_cols points;
             v_at := fun i => f (m_at points 0%nat i) (m_at points 1%nat i) (m_at points 2%nat i) (v_at u i) (gradient3 (v_at gx i) (v_at gy i)) |}
  else UB.
(** assembler_PCC_2D_functions.cpp 55-76: the three components *)
Definition function_evaluation_u3 (points : Mat) (u gx gy : Vec) (f : R -> R -> R -> R -> (nat -> R) -> nat -> R) : outcome (list Vec) :=
  for_loop 3 (fun d l => v <- function_evaluation_u points u gx gy (fun x y z w g => f x y z w g d) ;; Ok (l ++ [v])) [].

(** assembler_PCC_2D_functions.cpp 1096-1110, 1187-1201, 1291-1305: the given function and its gradient at the quadrature points of a cell *)
Definition solution_values (data : DOFsData) (trial : LocalSpace) (wD wS : list R) (c : nat) : outcome (Vec * Vec * Vec) :=
  V <- ls_Values trial Pi0km1_t ;;
  D <- ls_DerivativeValues trial ;;
  x <- local_solution data wD wS c ;;
  u <- mmulv V x ;;
  D0 <- at_ D 0 ;; gx <- mmulv D0 x ;;
  D1 <- at_ D 1 ;; gy <- mmulv D1 x ;;
  Ok (u, gx, gy).

(** assembler_PCC_2D_functions.cpp 1070-1116: the local vector of a cell *)
Definition source_cell_u (data : DOFsData) (trial test : LocalSpace) (wD wS : list R) (c : nat) (f : R -> R -> R -> R -> (nat -> R) -> R) : outcome Vec :=
  let Q := ls_InternalQuadrature trial in
  V <- ls_ValuesAt test (q_Points Q) ;;
  ' (u, gx, gy) <- solution_values data trial wD wS c ;;
  values <- function_evaluation_u (q_Points Q) u gx gy f ;;
  ComputeCellForcingTerm values V (q_Weights Q).
(** assembler_PCC_2D_functions.cpp 1042-1130 *)
Definition assemble_source_term_u (m : Mesh2D) (trial_data test_data : DOFsData) (create_trial create_test : nat -> outcome LocalSpace)
  (wD wS : list R) (f : R -> R -> R -> R -> (nat -> R) -> R) : outcome (list R) :=
  s <- for_loop (Cell2Ds_number (md_mesh m)) (fun c s =>
    if negb (md_active2 m c) then Ok s else
    trial <- create_trial c ;;
    test <- create_test c ;;
    b <- source_cell_u trial_data trial test wD wS c f ;;
    assemble_rhs 2 c (single_handler test_data) (list_of_vec b) s) (asm_init (NumberDOFs test_data)) ;;
  Ok (asm_rhs s).

(** assembler_PCC_2D_functions.cpp 1161-1208: the local vector of a cell *)
Definition source_gradients_cell (data : DOFsData) (trial test : LocalSpace) (wD wS : list R) (c : nat)
  (f : R -> R -> R -> R -> (nat -> R) -> nat -> R) : outcome Vec :=
  let Q := ls_InternalQuadrature trial in
  D <- ls_DerivativeValuesAt test (q_Points Q) ;;
  ' (u, gx, gy) <- solution_values data trial wD wS c ;;
  values <- function_evaluation_u3 (q_Points Q) u gx gy f ;;
  ComputeCellForcingTerm_vector values D (q_Weights Q).
(** assembler_PCC_2D_functions.cpp 1132-1223 *)
Definition assemble_source_term_gradients (m : Mesh2D) (trial_data test_data : DOFsData) (create_trial create_test : nat -> outcome LocalSpace)
  (wD wS : list R) (f : R -> R -> R -> R -> (nat -> R) -> nat -> R) : outcome (list R) :=
  s <- for_loop (Cell2Ds_number (md_mesh m)) (fun c s =>
    if negb (md_active2 m c) then Ok s else
    trial <- create_trial c ;;
    test <- create_test c ;;
    b <- source_gradients_cell trial_data trial test wD wS c f ;;
    assemble_rhs 2 c (single_handler test_data) (list_of_vec b) s) (asm_init (NumberDOFs test_data)) ;;
  Ok (asm_rhs s).

(** assembler_PCC_2D_functions.cpp 1264-1349: the local matrix of a cell *)
Definition elliptic_cell_u (data : DOFsData) (trial test : LocalSpace) (wD wS : list R) (c : nat)
  (diffusion : option (R -> R -> R -> R -> (nat -> R) -> R)) (advection : option (R -> R -> R -> R -> (nat -> R) -> nat -> R))
  (reaction : option (R -> R -> R -> R -> (nat -> R) -> R)) : outcome Mat :=
  let Q := ls_InternalQuadrature trial in
  trial_V <- ls_Values trial Pi0km1_t ;;
  trial_D <- ls_DerivativeValues trial ;;
  test_V <- ls_ValuesAt test (q_Points Q) ;;
  test_D <- ls_DerivativeValuesAt test (q_Points Q) ;;
  ' (u, gx, gy) <- solution_values data trial wD wS c ;;
  let A := mzero (ls_Size test) (ls_Size trial) in
  A <- match diffusion with
       | None => Ok A
       | Some f =>
           k <- function_evaluation_u (q_Points Q) u gx gy f ;;
           B <- ComputeCellDiffusionMatrix k trial_D test_D (q_Weights Q) ;;
           A <- madd A B ;;
           if (ls_Size test =? ls_Size trial)%nat then
             km <- max_abs k ;;
             S <- ls_StabilizationMatrix test ;;
             madd A (mscal km S)
           else Ok A
       end ;;
  A <- match advection with
       | None => Ok A
       | Some f =>
           b <- function_evaluation_u3 (q_Points Q) u gx gy f ;;
           B <- ComputeCellAdvectionMatrix b test_V trial_D (q_Weights Q) ;;
           madd A B
       end ;;
  match reaction with
  | None => Ok A
  | Some f =>
      r <- function_evaluation_u (q_Points Q) u gx gy f ;;
      B <- ComputeCellReactionMatrix r trial_V test_V (q_Weights Q) ;;
      madd A B
  end.
(** assembler_PCC_2D_functions.cpp 1225-1368 *)
Definition assemble_elliptic_operator_u (m : Mesh2D) (trial_data test_data : DOFsData) (create_trial create_test : nat -> outcome LocalSpace)
  (wD wS : list R) (diffusion : option (R -> R -> R -> R -> (nat -> R) -> R)) (advection : option (R -> R -> R -> R -> (nat -> R) -> nat -> R))
  (reaction : option (R -> R -> R -> R -> (nat -> R) -> R)) : outcome asm_state :=
  for_loop (Cell2Ds_number (md_mesh m)) (fun c s =>
    if negb (md_active2 m c) then Ok s else
    trial <- create_trial c ;;
    test <- create_test c ;;
    A <- elliptic_cell_u trial_data trial test wD wS c diffusion advection reaction ;;
    assemble_lhs 2 c (single_handler test_data) (single_handler trial_data) A s) (asm_init (NumberDOFs test_data)).

(** ** Diffusion operator *)

(** assembler_PCC_2D_functions_utilities.hpp 59-65: the tensor of a scalar coefficient *)
Definition anysotropic_diffusion_term_function (k : R -> R -> R -> R) (x y z : R) (d : nat) : R :=
  nth d [k x y z; 0; 0; 0; k x y z; 0; 0; 0; k x y z] 0.
(** assembler_PCC_2D_functions.cpp 1556-1575 *)
Definition assemble_diffusion_operator (m : Mesh2D) (trial_data test_data : DOFsData) (create_trial create_test : nat -> outcome LocalSpace)
  (k : R -> R -> R -> R) : outcome asm_state :=
  assemble_elliptic_operator m trial_data test_data create_trial create_test (Some (anysotropic_diffusion_term_function k)) None None.

(** ** Navier-Stokes operators *)

(** assembler_PCC_2D_functions.cpp 1438-1448: two vectors of size n one after the other *)
Definition stack2 (total n : nat) (x y : list R) : outcome Vec :=
  v <- vec_set_segment (vzero total) 0 n (vec_of_list x) ;; vec_set_segment v n n (vec_of_list y).
(** assembler_PCC_2D_functions.cpp 1476-1481 and 1491-1495: a matrix of 2n columns, zero but for M in the columns of component h *)
Definition component_cols (rows n h : nat) (M : Mat) : outcome Mat :=
  mat_set_block (mzero rows (2 * n)) 0 (h * n) rows n M.
(** assembler_PCC_2D_functions.cpp 1460-1536: the local matrix and vector of a cell; the blocks of the derivatives are written once each, in the
    order of their position *)
Definition NS_cell (space : LocalSpace) (x : Vec) : outcome (Mat * Vec) :=
  let Q := ls_InternalQuadrature space in
  V <- ls_Values space Pi0km1_t ;;
  D <- ls_DerivativeValues space ;;
  let n := ls_Size space in
  V0 <- component_cols (m_rows V) n 0 V ;;
  V1 <- component_cols (m_rows V) n 1 V ;;
  D0 <- at_ D 0 ;;
  D1 <- at_ D 1 ;;
  D00 <- component_cols (m_rows D0) n 0 D0 ;;
  D01 <- component_cols (m_rows D0) n 0 D1 ;;
  D10 <- component_cols (m_rows D0) n 1 D0 ;;
  D11 <- component_cols (m_rows D0) n 1 D1 ;;
  u <- velocity_values [V0; V1] x ;;
  du <- velocity_values [D00; D01; D10; D11] x ;;
  A <- compute_NS_convective_lhs u du [V0; V1] [D00; D01; D10; D11] (q_Weights Q) ;;
  b <- compute_NS_convective_rhs u du [V0; V1] (q_Weights Q) ;;
  Ok (A, b).
(** assembler_PCC_2D_functions.cpp 1414-1554 *)
Definition assemble_NS_operators (m : Mesh2D) (data : DOFsData) (create : nat -> outcome LocalSpace) (ux uy uxS uyS : list R) : outcome asm_state :=
  let dd := [data; data] in
  cd <- count_dofs dd ;;
  uD <- stack2 (num_total_dofs cd) (NumberDOFs data) ux uy ;;
  uS <- stack2 (num_total_strong cd) (NumberStrongs data) uxS uyS ;;
  for_loop (Cell2Ds_number (md_mesh m)) (fun c s =>
    if negb (md_active2 m c) then Ok s else
    space <- create c ;;
    lc <- local_count_dofs 2 c dd ;;
    x <- global_solution_to_local_solution 2 c dd (l_num_total_dofs lc) (l_offsets_DOFs lc) (offsets_DOFs cd) (offsets_Strongs cd)
           (list_of_vec uD) (list_of_vec uS) ;;
    ' (A, b) <- NS_cell space (vec_of_list x) ;;
    let lg := {| dofs_data := dd; local_offsets := l_offsets_DOFs lc; global_offsets_DOFs := offsets_DOFs cd; global_offsets_Strongs := offsets_Strongs cd |} in
    s <- assemble_lhs 2 c lg lg A s ;;
    assemble_rhs 2 c lg (list_of_vec b) s) (asm_init (num_total_dofs cd)).

(** ** Evaluation on the quadrature points *)

(** assembler_PCC_2D_functions_data.hpp 59-67 *)
Record Evaluate_Solution_On_Quadrature_Points_Data := {
  ev_points : Mat; ev_weights : Vec; ev_numeric : Vec; ev_exact : Vec;
  ev_numeric_gradient : nat -> Vec; ev_exact_gradient : nat -> Vec }.
(** assembler_PCC_2D_functions.cpp 934-941: the entries of the arrays indexed by the cells before they are written *)
Definition empty_evaluation : Evaluate_Solution_On_Quadrature_Points_Data :=
  {| ev_points := mzero 0 0; ev_weights := vzero 0; ev_numeric := vzero 0; ev_exact := vzero 0;
     ev_numeric_gradient := fun _ => vzero 0; ev_exact_gradient := fun _ => vzero 0 |}.
(** assembler_PCC_2D_functions.cpp 948-999: the values of one cell *)
Definition evaluate_cell (data : DOFsData) (space : LocalSpace) (uD uS : list R) (exact : option (R -> R -> R -> R))
  (exact_gradient : option (R -> R -> R -> nat -> R)) (c : nat) : outcome Evaluate_Solution_On_Quadrature_Points_Data :=
  V <- ls_Values space Pi0k_t ;;
  D <- ls_DerivativeValues space ;;
  let Q := ls_InternalQuadrature space in
  x <- exact_values (q_Points Q) exact ;;
  g <- exact_gradient_values (q_Points Q) exact_gradient ;;
  g0 <- at_ g 0 ;; g1 <- at_ g 1 ;; g2 <- at_ g 2 ;;
  u <- local_solution data uD uS c ;;
  n <- mmulv V u ;;
  D0 <- at_ D 0 ;; n0 <- mmulv D0 u ;;
  D1 <- at_ D 1 ;; n1 <- mmulv D1 u ;;
  Ok {| ev_points := q_Points Q; ev_weights := q_Weights Q; ev_numeric := n; ev_exact := x;
        ev_numeric_gradient := fun d => nth d [n0; n1; vzero (m_cols (q_Points Q))] (vzero 0);
        ev_exact_gradient := fun d => nth d [g0; g1; g2] (vzero 0) |}.
(** assembler_PCC_2D_functions.cpp 1015-1038: the values of a cell of n points written from column a on *)
Definition evaluation_write (r e : Evaluate_Solution_On_Quadrature_Points_Data) (a n : nat) : outcome Evaluate_Solution_On_Quadrature_Points_Data :=
  P <- mat_set_block (ev_points r) 0 a 3 n (ev_points e) ;;
  w <- vec_set_segment (ev_weights r) a n (ev_weights e) ;;
  u <- vec_set_segment (ev_numeric r) a n (ev_numeric e) ;;
  x <- vec_set_segment (ev_exact r) a n (ev_exact e) ;;
  u0 <- vec_set_segment (ev_numeric_gradient r 0) a n (ev_numeric_gradient e 0) ;;
  u1 <- vec_set_segment (ev_numeric_gradient r 1) a n (ev_numeric_gradient e 1) ;;
  u2 <- vec_set_segment (ev_numeric_gradient r 2) a n (ev_numeric_gradient e 2) ;;
  x0 <- vec_set_segment (ev_exact_gradient r 0) a n (ev_exact_gradient e 0) ;;
  x1 <- vec_set_segment (ev_exact_gradient r 1) a n (ev_exact_gradient e 1) ;;
  x2 <- vec_set_segment (ev_exact_gradient r 2) a n (ev_exact_gradient e 2) ;;
  Ok {| ev_points := P; ev_weights := w; ev_numeric := u; ev_exact := x;
        ev_numeric_gradient := fun d => nth d [u0; u1; u2] (vzero 0); ev_exact_gradient := fun d => nth d [x0; x1; x2] (vzero 0) |}.
(** assembler_PCC_2D_functions.cpp 1002-1011: the result is resized, its contents are not initialised (junk) *)
Definition evaluation_alloc (n : nat) (junk : nat -> nat -> R) : Evaluate_Solution_On_Quadrature_Points_Data :=
  {| ev_points := {| m_rows := 3; m_cols := n; m_at := junk |};
     ev_weights := {| v_size := n; v_at := junk 3%nat |}; ev_numeric := {| v_size := n; v_at := junk 4%nat |};
     ev_exact := {| v_size := n; v_at := junk 5%nat |};
     ev_numeric_gradient := fun d => {| v_size := n; v_at := junk (6 + d)%nat |};
     ev_exact_gradient := fun d => {| v_size := n; v_at := junk (9 + d)%nat |} |}.
(** assembler_PCC_2D_functions.cpp 920-1040; the seven arrays indexed by the cells are one list of records, the number of points of a cell is
    kept beside *)
Definition evaluate_solution_on_quadrature_points (m : Mesh2D) (data : DOFsData) (create : nat -> outcome LocalSpace) (uD uS : list R)
  (exact : option (R -> R -> R -> R)) (exact_gradient : option (R -> R -> R -> nat -> R)) (junk : nat -> nat -> R)
  : outcome Evaluate_Solution_On_Quadrature_Points_Data :=
  let n := Cell2Ds_number (md_mesh m) in
  ' (total, counts, cells) <- for_loop n (fun c '(total, counts, cells) =>
    if negb (md_active2 m c) then Ok (total, counts, cells) else
    space <- create c ;;
    let k := m_cols (q_Points (ls_InternalQuadrature space)) in
    e <- evaluate_cell data space uD uS exact exact_gradient c ;;
    counts <- set_idx counts c k ;;
    cells <- set_idx cells c e ;;
    Ok ((total + k)%nat, counts, cells)) (O, repeat O n, repeat empty_evaluation n) ;;
  r <- for_loop n (fun c '(a, r) =>
    if negb (md_active2 m c) then Ok (a, r) else
    k <- at_ counts c ;;
    e <- at_ cells c ;;
    r <- evaluation_write r e a k ;;
    Ok ((a + k)%nat, r)) (O, evaluation_alloc total junk) ;;
  Ok (snd r).
