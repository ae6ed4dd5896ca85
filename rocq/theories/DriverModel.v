(** Model of the drivers of PDETools/Assembler/assembler_PCC_2D_functions.cpp: evaluation of functions, boundary values,
    interpolation on the degrees of freedom, elliptic operator, source and weak terms, errors, values at the vertices.
    The local spaces (FEM, VEM, ZFEM) enter through the functions of PDETools/LocalSpace/LocalSpace_PCC_2D.hpp, one record for
    each cell: the drivers are modelled for any such functions. *)
From Coq Require Import List Arith Bool Reals.
From Verif Require Import Base RSum MatrixModel DofsModel AssemblerModel EquationModel VemQuadModel VemModel.
Import ListNotations.
Local Open Scope R_scope.

(** LocalSpace_PCC_2D.hpp 96-176: what the drivers ask of the local space of one cell (the reference element and the local space
    data are the closure of the functions).  ls_Values, ls_DerivativeValues: the overloads without points, for the projection
    types used by the drivers; ls_ValuesAt, ls_DerivativeValuesAt: the overloads with points, default projections. *)
Record LocalSpace := {
  ls_Size : nat;
  ls_InternalQuadrature : QuadratureData;
  ls_Values : ProjectionTypes -> outcome Mat;
  ls_DerivativeValues : outcome (list Mat);
  ls_ValuesAt : Mat -> outcome Mat;
  ls_DerivativeValuesAt : Mat -> outcome (list Mat);
  ls_StabilizationMatrix : outcome Mat;
  ls_EdgeDofsCoordinates : nat -> outcome Mat;
  ls_InternalDofsCoordinates : outcome QuadratureData;
  ls_InternalDofs : Vec -> QuadratureData -> outcome Vec;
  ls_ValuesOnEdge : Vec -> outcome Mat }.

(** Gedim::MeshMatricesDAO (not in /repo, used throughout assembler_PCC_2D_functions.cpp 144-918): connectivity, activity and coordinates *)
Record Mesh2D := {
  md_mesh : Mesh;
  md_active0 : nat -> bool;
  md_active2 : nat -> bool;
  md_coords : nat -> nat -> R }.

(** a Vector3d used as a matrix of one column *)
Definition column3 (p : nat -> R) : Mat := {| m_rows := 3; m_cols := 1; m_at := fun i _ => p i |}.
(** mesh.Cell2DVerticesCoordinates(c) *)
Definition Cell2DVerticesCoordinates (m : Mesh2D) (c : nat) : Mat :=
  {| m_rows := 3; m_cols := length (Cell2D_vertices (md_mesh m) c);
     m_at := fun i v => md_coords m (nth v (Cell2D_vertices (md_mesh m) c) O) i |}.

(** vectors as lists and back (no code: the two representations of Eigen::VectorXd used in this model) *)
Definition vec_of_list (l : list R) : Vec := {| v_size := length l; v_at := fun i => nth i l 0 |}.
(** the converse *)
Definition list_of_vec (v : Vec) : list R := map (v_at v) (seq 0 (v_size v)).

(** assembler_PCC_2D_functions.cpp 36-142: the overloads differ by the arguments of f (point, marker and point);
    points(2, i) is read: fewer than three rows are an error as soon as there is a point *)
Definition function_evaluation (points : Mat) (f : R -> R -> R -> R) : outcome Vec :=
  if ((m_cols points =? 0) || (3 <=? m_rows points))%nat
  then Ok {| v_size := m_cols points; v_at := fun i => f (m_at points 0%nat i) (m_at points 1%nat i) (m_at points 2%nat i) |}
  else UB.
(** assembler_PCC_2D_functions.cpp 104-142: the overloads returning std::array: n components *)
Definition function_evaluation_array (n : nat) (points : Mat) (f : R -> R -> R -> nat -> R) : outcome (list Vec) :=
  for_loop n (fun d l => v <- function_evaluation points (fun x y z => f x y z d) ;; Ok (l ++ [v])) [].

(** ** Strong values *)

(** assembler_PCC_2D_functions.cpp 371-389 and 416-434 *)
Definition set_strong_dofs (row : list DOF) (values : Vec) (s : list R) : outcome (list R) :=
  for_loop (length row) (fun i s =>
    x <- at_ row i ;;
    match dof_type x with
    | TStrong => v <- vec_get values i ;; set_idx s (dof_index x) v
    | TDOF => Ok s
    | TUnknown => Throw
    end) s.

(** DOFsManager.hpp 69-76: comparison with a BoundaryTypes value *)
Definition is_strong (t : BoundaryTypes) : bool := match t with BStrong => true | _ => false end.
(** DOFsManager.hpp 69-76: comparison with a BoundaryTypes value *)
Definition is_weak (t : BoundaryTypes) : bool := match t with BWeak => true | _ => false end.

(** 356-390: one vertex *)
Definition strong_vertex (m : Mesh2D) (info : MeshDOFsInfo) (data : DOFsData) (g : nat -> R -> R -> R -> R)
  (s : list R) (v : nat) : outcome (list R) :=
  bi <- at_ (CellsBoundaryInfo info 0) v ;;
  if negb (is_strong (bi_type bi)) then Ok s else
  values <- function_evaluation (column3 (md_coords m v)) (g (bi_marker bi)) ;;
  row <- at_ (CellsDOFs data 0) v ;;
  set_strong_dofs row values s.

(** 401-435: one edge of a cell *)
Definition strong_edge (info : MeshDOFsInfo) (data : DOFsData) (edges : list nat) (space : LocalSpace) (g : nat -> R -> R -> R -> R)
  (ed : nat) (s : list R) : outcome (list R) :=
  e <- idx_ edges ed ;;
  bi <- at_ (CellsBoundaryInfo info 1) e ;;
  row <- at_ (CellsDOFs data 1) e ;;
  if negb (is_strong (bi_type bi)) || (length row =? 0)%nat then Ok s else
  P <- ls_EdgeDofsCoordinates space ed ;;
  values <- function_evaluation P (g (bi_marker bi)) ;;
  set_strong_dofs row values s.

(** assembler_PCC_2D_functions.cpp 335-440 *)
Definition assemble_strong_solution (m : Mesh2D) (info : MeshDOFsInfo) (data : DOFsData) (order : nat)
  (create : nat -> outcome LocalSpace) (g : nat -> R -> R -> R -> R) : outcome (list R) :=
  for_loop (Cell2Ds_number (md_mesh m)) (fun c s =>
    if negb (md_active2 m c) then Ok s else
    s <- foldM (strong_vertex m info data g) (Cell2D_vertices (md_mesh m) c) s ;;
    if (1 <? order)%nat then
      space <- create c ;;
      for_loop (length (Cell2D_edges (md_mesh m) c)) (strong_edge info data (Cell2D_edges (md_mesh m) c) space g) s
    else Ok s) (repeat 0 (NumberStrongs data)).

(** ** Interpolation on the degrees of freedom *)

(** assembler_PCC_2D_functions.cpp 468-488, 512-532, 551-571: the free and the strong vector; entry [off + i] of the values *)
Definition set_dofs (row : list DOF) (values : Vec) (off : nat) (s : list R * list R) : outcome (list R * list R) :=
  for_loop (length row) (fun i s =>
    x <- at_ row i ;;
    match dof_type x with
    | TStrong => v <- vec_get values (off + i) ;; u <- set_idx (snd s) (dof_index x) v ;; Ok (fst s, u)
    | TDOF => v <- vec_get values (off + i) ;; u <- set_idx (fst s) (dof_index x) v ;; Ok (u, snd s)
    | TUnknown => Throw
    end) s.

(** 493-534: one edge *)
Definition evaluate_edge (data : DOFsData) (edges : list nat) (space : LocalSpace) (f : R -> R -> R -> R) (ed : nat)
  (s : list R * list R) : outcome (list R * list R) :=
  e <- idx_ edges ed ;;
  row <- at_ (CellsDOFs data 1) e ;;
  P <- ls_EdgeDofsCoordinates space ed ;;
  values <- function_evaluation P f ;;
  set_dofs row values 0 s.

(** 536-572 *)
Definition evaluate_internal (data : DOFsData) (space : LocalSpace) (f : R -> R -> R -> R) (c : nat)
  (s : list R * list R) : outcome (list R * list R) :=
  row <- at_ (CellsDOFs data 2) c ;;
  if (length row =? 0)%nat then Ok s else
  Q <- ls_InternalDofsCoordinates space ;;
  values <- function_evaluation (q_Points Q) f ;;
  dofs <- ls_InternalDofs space values Q ;;
  set_dofs row dofs 0 s.

(** 457-489: the vertices of a cell, with the running counter of the values *)
Definition evaluate_vertices (m : Mesh2D) (data : DOFsData) (f : R -> R -> R -> R) (c : nat)
  (s : list R * list R) : outcome (list R * list R) :=
  values <- function_evaluation (Cell2DVerticesCoordinates m c) f ;;
  r <- foldM (fun '(count, s) v =>
    row <- at_ (CellsDOFs data 0) v ;;
    s <- set_dofs row values count s ;;
    Ok ((count + length row)%nat, s)) (Cell2D_vertices (md_mesh m) c) (O, s) ;;
  Ok (snd r).

(** assembler_PCC_2D_functions.cpp 442-577; the activity of the cells is not read *)
Definition evaluate_function_on_dofs (m : Mesh2D) (data : DOFsData) (order : nat)
  (create : nat -> outcome LocalSpace) (f : R -> R -> R -> R) : outcome (list R * list R) :=
  for_loop (Cell2Ds_number (md_mesh m)) (fun c s =>
    s <- evaluate_vertices m data f c s ;;
    if (1 <? order)%nat then
      space <- create c ;;
      s <- for_loop (length (Cell2D_edges (md_mesh m) c)) (evaluate_edge data (Cell2D_edges (md_mesh m) c) space f) s ;;
      evaluate_internal data space f c s
    else Ok s) (repeat 0 (NumberDOFs data), repeat 0 (NumberStrongs data)).

(** ** Errors *)

(** assembler_PCC_2D_functions_data.hpp: Post_Process_Data_ErrorL2, Post_Process_Data_ErrorH1 *)
Record Post_Process_Data_Error := {
  pe_cells_error : list R; pe_cells_numeric : list R; pe_cells_exact : list R;
  pe_error : R; pe_numeric : R; pe_exact : R }.

(** the unknowns of a cell: 793-803, 873-883 *)
Definition local_solution (data : DOFsData) (uD uS : list R) (c : nat) : outcome Vec :=
  lc <- local_count_dofs 2 c [data] ;;
  u <- global_solution_to_local_solution 2 c [data] (l_num_total_dofs lc) (l_offsets_DOFs lc) [0%nat] [0%nat] uD uS ;;
  Ok (vec_of_list u).

(** Eigen (not in /repo): a - b (assembler_PCC_2D_functions.cpp 757-918) *)
Definition vsub (v w : Vec) : outcome Vec :=
  if (v_size v =? v_size w)%nat then Ok {| v_size := v_size v; v_at := fun i => v_at v i - v_at w i |} else UB.
(** Eigen (not in /repo): a.array().square() (the same lines) *)
Definition vsquare (v : Vec) : Vec := {| v_size := v_size v; v_at := fun i => v_at v i * v_at v i |}.
(** Eigen (not in /repo): w.transpose() * v (the same lines) *)
Definition vdot (w v : Vec) : outcome R :=
  if (v_size w =? v_size v)%nat then Ok (rsum (v_size w) (fun i => v_at w i * v_at v i)) else UB.

(** assembler_PCC_2D_functions.cpp 757-830: values of the exact solution, zero if none is given *)
Definition exact_values (points : Mat) (exact : option (R -> R -> R -> R)) : outcome Vec :=
  match exact with Some f => function_evaluation points f | None => Ok (vzero (m_cols points)) end.
(** assembler_PCC_2D_functions.cpp 849-918: the same for the gradient *)
Definition exact_gradient_values (points : Mat) (exact : option (R -> R -> R -> nat -> R)) : outcome (list Vec) :=
  match exact with
  | Some f => function_evaluation_array 3 points f
  | None => Ok (repeat (vzero (m_cols points)) 3) end.

(** Eigen (not in /repo): v.sum() *)
Definition sum_list (l : list R) : R := lsum (fun x => x) l.

(** assembler_PCC_2D_functions.cpp 757-918: the three cell values written at index c *)
Definition set_cell (c : nat) (e n x : R) (s : list R * list R * list R) : outcome (list R * list R * list R) :=
  let '(se, sn, sx) := s in
  se <- set_idx se c e ;; sn <- set_idx sn c n ;; sx <- set_idx sx c x ;; Ok (se, sn, sx).

(** assembler_PCC_2D_functions.cpp 757-918: the three totals *)
Definition close_error (s : list R * list R * list R) : Post_Process_Data_Error :=
  let '(se, sn, sx) := s in
  {| pe_cells_error := se; pe_cells_numeric := sn; pe_cells_exact := sx;
     pe_error := sqrt (sum_list se); pe_numeric := sqrt (sum_list sn); pe_exact := sqrt (sum_list sx) |}.

(** assembler_PCC_2D_functions.cpp 780-818: one cell *)
Definition error_L2_cell (data : DOFsData) (space : LocalSpace) (uD uS : list R) (exact : option (R -> R -> R -> R)) (c : nat)
  (s : list R * list R * list R) : outcome (list R * list R * list R) :=
  V <- ls_Values space Pi0k_t ;;
  let Q := ls_InternalQuadrature space in
  x <- exact_values (q_Points Q) exact ;;
  u <- local_solution data uD uS c ;;
  n <- mmulv V u ;;
  d <- vsub n x ;;
  e2 <- vdot (q_Weights Q) (vsquare d) ;;
  n2 <- vdot (q_Weights Q) (vsquare n) ;;
  x2 <- vdot (q_Weights Q) (vsquare x) ;;
  set_cell c e2 n2 x2 s.

(** assembler_PCC_2D_functions.cpp 757-830 *)
Definition compute_error_L2 (m : Mesh2D) (data : DOFsData) (create : nat -> outcome LocalSpace) (uD uS : list R)
  (exact : option (R -> R -> R -> R)) : outcome Post_Process_Data_Error :=
  let n := Cell2Ds_number (md_mesh m) in
  s <- for_loop n (fun c s =>
    if negb (md_active2 m c) then Ok s else
    space <- create c ;; error_L2_cell data space uD uS exact c s) (repeat 0 n, repeat 0 n, repeat 0 n) ;;
  Ok (close_error s).

(** assembler_PCC_2D_functions.cpp 855-906: one cell *)
Definition error_H1_cell (data : DOFsData) (space : LocalSpace) (uD uS : list R) (exact : option (R -> R -> R -> nat -> R)) (c : nat)
  (s : list R * list R * list R) : outcome (list R * list R * list R) :=
  D <- ls_DerivativeValues space ;;
  let Q := ls_InternalQuadrature space in
  x <- exact_gradient_values (q_Points Q) exact ;;
  u <- local_solution data uD uS c ;;
  D0 <- at_ D 0 ;; n0 <- mmulv D0 u ;; x0 <- at_ x 0 ;; d0 <- vsub n0 x0 ;;
  D1 <- at_ D 1 ;; n1 <- mmulv D1 u ;; x1 <- at_ x 1 ;; d1 <- vsub n1 x1 ;;
  d <- vadd (vsquare d0) (vsquare d1) ;;
  n <- vadd (vsquare n0) (vsquare n1) ;;
  x <- vadd (vsquare x0) (vsquare x1) ;;
  e2 <- vdot (q_Weights Q) d ;;
  n2 <- vdot (q_Weights Q) n ;;
  x2 <- vdot (q_Weights Q) x ;;
  set_cell c e2 n2 x2 s.

(** assembler_PCC_2D_functions.cpp 832-918 *)
Definition compute_error_H1 (m : Mesh2D) (data : DOFsData) (create : nat -> outcome LocalSpace) (uD uS : list R)
  (exact : option (R -> R -> R -> nat -> R)) : outcome Post_Process_Data_Error :=
  let n := Cell2Ds_number (md_mesh m) in
  s <- for_loop n (fun c s =>
    if negb (md_active2 m c) then Ok s else
    space <- create c ;; error_H1_cell data space uD uS exact c s) (repeat 0 n, repeat 0 n, repeat 0 n) ;;
  Ok (close_error s).

(** ** Elliptic operator and right-hand sides *)

(** {{dofs}, {0}, {0}, {0}} *)
Definition single_handler (data : DOFsData) : local_matrix_to_global_matrix_dofs_data :=
  {| dofs_data := [data]; local_offsets := [0%nat]; global_offsets_DOFs := [0%nat]; global_offsets_Strongs := [0%nat] |}.

(** Eigen (not in /repo): v.cwiseAbs().maxCoeff(), undefined on an empty vector (EllipticEquation and stabilisation coefficients, assembler_PCC_2D_functions.cpp 270-320) *)
Definition max_abs (v : Vec) : outcome R :=
  if (v_size v =? 0)%nat then UB
  else Ok (fold_left (fun a i => Rmax a (Rabs (v_at v i))) (seq 1 (v_size v - 1)) (Rabs (v_at v 0%nat))).

(** 278-283 *)
Definition k_max (K : list Vec) : outcome R :=
  foldM (fun k v => b <- max_abs v ;; Ok (if Rlt_dec k b then b else k)) K 0.

(** assembler_PCC_2D_functions.cpp 262-313: the local matrix of a cell *)
Definition elliptic_cell (trial test : LocalSpace) (diffusion : option (R -> R -> R -> nat -> R))
  (advection : option (R -> R -> R -> nat -> R)) (reaction : option (R -> R -> R -> R)) : outcome Mat :=
  let Q := ls_InternalQuadrature trial in
  trial_V <- ls_Values trial Pi0km1_t ;;
  trial_D <- ls_DerivativeValues trial ;;
  test_V <- ls_ValuesAt test (q_Points Q) ;;
  test_D <- ls_DerivativeValuesAt test (q_Points Q) ;;
  let A := mzero (ls_Size test) (ls_Size trial) in
  A <- match diffusion with
       | None => Ok A
       | Some f =>
           K <- function_evaluation_array 9 (q_Points Q) f ;;
           B <- ComputeCellDiffusionMatrix_tensor K trial_D test_D (q_Weights Q) ;;
           A <- madd A B ;;
           if (ls_Size test =? ls_Size trial)%nat then
             k <- k_max K ;;
             S <- ls_StabilizationMatrix test ;;
             madd A (mscal k S)
           else Ok A
       end ;;
  A <- match advection with
       | None => Ok A
       | Some f =>
           b <- function_evaluation_array 3 (q_Points Q) f ;;
           B <- ComputeCellAdvectionMatrix b test_V trial_D (q_Weights Q) ;;
           madd A B
       end ;;
  match reaction with
  | None => Ok A
  | Some f =>
      r <- function_evaluation (q_Points Q) f ;;
      B <- ComputeCellReactionMatrix r trial_V test_V (q_Weights Q) ;;
      madd A B
  end.

(** assembler_PCC_2D_functions.cpp 207-333; the matrices are the recorded triplets (Create adds the duplicates up) *)
Definition assemble_elliptic_operator (m : Mesh2D) (trial_data test_data : DOFsData) (create_trial create_test : nat -> outcome LocalSpace)
  (diffusion advection : option (R -> R -> R -> nat -> R)) (reaction : option (R -> R -> R -> R)) : outcome asm_state :=
  for_loop (Cell2Ds_number (md_mesh m)) (fun c s =>
    if negb (md_active2 m c) then Ok s else
    trial <- create_trial c ;;
    test <- create_test c ;;
    A <- elliptic_cell trial test diffusion advection reaction ;;
    assemble_lhs 2 c (single_handler test_data) (single_handler trial_data) A s) (asm_init (NumberDOFs test_data)).

(** assembler_PCC_2D_functions.cpp 172-190: the local vector of a cell *)
Definition source_cell (trial test : LocalSpace) (f : R -> R -> R -> R) : outcome Vec :=
  let Q := ls_InternalQuadrature trial in
  V <- ls_ValuesAt test (q_Points Q) ;;
  values <- function_evaluation (q_Points Q) f ;;
  ComputeCellForcingTerm values V (q_Weights Q).

(** assembler_PCC_2D_functions.cpp 144-205 *)
Definition assemble_source_term (m : Mesh2D) (test_data : DOFsData) (create_trial create_test : nat -> outcome LocalSpace)
  (f : R -> R -> R -> R) : outcome (list R) :=
  s <- for_loop (Cell2Ds_number (md_mesh m)) (fun c s =>
    if negb (md_active2 m c) then Ok s else
    trial <- create_trial c ;;
    test <- create_test c ;;
    b <- source_cell trial test f ;;
    assemble_rhs 2 c (single_handler test_data) (list_of_vec b) s) (asm_init (NumberDOFs test_data)) ;;
  Ok (asm_rhs s).

(** assembler_PCC_2D_functions.cpp 647-690: entries off, off + 1, ... added to the free unknowns of a row
    (off is p for vertex p whatever loc_i: [step] is 0 there and 1 for the edge) *)
Definition add_weak (row : list DOF) (values : Vec) (off step : nat) (s : list R) : outcome (list R) :=
  for_loop (length row) (fun i s =>
    x <- at_ row i ;;
    match dof_type x with
    | TStrong => Ok s
    | TDOF => v <- vec_get values (off + step * i) ;; AddValue s (dof_index x) v
    | TUnknown => Throw
    end) s.

(** 611-645: the values of the weak term against the functions of the edge *)
Definition weak_values (gauss : QuadratureData) (p : Polygon) (space : LocalSpace) (g : R -> R -> R -> R) (ed : nat) : outcome Vec :=
  let nv := m_cols (pg_Vertices p) in
  dir <- idx_ (pg_EdgesDirection p) ed ;;
  start <- mat_col (pg_Vertices p) 3 (if dir then ed else (ed + 1) mod nv) ;;
  tan <- mat_col (pg_EdgesTangent p) 3 ed ;;
  let sign := if dir : bool then 1 else -1 in
  let P := {| m_rows := 3; m_cols := m_cols (q_Points gauss);
              m_at := fun i q => start i + sign * m_at (q_Points gauss) 0%nat q * tan i |} in
  len <- vec_get (pg_EdgesLength p) ed ;;
  let w := {| v_size := v_size (q_Weights gauss); v_at := fun q => v_at (q_Weights gauss) q * Rabs len |} in
  values <- function_evaluation P g ;;
  B <- ls_ValuesOnEdge space {| v_size := m_cols (q_Points gauss); v_at := fun q => m_at (q_Points gauss) 0%nat q |} ;;
  twv B w values.

(** assembler_PCC_2D_functions.cpp 579-697; gauss: the rule Quadrature_Gauss1D of order 2 * order of the trial space;
    geometry: the entries of mesh_geometric_data of the cell *)
Definition assemble_weak_term (m : Mesh2D) (info : MeshDOFsInfo) (data : DOFsData) (geometry : nat -> Polygon) (gauss : QuadratureData)
  (create : nat -> outcome LocalSpace) (g : nat -> R -> R -> R -> R) : outcome (list R) :=
  for_loop (Cell2Ds_number (md_mesh m)) (fun c s =>
    if negb (md_active2 m c) then Ok s else
    space <- create c ;;
    for_loop (m_cols (pg_Vertices (geometry c))) (fun ed s =>
      e <- idx_ (Cell2D_edges (md_mesh m) c) ed ;;
      bi <- at_ (CellsBoundaryInfo info 1) e ;;
      if negb (is_weak (bi_type bi)) then Ok s else
      b <- weak_values gauss (geometry c) space (g (bi_marker bi)) ed ;;
      s <- for_loop 2 (fun p s =>
        v <- idx_ (Cell1D_vertices (md_mesh m) e) p ;;
        row <- at_ (CellsDOFs data 0) v ;;
        add_weak row b p 0 s) s ;;
      row <- at_ (CellsDOFs data 1) e ;;
      add_weak row b 2 1 s) s) (repeat 0 (NumberDOFs data)).

(** ** Values at the vertices: assembler_PCC_2D_functions.cpp 699-755 (the exact gradient, evaluated as the exact solution,
    is not modelled) *)
Definition extract_solution_on_cell0Ds (m : Mesh2D) (data : DOFsData) (uD uS : list R) (exact : option (R -> R -> R -> R))
  : outcome (list R * list R) :=
  let n := Cell0Ds_number (md_mesh m) in
  for_loop n (fun v s =>
    if negb (md_active0 m v) then Ok s else
    sx <- match exact with
          | None => Ok (snd s)
          | Some f => x <- function_evaluation (column3 (md_coords m v)) f ;; x0 <- vec_get x 0 ;; set_idx (snd s) v x0
          end ;;
    row <- at_ (CellsDOFs data 0) v ;;
    sn <- for_loop (length row) (fun i sn =>
      x <- at_ row i ;;
      match dof_type x with
      | TStrong => y <- idx_ uS (dof_index x) ;; set_idx sn v y
      | TDOF => y <- idx_ uD (dof_index x) ;; set_idx sn v y
      | TUnknown => Throw
      end) (fst s) ;;
    Ok (sn, sx)) (repeat 0 n, repeat 0 n).
