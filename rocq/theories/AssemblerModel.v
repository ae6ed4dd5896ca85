(** Model of PDETools/Assembler/Assembler_Utilities.hpp.
    Values are real numbers (rounding is not modelled); unsigned and size_t counters are natural
    numbers (overflow is not modelled). *)
From Coq Require Import List Arith Bool Reals.
From Verif Require Import Base MatrixModel DofsModel.
Import ListNotations.

(** Assembler_Utilities.hpp 23-29 *)
Record local_matrix_to_global_matrix_dofs_data := {
  dofs_data : list DOFsData;
  local_offsets : list nat;
  global_offsets_DOFs : list nat;
  global_offsets_Strongs : list nat
}.

(** Assembler_Utilities.hpp 31-38 *)
Record count_dofs_data := {
  num_total_boundary_dofs : nat;
  num_total_dofs : nat;
  num_total_strong : nat;
  offsets_DOFs : list nat;
  offsets_Strongs : list nat
}.

(** Assembler_Utilities.hpp 47-71.  [dofs_data[0]] on an empty vector is undefined behaviour. *)
Definition count_dofs (dd : list DOFsData) : outcome count_dofs_data :=
  d0 <- idx_ dd 0 ;;
  let n := length dd in
  oD <- set_idx (resize [] n 0) 0 0 ;;
  oS <- set_idx (resize [] n 0) 0 0 ;;
  for_from 1 (n - 1) (fun i s =>
    di <- idx_ dd i ;;
    dp <- idx_ dd (i - 1) ;;
    pD <- idx_ (offsets_DOFs s) (i - 1) ;;
    oD <- set_idx (offsets_DOFs s) i (pD + NumberDOFs dp) ;;
    pS <- idx_ (offsets_Strongs s) (i - 1) ;;
    oS <- set_idx (offsets_Strongs s) i (pS + NumberStrongs dp) ;;
    Ok {| num_total_dofs := num_total_dofs s + NumberDOFs di;
          num_total_strong := num_total_strong s + NumberStrongs di;
          num_total_boundary_dofs := num_total_boundary_dofs s + NumberBoundaryDOFs di;
          offsets_DOFs := oD; offsets_Strongs := oS |})
    {| num_total_dofs := NumberDOFs d0; num_total_strong := NumberStrongs d0;
       num_total_boundary_dofs := NumberBoundaryDOFs d0;
       offsets_DOFs := oD; offsets_Strongs := oS |}.

(** Assembler_Utilities.hpp 40-44 *)
Record local_count_dofs_data := {
  l_num_total_dofs : nat;
  l_offsets_DOFs : list nat
}.

(** Assembler_Utilities.hpp 73-94 ([reference_wrapper] vectors are modelled as the list of the
    referenced data; the overloads at 96-116 only build that vector). *)
Definition local_count_dofs (dim cell : nat) (dd : list DOFsData) : outcome local_count_dofs_data :=
  d0 <- idx_ dd 0 ;;
  g0 <- at_ (CellsGlobalDOFs d0 dim) cell ;;
  let n := length dd in
  o <- set_idx (resize [] n 0) 0 0 ;;
  for_from 1 (n - 1) (fun i s =>
    di <- idx_ dd i ;;
    gi <- at_ (CellsGlobalDOFs di dim) cell ;;
    po <- idx_ (l_offsets_DOFs s) (i - 1) ;;
    dp <- idx_ dd (i - 1) ;;
    gp <- at_ (CellsGlobalDOFs dp dim) cell ;;
    o' <- set_idx (l_offsets_DOFs s) i (po + length gp) ;;
    Ok {| l_num_total_dofs := l_num_total_dofs s + length gi; l_offsets_DOFs := o' |})
    {| l_num_total_dofs := length g0; l_offsets_DOFs := o |}.

(** Assembler_Utilities.hpp 118-160 (overloads 162-208 only build the reference vector);
    [GetValue] of the global solution is a vector read, undefined out of range. *)
Definition global_solution_to_local_solution (dim cell : nat) (dd : list DOFsData)
  (num_local_DOFs : nat) (local_offs goffs_DOFs goffs_Strongs : list nat)
  (sol_DOFs sol_Strongs : list R) : outcome (list R) :=
  for_loop (length dd) (fun h loc =>
    data <- idx_ dd h ;;
    gl <- at_ (CellsGlobalDOFs data dim) cell ;;
    for_loop (length gl) (fun i loc =>
      g <- at_ gl i ;;
      x <- resolve data g ;;
      match dof_type x with
      | TStrong =>
          o <- idx_ goffs_Strongs h ;;
          v <- idx_ sol_Strongs (dof_index x + o) ;;
          lo <- idx_ local_offs h ;;
          set_idx loc (i + lo) v
      | TDOF =>
          o <- idx_ goffs_DOFs h ;;
          v <- idx_ sol_DOFs (dof_index x + o) ;;
          lo <- idx_ local_offs h ;;
          set_idx loc (i + lo) v
      | TUnknown => Throw
      end) loc) (repeat 0%R num_local_DOFs).

(** Global containers while they are assembled: the triplets recorded so far in the free-free
    matrix and in the free-strong matrix (ISparseArray::Triplet appends; duplicates are added up
    when the matrix is created), and the right-hand side. *)
Definition triplet := (nat * nat * R)%type.
(** the same: Assembler_Utilities.hpp 210-279 (arguments global_lhs_DOFs, global_lhs_Strongs, global_rhs) *)
Record asm_state := { trip_DOFs : list triplet; trip_Strongs : list triplet; asm_rhs : list R }.

(** Gedim::IArray::AddValue (not in /repo; called at Assembler_Utilities.hpp 240-276): v[i] += x *)
Definition AddValue (v : list R) (i : nat) (x : R) : outcome (list R) :=
  y <- idx_ v i ;; set_idx v i (y + x)%R.

(** Assembler_Utilities.hpp 253-270 / 322-339: one trial unknown *)
Definition trial_dof (data : DOFsData) (gl : list GlobalCell_DOF) (oD oS lo : nat) (A : Mat) (gi iloc : nat)
  (j : nat) (st : asm_state) : outcome asm_state :=
  g <- at_ gl j ;;
  x <- resolve data g ;;
  a <- mat_get A iloc (j + lo) ;;
  match dof_type x with
  | TStrong => Ok {| trip_DOFs := trip_DOFs st;
                     trip_Strongs := trip_Strongs st ++ [(gi, dof_index x + oS, a)];
                     asm_rhs := asm_rhs st |}
  | TDOF => Ok {| trip_DOFs := trip_DOFs st ++ [(gi, dof_index x + oD, a)];
                  trip_Strongs := trip_Strongs st; asm_rhs := asm_rhs st |}
  | TUnknown => Throw
  end.

(** Assembler_Utilities.hpp 242-275 / 311-344: the loops over the trial handlers and unknowns *)
Definition trial_loop (dim cell : nat) (trial : local_matrix_to_global_matrix_dofs_data) (A : Mat)
  (gi iloc : nat) (st : asm_state) : outcome asm_state :=
  for_loop (length (dofs_data trial)) (fun f st =>
    data <- at_ (dofs_data trial) f ;;
    gl <- at_ (CellsGlobalDOFs data dim) cell ;;
    oD <- idx_ (global_offsets_DOFs trial) f ;;
    lo <- idx_ (local_offsets trial) f ;;
    oS <- idx_ (global_offsets_Strongs trial) f ;;
    for_loop (length gl) (trial_dof data gl oD oS lo A gi iloc) st) st.

(** The loops over the test handlers and unknowns, shared by the three overloads
    (Assembler_Utilities.hpp 210-279 with both parts, 281-346 with the matrix part only, 348-382
    with the right-hand side part only). *)
Definition assemble_gen (dim cell : nat) (test trial : local_matrix_to_global_matrix_dofs_data)
  (lhs : option Mat) (rhs : option (list R)) (st : asm_state) : outcome asm_state :=
  for_loop (length (dofs_data test)) (fun f st =>
    data <- at_ (dofs_data test) f ;;
    gl <- at_ (CellsGlobalDOFs data dim) cell ;;
    oD <- idx_ (global_offsets_DOFs test) f ;;
    lo <- idx_ (local_offsets test) f ;;
    for_loop (length gl) (fun i st =>
      g <- at_ gl i ;;
      x <- resolve data g ;;
      match dof_type x with
      | TStrong => Ok st
      | TUnknown => Throw
      | TDOF =>
          let gi := dof_index x + oD in
          st1 <- match rhs with
                 | None => Ok st
                 | Some b => v <- idx_ b (i + lo) ;; r <- AddValue (asm_rhs st) gi v ;;
                             Ok {| trip_DOFs := trip_DOFs st; trip_Strongs := trip_Strongs st; asm_rhs := r |}
                 end ;;
          match lhs with
          | None => Ok st1
          | Some A => trial_loop dim cell trial A gi (i + lo) st1
          end
      end) st) st.

(** Assembler_Utilities.hpp 210-279 *)
Definition assemble_lhs_rhs dim cell test trial A b := assemble_gen dim cell test trial (Some A) (Some b).
(** Assembler_Utilities.hpp 281-346 *)
Definition assemble_lhs dim cell test trial A := assemble_gen dim cell test trial (Some A) None.
(** Assembler_Utilities.hpp 348-382 (no trial data) *)
Definition assemble_rhs dim cell test b := assemble_gen dim cell test test None (Some b).

(** A driver: the assembly of a list of cells, as every assembler of the library does
    (e.g. assembler_PCC_2D_functions.cpp 207-333): one call per cell on the same containers. *)
Record cell_op := {
  op_cell : nat;
  op_test : local_matrix_to_global_matrix_dofs_data;
  op_trial : local_matrix_to_global_matrix_dofs_data;
  op_lhs : option Mat;
  op_rhs : option (list R)
}.

(** a history of calls of the functions above, as in the cell loops of assembler_PCC_2D_functions.cpp 144-333 *)
Definition assemble_all (dim : nat) (ops : list cell_op) (st : asm_state) : outcome asm_state :=
  foldM (fun st o => assemble_gen dim (op_cell o) (op_test o) (op_trial o) (op_lhs o) (op_rhs o) st) ops st.

(** assembler_PCC_2D_functions.cpp 144-250: empty matrices, zero right-hand side of size [n] *)
Definition asm_init (n : nat) : asm_state :=
  {| trip_DOFs := []; trip_Strongs := []; asm_rhs := repeat 0%R n |}.
