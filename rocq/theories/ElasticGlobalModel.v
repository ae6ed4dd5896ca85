(** Model of the loop over the cells of the driver of linear elasticity, examples/Elastic_PCC_2D: the scatter of the local matrices and forces with
    two copies of one numbering.  Files without a path are in /repo/PolyDiM/examples/Elastic_PCC_2D/src. *)
From Coq Require Import List Arith Bool Reals.
From Verif Require Import Base RSum MatrixModel DofsModel AssemblerModel VemModel EquationModel DriverModel ElasticModel.
Import ListNotations.
Local Open Scope R_scope.

(** assembler.cpp 284-288: the handlers of a cell, two copies of the numbering *)
Definition elastic_handlers (data : DOFsData) (cd : count_dofs_data) (lc : local_count_dofs_data) : local_matrix_to_global_matrix_dofs_data :=
  {| dofs_data := [data; data]; local_offsets := l_offsets_DOFs lc; global_offsets_DOFs := offsets_DOFs cd; global_offsets_Strongs := offsets_Strongs cd |}.

(** assembler.cpp 243-297: one cell.  The assertion of 279-282 is compiled out. *)
Definition elastic_step (data : DOFsData) (cd : count_dofs_data) (create : nat -> outcome LocalSpace) (P : ElasticProblem) (c : nat) (st : asm_state) : outcome asm_state :=
  sp <- create c ;;
  lc <- local_count_dofs 2 c [data; data] ;;
  Ab <- elastic_cell sp P ;;
  assemble_lhs_rhs 2 c (elastic_handlers data cd lc) (elastic_handlers data cd lc) (fst Ab) (list_of_vec (snd Ab)) st.

(** assembler.cpp 219-302, Assemble, without the calls of ComputeStrongTerm (line 299) and ComputeWeakTerm (line 301), which write only into the strong values
    and into the right-hand side: the two matrices are those of the code, the right-hand side is the part of the forces before the boundary terms *)
Definition elastic_body (m : Mesh2D) (data : DOFsData) (create : nat -> outcome LocalSpace) (P : ElasticProblem) : outcome asm_state :=
  cd <- count_dofs [data; data] ;;
  for_loop (Cell2Ds_number (md_mesh m)) (elastic_step data cd create P) (asm_init (num_total_dofs cd)).
