(** Vocabulary of the statements about assembly. *)
From Coq Require Import List Arith Bool Reals.
From Verif Require Import Base RSum MatrixModel DofsModel DofsSpec AssemblerModel.
Import ListNotations.
Open Scope R_scope.

(** length of the closure list of the cell in one handler *)
Definition local_size (dim cell : nat) (data : DOFsData) : nat :=
  match nth_error (CellsGlobalDOFs data dim) cell with Some gl => length gl | None => 0 end.

(** the local unknowns of a cell: (handler, position in its closure list) *)
Definition slots (dim cell : nat) (dd : list DOFsData) : list (nat * nat) :=
  flat_map (fun h => match nth_error dd h with
                     | Some data => map (pair h) (seq 0 (local_size dim cell data))
                     | None => [] end) (seq 0 (length dd)).

(** the unknown behind a slot *)
Definition slot_dof (dim cell : nat) (dd : list DOFsData) (p : nat * nat) : option DOF :=
  match nth_error dd (fst p) with
  | Some data => match nth_error (CellsGlobalDOFs data dim) cell with
                 | Some gl => match nth_error gl (snd p) with
                              | Some g => lookup data g
                              | None => None end
                 | None => None end
  | None => None end.

(** its position in the local vectors and matrices *)
Definition slot_pos (lg : local_matrix_to_global_matrix_dofs_data) (p : nat * nat) : nat :=
  (snd p + nth (fst p) (local_offsets lg) 0)%nat.

(** its number in the global free system / among the strong values, if it has one *)
Definition free_number (dim cell : nat) (lg : local_matrix_to_global_matrix_dofs_data) (p : nat * nat) : option nat :=
  match slot_dof dim cell (dofs_data lg) p with
  | Some x => match dof_type x with
              | TDOF => Some (dof_index x + nth (fst p) (global_offsets_DOFs lg) 0)%nat
              | _ => None end
  | None => None end.

Definition strong_number (dim cell : nat) (lg : local_matrix_to_global_matrix_dofs_data) (p : nat * nat) : option nat :=
  match slot_dof dim cell (dofs_data lg) p with
  | Some x => match dof_type x with
              | TStrong => Some (dof_index x + nth (fst p) (global_offsets_Strongs lg) 0)%nat
              | _ => None end
  | None => None end.

(** "is numbered r" *)
Definition numbered (o : option nat) (r : nat) : bool :=
  match o with Some x => (x =? r)%nat | None => false end.

(** entry (r,s) of the matrix created from a triplet list: the sum of the triplets there *)
Definition entry (ts : list triplet) (r s : nat) : R :=
  lsum (fun t => match t with (i, j, v) => if (i =? r)%nat && (j =? s)%nat then v else 0 end) ts.

(** the sum, over the cells and their local (test, trial) pairs with test number [r] and
    trial number [s], of the local matrix entries *)
Definition lhs_sum (dim : nat) (trial_number : nat -> nat -> local_matrix_to_global_matrix_dofs_data -> nat * nat -> option nat)
  (ops : list cell_op) (r s : nat) : R :=
  lsum (fun o => match op_lhs o with
    | None => 0
    | Some A =>
      lsum (fun p => lsum (fun q =>
        if numbered (free_number dim (op_cell o) (op_test o) p) r &&
           numbered (trial_number dim (op_cell o) (op_trial o) q) s
        then m_at A (slot_pos (op_test o) p) (slot_pos (op_trial o) q) else 0)
        (slots dim (op_cell o) (dofs_data (op_trial o))))
        (slots dim (op_cell o) (dofs_data (op_test o)))
    end) ops.

Definition rhs_sum (dim : nat) (ops : list cell_op) (r : nat) : R :=
  lsum (fun o => match op_rhs o with
    | None => 0
    | Some b =>
      lsum (fun p => if numbered (free_number dim (op_cell o) (op_test o) p) r
                     then nth (slot_pos (op_test o) p) b 0 else 0)
        (slots dim (op_cell o) (dofs_data (op_test o)))
    end) ops.

(** The data of the handlers are the result of CreateDOFs for the dimension, and the offsets are
    those of count_dofs and local_count_dofs *)
Definition created (dim : nat) (data : DOFsData) : Prop :=
  (dim <= 3)%nat /\ exists info mesh, CreateDOFs dim info mesh = Ok data.

Record packed (dim cell : nat) (lg : local_matrix_to_global_matrix_dofs_data)
  (cd : count_dofs_data) (lc : local_count_dofs_data) : Prop := {
  pk_created : Forall (created dim) (dofs_data lg);
  pk_count : count_dofs (dofs_data lg) = Ok cd;
  pk_local : local_count_dofs dim cell (dofs_data lg) = Ok lc;
  pk_lo : local_offsets lg = l_offsets_DOFs lc;
  pk_gD : global_offsets_DOFs lg = offsets_DOFs cd;
  pk_gS : global_offsets_Strongs lg = offsets_Strongs cd
}.

(** an operation whose local matrix and vector have the sizes of the local spaces *)
Definition op_fits (dim nD : nat) (o : cell_op) : Prop :=
  exists cdt lct cds lcs,
    packed dim (op_cell o) (op_test o) cdt lct /\ packed dim (op_cell o) (op_trial o) cds lcs /\
    num_total_dofs cdt = nD /\
    (forall A, op_lhs o = Some A -> m_rows A = l_num_total_dofs lct /\ m_cols A = l_num_total_dofs lcs) /\
    (forall b, op_rhs o = Some b -> length b = l_num_total_dofs lct).

(** the trial handlers number [nT] free and [nTS] strong unknowns *)
Definition trial_total (dim nT nTS : nat) (o : cell_op) : Prop :=
  exists cd lc, packed dim (op_cell o) (op_trial o) cd lc /\ num_total_dofs cd = nT /\ num_total_strong cd = nTS.

(** the cell exists in the handler *)
Definition cell_exists (dim cell : nat) (data : DOFsData) : Prop := (cell < length (CellsGlobalDOFs data dim))%nat.

(** v^T A v >= 0 for every v *)
Definition psd (n : nat) (A : nat -> nat -> R) : Prop :=
  forall v : nat -> R, 0 <= rsum n (fun i => rsum n (fun j => v i * A i j * v j)).
