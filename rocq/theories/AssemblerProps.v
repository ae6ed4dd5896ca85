(** Property theorems C12-C18: counting, restriction and assembly (Assembler_Utilities). *)
From Coq Require Import List Arith Bool Lia Reals Lra Permutation.
From Verif Require Import Base RSum MatrixModel DofsModel DofsSpec DofsProps AssemblerModel AssemblerSpec AssemblerProofs AssemblerProofs2.
Import ListNotations.
Local Open Scope nat_scope.

(** ** A non-trivial instance: two handlers (e.g. two velocity components), both numbered as in
    DofsProps.v on the mesh of two triangles. *)
Definition ex_dd : list DOFsData := [ex_data; ex_data].
Definition ex_cd : count_dofs_data := {| num_total_boundary_dofs := 10; num_total_dofs := 22; num_total_strong := 10;
  offsets_DOFs := [0; 11]; offsets_Strongs := [0; 5] |}.
Definition ex_lc : local_count_dofs_data := {| l_num_total_dofs := 20; l_offsets_DOFs := [0; 10] |}.
Definition ex_lg : local_matrix_to_global_matrix_dofs_data := {| dofs_data := ex_dd;
  local_offsets := [0; 10]; global_offsets_DOFs := [0; 11]; global_offsets_Strongs := [0; 5] |}.

Example ex_packed : forall cell, cell < 2 -> packed 2 cell ex_lg ex_cd ex_lc.
Proof.
  intros cell Hc. constructor.
  - repeat constructor; try lia; exists ex_info, ex_mesh; apply ex_created.
  - vm_compute. reflexivity.
  - destruct cell as [|[|cell]]; [vm_compute; reflexivity|vm_compute; reflexivity|lia].
  - reflexivity.
  - reflexivity.
  - reflexivity.
Qed.

(** C12 *)
Theorem C12_count_dofs_packs : forall dd,
  dd <> [] ->
  exists cd, count_dofs dd = Ok cd /\
    num_total_dofs cd = list_sum (map NumberDOFs dd) /\
    num_total_strong cd = list_sum (map NumberStrongs dd) /\
    num_total_boundary_dofs cd = list_sum (map NumberBoundaryDOFs dd) /\
    length (offsets_DOFs cd) = length dd /\ length (offsets_Strongs cd) = length dd /\
    Permutation (flat_map (fun h => map (fun i => nth h (offsets_DOFs cd) 0 + i)
                                        (seq 0 (nth h (map NumberDOFs dd) 0))) (seq 0 (length dd)))
                (seq 0 (num_total_dofs cd)) /\
    Permutation (flat_map (fun h => map (fun i => nth h (offsets_Strongs cd) 0 + i)
                                        (seq 0 (nth h (map NumberStrongs dd) 0))) (seq 0 (length dd)))
                (seq 0 (num_total_strong cd)).
Proof. exact C12_pack. Qed.
Print Assumptions C12_count_dofs_packs.

Theorem C12_count_dofs_empty : count_dofs [] = UB.
Proof. reflexivity. Qed.
Print Assumptions C12_count_dofs_empty.

Example C12_case : count_dofs ex_dd = Ok ex_cd.
Proof. vm_compute. reflexivity. Qed.

(** C13 *)
Theorem C13_local_count_dofs_packs : forall dim cell dd,
  dd <> [] ->
  (Forall (cell_exists dim cell) dd ->
   exists lc, local_count_dofs dim cell dd = Ok lc /\
    l_num_total_dofs lc = list_sum (map (local_size dim cell) dd) /\
    length (l_offsets_DOFs lc) = length dd /\
    Permutation (flat_map (fun h => map (fun i => nth h (l_offsets_DOFs lc) 0 + i)
                                        (seq 0 (nth h (map (local_size dim cell) dd) 0))) (seq 0 (length dd)))
                (seq 0 (l_num_total_dofs lc))) /\
  (~ Forall (cell_exists dim cell) dd -> local_count_dofs dim cell dd = Throw).
Proof. exact C13_pack. Qed.
Print Assumptions C13_local_count_dofs_packs.

Example C13_case : local_count_dofs 2 1 ex_dd = Ok ex_lc /\ local_count_dofs 2 2 ex_dd = Throw.
Proof. split; vm_compute; reflexivity. Qed.

(** C14 *)
Theorem C14_restriction_to_cell : forall dim cell lg cd lc uD uS,
  packed dim cell lg cd lc ->
  length uD = num_total_dofs cd -> length uS = num_total_strong cd ->
  exists loc,
    global_solution_to_local_solution dim cell (dofs_data lg) (l_num_total_dofs lc) (local_offsets lg)
      (global_offsets_DOFs lg) (global_offsets_Strongs lg) uD uS = Ok loc /\
    length loc = l_num_total_dofs lc /\
    Permutation (map (slot_pos lg) (slots dim cell (dofs_data lg))) (seq 0 (length loc)) /\
    forall p, In p (slots dim cell (dofs_data lg)) ->
      (exists r, free_number dim cell lg p = Some r /\ r < length uD /\
                 nth_error loc (slot_pos lg p) = nth_error uD r) \/
      (exists r, strong_number dim cell lg p = Some r /\ r < length uS /\
                 nth_error loc (slot_pos lg p) = nth_error uS r).
Proof. exact C14_restrict. Qed.
Print Assumptions C14_restriction_to_cell.

(** cell 0, handler 1: vertices 0 (strong 0), 1 (free 0), 2 (free 1), edge 0 (strong 1, 2), ... *)
Example C14_case : packed 2 0 ex_lg ex_cd ex_lc /\
  map (free_number 2 0 ex_lg) [(1, 0); (1, 1); (1, 2); (1, 3)] = [None; Some 11; Some 12; None] /\
  map (strong_number 2 0 ex_lg) [(1, 0); (1, 1); (1, 2); (1, 3)] = [Some 5; None; None; Some 6] /\
  map (slot_pos ex_lg) [(1, 0); (1, 1); (1, 2); (1, 3)] = [10; 11; 12; 13].
Proof. split; [apply ex_packed; simpl; lia|]. vm_compute. auto. Qed.

(** C15 *)
Theorem C15_assembly_sums_local_entries : forall dim nD nT nTS ops,
  Forall (op_fits dim nD) ops -> Forall (trial_total dim nT nTS) ops ->
  exists st, assemble_all dim ops (asm_init nD) = Ok st /\
  length (asm_rhs st) = nD /\
  (forall r s v, In (r, s, v) (trip_DOFs st) -> r < nD /\ s < nT) /\
  (forall r s v, In (r, s, v) (trip_Strongs st) -> r < nD /\ s < nTS) /\
  (forall r s, entry (trip_DOFs st) r s = lhs_sum dim free_number ops r s) /\
  (forall r s, entry (trip_Strongs st) r s = lhs_sum dim strong_number ops r s) /\
  (forall r, nth r (asm_rhs st) 0%R = rhs_sum dim ops r).
Proof. exact C15_assembly. Qed.
Print Assumptions C15_assembly_sums_local_entries.

(** the sums also describe every successful run on data that were not created by the library *)
Theorem C15_assembly_sums_any_data : forall dim ops n st,
  assemble_all dim ops (asm_init n) = Ok st ->
  length (asm_rhs st) = n /\
  (forall r s, entry (trip_DOFs st) r s = lhs_sum dim free_number ops r s) /\
  (forall r s, entry (trip_Strongs st) r s = lhs_sum dim strong_number ops r s) /\
  (forall r, nth r (asm_rhs st) 0%R = rhs_sum dim ops r).
Proof. exact C15_sums. Qed.
Print Assumptions C15_assembly_sums_any_data.

Definition ex_op (cell : nat) : cell_op := {| op_cell := cell; op_test := ex_lg; op_trial := ex_lg;
  op_lhs := Some {| m_rows := 20; m_cols := 20; m_at := fun i j => INR (i * j) |};
  op_rhs := Some (repeat 1%R 20) |}.
Definition ex_ops : list cell_op := [ex_op 0; ex_op 1].

Example ex_ops_fit : Forall (op_fits 2 22) ex_ops.
Proof.
  apply Forall_cons; [|apply Forall_cons; [|apply Forall_nil]]; exists ex_cd, ex_lc, ex_cd, ex_lc;
  (split; [apply ex_packed; simpl; lia|split; [apply ex_packed; simpl; lia|split; [reflexivity|split]]]).
  - intros A H. injection H as <-. auto.
  - intros b H. injection H as <-. reflexivity.
  - intros A H. injection H as <-. auto.
  - intros b H. injection H as <-. reflexivity.
Qed.

Example ex_ops_trial : Forall (trial_total 2 22 10) ex_ops.
Proof.
  apply Forall_cons; [|apply Forall_cons; [|apply Forall_nil]]; exists ex_cd, ex_lc; (split; [apply ex_packed; simpl; lia|auto]).
Qed.

(** vertex 1 (free number 0) is seen by both cells: local position 1 in both *)
Example C15_case : rhs_sum 2 ex_ops 0 = 2%R.
Proof. vm_compute. lra. Qed.

(** C16 *)
Theorem C16_assembled_operator_is_sum_of_local : forall dim nD ops st uD uS uloc,
  Forall (op_fits dim nD) ops -> Forall (trial_total dim (length uD) (length uS)) ops ->
  assemble_all dim ops (asm_init nD) = Ok st ->
  (forall o, In o ops -> exists num,
    global_solution_to_local_solution dim (op_cell o) (dofs_data (op_trial o)) num
      (local_offsets (op_trial o)) (global_offsets_DOFs (op_trial o)) (global_offsets_Strongs (op_trial o)) uD uS = Ok (uloc o) /\
    local_count_dofs dim (op_cell o) (dofs_data (op_trial o)) =
      Ok {| l_num_total_dofs := num; l_offsets_DOFs := local_offsets (op_trial o) |}) ->
  forall r,
  (rsum (length uD) (fun s => entry (trip_DOFs st) r s * nth s uD 0) +
   rsum (length uS) (fun s => entry (trip_Strongs st) r s * nth s uS 0) =
   lsum (fun o => match op_lhs o with
    | None => 0
    | Some A => lsum (fun p => if numbered (free_number dim (op_cell o) (op_test o) p) r
        then rsum (m_cols A) (fun j => m_at A (slot_pos (op_test o) p) j * nth j (uloc o) 0) else 0)
        (slots dim (op_cell o) (dofs_data (op_test o))) end) ops)%R.
Proof. exact C16_operator. Qed.
Print Assumptions C16_assembled_operator_is_sum_of_local.

(** the hypotheses hold of the instance: the restriction succeeds on both cells *)
Example C16_case : forall uD uS, length uD = 22 -> length uS = 10 -> exists uloc,
  forall o, In o ex_ops -> exists num,
    global_solution_to_local_solution 2 (op_cell o) (dofs_data (op_trial o)) num
      (local_offsets (op_trial o)) (global_offsets_DOFs (op_trial o)) (global_offsets_Strongs (op_trial o)) uD uS = Ok (uloc o) /\
    local_count_dofs 2 (op_cell o) (dofs_data (op_trial o)) =
      Ok {| l_num_total_dofs := num; l_offsets_DOFs := local_offsets (op_trial o) |}.
Proof.
  intros uD uS HD HS. exists (fun o => map (slot_value 2 (op_cell o) ex_lg uD uS) (slots 2 (op_cell o) ex_dd)).
  intros o Ho. exists 20. assert (Hp : packed 2 (op_cell o) ex_lg ex_cd ex_lc /\ op_trial o = ex_lg).
  { destruct Ho as [<-|[<-|[]]]; (split; [apply ex_packed; simpl; lia|reflexivity]). }
  destruct Hp as (Hp & ->). split; [|apply Hp]. apply (restrict_ok _ _ _ _ _ uD uS Hp); auto.
Qed.

(** C17 *)
Theorem C17_assembly_order_independent : forall dim nD ops ops',
  Forall (op_fits dim nD) ops -> Permutation ops ops' ->
  exists st st', assemble_all dim ops (asm_init nD) = Ok st /\ assemble_all dim ops' (asm_init nD) = Ok st' /\
    (forall r s, entry (trip_DOFs st) r s = entry (trip_DOFs st') r s) /\
    (forall r s, entry (trip_Strongs st) r s = entry (trip_Strongs st') r s) /\
    asm_rhs st = asm_rhs st'.
Proof. exact C17_order. Qed.
Print Assumptions C17_assembly_order_independent.

Example C17_case : Forall (op_fits 2 22) ex_ops /\ Permutation ex_ops [ex_op 1; ex_op 0].
Proof. split; [apply ex_ops_fit|apply perm_swap]. Qed.

(** C18 *)
Theorem C18_symmetry_preserved : forall dim n ops st,
  assemble_all dim ops (asm_init n) = Ok st ->
  Forall (fun o => op_test o = op_trial o /\
    forall A, op_lhs o = Some A -> forall i j, m_at A i j = m_at A j i) ops ->
  forall r s, entry (trip_DOFs st) r s = entry (trip_DOFs st) s r.
Proof. exact C18_sym. Qed.
Print Assumptions C18_symmetry_preserved.

Theorem C18_positivity_preserved : forall dim nD ops st x,
  Forall (op_fits dim nD) ops ->
  Forall (fun o => op_test o = op_trial o /\
    forall A, op_lhs o = Some A -> psd (m_rows A) (m_at A)) ops ->
  assemble_all dim ops (asm_init nD) = Ok st -> length x = nD ->
  (0 <= rsum nD (fun r => rsum nD (fun s => nth r x 0 * entry (trip_DOFs st) r s * nth s x 0)))%R.
Proof. exact C18_psd_lemma. Qed.
Print Assumptions C18_positivity_preserved.

Example C18_case : Forall (fun o => op_test o = op_trial o /\
    forall A, op_lhs o = Some A -> (forall i j, m_at A i j = m_at A j i) /\ psd (m_rows A) (m_at A)) ex_ops.
Proof.
  assert (P : forall n, psd n (fun i j => INR (i * j))).
  { intros n v. set (s := rsum n (fun i => v i * INR i)%R).
    replace (rsum n _) with (s * s)%R; [apply Rle_0_sqr|]. unfold s. rewrite rsum_mult.
    apply rsum_ext. intros i _. apply rsum_ext. intros j _. rewrite mult_INR. ring. }
  apply Forall_cons; [|apply Forall_cons; [|apply Forall_nil]]; (split; [reflexivity|]); intros A H; injection H as <-; (split; [intros; simpl; now rewrite Nat.mul_comm|apply P]).
Qed.
