(** Property theorems C19-C20: sparse matrix data. *)
From Coq Require Import List Arith Bool Lia Reals Lra.
From Verif Require Import Base RSum SparseModel SparseSpec SparseProofs.
Import ListNotations.
Local Open Scope R_scope.

(** C19 *)
Theorem C19_round_trip : forall M, sp_valid M ->
  exists d M', to_Sparse_Matrix_Data M = Ok d /\ to_Eigen_SparseArray d = Ok M' /\
    sd_size d = (sp_rows M, sp_cols M) /\ sp_rows M' = sp_rows M /\ sp_cols M' = sp_cols M /\ sp_valid M' /\ sd_valid d /\
    Forall (fun v => v <> 0) (sd_values d) /\
    forall i j, sp_get M' i j = sp_get M i j /\ sd_get d i j = sp_get M i j.
Proof. exact C19_round. Qed.
Print Assumptions C19_round_trip.

Theorem C19_duplicates_are_summed : forall A, sd_valid A ->
  (sd_inside (fst (sd_size A)) (snd (sd_size A)) (sd_rows A) (sd_cols A) ->
   exists M, to_Eigen_SparseArray A = Ok M /\ sp_rows M = fst (sd_size A) /\ sp_cols M = snd (sd_size A) /\
     forall i j, sp_get M i j = sd_get A i j) /\
  (forall M, to_Eigen_SparseArray A = Ok M -> sd_inside (fst (sd_size A)) (snd (sd_size A)) (sd_rows A) (sd_cols A)).
Proof. exact C19_sum. Qed.
Print Assumptions C19_duplicates_are_summed.

(** a 3x2 matrix with a stored zero *)
Definition ex_sp : SpMat := {| sp_rows := 3; sp_cols := 2; sp_columns := [[(0%nat, 4); (2%nat, 0)]; [(1%nat, 5)]] |}.
Example C19_case : sp_valid ex_sp /\ sp_get ex_sp 0 0 = 4 /\ sp_get ex_sp 1 1 = 5 /\ sp_get ex_sp 2 0 = 0.
Proof.
  split; [split; [reflexivity|]|unfold sp_get; simpl; lra].
  simpl. intros col e [<-|[<-|[]]]; simpl; intros H; intuition (subst; simpl; lia).
Qed.

(** C20 *)
Theorem C20_shifted_block : forall A new_size shifts (tr : bool), sd_valid A ->
  let place := fun i j => if tr then (j + snd shifts, i + fst shifts)%nat else (i + fst shifts, j + snd shifts)%nat in
  (forall r c, In (r, c) (combine (sd_rows A) (sd_cols A)) ->
     (fst (place r c) < fst new_size /\ snd (place r c) < snd new_size)%nat) ->
  exists M, to_Eigen_SparseArray_shifted A new_size shifts tr = Ok M /\
    sp_rows M = fst new_size /\ sp_cols M = snd new_size /\
    (forall i j, sp_get M (fst (place i j)) (snd (place i j)) = sd_get A i j) /\
    (forall r c, (forall i j, place i j <> (r, c)) -> sp_get M r c = 0).
Proof. exact C20_shift. Qed.
Print Assumptions C20_shifted_block.

Definition ex_sd : Sparse_Matrix_Data :=
  {| sd_size := (3, 2)%nat; sd_rows := [0; 2; 0]%nat; sd_cols := [1; 0; 1]%nat; sd_values := [2; 3; 4] |}.
Example C20_case : sd_valid ex_sd /\ sd_get ex_sd 0 1 = 6 /\
  (forall r c, In (r, c) (combine (sd_rows ex_sd) (sd_cols ex_sd)) -> (c + 4 < 6 /\ r + 3 < 6)%nat).
Proof.
  split; [split; reflexivity|]. split; [vm_compute; lra|].
  simpl. intros r c H. intuition (match goal with E : (_, _) = _ |- _ => injection E as <- <- end; lia).
Qed.
