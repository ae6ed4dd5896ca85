(** What sparse matrices and triplet data denote. *)
From Coq Require Import List Arith Bool Reals.
From Verif Require Import Base RSum SparseModel.
Import ListNotations.
Open Scope R_scope.

(** entry (i,j) of a stored matrix *)
Definition sp_get (M : SpMat) (i j : nat) : R :=
  lsum (fun e => if (fst e =? i)%nat then snd e else 0) (nth j (sp_columns M) []).

(** entry (i,j) denoted by triplet data: the sum of the values listed at that place *)
Definition sd_get (A : Sparse_Matrix_Data) (i j : nat) : R :=
  rsum (length (sd_rows A)) (fun t =>
    if ((nth t (sd_rows A) 0%nat =? i) && (nth t (sd_cols A) 0%nat =? j))%nat then nth t (sd_values A) 0 else 0).

(** a valid Eigen matrix: one list per column, rows inside the size *)
Definition sp_valid (M : SpMat) : Prop :=
  length (sp_columns M) = sp_cols M /\
  forall col e, In col (sp_columns M) -> In e col -> (fst e < sp_rows M)%nat.

(** three vectors of one length *)
Definition sd_valid (A : Sparse_Matrix_Data) : Prop :=
  length (sd_cols A) = length (sd_rows A) /\ length (sd_values A) = length (sd_rows A).

(** every triplet at row < nr and column < nc *)
Definition sd_inside (nr nc : nat) (rows cols : list nat) : Prop :=
  forall r c, In (r, c) (combine rows cols) -> (r < nr)%nat /\ (c < nc)%nat.
