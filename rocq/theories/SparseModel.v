(** Model of PDETools/Assembler/assembler_PCC_2D_functions_utilities.cpp. *)
From Coq Require Import List Arith Bool Reals.
From Verif Require Import Base.
Import ListNotations.

(** assembler_PCC_2D_functions_data.hpp 33-39 *)
Record Sparse_Matrix_Data := {
  sd_size : nat * nat;
  sd_rows : list nat;
  sd_cols : list nat;
  sd_values : list R
}.

(** Eigen::SparseMatrix<double> (column major, compressed): for every column the stored
    (row, value) pairs.  Not in /repo; only what the functions below read. *)
Record SpMat := { sp_rows : nat; sp_cols : nat; sp_columns : list (list (nat * R)) }.

(** assembler_PCC_2D_functions_utilities.cpp 23-37: InnerIterator over every outer index,
    stored exact zeros are dropped *)
Definition to_triplets (M : SpMat) : outcome (list (nat * nat * R)) :=
  for_loop (sp_cols M) (fun j v =>
    col <- idx_ (sp_columns M) j ;;
    Ok (v ++ flat_map (fun e => if Req_EM_T (snd e) 0 then [] else [(fst e, j, snd e)]) col)) [].

(** assembler_PCC_2D_functions_utilities.cpp 51-74 *)
Definition to_Sparse_Matrix_Data (M : SpMat) : outcome Sparse_Matrix_Data :=
  ts <- to_triplets M ;;
  let n := length ts in
  '(_, d) <- foldM (fun '(t, d) tr =>
      r <- set_idx (sd_rows d) t (fst (fst tr)) ;;
      c <- set_idx (sd_cols d) t (snd (fst tr)) ;;
      v <- set_idx (sd_values d) t (snd tr) ;;
      Ok (S t, {| sd_size := sd_size d; sd_rows := r; sd_cols := c; sd_values := v |}))
    ts (0, {| sd_size := (sp_rows M, sp_cols M); sd_rows := repeat 0 n; sd_cols := repeat 0 n; sd_values := repeat 0%R n |}) ;;
  Ok d.

(** Eigen's setFromTriplets on one column: entries kept by increasing row, duplicates added
    (external, used by Gedim's Create). *)
Fixpoint col_add (r : nat) (v : R) (col : list (nat * R)) : list (nat * R) :=
  match col with
  | [] => [(r, v)]
  | (r', v') :: t => if r =? r' then (r', v' + v)%R :: t
                     else if r <? r' then (r, v) :: (r', v') :: t
                     else (r', v') :: col_add r v t
  end.

(** Gedim::Eigen_SparseArray SetSize + Triplets + Create (external): every triplet is added at
    its place; an out-of-range triplet is undefined behaviour (an Eigen assertion). *)
Definition add_triplet (M : SpMat) (r c : nat) (v : R) : outcome SpMat :=
  if r <? sp_rows M then
    col <- idx_ (sp_columns M) c ;;
    cs <- set_idx (sp_columns M) c (col_add r v col) ;;
    Ok {| sp_rows := sp_rows M; sp_cols := sp_cols M; sp_columns := cs |}
  else UB.

(** Gedim::Eigen_SparseArray::Create (not in /repo): all the triplets, in order *)
Definition Create_from (nr nc : nat) (rows cols : list nat) (values : list R) : outcome SpMat :=
  for_loop (length rows) (fun t M =>
    r <- idx_ rows t ;; c <- idx_ cols t ;; v <- idx_ values t ;;
    add_triplet M r c v)
    {| sp_rows := nr; sp_cols := nc; sp_columns := repeat [] nc |}.

(** assembler_PCC_2D_functions_utilities.cpp 39-49 *)
Definition to_Eigen_SparseArray (A : Sparse_Matrix_Data) : outcome SpMat :=
  Create_from (fst (sd_size A)) (snd (sd_size A)) (sd_rows A) (sd_cols A) (sd_values A).

(** assembler_PCC_2D_functions_utilities.cpp 76-100 *)
Definition to_Eigen_SparseArray_shifted (A : Sparse_Matrix_Data) (new_size shifts : nat * nat) (transpose : bool)
  : outcome SpMat :=
  '(sr, sc) <- for_loop (length (sd_rows A)) (fun t '(sr, sc) =>
      r <- at_ (sd_rows A) t ;; sr' <- set_at sr t (r + fst shifts) ;;
      c <- at_ (sd_cols A) t ;; sc' <- set_at sc t (c + snd shifts) ;;
      Ok (sr', sc')) (repeat 0 (length (sd_rows A)), repeat 0 (length (sd_cols A))) ;;
  if negb transpose then Create_from (fst new_size) (snd new_size) sr sc (sd_values A)
  else Create_from (fst new_size) (snd new_size) sc sr (sd_values A).
