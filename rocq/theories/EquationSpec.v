(** Vocabulary of the statements about local matrices. *)
From Coq Require Import List Arith Bool Reals.
From Verif Require Import Base RSum MatrixModel.
Import ListNotations.
Open Scope R_scope.

(** [nq] rows (quadrature points), [n] columns (basis functions) *)
Definition shaped (nq n : nat) (M : Mat) : Prop := m_rows M = nq /\ m_cols M = n.
Definition sized (n : nat) (v : Vec) : Prop := v_size v = n.

(** value of component [d] of a family of matrices / vectors *)
Definition comp (l : list Mat) (d q i : nat) : R := m_at (nth d l (mzero 0 0)) q i.
Definition vcomp (l : list Vec) (d q : nat) : R := v_at (nth d l (vzero 0)) q.

(** A is an [r] x [c] matrix with these entries *)
Definition is_mat (A : Mat) (r c : nat) (f : nat -> nat -> R) : Prop :=
  m_rows A = r /\ m_cols A = c /\ forall i j, m_at A i j = f i j.
Definition is_vec (v : Vec) (n : nat) (f : nat -> R) : Prop :=
  v_size v = n /\ forall i, v_at v i = f i.

(** x^T A x *)
Definition quad_form (n : nat) (A : Mat) (x : nat -> R) : R :=
  rsum n (fun i => rsum n (fun j => x i * m_at A i j * x j)).
