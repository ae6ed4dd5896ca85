(** Vocabulary of the statements about one dimensional interpolation. *)
From Coq Require Import List Arith Bool Reals.
From Verif Require Import Base RSum MatrixModel.
Import ListNotations.
Open Scope R_scope.

(** the first [n] points are pairwise distinct *)
Definition distinct (n : nat) (x : nat -> R) : Prop := forall i j, (i < n)%nat -> (j < n)%nat -> x i = x j -> i = j.

(** the polynomial a_0 + a_1 t + ... + a_{n-1} t^(n-1) *)
Definition polynomial (n : nat) (a : nat -> R) (t : R) : R := rsum n (fun k => a k * t ^ k).

Definition kron (i j : nat) : R := if (i =? j)%nat then 1 else 0.

(** a list of one evaluation point *)
Definition one_point (t : R) : Vec := {| v_size := 1; v_at := fun _ => t |}.
(** one evaluation point in space *)
Definition space_point (p : nat -> R) : Mat := {| m_rows := 3; m_cols := 1; m_at := fun d _ => p d |}.

(** scalar product of vectors of three coordinates *)
Definition dot3 (u v : nat -> R) : R := u 0%nat * v 0%nat + u 1%nat * v 1%nat + u 2%nat * v 2%nat.
