(** Dense Eigen matrices and vectors: the operations the library uses.  Eigen is not in /repo;
    its operations are modelled by their definition over the real numbers.  A size mismatch
    (an Eigen assertion, undefined behaviour in release mode) is [UB]. *)
From Coq Require Import List Arith Bool Reals.
From Verif Require Import Base RSum.
Import ListNotations.

(** Eigen (not in /repo): MatrixXd, sizes and coefficients *)
Record Mat := { m_rows : nat; m_cols : nat; m_at : nat -> nat -> R }.
(** Eigen (not in /repo): VectorXd *)
Record Vec := { v_size : nat; v_at : nat -> R }.

(** Eigen (not in /repo): A(i,j), undefined outside the sizes *)
Definition mat_get (A : Mat) (i j : nat) : outcome R :=
  if (i <? m_rows A) && (j <? m_cols A) then Ok (m_at A i j) else UB.
(** Eigen (not in /repo): v(i) *)
Definition vec_get (v : Vec) (i : nat) : outcome R := if i <? v_size v then Ok (v_at v i) else UB.

Local Open Scope R_scope.

(** Eigen (not in /repo): MatrixXd::Zero(r, c) *)
Definition mzero (r c : nat) : Mat := {| m_rows := r; m_cols := c; m_at := fun _ _ => 0 |}.
(** Eigen (not in /repo): VectorXd::Zero(n) *)
Definition vzero (n : nat) : Vec := {| v_size := n; v_at := fun _ => 0 |}.
(** Eigen (not in /repo): A.transpose() *)
Definition mtrans (A : Mat) : Mat := {| m_rows := m_cols A; m_cols := m_rows A; m_at := fun i j => m_at A j i |}.
(** Eigen (not in /repo): A * B *)
Definition mmul (A B : Mat) : outcome Mat :=
  if (m_cols A =? m_rows B)%nat
  then Ok {| m_rows := m_rows A; m_cols := m_cols B; m_at := fun i j => rsum (m_cols A) (fun k => m_at A i k * m_at B k j) |}
  else UB.
(** Eigen (not in /repo): A * v *)
Definition mmulv (A : Mat) (v : Vec) : outcome Vec :=
  if (m_cols A =? v_size v)%nat
  then Ok {| v_size := m_rows A; v_at := fun i => rsum (m_cols A) (fun k => m_at A i k * v_at v k) |}
  else UB.
(** Eigen (not in /repo): A * w.asDiagonal() *)
Definition mdiag (A : Mat) (w : Vec) : outcome Mat :=
  if (m_cols A =? v_size w)%nat
  then Ok {| m_rows := m_rows A; m_cols := m_cols A; m_at := fun i j => m_at A i j * v_at w j |}
  else UB.
(** Eigen (not in /repo): A + B, A += B *)
Definition madd (A B : Mat) : outcome Mat :=
  if (m_rows A =? m_rows B)%nat && (m_cols A =? m_cols B)%nat
  then Ok {| m_rows := m_rows A; m_cols := m_cols A; m_at := fun i j => m_at A i j + m_at B i j |}
  else UB.
(** Eigen (not in /repo): v + w *)
Definition vadd (v w : Vec) : outcome Vec :=
  if (v_size v =? v_size w)%nat then Ok {| v_size := v_size v; v_at := fun i => v_at v i + v_at w i |} else UB.
(** Eigen (not in /repo): v.cwiseProduct(w) *)
Definition vcwise (v w : Vec) : outcome Vec :=
  if (v_size v =? v_size w)%nat then Ok {| v_size := v_size v; v_at := fun i => v_at v i * v_at w i |} else UB.
(** Eigen (not in /repo): c * A *)
Definition mscal (c : R) (A : Mat) : Mat := {| m_rows := m_rows A; m_cols := m_cols A; m_at := fun i j => c * m_at A i j |}.
(** Eigen (not in /repo): A(i,j) = x *)
Definition mat_set (A : Mat) (i j : nat) (x : R) : outcome Mat :=
  if ((i <? m_rows A) && (j <? m_cols A))%nat
  then Ok {| m_rows := m_rows A; m_cols := m_cols A;
             m_at := fun a b => if ((a =? i) && (b =? j))%nat then x else m_at A a b |}
  else UB.
(** Eigen (not in /repo): A.col(j) = v (an expression with as many rows) *)
Definition mat_set_col (A : Mat) (j : nat) (v : nat -> R) : outcome Mat :=
  if (j <? m_cols A)%nat
  then Ok {| m_rows := m_rows A; m_cols := m_cols A; m_at := fun a b => if (b =? j)%nat then v a else m_at A a b |}
  else UB.
(** Eigen (not in /repo): a matrix whose storage has been sized but not written (resize, resizeLike): [junk] is arbitrary *)
Definition mraw (junk : nat -> nat -> R) (r c : nat) : Mat := {| m_rows := r; m_cols := c; m_at := junk |}.
