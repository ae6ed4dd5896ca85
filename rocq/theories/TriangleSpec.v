(** Vocabulary of the statements about finite elements on triangles. *)
From Coq Require Import List Arith Bool Reals.
From Verif Require Import Base RSum MatrixModel.
Import ListNotations.
Open Scope R_scope.

(** column [d] of a matrix of points is the point (x, y, 0) *)
Definition at_point (P : Mat) (d : nat) (x y : R) : Prop := m_at P 0 d = x /\ m_at P 1 d = y /\ m_at P 2 d = 0.

(** the polynomial in two variables with coefficients [c], of degree at most [n] *)
Definition poly2 (n : nat) (c : nat -> nat -> R) (x y : R) : R :=
  rsum (S n) (fun a => rsum (S (n - a)) (fun b => c a b * (x ^ a * y ^ b))).

(** the affine map given by the matrix [B] and the vector [b], on points with three coordinates *)
Definition affine (B : nat -> nat -> R) (b : nat -> R) (x : nat -> R) : nat -> R := fun i => rsum 3 (fun k => B i k * x k) + b i.
(** [Bi] is the inverse of the 3 x 3 matrix [B] *)
Definition inverse3 (B Bi : nat -> nat -> R) : Prop :=
  forall i j, (i < 3)%nat -> (j < 3)%nat ->
    rsum 3 (fun k => B i k * Bi k j) = (if (i =? j)%nat then 1 else 0) /\ rsum 3 (fun k => Bi i k * B k j) = (if (i =? j)%nat then 1 else 0).
