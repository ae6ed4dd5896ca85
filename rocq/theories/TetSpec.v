(** Vocabulary of the statements about the finite element on tetrahedra. *)
From Coq Require Import List Arith Bool Reals.
From Verif Require Import Base RSum MatrixModel MonomialsSpec TetModel.
Import ListNotations.
Local Open Scope R_scope.

(** column [q] of a matrix of points *)
Definition col3 (P : Mat) (q : nat) : point := fun d => m_at P d q.
(** column [q] of [P] is the point (x, y, z) *)
Definition at_point3 (P : Mat) (q : nat) (x y z : R) : Prop := m_at P 0 q = x /\ m_at P 1 q = y /\ m_at P 2 q = z.
(** barycentric coordinates in the tetrahedron (0,0,0), (1,0,0), (0,1,0), (0,0,1) *)
Definition bary (x : point) (k : nat) : R := match k with O => 1 - x 0%nat - x 1%nat - x 2%nat | S j => x j end.
(** [x] lies on a plane of the lattice of the given order, parallel to the face opposite to vertex [k], strictly between that face
    (included) and the point [node] *)
Definition plane_below (order : nat) (node x : point) : Prop :=
  exists k p, (k < 4)%nat /\ bary x k = INR p / INR order /\ INR p / INR order < bary node k.
(** polynomial in three variables of degree at most [n], with coefficients [c] *)
Definition poly3 (n : nat) (c : nat -> nat -> nat -> R) (x y z : R) : R :=
  rsum (S n) (fun a => rsum (S (n - a)) (fun b => rsum (S (n - a - b)) (fun e => c a b e * (x ^ a * y ^ b * z ^ e)))).
