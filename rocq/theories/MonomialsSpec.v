(** Vocabulary of the statements about monomials: nothing here refers to the model's functions. *)
From Coq Require Import List Arith Bool ZArith Reals.
From Verif Require Import Base RSum MatrixModel.
Import ListNotations.
Local Open Scope Z_scope.

(** total degree of an exponent tuple *)
Definition degree (e : list Z) : Z := fold_right Z.add 0 e.

(** exponent tuples of [dim] non-negative integers *)
Definition tuple (dim : nat) (e : list Z) : Prop := length e = dim /\ Forall (fun a => 0 <= a) e.

(** exponent [d] lowered by [c] *)
Definition lower (d : nat) (c : Z) (e : list Z) : list Z := replace e d (nth d e 0 - c).

Local Open Scope R_scope.

(** A point is a function from the coordinate number. *)
Definition point := nat -> R.

Fixpoint mono_from (d : nat) (e : list Z) (x : point) : R :=
  match e with
  | [] => 1
  | a :: t => x d ^ Z.to_nat a * mono_from (S d) t x
  end.
(** the monomial x_0^e_0 x_1^e_1 ... *)
Definition mono (e : list Z) (x : point) : R := mono_from 0 e x.

(** change coordinate [d] *)
Definition setc (x : point) (d : nat) (t : R) : point := fun i => if (i =? d)%nat then t else x i.

(** L is the partial derivative of f in direction d at x *)
Definition is_partial (f : point -> R) (d : nat) (x : point) (L : R) : Prop :=
  derivable_pt_lim (fun t => f (setc x d t)) (x d) L.

(** L is the Laplacian of f at x *)
Definition is_laplacian (dim : nat) (f : point -> R) (x : point) (L : R) : Prop :=
  exists (g : nat -> point -> R) (h : nat -> R),
    (forall d y, (d < dim)%nat -> is_partial f d y (g d y)) /\
    (forall d, (d < dim)%nat -> is_partial (g d) d x (h d)) /\
    L = rsum dim h.

(** the point seen from the centroid, scaled by the diameter *)
Definition scaled (centroid : point) (diam : R) (x : point) : point := fun d => (x d - centroid d) / diam.

(** column [q] of a matrix of points *)
Definition pt (points : Mat) (q : nat) : point := fun d => m_at points d q.

(** exponents of the i-th monomial of a table *)
Definition expo (exps : list (list Z)) (i : nat) : list Z := nth i exps [].
