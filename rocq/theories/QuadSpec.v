(** Vocabulary of the statements about finite elements on quadrilaterals. *)
From Coq Require Import List Arith Bool Reals.
From Verif Require Import Base RSum MatrixModel MonomialsSpec TriangleModel TriangleSpec QuadModel.
Open Scope R_scope.

(** the polynomial in two variables with coefficients [c], of degree at most [n] in each variable *)
Definition polyQ (n : nat) (c : nat -> nat -> R) (x y : R) : R :=
  rsum (S n) (fun a => rsum (S n) (fun b => c a b * (x ^ a * y ^ b))).

(** points of the plane in the closed unit square *)
Definition in_square (x : point) : Prop := 0 <= x 0%nat <= 1 /\ 0 <= x 1%nat <= 1 /\ x 2%nat = 0.

(** the bilinear map that sends the unit square to the quadrilateral with vertices [v 0], [v 1], [v 2], [v 3] *)
Definition bilinear (v : nat -> point) (x : point) : point :=
  fun i => (1 - x 0%nat) * (1 - x 1%nat) * v 0%nat i + x 0%nat * (1 - x 1%nat) * v 1%nat i +
           x 0%nat * x 1%nat * v 2%nat i + (1 - x 0%nat) * x 1%nat * v 3%nat i.

(** [F] is the bilinear map of the quadrilateral on the square and [G] undoes it there; both read three coordinates *)
Definition maps_square (F G : point -> point) (v : nat -> point) : Prop :=
  (forall x i, in_square x -> (i < 3)%nat -> F x i = bilinear v x i) /\
  (forall x i, in_square x -> (i < 2)%nat -> G (F x) i = x i) /\
  (forall x y, (forall i, (i < 3)%nat -> x i = y i) -> forall i, G x i = G y i).

(** [J] holds the partial derivatives at [x] of the first two components of [f] *)
Definition jacobian_at (f : point -> point) (x : point) (J : nat -> nat -> R) : Prop :=
  forall d, (d < 2)%nat -> is_partial (fun p => f p 0%nat) d x (J 0%nat d) /\ is_partial (fun p => f p 1%nat) d x (J 1%nat d).

(** the map of a quadrilateral and its inverse belong together *)
Definition good_map (m : QuadMap) : Prop :=
  match m with Parallelogram a => inverse3 (mt_B a) (mt_BInv a) | Generic g => exists v, maps_square (mq_F g) (mq_FInv g) v end.
