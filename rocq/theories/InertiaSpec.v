(** Vocabulary of the statements about the inertia mapping. *)
From Coq Require Import List Arith Bool Reals.
From Verif Require Import Base RSum InertiaModel.
Import ListNotations.
Local Open Scope R_scope.

Definition delta (i j : nat) : R := if (i =? j)%nat then 1 else 0.

(** eigenvalues and orthonormal eigenvectors of H *)
Record eigen_pairs (n : nat) (H : nat -> nat -> R) (lambda : nat -> R) (Q : nat -> nat -> R) : Prop := {
  ep_columns : forall i j, (i < n)%nat -> (j < n)%nat -> rsum n (fun k => Q k i * Q k j) = delta i j;
  ep_rows : forall i j, (i < n)%nat -> (j < n)%nat -> rsum n (fun k => Q i k * Q j k) = delta i j;
  ep_eigen : forall i j, (i < n)%nat -> (j < n)%nat -> rsum n (fun k => H i k * Q k j) = lambda j * Q i j;
  ep_positive : forall i, (i < n)%nat -> 0 < lambda i }.

(** A and B are inverse of each other *)
Definition inverse (n : nat) (A B : nat -> nat -> R) : Prop :=
  forall i j, (i < n)%nat -> (j < n)%nat -> rsum n (fun k => A i k * B k j) = delta i j /\ rsum n (fun k => B i k * A k j) = delta i j.
Definition det2 (A : nat -> nat -> R) : R := A 0%nat 0%nat * A 1%nat 1%nat - A 0%nat 1%nat * A 1%nat 0%nat.
(** rule of Sarrus *)
Definition det3 (A : nat -> nat -> R) : R :=
  A 0%nat 0%nat * A 1%nat 1%nat * A 2%nat 2%nat + A 0%nat 1%nat * A 1%nat 2%nat * A 2%nat 0%nat + A 0%nat 2%nat * A 1%nat 0%nat * A 2%nat 1%nat
  - A 0%nat 2%nat * A 1%nat 1%nat * A 2%nat 0%nat - A 0%nat 1%nat * A 1%nat 0%nat * A 2%nat 2%nat - A 0%nat 0%nat * A 1%nat 2%nat * A 2%nat 1%nat.

(** second moments about c of weighted points *)
Definition second_moment (rule : list (R * (nat -> R))) (c : nat -> R) (i j : nat) : R :=
  lsum (fun wp => fst wp * ((snd wp i - c i) * (snd wp j - c j))) rule.
(** the rule for the rescaled simplices: points divided by the diameter *)
Definition rescaled (d : R) (rule : list (R * (nat -> R))) : list (R * (nat -> R)) := map (fun wp => (fst wp, fun i => snd wp i / d)) rule.

(** the image of a point: FmatrixInv (p - translation) *)
Definition mapped (n : nat) (D : Inertia_Data) (p : nat -> R) : nat -> R :=
  fun i => rsum n (fun k => FmatrixInv D i k * (p k - translation D k)).
Definition mapped_back (n : nat) (D : Inertia_Data) (y : nat -> R) : nat -> R :=
  fun i => rsum n (fun k => Fmatrix D i k * y k) + translation D i.

(** what the mapping needs: positive diameters and, for the matrix given to the eigensolver, the eigenvalues and eigenvectors *)
Record inertia_inputs (n : nat) (x : Inertia_Externals) (vertices : list (nat -> R)) (centroid : nat -> R) (diameter : R)
  (simplices : list (list (nat -> R))) (H : nat -> nat -> R) : Prop := {
  ii_diameter : 0 < diameter;
  ii_second : forall l, length l = length vertices -> 0 < DiameterOf x l;
  ii_mass : Mass x (fun i => rsum 3 (fun k => (1 / diameter * delta i k) * (centroid k - 0)))
     (map (map (fun p i => rsum 3 (fun k => (1 / diameter * delta i k) * (p k - 0)))) simplices) = H;
  ii_solver : exists lambda Q, EigenSolver x H = Some (lambda, Q) /\ eigen_pairs n H lambda Q }.
