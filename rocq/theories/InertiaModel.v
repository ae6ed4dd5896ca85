(** Model of Utilities/Inertia_Utilities.cpp: the map of a polygon or polyhedron to one with isotropic inertia.
    Eigen::Matrix3d, Vector3d have fixed sizes: matrices and vectors are functions read at indices below the size.
    Rounding is not modelled. *)
From Coq Require Import List Arith Bool Reals.
From Verif Require Import Base RSum.
Import ListNotations.
Local Open Scope R_scope.

(** Eigen (not in /repo): Matrix3d; only rows and columns below n are used *)
Definition Matrix := nat -> nat -> R.
(** Eigen (not in /repo): Vector3d *)
Definition Point := nat -> R.

(** Eigen (not in /repo): Identity *)
Definition Identity : Matrix := fun i j => if (i =? j)%nat then 1 else 0.
(** Eigen (not in /repo): a * A *)
Definition scale (a : R) (A : Matrix) : Matrix := fun i j => a * A i j.
(** Eigen (not in /repo): A * B *)
Definition product (n : nat) (A B : Matrix) : Matrix := fun i j => rsum n (fun k => A i k * B k j).
(** Eigen (not in /repo): A.transpose() *)
Definition transpose (A : Matrix) : Matrix := fun i j => A j i.
(** Eigen (not in /repo): v.asDiagonal() *)
Definition diagonal (v : Point) : Matrix := fun i j => if (i =? j)%nat then v i else 0.
(** Eigen (not in /repo): p - q *)
Definition subtract (p q : Point) : Point := fun i => p i - q i.
(** Eigen (not in /repo): p + q *)
Definition add (p q : Point) : Point := fun i => p i + q i.
(** Eigen (not in /repo): A * p *)
Definition apply (n : nat) (A : Matrix) (p : Point) : Point := fun i => rsum n (fun k => A i k * p k).
(** determinant() of Eigen for sizes 2 and 3 *)
Definition determinant2 (A : Matrix) : R := A 0%nat 0%nat * A 1%nat 1%nat - A 1%nat 0%nat * A 0%nat 1%nat.
(** Eigen (not in /repo): A.determinant() of a 3x3 matrix *)
Definition determinant3 (A : Matrix) : R :=
  A 0%nat 0%nat * (A 1%nat 1%nat * A 2%nat 2%nat - A 1%nat 2%nat * A 2%nat 1%nat)
  - A 1%nat 0%nat * (A 0%nat 1%nat * A 2%nat 2%nat - A 0%nat 2%nat * A 2%nat 1%nat)
  + A 2%nat 0%nat * (A 0%nat 1%nat * A 1%nat 2%nat - A 0%nat 2%nat * A 1%nat 1%nat).
(** A.topLeftCorner(2, 2) = B *)
Definition set_corner (A B : Matrix) : Matrix := fun i j => if ((i <? 2) && (j <? 2))%nat then B i j else A i j.
(** v.maxCoeff() of n >= 1 entries *)
Definition maxCoeff (n : nat) (v : Point) : R := fold_left (fun a i => Rmax a (v i)) (seq 1 (n - 1)) (v 0%nat).

(** Inertia_Utilities.hpp 22-29 *)
Record Inertia_Data := {
  Fmatrix : Matrix;
  FmatrixInv : Matrix;
  translation : Point;
  absDetFmatrix : R;
  signDetQ : R }.

(** what is not in /repo: Gedim PolygonMass / PolyhedronMass (a function of centroid and simplices), PolygonDiameter /
    PolyhedronDiameter (a function of the vertices), Eigen::SelfAdjointEigenSolver (None: info() is not Success) *)
Record Inertia_Externals := {
  Mass : Point -> list (list Point) -> Matrix;
  DiameterOf : list Point -> R;
  EigenSolver : Matrix -> option (Point * Matrix) }.

(** Bmatrix and BmatrixInv: 64-67, 141-144 *)
Definition Bmatrix_of (n : nat) (lambda : Point) (Q : Matrix) : Matrix :=
  scale (maxCoeff n (fun i => sqrt (lambda i))) (product n (diagonal (fun i => / sqrt (lambda i))) (transpose Q)).
(** Inertia_Utilities.cpp 64-67, 141-144 *)
Definition BmatrixInv_of (n : nat) (lambda : Point) (Q : Matrix) : Matrix :=
  scale (/ maxCoeff n (fun i => sqrt (lambda i))) (product n Q (diagonal (fun i => sqrt (lambda i)))).

(** Inertia_Utilities.cpp 22-93; the vertices and the triangles are lists of points *)
Definition InertiaMapping2D (x : Inertia_Externals) (vertices : list Point) (centroid : Point) (diameter : R)
  (triangulation : list (list Point)) : outcome Inertia_Data :=
  let FmatrixInv := scale (1 / diameter) Identity in
  let Fmatrix := scale diameter Identity in
  let absDet := 1 * (diameter * diameter) in
  let t := fun _ => 0 in
  let centroid1 := apply 3 FmatrixInv (subtract centroid t) in
  let triangulation1 := map (map (fun p => apply 3 FmatrixInv (subtract p t))) triangulation in
  match EigenSolver x (Mass x centroid1 triangulation1) with
  | None => Throw
  | Some (lambda, Q) =>
      let FmatrixInv := set_corner FmatrixInv (product 2 (Bmatrix_of 2 lambda Q) FmatrixInv) in
      let Fmatrix := set_corner Fmatrix (product 2 Fmatrix (BmatrixInv_of 2 lambda Q)) in
      let detB := determinant2 (BmatrixInv_of 2 lambda Q) in
      let signDetQ := if Rlt_dec (1 / 10 ^ 12) detB then 1 else -1 in
      let absDet := absDet * Rabs detB in
      let t := add t centroid in
      let diameter2 := DiameterOf x (map (fun p => apply 3 FmatrixInv (subtract p t)) vertices) in
      Ok {| Fmatrix := scale diameter2 Fmatrix; FmatrixInv := scale (1 / diameter2) FmatrixInv; translation := t;
            absDetFmatrix := absDet * (diameter2 * diameter2); signDetQ := signDetQ |}
  end.

(** Inertia_Utilities.cpp 95-163; signDetQ keeps the value found in the argument *)
Definition InertiaMapping3D (x : Inertia_Externals) (vertices : list Point) (centroid : Point) (diameter : R)
  (tetrahedra : list (list Point)) (argument : Inertia_Data) : outcome Inertia_Data :=
  let FmatrixInv := scale (1 / diameter) Identity in
  let Fmatrix := scale diameter Identity in
  let absDet := 1 * (diameter * diameter * diameter) in
  let t := fun _ => 0 in
  let centroid1 := apply 3 FmatrixInv (subtract centroid t) in
  let tetrahedra1 := map (map (fun p => apply 3 FmatrixInv (subtract p t))) tetrahedra in
  match EigenSolver x (Mass x centroid1 tetrahedra1) with
  | None => Throw
  | Some (lambda, Q) =>
      let FmatrixInv := product 3 (Bmatrix_of 3 lambda Q) FmatrixInv in
      let Fmatrix := product 3 Fmatrix (BmatrixInv_of 3 lambda Q) in
      let detB := determinant3 (BmatrixInv_of 3 lambda Q) in
      let absDet := absDet * Rabs detB in
      let t := add t centroid in
      let diameter2 := DiameterOf x (map (fun p => apply 3 FmatrixInv (subtract p t)) vertices) in
      Ok {| Fmatrix := scale diameter2 Fmatrix; FmatrixInv := scale (1 / diameter2) FmatrixInv; translation := t;
            absDetFmatrix := absDet * (diameter2 * diameter2 * diameter2); signDetQ := signDetQ argument |}
  end.
