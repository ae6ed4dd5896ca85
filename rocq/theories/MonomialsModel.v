(** Model of Utilities/Monomials_1D.cpp, Monomials_2D.cpp, Monomials_3D.cpp and
    Utilities/Monomials_Utilities.hpp.

    Exponents are Eigen::VectorXi, i.e. lists of [Z] (machine overflow is not modelled: it needs
    degrees above one thousand in three dimensions).  The expressions of the code mix [unsigned int] and
    [int]; all their values fit, so they are computed in [Z]. *)
From Coq Require Import List Arith Bool ZArith Reals.
From Verif Require Import Base RSum MatrixModel.
Import ListNotations.
Local Open Scope Z_scope.

(** The part of a class Monomials_{1D,2D,3D} that changes with the dimension. *)
Record MonomialsClass := {
  mc_dim : nat;
  (** NumMonomials as a function of the polynomial degree *)
  mc_num : nat -> Z;
  (** exponents of monomial i from the exponents of monomial i - 1 *)
  mc_next : list Z -> outcome (list Z);
  mc_Index : list Z -> outcome Z;
  (** DerivativeIndices, SecondDerivativeIndices: exponents of the monomial and its index *)
  mc_der : list Z -> Z -> outcome (list Z);
  mc_der2 : list Z -> Z -> outcome (list Z) }.

(** Eigen (not in /repo): e.sum() *)
Definition esum (e : list Z) : Z := fold_right Z.add 0 e.

(** ** Monomials_1D.cpp *)

(** 27 *)
Definition num_1D (k : nat) : Z := Z.of_nat k + 1.
(** 36-37 *)
Definition next_1D (e : list Z) : outcome (list Z) := e0 <- idx_ e 0 ;; Ok [e0 + 1].
(** 53-59 *)
Definition Index_1D (e : list Z) : outcome Z :=
  e0 <- idx_ e 0 ;; if 0 <=? e0 then Ok (esum e) else Ok (-1).
(** 61-71 *)
Definition der_1D (e : list Z) (index : Z) : outcome (list Z) :=
  e0 <- idx_ e 0 ;;
  let x := index - 1 in
  Ok [if 0 <? e0 then x else -1].
(** 73-82 *)
Definition der2_1D (e : list Z) (index : Z) : outcome (list Z) :=
  e0 <- idx_ e 0 ;;
  let xx := index - 2 in
  Ok [if 1 <? e0 then xx else -1].

(** ** Monomials_2D.cpp *)

(** 29: the product by 0.5 is a division by two, exact because the product is even *)
Definition num_2D (k : nat) : Z := (Z.of_nat k + 1) * (Z.of_nat k + 2) / 2.
(** 38-42 *)
Definition next_2D (e : list Z) : outcome (list Z) :=
  e0 <- idx_ e 0 ;; e1 <- idx_ e 1 ;;
  if e0 =? 0 then Ok [e1 + 1; 0] else Ok [e0 - 1; e1 + 1].
(** 57-66 *)
Definition Index_2D (e : list Z) : outcome Z :=
  e0 <- idx_ e 0 ;; e1 <- idx_ e 1 ;;
  if (0 <=? e0) && (0 <=? e1) then
    let s := esum e in Ok (s * (s + 1) / 2 + e1)
  else Ok (-1).
(** 68-79 *)
Definition der_2D (e : list Z) (index : Z) : outcome (list Z) :=
  e0 <- idx_ e 0 ;; e1 <- idx_ e 1 ;;
  let x := index - esum e in
  Ok [if 0 <? e0 then x else -1; if 0 <? e1 then x - 1 else -1].
(** 81-91 *)
Definition der2_2D (e : list Z) (index : Z) : outcome (list Z) :=
  e0 <- idx_ e 0 ;; e1 <- idx_ e 1 ;;
  let xx := index + 1 - 2 * esum e in
  Ok [if 1 <? e0 then xx else -1; if 1 <? e1 then xx - 2 else -1].

(** ** Monomials_3D.cpp *)

(** 29 *)
Definition num_3D (k : nat) : Z := (Z.of_nat k + 1) * (Z.of_nat k + 2) * (Z.of_nat k + 3) / 6.
(** 39-47 *)
Definition next_3D (e : list Z) : outcome (list Z) :=
  e0 <- idx_ e 0 ;; e1 <- idx_ e 1 ;; e2 <- idx_ e 2 ;;
  if e0 =? 0 then
    if e1 =? 0 then Ok [e2 + 1; 0; 0] else Ok [e0 + e1 - 1; 0; e2 + 1]
  else Ok [e0 - 1; e1 + 1; e2].
(** 62-73 *)
Definition Index_3D (e : list Z) : outcome Z :=
  e0 <- idx_ e 0 ;; e1 <- idx_ e 1 ;; e2 <- idx_ e 2 ;;
  if (0 <=? e0) && (0 <=? e1) && (0 <=? e2) then
    let s := esum e in
    let sij := e0 + e1 in
    Ok ((s + 1) * (s + 2) * (s + 3) / 6 - (sij + 1) * (sij + 2) / 2 + e1)
  else Ok (-1).
(** 75-87 *)
Definition der_3D (e : list Z) (index : Z) : outcome (list Z) :=
  e0 <- idx_ e 0 ;; e1 <- idx_ e 1 ;; e2 <- idx_ e 2 ;;
  let xy := e0 + e1 in
  let xyz := xy + e2 in
  let z := index - (xyz + 1) * (xyz + 2) / 2 in
  let y := z + xy in
  Ok [if 0 <? e0 then y + 1 else -1; if 0 <? e1 then y else -1; if 0 <? e2 then z else -1].
(** 89-102 *)
Definition der2_3D (e : list Z) (index : Z) : outcome (list Z) :=
  e0 <- idx_ e 0 ;; e1 <- idx_ e 1 ;; e2 <- idx_ e 2 ;;
  let xy := e0 + e1 in
  let xyz := xy + e2 in
  let z := index - (xyz + 1) * (xyz + 1) in
  let x := z + 2 * xy + 1 in
  let y := x - 2 in
  Ok [if 1 <? e0 then x else -1; if 1 <? e1 then y else -1; if 1 <? e2 then z else -1].

(** Monomials_1D.hpp, Monomials_1D.cpp: the member functions above *)
Definition Monomials_1D : MonomialsClass :=
  {| mc_dim := 1; mc_num := num_1D; mc_next := next_1D; mc_Index := Index_1D; mc_der := der_1D; mc_der2 := der2_1D |}.
(** Monomials_2D.hpp, Monomials_2D.cpp *)
Definition Monomials_2D : MonomialsClass :=
  {| mc_dim := 2; mc_num := num_2D; mc_next := next_2D; mc_Index := Index_2D; mc_der := der_2D; mc_der2 := der2_2D |}.
(** Monomials_3D.hpp, Monomials_3D.cpp *)
Definition Monomials_3D : MonomialsClass :=
  {| mc_dim := 3; mc_num := num_3D; mc_next := next_3D; mc_Index := Index_3D; mc_der := der_3D; mc_der2 := der2_3D |}.

(** Monomials_Data.hpp 22-30 *)
Record Monomials_Data := {
  PolynomialDegree : nat;
  NumMonomials : nat;
  Exponents : list (list Z);
  DerivativeMatrices : list Mat;
  Laplacian : Mat }.

(** operator[] of std::vector with an [int]: a negative one is out of range *)
Definition zidx {A} (l : list A) (i : Z) : outcome A := if 0 <=? i then idx_ l (Z.to_nat i) else UB.

(** Monomials_1D.cpp 61-71, Monomials_2D.cpp 68-79, Monomials_3D.cpp 75-87: DerivativeIndices(data, index) *)
Definition DerivativeIndices (M : MonomialsClass) (data : Monomials_Data) (index : nat) : outcome (list Z) :=
  e <- idx_ (Exponents data) index ;; mc_der M e (Z.of_nat index).
(** Monomials_1D.cpp 73-82, Monomials_2D.cpp 81-91, Monomials_3D.cpp 89-102: SecondDerivativeIndices(data, index) *)
Definition SecondDerivativeIndices (M : MonomialsClass) (data : Monomials_Data) (index : nat) : outcome (list Z) :=
  e <- idx_ (Exponents data) index ;; mc_der2 M e (Z.of_nat index).

(** Monomials_1D.cpp 40-46, Monomials_2D.cpp 45-51, Monomials_3D.cpp 50-56: the entries of row [i] *)
Definition fill_row (i : nat) (e der der2 : list Z) (j : nat) (s : list Mat * Mat) : outcome (list Mat * Mat) :=
  let '(D, L) := s in
  dj <- idx_ der j ;;
  D' <- (if 0 <=? dj then
           ej <- idx_ e j ;; Dj <- idx_ D j ;;
           Dj' <- mat_set Dj i (Z.to_nat dj) (IZR ej) ;; set_idx D j Dj'
         else Ok D) ;;
  d2j <- idx_ der2 j ;;
  L' <- (if 0 <=? d2j then
           ej <- idx_ e j ;; mat_set L i (Z.to_nat d2j) (IZR (ej * (ej - 1)))
         else Ok L) ;;
  Ok (D', L').

(** Monomials_1D.cpp 34-47, Monomials_2D.cpp 36-52, Monomials_3D.cpp 37-57: body of the loop *)
Definition compute_step (M : MonomialsClass) (i : nat) (data : Monomials_Data) : outcome Monomials_Data :=
  prev <- idx_ (Exponents data) (i - 1) ;;
  e <- mc_next M prev ;;
  exps <- set_idx (Exponents data) i e ;;
  let data := {| PolynomialDegree := PolynomialDegree data; NumMonomials := NumMonomials data; Exponents := exps;
                 DerivativeMatrices := DerivativeMatrices data; Laplacian := Laplacian data |} in
  der <- DerivativeIndices M data i ;;
  der2 <- SecondDerivativeIndices M data i ;;
  ' (D, L) <- for_loop (mc_dim M) (fill_row i e der der2) (DerivativeMatrices data, Laplacian data) ;;
  Ok {| PolynomialDegree := PolynomialDegree data; NumMonomials := NumMonomials data; Exponents := Exponents data;
        DerivativeMatrices := D; Laplacian := L |}.

(** Monomials_1D.cpp 22-50, Monomials_2D.cpp 22-55, Monomials_3D.cpp 22-60.
    Exponents.resize(NumMonomials) makes empty vectors; Exponents[0].setZero(Dimension). *)
Definition Compute (M : MonomialsClass) (polynomial_degree : nat) : outcome Monomials_Data :=
  let num := Z.to_nat (mc_num M polynomial_degree) in
  exps <- set_idx (repeat ([] : list Z) num) 0 (repeat 0 (mc_dim M)) ;;
  for_from 1 (num - 1) (compute_step M)
    {| PolynomialDegree := polynomial_degree; NumMonomials := num; Exponents := exps;
       DerivativeMatrices := repeat (mzero num num) (mc_dim M); Laplacian := mzero num num |}.

(** ** Monomials_Utilities.hpp *)
Local Open Scope R_scope.

(** 46-56: VanderPartial; [points] has three rows, [centroid] is a Vector3d;
    entry 0 has [dimension] rows, the others have the rows of [points]. *)
Definition vander_partial (dim degree : nat) (points : Mat) (centroid : nat -> R) (diam : R) : outcome (list Mat) :=
  let inverseDiam := 1 / diam in
  let V0 := {| m_rows := dim; m_cols := m_cols points; m_at := fun _ _ => 1 |} in
  V1 <- (if (m_rows points =? 3)%nat
         then Ok {| m_rows := 3; m_cols := m_cols points; m_at := fun d q => (m_at points d q - centroid d) * inverseDiam |}
         else UB) ;;
  for_from 2 (degree - 1) (fun i VP =>
      Vp <- idx_ VP (i - 1) ;; V1' <- idx_ VP 1 ;;
      V <- (if (m_rows Vp =? m_rows V1')%nat && (m_cols Vp =? m_cols V1')%nat
            then Ok {| m_rows := m_rows Vp; m_cols := m_cols Vp; m_at := fun d q => m_at Vp d q * m_at V1' d q |}
            else UB) ;;
      Ok (VP ++ [V])) [V0; V1].

(** Eigen (not in /repo): A.row(d) *)
Definition mrow (A : Mat) (d : nat) : outcome (nat -> R) :=
  if (d <? m_rows A)%nat then Ok (fun q => m_at A d q) else UB.

(** 34-71; [junk]: contents of vander after resize *)
Definition Vander (dim : nat) (junk : nat -> nat -> R) (data : Monomials_Data) (points : Mat) (centroid : nat -> R) (diam : R)
  : outcome Mat :=
  let numPoints := m_cols points in
  if (1 <? NumMonomials data)%nat then
    VP <- vander_partial dim (PolynomialDegree data) points centroid diam ;;
    v <- mat_set_col (mraw junk numPoints (NumMonomials data)) 0 (fun _ => 1) ;;
    for_from 1 (NumMonomials data - 1) (fun i v =>
      expo <- idx_ (Exponents data) i ;;
      e0 <- idx_ expo 0 ;; P0 <- zidx VP e0 ;; r0 <- mrow P0 0 ;;
      v <- mat_set_col v i r0 ;;
      v <- (if (1 <? dim)%nat then
              e1 <- idx_ expo 1 ;; P1 <- zidx VP e1 ;; r1 <- mrow P1 1 ;;
              mat_set_col v i (fun q => m_at v q i * r1 q)
            else Ok v) ;;
      (if (2 <? dim)%nat then
         e2 <- idx_ expo 2 ;; P2 <- zidx VP e2 ;; r2 <- mrow P2 2 ;;
         mat_set_col v i (fun q => m_at v q i * r2 q)
       else Ok v)) v
  else Ok {| m_rows := numPoints; m_cols := 1; m_at := fun _ _ => 1 |}.

(** Eigen (not in /repo): A.col(j) *)
Definition mcol (A : Mat) (j : nat) : outcome (nat -> R) :=
  if (j <? m_cols A)%nat then Ok (fun q => m_at A q j) else UB.

(** 73-103; the contents of the [dim] matrices after resizeLike is [junk] *)
Definition VanderDerivatives (M : MonomialsClass) (junk : nat -> nat -> R) (data : Monomials_Data) (vander : Mat) (diam : R)
  : outcome (list Mat) :=
  let dim := mc_dim M in
  VD <- for_loop dim (fun i VD =>
          z <- mat_set_col (mraw junk (m_rows vander) (m_cols vander)) 0 (fun _ => 0) ;; Ok (VD ++ [z])) [] ;;
  if (1 <? NumMonomials data)%nat then
    let inverseDiam := 1 / diam in
    for_from 1 (NumMonomials data - 1) (fun k VD =>
      der <- DerivativeIndices M data k ;;
      for_loop dim (fun i VD =>
        d <- idx_ der i ;;
        Vi <- idx_ VD i ;;
        Vi' <- (if (0 <=? d)%Z then
                  Di <- idx_ (DerivativeMatrices data) i ;;
                  c <- mat_get Di k (Z.to_nat d) ;;
                  v <- mcol vander (Z.to_nat d) ;;
                  mat_set_col Vi k (fun q => inverseDiam * c * v q)
                else mat_set_col Vi k (fun _ => 0)) ;;
        set_idx VD i Vi') VD) VD
  else Ok VD.

(** 105-139 *)
Definition VanderLaplacian (M : MonomialsClass) (junk : nat -> nat -> R) (data : Monomials_Data) (vander : Mat) (diam : R)
  : outcome Mat :=
  let dim := mc_dim M in
  (** vanderLaplacian.block(0, 0, Vander.rows(), 3).setZero() *)
  VL <- (if (3 <=? m_cols vander)%nat
         then Ok (mraw (fun q i => if (i <? 3)%nat then 0 else junk q i) (m_rows vander) (m_cols vander))
         else UB) ;;
  let laplacian := Laplacian data in
  if (3 <? NumMonomials data)%nat then
    let inverseDiamSqrd := 1 / (diam * diam) in
    for_from 3 (NumMonomials data - 3) (fun k VL =>
      der2 <- SecondDerivativeIndices M data k ;;
      d0 <- idx_ der2 0 ;;
      VL <- (if (0 <=? d0)%Z then
               c <- mat_get laplacian k (Z.to_nat d0) ;;
               v <- mcol vander (Z.to_nat d0) ;;
               mat_set_col VL k (fun q => inverseDiamSqrd * c * v q)
             else mat_set_col VL k (fun _ => 0)) ;;
      for_from 1 (dim - 1) (fun i VL =>
        di <- idx_ der2 i ;;
        if (0 <=? di)%Z then
          c <- mat_get laplacian k (Z.to_nat di) ;;
          v <- mcol vander (Z.to_nat di) ;;
          mat_set_col VL k (fun q => m_at VL q k + inverseDiamSqrd * c * v q)
        else Ok VL) VL) VL
  else Ok VL.
