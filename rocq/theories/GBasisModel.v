(** Model of Utilities/GBasis_2D.{hpp,cpp}, Utilities/GBasis_3D.{hpp,cpp} (decomposition of vector
    polynomials into gradients and their complement). *)
From Coq Require Import List Arith Bool ZArith Reals.
From Verif Require Import Base RSum MatrixModel MonomialsModel.
Import ListNotations.
Local Open Scope nat_scope.

(** Eigen (not in /repo): MatrixXi, sizes and coefficients, undefined out of range (GBasis_Data.hpp) *)
Record IMat := { im_rows : nat; im_cols : nat; im_at : nat -> nat -> Z }.

(** Eigen (not in /repo): A(i, j) with [int] arguments *)
Definition imat_get (A : IMat) (i j : Z) : outcome Z :=
  if ((0 <=? i) && (i <? Z.of_nat (im_rows A)) && (0 <=? j) && (j <? Z.of_nat (im_cols A)))%Z
  then Ok (im_at A (Z.to_nat i) (Z.to_nat j)) else UB.
(** Eigen (not in /repo): A(i, j) = v with [int] arguments *)
Definition imat_set (A : IMat) (i j : Z) (v : Z) : outcome IMat :=
  if ((0 <=? i) && (i <? Z.of_nat (im_rows A)) && (0 <=? j) && (j <? Z.of_nat (im_cols A)))%Z
  then Ok {| im_rows := im_rows A; im_cols := im_cols A;
             im_at := fun a b => if (a =? Z.to_nat i) && (b =? Z.to_nat j) then v else im_at A a b |}
  else UB.

(** std::vector<std::vector<std::vector<unsigned>>> of equal sizes [t_n] (GBasis_3D.cpp 38-45), read and
    written with [operator[]].  Simplification: the three nested vectors are one function. *)
Record Table3 := { t_n : nat; t_at : nat -> nat -> nat -> nat }.

(** whether three indices are inside the table (GBasis_3D.cpp 38-45) *)
Definition in_table (T : Table3) (a b c : Z) : bool :=
  ((0 <=? a) && (a <? Z.of_nat (t_n T)) && (0 <=? b) && (b <? Z.of_nat (t_n T)) && (0 <=? c) && (c <? Z.of_nat (t_n T)))%Z.
(** operator[] on the table, read (GBasis_3D.cpp) *)
Definition t_get (T : Table3) (a b c : Z) : outcome Z :=
  if in_table T a b c then Ok (Z.of_nat (t_at T (Z.to_nat a) (Z.to_nat b) (Z.to_nat c))) else UB.
(** operator[] on the table, write (GBasis_3D.cpp) *)
Definition t_set (T : Table3) (a b c : Z) (v : nat) : outcome Table3 :=
  if in_table T a b c
  then Ok {| t_n := t_n T;
             t_at := fun x y z => if (x =? Z.to_nat a) && (y =? Z.to_nat b) && (z =? Z.to_nat c) then v else t_at T x y z |}
  else UB.

(** GBasis_2D.cpp and GBasis_3D.cpp: VectorDecomposition[i][g](j, col) = v; [col] is an [int] *)
Definition put (VD : list (list Mat)) (i g j : nat) (col : Z) (v : R) : outcome (list (list Mat)) :=
  row <- idx_ VD i ;;
  A <- idx_ row g ;;
  A' <- (if (0 <=? col)%Z then mat_set A j (Z.to_nat col) v else UB) ;;
  row' <- set_idx row g A' ;;
  set_idx VD i row'.

(** GBasis_Data.hpp 24-45: the fields used by the two classes (NkGBigOPlus and NkGNabla are never set) *)
Record GBasis_Data := {
  gb_degree : nat;
  gb_monomials : Monomials_Data;
  gb_Nk : nat; gb_Nkm1 : nat; gb_Nkp1 : nat;
  gb_VectorDecomposition : list (list Mat);
  gb_MatrixExponents : IMat;
  gb_DimFirstBasis : nat;
  gb_MapExponents : Table3;
  gb_SaveFirstGroup : list nat;
  gb_MapFirstGroup : list Z }.

(** ** GBasis_2D *)

(** GBasis_2D.cpp 34-43 *)
Definition fill_MatrixExponents (exps : list (list Z)) (Nkp1 : nat) : outcome IMat :=
  A <- imat_set {| im_rows := Nkp1; im_cols := Nkp1; im_at := fun _ _ => (-1)%Z |} 0 0 0 ;;
  for_from 1 (Nkp1 - 1) (fun i A =>
    p <- idx_ exps (i - 1) ;;
    p0 <- idx_ p 0 ;; p1 <- idx_ p 1 ;;
    if (p0 =? 0)%Z then imat_set A (p1 + 1) 0 (Z.of_nat i)
    else imat_set A (p0 - 1) (p1 + 1) (Z.of_nat i)) A.

(** GBasis_2D.cpp 73-84: (idx[0](0), idx[0](1), idx[1](0), idx[1](1)) *)
Definition VectorDecompositionIndices_2D (A : IMat) (e : list Z) : outcome (Z * Z * (Z * Z)) :=
  e0 <- idx_ e 0 ;; e1 <- idx_ e 1 ;;
  a <- imat_get A (e0 + 1) e1 ;;
  b <- (if (0 <? e1)%Z then imat_get A e0 (e1 - 1) else Ok (-1)%Z) ;;
  c <- imat_get A e0 (e1 + 1) ;;
  d <- (if (0 <? e0)%Z then imat_get A (e0 - 1) e1 else Ok (-1)%Z) ;;
  Ok (a, b, (c, d)).

Local Open Scope R_scope.

(** GBasis_2D.cpp 54-69: one row of the decomposition *)
Definition decompose_2D (exps : list (list Z)) (A : IMat) (j : nat) (VD : list (list Mat)) : outcome (list (list Mat)) :=
  e <- idx_ exps j ;;
  ' (a, b, (c, d)) <- VectorDecompositionIndices_2D A e ;;
  e0 <- idx_ e 0 ;; e1 <- idx_ e 1 ;;
  let s := IZR (esum e + 1) in
  VD <- put VD 0 0 j a (1 / s) ;;
  VD <- (if (0 <? e1)%Z then put VD 0 1 j b (IZR e1 / s) else Ok VD) ;;
  VD <- put VD 1 0 j c (1 / s) ;;
  (if (0 <? e0)%Z then put VD 1 1 j d (- IZR e0 / s) else Ok VD).

Local Open Scope nat_scope.

(** GBasis_2D.cpp 22-72.  The products by 0.5 are exact halves (the products are even). *)
Definition GBasis_2D_Compute (k : nat) : outcome GBasis_Data :=
  m <- Compute Monomials_2D (k + 1) ;;
  let Nk := (k + 1) * (k + 2) / 2 in
  let Nkp1 := (k + 2) * (k + 3) / 2 in
  let Nkm1 := k * (k + 1) / 2 in
  A <- fill_MatrixExponents (Exponents m) Nkp1 ;;
  VD <- for_loop Nk (decompose_2D (Exponents m) A)
          (repeat [mzero Nk Nkp1; mzero Nk Nkm1] 2) ;;
  Ok {| gb_degree := k; gb_monomials := m; gb_Nk := Nk; gb_Nkm1 := Nkm1; gb_Nkp1 := Nkp1;
        gb_VectorDecomposition := VD; gb_MatrixExponents := A;
        gb_DimFirstBasis := 0; gb_MapExponents := {| t_n := 0; t_at := fun _ _ _ => 0 |};
        gb_SaveFirstGroup := []; gb_MapFirstGroup := [] |}.

(** Eigen (not in /repo): A.leftCols(n), GBasis_3D.cpp 146 *)
Definition left_cols (A : Mat) (n : nat) : outcome Mat :=
  if n <=? m_cols A then Ok {| m_rows := m_rows A; m_cols := n; m_at := m_at A |} else UB.

Local Open Scope R_scope.

(** Eigen (not in /repo): A.array().colwise() * v.array(), GBasis_3D.cpp 146-148 *)
Definition colwise (A : Mat) (v : nat -> R) : Mat :=
  {| m_rows := m_rows A; m_cols := m_cols A; m_at := fun q i => m_at A q i * v q |}.

(** GBasis_2D.hpp 36-42 *)
Definition VanderGBigOPlus_2D (data : GBasis_Data) (vander : Mat) : outcome (list Mat) :=
  L <- left_cols vander (gb_Nkm1 data) ;;
  y <- mcol vander 2 ;;
  x <- mcol vander 1 ;;
  Ok [colwise L y; colwise L (fun q => -1 * x q)].

(** ** GBasis_3D *)
Local Open Scope nat_scope.

(** GBasis_3D.cpp 38-60 (entries of a resized vector of unsigned are zero) *)
Definition fill_MapExponents (exps : list (list Z)) (Nkp1 : nat) : outcome Table3 :=
  for_from 1 (Nkp1 - 1) (fun i T =>
    p <- idx_ exps (i - 1) ;;
    p0 <- idx_ p 0 ;; p1 <- idx_ p 1 ;; p2 <- idx_ p 2 ;;
    if (p0 =? 0)%Z then
      if (p1 =? 0)%Z then t_set T (p2 + 1) 0 0 i
      else t_set T (p0 + p1 - 1) 0 (p2 + 1) i
    else t_set T (p0 - 1) (p1 + 1) p2 i) {| t_n := Nkp1; t_at := fun _ _ _ => 0 |}.

(** GBasis_3D.cpp 73-82: MapFirstGroup and SaveFirstGroup *)
Definition first_group (exps : list (list Z)) (Nkm1 : nat) : outcome (list Z * list nat) :=
  for_loop Nkm1 (fun j s =>
    let '(mp, sv) := s in
    e <- idx_ exps j ;;
    e0 <- idx_ e 0 ;;
    if (e0 =? 0)%Z then
      mp' <- set_idx mp j (Z.of_nat (length sv)) ;;
      Ok (mp', sv ++ [j])
    else Ok (mp, sv)) (repeat (-1)%Z Nkm1, []).

(** GBasis_3D.cpp 118-136: three rows of four indices (entry 1 of row 0 keeps its initial -1) *)
Definition VectorDecompositionIndices_3D (T : Table3) (e : list Z) : outcome (list (list Z)) :=
  e0 <- idx_ e 0 ;; e1 <- idx_ e 1 ;; e2 <- idx_ e 2 ;;
  i00 <- t_get T (e0 + 1) e1 e2 ;;
  i02 <- (if (0 <? e2)%Z then t_get T e0 e1 (e2 - 1) else Ok (-1)%Z) ;;
  i03 <- (if (0 <? e1)%Z then t_get T e0 (e1 - 1) e2 else Ok (-1)%Z) ;;
  i10 <- t_get T e0 (e1 + 1) e2 ;;
  i11 <- (if ((e0 =? 0) && (0 <? e2))%Z then t_get T e0 e1 (e2 - 1) else Ok (-1)%Z) ;;
  i12 <- (if ((0 <? e0) && (0 <? e2))%Z then t_get T (e0 - 1) (e1 + 1) (e2 - 1) else Ok (-1)%Z) ;;
  i13 <- (if (0 <? e0)%Z then t_get T (e0 - 1) e1 e2 else Ok (-1)%Z) ;;
  i20 <- t_get T e0 e1 (e2 + 1) ;;
  i21 <- (if ((e0 =? 0) && (0 <? e1))%Z then t_get T e0 (e1 - 1) e2 else Ok (-1)%Z) ;;
  i22 <- (if (0 <? e0)%Z then t_get T (e0 - 1) e1 e2 else Ok (-1)%Z) ;;
  i23 <- (if ((0 <? e0) && (0 <? e1))%Z then t_get T (e0 - 1) (e1 - 1) (e2 + 1) else Ok (-1)%Z) ;;
  Ok [[i00; (-1)%Z; i02; i03]; [i10; i11; i12; i13]; [i20; i21; i22; i23]].

Local Open Scope R_scope.

(** GBasis_3D.cpp: "if (cond) VectorDecomposition[i][g](j, index[i](g)) = v" *)
Definition put_if (cond : bool) (VD : list (list Mat)) (i g j : nat) (I : list (list Z)) (v : R) : outcome (list (list Mat)) :=
  if cond then row <- idx_ I i ;; col <- idx_ row g ;; put VD i g j col v else Ok VD.

(** "if (cond) VectorDecomposition[i][1](j, MapFirstGroup[index[i](1)]) = v" *)
Definition put_first_if (cond : bool) (mp : list Z) (VD : list (list Mat)) (i j : nat) (I : list (list Z)) (v : R)
  : outcome (list (list Mat)) :=
  if cond then row <- idx_ I i ;; c <- idx_ row 1 ;; col <- zidx mp c ;; put VD i 1 j col v else Ok VD.

(** GBasis_3D.cpp 84-114: one row of the decomposition *)
Definition decompose_3D (exps : list (list Z)) (T : Table3) (mp : list Z) (j : nat) (VD : list (list Mat))
  : outcome (list (list Mat)) :=
  e <- idx_ exps j ;;
  I <- VectorDecompositionIndices_3D T e ;;
  e0 <- idx_ e 0 ;; e1 <- idx_ e 1 ;; e2 <- idx_ e 2 ;;
  let inv := 1 / (IZR (esum e) + 1) in
  VD <- put_if true VD 0 0 j I inv ;;
  VD <- put_if (0 <? e2)%Z VD 0 2 j I (- IZR e2 * inv) ;;
  VD <- put_if (0 <? e1)%Z VD 0 3 j I (IZR e1 * inv) ;;
  VD <- put_if true VD 1 0 j I inv ;;
  VD <- put_first_if ((0 <? e2) && (e0 =? 0))%Z mp VD 1 j I (IZR e2 * inv) ;;
  VD <- put_if ((0 <? e0) && (0 <? e2))%Z VD 1 2 j I (- IZR e2 * inv) ;;
  VD <- put_if (0 <? e0)%Z VD 1 3 j I (- IZR (e0 + e2) * inv) ;;
  VD <- put_if true VD 2 0 j I inv ;;
  VD <- put_first_if ((0 <? e1) && (e0 =? 0))%Z mp VD 2 j I (- IZR e1 * inv) ;;
  VD <- put_if (0 <? e0)%Z VD 2 2 j I (IZR (e0 + e1) * inv) ;;
  put_if ((0 <? e0) && (0 <? e1))%Z VD 2 3 j I (IZR e1 * inv).

Local Open Scope nat_scope.

(** GBasis_3D.cpp 22-116.  [polynomial_degree - 1] is an unsigned subtraction, multiplied by
    [polynomial_degree]: for degree zero the product is zero, as with the truncated subtraction. *)
Definition GBasis_3D_Compute (k : nat) : outcome GBasis_Data :=
  m <- Compute Monomials_3D (k + 1) ;;
  let Nk := (k + 1) * (k + 2) * (k + 3) / 6 in
  let Nkp1 := (k + 2) * (k + 3) * (k + 4) / 6 in
  let Nkm1 := k * (k + 1) * (k + 2) / 6 in
  let Dim1 := Nkm1 - (k - 1) * k * (k + 1) / 6 in
  T <- fill_MapExponents (Exponents m) Nkp1 ;;
  ' (mp, sv) <- first_group (Exponents m) Nkm1 ;;
  VD <- for_loop Nk (decompose_3D (Exponents m) T mp)
          (repeat [mzero Nk Nkp1; mzero Nk Dim1; mzero Nk Nkm1; mzero Nk Nkm1] 3) ;;
  Ok {| gb_degree := k; gb_monomials := m; gb_Nk := Nk; gb_Nkm1 := Nkm1; gb_Nkp1 := Nkp1;
        gb_VectorDecomposition := VD; gb_MatrixExponents := {| im_rows := 0; im_cols := 0; im_at := fun _ _ => 0%Z |};
        gb_DimFirstBasis := Dim1; gb_MapExponents := T; gb_SaveFirstGroup := sv; gb_MapFirstGroup := mp |}.

(** Eigen (not in /repo): A.middleCols(s, B.cols()) = B, GBasis_3D.cpp 157-163 *)
Definition set_middle_cols (A : Mat) (s : nat) (B : Mat) : outcome Mat :=
  if (s + m_cols B <=? m_cols A) && (m_rows A =? m_rows B)
  then Ok {| m_rows := m_rows A; m_cols := m_cols A;
             m_at := fun q c => if (s <=? c) && (c <? s + m_cols B) then m_at B q (c - s) else m_at A q c |}
  else UB.

(** Eigen (not in /repo): -A, GBasis_3D.cpp 157 *)
Definition mneg (A : Mat) : Mat := {| m_rows := m_rows A; m_cols := m_cols A; m_at := fun q c => (- m_at A q c)%R |}.

(** GBasis_3D.cpp 138-166 *)
Definition VanderGBigOPlus_3D (data : GBasis_Data) (vander : Mat) : outcome (list Mat) :=
  let Z0 := mzero (m_rows vander) (gb_DimFirstBasis data + 2 * gb_Nkm1 data) in
  if m_cols vander <? 4 then Ok [Z0; Z0; Z0] else
  L <- left_cols vander (gb_Nkm1 data) ;;
  z <- mcol vander 3 ;; y <- mcol vander 2 ;; x <- mcol vander 1 ;;
  let tmpZ := colwise L z in let tmpY := colwise L y in let tmpX := colwise L x in
  ' (_, B1, B2) <- foldM (fun '(count, B1, B2) i =>
      zi <- mcol tmpZ i ;; B1' <- mat_set_col B1 count zi ;;
      yi <- mcol tmpY i ;; B2' <- mat_set_col B2 count (fun q => (- yi q)%R) ;;
      Ok (S count, B1', B2')) (gb_SaveFirstGroup data) (0, Z0, Z0) ;;
  let d := gb_DimFirstBasis data in
  let O := mzero (m_rows vander) (gb_Nkm1 data) in
  B0 <- set_middle_cols Z0 d (mneg tmpZ) ;;
  B1 <- set_middle_cols B1 d O ;;
  B2 <- set_middle_cols B2 d tmpX ;;
  B0 <- set_middle_cols B0 (d + gb_Nkm1 data) tmpY ;;
  B1 <- set_middle_cols B1 (d + gb_Nkm1 data) (mneg tmpX) ;;
  B2 <- set_middle_cols B2 (d + gb_Nkm1 data) O ;;
  Ok [B0; B1; B2].

(** GBasis_3D.hpp 40-51: VectorDecomposition(data), the last three blocks side by side *)
Definition VectorDecomposition_3D (data : GBasis_Data) : outcome (list (list Mat)) :=
  for_loop 3 (fun i res =>
    row <- idx_ (gb_VectorDecomposition data) i ;;
    A <- idx_ row 0 ;; B1 <- idx_ row 1 ;; B2 <- idx_ row 2 ;; B3 <- idx_ row 3 ;;
    let n1 := gb_DimFirstBasis data in let n2 := gb_Nkm1 data in
    C <- set_middle_cols (mzero (gb_Nk data) (2 * n2 + n1)) 0 B1 ;;
    C <- set_middle_cols C (m_cols B1) B2 ;;
    C <- set_middle_cols C (m_cols B1 + m_cols B2) B3 ;;
    Ok (res ++ [[A; C]])) [].
