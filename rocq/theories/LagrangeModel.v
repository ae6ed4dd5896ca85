(** Model of Interpolation/lagrange_1D.cpp and of FEM/PCC/1D (reference element and local space). *)
From Coq Require Import List Arith Bool Reals.
From Verif Require Import Base RSum MatrixModel MonomialsModel.
Import ListNotations.
Local Open Scope R_scope.

(** Eigen prod(): product of [n] coefficients, 1 if there are none *)
Fixpoint rprod (n : nat) (f : nat -> R) : R :=
  match n with O => 1 | S m => rprod m f * f m end.

(** Eigen (not in /repo): A.row(i) = v (an expression with as many columns) *)
Definition mat_set_row (A : Mat) (i : nat) (v : nat -> R) : outcome Mat :=
  if (i <? m_rows A)%nat
  then Ok {| m_rows := m_rows A; m_cols := m_cols A; m_at := fun a b => if (a =? i)%nat then v b else m_at A a b |}
  else UB.
(** Eigen (not in /repo): v[i] = x *)
Definition vec_set (v : Vec) (i : nat) (x : R) : outcome Vec :=
  if (i <? v_size v)%nat
  then Ok {| v_size := v_size v; v_at := fun a => if (a =? i)%nat then x else v_at v a |} else UB.

(** lagrange_1D.cpp 21-53; [junk]: contents of [differences] before it is written.
    A division by zero (coinciding points) is the [/ 0] of Coq's real numbers: no theorem is about that case. *)
Definition Lagrange_1D_coefficients (junk : nat -> nat -> R) (x : Vec) : outcome Vec :=
  let n := v_size x in
  if (n =? 0)%nat then Ok (vzero 0) else
  differences <- for_loop n (fun i D =>
      ' (D, _) <- for_loop n (fun j s =>
          let '(D, col) := s in
          if negb (j =? i)%nat then
            xi <- vec_get x i ;; xj <- vec_get x j ;;
            D' <- mat_set D i col (xi - xj) ;;
            Ok (D', S col)
          else Ok (D, col)) (D, O) ;;
      Ok D) (mraw junk n (n - 1)) ;;
  let coefficients := {| v_size := m_rows differences; v_at := fun i => rprod (m_cols differences) (fun j => m_at differences i j) |} in
  for_loop n (fun i c => ci <- vec_get c i ;; vec_set c i (1 / ci)) coefficients.

(** lagrange_1D.cpp 65-67, 94-96: differences.row(i) = y(i) - x.array() *)
Definition point_differences (junk : nat -> nat -> R) (x y : Vec) : outcome Mat :=
  for_loop (v_size y) (fun i D => yi <- vec_get y i ;; mat_set_row D i (fun j => yi - v_at x j)) (mraw junk (v_size y) (v_size x)).

(** lagrange_1D.cpp 55-82 *)
Definition Lagrange_1D_values (junk : nat -> nat -> R) (x c y : Vec) : outcome Mat :=
  let n := v_size x in
  let ne := v_size y in
  if (n =? 1)%nat then Ok {| m_rows := ne; m_cols := 1; m_at := fun _ _ => 1 |} else
  D <- point_differences junk x y ;;
  for_loop n (fun i V =>
    ci <- vec_get c i ;;
    V <- mat_set_col V i (fun _ => ci) ;;
    for_loop n (fun j V =>
      if negb (i =? j)%nat then
        vi <- mcol V i ;; dj <- mcol D j ;;
        mat_set_col V i (fun q => vi q * dj q)
      else Ok V) V) (mzero ne n).

(** lagrange_1D.cpp 84-122 *)
Definition Lagrange_1D_derivative_values (junk : nat -> nat -> R) (x c y : Vec) : outcome Mat :=
  let n := v_size x in
  let ne := v_size y in
  if (n =? 1)%nat then Ok {| m_rows := ne; m_cols := 1; m_at := fun _ _ => 0 |} else
  D <- point_differences junk x y ;;
  for_loop n (fun i V =>
    for_loop n (fun j V =>
      if (j =? i)%nat then Ok V else
      ci <- vec_get c i ;;
      col_value <- for_loop n (fun k v =>
          if ((k =? j) || (k =? i))%nat then Ok v
          else dk <- mcol D k ;; Ok (fun q : nat => v q * dk q)) (fun _ => ci) ;;
      vi <- mcol V i ;;
      mat_set_col V i (fun q => vi q + col_value q)) V) (mzero ne n).

(** ** FEM/PCC/1D *)

(** FEM_PCC_1D_ReferenceElement.hpp 30-34; the enumeration has no other value, so the default branch (109) is dead *)
Inductive FEM_PCC_1D_Types := Equispaced | GaussLobatto.

(** FEM_PCC_1D_ReferenceElement.hpp 36-51.  Not modelled: the quadrature and the tables of basis function values
    at its points (they are EvaluateBasisFunctions at those points). *)
Record FEM_1D_Data := {
  f1_Order : nat; f1_NumDofs0D : nat; f1_NumDofs1D : nat; f1_NumBasisFunctions : nat;
  f1_DofPositions : Mat;
  f1_coefficients : Vec }.

(** Eigen (not in /repo): points.row(i).transpose() *)
Definition row_vec (A : Mat) (i : nat) : outcome Vec :=
  r <- mrow A i ;; Ok {| v_size := m_cols A; v_at := r |}.

(** Eigen::VectorXd::LinSpaced(n, 0, 1); over the reals i / (n - 1); LinSpaced(1, 0, 1) is 1 *)
Definition LinSpaced01 (n : nat) : Vec :=
  {| v_size := n; v_at := fun i => if (n =? 1)%nat then 1 else INR i / INR (n - 1) |}.

(** FEM_PCC_1D_ReferenceElement.hpp 115-131: (nodeDofs, cellDofs, nodeDofsIndex[1], nodeDofsIndex[2], vertexCount) *)
Definition classify_1D (n : nat) : outcome (list nat * list nat * (nat * nat) * nat) :=
  for_loop n (fun i s =>
    let '(nodeDofs, cellDofs, (i1, i2), vertexCount) := s in
    Ok (if (i =? 0)%nat then (nodeDofs ++ [vertexCount], cellDofs, (S i1, i2), S vertexCount)
        else if (i =? n - 1)%nat then (nodeDofs ++ [vertexCount], cellDofs, (i1, S i2), S vertexCount)
        else (nodeDofs, cellDofs ++ [vertexCount], (i1, i2), S vertexCount))) ([], [], (0%nat, 0%nat), 0%nat).

(** FEM_PCC_1D_ReferenceElement.hpp 146, 150: DofPositions.col(dofCounter++) << dofPositions.col(src) *)
Definition copy_col (P : Mat) (src : nat) (s : Mat * nat) : outcome (Mat * nat) :=
  let '(Q, k) := s in
  c <- mcol P src ;; Q' <- mat_set_col Q k c ;; Ok (Q', S k).

(** FEM_PCC_1D_ReferenceElement.hpp 56-162; [lobatto order]: the first row of the points of the Gauss-Lobatto rule
    (class of gedim, not in /repo); assigning a row of another size is undefined, so the assertion of line 113 is never false. *)
Definition FEM_1D_Create (junk : nat -> nat -> R) (lobatto : nat -> Vec) (order : nat) (type : FEM_PCC_1D_Types) : outcome FEM_1D_Data :=
  if (order =? 0)%nat then
    Ok {| f1_Order := 0; f1_NumDofs0D := 0; f1_NumDofs1D := 1; f1_NumBasisFunctions := 1;
          f1_DofPositions := {| m_rows := 3; m_cols := 1; m_at := fun i _ => if (i =? 0)%nat then 1 / 2 else 0 |};
          f1_coefficients := vzero 1 |}
  else
    let n := (order + 1)%nat in
    let row0 := match type with Equispaced => LinSpaced01 n | GaussLobatto => lobatto (2 * order - 1)%nat end in
    if negb (v_size row0 =? n)%nat then UB else
    dofPositions <- mat_set_row (mzero 3 n) 0 (v_at row0) ;;
    ' (nodeDofs, cellDofs, (c1, c2), vertexCount) <- classify_1D n ;;
    let nodeDofsIndex := [0; 0 + c1; c2 + (0 + c1)]%nat in
    if negb (vertexCount =? n)%nat || negb (length nodeDofs =? nth 2 nodeDofsIndex 0)%nat then Throw else
    ' (Q, k) <- for_loop 2 (fun m s =>
        a <- idx_ nodeDofsIndex m ;; b <- idx_ nodeDofsIndex (m + 1) ;;
        for_from a (b - a) (fun i s => src <- idx_ nodeDofs i ;; copy_col dofPositions src s) s) (mraw junk 3 n, 0%nat) ;;
    ' (Q, k) <- for_loop (length cellDofs) (fun i s => src <- idx_ cellDofs i ;; copy_col dofPositions src s) (Q, k) ;;
    x <- row_vec Q 0 ;;
    coefficients <- Lagrange_1D_coefficients junk x ;;
    Ok {| f1_Order := order; f1_NumDofs0D := 1; f1_NumDofs1D := order - 1; f1_NumBasisFunctions := n;
          f1_DofPositions := Q; f1_coefficients := coefficients |}.

(** FEM_PCC_1D_ReferenceElement.hpp 186-192 *)
Definition FEM_1D_Values (junk : nat -> nat -> R) (points : Mat) (data : FEM_1D_Data) : outcome Mat :=
  x <- row_vec (f1_DofPositions data) 0 ;;
  y <- row_vec points 0 ;;
  Lagrange_1D_values junk x (f1_coefficients data) y.

(** FEM_PCC_1D_ReferenceElement.hpp 194-208 *)
Definition FEM_1D_Derivatives (junk : nat -> nat -> R) (points : Mat) (data : FEM_1D_Data) : outcome (list Mat) :=
  x <- row_vec (f1_DofPositions data) 0 ;;
  y <- row_vec points 0 ;;
  D <- Lagrange_1D_derivative_values junk x (f1_coefficients data) y ;;
  Ok [D].

(** FEM_PCC_1D_LocalSpace.hpp 23-50: the geometry of a segment and the data of its local space.  Not modelled: the
    quadrature and the fields used by no member function. *)
Record Segment := { sg_Origin : nat -> R; sg_Tangent : nat -> R; sg_Length : R }.
(** FEM_PCC_1D_LocalSpace.hpp 23-50 *)
Record FEM_1D_Local := {
  l1_Origin : nat -> R; l1_Tangent : nat -> R; l1_Length : R; l1_SquaredLength : R;
  l1_NumberOfBasisFunctions : nat;
  l1_DofsMeshOrder : list nat;
  l1_Dof0DsIndex : list nat; l1_Dof1DsIndex : list nat;
  l1_Dofs : Mat }.

(** FEM_PCC_1D_LocalSpace.hpp 55-63; points is 3 x n *)
Definition seg_F (junk : nat -> nat -> R) (O T : nat -> R) (x : Mat) : outcome Mat :=
  for_loop (m_cols x) (fun p P => s <- mat_get x 0 p ;; mat_set_col P p (fun d => O d + T d * s)) (mraw junk 3 (m_cols x)).

(** FEM_PCC_1D_LocalSpace.hpp 65-73: only row 0 is written, the others keep [junk] *)
Definition seg_FInv (junk : nat -> nat -> R) (O T : nat -> R) (sq : R) (x : Mat) : outcome Mat :=
  if negb (m_rows x =? 3)%nat then UB else
  for_loop (m_cols x) (fun p P => c <- mcol x p ;;
    mat_set P 0 p (rsum 3 (fun d => (c d - O d) * T d) / sq)) (mraw junk 3 (m_cols x)).

(** FEM_PCC_1D_LocalSpace.cpp 66-74 *)
Definition seg_MapValues (junk : nat -> nat -> R) (nbf : nat) (order : list nat) (ref : Mat) : outcome Mat :=
  for_loop nbf (fun d A => o <- at_ order d ;; c <- mcol ref d ;; mat_set_col A o c) (mraw junk (m_rows ref) nbf).

(** FEM_PCC_1D_LocalSpace.cpp 76-94 *)
Definition seg_MapDerivatives (junk : nat -> nat -> R) (nbf : nat) (order : list nat) (len : R) (ref : list Mat) : outcome (list Mat) :=
  r <- idx_ ref 0 ;;
  A <- seg_MapValues junk nbf order {| m_rows := m_rows r; m_cols := m_cols r; m_at := fun i j => m_at r i j / len |} ;;
  Ok [A].

(** FEM_PCC_1D_LocalSpace.cpp 43-47, 52-56: writes dofs [a..b) at the running position *)
Definition push_range (a b : nat) (s : list nat * nat) : outcome (list nat * nat) :=
  for_from a (b - a) (fun d s => let '(l, k) := s in l' <- set_idx l k d ;; Ok (l', S k)) s.

(** FEM_PCC_1D_LocalSpace.cpp 23-64 *)
Definition FEM_1D_CreateLocalSpace (junk : nat -> nat -> R) (data : FEM_1D_Data) (s : Segment) : outcome FEM_1D_Local :=
  let nbf := f1_NumBasisFunctions data in
  let v1 := (0 + f1_NumDofs0D data)%nat in
  let v2 := (v1 + f1_NumDofs0D data)%nat in
  st <- push_range 0 v1 (repeat 0%nat nbf, 0%nat) ;;
  st <- push_range v1 v2 st ;;
  let e1 := (v2 + f1_NumDofs1D data)%nat in
  ' (order, _) <- push_range v2 e1 st ;;
  P <- seg_F junk (sg_Origin s) (sg_Tangent s) (f1_DofPositions data) ;;
  Dofs <- seg_MapValues junk nbf order P ;;
  Ok {| l1_Origin := sg_Origin s; l1_Tangent := sg_Tangent s; l1_Length := sg_Length s; l1_SquaredLength := sg_Length s * sg_Length s;
        l1_NumberOfBasisFunctions := nbf; l1_DofsMeshOrder := order;
        l1_Dof0DsIndex := [0; v1; v2]%nat; l1_Dof1DsIndex := [v2; e1]; l1_Dofs := Dofs |}.

(** FEM_PCC_1D_LocalSpace.hpp 107-116 *)
Definition FEM_1D_LocalValues (junk : nat -> nat -> R) (data : FEM_1D_Data) (l : FEM_1D_Local) (points : Mat) : outcome Mat :=
  rp <- seg_FInv junk (l1_Origin l) (l1_Tangent l) (l1_SquaredLength l) points ;;
  V <- FEM_1D_Values junk rp data ;;
  seg_MapValues junk (l1_NumberOfBasisFunctions l) (l1_DofsMeshOrder l) V.

(** FEM_PCC_1D_LocalSpace.hpp 118-128 *)
Definition FEM_1D_LocalDerivatives (junk : nat -> nat -> R) (data : FEM_1D_Data) (l : FEM_1D_Local) (points : Mat) : outcome (list Mat) :=
  rp <- seg_FInv junk (l1_Origin l) (l1_Tangent l) (l1_SquaredLength l) points ;;
  V <- FEM_1D_Derivatives junk rp data ;;
  seg_MapDerivatives junk (l1_NumberOfBasisFunctions l) (l1_DofsMeshOrder l) (l1_Length l) V.
