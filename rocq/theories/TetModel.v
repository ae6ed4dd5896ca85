(** Model of FEM/PCC/3D/FEM_Tetrahedron_PCC_3D_ReferenceElement.hpp. *)
From Coq Require Import List Arith Bool ZArith Reals.
From Verif Require Import Base RSum MatrixModel MonomialsModel VemQuadModel TriangleModel.
Import ListNotations.
Local Open Scope R_scope.

(** A matrix of doubles whose coefficients may be not a number: [None] is the result of a division by zero and of every
    operation on such a result.  Simplification: infinities are not told from not a number. *)
Record FMat := { f_rows : nat; f_cols : nat; f_at : nat -> nat -> option R }.
(** double division *)
Definition fdiv (x y : R) : option R := if Req_EM_T y 0 then None else Some (x / y).
(** double addition *)
Definition fadd (x y : option R) : option R := match x, y with Some a, Some b => Some (a + b) | _, _ => None end.
(** Eigen (not in /repo): MatrixXd::Zero(r, c) *)
Definition fzero (r c : nat) : FMat := {| f_rows := r; f_cols := c; f_at := fun _ _ => Some 0 |}.
(** a matrix of numbers *)
Definition of_mat (A : Mat) : FMat := {| f_rows := m_rows A; f_cols := m_cols A; f_at := fun i j => Some (m_at A i j) |}.
(** Eigen (not in /repo): A.col(j) *)
Definition fcol (A : FMat) (j : nat) : outcome (nat -> option R) := if (j <? f_cols A)%nat then Ok (fun i => f_at A i j) else UB.
(** Eigen (not in /repo): A.col(j) = v *)
Definition fset_col (A : FMat) (j : nat) (v : nat -> option R) : outcome FMat :=
  if (j <? f_cols A)%nat
  then Ok {| f_rows := f_rows A; f_cols := f_cols A; f_at := fun a b => if (b =? j)%nat then v a else f_at A a b |}
  else UB.

(** Eigen (not in /repo): the four components of "v << a, b, c, d" *)
Definition vec4 {A} (a b c d : A) : nat -> A := fun i => match i with O => a | S O => b | S (S O) => c | _ => d end.

(** FEM_Tetrahedron_PCC_3D_ReferenceElement.hpp 27-52.  DofTypes: one array of four numbers for each basis function.
    Not modelled: the one dimensional data of the edges. *)
Record Tet_Data := {
  te_Order : nat; te_NumDofs0D : nat; te_NumDofs1D : nat; te_NumDofs2D : nat; te_NumDofs3D : nat; te_NumBasisFunctions : nat;
  te_DofPositions : Mat;
  te_DofTypes : list (nat -> nat);
  te_Quadrature : QuadratureData;
  te_Values : Mat;
  te_Derivatives : list FMat;
  te_Boundary : Tri_Data }.

(** FEM_Tetrahedron_PCC_3D_ReferenceElement.hpp 292-303 *)
Definition Tet_Lambda (points : Mat) : outcome Mat :=
  x <- mrow points 0 ;; y <- mrow points 1 ;; z <- mrow points 2 ;;
  Ok {| m_rows := m_cols points; m_cols := 4; m_at := fun q => vec4 (1 - x q - y q - z q) (x q) (y q) (z q) |}.

(** FEM_Tetrahedron_PCC_3D_ReferenceElement.hpp 305-329 *)
Definition Tet_GradLambda (points : Mat) : list Mat :=
  map (fun d => {| m_rows := m_cols points; m_cols := 4; m_at := fun _ => nth d [vec4 (-1) 1 0 0; vec4 (-1) 0 1 0; vec4 (-1) 0 0 1] (fun _ => 0) |}) (seq 0 3).

(** FEM_Tetrahedron_PCC_3D_ReferenceElement.hpp 346-355: the products for one basis function; [lam]: values at the points, [dlam]: values at the
    position of the basis function *)
Definition tet_factor (order : nat) (ty : nat -> nat) (lam : nat -> nat -> R) (dlam : nat -> R) (s : R * (nat -> R)) : outcome (R * (nat -> R)) :=
  for_loop 4 (fun i s => for_loop (ty i) (fun p s =>
    let '(nf, v) := s in
    Ok (nf * (dlam i - INR p / INR order), fun q => v q * (lam q i - INR p / INR order))) s) s.

(** FEM_Tetrahedron_PCC_3D_ReferenceElement.hpp 331-360: arguments are the order, the number, the positions and the types of the basis functions *)
Definition tet_values (order N : nat) (pos : Mat) (types : list (nat -> nat)) (points : Mat) : outcome Mat :=
  L <- Tet_Lambda points ;;
  if (order =? 1)%nat then Ok L else
  DL <- Tet_Lambda pos ;;
  for_loop N (fun dof V =>
    ty <- idx_ types dof ;;
    v <- mcol V dof ;;
    _ <- (if (dof <? m_rows DL)%nat then Ok tt else UB) ;;
    ' (nf, v) <- tet_factor order ty (m_at L) (m_at DL dof) (1, v) ;;
    mat_set_col V dof (fun q => v q / nf))
   {| m_rows := m_cols points; m_cols := N; m_at := fun _ _ => 1 |}.

(** FEM_Tetrahedron_PCC_3D_ReferenceElement.hpp 380-391: one column of one derivative *)
Definition tet_deriv_col (order : nat) (ty : nat -> nat) (lam g : nat -> nat -> R) (b : nat -> R) (w : nat -> option R) : outcome (nat -> option R) :=
  for_loop 4 (fun i w => for_loop (ty i) (fun p w =>
    Ok (fun q => fadd (w q) (fdiv (g q i * b q) (lam q i - INR p / INR order)))) w) w.

(** FEM_Tetrahedron_PCC_3D_ReferenceElement.hpp 362-395; Dimension is 3 *)
Definition tet_derivatives (order N : nat) (pos : Mat) (types : list (nat -> nat)) (points : Mat) : outcome (list FMat) :=
  let G := Tet_GradLambda points in
  if (order =? 1)%nat then Ok (map of_mat G) else
  B <- tet_values order N pos types points ;;
  L <- Tet_Lambda points ;;
  for_loop 3 (fun d Vs =>
    for_loop N (fun dof Vs =>
      ty <- idx_ types dof ;;
      g <- idx_ G d ;;
      b <- mcol B dof ;;
      V <- idx_ Vs d ;;
      w <- fcol V dof ;;
      w <- tet_deriv_col order ty (m_at L) (m_at g) b w ;;
      V <- fset_col V dof w ;;
      set_idx Vs d V) Vs)
   (repeat (fzero (m_cols points) N) 3).

(** FEM_Tetrahedron_PCC_3D_ReferenceElement.hpp 331-360, 362-395 on the data of an element *)
Definition Tet_Values (points : Mat) (data : Tet_Data) : outcome Mat :=
  tet_values (te_Order data) (te_NumBasisFunctions data) (te_DofPositions data) (te_DofTypes data) points.
(** FEM_Tetrahedron_PCC_3D_ReferenceElement.hpp 362-395 on the data of an element *)
Definition Tet_Derivatives (points : Mat) (data : Tet_Data) : outcome (list FMat) :=
  tet_derivatives (te_Order data) (te_NumBasisFunctions data) (te_DofPositions data) (te_DofTypes data) points.

(** FEM_Tetrahedron_PCC_3D_ReferenceElement.hpp 130-270: DofPositions, DofTypes, dof *)
Definition tet_state : Type := Mat * list (nat -> nat) * nat.
(** FEM_Tetrahedron_PCC_3D_ReferenceElement.hpp 130-270: DofPositions.col(dof) << ...; DofTypes[dof] = {...}; dof++ *)
Definition tet_put (pos : nat -> R) (ty : nat -> nat) (s : tet_state) : outcome tet_state :=
  let '(P, T, dof) := s in
  P <- mat_set_col P dof pos ;; T <- set_idx T dof ty ;; Ok (P, T, S dof).

(** FEM_Tetrahedron_PCC_3D_ReferenceElement.hpp 155-203: the six edges *)
Definition tet_edges (o n1 : nat) (s : tet_state) : outcome tet_state :=
  let c := fun k : nat => INR k / INR o in
  s <- for_loop n1 (fun d => tet_put (vec3 (c (d + 1)%nat) 0 0) (vec4 (o - 1 - d) (d + 1) 0 0)%nat) s ;;
  s <- for_loop n1 (fun d => tet_put (vec3 (c (n1 - d)%nat) (c (d + 1)%nat) 0) (vec4 0 (o - d - 1) (d + 1) 0)%nat) s ;;
  s <- for_loop n1 (fun d => tet_put (vec3 0 (c (n1 - d)%nat) 0) (vec4 (d + 1) 0 (o - d - 1) 0)%nat) s ;;
  s <- for_loop n1 (fun d => tet_put (vec3 0 0 (c (d + 1)%nat)) (vec4 (o - d - 1) 0 0 (d + 1))%nat) s ;;
  s <- for_loop n1 (fun d => tet_put (vec3 (c (d + 1)%nat) 0 (c (n1 - d)%nat)) (vec4 0 (d + 1) 0 (o - d - 1))%nat) s ;;
  for_loop n1 (fun d => tet_put (vec3 0 (c (d + 1)%nat) (c (n1 - d)%nat)) (vec4 0 0 (d + 1) (o - d - 1))%nat) s.

(** FEM_Tetrahedron_PCC_3D_ReferenceElement.hpp 205-249: the four faces *)
Definition tet_face (n1 : nat) (f : nat -> nat -> tet_state -> outcome tet_state) (s : tet_state) : outcome tet_state :=
  for_loop (n1 - 1) (fun d1 s => for_loop (n1 - 1 - d1) (fun d2 s => f d1 d2 s) s) s.
(** FEM_Tetrahedron_PCC_3D_ReferenceElement.hpp 205-249: the four faces *)
Definition tet_faces (o n1 : nat) (s : tet_state) : outcome tet_state :=
  let c := fun k : nat => INR k / INR o in
  s <- tet_face n1 (fun d1 d2 => tet_put (vec3 (c (d1 + 1)%nat) (c (d2 + 1)%nat) 0) (vec4 (o - d1 - d2 - 2) (d1 + 1) (d2 + 1) 0)%nat) s ;;
  s <- tet_face n1 (fun d1 d2 => tet_put (vec3 (c (d1 + 1)%nat) 0 (c (d2 + 1)%nat)) (vec4 (o - d1 - d2 - 2) (d1 + 1) 0 (d2 + 1))%nat) s ;;
  s <- tet_face n1 (fun d1 d2 => tet_put (vec3 0 (c (d1 + 1)%nat) (c (d2 + 1)%nat)) (vec4 (o - d1 - d2 - 2) 0 (d1 + 1) (d2 + 1))%nat) s ;;
  tet_face n1 (fun d1 d2 => tet_put (vec3 (c (d1 + 1)%nat) (c (d2 + 1)%nat) (1 - c (d1 + 1)%nat - c (d2 + 1)%nat)) (vec4 0 (d1 + 1) (d2 + 1) (o - d1 - d2 - 2))%nat) s.

(** FEM_Tetrahedron_PCC_3D_ReferenceElement.hpp 251-268: the interior *)
Definition tet_inner (o n1 : nat) (s : tet_state) : outcome tet_state :=
  let c := fun k : nat => INR k / INR o in
  for_loop (n1 - 2) (fun d3 s => for_loop (n1 - 2 - d3) (fun d1 s => for_loop (n1 - 2 - d1 - d3) (fun d2 =>
    tet_put (vec3 (c (d1 + 1)%nat) (c (d2 + 1)%nat) (c (d3 + 1)%nat)) (vec4 (o - d1 - d2 - d3 - 3) (d1 + 1) (d2 + 1) (d3 + 1))%nat) s) s) s.

(** FEM_Tetrahedron_PCC_3D_ReferenceElement.hpp 133-271: positions and types for order >= 1; [junk]: the content of DofPositions after resize *)
Definition tet_numbering (junk : nat -> nat -> R) (o n1 N : nat) : outcome (Mat * list (nat -> nat)) :=
  s <- tet_put (vec3 0 0 0) (vec4 o 0 0 0)%nat (mraw junk 3 N, repeat (fun _ => 0%nat) N, 0%nat) ;;
  s <- tet_put (vec3 1 0 0) (vec4 0 o 0 0)%nat s ;;
  s <- tet_put (vec3 0 1 0) (vec4 0 0 o 0)%nat s ;;
  s <- tet_put (vec3 0 0 1) (vec4 0 0 0 o)%nat s ;;
  ' (P, T, _) <- (if (1 <? o)%nat then
      s <- tet_edges o n1 s ;;
      if (2 <? o)%nat then
        s <- tet_faces o n1 s ;;
        if (3 <? o)%nat then tet_inner o n1 s else Ok s
      else Ok s
    else Ok s) ;;
  Ok (P, T).

(** FEM_Tetrahedron_PCC_3D_ReferenceElement.hpp 57-289; [gt]: Gedim's quadrature of the reference tetrahedron.  Unsigned overflow in the counts is not modelled.
    The three maps of the constructor are in TetLocalModel. *)
Definition Tet_Create (gt : nat -> QuadratureData) (junk : nat -> nat -> R) (o : nat) : outcome Tet_Data :=
  tri <- Tri_Create o ;;
  let Q := gt (2 * o)%nat in
  if (o =? 0)%nat then
    P <- mat_set_col (mzero 3 1) 0 (vec3 (1 / 4) (1 / 4) (1 / 4)) ;;
    V <- tet_values 0 1 P [] (q_Points Q) ;;
    D <- tet_derivatives 0 1 P [] (q_Points Q) ;;
    Ok {| te_Order := 0; te_NumDofs0D := 0; te_NumDofs1D := 0; te_NumDofs2D := 0; te_NumDofs3D := 1; te_NumBasisFunctions := 1;
          te_DofPositions := P; te_DofTypes := []; te_Quadrature := Q; te_Values := V; te_Derivatives := D; te_Boundary := tri |}
  else
    let n1 := (o - 1)%nat in
    let n2 := if (2 <? o)%nat then ((o - 2) * (o - 1) / 2)%nat else 0%nat in
    let n3 := if (3 <? o)%nat then ((o - 3) * (o - 2) * (o - 1) / 6)%nat else 0%nat in
    let N := (4 * 1 + 6 * n1 + 4 * n2 + n3)%nat in
    ' (P, T) <- tet_numbering junk o n1 N ;;
    V <- tet_values o N P T (q_Points Q) ;;
    D <- tet_derivatives o N P T (q_Points Q) ;;
    Ok {| te_Order := o; te_NumDofs0D := 1; te_NumDofs1D := n1; te_NumDofs2D := n2; te_NumDofs3D := n3; te_NumBasisFunctions := N;
          te_DofPositions := P; te_DofTypes := T; te_Quadrature := Q; te_Values := V; te_Derivatives := D; te_Boundary := tri |}.
