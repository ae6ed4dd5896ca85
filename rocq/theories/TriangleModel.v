(** Model of FEM/PCC/2D/FEM_Triangle_PCC_2D_ReferenceElement.hpp and FEM_Triangle_PCC_2D_LocalSpace.{hpp,cpp}. *)
From Coq Require Import List Arith Bool ZArith Reals.
From Verif Require Import Base RSum MatrixModel MonomialsModel GBasisModel.
Import ListNotations.
Local Open Scope R_scope.

(** FEM_Triangle_PCC_2D_ReferenceElement.hpp 27-49.  Not modelled: the quadratures, the tables of values at their points and the one
    dimensional data of the edges. *)
Record Tri_Data := {
  ft_Order : nat; ft_NumDofs0D : nat; ft_NumDofs1D : nat; ft_NumDofs2D : nat; ft_NumBasisFunctions : nat;
  ft_DofPositions : Mat;
  ft_DofTypes : IMat }.

(** Eigen (not in /repo): A.col(j) << v on an integer matrix *)
Definition imat_set_col (A : IMat) (j : nat) (v : nat -> Z) : outcome IMat :=
  if (j <? im_cols A)%nat
  then Ok {| im_rows := im_rows A; im_cols := im_cols A; im_at := fun a b => if (b =? j)%nat then v a else im_at A a b |}
  else UB.
(** Eigen (not in /repo): A.col(j) of an integer matrix *)
Definition imcol (A : IMat) (j : nat) : outcome (nat -> Z) :=
  if (j <? im_cols A)%nat then Ok (fun i => im_at A i j) else UB.
(** Eigen (not in /repo): MatrixXi::Zero(r, c) *)
Definition imzero (r c : nat) : IMat := {| im_rows := r; im_cols := c; im_at := fun _ _ => 0%Z |}.

(** Eigen (not in /repo): the three components of "v << a, b, c" *)
Definition vec3 {A} (a b c : A) : nat -> A := fun i => match i with O => a | S O => b | _ => c end.

(** the variables of the numbering loop, FEM_Triangle_PCC_2D_ReferenceElement.hpp 90-98 *)
Record tri_state := { ts_dof : nat; ts_e0 : list nat; ts_e1 : list nat; ts_e2 : list nat; ts_cell : list nat; ts_pos : Mat; ts_typ : IMat }.

(** FEM_Triangle_PCC_2D_ReferenceElement.hpp 103-121: body of the double loop; push_front is used for the third edge *)
Definition tri_body (order : nat) (i j : nat) (s : tri_state) : outcome tri_state :=
  let h := 1 / INR order in
  let dof := ts_dof s in
  let s1 :=
    if (i =? 0)%nat then
      if ((0 <? j) && (j <? order - i))%nat
      then {| ts_dof := dof; ts_e0 := ts_e0 s ++ [dof]; ts_e1 := ts_e1 s; ts_e2 := ts_e2 s; ts_cell := ts_cell s; ts_pos := ts_pos s; ts_typ := ts_typ s |}
      else s
    else if ((i <? order) && ((j =? 0) || (j =? order - i)))%nat then
      if (j =? 0)%nat
      then {| ts_dof := dof; ts_e0 := ts_e0 s; ts_e1 := ts_e1 s; ts_e2 := dof :: ts_e2 s; ts_cell := ts_cell s; ts_pos := ts_pos s; ts_typ := ts_typ s |}
      else {| ts_dof := dof; ts_e0 := ts_e0 s; ts_e1 := ts_e1 s ++ [dof]; ts_e2 := ts_e2 s; ts_cell := ts_cell s; ts_pos := ts_pos s; ts_typ := ts_typ s |}
    else if (i <? order)%nat
      then {| ts_dof := dof; ts_e0 := ts_e0 s; ts_e1 := ts_e1 s; ts_e2 := ts_e2 s; ts_cell := ts_cell s ++ [dof]; ts_pos := ts_pos s; ts_typ := ts_typ s |}
      else s in
  pos <- mat_set_col (ts_pos s1) dof (vec3 (INR j * h) (INR i * h) 0) ;;
  typ <- imat_set_col (ts_typ s1) dof (vec3 (Z.of_nat (order - i - j)) (Z.of_nat j) (Z.of_nat i)) ;;
  Ok {| ts_dof := S dof; ts_e0 := ts_e0 s1; ts_e1 := ts_e1 s1; ts_e2 := ts_e2 s1; ts_cell := ts_cell s1; ts_pos := pos; ts_typ := typ |}.

(** FEM_Triangle_PCC_2D_ReferenceElement.hpp 98-123 *)
Definition tri_lattice (order N : nat) : outcome tri_state :=
  for_loop (order + 1) (fun i s => for_loop (order + 1 - i) (fun j s => tri_body order i j s) s)
    {| ts_dof := 0; ts_e0 := []; ts_e1 := []; ts_e2 := []; ts_cell := []; ts_pos := mzero 3 N; ts_typ := imzero 3 N |}.

(** FEM_Triangle_PCC_2D_ReferenceElement.hpp 133-153: copies columns [l] of the lattice, in order, from column [dof] on *)
Definition tri_copy (P : Mat) (T : IMat) (l : list nat) (s : Mat * IMat * nat) : outcome (Mat * IMat * nat) :=
  foldM (fun s k => let '(Q, U, dof) := s in
     p <- mcol P k ;; Q <- mat_set_col Q dof p ;;
     t <- imcol T k ;; U <- imat_set_col U dof t ;; Ok (Q, U, S dof)) l s.

(** FEM_Triangle_PCC_2D_ReferenceElement.hpp 54-171 *)
Definition Tri_Create (order : nat) : outcome Tri_Data :=
  if (order =? 0)%nat then
    pos <- mat_set_col (mzero 3 1) 0 (vec3 (1 / 3) (1 / 3) 0) ;;
    Ok {| ft_Order := 0; ft_NumDofs0D := 0; ft_NumDofs1D := 0; ft_NumDofs2D := 1; ft_NumBasisFunctions := 1;
          ft_DofPositions := pos; ft_DofTypes := imzero 3 1 |}
  else
    let N := ((order + 1) * (order + 2) / 2)%nat in
    let nodeDofs := [0; order; N - 1]%nat in
    s <- tri_lattice order N ;;
    st <- tri_copy (ts_pos s) (ts_typ s) nodeDofs (mzero 3 N, imzero 3 N, 0%nat) ;;
    st <- tri_copy (ts_pos s) (ts_typ s) (ts_e0 s) st ;;
    st <- tri_copy (ts_pos s) (ts_typ s) (ts_e1 s) st ;;
    st <- tri_copy (ts_pos s) (ts_typ s) (ts_e2 s) st ;;
    ' (Q, U, _) <- tri_copy (ts_pos s) (ts_typ s) (ts_cell s) st ;;
    Ok {| ft_Order := order; ft_NumDofs0D := length nodeDofs / 3; ft_NumDofs1D := length (ts_e0 s); ft_NumDofs2D := length (ts_cell s);
          ft_NumBasisFunctions := N; ft_DofPositions := Q; ft_DofTypes := U |}.

(** FEM_Triangle_PCC_2D_ReferenceElement.hpp 191-210: values.col(d) *= term; values.col(d) /= number.  Simplification: the column is updated as a
    function and written back once. *)
Definition tri_terms (n : Z) (term : nat -> nat -> R) (den : nat -> R) (v : nat -> R) : outcome (nat -> R) :=
  for_loop (Z.to_nat n) (fun t v => Ok (fun q => v q * term t q / den t)) v.

(** FEM_Triangle_PCC_2D_ReferenceElement.hpp 173-215 *)
Definition Tri_Values (points : Mat) (data : Tri_Data) : outcome Mat :=
  match ft_Order data with
  | O => Ok {| m_rows := m_cols points; m_cols := 1; m_at := fun _ _ => 1 |}
  | S _ =>
    let h := 1 / INR (ft_Order data) in
    x <- mrow points 0 ;; y <- mrow points 1 ;;
    for_loop (ft_NumBasisFunctions data) (fun d V =>
      ty <- imcol (ft_DofTypes data) d ;;
      po <- mcol (ft_DofPositions data) d ;;
      v <- mcol V d ;;
      v <- tri_terms (ty 0%nat) (fun t q => 1 - x q - y q - INR t * h) (fun t => 1 - po 0%nat - po 1%nat - INR t * h) v ;;
      v <- tri_terms (ty 1%nat) (fun t q => x q - INR t * h) (fun t => po 0%nat - INR t * h) v ;;
      v <- tri_terms (ty 2%nat) (fun t q => y q - INR t * h) (fun t => po 1%nat - INR t * h) v ;;
      mat_set_col V d v) {| m_rows := m_cols points; m_cols := ft_NumBasisFunctions data; m_at := fun _ _ => 1 |}
  end.

(** FEM_Triangle_PCC_2D_ReferenceElement.hpp 244-269: one of the three loops filling prod_terms, grad_terms, denominator, dt *)
Definition tri_fill (n : Z) (term : nat -> nat -> R) (g : R * R) (den : nat -> R)
  (s : list (nat -> R) * list (R * R) * R * nat) : outcome (list (nat -> R) * list (R * R) * R * nat) :=
  for_loop (Z.to_nat n) (fun t s =>
    let '(P, G, D, dt) := s in
    P <- set_idx P dt (fun q => term t q) ;; G <- set_idx G dt g ;; Ok (P, G, D * den t, S dt)) s.

(** FEM_Triangle_PCC_2D_ReferenceElement.hpp 271-285: sum of the products without one factor *)
Definition tri_grad (n : nat) (P : list (nat -> R)) (G : list (R * R)) (D : R) (g0 g1 : nat -> R) : outcome ((nat -> R) * (nat -> R)) :=
  ' (g0, g1) <- for_loop n (fun i s =>
    let '(g0, g1) := s in
    inner <- for_loop n (fun j v => if negb (i =? j)%nat then p <- idx_ P j ;; Ok (fun q : nat => v q * p q) else Ok v) (fun _ : nat => 1) ;;
    g <- idx_ G i ;;
    Ok (fun q : nat => g0 q + inner q * fst g, fun q : nat => g1 q + inner q * snd g)) (g0, g1) ;;
  Ok (fun q => g0 q / D, fun q => g1 q / D).

(** FEM_Triangle_PCC_2D_ReferenceElement.hpp 217-291; Dimension is 2 *)
Definition Tri_Derivatives (points : Mat) (data : Tri_Data) : outcome (list Mat) :=
  let N := ft_NumBasisFunctions data in
  match ft_Order data with
  | O => Ok (repeat (mzero (m_cols points) N) 2)
  | S _ =>
    let h := 1 / INR (ft_Order data) in
    x <- mrow points 0 ;; y <- mrow points 1 ;;
    ' (G0, G1) <- for_loop N (fun d s =>
      let '(G0, G1) := s in
      ty <- imcol (ft_DofTypes data) d ;;
      po <- mcol (ft_DofPositions data) d ;;
      let numProds := Z.to_nat (ty 0%nat + ty 1%nat + ty 2%nat) in
      st <- tri_fill (ty 0%nat) (fun t q => 1 - x q - y q - INR t * h) (-1, -1) (fun t => 1 - po 0%nat - po 1%nat - INR t * h)
             (repeat (fun _ => 0) numProds, repeat (0, 0) numProds, 1, 0%nat) ;;
      st <- tri_fill (ty 1%nat) (fun t q => x q - INR t * h) (1, 0) (fun t => po 0%nat - INR t * h) st ;;
      ' (P, G, D, _) <- tri_fill (ty 2%nat) (fun t q => y q - INR t * h) (0, 1) (fun t => po 1%nat - INR t * h) st ;;
      g0 <- mcol G0 d ;; g1 <- mcol G1 d ;;
      ' (g0, g1) <- tri_grad numProds P G D g0 g1 ;;
      G0 <- mat_set_col G0 d g0 ;; G1 <- mat_set_col G1 d g1 ;;
      Ok (G0, G1)) (mzero (m_cols points) N, mzero (m_cols points) N) ;;
    Ok [G0; G1]
  end.

(** FEM_Triangle_PCC_2D_ReferenceElement.hpp 310-339: the constants of order 2, one row [xx; xy; yx; yy] for each basis function *)
Definition tri_table2 : list (list R) :=
  [[4; 4; 4; 4]; [4; 0; 0; 0]; [0; 0; 0; 4]; [-8; -4; -4; 0]; [0; 4; 4; 0]; [0; -4; -4; -8]].
(** FEM_Triangle_PCC_2D_ReferenceElement.hpp 351-400: order 3 *)
Definition tri_table3 (x y : R) : list (list R) :=
  let c0 := 18 - 27 * y - 27 * x in
  [[c0; c0; c0; c0];
   [27 * x - 9; 0; 0; 0];
   [0; 0; 0; 27 * y - 9];
   [81 * x + 54 * y - 45; 54 * x + 27 * y - 45 / 2; 54 * x + 27 * y - 45 / 2; 27 * x];
   [36 - 27 * y - 81 * x; 9 / 2 - 27 * x; 9 / 2 - 27 * x; 0];
   [27 * y; 27 * x - 9 / 2; 27 * x - 9 / 2; 0];
   [0; 27 * y - 9 / 2; 27 * y - 9 / 2; 27 * x];
   [0; 9 / 2 - 27 * y; 9 / 2 - 27 * y; 36 - 81 * y - 27 * x];
   [27 * y; 27 * x + 54 * y - 45 / 2; 27 * x + 54 * y - 45 / 2; 54 * x + 81 * y - 45];
   [- 54 * y; 27 - 54 * y - 54 * x; 27 - 54 * y - 54 * x; - 54 * x]].

(** FEM_Triangle_PCC_2D_ReferenceElement.hpp 293-408; assigning a column beyond NumBasisFunctions is undefined *)
Definition Tri_SecondDerivatives (points : Mat) (data : Tri_Data) : outcome (list Mat) :=
  let N := ft_NumBasisFunctions data in
  let table (k : nat) (f : nat -> list (list R)) :=
    if (N <? k)%nat then UB else
    Ok (map (fun der => {| m_rows := m_cols points; m_cols := N; m_at := fun q d => nth der (nth d (f q) []) 0 |}) (seq 0 4)) in
  match ft_Order data with
  | 2%nat => table 6%nat (fun _ => tri_table2)
  | 3%nat => x <- mrow points 0 ;; y <- mrow points 1 ;; table 10%nat (fun q => tri_table3 (x q) (y q))
  | _ => Ok (repeat (mzero (m_cols points) N) 4)
  end.

(** ** Local space *)

(** Gedim::MapTriangle (not in /repo): the affine map x -> B x + b and its inverse, 3 x 3 matrices *)
Record MapTriangleData := { mt_B : nat -> nat -> R; mt_BInv : nat -> nat -> R; mt_b : nat -> R }.
(** Gedim::MapTriangle::F (not in /repo) *)
Definition mt_F (m : MapTriangleData) (P : Mat) : Mat :=
  {| m_rows := 3; m_cols := m_cols P; m_at := fun i q => rsum 3 (fun k => mt_B m i k * m_at P k q) + mt_b m i |}.
(** Gedim::MapTriangle::FInv (not in /repo) *)
Definition mt_FInv (m : MapTriangleData) (P : Mat) : Mat :=
  {| m_rows := 3; m_cols := m_cols P; m_at := fun i q => rsum 3 (fun k => mt_BInv m i k * (m_at P k q - mt_b m k)) |}.

(** FEM_PCC_2D_LocalSpace_Data.hpp 47-62: the fields used below *)
Record Tri_Local := {
  lt_Map : MapTriangleData;
  lt_B_lap : nat -> nat -> R;
  lt_Order : nat;
  lt_NumberOfBasisFunctions : nat;
  lt_DofsMeshOrder : list nat;
  lt_Dofs : Mat }.

(** referenceValues(Eigen::all, order), FEM_Triangle_PCC_2D_LocalSpace.hpp 32-36 *)
Definition gather (A : Mat) (order : list nat) : outcome Mat :=
  if forallb (fun k => k <? m_cols A)%nat order
  then Ok {| m_rows := m_rows A; m_cols := length order; m_at := fun i j => m_at A i (nth j order 0%nat) |} else UB.

(** FEM_Triangle_PCC_2D_LocalSpace.cpp 40-90: DofsMeshOrder[dofCounter] = d; dofCounter++ *)
Definition put_dof (d : nat) (s : list nat * nat) : outcome (list nat * nat) :=
  let '(l, k) := s in l' <- set_idx l k d ;; Ok (l', S k).

(** for (d = a; d < b; d++), FEM_Triangle_PCC_2D_LocalSpace.cpp 47-51, 61-65, 79-83 *)
Definition ascending (a b : nat) (s : list nat * nat) : outcome (list nat * nat) := for_from a (b - a) put_dof s.

(** for (d = b - 1; d < UINT_MAX && d >= a; d--) on 32 bit unsigned numbers, FEM_Triangle_PCC_2D_LocalSpace.cpp 69-73.
    [fuel] bounds the number of iterations; the loop is cut only when it is used up. *)
Definition UINT_MAX : Z := 4294967295.
(** d-- on a 32 bit unsigned number *)
Definition decr (d : Z) : Z := if (d =? 0)%Z then UINT_MAX else (d - 1)%Z.
(** FEM_Triangle_PCC_2D_LocalSpace.cpp 69-73 *)
Fixpoint descending (fuel : nat) (d a : Z) (s : list nat * nat) : outcome (list nat * nat) :=
  if ((d <? UINT_MAX) && (a <=? d))%Z then
    match fuel with
    | O => UB
    | S f => s <- put_dof (Z.to_nat d) s ;; descending f (decr d) a s
    end
  else Ok s.

(** FEM_Triangle_PCC_2D_LocalSpace.cpp 40-83 *)
Definition tri_mesh_order (N n0 n1 n2 : nat) (dir : list bool) : outcome (list nat) :=
  st <- for_loop 3 (fun v s => ascending (v * n0) (S v * n0) s) (repeat 0%nat N, 0%nat) ;;
  let base := (3 * n0)%nat in
  st <- for_loop 3 (fun e s =>
     dr <- at_ dir e ;;
     let a := (base + e * n1)%nat in let b := (base + S e * n1)%nat in
     if (dr : bool) then ascending a b s
     else descending (S N) (decr (Z.of_nat b)) (Z.of_nat a) s) st ;;
  let base := (3 * n0 + 3 * n1)%nat in
  ' (l, _) <- ascending base (base + n2) st ;;
  Ok l.

(** FEM_Triangle_PCC_2D_LocalSpace.cpp 23-93; [m]: the result of MapTriangle::Compute *)
Definition Tri_CreateLocalSpace (data : Tri_Data) (num_vertices : nat) (dir : list bool) (m : MapTriangleData) : outcome Tri_Local :=
  if negb (num_vertices =? 3)%nat then Throw else
  order <- tri_mesh_order (ft_NumBasisFunctions data) (ft_NumDofs0D data) (ft_NumDofs1D data) (ft_NumDofs2D data) dir ;;
  Dofs <- gather (mt_F m (ft_DofPositions data)) order ;;
  Ok {| lt_Map := m; lt_B_lap := fun i j => rsum 3 (fun k => mt_BInv m i k * mt_BInv m j k); lt_Order := ft_Order data;
        lt_NumberOfBasisFunctions := ft_NumBasisFunctions data; lt_DofsMeshOrder := order; lt_Dofs := Dofs |}.

(** FEM_Triangle_PCC_2D_LocalSpace.hpp 110-117 *)
Definition Tri_LocalValues (data : Tri_Data) (l : Tri_Local) (points : Mat) : outcome Mat :=
  V <- Tri_Values (mt_FInv (lt_Map l) points) data ;; gather V (lt_DofsMeshOrder l).

(** FEM_Triangle_PCC_2D_LocalSpace.hpp 131-139 and FEM_Triangle_PCC_2D_LocalSpace.cpp 95-110 *)
Definition Tri_LocalDerivatives (data : Tri_Data) (l : Tri_Local) (points : Mat) : outcome (list Mat) :=
  D <- Tri_Derivatives (mt_FInv (lt_Map l) points) data ;;
  D0 <- at_ D 0 ;; D1 <- at_ D 1 ;;
  let B := mt_BInv (lt_Map l) in
  A0 <- madd (mscal (B 0%nat 0%nat) D0) (mscal (B 1%nat 0%nat) D1) ;;
  A1 <- madd (mscal (B 0%nat 1%nat) D0) (mscal (B 1%nat 1%nat) D1) ;;
  R0 <- gather A0 (lt_DofsMeshOrder l) ;; R1 <- gather A1 (lt_DofsMeshOrder l) ;;
  Ok [R0; R1].

(** FEM_Triangle_PCC_2D_LocalSpace.hpp 119-129 and FEM_Triangle_PCC_2D_LocalSpace.cpp 112-124 *)
Definition Tri_LocalLaplacian (data : Tri_Data) (l : Tri_Local) (points : Mat) : outcome Mat :=
  if (3 <? lt_Order l)%nat then Throw else
  S2 <- Tri_SecondDerivatives (mt_FInv (lt_Map l) points) data ;;
  S0 <- at_ S2 0 ;; S1 <- at_ S2 1 ;; S2' <- at_ S2 2 ;; S3 <- at_ S2 3 ;;
  let B := lt_B_lap l in
  A <- madd (mscal (B 0%nat 0%nat) S0) (mscal (B 0%nat 1%nat) S1) ;;
  A <- madd A (mscal (B 1%nat 0%nat) S2') ;;
  madd A (mscal (B 1%nat 1%nat) S3).
