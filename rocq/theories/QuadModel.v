(** Model of FEM/PCC/2D/FEM_Quadrilateral_PCC_2D_ReferenceElement.hpp and FEM_Quadrilateral_PCC_2D_LocalSpace.{hpp,cpp}. *)
From Coq Require Import List Arith Bool ZArith Reals.
From Verif Require Import Base RSum MatrixModel MonomialsModel LagrangeModel TriangleModel.
Import ListNotations.
Local Open Scope R_scope.

(** FEM_Quadrilateral_PCC_2D_ReferenceElement.hpp 27-49.  Not modelled: the quadratures and the tables of values at their points. *)
Record Quad_Data := {
  fq_Order : nat; fq_NumBasisFunctions : nat; fq_NumDofs0D : nat; fq_NumDofs1D : nat; fq_NumDofs2D : nat;
  fq_Edges_by_vertices : list (nat * nat * (nat * bool));
  fq_DofPositions : Mat;
  fq_DofTypes : list (nat * nat);
  fq_Boundary : FEM_1D_Data }.

(** Eigen (not in /repo): A.row(i).segment(a, n) = v, a vector of size n *)
Definition set_row_segment (A : Mat) (i a n : nat) (v : nat -> R) : outcome Mat :=
  if ((i <? m_rows A) && (a + n <=? m_cols A))%nat
  then Ok {| m_rows := m_rows A; m_cols := m_cols A;
             m_at := fun r c => if ((r =? i) && (a <=? c) && (c <? a + n))%nat then v (c - a)%nat else m_at A r c |}
  else UB.
(** Eigen (not in /repo): v.segment(a, n) *)
Definition vsegment (v : Vec) (a n : nat) : outcome (nat -> R) :=
  if (a + n <=? v_size v)%nat then Ok (fun i => v_at v (a + i)%nat) else UB.

(** FEM_Quadrilateral_PCC_2D_ReferenceElement.hpp 103-105, 113-115, 151-153: the column of a dof and its type *)
Definition quad_put (r : Vec) (dof i j : nat) (s : Mat * list (nat * nat)) : outcome (Mat * list (nat * nat)) :=
  let '(P, T) := s in
  x <- vec_get r i ;; y <- vec_get r j ;;
  P <- mat_set_col P dof (vec3 x y 0) ;; T <- set_idx T dof (i, j) ;; Ok (P, T).

(** FEM_Quadrilateral_PCC_2D_ReferenceElement.hpp 97-118 *)
Definition quad_vertices (r : Vec) (s : Mat * list (nat * nat)) : outcome (Mat * list (nat * nat)) :=
  for_loop 2 (fun d1 s =>
    if (d1 =? 0)%nat then for_loop 2 (fun d2 s => quad_put r (2 * d1 + d2) d2 d1 s) s
    else for_loop 2 (fun d2 s => let index := if (d2 =? 0)%nat then 1%nat else 0%nat in quad_put r (2 * d1 + d2) index d1 s) s) s.

(** FEM_Quadrilateral_PCC_2D_ReferenceElement.hpp 123-132: the edges along the first coordinate; [nb]: number of one dimensional basis functions *)
Definition quad_edges_x (r : Vec) (n0 n1 nb : nat) (s : Mat * list (nat * nat)) : outcome (Mat * list (nat * nat)) :=
  for_loop 2 (fun d1 s =>
    let '(P, T) := s in
    let a := (4 * n0 + 2 * d1 * n1)%nat in
    seg <- vsegment r 2 n1 ;; P <- set_row_segment P 0 a n1 seg ;;
    y <- vec_get r d1 ;; P <- set_row_segment P 1 a n1 (fun _ => 1 * y) ;;
    T <- for_from 2 (nb - 2) (fun d2 T => set_idx T (a + d2 - 2) (d2, d1)) T ;;
    Ok (P, T)) s.

(** FEM_Quadrilateral_PCC_2D_ReferenceElement.hpp 134-144: the edges along the second coordinate *)
Definition quad_edges_y (r : Vec) (n0 n1 nb : nat) (s : Mat * list (nat * nat)) : outcome (Mat * list (nat * nat)) :=
  for_loop 2 (fun d1 s =>
    let '(P, T) := s in
    let index := if (d1 =? 1)%nat then 0%nat else 1%nat in
    let a := (4 * n0 + (2 * d1 + 1) * n1)%nat in
    x <- vec_get r index ;; P <- set_row_segment P 0 a n1 (fun _ => 1 * x) ;;
    seg <- vsegment r 2 n1 ;; P <- set_row_segment P 1 a n1 seg ;;
    T <- for_from 2 (nb - 2) (fun d2 T => set_idx T (a + d2 - 2) (index, d2)) T ;;
    Ok (P, T)) s.

(** FEM_Quadrilateral_PCC_2D_ReferenceElement.hpp 146-157: the interior, with the counter dof *)
Definition quad_interior (r : Vec) (n1 nb : nat) (s : Mat * list (nat * nat)) : outcome (Mat * list (nat * nat)) :=
  ' (s, _) <- for_from 2 (nb - 2) (fun d1 sd => for_from 2 (nb - 2) (fun d2 sd =>
      let '(s, dof) := sd in s <- quad_put r dof d2 d1 s ;; Ok (s, S dof)) sd) (s, (4 + 4 * n1)%nat) ;;
  Ok s.

(** FEM_Quadrilateral_PCC_2D_ReferenceElement.hpp 84-91 *)
Definition quad_edges_table : list (nat * nat * (nat * bool)) :=
  [((0, 1), (0, true)); ((1, 0), (0, false)); ((1, 2), (1, true)); ((2, 1), (1, false));
   ((2, 3), (2, false)); ((3, 2), (2, true)); ((3, 0), (3, false)); ((0, 3), (3, true))]%nat.

(** FEM_Quadrilateral_PCC_2D_ReferenceElement.hpp 63-176 *)
Definition Quad_Create (junk : nat -> nat -> R) (lobatto : nat -> Vec) (order : nat) : outcome Quad_Data :=
  if (order =? 0)%nat then Throw else
  let N := ((order + 1) * (order + 1))%nat in
  let n0 := 1%nat in let n1 := (order - 1)%nat in let n2 := ((order - 1) * (order - 1))%nat in
  b <- FEM_1D_Create junk lobatto order Equispaced ;;
  r <- row_vec (f1_DofPositions b) 0 ;;
  let nb := f1_NumBasisFunctions b in
  s <- quad_vertices r (mzero 3 N, repeat (0, 0)%nat N) ;;
  s <- (if (1 <? order)%nat then
          s <- quad_edges_x r n0 n1 nb s ;; s <- quad_edges_y r n0 n1 nb s ;; quad_interior r n1 nb s
        else Ok s) ;;
  Ok {| fq_Order := order; fq_NumBasisFunctions := N; fq_NumDofs0D := n0; fq_NumDofs1D := n1; fq_NumDofs2D := n2;
        fq_Edges_by_vertices := quad_edges_table; fq_DofPositions := fst s; fq_DofTypes := snd s; fq_Boundary := b |}.

(** FEM_Quadrilateral_PCC_2D_ReferenceElement.hpp 183-187, 211-214: a 3 x n matrix of zeros with the given first row *)
Definition on_axis (v : nat -> R) (n : nat) : Mat := {| m_rows := 3; m_cols := n; m_at := fun d q => if (d =? 0)%nat then v q else 0 |}.

(** Eigen (not in /repo): A.col(j) = B.col(k).array() * C.col(l).array() *)
Definition set_col_product (A : Mat) (j : nat) (B : Mat) (k : nat) (C : Mat) (l : nat) : outcome Mat :=
  b <- mcol B k ;; c <- mcol C l ;; mat_set_col A j (fun q => b q * c q).

(** FEM_Quadrilateral_PCC_2D_ReferenceElement.hpp 179-203 *)
Definition Quad_Values (junk : nat -> nat -> R) (points : Mat) (data : Quad_Data) : outcome Mat :=
  let n := m_cols points in
  p0 <- mrow points 0 ;; p1 <- mrow points 1 ;;
  vx <- FEM_1D_Values junk (on_axis p0 n) (fq_Boundary data) ;;
  vy <- FEM_1D_Values junk (on_axis p1 n) (fq_Boundary data) ;;
  for_loop (fq_NumBasisFunctions data) (fun d V =>
    t <- idx_ (fq_DofTypes data) d ;; set_col_product V d vx (fst t) vy (snd t))
    {| m_rows := n; m_cols := fq_NumBasisFunctions data; m_at := fun _ _ => 1 |}.

(** FEM_Quadrilateral_PCC_2D_ReferenceElement.hpp 206-237; Dimension is 2 *)
Definition Quad_Derivatives (junk : nat -> nat -> R) (points : Mat) (data : Quad_Data) : outcome (list Mat) :=
  let n := m_cols points in
  p0 <- mrow points 0 ;; p1 <- mrow points 1 ;;
  vx <- FEM_1D_Values junk (on_axis p0 n) (fq_Boundary data) ;;
  dx <- FEM_1D_Derivatives junk (on_axis p0 n) (fq_Boundary data) ;;
  vy <- FEM_1D_Values junk (on_axis p1 n) (fq_Boundary data) ;;
  dy <- FEM_1D_Derivatives junk (on_axis p1 n) (fq_Boundary data) ;;
  let ones := {| m_rows := n; m_cols := fq_NumBasisFunctions data; m_at := fun _ _ => 1 |} in
  ' (G0, G1) <- for_loop (fq_NumBasisFunctions data) (fun d s =>
    let '(G0, G1) := s in
    t <- idx_ (fq_DofTypes data) d ;;
    dx0 <- idx_ dx 0 ;; G0 <- set_col_product G0 d dx0 (fst t) vy (snd t) ;;
    dy0 <- idx_ dy 0 ;; G1 <- set_col_product G1 d vx (fst t) dy0 (snd t) ;;
    Ok (G0, G1)) (ones, ones) ;;
  Ok [G0; G1].

(** FEM_Quadrilateral_PCC_2D_ReferenceElement.hpp 239-243 *)
Definition Quad_SecondDerivatives (points : Mat) (data : Quad_Data) : outcome (list Mat) := Throw.

(** ** Local space *)

(** Gedim::MapParallelogram and Gedim::MapQuadrilateral (not in /repo).  A parallelogram has an affine map; the map of a generic
    quadrilateral acts on points: image, preimage and inverse Jacobian (rows and columns 0, 1) at a reference point. *)
Record MapQuadrilateral := { mq_F : (nat -> R) -> nat -> R; mq_FInv : (nat -> R) -> nat -> R; mq_JInv : (nat -> R) -> nat -> nat -> R }.
(** FEM_PCC_2D_LocalSpace_Data.hpp 65-82: the map chosen by the type of the quadrilateral *)
Inductive QuadMap := Parallelogram (m : MapTriangleData) | Generic (g : MapQuadrilateral).

(** Gedim (not in /repo): the columns of a matrix of points through a map of points *)
Definition map_points (f : (nat -> R) -> nat -> R) (P : Mat) : Mat :=
  {| m_rows := 3; m_cols := m_cols P; m_at := fun i q => f (fun d => m_at P d q) i |}.
(** Gedim (not in /repo): F of the chosen map *)
Definition quad_F (m : QuadMap) (P : Mat) : Mat := match m with Parallelogram a => mt_F a P | Generic g => map_points (mq_F g) P end.
(** Gedim (not in /repo): FInv of the chosen map *)
Definition quad_FInv (m : QuadMap) (P : Mat) : Mat := match m with Parallelogram a => mt_FInv a P | Generic g => map_points (mq_FInv g) P end.

(** FEM_PCC_2D_LocalSpace_Data.hpp 65-82: the fields used below *)
Record Quad_Local := { lq_Map : QuadMap; lq_Order : nat; lq_NumberOfBasisFunctions : nat; lq_DofsMeshOrder : list nat; lq_Dofs : Mat }.

(** std::map::at *)
Fixpoint table_at (t : list (nat * nat * (nat * bool))) (a b : nat) : outcome (nat * bool) :=
  match t with
  | [] => Throw
  | ((x, y), v) :: t' => if ((x =? a) && (y =? b))%nat then Ok v else table_at t' a b
  end.

(** FEM_Quadrilateral_PCC_2D_LocalSpace.cpp 57-107 *)
Definition quad_mesh_order (N n0 n1 n2 : nat) (table : list (nat * nat * (nat * bool))) (dir : list bool) : outcome (list nat) :=
  st <- for_loop 4 (fun v s => ascending (v * n0) (S v * n0) s) (repeat 0%nat N, 0%nat) ;;
  let base := (4 * n0)%nat in
  st <- for_loop 4 (fun e s =>
     ref <- table_at table e ((e + 1) mod 4) ;;
     dr <- at_ dir e ;;
     let a := (base + e * n1)%nat in let b := (base + S e * n1)%nat in
     if Bool.eqb dr (snd ref) then ascending a b s
     else descending (S N) (decr (Z.of_nat b)) (Z.of_nat a) s) st ;;
  let base := (4 * n0 + 4 * n1)%nat in
  ' (l, _) <- ascending base (base + n2) st ;;
  Ok l.

(** FEM_Quadrilateral_PCC_2D_LocalSpace.cpp 25-131; [m]: the map chosen by lines 35-52 (the test on the vertices uses gedim's tolerance) *)
Definition Quad_CreateLocalSpace (data : Quad_Data) (num_vertices : nat) (dir : list bool) (m : QuadMap) : outcome Quad_Local :=
  if negb (num_vertices =? 4)%nat then Throw else
  order <- quad_mesh_order (fq_NumBasisFunctions data) (fq_NumDofs0D data) (fq_NumDofs1D data) (fq_NumDofs2D data) (fq_Edges_by_vertices data) dir ;;
  Dofs <- gather (quad_F m (fq_DofPositions data)) order ;;
  Ok {| lq_Map := m; lq_Order := fq_Order data; lq_NumberOfBasisFunctions := fq_NumBasisFunctions data; lq_DofsMeshOrder := order; lq_Dofs := Dofs |}.

(** FEM_Quadrilateral_PCC_2D_LocalSpace.hpp 78-103 *)
Definition Quad_LocalValues (junk : nat -> nat -> R) (data : Quad_Data) (l : Quad_Local) (points : Mat) : outcome Mat :=
  V <- Quad_Values junk (quad_FInv (lq_Map l) points) data ;; gather V (lq_DofsMeshOrder l).

(** FEM_Quadrilateral_PCC_2D_LocalSpace.cpp 133-189.  In the second branch the rows of a point are combined with the inverse Jacobian at its reference
    point and column d is written to column DofsMeshOrder[d]; entries never written are [junk]. *)
Definition quad_MapDerivatives (junk : nat -> nat -> R) (l : Quad_Local) (D : list Mat) (ref : Mat) : outcome (list Mat) :=
  match lq_Map l with
  | Parallelogram m =>
      D0 <- at_ D 0 ;; D1 <- at_ D 1 ;;
      let B := mt_BInv m in
      A0 <- madd (mscal (B 0%nat 0%nat) D0) (mscal (B 1%nat 0%nat) D1) ;;
      A1 <- madd (mscal (B 0%nat 1%nat) D0) (mscal (B 1%nat 1%nat) D1) ;;
      R0 <- gather A0 (lq_DofsMeshOrder l) ;; R1 <- gather A1 (lq_DofsMeshOrder l) ;;
      Ok [R0; R1]
  | Generic g =>
      D0 <- at_ D 0 ;; D1 <- idx_ D 1 ;;
      let n := lq_NumberOfBasisFunctions l in
      if negb ((m_rows D0 =? m_rows D1) && (m_cols D0 =? n) && (m_cols D1 =? n) && (m_cols ref <=? m_rows D0))%nat then UB else
      let B := fun p => mq_JInv g (fun d => m_at ref d p) in
      let ok := fun p => (p <? m_cols ref)%nat in
      let A0 := {| m_rows := m_rows D0; m_cols := n;
                   m_at := fun p d => if ok p then B p 0%nat 0%nat * m_at D0 p d + B p 1%nat 0%nat * m_at D1 p d else 0 |} in
      let A1 := {| m_rows := m_rows D0; m_cols := n;
                   m_at := fun p d => if ok p then B p 1%nat 1%nat * m_at D1 p d + B p 0%nat 1%nat * m_at D0 p d else 0 |} in
      ' (R0, R1) <- for_loop n (fun d s =>
        let '(R0, R1) := s in
        o <- at_ (lq_DofsMeshOrder l) d ;;
        c0 <- mcol A0 d ;; R0 <- mat_set_col R0 o c0 ;;
        c1 <- mcol A1 d ;; R1 <- mat_set_col R1 o c1 ;; Ok (R0, R1)) (mraw junk (m_rows D0) n, mraw junk (m_rows D0) n) ;;
      Ok [R0; R1]
  end.

(** FEM_Quadrilateral_PCC_2D_LocalSpace.hpp 132-159 *)
Definition Quad_LocalDerivatives (junk : nat -> nat -> R) (data : Quad_Data) (l : Quad_Local) (points : Mat) : outcome (list Mat) :=
  let ref := quad_FInv (lq_Map l) points in
  D <- Quad_Derivatives junk ref data ;; quad_MapDerivatives junk l D ref.

(** FEM_Quadrilateral_PCC_2D_LocalSpace.cpp 191-214; no reordering *)
Definition quad_MapLaplacian (l : Quad_Local) (D : list Mat) : outcome Mat :=
  match lq_Map l with
  | Parallelogram m =>
      let B := fun i j => rsum 3 (fun k => mt_BInv m i k * mt_BInv m j k) in
      D0 <- at_ D 0 ;; D1 <- at_ D 1 ;; D2 <- at_ D 2 ;; D3 <- at_ D 3 ;;
      A <- madd (mscal (B 0%nat 0%nat) D0) (mscal (B 0%nat 1%nat) D1) ;;
      A <- madd A (mscal (B 1%nat 0%nat) D2) ;; madd A (mscal (B 1%nat 1%nat) D3)
  | Generic _ => Throw
  end.

(** FEM_Quadrilateral_PCC_2D_LocalSpace.hpp 61-67 with FEM_Quadrilateral_PCC_2D_ReferenceElement.hpp 46, 172-173: the reference second derivatives are four matrices never
    written, of size 0 x 0 *)
Definition Quad_LocalLaplacian_quadrature (l : Quad_Local) : outcome Mat := quad_MapLaplacian l (repeat (mzero 0 0) 4).

(** FEM_Quadrilateral_PCC_2D_LocalSpace.hpp 105-130: the second derivatives are asked for first *)
Definition Quad_LocalLaplacian (data : Quad_Data) (l : Quad_Local) (points : Mat) : outcome Mat :=
  D <- Quad_SecondDerivatives (quad_FInv (lq_Map l) points) data ;; quad_MapLaplacian l D.
