(** Model of ZFEM/PCC/ZFEM_PCC_Utilities.hpp, ZFEM/PCC/2D/ZFEM_PCC_2D_ReferenceElement.hpp and
    ZFEM/PCC/2D/ZFEM_PCC_2D_LocalSpace.{hpp,cpp}. *)
From Coq Require Import List Arith Bool ZArith Reals.
From Verif Require Import Base RSum MatrixModel MonomialsModel TriangleModel VemQuadModel VemModel.
Import ListNotations.
Local Open Scope nat_scope.

(** Eigen::MatrixXi.  Simplification: entries are natural numbers without overflow (a number written here counts nodes
    of one polygon); uninitialised entries are arbitrary. *)
Record NMat := { nm_rows : nat; nm_cols : nat; nm_at : nat -> nat -> nat }.
(** Eigen (not in /repo): A(i, j) *)
Definition nmat_get (A : NMat) (i j : nat) : outcome nat :=
  if (i <? nm_rows A) && (j <? nm_cols A) then Ok (nm_at A i j) else UB.
(** Eigen (not in /repo): A(i, j) = x *)
Definition nmat_set (A : NMat) (i j x : nat) : outcome NMat :=
  if (i <? nm_rows A) && (j <? nm_cols A)
  then Ok {| nm_rows := nm_rows A; nm_cols := nm_cols A; nm_at := fun a b => if (a =? i) && (b =? j) then x else nm_at A a b |}
  else UB.
(** A.row(t).segment(s, n) = LinSpaced(n, 0, n - 1) + c *)
Definition nmat_set_segment (A : NMat) (t s n c : nat) : outcome NMat :=
  if (t <? nm_rows A) && (s + n <=? nm_cols A)
  then Ok {| nm_rows := nm_rows A; nm_cols := nm_cols A;
             nm_at := fun a b => if (a =? t) && (s <=? b) && (b <? s + n) then (b - s) + c else nm_at A a b |}
  else UB.
(** A.col(0) = Constant(rows, c) *)
Definition nmat_set_col0 (A : NMat) (c : nat) : outcome NMat :=
  if 0 <? nm_cols A
  then Ok {| nm_rows := nm_rows A; nm_cols := nm_cols A; nm_at := fun a b => if b =? 0 then c else nm_at A a b |}
  else UB.

(** ceil(a / (double) b): the quotient in double precision is exact enough for 32 bit numbers.  b = 0 gives an infinite
    value, whose conversion to unsigned is undefined. *)
Definition ceil_div (a b : nat) : outcome nat := if b =? 0 then UB else Ok ((a + b - 1) / b).

(** ZFEM_PCC_Utilities.hpp 288-308: number of internal dofs in each triangle *)
Definition spread (V n2 : nat) : outcome (list nat) :=
  if (V =? 0) || (n2 =? 0) then UB else
  let base := (n2 - 1) / V in
  let other := (n2 - 1) mod V in
  let selected := n2 - 1 in
  repeat_times <- ceil_div V selected ;;
  ' (l, _) <- for_loop repeat_times (fun i s => for_loop selected (fun j s =>
    let '(l, count) := s in
    if (i + j * repeat_times <? V) && (count <? V)
    then l <- set_idx l (i + j * repeat_times) (base + (if count <? other then 1 else 0)) ;; Ok (l, S count)
    else Ok (l, count)) s) (repeat 0 V, 0) ;;
  Ok l.

(** ZFEM_PCC_Utilities.hpp 323-337: the order in which the internal nodes of triangle [t] are numbered *)
Definition shuffle (n2 t npt : nat) (p_mod : list nat) : outcome (list nat) :=
  if (1 <? n2) && (0 <? npt) then
    repeat_times <- ceil_div n2 npt ;;
    ' (l, _) <- for_loop repeat_times (fun i s => for_loop npt (fun j s =>
      let '(l, count) := s in
      if (i + j * repeat_times <? n2) && (count <? n2)
      then l <- set_idx l count ((i + j * repeat_times + t + 1) mod n2) ;; Ok (l, S count)
      else Ok (l, count)) s) (p_mod, 0) ;;
    Ok l
  else Ok (seq 0 n2).

(** ZFEM_PCC_Utilities.hpp 233-351; [junk]: the entries before they are written *)
Definition CreateMaps (junk : nat -> nat -> nat) (order V n1 n2 NB : nat) : outcome NMat :=
  A <- for_loop V (fun t A =>
    let next_t := (t + 1) mod V in
    A <- nmat_set A t 1 t ;;
    A <- nmat_set A t 2 next_t ;;
    nmat_set_segment A t (3 + n1) n1 (t * n1 + V)) {| nm_rows := V; nm_cols := 3 * (1 + n1) + n2; nm_at := junk |} ;;
  if order <=? 2 then
    A <- nmat_set_col0 A NB ;;
    for_loop V (fun t A =>
      let next_t := (t + 1) mod V in
      A <- nmat_set_segment A t 3 n1 (NB + 1 + t * n1) ;;
      nmat_set_segment A t (3 + 2 * n1) n1 (NB + 1 + next_t * n1)) A
  else if order =? 3 then
    A <- nmat_set_col0 A (NB - 1) ;;
    for_loop V (fun t A =>
      let next_t := (t + 1) mod V in
      A <- nmat_set_segment A t 3 n1 (NB + t * n1) ;;
      A <- nmat_set_segment A t (3 + 2 * n1) n1 (NB + next_t * n1) ;;
      nmat_set A t (3 + 3 * n1) (NB + V * n1 + t)) A
  else
    A <- nmat_set_col0 A (NB - n2) ;;
    num_pt <- spread V n2 ;;
    ' (A, _, _, _) <- for_loop V (fun t s =>
      let '(A, off_int, off_dof, p_mod) := s in
      let next_t := (t + 1) mod V in
      A <- nmat_set_segment A t 3 n1 (NB + t * n1) ;;
      A <- nmat_set_segment A t (3 + 2 * n1) n1 (NB + next_t * n1) ;;
      npt <- idx_ num_pt t ;;
      p_mod <- shuffle n2 t npt p_mod ;;
      ' (A, off_dof) <- for_loop npt (fun p s =>
        let '(A, o) := s in
        m <- idx_ p_mod p ;; A <- nmat_set A t (3 * (n1 + 1) + m) o ;; Ok (A, o + 1)) (A, off_dof) ;;
      ' (A, off_int) <- for_from npt (n2 - npt) (fun p s =>
        let '(A, o) := s in
        m <- idx_ p_mod p ;; A <- nmat_set A t (3 * (n1 + 1) + m) o ;; Ok (A, o + 1)) (A, off_int) ;;
      Ok (A, off_int, off_dof, p_mod)) (A, NB + V * n1, NB - n2 + 1, repeat 0 n2) ;;
    Ok A.

Local Open Scope R_scope.

(** Eigen (not in /repo): A.rightCols(n) *)
Definition rightCols (A : Mat) (n : nat) : outcome Mat :=
  if (n <=? m_cols A)%nat then mat_block A 0 (m_cols A - n) (m_rows A) n else UB.

(** ZFEM_PCC_Utilities.hpp 353-361 *)
Definition MinimizerWeights (llt : Solver) (D VV : Mat) : outcome Mat :=
  M <- mmul (mtrans D) D ;;
  S <- msolve llt M (mtrans VV) ;;
  mmul D S.

(** ZFEM_PCC_Utilities.hpp 48-55 *)
Definition Zfem_Combine (NB NV : nat) (fem W : Mat) : outcome Mat :=
  L <- leftCols fem NB ;; Rt <- rightCols fem NV ;;
  P <- mmul Rt (mtrans W) ;; madd L P.

(** ZFEM_PCC_2D_ReferenceElement.hpp 29-47: the fields used below *)
Record Zfem_Reference := { zr_Order : nat; zr_NumDofs0D : nat; zr_NumDofs1D : nat; zr_NumDofs2D : nat; zr_Tri : Tri_Data; zr_Monomials : Monomials_Data }.
(** ZFEM_PCC_2D_ReferenceElement.hpp 28-45, Create *)
Definition Zfem_Create (order : nat) : outcome Zfem_Reference :=
  d <- Tri_Create order ;;
  m <- Compute Monomials_2D order ;;
  Ok {| zr_Order := order; zr_NumDofs0D := 1; zr_NumDofs1D := order - 1; zr_NumDofs2D := (order - 1) * (order - 2) / 2; zr_Tri := d; zr_Monomials := m |}.

(** ZFEM_PCC_2D_LocalSpace_Data.hpp 24-40: the fields used below *)
Record Zfem_Polygon := { zp_Vertices : Mat; zp_Diameter : R; zp_EdgesDirection : list bool; zp_Center : nat -> R; zp_Triangles : list Mat }.

(** Gedim::MapTriangle (not in /repo) on a triangle: the matrix of [mapTriangle_B], its inverse, the first vertex *)
Definition triangle_map (T : Mat) : MapTriangleData :=
  let B := mapTriangle_B T in
  let det := B 0%nat 0%nat * B 1%nat 1%nat - B 0%nat 1%nat * B 1%nat 0%nat in
  {| mt_B := B;
     mt_BInv := fun i j => match i, j with
       | 0%nat, 0%nat => B 1%nat 1%nat / det | 0%nat, 1%nat => - B 0%nat 1%nat / det
       | 1%nat, 0%nat => - B 1%nat 0%nat / det | 1%nat, 1%nat => B 0%nat 0%nat / det
       | 2%nat, 2%nat => 1 | _, _ => 0 end;
     mt_b := fun i => m_at T i 0 |}.

(** ZFEM_PCC_2D_LocalSpace_Data.hpp 42-93: the fields used below *)
Record Zfem_Local := {
  zl_NumBasis : nat; zl_NumTotal : nat; zl_NumVirtual : nat;
  zl_Tris : list Tri_Local; zl_Map : NMat;
  zl_Nodes : Mat; zl_VirtualNodes : Mat; zl_Finer : Mat;
  zl_D : Mat; zl_VanderVirtuals : Mat; zl_Weights : Mat }.

(** A(all, row) = B, column by column (ZFEM_PCC_2D_LocalSpace.cpp 143) *)
Definition scatter_cols (A : Mat) (M : NMat) (t : nat) (B : Mat) : outcome Mat :=
  if negb ((m_rows A =? m_rows B) && (nm_cols M =? m_cols B))%nat then UB else
  for_loop (nm_cols M) (fun l A => c <- nmat_get M t l ;; mat_set_col A c (fun i => m_at B i l)) A.

(** ZFEM_PCC_2D_LocalSpace.cpp 127-147 *)
Definition PolygonFineNodes (V NB NT NV : nat) (tris : list Tri_Local) (M : NMat) : outcome (Mat * Mat * Mat) :=
  F <- for_loop V (fun t F => l <- idx_ tris t ;; scatter_cols F M t (lt_Dofs l)) (mzero 3 NT) ;;
  C <- leftCols F NB ;; Vn <- rightCols F NV ;; Ok (C, Vn, F).

(** ZFEM_PCC_2D_LocalSpace.cpp 24-125.  Not modelled here: the edge coefficients, the internal quadrature (VemQuadModel),
    the tables of values and derivatives at its points (functions below). *)
Definition Zfem_CreateLocalSpace (junk : nat -> nat -> R) (njunk : nat -> nat -> nat) (llt : Solver) (ref : Zfem_Reference) (p : Zfem_Polygon) : outcome Zfem_Local :=
  let V := m_cols (zp_Vertices p) in
  let NBd := (V * zr_NumDofs0D ref + V * zr_NumDofs1D ref)%nat in
  let NB := (NBd + zr_NumDofs2D ref)%nat in
  let NT := (NBd + 1 + V * (zr_NumDofs1D ref + zr_NumDofs2D ref))%nat in
  let NV := (NT - NB)%nat in
  tris <- for_loop V (fun v l =>
    T <- idx_ (zp_Triangles p) v ;;
    dir <- idx_ (zp_EdgesDirection p) v ;;
    t <- Tri_CreateLocalSpace (zr_Tri ref) (m_cols T) [true; dir; false] (triangle_map T) ;;
    Ok (l ++ [t])) [] ;;
  M <- CreateMaps njunk (zr_Order ref) V (ft_NumDofs1D (zr_Tri ref)) (ft_NumDofs2D (zr_Tri ref)) NB ;;
  ' (C, Vn, F) <- PolygonFineNodes V NB NT NV tris M ;;
  D <- Vander 2 junk (zr_Monomials ref) C (zp_Center p) (zp_Diameter p) ;;
  VV <- Vander 2 junk (zr_Monomials ref) Vn (zp_Center p) (zp_Diameter p) ;;
  W <- MinimizerWeights llt D VV ;;
  Ok {| zl_NumBasis := NB; zl_NumTotal := NT; zl_NumVirtual := NV; zl_Tris := tris; zl_Map := M;
        zl_Nodes := C; zl_VirtualNodes := Vn; zl_Finer := F; zl_D := D; zl_VanderVirtuals := VV; zl_Weights := W |}.

(** ZFEM_PCC_Utilities.hpp 76-79 and the like: A.block(off, M(t, p), nq, 1) = B.col(p) for every p *)
Definition scatter_values (A : Mat) (M : NMat) (t off : nat) (B : Mat) : outcome Mat :=
  for_loop (nm_cols M) (fun p A =>
    c <- nmat_get M t p ;; v <- mcol B p ;;
    mat_set_block A off c (m_rows B) 1 {| m_rows := m_rows B; m_cols := 1; m_at := fun q _ => v q |}) A.

(** ZFEM_PCC_Utilities.hpp 90-129: the number of points of all the triangles *)
Definition total_cols (points : list Mat) : nat := fold_right (fun P n => (m_cols P + n)%nat) 0%nat points.

(** ZFEM_PCC_Utilities.hpp 90-129 and 165-207: one matrix of values (or of derivatives) at the points of every triangle.
    [eval t P]: the values of the FEM basis functions of triangle t.  points[t].size() > 0 is tested. *)
Definition Zfem_FEMValues (eval : Tri_Local -> Mat -> outcome Mat) (NB NV : nat) (tris : list Tri_Local) (M : NMat) (points : list Mat) : outcome Mat :=
  ' (A, _) <- for_loop (length points) (fun t s =>
    let '(A, off) := s in
    P <- idx_ points t ;;
    if (0 <? m_rows P * m_cols P)%nat then
      l <- idx_ tris t ;;
      B <- eval l P ;;
      A <- scatter_values A M t off B ;;
      Ok (A, off + m_cols P)%nat
    else Ok (A, off)) (mzero (total_cols points) (NB + NV), 0%nat) ;;
  Ok A.

(** ZFEM_PCC_2D_LocalSpace.hpp 63-80 *)
Definition Zfem_Values (ref : Zfem_Reference) (l : Zfem_Local) (points : list Mat) : outcome Mat :=
  F <- Zfem_FEMValues (fun t P => Tri_LocalValues (zr_Tri ref) t P) (zl_NumBasis l) (zl_NumVirtual l) (zl_Tris l) (zl_Map l) points ;;
  Zfem_Combine (zl_NumBasis l) (zl_NumVirtual l) F (zl_Weights l).

(** ZFEM_PCC_2D_LocalSpace.hpp 82-103: derivative [d] *)
Definition Zfem_Derivatives (ref : Zfem_Reference) (l : Zfem_Local) (d : nat) (points : list Mat) : outcome Mat :=
  F <- Zfem_FEMValues (fun t P => D <- Tri_LocalDerivatives (zr_Tri ref) t P ;; idx_ D d) (zl_NumBasis l) (zl_NumVirtual l) (zl_Tris l) (zl_Map l) points ;;
  Zfem_Combine (zl_NumBasis l) (zl_NumVirtual l) F (zl_Weights l).
