(** Model of FEM/PCC/3D/FEM_Tetrahedron_PCC_3D_LocalSpace.{hpp,cpp} and of the three maps of
    FEM_Tetrahedron_PCC_3D_ReferenceElement.hpp. *)
From Coq Require Import List Arith Bool ZArith Reals.
From Verif Require Import Base RSum MatrixModel MonomialsModel VemQuadModel TriangleModel TetModel.
Import ListNotations.
Local Open Scope R_scope.

(** std::map::at with a pair as key *)
Fixpoint pair_at {A} (t : list (nat * nat * A)) (a b : nat) : outcome A :=
  match t with
  | [] => Throw
  | ((x, y), v) :: t' => if ((x =? a) && (y =? b))%nat then Ok v else pair_at t' a b
  end.

(** FEM_Tetrahedron_PCC_3D_ReferenceElement.hpp 63-74: edge and direction by its two vertices *)
Definition Edges_by_vertices : list (nat * nat * (nat * bool)) :=
  [((0, 1), (0, true)); ((1, 0), (0, false)); ((1, 2), (1, true)); ((2, 1), (1, false)); ((2, 0), (2, true)); ((0, 2), (2, false));
   ((0, 3), (3, true)); ((3, 0), (3, false)); ((1, 3), (4, false)); ((3, 1), (4, true)); ((2, 3), (5, false)); ((3, 2), (5, true))]%nat.
(** FEM_Tetrahedron_PCC_3D_ReferenceElement.hpp 76-87: face by an edge and a vertex *)
Definition Faces_by_edge_vertex : list (nat * nat * nat) :=
  [((0, 2), 0); ((1, 0), 0); ((2, 1), 0); ((0, 3), 1); ((4, 0), 1); ((3, 1), 1);
   ((2, 3), 2); ((5, 0), 2); ((3, 2), 2); ((1, 3), 3); ((5, 1), 3); ((4, 2), 3)]%nat.
(** FEM_Tetrahedron_PCC_3D_ReferenceElement.hpp 89-112: face, starting edge and direction by two consecutive edges *)
Definition Faces_by_edges : list (nat * nat * (nat * nat * bool)) :=
  [((0, 1), (0, 0, true)); ((1, 2), (0, 1, true)); ((2, 0), (0, 2, true)); ((1, 0), (0, 2, false)); ((2, 1), (0, 0, false)); ((0, 2), (0, 1, false));
   ((0, 4), (1, 0, true)); ((4, 3), (1, 1, true)); ((3, 0), (1, 2, true)); ((4, 0), (1, 2, false)); ((3, 4), (1, 0, false)); ((0, 3), (1, 1, false));
   ((2, 5), (2, 0, true)); ((5, 3), (2, 1, true)); ((3, 2), (2, 2, true)); ((5, 2), (2, 2, false)); ((3, 5), (2, 0, false)); ((2, 3), (2, 1, false));
   ((1, 5), (3, 0, true)); ((5, 4), (3, 1, true)); ((4, 1), (3, 2, true)); ((5, 1), (3, 2, false)); ((4, 5), (3, 0, false)); ((1, 4), (3, 1, false))]%nat.

(** FEM_PCC_3D_LocalSpace_Data.hpp 40-55 and Gedim::MapTetrahedron::Compute (not in /repo).  Simplifications: tg_Map is the result
    of Compute on Vertices, an affine map and the inverse of its matrix; a face is the row of its vertices and the row of its edges;
    the geometry of a face in its plane is its number of vertices, the directions of its edges and the result of
    MapTriangle::Compute on its vertices; the tolerances are in [tg_Same], the test by which GeometryUtilities takes two points to be
    the same.  FacesDirection, tangents and lengths are not read by the code. *)
Record Tet_Geometry := {
  tg_Map : MapTriangleData;
  tg_Edges : list (nat * nat);
  tg_Faces : list (list nat * list nat);
  tg_EdgesDirection : list bool;
  tg_FacesRotationMatrix : list (nat -> nat -> R);
  tg_FacesTranslation : list (nat -> R);
  tg_Faces_2D_Geometry : list (nat * list bool * MapTriangleData);
  tg_Same : (nat -> R) -> (nat -> R) -> bool }.

(** FEM_PCC_3D_LocalSpace_Data.hpp 78-97: the fields used below *)
Record Tet_Local := {
  tl_Map : MapTriangleData;
  tl_Order : nat;
  tl_NumberOfBasisFunctions : nat;
  tl_Dofs : Mat;
  tl_EdgeIndex : list (nat * bool);
  tl_FaceIndex : list (nat * nat * bool);
  tl_DofsMeshOrder : list nat;
  tl_Dof1DsIndex : list nat;
  tl_Dof2DsIndex : list nat;
  tl_Quadrature : QuadratureData;
  tl_Boundary : list Tri_Local }.

(** FEM_Tetrahedron_PCC_3D_LocalSpace.cpp 42-51: index and direction of the reference edge of each edge *)
Definition tl_edges (g : Tet_Geometry) : outcome (list (nat * bool)) :=
  for_loop 6 (fun e acc =>
    ' (a, b) <- idx_ (tg_Edges g) e ;;
    r <- pair_at Edges_by_vertices a b ;;
    Ok (acc ++ [r])) [].

(** FEM_Tetrahedron_PCC_3D_LocalSpace.cpp 55-68 *)
Definition tl_boundary (data : Tet_Data) (g : Tet_Geometry) : outcome (list Tri_Local) :=
  for_loop 4 (fun f acc =>
    ' (nv, dir, m) <- idx_ (tg_Faces_2D_Geometry g) f ;;
    l <- Tri_CreateLocalSpace (te_Boundary data) nv dir m ;;
    Ok (acc ++ [l])) [].

(** FEM_Tetrahedron_PCC_3D_LocalSpace.cpp 70-87: index, starting edge and direction of the reference face of each face; a failing Assert throws *)
Definition tl_faces (g : Tet_Geometry) (edges : list (nat * bool)) : outcome (list (nat * nat * bool)) :=
  for_loop 4 (fun f acc =>
    ' (fv, fe) <- idx_ (tg_Faces g) f ;;
    e0 <- idx_ fe 0 ;; e1 <- idx_ fe 1 ;;
    r0 <- idx_ edges e0 ;; r1 <- idx_ edges e1 ;;
    v <- idx_ fv 2 ;;
    ev <- pair_at Faces_by_edge_vertex (fst r0) v ;;
    ' (face, start, dir) <- pair_at Faces_by_edges (fst r0) (fst r1) ;;
    if (face =? ev)%nat then Ok (acc ++ [(ev, start, dir)]) else Throw) [].

(** Gedim::GeometryUtilities::FindPointInPoints (not in /repo): the columns that are the same point as [p] *)
Definition find_point (same : (nat -> R) -> (nat -> R) -> bool) (points : Mat) (p : nat -> R) : list nat :=
  filter (fun s => same (fun c => m_at points c s) p) (seq 0 (m_cols points)).

(** Gedim::GeometryUtilities::RotatePointsFrom2DTo3D (not in /repo): rotation * points + translation *)
Definition rotate (rot : nat -> nat -> R) (trans : nat -> R) (P : Mat) : Mat :=
  {| m_rows := 3; m_cols := m_cols P; m_at := fun i q => rsum 3 (fun k => rot i k * m_at P k q) + trans i |}.

(** FEM_Tetrahedron_PCC_3D_LocalSpace.cpp 105-129, the edge [e]; [edges]: indices and directions of the reference edges *)
Definition tl_order_edge (N n0 n1 : nat) (edges : list (nat * bool)) (g : Tet_Geometry) (e : nat) (l : list nat) : outcome (list nat) :=
  r <- idx_ edges e ;;
  dr <- at_ (tg_EdgesDirection g) e ;;
  let k := (n0 * 4 + n1 * fst r)%nat in
  let a := (4 * n0 + e * n1)%nat in let b := (4 * n0 + S e * n1)%nat in
  s <- (if Bool.eqb dr (snd r) then ascending a b (l, k) else descending (S N) (decr (Z.of_nat b)) (Z.of_nat a) (l, k)) ;;
  Ok (fst s).

(** FEM_Tetrahedron_PCC_3D_LocalSpace.cpp 132-175, the face [f] *)
Definition tl_order_face (data : Tet_Data) (g : Tet_Geometry) (faces : list (nat * nat * bool)) (boundary : list Tri_Local) (f : nat) (l : list nat) : outcome (list nat) :=
  let n0 := te_NumDofs0D data in let n1 := te_NumDofs1D data in let n2 := te_NumDofs2D data in
  ' (ref, _, _) <- idx_ faces f ;;
  let k := (n0 * 4 + n1 * 6 + n2 * ref)%nat in
  if (0 <? n2)%nat then
    ls <- idx_ boundary f ;;
    D2 <- mat_block (lt_Dofs ls) 0 (3 * n0 + 3 * n1) 3 n2 ;;
    rot <- at_ (tg_FacesRotationMatrix g) f ;; trans <- at_ (tg_FacesTranslation g) f ;;
    let A := rotate rot trans D2 in
    RD <- mat_block (te_DofPositions data) 0 k 3 n2 ;;
    let B := mt_F (tg_Map g) RD in
    let start := (4 * n0 + 6 * n1 + f * n2)%nat in
    for_loop n2 (fun shift l =>
      p <- mcol A shift ;;
      match find_point (tg_Same g) B p with
      | [s] => set_idx l (k + s)%nat (start + shift)%nat
      | _ => Throw
      end) l
  else Ok l.

(** FEM_Tetrahedron_PCC_3D_LocalSpace.cpp 89-186 *)
Definition tl_order (data : Tet_Data) (g : Tet_Geometry) (edges : list (nat * bool)) (faces : list (nat * nat * bool)) (boundary : list Tri_Local) : outcome (list nat) :=
  let N := te_NumBasisFunctions data in
  let n0 := te_NumDofs0D data in let n1 := te_NumDofs1D data in let n2 := te_NumDofs2D data in let n3 := te_NumDofs3D data in
  l <- for_loop 4 (fun v l => s <- ascending (v * n0) (S v * n0) (l, (n0 * v)%nat) ;; Ok (fst s)) (repeat 0%nat N) ;;
  l <- for_loop 6 (fun e l => tl_order_edge N n0 n1 edges g e l) l ;;
  l <- for_loop 4 (fun f l => tl_order_face data g faces boundary f l) l ;;
  let start := (4 * n0 + 6 * n1 + 4 * n2)%nat in
  s <- ascending start (start + n3) (l, (n0 * 4 + n1 * 6 + n2 * 4)%nat) ;;
  Ok (fst s).

(** FEM_Tetrahedron_PCC_3D_LocalSpace.cpp 196-205; [junk]: the storage of the result before it is written *)
Definition tl_MapValues (junk : nat -> nat -> R) (N : nat) (order : list nat) (ref : Mat) : outcome Mat :=
  for_loop N (fun d A => p <- at_ order d ;; c <- mcol ref d ;; mat_set_col A p c) (mraw junk (m_rows ref) N).

(** double multiplication by a number *)
Definition fscal (c : R) (x : option R) : option R := match x with Some a => Some (c * a) | None => None end.
(** Eigen (not in /repo): A + c * B *)
Definition f_axpy (A : FMat) (c : R) (B : FMat) : outcome FMat :=
  if ((f_rows A =? f_rows B) && (f_cols A =? f_cols B))%nat
  then Ok {| f_rows := f_rows A; f_cols := f_cols A; f_at := fun i j => fadd (f_at A i j) (fscal c (f_at B i j)) |} else UB.

(** FEM_Tetrahedron_PCC_3D_LocalSpace.cpp 210-222 *)
Definition tl_physical (QInv : nat -> nat -> R) (ref : list FMat) : outcome (list FMat) :=
  R0 <- at_ ref 0 ;;
  for_loop 3 (fun i acc =>
    Ri <- idx_ ref i ;;
    acc <- set_idx acc i {| f_rows := f_rows Ri; f_cols := f_cols Ri; f_at := fun a b => fscal (QInv i i) (f_at Ri a b) |} ;;
    for_loop i (fun j acc =>
      Rj <- idx_ ref j ;;
      Bi <- idx_ acc i ;; Bi <- f_axpy Bi (QInv j i) Rj ;; acc <- set_idx acc i Bi ;;
      Bj <- idx_ acc j ;; Bj <- f_axpy Bj (QInv i j) Ri ;; set_idx acc j Bj) acc)
    (repeat (fzero (f_rows R0) (f_cols R0)) 3).

(** FEM_Tetrahedron_PCC_3D_LocalSpace.cpp 224-236; [junk]: the storage of the result before it is written *)
Definition tl_MapDerivatives (junk : nat -> nat -> option R) (QInv : nat -> nat -> R) (N : nat) (order : list nat) (ref : list FMat) : outcome (list FMat) :=
  phys <- tl_physical QInv ref ;;
  R0 <- at_ ref 0 ;;
  for_loop N (fun d acc =>
    p <- at_ order d ;;
    for_loop 3 (fun i acc =>
      A <- at_ acc i ;; B <- at_ phys i ;; c <- fcol B d ;; A <- fset_col A p c ;; set_idx acc i A) acc)
    (repeat {| f_rows := f_rows R0; f_cols := N; f_at := junk |} 3).

(** determinant of a 3x3 matrix, Gedim::MapTetrahedron::DetJ (not in /repo) *)
Definition det3 (Q : nat -> nat -> R) : R :=
  Q 0%nat 0%nat * (Q 1%nat 1%nat * Q 2%nat 2%nat - Q 1%nat 2%nat * Q 2%nat 1%nat)
  - Q 0%nat 1%nat * (Q 1%nat 0%nat * Q 2%nat 2%nat - Q 1%nat 2%nat * Q 2%nat 0%nat)
  + Q 0%nat 2%nat * (Q 1%nat 0%nat * Q 2%nat 1%nat - Q 1%nat 1%nat * Q 2%nat 0%nat).

(** FEM_Tetrahedron_PCC_3D_LocalSpace.cpp 239-250 *)
Definition tl_InternalQuadrature (q : QuadratureData) (m : MapTriangleData) : QuadratureData :=
  {| q_Points := mt_F m (q_Points q);
     q_Weights := {| v_size := v_size (q_Weights q); v_at := fun i => v_at (q_Weights q) i * Rabs (det3 (mt_B m)) |} |}.

(** FEM_Tetrahedron_PCC_3D_LocalSpace.cpp 24-194.  Not modelled: the quadrature on the faces, 191. *)
Definition Tet_CreateLocalSpace (junk : nat -> nat -> R) (data : Tet_Data) (g : Tet_Geometry) : outcome Tet_Local :=
  edges <- tl_edges g ;;
  boundary <- tl_boundary data g ;;
  faces <- tl_faces g edges ;;
  order <- tl_order data g edges faces boundary ;;
  Dofs <- tl_MapValues junk (te_NumBasisFunctions data) order (mt_F (tg_Map g) (te_DofPositions data)) ;;
  let n0 := te_NumDofs0D data in let n1 := te_NumDofs1D data in let n2 := te_NumDofs2D data in
  Ok {| tl_Map := tg_Map g; tl_Order := te_Order data; tl_NumberOfBasisFunctions := te_NumBasisFunctions data; tl_Dofs := Dofs;
        tl_EdgeIndex := edges; tl_FaceIndex := faces; tl_DofsMeshOrder := order;
        tl_Dof1DsIndex := map (fun e => 4 * n0 + e * n1)%nat (seq 0 7); tl_Dof2DsIndex := map (fun f => 4 * n0 + 6 * n1 + f * n2)%nat (seq 0 5);
        tl_Quadrature := tl_InternalQuadrature (te_Quadrature data) (tg_Map g); tl_Boundary := boundary |}.

(** FEM_Tetrahedron_PCC_3D_LocalSpace.hpp 47-51 *)
Definition Tet_QuadratureValues (junk : nat -> nat -> R) (data : Tet_Data) (l : Tet_Local) : outcome Mat :=
  tl_MapValues junk (tl_NumberOfBasisFunctions l) (tl_DofsMeshOrder l) (te_Values data).
(** FEM_Tetrahedron_PCC_3D_LocalSpace.hpp 53-58 *)
Definition Tet_QuadratureDerivatives (junk : nat -> nat -> option R) (data : Tet_Data) (l : Tet_Local) : outcome (list FMat) :=
  tl_MapDerivatives junk (mt_BInv (tl_Map l)) (tl_NumberOfBasisFunctions l) (tl_DofsMeshOrder l) (te_Derivatives data).
(** FEM_Tetrahedron_PCC_3D_LocalSpace.hpp 60-69 *)
Definition Tet_LocalValues (junk : nat -> nat -> R) (data : Tet_Data) (l : Tet_Local) (points : Mat) : outcome Mat :=
  V <- Tet_Values (mt_FInv (tl_Map l) points) data ;;
  tl_MapValues junk (tl_NumberOfBasisFunctions l) (tl_DofsMeshOrder l) V.
(** FEM_Tetrahedron_PCC_3D_LocalSpace.hpp 71-81 *)
Definition Tet_LocalDerivatives (junk : nat -> nat -> option R) (data : Tet_Data) (l : Tet_Local) (points : Mat) : outcome (list FMat) :=
  D <- Tet_Derivatives (mt_FInv (tl_Map l) points) data ;;
  tl_MapDerivatives junk (mt_BInv (tl_Map l)) (tl_NumberOfBasisFunctions l) (tl_DofsMeshOrder l) D.
(** FEM_Tetrahedron_PCC_3D_LocalSpace.hpp 83-98 *)
Definition Tet_EdgeDOFs (data : Tet_Data) (l : Tet_Local) (e : nat) : outcome Mat :=
  start <- at_ (tl_Dof1DsIndex l) e ;;
  if (te_NumDofs1D data =? 0)%nat then Ok (mzero 0 0) else mat_block (tl_Dofs l) 0 start 3 (te_NumDofs1D data).
(** FEM_Tetrahedron_PCC_3D_LocalSpace.hpp 100-110 *)
Definition Tet_FaceDOFs (data : Tet_Data) (l : Tet_Local) (f : nat) : outcome Mat :=
  start <- at_ (tl_Dof2DsIndex l) f ;;
  if (te_NumDofs2D data =? 0)%nat then Ok (mzero 0 0) else mat_block (tl_Dofs l) 0 start 3 (te_NumDofs2D data).
(** FEM_Tetrahedron_PCC_3D_LocalSpace.hpp 122-132 *)
Definition Tet_FaceValues (data : Tet_Data) (l : Tet_Local) (f : nat) (points2D : Mat) : outcome Mat :=
  ls <- idx_ (tl_Boundary l) f ;; Tri_LocalValues (te_Boundary data) ls points2D.
