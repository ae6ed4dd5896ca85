(** Model of PDETools/LocalSpace/LocalSpace_PCC_2D.cpp: the functions the drivers call, by method, on the local spaces of VemModel.v,
    TriangleModel.v and ZfemModel.v.  The result is the record [LocalSpace] of DriverModel.v.
    Not modelled: the variants VEM_PCC_Inertia and VEM_PCC_Ortho, FEM on quadrilateral cells. *)
From Coq Require Import List Arith Bool Reals.
From Verif Require Import Base RSum MatrixModel MonomialsModel LagrangeModel TriangleModel EquationModel VemQuadModel VemModel ZfemModel DriverModel.
Import ListNotations.
Local Open Scope R_scope.

(** ** VEM_PCC *)

(** LocalSpace_PCC_2D.cpp 395-419 (VEM) and 420-442 (ZFEM, the same with its own points and geometry): [points] are the reference points
    inside an edge *)
Definition edge_dofs_coordinates (points vertices tangents : Mat) (dirs : list bool) (ed : nat) : outcome Mat :=
  if (m_cols points =? 0)%nat then Ok (mzero 0 0) else
  let nv := m_cols vertices in
  dir <- at_ dirs ed ;;
  origin <- mat_col vertices 3 (if (dir : bool) then ed else (ed + 1) mod nv)%nat ;;
  tangent <- mat_col tangents 3 ed ;;
  let direction := if (dir : bool) then 1 else -1 in
  if (m_rows points =? 0)%nat then UB else
  Ok {| m_rows := 3; m_cols := m_cols points; m_at := fun k r => origin k + direction * m_at points 0%nat r * tangent k |}.

(** VEM_PCC_2D_LocalSpace.hpp 197-200: (1 / Measure) * VanderInternal.leftCols(Nkm2) *)
Definition VEM_ScaledPolynomialsValues (l : VEM_2D_Local) : outcome Mat :=
  V <- leftCols (lv_VanderInternal l) (lv_Nkm2 l) ;; Ok (mscal (1 / lv_Measure l) V).

(** VEM_PCC_2D_LocalSpace.hpp 240-250 with VEM_PCC_Utilities.hpp 38-44 and 224-232: interpolation_points_x << 0.0, 1.0, internal points, a
    vector of order + 1 coefficients (another number is an Eigen assertion) *)
Definition VEM_ValuesOnEdge (junk : nat -> nat -> R) (ref : VEM_2D_Reference) (y : Vec) : outcome Mat :=
  let P := vq_ReferenceEdgeDOFsInternalPoints (rv_Quadrature ref) in
  let n := if (0 <? m_rows P)%nat then m_cols P else 0%nat in
  if negb (2 + n =? rv_Order ref + 1)%nat then UB else
  let x := {| v_size := rv_Order ref + 1; v_at := fun i => match i with 0%nat => 0 | 1%nat => 1 | S (S j) => m_at P 0 j end |} in
  c <- Lagrange_1D_coefficients junk x ;;
  Lagrange_1D_values junk x c y.

(** LocalSpace_PCC_2D.cpp, the branches VEM_PCC of BasisFunctionsValues (180-184, 205-212), BasisFunctionsDerivativeValues (279-284, 305-312),
    InternalQuadrature (326-330), Size (346-350), StabilizationMatrix (369-374), EdgeDofsCoordinates (395-419), InternalDofsCoordinates (462-471),
    InternalDofs (487-495), BasisFunctionsValuesOnEdge (253-258); the projections are the defaults of LocalSpace_PCC_2D.hpp 106-138:
    Pi0km1 for values at points, Pi0km1Der for derivatives, PiNabla for the stabilisation.
    [junk]: contents of the matrices after resize. *)
Definition VEM_space (junk : nat -> nat -> R) (ref : VEM_2D_Reference) (p : Polygon) (l : VEM_2D_Local) : LocalSpace := {|
  ls_Size := lv_NumBasisFunctions l;
  ls_InternalQuadrature := lv_InternalQuadrature l;
  ls_Values := fun t => VEM_Values_quadrature l t;
  ls_DerivativeValues := VEM_DerivativeValues_quadrature l Pi0km1Der_t;
  ls_ValuesAt := fun points => VEM_Values junk ref l Pi0km1_t points;
  ls_DerivativeValuesAt := fun points => VEM_DerivativeValues junk ref l Pi0km1Der_t points;
  ls_StabilizationMatrix := VEM_DofiDofi l PiNabla_t;
  ls_EdgeDofsCoordinates := fun ed =>
    edge_dofs_coordinates (vq_ReferenceEdgeDOFsInternalPoints (rv_Quadrature ref)) (pg_Vertices p) (pg_EdgesTangent p) (pg_EdgesDirection p) ed;
  ls_InternalDofsCoordinates := Ok (lv_InternalQuadrature l);
  ls_InternalDofs := fun values Q => S <- VEM_ScaledPolynomialsValues l ;; twv S (q_Weights Q) values;
  ls_ValuesOnEdge := fun y => VEM_ValuesOnEdge junk ref y |}.

(** LocalSpace_PCC_2D.cpp 125-143, CreateLocalSpace for VEM_PCC; [geometry]: the entries of mesh_geometric_data of the cell *)
Definition Create_VEM (junk : nat -> nat -> R) (lu llt : Solver) (ref : VEM_2D_Reference) (geometry : nat -> Polygon) (c : nat) : outcome LocalSpace :=
  l <- VEM_PCC_2D_CreateLocalSpace junk lu llt ref (geometry c) ;;
  Ok (VEM_space junk ref (geometry c) l).

(** ** FEM_PCC on triangles *)

(** FEM_Triangle_PCC_2D_LocalSpace.cpp 126-136; [T]: the vertices of the cell, from which MapTriangle is computed *)
Definition FEM_InternalQuadrature (gauss : QuadratureData) (m : MapTriangleData) (T : Mat) : outcome QuadratureData :=
  if negb (m_rows (q_Points gauss) =? 3)%nat then UB else
  w <- vcwise (q_Weights gauss) {| v_size := m_cols (q_Points gauss); v_at := fun q => Rabs (v_at (mapTriangle_DetJ T (q_Points gauss)) q) |} ;;
  Ok {| q_Points := mt_F m (q_Points gauss); q_Weights := w |}.

(** FEM_Triangle_PCC_2D_LocalSpace.hpp 61-92: the columns of Dofs of the unknowns of an edge or of the cell, none if there are no such unknowns
    (the offsets are those of FEM_Triangle_PCC_2D_LocalSpace.cpp 40-83) *)
Definition FEM_dofs_block (data : Tri_Data) (l : Tri_Local) (start n : nat) : outcome Mat :=
  if (n =? 0)%nat then Ok (mzero 0 0) else mat_block (lt_Dofs l) 0 start 3 n.

(** FEM_Triangle_PCC_2D_LocalSpace.hpp 32-36, 55-59: the overload without points gathers the table of the reference element at the
    points of its quadrature (FEM_Triangle_PCC_2D_ReferenceElement.hpp 164-171) *)
Definition FEM_Values_quadrature (gauss : QuadratureData) (data : Tri_Data) (l : Tri_Local) : outcome Mat :=
  V <- Tri_Values (q_Points gauss) data ;; gather V (lt_DofsMeshOrder l).
(** the same for the derivatives, FEM_Triangle_PCC_2D_LocalSpace.hpp 103-108 and FEM_Triangle_PCC_2D_LocalSpace.cpp 95-110 *)
Definition FEM_Derivatives_quadrature (gauss : QuadratureData) (data : Tri_Data) (l : Tri_Local) : outcome (list Mat) :=
  D <- Tri_Derivatives (q_Points gauss) data ;;
  D0 <- at_ D 0 ;; D1 <- at_ D 1 ;;
  let B := mt_BInv (lt_Map l) in
  A0 <- madd (mscal (B 0%nat 0%nat) D0) (mscal (B 1%nat 0%nat) D1) ;;
  A1 <- madd (mscal (B 0%nat 1%nat) D0) (mscal (B 1%nat 1%nat) D1) ;;
  G0 <- gather A0 (lt_DofsMeshOrder l) ;; G1 <- gather A1 (lt_DofsMeshOrder l) ;;
  Ok [G0; G1].

(** LocalSpace_PCC_2D.cpp, the branches FEM_PCC of the same functions (176-179, 200-204, 248-252, 275-278, 300-304, 323-325, 343-345, 365-368,
    390-394, 455-461, 484-486), through FEM_PCC_2D_LocalSpace.hpp for a triangle; the weights of the
    internal unknowns are not set (455-461) and not used (484-486).
    [edge]: the one dimensional reference element of the edges, FEM_Triangle_PCC_2D_LocalSpace.hpp 146-153 *)
Definition FEM_space (junk : nat -> nat -> R) (gauss : QuadratureData) (edge : FEM_1D_Data) (data : Tri_Data) (l : Tri_Local) (Q : QuadratureData) : LocalSpace := {|
  ls_Size := lt_NumberOfBasisFunctions l;
  ls_InternalQuadrature := Q;
  ls_Values := fun _ => FEM_Values_quadrature gauss data l;
  ls_DerivativeValues := FEM_Derivatives_quadrature gauss data l;
  ls_ValuesAt := fun points => Tri_LocalValues data l points;
  ls_DerivativeValuesAt := fun points => Tri_LocalDerivatives data l points;
  ls_StabilizationMatrix := Ok (mzero (lt_NumberOfBasisFunctions l) (lt_NumberOfBasisFunctions l));
  ls_EdgeDofsCoordinates := fun ed => if (ed <? 4)%nat then FEM_dofs_block data l (3 * ft_NumDofs0D data + ed * ft_NumDofs1D data) (ft_NumDofs1D data) else Throw;
  ls_InternalDofsCoordinates :=
    P <- FEM_dofs_block data l (3 * ft_NumDofs0D data + 3 * ft_NumDofs1D data) (ft_NumDofs2D data) ;; Ok {| q_Points := P; q_Weights := vzero 0 |};
  ls_InternalDofs := fun values _ => Ok values;
  ls_ValuesOnEdge := fun y => FEM_1D_Values junk {| m_rows := 3; m_cols := v_size y; m_at := fun i j => match i with 0%nat => v_at y j | _ => junk i j end |} edge |}.

(** LocalSpace_PCC_2D.cpp 112-124, CreateLocalSpace for FEM_PCC, with FEM_PCC_2D_LocalSpace.cpp 23-55 on a cell with three vertices
    (four vertices are quadrilaterals, not modelled here; any other number throws) *)
Definition Create_FEM (junk : nat -> nat -> R) (gauss : QuadratureData) (edge : FEM_1D_Data) (data : Tri_Data)
  (vertices : nat -> Mat) (dirs : nat -> list bool) (map_of : nat -> MapTriangleData) (c : nat) : outcome LocalSpace :=
  l <- Tri_CreateLocalSpace data (m_cols (vertices c)) (dirs c) (map_of c) ;;
  Q <- FEM_InternalQuadrature gauss (map_of c) (vertices c) ;;
  Ok (FEM_space junk gauss edge data l Q).

(** ** ZFEM_PCC *)

(** LocalSpace_PCC_2D.cpp, the branches ZFEM_PCC: BasisFunctionsValues (185-187), BasisFunctionsDerivativeValues (285-287), InternalQuadrature
    (331-333), Size (351-353), StabilizationMatrix (375-378), EdgeDofsCoordinates (420-442), BasisFunctionsValuesOnEdge (259-263); there is no
    branch in BasisFunctionsValues and BasisFunctionsDerivativeValues at points (213-214, 313-314), InternalDofsCoordinates (472-473) and
    InternalDofs (496-497): the default throws.
    [Q], [points]: the internal quadrature and its points triangle by triangle (ZFEM_PCC_2D_LocalSpace.cpp 65-68), [edge_points]: the
    reference points of the unknowns of an edge, [on_edge]: ComputeValuesOnEdge (ZFEM_PCC_2D_LocalSpace.hpp 102-111), not modelled *)
Definition ZFEM_space (ref : Zfem_Reference) (p : Zfem_Polygon) (tangents : Mat) (l : Zfem_Local) (Q : QuadratureData) (points : list Mat)
  (edge_points : Mat) (on_edge : Vec -> outcome Mat) : LocalSpace := {|
  ls_Size := zl_NumBasis l;
  ls_InternalQuadrature := Q;
  ls_Values := fun _ => Zfem_Values ref l points;
  ls_DerivativeValues := D0 <- Zfem_Derivatives ref l 0 points ;; D1 <- Zfem_Derivatives ref l 1 points ;; Ok [D0; D1];
  ls_ValuesAt := fun _ => Throw;
  ls_DerivativeValuesAt := fun _ => Throw;
  ls_StabilizationMatrix := Ok (mzero (zl_NumBasis l) (zl_NumBasis l));
  ls_EdgeDofsCoordinates := fun ed => edge_dofs_coordinates edge_points (zp_Vertices p) tangents (zp_EdgesDirection p) ed;
  ls_InternalDofsCoordinates := Throw;
  ls_InternalDofs := fun _ _ => Throw;
  ls_ValuesOnEdge := on_edge |}.
