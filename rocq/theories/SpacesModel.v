(** Model of the tables of unknowns of the 2D spaces: PolyDiM/src/PDETools/LocalSpace/LocalSpace_{PCC,MCC,DF_PCC}_2D.cpp and of
    the reference elements and local spaces they select.  Only the counts of unknowns are modelled here; the FEM elements are the
    ones of TriangleModel.v and QuadModel.v.  Definitions only. *)
From Coq Require Import Reals List Arith Bool.
From Verif Require Import Base DofsModel MatrixModel MonomialsModel LagrangeModel TriangleModel QuadModel.
Import ListNotations.
Local Open Scope nat_scope.

(** LocalSpace_PCC_2D.cpp 512-545 (dimension 0), 547-573 (dimension 1), 575-601 (dimension 2): the two vectors are resized, then
    every cell gets its number of unknowns (chosen by the method, may throw) and the boundary data of its marker. *)
Definition fill_dim (d ncells : nat) (count : nat -> outcome nat) (marker : nat -> nat) (boundary : nat -> option BoundaryInfo)
  (info : MeshDOFsInfo) : outcome MeshDOFsInfo :=
  let num := resize (CellsNumDOFs info d) ncells 0 in
  let b := resize (CellsBoundaryInfo info d) ncells {| bi_type := BUnknown; bi_marker := 0 |} in
  st <- for_loop ncells (fun c st =>
     n <- count c ;;
     num <- set_idx (fst st) c n ;;
     v <- map_at boundary (marker c) ;;
     b <- set_idx (snd st) c v ;;
     Ok (num, b)) (num, b) ;;
  Ok {| CellsNumDOFs := upd (CellsNumDOFs info) d (fst st); CellsBoundaryInfo := upd (CellsBoundaryInfo info) d (snd st) |}.

(** the three dimensions in turn, LocalSpace_PCC_2D.cpp 501-604 *)
Definition fill_2D (mesh : Mesh) (count : nat -> nat -> outcome nat) (boundary : nat -> option BoundaryInfo) : outcome MeshDOFsInfo :=
  i0 <- fill_dim 0 (Cell0Ds_number mesh) (count 0) (Cell0D_marker mesh) boundary empty_info ;;
  i1 <- fill_dim 1 (Cell1Ds_number mesh) (count 1) (Cell1D_marker mesh) boundary i0 ;;
  fill_dim 2 (Cell2Ds_number mesh) (count 2) (Cell2D_marker mesh) boundary i1.

(** ** Primal spaces, LocalSpace_PCC_2D.cpp *)

(** LocalSpace_PCC_2D.hpp: enum MethodTypes.  The three VEM variants have the same counts: their reference elements are the same
    class (VEM_PCC_2D_ReferenceElement) and their local spaces size themselves alike, see [Size_PCC_2D]. *)
Inductive Method_PCC_2D := FEM_PCC | VEM_PCC | VEM_PCC_Inertia | VEM_PCC_Ortho | ZFEM_PCC.

(** LocalSpace_PCC_2D.hpp: the part of ReferenceElement_Data that the counts use *)
Inductive Reference_PCC_2D :=
| FEM_reference (n0 n1 : nat) (triangle : Tri_Data) (quadrilateral : Quad_Data)
| VEM_reference (n0 n1 n2 : nat)
| ZFEM_reference (n0 n1 n2 : nat).

(** LocalSpace_PCC_2D.cpp 26-77 with FEM/PCC/2D/FEM_PCC_2D_ReferenceElement.hpp 62-80, VEM/PCC/2D/VEM_PCC_2D_ReferenceElement.hpp 28-46
    and ZFEM/PCC/2D/ZFEM_PCC_2D_ReferenceElement.hpp 29-47.  The differences are of [unsigned int]; they do not wrap for order >= 1
    except (order-1)*(order-2) at order 1, which is 0 in both arithmetics. *)
Definition CreateReferenceElement_PCC_2D (junk : nat -> nat -> R) (lobatto : nat -> Vec) (m : Method_PCC_2D) (order : nat) : outcome Reference_PCC_2D :=
  match m with
  | FEM_PCC => t <- Tri_Create order ;; q <- Quad_Create junk lobatto order ;; Ok (FEM_reference 1 (order - 1) t q)
  | VEM_PCC | VEM_PCC_Inertia | VEM_PCC_Ortho => Ok (VEM_reference 1 (order - 1) (order * (order - 1) / 2))
  | ZFEM_PCC => Ok (ZFEM_reference 1 (order - 1) ((order - 1) * (order - 2) / 2))
  end.

(** LocalSpace_PCC_2D.cpp 515-540, 552-571, 580-599: number of unknowns of cell [c] of dimension [d] *)
Definition count_PCC_2D (ref : Reference_PCC_2D) (mesh : Mesh) (d c : nat) : outcome nat :=
  match ref with
  | FEM_reference n0 n1 t q =>
      match d with 0 => Ok n0 | 1 => Ok n1
      | _ => let nv := length (Cell2D_vertices mesh c) in
             if nv =? 3 then Ok (ft_NumDofs2D t) else if nv =? 4 then Ok (fq_NumDofs2D q) else Throw
      end
  | VEM_reference n0 n1 n2 | ZFEM_reference n0 n1 n2 => match d with 0 => Ok n0 | 1 => Ok n1 | _ => Ok n2 end
  end.

(** LocalSpace_PCC_2D.cpp 501-604 *)
Definition SetMeshDOFsInfo_PCC_2D (ref : Reference_PCC_2D) (mesh : Mesh) (boundary : nat -> option BoundaryInfo) : outcome MeshDOFsInfo :=
  fill_2D mesh (count_PCC_2D ref mesh) boundary.

(** CreateLocalSpace (LocalSpace_PCC_2D.cpp 79-185) followed by Size (339-357), for a polygon whose vertex matrix has [nv] columns.
    FEM: FEM_PCC_2D_LocalSpace.cpp 22-57, by number of vertices, with the edge directions and the map of the cell;
    VEM: VEM_PCC_2D_LocalSpace.cpp 182-194, VEM_PCC_2D_Inertia_LocalSpace.cpp 272-283, VEM_PCC_2D_Ortho_LocalSpace.cpp 125-136;
    ZFEM: ZFEM_PCC_2D_LocalSpace.cpp 41-54. *)
Definition Size_PCC_2D (ref : Reference_PCC_2D) (nv : nat) (dir : list bool) (mt : MapTriangleData) (mq : QuadMap) : outcome nat :=
  match ref with
  | FEM_reference _ _ t q =>
      if nv =? 3 then l <- Tri_CreateLocalSpace t nv dir mt ;; Ok (lt_NumberOfBasisFunctions l)
      else if nv =? 4 then l <- Quad_CreateLocalSpace q nv dir mq ;; Ok (lq_NumberOfBasisFunctions l)
      else Throw
  | VEM_reference _ n1 n2 => Ok (nv + n1 * nv + n2)
  | ZFEM_reference n0 n1 n2 => Ok (nv * n0 + nv * n1 + n2)
  end.

(** ** Mixed spaces, LocalSpace_MCC_2D.cpp *)

(** LocalSpace_MCC_2D.hpp: enum MethodTypes *)
Inductive Method_MCC_2D := VEM_MCC | VEM_MCC_Partial | VEM_MCC_Ortho | VEM_MCC_EdgeOrtho | VEM_MCC_Ortho_EdgeOrtho | FEM_RT_MCC.

(** the counts (NumDofs0D, NumDofs1D, NumDofs2D) of the velocity and of the pressure *)
Record Reference_MCC_2D := { rm_method : Method_MCC_2D; rm_order : nat; rm_velocity : nat * nat * nat; rm_pressure : nat * nat * nat }.

(** LocalSpace_MCC_2D.cpp 22-85 with VEM_MCC_2D_ReferenceElement.hpp 36-71 (and the EdgeOrtho copy, 36-73) and
    FEM_Triangle_RT_MCC_2D_ReferenceElement.hpp 325-337 (Dimension = 2; the expression is evaluated left to right in integers) *)
Definition CreateReferenceElement_MCC_2D (m : Method_MCC_2D) (order : nat) : Reference_MCC_2D :=
  {| rm_method := m; rm_order := order;
     rm_velocity := match m with
                    | FEM_RT_MCC => (0, order + 1, 2 * order * (order + 1) / 2)
                    | _ => (0, order + 1, order * (order + 2))
                    end;
     rm_pressure := (0, 0, (order + 1) * (order + 2) / 2) |}.

(** std::array<unsigned int, 4> from the three counts, LocalSpace_MCC_2D.cpp 541-566 *)
Definition num_dofs_array (t : nat * nat * nat) : nat -> nat :=
  fun d => match d with 0 => fst (fst t) | 1 => snd (fst t) | 2 => snd t | _ => 0 end.

(** LocalSpace_MCC_2D.cpp 531-572: velocity, pressure *)
Definition ReferenceElementNumDOFs_MCC_2D (ref : Reference_MCC_2D) : (nat -> nat) * (nat -> nat) :=
  (num_dofs_array (rm_velocity ref), num_dofs_array (rm_pressure ref)).

(** CreateLocalSpace (LocalSpace_MCC_2D.cpp 87-150) followed by VelocitySize (384-401), for a polygon with [ne] edges and [nv] vertices.
    VEM_MCC_2D_Velocity_LocalSpace.cpp 83-91 and the EdgeOrtho copy 95-103: the internal functions are NumDofs2D;
    VEM_MCC_2D_Partial_Velocity_LocalSpace.cpp 84-93, Ortho 84-93, Ortho_EdgeOrtho 96-105: (Nk - 1) + (Nk - (Order + 1));
    FEM_MCC_2D_LocalSpace.cpp 23-57 (only triangles) with FEM_Triangle_RT_MCC_2D_ReferenceElement.hpp 335-337. *)
Definition VelocitySize_MCC_2D (ref : Reference_MCC_2D) (ne nv : nat) : outcome nat :=
  let '(_, n1, n2) := rm_velocity ref in
  let Nk := (rm_order ref + 1) * (rm_order ref + 2) / 2 in
  match rm_method ref with
  | VEM_MCC | VEM_MCC_EdgeOrtho => Ok (n1 * ne + n2)
  | VEM_MCC_Partial | VEM_MCC_Ortho | VEM_MCC_Ortho_EdgeOrtho => Ok (n1 * ne + (Nk - 1 + (Nk - (rm_order ref + 1))))
  | FEM_RT_MCC => if nv =? 3 then Ok (3 * n1 + n2) else Throw
  end.

(** number of pressure basis functions: VEM_MCC_2D_Pressure_LocalSpace.cpp 53, FEM_Triangle_RT_MCC_2D_LocalSpace.cpp 39 *)
Definition PressureSize_MCC_2D (ref : Reference_MCC_2D) (nv : nat) : outcome nat :=
  match rm_method ref with
  | FEM_RT_MCC => if nv =? 3 then Ok (snd (rm_pressure ref)) else Throw
  | _ => Ok (snd (rm_pressure ref))
  end.

(** ** Divergence-free spaces, LocalSpace_DF_PCC_2D.cpp *)

Inductive Method_DF_2D := TAYLOR_HOOD | VEM_DF_PCC_FULL | VEM_DF_PCC_REDUCED.

(** the counts of I_VEM_DF_PCC_2D_ReferenceElement.hpp 26-50 *)
Record Reference_DF_2D := { rd_n0 : nat; rd_n1 : nat; rd_BigOPlus : nat; rd_Divergence : nat; rd_pressure : nat * nat * nat }.

(** LocalSpace_DF_PCC_2D.cpp CreateReferenceElement with VEM_DF_PCC_2D_ReferenceElement.hpp 41-43, 66-69 and the Reduced copy.
    The differences do not wrap for order >= 1 except (order-2)*(order-1) at order 1, which is 0 in both arithmetics. *)
Definition CreateReferenceElement_DF_2D (m : Method_DF_2D) (order : nat) : outcome Reference_DF_2D :=
  match m with
  | TAYLOR_HOOD => Throw
  | VEM_DF_PCC_FULL => Ok {| rd_n0 := 1; rd_n1 := order - 1; rd_BigOPlus := (order - 2) * (order - 1) / 2;
                             rd_Divergence := order * (order + 1) / 2 - 1; rd_pressure := (0, 0, order * (order + 1) / 2) |}
  | VEM_DF_PCC_REDUCED => Ok {| rd_n0 := 1; rd_n1 := order - 1; rd_BigOPlus := (order - 2) * (order - 1) / 2;
                                rd_Divergence := 0; rd_pressure := (0, 0, 1) |}
  end.

(** LocalSpace_DF_PCC_2D.cpp 342-458: the infos of the two velocity components, of the internal velocity unknowns and of the pressure.
    Simplification: the C++ code fills the four infos in the same loops over the cells; they do not interact, so each is filled by
    loops of its own here. *)
Definition SetMeshDOFsInfo_DF_2D (ref : Reference_DF_2D) (mesh : Mesh) (boundary0 boundary1 : nat -> option BoundaryInfo)
  : outcome (list MeshDOFsInfo) :=
  let none := fun _ : nat => Some {| bi_type := BNone; bi_marker := 0 |} in
  let velocity := fun d _ : nat => Ok (match d with 0 => rd_n0 ref | 1 => rd_n1 ref | _ => 0 end) in
  let internal := fun d _ : nat => Ok (match d with 0 => 0 | 1 => 0 | _ => rd_BigOPlus ref + rd_Divergence ref end) in
  let pressure := fun d _ : nat => Ok (num_dofs_array (rd_pressure ref) d) in
  i0 <- fill_2D mesh velocity boundary0 ;;
  i1 <- fill_2D mesh velocity boundary1 ;;
  i2 <- fill_2D mesh internal none ;;
  i3 <- fill_2D mesh pressure none ;;
  Ok [i0; i1; i2; i3].

(** LocalSpace_DF_PCC_2D.cpp 274-286 with VEM_DF_PCC_2D_Velocity_LocalSpace.cpp 103-116 and the Reduced copy 104-117 *)
Definition VelocitySize_DF_2D (ref : Reference_DF_2D) (nv : nat) : nat :=
  2 * (nv + rd_n1 ref * nv) + (rd_Divergence ref + rd_BigOPlus ref).

(** VEM_DF_PCC_2D_Pressure_LocalSpace.cpp 54 and the Reduced copy 55 *)
Definition PressureSize_DF_2D (ref : Reference_DF_2D) : nat := snd (rd_pressure ref).
