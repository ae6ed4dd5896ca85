(** Vocabulary for the statements about the tables of unknowns of the 2D spaces. *)
From Coq Require Import List Arith.
From Verif Require Import Base DofsModel DofsSpec SpacesModel.

(** every cell of dimension [d] has the number of unknowns [count d c] and the boundary data its marker designates *)
Definition table_of (mesh : Mesh) (count : nat -> nat -> nat) (boundary : nat -> option BoundaryInfo) (info : MeshDOFsInfo) (d : nat) : Prop :=
  length (CellsNumDOFs info d) = mesh_cells mesh d /\ length (CellsBoundaryInfo info d) = mesh_cells mesh d /\
  forall c, c < mesh_cells mesh d -> requested info d c = count d c /\
    exists b, boundary (mesh_marker mesh d c) = Some b /\ nth_error (CellsBoundaryInfo info d) c = Some b.

(** a closed 2D mesh: edges join two existing vertices, the polygons have existing vertices and edges, as many of one as of the other *)
Definition polygonal_mesh (mesh : Mesh) : Prop :=
  (forall e, e < Cell1Ds_number mesh -> 2 <= length (Cell1D_vertices mesh e) /\ forall v, In v (firstn 2 (Cell1D_vertices mesh e)) -> v < Cell0Ds_number mesh) /\
  (forall c, c < Cell2Ds_number mesh ->
     (forall v, In v (Cell2D_vertices mesh c) -> v < Cell0Ds_number mesh) /\ (forall e, In e (Cell2D_edges mesh c) -> e < Cell1Ds_number mesh) /\
     length (Cell2D_edges mesh c) = length (Cell2D_vertices mesh c)).

(** every marker of a cell of dimension at most 2 has boundary data of a known type *)
Definition markers_known (mesh : Mesh) (boundary : nat -> option BoundaryInfo) : Prop :=
  forall d c, d <= 2 -> c < mesh_cells mesh d -> exists b, boundary (mesh_marker mesh d c) = Some b /\ bi_type b <> BUnknown.

(** the inputs that cannot be served: a marker without boundary data, or a FEM cell that is neither a triangle nor a quadrilateral *)
Definition refused (m : Method_PCC_2D) (mesh : Mesh) (boundary : nat -> option BoundaryInfo) : Prop :=
  (exists d c, d <= 2 /\ c < mesh_cells mesh d /\ boundary (mesh_marker mesh d c) = None) \/
  (m = FEM_PCC /\ exists c, c < Cell2Ds_number mesh /\ length (Cell2D_vertices mesh c) <> 3 /\ length (Cell2D_vertices mesh c) <> 4).

(** unknowns inside a cell of a primal space *)
Definition inner (m : Method_PCC_2D) (o nv : nat) : nat :=
  match m with
  | FEM_PCC => if nv =? 3 then (o - 1) * (o - 2) / 2 else (o - 1) * (o - 1)
  | ZFEM_PCC => (o - 1) * (o - 2) / 2
  | _ => o * (o - 1) / 2
  end.

(** unknowns of cell [c] of dimension [d] *)
Definition pcc_count (m : Method_PCC_2D) (o : nat) (mesh : Mesh) (d c : nat) : nat :=
  match d with 0 => 1 | 1 => o - 1 | _ => inner m o (length (Cell2D_vertices mesh c)) end.
