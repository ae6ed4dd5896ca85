(** Vocabulary of the statements about finite elements on a mesh of triangles. *)
From Coq Require Import List Arith Bool ZArith Reals.
From Verif Require Import Base RSum MatrixModel LagrangeModel TriangleModel DofsModel DofsSpec AssemblerModel AssemblerSpec VemQuadModel VemQuadSpec GreenSpec VemModel VemSpec
  ZfemModel DriverModel DriverSpec DriverSpec2 Pcc2dModel Pcc2dSpec.
Import ListNotations.
Local Open Scope R_scope.

(** a counterclockwise triangle of the plane with the data of its edges *)
Record good_triangle (p : Polygon) : Prop := {
  gt_edges : edge_data (pg_Vertices p) (pg_EdgesLength p) (pg_EdgesDirection p) (pg_EdgesTangent p) (pg_EdgesNormal p);
  gt_normals : normals_ok (pg_Vertices p) (pg_EdgesLength p) (pg_EdgesNormal p);
  gt_three : m_cols (pg_Vertices p) = 3%nat;
  gt_plane : forall i, (i < 3)%nat -> m_at (pg_Vertices p) 2 i = 0;
  gt_area : 0 < signed_area (pg_Vertices p) }.

(** a mesh of triangles with the unknowns of the finite element of order k: one for each vertex, k - 1 for each edge,
    (k - 1) (k - 2) / 2 for each cell; the geometric data of the cells are those of the mesh, the rule of the reference triangle is exact for
    degree 2 k *)
Record fem_mesh (gauss : QuadratureData) (junk : nat -> nat -> R) (lobatto : nat -> Vec) (k : nat) (edge : FEM_1D_Data) (ref : Tri_Data) (m : Mesh2D)
  (info : MeshDOFsInfo) (geometry : nat -> Polygon) : Prop := {
  fm_order : (1 <= k)%nat;
  fm_rule : rule gauss;
  fm_exact : exact_triangle (2 * k) gauss;
  fm_reference : Tri_Create k = Ok ref;
  fm_range : (Z.of_nat (ft_NumBasisFunctions ref) <= UINT_MAX)%Z;
  fm_edge : FEM_1D_Create junk lobatto k Equispaced = Ok edge;
  fm_cells : Cell2Ds_number (md_mesh m) = num_cells info 2;
  fm_triangle : forall c, (c < Cell2Ds_number (md_mesh m))%nat -> good_triangle (geometry c);
  fm_geometry : forall c, (c < Cell2Ds_number (md_mesh m))%nat -> geometry_of m c (geometry c);
  fm_edges : forall c, (c < Cell2Ds_number (md_mesh m))%nat -> length (Cell2D_edges (md_mesh m) c) = length (Cell2D_vertices (md_mesh m) c);
  fm_vertex_dofs : forall c v, (c < Cell2Ds_number (md_mesh m))%nat -> In v (Cell2D_vertices (md_mesh m) c) -> requested info 0 v = 1%nat;
  fm_edge_dofs : forall c e, (c < Cell2Ds_number (md_mesh m))%nat -> In e (Cell2D_edges (md_mesh m) c) -> requested info 1 e = (k - 1)%nat;
  fm_cell_dofs : forall c, (c < Cell2Ds_number (md_mesh m))%nat -> (2 * requested info 2 c = (k - 1) * (k - 2))%nat }.

(** the spaces of the cells as CreateLocalSpace makes them from the geometric data *)
Definition fem_create (junk : nat -> nat -> R) (gauss : QuadratureData) (edge : FEM_1D_Data) (ref : Tri_Data) (geometry : nat -> Polygon) : nat -> outcome LocalSpace :=
  Create_FEM junk gauss edge ref (fun c => pg_Vertices (geometry c)) (fun c => pg_EdgesDirection (geometry c)) (fun c => triangle_map (pg_Vertices (geometry c))).
Definition positive_weights (gauss : QuadratureData) : Prop := forall q, (q < v_size (q_Weights gauss))%nat -> 0 < v_at (q_Weights gauss) q.
