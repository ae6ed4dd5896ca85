(** Vocabulary of the statements about the assembled system of linear elasticity. *)
From Coq Require Import List Arith Bool Reals.
From Verif Require Import Base RSum MatrixModel DofsModel DofsSpec AssemblerModel AssemblerSpec EquationModel EquationSpec VemQuadModel VemModel DriverModel DriverSpec DriverSpec2
  Mcc2dSpec ElasticModel ElasticSpec ElasticGlobalModel.
Import ListNotations.
Local Open Scope R_scope.

(** the scalar element of a cell: rule, tables of values and derivatives, stabilisation *)
Record CellElement := { ec_space : LocalSpace; ec_Q : QuadratureData; ec_V : Mat; ec_D0 : Mat; ec_D1 : Mat; ec_S : Mat }.
(** the number of scalar unknowns of a cell *)
Definition cell_size (info : MeshDOFsInfo) (m : Mesh2D) (c : nat) : nat := length (closure_dofs info (md_mesh m) 2 c).
(** the numbering was created on the mesh, and each cell has an element with as many functions as the cell has unknowns *)
Record elastic_mesh (m : Mesh2D) (info : MeshDOFsInfo) (data : DOFsData) (create : nat -> outcome LocalSpace) (E : nat -> CellElement) : Prop := {
  em_dofs : CreateDOFs 2 info (md_mesh m) = Ok data;
  em_number : Cell2Ds_number (md_mesh m) = num_cells info 2;
  em_cells : forall c, (c < Cell2Ds_number (md_mesh m))%nat -> create c = Ok (ec_space (E c)) /\
    scalar_element (ec_space (E c)) (cell_size info m c) (ec_Q (E c)) (ec_V (E c)) (ec_D0 (E c)) (ec_D1 (E c)) (ec_S (E c)) }.

(** the local unknowns of a displacement on cell c: u0, u1 the free values of its components, g0, g1 the strong ones *)
Definition cell_displacement (m : Mesh2D) (info : MeshDOFsInfo) (data : DOFsData) (u0 u1 g0 g1 : list R) (c j : nat) : R :=
  if (j <? cell_size info m c)%nat then cell_value info (md_mesh m) data u0 g0 c j else cell_value info (md_mesh m) data u1 g1 c (j - cell_size info m c).
(** the energy of u and v on a cell; k: the coefficient of the stabilisation *)
Definition cell_energy (m : Mesh2D) (info : MeshDOFsInfo) (E : nat -> CellElement) (P : ElasticProblem) (k : nat -> R) (c : nat) (u v : nat -> R) : R :=
  elastic_form (cell_size info m c) (ec_Q (E c)) (ec_D0 (E c)) (ec_D1 (E c)) (ec_S (E c)) P (k c) u v.
(** the work of the forces on a cell *)
Definition cell_work (m : Mesh2D) (info : MeshDOFsInfo) (E : nat -> CellElement) (P : ElasticProblem) (c : nat) (v : nat -> R) : R :=
  rsum (v_size (q_Weights (ec_Q (E c)))) (fun q => v_at (q_Weights (ec_Q (E c))) q *
    rsum 2 (fun d => at_quadrature (ec_Q (E c)) (fun x y z => el_source P x y z d) q * displacement (cell_size info m c) (ec_V (E c)) v d q)).
(** v^T A u of the assembled matrix of the free unknowns *)
Definition matrix_form (N : nat) (st : asm_state) (u v : list R) : R := rsum N (fun r => nth r v 0 * rsum N (fun s => entry (trip_DOFs st) r s * nth s u 0)).

(** ** The virtual element *)
(** cells that cannot move rigidly: two of their vertices, at different points, are Strong or belong to such a cell *)
Definition apart (m : Mesh2D) (v v' : nat) : Prop := md_coords m v 0%nat <> md_coords m v' 0%nat \/ md_coords m v 1%nat <> md_coords m v' 1%nat.
Inductive clamped (m : Mesh2D) (info : MeshDOFsInfo) : nat -> Prop :=
| clamped_strong c v v' : (c < Cell2Ds_number (md_mesh m))%nat -> In v (Cell2D_vertices (md_mesh m) c) -> In v' (Cell2D_vertices (md_mesh m) c) -> apart m v v' ->
    strong_entity info 0 v -> strong_entity info 0 v' -> clamped m info c
| clamped_next c c' v v' : clamped m info c -> (c' < Cell2Ds_number (md_mesh m))%nat -> In v (Cell2D_vertices (md_mesh m) c) -> In v' (Cell2D_vertices (md_mesh m) c) ->
    In v (Cell2D_vertices (md_mesh m) c') -> In v' (Cell2D_vertices (md_mesh m) c') -> apart m v v' -> clamped m info c'.
