(** Vocabulary of the statements about the boundary terms of elasticity. *)
From Coq Require Import List Arith Reals.
From Verif Require Import Base RSum MatrixModel DofsModel DofsSpec AssemblerModel AssemblerSpec VemQuadModel VemModel DriverModel DriverSpec DriverSpec2 Mcc2dSpec ElasticBoundaryModel.

(** a function with values in the plane, component h *)
Definition component (g : nat -> R -> R -> R -> nat -> R) (h marker : nat) (x y z : R) : R := g marker x y z h.
(** the vertices and edges of the cells *)
Definition of_a_cell (m : Mesh2D) (d e : nat) : Prop := exists c, (c < Cell2Ds_number (md_mesh m))%nat /\
  ((d = 0%nat /\ In e (Cell2D_vertices (md_mesh m) c)) \/ (d = 1%nat /\ In e (Cell2D_edges (md_mesh m) c))).

(** row r of the assembled system: A u - b *)
Definition assembled_residual (D : ElasticData) (u : list R) (r : nat) : R :=
  (rsum (length u) (fun s => entry (ed_globalMatrixA D) r s * nth s u 0) - nth r (ed_rightHandSide D) 0)%R.
(** the work of the Weak data on the free values v0, v1 *)
Definition boundary_work (m : Mesh2D) (info : MeshDOFsInfo) (data : DOFsData) (geometry : nat -> Polygon) (gauss : QuadratureData) (B : nat -> Mat)
  (g : nat -> R -> R -> R -> nat -> R) (v0 v1 : list R) : R :=
  rsum 2 (fun h => rsum (NumberDOFs data) (fun r => (nth r (if (h =? 0)%nat then v0 else v1) 0 *
    cells_sum (md_mesh m) (fun c => weak_form info info (md_mesh m) data (geometry c) gauss (B c) (component g h) c r))%R)).
