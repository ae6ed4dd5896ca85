(** Property theorems C59, C66, C67: the tables of unknowns of the 2D spaces match their local spaces. *)
From Coq Require Import List Arith Bool Lia ZArith Reals.
From Verif Require Import Base DofsModel DofsSpec DofsProps MatrixModel MonomialsModel LagrangeModel TriangleModel QuadModel SpacesModel SpacesSpec SpacesProofs.
Import ListNotations.
Local Open Scope nat_scope.

(** C59: the table is the one announced, or the call throws exactly when a marker or a cell cannot be served *)
Theorem C59_tables_of_unknowns : forall junk lobatto m order mesh boundary, 1 <= order -> exists ref, CreateReferenceElement_PCC_2D junk lobatto m order = Ok ref /\
  ((~ refused m mesh boundary /\ exists info, SetMeshDOFsInfo_PCC_2D ref mesh boundary = Ok info /\ forall d, d <= 2 -> table_of mesh (pcc_count m order mesh) boundary info d) \/
   (refused m mesh boundary /\ SetMeshDOFsInfo_PCC_2D ref mesh boundary = Throw)).
Proof. exact C59_tables_all. Qed.
Print Assumptions C59_tables_of_unknowns.

(** C59: the unknowns of such a table can be numbered *)
Theorem C59_unknowns_created : forall junk lobatto m order ref mesh boundary info, 1 <= order ->
  CreateReferenceElement_PCC_2D junk lobatto m order = Ok ref -> SetMeshDOFsInfo_PCC_2D ref mesh boundary = Ok info ->
  polygonal_mesh mesh -> markers_known mesh boundary -> exists data, CreateDOFs 2 info mesh = Ok data.
Proof. exact C59_created_all. Qed.
Print Assumptions C59_unknowns_created.

(** C59: local space size = number of unknowns of the cell *)
Theorem C59_local_size_is_closure_size : forall junk lobatto m order ref mesh boundary info data c dir mt mq, 1 <= order ->
  CreateReferenceElement_PCC_2D junk lobatto m order = Ok ref -> SetMeshDOFsInfo_PCC_2D ref mesh boundary = Ok info -> CreateDOFs 2 info mesh = Ok data ->
  c < Cell2Ds_number mesh -> length (Cell2D_edges mesh c) = length (Cell2D_vertices mesh c) -> length (Cell2D_vertices mesh c) <= length dir ->
  (Z.of_nat ((order + 1) * (order + 1)) <= UINT_MAX)%Z ->
  exists l, nth_error (CellsGlobalDOFs data 2) c = Some l /\ Size_PCC_2D ref (length (Cell2D_vertices mesh c)) dir mt mq = Ok (length l).
Proof. exact C59_size_all. Qed.
Print Assumptions C59_local_size_is_closure_size.

Example ex_mesh_polygonal : polygonal_mesh ex_mesh.
Proof.
  split.
  - intros e He. do 5 (destruct e as [|e]; [split; [cbn; lia|]; intros v Hv; cbn in Hv; intuition (subst; cbn; lia)|]). cbn in He. lia.
  - intros c Hc. do 2 (destruct c as [|c]; [split; [|split; [|reflexivity]]; intros v Hv; cbn in Hv; intuition (subst; cbn; lia)|]). cbn in Hc. lia.
Qed.

Example ex_markers_known : markers_known ex_mesh (BoundaryMap ex_const).
Proof.
  intros d c Hd Hc. destruct d as [|[|[|d]]]; try lia; cbn in Hc.
  - do 4 (destruct c as [|c]; [eexists; split; [reflexivity|discriminate]|]). lia.
  - do 5 (destruct c as [|c]; [eexists; split; [reflexivity|discriminate]|]). lia.
  - eexists; split; [reflexivity|discriminate].
Qed.

(** the hypotheses are met, whatever the order and the method, by a mesh of two triangles *)
Example C59_case : forall junk lobatto m order, 1 <= order -> exists ref info data,
  CreateReferenceElement_PCC_2D junk lobatto m order = Ok ref /\ SetMeshDOFsInfo_PCC_2D ref ex_mesh (BoundaryMap ex_const) = Ok info /\ CreateDOFs 2 info ex_mesh = Ok data.
Proof.
  intros junk lobatto m o Ho. destruct (C59_tables_of_unknowns junk lobatto m o ex_mesh (BoundaryMap ex_const) Ho) as (ref & E & [(_ & info & EI & _)|(R & _)]).
  - destruct (C59_unknowns_created _ _ _ _ _ _ _ _ Ho E EI ex_mesh_polygonal ex_markers_known) as (data & ED). eauto 10.
  - exfalso. destruct R as [(d & c & Hd & Hc & Hb)|(_ & c & Hc & H3 & _)].
    + destruct (ex_markers_known d c Hd Hc) as (b & B & _). congruence.
    + apply H3. cbn in Hc. destruct c as [|[|c]]; [reflexivity|reflexivity|lia].
Qed.

Example C59_case_vem : forall junk lobatto, exists ref info data,
  CreateReferenceElement_PCC_2D junk lobatto VEM_PCC 3 = Ok ref /\ SetMeshDOFsInfo_PCC_2D ref ex_mesh (BoundaryMap ex_const) = Ok info /\ CreateDOFs 2 info ex_mesh = Ok data /\
  map (@length _) (CellsGlobalDOFs data 2) = [12; 12] /\ forall dir mt mq, Size_PCC_2D ref 3 dir mt mq = Ok 12.
Proof. intros. do 3 eexists. split; [reflexivity|]. split; [vm_compute; reflexivity|]. split; [vm_compute; reflexivity|]. split; [vm_compute; reflexivity|reflexivity]. Qed.

(** C66: mixed spaces *)
Theorem C66_velocity_size_is_closure_size : forall m order mesh boundary info data c, c < Cell2Ds_number mesh -> length (Cell2D_edges mesh c) = length (Cell2D_vertices mesh c) ->
  (m = FEM_RT_MCC -> length (Cell2D_vertices mesh c) = 3) ->
  let ref := CreateReferenceElement_MCC_2D m order in let nv := length (Cell2D_vertices mesh c) in
  Create_Constant_DOFsInfo 2 mesh {| NumDOFs := fst (ReferenceElementNumDOFs_MCC_2D ref); BoundaryMap := boundary |} = Ok info -> CreateDOFs 2 info mesh = Ok data ->
  exists l, nth_error (CellsGlobalDOFs data 2) c = Some l /\ VelocitySize_MCC_2D ref (length (Cell2D_edges mesh c)) nv = Ok (length l).
Proof. exact C66_all. Qed.
Print Assumptions C66_velocity_size_is_closure_size.

Theorem C66_pressure_size_is_closure_size : forall m order mesh boundary info data c, c < Cell2Ds_number mesh -> length (Cell2D_edges mesh c) = length (Cell2D_vertices mesh c) ->
  (m = FEM_RT_MCC -> length (Cell2D_vertices mesh c) = 3) ->
  let ref := CreateReferenceElement_MCC_2D m order in let nv := length (Cell2D_vertices mesh c) in
  Create_Constant_DOFsInfo 2 mesh {| NumDOFs := snd (ReferenceElementNumDOFs_MCC_2D ref); BoundaryMap := boundary |} = Ok info -> CreateDOFs 2 info mesh = Ok data ->
  exists l, nth_error (CellsGlobalDOFs data 2) c = Some l /\ PressureSize_MCC_2D ref nv = Ok (length l).
Proof. exact C66_pressure_all. Qed.
Print Assumptions C66_pressure_size_is_closure_size.

Theorem C66_raviart_thomas_needs_triangles : forall order ne nv, nv <> 3 -> VelocitySize_MCC_2D (CreateReferenceElement_MCC_2D FEM_RT_MCC order) ne nv = Throw.
Proof. exact C66_not_triangle. Qed.
Print Assumptions C66_raviart_thomas_needs_triangles.

Example C66_case : exists info data, let ref := CreateReferenceElement_MCC_2D VEM_MCC_Partial 2 in
  Create_Constant_DOFsInfo 2 ex_mesh {| NumDOFs := fst (ReferenceElementNumDOFs_MCC_2D ref); BoundaryMap := BoundaryMap ex_const |} = Ok info /\ CreateDOFs 2 info ex_mesh = Ok data /\
  map (@length _) (CellsGlobalDOFs data 2) = [17; 17] /\ VelocitySize_MCC_2D ref 3 3 = Ok 17.
Proof. do 2 eexists. split; [vm_compute; reflexivity|]. split; [vm_compute; reflexivity|]. split; vm_compute; reflexivity. Qed.

(** C67: divergence-free spaces *)
Theorem C67_velocity_size_is_sum_of_closures : forall m order ref mesh b0 b1 infos c, CreateReferenceElement_DF_2D m order = Ok ref -> SetMeshDOFsInfo_DF_2D ref mesh b0 b1 = Ok infos ->
  c < Cell2Ds_number mesh -> length (Cell2D_edges mesh c) = length (Cell2D_vertices mesh c) ->
  forall d0 d1 d2 d3, map (fun i => CreateDOFs 2 i mesh) infos = [Ok d0; Ok d1; Ok d2; Ok d3] ->
  exists l0 l1 l2 l3, map (fun d => nth_error (CellsGlobalDOFs d 2) c) [d0; d1; d2; d3] = [Some l0; Some l1; Some l2; Some l3] /\
    VelocitySize_DF_2D ref (length (Cell2D_vertices mesh c)) = length l0 + length l1 + length l2 /\ PressureSize_DF_2D ref = length l3.
Proof. exact C67_all. Qed.
Print Assumptions C67_velocity_size_is_sum_of_closures.

Example C67_case : exists ref infos d0 d1 d2 d3, CreateReferenceElement_DF_2D VEM_DF_PCC_FULL 3 = Ok ref /\
  SetMeshDOFsInfo_DF_2D ref ex_mesh (BoundaryMap ex_const) (BoundaryMap ex_const) = Ok infos /\ map (fun i => CreateDOFs 2 i ex_mesh) infos = [Ok d0; Ok d1; Ok d2; Ok d3] /\
  VelocitySize_DF_2D ref 3 = 24 /\ PressureSize_DF_2D ref = 6.
Proof. do 6 eexists. split; [reflexivity|]. split; [vm_compute; reflexivity|]. split; [vm_compute; reflexivity|]. split; vm_compute; reflexivity. Qed.
