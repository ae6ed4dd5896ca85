(** Property theorems C01-C11: numbering of degrees of freedom (DOFsManager). *)
From Coq Require Import List Arith Bool Lia Permutation Sorted.
From Verif Require Import Base DofsModel DofsSpec DofsProofs2.
Import ListNotations.

(** ** A non-trivial instance: two triangles 0-1-2 and 2-1-3 sharing edge 1; one DOF per vertex,
    two per edge, one per cell; vertex 0 and edges 0 and 2 Strong, vertex 3 and edge 3 Weak,
    edge 4 Robin, the rest None. *)
Definition ex_mesh : Mesh := {|
  Cell0Ds_number := 4; Cell1Ds_number := 5; Cell2Ds_number := 2; Cell3Ds_number := 0;
  Cell0D_marker := fun c => nth c [1; 0; 0; 3] 0;
  Cell1D_marker := fun c => nth c [1; 0; 1; 3; 5] 0;
  Cell2D_marker := fun _ => 0; Cell3D_marker := fun _ => 0;
  Cell1D_vertices := fun c => nth c [[0;1]; [1;2]; [2;0]; [1;3]; [3;2]] [];
  Cell2D_vertices := fun c => nth c [[0;1;2]; [2;1;3]] [];
  Cell2D_edges := fun c => nth c [[0;1;2]; [1;3;4]] [];
  Cell3D_vertices := fun _ => []; Cell3D_edges := fun _ => []; Cell3D_faces := fun _ => [] |}.

Definition ex_const : ConstantDOFsInfo := {|
  NumDOFs := fun d => nth d [1; 2; 1] 0;
  BoundaryMap := fun m => match m with
    | 0 => Some {| bi_type := BNone; bi_marker := 0 |}
    | 1 => Some {| bi_type := BStrong; bi_marker := 1 |}
    | 3 => Some {| bi_type := BWeak; bi_marker := 3 |}
    | 5 => Some {| bi_type := BRobin; bi_marker := 5 |}
    | _ => None end |}.

Definition ex_info : MeshDOFsInfo :=
  match Create_Constant_DOFsInfo 2 ex_mesh ex_const with Ok i => i | _ => empty_info end.

Definition ex_data : DOFsData :=
  match CreateDOFs 2 ex_info ex_mesh with Ok d => d | _ => empty_dofs end.

Definition is_Ok {A} (x : outcome A) : bool := match x with Ok _ => true | _ => false end.

Lemma is_Ok_eq {A} (x : outcome A) (d : A) :
  is_Ok x = true -> x = Ok (match x with Ok a => a | _ => d end).
Proof. destruct x; simpl; congruence. Qed.

Example ex_created : CreateDOFs 2 ex_info ex_mesh = Ok ex_data.
Proof. apply is_Ok_eq. vm_compute. reflexivity. Qed.

Example ex_numbers :
  NumberDOFs ex_data = 11 /\ NumberStrongs ex_data = 5 /\
  NumberInternalDOFs ex_data = 6 /\ NumberBoundaryDOFs ex_data = 5 /\
  map (fun g => (g_dim g, g_cell g, g_dof g)) (nth 1 (CellsGlobalDOFs ex_data 2) []) =
    [(0,2,0); (0,1,0); (0,3,0); (1,1,0); (1,1,1); (1,3,0); (1,3,1); (1,4,0); (1,4,1); (2,1,0)].
Proof. repeat split; vm_compute; reflexivity. Qed.

(** C01 *)
Theorem C01_free_dofs_numbered_once : forall k info mesh data,
  k <= 3 -> CreateDOFs k info mesh = Ok data ->
  Permutation (indices_of TDOF k data) (seq 0 (NumberDOFs data)).
Proof. exact C01_free_numbering. Qed.
Print Assumptions C01_free_dofs_numbered_once.

Example C01_case : indices_of TDOF 2 ex_data = seq 0 11.
Proof. vm_compute. reflexivity. Qed.

(** C02 *)
Theorem C02_strong_dofs_numbered_once : forall k info mesh data,
  k <= 3 -> CreateDOFs k info mesh = Ok data ->
  Permutation (indices_of TStrong k data) (seq 0 (NumberStrongs data)).
Proof. exact C02_strong_numbering. Qed.
Print Assumptions C02_strong_dofs_numbered_once.

Example C02_case : indices_of TStrong 2 ex_data = seq 0 5.
Proof. vm_compute. reflexivity. Qed.

(** C03 *)
Theorem C03_counters_add_up : forall k info mesh data,
  k <= 3 -> CreateDOFs k info mesh = Ok data ->
  let n_of (p : BoundaryTypes -> bool) := sum_cells k info (fun d c =>
    match boundary_type info d c with Some t => if p t then requested info d c else 0 | None => 0 end) in
  NumberDOFs data = NumberInternalDOFs data + NumberBoundaryDOFs data /\
  NumberDOFs data + NumberStrongs data = sum_cells k info (requested info) /\
  NumberInternalDOFs data = n_of (fun t => match t with BNone => true | _ => false end) /\
  NumberBoundaryDOFs data = n_of (fun t => match t with BWeak | BRobin => true | _ => false end) /\
  NumberStrongs data = n_of (fun t => match t with BStrong => true | _ => false end).
Proof. exact C03_counters. Qed.
Print Assumptions C03_counters_add_up.

Example C03_case : sum_cells 2 ex_info (requested ex_info) = 16.
Proof. vm_compute. reflexivity. Qed.

(** C04 *)
Theorem C04_cells_get_requested_dofs : forall k info mesh data d c,
  k <= 3 -> CreateDOFs k info mesh = Ok data -> d <= k -> c < num_cells info d ->
  exists t row,
    boundary_type info d c = Some t /\
    nth_error (CellsDOFs data d) c = Some row /\
    length row = requested info d c /\
    Forall (fun x => dof_type x = match t with BStrong => TStrong | _ => TDOF end) row /\
    nth_error (CellsNumberDOFs data d) c = Some (length (filter (is_type TDOF) row)) /\
    nth_error (CellsNumberStrongs data d) c = Some (length (filter (is_type TStrong) row)) /\
    nth_error (CellsHasInternalDOFs data d) c = Some (match t with BNone => true | _ => false end) /\
    nth_error (CellsHasBoundaryDOFs data d) c = Some (match t with BWeak | BRobin => true | _ => false end).
Proof. exact C04_cell_dofs. Qed.
Print Assumptions C04_cells_get_requested_dofs.

Example C04_case : nth_error (CellsDOFs ex_data 1) 2 =
  Some [{| dof_type := TStrong; dof_index := 3 |}; {| dof_type := TStrong; dof_index := 4 |}].
Proof. vm_compute. reflexivity. Qed.

(** C05 *)
Theorem C05_closure_layout : forall k info mesh data d c,
  k <= 3 -> CreateDOFs k info mesh = Ok data -> d <= k -> c < num_cells info d ->
  nth_error (CellsGlobalDOFs data d) c = Some (closure_dofs info mesh d c) /\
  forall g, In g (closure_dofs info mesh d c) -> exists x, lookup data g = Some x.
Proof. exact C05_closure. Qed.
Print Assumptions C05_closure_layout.

Theorem C05_one_row_per_cell : forall k info mesh data d,
  k <= 3 -> CreateDOFs k info mesh = Ok data -> d <= k ->
  length (CellsGlobalDOFs data d) = num_cells info d.
Proof. exact C05_rows. Qed.
Print Assumptions C05_one_row_per_cell.

Example C05_case : length (closure_dofs ex_info ex_mesh 2 1) = 10.
Proof. vm_compute. reflexivity. Qed.

(** C06 *)
Theorem C06_conformity_of_neighbours : forall k info mesh data d1 c1 l1 g1 d2 c2 l2 g2,
  k <= 3 -> CreateDOFs k info mesh = Ok data ->
  d1 <= k -> d2 <= k ->
  nth_error (CellsGlobalDOFs data d1) c1 = Some l1 -> In g1 l1 ->
  nth_error (CellsGlobalDOFs data d2) c2 = Some l2 -> In g2 l2 ->
  (exists x, lookup data g1 = Some x) /\
  (lookup data g1 = lookup data g2 <-> g1 = g2).
Proof. exact C06_conformity. Qed.
Print Assumptions C06_conformity_of_neighbours.

Example C06_case :
  let shared := {| g_dim := 1; g_cell := 1; g_dof := 1 |} in
  In shared (nth 0 (CellsGlobalDOFs ex_data 2) []) /\ In shared (nth 1 (CellsGlobalDOFs ex_data 2) []) /\
  lookup ex_data shared = Some {| dof_type := TDOF; dof_index := 4 |}.
Proof. vm_compute. repeat split; tauto. Qed.

(** C07 *)
Theorem C07_global_counts : forall k info mesh data d c,
  k <= 3 -> CreateDOFs k info mesh = Ok data -> d <= k -> c < num_cells info d ->
  exists l,
    nth_error (CellsGlobalDOFs data d) c = Some l /\
    nth_error (CellsGlobalNumberDOFs data d) c = Some (count_type TDOF data l) /\
    nth_error (CellsGlobalNumberStrongs data d) c = Some (count_type TStrong data l) /\
    count_type TDOF data l + count_type TStrong data l = length l.
Proof. exact C07_counts. Qed.
Print Assumptions C07_global_counts.

Example C07_case : CellsGlobalNumberDOFs ex_data 2 = [5; 10] /\ CellsGlobalNumberStrongs ex_data 2 = [5; 0].
Proof. split; vm_compute; reflexivity. Qed.

(** C08 *)
Theorem C08_indices_split_closure : forall k info mesh data d,
  k <= 3 -> CreateDOFs k info mesh = Ok data -> d <= k ->
  exists rows, ComputeCellsDOFsIndices data d = Ok rows /\
    length rows = num_cells info d /\
    forall c ci gl, nth_error rows c = Some ci -> nth_error (CellsGlobalDOFs data d) c = Some gl ->
      Permutation (ci_dofs_local ci ++ ci_strongs_local ci) (seq 0 (length gl)) /\
      good_indices TDOF data gl (ci_dofs_local ci) (ci_dofs_global ci) /\
      good_indices TStrong data gl (ci_strongs_local ci) (ci_strongs_global ci).
Proof. exact C08_indices. Qed.
Print Assumptions C08_indices_split_closure.

Example C08_case : exists ci r, ComputeCellsDOFsIndices ex_data 2 = Ok (ci :: r) /\
  ci_dofs_local ci = [1; 2; 5; 6; 9] /\ ci_strongs_local ci = [0; 3; 4; 7; 8] /\
  ci_dofs_global ci = [0; 1; 3; 4; 9] /\ ci_strongs_global ci = [0; 1; 2; 3; 4].
Proof. vm_compute. do 2 eexists. repeat split. Qed.

(** C09 *)
Theorem C09_creation_succeeds_iff_well_formed : forall k info mesh,
  k <= 3 ->
  (well_formed k info mesh /\ exists data, CreateDOFs k info mesh = Ok data) \/
  (~ well_formed k info mesh /\ CreateDOFs k info mesh = Throw).
Proof. exact C09_dichotomy. Qed.
Print Assumptions C09_creation_succeeds_iff_well_formed.

(** an edge naming a vertex that does not exist *)
Example C09_case : CreateDOFs 1 ex_info
  {| Cell0Ds_number := 4; Cell1Ds_number := 5; Cell2Ds_number := 2; Cell3Ds_number := 0;
     Cell0D_marker := fun _ => 0; Cell1D_marker := fun _ => 0; Cell2D_marker := fun _ => 0; Cell3D_marker := fun _ => 0;
     Cell1D_vertices := fun c => nth c [[0;1]; [1;2]; [2;0]; [1;4]; [3;2]] [];
     Cell2D_vertices := fun _ => []; Cell2D_edges := fun _ => [];
     Cell3D_vertices := fun _ => []; Cell3D_edges := fun _ => []; Cell3D_faces := fun _ => [] |} = Throw.
Proof. vm_compute. reflexivity. Qed.

(** C10: false as stated.  A segment with internal DOFs of its own between two Strong vertices:
    the segment belongs to its closure and has internal DOFs, the flag is false. *)
Definition ex10_mesh : Mesh := {|
  Cell0Ds_number := 2; Cell1Ds_number := 1; Cell2Ds_number := 0; Cell3Ds_number := 0;
  Cell0D_marker := fun _ => 1; Cell1D_marker := fun _ => 0; Cell2D_marker := fun _ => 0; Cell3D_marker := fun _ => 0;
  Cell1D_vertices := fun _ => [0; 1];
  Cell2D_vertices := fun _ => []; Cell2D_edges := fun _ => [];
  Cell3D_vertices := fun _ => []; Cell3D_edges := fun _ => []; Cell3D_faces := fun _ => [] |}.

Definition ex10_info : MeshDOFsInfo :=
  match Create_Constant_DOFsInfo 1 ex10_mesh ex_const with Ok i => i | _ => empty_info end.
Definition ex10_data : DOFsData :=
  match CreateDOFs 1 ex10_info ex10_mesh with Ok d => d | _ => empty_dofs end.

Theorem C10_flags_describe_closure_refuted : exists k info mesh data d c,
  k <= 3 /\ CreateDOFs k info mesh = Ok data /\ 1 <= d /\ d <= k /\ c < num_cells info d /\
  (exists d' c', In (d', c') (closure_entities mesh d c) /\
     nth_error (CellsHasInternalDOFs data d') c' = Some true) /\
  nth_error (CellsGlobalHasInternalDOFs data d) c = Some false.
Proof.
  exists 1, ex10_info, ex10_mesh, ex10_data, 1, 0.
  split; [lia|]. split; [apply is_Ok_eq; vm_compute; reflexivity|].
  split; [lia|]. split; [lia|]. split; [vm_compute; lia|].
  split.
  - exists 1, 0. split; [simpl; tauto|vm_compute; reflexivity].
  - vm_compute; reflexivity.
Qed.
Print Assumptions C10_flags_describe_closure_refuted.

(** what holds instead: the flags describe the closure entities one dimension down *)
Theorem C10_flags_describe_facets : forall k info mesh data d c,
  k <= 3 -> CreateDOFs k info mesh = Ok data -> 1 <= d -> d <= k -> c < num_cells info d ->
  exists bi bb,
    nth_error (CellsGlobalHasInternalDOFs data d) c = Some bi /\
    nth_error (CellsGlobalHasBoundaryDOFs data d) c = Some bb /\
    (bi = true <-> exists c', In (d - 1, c') (closure_entities mesh d c) /\
       nth_error (CellsHasInternalDOFs data (d - 1)) c' = Some true) /\
    (bb = true <-> exists c', In (d - 1, c') (closure_entities mesh d c) /\
       nth_error (CellsHasBoundaryDOFs data (d - 1)) c' = Some true).
Proof. exact C10_flags_facets. Qed.
Print Assumptions C10_flags_describe_facets.

Example C10_case : CellsGlobalHasInternalDOFs ex_data 2 = [true; true] /\
  CellsGlobalHasBoundaryDOFs ex_data 2 = [false; true].
Proof. split; vm_compute; reflexivity. Qed.

(** C11 *)
Theorem C11_constant_dofs_info : forall k mesh ci,
  k <= 3 ->
  (forall info, Create_Constant_DOFsInfo k mesh ci = Ok info -> forall d, d <= k -> dim_done mesh ci info d) /\
  (Create_Constant_DOFsInfo k mesh ci = Throw <->
     exists d c, d <= k /\ c < mesh_cells mesh d /\ BoundaryMap ci (mesh_marker mesh d c) = None) /\
  Create_Constant_DOFsInfo k mesh ci <> UB.
Proof. exact C11_constant. Qed.
Print Assumptions C11_constant_dofs_info.

Example C11_case : Create_Constant_DOFsInfo 2 ex_mesh ex_const = Ok ex_info /\
  CellsNumDOFs ex_info 1 = [2; 2; 2; 2; 2] /\
  map bi_type (CellsBoundaryInfo ex_info 1) = [BStrong; BNone; BStrong; BWeak; BRobin].
Proof. split; [apply is_Ok_eq|split]; vm_compute; reflexivity. Qed.
