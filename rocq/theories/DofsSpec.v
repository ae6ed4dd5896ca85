(** Independent vocabulary for the statements about DOF numbering: what a user of
    DOFsManager observes, with no reference to how the code computes it. *)
From Coq Require Import List Arith Bool Sorted.
From Verif Require Import Base DofsModel.
Import ListNotations.

(** number of DOFs requested for cell [c] of dimension [d] *)
Definition requested (info : MeshDOFsInfo) (d c : nat) : nat := nth c (CellsNumDOFs info d) 0.

Definition num_cells (info : MeshDOFsInfo) (d : nat) : nat := length (CellsNumDOFs info d).

(** boundary type given for cell [c] of dimension [d], if any *)
Definition boundary_type (info : MeshDOFsInfo) (d c : nat) : option BoundaryTypes :=
  option_map bi_type (nth_error (CellsBoundaryInfo info d) c).

(** all DOFs of all cells of dimension <= k *)
Definition all_dofs (k : nat) (data : DOFsData) : list DOF :=
  flat_map (fun d => concat (CellsDOFs data d)) (seq 0 (S k)).

Definition is_type (T : DOFType) (x : DOF) : bool :=
  match T, dof_type x with
  | TStrong, TStrong | TDOF, TDOF | TUnknown, TUnknown => true
  | _, _ => false
  end.

(** the numbers given to the unknowns of type [T] *)
Definition indices_of (T : DOFType) (k : nat) (data : DOFsData) : list nat :=
  map dof_index (filter (is_type T) (all_dofs k data)).

(** the entities in the closure of cell [c] of dimension [d]: its vertices, its edges,
    its faces, itself, as (dimension, index) pairs *)
Definition closure_entities (mesh : Mesh) (d c : nat) : list (nat * nat) :=
  match d with
  | 0 => [(0, c)]
  | 1 => map (pair 0) (firstn 2 (Cell1D_vertices mesh c)) ++ [(1, c)]
  | 2 => map (pair 0) (Cell2D_vertices mesh c) ++ map (pair 1) (Cell2D_edges mesh c) ++ [(2, c)]
  | 3 => map (pair 0) (Cell3D_vertices mesh c) ++ map (pair 1) (Cell3D_edges mesh c)
         ++ map (pair 2) (Cell3D_faces mesh c) ++ [(3, c)]
  | _ => []
  end.

(** all (dimension, cell, local dof) of the closure, entity after entity *)
Definition closure_dofs (info : MeshDOFsInfo) (mesh : Mesh) (d c : nat) : list GlobalCell_DOF :=
  flat_map (fun e => map (fun i => {| g_dim := fst e; g_cell := snd e; g_dof := i |})
                         (seq 0 (requested info (fst e) (snd e))))
           (closure_entities mesh d c).

(** the DOF designated by a closure entry *)
Definition lookup (data : DOFsData) (g : GlobalCell_DOF) : option DOF :=
  match nth_error (CellsDOFs data (g_dim g)) (g_cell g) with
  | Some row => nth_error row (g_dof g)
  | None => None
  end.

(** sum of [f c] over the cells [c] of dimension [d], then over dimensions <= k *)
Definition sum_cells (k : nat) (info : MeshDOFsInfo) (f : nat -> nat -> nat) : nat :=
  list_sum (map (fun d => sumn (num_cells info d) (f d)) (seq 0 (S k))).

(** what the inputs must satisfy: every cell of dimension <= k has a known boundary type, and the
    connectivity only names existing entities (two vertices per edge) *)
Definition well_formed (k : nat) (info : MeshDOFsInfo) (mesh : Mesh) : Prop :=
  forall d c, d <= k -> c < num_cells info d ->
    (exists t, boundary_type info d c = Some t /\ t <> BUnknown) /\
    (d = 1 -> 2 <= length (Cell1D_vertices mesh c)) /\
    (forall d' c', In (d', c') (closure_entities mesh d c) -> c' < num_cells info d').

(** number of entries of a closure list that resolve to an unknown of type [T] *)
Definition count_type (T : DOFType) (data : DOFsData) (l : list GlobalCell_DOF) : nat :=
  length (filter (fun g => match lookup data g with Some x => is_type T x | None => false end) l).

(** number of cells and marker of a cell, by dimension *)
Definition mesh_cells (mesh : Mesh) (d : nat) : nat :=
  match d with 0 => Cell0Ds_number mesh | 1 => Cell1Ds_number mesh | 2 => Cell2Ds_number mesh | _ => Cell3Ds_number mesh end.

Definition mesh_marker (mesh : Mesh) (d c : nat) : nat :=
  match d with 0 => Cell0D_marker mesh c | 1 => Cell1D_marker mesh c | 2 => Cell2D_marker mesh c | _ => Cell3D_marker mesh c end.

(** [loc]/[glo]: increasing positions in the closure list [gl] of unknowns of type [T], and
    their global numbers, position by position *)
Definition good_indices (T : DOFType) (data : DOFsData) (gl : list GlobalCell_DOF) (loc glo : list nat) : Prop :=
  length glo = length loc /\ StronglySorted lt loc /\
  forall i p, nth_error loc i = Some p ->
    exists g x, nth_error gl p = Some g /\ lookup data g = Some x /\ dof_type x = T /\
      nth_error glo i = Some (dof_index x).

(** what Create_Constant_DOFsInfo promises for dimension [d] *)
Definition dim_done (mesh : Mesh) (ci : ConstantDOFsInfo) (info : MeshDOFsInfo) (d : nat) : Prop :=
  CellsNumDOFs info d = repeat (NumDOFs ci d) (mesh_cells mesh d) /\
  length (CellsBoundaryInfo info d) = mesh_cells mesh d /\
  forall c, c < mesh_cells mesh d ->
    exists b, BoundaryMap ci (mesh_marker mesh d c) = Some b /\ nth_error (CellsBoundaryInfo info d) c = Some b.
