(** Vocabulary of the statements about the drivers. *)
From Coq Require Import List Arith Bool Reals.
From Verif Require Import Base RSum MatrixModel DofsModel DofsSpec AssemblerModel AssemblerSpec VemQuadModel VemModel VemSpec DriverModel.
Import ListNotations.
Local Open Scope R_scope.

(** the value of the exact solution (zero when no function is given) at a point of a matrix *)
Definition exact_at (exact : option (R -> R -> R -> R)) (P : Mat) (q : nat) : R :=
  match exact with Some f => f (m_at P 0 q) (m_at P 1 q) (m_at P 2 q) | None => 0 end.
Definition exact_gradient_at (exact : option (R -> R -> R -> nat -> R)) (P : Mat) (q d : nat) : R :=
  match exact with Some f => f (m_at P 0 q) (m_at P 1 q) (m_at P 2 q) d | None => 0 end.

(** (w, a, b): weight, discrete value and exact value at a quadrature point of the active cell c *)
Definition L2_point (m : Mesh2D) (data : DOFsData) (create : nat -> outcome LocalSpace) (uD uS : list R)
  (exact : option (R -> R -> R -> R)) (c : nat) (t : R * R * R) : Prop :=
  (c < Cell2Ds_number (md_mesh m))%nat /\ md_active2 m c = true /\
  exists sp V u q, create c = Ok sp /\ ls_Values sp Pi0k_t = Ok V /\ local_solution data uD uS c = Ok u /\
    (q < v_size (q_Weights (ls_InternalQuadrature sp)))%nat /\
    t = (v_at (q_Weights (ls_InternalQuadrature sp)) q, combine V (v_at u) q, exact_at exact (q_Points (ls_InternalQuadrature sp)) q).

(** the same for a component of the gradient *)
Definition H1_point (m : Mesh2D) (data : DOFsData) (create : nat -> outcome LocalSpace) (uD uS : list R)
  (exact : option (R -> R -> R -> nat -> R)) (c : nat) (t : R * R * R) : Prop :=
  (c < Cell2Ds_number (md_mesh m))%nat /\ md_active2 m c = true /\
  exists sp D u q d Dd, create c = Ok sp /\ ls_DerivativeValues sp = Ok D /\ local_solution data uD uS c = Ok u /\
    (q < v_size (q_Weights (ls_InternalQuadrature sp)))%nat /\ (d < 2)%nat /\ nth_error D d = Some Dd /\
    t = (v_at (q_Weights (ls_InternalQuadrature sp)) q, combine Dd (v_at u) q,
         exact_gradient_at exact (q_Points (ls_InternalQuadrature sp)) q d).

(** the three sums over a list of such triples *)
Definition sum_error (l : list (R * R * R)) : R := lsum (fun t => match t with (w, a, b) => w * ((a - b) * (a - b)) end) l.
Definition sum_numeric (l : list (R * R * R)) : R := lsum (fun t => match t with (w, a, b) => w * (a * a) end) l.
Definition sum_exact (l : list (R * R * R)) : R := lsum (fun t => match t with (w, a, b) => w * (b * b) end) l.

(** the report r: the cell values are the weighted sums over the points of the cell, the global ones are the roots of the totals *)
Definition reports (Pt : nat -> R * R * R -> Prop) (n : nat) (r : Post_Process_Data_Error) : Prop :=
  length (pe_cells_error r) = n /\ length (pe_cells_numeric r) = n /\ length (pe_cells_exact r) = n /\
  (forall c, (c < n)%nat -> exists l, (forall t, In t l <-> Pt c t) /\
     nth c (pe_cells_error r) 0 = sum_error l /\ nth c (pe_cells_numeric r) 0 = sum_numeric l /\ nth c (pe_cells_exact r) 0 = sum_exact l) /\
  pe_error r = sqrt (rsum n (fun c => nth c (pe_cells_error r) 0)) /\
  pe_numeric r = sqrt (rsum n (fun c => nth c (pe_cells_numeric r) 0)) /\
  pe_exact r = sqrt (rsum n (fun c => nth c (pe_cells_exact r) 0)).

(** ** Unknowns by mesh entity *)
Definition entity_dof (d c i : nat) : GlobalCell_DOF := {| g_dim := d; g_cell := c; g_dof := i |}.
(** the boundary information of a cell *)
Definition boundary_info (info : MeshDOFsInfo) (d c : nat) (b : BoundaryInfo) : Prop := nth_error (CellsBoundaryInfo info d) c = Some b.
(** the value of an unknown in the pair of vectors (free, strong) *)
Definition value_of (data : DOFsData) (uD uS : list R) (g : GlobalCell_DOF) : option R :=
  match lookup data g with
  | Some x => match dof_type x with TDOF => nth_error uD (dof_index x) | TStrong => nth_error uS (dof_index x) | TUnknown => None end
  | None => None end.
Definition point_eq (P : Mat) (i : nat) (p : nat -> R) : Prop := forall k, (k < 3)%nat -> m_at P k i = p k.

(** the active cells of the mesh see the edges as pt does: the coordinates returned by the local spaces for the dofs of an edge do not
    depend on the cell *)
Definition edge_points_agree (m : Mesh2D) (info : MeshDOFsInfo) (create : nat -> outcome LocalSpace) (cells : nat -> bool)
  (relevant : nat -> Prop) (pt : nat -> nat -> nat -> R) : Prop :=
  forall c, (c < Cell2Ds_number (md_mesh m))%nat -> cells c = true -> exists sp, create c = Ok sp /\
    forall ed e, nth_error (Cell2D_edges (md_mesh m) c) ed = Some e -> relevant e ->
      exists P, ls_EdgeDofsCoordinates sp ed = Ok P /\ m_cols P = requested info 1 e /\ (m_cols P = 0 \/ 3 <= m_rows P)%nat /\
        forall i, (i < m_cols P)%nat -> point_eq P i (pt e i).
Definition strong_entity (info : MeshDOFsInfo) (d e : nat) : Prop := boundary_type info d e = Some BStrong.
Definition marker_of (info : MeshDOFsInfo) (d e : nat) : nat :=
  match nth_error (CellsBoundaryInfo info d) e with Some b => bi_marker b | None => O end.
Definition at_point (f : R -> R -> R -> R) (p : nat -> R) : R := f (p 0%nat) (p 1%nat) (p 2%nat).

(** the entities whose strong unknowns receive a boundary value: the Strong vertices and, when the order is at least two, the Strong edges of
    the active cells *)
Definition receives_strong (m : Mesh2D) (info : MeshDOFsInfo) (order : nat) (d e : nat) : Prop :=
  strong_entity info d e /\ exists c, (c < Cell2Ds_number (md_mesh m))%nat /\ md_active2 m c = true /\
    ((d = 0%nat /\ In e (Cell2D_vertices (md_mesh m) c)) \/ (d = 1%nat /\ (1 < order)%nat /\ In e (Cell2D_edges (md_mesh m) c))).
(** the boundary value of unknown i of entity (d, e); pt: the points of the unknowns of the edges *)
Definition strong_value (m : Mesh2D) (info : MeshDOFsInfo) (pt : nat -> nat -> nat -> R) (g : nat -> R -> R -> R -> R) (d e i : nat) : R :=
  at_point (g (marker_of info d e)) (match d with O => md_coords m e | _ => pt e i end).

(** the internal unknowns of a function in a local space *)
Definition internal_dofs (sp : LocalSpace) (f : R -> R -> R -> R) (dofs : Vec) : Prop :=
  exists Q v, ls_InternalDofsCoordinates sp = Ok Q /\ (m_cols (q_Points Q) = 0 \/ 3 <= m_rows (q_Points Q))%nat /\
    v = {| v_size := m_cols (q_Points Q); v_at := fun q => f (m_at (q_Points Q) 0 q) (m_at (q_Points Q) 1 q) (m_at (q_Points Q) 2 q) |} /\
    ls_InternalDofs sp v Q = Ok dofs.
(** the degrees of freedom of a function, entity by entity: values at the vertices and at the points of the edges, internal unknowns td *)
Definition dof_value (m : Mesh2D) (pt : nat -> nat -> nat -> R) (td : nat -> nat -> R) (f : R -> R -> R -> R) (g : GlobalCell_DOF) : R :=
  match g_dim g with O => at_point f (md_coords m (g_cell g)) | 1%nat => at_point f (pt (g_cell g) (g_dof g)) | _ => td (g_cell g) (g_dof g) end.
