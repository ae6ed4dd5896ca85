(** Vocabulary of the statements about the assembled operator, the right-hand sides and the extraction of values. *)
From Coq Require Import List Arith Bool Reals.
From Verif Require Import Base RSum MatrixModel DofsModel DofsSpec AssemblerModel AssemblerSpec EquationModel EquationSpec VemQuadModel VemModel VemSpec
  DriverModel DriverSpec.
Import ListNotations.
Local Open Scope R_scope.

(** unknown h is the free unknown number r *)
Definition free_is (data : DOFsData) (h : GlobalCell_DOF) (r : nat) : bool :=
  match lookup data h with Some x => is_type TDOF x && (dof_index x =? r)%nat | None => false end.
(** sum of F over the places p of the unknowns of cell c that are the free unknown number r *)
Definition free_places (info : MeshDOFsInfo) (mesh : Mesh) (data : DOFsData) (c r : nat) (F : nat -> R) : R :=
  lsum (fun p => match nth_error (closure_dofs info mesh 2 c) p with
                 | Some h => if free_is data h r then F p else 0
                 | None => 0 end) (seq 0 (length (closure_dofs info mesh 2 c))).
(** sum over the active cells *)
Definition active_sum (m : Mesh2D) (F : nat -> R) : R := lsum F (filter (md_active2 m) (seq 0 (Cell2Ds_number (md_mesh m)))).
(** row r of the operator applied to a pair of vectors: free-free matrix times the free values, free-strong matrix times the strong values *)
Definition operator_row (s : asm_state) (uD uS : list R) (r : nat) : R :=
  rsum (length uD) (fun j => entry (trip_DOFs s) r j * nth j uD 0) + rsum (length uS) (fun j => entry (trip_Strongs s) r j * nth j uS 0).

(** what the local spaces of a cell return: values and derivatives of the trial and of the test functions at the quadrature points of the
    trial space, stabilisation of the test space *)
Record CellForms := {
  cf_trial : LocalSpace; cf_test : LocalSpace;
  cf_U : Mat; cf_dU : nat -> Mat; cf_V : Mat; cf_dV : nat -> Mat; cf_S : Mat }.
Definition cf_points (E : CellForms) : Mat := q_Points (ls_InternalQuadrature (cf_trial E)).
Definition cf_weights (E : CellForms) : Vec := q_Weights (ls_InternalQuadrature (cf_trial E)).
(** with n trial functions and n' test functions *)
Record cell_forms (create_trial create_test : nat -> outcome LocalSpace) (c n n' : nat) (E : CellForms) : Prop := {
  ce_trial : create_trial c = Ok (cf_trial E);
  ce_test : create_test c = Ok (cf_test E);
  ce_size : ls_Size (cf_trial E) = n;
  ce_size' : ls_Size (cf_test E) = n';
  ce_points : m_cols (cf_points E) = v_size (cf_weights E) /\ (3 <= m_rows (cf_points E))%nat /\ (0 < v_size (cf_weights E))%nat;
  ce_U : ls_Values (cf_trial E) Pi0km1_t = Ok (cf_U E) /\ shaped (v_size (cf_weights E)) n (cf_U E);
  ce_dU : ls_DerivativeValues (cf_trial E) = Ok [cf_dU E 0; cf_dU E 1] /\ forall d, (d < 2)%nat -> shaped (v_size (cf_weights E)) n (cf_dU E d);
  ce_V : ls_ValuesAt (cf_test E) (cf_points E) = Ok (cf_V E) /\ shaped (v_size (cf_weights E)) n' (cf_V E);
  ce_dV : ls_DerivativeValuesAt (cf_test E) (cf_points E) = Ok [cf_dV E 0; cf_dV E 1] /\ forall d, (d < 2)%nat -> shaped (v_size (cf_weights E)) n' (cf_dV E d);
  ce_S : ls_StabilizationMatrix (cf_test E) = Ok (cf_S E) /\ shaped n' n' (cf_S E) }.

(** a function of the point q *)
Definition at_q {T : Type} (f : R -> R -> R -> T) (E : CellForms) (q : nat) : T :=
  f (m_at (cf_points E) 0%nat q) (m_at (cf_points E) 1%nat q) (m_at (cf_points E) 2%nat q).
(** the greatest modulus of the nine coefficients of the diffusion at the points of the cell *)
Definition greatest_diffusion (E : CellForms) (K : R -> R -> R -> nat -> R) (k : R) : Prop :=
  (forall d q, (d < 9)%nat -> (q < v_size (cf_weights E))%nat -> Rabs (at_q K E q d) <= k) /\
  exists d q, (d < 9)%nat /\ (q < v_size (cf_weights E))%nat /\ k = Rabs (at_q K E q d).

(** the form tested on function p of the cell: quadrature of (K grad u) . grad v + (b . grad u) v + c u v, K stored by columns, plus the
    stabilisation times k when there are as many trial as test functions *)
Definition elliptic_form (E : CellForms) (diffusion advection : option (R -> R -> R -> nat -> R)) (reaction : option (R -> R -> R -> R))
  (k : R) (u : nat -> R) (p : nat) : R :=
  rsum (v_size (cf_weights E)) (fun q => v_at (cf_weights E) q *
    (match diffusion with None => 0 | Some K => rsum 2 (fun i => rsum 2 (fun j => at_q K E q (i + 3 * j)%nat * combine (cf_dU E j) u q) * m_at (cf_dV E i) q p) end
   + match advection with None => 0 | Some b => rsum 2 (fun i => at_q b E q i * combine (cf_dU E i) u q) * m_at (cf_V E) q p end
   + match reaction with None => 0 | Some c => at_q c E q * combine (cf_U E) u q * m_at (cf_V E) q p end))
  + match diffusion with
    | Some _ => if (ls_Size (cf_test E) =? ls_Size (cf_trial E))%nat then k * combine (cf_S E) u p else 0
    | None => 0 end.
(** quadrature of f v *)
Definition source_form (E : CellForms) (f : R -> R -> R -> R) (p : nat) : R :=
  rsum (v_size (cf_weights E)) (fun q => v_at (cf_weights E) q * at_q f E q * m_at (cf_V E) q p).

(** ** Weak term *)
(** the point of parameter t of edge ed of a cell, from its first vertex in its own orientation *)
Definition edge_point (P : Polygon) (ed : nat) (t : R) (k : nat) : R :=
  if nth ed (pg_EdgesDirection P) true then m_at (pg_Vertices P) k ed + t * m_at (pg_EdgesTangent P) k ed
  else m_at (pg_Vertices P) k ((ed + 1) mod m_cols (pg_Vertices P)) - t * m_at (pg_EdgesTangent P) k ed.
(** the combination of the functions B of an edge that belong to the free unknown number r: functions 0 and 1 to the vertices of the edge, the
    others to the edge *)
Definition edge_test (info : MeshDOFsInfo) (mesh : Mesh) (data : DOFsData) (e r : nat) (B : nat -> R) : R :=
  rsum 2 (fun p => rsum (requested info 0 (nth p (Cell1D_vertices mesh e) 0%nat)) (fun i =>
    if free_is data (entity_dof 0 (nth p (Cell1D_vertices mesh e) 0%nat) i) r then B p else 0)) +
  rsum (requested info 1 e) (fun i => if free_is data (entity_dof 1 e i) r then B (2 + i)%nat else 0).
(** Weak edges *)
Definition weak_edge (info : MeshDOFsInfo) (e : nat) : bool :=
  match nth_error (CellsBoundaryInfo info 1) e with Some b => match bi_type b with BWeak => true | _ => false end | None => false end.
(** quadrature over the Weak edges of the cell of g v: g of the marker of the edge, v the function of unknown r on the edge *)
Definition weak_form (info info' : MeshDOFsInfo) (mesh : Mesh) (data : DOFsData) (P : Polygon) (gauss : QuadratureData) (B : Mat)
  (g : nat -> R -> R -> R -> R) (c r : nat) : R :=
  rsum (m_cols (pg_Vertices P)) (fun ed => let e := nth ed (Cell2D_edges mesh c) 0%nat in
    if weak_edge info e
    then rsum (v_size (q_Weights gauss)) (fun q => v_at (q_Weights gauss) q * Rabs (v_at (pg_EdgesLength P) ed) *
           at_point (g (marker_of info 1 e)) (edge_point P ed (m_at (q_Points gauss) 0%nat q)) * edge_test info' mesh data e r (m_at B q))
    else 0).
(** the sizes the geometric data and the local space must have *)
Record weak_cell (info info' : MeshDOFsInfo) (mesh : Mesh) (create : nat -> outcome LocalSpace) (gauss : QuadratureData) (P : Polygon) (c : nat) (sp : LocalSpace) (B : Mat) : Prop := {
  wc_create : create c = Ok sp;
  wc_edges : length (Cell2D_edges mesh c) = m_cols (pg_Vertices P);
  wc_dirs : length (pg_EdgesDirection P) = m_cols (pg_Vertices P);
  wc_vertices : m_rows (pg_Vertices P) = 3%nat;
  wc_tangents : m_rows (pg_EdgesTangent P) = 3%nat /\ m_cols (pg_EdgesTangent P) = m_cols (pg_Vertices P);
  wc_lengths : v_size (pg_EdgesLength P) = m_cols (pg_Vertices P);
  wc_values : ls_ValuesOnEdge sp {| v_size := m_cols (q_Points gauss); v_at := fun q => m_at (q_Points gauss) 0%nat q |} = Ok B;
  wc_shape : m_rows B = v_size (q_Weights gauss) /\ forall e, In e (Cell2D_edges mesh c) -> (2 + requested info' 1 e <= m_cols B)%nat }.

(** the geometric data of a cell come from the mesh: its vertices are those of the mesh, tangents join them, a direction is true when the
    edge starts at the vertex with its number *)
Definition geometry_of (m : Mesh2D) (c : nat) (P : Polygon) : Prop :=
  m_cols (pg_Vertices P) = length (Cell2D_vertices (md_mesh m) c) /\
  (forall i k, (i < m_cols (pg_Vertices P))%nat -> (k < 3)%nat -> m_at (pg_Vertices P) k i = md_coords m (nth i (Cell2D_vertices (md_mesh m) c) 0%nat) k) /\
  (forall i k, (i < m_cols (pg_Vertices P))%nat -> (k < 3)%nat ->
     m_at (pg_EdgesTangent P) k i = m_at (pg_Vertices P) k ((i + 1) mod m_cols (pg_Vertices P))%nat - m_at (pg_Vertices P) k i) /\
  (forall i, (i < m_cols (pg_Vertices P))%nat ->
     let v := nth i (Cell2D_vertices (md_mesh m) c) 0%nat in let v' := nth ((i + 1) mod m_cols (pg_Vertices P)) (Cell2D_vertices (md_mesh m) c) 0%nat in
     let e := nth i (Cell2D_edges (md_mesh m) c) 0%nat in
     if nth i (pg_EdgesDirection P) true then nth 0 (Cell1D_vertices (md_mesh m) e) 0%nat = v /\ nth 1 (Cell1D_vertices (md_mesh m) e) 0%nat = v'
     else nth 0 (Cell1D_vertices (md_mesh m) e) 0%nat = v' /\ nth 1 (Cell1D_vertices (md_mesh m) e) 0%nat = v).

(** ** The form on pairs of functions *)
Definition pair_form (E : CellForms) (diffusion advection : option (R -> R -> R -> nat -> R)) (reaction : option (R -> R -> R -> R))
  (k : R) (u v : nat -> R) : R :=
  rsum (v_size (cf_weights E)) (fun q => v_at (cf_weights E) q *
    (match diffusion with None => 0 | Some K => rsum 2 (fun i => rsum 2 (fun j => at_q K E q (i + 3 * j)%nat * combine (cf_dU E j) u q) * combine (cf_dV E i) v q) end
   + match advection with None => 0 | Some b => rsum 2 (fun i => at_q b E q i * combine (cf_dU E i) u q) * combine (cf_V E) v q end
   + match reaction with None => 0 | Some c => at_q c E q * combine (cf_U E) u q * combine (cf_V E) v q end))
  + match diffusion with
    | Some _ => if (ls_Size (cf_test E) =? ls_Size (cf_trial E))%nat then k * rsum (ls_Size (cf_test E)) (fun p => v p * combine (cf_S E) u p) else 0
    | None => 0 end.

(** the cell has the same trial and test functions, the stabilisation is symmetric; with a reaction the values agree too *)
Definition same_functions (E : CellForms) (values : bool) : Prop :=
  ls_Size (cf_test E) = ls_Size (cf_trial E) /\
  (forall d q p, (d < 2)%nat -> (q < v_size (cf_weights E))%nat -> (p < ls_Size (cf_test E))%nat -> m_at (cf_dV E d) q p = m_at (cf_dU E d) q p) /\
  (values = true -> forall q p, (q < v_size (cf_weights E))%nat -> (p < ls_Size (cf_test E))%nat -> m_at (cf_V E) q p = m_at (cf_U E) q p) /\
  forall p p', (p < ls_Size (cf_test E))%nat -> (p' < ls_Size (cf_test E))%nat -> m_at (cf_S E) p p' = m_at (cf_S E) p' p.
(** symmetric coefficients of the plane part *)
Definition symmetric_diffusion (E : CellForms) (K : R -> R -> R -> nat -> R) : Prop :=
  forall q i j, (q < v_size (cf_weights E))%nat -> (i < 2)%nat -> (j < 2)%nat -> at_q K E q (i + 3 * j)%nat = at_q K E q (j + 3 * i)%nat.
(** nonnegative, positive definite plane part *)
Definition nonnegative_diffusion (E : CellForms) (K : R -> R -> R -> nat -> R) : Prop :=
  forall q x, (q < v_size (cf_weights E))%nat -> 0 <= rsum 2 (fun i => rsum 2 (fun j => at_q K E q (i + 3 * j)%nat * x j) * x i).
Definition positive_diffusion (E : CellForms) (K : R -> R -> R -> nat -> R) : Prop :=
  forall q x, (q < v_size (cf_weights E))%nat -> rsum 2 (fun i => rsum 2 (fun j => at_q K E q (i + 3 * j)%nat * x j) * x i) <= 0 ->
    forall d, (d < 2)%nat -> x d = 0.
Definition nonnegative_stabilisation (E : CellForms) : Prop :=
  forall u, 0 <= rsum (ls_Size (cf_test E)) (fun p => u p * combine (cf_S E) u p).
(** energy of a vector of N free values *)
Definition energy (N : nat) (s : asm_state) (uD : list R) : R :=
  rsum N (fun r => nth r uD 0 * rsum N (fun j => entry (trip_DOFs s) r j * nth j uD 0)).
