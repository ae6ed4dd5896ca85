(** Vocabulary of the statements about the driver of the mixed problem. *)
From Coq Require Import List Arith Bool Reals.
From Verif Require Import Base RSum MatrixModel DofsModel DofsSpec AssemblerModel AssemblerSpec EquationModel EquationSpec VemQuadModel VemQuadSpec VemModel VemSpec
  DriverModel DriverSpec DriverSpec2 Pcc2dSpec VemMccModel VemMccSpec Mcc2dModel.
Import ListNotations.
Local Open Scope R_scope.

(** what the local space of a cell returns: the two components of the velocity functions, their divergences and the pressure functions at the
    quadrature points, the stabilisation; for edge ed of the cell the quadrature, the normal components of the functions of the edge at its points,
    the points of its unknowns and the matrix that turns values at these points into the unknowns of the edge *)
Record MixedForms := {
  xf_space : MixedSpace; xf_V : nat -> Mat; xf_D : Mat; xf_P : Mat; xf_S : Mat;
  xf_Q : nat -> QuadratureData; xf_B : nat -> Mat; xf_G : nat -> QuadratureData; xf_N : nat -> Mat }.
Definition xf_points (E : MixedForms) : Mat := q_Points (mx_InternalQuadrature (xf_space E)).
Definition xf_weights (E : MixedForms) : Vec := q_Weights (mx_InternalQuadrature (xf_space E)).
(** with n velocity functions and n' pressure functions; nu: the number of the unknowns of an edge *)
Record mixed_forms (create : nat -> outcome MixedSpace) (edges : list nat) (nu : nat -> nat) (c n n' : nat) (E : MixedForms) : Prop := {
  xe_space : create c = Ok (xf_space E);
  xe_points : m_cols (xf_points E) = v_size (xf_weights E) /\ (3 <= m_rows (xf_points E))%nat /\ (0 < v_size (xf_weights E))%nat;
  xe_V : mx_VelocityValues (xf_space E) = Ok [xf_V E 0; xf_V E 1] /\ forall d, (d < 2)%nat -> shaped (v_size (xf_weights E)) n (xf_V E d);
  xe_D : mx_DivergenceValues (xf_space E) = Ok (xf_D E) /\ shaped (v_size (xf_weights E)) n (xf_D E);
  xe_P : mx_PressureValues (xf_space E) = Ok (xf_P E) /\ shaped (v_size (xf_weights E)) n' (xf_P E);
  xe_S : mx_StabilizationMatrix (xf_space E) = Ok (xf_S E) /\ shaped n n (xf_S E);
  xe_Q : forall ed e, nth_error edges ed = Some e -> mx_EdgeQuadrature (xf_space E) ed = Ok (xf_Q E ed) /\
    m_cols (q_Points (xf_Q E ed)) = v_size (q_Weights (xf_Q E ed)) /\ (3 <= m_rows (q_Points (xf_Q E ed)))%nat;
  xe_B : forall ed e, nth_error edges ed = Some e -> mx_ValuesOnEdges (xf_space E) ed = Ok (xf_B E ed) /\ shaped (v_size (q_Weights (xf_Q E ed))) (nu e) (xf_B E ed);
  xe_G : forall ed e, nth_error edges ed = Some e -> mx_EdgeDofsCoordinates (xf_space E) ed = Ok (xf_G E ed) /\ (3 <= m_rows (q_Points (xf_G E ed)))%nat;
  xe_N : forall ed e, nth_error edges ed = Some e -> m_cols (xf_N E ed) = m_cols (q_Points (xf_G E ed)) /\
    forall v, v_size v = m_cols (q_Points (xf_G E ed)) -> exists d, mx_EdgeDofs (xf_space E) ed (xf_G E ed) v = Ok d /\ v_size d = nu e /\
      forall i, (i < nu e)%nat -> v_at d i = combine (xf_N E ed) (v_at v) i }.

(** a function of the point q of a matrix of points *)
Definition at_col {T : Type} (f : R -> R -> R -> T) (P : Mat) (q : nat) : T := f (m_at P 0%nat q) (m_at P 1%nat q) (m_at P 2%nat q).
Definition at_x {T : Type} (f : R -> R -> R -> T) (E : MixedForms) (q : nat) : T := at_col f (xf_points E) q.
(** the greatest modulus of the nine coefficients of the inverse of the diffusion at the points of the cell *)
Definition greatest_inverse (E : MixedForms) (K : R -> R -> R -> nat -> R) (k : R) : Prop :=
  (forall d q, (d < 9)%nat -> (q < v_size (xf_weights E))%nat -> Rabs (at_x K E q d) <= k) /\
  exists d q, (d < 9)%nat /\ (q < v_size (xf_weights E))%nat /\ k = Rabs (at_x K E q d).

(** the momentum balance tested on velocity function p: quadrature of (K u) . v - r (div v + b . v), K stored by columns, plus the stabilisation times k *)
Definition velocity_form (E : MixedForms) (P : MixedProblem) (k : R) (u r : nat -> R) (p : nat) : R :=
  rsum (v_size (xf_weights E)) (fun q => v_at (xf_weights E) q *
    (rsum 2 (fun i => rsum 2 (fun j => at_x (mp_inverse_diffusion P) E q (i + 3 * j)%nat * combine (xf_V E j) u q) * m_at (xf_V E i) q p)
   - combine (xf_P E) r q * (m_at (xf_D E) q p + rsum 2 (fun i => at_x (mp_advection P) E q i * m_at (xf_V E i) q p))))
  + k * combine (xf_S E) u p.
(** the mass balance tested on pressure function p: quadrature of (div u + c r - f) s *)
Definition pressure_form (E : MixedForms) (P : MixedProblem) (u r : nat -> R) (p : nat) : R :=
  rsum (v_size (xf_weights E)) (fun q => v_at (xf_weights E) q *
    ((combine (xf_D E) u q + at_x (mp_reaction P) E q * combine (xf_P E) r q - at_x (mp_source P) E q) * m_at (xf_P E) q p)).
(** quadrature of g (v . n) over edge ed, v the function number i of the edge *)
Definition edge_form (E : MixedForms) (g : R -> R -> R -> R) (ed i : nat) : R :=
  rsum (v_size (q_Weights (xf_Q E ed))) (fun q => v_at (q_Weights (xf_Q E ed)) q * (at_col g (q_Points (xf_Q E ed)) q * m_at (xf_B E ed) q i)).
(** its sum over the Weak edges of the cell and over the functions that are the free unknown number r *)
Definition boundary_form (info : MeshDOFsInfo) (mesh : Mesh) (data : DOFsData) (E : MixedForms) (g : nat -> R -> R -> R -> R) (c r : nat) : R :=
  rsum (length (Cell2D_edges mesh c)) (fun ed => let e := nth ed (Cell2D_edges mesh c) 0%nat in
    if weak_edge info e
    then rsum (requested info 1 e) (fun i => if free_is data (entity_dof 1 e i) r then edge_form E (g (marker_of info 1 e)) ed i else 0)
    else 0).
(** the boundary value of unknown i of the edge ed of the cell *)
Definition boundary_value (E : MixedForms) (g : R -> R -> R -> R) (ed i : nat) : R := combine (xf_N E ed) (at_col g (q_Points (xf_G E ed))) i.

(** the value of the unknown at place p of cell c in a pair of vectors (free, strong) *)
Definition cell_value (info : MeshDOFsInfo) (mesh : Mesh) (data : DOFsData) (uD uS : list R) (c p : nat) : R :=
  match nth_error (closure_dofs info mesh 2 c) p with
  | Some h => match value_of data uD uS h with Some x => x | None => 0 end
  | None => 0 end.
(** sum over the cells *)
Definition cells_sum (mesh : Mesh) (F : nat -> R) : R := lsum F (seq 0 (Cell2Ds_number mesh)).
(** row r of the assembled matrix times x *)
Definition mixed_row (D : MixedData) (x : list R) (r : nat) : R := rsum (length x) (fun j => entry (md_globalMatrixA D) r j * nth j x 0).
(** equation r of the assembled system at x: row of the matrix times x minus the right-hand side *)
Definition mixed_residual (D : MixedData) (x : list R) (r : nat) : R := mixed_row D x r - nth r (md_rightHandSide D) 0.
(** the boundary values of the Strong edges of the cells do not depend on the cell *)
Definition strong_agree (m : Mesh2D) (info : MeshDOFsInfo) (E : nat -> MixedForms) (g : nat -> R -> R -> R -> R) (sv : nat -> nat -> R) : Prop :=
  forall c ed e i, (c < Cell2Ds_number (md_mesh m))%nat -> nth_error (Cell2D_edges (md_mesh m) c) ed = Some e -> strong_entity info 1 e -> (i < requested info 1 e)%nat ->
    boundary_value (E c) (g (marker_of info 1 e)) ed i = sv e i.

(** ** Whole problems *)
(** every edge that is not Weak is inside the domain or Strong *)
Definition mixed_closed (info : MeshDOFsInfo) (mesh : Mesh) (geometry : nat -> Polygon) : Prop :=
  forall ci, In ci (incidences mesh) -> weak_edge info (edge_of mesh ci) = false ->
    inner_edge mesh geometry (edge_of mesh ci) \/ strong_entity info 1 (edge_of mesh ci).
(** the boundary data of the Weak edges are the pressure p *)
Definition pressure_data (info : MeshDOFsInfo) (mesh : Mesh) (geometry : nat -> Polygon) (p : R -> R -> R) (h : nat -> R -> R -> R -> R) : Prop :=
  forall c i t, In (c, i) (incidences mesh) -> weak_edge info (edge_of mesh (c, i)) = true ->
    let x := edge_point (geometry c) i t in at_point (h (marker_of info 1 (edge_of mesh (c, i)))) x = p (x 0%nat) (x 1%nat).
(** the boundary data of the Strong edges are the normal component of (u0, u1) *)
Definition flux_data (info : MeshDOFsInfo) (mesh : Mesh) (geometry : nat -> Polygon) (u0 u1 : R -> R -> R) (h : nat -> R -> R -> R -> R) : Prop :=
  forall c i t, In (c, i) (incidences mesh) -> strong_entity info 1 (edge_of mesh (c, i)) ->
    let x := edge_point (geometry c) i t in
    at_point (h (marker_of info 1 (edge_of mesh (c, i)))) x =
      u0 (x 0%nat) (x 1%nat) * m_at (pg_EdgesNormal (geometry c)) 0 i + u1 (x 0%nat) (x 1%nat) * m_at (pg_EdgesNormal (geometry c)) 1 i.
(** (u, p) solves K u = b p - grad p, div u + c p = f in the plane, K (the inverse of the diffusion) stored by columns *)
Record solves_mixed (P : MixedProblem) (u0 u0x u0y u1 u1x u1y p px py : R -> R -> R) : Prop := {
  sm_momentum0 : forall x y z, mp_inverse_diffusion P x y z 0%nat * u0 x y + mp_inverse_diffusion P x y z 3%nat * u1 x y = mp_advection P x y z 0%nat * p x y - px x y;
  sm_momentum1 : forall x y z, mp_inverse_diffusion P x y z 1%nat * u0 x y + mp_inverse_diffusion P x y z 4%nat * u1 x y = mp_advection P x y z 1%nat * p x y - py x y;
  sm_mass : forall x y z, u0x x y + u1y x y + mp_reaction P x y z * p x y = mp_source P x y z }.
(** cells from which the fluid can leave: through an edge of the boundary that is not Strong, or through an edge that is not Strong to such a cell *)
Inductive drained (info : MeshDOFsInfo) (mesh : Mesh) (geometry : nat -> Polygon) : nat -> Prop :=
| drained_boundary c i : In (c, i) (incidences mesh) -> ~ strong_entity info 1 (edge_of mesh (c, i)) ->
    (forall ci, In ci (incidences mesh) -> edge_of mesh ci = edge_of mesh (c, i) -> ci = (c, i)) -> drained info mesh geometry c
| drained_next c i c' i' : drained info mesh geometry c -> In (c, i) (incidences mesh) -> In (c', i') (incidences mesh) -> (c, i) <> (c', i') ->
    edge_of mesh (c, i) = edge_of mesh (c', i') -> ~ strong_entity info 1 (edge_of mesh (c, i)) -> direction_of geometry (c, i) = negb (direction_of geometry (c', i')) ->
    (forall ci, In ci (incidences mesh) -> edge_of mesh ci = edge_of mesh (c, i) -> ci = (c, i) \/ ci = (c', i')) -> drained info mesh geometry c'.

(** the unknowns of a cell in a vector of the free unknowns: those of the velocity come first, then those of the pressure; the strong values are
    those of the assembled problem *)
Definition cell_velocity (info : MeshDOFsInfo) (mesh : Mesh) (data : DOFsData) (D : MixedData) (x : list R) (c : nat) : nat -> R :=
  cell_value info mesh data (firstn (NumberDOFs data) x) (firstn (NumberStrongs data) (md_solutionNeumann D)) c.
Definition cell_pressure (info : MeshDOFsInfo) (mesh : Mesh) (d0 data : DOFsData) (D : MixedData) (x : list R) (c : nat) : nat -> R :=
  cell_value info mesh data (skipn (NumberDOFs d0) x) (skipn (NumberStrongs d0) (md_solutionNeumann D)) c.
(** every Strong edge belongs to one cell *)
Definition strong_once (info : MeshDOFsInfo) (mesh : Mesh) : Prop :=
  forall ci ci', In ci (incidences mesh) -> In ci' (incidences mesh) -> strong_entity info 1 (edge_of mesh ci) -> edge_of mesh ci' = edge_of mesh ci -> ci' = ci.
(** no cell is Strong *)
Definition cells_free (info : MeshDOFsInfo) (mesh : Mesh) : Prop := forall c, (c < Cell2Ds_number mesh)%nat -> ~ strong_entity info 2 c.

(** a mesh of polygons with the unknowns of the mixed virtual element of order k: k + 1 for each edge and k (k + 2) for each cell for the velocity,
    (k + 1) (k + 2) / 2 for each cell for the pressure; [ls]: the local spaces of the cells *)
Record mcc_mesh (gauss_triangle gauss_segment : nat -> QuadratureData) (junk : nat -> nat -> R) (llt : Solver) (svd : Svd) (k : nat) (ref refq : MCC_2D_Reference)
  (m : Mesh2D) (info0 info1 : MeshDOFsInfo) (geometry : nat -> Polygon) (ls : nat -> MCC_Local) : Prop := {
  xm_space : forall c, (c < Cell2Ds_number (md_mesh m))%nat -> mcc_space gauss_triangle gauss_segment junk llt svd k (geometry c) ref (ls c);
  xm_pressure : MCC_Pressure_Create gauss_triangle gauss_segment k = Ok refq;
  xm_cells0 : Cell2Ds_number (md_mesh m) = num_cells info0 2;
  xm_cells1 : Cell2Ds_number (md_mesh m) = num_cells info1 2;
  xm_geometry : forall c, (c < Cell2Ds_number (md_mesh m))%nat -> geometry_of m c (geometry c);
  xm_edges : forall c, (c < Cell2Ds_number (md_mesh m))%nat -> length (Cell2D_edges (md_mesh m) c) = length (Cell2D_vertices (md_mesh m) c);
  xm_measure : forall c, (c < Cell2Ds_number (md_mesh m))%nat -> 0 < pg_Measure (geometry c);
  xm_lengths : forall c i, (c < Cell2Ds_number (md_mesh m))%nat -> (i < m_cols (pg_Vertices (geometry c)))%nat ->
    let L := v_at (pg_EdgesLength (geometry c)) i in let t d := m_at (pg_EdgesTangent (geometry c)) d i in L * L = t 0%nat * t 0%nat + t 1%nat * t 1%nat /\ L <> 0;
  xm_vertex0 : forall c v, (c < Cell2Ds_number (md_mesh m))%nat -> In v (Cell2D_vertices (md_mesh m) c) -> requested info0 0 v = 0%nat;
  xm_edge0 : forall c e, (c < Cell2Ds_number (md_mesh m))%nat -> In e (Cell2D_edges (md_mesh m) c) -> requested info0 1 e = (k + 1)%nat;
  xm_cell0 : forall c, (c < Cell2Ds_number (md_mesh m))%nat -> requested info0 2 c = (k * (k + 2))%nat;
  xm_vertex1 : forall c v, (c < Cell2Ds_number (md_mesh m))%nat -> In v (Cell2D_vertices (md_mesh m) c) -> requested info1 0 v = 0%nat;
  xm_edge1 : forall c e, (c < Cell2Ds_number (md_mesh m))%nat -> In e (Cell2D_edges (md_mesh m) c) -> requested info1 1 e = 0%nat;
  xm_cell1 : forall c, (c < Cell2Ds_number (md_mesh m))%nat -> (2 * requested info1 2 c = (k + 1) * (k + 2))%nat }.

(** ** Errors *)
(** the quadrature of the cell *)
Definition cell_rule (E : MixedForms) (f : nat -> R) : R := rsum (v_size (xf_weights E)) (fun q => v_at (xf_weights E) q * f q).
(** the numbers returned for the unknowns [x]: [exact_p], [exact_v]: the exact solution given *)
Record mixed_numbers (m : Mesh2D) (info0 info1 : MeshDOFsInfo) (d0 d1 : DOFsData) (E : nat -> MixedForms) (llt : Solver) (diameters : list R)
  (exact_p : R -> R -> R -> R) (exact_v : R -> R -> R -> nat -> R) (D : MixedData) (x : list R) (e : MixedErrors) : Prop := {
  en_residual : 0 <= me_residual_norm e /\ me_residual_norm e * me_residual_norm e = rsum (NumberDOFs d0 + NumberDOFs d1) (fun r => mixed_residual D x r * mixed_residual D x r);
  en_lengths : Forall (fun l => length l = Cell2Ds_number (md_mesh m)) [me_numeric_pressure e; me_exact_pressure e; me_cells_error_pressure e; me_cells_super_error_pressure e;
    me_cells_norm_pressure e; me_cells_error_velocity e; me_cells_norm_velocity e];
  en_cells : forall c, (c < Cell2Ds_number (md_mesh m))%nat ->
    let u d q := combine (xf_V (E c) d) (cell_velocity info0 (md_mesh m) d0 D x c) q in
    let r q := combine (xf_P (E c)) (cell_pressure info1 (md_mesh m) d0 d1 D x c) q in
    let p q := at_x exact_p (E c) q in let v d q := at_x exact_v (E c) q d in
    nth c (me_numeric_pressure e) 0 = cell_rule (E c) r /\
    nth c (me_exact_pressure e) 0 = cell_rule (E c) p /\
    nth c (me_cells_error_pressure e) 0 = cell_rule (E c) (fun q => (r q - p q) ^ 2) /\
    nth c (me_cells_norm_pressure e) 0 = cell_rule (E c) (fun q => r q ^ 2) /\
    nth c (me_cells_error_velocity e) 0 = cell_rule (E c) (fun q => (u 0%nat q - v 0%nat q) ^ 2 + (u 1%nat q - v 1%nat q) ^ 2) /\
    nth c (me_cells_norm_velocity e) 0 = cell_rule (E c) (fun q => u 0%nat q ^ 2 + u 1%nat q ^ 2) /\
    exists a, nth c (me_cells_super_error_pressure e) 0 = cell_rule (E c) (fun q => (r q - combine (xf_P (E c)) a q) ^ 2) /\
      (** a: the projection of the exact pressure, if the solver is exact and the mass matrix of the pressure is definite *)
      (exact_for positive_definite llt -> (forall s, (exists i, (i < m_cols (xf_P (E c)))%nat /\ s i <> 0) -> 0 < cell_rule (E c) (fun q => combine (xf_P (E c)) s q ^ 2)) ->
       forall j, (j < m_cols (xf_P (E c)))%nat -> cell_rule (E c) (fun q => (combine (xf_P (E c)) a q - p q) * m_at (xf_P (E c)) q j) = 0);
  en_totals : let total t l := 0 <= t /\ (Forall (fun y => 0 <= y) l -> t * t = rsum (length l) (fun c => nth c l 0)) in
    total (me_error_pressure e) (me_cells_error_pressure e) /\ total (me_super_error_pressure e) (me_cells_super_error_pressure e) /\ total (me_norm_pressure e) (me_cells_norm_pressure e) /\
    total (me_error_velocity e) (me_cells_error_velocity e) /\ total (me_norm_velocity e) (me_cells_norm_velocity e);
  en_size : (forall c, (c < Cell2Ds_number (md_mesh m))%nat -> nth c diameters 0 <= me_mesh_size e) /\
    (me_mesh_size e = 0 \/ exists c, (c < Cell2Ds_number (md_mesh m))%nat /\ me_mesh_size e = nth c diameters 0) }.

(** ** Balance of mass on polygons: quadrature of a function of the point, and of the reaction times the pressure of coefficients r *)
Definition mcc_total (l : MCC_Local) (f : R -> R -> R -> R) : R := apply_rule (q_Weights (lm_InternalQuadrature l)) (fun q => at_col f (mcc_points l) q).
Definition mcc_reacted (ref : MCC_2D_Reference) (l : MCC_Local) (f : R -> R -> R -> R) (r : nat -> R) : R := apply_rule (q_Weights (lm_InternalQuadrature l)) (fun q =>
  at_col f (mcc_points l) q * mcc_polynomial ref l (lm_Nk l) r (m_at (mcc_points l) 0 q) (m_at (mcc_points l) 1 q)).
