(** Vocabulary of the statements about the driver of the heat equation. *)
From Coq Require Import List Arith Bool Reals.
From Verif Require Import Base RSum MatrixModel DofsModel DofsSpec AssemblerModel AssemblerSpec EquationModel EquationSpec VemQuadModel VemQuadSpec VemModel VemSpec
  DriverModel DriverSpec DriverSpec2 Pcc2dSpec ParabolicModel GreenSpec.
Import ListNotations.
Local Open Scope R_scope.

(** what the local space of a cell returns: values (the default projection and Pi0k), derivatives, the two stabilisations *)
Record HeatCell := { hc_space : ParabolicSpace; hc_V : Mat; hc_V0 : Mat; hc_D : nat -> Mat; hc_SA : Mat; hc_SM : Mat }.
Definition hc_points (E : HeatCell) : Mat := q_Points (ls_InternalQuadrature (ps_space (hc_space E))).
Definition hc_weights (E : HeatCell) : Vec := q_Weights (ls_InternalQuadrature (ps_space (hc_space E))).
Definition hc_at {T : Type} (f : R -> R -> R -> T) (E : HeatCell) (q : nat) : T :=
  f (m_at (hc_points E) 0%nat q) (m_at (hc_points E) 1%nat q) (m_at (hc_points E) 2%nat q).
(** with n functions *)
Record heat_cell (create : nat -> outcome ParabolicSpace) (c n : nat) (E : HeatCell) : Prop := {
  he_create : create c = Ok (hc_space E);
  he_points : m_cols (hc_points E) = v_size (hc_weights E) /\ (3 <= m_rows (hc_points E))%nat /\ (0 < v_size (hc_weights E))%nat;
  he_V : ls_Values (ps_space (hc_space E)) Pi0km1_t = Ok (hc_V E) /\ shaped (v_size (hc_weights E)) n (hc_V E);
  he_V0 : ls_Values (ps_space (hc_space E)) Pi0k_t = Ok (hc_V0 E) /\ shaped (v_size (hc_weights E)) n (hc_V0 E);
  he_D : ls_DerivativeValues (ps_space (hc_space E)) = Ok [hc_D E 0; hc_D E 1] /\ forall d, (d < 2)%nat -> shaped (v_size (hc_weights E)) n (hc_D E d);
  he_SA : ls_StabilizationMatrix (ps_space (hc_space E)) = Ok (hc_SA E) /\ shaped n n (hc_SA E);
  he_SM : ps_StabilizationPi0k (hc_space E) = Ok (hc_SM E) /\ shaped n n (hc_SM E) }.

(** the greatest modulus of the diffusion at the points of the cell *)
Definition greatest_value (E : HeatCell) (kappa : R -> R -> R -> R) (k : R) : Prop :=
  (forall q, (q < v_size (hc_weights E))%nat -> Rabs (hc_at kappa E q) <= k) /\ exists q, (q < v_size (hc_weights E))%nat /\ k = Rabs (hc_at kappa E q).
(** quadrature of kappa grad u . grad v plus k times the first stabilisation, v function p of the cell *)
Definition stiffness_form (E : HeatCell) (kappa : R -> R -> R -> R) (k : R) (u : nat -> R) (p : nat) : R :=
  rsum (v_size (hc_weights E)) (fun q => v_at (hc_weights E) q * hc_at kappa E q * rsum 2 (fun d => combine (hc_D E d) u q * m_at (hc_D E d) q p))
  + k * combine (hc_SA E) u p.
(** quadrature of u v plus the second stabilisation *)
Definition mass_form (E : HeatCell) (u : nat -> R) (p : nat) : R :=
  rsum (v_size (hc_weights E)) (fun q => v_at (hc_weights E) q * (combine (hc_V E) u q * m_at (hc_V E) q p)) + combine (hc_SM E) u p.
(** quadrature of f v *)
Definition load_form (E : HeatCell) (f : R -> R -> R -> R) (p : nat) : R :=
  rsum (v_size (hc_weights E)) (fun q => v_at (hc_weights E) q * hc_at f E q * m_at (hc_V E) q p).

(** sum over all the cells of what is tested on the free unknown number r *)
Definition cells_row (info : MeshDOFsInfo) (m : Mesh2D) (data : DOFsData) (F : nat -> nat -> R) (r : nat) : R :=
  rsum (Cell2Ds_number (md_mesh m)) (fun c => free_places info (md_mesh m) data c r (F c)).
(** load at a time: source over the cells and flux over the Weak edges *)
Definition load_row (info : MeshDOFsInfo) (m : Mesh2D) (data : DOFsData) (geometry : nat -> Polygon) (gauss : QuadratureData) (E : nat -> HeatCell) (B : nat -> Mat)
  (f : R -> R -> R -> R) (h : nat -> R -> R -> R -> R) (r : nat) : R :=
  cells_row info m data (fun c => load_form (E c) f) r +
  rsum (Cell2Ds_number (md_mesh m)) (fun c => weak_form info info (md_mesh m) data (geometry c) gauss (B c) h c r).

(** a solver that solves every system whose matrix is not singular *)
Definition exact_solver (solver : LUSolver) : Prop :=
  forall N A b, length b = N -> (forall x : nat -> R, (forall i, (i < N)%nat -> rsum N (fun j => A i j * x j) = 0) -> forall j, (j < N)%nat -> x j = 0) ->
    length (solver N A b) = N /\ forall i, (i < N)%nat -> rsum N (fun j => A i j * nth j (solver N A b) 0) = nth i b 0.

(** local unknowns of a cell *)
Definition local_values (data : DOFsData) (uD uS : list R) (ul : nat -> nat -> R) (m : Mesh2D) : Prop :=
  forall c, (c < Cell2Ds_number (md_mesh m))%nat -> exists v, local_solution data uD uS c = Ok v /\ forall j, (j < v_size v)%nat -> ul c j = v_at v j.

(** one step of the theta method between two reports: for every free unknown the mass times the increment plus the time step times the weighted
    stiffness is the time step times the weighted loads *)
Definition theta_step (info : MeshDOFsInfo) (m : Mesh2D) (data : DOFsData) (E : nat -> HeatCell) (kappa : R -> R -> R -> R) (kk : nat -> R)
  (dt theta : R) (load load' : nat -> R) (d d' : StepData) : Prop :=
  exists ul ul', local_values data (sd_solution d) (sd_dirichlet d) ul m /\ local_values data (sd_solution d') (sd_dirichlet d') ul' m /\
  forall r, (r < NumberDOFs data)%nat ->
    cells_row info m data (fun c => mass_form (E c) (fun j => ul' c j - ul c j)) r +
    dt * cells_row info m data (fun c => stiffness_form (E c) kappa (kk c) (fun j => theta * ul' c j + (1 - theta) * ul c j)) r =
    dt * (theta * load' r + (1 - theta) * load r).

(** quadratic forms of the two matrices on vectors of free values *)
Definition quadratic (N : nat) (s : asm_state) (v w : list R) : R :=
  rsum N (fun r => nth r v 0 * rsum N (fun j => entry (trip_DOFs s) r j * nth j w 0)).
(** entrywise difference *)
Definition difference (N : nat) (v w : list R) : list R := map (fun r => nth r v 0 - nth r w 0) (seq 0 N).

(** the matrix a A + M of the static matrices is not singular *)
Definition regular_step (m : Mesh2D) (data : DOFsData) (create : nat -> outcome ParabolicSpace) (kappa : R -> R -> R -> R) (a : R) : Prop :=
  forall A M, StaticAssemble m data create kappa = Ok (A, M) ->
  forall x : nat -> R, (forall i, (i < NumberDOFs data)%nat ->
    rsum (NumberDOFs data) (fun j => (a * entry (trip_DOFs A) i j + entry (trip_DOFs M) i j) * x j) = 0) -> forall j, (j < NumberDOFs data)%nat -> x j = 0.
(** the values at all the vertices and the errors of a report are those of its two vectors *)
Definition reports (m : Mesh2D) (data : DOFsData) (create : nat -> outcome ParabolicSpace) (exact : R -> R -> R -> R) (gradient : R -> R -> R -> nat -> R) (d : StepData) : Prop :=
  length (sd_solution d) = NumberDOFs data /\ length (sd_dirichlet d) = NumberStrongs data /\
  extract_solution_on_cell0Ds (all_active m) data (sd_solution d) (sd_dirichlet d) (Some exact) = Ok (sd_vertices d) /\
  compute_error_L2 (all_active m) data (spaces create) (sd_solution d) (sd_dirichlet d) (Some exact) = Ok (sd_L2 d) /\
  compute_error_H1 (all_active m) data (spaces create) (sd_solution d) (sd_dirichlet d) (Some gradient) = Ok (sd_H1 d).

(** weights and diffusion are not negative, the stabilisations are symmetric and not negative *)
Definition semidefinite (X : Mat) : Prop := (forall i j, m_at X i j = m_at X j i) /\ forall u, 0 <= rsum (m_cols X) (fun p => u p * combine X u p).
Definition sound_cell (kappa : R -> R -> R -> R) (E : HeatCell) : Prop :=
  (forall q, (q < v_size (hc_weights E))%nat -> 0 <= v_at (hc_weights E) q) /\ (forall q, (q < v_size (hc_weights E))%nat -> 0 <= hc_at kappa E q) /\
  semidefinite (hc_SA E) /\ semidefinite (hc_SM E).

(** q, with rate of change v, solves v - div (kappa grad q) = f with the flux h on the Weak edges and the values g on the Strong entities;
    (g0, g1) = kappa grad q.  All are polynomials of the plane: q and v of degree k, the flux of degree k - 1 *)
Record heat_polynomial (k : nat) (info : MeshDOFsInfo) (mesh : Mesh) (geometry : nat -> Polygon) (kappa f : R -> R -> R -> R) (g h : nat -> R -> R -> R -> R)
  (q qx qy v : R -> R -> R) : Prop := {
  hp_value : poly2 k q qx qy;
  hp_rate : exists vx vy, poly2 k v vx vy;
  hp_flux : exists g0 g0x g0y g1 g1x g1y, poly2 (k - 1) g0 g0x g0y /\ poly2 (k - 1) g1 g1x g1y /\
    (forall x y z, g0 x y = kappa x y z * qx x y /\ g1 x y = kappa x y z * qy x y /\ f x y z = v x y - (g0x x y + g1y x y)) /\
    neumann_data info mesh geometry g0 g1 h;
  hp_strong : dirichlet_data info mesh q g }.

(** everything the driver reads that is not the problem: unknowns, cells, functions on the edges, points of the unknowns of the edges *)
Record heat_mesh (m : Mesh2D) (info : MeshDOFsInfo) (data : DOFsData) (create : nat -> outcome ParabolicSpace) (E : nat -> HeatCell) (geometry : nat -> Polygon)
  (gauss : QuadratureData) (B : nat -> Mat) (pt : nat -> nat -> nat -> R) : Prop := {
  hm_created : CreateDOFs 2 info (md_mesh m) = Ok data;
  hm_cells : Cell2Ds_number (md_mesh m) = num_cells info 2;
  hm_vertices : Cell0Ds_number (md_mesh m) = num_cells info 0;
  hm_cell : forall c, (c < Cell2Ds_number (md_mesh m))%nat -> heat_cell create c (length (closure_dofs info (md_mesh m) 2 c)) (E c);
  hm_weak : forall c, (c < Cell2Ds_number (md_mesh m))%nat -> weak_cell info info (md_mesh m) (spaces create) gauss (geometry c) c (ps_space (hc_space (E c))) (B c);
  hm_rule : m_cols (q_Points gauss) = v_size (q_Weights gauss);
  hm_vertex_dofs : forall c v, (c < Cell2Ds_number (md_mesh m))%nat -> In v (Cell2D_vertices (md_mesh m) c) -> (requested info 0 v <= 1)%nat;
  hm_edge_points : edge_points_agree m info (spaces create) (fun _ => true) (fun _ => True) pt }.
(** the load of a problem at a time *)
Definition problem_load (info : MeshDOFsInfo) (m : Mesh2D) (data : DOFsData) (geometry : nat -> Polygon) (gauss : QuadratureData) (E : nat -> HeatCell) (B : nat -> Mat)
  (pb : Problem) (t : R) : nat -> R :=
  load_row info m data geometry gauss E B (fun x y z => pb_source pb x y z t) (fun i x y z => pb_weak pb i x y z t).
(** the same problem from another initial function *)
Definition with_initial (pb : Problem) (u0 : R -> R -> R -> R) : Problem := {|
  pb_diffusion := pb_diffusion pb; pb_source := pb_source pb; pb_strong := pb_strong pb; pb_weak := pb_weak pb; pb_initial := u0;
  pb_exact := pb_exact pb; pb_gradient := pb_gradient pb |}.
(** the integral of f on a polygon, as the sum over its triangles of a rule of the reference triangle *)
Definition polygon_integral (q : QuadratureData) (p : Polygon) (f : R -> R -> R) : R :=
  lsum (fun T => 2 * area T * apply_rule (q_Weights q) (fun j =>
    f (in_triangle T (m_at (q_Points q) 0 j) (m_at (q_Points q) 1 j) 0) (in_triangle T (m_at (q_Points q) 0 j) (m_at (q_Points q) 1 j) 1))) (pg_TriangulationVertices p).
(** no entity is Strong *)
Definition no_strong (info : MeshDOFsInfo) : Prop := forall d e, ~ strong_entity info d e.
