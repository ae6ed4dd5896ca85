(** Vocabulary of the statements about the driver of the elliptic problem on networks of segments. *)
From Coq Require Import List Arith Bool Reals.
From Verif Require Import Base RSum MatrixModel DofsModel DofsSpec AssemblerModel AssemblerSpec EquationModel VemQuadModel VemQuadSpec VemModel LagrangeModel LagrangeSpec
  DriverModel DriverSpec DriverSpec2 Mcc2dModel Elliptic1dModel.
Import ListNotations.
Local Open Scope R_scope.

(** ** The network *)
(** end i (0 or 1) of cell c *)
Definition end_of (m : Mesh2D) (c i : nat) : nat := nth i (Cell1D_vertices (md_mesh m) c) 0%nat.
(** the vector from the first to the second end *)
Definition segment_vector (m : Mesh2D) (c d : nat) : R := md_coords m (end_of m c 1) d - md_coords m (end_of m c 0) d.
Definition segment_length (m : Mesh2D) (c : nat) : R := sqrt (dot3 (segment_vector m c) (segment_vector m c)).
(** the point of parameter t of cell c *)
Definition segment_point (m : Mesh2D) (c : nat) (t : R) (d : nat) : R := md_coords m (end_of m c 0) d + t * segment_vector m c d.
(** a function along a cell *)
Definition on_segment (m : Mesh2D) (f : R -> R -> R -> R) (c : nat) (t : R) : R := at_point f (segment_point m c t).
(** -1 at the first end, 1 at the second *)
Definition end_sign (i : nat) : R := if (i =? 0)%nat then -1 else 1.
Definition weak_vertex (info : MeshDOFsInfo) (v : nat) : bool :=
  match nth_error (CellsBoundaryInfo info 0) v with Some b => match bi_type b with BWeak => true | _ => false end | None => false end.

(** the parameters of the nodes of the element of order k: the ends, then the inner nodes *)
Definition node (lobatto : nat -> Vec) (k : nat) (type : FEM_PCC_1D_Types) (j : nat) : R :=
  match j with
  | O => 0
  | 1%nat => 1
  | S i => match type with Equispaced => INR i / INR k | GaussLobatto => v_at (lobatto (2 * k - 1)%nat) i end
  end.
(** the Gauss-Lobatto rule of k + 1 points: distinct points of [0, 1], the first is 0 and the last is 1 *)
Definition lobatto_ok (lobatto : nat -> Vec) (k : nat) : Prop :=
  let v := lobatto (2 * k - 1)%nat in
  v_size v = (k + 1)%nat /\ distinct (k + 1) (v_at v) /\ v_at v 0%nat = 0 /\ v_at v k = 1 /\ forall i, (i <= k)%nat -> 0 <= v_at v i <= 1.
(** the nodal functions of degree k of these nodes and their derivatives *)
Record nodal_basis (k : nat) (x : nat -> R) (phi dphi : nat -> R -> R) : Prop := {
  nb_polynomial : forall i, (i < k + 1)%nat -> exists a, forall t, phi i t = polynomial (k + 1) a t;
  nb_nodal : forall i j, (i < k + 1)%nat -> (j < k + 1)%nat -> phi i (x j) = kron i j;
  nb_derivative : forall i t, (i < k + 1)%nat -> derivable_pt_lim (phi i) t (dphi i t) }.

(** one unknown at each vertex, k - 1 in each cell; the geometric data are those of the coordinates of the vertices *)
Record network (m : Mesh2D) (info : MeshDOFsInfo) (data : DOFsData) (G : MeshGeometricData1D) (k : nat) : Prop := {
  nw_dofs : CreateDOFs 1 info (md_mesh m) = Ok data;
  nw_cells : Cell1Ds_number (md_mesh m) = num_cells info 1;
  nw_vertices : Cell0Ds_number (md_mesh m) = num_cells info 0;
  nw_order : (1 <= k)%nat;
  nw_vertex_unknowns : forall v, (v < num_cells info 0)%nat -> requested info 0 v = 1%nat;
  nw_cell_unknowns : forall c, (c < num_cells info 1)%nat -> requested info 1 c = (k - 1)%nat;
  nw_lengths : forall c, (c < num_cells info 1)%nat -> 0 < segment_length m c;
  nw_geometry : forall c, (c < num_cells info 1)%nat -> exists V T,
    nth_error (Cell1DsVertices G) c = Some V /\ m_rows V = 3%nat /\ (0 < m_cols V)%nat /\ (forall d, m_at V d 0 = md_coords m (end_of m c 0) d) /\
    nth_error (Cell1DsTangents G) c = Some T /\ (forall d, T d = segment_vector m c d) /\
    nth_error (Cell1DsLengths G) c = Some (segment_length m c) }.
(** a rule on the reference segment *)
Definition rule_shape (Q : QuadratureData) : Prop := (0 < m_rows (q_Points Q))%nat /\ m_cols (q_Points Q) = v_size (q_Weights Q).
Definition rule_point (Q : QuadratureData) (q : nat) : R := m_at (q_Points Q) 0 q.

(** ** Discrete functions *)
(** value number j of the cell in a pair of vectors *)
Definition segment_value (m : Mesh2D) (info : MeshDOFsInfo) (data : DOFsData) (uD uS : list R) (c j : nat) : R :=
  match nth_error (closure_dofs info (md_mesh m) 1 c) j with
  | Some h => match value_of data uD uS h with Some y => y | None => 0 end
  | None => 0 end.
(** the function of these values, and its derivative with dphi *)
Definition along (k : nat) (phi : nat -> R -> R) (u : nat -> R) (t : R) : R := rsum (k + 1) (fun j => u j * phi j t).

(** row r of the system: matrix times solution minus right-hand side *)
Definition segment_residual (D : SegmentData) (uD : list R) (r : nat) : R :=
  triplets_row (sd_globalMatrixA D) uD r - nth r (sd_rightHandSide D) 0.
(** quadrature on cell c of K u' v' + c u v; derivatives with respect to the arc length *)
Definition segment_energy (m : Mesh2D) (Q : QuadratureData) (P : EllipticProblem1D) (c : nat) (u du v dv : R -> R) : R :=
  segment_length m c * apply_rule (q_Weights Q) (fun q => let t := rule_point Q q in
    on_segment m (ep_diffusion P) c t * (du t / segment_length m c) * (dv t / segment_length m c) + on_segment m (ep_reaction P) c t * u t * v t).
(** quadrature on cell c of f v *)
Definition segment_source (m : Mesh2D) (Q : QuadratureData) (P : EllipticProblem1D) (c : nat) (v : R -> R) : R :=
  segment_length m c * apply_rule (q_Weights Q) (fun q => on_segment m (ep_source P) c (rule_point Q q) * v (rule_point Q q)).
(** the boundary data at the Weak ends of cell c, with the sign of the end, times v *)
Definition segment_weak (m : Mesh2D) (info : MeshDOFsInfo) (P : EllipticProblem1D) (c : nat) (v : R -> R) : R :=
  rsum 2 (fun i => if weak_vertex info (end_of m c i)
    then end_sign i * at_point (ep_weak P (marker_of info 0 (end_of m c i))) (md_coords m (end_of m c i)) * v (INR i) else 0).

(** ** Exact solutions *)
(** p is a polynomial s of degree at most k along each cell, its flux K s' / length is a polynomial fl of degree at most k + 1 and the equation
    - fl' / length + c p = f holds; at the vertices that are not Strong the fluxes that leave balance the boundary data *)
Record solves_network (m : Mesh2D) (info : MeshDOFsInfo) (P : EllipticProblem1D) (k : nat) (p : R -> R -> R -> R) (s ds fl dfl : nat -> R -> R) : Prop := {
  sn_along : forall c t, (c < num_cells info 1)%nat -> 0 <= t <= 1 -> on_segment m p c t = s c t;
  sn_polynomial : forall c, (c < num_cells info 1)%nat -> exists a, forall t, s c t = polynomial (k + 1) a t;
  sn_derivative : forall c t, (c < num_cells info 1)%nat -> derivable_pt_lim (s c) t (ds c t);
  sn_flux : forall c t, (c < num_cells info 1)%nat -> 0 <= t <= 1 -> fl c t = on_segment m (ep_diffusion P) c t * (ds c t / segment_length m c);
  sn_flux_polynomial : forall c, (c < num_cells info 1)%nat -> exists a, forall t, fl c t = polynomial (k + 2) a t;
  sn_flux_derivative : forall c t, (c < num_cells info 1)%nat -> derivable_pt_lim (fl c) t (dfl c t);
  sn_equation : forall c t, (c < num_cells info 1)%nat -> 0 <= t <= 1 ->
    - (dfl c t / segment_length m c) + on_segment m (ep_reaction P) c t * s c t = on_segment m (ep_source P) c t;
  sn_balance : forall v, (v < num_cells info 0)%nat -> ~ strong_entity info 0 v ->
    rsum (num_cells info 1) (fun c => rsum 2 (fun i => if (end_of m c i =? v)%nat then end_sign i * fl c (INR i) else 0)) =
    rsum (num_cells info 1) (fun c => rsum 2 (fun i => if (end_of m c i =? v)%nat then
      (if weak_vertex info v then end_sign i * at_point (ep_weak P (marker_of info 0 v)) (md_coords m v) else 0) else 0));
  sn_strong : forall v, (v < num_cells info 0)%nat -> strong_entity info 0 v ->
    at_point (ep_strong P (marker_of info 0 v)) (md_coords m v) = at_point p (md_coords m v);
  sn_cells : forall c, (c < num_cells info 1)%nat -> ~ strong_entity info 1 c }.
(** the value of p at the node of an unknown *)
Definition nodal_value (m : Mesh2D) (x : nat -> R) (p : R -> R -> R -> R) (h : GlobalCell_DOF) : R :=
  match g_dim h with O => at_point p (md_coords m (g_cell h)) | _ => on_segment m p (g_cell h) (x (2 + g_dof h)%nat) end.
(** uD holds the values of p at the nodes of the free unknowns *)
Definition interpolates (m : Mesh2D) (info : MeshDOFsInfo) (data : DOFsData) (x : nat -> R) (p : R -> R -> R -> R) (uD : list R) : Prop :=
  length uD = NumberDOFs data /\
  forall d e i, (d <= 1)%nat -> (e < num_cells info d)%nat -> (i < requested info d e)%nat -> ~ strong_entity info d e ->
    forall uS, value_of data uD uS (entity_dof d e i) = Some (nodal_value m x p (entity_dof d e i)).

(** the rule integrates the polynomials of degree at most n *)
Definition exact_rule (n : nat) (Q : QuadratureData) : Prop := forall a, (a <= n)%nat -> apply_rule (q_Weights Q) (fun q => rule_point Q q ^ a) = / INR (a + 1).
Definition rule_inside (Q : QuadratureData) : Prop := forall q, (q < v_size (q_Weights Q))%nat -> 0 <= rule_point Q q <= 1.
Definition rule_positive (Q : QuadratureData) : Prop := forall q, (q < v_size (q_Weights Q))%nat -> 0 < v_at (q_Weights Q) q.
(** K > 0 and c >= 0 at the points of the rule *)
Definition elliptic_data (m : Mesh2D) (info : MeshDOFsInfo) (P : EllipticProblem1D) (Q : QuadratureData) : Prop :=
  forall c q, (c < num_cells info 1)%nat -> (q < v_size (q_Weights Q))%nat ->
    0 < on_segment m (ep_diffusion P) c (rule_point Q q) /\ 0 <= on_segment m (ep_reaction P) c (rule_point Q q).
(** the cells tied to a Strong vertex through cells that share vertices *)
Inductive tied (m : Mesh2D) (info : MeshDOFsInfo) : nat -> Prop :=
| tied_strong c i : (c < num_cells info 1)%nat -> (i < 2)%nat -> strong_entity info 0 (end_of m c i) -> tied m info c
| tied_next c c' i i' : tied m info c -> (c' < num_cells info 1)%nat -> (i < 2)%nat -> (i' < 2)%nat -> end_of m c i = end_of m c' i' -> tied m info c'.

(** every vertex is the end of a cell and every cell is tied *)
Definition all_tied (m : Mesh2D) (info : MeshDOFsInfo) : Prop :=
  (forall c, (c < num_cells info 1)%nat -> tied m info c) /\
  forall v, (v < num_cells info 0)%nat -> exists c i, (c < num_cells info 1)%nat /\ (i < 2)%nat /\ end_of m c i = v.
(** the whole system is met *)
Definition solves_segments (D : SegmentData) (N : nat) (uD : list R) : Prop := length uD = N /\ forall r, (r < N)%nat -> segment_residual D uD r = 0.

(** ** Errors *)
(** quadrature on cell c of (u - p)^2 and of u^2 *)
Definition segment_error_L2 (m : Mesh2D) (Q : QuadratureData) (p : R -> R -> R -> R) (c : nat) (u : R -> R) : R :=
  segment_length m c * apply_rule (q_Weights Q) (fun q => (u (rule_point Q q) - on_segment m p c (rule_point Q q)) ^ 2).
Definition segment_norm_L2 (m : Mesh2D) (Q : QuadratureData) (c : nat) (u : R -> R) : R :=
  segment_length m c * apply_rule (q_Weights Q) (fun q => u (rule_point Q q) ^ 2).
(** the first n components of the gradient g times those of the unit tangent *)
Definition tangential (n : nat) (m : Mesh2D) (g : R -> R -> R -> nat -> R) (c : nat) (t : R) : R :=
  rsum n (fun d => on_segment m (fun a b e => g a b e d) c t * (segment_vector m c d / segment_length m c)).
(** quadrature on cell c of (u' - t)^2 and of u'^2; derivatives with respect to the arc length, t the derivative of p without the third component *)
Definition segment_error_H1 (m : Mesh2D) (Q : QuadratureData) (g : R -> R -> R -> nat -> R) (c : nat) (du : R -> R) : R :=
  segment_length m c * apply_rule (q_Weights Q) (fun q => (du (rule_point Q q) / segment_length m c - tangential 2 m g c (rule_point Q q)) ^ 2).
Definition segment_norm_H1 (m : Mesh2D) (Q : QuadratureData) (c : nat) (du : R -> R) : R :=
  segment_length m c * apply_rule (q_Weights Q) (fun q => (du (rule_point Q q) / segment_length m c) ^ 2).
(** the squared length of the part of the derivative that is left out *)
Definition third_component (m : Mesh2D) (Q : QuadratureData) (g : R -> R -> R -> nat -> R) (c : nat) : R :=
  segment_length m c * apply_rule (q_Weights Q) (fun q =>
    (on_segment m (fun a b e => g a b e 2%nat) c (rule_point Q q) * (segment_vector m c 2 / segment_length m c)) ^ 2).

(** the order of the quadrature rule: the requested one, twice the order of the element when none (0) is requested *)
Definition rule_order (k qo : nat) : nat := if (qo =? 0)%nat then (2 * k)%nat else qo.
(** ** The setting of the statements *)
Record segment_setting (junk : nat -> nat -> R) (lobatto : nat -> Vec) (gauss : nat -> QuadratureData) (k : nat) (type : FEM_PCC_1D_Types) (qo : nat)
  (m : Mesh2D) (info : MeshDOFsInfo) (data : DOFsData) (G : MeshGeometricData1D) (ref : FEM_1D_Reference) : Prop := {
  sg_nodes : type = GaussLobatto -> lobatto_ok lobatto k;
  sg_rule : rule_shape (gauss (rule_order k qo));
  sg_network : network m info data G k;
  sg_reference : FEM_1D_CreateReference junk lobatto gauss k type qo = Ok ref }.
