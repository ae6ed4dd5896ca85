(** Vocabulary of the statements about whole problems on a mesh. *)
From Coq Require Import List Arith Bool Reals.
From Verif Require Import Base RSum MatrixModel DofsModel DofsSpec AssemblerModel AssemblerSpec VemQuadModel VemQuadSpec GreenSpec VemModel VemSpec
  DriverModel DriverSpec DriverSpec2.
Import ListNotations.
Local Open Scope R_scope.

(** a mesh of polygons with the unknowns of the virtual element of order k: one for each vertex, k - 1 for each edge, k (k - 1) / 2 for each
    cell; the geometric data of the cells are those of the mesh and are consistent, the reference rules and the two linear solvers are exact *)
Record vem_mesh (gauss_triangle lobatto : nat -> QuadratureData) (lu llt : Solver) (k : nat) (ref : VEM_2D_Reference) (m : Mesh2D) (info : MeshDOFsInfo)
  (geometry : nat -> Polygon) : Prop := {
  vm_order : (1 <= k)%nat;
  vm_rules : good_rules gauss_triangle lobatto k;
  vm_lu : exact_for nonsingular lu;
  vm_llt : exact_for positive_definite llt;
  vm_reference : VEM_PCC_2D_Create gauss_triangle lobatto k = Ok ref;
  vm_cells : Cell2Ds_number (md_mesh m) = num_cells info 2;
  vm_polygon : forall c, (c < Cell2Ds_number (md_mesh m))%nat -> good_polygon (geometry c);
  vm_geometry : forall c, (c < Cell2Ds_number (md_mesh m))%nat -> geometry_of m c (geometry c);
  vm_edges : forall c, (c < Cell2Ds_number (md_mesh m))%nat -> length (Cell2D_edges (md_mesh m) c) = length (Cell2D_vertices (md_mesh m) c);
  vm_vertex_dofs : forall c v, (c < Cell2Ds_number (md_mesh m))%nat -> In v (Cell2D_vertices (md_mesh m) c) -> requested info 0 v = 1%nat;
  vm_edge_dofs : forall c e, (c < Cell2Ds_number (md_mesh m))%nat -> In e (Cell2D_edges (md_mesh m) c) -> requested info 1 e = (k - 1)%nat;
  vm_cell_dofs : forall c, (c < Cell2Ds_number (md_mesh m))%nat -> (2 * requested info 2 c = k * (k - 1))%nat }.

(** a function of the plane as a function of a point of space *)
Definition planar (p : R -> R -> R) (x y z : R) : R := p x y.
Definition planar_gradient (px py : R -> R -> R) (x y z : R) (d : nat) : R := match d with 0%nat => px x y | 1%nat => py x y | _ => 0 end.

(** ** Edges of a mesh seen from its cells *)
(** (cell, number of an edge of the cell) *)
Definition incidences (mesh : Mesh) : list (nat * nat) :=
  flat_map (fun c => map (pair c) (seq 0 (length (Cell2D_edges mesh c)))) (seq 0 (Cell2Ds_number mesh)).
Definition edge_of (mesh : Mesh) (ci : nat * nat) : nat := nth (snd ci) (Cell2D_edges mesh (fst ci)) 0%nat.
Definition direction_of (geometry : nat -> Polygon) (ci : nat * nat) : bool := nth (snd ci) (pg_EdgesDirection (geometry (fst ci))) true.
(** how many cells see edge e in its own direction (b = true) or in the opposite one *)
Definition uses (mesh : Mesh) (geometry : nat -> Polygon) (e : nat) (b : bool) : nat :=
  length (filter (fun ci => (edge_of mesh ci =? e)%nat && Bool.eqb (direction_of geometry ci) b) (incidences mesh)).
(** an edge inside the domain: seen as many times in one direction as in the other (once and once in a conforming mesh) *)
Definition inner_edge (mesh : Mesh) (geometry : nat -> Polygon) (e : nat) : Prop := uses mesh geometry e true = uses mesh geometry e false.
(** a Strong edge with Strong ends *)
Definition strong_edge (info : MeshDOFsInfo) (mesh : Mesh) (e : nat) : Prop :=
  strong_entity info 1 e /\ strong_entity info 0 (nth 0 (Cell1D_vertices mesh e) 0%nat) /\ strong_entity info 0 (nth 1 (Cell1D_vertices mesh e) 0%nat).
(** the boundary data of the Weak edges are the normal component of the flux (g0, g1) *)
Definition neumann_data (info : MeshDOFsInfo) (mesh : Mesh) (geometry : nat -> Polygon) (g0 g1 : R -> R -> R) (h : nat -> R -> R -> R -> R) : Prop :=
  forall c i t, In (c, i) (incidences mesh) -> weak_edge info (edge_of mesh (c, i)) = true ->
    let x := edge_point (geometry c) i t in
    at_point (h (marker_of info 1 (edge_of mesh (c, i)))) x =
      m_at (pg_EdgesNormal (geometry c)) 0 i * g0 (x 0%nat) (x 1%nat) + m_at (pg_EdgesNormal (geometry c)) 1 i * g1 (x 0%nat) (x 1%nat).
(** every edge that is not Weak is inside the domain or Strong *)
Definition closed_boundary (info : MeshDOFsInfo) (mesh : Mesh) (geometry : nat -> Polygon) : Prop :=
  forall ci, In ci (incidences mesh) -> weak_edge info (edge_of mesh ci) = false ->
    inner_edge mesh geometry (edge_of mesh ci) \/ strong_edge info mesh (edge_of mesh ci).

(** a rule on [0, 1] exact for degree n *)
Definition exact_interval (n : nat) (q : QuadratureData) : Prop :=
  m_cols (q_Points q) = v_size (q_Weights q) /\
  forall a, (a <= n)%nat -> apply_rule (q_Weights q) (fun j => m_at (q_Points q) 0 j ^ a) = / INR (a + 1).

(** p solves - div (K grad p) + b . grad p + c p = f in the plane; (g0, g1) = K grad p, K stored by columns *)
Record solves_equation (diffusion : R -> R -> R -> nat -> R) (advection : option (R -> R -> R -> nat -> R)) (reaction : option (R -> R -> R -> R))
  (f : R -> R -> R -> R) (p px py g0 g0x g0y g1 g1x g1y : R -> R -> R) : Prop := {
  se_flux0 : forall x y z, g0 x y = diffusion x y z 0%nat * px x y + diffusion x y z 3%nat * py x y;
  se_flux1 : forall x y z, g1 x y = diffusion x y z 1%nat * px x y + diffusion x y z 4%nat * py x y;
  se_equation : forall x y z, f x y z = - (g0x x y + g1y x y)
    + match advection with Some b => b x y z 0%nat * px x y + b x y z 1%nat * py x y | None => 0 end
    + match reaction with Some c => c x y z * p x y | None => 0 end }.

(** the points of the unknowns of an edge in the order of the functions of the edge: the two ends, then the inside *)
Definition edge_nodes (ref : VEM_2D_Reference) (i : nat) : R :=
  match i with 0%nat => 0 | 1%nat => 1 | S (S j) => m_at (vq_ReferenceEdgeDOFsInternalPoints (rv_Quadrature ref)) 0 j end.

(** ** Well-posed problems *)
(** cells that reach a Strong vertex through cells sharing vertices *)
Inductive anchored (info : MeshDOFsInfo) (mesh : Mesh) : nat -> Prop :=
| anchored_strong c v : (c < Cell2Ds_number mesh)%nat -> In v (Cell2D_vertices mesh c) -> strong_entity info 0 v -> anchored info mesh c
| anchored_next c c' v : anchored info mesh c -> (c' < Cell2Ds_number mesh)%nat -> In v (Cell2D_vertices mesh c) -> In v (Cell2D_vertices mesh c') -> anchored info mesh c'.
(** the vertices and the edges that have unknowns belong to cells *)
Definition covered (info : MeshDOFsInfo) (mesh : Mesh) : Prop :=
  (forall v, (v < num_cells info 0)%nat -> (0 < requested info 0 v)%nat -> exists c, (c < Cell2Ds_number mesh)%nat /\ In v (Cell2D_vertices mesh c)) /\
  (forall e, (e < num_cells info 1)%nat -> (0 < requested info 1 e)%nat -> exists c, (c < Cell2Ds_number mesh)%nat /\ In e (Cell2D_edges mesh c)).
(** the plane part of K is positive definite everywhere, symmetric or not *)
Definition elliptic (K : R -> R -> R -> nat -> R) : Prop :=
  forall x y z a b, a <> 0 \/ b <> 0 -> 0 < K x y z 0%nat * a * a + (K x y z 1%nat + K x y z 3%nat) * a * b + K x y z 4%nat * b * b.
(** no reaction or a nonnegative one *)
Definition absorbing (reaction : option (R -> R -> R -> R)) : Prop := forall f, reaction = Some f -> forall x y z, 0 <= f x y z.
(** the rule of the reference triangle has positive weights, the triangles of the cells have positive areas *)
Definition positive_rules (gauss_triangle : nat -> QuadratureData) (k : nat) (m : Mesh2D) (geometry : nat -> Polygon) : Prop :=
  (forall q, (q < v_size (q_Weights (gauss_triangle (2 * k)%nat)))%nat -> 0 < v_at (q_Weights (gauss_triangle (2 * k)%nat)) q) /\
  forall c T, (c < Cell2Ds_number (md_mesh m))%nat -> In T (pg_TriangulationVertices (geometry c)) -> 0 < signed_area T.
(** uD solves the assembled system with the strong values uS *)
Definition solves_system (s : asm_state) (b w uD uS : list R) (n : nat) : Prop :=
  length uD = n /\ forall r, (r < n)%nat -> operator_row s uD uS r = nth r b 0 + nth r w 0.
(** the boundary values of the Strong vertices and edges are those of p; the cells are not Strong *)
Definition dirichlet_data (info : MeshDOFsInfo) (mesh : Mesh) (p : R -> R -> R) (g : nat -> R -> R -> R -> R) : Prop :=
  (forall d e x y z, (d < 2)%nat -> strong_entity info d e -> g (marker_of info d e) x y z = p x y) /\
  forall c, (c < Cell2Ds_number mesh)%nat -> ~ strong_entity info 2 c.
