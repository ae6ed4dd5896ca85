(** Model of the boundary terms of the driver of linear elasticity, examples/Elastic_PCC_2D: the values of the Strong unknowns and the contributions of
    the Weak edges.  Files without a path are in /repo/PolyDiM/examples/Elastic_PCC_2D/src. *)
From Coq Require Import List Arith Bool Reals.
From Verif Require Import Base RSum MatrixModel DofsModel AssemblerModel VemQuadModel VemModel EquationModel DriverModel Mcc2dModel ElasticModel ElasticGlobalModel.
Import ListNotations.
Local Open Scope R_scope.

(** assembler.cpp 55-71 and 95-111 for one component: the loop over the unknowns of a vertex or edge; off is count_dofs.offsets_Strongs[h] *)
Definition elastic_strong_dofs (off : nat) (row : list DOF) (values : Vec) (s : list R) : outcome (list R) :=
  for_loop (length row) (fun i s =>
    x <- at_ row i ;;
    match dof_type x with
    | TStrong => v <- vec_get values i ;; set_idx s (dof_index x + off) v
    | TDOF => Ok s
    | TUnknown => Throw
    end) s.

(** assembler.cpp 37-73: one vertex.  The test returns arrays of three vectors; they are evaluated here component by component, g marker x y z h.
    The number of components, reference_element_data.Dimension, is 2.  The assertions of 53 and 93 are compiled out. *)
Definition elastic_strong_vertex (m : Mesh2D) (info : MeshDOFsInfo) (data : DOFsData) (cd : count_dofs_data) (g : nat -> R -> R -> R -> nat -> R)
  (s : list R) (v : nat) : outcome (list R) :=
  bi <- at_ (CellsBoundaryInfo info 0) v ;;
  if negb (is_strong (bi_type bi)) then Ok s else
  row <- at_ (CellsDOFs data 0) v ;;
  for_loop 2 (fun h s =>
    values <- function_evaluation (column3 (md_coords m v)) (fun x y z => g (bi_marker bi) x y z h) ;;
    off <- idx_ (offsets_Strongs cd) h ;;
    elastic_strong_dofs off row values s) s.

(** assembler.cpp 76-113: one edge of a cell *)
Definition elastic_strong_edge (info : MeshDOFsInfo) (data : DOFsData) (cd : count_dofs_data) (edges : list nat) (space : LocalSpace)
  (g : nat -> R -> R -> R -> nat -> R) (ed : nat) (s : list R) : outcome (list R) :=
  e <- idx_ edges ed ;;
  bi <- at_ (CellsBoundaryInfo info 1) e ;;
  row <- at_ (CellsDOFs data 1) e ;;
  if negb (is_strong (bi_type bi)) || (length row =? 0)%nat then Ok s else
  P <- ls_EdgeDofsCoordinates space ed ;;
  for_loop 2 (fun h s =>
    values <- function_evaluation P (fun x y z => g (bi_marker bi) x y z h) ;;
    off <- idx_ (offsets_Strongs cd) h ;;
    elastic_strong_dofs off row values s) s.

(** assembler.cpp 26-114: one cell *)
Definition elastic_strong_cell (m : Mesh2D) (info : MeshDOFsInfo) (data : DOFsData) (cd : count_dofs_data) (g : nat -> R -> R -> R -> nat -> R) (c : nat)
  (space : LocalSpace) (s : list R) : outcome (list R) :=
  s <- foldM (elastic_strong_vertex m info data cd g) (Cell2D_vertices (md_mesh m) c) s ;;
  for_loop (length (Cell2D_edges (md_mesh m) c)) (elastic_strong_edge info data cd (Cell2D_edges (md_mesh m) c) space g) s.

(** assembler.cpp 26-114, called for each cell at 243-302: the values of solutionDirichlet, which no other statement of the loop writes *)
Definition elastic_strong (m : Mesh2D) (info : MeshDOFsInfo) (data : DOFsData) (create : nat -> outcome LocalSpace) (g : nat -> R -> R -> R -> nat -> R)
  : outcome (list R) :=
  cd <- count_dofs [data; data] ;;
  for_loop (Cell2Ds_number (md_mesh m)) (fun c s =>
    space <- create c ;;
    elastic_strong_cell m info data cd g c space s)
    (repeat 0 (num_total_strong cd)).

(** assembler.cpp 176-192 and 196-214 for one component: entries first, first + step, ... are added to the free unknowns of a row;
    off is count_dofs.offsets_DOFs[h] *)
Definition elastic_add_weak (off : nat) (row : list DOF) (values : Vec) (first step : nat) (s : list R) : outcome (list R) :=
  for_loop (length row) (fun i s =>
    x <- at_ row i ;;
    match dof_type x with
    | TStrong => Ok s
    | TDOF => v <- vec_get values (first + step * i) ;; AddValue s (dof_index x + off) v
    | TUnknown => Throw
    end) s.

(** assembler.cpp 129-216: one edge of a cell.  The values of the term against the functions of the edge, 138-168, are those of the scalar driver
    for each component. *)
Definition elastic_weak_edge (m : Mesh2D) (info : MeshDOFsInfo) (data : DOFsData) (cd : count_dofs_data) (P : Polygon) (gauss : QuadratureData)
  (space : LocalSpace) (g : nat -> R -> R -> R -> nat -> R) (c ed : nat) (s : list R) : outcome (list R) :=
  e <- idx_ (Cell2D_edges (md_mesh m) c) ed ;;
  bi <- at_ (CellsBoundaryInfo info 1) e ;;
  if negb (is_weak (bi_type bi)) then Ok s else
  for_loop 2 (fun h s =>
    b <- weak_values gauss P space (fun x y z => g (bi_marker bi) x y z h) ed ;;
    off <- idx_ (offsets_DOFs cd) h ;;
    s <- for_loop 2 (fun p s =>
      v <- idx_ (Cell1D_vertices (md_mesh m) e) p ;;
      row <- at_ (CellsDOFs data 0) v ;;
      elastic_add_weak off row b p 0 s) s ;;
    row <- at_ (CellsDOFs data 1) e ;;
    elastic_add_weak off row b 2 1 s) s.

(** assembler.cpp 116-217: one cell *)
Definition elastic_weak_cell (m : Mesh2D) (info : MeshDOFsInfo) (data : DOFsData) (cd : count_dofs_data) (P : Polygon) (gauss : QuadratureData)
  (g : nat -> R -> R -> R -> nat -> R) (c : nat) (space : LocalSpace) (s : list R) : outcome (list R) :=
  for_loop (m_cols (pg_Vertices P)) (elastic_weak_edge m info data cd P gauss space g c) s.

(** assembler.cpp 116-217, called for each cell at 243-302: the part of the right-hand side that comes from the Weak edges.  In the code it is added to
    the part of the forces in the same loop ([elastic_assemble]); here it starts from zero. *)
Definition elastic_weak (m : Mesh2D) (info : MeshDOFsInfo) (data : DOFsData) (geometry : nat -> Polygon) (gauss : QuadratureData)
  (create : nat -> outcome LocalSpace) (g : nat -> R -> R -> R -> nat -> R) : outcome (list R) :=
  cd <- count_dofs [data; data] ;;
  for_loop (Cell2Ds_number (md_mesh m)) (fun c s =>
    space <- create c ;;
    elastic_weak_cell m info data cd (geometry c) gauss g c space s) (repeat 0 (num_total_dofs cd)).

(** assembler.hpp 35-42, Elastic_PCC_2D_Problem_Data, without the solution *)
Record ElasticData := { ed_globalMatrixA : list triplet; ed_dirichletMatrixA : list triplet; ed_rightHandSide : list R; ed_solutionDirichlet : list R }.

(** assembler.cpp 243-302: one cell: the matrices and forces, then the strong values, then the Weak edges; the state is the pair of the global containers
    and of the strong values; the code creates the local space once, create has no effects *)
Definition elastic_full_step (m : Mesh2D) (info : MeshDOFsInfo) (data : DOFsData) (cd : count_dofs_data) (geometry : nat -> Polygon) (gauss : QuadratureData)
  (create : nat -> outcome LocalSpace) (P : ElasticProblem) (g_strong g_weak : nat -> R -> R -> R -> nat -> R) (c : nat) (s : asm_state * list R)
  : outcome (asm_state * list R) :=
  st <- elastic_step data cd create P c (fst s) ;;
  space <- create c ;;
  uS <- elastic_strong_cell m info data cd g_strong c space (snd s) ;;
  b <- elastic_weak_cell m info data cd (geometry c) gauss g_weak c space (asm_rhs st) ;;
  Ok ({| trip_DOFs := trip_DOFs st; trip_Strongs := trip_Strongs st; asm_rhs := b |}, uS).

(** assembler.cpp 219-313, Assemble.  The matrices are the recorded triplets (Create adds the duplicates up) *)
Definition elastic_assemble (m : Mesh2D) (info : MeshDOFsInfo) (data : DOFsData) (geometry : nat -> Polygon) (gauss : QuadratureData)
  (create : nat -> outcome LocalSpace) (P : ElasticProblem) (g_strong g_weak : nat -> R -> R -> R -> nat -> R) : outcome ElasticData :=
  cd <- count_dofs [data; data] ;;
  s <- for_loop (Cell2Ds_number (md_mesh m)) (elastic_full_step m info data cd geometry gauss create P g_strong g_weak)
    (asm_init (num_total_dofs cd), repeat 0 (num_total_strong cd)) ;;
  Ok {| ed_globalMatrixA := trip_DOFs (fst s); ed_dirichletMatrixA := trip_Strongs (fst s);
        ed_rightHandSide := if (0 <? NumberStrongs data)%nat then SubtractionMultiplication (asm_rhs (fst s)) (trip_Strongs (fst s)) (snd s) else asm_rhs (fst s);
        ed_solutionDirichlet := snd s |}.
