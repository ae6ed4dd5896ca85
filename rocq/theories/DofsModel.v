(** Model of PolyDiM/src/PDETools/DOFs/DOFsManager.{hpp,cpp}.
    Definitions only; proofs are in DofsProofs.v. *)
From Coq Require Import List Arith Bool.
From Verif Require Import Base.
Import ListNotations.
Set Implicit Arguments.

(** DOFsManager.hpp 69-76: enum struct BoundaryTypes. *)
Inductive BoundaryTypes := BUnknown | BStrong | BWeak | BRobin | BNone.

(** DOFsManager.hpp 67-80: struct BoundaryInfo { Type; Marker }. *)
Record BoundaryInfo := { bi_type : BoundaryTypes; bi_marker : nat }.

(** DOFsManager.hpp 65-87: struct MeshDOFsInfo.  A [std::array<_,4>] indexed by
    the dimension is a function of the dimension (only 0..3 are ever used). *)
Record MeshDOFsInfo := {
  CellsNumDOFs : nat -> list nat;
  CellsBoundaryInfo : nat -> list BoundaryInfo
}.

(** DOFsManager.hpp 101-106: enum struct Types. *)
Inductive DOFType := TUnknown | TStrong | TDOF.

(** DOFsManager.hpp 99-110: struct DOF { Type; Global_Index }. *)
Record DOF := { dof_type : DOFType; dof_index : nat }.

(** DOFsManager.hpp 99-110, std::vector::resize: value of a new [DOF] (zero enum, zero index) *)
Definition dof0 : DOF := {| dof_type := TUnknown; dof_index := 0 |}.

(** DOFsManager.hpp 112-117: struct GlobalCell_DOF { Dimension; CellIndex; DOFIndex }. *)
Record GlobalCell_DOF := { g_dim : nat; g_cell : nat; g_dof : nat }.
(** DOFsManager.hpp 112-117, std::vector::resize: value of a new element *)
Definition gdof0 : GlobalCell_DOF := {| g_dim := 0; g_cell := 0; g_dof := 0 |}.

(** DOFsManager.hpp 97-135: struct DOFsData. *)
Record DOFsData := {
  NumberDOFs : nat;
  NumberInternalDOFs : nat;
  NumberBoundaryDOFs : nat;
  NumberStrongs : nat;
  CellsDOFs : nat -> list (list DOF);
  CellsGlobalDOFs : nat -> list (list GlobalCell_DOF);
  CellsNumberDOFs : nat -> list nat;
  CellsHasInternalDOFs : nat -> list bool;
  CellsHasBoundaryDOFs : nat -> list bool;
  CellsNumberStrongs : nat -> list nat;
  CellsGlobalNumberDOFs : nat -> list nat;
  CellsGlobalHasInternalDOFs : nat -> list bool;
  CellsGlobalHasBoundaryDOFs : nat -> list bool;
  CellsGlobalNumberStrongs : nat -> list nat
}.

(** Accessors of the mesh connectivity class used by DOFsManager.hpp
    (Cell1D_vertices ... Cell3D_faces; MeshMatricesDAO_mesh_connectivity_data.hpp).
    The mesh itself belongs to the external library gedim; it is an arbitrary
    connectivity here. *)
Record Mesh := {
  Cell0D_marker : nat -> nat;
  Cell1D_marker : nat -> nat;
  Cell2D_marker : nat -> nat;
  Cell3D_marker : nat -> nat;
  Cell0Ds_number : nat;
  Cell1Ds_number : nat;
  Cell2Ds_number : nat;
  Cell3Ds_number : nat;
  Cell1D_vertices : nat -> list nat;
  Cell2D_vertices : nat -> list nat;
  Cell2D_edges : nat -> list nat;
  Cell3D_vertices : nat -> list nat;
  Cell3D_edges : nat -> list nat;
  Cell3D_faces : nat -> list nat
}.

(** std::array<_, 4> of DOFsManager.hpp 65-135: write one component, indexed by the dimension *)
Definition upd {A} (f : nat -> A) (d : nat) (v : A) : nat -> A :=
  fun e => if e =? d then v else f e.

(** ** CreateCellDOFs, DOFsManager.cpp 35-107 *)

(** DOFsManager.hpp 97-135: the part of [DOFsData] that CreateCellDOFs modifies, for the dimension at hand *)
Record cell_state := {
  cs_nD : nat; cs_nI : nat; cs_nB : nat; cs_nS : nat;
  cs_dofs : list (list DOF);
  cs_cnD : list nat; cs_cnS : list nat;
  cs_hasI : list bool; cs_hasB : list bool
}.

(** the loop "for d: dof.Type = T; dof.Global_Index = base + d", DOFsManager.cpp 59-64,
    74-79, 88-93, on the vector [cellsDOFs.at(c)] of the cell *)
Definition fill_cell (T : DOFType) (base n : nat) (row : list DOF) : outcome (list DOF) :=
  for_loop n (fun d row => set_at row d {| dof_type := T; dof_index := base + d |}) row.

(** one iteration of the loop over the cells, DOFsManager.cpp 47-106 *)
Definition CreateCellDOFs_step (num : list nat) (binfo : list BoundaryInfo)
  (c : nat) (s : cell_state) : outcome cell_state :=
  n <- at_ num c ;;
  bi <- at_ binfo c ;;
  row0 <- at_ (cs_dofs s) c ;;
  let row := resize row0 n dof0 in
  match bi_type bi with
  | BNone =>
      row' <- fill_cell TDOF (cs_nD s) n row ;;
      dofs' <- set_at (cs_dofs s) c row' ;;
      old <- at_ (cs_cnD s) c ;;
      cnD' <- set_at (cs_cnD s) c (old + n) ;;
      hasI' <- set_at (cs_hasI s) c true ;;
      Ok {| cs_nD := cs_nD s + n; cs_nI := cs_nI s + n; cs_nB := cs_nB s; cs_nS := cs_nS s;
            cs_dofs := dofs'; cs_cnD := cnD'; cs_cnS := cs_cnS s;
            cs_hasI := hasI'; cs_hasB := cs_hasB s |}
  | BStrong =>
      row' <- fill_cell TStrong (cs_nS s) n row ;;
      dofs' <- set_at (cs_dofs s) c row' ;;
      old <- at_ (cs_cnS s) c ;;
      cnS' <- set_at (cs_cnS s) c (old + n) ;;
      Ok {| cs_nD := cs_nD s; cs_nI := cs_nI s; cs_nB := cs_nB s; cs_nS := cs_nS s + n;
            cs_dofs := dofs'; cs_cnD := cs_cnD s; cs_cnS := cnS';
            cs_hasI := cs_hasI s; cs_hasB := cs_hasB s |}
  | BRobin | BWeak =>
      row' <- fill_cell TDOF (cs_nD s) n row ;;
      dofs' <- set_at (cs_dofs s) c row' ;;
      old <- at_ (cs_cnD s) c ;;
      cnD' <- set_at (cs_cnD s) c (old + n) ;;
      hasB' <- set_at (cs_hasB s) c true ;;
      Ok {| cs_nD := cs_nD s + n; cs_nI := cs_nI s; cs_nB := cs_nB s + n; cs_nS := cs_nS s;
            cs_dofs := dofs'; cs_cnD := cnD'; cs_cnS := cs_cnS s;
            cs_hasI := cs_hasI s; cs_hasB := hasB' |}
  | BUnknown => Throw
  end.

(** DOFsManager.cpp 35-107: the resizes of lines 41-45, then the loop. *)
Definition CreateCellDOFs (info : MeshDOFsInfo) (dofs : DOFsData) (dim : nat) : outcome DOFsData :=
  let num := CellsNumDOFs info dim in
  let binfo := CellsBoundaryInfo info dim in
  let numCells := length num in
  let s0 := {| cs_nD := NumberDOFs dofs; cs_nI := NumberInternalDOFs dofs;
               cs_nB := NumberBoundaryDOFs dofs; cs_nS := NumberStrongs dofs;
               cs_dofs := resize (CellsDOFs dofs dim) numCells [];
               cs_cnD := resize (CellsNumberDOFs dofs dim) numCells 0;
               cs_cnS := resize (CellsNumberStrongs dofs dim) numCells 0;
               cs_hasI := resize (CellsHasInternalDOFs dofs dim) numCells false;
               cs_hasB := resize (CellsHasBoundaryDOFs dofs dim) numCells false |} in
  s <- for_loop numCells (CreateCellDOFs_step num binfo) s0 ;;
  Ok {| NumberDOFs := cs_nD s; NumberInternalDOFs := cs_nI s;
        NumberBoundaryDOFs := cs_nB s; NumberStrongs := cs_nS s;
        CellsDOFs := upd (CellsDOFs dofs) dim (cs_dofs s);
        CellsGlobalDOFs := CellsGlobalDOFs dofs;
        CellsNumberDOFs := upd (CellsNumberDOFs dofs) dim (cs_cnD s);
        CellsHasInternalDOFs := upd (CellsHasInternalDOFs dofs) dim (cs_hasI s);
        CellsHasBoundaryDOFs := upd (CellsHasBoundaryDOFs dofs) dim (cs_hasB s);
        CellsNumberStrongs := upd (CellsNumberStrongs dofs) dim (cs_cnS s);
        CellsGlobalNumberDOFs := CellsGlobalNumberDOFs dofs;
        CellsGlobalHasInternalDOFs := CellsGlobalHasInternalDOFs dofs;
        CellsGlobalHasBoundaryDOFs := CellsGlobalHasBoundaryDOFs dofs;
        CellsGlobalNumberStrongs := CellsGlobalNumberStrongs dofs |}.

(** ** Closure lists *)

(** DOFsManager.cpp 21-33 (ConcatenateGlobalDOFs): writes through [operator[]] at a
    running position of a vector allocated by the caller. *)
Definition ConcatenateGlobalDOFs (dim cell : nat) (local_cell_DOFs : list DOF)
  (st : list GlobalCell_DOF * nat) : outcome (list GlobalCell_DOF * nat) :=
  for_loop (length local_cell_DOFs)
    (fun d st =>
       buf' <- set_idx (fst st) (snd st) {| g_dim := dim; g_cell := cell; g_dof := d |} ;;
       Ok (buf', snd st + 1)) st.

(** Row [c] of the per-cell "Global" vectors.  Simplification: the C++ code updates row [c]
    of the five vectors in place during iteration [c]; nothing else reads that row, so the
    iteration is modelled on a local copy of the row that is stored back at its end. *)
Record grow := {
  gr_buf : list GlobalCell_DOF; gr_nD : nat; gr_nS : nat; gr_hasI : bool; gr_hasB : bool
}.

(** DOFsManager.cpp 21-100, ConcatenateGlobalDOFs: the row with another buffer *)
Definition set_gr_buf r b := {| gr_buf := b; gr_nD := gr_nD r; gr_nS := gr_nS r;
                                gr_hasI := gr_hasI r; gr_hasB := gr_hasB r |}.

(** "cellsGlobalNumberDOFs[c] += CellsNumberDOFs.at(d).at(e)" and the same for Strongs
    (e.g. DOFsManager.hpp 314-315) *)
Definition add_counts (dofs : DOFsData) (d e : nat) (r : grow) : outcome grow :=
  x <- at_ (CellsNumberDOFs dofs d) e ;;
  y <- at_ (CellsNumberStrongs dofs d) e ;;
  Ok {| gr_buf := gr_buf r; gr_nD := gr_nD r + x; gr_nS := gr_nS r + y;
        gr_hasI := gr_hasI r; gr_hasB := gr_hasB r |}.

(** "if (CellsHasInternalDOFs.at(d).at(e)) cellsGlobalHasInternalDOFs[c] = true" and the
    same for Boundary (e.g. DOFsManager.hpp 317-321) *)
Definition or_flags (dofs : DOFsData) (d e : nat) (r : grow) : outcome grow :=
  x <- at_ (CellsHasInternalDOFs dofs d) e ;;
  y <- at_ (CellsHasBoundaryDOFs dofs d) e ;;
  Ok {| gr_buf := gr_buf r; gr_nD := gr_nD r; gr_nS := gr_nS r;
        gr_hasI := if x then true else gr_hasI r;
        gr_hasB := if y then true else gr_hasB r |}.

(** DOFsManager.hpp 251-261: one iteration of CreateCell0DDOFs. *)
Definition cell0D_row (dofs : DOFsData) (c : nat) (r : grow) : outcome grow :=
  own <- at_ (CellsDOFs dofs 0) c ;;
  let buf := resize (gr_buf r) (length own) gdof0 in
  r1 <- add_counts dofs 0 c r ;;
  b <- ConcatenateGlobalDOFs 0 c own (buf, 0) ;;
  Ok (set_gr_buf r1 (fst b)).

(** DOFsManager.hpp 300-337: one iteration of CreateCell1DDOFs. *)
Definition cell1D_row (mesh : Mesh) (dofs : DOFsData) (c : nat) (r : grow) : outcome grow :=
  o <- at_ (Cell1D_vertices mesh c) 0 ;;
  e <- at_ (Cell1D_vertices mesh c) 1 ;;
  oD <- at_ (CellsDOFs dofs 0) o ;;
  eD <- at_ (CellsDOFs dofs 0) e ;;
  own <- at_ (CellsDOFs dofs 1) c ;;
  let buf := resize (gr_buf r) (length oD + length eD + length own) gdof0 in
  r1 <- add_counts dofs 0 o r ;;
  r2 <- or_flags dofs 0 o r1 ;;
  r3 <- add_counts dofs 0 e r2 ;;
  r4 <- or_flags dofs 0 e r3 ;;
  r5 <- add_counts dofs 1 c r4 ;;
  b1 <- ConcatenateGlobalDOFs 0 o oD (buf, 0) ;;
  b2 <- ConcatenateGlobalDOFs 0 e eD b1 ;;
  b3 <- ConcatenateGlobalDOFs 1 c own b2 ;;
  Ok (set_gr_buf r5 (fst b3)).

(** the sizing loops "for v: cellNumGlobalDOFs += CellsDOFs.at(d).at(v).size()",
    DOFsManager.hpp 380-392, 469-485 *)
Definition size_loop (dofs : DOFsData) (d : nat) (ents : list nat) (acc : nat) : outcome nat :=
  foldM (fun acc e => l <- at_ (CellsDOFs dofs d) e ;; Ok (acc + length l)) ents acc.

(** the filling loops: concatenate, add the counts and, when [flags] is set, OR the flags
    (DOFsManager.hpp 398-405 and 407-420; 491-498, 500-507 and 509-522) *)
Definition fill_loop (flags : bool) (dofs : DOFsData) (d : nat) (ents : list nat)
  (st : grow * nat) : outcome (grow * nat) :=
  foldM (fun st e =>
    l <- at_ (CellsDOFs dofs d) e ;;
    b <- ConcatenateGlobalDOFs d e l (gr_buf (fst st), snd st) ;;
    r1 <- add_counts dofs d e (set_gr_buf (fst st) (fst b)) ;;
    r2 <- (if flags then or_flags dofs d e r1 else Ok r1) ;;
    Ok (r2, snd b)) ents st.

(** DOFsManager.hpp 376-425: one iteration of CreateCell2DDOFs. *)
Definition cell2D_row (mesh : Mesh) (dofs : DOFsData) (c : nat) (r : grow) : outcome grow :=
  own <- at_ (CellsDOFs dofs 2) c ;;
  n1 <- size_loop dofs 0 (Cell2D_vertices mesh c) (length own) ;;
  n2 <- size_loop dofs 1 (Cell2D_edges mesh c) n1 ;;
  let r0 := set_gr_buf r (resize (gr_buf r) n2 gdof0) in
  s1 <- fill_loop false dofs 0 (Cell2D_vertices mesh c) (r0, 0) ;;
  s2 <- fill_loop true dofs 1 (Cell2D_edges mesh c) s1 ;;
  s3 <- fill_loop false dofs 2 [c] s2 ;;
  Ok (fst s3).

(** DOFsManager.hpp 464-527: one iteration of CreateCell3DDOFs. *)
Definition cell3D_row (mesh : Mesh) (dofs : DOFsData) (c : nat) (r : grow) : outcome grow :=
  own <- at_ (CellsDOFs dofs 3) c ;;
  n1 <- size_loop dofs 0 (Cell3D_vertices mesh c) (length own) ;;
  n2 <- size_loop dofs 1 (Cell3D_edges mesh c) n1 ;;
  n3 <- size_loop dofs 2 (Cell3D_faces mesh c) n2 ;;
  let r0 := set_gr_buf r (resize (gr_buf r) n3 gdof0) in
  s1 <- fill_loop false dofs 0 (Cell3D_vertices mesh c) (r0, 0) ;;
  s2 <- fill_loop false dofs 1 (Cell3D_edges mesh c) s1 ;;
  s3 <- fill_loop true dofs 2 (Cell3D_faces mesh c) s2 ;;
  s4 <- fill_loop false dofs 3 [c] s3 ;;
  Ok (fst s4).

(** read row [c] of the Global vectors of dimension [d] (operator[]).  [flags] says
    whether the dimension owns CellsGlobalHas* vectors (dimension 0 does not,
    DOFsManager.hpp 241-247). *)
Definition get_grow (flags : bool) (dofs : DOFsData) (d c : nat) : outcome grow :=
  b <- idx_ (CellsGlobalDOFs dofs d) c ;;
  x <- idx_ (CellsGlobalNumberDOFs dofs d) c ;;
  y <- idx_ (CellsGlobalNumberStrongs dofs d) c ;;
  i <- (if flags then idx_ (CellsGlobalHasInternalDOFs dofs d) c else Ok false) ;;
  j <- (if flags then idx_ (CellsGlobalHasBoundaryDOFs dofs d) c else Ok false) ;;
  Ok {| gr_buf := b; gr_nD := x; gr_nS := y; gr_hasI := i; gr_hasB := j |}.

(** DOFsManager.cpp 21-100, ConcatenateGlobalDOFs: write the row back *)
Definition put_grow (flags : bool) (dofs : DOFsData) (d c : nat) (r : grow) : outcome DOFsData :=
  b <- set_idx (CellsGlobalDOFs dofs d) c (gr_buf r) ;;
  x <- set_idx (CellsGlobalNumberDOFs dofs d) c (gr_nD r) ;;
  y <- set_idx (CellsGlobalNumberStrongs dofs d) c (gr_nS r) ;;
  i <- (if flags then set_idx (CellsGlobalHasInternalDOFs dofs d) c (gr_hasI r)
        else Ok (CellsGlobalHasInternalDOFs dofs d)) ;;
  j <- (if flags then set_idx (CellsGlobalHasBoundaryDOFs dofs d) c (gr_hasB r)
        else Ok (CellsGlobalHasBoundaryDOFs dofs d)) ;;
  Ok {| NumberDOFs := NumberDOFs dofs; NumberInternalDOFs := NumberInternalDOFs dofs;
        NumberBoundaryDOFs := NumberBoundaryDOFs dofs; NumberStrongs := NumberStrongs dofs;
        CellsDOFs := CellsDOFs dofs;
        CellsGlobalDOFs := upd (CellsGlobalDOFs dofs) d b;
        CellsNumberDOFs := CellsNumberDOFs dofs;
        CellsHasInternalDOFs := CellsHasInternalDOFs dofs;
        CellsHasBoundaryDOFs := CellsHasBoundaryDOFs dofs;
        CellsNumberStrongs := CellsNumberStrongs dofs;
        CellsGlobalNumberDOFs := upd (CellsGlobalNumberDOFs dofs) d x;
        CellsGlobalHasInternalDOFs := upd (CellsGlobalHasInternalDOFs dofs) d i;
        CellsGlobalHasBoundaryDOFs := upd (CellsGlobalHasBoundaryDOFs dofs) d j;
        CellsGlobalNumberStrongs := upd (CellsGlobalNumberStrongs dofs) d y |}.

(** the resizes at the head of CreateCell{0,1,2,3}DDOFs (DOFsManager.hpp 245-247,
    292-296, 368-372, 456-460) *)
Definition resize_global (flags : bool) (dofs : DOFsData) (d n : nat) : DOFsData :=
  {| NumberDOFs := NumberDOFs dofs; NumberInternalDOFs := NumberInternalDOFs dofs;
     NumberBoundaryDOFs := NumberBoundaryDOFs dofs; NumberStrongs := NumberStrongs dofs;
     CellsDOFs := CellsDOFs dofs;
     CellsGlobalDOFs := upd (CellsGlobalDOFs dofs) d (resize (CellsGlobalDOFs dofs d) n []);
     CellsNumberDOFs := CellsNumberDOFs dofs;
     CellsHasInternalDOFs := CellsHasInternalDOFs dofs;
     CellsHasBoundaryDOFs := CellsHasBoundaryDOFs dofs;
     CellsNumberStrongs := CellsNumberStrongs dofs;
     CellsGlobalNumberDOFs := upd (CellsGlobalNumberDOFs dofs) d (resize (CellsGlobalNumberDOFs dofs d) n 0);
     CellsGlobalHasInternalDOFs :=
       if flags then upd (CellsGlobalHasInternalDOFs dofs) d (resize (CellsGlobalHasInternalDOFs dofs d) n false)
       else CellsGlobalHasInternalDOFs dofs;
     CellsGlobalHasBoundaryDOFs :=
       if flags then upd (CellsGlobalHasBoundaryDOFs dofs) d (resize (CellsGlobalHasBoundaryDOFs dofs d) n false)
       else CellsGlobalHasBoundaryDOFs dofs;
     CellsGlobalNumberStrongs := upd (CellsGlobalNumberStrongs dofs) d (resize (CellsGlobalNumberStrongs dofs d) n 0) |}.

(** DOFsManager.hpp 229-525, CreateCell0DDOFs ... CreateCell3DDOFs: the common loop of the four functions *)
Definition closure_loop (flags : bool) (d n : nat) (row : DOFsData -> nat -> grow -> outcome grow)
  (dofs : DOFsData) : outcome DOFsData :=
  for_loop n (fun c dofs =>
    r <- get_grow flags dofs d c ;;
    r' <- row dofs c r ;;
    put_grow flags dofs d c r') (resize_global flags dofs d n).

(** DOFsManager.hpp 229-263.  The template guard "if (dimension < 0) return" is never taken. *)
Definition CreateCell0DDOFs (info : MeshDOFsInfo) (dofs : DOFsData) : outcome DOFsData :=
  dofs1 <- CreateCellDOFs info dofs 0 ;;
  closure_loop false 0 (length (CellsNumDOFs info 0)) cell0D_row dofs1.

(** DOFsManager.hpp 270-339 (every caller instantiates dimension >= 1) *)
Definition CreateCell1DDOFs (info : MeshDOFsInfo) (mesh : Mesh) (dofs : DOFsData) : outcome DOFsData :=
  dofs1 <- CreateCellDOFs info dofs 1 ;;
  closure_loop true 1 (length (CellsNumDOFs info 1)) (cell1D_row mesh) dofs1.

(** DOFsManager.hpp 346-427 (every caller instantiates dimension >= 2) *)
Definition CreateCell2DDOFs (info : MeshDOFsInfo) (mesh : Mesh) (dofs : DOFsData) : outcome DOFsData :=
  dofs1 <- CreateCellDOFs info dofs 2 ;;
  closure_loop true 2 (length (CellsNumDOFs info 2)) (cell2D_row mesh) dofs1.

(** DOFsManager.hpp 434-529 (every caller instantiates dimension >= 3) *)
Definition CreateCell3DDOFs (info : MeshDOFsInfo) (mesh : Mesh) (dofs : DOFsData) : outcome DOFsData :=
  dofs1 <- CreateCellDOFs info dofs 3 ;;
  closure_loop true 3 (length (CellsNumDOFs info 3)) (cell3D_row mesh) dofs1.

(** DOFsManager.hpp 599-604: a fresh [DOFsData], counters set to zero, vectors empty. *)
Definition empty_dofs : DOFsData :=
  {| NumberDOFs := 0; NumberInternalDOFs := 0; NumberBoundaryDOFs := 0; NumberStrongs := 0;
     CellsDOFs := fun _ => []; CellsGlobalDOFs := fun _ => [];
     CellsNumberDOFs := fun _ => []; CellsHasInternalDOFs := fun _ => [];
     CellsHasBoundaryDOFs := fun _ => []; CellsNumberStrongs := fun _ => [];
     CellsGlobalNumberDOFs := fun _ => []; CellsGlobalHasInternalDOFs := fun _ => [];
     CellsGlobalHasBoundaryDOFs := fun _ => []; CellsGlobalNumberStrongs := fun _ => [] |}.

(** DOFsManager.hpp 597-613 *)
Definition CreateDOFs_0D (info : MeshDOFsInfo) : outcome DOFsData :=
  CreateCell0DDOFs info empty_dofs.

(** DOFsManager.hpp 615-634 *)
Definition CreateDOFs_1D (info : MeshDOFsInfo) (mesh : Mesh) : outcome DOFsData :=
  d0 <- CreateCell0DDOFs info empty_dofs ;;
  CreateCell1DDOFs info mesh d0.

(** DOFsManager.hpp 636-657 *)
Definition CreateDOFs_2D (info : MeshDOFsInfo) (mesh : Mesh) : outcome DOFsData :=
  d0 <- CreateCell0DDOFs info empty_dofs ;;
  d1 <- CreateCell1DDOFs info mesh d0 ;;
  CreateCell2DDOFs info mesh d1.

(** DOFsManager.hpp 659-682 *)
Definition CreateDOFs_3D (info : MeshDOFsInfo) (mesh : Mesh) : outcome DOFsData :=
  d0 <- CreateCell0DDOFs info empty_dofs ;;
  d1 <- CreateCell1DDOFs info mesh d0 ;;
  d2 <- CreateCell2DDOFs info mesh d1 ;;
  CreateCell3DDOFs info mesh d2.

(** The four entry points as one family (the C++ has one function per dimension; there is
    none above 3, written [Throw] here and excluded by every theorem). *)
Definition CreateDOFs (k : nat) (info : MeshDOFsInfo) (mesh : Mesh) : outcome DOFsData :=
  match k with
  | 0 => CreateDOFs_0D info
  | 1 => CreateDOFs_1D info mesh
  | 2 => CreateDOFs_2D info mesh
  | 3 => CreateDOFs_3D info mesh
  | _ => Throw
  end.

(** ** ComputeCellsDOFsIndices, DOFsManager.cpp 109-159 *)

(** "dofs.CellsDOFs.at(g.Dimension).at(g.CellIndex).at(g.DOFIndex)", DOFsManager.cpp 132 *)
Definition resolve (dofs : DOFsData) (g : GlobalCell_DOF) : outcome DOF :=
  row <- at_ (CellsDOFs dofs (g_dim g)) (g_cell g) ;;
  at_ row (g_dof g).

(** DOFsManager.hpp 137-143: the four vectors, one row per cell. *)
Record cell_indices := {
  ci_dofs_local : list nat; ci_strongs_local : list nat;
  ci_dofs_global : list nat; ci_strongs_global : list nat
}.

(** DOFsManager.cpp 129-149: the loop over the closure of one cell ([push_back]s). *)
Definition cell_indices_loop (dofs : DOFsData) (gl : list GlobalCell_DOF) : outcome cell_indices :=
  for_loop (length gl) (fun g_d ci =>
    g <- at_ gl g_d ;;
    dof <- resolve dofs g ;;
    match dof_type dof with
    | TStrong => Ok {| ci_dofs_local := ci_dofs_local ci; ci_strongs_local := ci_strongs_local ci ++ [g_d];
                       ci_dofs_global := ci_dofs_global ci;
                       ci_strongs_global := ci_strongs_global ci ++ [dof_index dof] |}
    | TDOF => Ok {| ci_dofs_local := ci_dofs_local ci ++ [g_d]; ci_strongs_local := ci_strongs_local ci;
                    ci_dofs_global := ci_dofs_global ci ++ [dof_index dof];
                    ci_strongs_global := ci_strongs_global ci |}
    | TUnknown => Throw
    end) {| ci_dofs_local := []; ci_strongs_local := []; ci_dofs_global := []; ci_strongs_global := [] |}.

(** DOFsManager.cpp 109-159 (the result vectors, resized to the number of cells and then
    assigned row by row, are modelled as one list of rows) *)
Definition ComputeCellsDOFsIndices (dofs : DOFsData) (dimension : nat) : outcome (list cell_indices) :=
  foldM (fun acc gl => ci <- cell_indices_loop dofs gl ;; Ok (acc ++ [ci]))
        (CellsGlobalDOFs dofs dimension) [].

(** ** Create_Constant_DOFsInfo, DOFsManager.hpp 153-223 and 532-595 *)

(** DOFsManager.hpp 91-95: struct ConstantDOFsInfo; std::map<unsigned,BoundaryInfo> as its
    lookup function *)
Record ConstantDOFsInfo := {
  NumDOFs : nat -> nat;
  BoundaryMap : nat -> option BoundaryInfo
}.

(** std::map::at, DOFsManager.hpp 153-223 *)
Definition map_at (m : nat -> option BoundaryInfo) (k : nat) : outcome BoundaryInfo :=
  match m k with Some b => Ok b | None => Throw end.

(** DOFsManager.hpp 153-223: the four private functions have the same body up to the
    dimension, its cell number and its marker accessor. *)
Definition Create_Constant_DOFsInfo_dim (d ncells : nat) (marker : nat -> nat)
  (ci : ConstantDOFsInfo) (info : MeshDOFsInfo) : outcome MeshDOFsInfo :=
  let num' := resize (CellsNumDOFs info d) ncells (NumDOFs ci d) in
  let b0 := resize (CellsBoundaryInfo info d) ncells {| bi_type := BUnknown; bi_marker := 0 |} in
  b <- for_loop ncells (fun c b => v <- map_at (BoundaryMap ci) (marker c) ;; set_idx b c v) b0 ;;
  Ok {| CellsNumDOFs := upd (CellsNumDOFs info) d num';
        CellsBoundaryInfo := upd (CellsBoundaryInfo info) d b |}.

(** DOFsManager.hpp 65-87: a new MeshDOFsInfo *)
Definition empty_info : MeshDOFsInfo :=
  {| CellsNumDOFs := fun _ => []; CellsBoundaryInfo := fun _ => [] |}.

(** DOFsManager.hpp 532-544 *)
Definition Create_Constant_DOFsInfo_0D (mesh : Mesh) (ci : ConstantDOFsInfo) : outcome MeshDOFsInfo :=
  Create_Constant_DOFsInfo_dim 0 (Cell0Ds_number mesh) (Cell0D_marker mesh) ci empty_info.

(** DOFsManager.hpp 546-560 *)
Definition Create_Constant_DOFsInfo_1D (mesh : Mesh) (ci : ConstantDOFsInfo) : outcome MeshDOFsInfo :=
  i0 <- Create_Constant_DOFsInfo_dim 0 (Cell0Ds_number mesh) (Cell0D_marker mesh) ci empty_info ;;
  Create_Constant_DOFsInfo_dim 1 (Cell1Ds_number mesh) (Cell1D_marker mesh) ci i0.

(** DOFsManager.hpp 562-576 *)
Definition Create_Constant_DOFsInfo_2D (mesh : Mesh) (ci : ConstantDOFsInfo) : outcome MeshDOFsInfo :=
  i0 <- Create_Constant_DOFsInfo_dim 0 (Cell0Ds_number mesh) (Cell0D_marker mesh) ci empty_info ;;
  i1 <- Create_Constant_DOFsInfo_dim 1 (Cell1Ds_number mesh) (Cell1D_marker mesh) ci i0 ;;
  Create_Constant_DOFsInfo_dim 2 (Cell2Ds_number mesh) (Cell2D_marker mesh) ci i1.

(** DOFsManager.hpp 578-595 *)
Definition Create_Constant_DOFsInfo_3D (mesh : Mesh) (ci : ConstantDOFsInfo) : outcome MeshDOFsInfo :=
  i0 <- Create_Constant_DOFsInfo_dim 0 (Cell0Ds_number mesh) (Cell0D_marker mesh) ci empty_info ;;
  i1 <- Create_Constant_DOFsInfo_dim 1 (Cell1Ds_number mesh) (Cell1D_marker mesh) ci i0 ;;
  i2 <- Create_Constant_DOFsInfo_dim 2 (Cell2Ds_number mesh) (Cell2D_marker mesh) ci i1 ;;
  Create_Constant_DOFsInfo_dim 3 (Cell3Ds_number mesh) (Cell3D_marker mesh) ci i2.

(** DOFsManager.hpp 532-595: the four functions by the dimension of the mesh *)
Definition Create_Constant_DOFsInfo (k : nat) (mesh : Mesh) (ci : ConstantDOFsInfo) : outcome MeshDOFsInfo :=
  match k with
  | 0 => Create_Constant_DOFsInfo_0D mesh ci
  | 1 => Create_Constant_DOFsInfo_1D mesh ci
  | 2 => Create_Constant_DOFsInfo_2D mesh ci
  | 3 => Create_Constant_DOFsInfo_3D mesh ci
  | _ => Throw
  end.
