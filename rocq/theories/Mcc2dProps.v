(** Properties C116 to C121: the driver of the mixed problem on meshes: the assembled system, patch test, one solution, exact solution,
    conservation of mass, errors. *)
From Coq Require Import List Arith Bool Reals Lra Lia Permutation.
From Verif Require Import Base RSum MatrixModel DofsModel DofsSpec AssemblerModel AssemblerSpec EquationModel EquationSpec VemQuadModel VemQuadSpec GreenSpec GreenProofs VemModel VemSpec
  VemMccModel VemMccSpec GaussModel DriverModel DriverSpec DriverSpec2 Pcc2dSpec Mcc2dModel Mcc2dSpec Mcc2dProofs3 Mcc2dProofs7 Mcc2dProofs8 Mcc2dProofs9 DofsProps VemQuadProps VemProps Pcc2dProps VemMccProps.
Import ListNotations.
Local Open Scope R_scope.

(** C116: the assembled system: equation r at any vectors of free unknowns *)
Theorem C116_assembled : forall m info0 info1 d0 d1 create P E kk sv,
  CreateDOFs 2 info0 (md_mesh m) = Ok d0 -> Cell2Ds_number (md_mesh m) = num_cells info0 2 -> CreateDOFs 2 info1 (md_mesh m) = Ok d1 -> Cell2Ds_number (md_mesh m) = num_cells info1 2 ->
  (forall c, (c < Cell2Ds_number (md_mesh m))%nat -> mixed_forms create (Cell2D_edges (md_mesh m) c) (requested info0 1) c (length (closure_dofs info0 (md_mesh m) 2 c)) (length (closure_dofs info1 (md_mesh m) 2 c)) (E c)) ->
  (forall c, (c < Cell2Ds_number (md_mesh m))%nat -> greatest_inverse (E c) (mp_inverse_diffusion P) (kk c)) -> strong_agree m info0 E (mp_strong P) sv ->
  exists D gS, mixed_assemble m info0 d0 d1 create P = Ok D /\ md_solutionNeumann D = gS ++ repeat 0 (NumberStrongs d1) /\ length gS = NumberStrongs d0 /\
  length (md_rightHandSide D) = (NumberDOFs d0 + NumberDOFs d1)%nat /\
  (forall r j v, In (r, j, v) (md_globalMatrixA D) -> (r < NumberDOFs d0 + NumberDOFs d1)%nat /\ (j < NumberDOFs d0 + NumberDOFs d1)%nat) /\
  (forall c e i, (c < Cell2Ds_number (md_mesh m))%nat -> In e (Cell2D_edges (md_mesh m) c) -> strong_entity info0 1 e -> (i < requested info0 1 e)%nat ->
     value_of d0 [] gS (entity_dof 1 e i) = Some (sv e i)) /\
  forall vD pD, length vD = NumberDOFs d0 -> length pD = NumberDOFs d1 ->
  let u c := cell_value info0 (md_mesh m) d0 vD gS c in let r c := cell_value info1 (md_mesh m) d1 pD (repeat 0 (NumberStrongs d1)) c in
  (forall i, (i < NumberDOFs d0)%nat -> mixed_residual D (vD ++ pD) i =
     cells_sum (md_mesh m) (fun c => free_places info0 (md_mesh m) d0 c i (velocity_form (E c) P (kk c) (u c) (r c))) +
     cells_sum (md_mesh m) (fun c => boundary_form info0 (md_mesh m) d0 (E c) (mp_weak P) c i)) /\
  (forall i, (i < NumberDOFs d1)%nat -> mixed_residual D (vD ++ pD) (NumberDOFs d0 + i) =
     cells_sum (md_mesh m) (fun c => free_places info1 (md_mesh m) d1 c i (pressure_form (E c) P (u c) (r c)))).
Proof.
  exact mixed_assemble_ok.
Qed.

(** C116: the mixed virtual element on a mesh of polygons is such an element, whatever the coefficients *)
Theorem C116_forms : forall gt gs junk llt svd k ref refq m info0 info1 geometry ls d0 d1 P,
  mcc_mesh gt gs junk llt svd k ref refq m info0 info1 geometry ls -> CreateDOFs 2 info0 (md_mesh m) = Ok d0 -> CreateDOFs 2 info1 (md_mesh m) = Ok d1 ->
  exists E kk, (forall c, (c < Cell2Ds_number (md_mesh m))%nat -> mixed_forms (Create_MCC junk llt svd ref refq geometry) (Cell2D_edges (md_mesh m) c) (requested info0 1) c
     (length (closure_dofs info0 (md_mesh m) 2 c)) (length (closure_dofs info1 (md_mesh m) 2 c)) (E c)) /\
  (forall c, (c < Cell2Ds_number (md_mesh m))%nat -> greatest_inverse (E c) (mp_inverse_diffusion P) (kk c)) /\
  (strong_once info0 (md_mesh m) \/ (exists u0 u1, flux_data info0 (md_mesh m) geometry u0 u1 (mp_strong P)) -> exists sv, strong_agree m info0 E (mp_strong P) sv).
Proof.
  intros gt gs junk llt svd k ref refq m info0 info1 geometry ls d0 d1 P MM HC0 HC1. exists (forms_of junk ref refq geometry ls), (kk junk ref refq geometry ls P). split; [|split].
  - exact (HE gt gs junk llt svd k ref refq m info0 info1 geometry ls MM).
  - exact (Hk gt gs junk llt svd k ref refq m info0 info1 geometry ls MM P).
  - exact (strong_sv gt gs junk llt svd k ref refq m info0 info1 geometry ls MM P).
Qed.

(** C117: patch test of the mixed virtual element *)
Theorem C117_patch : forall gt gs junk llt svd k ref refq m info0 info1 geometry ls d0 d1 P,
  mcc_mesh gt gs junk llt svd k ref refq m info0 info1 geometry ls -> CreateDOFs 2 info0 (md_mesh m) = Ok d0 -> CreateDOFs 2 info1 (md_mesh m) = Ok d1 ->
  forall u0 u0x u0y u1 u1x u1y p px py, cells_free info0 (md_mesh m) -> cells_free info1 (md_mesh m) -> mixed_closed info0 (md_mesh m) geometry ->
  poly2 k u0 u0x u0y -> poly2 k u1 u1x u1y -> poly2 k p px py -> solves_mixed P u0 u0x u0y u1 u1x u1y p px py ->
  pressure_data info0 (md_mesh m) geometry p (mp_weak P) -> flux_data info0 (md_mesh m) geometry u0 u1 (mp_strong P) ->
  exists D x, mixed_assemble m info0 d0 d1 (Create_MCC junk llt svd ref refq geometry) P = Ok D /\ length x = (NumberDOFs d0 + NumberDOFs d1)%nat /\
  (forall r, (r < NumberDOFs d0 + NumberDOFs d1)%nat -> mixed_residual D x r = 0) /\
  (forall c gx gy j, (c < Cell2Ds_number (md_mesh m))%nat -> mcc_gradients ref (ls c) gx gy -> (j < lm_NumBasisFunctions (ls c))%nat ->
     cell_velocity info0 (md_mesh m) d0 D x c j = mcc_dof ref (ls c) (geometry c) gx gy u0 u1 j) /\
  (forall c a b, (c < Cell2Ds_number (md_mesh m))%nat -> mcc_polynomial ref (ls c) (lm_Nk (ls c)) (cell_pressure info1 (md_mesh m) d0 d1 D x c) a b = p a b).
Proof.
  intros gt gs junk llt svd k ref refq m info0 info1 geometry ls d0 d1 P MM HC0 HC1 u0 u0x u0y u1 u1x u1y p px py F0 F1 CL U0 U1 PP SM PD FD.
  destruct (mcc_patch gt gs junk llt svd k ref refq m info0 info1 geometry ls MM d0 d1 P HC0 HC1 u0 u0x u0y u1 u1x u1y p px py F0 F1 CL U0 U1 PP SM PD FD) as (D & x & A & L & Z & V & W).
  exists D, x. repeat (split; [assumption|]). split; [|exact W]. intros c gx gy j Hc G Hj. rewrite V by auto. apply (dofs_of gt gs junk llt svd k ref refq m info0 info1 geometry ls MM c gx gy u0 u1 j Hc G Hj).
Qed.

(** C118: the assembled system has one solution for every right-hand side *)
Theorem C118_solvable : forall gt gs junk llt svd k ref refq m info0 info1 geometry ls d0 d1 P,
  mcc_mesh gt gs junk llt svd k ref refq m info0 info1 geometry ls -> CreateDOFs 2 info0 (md_mesh m) = Ok d0 -> CreateDOFs 2 info1 (md_mesh m) = Ok d1 ->
  (strong_once info0 (md_mesh m) \/ (exists u0 u1, flux_data info0 (md_mesh m) geometry u0 u1 (mp_strong P))) ->
  elliptic (mp_inverse_diffusion P) -> (forall x y z i, mp_advection P x y z i = 0) -> (forall x y z, 0 <= mp_reaction P x y z) ->
  covered info0 (md_mesh m) -> covered info1 (md_mesh m) -> cells_free info0 (md_mesh m) -> (forall c, (c < Cell2Ds_number (md_mesh m))%nat -> drained info0 (md_mesh m) geometry c) ->
  exists D, mixed_assemble m info0 d0 d1 (Create_MCC junk llt svd ref refq geometry) P = Ok D /\
  forall b, exists x, length x = (NumberDOFs d0 + NumberDOFs d1)%nat /\ (forall r, (r < NumberDOFs d0 + NumberDOFs d1)%nat -> mixed_row D x r = b r) /\
    (forall y, length y = (NumberDOFs d0 + NumberDOFs d1)%nat -> (forall r, (r < NumberDOFs d0 + NumberDOFs d1)%nat -> mixed_row D y r = b r) -> y = x).
Proof.
  intros gt gs junk llt svd k ref refq m info0 info1 geometry ls d0 d1 P MM HC0 HC1. exact (mcc_solvable gt gs junk llt svd k ref refq m info0 info1 geometry ls MM d0 d1 P HC0 HC1).
Qed.

(** C119: the solution computed when the exact one is polynomial, and the errors reported for it *)
Theorem C119_exact : forall gt gs junk llt svd k ref refq m info0 info1 geometry ls d0 d1 P,
  mcc_mesh gt gs junk llt svd k ref refq m info0 info1 geometry ls -> CreateDOFs 2 info0 (md_mesh m) = Ok d0 -> CreateDOFs 2 info1 (md_mesh m) = Ok d1 ->
  forall u0 u0x u0y u1 u1x u1y p px py, cells_free info0 (md_mesh m) -> cells_free info1 (md_mesh m) -> mixed_closed info0 (md_mesh m) geometry ->
  poly2 k u0 u0x u0y -> poly2 k u1 u1x u1y -> poly2 k p px py -> solves_mixed P u0 u0x u0y u1 u1x u1y p px py ->
  pressure_data info0 (md_mesh m) geometry p (mp_weak P) -> flux_data info0 (md_mesh m) geometry u0 u1 (mp_strong P) ->
  elliptic (mp_inverse_diffusion P) -> (forall x y z i, mp_advection P x y z i = 0) -> (forall x y z, 0 <= mp_reaction P x y z) ->
  covered info0 (md_mesh m) -> covered info1 (md_mesh m) -> cells_free info0 (md_mesh m) -> (forall c, (c < Cell2Ds_number (md_mesh m))%nat -> drained info0 (md_mesh m) geometry c) ->
  exists D, mixed_assemble m info0 d0 d1 (Create_MCC junk llt svd ref refq geometry) P = Ok D /\
  forall x, length x = (NumberDOFs d0 + NumberDOFs d1)%nat -> (forall r, (r < NumberDOFs d0 + NumberDOFs d1)%nat -> mixed_residual D x r = 0) ->
  (forall c gx gy j, (c < Cell2Ds_number (md_mesh m))%nat -> mcc_gradients ref (ls c) gx gy -> (j < lm_NumBasisFunctions (ls c))%nat ->
     cell_velocity info0 (md_mesh m) d0 D x c j = mcc_dof ref (ls c) (geometry c) gx gy u0 u1 j) /\
  (forall c a b, (c < Cell2Ds_number (md_mesh m))%nat -> mcc_polynomial ref (ls c) (lm_Nk (ls c)) (cell_pressure info1 (md_mesh m) d0 d1 D x c) a b = p a b) /\
  (forall llt' diameters exact_p exact_v, exact_for positive_definite llt' -> length diameters = Cell2Ds_number (md_mesh m) ->
    (forall a b z, exact_p a b z = p a b) -> (forall a b z, exact_v a b z 0%nat = u0 a b /\ exact_v a b z 1%nat = u1 a b) ->
    exists e, mixed_errors m d0 d1 (Create_MCC junk llt svd ref refq geometry) llt' diameters exact_p exact_v D x = Ok e /\
      me_residual_norm e = 0 /\ me_error_pressure e = 0 /\ me_super_error_pressure e = 0 /\ me_error_velocity e = 0).
Proof.
  intros gt gs junk llt svd k ref refq m info0 info1 geometry ls d0 d1 P MM HC0 HC1 u0 u0x u0y u1 u1x u1y p px py F0 F1 CL U0 U1 PP SM PD FD EL AD RE O0 O1 _ DR.
  destruct (mcc_exact gt gs junk llt svd k ref refq m info0 info1 geometry ls MM d0 d1 P HC0 HC1 u0 u0x u0y u1 u1x u1y p px py F0 F1 CL U0 U1 PP SM PD FD EL AD RE O0 O1 DR) as (D & A & H).
  exists D. split; [exact A|]. intros x L Z. destruct (H x L Z) as (V & W & ER). split; [|split; [exact W|exact ER]].
  intros c gx gy j Hc G Hj. rewrite V by auto. apply (dofs_of gt gs junk llt svd k ref refq m info0 info1 geometry ls MM c gx gy u0 u1 j Hc G Hj).
Qed.

(** C120: on every cell what flows out and what reacts is what the source gives *)
Theorem C120_cells : forall gt gs junk llt svd k ref refq m info0 info1 geometry ls d0 d1 P,
  mcc_mesh gt gs junk llt svd k ref refq m info0 info1 geometry ls -> CreateDOFs 2 info0 (md_mesh m) = Ok d0 -> CreateDOFs 2 info1 (md_mesh m) = Ok d1 ->
  (strong_once info0 (md_mesh m) \/ (exists u0 u1, flux_data info0 (md_mesh m) geometry u0 u1 (mp_strong P))) -> cells_free info1 (md_mesh m) -> forall D x,
  mixed_assemble m info0 d0 d1 (Create_MCC junk llt svd ref refq geometry) P = Ok D -> length x = (NumberDOFs d0 + NumberDOFs d1)%nat -> (forall r, (r < NumberDOFs d0 + NumberDOFs d1)%nat -> mixed_residual D x r = 0) ->
  forall c, (c < Cell2Ds_number (md_mesh m))%nat ->
  rsum (m_cols (pg_Vertices (geometry c))) (fun i => mcc_edge_outflow ref (ls c) (geometry c) i (cell_velocity info0 (md_mesh m) d0 D x c)) +
    mcc_reacted ref (ls c) (mp_reaction P) (cell_pressure info1 (md_mesh m) d0 d1 D x c) = mcc_total (ls c) (mp_source P).
Proof.
  intros gt gs junk llt svd k ref refq m info0 info1 geometry ls d0 d1 P MM HC0 HC1 SO CF D x A L Z.
  destruct (mcc_conserves gt gs junk llt svd k ref refq m info0 info1 geometry ls MM d0 d1 P HC0 HC1 SO CF) as (D' & A' & H). rewrite A in A'. injection A' as <-. apply (H x L Z).
Qed.

(** C120: what leaves a cell through an edge enters the cell on the other side *)
Theorem C120_neighbours : forall gt gs junk llt svd k ref refq m info0 info1 geometry ls d0 d1 P,
  mcc_mesh gt gs junk llt svd k ref refq m info0 info1 geometry ls -> CreateDOFs 2 info0 (md_mesh m) = Ok d0 -> CreateDOFs 2 info1 (md_mesh m) = Ok d1 ->
  (strong_once info0 (md_mesh m) \/ (exists u0 u1, flux_data info0 (md_mesh m) geometry u0 u1 (mp_strong P))) -> cells_free info1 (md_mesh m) -> forall D x,
  mixed_assemble m info0 d0 d1 (Create_MCC junk llt svd ref refq geometry) P = Ok D -> length x = (NumberDOFs d0 + NumberDOFs d1)%nat -> (forall r, (r < NumberDOFs d0 + NumberDOFs d1)%nat -> mixed_residual D x r = 0) ->
  forall c i c' i', In (c, i) (incidences (md_mesh m)) -> In (c', i') (incidences (md_mesh m)) -> edge_of (md_mesh m) (c, i) = edge_of (md_mesh m) (c', i') ->
  direction_of geometry (c, i) = negb (direction_of geometry (c', i')) ->
  mcc_edge_outflow ref (ls c) (geometry c) i (cell_velocity info0 (md_mesh m) d0 D x c) = - mcc_edge_outflow ref (ls c') (geometry c') i' (cell_velocity info0 (md_mesh m) d0 D x c').
Proof.
  intros gt gs junk llt svd k ref refq m info0 info1 geometry ls d0 d1 P MM HC0 HC1 SO CF D x A L Z.
  destruct (mcc_conserves gt gs junk llt svd k ref refq m info0 info1 geometry ls MM d0 d1 P HC0 HC1 SO CF) as (D' & A' & H). rewrite A in A'. injection A' as <-. apply (H x L Z).
Qed.

(** C120: over the mesh what flows out through the boundary is what the source gives less what reacts *)
Theorem C120_total : forall gt gs junk llt svd k ref refq m info0 info1 geometry ls d0 d1 P,
  mcc_mesh gt gs junk llt svd k ref refq m info0 info1 geometry ls -> CreateDOFs 2 info0 (md_mesh m) = Ok d0 -> CreateDOFs 2 info1 (md_mesh m) = Ok d1 ->
  (strong_once info0 (md_mesh m) \/ (exists u0 u1, flux_data info0 (md_mesh m) geometry u0 u1 (mp_strong P))) -> cells_free info1 (md_mesh m) -> forall D x,
  mixed_assemble m info0 d0 d1 (Create_MCC junk llt svd ref refq geometry) P = Ok D -> length x = (NumberDOFs d0 + NumberDOFs d1)%nat -> (forall r, (r < NumberDOFs d0 + NumberDOFs d1)%nat -> mixed_residual D x r = 0) ->
  cells_sum (md_mesh m) (fun c => mcc_total (ls c) (mp_source P) - mcc_reacted ref (ls c) (mp_reaction P) (cell_pressure info1 (md_mesh m) d0 d1 D x c)) =
  lsum (fun ci => if (uses (md_mesh m) geometry (edge_of (md_mesh m) ci) true =? uses (md_mesh m) geometry (edge_of (md_mesh m) ci) false)%nat then 0
                  else mcc_edge_outflow ref (ls (fst ci)) (geometry (fst ci)) (snd ci) (cell_velocity info0 (md_mesh m) d0 D x (fst ci))) (incidences (md_mesh m)).
Proof.
  intros gt gs junk llt svd k ref refq m info0 info1 geometry ls d0 d1 P MM HC0 HC1 SO CF D x A L Z.
  destruct (mcc_conserves gt gs junk llt svd k ref refq m info0 info1 geometry ls MM d0 d1 P HC0 HC1 SO CF) as (D' & A' & H). rewrite A in A'. injection A' as <-. apply (H x L Z).
Qed.

(** C120: without reaction the divergence of the computed velocity is the source, if this is a polynomial of degree k *)
Theorem C120_divergence : forall gt gs junk llt svd k ref refq m info0 info1 geometry ls d0 d1 P,
  mcc_mesh gt gs junk llt svd k ref refq m info0 info1 geometry ls -> CreateDOFs 2 info0 (md_mesh m) = Ok d0 -> CreateDOFs 2 info1 (md_mesh m) = Ok d1 ->
  (strong_once info0 (md_mesh m) \/ (exists u0 u1, flux_data info0 (md_mesh m) geometry u0 u1 (mp_strong P))) -> cells_free info1 (md_mesh m) -> forall D x,
  mixed_assemble m info0 d0 d1 (Create_MCC junk llt svd ref refq geometry) P = Ok D -> length x = (NumberDOFs d0 + NumberDOFs d1)%nat -> (forall r, (r < NumberDOFs d0 + NumberDOFs d1)%nat -> mixed_residual D x r = 0) ->
  forall f fx fy, (forall a b z, mp_reaction P a b z = 0) -> poly2 k f fx fy -> (forall a b z, mp_source P a b z = f a b) ->
  forall c, (c < Cell2Ds_number (md_mesh m))%nat -> exists V, MCC_DivergenceValues (ls c) = Ok V /\
  forall q, (q < m_cols (mcc_points (ls c)))%nat -> combine V (cell_velocity info0 (md_mesh m) d0 D x c) q = f (m_at (mcc_points (ls c)) 0 q) (m_at (mcc_points (ls c)) 1 q).
Proof.
  intros gt gs junk llt svd k ref refq m info0 info1 geometry ls d0 d1 P MM HC0 HC1 SO CF D x A L Z.
  destruct (mcc_conserves gt gs junk llt svd k ref refq m info0 info1 geometry ls MM d0 d1 P HC0 HC1 SO CF) as (D' & A' & H). rewrite A in A'. injection A' as <-. apply (H x L Z).
Qed.

(** C121: the numbers reported for any vector of unknowns *)
Theorem C121_errors : forall m info0 info1 d0 d1 create E,
  CreateDOFs 2 info0 (md_mesh m) = Ok d0 -> Cell2Ds_number (md_mesh m) = num_cells info0 2 -> CreateDOFs 2 info1 (md_mesh m) = Ok d1 -> Cell2Ds_number (md_mesh m) = num_cells info1 2 ->
  (forall c, (c < Cell2Ds_number (md_mesh m))%nat -> mixed_forms create (Cell2D_edges (md_mesh m) c) (requested info0 1) c (length (closure_dofs info0 (md_mesh m) 2 c)) (length (closure_dofs info1 (md_mesh m) 2 c)) (E c)) ->
  forall llt diameters exact_p exact_v D x, length x = (NumberDOFs d0 + NumberDOFs d1)%nat -> length (md_solutionNeumann D) = (NumberStrongs d0 + NumberStrongs d1)%nat ->
  length diameters = Cell2Ds_number (md_mesh m) ->
  (forall r j v, In (r, j, v) (md_globalMatrixA D) -> (r < NumberDOFs d0 + NumberDOFs d1)%nat /\ (j < NumberDOFs d0 + NumberDOFs d1)%nat) ->
  exists e, mixed_errors m d0 d1 create llt diameters exact_p exact_v D x = Ok e /\ mixed_numbers m info0 info1 d0 d1 E llt diameters exact_p exact_v D x e.
Proof.
  exact mixed_errors_ok.
Qed.

Print Assumptions C116_assembled.
Print Assumptions C116_forms.
Print Assumptions C117_patch.
Print Assumptions C118_solvable.
Print Assumptions C119_exact.
Print Assumptions C120_cells.
Print Assumptions C120_neighbours.
Print Assumptions C120_total.
Print Assumptions C120_divergence.
Print Assumptions C121_errors.

(** ** Examples: the two unit squares of Pcc2dProps, order 1; the flux is given on the left side, the pressure on the other three *)
Definition mx_const (n1 n2 : nat) : ConstantDOFsInfo := {| NumDOFs := fun d => match d with 1%nat => n1 | 2%nat => n2 | _ => 0%nat end; BoundaryMap := BoundaryMap sq_const |}.
Definition mx_none : ConstantDOFsInfo := {| NumDOFs := fun d => match d with 2%nat => 3%nat | _ => 0%nat end; BoundaryMap := fun _ => Some {| bi_type := BNone; bi_marker := 0 |} |}.
Definition mx_info0 : MeshDOFsInfo := match Create_Constant_DOFsInfo 2 sq_mesh (mx_const 2 3) with Ok i => i | _ => empty_info end.
Definition mx_info1 : MeshDOFsInfo := match Create_Constant_DOFsInfo 2 sq_mesh mx_none with Ok i => i | _ => empty_info end.
Definition mx_d0 : DOFsData := match CreateDOFs 2 mx_info0 sq_mesh with Ok d => d | _ => empty_dofs end.
Definition mx_d1 : DOFsData := match CreateDOFs 2 mx_info1 sq_mesh with Ok d => d | _ => empty_dofs end.
Example mx_created0 : CreateDOFs 2 mx_info0 sq_mesh = Ok mx_d0.
Proof. apply is_Ok_eq. vm_compute. reflexivity. Qed.
Example mx_created1 : CreateDOFs 2 mx_info1 sq_mesh = Ok mx_d1.
Proof. apply is_Ok_eq. vm_compute. reflexivity. Qed.
(** 12 free unknowns on the edges and 6 in the cells, 2 Strong ones; 6 unknowns of the pressure *)
Example mx_numbers : NumberDOFs mx_d0 = 18%nat /\ NumberStrongs mx_d0 = 2%nat /\ NumberDOFs mx_d1 = 6%nat /\ NumberStrongs mx_d1 = 0%nat.
Proof. vm_compute. auto. Qed.
Example mx_mesh : forall junk, exists llt svd ref refq ls, mcc_mesh (fun _ => collapsed_rule) (fun _ => gauss2_rule) junk llt svd 1 ref refq sq_m mx_info0 mx_info1 sq_geometry ls.
Proof.
  intros junk. destruct (mcc_spaces_exist _ _ junk 1 sq_geometry 2 (3/2) mixed_good ltac:(lia)) as (llt & svd & ref & refq & ls & MS & RQ). { intros c _. split; [apply sq_good|reflexivity]. }
  exists llt, svd, ref, refq, ls. constructor.
  - exact MS.
  - exact RQ.
  - reflexivity.
  - reflexivity.
  - intros c Hc. cbn in Hc. split; [destruct c as [|[|c]]; [reflexivity|reflexivity|lia]|]. split; [|split].
    + intros i d Hi Hd. cbn in Hi. destruct c as [|[|c]]; [| |lia]; four i; (destruct d as [|[|[|d]]]; [| | |lia]); cbn; lra.
    + intros i d Hi Hd. cbn in Hi. four i; (destruct d as [|[|[|d]]]; [| | |lia]); cbn; lra.
    + intros i Hi. cbn in Hi. destruct c as [|[|c]]; [| |lia]; four i; split; reflexivity.
  - intros c Hc. cbn in Hc. destruct c as [|[|c]]; [reflexivity|reflexivity|lia].
  - intros c _. cbn. lra.
  - intros c i Hc Hi. cbn in Hi. four i; cbn; split; lra.
  - intros c v Hc Hv. cbn in Hc. destruct c as [|[|c]]; [| |lia]; cbn in Hv; repeat (destruct Hv as [<-|Hv]; [reflexivity|]); destruct Hv.
  - intros c v Hc Hv. cbn in Hc. destruct c as [|[|c]]; [| |lia]; cbn in Hv; repeat (destruct Hv as [<-|Hv]; [reflexivity|]); destruct Hv.
  - intros c Hc. cbn in Hc. destruct c as [|[|c]]; [reflexivity|reflexivity|lia].
  - intros c v Hc Hv. cbn in Hc. destruct c as [|[|c]]; [| |lia]; cbn in Hv; repeat (destruct Hv as [<-|Hv]; [reflexivity|]); destruct Hv.
  - intros c v Hc Hv. cbn in Hc. destruct c as [|[|c]]; [| |lia]; cbn in Hv; repeat (destruct Hv as [<-|Hv]; [reflexivity|]); destruct Hv.
  - intros c Hc. cbn in Hc. destruct c as [|[|c]]; [reflexivity|reflexivity|lia].
Qed.

(** the pressure x + 2 y; the inverse of the diffusion (2 1; 1 3), so that the velocity is (-1/5, -3/5); no advection, reaction 1, source x + 2 y *)
Definition mx_p (x y : R) : R := x + 2 * y.
Definition mx_P : MixedProblem := {| mp_inverse_diffusion := sq_K; mp_advection := fun _ _ _ _ => 0; mp_reaction := fun _ _ _ => 1; mp_source := fun x y _ => mx_p x y;
  mp_strong := fun marker _ _ _ => match marker with 1%nat => 1/5 | _ => 0 end; mp_weak := fun _ x y _ => mx_p x y |}.
Example mx_poly : poly2 1 mx_p (fun _ _ => 1) (fun _ _ => 2).
Proof. eapply poly2_ext; [apply (poly2_affine 1 0 1 2); lia| | |]; intros; unfold mx_p; ring. Qed.
Example mx_solves : solves_mixed mx_P (fun _ _ => -1/5) (fun _ _ => 0) (fun _ _ => 0) (fun _ _ => -3/5) (fun _ _ => 0) (fun _ _ => 0) mx_p (fun _ _ => 1) (fun _ _ => 2).
Proof. constructor; intros; cbn; unfold mx_p; lra. Qed.
Example mx_closed : mixed_closed mx_info0 (md_mesh sq_m) sq_geometry.
Proof.
  intros ci H. cbn in H. repeat (destruct H as [<-|H]; [cbn; intros W; try discriminate; first [left; reflexivity|right; reflexivity]|]). destruct H.
Qed.
Example mx_pressure : pressure_data mx_info0 (md_mesh sq_m) sq_geometry mx_p (mp_weak mx_P).
Proof. intros c i t _ _. reflexivity. Qed.
Example mx_flux : flux_data mx_info0 (md_mesh sq_m) sq_geometry (fun _ _ => -1/5) (fun _ _ => -3/5) (mp_strong mx_P).
Proof.
  intros c i t H. cbn in H. repeat (destruct H as [E|H]; [injection E as <- <-; cbn -[Rplus Rmult]; intros W; try discriminate W; unfold at_point; cbn; lra|]). destruct H.
Qed.
Example mx_free0 : cells_free mx_info0 (md_mesh sq_m).
Proof. intros c Hc H. cbn in Hc. destruct c as [|[|c]]; [discriminate H|discriminate H|lia]. Qed.
Example mx_free1 : cells_free mx_info1 (md_mesh sq_m).
Proof. intros c Hc H. cbn in Hc. destruct c as [|[|c]]; [discriminate H|discriminate H|lia]. Qed.
Example mx_once : strong_once mx_info0 (md_mesh sq_m).
Proof.
  intros ci ci' H H' S. cbn in H. repeat (destruct H as [<-|H]; [try discriminate S; cbn in H'; repeat (destruct H' as [<-|H']; [cbn; first [intros; reflexivity|discriminate]|]); destruct H'|]). destruct H.
Qed.
Example mx_covered info : num_cells info 0 = 6%nat -> num_cells info 1 = 7%nat -> covered info (md_mesh sq_m).
Proof.
  intros N0 N1. split; intros e He _; [rewrite N0 in He|rewrite N1 in He].
  - do 6 (destruct e as [|e]; [first [exists 0%nat; split; [cbn; lia|cbn; tauto]|exists 1%nat; split; [cbn; lia|cbn; tauto]]|]). lia.
  - do 7 (destruct e as [|e]; [first [exists 0%nat; split; [cbn; lia|cbn; tauto]|exists 1%nat; split; [cbn; lia|cbn; tauto]]|]). lia.
Qed.
Example mx_drained : forall c, (c < Cell2Ds_number (md_mesh sq_m))%nat -> drained mx_info0 (md_mesh sq_m) sq_geometry c.
Proof.
  intros c Hc. cbn in Hc. assert (A : drained mx_info0 (md_mesh sq_m) sq_geometry 0).
  { apply (drained_boundary _ _ _ 0 0); [cbn; auto|intros H; discriminate H|]. intros ci H. cbn in H. repeat (destruct H as [<-|H]; [cbn; first [intros; reflexivity|discriminate]|]). destruct H. }
  destruct c as [|[|c]]; [exact A| |lia]. apply (drained_next _ _ _ 0 1 1 3); [exact A|cbn; tauto|cbn; tauto|discriminate|reflexivity|intros H; discriminate H|reflexivity|].
  intros ci H. cbn in H. repeat (destruct H as [<-|H]; [cbn; first [discriminate|intros; left; reflexivity|intros; right; reflexivity]|]). destruct H.
Qed.

(** the hypotheses of C116 are met by this mesh *)
Example C116_case : forall junk, exists llt svd ref refq D gS, mixed_assemble sq_m mx_info0 mx_d0 mx_d1 (Create_MCC junk llt svd ref refq sq_geometry) mx_P = Ok D /\ md_solutionNeumann D = gS /\ length gS = 2%nat /\ length (md_rightHandSide D) = 24%nat.
Proof.
  intros junk. destruct (mx_mesh junk) as (llt & svd & ref & refq & ls & MM).
  destruct (C116_forms _ _ _ _ _ _ _ _ _ _ _ _ _ mx_d0 mx_d1 mx_P MM mx_created0 mx_created1) as (E & kk & F & K & SA). destruct (SA (or_introl mx_once)) as (sv & HS).
  destruct (C116_assembled sq_m mx_info0 mx_info1 mx_d0 mx_d1 _ mx_P E kk sv mx_created0 eq_refl mx_created1 eq_refl F K HS) as (D & gS & A1 & A2 & A3 & A4 & _).
  exists llt, svd, ref, refq, D, gS. split; [exact A1|]. destruct mx_numbers as (a & b & c & d). rewrite a, c in A4. rewrite b in A3. rewrite d, app_nil_r in A2. auto.
Qed.
(** C117: unknowns of which the assembled equations hold and with which the pressure at (3/2, 1/2) is 5/2 *)
Example C117_case : forall junk, exists llt svd ref refq D x l r, mixed_assemble sq_m mx_info0 mx_d0 mx_d1 (Create_MCC junk llt svd ref refq sq_geometry) mx_P = Ok D /\ length x = 24%nat /\ (forall i, (i < 24)%nat -> mixed_residual D x i = 0) /\
  mcc_polynomial ref l (lm_Nk l) r (3/2) (1/2) = 5/2.
Proof.
  intros junk. destruct (mx_mesh junk) as (llt & svd & ref & refq & ls & MM).
  destruct (C117_patch _ _ _ _ _ _ _ _ _ _ _ _ _ mx_d0 mx_d1 mx_P MM mx_created0 mx_created1 _ _ _ _ _ _ _ _ _ mx_free0 mx_free1 mx_closed (poly2_const 1 (-1/5)) (poly2_const 1 (-3/5)) mx_poly mx_solves mx_pressure mx_flux)
    as (D & x & A & L & Z & _ & W).
  destruct mx_numbers as (a & _ & c & _). rewrite a, c in L, Z. exists llt, svd, ref, refq, D, x, (ls 1%nat), (cell_pressure mx_info1 sq_mesh mx_d0 mx_d1 D x 1). split; [exact A|]. split; [exact L|]. split; [exact Z|].
  rewrite W by (cbn; lia). unfold mx_p. lra.
Qed.
(** C118: one vector of 24 unknowns for any right-hand side *)
Example C118_case : forall junk, exists llt svd ref refq D, mixed_assemble sq_m mx_info0 mx_d0 mx_d1 (Create_MCC junk llt svd ref refq sq_geometry) mx_P = Ok D /\
  forall b, exists x, length x = 24%nat /\ (forall r, (r < 24)%nat -> mixed_row D x r = b r) /\ (forall y, length y = 24%nat -> (forall r, (r < 24)%nat -> mixed_row D y r = b r) -> y = x).
Proof.
  intros junk. destruct (mx_mesh junk) as (llt & svd & ref & refq & ls & MM).
  destruct (C118_solvable _ _ _ _ _ _ _ _ _ _ _ _ _ mx_d0 mx_d1 mx_P MM mx_created0 mx_created1 (or_introl mx_once) sq_elliptic (fun _ _ _ _ => eq_refl) (fun _ _ _ => Rle_0_1)
    (mx_covered mx_info0 eq_refl eq_refl) (mx_covered mx_info1 eq_refl eq_refl) mx_free0 mx_drained) as (D & A & H).
  destruct mx_numbers as (a & _ & c & _). rewrite a, c in H. exists llt, svd, ref, refq, D. split; [exact A|exact H].
Qed.
(** C119 and C120 on the same problem: the errors of the solution are 0 and the flux through the edge between the squares is the same from both sides *)
Example C119_case : forall junk, exists llt svd ref refq D, mixed_assemble sq_m mx_info0 mx_d0 mx_d1 (Create_MCC junk llt svd ref refq sq_geometry) mx_P = Ok D /\ (exists x, length x = 24%nat /\ forall r, (r < 24)%nat -> mixed_residual D x r = 0) /\
  forall x, length x = 24%nat -> (forall r, (r < 24)%nat -> mixed_residual D x r = 0) ->
  exists e, mixed_errors sq_m mx_d0 mx_d1 (Create_MCC junk llt svd ref refq sq_geometry) gauss_solver [3/2; 3/2] (fun a b _ => mx_p a b) (fun _ _ _ d => match d with 0%nat => -1/5 | _ => -3/5 end) D x = Ok e /\ me_error_pressure e = 0 /\ me_error_velocity e = 0.
Proof.
  intros junk. destruct (mx_mesh junk) as (llt & svd & ref & refq & ls & MM).
  destruct (C119_exact _ _ _ _ _ _ _ _ _ _ _ _ _ mx_d0 mx_d1 mx_P MM mx_created0 mx_created1 _ _ _ _ _ _ _ _ _ mx_free0 mx_free1 mx_closed (poly2_const 1 (-1/5)) (poly2_const 1 (-3/5)) mx_poly mx_solves mx_pressure mx_flux
    sq_elliptic (fun _ _ _ _ => eq_refl) (fun _ _ _ => Rle_0_1) (mx_covered mx_info0 eq_refl eq_refl) (mx_covered mx_info1 eq_refl eq_refl) mx_free0 mx_drained) as (D & A & H).
  destruct (C117_patch _ _ _ _ _ _ _ _ _ _ _ _ _ mx_d0 mx_d1 mx_P MM mx_created0 mx_created1 _ _ _ _ _ _ _ _ _ mx_free0 mx_free1 mx_closed (poly2_const 1 (-1/5)) (poly2_const 1 (-3/5)) mx_poly mx_solves mx_pressure mx_flux)
    as (D' & x & A' & L & Z & _). rewrite A in A'. injection A' as <-.
  destruct mx_numbers as (a & _ & c & _). rewrite a, c in H, L, Z. exists llt, svd, ref, refq, D. split; [exact A|]. split; [exists x; auto|].
  intros y Ly Zy. destruct (H y Ly Zy) as (_ & _ & HE). destruct (HE gauss_solver [3/2; 3/2] (fun a b _ => mx_p a b) (fun _ _ _ d => match d with 0%nat => -1/5 | _ => -3/5 end) gauss_positive eq_refl ltac:(reflexivity)) as (e & E1 & _ & E2 & _ & E3).
  { intros; split; reflexivity. } exists e. auto.
Qed.
Example C120_case : forall junk, exists llt svd ref refq D x l l' u u', mixed_assemble sq_m mx_info0 mx_d0 mx_d1 (Create_MCC junk llt svd ref refq sq_geometry) mx_P = Ok D /\ length x = 24%nat /\ (forall r, (r < 24)%nat -> mixed_residual D x r = 0) /\
  u = cell_velocity mx_info0 sq_mesh mx_d0 D x 0 /\ u' = cell_velocity mx_info0 sq_mesh mx_d0 D x 1 /\
  mcc_edge_outflow ref l (sq_geometry 0) 1 u = - mcc_edge_outflow ref l' (sq_geometry 1) 3 u'.
Proof.
  intros junk. destruct (mx_mesh junk) as (llt & svd & ref & refq & ls & MM).
  destruct (C117_patch _ _ _ _ _ _ _ _ _ _ _ _ _ mx_d0 mx_d1 mx_P MM mx_created0 mx_created1 _ _ _ _ _ _ _ _ _ mx_free0 mx_free1 mx_closed (poly2_const 1 (-1/5)) (poly2_const 1 (-3/5)) mx_poly mx_solves mx_pressure mx_flux)
    as (D & x & A & L & Z & _).
  pose proof (C120_neighbours _ _ _ _ _ _ _ _ _ _ _ _ _ mx_d0 mx_d1 mx_P MM mx_created0 mx_created1 (or_introl mx_once) mx_free1 D x A L Z 0%nat 1%nat 1%nat 3%nat ltac:(cbn; tauto) ltac:(cbn; tauto) eq_refl eq_refl) as H.
  destruct mx_numbers as (a & _ & c & _). rewrite a, c in L, Z. exists llt, svd, ref, refq, D, x, (ls 0%nat), (ls 1%nat). eexists _, _. repeat (split; [first [exact A|exact L|exact Z|reflexivity]|]). exact H.
Qed.
(** C121: any vector of 24 unknowns *)
Example C121_case : forall junk, exists llt svd ref refq D, mixed_assemble sq_m mx_info0 mx_d0 mx_d1 (Create_MCC junk llt svd ref refq sq_geometry) mx_P = Ok D /\
  forall x, length x = 24%nat -> exists e, mixed_errors sq_m mx_d0 mx_d1 (Create_MCC junk llt svd ref refq sq_geometry) gauss_solver [3/2; 3/2] (fun a b _ => mx_p a b) (fun _ _ _ _ => 0) D x = Ok e /\ me_mesh_size e = 3/2.
Proof.
  intros junk. destruct (mx_mesh junk) as (llt & svd & ref & refq & ls & MM).
  destruct (C116_forms _ _ _ _ _ _ _ _ _ _ _ _ _ mx_d0 mx_d1 mx_P MM mx_created0 mx_created1) as (E & kk & F & K & SA). destruct (SA (or_introl mx_once)) as (sv & HS).
  destruct (C116_assembled sq_m mx_info0 mx_info1 mx_d0 mx_d1 _ mx_P E kk sv mx_created0 eq_refl mx_created1 eq_refl F K HS) as (D & gS & A1 & A2 & A3 & _ & A5 & _).
  exists llt, svd, ref, refq, D. split; [exact A1|]. intros x L. destruct mx_numbers as (a & b & c & d).
  destruct (C121_errors sq_m mx_info0 mx_info1 mx_d0 mx_d1 _ E mx_created0 eq_refl mx_created1 eq_refl F gauss_solver [3/2; 3/2] (fun a b _ => mx_p a b) (fun _ _ _ _ => 0) D x) as (e & Ee & NE).
  - rewrite a, c. exact L.
  - rewrite A2, app_length, repeat_length, A3. reflexivity.
  - reflexivity.
  - exact A5.
  - exists e. split; [exact Ee|]. destruct (en_size _ _ _ _ _ _ _ _ _ _ _ _ _ NE) as (S1 & S2). specialize (S1 0%nat ltac:(cbn; lia)). cbn in S1.
    destruct S2 as [S2|(i & Hi & S2)]; [lra|]. cbn in Hi. destruct i as [|[|i]]; [exact S2|exact S2|lia].
Qed.
