(** The properties C147, C148 and C149. *)
From Coq Require Import List Arith Bool Reals Lia Lra.
From Verif Require Import Base RSum MatrixModel DofsModel DofsSpec AssemblerModel AssemblerSpec VemQuadModel VemQuadSpec VemModel VemSpec GaussModel
  DriverModel DriverSpec DriverSpec2 Pcc2dModel Pcc2dSpec VemProps Pcc2dProofs3 Pcc2dProps Mcc2dSpec EquationModel GreenSpec ElasticModel ElasticSpec ElasticGlobalModel ElasticGlobalSpec ElasticGlobalProofs2 ElasticGlobalProps
  ElasticBoundaryModel ElasticBoundarySpec ElasticBoundaryProofs ElasticBoundaryProofs2 ElasticBoundaryProofs3 ElasticBoundaryProofs5.
Import ListNotations.
Local Open Scope R_scope.

(** C147: the values of the Strong unknowns of the two components *)
Theorem C147_strong_values : forall m info data, CreateDOFs 2 info (md_mesh m) = Ok data -> Cell2Ds_number (md_mesh m) = num_cells info 2 -> let NS := NumberStrongs data in
  forall create g pt,
  (forall c v, (c < Cell2Ds_number (md_mesh m))%nat -> In v (Cell2D_vertices (md_mesh m) c) -> strong_entity info 0 v -> (requested info 0 v <= 1)%nat) ->
  edge_points_agree m info create (fun _ => true) (fun e => strong_entity info 1 e /\ (0 < requested info 1 e)%nat) pt ->
  exists uS, elastic_strong m info data create g = Ok uS /\ length uS = (NS + NS)%nat /\
  forall h d e i, (h < 2)%nat -> (d <= 2)%nat -> (e < num_cells info d)%nat -> (i < requested info d e)%nat -> strong_entity info d e ->
    exists x, lookup data (entity_dof d e i) = Some x /\ dof_type x = TStrong /\ (dof_index x < NS)%nat /\
      (of_a_cell m d e -> nth_error uS (dof_index x + h * NS) = Some (strong_value m info pt (component g h) d e i)) /\
      (~ of_a_cell m d e -> nth_error uS (dof_index x + h * NS) = Some 0).
Proof. exact elastic_strong_ok. Qed.

(** C148: the contributions of the Weak edges to the equations of the two components *)
Theorem C148_weak_term : forall m info data, CreateDOFs 2 info (md_mesh m) = Ok data -> Cell2Ds_number (md_mesh m) = num_cells info 2 -> let N := NumberDOFs data in
  forall geometry gauss create g sp B,
  (forall c, (c < Cell2Ds_number (md_mesh m))%nat -> weak_cell info info (md_mesh m) create gauss (geometry c) c (sp c) (B c)) ->
  m_cols (q_Points gauss) = v_size (q_Weights gauss) ->
  exists w, elastic_weak m info data geometry gauss create g = Ok w /\ length w = (N + N)%nat /\
  forall h r, (h < 2)%nat -> (r < N)%nat -> nth (r + h * N) w 0 =
    cells_sum (md_mesh m) (fun c => weak_form info info (md_mesh m) data (geometry c) gauss (B c) (component g h) c r).
Proof. exact elastic_weak_ok. Qed.

(** C149: the whole assembly: the system handed to the solver, and its solution with the virtual element *)
Theorem C149_assembled : forall m info data create P E geometry gauss gS gW pt sp B, elastic_mesh m info data create E -> let N := NumberDOFs data in let NS := NumberStrongs data in
  (forall c v, (c < Cell2Ds_number (md_mesh m))%nat -> In v (Cell2D_vertices (md_mesh m) c) -> strong_entity info 0 v -> (requested info 0 v <= 1)%nat) ->
  edge_points_agree m info create (fun _ => true) (fun e => strong_entity info 1 e /\ (0 < requested info 1 e)%nat) pt ->
  (forall c, (c < Cell2Ds_number (md_mesh m))%nat -> weak_cell info info (md_mesh m) create gauss (geometry c) c (sp c) (B c)) ->
  m_cols (q_Points gauss) = v_size (q_Weights gauss) ->
  exists D k g0 g1, elastic_assemble m info data geometry gauss create P gS gW = Ok D /\
  (forall c, (c < Cell2Ds_number (md_mesh m))%nat -> largest (ec_Q (E c)) (el_mu P) (k c)) /\
  length (ed_rightHandSide D) = (N + N)%nat /\ length g0 = NS /\ length g1 = NS /\ ed_solutionDirichlet D = g0 ++ g1 /\
  elastic_strong m info data create gS = Ok (g0 ++ g1) /\
  (forall r s v, In (r, s, v) (ed_globalMatrixA D) -> (r < N + N)%nat /\ (s < N + N)%nat) /\
  forall u0 u1 v0 v1, length u0 = N -> length u1 = N -> length v0 = N -> length v1 = N ->
    rsum (N + N) (fun r => nth r (v0 ++ v1) 0 * assembled_residual D (u0 ++ u1) r) =
    cells_sum (md_mesh m) (fun c => let V := cell_displacement m info data v0 v1 (repeat 0 NS) (repeat 0 NS) c in
      cell_energy m info E P k c (cell_displacement m info data u0 u1 g0 g1 c) V - cell_work m info E P c V) - boundary_work m info data geometry gauss B gW v0 v1.
Proof. exact elastic_assembled_meaning. Qed.

Theorem C149_solution : forall gauss_triangle lobatto junk lu llt k ref m info geometry data,
  vem_mesh gauss_triangle lobatto lu llt k ref m info geometry -> CreateDOFs 2 info (md_mesh m) = Ok data ->
  forall P, (forall x y z, 0 < el_mu P x y z /\ 0 <= el_lambda P x y z) -> positive_rules gauss_triangle k m geometry ->
  (forall c, (c < Cell2Ds_number (md_mesh m))%nat -> clamped m info c) -> covered info (md_mesh m) ->
  forall gauss gS gW, m_cols (q_Points gauss) = v_size (q_Weights gauss) -> let N := NumberDOFs data in
  exists D uD, elastic_assemble m info data geometry gauss (Create_VEM junk lu llt ref geometry) P gS gW = Ok D /\
  length uD = (N + N)%nat /\ (forall r, (r < N + N)%nat -> assembled_residual D uD r = 0) /\
  forall vD, length vD = (N + N)%nat -> (forall r, (r < N + N)%nat -> assembled_residual D vD r = 0) -> vD = uD.
Proof. exact elastic_solution. Qed.

Print Assumptions C147_strong_values.
Print Assumptions C148_weak_term.
Print Assumptions C149_assembled.
Print Assumptions C149_solution.

(** ** Examples: the two unit squares of Pcc2dProps, order 2, the left side Strong, the others Weak *)
Definition sq_moved (marker : nat) (x y z : R) (h : nat) : R := match h with 0%nat => 1 + y | _ => 3 * y - x end.
Definition sq_pull (marker : nat) (x y z : R) (h : nat) : R := match marker, h with 4%nat, 0%nat => 1 | 5%nat, 1%nat => x | _, _ => 0 end.
Example C147_case : forall junk, exists ref uS, elastic_strong sq_m sq_info sq_data (Create_VEM junk gauss_solver gauss_solver ref sq_geometry) sq_moved = Ok uS /\ length uS = 6%nat /\
  nth_error uS 1 = Some 2 /\ nth_error uS (1 + 3) = Some 3.
Proof.
  intros junk. destruct sq_reference as (ref & ER). exists ref. pose proof (sq_vem ref ER) as VM. destruct (vem_strong_cells _ _ junk _ _ 2 ref sq_m sq_info sq_geometry VM) as (pt & EA).
  destruct (C147_strong_values sq_m sq_info sq_data sq_created eq_refl (Create_VEM junk gauss_solver gauss_solver ref sq_geometry) sq_moved pt) as (uS & E & L & H); [|exact EA|].
  { intros c v Hc Hv _. rewrite (vm_vertex_dofs _ _ _ _ _ _ _ _ _ VM c v Hc Hv). lia. }
  exists uS. split; [exact E|]. destruct sq_numbers as [_ NS]. rewrite NS in *. split; [exact L|].
  assert (OC : of_a_cell sq_m 0 3) by (exists 0%nat; cbn; split; [lia|left; split; [reflexivity|tauto]]).
  assert (X : lookup sq_data (entity_dof 0 3 0) = Some {| dof_type := TStrong; dof_index := 1 |}) by (vm_compute; reflexivity).
  split.
  - destruct (H 0%nat 0%nat 3%nat 0%nat) as (x & Lx & _ & _ & V & _); [lia|lia|cbn; lia|cbn; lia|reflexivity|]. rewrite X in Lx. injection Lx as <-. specialize (V OC). cbn [dof_index] in V.
    replace (1 + 0 * 3)%nat with 1%nat in V by lia. rewrite V. f_equal; cbn; lra.
  - destruct (H 1%nat 0%nat 3%nat 0%nat) as (x & Lx & _ & _ & V & _); [lia|lia|cbn; lia|cbn; lia|reflexivity|]. rewrite X in Lx. injection Lx as <-. specialize (V OC). cbn [dof_index] in V.
    replace (1 + 1 * 3)%nat with (1 + 3)%nat in V by lia. rewrite V. f_equal; cbn; lra.
Qed.
Example C148_case : forall junk, exists ref B w, elastic_weak sq_m sq_info sq_data sq_geometry simpson_rule (Create_VEM junk gauss_solver gauss_solver ref sq_geometry) sq_pull = Ok w /\ length w = 24%nat /\
  weak_edge sq_info 5 = true /\
  forall r, (r < 12)%nat -> nth (r + 12) w 0 = cells_sum (md_mesh sq_m) (fun c => weak_form sq_info sq_info (md_mesh sq_m) sq_data (sq_geometry c) simpson_rule B (component sq_pull 1) c r).
Proof.
  intros junk. destruct sq_reference as (ref & ER). exists ref. pose proof (sq_vem ref ER) as VM. destruct (vem_weak_cells _ _ junk _ _ 2 ref sq_m sq_info sq_geometry VM simpson_rule eq_refl) as (sp & B & WC). exists B.
  destruct (C148_weak_term sq_m sq_info sq_data sq_created eq_refl sq_geometry simpson_rule _ sq_pull sp (fun _ => B) WC eq_refl) as (w & E & L & H). exists w.
  destruct sq_numbers as [N _]. rewrite N in *. split; [exact E|]. split; [exact L|]. split; [reflexivity|]. intros r Hr. specialize (H 1%nat r ltac:(lia) Hr). replace (r + 1 * 12)%nat with (r + 12)%nat in H by lia. exact H.
Qed.
Example C149_case : forall junk, exists ref D uD,
  elastic_assemble sq_m sq_info sq_data sq_geometry simpson_rule (Create_VEM junk gauss_solver gauss_solver ref sq_geometry) sq_material sq_moved sq_pull = Ok D /\
  length (ed_rightHandSide D) = 24%nat /\ length (ed_solutionDirichlet D) = 6%nat /\ length uD = 24%nat /\ (forall r, (r < 24)%nat -> assembled_residual D uD r = 0).
Proof.
  intros junk. destruct sq_reference as (ref & ER). exists ref. pose proof (sq_vem ref ER) as VM.
  destruct (C149_solution _ _ junk _ _ 2 ref sq_m sq_info sq_geometry sq_data VM sq_created sq_material sq_material_positive sq_positive sq_clamped sq_covered simpson_rule sq_moved sq_pull eq_refl) as (D & uD & ED & LD & HD & _).
  destruct (vem_strong_cells _ _ junk _ _ 2 ref sq_m sq_info sq_geometry VM) as (pt & EA). destruct (vem_weak_cells _ _ junk _ _ 2 ref sq_m sq_info sq_geometry VM simpson_rule eq_refl) as (sp & B & WC).
  destruct (C149_assembled _ _ _ _ sq_material _ sq_geometry simpson_rule sq_moved sq_pull pt sp (fun _ => B)
    (vem_elastic_mesh _ _ junk _ _ 2 ref sq_m sq_info sq_geometry sq_data VM sq_created)) as (D' & k & g0 & g1 & ED' & _ & LR & L0 & L1 & GS & _); [|exact EA|exact WC|reflexivity|].
  { intros c v Hc Hv _. rewrite (vm_vertex_dofs _ _ _ _ _ _ _ _ _ VM c v Hc Hv). lia. }
  rewrite ED in ED'. injection ED' as <-. destruct sq_numbers as [N NS]. rewrite N in *. rewrite NS in *. exists D, uD. split; [exact ED|]. split; [exact LR|].
  split; [rewrite GS, app_length; lia|]. split; [exact LD|exact HD].
Qed.
