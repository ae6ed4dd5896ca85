(** Properties C137 to C141: the driver of the elliptic problem on networks of segments: the assembled system, patch test, one solution, errors,
    values at the vertices. *)
From Coq Require Import List Arith Bool Reals Lra Lia.
From Verif Require Import Base RSum MatrixModel DofsModel DofsSpec AssemblerModel AssemblerSpec EquationModel VemQuadModel VemQuadSpec VemModel VemSpec DriverModel DriverSpec DriverSpec2
  LagrangeModel LagrangeSpec LagrangeProofs LagrangeProofs2 Mcc2dModel ParabolicModel Elliptic1dModel Elliptic1dSpec Elliptic1dProofs Elliptic1dProofs2 Elliptic1dProofs6 DofsProps.
Import ListNotations.
Local Open Scope R_scope.

(** C137: the assembled system is the discrete weak form, its matrix is symmetric, the Strong vertices hold the boundary data *)
Theorem C137_assembled : forall junk lobatto gauss k type qo m info data G ref P,
  segment_setting junk lobatto gauss k type qo m info data G ref ->
  forall phi dphi, nodal_basis k (node lobatto k type) phi dphi ->
  exists D, segment_assemble m info data junk ref G P = Ok D /\ length (sd_solutionDirichlet D) = NumberStrongs data /\ length (sd_rightHandSide D) = NumberDOFs data /\
  (forall r j v, In (r, j, v) (sd_globalMatrixA D) -> (r < NumberDOFs data)%nat /\ (j < NumberDOFs data)%nat) /\
  (forall r j, entry (sd_globalMatrixA D) r j = entry (sd_globalMatrixA D) j r) /\
  (forall v uD, (v < num_cells info 0)%nat -> strong_entity info 0 v ->
     value_of data uD (sd_solutionDirichlet D) (entity_dof 0 v 0) = Some (at_point (ep_strong P (marker_of info 0 v)) (md_coords m v))) /\
  forall uD vD, length uD = NumberDOFs data -> length vD = NumberDOFs data ->
    let Q := gauss (rule_order k qo) in
    let u c := segment_value m info data uD (sd_solutionDirichlet D) c in let v c := segment_value m info data vD (repeat 0 (NumberStrongs data)) c in
    rsum (NumberDOFs data) (fun r => nth r vD 0 * segment_residual D uD r) =
    rsum (num_cells info 1) (fun c => segment_energy m Q P c (along k phi (u c)) (along k dphi (u c)) (along k phi (v c)) (along k dphi (v c))
                      - segment_source m Q P c (along k phi (v c)) - segment_weak m info P c (along k phi (v c))).
Proof. exact basis_variational. Qed.

(** C137: the reference element is created and has one nodal basis *)
Theorem C137_reference : forall junk lobatto gauss k type qo, (1 <= k)%nat -> (type = GaussLobatto -> lobatto_ok lobatto k) -> rule_shape (gauss (rule_order k qo)) ->
  exists ref phi dphi, FEM_1D_CreateReference junk lobatto gauss k type qo = Ok ref /\ nodal_basis k (node lobatto k type) phi dphi /\
  forall phi' dphi', nodal_basis k (node lobatto k type) phi' dphi' -> forall i t, (i < k + 1)%nat -> phi' i t = phi i t /\ dphi' i t = dphi i t.
Proof.
  intros junk lobatto gauss k type qo Hk HLo HQ. destruct (reference_ok junk lobatto gauss k type qo Hk HLo HQ) as (ref & E & _).
  pose proof (node_distinct lobatto k type Hk HLo) as DI. exists ref, (phi1 (node lobatto k type) (k + 1)), (dphi1 (node lobatto k type) (k + 1)).
  split; [exact E|]. split; [exact (basis_exists _ _ DI)|]. intros phi' dphi' NB. exact (basis_unique _ _ _ _ DI NB).
Qed.

(** C138: patch test: the interpolant of a solution that is a polynomial of degree k along each cell solves the system, and is that solution *)
Theorem C138_patch : forall junk lobatto gauss k type qo m info data G ref P,
  segment_setting junk lobatto gauss k type qo m info data G ref ->
  forall phi dphi, nodal_basis k (node lobatto k type) phi dphi ->
  forall p s ds fl dfl, solves_network m info P k p s ds fl dfl ->
  exact_rule (2 * k) (gauss (rule_order k qo)) -> rule_inside (gauss (rule_order k qo)) ->
  exists D uD, segment_assemble m info data junk ref G P = Ok D /\ interpolates m info data (node lobatto k type) p uD /\ solves_segments D (NumberDOFs data) uD /\
    forall c t, (c < num_cells info 1)%nat -> along k phi (segment_value m info data uD (sd_solutionDirichlet D) c) t = s c t /\
      along k dphi (segment_value m info data uD (sd_solutionDirichlet D) c) t = ds c t.
Proof. exact basis_patch. Qed.

(** C139: the matrix is symmetric positive definite, the system has one solution for every right-hand side *)
Theorem C139_solvable : forall junk lobatto gauss k type qo m info data G ref P,
  segment_setting junk lobatto gauss k type qo m info data G ref ->
  exact_rule (2 * (k - 1)) (gauss (rule_order k qo)) -> rule_positive (gauss (rule_order k qo)) ->
  elliptic_data m info P (gauss (rule_order k qo)) -> all_tied m info ->
  exists D, segment_assemble m info data junk ref G P = Ok D /\
  (forall r j, entry (sd_globalMatrixA D) r j = entry (sd_globalMatrixA D) j r) /\
  (forall w, length w = NumberDOFs data -> (exists r, (r < NumberDOFs data)%nat /\ nth r w 0 <> 0) ->
     0 < rsum (NumberDOFs data) (fun r => nth r w 0 * triplets_row (sd_globalMatrixA D) w r)) /\
  forall b, exists u, length u = NumberDOFs data /\ (forall r, (r < NumberDOFs data)%nat -> triplets_row (sd_globalMatrixA D) u r = b r) /\
    forall u', length u' = NumberDOFs data -> (forall r, (r < NumberDOFs data)%nat -> triplets_row (sd_globalMatrixA D) u' r = b r) -> u' = u.
Proof. exact basis_solvable. Qed.

(** C140: the reported numbers, for any vector *)
Theorem C140_errors : forall junk lobatto gauss k type qo m info data G ref P,
  segment_setting junk lobatto gauss k type qo m info data G ref ->
  forall phi dphi, nodal_basis k (node lobatto k type) phi dphi ->
  forall exact exact_d D uD, segment_assemble m info data junk ref G P = Ok D -> length uD = NumberDOFs data ->
  exists e, segment_errors m data junk ref G exact exact_d D uD = Ok e /\
    let Q := gauss (rule_order k qo) in
    let nc := num_cells info 1 in
    let u c := segment_value m info data uD (sd_solutionDirichlet D) c in
    se_residual_norm e = sqrt (rsum (NumberDOFs data) (fun r => segment_residual D uD r ^ 2)) /\
    (length (se_cell1Ds_error_L2 e) = nc /\ length (se_cell1Ds_norm_L2 e) = nc /\ length (se_cell1Ds_error_H1 e) = nc /\ length (se_cell1Ds_norm_H1 e) = nc /\
     forall c, (c < nc)%nat -> nth c (se_cell1Ds_error_L2 e) 0 = segment_error_L2 m Q exact c (along k phi (u c)) /\
       nth c (se_cell1Ds_norm_L2 e) 0 = segment_norm_L2 m Q c (along k phi (u c)) /\
       nth c (se_cell1Ds_error_H1 e) 0 = segment_error_H1 m Q exact_d c (along k dphi (u c)) /\ nth c (se_cell1Ds_norm_H1 e) 0 = segment_norm_H1 m Q c (along k dphi (u c))) /\
    (se_error_L2 e = sqrt (rsum nc (fun c => nth c (se_cell1Ds_error_L2 e) 0)) /\ se_norm_L2 e = sqrt (rsum nc (fun c => nth c (se_cell1Ds_norm_L2 e) 0)) /\
     se_error_H1 e = sqrt (rsum nc (fun c => nth c (se_cell1Ds_error_H1 e) 0)) /\ se_norm_H1 e = sqrt (rsum nc (fun c => nth c (se_cell1Ds_norm_H1 e) 0))) /\
    (forall c, (c < nc)%nat -> segment_length m c <= se_mesh_size e) /\ (se_mesh_size e = 0 \/ exists c, (c < nc)%nat /\ se_mesh_size e = segment_length m c).
Proof. exact basis_errors. Qed.

(** C140: at the solution of the system of a solution that is a polynomial of degree k along each cell: the residual and the L2 errors are 0, the H1
    errors are the part of the derivative along the third axis *)
Theorem C140_exact : forall junk lobatto gauss k type qo m info data G ref P,
  segment_setting junk lobatto gauss k type qo m info data G ref ->
  forall phi dphi, nodal_basis k (node lobatto k type) phi dphi ->
  let Q := gauss (rule_order k qo) in
  forall p s ds fl dfl exact_d D uD e, solves_network m info P k p s ds fl dfl -> exact_rule (2 * k) Q -> rule_inside Q -> rule_positive Q -> elliptic_data m info P Q -> all_tied m info ->
  (forall c t, (c < num_cells info 1)%nat -> 0 <= t <= 1 -> ds c t / segment_length m c = tangential 3 m exact_d c t) ->
  segment_assemble m info data junk ref G P = Ok D -> solves_segments D (NumberDOFs data) uD -> segment_errors m data junk ref G p exact_d D uD = Ok e ->
  interpolates m info data (node lobatto k type) p uD /\
  (forall c t, (c < num_cells info 1)%nat -> along k phi (segment_value m info data uD (sd_solutionDirichlet D) c) t = s c t) /\
  se_residual_norm e = 0 /\ se_error_L2 e = 0 /\
  (forall c, (c < num_cells info 1)%nat -> nth c (se_cell1Ds_error_L2 e) 0 = 0 /\ nth c (se_cell1Ds_error_H1 e) 0 = third_component m Q exact_d c) /\
  se_error_H1 e = sqrt (rsum (num_cells info 1) (third_component m Q exact_d)).
Proof. exact basis_exact. Qed.

(** C141: the values reported at the vertices *)
Theorem C141_vertices : forall junk lobatto gauss k type qo m info data G ref P,
  segment_setting junk lobatto gauss k type qo m info data G ref ->
  forall phi dphi, nodal_basis k (node lobatto k type) phi dphi ->
  forall exact exact_d D uD, segment_assemble m info data junk ref G P = Ok D -> length uD = NumberDOFs data ->
  exists e, segment_errors m data junk ref G exact exact_d D uD = Ok e /\ length (se_cell0Ds_numeric e) = num_cells info 0 /\ length (se_cell0Ds_exact e) = num_cells info 0 /\
    (forall v, (v < num_cells info 0)%nat -> nth v (se_cell0Ds_exact e) 0 = at_point exact (md_coords m v)) /\
    (forall v, (v < num_cells info 0)%nat -> strong_entity info 0 v -> nth v (se_cell0Ds_numeric e) 0 = at_point (ep_strong P (marker_of info 0 v)) (md_coords m v)) /\
    forall c i, (c < num_cells info 1)%nat -> (i < 2)%nat -> nth (end_of m c i) (se_cell0Ds_numeric e) 0 = along k phi (segment_value m info data uD (sd_solutionDirichlet D) c) (INR i).
Proof. exact vertex_values. Qed.

(** ** Examples: a horizontal and a vertical segment, order 1, solution x + z *)
Definition nt_mesh : Mesh := {|
  Cell0Ds_number := 3; Cell1Ds_number := 2; Cell2Ds_number := 0; Cell3Ds_number := 0;
  Cell0D_marker := fun c => nth c [1; 0; 2]%nat 0%nat; Cell1D_marker := fun _ => 0%nat; Cell2D_marker := fun _ => 0%nat; Cell3D_marker := fun _ => 0%nat;
  Cell1D_vertices := fun c => nth c [[0; 1]; [1; 2]]%nat [];
  Cell2D_vertices := fun _ => []; Cell2D_edges := fun _ => []; Cell3D_vertices := fun _ => []; Cell3D_edges := fun _ => []; Cell3D_faces := fun _ => [] |}.
Definition nt_const : ConstantDOFsInfo := {|
  NumDOFs := fun d => nth d [1; 0]%nat 0%nat;
  BoundaryMap := fun m => match m with
    | 0%nat => Some {| bi_type := BNone; bi_marker := 0 |}
    | 1%nat => Some {| bi_type := BStrong; bi_marker := 1 |}
    | 2%nat => Some {| bi_type := BWeak; bi_marker := 2 |}
    | _ => None end |}.
Definition nt_info : MeshDOFsInfo := match Create_Constant_DOFsInfo 1 nt_mesh nt_const with Ok i => i | _ => empty_info end.
Definition nt_data : DOFsData := match CreateDOFs 1 nt_info nt_mesh with Ok d => d | _ => empty_dofs end.
Definition nt_coords (v d : nat) : R := match v, d with 1%nat, 0%nat => 1 | 2%nat, 0%nat => 1 | 2%nat, 2%nat => 1 | _, _ => 0 end.
Definition nt_m : Mesh2D := {| md_mesh := nt_mesh; md_active0 := fun _ => true; md_active2 := fun _ => true; md_coords := nt_coords |}.
Definition nt_tangent (c d : nat) : R := segment_vector nt_m c d.
Definition nt_geometry : MeshGeometricData1D := {|
  Cell1DsVertices := map (fun c => {| m_rows := 3; m_cols := 2; m_at := fun d j => nt_coords (c + j) d |}) [0; 1]%nat;
  Cell1DsTangents := map nt_tangent [0; 1]%nat;
  Cell1DsLengths := map (segment_length nt_m) [0; 1]%nat |}.
(** Simpson *)
Definition nt_rule : QuadratureData := {|
  q_Points := {| m_rows := 3; m_cols := 3; m_at := fun d q => match d with 0%nat => INR q / 2 | _ => 0 end |};
  q_Weights := {| v_size := 3; v_at := fun q => match q with 1%nat => 2 / 3 | _ => / 6 end |} |}.
Definition nt_problem : EllipticProblem1D := {|
  ep_diffusion := fun _ _ _ => 2; ep_reaction := fun _ _ _ => 1; ep_source := fun x _ z => x + z;
  ep_strong := fun _ x _ z => x + z; ep_weak := fun _ _ _ _ => 2 |}.
Definition nt_p (x y z : R) : R := x + z.
Definition nt_d (x y z : R) (d : nat) : R := match d with 1%nat => 0 | _ => 1 end.

Example nt_created : CreateDOFs 1 nt_info nt_mesh = Ok nt_data.
Proof. apply is_Ok_eq. vm_compute. reflexivity. Qed.
Example nt_numbers : NumberDOFs nt_data = 2%nat /\ NumberStrongs nt_data = 1%nat /\ num_cells nt_info 0 = 3%nat /\ num_cells nt_info 1 = 2%nat.
Proof. vm_compute. auto. Qed.
Lemma nt_cells c : (c < num_cells nt_info 1)%nat -> c = 0%nat \/ c = 1%nat.
Proof. destruct nt_numbers as (_ & _ & _ & ->). lia. Qed.
Lemma nt_vertices v : (v < num_cells nt_info 0)%nat -> v = 0%nat \/ v = 1%nat \/ v = 2%nat.
Proof. destruct nt_numbers as (_ & _ & -> & _). lia. Qed.
Lemma nt_vector c d : c = 0%nat \/ c = 1%nat -> segment_vector nt_m c d = match c, d with 0%nat, 0%nat => 1 | 1%nat, 2%nat => 1 | _, _ => 0 end.
Proof. intros [->| ->]; unfold segment_vector, end_of; cbn [nt_m md_mesh md_coords nt_mesh Cell1D_vertices nth nt_coords]; destruct d as [|[|[|d]]]; cbn; ring. Qed.
Lemma nt_length c : c = 0%nat \/ c = 1%nat -> segment_length nt_m c = 1.
Proof. intros H. unfold segment_length, dot3. rewrite !nt_vector by auto. etransitivity; [|exact sqrt_1]. f_equal. destruct H as [->| ->]; ring. Qed.
Example nt_network : network nt_m nt_info nt_data nt_geometry 1.
Proof.
  constructor.
  - exact nt_created.
  - symmetry. apply nt_numbers.
  - symmetry. apply nt_numbers.
  - lia.
  - intros v Hv. destruct (nt_vertices v Hv) as [->|[->| ->]]; reflexivity.
  - intros c Hc. destruct (nt_cells c Hc) as [->| ->]; reflexivity.
  - intros c Hc. rewrite nt_length by (apply nt_cells; exact Hc). lra.
  - intros c Hc. destruct (nt_cells c Hc) as [->| ->]; (eexists; eexists; split; [reflexivity|]; split; [reflexivity|]; split; [cbn; lia|]; split; [intros d; reflexivity|]; split; [reflexivity|]; split; [intros d; reflexivity|reflexivity]).
Qed.
Example nt_setting : forall junk, exists ref phi dphi, segment_setting junk (fun _ => q_Weights nt_rule) (fun _ => nt_rule) 1 Equispaced 0 nt_m nt_info nt_data nt_geometry ref /\
  nodal_basis 1 (node (fun _ => q_Weights nt_rule) 1 Equispaced) phi dphi.
Proof.
  intros junk. assert (RS : rule_shape nt_rule) by (split; [cbn; lia|reflexivity]).
  destruct (C137_reference junk (fun _ => q_Weights nt_rule) (fun _ => nt_rule) 1 Equispaced 0 ltac:(lia) ltac:(discriminate) RS) as (ref & phi & dphi & E & NB & _).
  exists ref, phi, dphi. split; [|exact NB]. constructor; [discriminate|exact RS|exact nt_network|exact E].
Qed.
Example nt_exact : exact_rule (2 * 1) nt_rule.
Proof. intros a Ha. unfold apply_rule, rule_point. cbn [nt_rule q_Points q_Weights v_size v_at m_at rsum]. destruct a as [|[|[|a]]]; [| | |lia]; cbn [Nat.add pow INR]; lra. Qed.
Example nt_inside : rule_inside nt_rule.
Proof. intros q Hq. cbn in Hq. unfold rule_point. cbn [nt_rule q_Points m_at]. destruct q as [|[|[|q]]]; [| | |lia]; cbn [INR]; lra. Qed.
Example nt_positive : rule_positive nt_rule.
Proof. intros q Hq. cbn [nt_rule q_Weights v_at]. destruct q as [|[|q]]; lra. Qed.
Example nt_elliptic : elliptic_data nt_m nt_info nt_problem nt_rule.
Proof. intros c q _ _. unfold on_segment, at_point. cbn. lra. Qed.
Example nt_tied : all_tied nt_m nt_info.
Proof.
  assert (T0 : tied nt_m nt_info 0) by (apply (tied_strong _ _ 0 0); [destruct nt_numbers as (_ & _ & _ & ->); lia|lia|reflexivity]).
  split.
  - intros c Hc. destruct (nt_cells c Hc) as [->| ->]; [exact T0|]. apply (tied_next _ _ 0 1 1 0 T0); [exact Hc|lia|lia|reflexivity].
  - destruct nt_numbers as (_ & _ & _ & ->). intros v Hv. destruct (nt_vertices v Hv) as [->|[->| ->]]; [exists 0%nat, 0%nat|exists 0%nat, 1%nat|exists 1%nat, 1%nat]; repeat split; lia.
Qed.
Lemma nt_along c t : c = 0%nat \/ c = 1%nat -> on_segment nt_m nt_p c t = INR c + t.
Proof.
  intros H. unfold on_segment, at_point, segment_point, nt_p. rewrite !nt_vector by auto. destruct H as [->| ->]; unfold end_of; cbn [nt_m md_mesh md_coords nt_mesh Cell1D_vertices nth nt_coords INR]; ring.
Qed.
Example nt_solves : solves_network nt_m nt_info nt_problem 1 nt_p (fun c t => INR c + t) (fun _ _ => 1) (fun _ _ => 2) (fun _ _ => 0).
Proof.
  constructor.
  - intros c t Hc _. apply nt_along. apply nt_cells. exact Hc.
  - intros c _. exists (fun i => match i with O => INR c | _ => 1 end). intros t. unfold polynomial. cbn [Nat.add rsum pow]. ring.
  - intros c t _. replace 1 with (0 + 1) by ring. apply (derivable_pt_lim_plus (fct_cte (INR c)) id); [apply derivable_pt_lim_const|apply derivable_pt_lim_id].
  - intros c t Hc _. rewrite nt_length by (apply nt_cells; exact Hc). unfold on_segment, at_point. cbn. field.
  - intros c _. exists (fun i => match i with O => 2 | _ => 0 end). intros t. unfold polynomial. cbn [Nat.add rsum pow]. ring.
  - intros c t _. apply (derivable_pt_lim_const 2).
  - intros c t Hc _. rewrite nt_length by (apply nt_cells; exact Hc). rewrite <- (nt_along c t) by (apply nt_cells; exact Hc). unfold on_segment, at_point, nt_p. cbn [nt_problem ep_reaction ep_source]. field.
  - intros v Hv Hs. destruct nt_numbers as (_ & _ & _ & ->). cbn [rsum]. destruct (nt_vertices v Hv) as [->|[->| ->]].
    + exfalso. apply Hs. reflexivity.
    + change (weak_vertex nt_info 1) with false. unfold end_of. cbn [nt_m md_mesh nt_mesh Cell1D_vertices nth Nat.eqb end_sign]. ring.
    + change (weak_vertex nt_info 2) with true. unfold end_of, at_point. cbn [nt_m md_mesh nt_mesh Cell1D_vertices nth Nat.eqb end_sign nt_problem ep_weak]. ring.
  - intros v _ _. reflexivity.
  - intros c Hc. destruct (nt_cells c Hc) as [->| ->]; discriminate.
Qed.
Lemma nt_chain c t : (c < num_cells nt_info 1)%nat -> 0 <= t <= 1 -> 1 / segment_length nt_m c = tangential 3 nt_m nt_d c t.
Proof.
  intros Hc _. apply nt_cells in Hc. unfold tangential. cbn [rsum]. rewrite !nt_vector, !nt_length by auto. unfold on_segment, at_point. destruct Hc as [->| ->]; cbn [nt_d]; field.
Qed.

Example C138_case : forall junk, exists ref D uD, segment_assemble nt_m nt_info nt_data junk ref nt_geometry nt_problem = Ok D /\ solves_segments D 2 uD.
Proof.
  intros junk. destruct (nt_setting junk) as (ref & phi & dphi & ST & NB). exists ref.
  destruct (C138_patch _ _ _ _ _ _ _ _ _ _ _ nt_problem ST phi dphi NB _ _ _ _ _ nt_solves nt_exact nt_inside) as (D & uD & ED & _ & SU & _). exists D, uD. rewrite (proj1 nt_numbers) in SU. auto.
Qed.
Example C139_case : forall junk, exists ref D, segment_assemble nt_m nt_info nt_data junk ref nt_geometry nt_problem = Ok D /\
  forall b, exists u, length u = 2%nat /\ forall r, (r < 2)%nat -> triplets_row (sd_globalMatrixA D) u r = b r.
Proof.
  intros junk. destruct (nt_setting junk) as (ref & phi & dphi & ST & NB). exists ref.
  destruct (C139_solvable _ _ _ _ _ _ _ _ _ _ _ nt_problem ST (fun a Ha => nt_exact a ltac:(lia)) nt_positive nt_elliptic nt_tied) as (D & ED & _ & _ & SO). exists D. split; [exact ED|].
  intros b. destruct (SO b) as (u & Lu & Hu & _). rewrite (proj1 nt_numbers) in *. eauto.
Qed.
(** C140, negative: the H1 error reported at the exact solution is not 0 when a segment leaves the planes of constant z *)
Theorem C140_exact_refuted : forall junk, exists ref D uD e, segment_assemble nt_m nt_info nt_data junk ref nt_geometry nt_problem = Ok D /\ solves_segments D 2 uD /\
  (forall c t, (c < 2)%nat -> 0 <= t <= 1 -> tangential 3 nt_m nt_d c t = 1) /\ (forall c t, (c < 2)%nat -> derivable_pt_lim (on_segment nt_m nt_p c) t 1) /\
  segment_errors nt_m nt_data junk ref nt_geometry nt_p nt_d D uD = Ok e /\ se_error_L2 e = 0 /\ se_error_H1 e = 1.
Proof.
  intros junk. destruct (nt_setting junk) as (ref & phi & dphi & ST & NB). exists ref.
  destruct (C138_patch _ _ _ _ _ _ _ _ _ _ _ nt_problem ST phi dphi NB _ _ _ _ _ nt_solves nt_exact nt_inside) as (D & uD & ED & _ & SU & _). exists D, uD.
  destruct (C140_errors _ _ _ _ _ _ _ _ _ _ _ nt_problem ST phi dphi NB nt_p nt_d D uD ED (proj1 SU)) as (e & Ee & _). exists e.
  destruct (C140_exact _ _ _ _ _ _ _ _ _ _ _ nt_problem ST phi dphi NB _ _ _ _ _ nt_d D uD e nt_solves nt_exact nt_inside nt_positive nt_elliptic nt_tied nt_chain ED SU Ee) as (_ & _ & _ & E2 & _ & E1).
  destruct nt_numbers as (N1 & _ & _ & N4). rewrite N1 in SU. split; [exact ED|]. split; [exact SU|]. split.
  { intros c t Hc Ht. rewrite <- nt_chain, nt_length by (rewrite ?N4; lia || auto). field. }
  split.
  { intros c t Hc. assert (H : derivable_pt_lim (fct_cte (INR c) + id)%F t (0 + 1)) by (apply derivable_pt_lim_plus; [apply derivable_pt_lim_const|apply derivable_pt_lim_id]). rewrite Rplus_0_l in H.
    intros eps He. destruct (H eps He) as (d & Hd). exists d. intros h Hh Hlt. rewrite !nt_along by lia. apply (Hd h Hh Hlt). }
  split; [exact Ee|]. split; [exact E2|]. rewrite E1, N4. cbn [rsum]. etransitivity; [|exact sqrt_1]. f_equal.
  unfold third_component, apply_rule. rewrite !nt_vector, !nt_length by auto. unfold on_segment, at_point. cbn [rule_order Nat.eqb nt_rule q_Weights v_size v_at rsum nt_d]. field.
Qed.
Example C141_case : forall junk, exists ref D e, segment_assemble nt_m nt_info nt_data junk ref nt_geometry nt_problem = Ok D /\
  segment_errors nt_m nt_data junk ref nt_geometry nt_p nt_d D [5; 7] = Ok e /\ nth 0 (se_cell0Ds_numeric e) 0 = 0 /\ nth 2 (se_cell0Ds_exact e) 0 = 2.
Proof.
  intros junk. destruct (nt_setting junk) as (ref & phi & dphi & ST & NB). exists ref.
  destruct (C137_assembled _ _ _ _ _ _ _ _ _ _ _ nt_problem ST phi dphi NB) as (D & ED & _). exists D.
  destruct (C141_vertices _ _ _ _ _ _ _ _ _ _ _ nt_problem ST phi dphi NB nt_p nt_d D [5; 7] ED (eq_sym (proj1 nt_numbers))) as (e & Ee & _ & _ & E1 & E2 & _). exists e. destruct nt_numbers as (_ & _ & N3 & _).
  split; [exact ED|]. split; [exact Ee|]. split; [rewrite E2 by (rewrite ?N3; lia || reflexivity)|rewrite E1 by (rewrite N3; lia)]; unfold at_point; cbn [nt_m md_coords nt_coords nt_problem ep_strong]; unfold nt_p; ring.
Qed.

Print Assumptions C137_assembled.
Print Assumptions C137_reference.
Print Assumptions C138_patch.
Print Assumptions C139_solvable.
Print Assumptions C140_errors.
Print Assumptions C140_exact.
Print Assumptions C140_exact_refuted.
Print Assumptions C141_vertices.
