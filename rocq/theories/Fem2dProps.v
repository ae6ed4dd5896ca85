(** Properties C106 to C109: finite elements on a mesh of triangles: unknowns of a function, patch test, one solution, exact solution. *)
From Coq Require Import List Arith Bool ZArith Reals Lra Lia.
From Verif Require Import Base RSum MatrixModel LagrangeModel LagrangeProofs2 TriangleModel TriangleSpec TriangleProofs3 DofsModel DofsSpec AssemblerModel AssemblerSpec EquationSpec VemQuadModel VemQuadSpec GreenSpec GreenProofs VemModel VemSpec DriverModel DriverSpec
  DriverSpec2 Pcc2dModel Pcc2dSpec Pcc2dProofs8 Fem2dSpec Fem2dProofs Fem2dProofs2 Fem2dProofs3 Fem2dProofs4 DofsProps VemQuadProps VemProps Pcc2dProps.
Import ListNotations.
Local Open Scope R_scope.

(** C106: the unknowns of a function are computed on every mesh of triangles; those of a polynomial of degree at most k have no error *)
Theorem C106_fem_interpolation : forall gauss_triangle junk lobatto k edge ref m info geometry data,
  fem_mesh gauss_triangle junk lobatto k edge ref m info geometry -> CreateDOFs 2 info (md_mesh m) = Ok data ->
  let create := fem_create junk gauss_triangle edge ref geometry in
  forall p, exists uD uS, evaluate_function_on_dofs m data k create (planar p) = Ok (uD, uS) /\ length uD = NumberDOFs data /\ length uS = NumberStrongs data /\
    forall px py, GreenSpec.poly2 k p px py -> exists rL rH,
      compute_error_L2 m data create uD uS (Some (planar p)) = Ok rL /\ pe_error rL = 0 /\
      compute_error_H1 m data create uD uS (Some (planar_gradient px py)) = Ok rH /\ pe_error rH = 0.
Proof.
  intros gt junk lob k edge ref m info geometry data VM HC create p.
  destruct (finterpolant gt junk lob k edge ref m info geometry VM data HC p) as (uD & uS & E & LD & LS & HU). exists uD, uS. split; [exact E|]. split; [exact LD|]. split; [exact LS|].
  intros px py Pp. exact (fzero_errors gt junk lob k edge ref m info geometry VM data HC p px py uD uS Pp HU).
Qed.

(** C107: the patch test, whatever the advection and the reaction *)
Theorem C107_fem_patch : forall gauss_triangle junk lobatto k edge ref m info geometry data,
  fem_mesh gauss_triangle junk lobatto k edge ref m info geometry -> CreateDOFs 2 info (md_mesh m) = Ok data ->
  let create := fem_create junk gauss_triangle edge ref geometry in
  forall K advection reaction f h gauss p px py g0 g0x g0y g1 g1x g1y,
  (forall c, (c < Cell2Ds_number (md_mesh m))%nat -> md_active2 m c = true) ->
  GreenSpec.poly2 k p px py -> GreenSpec.poly2 (k - 1) g0 g0x g0y -> GreenSpec.poly2 (k - 1) g1 g1x g1y ->
  solves_equation K advection reaction f p px py g0 g0x g0y g1 g1x g1y ->
  closed_boundary info (md_mesh m) geometry -> neumann_data info (md_mesh m) geometry g0 g1 h -> exact_interval (2 * k - 1) gauss ->
  exists s b w uD uS, assemble_elliptic_operator m data data create create (Some K) advection reaction = Ok s /\
    assemble_source_term m data create create f = Ok b /\ assemble_weak_term m info data geometry gauss create h = Ok w /\
    evaluate_function_on_dofs m data k create (planar p) = Ok (uD, uS) /\ length uD = NumberDOFs data /\ length uS = NumberStrongs data /\
    forall r, operator_row s uD uS r = nth r b 0 + nth r w 0.
Proof. intros gt junk lob k edge ref m info geometry data VM HC. exact (fpatch gt junk lob k edge ref m info geometry VM data HC). Qed.

(** C108: the operator is positive definite, every assembled system has one solution *)
Theorem C108_fem_one_solution : forall gauss_triangle junk lobatto k edge ref m info geometry data,
  fem_mesh gauss_triangle junk lobatto k edge ref m info geometry -> CreateDOFs 2 info (md_mesh m) = Ok data ->
  let create := fem_create junk gauss_triangle edge ref geometry in
  forall K reaction, (forall c, (c < Cell2Ds_number (md_mesh m))%nat -> md_active2 m c = true) ->
  elliptic K -> absorbing reaction -> positive_weights gauss_triangle ->
  (forall c, (c < Cell2Ds_number (md_mesh m))%nat -> anchored info (md_mesh m) c) -> covered info (md_mesh m) ->
  exists s, assemble_elliptic_operator m data data create create (Some K) None reaction = Ok s /\
    (forall uD, length uD = NumberDOFs data -> (exists r, nth r uD 0 <> 0) -> 0 < energy (NumberDOFs data) s uD) /\
    forall b w uS, exists uD, solves_system s b w uD uS (NumberDOFs data) /\ forall vD, solves_system s b w vD uS (NumberDOFs data) -> vD = uD.
Proof.
  intros gt junk lob k edge ref m info geometry data VM HC create K rea ACT EK AB PR AN CO.
  destruct (fdefinite gt junk lob k edge ref m info geometry VM data HC K rea ACT EK AB PR AN CO) as (s & E & H). exists s. split; [exact E|]. split.
  - intros uD LD (r & Hr). destruct (H uD LD) as [[H0|H0] H1]; [exact H0|]. exfalso. apply Hr. apply H1. symmetry. exact H0.
  - apply definite_solvable. intros uD LD. apply H. exact LD.
Qed.

(** C109: when the exact solution is a polynomial of degree at most k the computed solution is exact *)
Theorem C109_fem_exact : forall gauss_triangle junk lobatto k edge ref m info geometry data,
  fem_mesh gauss_triangle junk lobatto k edge ref m info geometry -> CreateDOFs 2 info (md_mesh m) = Ok data ->
  let create := fem_create junk gauss_triangle edge ref geometry in
  forall K reaction f h g gauss p px py g0 g0x g0y g1 g1x g1y,
  (forall c, (c < Cell2Ds_number (md_mesh m))%nat -> md_active2 m c = true) ->
  elliptic K -> absorbing reaction -> positive_weights gauss_triangle ->
  (forall c, (c < Cell2Ds_number (md_mesh m))%nat -> anchored info (md_mesh m) c) -> covered info (md_mesh m) ->
  GreenSpec.poly2 k p px py -> GreenSpec.poly2 (k - 1) g0 g0x g0y -> GreenSpec.poly2 (k - 1) g1 g1x g1y ->
  solves_equation K None reaction f p px py g0 g0x g0y g1 g1x g1y ->
  closed_boundary info (md_mesh m) geometry -> neumann_data info (md_mesh m) geometry g0 g1 h -> dirichlet_data info (md_mesh m) p g -> exact_interval (2 * k - 1) gauss ->
  exists s b w uD uS, assemble_elliptic_operator m data data create create (Some K) None reaction = Ok s /\
    assemble_source_term m data create create f = Ok b /\ assemble_weak_term m info data geometry gauss create h = Ok w /\
    assemble_strong_solution m info data k create g = Ok uS /\
    solves_system s b w uD uS (NumberDOFs data) /\ (forall vD, solves_system s b w vD uS (NumberDOFs data) -> vD = uD) /\
    exists rL rH, compute_error_L2 m data create uD uS (Some (planar p)) = Ok rL /\ pe_error rL = 0 /\
      compute_error_H1 m data create uD uS (Some (planar_gradient px py)) = Ok rH /\ pe_error rH = 0.
Proof. intros gt junk lob k edge ref m info geometry data VM HC. exact (fexact_solution gt junk lob k edge ref m info geometry VM data HC). Qed.

Print Assumptions C106_fem_interpolation.
Print Assumptions C107_fem_patch.
Print Assumptions C108_fem_one_solution.
Print Assumptions C109_fem_exact.

(** ** Examples: the unit square cut along its diagonal, order 2; the left side is Strong, the other three are Weak *)
Definition tr_mesh : Mesh := {|
  Cell0Ds_number := 4; Cell1Ds_number := 5; Cell2Ds_number := 2; Cell3Ds_number := 0;
  Cell0D_marker := fun c => nth c [1; 0; 0; 1]%nat 0%nat;
  Cell1D_marker := fun c => nth c [3; 4; 5; 1; 0]%nat 0%nat;
  Cell2D_marker := fun _ => 0%nat; Cell3D_marker := fun _ => 0%nat;
  Cell1D_vertices := fun c => nth c [[0;1]; [1;2]; [2;3]; [3;0]; [0;2]]%nat [];
  Cell2D_vertices := fun c => nth c [[0;1;2]; [0;2;3]]%nat [];
  Cell2D_edges := fun c => nth c [[0;1;4]; [4;2;3]]%nat [];
  Cell3D_vertices := fun _ => []; Cell3D_edges := fun _ => []; Cell3D_faces := fun _ => [] |}.
Definition tr_const : ConstantDOFsInfo := {| NumDOFs := fun d => match d with 2%nat => 0%nat | _ => 1%nat end; BoundaryMap := BoundaryMap sq_const |}.
Definition tr_info : MeshDOFsInfo := match Create_Constant_DOFsInfo 2 tr_mesh tr_const with Ok i => i | _ => empty_info end.
Definition tr_data : DOFsData := match CreateDOFs 2 tr_info tr_mesh with Ok d => d | _ => empty_dofs end.
Example tr_created : CreateDOFs 2 tr_info tr_mesh = Ok tr_data.
Proof. apply is_Ok_eq. vm_compute. reflexivity. Qed.
Example tr_numbers : NumberDOFs tr_data = 6%nat /\ NumberStrongs tr_data = 3%nat.
Proof. vm_compute. auto. Qed.
Definition tr_coords (v d : nat) : R := match d with 0%nat => match v with 1%nat | 2%nat => 1 | _ => 0 end | 1%nat => match v with 2%nat | 3%nat => 1 | _ => 0 end | _ => 0 end.
Definition tr_m : Mesh2D := {| md_mesh := tr_mesh; md_active0 := fun _ => true; md_active2 := fun _ => true; md_coords := tr_coords |}.
Definition tr_vertices (c : nat) : Mat := {| m_rows := 3; m_cols := 3; m_at := fun d j => tr_coords (nth j (Cell2D_vertices tr_mesh c) 0%nat) d |}.
Definition tr_tangents (c : nat) : Mat := {| m_rows := 3; m_cols := 3; m_at := fun d j => m_at (tr_vertices c) d ((j + 1) mod 3)%nat - m_at (tr_vertices c) d j |}.
Definition tr_length (c j : nat) : R := if (nth j (Cell2D_edges tr_mesh c) 0 =? 4)%nat then sqrt 2 else 1.
Definition tr_normals (c : nat) : Mat := {| m_rows := 3; m_cols := 3; m_at := fun d j =>
  match d with 0%nat => m_at (tr_tangents c) 1 j / tr_length c j | 1%nat => - m_at (tr_tangents c) 0 j / tr_length c j | _ => 0 end |}.
Definition tr_geometry (c : nat) : Polygon := {| pg_Vertices := tr_vertices c; pg_Centroid := fun _ => 0; pg_Measure := 1/2; pg_Diameter := sqrt 2; pg_TriangulationVertices := [tr_vertices c];
  pg_EdgesLength := {| v_size := 3; v_at := tr_length c |}; pg_EdgesDirection := [true; true; match c with 0%nat => false | _ => true end]; pg_EdgesTangent := tr_tangents c; pg_EdgesNormal := tr_normals c |}.
Example tr_length_pos : forall c j, 0 < tr_length c j.
Proof. intros c j. unfold tr_length. destruct (_ =? _)%nat; [apply sqrt_lt_R0|]; lra. Qed.
Example tr_good : forall c, (c < 2)%nat -> good_triangle (tr_geometry c).
Proof.
  intros c Hc. constructor.
  - constructor; cbn; repeat split; lia.
  - intros i Hi. pose proof (tr_length_pos c i) as L. cbn [tr_geometry pg_Vertices pg_EdgesLength pg_EdgesNormal v_at]. rewrite Rabs_right by lra. cbn [tr_normals m_at].
    cbn in Hi. assert (F : following 3 i = ((i + 1) mod 3)%nat) by (destruct i as [|[|[|i]]]; [reflexivity|reflexivity|reflexivity|lia]). change (m_cols (tr_vertices c)) with 3%nat. rewrite F. unfold tr_tangents. cbn [m_at]. cbv zeta. split; field; lra.
  - reflexivity.
  - intros i Hi. reflexivity.
  - destruct c as [|[|c]]; [| |lia]; unfold signed_area, cross; cbn; lra.
Qed.
Example tr_reference : exists ref, Tri_Create 2 = Ok ref /\ ft_NumBasisFunctions ref = 6%nat.
Proof. destruct (C41_all 2 ltac:(lia)) as (ref & E & _ & N & _). exists ref. split; [exact E|]. lia. Qed.
Example tr_edge : forall junk, exists edge, FEM_1D_Create junk (fun _ => vzero 0) 2 Equispaced = Ok edge.
Proof. intros junk. destruct (C40_dofs_all junk (fun _ => vzero 0) 2 Equispaced ltac:(lia) ltac:(discriminate)) as (edge & E & _). exists edge. exact E. Qed.
Example tr_fem : forall junk ref edge, Tri_Create 2 = Ok ref -> ft_NumBasisFunctions ref = 6%nat -> FEM_1D_Create junk (fun _ => vzero 0) 2 Equispaced = Ok edge ->
  fem_mesh collapsed_rule junk (fun _ => vzero 0) 2 edge ref tr_m tr_info tr_geometry.
Proof.
  intros junk ref edge E N EE. constructor.
  - lia.
  - apply collapsed_exact.
  - apply collapsed_exact.
  - exact E.
  - rewrite N. unfold UINT_MAX. lia.
  - exact EE.
  - reflexivity.
  - exact tr_good.
  - intros c Hc. cbn in Hc. split; [destruct c as [|[|c]]; [reflexivity|reflexivity|lia]|]. split; [|split].
    + intros i d Hi Hd. reflexivity.
    + intros i d Hi Hd. reflexivity.
    + intros i Hi. cbn in Hi. destruct c as [|[|c]]; [| |lia]; (destruct i as [|[|[|i]]]; [| | |lia]); split; reflexivity.
  - intros c Hc. cbn in Hc. destruct c as [|[|c]]; [reflexivity|reflexivity|lia].
  - intros c v Hc Hv. cbn in Hc. destruct c as [|[|c]]; [| |lia]; cbn in Hv; repeat (destruct Hv as [<-|Hv]; [reflexivity|]); destruct Hv.
  - intros c v Hc Hv. cbn in Hc. destruct c as [|[|c]]; [| |lia]; cbn in Hv; repeat (destruct Hv as [<-|Hv]; [reflexivity|]); destruct Hv.
  - intros c Hc. cbn in Hc. destruct c as [|[|c]]; [reflexivity|reflexivity|lia].
Qed.
Example tr_closed : closed_boundary tr_info tr_mesh tr_geometry.
Proof.
  intros ci H. cbn in H. repeat (destruct H as [<-|H]; [cbn; intros W; try discriminate; try (left; reflexivity); right; repeat split|]). destruct H.
Qed.
Example tr_neumann : neumann_data tr_info tr_mesh tr_geometry sq_g0 sq_g1 sq_h.
Proof.
  intros c i t H. cbn in H. repeat (destruct H as [E|H]; [injection E as <- <-; cbn -[Rplus Rmult Rminus Rdiv]; intros W; try discriminate; unfold DriverSpec.at_point, sq_h, sq_g0, sq_g1, tr_length; cbn -[Rplus Rmult Rminus Rdiv]; field|]). destruct H.
Qed.
Example tr_positive : positive_weights collapsed_rule.
Proof. exact (proj1 sq_positive). Qed.
Example tr_anchored : forall c, (c < Cell2Ds_number (md_mesh tr_m))%nat -> anchored tr_info (md_mesh tr_m) c.
Proof. intros c Hc. cbn in Hc. apply (anchored_strong _ _ c 0); [cbn; lia| |reflexivity]. destruct c as [|[|c]]; [cbn; auto|cbn; auto|lia]. Qed.
Example tr_covered : covered tr_info (md_mesh tr_m).
Proof.
  split; intros e He _; vm_compute in He.
  - do 4 (destruct e as [|e]; [first [exists 0%nat; split; [cbn; lia|cbn; tauto]|exists 1%nat; split; [cbn; lia|cbn; tauto]]|]). lia.
  - do 5 (destruct e as [|e]; [first [exists 0%nat; split; [cbn; lia|cbn; tauto]|exists 1%nat; split; [cbn; lia|cbn; tauto]]|]). lia.
Qed.
Example tr_dirichlet : dirichlet_data tr_info (md_mesh tr_m) sq_p sq_g.
Proof.
  split.
  - intros d e x y z Hd H. destruct d as [|[|d]]; [| |lia].
    + do 4 (destruct e as [|e]; [first [reflexivity|discriminate H]|]). destruct e; discriminate H.
    + do 5 (destruct e as [|e]; [first [reflexivity|discriminate H]|]). destruct e; discriminate H.
  - intros c Hc H. cbn in Hc. destruct c as [|[|c]]; [discriminate H|discriminate H|lia].
Qed.
(** the reaction 1 + x^2 *)
Definition tr_reaction (x y z : R) : R := 1 + x * x.
Example tr_absorbing : absorbing (Some tr_reaction).
Proof. intros f [= <-] x y z. pose proof (Rle_0_sqr x) as S. unfold Rsqr in S. unfold tr_reaction. lra. Qed.
Example tr_solves : solves_equation sq_K (Some sq_advection) (Some tr_reaction) (fun x y z => sq_f x y z + (1 + x * x) * sq_p x y) sq_p sq_px sq_py sq_g0 (fun _ _ => 5) (fun _ _ => 2) sq_g1 (fun _ _ => 5) (fun _ _ => 1).
Proof. constructor; intros; unfold sq_K, sq_advection, tr_reaction, sq_f, sq_p, sq_px, sq_py, sq_g0, sq_g1; ring. Qed.
Example tr_solves_symmetric : solves_equation sq_K None (Some tr_reaction) (fun x y z => - 6 + (1 + x * x) * sq_p x y) sq_p sq_px sq_py sq_g0 (fun _ _ => 5) (fun _ _ => 2) sq_g1 (fun _ _ => 5) (fun _ _ => 1).
Proof. constructor; intros; unfold sq_K, tr_reaction, sq_p, sq_px, sq_py, sq_g0, sq_g1; ring. Qed.

Example C106_case : forall junk, exists edge ref uD uS rL, fem_mesh collapsed_rule junk (fun _ => vzero 0) 2 edge ref tr_m tr_info tr_geometry /\
  let create := fem_create junk collapsed_rule edge ref tr_geometry in
  evaluate_function_on_dofs tr_m tr_data 2 create (planar sq_p) = Ok (uD, uS) /\ length uD = 6%nat /\
  compute_error_L2 tr_m tr_data create uD uS (Some (planar sq_p)) = Ok rL /\ pe_error rL = 0.
Proof.
  intros junk. destruct tr_reference as (ref & E & N). destruct (tr_edge junk) as (edge & EE). pose proof (tr_fem junk ref edge E N EE) as VM.
  destruct (C106_fem_interpolation _ junk _ 2 edge ref tr_m tr_info tr_geometry tr_data VM tr_created sq_p) as (uD & uS & Ev & LD & _ & H). destruct (H _ _ sq_poly) as (rL & rH & E1 & Z1 & _).
  exists edge, ref, uD, uS, rL. split; [exact VM|]. split; [exact Ev|]. split; [rewrite LD; apply tr_numbers|]. split; [exact E1|exact Z1].
Qed.
Example C107_case : forall junk, exists edge ref s b w uD uS, let create := fem_create junk collapsed_rule edge ref tr_geometry in
  assemble_elliptic_operator tr_m tr_data tr_data create create (Some sq_K) (Some sq_advection) (Some tr_reaction) = Ok s /\
  assemble_source_term tr_m tr_data create create (fun x y z => sq_f x y z + (1 + x * x) * sq_p x y) = Ok b /\ assemble_weak_term tr_m tr_info tr_data tr_geometry simpson_rule create sq_h = Ok w /\
  evaluate_function_on_dofs tr_m tr_data 2 create (planar sq_p) = Ok (uD, uS) /\ forall r, operator_row s uD uS r = nth r b 0 + nth r w 0.
Proof.
  intros junk. destruct tr_reference as (ref & E & N). destruct (tr_edge junk) as (edge & EE). exists edge, ref.
  destruct (C107_fem_patch _ junk _ 2 edge ref tr_m tr_info tr_geometry tr_data (tr_fem junk ref edge E N EE) tr_created sq_K (Some sq_advection) (Some tr_reaction) (fun x y z => sq_f x y z + (1 + x * x) * sq_p x y) sq_h simpson_rule sq_p sq_px sq_py
    sq_g0 (fun _ _ => 5) (fun _ _ => 2) sq_g1 (fun _ _ => 5) (fun _ _ => 1) (fun _ _ => eq_refl) sq_poly sq_flux0 sq_flux1 tr_solves tr_closed tr_neumann sq_interval)
    as (s & b & w & uD & uS & E1 & E2 & E3 & E4 & _ & _ & H). exists s, b, w, uD, uS. repeat (split; [assumption|]). exact H.
Qed.
Example C108_case : forall junk, exists edge ref s, let create := fem_create junk collapsed_rule edge ref tr_geometry in
  assemble_elliptic_operator tr_m tr_data tr_data create create (Some sq_K) None (Some tr_reaction) = Ok s /\
  forall uD, length uD = 6%nat -> (exists r, nth r uD 0 <> 0) -> 0 < energy 6 s uD.
Proof.
  intros junk. destruct tr_reference as (ref & E & N). destruct (tr_edge junk) as (edge & EE). exists edge, ref.
  destruct (C108_fem_one_solution _ junk _ 2 edge ref tr_m tr_info tr_geometry tr_data (tr_fem junk ref edge E N EE) tr_created sq_K (Some tr_reaction) (fun _ _ => eq_refl) sq_elliptic tr_absorbing tr_positive tr_anchored tr_covered) as (s & E1 & H & _).
  exists s. split; [exact E1|]. destruct tr_numbers as [NN _]. rewrite NN in H. exact H.
Qed.
Example C109_case : forall junk, exists edge ref s b w uD uS, let create := fem_create junk collapsed_rule edge ref tr_geometry in
  assemble_elliptic_operator tr_m tr_data tr_data create create (Some sq_K) None (Some tr_reaction) = Ok s /\
  assemble_source_term tr_m tr_data create create (fun x y z => - 6 + (1 + x * x) * sq_p x y) = Ok b /\ assemble_weak_term tr_m tr_info tr_data tr_geometry simpson_rule create sq_h = Ok w /\
  assemble_strong_solution tr_m tr_info tr_data 2 create sq_g = Ok uS /\ solves_system s b w uD uS 6.
Proof.
  intros junk. destruct tr_reference as (ref & E & N). destruct (tr_edge junk) as (edge & EE). exists edge, ref.
  destruct (C109_fem_exact _ junk _ 2 edge ref tr_m tr_info tr_geometry tr_data (tr_fem junk ref edge E N EE) tr_created sq_K (Some tr_reaction) (fun x y z => - 6 + (1 + x * x) * sq_p x y) sq_h sq_g simpson_rule sq_p sq_px sq_py
    sq_g0 (fun _ _ => 5) (fun _ _ => 2) sq_g1 (fun _ _ => 5) (fun _ _ => 1) (fun _ _ => eq_refl) sq_elliptic tr_absorbing tr_positive tr_anchored tr_covered
    sq_poly sq_flux0 sq_flux1 tr_solves_symmetric tr_closed tr_neumann tr_dirichlet sq_interval)
    as (s & b & w & uD & uS & E1 & E2 & E3 & E4 & H & _). destruct tr_numbers as [NN _]. rewrite NN in H. exists s, b, w, uD, uS. repeat (split; [assumption|]). exact H.
Qed.
