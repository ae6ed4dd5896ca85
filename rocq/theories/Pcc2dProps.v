(** Properties C101 to C105: the drivers of the plane on whole problems: what fails with ZFEM, unknowns of a function, patch test,
    one solution, exact solution. *)
From Coq Require Import List Arith Bool Reals Lra Lia Permutation.
From Verif Require Import Base RSum MatrixModel DofsModel DofsSpec AssemblerModel AssemblerSpec EquationSpec VemQuadModel VemQuadSpec GreenSpec GreenProofs VemModel VemSpec ZfemModel GaussModel DriverModel DriverSpec
  DriverSpec2 Pcc2dModel Pcc2dSpec Pcc2dProofs3 Pcc2dProofs6 Pcc2dProofs7 Pcc2dProofs8 DofsProps VemQuadProps VemProps.
Import ListNotations.
Local Open Scope R_scope.

(** C101: with the zipped element on an active cell the operator and the source are never assembled *)
Theorem C101_zfem : forall m trial test create_trial create_test c,
  (c < Cell2Ds_number (md_mesh m))%nat -> md_active2 m c = true ->
  (forall sp, create_test c = Ok sp -> exists ref p tangents l Q points edge_points on_edge, sp = ZFEM_space ref p tangents l Q points edge_points on_edge) ->
  (forall diffusion advection reaction s, assemble_elliptic_operator m trial test create_trial create_test diffusion advection reaction <> Ok s) /\
  forall f b, assemble_source_term m test create_trial create_test f <> Ok b.
Proof.
  intros m trial test ct cs c Hc Ha HZ. split.
  - intros dif adv rea s. exact (zfem_elliptic m trial test ct cs c dif adv rea s Hc Ha HZ).
  - intros f b. exact (zfem_source m test ct cs c f b Hc Ha HZ).
Qed.

(** C102: the unknowns of a function are computed on every mesh; those of a polynomial of degree at most k have no error *)
Theorem C102_interpolation : forall gauss_triangle lobatto junk lu llt k ref m info geometry data,
  vem_mesh gauss_triangle lobatto lu llt k ref m info geometry -> CreateDOFs 2 info (md_mesh m) = Ok data ->
  let create := Create_VEM junk lu llt ref geometry in
  forall p, exists uD uS, evaluate_function_on_dofs m data k create (planar p) = Ok (uD, uS) /\ length uD = NumberDOFs data /\ length uS = NumberStrongs data /\
    forall px py, poly2 k p px py -> exists rL rH,
      compute_error_L2 m data create uD uS (Some (planar p)) = Ok rL /\ pe_error rL = 0 /\
      compute_error_H1 m data create uD uS (Some (planar_gradient px py)) = Ok rH /\ pe_error rH = 0.
Proof.
  intros gt lob junk lu llt k ref m info geometry data VM HC create p.
  destruct (interpolant gt lob junk lu llt k ref m info geometry VM data HC p) as (uD & uS & E & LD & LS & HU). exists uD, uS. split; [exact E|]. split; [exact LD|]. split; [exact LS|].
  intros px py Pp. exact (zero_errors gt lob junk lu llt k ref m info geometry VM data HC p px py uD uS Pp HU).
Qed.

(** C103: the patch test *)
Theorem C103_patch : forall gauss_triangle lobatto junk lu llt k ref m info geometry data,
  vem_mesh gauss_triangle lobatto lu llt k ref m info geometry -> CreateDOFs 2 info (md_mesh m) = Ok data ->
  let create := Create_VEM junk lu llt ref geometry in
  forall K advection reaction f h gauss p px py g0 g0x g0y g1 g1x g1y,
  (forall c, (c < Cell2Ds_number (md_mesh m))%nat -> md_active2 m c = true) ->
  poly2 k p px py -> poly2 (k - 1) g0 g0x g0y -> poly2 (k - 1) g1 g1x g1y ->
  solves_equation K advection reaction f p px py g0 g0x g0y g1 g1x g1y -> (reaction = None \/ poly2 (k - 1) p px py) ->
  closed_boundary info (md_mesh m) geometry -> neumann_data info (md_mesh m) geometry g0 g1 h -> exact_interval (2 * k - 1) gauss ->
  exists s b w uD uS, assemble_elliptic_operator m data data create create (Some K) advection reaction = Ok s /\
    assemble_source_term m data create create f = Ok b /\ assemble_weak_term m info data geometry gauss create h = Ok w /\
    evaluate_function_on_dofs m data k create (planar p) = Ok (uD, uS) /\ length uD = NumberDOFs data /\ length uS = NumberStrongs data /\
    forall r, operator_row s uD uS r = nth r b 0 + nth r w 0.
Proof. intros gt lob junk lu llt k ref m info geometry data VM HC. exact (patch gt lob junk lu llt k ref m info geometry VM data HC). Qed.

(** C104: the operator is positive definite, every assembled system has one solution *)
Theorem C104_one_solution : forall gauss_triangle lobatto junk lu llt k ref m info geometry data,
  vem_mesh gauss_triangle lobatto lu llt k ref m info geometry -> CreateDOFs 2 info (md_mesh m) = Ok data ->
  let create := Create_VEM junk lu llt ref geometry in
  forall K reaction, (forall c, (c < Cell2Ds_number (md_mesh m))%nat -> md_active2 m c = true) ->
  elliptic K -> absorbing reaction -> positive_rules gauss_triangle k m geometry ->
  (forall c, (c < Cell2Ds_number (md_mesh m))%nat -> anchored info (md_mesh m) c) -> covered info (md_mesh m) ->
  exists s, assemble_elliptic_operator m data data create create (Some K) None reaction = Ok s /\
    (forall uD, length uD = NumberDOFs data -> (exists r, nth r uD 0 <> 0) -> 0 < energy (NumberDOFs data) s uD) /\
    forall b w uS, exists uD, solves_system s b w uD uS (NumberDOFs data) /\ forall vD, solves_system s b w vD uS (NumberDOFs data) -> vD = uD.
Proof.
  intros gt lob junk lu llt k ref m info geometry data VM HC create K rea ACT EK AB PR AN CO.
  destruct (definite gt lob junk lu llt k ref m info geometry VM data HC K rea ACT EK AB PR AN CO) as (s & E & H). exists s. split; [exact E|]. split.
  - intros uD LD (r & Hr). destruct (H uD LD) as [[H0|H0] H1]; [exact H0|]. exfalso. apply Hr. apply H1. symmetry. exact H0.
  - apply definite_solvable. intros uD LD. apply H. exact LD.
Qed.

(** C105: when the exact solution is a polynomial of degree at most k the computed solution is exact *)
Theorem C105_exact : forall gauss_triangle lobatto junk lu llt k ref m info geometry data,
  vem_mesh gauss_triangle lobatto lu llt k ref m info geometry -> CreateDOFs 2 info (md_mesh m) = Ok data ->
  let create := Create_VEM junk lu llt ref geometry in
  forall K reaction f h g gauss p px py g0 g0x g0y g1 g1x g1y,
  (forall c, (c < Cell2Ds_number (md_mesh m))%nat -> md_active2 m c = true) ->
  elliptic K -> absorbing reaction -> positive_rules gauss_triangle k m geometry ->
  (forall c, (c < Cell2Ds_number (md_mesh m))%nat -> anchored info (md_mesh m) c) -> covered info (md_mesh m) ->
  poly2 k p px py -> poly2 (k - 1) g0 g0x g0y -> poly2 (k - 1) g1 g1x g1y ->
  solves_equation K None reaction f p px py g0 g0x g0y g1 g1x g1y -> (reaction = None \/ poly2 (k - 1) p px py) ->
  closed_boundary info (md_mesh m) geometry -> neumann_data info (md_mesh m) geometry g0 g1 h -> dirichlet_data info (md_mesh m) p g -> exact_interval (2 * k - 1) gauss ->
  exists s b w uD uS, assemble_elliptic_operator m data data create create (Some K) None reaction = Ok s /\
    assemble_source_term m data create create f = Ok b /\ assemble_weak_term m info data geometry gauss create h = Ok w /\
    assemble_strong_solution m info data k create g = Ok uS /\
    solves_system s b w uD uS (NumberDOFs data) /\ (forall vD, solves_system s b w vD uS (NumberDOFs data) -> vD = uD) /\
    exists rL rH, compute_error_L2 m data create uD uS (Some (planar p)) = Ok rL /\ pe_error rL = 0 /\
      compute_error_H1 m data create uD uS (Some (planar_gradient px py)) = Ok rH /\ pe_error rH = 0.
Proof. intros gt lob junk lu llt k ref m info geometry data VM HC. exact (exact_solution gt lob junk lu llt k ref m info geometry VM data HC). Qed.

Print Assumptions C101_zfem.
Print Assumptions C102_interpolation.
Print Assumptions C103_patch.
Print Assumptions C104_one_solution.
Print Assumptions C105_exact.

(** ** Examples: two unit squares sharing edge 1, order 2; the left side is Strong, the other three are Weak *)
Definition sq_mesh : Mesh := {|
  Cell0Ds_number := 6; Cell1Ds_number := 7; Cell2Ds_number := 2; Cell3Ds_number := 0;
  Cell0D_marker := fun c => nth c [1; 0; 0; 1; 0; 0]%nat 0%nat;
  Cell1D_marker := fun c => nth c [3; 0; 5; 1; 3; 4; 5]%nat 0%nat;
  Cell2D_marker := fun _ => 0%nat; Cell3D_marker := fun _ => 0%nat;
  Cell1D_vertices := fun c => nth c [[0;1]; [1;4]; [4;3]; [3;0]; [1;2]; [2;5]; [5;4]]%nat [];
  Cell2D_vertices := fun c => nth c [[0;1;4;3]; [1;2;5;4]]%nat [];
  Cell2D_edges := fun c => nth c [[0;1;2;3]; [4;5;6;1]]%nat [];
  Cell3D_vertices := fun _ => []; Cell3D_edges := fun _ => []; Cell3D_faces := fun _ => [] |}.
Definition sq_const : ConstantDOFsInfo := {|
  NumDOFs := fun _ => 1%nat;
  BoundaryMap := fun m => match m with
    | 0%nat => Some {| bi_type := BNone; bi_marker := 0 |}
    | 1%nat => Some {| bi_type := BStrong; bi_marker := 1 |}
    | 3%nat => Some {| bi_type := BWeak; bi_marker := 3 |}
    | 4%nat => Some {| bi_type := BWeak; bi_marker := 4 |}
    | 5%nat => Some {| bi_type := BWeak; bi_marker := 5 |}
    | _ => None end |}.
Definition sq_info : MeshDOFsInfo := match Create_Constant_DOFsInfo 2 sq_mesh sq_const with Ok i => i | _ => empty_info end.
Definition sq_data : DOFsData := match CreateDOFs 2 sq_info sq_mesh with Ok d => d | _ => empty_dofs end.
Example sq_created : CreateDOFs 2 sq_info sq_mesh = Ok sq_data.
Proof. apply is_Ok_eq. vm_compute. reflexivity. Qed.
Example sq_numbers : NumberDOFs sq_data = 12%nat /\ NumberStrongs sq_data = 3%nat.
Proof. vm_compute. auto. Qed.
Definition sq_coords (v d : nat) : R := match d with 0%nat => INR (v mod 3) | 1%nat => INR (v / 3) | _ => 0 end.
Definition sq_m : Mesh2D := {| md_mesh := sq_mesh; md_active0 := fun _ => true; md_active2 := fun _ => true; md_coords := sq_coords |}.

Definition sq_vertices (c : nat) : Mat := {| m_rows := 3; m_cols := 4; m_at := fun d j => match d with
  | 0%nat => INR c + (match j with 1%nat | 2%nat => 1 | _ => 0 end) | 1%nat => match j with 2%nat | 3%nat => 1 | _ => 0 end | _ => 0 end |}.
Definition sq_tangents : Mat := {| m_rows := 3; m_cols := 4; m_at := fun d j =>
  match d, j with 0%nat, 0%nat => 1 | 1%nat, 1%nat => 1 | 0%nat, 2%nat => -1 | 1%nat, 3%nat => -1 | _, _ => 0 end |}.
Definition sq_normals : Mat := {| m_rows := 3; m_cols := 4; m_at := fun d j =>
  match d, j with 1%nat, 0%nat => -1 | 0%nat, 1%nat => 1 | 1%nat, 2%nat => 1 | 0%nat, 3%nat => -1 | _, _ => 0 end |}.
Definition sq_triangle (c a b d : nat) : Mat := {| m_rows := 3; m_cols := 3; m_at := fun i j => m_at (sq_vertices c) i (match j with 0%nat => a | 1%nat => b | _ => d end) |}.
Definition sq_geometry (c : nat) : Polygon := {| pg_Vertices := sq_vertices c; pg_Centroid := fun d => match d with 0%nat => INR c + 1/2 | 1%nat => 1/2 | _ => 0 end;
  pg_Measure := 1; pg_Diameter := 3/2; pg_TriangulationVertices := [sq_triangle c 0 1 2; sq_triangle c 0 2 3]; pg_EdgesLength := {| v_size := 4; v_at := fun _ => 1 |};
  pg_EdgesDirection := [true; true; true; match c with 0%nat => true | _ => false end]; pg_EdgesTangent := sq_tangents; pg_EdgesNormal := sq_normals |}.

Example sq_good : forall c, good_polygon (sq_geometry c).
Proof.
  intros c. constructor; cbn; try lra.
  - constructor; cbn; repeat split; lia.
  - intros i d Hi Hd. cbn in Hi. four i; (destruct d as [|[|[|d]]]; [| | |lia]); cbn; lra.
  - intros i Hi. cbn in Hi. four i; cbn; rewrite Rabs_right by lra; lra.
  - split; [repeat constructor|]. split. { repeat constructor; unfold signed_area, cross; cbn; lra. }
    exists [(col2 (sq_vertices c) 2, col2 (sq_vertices c) 0)].
    unfold polygon_sides, sides, col2. cbn.
    set (a := (INR c + 0, 0)). set (b := (INR c + 1, 0)). set (d := (INR c + 1, 1)). set (e := (INR c + 0, 1)). unfold reverse_side. cbn [fst snd].
    apply perm_skip, perm_skip.
    apply perm_trans with [(d, a); (d, e); (a, d); (e, a)]; [apply perm_skip, perm_swap|].
    apply perm_trans with [(d, e); (d, a); (a, d); (e, a)]; [apply perm_swap|]. apply perm_skip.
    apply (Permutation_app_comm [(d, a); (a, d)] [(e, a)]).
  - unfold shoelace. cbn. lra.
Qed.

(** a rule of degree 4 with positive weights: the points (u, (1 - u) v), u and v those of Boole's rule *)
Definition collapsed_x : list R := [0;0;0;0;0;1;1;1;1;1;2;2;2;2;2;3;3;3;3;3].
Definition collapsed_y : list R := [0;4;8;12;16;0;3;6;9;12;0;2;4;6;8;0;1;2;3;4].
Definition collapsed_w : list R := [196;896;336;896;196;672;3072;1152;3072;672;168;768;288;768;168;224;1024;384;1024;224].
Definition collapsed_rule : QuadratureData := {|
  q_Points := {| m_rows := 3; m_cols := 20; m_at := fun d j => match d with 0%nat => nth j collapsed_x 0 / 4 | 1%nat => nth j collapsed_y 0 / 16 | _ => 0 end |};
  q_Weights := {| v_size := 20; v_at := fun j => nth j collapsed_w 0 / 32400 |} |}.
Example collapsed_exact : rule collapsed_rule /\ exact_triangle 4 collapsed_rule.
Proof.
  split; [split; reflexivity|]. intros a b H. destruct a as [|[|[|[|[|a]]]]]; try lia; destruct b as [|[|[|[|[|b]]]]]; try lia; unfold apply_rule; cbn; field.
Qed.
Example collapsed_good : good_rules (fun _ => collapsed_rule) (fun _ => simpson_rule) 2.
Proof.
  constructor; cbn; try lra; try reflexivity.
  - apply collapsed_exact.
  - apply collapsed_exact.
  - split; reflexivity.
  - intros a H. four a; unfold apply_rule; cbn; field.
Qed.
Example sq_reference : exists ref, VEM_PCC_2D_Create (fun _ => collapsed_rule) (fun _ => simpson_rule) 2 = Ok ref.
Proof.
  destruct (C69_space_exists (fun _ => collapsed_rule) (fun _ => simpson_rule) (fun _ _ => 0) gauss_solver gauss_solver 2 (sq_geometry 0) ltac:(lia) collapsed_good (sq_good 0) gauss_nonsingular gauss_positive) as (ref & l & VS).
  exists ref. apply VS.
Qed.
Example sq_vem : forall ref, VEM_PCC_2D_Create (fun _ => collapsed_rule) (fun _ => simpson_rule) 2 = Ok ref ->
  vem_mesh (fun _ => collapsed_rule) (fun _ => simpson_rule) gauss_solver gauss_solver 2 ref sq_m sq_info sq_geometry.
Proof.
  intros ref E. constructor.
  - lia.
  - exact collapsed_good.
  - exact gauss_nonsingular.
  - exact gauss_positive.
  - exact E.
  - reflexivity.
  - intros c _. apply sq_good.
  - intros c Hc. cbn in Hc. split; [destruct c as [|[|c]]; [reflexivity|reflexivity|lia]|]. split; [|split].
    + intros i d Hi Hd. cbn in Hi. destruct c as [|[|c]]; [| |lia]; four i; (destruct d as [|[|[|d]]]; [| | |lia]); cbn; lra.
    + intros i d Hi Hd. cbn in Hi. four i; (destruct d as [|[|[|d]]]; [| | |lia]); cbn; lra.
    + intros i Hi. cbn in Hi. destruct c as [|[|c]]; [| |lia]; four i; split; reflexivity.
  - intros c Hc. cbn in Hc. destruct c as [|[|c]]; [reflexivity|reflexivity|lia].
  - intros c v Hc Hv. cbn in Hc. destruct c as [|[|c]]; [| |lia]; cbn in Hv; repeat (destruct Hv as [<-|Hv]; [reflexivity|]); destruct Hv.
  - intros c v Hc Hv. cbn in Hc. destruct c as [|[|c]]; [| |lia]; cbn in Hv; repeat (destruct Hv as [<-|Hv]; [reflexivity|]); destruct Hv.
  - intros c Hc. cbn in Hc. destruct c as [|[|c]]; [reflexivity|reflexivity|lia].
Qed.

(** the solution x^2 + x y, the constant tensor (2 1; 1 3), the flux (5 x + 2 y, 5 x + y) *)
Definition sq_p (x y : R) : R := x * x + x * y.
Definition sq_px (x y : R) : R := 2 * x + y.
Definition sq_py (x y : R) : R := x.
Definition sq_K (x y z : R) (d : nat) : R := match d with 0%nat => 2 | 1%nat => 1 | 3%nat => 1 | 4%nat => 3 | _ => 0 end.
Definition sq_g0 (x y : R) : R := 5 * x + 2 * y.
Definition sq_g1 (x y : R) : R := 5 * x + y.
Definition sq_advection (x y z : R) (d : nat) : R := match d with 0%nat => y | 1%nat => x * x | _ => 0 end.
Definition sq_f (x y z : R) : R := - 6 + y * (2 * x + y) + x * x * x.
Definition sq_h (marker : nat) (x y z : R) : R := match marker with 3%nat => - sq_g1 x y | 4%nat => sq_g0 x y | 5%nat => sq_g1 x y | _ => 0 end.
Example sq_poly : poly2 2 sq_p sq_px sq_py.
Proof.
  eapply poly2_ext; [apply (poly2_add 2 _ _ _ _ _ _ (poly2_mono 2 2 0 ltac:(lia)) (poly2_mono 2 1 1 ltac:(lia)))| | |]; intros; unfold sq_p, sq_px, sq_py; cbn; ring.
Qed.
Example sq_flux0 : poly2 (2 - 1) sq_g0 (fun _ _ => 5) (fun _ _ => 2).
Proof. eapply poly2_ext; [apply (poly2_affine 1 0 5 2); lia| | |]; intros; unfold sq_g0; ring. Qed.
Example sq_flux1 : poly2 (2 - 1) sq_g1 (fun _ _ => 5) (fun _ _ => 1).
Proof. eapply poly2_ext; [apply (poly2_affine 1 0 5 1); lia| | |]; intros; unfold sq_g1; ring. Qed.
Example sq_solves : solves_equation sq_K (Some sq_advection) None sq_f sq_p sq_px sq_py sq_g0 (fun _ _ => 5) (fun _ _ => 2) sq_g1 (fun _ _ => 5) (fun _ _ => 1).
Proof. constructor; intros; unfold sq_K, sq_advection, sq_f, sq_p, sq_px, sq_py, sq_g0, sq_g1; ring. Qed.
Example sq_solves_diffusion : solves_equation sq_K None None (fun _ _ _ => - 6) sq_p sq_px sq_py sq_g0 (fun _ _ => 5) (fun _ _ => 2) sq_g1 (fun _ _ => 5) (fun _ _ => 1).
Proof. constructor; intros; unfold sq_K, sq_p, sq_px, sq_py, sq_g0, sq_g1; ring. Qed.
Example sq_closed : closed_boundary sq_info sq_mesh sq_geometry.
Proof.
  intros ci H. cbn in H. repeat (destruct H as [<-|H]; [cbn; intros W; try discriminate; try (left; reflexivity); right; repeat split|]). destruct H.
Qed.
Example sq_neumann : neumann_data sq_info sq_mesh sq_geometry sq_g0 sq_g1 sq_h.
Proof.
  intros c i t H. cbn in H. repeat (destruct H as [E|H]; [injection E as <- <-; cbn -[Rplus Rmult]; intros W; try discriminate; unfold at_point, sq_h; ring|]). destruct H.
Qed.
Example sq_interval : exact_interval (2 * 2 - 1) simpson_rule.
Proof. split; [reflexivity|]. intros a H. four a; unfold apply_rule; cbn; field. Qed.
Example sq_positive : positive_rules (fun _ => collapsed_rule) 2 sq_m sq_geometry.
Proof.
  split.
  - intros q Hq. cbn in Hq. do 20 (destruct q as [|q]; [cbn; lra|]). lia.
  - intros c T Hc HT. cbn in HT. destruct HT as [<-|[<-|[]]]; unfold signed_area, cross; cbn; lra.
Qed.
Example sq_anchored : forall c, (c < Cell2Ds_number (md_mesh sq_m))%nat -> anchored sq_info (md_mesh sq_m) c.
Proof.
  intros c Hc. cbn in Hc. assert (A : anchored sq_info (md_mesh sq_m) 0) by (apply (anchored_strong _ _ 0 0); [cbn; lia|cbn; auto|reflexivity]).
  destruct c as [|[|c]]; [exact A| |lia]. apply (anchored_next _ _ 0 1 4); [exact A|cbn; lia|cbn; auto|cbn; auto].
Qed.
Example sq_covered : covered sq_info (md_mesh sq_m).
Proof.
  split; intros e He _; vm_compute in He.
  - do 6 (destruct e as [|e]; [first [exists 0%nat; split; [cbn; lia|cbn; tauto]|exists 1%nat; split; [cbn; lia|cbn; tauto]]|]). lia.
  - do 7 (destruct e as [|e]; [first [exists 0%nat; split; [cbn; lia|cbn; tauto]|exists 1%nat; split; [cbn; lia|cbn; tauto]]|]). lia.
Qed.
Example sq_elliptic : elliptic sq_K.
Proof.
  intros x y z a b H. cbn. assert (0 <= (a + b) * (a + b)) by (apply Rle_0_sqr). assert (0 <= a * a) by (apply Rle_0_sqr). assert (0 <= b * b) by (apply Rle_0_sqr).
  destruct H as [H|H]; [assert (0 < a * a) by (apply (Rlt_0_sqr a H))|assert (0 < b * b) by (apply (Rlt_0_sqr b H))]; lra.
Qed.
Definition sq_g (marker : nat) (x y z : R) : R := match marker with 1%nat => sq_p x y | _ => 0 end.
Example sq_dirichlet : dirichlet_data sq_info (md_mesh sq_m) sq_p sq_g.
Proof.
  split.
  - intros d e x y z Hd H. destruct d as [|[|d]]; [| |lia].
    + do 6 (destruct e as [|e]; [first [reflexivity|discriminate H]|]). destruct e; discriminate H.
    + do 7 (destruct e as [|e]; [first [reflexivity|discriminate H]|]). destruct e; discriminate H.
  - intros c Hc H. cbn in Hc. destruct c as [|[|c]]; [discriminate H|discriminate H|lia].
Qed.

(** a space of the zipped element on every cell of the two squares *)
Example C101_case : forall ref p tangents l Q points edge_points on_edge f b,
  assemble_source_term sq_m sq_data (fun _ => Ok (ZFEM_space ref p tangents l Q points edge_points on_edge)) (fun _ => Ok (ZFEM_space ref p tangents l Q points edge_points on_edge)) f <> Ok b.
Proof.
  intros ref p tangents l Q points edge_points on_edge. apply (C101_zfem sq_m sq_data sq_data _ _ 0); [cbn; lia|reflexivity|]. intros sp [= <-]. repeat eexists.
Qed.
Example C102_case : forall junk, exists ref uD uS rL, vem_mesh (fun _ => collapsed_rule) (fun _ => simpson_rule) gauss_solver gauss_solver 2 ref sq_m sq_info sq_geometry /\
  evaluate_function_on_dofs sq_m sq_data 2 (Create_VEM junk gauss_solver gauss_solver ref sq_geometry) (planar sq_p) = Ok (uD, uS) /\ length uD = 12%nat /\
  compute_error_L2 sq_m sq_data (Create_VEM junk gauss_solver gauss_solver ref sq_geometry) uD uS (Some (planar sq_p)) = Ok rL /\ pe_error rL = 0.
Proof.
  intros junk. destruct sq_reference as (ref & E). pose proof (sq_vem ref E) as VM.
  destruct (C102_interpolation _ _ junk _ _ 2 ref sq_m sq_info sq_geometry sq_data VM sq_created sq_p) as (uD & uS & Ev & LD & _ & H). destruct (H _ _ sq_poly) as (rL & rH & E1 & Z1 & _).
  exists ref, uD, uS, rL. split; [exact VM|]. split; [exact Ev|]. split; [rewrite LD; apply sq_numbers|]. split; [exact E1|exact Z1].
Qed.
Example C103_case : forall junk, exists ref s b w uD uS, let create := Create_VEM junk gauss_solver gauss_solver ref sq_geometry in
  assemble_elliptic_operator sq_m sq_data sq_data create create (Some sq_K) (Some sq_advection) None = Ok s /\
  assemble_source_term sq_m sq_data create create sq_f = Ok b /\ assemble_weak_term sq_m sq_info sq_data sq_geometry simpson_rule create sq_h = Ok w /\
  evaluate_function_on_dofs sq_m sq_data 2 create (planar sq_p) = Ok (uD, uS) /\ forall r, operator_row s uD uS r = nth r b 0 + nth r w 0.
Proof.
  intros junk. destruct sq_reference as (ref & E). exists ref.
  destruct (C103_patch _ _ junk _ _ 2 ref sq_m sq_info sq_geometry sq_data (sq_vem ref E) sq_created sq_K (Some sq_advection) None sq_f sq_h simpson_rule sq_p sq_px sq_py
    sq_g0 (fun _ _ => 5) (fun _ _ => 2) sq_g1 (fun _ _ => 5) (fun _ _ => 1) (fun _ _ => eq_refl) sq_poly sq_flux0 sq_flux1 sq_solves (or_introl eq_refl) sq_closed sq_neumann sq_interval)
    as (s & b & w & uD & uS & E1 & E2 & E3 & E4 & _ & _ & H). exists s, b, w, uD, uS. repeat (split; [assumption|]). exact H.
Qed.
(** with the reaction 1 + x^2 *)
Example C104_case : forall junk, exists ref s, let create := Create_VEM junk gauss_solver gauss_solver ref sq_geometry in
  assemble_elliptic_operator sq_m sq_data sq_data create create (Some sq_K) None (Some (fun x _ _ => 1 + x * x)) = Ok s /\
  forall uD, length uD = 12%nat -> (exists r, nth r uD 0 <> 0) -> 0 < energy 12 s uD.
Proof.
  intros junk. destruct sq_reference as (ref & E). exists ref.
  destruct (C104_one_solution _ _ junk _ _ 2 ref sq_m sq_info sq_geometry sq_data (sq_vem ref E) sq_created sq_K (Some (fun x _ _ => 1 + x * x)) (fun _ _ => eq_refl) sq_elliptic) as (s & E1 & H & _).
  - intros f [= <-] x y z. pose proof (Rle_0_sqr x) as S. unfold Rsqr in S. lra.
  - exact sq_positive.
  - exact sq_anchored.
  - exact sq_covered.
  - exists s. split; [exact E1|]. destruct sq_numbers as [N _]. rewrite N in H. exact H.
Qed.
Example C105_case : forall junk, exists ref s b w uD uS, let create := Create_VEM junk gauss_solver gauss_solver ref sq_geometry in
  assemble_elliptic_operator sq_m sq_data sq_data create create (Some sq_K) None None = Ok s /\
  assemble_source_term sq_m sq_data create create (fun _ _ _ => - 6) = Ok b /\ assemble_weak_term sq_m sq_info sq_data sq_geometry simpson_rule create sq_h = Ok w /\
  assemble_strong_solution sq_m sq_info sq_data 2 create sq_g = Ok uS /\ solves_system s b w uD uS 12.
Proof.
  intros junk. destruct sq_reference as (ref & E). exists ref.
  destruct (C105_exact _ _ junk _ _ 2 ref sq_m sq_info sq_geometry sq_data (sq_vem ref E) sq_created sq_K None (fun _ _ _ => - 6) sq_h sq_g simpson_rule sq_p sq_px sq_py
    sq_g0 (fun _ _ => 5) (fun _ _ => 2) sq_g1 (fun _ _ => 5) (fun _ _ => 1) (fun _ _ => eq_refl) sq_elliptic ltac:(discriminate) sq_positive sq_anchored sq_covered
    sq_poly sq_flux0 sq_flux1 sq_solves_diffusion (or_introl eq_refl) sq_closed sq_neumann sq_dirichlet sq_interval)
    as (s & b & w & uD & uS & E1 & E2 & E3 & E4 & H & _). destruct sq_numbers as [N _]. rewrite N in H. exists s, b, w, uD, uS. repeat (split; [assumption|]). exact H.
Qed.
