(** The property C150. *)
From Coq Require Import List Arith Bool Reals Lia Lra.
From Verif Require Import Base RSum MatrixModel DofsModel DofsSpec AssemblerModel AssemblerSpec VemQuadModel VemQuadSpec GreenSpec GreenProofs VemModel VemSpec GaussModel
  DriverModel DriverSpec DriverSpec2 Pcc2dModel Pcc2dSpec VemProps Pcc2dProofs3 Pcc2dProps Mcc2dSpec ElasticModel ElasticSpec ElasticGlobalModel ElasticGlobalSpec ElasticGlobalProps
  ElasticBoundaryModel ElasticBoundarySpec ElasticBoundaryProofs5 ElasticBoundaryProofs6 ElasticBoundaryProps.
Import ListNotations.
Local Open Scope R_scope.

(** C150: the patch test: displacements of the order of the element that need no volume forces are the solution *)
Theorem C150_patch : forall gauss_triangle lobatto junk lu llt k ref m info geometry data,
  vem_mesh gauss_triangle lobatto lu llt k ref m info geometry -> CreateDOFs 2 info (md_mesh m) = Ok data ->
  forall P f0 f0x f0y f1 f1x f1y s00 s01 s11, poly2 k f0 f0x f0y -> poly2 k f1 f1x f1y ->
  (forall x y z, s00 x y = 2 * el_mu P x y z * f0x x y + el_lambda P x y z * (f0x x y + f1y x y)) ->
  (forall x y z, s01 x y = el_mu P x y z * (f0y x y + f1x x y)) ->
  (forall x y z, s11 x y = 2 * el_mu P x y z * f1y x y + el_lambda P x y z * (f0x x y + f1y x y)) ->
  forall s00x s00y s01x s01y s11x s11y gauss gS gW, poly2 (k - 1) s00 s00x s00y -> poly2 (k - 1) s01 s01x s01y -> poly2 (k - 1) s11 s11x s11y ->
  (forall x y, s00x x y + s01y x y = 0 /\ s01x x y + s11y x y = 0) -> (forall x y z d, el_source P x y z d = 0) ->
  closed_boundary info (md_mesh m) geometry ->
  neumann_data info (md_mesh m) geometry s00 s01 (component gW 0) -> neumann_data info (md_mesh m) geometry s01 s11 (component gW 1) ->
  dirichlet_data info (md_mesh m) f0 (component gS 0) -> dirichlet_data info (md_mesh m) f1 (component gS 1) -> covered info (md_mesh m) -> exact_interval (2 * k - 1) gauss ->
  let N := NumberDOFs data in let NS := NumberStrongs data in
  exists D u0 u1 g0 g1, elastic_assemble m info data geometry gauss (Create_VEM junk lu llt ref geometry) P gS gW = Ok D /\
  length u0 = N /\ length u1 = N /\ length g0 = NS /\ length g1 = NS /\ ed_solutionDirichlet D = g0 ++ g1 /\
  (forall c l j, (c < Cell2Ds_number (md_mesh m))%nat -> VEM_PCC_2D_CreateLocalSpace junk lu llt ref (geometry c) = Ok l -> (j < cell_size info m c)%nat ->
    cell_displacement m info data u0 u1 g0 g1 c j = dofs_of ref l f0 j /\ cell_displacement m info data u0 u1 g0 g1 c (cell_size info m c + j) = dofs_of ref l f1 j) /\
  (forall r, (r < N + N)%nat -> assembled_residual D (u0 ++ u1) r = 0) /\
  ((forall x y z, 0 < el_mu P x y z /\ 0 <= el_lambda P x y z) -> positive_rules gauss_triangle k m geometry ->
   (forall c, (c < Cell2Ds_number (md_mesh m))%nat -> clamped m info c) ->
   forall vD, length vD = (N + N)%nat -> (forall r, (r < N + N)%nat -> assembled_residual D vD r = 0) -> vD = u0 ++ u1).
Proof. exact elastic_patch_solution. Qed.

Print Assumptions C150_patch.

(** ** Example: the displacement (x^2 - y^2, -2 x y) on the two unit squares of Pcc2dProps, order 2, the left side Strong, the others Weak; mu = 1, lambda = 3 *)
Definition sq_steel : ElasticProblem := {| el_mu := fun _ _ _ => 1; el_lambda := fun _ _ _ => 3; el_source := fun _ _ _ _ => 0 |}.
Definition sq_f0 (x y : R) : R := x ^ 2 - y ^ 2.
Definition sq_f1 (x y : R) : R := - 2 * x * y.
Definition sq_s00 (x y : R) : R := 4 * x.
Definition sq_s01 (x y : R) : R := - 4 * y.
Definition sq_s11 (x y : R) : R := - 4 * x.
Definition sq_bent (marker : nat) (x y z : R) (h : nat) : R := match marker with 1%nat => match h with 0%nat => sq_f0 x y | _ => sq_f1 x y end | _ => 0 end.
Definition sq_traction (marker : nat) (x y z : R) (h : nat) : R :=
  let s0 := match h with 0%nat => sq_s00 | _ => sq_s01 end in let s1 := match h with 0%nat => sq_s01 | _ => sq_s11 end in
  match marker with 3%nat => - s1 x y | 4%nat => s0 x y | 5%nat => s1 x y | _ => 0 end.
Example sq_f0_poly : poly2 2 sq_f0 (fun x _ => 2 * x) (fun _ y => - 2 * y).
Proof. eapply poly2_ext; [apply (poly2_add 2 _ _ _ _ _ _ (poly2_mono 2 2 0 ltac:(lia)) (poly2_scal 2 (-1) _ _ _ (poly2_mono 2 0 2 ltac:(lia))))| | |]; intros; unfold sq_f0; cbn; ring. Qed.
Example sq_f1_poly : poly2 2 sq_f1 (fun _ y => - 2 * y) (fun x _ => - 2 * x).
Proof. eapply poly2_ext; [apply (poly2_scal 2 (-2) _ _ _ (poly2_mono 2 1 1 ltac:(lia)))| | |]; intros; unfold sq_f1; cbn; ring. Qed.
Example sq_stress_poly : poly2 (2 - 1) sq_s00 (fun _ _ => 4) (fun _ _ => 0) /\ poly2 (2 - 1) sq_s01 (fun _ _ => 0) (fun _ _ => - 4) /\ poly2 (2 - 1) sq_s11 (fun _ _ => - 4) (fun _ _ => 0).
Proof.
  repeat split; [eapply poly2_ext; [apply (poly2_affine 1 0 4 0); lia| | |]|eapply poly2_ext; [apply (poly2_affine 1 0 0 (-4)); lia| | |]|eapply poly2_ext; [apply (poly2_affine 1 0 (-4) 0); lia| | |]];
    intros; unfold sq_s00, sq_s01, sq_s11; ring.
Qed.
Example sq_tractions : neumann_data sq_info (md_mesh sq_m) sq_geometry sq_s00 sq_s01 (component sq_traction 0) /\ neumann_data sq_info (md_mesh sq_m) sq_geometry sq_s01 sq_s11 (component sq_traction 1).
Proof.
  split; intros c i t H; cbn in H; repeat (destruct H as [E|H]; [injection E as <- <-; cbn -[Rplus Rmult]; intros W; try discriminate; unfold at_point, component, sq_traction; ring|]); destruct H.
Qed.
Example sq_held : dirichlet_data sq_info (md_mesh sq_m) sq_f0 (component sq_bent 0) /\ dirichlet_data sq_info (md_mesh sq_m) sq_f1 (component sq_bent 1).
Proof.
  split; (split; [intros d e x y z Hd H; destruct d as [|[|d]]; [| |lia];
      [do 6 (destruct e as [|e]; [first [reflexivity|discriminate H]|]); destruct e; discriminate H|do 7 (destruct e as [|e]; [first [reflexivity|discriminate H]|]); destruct e; discriminate H]
    |intros c Hc H; cbn in Hc; destruct c as [|[|c]]; [discriminate H|discriminate H|lia]]).
Qed.
Example C150_case : forall junk, exists ref D u0 u1 g0 g1,
  elastic_assemble sq_m sq_info sq_data sq_geometry simpson_rule (Create_VEM junk gauss_solver gauss_solver ref sq_geometry) sq_steel sq_bent sq_traction = Ok D /\
  length u0 = 12%nat /\ ed_solutionDirichlet D = g0 ++ g1 /\
  (forall c l j, (c < 2)%nat -> VEM_PCC_2D_CreateLocalSpace junk gauss_solver gauss_solver ref (sq_geometry c) = Ok l -> (j < cell_size sq_info sq_m c)%nat ->
    cell_displacement sq_m sq_info sq_data u0 u1 g0 g1 c j = dofs_of ref l sq_f0 j) /\
  forall vD, length vD = 24%nat -> (forall r, (r < 24)%nat -> assembled_residual D vD r = 0) -> vD = u0 ++ u1.
Proof.
  intros junk. destruct sq_reference as (ref & ER). exists ref. destruct sq_stress_poly as (T0 & T1 & T2). destruct sq_tractions as (N0 & N1). destruct sq_held as (H0 & H1).
  destruct (C150_patch _ _ junk _ _ 2 ref sq_m sq_info sq_geometry sq_data (sq_vem ref ER) sq_created sq_steel _ _ _ _ _ _ sq_s00 sq_s01 sq_s11 sq_f0_poly sq_f1_poly
    ltac:(intros; unfold sq_s00; cbn; ring) ltac:(intros; unfold sq_s01; cbn; ring) ltac:(intros; unfold sq_s11; cbn; ring) _ _ _ _ _ _ simpson_rule sq_bent sq_traction T0 T1 T2
    ltac:(intros; split; ring) ltac:(reflexivity) sq_closed N0 N1 H0 H1 sq_covered sq_interval) as (D & u0 & u1 & g0 & g1 & ED & L0 & L1 & M0 & M1 & GD & HU & _ & UN).
  exists D, u0, u1, g0, g1. destruct sq_numbers as [N NS]. rewrite N in *. split; [exact ED|]. split; [exact L0|]. split; [exact GD|]. split.
  - intros c l j Hc El Hj. apply (HU c l j Hc El Hj).
  - apply UN; [intros; cbn; lra|exact sq_positive|exact sq_clamped].
Qed.
