(** Properties C122 to C128: the driver of the heat equation: matrices, data of a time, steps and reports, solvability of the steps, exact runs,
    distance of two runs, the times. *)
From Coq Require Import List Arith Bool Reals Lra Lia Permutation.
From Verif Require Import Base RSum MatrixModel DofsModel DofsSpec AssemblerModel AssemblerSpec EquationSpec VemQuadModel VemQuadSpec GreenSpec GreenProofs VemModel VemSpec GaussModel DriverModel DriverSpec
  DriverSpec2 Pcc2dModel Pcc2dSpec Pcc2dProofs3 ParabolicModel ParabolicSpec ParabolicProofs4 ParabolicProofs5 ParabolicProofs6 DofsProps VemQuadProps VemProps Pcc2dProps.
Import ListNotations.
Local Open Scope R_scope.

(** C122: the two matrices: row r applied to any values is the sum over the cells of the two forms tested on free unknown r *)
Theorem C122_matrices : forall m info data create E geometry gauss B pt kappa kk, heat_mesh m info data create E geometry gauss B pt ->
  (forall c, (c < Cell2Ds_number (md_mesh m))%nat -> greatest_value (E c) kappa (kk c)) ->
  exists A M, StaticAssemble m data create kappa = Ok (A, M) /\
    (forall r j v, In (r, j, v) (trip_DOFs A ++ trip_DOFs M) -> (r < NumberDOFs data)%nat /\ (j < NumberDOFs data)%nat) /\
    (forall r j v, In (r, j, v) (trip_Strongs A ++ trip_Strongs M) -> (r < NumberDOFs data)%nat /\ (j < NumberStrongs data)%nat) /\
    forall uD uS ul, length uD = NumberDOFs data -> length uS = NumberStrongs data -> local_values data uD uS ul m -> forall r,
      operator_row A uD uS r = cells_row info m data (fun c => stiffness_form (E c) kappa (kk c) (ul c)) r /\
      operator_row M uD uS r = cells_row info m data (fun c => mass_form (E c) (ul c)) r.
Proof. intros m info data create E geometry gauss B pt kappa kk HM. exact (heat_static m info data create E geometry gauss B pt HM kappa kk). Qed.

(** C123: the data of a time: the load of every free unknown, the value of the boundary function at the point of every strong unknown of a
    vertex or an edge of a cell, zero at the others *)
Theorem C123_data : forall m info data create E geometry gauss B pt f g h, heat_mesh m info data create E geometry gauss B pt ->
  exists F uS, Assemble m info data geometry gauss create f g h = Ok (F, uS) /\ length F = NumberDOFs data /\ length uS = NumberStrongs data /\
  (forall r, nth r F 0 = load_row info m data geometry gauss E B f h r) /\
  forall d e i, (d <= 2)%nat -> (e < num_cells info d)%nat -> (i < requested info d e)%nat -> strong_entity info d e ->
    exists x, lookup data (entity_dof d e i) = Some x /\ dof_type x = TStrong /\
      (receives_strong (all_active m) info 2 d e -> nth_error uS (dof_index x) = Some (strong_value m info pt g d e i)) /\
      (~ receives_strong (all_active m) info 2 d e -> nth_error uS (dof_index x) = Some 0).
Proof. intros m info data create E geometry gauss B pt f g h HM. exact (heat_data m info data create E geometry gauss B pt HM f g h). Qed.

(** C124: one report for each time; the first holds the unknowns of the initial function, the others solve the step of the theta method from
    the previous report *)
Theorem C124_run : forall m info data create E geometry gauss B pt solver order pb dt theta kk u0 uD0 t0 ts, heat_mesh m info data create E geometry gauss B pt ->
  exact_solver solver -> (forall c, (c < Cell2Ds_number (md_mesh m))%nat -> greatest_value (E c) (pb_diffusion pb) (kk c)) ->
  regular_step m data create (pb_diffusion pb) (dt * theta) ->
  evaluate_function_on_dofs m data order (spaces create) (pb_initial pb) = Ok (u0, uD0) -> length u0 = NumberDOFs data -> length uD0 = NumberStrongs data ->
  exists ds, run solver m info data geometry gauss order create pb dt theta (t0 :: ts) = Ok ds /\ length ds = length (t0 :: ts) /\
  (exists d0, nth_error ds 0 = Some d0 /\ sd_solution d0 = u0 /\ sd_dirichlet d0 = uD0) /\
  (forall i t d, nth_error (t0 :: ts) i = Some t -> nth_error ds i = Some d ->
    reports m data create (fun x y z => pb_exact pb x y z t) (fun x y z k => pb_gradient pb x y z t k) d) /\
  forall i t t' d d', nth_error (t0 :: ts) i = Some t -> nth_error (t0 :: ts) (S i) = Some t' -> nth_error ds i = Some d -> nth_error ds (S i) = Some d' ->
    theta_step info m data E (pb_diffusion pb) kk dt theta (problem_load info m data geometry gauss E B pb t) (problem_load info m data geometry gauss E B pb t') d d' /\
    sd_residual d' = 0 /\
    assemble_strong_solution (all_active m) info data 2 (spaces create) (fun i x y z => pb_strong pb i x y z t') = Ok (sd_dirichlet d').
Proof.
  intros m info data create E geometry gauss B pt solver order pb dt theta kk u0 uD0 t0 ts HM.
  exact (heat_run m info data create E geometry gauss B pt HM solver order pb dt theta kk u0 uD0 t0 ts).
Qed.

(** C125: with the virtual element every implicit step is uniquely solvable, with or without Strong entities *)
Theorem C125_implicit : forall gauss_triangle lobatto junk lu llt k ref m info geometry data kappa a,
  vem_mesh gauss_triangle lobatto lu llt k ref m info geometry -> CreateDOFs 2 info (md_mesh m) = Ok data ->
  (forall c, (c < Cell2Ds_number (md_mesh m))%nat -> 0 < pg_Measure (geometry c)) -> positive_rules gauss_triangle k m geometry -> covered info (md_mesh m) ->
  (forall x y z, 0 < kappa x y z) -> 0 < a ->
  regular_step m data (Create_parabolic_VEM (Create_VEM junk lu llt ref geometry) (fun c => VEM_PCC_2D_CreateLocalSpace junk lu llt ref (geometry c))) kappa a.
Proof.
  intros gt lob junk lu llt k ref m info geometry data kappa a VM HC PM PR CO PK Ha. exact (regular_heat gt lob junk lu llt k ref m info geometry VM PM data HC kappa a PR CO PK Ha).
Qed.
(** the mass matrix annihilates the unknowns of every polynomial of degree k that is orthogonal to degree k - 1 on every cell *)
Theorem C125_mass_kernel : forall gauss_triangle lobatto junk lu llt k ref m info geometry data kappa p px py,
  vem_mesh gauss_triangle lobatto lu llt k ref m info geometry -> CreateDOFs 2 info (md_mesh m) = Ok data -> poly2 k p px py ->
  (forall c a b, (c < Cell2Ds_number (md_mesh m))%nat -> (a + b <= k - 1)%nat -> polygon_integral (gauss_triangle (2 * k)%nat) (geometry c) (fun x y => p x y * (x ^ a * y ^ b)) = 0) ->
  let create := Create_parabolic_VEM (Create_VEM junk lu llt ref geometry) (fun c => VEM_PCC_2D_CreateLocalSpace junk lu llt ref (geometry c)) in
  exists A M uD uS, StaticAssemble m data create kappa = Ok (A, M) /\ evaluate_function_on_dofs m data k (spaces create) (planar p) = Ok (uD, uS) /\
    length uD = NumberDOFs data /\ length uS = NumberStrongs data /\ forall r, operator_row M uD uS r = 0.
Proof.
  intros gt lob junk lu llt k ref m info geometry data kappa p px py VM HC Pp OR. exact (mass_singular gt lob junk lu llt k ref m info geometry data VM HC kappa p px py Pp OR).
Qed.
(** so that without strong unknowns the explicit step, theta = 0, has not one solution *)
Theorem C125_explicit : forall gauss_triangle lobatto junk lu llt k ref m info geometry data kappa p px py c j,
  vem_mesh gauss_triangle lobatto lu llt k ref m info geometry -> CreateDOFs 2 info (md_mesh m) = Ok data -> poly2 k p px py ->
  (forall c a b, (c < Cell2Ds_number (md_mesh m))%nat -> (a + b <= k - 1)%nat -> polygon_integral (gauss_triangle (2 * k)%nat) (geometry c) (fun x y => p x y * (x ^ a * y ^ b)) = 0) ->
  NumberStrongs data = 0%nat -> (c < Cell2Ds_number (md_mesh m))%nat -> (j < length (Cell2D_vertices (md_mesh m) c))%nat ->
  (let v := nth j (Cell2D_vertices (md_mesh m) c) 0%nat in p (md_coords m v 0%nat) (md_coords m v 1%nat) <> 0) ->
  ~ regular_step m data (Create_parabolic_VEM (Create_VEM junk lu llt ref geometry) (fun c => VEM_PCC_2D_CreateLocalSpace junk lu llt ref (geometry c))) kappa 0.
Proof.
  intros gt lob junk lu llt k ref m info geometry data kappa p px py c j VM HC Pp OR NS Hc Hj NZ. exact (explicit_singular gt lob junk lu llt k ref m info geometry data VM HC kappa p px py c j Pp OR NS Hc Hj NZ).
Qed.

(** C126: polynomials in space whose increment from time to time is the time step times the weighted rate are computed exactly *)
Theorem C126_exact : forall gauss_triangle lobatto junk lu llt k ref m info geometry data solver pb dt theta gauss t0 ts (q qx qy v : nat -> R -> R -> R),
  vem_mesh gauss_triangle lobatto lu llt k ref m info geometry -> CreateDOFs 2 info (md_mesh m) = Ok data ->
  let create := Create_parabolic_VEM (Create_VEM junk lu llt ref geometry) (fun c => VEM_PCC_2D_CreateLocalSpace junk lu llt ref (geometry c)) in
  exact_solver solver -> regular_step m data create (pb_diffusion pb) (dt * theta) -> covered info (md_mesh m) ->
  Cell0Ds_number (md_mesh m) = num_cells info 0 -> closed_boundary info (md_mesh m) geometry -> exact_interval (2 * k - 1) gauss ->
  (forall i t, nth_error (t0 :: ts) i = Some t -> heat_polynomial k info (md_mesh m) geometry (pb_diffusion pb) (fun x y z => pb_source pb x y z t)
    (fun i x y z => pb_strong pb i x y z t) (fun i x y z => pb_weak pb i x y z t) (q i) (qx i) (qy i) (v i)) ->
  (forall i x y, (i < length ts)%nat -> q (S i) x y - q i x y = dt * (theta * v (S i) x y + (1 - theta) * v i x y)) ->
  (forall x y z, pb_initial pb x y z = q 0%nat x y) ->
  exists ds, run solver m info data geometry gauss k create pb dt theta (t0 :: ts) = Ok ds /\ length ds = length (t0 :: ts) /\
  forall i t d, nth_error (t0 :: ts) i = Some t -> nth_error ds i = Some d ->
    evaluate_function_on_dofs m data k (spaces create) (planar (q i)) = Ok (sd_solution d, sd_dirichlet d) /\
    ((forall x y z j, pb_exact pb x y z t = q i x y /\ pb_gradient pb x y z t j = planar_gradient (qx i) (qy i) x y z j) -> pe_error (sd_L2 d) = 0 /\ pe_error (sd_H1 d) = 0).
Proof.
  intros gt lob junk lu llt k ref m info geometry data solver pb dt theta gauss t0 ts q qx qy v VM HC.
  exact (run_exact gt lob junk lu llt k ref m info geometry VM data HC solver pb dt theta gauss t0 ts q qx qy v).
Qed.
(** solutions of degree one in time, and of degree two when theta is one half, at times with step dt *)
Theorem C126_in_time : forall gauss_triangle lobatto junk lu llt k ref m info geometry data solver pb dt theta gauss t0 n (a b c qx qy : R -> R -> R) (Qx Qy : R -> R -> R -> R),
  vem_mesh gauss_triangle lobatto lu llt k ref m info geometry -> CreateDOFs 2 info (md_mesh m) = Ok data ->
  let create := Create_parabolic_VEM (Create_VEM junk lu llt ref geometry) (fun c => VEM_PCC_2D_CreateLocalSpace junk lu llt ref (geometry c)) in
  let q := fun t x y => a x y + t * b x y + t * t * c x y in
  exact_solver solver -> regular_step m data create (pb_diffusion pb) (dt * theta) -> covered info (md_mesh m) ->
  Cell0Ds_number (md_mesh m) = num_cells info 0 -> closed_boundary info (md_mesh m) geometry -> exact_interval (2 * k - 1) gauss ->
  theta = 1 / 2 \/ (forall x y, c x y = 0) ->
  (forall t, heat_polynomial k info (md_mesh m) geometry (pb_diffusion pb) (fun x y z => pb_source pb x y z t)
    (fun i x y z => pb_strong pb i x y z t) (fun i x y z => pb_weak pb i x y z t) (q t) (Qx t) (Qy t) (fun x y => b x y + 2 * t * c x y)) ->
  (forall x y z, pb_initial pb x y z = q t0 x y) ->
  (forall x y z t j, pb_exact pb x y z t = q t x y /\ pb_gradient pb x y z t j = planar_gradient (Qx t) (Qy t) x y z j) ->
  exists ds, run solver m info data geometry gauss k create pb dt theta (map (fun i => t0 + INR i * dt) (seq 0 (S n))) = Ok ds /\ length ds = S n /\
  forall i d, nth_error ds i = Some d ->
    evaluate_function_on_dofs m data k (spaces create) (planar (q (t0 + INR i * dt))) = Ok (sd_solution d, sd_dirichlet d) /\ pe_error (sd_L2 d) = 0 /\ pe_error (sd_H1 d) = 0.
Proof.
  intros gt lob junk lu llt k ref m info geometry data solver pb dt theta gauss t0 n a b c qx qy Qx Qy VM HC create q HS RG CO HN CL EX TH HP IN EXA.
  set (f := fun i => t0 + INR i * dt). set (ts := map f (seq 0 (S n))).
  assert (NT : forall i t, nth_error ts i = Some t -> t = f i) by (intros i t Hi; apply (uniform_nth f (S n) i t Hi)).
  assert (LT : length ts = S n) by (unfold ts; rewrite map_length, seq_length; reflexivity).
  destruct (C126_exact gt lob junk lu llt k ref m info geometry data solver pb dt theta gauss (f 0%nat) (map f (seq 1 n)) (fun i => q (f i)) (fun i => Qx (f i)) (fun i => Qy (f i)) (fun i x y => b x y + 2 * f i * c x y) VM HC HS RG CO HN CL EX)
    as (ds & ER & LL & RP).
  - intros i t Hi. rewrite (NT i t Hi). apply HP.
  - intros i x y _. unfold q, f. rewrite S_INR. destruct TH as [->|Z]; [field|rewrite !Z; ring].
  - intros x y z. rewrite IN. unfold f. cbn [INR]. replace (t0 + 0 * dt) with t0 by ring. reflexivity.
  - assert (LL' : length ds = S n) by (rewrite LL; exact LT). exists ds. split; [exact ER|]. split; [exact LL'|]. intros i d Hd.
    destruct (nth_error ts i) as [t|] eqn:Et. 2:{ apply nth_error_None in Et. assert (i < length ds)%nat by (apply nth_error_Some; congruence). lia. }
    destruct (RP i t d Et Hd) as (EV & ERR). split; [exact EV|]. apply ERR. intros x y z j. rewrite (NT i t Et). apply EXA.
Qed.

(** C127: when theta is at least one half the distance of two runs of the same problem from different initial functions does not grow, in the
    norms of the two matrices; their strong values agree from the second report on *)
Theorem C127_decay : forall m info data create E geometry gauss B pt solver order pb w dt theta kk u0 uD0 v0 vD0 t0 ts, heat_mesh m info data create E geometry gauss B pt ->
  exact_solver solver -> (forall c, (c < Cell2Ds_number (md_mesh m))%nat -> greatest_value (E c) (pb_diffusion pb) (kk c)) ->
  (forall c, (c < Cell2Ds_number (md_mesh m))%nat -> sound_cell (pb_diffusion pb) (E c)) ->
  regular_step m data create (pb_diffusion pb) (dt * theta) -> 0 < dt -> 1 / 2 <= theta ->
  evaluate_function_on_dofs m data order (spaces create) (pb_initial pb) = Ok (u0, uD0) -> length u0 = NumberDOFs data -> length uD0 = NumberStrongs data ->
  evaluate_function_on_dofs m data order (spaces create) w = Ok (v0, vD0) -> length v0 = NumberDOFs data -> length vD0 = NumberStrongs data ->
  exists ds es A M, run solver m info data geometry gauss order create pb dt theta (t0 :: ts) = Ok ds /\
    run solver m info data geometry gauss order create (with_initial pb w) dt theta (t0 :: ts) = Ok es /\
    length ds = length (t0 :: ts) /\ length es = length (t0 :: ts) /\ StaticAssemble m data create (pb_diffusion pb) = Ok (A, M) /\
    forall i d d' e e', nth_error ds i = Some d -> nth_error ds (S i) = Some d' -> nth_error es i = Some e -> nth_error es (S i) = Some e' ->
      sd_dirichlet d' = sd_dirichlet e' /\ (sd_dirichlet d = sd_dirichlet e ->
      let x := difference (NumberDOFs data) (sd_solution d) (sd_solution e) in let x' := difference (NumberDOFs data) (sd_solution d') (sd_solution e') in
      0 <= quadratic (NumberDOFs data) M x' x' <= quadratic (NumberDOFs data) M x x /\ 0 <= quadratic (NumberDOFs data) A x' x' <= quadratic (NumberDOFs data) A x x).
Proof.
  intros m info data create E geometry gauss B pt solver order pb w dt theta kk u0 uD0 v0 vD0 t0 ts HM.
  exact (runs_decay m info data create E geometry gauss B pt HM solver order pb w dt theta kk u0 uD0 v0 vD0 t0 ts).
Qed.

(** C128: the times of the reports are spread over the whole interval, the steps advance by TimeStep: the solution a + t of a problem without
    Strong entities is reported with the time t0 + j TimeStep at time t0 + (t1 - t0) j TimeStep, which is another one unless the interval has length 1 *)
Theorem C128_times : forall gauss_triangle lobatto junk lu llt k ref m info geometry data solver pb theta gauss t0 t1 h n a ax ay g0 g0x g0y g1 g1x g1y,
  vem_mesh gauss_triangle lobatto lu llt k ref m info geometry -> CreateDOFs 2 info (md_mesh m) = Ok data ->
  let create := Create_parabolic_VEM (Create_VEM junk lu llt ref geometry) (fun c => VEM_PCC_2D_CreateLocalSpace junk lu llt ref (geometry c)) in
  exact_solver solver -> regular_step m data create (pb_diffusion pb) (h * theta) -> covered info (md_mesh m) ->
  Cell0Ds_number (md_mesh m) = num_cells info 0 -> closed_boundary info (md_mesh m) geometry -> exact_interval (2 * k - 1) gauss -> no_strong info ->
  poly2 k a ax ay -> poly2 (k - 1) g0 g0x g0y -> poly2 (k - 1) g1 g1x g1y ->
  (forall x y z, g0 x y = pb_diffusion pb x y z * ax x y /\ g1 x y = pb_diffusion pb x y z * ay x y) ->
  (forall x y z t, pb_source pb x y z t = 1 - (g0x x y + g1y x y)) -> (forall t, neumann_data info (md_mesh m) geometry g0 g1 (fun i x y z => pb_weak pb i x y z t)) ->
  (forall x y z, pb_initial pb x y z = a x y + t0) ->
  let times := create_time_steps (map (fun j => INR j * h) (seq 0 (S n))) t0 t1 in
  exists ds, run solver m info data geometry gauss k create pb h theta times = Ok ds /\ length ds = S n /\
    forall j d, nth_error ds j = Some d -> nth_error times j = Some (t0 + (t1 - t0) * (INR j * h)) /\
      evaluate_function_on_dofs m data k (spaces create) (planar (fun x y => a x y + (t0 + INR j * h))) = Ok (sd_solution d, sd_dirichlet d) /\
      ((0 < j)%nat -> h <> 0 -> t1 - t0 <> 1 -> (0 < Cell2Ds_number (md_mesh m))%nat ->
       evaluate_function_on_dofs m data k (spaces create) (planar (fun x y => a x y + (t0 + (t1 - t0) * (INR j * h)))) <> Ok (sd_solution d, sd_dirichlet d)).
Proof.
  intros gt lob junk lu llt k ref m info geometry data solver pb theta gauss t0 t1 h n a ax ay g0 g0x g0y g1 g1x g1y VM HC.
  exact (shifted_times gt lob junk lu llt k ref m info geometry data VM HC solver pb theta gauss t0 t1 h n a ax ay g0 g0x g0y g1 g1x g1y).
Qed.

Print Assumptions C122_matrices.
Print Assumptions C123_data.
Print Assumptions C124_run.
Print Assumptions C125_implicit.
Print Assumptions C125_mass_kernel.
Print Assumptions C125_explicit.
Print Assumptions C126_exact.
Print Assumptions C126_in_time.
Print Assumptions C127_decay.
Print Assumptions C128_times.

(** ** Examples: the two unit squares of Pcc2dProps, order 2, diffusion 2, solution x^2 + x y + t x *)
Definition lu_solver : LUSolver := fun N A b => map (gauss N A (fun i => nth i b 0)) (seq 0 N).
Example lu_exact : exact_solver lu_solver.
Proof.
  intros N A b L NS. unfold lu_solver. split; [rewrite map_length, seq_length; reflexivity|]. intros i Hi.
  rewrite (rsum_ext N _ (fun j => A i j * gauss N A (fun i => nth i b 0) j)); [apply (gauss_ok N A (fun i => nth i b 0) NS i Hi)|].
  intros j Hj. f_equal. rewrite (nth_indep _ 0 (gauss N A (fun i => nth i b 0) 0%nat)) by (rewrite map_length, seq_length; exact Hj). rewrite map_nth, seq_nth by exact Hj. reflexivity.
Qed.
Definition ht_q (t x y : R) : R := x * x + x * y + t * x.
Definition ht_g0 (t x y : R) : R := 4 * x + 2 * y + 2 * t.
Definition ht_g1 (x y : R) : R := 2 * x.
Definition ht_problem : Problem := {|
  pb_diffusion := fun _ _ _ => 2;
  pb_source := fun x _ _ _ => x - 4;
  pb_strong := fun i x y _ t => match i with 1%nat => ht_q t x y | _ => 0 end;
  pb_weak := fun i x y _ t => match i with 3%nat => - ht_g1 x y | 4%nat => ht_g0 t x y | 5%nat => ht_g1 x y | _ => 0 end;
  pb_initial := fun x y _ => ht_q 0 x y;
  pb_exact := fun x y _ t => ht_q t x y;
  pb_gradient := fun x y z t => planar_gradient (fun x y => 2 * x + y + t) (fun x y => x) x y z |}.
Definition ht_create junk ref := Create_parabolic_VEM (Create_VEM junk gauss_solver gauss_solver ref sq_geometry) (fun c => VEM_PCC_2D_CreateLocalSpace junk gauss_solver gauss_solver ref (sq_geometry c)).
Example ht_poly t : poly2 2 (ht_q t) (fun x y => 2 * x + y + t) (fun x y => x).
Proof.
  refine (poly2_ext 2 _ _ _ _ _ _ (poly2_add 2 _ _ _ _ _ _ sq_poly (poly2_scal 2 t _ _ _ (poly2_mono 2 1 0 ltac:(lia)))) _ _ _); intros; unfold ht_q, sq_p, sq_px, sq_py; cbn; ring.
Qed.
Example ht_heat t : heat_polynomial 2 sq_info sq_mesh sq_geometry (pb_diffusion ht_problem) (fun x y z => pb_source ht_problem x y z t)
  (fun i x y z => pb_strong ht_problem i x y z t) (fun i x y z => pb_weak ht_problem i x y z t) (ht_q t) (fun x y => 2 * x + y + t) (fun x y => x) (fun x y => x).
Proof.
  split.
  - apply ht_poly.
  - exists (fun _ _ => 1), (fun _ _ => 0). refine (poly2_ext 2 _ _ _ _ _ _ (poly2_mono 2 1 0 ltac:(lia)) _ _ _); intros; cbn; ring.
  - exists (ht_g0 t), (fun _ _ => 4), (fun _ _ => 2), ht_g1, (fun _ _ => 2), (fun _ _ => 0). split; [|split; [|split]].
    + eapply poly2_ext; [apply (poly2_affine 1 (2 * t) 4 2); lia| | |]; intros; unfold ht_g0; ring.
    + eapply poly2_ext; [apply (poly2_affine 1 0 2 0); lia| | |]; intros; unfold ht_g1; ring.
    + intros x y z. cbn [ht_problem pb_diffusion pb_source]. unfold ht_g0, ht_g1. repeat split; ring.
    + intros c i s H. cbn in H. repeat (destruct H as [E|H]; [injection E as <- <-; cbn -[Rplus Rmult]; intros W; try discriminate; unfold at_point, ht_g0, ht_g1; cbn -[Rplus Rmult]; ring|]). destruct H.
  - split.
    + intros d e x y z Hd H. destruct d as [|[|d]]; [| |lia].
      * do 6 (destruct e as [|e]; [first [reflexivity|discriminate H]|]). destruct e; discriminate H.
      * do 7 (destruct e as [|e]; [first [reflexivity|discriminate H]|]). destruct e; discriminate H.
    + intros c Hc H. cbn in Hc. destruct c as [|[|c]]; [discriminate H|discriminate H|lia].
Qed.
Example ht_measure : forall c, (c < Cell2Ds_number (md_mesh sq_m))%nat -> 0 < pg_Measure (sq_geometry c).
Proof. intros c _. cbn. lra. Qed.
Example C125_case : forall junk ref, VEM_PCC_2D_Create (fun _ => collapsed_rule) (fun _ => simpson_rule) 2 = Ok ref -> regular_step sq_m sq_data (ht_create junk ref) (fun _ _ _ => 2) (1/2 * 1).
Proof.
  intros junk ref E. apply (C125_implicit _ _ junk _ _ 2 ref sq_m sq_info sq_geometry sq_data (fun _ _ _ => 2) (1/2 * 1) (sq_vem ref E) sq_created ht_measure sq_positive sq_covered); intros; lra.
Qed.
Example ht_mesh : forall junk ref, VEM_PCC_2D_Create (fun _ => collapsed_rule) (fun _ => simpson_rule) 2 = Ok ref ->
  exists B, heat_mesh sq_m sq_info sq_data (ht_create junk ref) (hcell junk gauss_solver gauss_solver ref sq_geometry) sq_geometry simpson_rule (fun _ => B) (pt ref sq_m).
Proof. intros junk ref E. apply (vem_heat_mesh _ _ junk _ _ 2 ref sq_m sq_info sq_geometry sq_data simpson_rule (sq_vem ref E) sq_created); reflexivity. Qed.
Example C122_case : forall junk, exists ref A M, StaticAssemble sq_m sq_data (ht_create junk ref) (fun _ _ _ => 2) = Ok (A, M).
Proof.
  intros junk. destruct sq_reference as (ref & E). destruct (ht_mesh junk ref E) as (B & HM). exists ref.
  destruct (C122_matrices _ _ _ _ _ _ _ _ _ (fun _ _ _ => 2) _ HM (hk_ok _ _ junk _ _ 2 ref sq_m sq_info sq_geometry (sq_vem ref E) (fun _ _ _ => 2))) as (A & M & EA & _). eauto.
Qed.
Example C123_case : forall junk t, exists ref F uS, Assemble sq_m sq_info sq_data sq_geometry simpson_rule (ht_create junk ref) (fun x y z => pb_source ht_problem x y z t)
  (fun i x y z => pb_strong ht_problem i x y z t) (fun i x y z => pb_weak ht_problem i x y z t) = Ok (F, uS) /\ length F = 12%nat /\ length uS = 3%nat.
Proof.
  intros junk t. destruct sq_reference as (ref & E). destruct (ht_mesh junk ref E) as (B & HM). exists ref. destruct sq_numbers as [N1 N2].
  destruct (C123_data _ _ _ _ _ _ _ _ _ (fun x y z => pb_source ht_problem x y z t) (fun i x y z => pb_strong ht_problem i x y z t) (fun i x y z => pb_weak ht_problem i x y z t) HM) as (F & uS & EA & L1 & L2 & _).
  rewrite N1 in L1. rewrite N2 in L2. eauto 6.
Qed.
Example C124_case : forall junk, exists ref ds, run lu_solver sq_m sq_info sq_data sq_geometry simpson_rule 2 (ht_create junk ref) ht_problem (1/2) 1 [0; 1/2; 1] = Ok ds /\ length ds = 3%nat.
Proof.
  intros junk. destruct sq_reference as (ref & E). destruct (ht_mesh junk ref E) as (B & HM). exists ref.
  destruct (interpolant _ _ junk _ _ 2 ref sq_m sq_info sq_geometry (sq_vem ref E) sq_data sq_created (ht_q 0)) as (u0 & uD0 & EI & L0 & LD0 & _).
  destruct (C124_run _ _ _ _ _ _ _ _ _ lu_solver 2 ht_problem (1/2) 1 _ u0 uD0 0 [1/2; 1] HM lu_exact (hk_ok _ _ junk _ _ 2 ref sq_m sq_info sq_geometry (sq_vem ref E) (fun _ _ _ => 2)) (C125_case junk ref E)) as (ds & ER & LL & _); auto.
  - rewrite <- EI. f_equal. apply (hspaces junk gauss_solver gauss_solver ref sq_geometry).
  - exists ds. split; [exact ER|exact LL].
Qed.
Example C126_case : forall junk, exists ref ds, run lu_solver sq_m sq_info sq_data sq_geometry simpson_rule 2 (ht_create junk ref) ht_problem (1/2) 1 (map (fun i => 0 + INR i * (1/2)) (seq 0 3)) = Ok ds /\
  length ds = 3%nat /\ forall i d, nth_error ds i = Some d -> evaluate_function_on_dofs sq_m sq_data 2 (spaces (ht_create junk ref)) (planar (fun x y => x * x + x * y + (0 + INR i * (1/2)) * x + (0 + INR i * (1/2)) * (0 + INR i * (1/2)) * 0)) = Ok (sd_solution d, sd_dirichlet d) /\
    pe_error (sd_L2 d) = 0 /\ pe_error (sd_H1 d) = 0.
Proof.
  intros junk. destruct sq_reference as (ref & E). exists ref.
  apply (C126_in_time _ _ junk _ _ 2 ref sq_m sq_info sq_geometry sq_data lu_solver ht_problem (1/2) 1 simpson_rule 0 2 (fun x y => x * x + x * y) (fun x y => x) (fun _ _ => 0) (fun _ _ => 0) (fun _ _ => 0) (fun t x y => 2 * x + y + t) (fun _ x y => x)
    (sq_vem ref E) sq_created lu_exact (C125_case junk ref E) sq_covered eq_refl sq_closed sq_interval).
  - right. intros; reflexivity.
  - intros t. destruct (ht_heat t) as [H1 H2 H3 H4]. split.
    + refine (poly2_ext 2 _ _ _ _ _ _ H1 _ (fun _ _ => eq_refl) (fun _ _ => eq_refl)); intros; unfold ht_q; ring.
    + destruct H2 as (vx & vy & H2). exists vx, vy. refine (poly2_ext 2 _ _ _ _ _ _ H2 _ (fun _ _ => eq_refl) (fun _ _ => eq_refl)); intros; ring.
    + destruct H3 as (g0 & g0x & g0y & g1 & g1x & g1y & P0 & P1 & EQ & ND). exists g0, g0x, g0y, g1, g1x, g1y. split; [exact P0|]. split; [exact P1|]. split; [|exact ND]. intros x y z. destruct (EQ x y z) as (Q0 & Q1 & Q2). rewrite Q2. repeat split; [exact Q0|exact Q1|ring].
    + destruct H4 as (D1 & D2). split; [|exact D2]. intros d e x y z Hd Hs. rewrite (D1 d e x y z Hd Hs). unfold ht_q. ring.
  - intros x y z. cbn [ht_problem pb_initial]. unfold ht_q. ring.
  - intros x y z t j. cbn [ht_problem pb_exact pb_gradient]. unfold ht_q. split; [ring|reflexivity].
Qed.
(** another initial function with the same values on the left side *)
Example C127_case : forall junk, exists ref ds es A M, run lu_solver sq_m sq_info sq_data sq_geometry simpson_rule 2 (ht_create junk ref) ht_problem (1/2) 1 [0; 1/2; 1] = Ok ds /\
  run lu_solver sq_m sq_info sq_data sq_geometry simpson_rule 2 (ht_create junk ref) (with_initial ht_problem (fun x y _ => x * y * 3)) (1/2) 1 [0; 1/2; 1] = Ok es /\
  length ds = 3%nat /\ length es = 3%nat /\ StaticAssemble sq_m sq_data (ht_create junk ref) (fun _ _ _ => 2) = Ok (A, M).
Proof.
  intros junk. destruct sq_reference as (ref & E). destruct (ht_mesh junk ref E) as (B & HM). exists ref.
  destruct (interpolant _ _ junk _ _ 2 ref sq_m sq_info sq_geometry (sq_vem ref E) sq_data sq_created (ht_q 0)) as (u0 & uD0 & EI & L0 & LD0 & _).
  destruct (interpolant _ _ junk _ _ 2 ref sq_m sq_info sq_geometry (sq_vem ref E) sq_data sq_created (fun x y => x * y * 3)) as (v0 & vD0 & EJ & L1 & LD1 & _).
  destruct (C127_decay _ _ _ _ _ _ _ _ _ lu_solver 2 ht_problem (fun x y _ => x * y * 3) (1/2) 1 _ u0 uD0 v0 vD0 0 [1/2; 1] HM lu_exact (hk_ok _ _ junk _ _ 2 ref sq_m sq_info sq_geometry (sq_vem ref E) (fun _ _ _ => 2))) as (ds & es & A & M & E1 & E2 & L2 & L3 & E3 & _); auto; try lra.
  - intros c Hc. apply (hsound _ _ junk _ _ 2 ref sq_m sq_info sq_geometry (sq_vem ref E) ht_measure); [exact sq_positive| |exact Hc]. intros. cbn. lra.
  - apply (C125_case junk ref E).
  - rewrite <- EI. f_equal. apply (hspaces junk gauss_solver gauss_solver ref sq_geometry).
  - rewrite <- EJ. f_equal. apply (hspaces junk gauss_solver gauss_solver ref sq_geometry).
  - exists ds, es, A, M. repeat (split; [assumption|]). exact E3.
Qed.

(** the same squares with all the sides Weak *)
Definition fr_const : ConstantDOFsInfo := {|
  NumDOFs := fun _ => 1%nat;
  BoundaryMap := fun m => match m with
    | 0%nat => Some {| bi_type := BNone; bi_marker := 0 |}
    | 1%nat => Some {| bi_type := BWeak; bi_marker := 1 |}
    | 3%nat => Some {| bi_type := BWeak; bi_marker := 3 |}
    | 4%nat => Some {| bi_type := BWeak; bi_marker := 4 |}
    | 5%nat => Some {| bi_type := BWeak; bi_marker := 5 |}
    | _ => None end |}.
Definition fr_info : MeshDOFsInfo := match Create_Constant_DOFsInfo 2 sq_mesh fr_const with Ok i => i | _ => empty_info end.
Definition fr_data : DOFsData := match CreateDOFs 2 fr_info sq_mesh with Ok d => d | _ => empty_dofs end.
Example fr_created : CreateDOFs 2 fr_info sq_mesh = Ok fr_data.
Proof. apply is_Ok_eq. vm_compute. reflexivity. Qed.
Example fr_numbers : NumberDOFs fr_data = 15%nat /\ NumberStrongs fr_data = 0%nat.
Proof. vm_compute. auto. Qed.
Example fr_free : no_strong fr_info.
Proof.
  intros d e H. unfold strong_entity in H. destruct d as [|[|[|d]]].
  - do 6 (destruct e as [|e]; [discriminate H|]). destruct e; discriminate H.
  - do 7 (destruct e as [|e]; [discriminate H|]). destruct e; discriminate H.
  - do 2 (destruct e as [|e]; [discriminate H|]). destruct e; discriminate H.
  - destruct d as [|d]; destruct e; discriminate H.
Qed.
Example fr_covered : covered fr_info sq_mesh.
Proof.
  split; intros e He _; vm_compute in He.
  - do 6 (destruct e as [|e]; [first [exists 0%nat; split; [cbn; lia|cbn; tauto]|exists 1%nat; split; [cbn; lia|cbn; tauto]]|]). lia.
  - do 7 (destruct e as [|e]; [first [exists 0%nat; split; [cbn; lia|cbn; tauto]|exists 1%nat; split; [cbn; lia|cbn; tauto]]|]). lia.
Qed.
Example fr_closed : closed_boundary fr_info sq_mesh sq_geometry.
Proof.
  intros ci H. cbn in H. repeat (destruct H as [<-|H]; [cbn; intros W; try discriminate; left; reflexivity|]). destruct H.
Qed.
Example fr_vem : forall ref, VEM_PCC_2D_Create (fun _ => collapsed_rule) (fun _ => simpson_rule) 2 = Ok ref ->
  vem_mesh (fun _ => collapsed_rule) (fun _ => simpson_rule) gauss_solver gauss_solver 2 ref sq_m fr_info sq_geometry.
Proof.
  intros ref E. destruct (sq_vem ref E) as [H1 H2 H3 H4 H5 H6 H7 H8 H9 H10 H11 H12]. constructor; auto.
Qed.
(** y^2 - y + 1/6 is orthogonal to degree 1 on both squares *)
Definition fr_p (x y : R) : R := y * y - y + 1/6.
Example fr_poly : poly2 2 fr_p (fun _ _ => 0) (fun _ y => 2 * y - 1).
Proof.
  refine (poly2_ext 2 _ _ _ _ _ _ (poly2_add 2 _ _ _ _ _ _ (poly2_mono 2 0 2 ltac:(lia)) (poly2_add 2 _ _ _ _ _ _ (poly2_scal 2 (-1) _ _ _ (poly2_mono 2 0 1 ltac:(lia))) (poly2_const 2 (1/6)))) _ _ _); intros; unfold fr_p; cbn; field.
Qed.
Example fr_orthogonal : forall c a b, (c < Cell2Ds_number (md_mesh sq_m))%nat -> (a + b <= 2 - 1)%nat -> polygon_integral collapsed_rule (sq_geometry c) (fun x y => fr_p x y * (x ^ a * y ^ b)) = 0.
Proof.
  intros c a b Hc Hab. cbn in Hc. unfold polygon_integral, area. cbn [sq_geometry pg_TriangulationVertices lsum].
  assert (S1 : signed_area (sq_triangle c 0 1 2) = 1/2) by (unfold signed_area, cross; cbn; field). assert (S2 : signed_area (sq_triangle c 0 2 3) = 1/2) by (unfold signed_area, cross; cbn; field).
  rewrite S1, S2, !Rabs_right by lra. unfold apply_rule, in_triangle, fr_p.
  destruct a as [|[|a]]; [| |lia]; (destruct b as [|[|b]]; [| |lia]); try lia; cbn -[INR]; field.
Qed.
Example C125_refuted : forall junk, exists ref, vem_mesh (fun _ => collapsed_rule) (fun _ => simpson_rule) gauss_solver gauss_solver 2 ref sq_m fr_info sq_geometry /\ ~ regular_step sq_m fr_data (ht_create junk ref) (fun _ _ _ => 2) 0.
Proof.
  intros junk. destruct sq_reference as (ref & E). exists ref. split; [apply (fr_vem ref E)|].
  apply (C125_explicit _ _ junk _ _ 2 ref sq_m fr_info sq_geometry fr_data (fun _ _ _ => 2) fr_p _ _ 0 0 (fr_vem ref E) fr_created fr_poly fr_orthogonal).
  - apply fr_numbers.
  - cbn; lia.
  - cbn; lia.
  - unfold fr_p. cbn. lra.
Qed.
(** solution x^2 / 2 + t, time from 0 to 2, TimeStep 1/2 *)
Definition fr_problem : Problem := {|
  pb_diffusion := fun _ _ _ => 2; pb_source := fun _ _ _ _ => 1 - (2 + 0); pb_strong := fun _ _ _ _ _ => 0;
  pb_weak := fun i x y _ t => match i with 1%nat => - (2 * x) | 4%nat => 2 * x | _ => 0 end;
  pb_initial := fun x y _ => x * x / 2 + 0; pb_exact := fun x y _ t => x * x / 2 + t; pb_gradient := fun x y z t => planar_gradient (fun x y => x) (fun _ _ => 0) x y z |}.
Example fr_regular : forall junk ref, VEM_PCC_2D_Create (fun _ => collapsed_rule) (fun _ => simpson_rule) 2 = Ok ref -> regular_step sq_m fr_data (ht_create junk ref) (fun _ _ _ => 2) (1/2 * 1).
Proof.
  intros junk ref E. apply (C125_implicit _ _ junk _ _ 2 ref sq_m fr_info sq_geometry fr_data (fun _ _ _ => 2) (1/2 * 1) (fr_vem ref E) fr_created ht_measure sq_positive fr_covered); intros; lra.
Qed.
Example C128_case : forall junk, exists ref ds d, run lu_solver sq_m fr_info fr_data sq_geometry simpson_rule 2 (ht_create junk ref) fr_problem (1/2) 1 (create_time_steps (map (fun j => INR j * (1/2)) (seq 0 3)) 0 2) = Ok ds /\
  nth_error ds 2 = Some d /\ evaluate_function_on_dofs sq_m fr_data 2 (spaces (ht_create junk ref)) (planar (fun x y => x * x / 2 + (0 + (2 - 0) * (INR 2 * (1/2))))) <> Ok (sd_solution d, sd_dirichlet d).
Proof.
  intros junk. destruct sq_reference as (ref & E). exists ref.
  destruct (C128_times _ _ junk _ _ 2 ref sq_m fr_info sq_geometry fr_data lu_solver fr_problem 1 simpson_rule 0 2 (1/2) 2 (fun x y => x * x / 2) (fun x y => x) (fun _ _ => 0) (fun x y => 2 * x) (fun _ _ => 2) (fun _ _ => 0) (fun _ _ => 0) (fun _ _ => 0) (fun _ _ => 0)
    (fr_vem ref E) fr_created lu_exact (fr_regular junk ref E) fr_covered eq_refl fr_closed sq_interval fr_free) as (ds & ER & LL & H).
  - refine (poly2_ext 2 _ _ _ _ _ _ (poly2_scal 2 (1/2) _ _ _ (poly2_mono 2 2 0 ltac:(lia))) _ _ _); intros; cbn; field.
  - eapply poly2_ext; [apply (poly2_affine 1 0 2 0); lia| | |]; intros; cbv beta; ring.
  - apply (poly2_const 1 0).
  - intros x y z. cbn [fr_problem pb_diffusion]. split; ring.
  - intros. reflexivity.
  - intros t c i s H. cbn in H. repeat (destruct H as [E'|H]; [injection E' as <- <-; cbn -[Rplus Rmult]; intros W; try discriminate W; unfold at_point; cbn -[Rplus Rmult]; ring|]). destruct H.
  - intros x y z. reflexivity.
  - destruct (nth_error ds 2) as [d|] eqn:Ed; [|apply nth_error_None in Ed; lia]. exists ds, d. split; [exact ER|]. split; [exact Ed|]. destruct (H 2%nat d Ed) as (_ & _ & N). apply N; [lia|lra|lra|cbn; lia].
Qed.
