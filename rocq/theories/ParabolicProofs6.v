(** Proofs: runs of the driver of the heat equation: reports, distance of two runs, kernel of the mass matrix, the times. *)
From Coq Require Import List Arith Bool Reals Lia Lra FunctionalExtensionality.
From Verif Require Import Base RSum MatrixModel MonomialsModel MonomialsSpec LagrangeModel LagrangeSpec DofsModel DofsSpec DofsProofs DofsProofs2 AssemblerModel AssemblerSpec EquationModel EquationSpec VemQuadModel VemQuadSpec VemQuadProofs VemQuadProofs2 GreenSpec GreenProofs PolyProofs VemModel VemSpec
  VemProofs VemProofs2 VemProofs3 VemProofs4 VemProofs5 DriverModel DriverSpec DriverSpec2 Pcc2dModel Pcc2dSpec DriverProofs DriverProofs2 DriverProofs3 DriverProofs4 DriverProofs5 DriverProofs6 DriverProofs7 Pcc2dProofs Pcc2dProofs2 Pcc2dProofs3 Pcc2dProofs4 Pcc2dProofs5 Pcc2dProofs6 Pcc2dProofs7
  Mcc2dProofs3 ParabolicModel ParabolicSpec ParabolicProofs ParabolicProofs2 ParabolicProofs3 ParabolicProofs4 ParabolicProofs5.
Import ListNotations.
Local Open Scope R_scope.

Section Runs.
Variables (m : Mesh2D) (info : MeshDOFsInfo) (data : DOFsData) (create : nat -> outcome ParabolicSpace) (E : nat -> HeatCell) (geometry : nat -> Polygon)
  (gauss : QuadratureData) (B : nat -> Mat) (pt : nat -> nat -> nat -> R).
Hypothesis HM : heat_mesh m info data create E geometry gauss B pt.

Lemma heat_static kappa kk : (forall c, (c < Cell2Ds_number (md_mesh m))%nat -> greatest_value (E c) kappa (kk c)) ->
  exists A M, StaticAssemble m data create kappa = Ok (A, M) /\
    (forall r j v, In (r, j, v) (trip_DOFs A ++ trip_DOFs M) -> (r < NumberDOFs data)%nat /\ (j < NumberDOFs data)%nat) /\
    (forall r j v, In (r, j, v) (trip_Strongs A ++ trip_Strongs M) -> (r < NumberDOFs data)%nat /\ (j < NumberStrongs data)%nat) /\
    forall uD uS ul, length uD = NumberDOFs data -> length uS = NumberStrongs data -> local_values data uD uS ul m -> forall r,
      operator_row A uD uS r = cells_row info m data (fun c => stiffness_form (E c) kappa (kk c) (ul c)) r /\
      operator_row M uD uS r = cells_row info m data (fun c => mass_form (E c) (ul c)) r.
Proof using HM.
  destruct HM as [HC HN _ HE _ _ _ _]. intros HK. destruct (static_ok m info data HC HN create E HE kappa kk HK) as (A & M & EA & (A1 & A2 & A3) & (M1 & M2 & M3)).
  exists A, M. split; [exact EA|]. split; [|split].
  - intros r j v H. apply in_app_or in H. destruct H as [H|H]; [apply (A1 r j v H)|apply (M1 r j v H)].
  - intros r j v H. apply in_app_or in H. destruct H as [H|H]; [apply (A2 r j v H)|apply (M2 r j v H)].
  - intros uD uS ul H1 H2 H3 r. auto.
Qed.

Lemma heat_data f g h : exists F uS, Assemble m info data geometry gauss create f g h = Ok (F, uS) /\ length F = NumberDOFs data /\ length uS = NumberStrongs data /\
  (forall r, nth r F 0 = load_row info m data geometry gauss E B f h r) /\
  forall d e i, (d <= 2)%nat -> (e < num_cells info d)%nat -> (i < requested info d e)%nat -> strong_entity info d e ->
    exists x, lookup data (entity_dof d e i) = Some x /\ dof_type x = TStrong /\
      (receives_strong (all_active m) info 2 d e -> nth_error uS (dof_index x) = Some (strong_value m info pt g d e i)) /\
      (~ receives_strong (all_active m) info 2 d e -> nth_error uS (dof_index x) = Some 0).
Proof using HM.
  destruct HM as [HC HN _ HE HW HQ HV HP]. destruct (data_ok m info data HC HN create E HE geometry gauss B HW HQ pt HV HP f g h) as (F & uS & EA & LF & LS & HF & ES).
  exists F, uS. split; [exact EA|]. split; [exact LF|]. split; [exact LS|]. split; [exact HF|].
  destruct (strong_result (all_active m) info data HC HN 2 (spaces create) g pt) as (uS' & ES' & _ & H).
  { intros c v Hc _ Hv _. apply (HV c v Hc Hv). }
  { intros _ c Hc _. destruct (HP c Hc eq_refl) as (sp & Es & H). exists sp. split; [exact Es|]. intros ed e He _. apply (H ed e He Logic.I). }
  rewrite ES in ES'. injection ES' as <-. exact H.
Qed.

Lemma heat_run solver order pb dt theta kk u0 uD0 t0 ts : exact_solver solver -> (forall c, (c < Cell2Ds_number (md_mesh m))%nat -> greatest_value (E c) (pb_diffusion pb) (kk c)) ->
  regular_step m data create (pb_diffusion pb) (dt * theta) -> evaluate_function_on_dofs m data order (spaces create) (pb_initial pb) = Ok (u0, uD0) -> length u0 = NumberDOFs data -> length uD0 = NumberStrongs data ->
  exists ds, run solver m info data geometry gauss order create pb dt theta (t0 :: ts) = Ok ds /\ length ds = length (t0 :: ts) /\
  (exists d0, nth_error ds 0 = Some d0 /\ sd_solution d0 = u0 /\ sd_dirichlet d0 = uD0) /\
  (forall i t d, nth_error (t0 :: ts) i = Some t -> nth_error ds i = Some d -> reports m data create (fun x y z => pb_exact pb x y z t) (fun x y z k => pb_gradient pb x y z t k) d) /\
  forall i t t' d d', nth_error (t0 :: ts) i = Some t -> nth_error (t0 :: ts) (S i) = Some t' -> nth_error ds i = Some d -> nth_error ds (S i) = Some d' ->
    theta_step info m data E (pb_diffusion pb) kk dt theta (problem_load info m data geometry gauss E B pb t) (problem_load info m data geometry gauss E B pb t') d d' /\ sd_residual d' = 0 /\
    assemble_strong_solution (all_active m) info data 2 (spaces create) (fun i x y z => pb_strong pb i x y z t') = Ok (sd_dirichlet d').
Proof using HM.
  destruct HM as [HC HN HN0 HE HW HQ HV HP]. intros HS HK HR HI L0 LD0.
  exact (run_ok m info data HC HN HN0 create E HE geometry gauss B HW HQ pt HV HP solver order pb dt theta kk HS HK HR u0 uD0 HI L0 LD0 t0 ts).
Qed.

Lemma runs_decay solver order pb w dt theta kk u0 uD0 v0 vD0 t0 ts : exact_solver solver -> (forall c, (c < Cell2Ds_number (md_mesh m))%nat -> greatest_value (E c) (pb_diffusion pb) (kk c)) ->
  (forall c, (c < Cell2Ds_number (md_mesh m))%nat -> sound_cell (pb_diffusion pb) (E c)) ->
  regular_step m data create (pb_diffusion pb) (dt * theta) -> 0 < dt -> 1 / 2 <= theta ->
  evaluate_function_on_dofs m data order (spaces create) (pb_initial pb) = Ok (u0, uD0) -> length u0 = NumberDOFs data -> length uD0 = NumberStrongs data ->
  evaluate_function_on_dofs m data order (spaces create) w = Ok (v0, vD0) -> length v0 = NumberDOFs data -> length vD0 = NumberStrongs data ->
  exists ds es A M, run solver m info data geometry gauss order create pb dt theta (t0 :: ts) = Ok ds /\
    run solver m info data geometry gauss order create (with_initial pb w) dt theta (t0 :: ts) = Ok es /\ length ds = length (t0 :: ts) /\ length es = length (t0 :: ts) /\ StaticAssemble m data create (pb_diffusion pb) = Ok (A, M) /\
    forall i d d' e e', nth_error ds i = Some d -> nth_error ds (S i) = Some d' -> nth_error es i = Some e -> nth_error es (S i) = Some e' ->
      sd_dirichlet d' = sd_dirichlet e' /\ (sd_dirichlet d = sd_dirichlet e ->
      let x := difference (NumberDOFs data) (sd_solution d) (sd_solution e) in let x' := difference (NumberDOFs data) (sd_solution d') (sd_solution e') in
      0 <= quadratic (NumberDOFs data) M x' x' <= quadratic (NumberDOFs data) M x x /\ 0 <= quadratic (NumberDOFs data) A x' x' <= quadratic (NumberDOFs data) A x x).
Proof using HM.
  intros HS HK SC HR Hdt Hth HI L0 LD0 HJ L1 LD1.
  destruct (heat_run solver order pb dt theta kk u0 uD0 t0 ts HS HK HR HI L0 LD0) as (ds & ER & LL & _ & RP & ST).
  destruct (heat_run solver order (with_initial pb w) dt theta kk v0 vD0 t0 ts HS HK HR HJ L1 LD1) as (es & ER' & LL' & _ & RP' & ST').
  destruct HM as [HC HN HN0 HE _ _ _ _]. destruct (static_ok m info data HC HN create E HE (pb_diffusion pb) kk HK) as (A & M & EA & _ & _).
  exists ds, es, A, M. repeat (split; [assumption|]). intros i d d' e e' Hd Hd' He He'.
  assert (Li : (S i < length (t0 :: ts))%nat) by (rewrite <- LL; apply nth_error_Some; congruence).
  destruct (nth_error (t0 :: ts) i) as [t|] eqn:Et; [|apply nth_error_None in Et; lia]. destruct (nth_error (t0 :: ts) (S i)) as [t'|] eqn:Et'; [|apply nth_error_None in Et'; lia].
  destruct (ST i t t' d d' Et Et' Hd Hd') as (T1 & _ & D1). destruct (ST' i t t' e e' Et Et' He He') as (T2 & _ & D2). cbn [with_initial pb_strong] in D2. rewrite D1 in D2. injection D2 as ED'.
  split; [exact ED'|]. intros ED. destruct (RP i t d Et Hd) as (A1 & A2 & _). destruct (RP (S i) t' d' Et' Hd') as (A3 & A4 & _). destruct (RP' i t e Et He) as (A5 & A6 & _). destruct (RP' (S i) t' e' Et' He') as (A7 & A8 & _).
  cbv zeta. pose proof (steps_decay m info data HC HN create E HE (pb_diffusion pb) SC kk HK A M EA dt theta _ _ d d' e e' Hdt Hth A1 A2 A3 A4 A5 A7 (eq_sym ED) (eq_sym ED') T1 T2) as (Q1 & Q2).
  pose proof (quadratic_nonneg m info data HC HN create E HE (pb_diffusion pb) SC kk HK A M EA (difference (NumberDOFs data) (sd_solution d') (sd_solution e'))) as QN.
  destruct QN as (N1 & N2); [unfold difference; rewrite map_length, seq_length; reflexivity|]. auto.
Qed.
End Runs.

(** ** The virtual element *)
Lemma vem_heat_mesh gt lob junk lu llt k ref m info geometry data gauss : vem_mesh gt lob lu llt k ref m info geometry -> CreateDOFs 2 info (md_mesh m) = Ok data ->
  Cell0Ds_number (md_mesh m) = num_cells info 0 -> m_cols (q_Points gauss) = v_size (q_Weights gauss) ->
  exists B, heat_mesh m info data (hcreate junk lu llt ref geometry) (hcell junk lu llt ref geometry) geometry gauss (fun _ => B) (pt ref m).
Proof.
  intros VM HC HN0 HQ. destruct (weak_cells gt lob junk lu llt k ref m info geometry VM data HC gauss HQ) as (B & HW & _). exists B. split; auto.
  - apply (vm_cells _ _ _ _ _ _ _ _ _ VM).
  - intros c Hc. apply (hcell_size gt lob junk lu llt k ref m info geometry VM c Hc).
  - intros c w Hc Hw. pose proof (vm_vertex_dofs _ _ _ _ _ _ _ _ _ VM c w Hc Hw) as RV. rewrite RV. apply le_n.
  - rewrite hspaces. apply (edges_agree gt lob junk lu llt k ref m info geometry VM).
Qed.

Section Kernel.
Variables (gt lob : nat -> QuadratureData) (junk : nat -> nat -> R) (lu llt : Solver) (k : nat) (ref : VEM_2D_Reference) (m : Mesh2D) (info : MeshDOFsInfo) (geometry : nat -> Polygon) (data : DOFsData).
Hypothesis VM : vem_mesh gt lob lu llt k ref m info geometry.
Hypothesis HC : CreateDOFs 2 info (md_mesh m) = Ok data.
Notation loc := (loc junk lu llt ref geometry).
Notation CS c Hc := (cell_space gt lob junk lu llt k ref m info geometry VM c Hc).

Lemma integral_inside c f : (c < Cell2Ds_number (md_mesh m))%nat -> inside (loc c) f = polygon_integral (gt (2 * k)%nat) (geometry c) f.
Proof using VM. intros Hc. exact (lf_int _ _ _ _ _ _ (LF _ _ _ _ _ _ _ _ _ (CS c Hc)) f). Qed.

Lemma orthogonal_poly c p n t tx ty : (forall a b, (a + b <= n)%nat -> inside (loc c) (fun x y => p x y * (x ^ a * y ^ b)) = 0) -> poly2 n t tx ty -> inside (loc c) (fun x y => p x y * t x y) = 0.
Proof using.
  clear. intros H PT. unfold inside, apply_rule in *. induction PT as [a b Hab|f fx fy g gx gy _ IH1 _ IH2|s f fx fy _ IH|f fx fy g gx gy _ IH EQ _ _].
  - apply (H a b Hab).
  - cbv beta in IH1, IH2 |- *. match type of IH1 with ?a = _ => match type of IH2 with ?b = _ => transitivity (a + b); [|rewrite IH1, IH2; ring] end end. rewrite <- rsum_plus. apply rsum_ext. intros; ring.
  - rewrite <- (Rmult_0_r s), <- IH, <- rsum_scal. apply rsum_ext. intros; ring.
  - rewrite <- IH. apply rsum_ext. intros q _. rewrite EQ. reflexivity.
Qed.

Lemma mass_kernel p px py : poly2 k p px py -> (forall c a b, (c < Cell2Ds_number (md_mesh m))%nat -> (a + b <= k - 1)%nat -> polygon_integral (gt (2 * k)%nat) (geometry c) (fun x y => p x y * (x ^ a * y ^ b)) = 0) ->
  forall c j, (c < Cell2Ds_number (md_mesh m))%nat -> (j < lv_NumBasisFunctions (loc c))%nat -> mass_form (hcell junk lu llt ref geometry c) (dofs_of ref (loc c) p) j = 0.
Proof using VM.
  intros Pp OR c j Hc Hj. rewrite (mass_exact gt lob junk lu llt k ref m info geometry VM c p px py j Hc Pp Hj).
  destruct (lf_P0 _ _ _ _ _ _ (LF _ _ _ _ _ _ _ _ _ (CS c Hc))) as (RP & CP & _). set (e := fun i => if (i =? j)%nat then 1 else 0).
  pose proof (projected_poly2 _ _ _ _ _ _ _ _ _ (CS c Hc) (lv_Pi0km1 (loc c)) e (k - 1) RP ltac:(lia)) as PP.
  rewrite <- (orthogonal_poly c p (k - 1) _ _ _ (fun a b Hab => eq_trans (integral_inside c _ Hc) (OR c a b Hc Hab)) PP).
  unfold load_form, inside, apply_rule. apply rsum_ext. intros q Hq. rewrite Rmult_assoc. f_equal. unfold hc_at, planar. f_equal.
  destruct (hcell_ok gt lob junk lu llt k ref m info geometry VM c Hc) as [_ _ (_ & (_ & CV)) _ _ _ _].
  rewrite combine_p by (rewrite CV; exact Hj). apply (hvalues gt lob junk lu llt k ref m info geometry VM c e q Hc).
Qed.

(** the unknowns of such a polynomial are in the kernel of the mass matrix *)
Lemma mass_singular kappa p px py : poly2 k p px py -> (forall c a b, (c < Cell2Ds_number (md_mesh m))%nat -> (a + b <= k - 1)%nat -> polygon_integral (gt (2 * k)%nat) (geometry c) (fun x y => p x y * (x ^ a * y ^ b)) = 0) ->
  exists A M uD uS, StaticAssemble m data (hcreate junk lu llt ref geometry) kappa = Ok (A, M) /\ evaluate_function_on_dofs m data k (spaces (hcreate junk lu llt ref geometry)) (planar p) = Ok (uD, uS) /\
    length uD = NumberDOFs data /\ length uS = NumberStrongs data /\ forall r, operator_row M uD uS r = 0.
Proof using VM HC.
  intros Pp OR. pose proof (vm_cells _ _ _ _ _ _ _ _ _ VM) as HN.
  destruct (static_ok m info data HC HN _ _ (hcell_size gt lob junk lu llt k ref m info geometry VM) kappa _ (hk_ok gt lob junk lu llt k ref m info geometry VM kappa)) as (A & M & EA & _ & (_ & _ & RM)).
  destruct (interpolant gt lob junk lu llt k ref m info geometry VM data HC p) as (uD & uS & EU & LD & LS & _).
  exists A, M, uD, uS. split; [exact EA|]. rewrite hspaces. split; [exact EU|]. split; [exact LD|]. split; [exact LS|]. intros r.
  destruct (interpolant_values gt lob junk lu llt k ref m info geometry VM data HC p uD uS EU) as (_ & _ & LV). rewrite (RM uD uS _ LD LS LV r).
  unfold cells_row. apply rsum_0. intros c Hc. rewrite free_places_sum. apply rsum_0. intros j Hj. cbv beta. rewrite (size_closure gt lob junk lu llt k ref m info geometry VM c Hc) in Hj. rewrite (mass_kernel p px py Pp OR c j Hc Hj). ring.
Qed.
(** without Strong entities the explicit step has no unique solution *)
Lemma explicit_singular kappa p px py c j : poly2 k p px py -> (forall c a b, (c < Cell2Ds_number (md_mesh m))%nat -> (a + b <= k - 1)%nat -> polygon_integral (gt (2 * k)%nat) (geometry c) (fun x y => p x y * (x ^ a * y ^ b)) = 0) ->
  NumberStrongs data = 0%nat -> (c < Cell2Ds_number (md_mesh m))%nat -> (j < length (Cell2D_vertices (md_mesh m) c))%nat -> (let v := nth j (Cell2D_vertices (md_mesh m) c) 0%nat in p (md_coords m v 0%nat) (md_coords m v 1%nat) <> 0) ->
  ~ regular_step m data (hcreate junk lu llt ref geometry) kappa 0.
Proof using VM HC.
  intros Pp OR NS Hc Hj NZ RG. destruct (mass_singular kappa p px py Pp OR) as (A & M & uD & uS & EA & EU & LD & LS & RZ).
  assert (Z : forall i, (i < NumberDOFs data)%nat -> nth i uD 0 = 0).
  { apply (RG A M EA (fun i => nth i uD 0)). intros r Hr. specialize (RZ r). unfold operator_row in RZ. rewrite LD, LS, NS in RZ. cbn [rsum] in RZ. rewrite Rplus_0_r in RZ. match type of RZ with ?a = _ => transitivity a; [|exact RZ] end. apply rsum_ext. intros; ring. }
  rewrite hspaces in EU. destruct (interpolant gt lob junk lu llt k ref m info geometry VM data HC p) as (uD' & uS' & EU' & _ & _ & HU). rewrite EU in EU'. injection EU' as <- <-.
  destruct (HU c Hc) as (u & Eu & Su & Hu). pose proof (vm_cells _ _ _ _ _ _ _ _ _ VM) as HN. destruct (local_solution_ok m info data HC HN c uD uS Hc LD LS) as (u' & Eu' & _ & Hv). rewrite Eu in Eu'. injection Eu' as <-.
  set (v := nth j (Cell2D_vertices (md_mesh m) c) 0%nat) in *. assert (IV : In v (Cell2D_vertices (md_mesh m) c)) by (apply nth_In; exact Hj).
  assert (IG : In (entity_dof 0 v 0) (closure_dofs info (md_mesh m) 2 c)).
  { apply in_closure_dofs. cbn [g_dof entity_dof g_cell g_dim]. split; [apply in_or_app; left; apply in_map; exact IV|]. rewrite (vm_vertex_dofs _ _ _ _ _ _ _ _ _ VM c v Hc IV). lia. }
  apply In_nth_error in IG. destruct IG as (i & Hi). specialize (Hu i _ Hi). specialize (Hv i _ Hi). rewrite Hu in Hv. unfold value_of in Hv.
  assert (dof_value m (pt ref m) (td junk lu llt ref geometry p) (planar p) (entity_dof 0 v 0) = p (md_coords m v 0%nat) (md_coords m v 1%nat)) as DV by reflexivity.
  rewrite DV in Hv. destruct (lookup data (entity_dof 0 v 0)) as [x|] eqn:Lx; [|discriminate].
  destruct (dof_type x) eqn:Tx; try discriminate.
  - assert (dof_index x < length uS)%nat by (apply nth_error_Some; congruence). lia.
  - assert (IX : (dof_index x < NumberDOFs data)%nat) by (rewrite <- LD; apply nth_error_Some; congruence). apply NZ. rewrite <- (Z _ IX). symmetry. apply (nth_error_nth _ _ 0 Hv).
Qed.

(** ** The times *)
Lemma uniform_nth (f : nat -> R) n j t : nth_error (map f (seq 0 n)) j = Some t -> (j < n)%nat /\ t = f j.
Proof using. clear. intros H. assert (Hj : (j < n)%nat) by (rewrite <- (seq_length n 0), <- (map_length f); apply nth_error_Some; congruence). split; [exact Hj|]. rewrite nth_error_map_seq in H by exact Hj. congruence. Qed.

Lemma shifted_times solver pb theta gauss t0 t1 h n a ax ay g0 g0x g0y g1 g1x g1y : exact_solver solver -> regular_step m data (hcreate junk lu llt ref geometry) (pb_diffusion pb) (h * theta) -> covered info (md_mesh m) ->
  Cell0Ds_number (md_mesh m) = num_cells info 0 -> closed_boundary info (md_mesh m) geometry -> exact_interval (2 * k - 1) gauss -> no_strong info ->
  poly2 k a ax ay -> poly2 (k - 1) g0 g0x g0y -> poly2 (k - 1) g1 g1x g1y -> (forall x y z, g0 x y = pb_diffusion pb x y z * ax x y /\ g1 x y = pb_diffusion pb x y z * ay x y) ->
  (forall x y z t, pb_source pb x y z t = 1 - (g0x x y + g1y x y)) -> (forall t, neumann_data info (md_mesh m) geometry g0 g1 (fun i x y z => pb_weak pb i x y z t)) ->
  (forall x y z, pb_initial pb x y z = a x y + t0) ->
  let times := create_time_steps (map (fun j => INR j * h) (seq 0 (S n))) t0 t1 in
  exists ds, run solver m info data geometry gauss k (hcreate junk lu llt ref geometry) pb h theta times = Ok ds /\ length ds = S n /\
    forall j d, nth_error ds j = Some d -> nth_error times j = Some (t0 + (t1 - t0) * (INR j * h)) /\
      evaluate_function_on_dofs m data k (spaces (hcreate junk lu llt ref geometry)) (planar (fun x y => a x y + (t0 + INR j * h))) = Ok (sd_solution d, sd_dirichlet d) /\
      ((0 < j)%nat -> h <> 0 -> t1 - t0 <> 1 -> (0 < Cell2Ds_number (md_mesh m))%nat ->
       evaluate_function_on_dofs m data k (spaces (hcreate junk lu llt ref geometry)) (planar (fun x y => a x y + (t0 + (t1 - t0) * (INR j * h)))) <> Ok (sd_solution d, sd_dirichlet d)).
Proof using VM HC.
  intros HS RG CO HN0 CL EX NST Pa Pg0 Pg1 FL SO NE IN times.
  assert (PA : forall s, poly2 k (fun x y => a x y + s) ax ay).
  { intros s. refine (poly2_ext k _ _ _ _ _ _ (poly2_add k _ _ _ _ _ _ Pa (poly2_const k s)) (fun _ _ => eq_refl) _ _); intros; ring. }
  assert (DS : forall q g, dirichlet_data info (md_mesh m) q g) by (intros q g; split; [intros d e x y z _ H; destruct (NST d e H)|intros c _ H; apply (NST 2%nat c H)]).
  set (f := fun s => (t1 - t0) * s + t0). assert (TT : times = f (INR 0 * h) :: map f (map (fun j => INR j * h) (seq 1 n))) by reflexivity.
  assert (LT : length times = S n) by (unfold times, create_time_steps; rewrite !map_length, seq_length; reflexivity).
  destruct (run_exact gt lob junk lu llt k ref m info geometry VM data HC solver pb h theta gauss (f (INR 0 * h)) (map f (map (fun j => INR j * h) (seq 1 n)))
    (fun j x y => a x y + (t0 + INR j * h)) (fun _ => ax) (fun _ => ay) (fun _ _ _ => 1)) as (ds & ER & LL & RP); auto.
  - intros i t _. split; [apply PA|exists (fun _ _ => 0), (fun _ _ => 0); apply (poly2_const k 1)| |apply DS].
    exists g0, g0x, g0y, g1, g1x, g1y. split; [exact Pg0|]. split; [exact Pg1|]. split; [|apply NE]. intros x y z. destruct (FL x y z) as (F0 & F1). split; [exact F0|]. split; [exact F1|]. apply SO.
  - intros i x y _. rewrite S_INR. ring.
  - intros x y z. rewrite IN. cbn [INR]. ring.
  - rewrite <- TT in ER, LL, RP. exists ds. split; [exact ER|]. split; [congruence|]. intros j d Hd.
    assert (Hj : (j < S n)%nat) by (rewrite <- LT, <- LL; apply nth_error_Some; congruence).
    assert (ET : nth_error times j = Some (t0 + (t1 - t0) * (INR j * h))).
    { unfold times, create_time_steps. rewrite map_map. rewrite nth_error_map_seq by exact Hj. f_equal. ring. }
    destruct (RP j _ d ET Hd) as (EV & _). split; [exact ET|]. split; [exact EV|]. intros J0 Hh HT NC EV'. rewrite hspaces in EV, EV'.
    destruct (interpolant_values gt lob junk lu llt k ref m info geometry VM data HC _ _ _ EV) as (_ & _ & V1). destruct (interpolant_values gt lob junk lu llt k ref m info geometry VM data HC _ _ _ EV') as (_ & _ & V2).
    destruct (V1 0%nat NC) as (w & Ew & H1). destruct (V2 0%nat NC) as (w' & Ew' & H2). rewrite Ew in Ew'. injection Ew' as <-.
    destruct (local_solution_ok m info data HC (vm_cells _ _ _ _ _ _ _ _ _ VM) 0%nat (sd_solution d) (sd_dirichlet d) NC) as (w' & Ew' & Sw & _).
    { destruct (interpolant_values gt lob junk lu llt k ref m info geometry VM data HC _ _ _ EV) as (L1 & _). exact L1. }
    { destruct (interpolant_values gt lob junk lu llt k ref m info geometry VM data HC _ _ _ EV) as (_ & L1 & _). exact L1. }
    rewrite Ew in Ew'. injection Ew' as <-. rewrite (size_closure gt lob junk lu llt k ref m info geometry VM 0%nat NC) in Sw.
    pose proof (CS 0%nat NC) as VS. pose proof (LF _ _ _ _ _ _ _ _ _ VS) as LFc. pose proof (lf_nb _ _ _ _ _ _ LFc) as NB. pose proof (lf_N _ _ _ _ _ _ LFc) as NN.
    assert (NV : (0 < m_cols (pg_Vertices (geometry 0%nat)))%nat).
    { destruct (m_cols (pg_Vertices (geometry 0%nat))) eqn:EE; [|lia]. pose proof (gp_area _ (vm_polygon _ _ _ _ _ _ _ _ _ VM 0%nat NC)) as S0. unfold shoelace in S0. rewrite EE in S0. cbn [rsum] in S0. lra. }
    assert (B0 : (0 < lv_NumBoundaryBasisFunctions (loc 0%nat))%nat) by (rewrite NB; pose proof (vm_order _ _ _ _ _ _ _ _ _ VM); nia).
    assert (N0 : (0 < v_size w)%nat) by (rewrite Sw, NN; rewrite NB in B0; lia).
    pose proof (eq_trans (H1 0%nat N0) (eq_sym (H2 0%nat N0))) as EQ. unfold dofs_of in EQ. destruct (Nat.ltb_spec 0 (lv_NumBoundaryBasisFunctions (loc 0%nat))); [|lia].
    assert (INR j * h * (1 - (t1 - t0)) = 0) as Z by lra. assert (INR j <> 0) by (apply not_0_INR; lia). apply Rmult_integral in Z. destruct Z as [Z|Z]; [apply Rmult_integral in Z; destruct Z; auto|lra].
Qed.
End Kernel.
