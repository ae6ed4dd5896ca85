(** Properties C96 to C100: evaluation on the quadrature points and exact error sums, source and operator depending on a discrete function,
    diffusion operator, Navier-Stokes operators. *)
From Coq Require Import List Arith Bool Reals Lra Lia.
From Verif Require Import Base RSum MatrixModel DofsModel DofsSpec AssemblerModel AssemblerSpec EquationSpec VemQuadModel VemModel VemSpec DriverModel DriverSpec
  DriverSpec2 Driver2Model Driver2Spec Driver2Proofs Driver2Proofs2 Driver2Proofs3 DofsProps DriverProps DriverProps2.
Import ListNotations.
Local Open Scope nat_scope.

(** C96: the points of the active cells, cell after cell, whatever was in the result before *)
Theorem C96_evaluation : forall m info data create C,
  CreateDOFs 2 info (md_mesh m) = Ok data -> Cell2Ds_number (md_mesh m) = num_cells info 2 ->
  (forall c, c < Cell2Ds_number (md_mesh m) -> md_active2 m c = true -> comp_forms Pi0k_t create c (length (closure_dofs info (md_mesh m) 2 c)) (C c)) ->
  forall uD uS ul, length uD = NumberDOFs data -> length uS = NumberStrongs data ->
  (forall c, c < Cell2Ds_number (md_mesh m) -> local_solution data uD uS c = Ok (ul c)) ->
  forall exact exact_gradient junk,
  exists r, evaluate_solution_on_quadrature_points m data create uD uS exact exact_gradient junk = Ok r /\
    evaluation_sizes r (length (all_points m C ul exact exact_gradient)) /\
    map (point_of r) (seq 0 (length (all_points m C ul exact exact_gradient))) = all_points m C ul exact exact_gradient.
Proof. exact evaluation_ok. Qed.

(** C96: the reports of the errors are the weighted sums over these points *)
Theorem C96_errors : forall m info data create C,
  CreateDOFs 2 info (md_mesh m) = Ok data -> Cell2Ds_number (md_mesh m) = num_cells info 2 ->
  (forall c, c < Cell2Ds_number (md_mesh m) -> md_active2 m c = true -> comp_forms Pi0k_t create c (length (closure_dofs info (md_mesh m) 2 c)) (C c)) ->
  forall uD uS ul, length uD = NumberDOFs data -> length uS = NumberStrongs data ->
  (forall c, c < Cell2Ds_number (md_mesh m) -> local_solution data uD uS c = Ok (ul c)) ->
  forall exact exact_gradient,
  (exists r, compute_error_L2 m data create uD uS exact = Ok r /\ reports_points m C ul exact exact_gradient sq_error sq_numeric sq_exact r) /\
  (exists r, compute_error_H1 m data create uD uS exact_gradient = Ok r /\ reports_points m C ul exact exact_gradient sq_gradient_error sq_gradient_numeric sq_gradient_exact r).
Proof. exact errors_ok. Qed.

(** C97: sources depending on the discrete function w: against the functions, against their gradients *)
Theorem C97_source : forall m info info' trial test ct cs E,
  CreateDOFs 2 info (md_mesh m) = Ok trial -> Cell2Ds_number (md_mesh m) = num_cells info 2 ->
  CreateDOFs 2 info' (md_mesh m) = Ok test -> Cell2Ds_number (md_mesh m) = num_cells info' 2 ->
  (forall c, c < Cell2Ds_number (md_mesh m) -> md_active2 m c = true ->
     cell_forms ct cs c (length (closure_dofs info (md_mesh m) 2 c)) (length (closure_dofs info' (md_mesh m) 2 c)) (E c)) ->
  forall wD wS wl, length wD = NumberDOFs trial -> length wS = NumberStrongs trial ->
  (forall c, c < Cell2Ds_number (md_mesh m) -> local_solution trial wD wS c = Ok (wl c)) ->
  forall f, exists b, assemble_source_term_u m trial test ct cs wD wS f = Ok b /\ length b = NumberDOFs test /\
    forall r, nth r b 0%R = active_sum m (fun c => free_places info' (md_mesh m) test c r (source_form_u (E c) (v_at (wl c)) f)).
Proof. exact source_u_ok. Qed.
Theorem C97_source_gradients : forall m info info' trial test ct cs E,
  CreateDOFs 2 info (md_mesh m) = Ok trial -> Cell2Ds_number (md_mesh m) = num_cells info 2 ->
  CreateDOFs 2 info' (md_mesh m) = Ok test -> Cell2Ds_number (md_mesh m) = num_cells info' 2 ->
  (forall c, c < Cell2Ds_number (md_mesh m) -> md_active2 m c = true ->
     cell_forms ct cs c (length (closure_dofs info (md_mesh m) 2 c)) (length (closure_dofs info' (md_mesh m) 2 c)) (E c)) ->
  forall wD wS wl, length wD = NumberDOFs trial -> length wS = NumberStrongs trial ->
  (forall c, c < Cell2Ds_number (md_mesh m) -> local_solution trial wD wS c = Ok (wl c)) ->
  forall f, exists b, assemble_source_term_gradients m trial test ct cs wD wS f = Ok b /\ length b = NumberDOFs test /\
    forall r, nth r b 0%R = active_sum m (fun c => free_places info' (md_mesh m) test c r (source_gradient_form (E c) (v_at (wl c)) f)).
Proof. exact source_gradients_ok. Qed.

(** C98: the operator with coefficients depending on the discrete function w *)
Theorem C98_operator : forall m info info' trial test ct cs E,
  CreateDOFs 2 info (md_mesh m) = Ok trial -> Cell2Ds_number (md_mesh m) = num_cells info 2 ->
  CreateDOFs 2 info' (md_mesh m) = Ok test -> Cell2Ds_number (md_mesh m) = num_cells info' 2 ->
  (forall c, c < Cell2Ds_number (md_mesh m) -> md_active2 m c = true ->
     cell_forms ct cs c (length (closure_dofs info (md_mesh m) 2 c)) (length (closure_dofs info' (md_mesh m) 2 c)) (E c)) ->
  forall wD wS wl, length wD = NumberDOFs trial -> length wS = NumberStrongs trial ->
  (forall c, c < Cell2Ds_number (md_mesh m) -> local_solution trial wD wS c = Ok (wl c)) ->
  forall dif adv rea kk,
  (forall c a, c < Cell2Ds_number (md_mesh m) -> md_active2 m c = true -> dif = Some a -> greatest_value (E c) (eval_u a (E c) (v_at (wl c))) (kk c)) ->
  exists s, assemble_elliptic_operator_u m trial test ct cs wD wS dif adv rea = Ok s /\
    (forall r j v, In (r, j, v) (trip_DOFs s) -> r < NumberDOFs test /\ j < NumberDOFs trial) /\
    (forall r j v, In (r, j, v) (trip_Strongs s) -> r < NumberDOFs test /\ j < NumberStrongs trial) /\
    forall uD uS, length uD = NumberDOFs trial -> length uS = NumberStrongs trial ->
    exists ul, (forall c, c < Cell2Ds_number (md_mesh m) -> local_solution trial uD uS c = Ok (ul c)) /\
    forall r, operator_row s uD uS r = active_sum m (fun c => free_places info' (md_mesh m) test c r
      (elliptic_form_u (E c) (v_at (wl c)) dif adv rea (kk c) (v_at (ul c)))).
Proof. exact operator_u_ok. Qed.

(** C99: the diffusion operator with a scalar coefficient *)
Theorem C99_diffusion : forall m info info' trial test ct cs E,
  CreateDOFs 2 info (md_mesh m) = Ok trial -> Cell2Ds_number (md_mesh m) = num_cells info 2 ->
  CreateDOFs 2 info' (md_mesh m) = Ok test -> Cell2Ds_number (md_mesh m) = num_cells info' 2 ->
  (forall c, c < Cell2Ds_number (md_mesh m) -> md_active2 m c = true ->
     cell_forms ct cs c (length (closure_dofs info (md_mesh m) 2 c)) (length (closure_dofs info' (md_mesh m) 2 c)) (E c)) ->
  forall k kk, (forall c, c < Cell2Ds_number (md_mesh m) -> md_active2 m c = true -> greatest_value (E c) (at_q k (E c)) (kk c)) ->
  exists s, assemble_diffusion_operator m trial test ct cs k = Ok s /\
    (forall r j v, In (r, j, v) (trip_DOFs s) -> r < NumberDOFs test /\ j < NumberDOFs trial) /\
    (forall r j v, In (r, j, v) (trip_Strongs s) -> r < NumberDOFs test /\ j < NumberStrongs trial) /\
    forall uD uS, length uD = NumberDOFs trial -> length uS = NumberStrongs trial ->
    exists ul, (forall c, c < Cell2Ds_number (md_mesh m) -> local_solution trial uD uS c = Ok (ul c)) /\
    forall r, operator_row s uD uS r = active_sum m (fun c => free_places info' (md_mesh m) test c r (diffusion_form (E c) k (kk c) (v_at (ul c)))).
Proof. exact diffusion_ok. Qed.

(** C100: rows of the first component, then rows of the second: the right-hand side is (u . grad) u, the operator applied to d is
    (u . grad) d + (d . grad) u *)
Theorem C100_convection : forall m info data create C,
  CreateDOFs 2 info (md_mesh m) = Ok data -> Cell2Ds_number (md_mesh m) = num_cells info 2 ->
  (forall c, c < Cell2Ds_number (md_mesh m) -> md_active2 m c = true -> comp_forms Pi0km1_t create c (length (closure_dofs info (md_mesh m) 2 c)) (C c)) ->
  forall ux uy uxS uyS vx vy, length ux = NumberDOFs data -> length uy = NumberDOFs data -> length uxS = NumberStrongs data -> length uyS = NumberStrongs data ->
  (forall c, c < Cell2Ds_number (md_mesh m) -> local_solution data ux uxS c = Ok (vx c)) ->
  (forall c, c < Cell2Ds_number (md_mesh m) -> local_solution data uy uyS c = Ok (vy c)) ->
  exists s, assemble_NS_operators m data create ux uy uxS uyS = Ok s /\ length (asm_rhs s) = 2 * NumberDOFs data /\
    (forall r j v, In (r, j, v) (trip_DOFs s) -> r < 2 * NumberDOFs data /\ j < 2 * NumberDOFs data) /\
    (forall r j v, In (r, j, v) (trip_Strongs s) -> r < 2 * NumberDOFs data /\ j < 2 * NumberStrongs data) /\
    (forall h r, h < 2 -> r < NumberDOFs data -> nth (h * NumberDOFs data + r) (asm_rhs s) 0%R = active_sum m (fun c => free_places info (md_mesh m) data c r (fun p =>
       convective_form (C c) (fun k => v_at (pair2 (vx c) (vy c) k)) (fun k => v_at (pair2 (vx c) (vy c) k)) h p))) /\
    forall dx dy dxS dyS ex ey, length dx = NumberDOFs data -> length dy = NumberDOFs data -> length dxS = NumberStrongs data -> length dyS = NumberStrongs data ->
      (forall c, c < Cell2Ds_number (md_mesh m) -> local_solution data dx dxS c = Ok (ex c)) ->
      (forall c, c < Cell2Ds_number (md_mesh m) -> local_solution data dy dyS c = Ok (ey c)) ->
      forall h r, h < 2 -> r < NumberDOFs data -> operator_row s (dx ++ dy) (dxS ++ dyS) (h * NumberDOFs data + r) =
       active_sum m (fun c => free_places info (md_mesh m) data c r (fun p =>
        convective_form (C c) (fun k => v_at (pair2 (vx c) (vy c) k)) (fun k => v_at (pair2 (ex c) (ey c) k)) h p +
        convective_form (C c) (fun k => v_at (pair2 (ex c) (ey c) k)) (fun k => v_at (pair2 (vx c) (vy c) k)) h p)%R).
Proof. exact NS_ok. Qed.

(** C100: the operator is the derivative of the right-hand side: the remainder is the right-hand side of the increment *)
Theorem C100_newton : forall m info data create C,
  CreateDOFs 2 info (md_mesh m) = Ok data -> Cell2Ds_number (md_mesh m) = num_cells info 2 ->
  (forall c, c < Cell2Ds_number (md_mesh m) -> md_active2 m c = true -> comp_forms Pi0km1_t create c (length (closure_dofs info (md_mesh m) 2 c)) (C c)) ->
  forall ux uy uxS uyS dx dy dxS dyS, length ux = NumberDOFs data -> length uy = NumberDOFs data -> length uxS = NumberStrongs data -> length uyS = NumberStrongs data ->
  length dx = NumberDOFs data -> length dy = NumberDOFs data -> length dxS = NumberStrongs data -> length dyS = NumberStrongs data ->
  exists s t st, assemble_NS_operators m data create ux uy uxS uyS = Ok s /\ assemble_NS_operators m data create dx dy dxS dyS = Ok t /\
    assemble_NS_operators m data create (add_lists ux dx) (add_lists uy dy) (add_lists uxS dxS) (add_lists uyS dyS) = Ok st /\
    forall r, r < 2 * NumberDOFs data ->
      nth r (asm_rhs st) 0%R = (nth r (asm_rhs s) 0 + operator_row s (dx ++ dy) (dxS ++ dyS) r + nth r (asm_rhs t) 0)%R.
Proof. exact NS_newton. Qed.

(** ** Examples: the two triangles of DriverProps2 *)
Definition ex_comp (c : nat) : CompForms := {| cp_space := ex_space2 c; cp_U := ex_row 0; cp_dU := fun d => ex_row (S d) |}.
Lemma ex_comps : forall t c, c < Cell2Ds_number (md_mesh ex_m) -> md_active2 ex_m c = true ->
  comp_forms t ex_create2 c (length (closure_dofs ex_info (md_mesh ex_m) 2 c)) (ex_comp c).
Proof.
  intros t c Hc _. assert (length (closure_dofs ex_info (md_mesh ex_m) 2 c) = 10) as -> by (simpl in Hc; destruct c as [|[|c]]; try lia; reflexivity).
  constructor; try reflexivity; try (repeat split; simpl; auto; fail).
Qed.
(** the discrete function with all free values 2 and strong values 1 *)
Definition ex_uD : list R := repeat 2%R (NumberDOFs ex_data).
Definition ex_uS : list R := repeat 1%R (NumberStrongs ex_data).
Lemma ex_local : exists ul, forall c, c < Cell2Ds_number (md_mesh ex_m) -> local_solution ex_data ex_uD ex_uS c = Ok (ul c).
Proof. apply (local_values ex_m ex_info ex_data ex_created eq_refl); apply repeat_length. Qed.
Example C96_case : forall f g junk, exists r e, evaluate_solution_on_quadrature_points ex_m ex_data ex_create2 ex_uD ex_uS (Some f) (Some g) junk = Ok r /\
  compute_error_L2 ex_m ex_data ex_create2 ex_uD ex_uS (Some f) = Ok e /\ v_size (ev_weights r) = 2 /\ pd_x (point_of r 1) = [0%R; 3%R; 0%R] /\
  pe_error e = sqrt (lsum sq_error [point_of r 0; point_of r 1]).
Proof.
  intros f g junk. destruct ex_local as (ul & Hul).
  destruct (C96_evaluation ex_m ex_info ex_data ex_create2 ex_comp ex_created eq_refl (ex_comps _) ex_uD ex_uS ul (repeat_length _ _) (repeat_length _ _) Hul (Some f) (Some g) junk) as (r & Er & (_ & _ & Sw & _) & Hr).
  destruct (C96_errors ex_m ex_info ex_data ex_create2 ex_comp ex_created eq_refl (ex_comps _) ex_uD ex_uS ul (repeat_length _ _) (repeat_length _ _) Hul (Some f) (Some g)) as ((e & Ee & He) & _).
  change (length (all_points ex_m ex_comp ul (Some f) (Some g))) with 2 in *. cbn [seq map] in Hr.
  exists r, e. split; [exact Er|]. split; [exact Ee|]. split; [exact Sw|]. split.
  - assert (X : point_of r 1 = nth 1 (all_points ex_m ex_comp ul (Some f) (Some g)) (point_of r 1)) by (rewrite <- Hr; reflexivity).
    rewrite X. unfold all_points. cbn [filter md_active2 ex_m seq flat_map app map nth md_mesh Cell2Ds_number ex_mesh]. simpl. unfold ex_coords. cbn [nth INR]. repeat f_equal; lra.
  - destruct He as (_ & _ & _ & He & _ & _). rewrite He, <- Hr. reflexivity.
Qed.
(** coefficients u u, |grad u|^2, source u x *)
Definition ex_a (x y z u : R) (g : nat -> R) : R := (1 + u * u)%R.
Definition ex_b (x y z u : R) (g : nat -> R) (d : nat) : R := (u * g d)%R.
Lemma ex_greatest_u ul : exists kk, forall c a, c < Cell2Ds_number (md_mesh ex_m) -> md_active2 ex_m c = true -> Some ex_a = Some a ->
  greatest_value (ex_forms c) (eval_u a (ex_forms c) (v_at (ul c))) (kk c).
Proof.
  exists (fun c => Rabs (eval_u ex_a (ex_forms c) (v_at (ul c)) 0)). intros c a _ _ [= <-]. split.
  - intros q Hq. simpl in Hq. replace q with 0 by lia. apply Rle_refl.
  - exists 0. split; [simpl; lia|reflexivity].
Qed.
Example C97_case : forall f g, exists b b', assemble_source_term_u ex_m ex_data ex_data ex_create2 ex_create2 ex_uD ex_uS f = Ok b /\
  assemble_source_term_gradients ex_m ex_data ex_data ex_create2 ex_create2 ex_uD ex_uS g = Ok b' /\ length b = NumberDOFs ex_data /\ length b' = NumberDOFs ex_data.
Proof.
  intros f g. destruct ex_local as (ul & Hul).
  destruct (C97_source ex_m ex_info ex_info ex_data ex_data ex_create2 ex_create2 ex_forms ex_created eq_refl ex_created eq_refl ex_cells ex_uD ex_uS ul (repeat_length _ _) (repeat_length _ _) Hul f) as (b & E & L & _).
  destruct (C97_source_gradients ex_m ex_info ex_info ex_data ex_data ex_create2 ex_create2 ex_forms ex_created eq_refl ex_created eq_refl ex_cells ex_uD ex_uS ul (repeat_length _ _) (repeat_length _ _) Hul g) as (b' & E' & L' & _).
  exists b, b'. auto.
Qed.
Example C98_case : exists s, assemble_elliptic_operator_u ex_m ex_data ex_data ex_create2 ex_create2 ex_uD ex_uS (Some ex_a) (Some ex_b) (Some ex_a) = Ok s.
Proof.
  destruct ex_local as (ul & Hul). destruct (ex_greatest_u ul) as (kk & Hk).
  destruct (C98_operator ex_m ex_info ex_info ex_data ex_data ex_create2 ex_create2 ex_forms ex_created eq_refl ex_created eq_refl ex_cells ex_uD ex_uS ul (repeat_length _ _) (repeat_length _ _) Hul
    (Some ex_a) (Some ex_b) (Some ex_a) kk Hk) as (s & E & _). exists s. exact E.
Qed.
Example C99_case : exists s, assemble_diffusion_operator ex_m ex_data ex_data ex_create2 ex_create2 ex_reaction = Ok s.
Proof.
  destruct (C99_diffusion ex_m ex_info ex_info ex_data ex_data ex_create2 ex_create2 ex_forms ex_created eq_refl ex_created eq_refl ex_cells ex_reaction
    (fun c => Rabs (at_q ex_reaction (ex_forms c) 0))) as (s & E & _).
  - intros c _ _. split; [intros q Hq; simpl in Hq; replace q with 0 by lia; apply Rle_refl|exists 0; split; [simpl; lia|reflexivity]].
  - exists s. exact E.
Qed.
Example C100_case : exists s t st, assemble_NS_operators ex_m ex_data ex_create2 ex_uD ex_uD ex_uS ex_uS = Ok s /\
  assemble_NS_operators ex_m ex_data ex_create2 ex_uD ex_uD ex_uS ex_uS = Ok t /\
  assemble_NS_operators ex_m ex_data ex_create2 (add_lists ex_uD ex_uD) (add_lists ex_uD ex_uD) (add_lists ex_uS ex_uS) (add_lists ex_uS ex_uS) = Ok st /\
  nth 0 (asm_rhs st) 0%R = (nth 0 (asm_rhs s) 0 + operator_row s (ex_uD ++ ex_uD) (ex_uS ++ ex_uS) 0 + nth 0 (asm_rhs t) 0)%R.
Proof.
  destruct (C100_newton ex_m ex_info ex_data ex_create2 ex_comp ex_created eq_refl (ex_comps _) ex_uD ex_uD ex_uS ex_uS ex_uD ex_uD ex_uS ex_uS) as (s & t & st & E1 & E2 & E3 & H);
    try apply repeat_length. exists s, t, st. split; [exact E1|]. split; [exact E2|]. split; [exact E3|]. apply H. vm_compute. lia.
Qed.
Print Assumptions C96_evaluation.
Print Assumptions C96_errors.
Print Assumptions C97_source.
Print Assumptions C97_source_gradients.
Print Assumptions C98_operator.
Print Assumptions C99_diffusion.
Print Assumptions C100_convection.
Print Assumptions C100_newton.
