(** Proofs: quadratic forms of the static matrices, decay of the distance of two runs of the driver of the heat equation. *)
From Coq Require Import List Arith Bool Reals Lra Lia.
From Verif Require Import Base RSum MatrixModel DofsModel DofsSpec DofsProofs AssemblerModel AssemblerSpec
  EquationModel EquationSpec VemQuadModel VemModel VemSpec DriverModel DriverSpec DriverSpec2 DriverProofs DriverProofs3 DriverProofs5
  DriverProofs6 DriverProofs7 Mcc2dProofs3 ParabolicModel ParabolicSpec ParabolicProofs ParabolicProofs2.
Import ListNotations.
Local Open Scope R_scope.

(** ** Bilinear forms of matrices *)
Definition bilinear (N : nat) (X : nat -> nat -> R) (x y : nat -> R) : R := rsum N (fun r => x r * rsum N (fun j => X r j * y j)).
Lemma bilinear_lin_l N X a b x x' y : bilinear N X (fun r => a * x r + b * x' r) y = a * bilinear N X x y + b * bilinear N X x' y.
Proof. unfold bilinear. rewrite <- !rsum_scal, <- rsum_plus. apply rsum_ext. intros; ring. Qed.
Lemma bilinear_lin_r N X a b x y y' : bilinear N X x (fun r => a * y r + b * y' r) = a * bilinear N X x y + b * bilinear N X x y'.
Proof.
  unfold bilinear. rewrite <- !rsum_scal, <- rsum_plus. apply rsum_ext. intros r Hr.
  rewrite (rsum_ext _ _ (fun j => a * (X r j * y j) + b * (X r j * y' j))) by (intros; ring). rewrite rsum_plus, !rsum_scal. ring.
Qed.
Lemma bilinear_ext N X x x' y y' : (forall r, (r < N)%nat -> x r = x' r) -> (forall r, (r < N)%nat -> y r = y' r) -> bilinear N X x y = bilinear N X x' y'.
Proof. intros H1 H2. unfold bilinear. apply rsum_ext. intros r Hr. rewrite (H1 r Hr). f_equal. apply rsum_ext. intros j Hj. rewrite (H2 j Hj). reflexivity. Qed.

(** one step of the theta method without data *)
Lemma theta_decay N A M dt theta (e e' : nat -> R) : (forall x y, bilinear N A x y = bilinear N A y x) -> (forall x y, bilinear N M x y = bilinear N M y x) ->
  (forall x, 0 <= bilinear N A x x) -> (forall x, 0 <= bilinear N M x x) -> 0 < dt -> 1 / 2 <= theta ->
  (forall r, (r < N)%nat -> rsum N (fun j => M r j * (1 * e' j + (-1) * e j)) + dt * rsum N (fun j => A r j * (theta * e' j + (1 - theta) * e j)) = 0) ->
  bilinear N M e' e' <= bilinear N M e e /\ bilinear N A e' e' <= bilinear N A e e.
Proof.
  intros SA SM PA PM Hdt Hth H.
  assert (T : forall w, bilinear N M w (fun j => 1 * e' j + (-1) * e j) + dt * bilinear N A w (fun j => theta * e' j + (1 - theta) * e j) = 0).
  { intros w. unfold bilinear. rewrite <- rsum_scal, <- rsum_plus. apply rsum_0. intros r Hr. pose proof (H r Hr) as E. rewrite <- (Rmult_0_r (w r)), <- E. ring. }
  pose proof (PM (fun j => 1 * e' j + (-1) * e j)) as P1. pose proof (PA (fun j => theta * e' j + (1 - theta) * e j)) as P2. pose proof (PA (fun j => 1 * e' j + (-1) * e j)) as P3.
  pose proof (T (fun j => theta * e' j + (1 - theta) * e j)) as T1. pose proof (T (fun j => 1 * e' j + (-1) * e j)) as T2.
  assert (P2' : 0 <= dt * bilinear N A (fun j => theta * e' j + (1 - theta) * e j) (fun j => theta * e' j + (1 - theta) * e j)) by (apply Rmult_le_pos; lra).
  clear P2 H T. revert P1 P3 T1 T2 P2'. rewrite !bilinear_lin_l, !bilinear_lin_r. rewrite (SM e e'), (SA e e').
  set (a := bilinear N M e' e'). set (b := bilinear N M e' e). set (c := bilinear N M e e). set (a' := bilinear N A e' e'). set (b' := bilinear N A e' e). set (c' := bilinear N A e e).
  intros P1 P3 T1 T2 P2'. assert (Q1 : 0 <= a - 2 * b + c) by lra. assert (Q3 : 0 <= a' - 2 * b' + c') by lra. split.
  - assert (0 <= (theta - 1 / 2) * (a - 2 * b + c)) by (apply Rmult_le_pos; lra). lra.
  - assert (0 <= (theta - 1 / 2) * (a' - 2 * b' + c')) by (apply Rmult_le_pos; lra).
    assert (E : a' - c' = - (2 / dt) * (a - 2 * b + c) - 2 * ((theta - 1 / 2) * (a' - 2 * b' + c'))).
    { apply (Rmult_eq_reg_l dt); [|lra]. replace (dt * (- (2 / dt) * (a - 2 * b + c) - 2 * ((theta - 1 / 2) * (a' - 2 * b' + c')))) with (- 2 * (a - 2 * b + c) - 2 * dt * ((theta - 1 / 2) * (a' - 2 * b' + c'))) by (field; lra). lra. }
    assert (0 <= (2 / dt) * (a - 2 * b + c)) by (apply Rmult_le_pos; [apply Rlt_le, Rdiv_lt_0_compat; lra|lra]). lra.
Qed.

(** ** Energies of a cell *)
Lemma combine_sum V n v q : m_cols V = n -> rsum n (fun p => v p * m_at V q p) = combine V v q.
Proof. intros <-. unfold combine. apply rsum_ext. intros; ring. Qed.
Lemma pair_stiffness E kappa k n u v : (forall d, (d < 2)%nat -> m_cols (hc_D E d) = n) ->
  rsum n (fun p => v p * stiffness_form E kappa k u p) =
  rsum (v_size (hc_weights E)) (fun q => v_at (hc_weights E) q * hc_at kappa E q * rsum 2 (fun d => combine (hc_D E d) u q * combine (hc_D E d) v q)) +
  k * rsum n (fun p => v p * combine (hc_SA E) u p).
Proof.
  intros HD. unfold stiffness_form.
  rewrite (rsum_ext n _ (fun p => rsum (v_size (hc_weights E)) (fun q => v_at (hc_weights E) q * hc_at kappa E q * rsum 2 (fun d => combine (hc_D E d) u q * (v p * m_at (hc_D E d) q p))) + k * (v p * combine (hc_SA E) u p))).
  - rewrite rsum_plus, rsum_scal, rsum_swap. f_equal. apply rsum_ext. intros q Hq. rewrite rsum_scal. f_equal. rewrite rsum_swap. apply rsum_ext. intros d Hd. rewrite rsum_scal, (combine_sum _ n) by auto. reflexivity.
  - intros p Hp. rewrite Rmult_plus_distr_l, <- rsum_scal. f_equal; [|ring]. apply rsum_ext. intros q Hq. rewrite !rsum2. ring.
Qed.
Lemma pair_mass E n u v : m_cols (hc_V E) = n ->
  rsum n (fun p => v p * mass_form E u p) =
  rsum (v_size (hc_weights E)) (fun q => v_at (hc_weights E) q * (combine (hc_V E) u q * combine (hc_V E) v q)) + rsum n (fun p => v p * combine (hc_SM E) u p).
Proof.
  intros HD. unfold mass_form.
  rewrite (rsum_ext n _ (fun p => rsum (v_size (hc_weights E)) (fun q => v_at (hc_weights E) q * (combine (hc_V E) u q * (v p * m_at (hc_V E) q p))) + v p * combine (hc_SM E) u p)).
  - rewrite rsum_plus, rsum_swap. f_equal. apply rsum_ext. intros q Hq. rewrite !rsum_scal, (combine_sum _ n) by auto. reflexivity.
  - intros p Hp. rewrite Rmult_plus_distr_l, <- rsum_scal. f_equal. apply rsum_ext. intros q Hq. ring.
Qed.
Lemma symmetric_sum X n u v : m_cols X = n -> (forall i j, m_at X i j = m_at X j i) -> rsum n (fun p => v p * combine X u p) = rsum n (fun p => u p * combine X v p).
Proof.
  intros HX SY. unfold combine. rewrite HX. rewrite (rsum_ext n _ (fun p => rsum n (fun j => v p * m_at X p j * u j))) by (intros; rewrite <- rsum_scal; apply rsum_ext; intros; ring).
  rewrite rsum_swap. apply rsum_ext. intros j Hj. rewrite <- rsum_scal. apply rsum_ext. intros p Hp. rewrite (SY p j). ring.
Qed.

Section Energy.
Variables (m : Mesh2D) (info : MeshDOFsInfo) (data : DOFsData).
Local Notation mesh := (md_mesh m).
Local Notation nc := (Cell2Ds_number (md_mesh m)).
Local Notation size c := (length (closure_dofs info (md_mesh m) 2 c)).
Local Notation N := (NumberDOFs data).
Local Notation NS := (NumberStrongs data).
Hypothesis HC : CreateDOFs 2 info mesh = Ok data.
Hypothesis HN : nc = num_cells info 2.

Lemma quadratic_cells s F v w vl wl : rows_of m info data s F -> length v = N -> length w = N -> local_values data v (repeat 0 NS) vl m -> local_values data w (repeat 0 NS) wl m ->
  quadratic N s v w = rsum nc (fun c => rsum (size c) (fun p => vl c p * F c (wl c) p)).
Proof using HC HN.
  intros (_ & _ & HR) Lv Lw Hv Hw. unfold quadratic.
  rewrite (rsum_ext N _ (fun r => rsum nc (fun c => nth r v 0 * free_places info mesh data c r (F c (wl c))))).
  - rewrite rsum_swap. apply rsum_ext. intros c Hc. destruct (local_unique m info data HC HN v (repeat 0 NS) vl c Lv (repeat_length _ _) Hv Hc) as (x & Ex & Sx & Hx & _).
    rewrite (free_places_pair m info data c v x _ HC HN Hc Lv Ex). apply rsum_ext. intros p Hp. rewrite (Hx p Hp). reflexivity.
  - intros r Hr. rewrite rsum_scal. f_equal. pose proof (HR w (repeat 0 NS) wl Lw (repeat_length _ _) Hw r) as H. unfold cells_row in H. rewrite <- H. unfold operator_row. rewrite Lw, repeat_length.
    rewrite (rsum_0 NS); [ring|]. intros j Hj. rewrite nth_repeat. ring.
Qed.

Variables (create : nat -> outcome ParabolicSpace) (E : nat -> HeatCell).
Hypothesis HE : forall c, (c < nc)%nat -> heat_cell create c (size c) (E c).
Variable kappa : R -> R -> R -> R.
Hypothesis HS : forall c, (c < nc)%nat -> sound_cell kappa (E c).
Variable kk : nat -> R.
Hypothesis HK : forall c, (c < nc)%nat -> greatest_value (E c) kappa (kk c).
Variables (A M : asm_state).
Hypothesis HAM : StaticAssemble m data create kappa = Ok (A, M).

Lemma static_rows : rows_of m info data A (fun c => stiffness_form (E c) kappa (kk c)) /\ rows_of m info data M (fun c => mass_form (E c)).
Proof using HC HN HE HK HAM. destruct (static_ok m info data HC HN create E HE kappa kk HK) as (A' & M' & EA & R1' & R2'). rewrite HAM in EA. injection EA as <- <-. auto. Qed.
Lemma kk_nonneg c : (c < nc)%nat -> 0 <= kk c.
Proof using HK. intros Hc. destruct (HK c Hc) as (_ & q & _ & ->). apply Rabs_pos. Qed.

Definition stiff_energy (X : HeatCell) (k : R) (n : nat) (u : nat -> R) : R :=
  rsum (v_size (hc_weights X)) (fun q => v_at (hc_weights X) q * hc_at kappa X q * rsum 2 (fun d => combine (hc_D X d) u q * combine (hc_D X d) u q)) + k * rsum n (fun p => u p * combine (hc_SA X) u p).
Definition mass_energy (X : HeatCell) (n : nat) (u : nat -> R) : R :=
  rsum (v_size (hc_weights X)) (fun q => v_at (hc_weights X) q * (combine (hc_V X) u q * combine (hc_V X) u q)) + rsum n (fun p => u p * combine (hc_SM X) u p).

Lemma quadratic_symmetric v w : length v = N -> length w = N -> quadratic N A v w = quadratic N A w v /\ quadratic N M v w = quadratic N M w v.
Proof using HC HN HE HK HAM HS.
  intros Lv Lw. destruct static_rows as (RA & RM). destruct (local_exist m info data HC HN v (repeat 0 NS) Lv (repeat_length _ _)) as (vl & _ & Hv). destruct (local_exist m info data HC HN w (repeat 0 NS) Lw (repeat_length _ _)) as (wl & _ & Hw).
  split.
  - rewrite (quadratic_cells A _ v w _ _ RA Lv Lw Hv Hw), (quadratic_cells A _ w v _ _ RA Lw Lv Hw Hv). apply rsum_ext. intros c Hc.
    destruct (HE c Hc) as [_ _ _ _ (_ & D2) (_ & (_ & S2)) _]. destruct (HS c Hc) as (_ & _ & (SY & _) & _).
    rewrite !pair_stiffness by (intros d Hd; apply (D2 d Hd)). f_equal; [apply rsum_ext; intros q Hq; f_equal; apply rsum_ext; intros; ring|]. f_equal. apply symmetric_sum; assumption.
  - rewrite (quadratic_cells M _ v w _ _ RM Lv Lw Hv Hw), (quadratic_cells M _ w v _ _ RM Lw Lv Hw Hv). apply rsum_ext. intros c Hc.
    destruct (HE c Hc) as [_ _ (_ & (_ & D2)) _ _ _ (_ & (_ & S2))]. destruct (HS c Hc) as (_ & _ & _ & (SY & _)).
    rewrite !pair_mass by exact D2. f_equal; [apply rsum_ext; intros; ring|]. apply symmetric_sum; assumption.
Qed.

Lemma energy_parts c u : (c < nc)%nat -> 0 <= stiff_energy (E c) (kk c) (size c) u /\ 0 <= mass_energy (E c) (size c) u.
Proof using HS HK HE.
  intros Hc. destruct (HS c Hc) as (PW & PK & (_ & PA) & (_ & PM)). destruct (HE c Hc) as [_ _ _ _ _ (_ & (_ & CA)) (_ & (_ & CM))].
  specialize (PA u). specialize (PM u). rewrite CA in PA. rewrite CM in PM. unfold stiff_energy, mass_energy. split; apply Rplus_le_le_0_compat.
  - apply rsum_nonneg. intros q Hq. apply Rmult_le_pos; [apply Rmult_le_pos; auto|]. rewrite rsum2. nra.
  - apply Rmult_le_pos; [apply kk_nonneg; exact Hc|]. exact PA.
  - apply rsum_nonneg. intros q Hq. apply Rmult_le_pos; [apply PW; exact Hq|]. nra.
  - exact PM.
Qed.
Lemma quadratic_energy v vl : length v = N -> local_values data v (repeat 0 NS) vl m ->
  quadratic N A v v = rsum nc (fun c => stiff_energy (E c) (kk c) (size c) (vl c)) /\ quadratic N M v v = rsum nc (fun c => mass_energy (E c) (size c) (vl c)).
Proof using HC HN HE HK HAM.
  intros Lv Hv. destruct static_rows as (RA & RM). split.
  - rewrite (quadratic_cells A _ v v _ _ RA Lv Lv Hv Hv). apply rsum_ext. intros c Hc. destruct (HE c Hc) as [_ _ _ _ (_ & D2) _ _]. apply pair_stiffness. intros d Hd. apply (D2 d Hd).
  - rewrite (quadratic_cells M _ v v _ _ RM Lv Lv Hv Hv). apply rsum_ext. intros c Hc. destruct (HE c Hc) as [_ _ (_ & (_ & D2)) _ _ _ _]. apply pair_mass. exact D2.
Qed.
Lemma quadratic_nonneg v : length v = N -> 0 <= quadratic N A v v /\ 0 <= quadratic N M v v.
Proof using HC HN HE HK HAM HS.
  intros Lv. destruct (local_exist m info data HC HN v (repeat 0 NS) Lv (repeat_length _ _)) as (vl & _ & Hv). destruct (quadratic_energy v _ Lv Hv) as (-> & ->).
  split; apply rsum_nonneg; intros c Hc; apply energy_parts; exact Hc.
Qed.

Lemma bilinear_quadratic s x y : bilinear N (entry (trip_DOFs s)) x y = quadratic N s (map x (seq 0 N)) (map y (seq 0 N)).
Proof using. clear. unfold quadratic, bilinear. apply rsum_ext. intros r Hr. rewrite nth_map_seq by exact Hr. f_equal. apply rsum_ext. intros j Hj. rewrite nth_map_seq by exact Hj. reflexivity. Qed.

(** the step in terms of the matrices *)
Lemma theta_rows dt theta load load' d d' : length (sd_solution d) = N -> length (sd_dirichlet d) = NS -> length (sd_solution d') = N -> length (sd_dirichlet d') = NS ->
  theta_step info m data E kappa kk dt theta load load' d d' <-> forall r, (r < N)%nat ->
   operator_row M (sd_solution d') (sd_dirichlet d') r - operator_row M (sd_solution d) (sd_dirichlet d) r +
   dt * (theta * operator_row A (sd_solution d') (sd_dirichlet d') r + (1 - theta) * operator_row A (sd_solution d) (sd_dirichlet d) r) = dt * (theta * load' r + (1 - theta) * load r).
Proof using HC HN HE HK HAM.
  intros Lu LD Lu' LD'. destruct static_rows as ((_ & _ & RA) & (_ & _ & RM)).
  assert (TR : forall ul ul', local_values data (sd_solution d) (sd_dirichlet d) ul m -> local_values data (sd_solution d') (sd_dirichlet d') ul' m -> forall r,
    cells_row info m data (fun c => mass_form (E c) (fun j => ul' c j - ul c j)) r + dt * cells_row info m data (fun c => stiffness_form (E c) kappa (kk c) (fun j => theta * ul' c j + (1 - theta) * ul c j)) r =
    operator_row M (sd_solution d') (sd_dirichlet d') r - operator_row M (sd_solution d) (sd_dirichlet d) r +
    dt * (theta * operator_row A (sd_solution d') (sd_dirichlet d') r + (1 - theta) * operator_row A (sd_solution d) (sd_dirichlet d) r)).
  { intros ul ul' HL HL' r. rewrite (RA _ _ _ Lu LD HL r), (RA _ _ _ Lu' LD' HL' r), (RM _ _ _ Lu LD HL r), (RM _ _ _ Lu' LD' HL' r).
    rewrite (cells_row_ext _ _ _ (fun c => mass_form (E c) (fun j => ul' c j - ul c j)) (fun c p => 1 * mass_form (E c) (ul' c) p + (-1) * mass_form (E c) (ul c) p)).
    2:{ intros c p Hc. rewrite <- mass_lin. apply mass_ext; intros; ring. }
    rewrite (cells_row_ext _ _ _ (fun c => stiffness_form (E c) kappa (kk c) (fun j => theta * ul' c j + (1 - theta) * ul c j)) (fun c p => theta * stiffness_form (E c) kappa (kk c) (ul' c) p + (1 - theta) * stiffness_form (E c) kappa (kk c) (ul c) p)).
    2:{ intros c p Hc. rewrite <- stiffness_lin. reflexivity. }
    rewrite (cells_row_lin info m data 1 (-1) (fun c => mass_form (E c) (ul' c)) (fun c => mass_form (E c) (ul c))).
    rewrite (cells_row_lin info m data theta (1 - theta) (fun c => stiffness_form (E c) kappa (kk c) (ul' c)) (fun c => stiffness_form (E c) kappa (kk c) (ul c))). ring. }
  split.
  - intros (ul & ul' & HL & HL' & H) r Hr. rewrite <- (TR ul ul' HL HL' r). apply H. exact Hr.
  - intros H. destruct (local_exist m info data HC HN _ _ Lu LD) as (ul & _ & HL). destruct (local_exist m info data HC HN _ _ Lu' LD') as (ul' & _ & HL').
    exists (fun c => v_at (ul c)), (fun c => v_at (ul' c)). split; [exact HL|]. split; [exact HL'|]. intros r Hr. rewrite (TR _ _ HL HL' r). apply H. exact Hr.
Qed.

(** two steps with the same data *)
Lemma steps_decay dt theta load load' d d' e e' : 0 < dt -> 1 / 2 <= theta ->
  length (sd_solution d) = N -> length (sd_dirichlet d) = NS -> length (sd_solution d') = N -> length (sd_dirichlet d') = NS ->
  length (sd_solution e) = N -> length (sd_solution e') = N -> sd_dirichlet e = sd_dirichlet d -> sd_dirichlet e' = sd_dirichlet d' ->
  theta_step info m data E kappa kk dt theta load load' d d' -> theta_step info m data E kappa kk dt theta load load' e e' ->
  let x := difference N (sd_solution d) (sd_solution e) in let x' := difference N (sd_solution d') (sd_solution e') in
  quadratic N M x' x' <= quadratic N M x x /\ quadratic N A x' x' <= quadratic N A x x.
Proof using HC HN HE HK HAM HS.
  intros Hdt Hth Lu LD Lu' LD' Le Le' ED ED' H1 H2. rewrite theta_rows in H1, H2 by congruence. cbv zeta. unfold difference. rewrite <- !bilinear_quadratic.
  apply (theta_decay N (entry (trip_DOFs A)) (entry (trip_DOFs M)) dt theta); auto.
  - intros x y. rewrite !bilinear_quadratic. apply quadratic_symmetric; rewrite map_length, seq_length; reflexivity.
  - intros x y. rewrite !bilinear_quadratic. apply quadratic_symmetric; rewrite map_length, seq_length; reflexivity.
  - intros x. rewrite !bilinear_quadratic. apply quadratic_nonneg; rewrite map_length, seq_length; reflexivity.
  - intros x. rewrite !bilinear_quadratic. apply quadratic_nonneg; rewrite map_length, seq_length; reflexivity.
  - intros r Hr. pose proof (H1 r Hr) as T1. pose proof (H2 r Hr) as T2. unfold operator_row in T1, T2. rewrite Lu, LD, Lu', LD' in T1. rewrite Le, Le', ED, ED', LD, LD' in T2.
    assert (SP : forall (X : nat -> R) a b (u1 u2 u3 u4 : nat -> R), rsum N (fun j => X j * (a * (u1 j - u2 j) + b * (u3 j - u4 j))) =
      a * (rsum N (fun j => X j * u1 j) - rsum N (fun j => X j * u2 j)) + b * (rsum N (fun j => X j * u3 j) - rsum N (fun j => X j * u4 j))).
    { intros. rewrite <- !rsum_minus, <- !rsum_scal, <- rsum_plus. apply rsum_ext. intros; ring. }
    rewrite !SP. lra.
Qed.
End Energy.
