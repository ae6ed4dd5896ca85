(** Proofs: the matrices and the data assembled by the driver of the heat equation. *)
From Coq Require Import List Arith Bool Reals Lra Lia.
From Verif Require Import Base RSum MatrixModel DofsModel DofsSpec DofsProofs DofsProofs2 AssemblerModel AssemblerSpec AssemblerProofs AssemblerProofs2
  EquationModel EquationSpec EquationProofs VemQuadModel VemModel VemSpec DriverModel DriverSpec DriverSpec2 DriverProofs DriverProofs2 DriverProofs3 DriverProofs4 DriverProofs5
  DriverProofs6 DriverProofs7 ParabolicModel ParabolicSpec.
Import ListNotations.
Local Open Scope R_scope.

(** ** Loops *)
Lemma for_pair {S T} (f : nat -> S -> outcome S) (g : nat -> T -> outcome T) (b : nat -> S * T -> outcome (S * T)) n :
  forall a, (forall i s t s' t', (a <= i < a + n)%nat -> f i s = Ok s' -> g i t = Ok t' -> b i (s, t) = Ok (s', t')) ->
  forall s t s' t', for_from a n f s = Ok s' -> for_from a n g t = Ok t' -> for_from a n b (s, t) = Ok (s', t').
Proof.
  induction n as [|n IH]; intros a H s t s' t' Es Et; cbn [for_from] in *.
  - injection Es as <-. injection Et as <-. reflexivity.
  - apply bind_Ok in Es. destruct Es as (s1 & E1 & Es). apply bind_Ok in Et. destruct Et as (t1 & F1 & Et).
    rewrite (H a s t s1 t1 ltac:(lia) E1 F1). cbn [bind]. apply IH; auto. intros; apply H; auto; lia.
Qed.
Lemma for_seq {S} (G : nat -> S -> outcome S) n a s : for_from a n G s = foldM (fun s c => G c s) (seq a n) s.
Proof. revert a s. induction n as [|n IH]; intros a s; simpl; [reflexivity|]. destruct (G a s); simpl; auto. Qed.
Lemma filter_all {A} (l : list A) : filter (fun _ => true) l = l.
Proof. induction l; simpl; congruence. Qed.
Lemma for_ext_in {S} (f g : nat -> S -> outcome S) n : forall a s, (forall i s, (a <= i < a + n)%nat -> f i s = g i s) -> for_from a n f s = for_from a n g s.
Proof.
  induction n as [|n IH]; intros a s H; cbn [for_from]; [reflexivity|]. rewrite H by lia. destruct (g a s); cbn [bind]; try reflexivity.
  apply IH. intros i s' Hi. apply H. lia.
Qed.

Section Assembly.
Variables (m : Mesh2D) (info : MeshDOFsInfo) (data : DOFsData).
Local Notation mesh := (md_mesh m).
Local Notation nc := (Cell2Ds_number (md_mesh m)).
Local Notation size c := (length (closure_dofs info (md_mesh m) 2 c)).
Hypothesis HC : CreateDOFs 2 info mesh = Ok data.
Hypothesis HN : nc = num_cells info 2.

Lemma local_exist uD uS : length uD = NumberDOFs data -> length uS = NumberStrongs data ->
  exists ul : nat -> Vec, (forall c, (c < nc)%nat -> local_solution data uD uS c = Ok (ul c) /\ v_size (ul c) = size c) /\ local_values data uD uS (fun c => v_at (ul c)) m.
Proof using HC HN.
  intros LD LS. set (ul := fun c => match local_solution data uD uS c with Ok u => u | _ => vzero 0 end). exists ul.
  assert (H : forall c, (c < nc)%nat -> local_solution data uD uS c = Ok (ul c) /\ v_size (ul c) = size c).
  { intros c Hc. destruct (local_solution_ok m info data HC HN c uD uS Hc LD LS) as (u & Eu & Su & _). unfold ul. rewrite Eu. auto. }
  split; [exact H|]. intros c Hc. exists (ul c). split; [apply H; exact Hc|]. auto.
Qed.
Lemma local_unique uD uS ul c : length uD = NumberDOFs data -> length uS = NumberStrongs data -> local_values data uD uS ul m -> (c < nc)%nat ->
  exists v, local_solution data uD uS c = Ok v /\ v_size v = size c /\ (forall j, (j < size c)%nat -> ul c j = v_at v j) /\
    forall p h, nth_error (closure_dofs info mesh 2 c) p = Some h -> value_of data uD uS h = Some (ul c p).
Proof using HC HN.
  intros LD LS HL Hc. destruct (HL c Hc) as (v & Ev & Hv). destruct (local_solution_ok m info data HC HN c uD uS Hc LD LS) as (u & Eu & Su & Hu). rewrite Ev in Eu. injection Eu as <-.
  exists v. split; [exact Ev|]. split; [exact Su|]. rewrite Su in Hv. split; [exact Hv|]. intros p h Hp. rewrite Hv by (apply nth_error_Some; rewrite Hp; discriminate). apply Hu. exact Hp.
Qed.

(** the local matrices of all the cells *)
Lemma matrices_ok (B : nat -> Mat) : (forall c, (c < nc)%nat -> shaped (size c) (size c) (B c)) ->
  exists s, for_loop nc (fun c s => assemble_lhs 2 c (single_handler data) (single_handler data) (B c) s) (asm_init (NumberDOFs data)) = Ok s /\
    (forall r j v, In (r, j, v) (trip_DOFs s) -> (r < NumberDOFs data)%nat /\ (j < NumberDOFs data)%nat) /\
    (forall r j v, In (r, j, v) (trip_Strongs s) -> (r < NumberDOFs data)%nat /\ (j < NumberStrongs data)%nat) /\
    forall uD uS ul, length uD = NumberDOFs data -> length uS = NumberStrongs data -> local_values data uD uS ul m ->
    forall r, operator_row s uD uS r = cells_row info m data (fun c => combine (B c) (ul c)) r.
Proof using HC HN.
  intros HB. set (A := fun c => Some (B c)). set (b := fun _ : nat => @None (list R)).
  destruct (ops_fit (all_active m) info info data data HC HN HC HN A b) as (F1 & F2).
  { intros c X Hc EX. injection EX as <-. apply (in_actives (all_active m)) in Hc. exact (HB c (proj1 Hc)). } { intros; discriminate. }
  set (ops := map (op_of data data A b) (filter (md_active2 (all_active m)) (seq 0 nc))) in *.
  assert (EO : ops = map (op_of data data A b) (seq 0 nc)) by (unfold ops; cbn [all_active md_active2]; rewrite filter_all; reflexivity).
  destruct (C15_assembly 2 (NumberDOFs data) (NumberDOFs data) (NumberStrongs data) ops F1 F2) as (s & Es & _ & G1 & G2 & _).
  exists s. split.
  { rewrite <- Es, EO. unfold for_loop. rewrite for_seq. unfold assemble_all. rewrite foldM_map. reflexivity. }
  split; [exact G1|]. split; [exact G2|]. intros uD uS ul LD LS HL r.
  unfold operator_row. rewrite (C16_operator 2 (NumberDOFs data) ops s uD uS (fun o => map (ul (op_cell o)) (seq 0 (size (op_cell o))))).
  - rewrite EO, lsum_map. unfold cells_row. rewrite lsum_seq. apply rsum_ext. intros c Hc. simpl op_lhs. simpl op_cell. simpl op_test. cbv beta iota.
    simpl dofs_data. rewrite <- (single_free m info data c r _ HC HN Hc). apply lsum_ext. intros p Hp. destruct (numbered _ _); [|reflexivity].
    unfold combine. destruct (HB c Hc) as (X & Y). rewrite Y. apply rsum_ext. intros j Hj. f_equal.
    rewrite (nth_indep _ 0 (ul c 0%nat)) by (rewrite map_length, seq_length; lia). rewrite map_nth, seq_nth by lia. reflexivity.
  - exact F1.
  - rewrite LD, LS. exact F2.
  - exact Es.
  - intros o Ho. rewrite EO in Ho. apply in_map_iff in Ho. destruct Ho as (c & <- & Hc). apply in_seq in Hc. simpl. assert (Hc' : (c < nc)%nat) by lia.
    destruct (local_unique uD uS ul c LD LS HL Hc') as (v & Ev & Sv & Hv & _). destruct (local_solution_list m info data HC HN uD uS c v Hc' Ev) as (l & El & Eg).
    exists (size c). split.
    + rewrite Eg. f_equal. subst v. simpl in Sv. symmetry. apply nth_ext with (d := 0) (d' := 0); [rewrite map_length, seq_length; congruence|]. intros i Hi. rewrite map_length, seq_length in Hi.
      rewrite (nth_indep _ 0 (ul c 0%nat)) by (rewrite map_length, seq_length; lia). rewrite map_nth, seq_nth by lia. simpl. apply Hv. exact Hi.
    + destruct (single_packed m info data c HC HN Hc') as ([_ _ P _ _ _] & _). exact P.
Qed.

(** a local vector added to the right-hand side *)
Lemma rhs_adds c l : (c < nc)%nat -> length l = size c ->
  adds (NumberDOFs data) (fun s => st <- assemble_rhs 2 c (single_handler data) l {| trip_DOFs := []; trip_Strongs := []; asm_rhs := s |} ;; Ok (asm_rhs st))
    (fun r => free_places info mesh data c r (fun p => nth p l 0)).
Proof using HC HN.
  intros Hc Hl s Ls. set (o := op_of data data (fun _ => None) (fun _ => Some l) c).
  destruct (ops_fit (all_active m) info info data data HC HN HC HN (fun _ => None) (fun c' => if (c' =? c)%nat then Some l else None)) as (F1 & _).
  { intros; discriminate. } { intros c' l' _ E. destruct (Nat.eqb_spec c' c) as [->|]; [|discriminate]. injection E as <-. exact Hl. }
  cbn [all_active md_active2] in F1. rewrite filter_all in F1. rewrite Forall_forall in F1.
  assert (FO : op_fits 2 (NumberDOFs data) o).
  { replace o with (op_of data data (fun _ => None) (fun c' => if (c' =? c)%nat then Some l else None) c) by (unfold o, op_of; rewrite Nat.eqb_refl; reflexivity). apply F1. apply in_map. apply in_seq. simpl. lia. }
  destruct (assemble_gen_total 2 (NumberDOFs data) o {| trip_DOFs := []; trip_Strongs := []; asm_rhs := s |} FO Ls) as (st & E & L). cbn [o op_of op_cell op_test op_trial op_lhs op_rhs] in E.
  unfold assemble_rhs. rewrite E. cbn [bind]. exists (asm_rhs st). split; [reflexivity|]. split; [exact L|]. intros r.
  destruct (assemble_gen_adds _ _ _ _ _ _ _ _ E) as (_ & _ & _ & V). rewrite V. cbn [asm_rhs]. f_equal. simpl dofs_data.
  rewrite <- (single_free m info data c r (fun p => nth p l 0) HC HN Hc). apply lsum_ext. intros p _. unfold test_R. destruct (numbered _ _); reflexivity.
Qed.

(** ** The static matrices *)
Section Forms.
Variables (create : nat -> outcome ParabolicSpace) (E : nat -> HeatCell).
Hypothesis HE : forall c, (c < nc)%nat -> heat_cell create c (size c) (E c).

Definition stiffness_entry (X : HeatCell) (kappa : R -> R -> R -> R) (k : R) (p j : nat) : R :=
  rsum (v_size (hc_weights X)) (fun q => v_at (hc_weights X) q * hc_at kappa X q * rsum 2 (fun d => m_at (hc_D X d) q p * m_at (hc_D X d) q j)) + k * m_at (hc_SA X) p j.
Definition mass_entry (X : HeatCell) (p j : nat) : R :=
  rsum (v_size (hc_weights X)) (fun q => v_at (hc_weights X) q * (m_at (hc_V X) q p * m_at (hc_V X) q j)) + m_at (hc_SM X) p j.

Lemma static_cell_ok c kappa k : (c < nc)%nat -> greatest_value (E c) kappa k ->
  exists A M, static_cell (hc_space (E c)) kappa = Ok (A, M) /\ is_mat A (size c) (size c) (stiffness_entry (E c) kappa k) /\ is_mat M (size c) (size c) (mass_entry (E c)).
Proof using HE HC HN.
  intros Hc (U & q0 & Hq0 & Ek). destruct (HE c Hc) as [E1 (P1 & P2 & P3) (V1 & V2) (_ & _) (D1 & D2) (A1 & (AR & AC)) (M1 & (MR & MC))].
  unfold static_cell. rewrite V1. cbn [bind]. rewrite D1. cbn [bind]. fold (hc_points (E c)). fold (hc_weights (E c)).
  rewrite function_evaluation_ok by auto. cbn [bind].
  set (K := {| v_size := m_cols (hc_points (E c)); v_at := fun q => kappa (m_at (hc_points (E c)) 0%nat q) (m_at (hc_points (E c)) 1%nat q) (m_at (hc_points (E c)) 2%nat q) |}).
  destruct (C21_diffusion K [hc_D (E c) 0; hc_D (E c) 1] [hc_D (E c) 0; hc_D (E c) 1] (hc_weights (E c)) (v_size (hc_weights (E c))) (size c) (size c)) as (A & EA & (A2 & A3 & A4));
    try discriminate; try reflexivity; try (apply shaped_pair; auto; fail); try exact P1. rewrite EA. cbn [bind].
  destruct (max_abs_ok K) as (k' & Ek' & Uk & (i & Hi & Ai)); [unfold K; cbn; lia|]. rewrite Ek'. cbn [bind].
  assert (k' = k) as ->.
  { cbn [K v_size v_at] in Uk, Hi, Ai. apply Rle_antisym; [rewrite Ai; apply U; lia|]. rewrite Ek. apply (Uk q0). lia. }
  rewrite A1. cbn [bind].
  destruct (C21_reaction {| v_size := m_cols (hc_points (E c)); v_at := fun _ => 1 |} (hc_V (E c)) (hc_V (E c)) (hc_weights (E c)) (v_size (hc_weights (E c))) (size c) (size c) V2 V2 P1 eq_refl)
    as (M & EM & (M2 & M3 & M4)). rewrite EM. cbn [bind]. rewrite M1. cbn [bind].
  unfold madd. cbn [mscal m_rows m_cols]. rewrite A2, A3, AR, AC, !Nat.eqb_refl. cbn [andb bind]. rewrite M2, M3, MR, MC, !Nat.eqb_refl. cbn [andb bind].
  do 2 eexists. split; [reflexivity|]. split; (split; [reflexivity|]; split; [reflexivity|]; intros p j; cbn [m_at]).
  - unfold stiffness_entry. rewrite A4. reflexivity.
  - unfold mass_entry. rewrite M4. f_equal. apply rsum_ext. intros q Hq. cbn [v_at]. ring.
Qed.
Lemma stiffness_entries c kappa k u p : (c < nc)%nat -> rsum (size c) (fun j => stiffness_entry (E c) kappa k p j * u j) = stiffness_form (E c) kappa k u p.
Proof using HE HC HN.
  intros Hc. destruct (HE c Hc) as [_ _ _ _ (_ & D2) (_ & (AR & AC)) _]. unfold stiffness_form, combine at 2. rewrite AC.
  assert (C : forall d q, (d < 2)%nat -> combine (hc_D (E c) d) u q = rsum (size c) (fun j => m_at (hc_D (E c) d) q j * u j)) by (intros d q Hd; unfold combine; destruct (D2 d Hd) as (_ & ->); reflexivity).
  rewrite (rsum_ext _ (fun q => v_at (hc_weights (E c)) q * hc_at kappa (E c) q * rsum 2 (fun d => combine (hc_D (E c) d) u q * m_at (hc_D (E c) d) q p))
    (fun q => rsum (size c) (fun j => v_at (hc_weights (E c)) q * hc_at kappa (E c) q * rsum 2 (fun d => m_at (hc_D (E c) d) q p * m_at (hc_D (E c) d) q j) * u j))).
  - rewrite rsum_swap, <- rsum_scal, <- rsum_plus. apply rsum_ext. intros j Hj. unfold stiffness_entry. rewrite Rmult_plus_distr_r, <- rsum_scal_r. f_equal. ring.
  - intros q Hq. rewrite !rsum2, !C by lia. rewrite <- !rsum_scal_r, <- rsum_plus, <- rsum_scal. apply rsum_ext. intros j Hj. rewrite !rsum2. ring.
Qed.
Lemma mass_entries c u p : (c < nc)%nat -> rsum (size c) (fun j => mass_entry (E c) p j * u j) = mass_form (E c) u p.
Proof using HE HC HN.
  intros Hc. destruct (HE c Hc) as [_ _ (_ & (VR & VC)) _ _ _ (_ & (AR & AC))]. unfold mass_form, combine. rewrite AC, VC.
  rewrite (rsum_ext _ (fun q => v_at (hc_weights (E c)) q * (rsum (size c) (fun j => m_at (hc_V (E c)) q j * u j) * m_at (hc_V (E c)) q p))
    (fun q => rsum (size c) (fun j => v_at (hc_weights (E c)) q * (m_at (hc_V (E c)) q p * m_at (hc_V (E c)) q j) * u j))).
  - rewrite rsum_swap, <- rsum_plus. apply rsum_ext. intros j Hj. unfold mass_entry. rewrite Rmult_plus_distr_r, <- rsum_scal_r. reflexivity.
  - intros q Hq. rewrite <- rsum_scal_r, <- rsum_scal. apply rsum_ext. intros j Hj. ring.
Qed.

Definition rows_of (s : asm_state) (F : nat -> (nat -> R) -> nat -> R) : Prop :=
  (forall r j v, In (r, j, v) (trip_DOFs s) -> (r < NumberDOFs data)%nat /\ (j < NumberDOFs data)%nat) /\
  (forall r j v, In (r, j, v) (trip_Strongs s) -> (r < NumberDOFs data)%nat /\ (j < NumberStrongs data)%nat) /\
  forall uD uS ul, length uD = NumberDOFs data -> length uS = NumberStrongs data -> local_values data uD uS ul m ->
    forall r, operator_row s uD uS r = cells_row info m data (fun c => F c (ul c)) r.

Lemma cells_row_ext F G r : (forall c p, (c < nc)%nat -> F c p = G c p) -> cells_row info m data F r = cells_row info m data G r.
Proof using.
  clear HC HN HE. intros H. unfold cells_row. apply rsum_ext. intros c Hc. unfold free_places. apply lsum_ext. intros p _. destruct (nth_error _ _); [|reflexivity]. destruct (free_is _ _ _); [apply H; exact Hc|reflexivity].
Qed.

Lemma static_ok kappa kk : (forall c, (c < nc)%nat -> greatest_value (E c) kappa (kk c)) ->
  exists A M, StaticAssemble m data create kappa = Ok (A, M) /\ rows_of A (fun c => stiffness_form (E c) kappa (kk c)) /\ rows_of M (fun c => mass_form (E c)).
Proof using HE HC HN.
  intros HK.
  set (AM := fun c => match static_cell (hc_space (E c)) kappa with Ok x => x | _ => (mzero 0 0, mzero 0 0) end).
  assert (HA : forall c, (c < nc)%nat -> static_cell (hc_space (E c)) kappa = Ok (AM c) /\ is_mat (fst (AM c)) (size c) (size c) (stiffness_entry (E c) kappa (kk c)) /\
     is_mat (snd (AM c)) (size c) (size c) (mass_entry (E c))).
  { intros c Hc. destruct (static_cell_ok c kappa (kk c) Hc (HK c Hc)) as (A & M & EQ & I1 & I2). unfold AM. rewrite EQ. auto. }
  destruct (matrices_ok (fun c => fst (AM c))) as (A & EA & RA1 & RA2 & RA).
  { intros c Hc. destruct (HA c Hc) as (_ & (X & Y & _) & _). split; assumption. }
  destruct (matrices_ok (fun c => snd (AM c))) as (M & EM & RM1 & RM2 & RM).
  { intros c Hc. destruct (HA c Hc) as (_ & _ & (X & Y & _)). split; assumption. }
  exists A, M. split; [|split].
  - unfold StaticAssemble, for_loop. unfold for_loop in EA, EM.
    revert EA EM. apply for_pair. intros c s t s' t' Hc E1 E2. cbn [fst snd]. assert (Hc' : (c < nc)%nat) by lia.
    rewrite (he_create _ _ _ _ (HE c Hc')). cbn [bind]. rewrite (proj1 (HA c Hc')). cbn [bind]. rewrite E1. cbn [bind]. rewrite E2. reflexivity.
  - split; [exact RA1|]. split; [exact RA2|]. intros uD uS ul LD LS HL r. rewrite (RA uD uS ul LD LS HL r). apply cells_row_ext. intros c p Hc.
    destruct (HA c Hc) as (_ & (X & Y & Z) & _). unfold combine. rewrite Y. rewrite <- stiffness_entries by exact Hc. apply rsum_ext. intros j Hj. rewrite Z. reflexivity.
  - split; [exact RM1|]. split; [exact RM2|]. intros uD uS ul LD LS HL r. rewrite (RM uD uS ul LD LS HL r). apply cells_row_ext. intros c p Hc.
    destruct (HA c Hc) as (_ & _ & (X & Y & Z)). unfold combine. rewrite Y. rewrite <- mass_entries by exact Hc. apply rsum_ext. intros j Hj. rewrite Z. reflexivity.
Qed.

(** ** The data at a time *)
Variables (geometry : nat -> Polygon) (gauss : QuadratureData) (B : nat -> Mat).
Hypothesis HW : forall c, (c < nc)%nat -> weak_cell info info mesh (spaces create) gauss (geometry c) c (ps_space (hc_space (E c))) (B c).
Hypothesis HQ : m_cols (q_Points gauss) = v_size (q_Weights gauss).

Lemma weak_cell_adds g c : (c < nc)%nat -> adds (NumberDOFs data) (ComputeWeakTerm m info data (geometry c) gauss (ps_space (hc_space (E c))) g c)
  (fun r => weak_form info info mesh data (geometry c) gauss (B c) g c r).
Proof using HC HN HW HQ.
  intros Hc1. pose proof (HW c Hc1) as Wc. pose proof Wc as [W1 W2 W3 W4 (W5 & W6) W7 W8 (W9 & W10)].
  unfold ComputeWeakTerm, weak_form. apply adds_loop. intros ed Hed. cbv zeta. set (e := nth ed (Cell2D_edges mesh c) 0%nat).
  assert (He : In e (Cell2D_edges mesh c)) by (apply nth_In; lia).
  assert (Hen : (e < num_cells info 1)%nat) by (apply (edge_range m info data HC HN c e Hc1 He)).
  unfold idx_ at 1. rewrite (nth_error_nth' _ 0%nat) by lia. fold e. cbn [bind]. destruct (info_entry m info data HC 1 e ltac:(lia) Hen) as (bi & row0 & Hbi & _). unfold at_ at 1. rewrite Hbi. cbn [bind].
  unfold weak_edge. rewrite Hbi. destruct (bi_type bi) eqn:Ty; cbn [is_weak negb]; try apply adds_none.
  destruct (weak_values_ok m info info gauss (spaces create) (geometry c) c (ps_space (hc_space (E c))) (B c) (g (bi_marker bi)) ed Wc Hed HQ) as (b & Eb & Lb & Vb). rewrite Eb. cbn [bind].
  assert (Mk : marker_of info 1 e = bi_marker bi) by (unfold marker_of; rewrite Hbi; reflexivity). rewrite Mk.
  eapply adds_ext; [intros s; reflexivity|intros r; apply (edge_test_sum m info data e r _ _ (m_at (B c)) (v_at b) Vb)|].
  apply (adds_bind (NumberDOFs data) (fun s => for_loop 2 _ s) (fun s => row <- at_ (CellsDOFs data 1) e ;; add_weak row b 2 1 s)).
  - apply (adds_loop _ 2 _ (fun p r => rsum (requested info 0 (nth p (Cell1D_vertices mesh e) 0%nat)) (fun i =>
      if free_is data (entity_dof 0 (nth p (Cell1D_vertices mesh e) 0%nat) i) r then v_at b (p + 0 * i) else 0))).
    intros p Hp. destruct (edge_vertex_range m info data HC HN e p Hen Hp) as (Hpl & Hv). unfold idx_. rewrite (nth_error_nth' _ 0%nat) by lia. cbn [bind].
    destruct (valid_row 2 info mesh data ltac:(lia) HC 0 (nth p (Cell1D_vertices mesh e) 0%nat) ltac:(lia) Hv) as (row & Er & _).
    unfold at_. rewrite Er. cbn [bind]. apply (add_weak_ok m info data HC HN 0 (nth p (Cell1D_vertices mesh e) 0%nat) row b p 0); auto; try lia. intros i Hi. specialize (W10 e He). lia.
  - destruct (valid_row 2 info mesh data ltac:(lia) HC 1 e ltac:(lia) Hen) as (row & Er & _).
    unfold at_. rewrite Er. cbn [bind]. apply (add_weak_ok m info data HC HN 1 e row b 2 1); auto; try lia. intros i Hi. specialize (W10 e He). lia.
Qed.

Lemma forcing_ok c f : (c < nc)%nat -> exists b, forcing_cell (ps_space (hc_space (E c))) f = Ok b /\ is_vec b (size c) (load_form (E c) f).
Proof using HE HC HN.
  intros Hc. destruct (HE c Hc) as [E1 (P1 & P2 & P3) (V1 & V2) _ _ _ _]. unfold forcing_cell. rewrite V1. cbn [bind]. fold (hc_points (E c)). rewrite function_evaluation_ok by auto. cbn [bind].
  destruct (C21_forcing {| v_size := m_cols (hc_points (E c)); v_at := hc_at f (E c) |} (hc_V (E c)) (hc_weights (E c)) _ _ V2 P1 eq_refl) as (b & Eb & Hb).
  exists b. split; [exact Eb|exact Hb].
Qed.

Variable pt : nat -> nat -> nat -> R.
Hypothesis HV : forall c v, (c < nc)%nat -> In v (Cell2D_vertices mesh c) -> (requested info 0 v <= 1)%nat.
Hypothesis HP : edge_points_agree m info (spaces create) (fun _ => true) (fun _ => True) pt.

Lemma data_ok f g h : exists F uS, Assemble m info data geometry gauss create f g h = Ok (F, uS) /\ length F = NumberDOFs data /\ length uS = NumberStrongs data /\
  (forall r, nth r F 0 = load_row info m data geometry gauss E B f h r) /\
  assemble_strong_solution (all_active m) info data 2 (spaces create) g = Ok uS.
Proof using HE HC HN HW HQ HV HP.
  destruct (strong_result (all_active m) info data HC HN 2 (spaces create) g pt) as (uS & ES & LS & _).
  { intros c v Hc _ Hv _. apply (HV c v Hc Hv). }
  { intros _ c Hc _. destruct (HP c Hc eq_refl) as (sp & Es & H). exists sp. split; [exact Es|]. intros ed e He _. apply (H ed e He Logic.I). }
  set (fl := fun c s => b <- forcing_cell (ps_space (hc_space (E c))) f ;;
     t <- (st <- assemble_rhs 2 c (single_handler data) (list_of_vec b) {| trip_DOFs := []; trip_Strongs := []; asm_rhs := s |} ;; Ok (asm_rhs st)) ;;
     ComputeWeakTerm m info data (geometry c) gauss (ps_space (hc_space (E c))) h c t).
  assert (HA : adds (NumberDOFs data) (for_loop nc fl) (fun r => rsum nc (fun c => free_places info mesh data c r (load_form (E c) f) + weak_form info info mesh data (geometry c) gauss (B c) h c r))).
  { apply adds_loop. intros c Hc. destruct (forcing_ok c f Hc) as (b & Eb & (Sb & Vb)). unfold fl.
    eapply (adds_ext _ (fun s => t <- _ ;; ComputeWeakTerm m info data (geometry c) gauss (ps_space (hc_space (E c))) h c t)); [intros s; rewrite Eb; cbn [bind]; reflexivity| |].
    2:{ apply adds_bind; [apply (rhs_adds c (list_of_vec b) Hc)|apply (weak_cell_adds h c Hc)]. unfold list_of_vec. rewrite map_length, seq_length. exact Sb. }
    intros r. cbv beta. f_equal. unfold free_places. apply lsum_ext. intros p Hp. apply in_seq in Hp. destruct (nth_error _ _); [|reflexivity]. destruct (free_is _ _ _); [|reflexivity].
    unfold list_of_vec. rewrite (nth_indep _ 0 (v_at b 0%nat)) by (rewrite map_length, seq_length; lia). rewrite map_nth, seq_nth by lia. apply Vb. }
  destruct (HA (repeat 0 (NumberDOFs data)) (repeat_length _ _)) as (F & EF & LF & VF).
  exists F, uS. split; [|split; [exact LF|split; [exact LS|split; [|exact ES]]]].
  - unfold Assemble, for_loop. unfold for_loop in EF. unfold assemble_strong_solution, for_loop at 1 in ES. cbn [all_active md_mesh md_active2 negb] in ES.
    revert EF ES. apply for_pair. intros c s t s' t' Hc E1 E2. cbn [fst snd]. assert (Hc' : (c < nc)%nat) by lia. pose proof (he_create _ _ _ _ (HE c Hc')) as Ec.
    assert (Es : spaces create c = Ok (ps_space (hc_space (E c)))) by (unfold spaces; rewrite Ec; reflexivity).
    rewrite Es in E2 |- *. cbn [bind] in E2 |- *. unfold fl in E1. destruct (forcing_cell (ps_space (hc_space (E c))) f) as [b| |] eqn:Eb; cbn [bind] in E1 |- *; try discriminate.
    destruct (assemble_rhs 2 c (single_handler data) (list_of_vec b) {| trip_DOFs := []; trip_Strongs := []; asm_rhs := s |}) as [st| |]; cbn [bind] in E1 |- *; try discriminate.
    cbn [Nat.ltb Nat.leb] in E2. assert (E3 : ComputeStrongTerm m info data (ps_space (hc_space (E c))) g c t = Ok t') by exact E2. rewrite E3. cbn [bind]. rewrite E1. reflexivity.
  - intros r. rewrite VF. rewrite nth_repeat, Rplus_0_l. rewrite rsum_plus. reflexivity.
Qed.
End Forms.
End Assembly.
