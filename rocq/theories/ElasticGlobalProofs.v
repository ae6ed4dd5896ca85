(** The assembled system of linear elasticity: the scatter of the cells. *)
From Coq Require Import List Arith Bool Reals Lra Lia.
From Verif Require Import Base RSum MatrixModel DofsModel DofsSpec DofsProofs DofsProofs2 AssemblerModel AssemblerSpec AssemblerProofs AssemblerProofs2
  EquationModel EquationSpec EquationProofs TriangleProofs VemQuadModel VemModel VemSpec DriverModel DriverSpec DriverSpec2 DriverProofs DriverProofs2 DriverProofs3 DriverProofs4
  DriverProofs5 DriverProofs6 DriverProofs7 Mcc2dModel Mcc2dSpec Mcc2dProofs Mcc2dProofs2 Mcc2dProofs3 ElasticModel ElasticSpec ElasticProofs ElasticGlobalModel ElasticGlobalSpec.
Import ListNotations.
Local Open Scope R_scope.

Section Run.
Variables (m : Mesh2D) (info : MeshDOFsInfo) (data : DOFsData) (create : nat -> outcome LocalSpace) (P : ElasticProblem) (E : nat -> CellElement).
Local Notation mesh := (md_mesh m).
Local Notation nn c := (cell_size info m c).
Hypothesis HM : elastic_mesh m info data create E.
Local Notation HC := (em_dofs _ _ _ _ _ HM).
Local Notation HN := (em_number _ _ _ _ _ HM).
Local Notation N := (NumberDOFs data).
Local Notation NS := (NumberStrongs data).
Local Notation cells := (seq 0 (Cell2Ds_number mesh)).
Local Notation hand c := (pair_handlers m info info data data c).

Definition ecell (c : nat) : Mat * Vec := match elastic_cell (ec_space (E c)) P with Ok Ab => Ab | _ => (mzero 0 0, vzero 0) end.
Definition estab (c : nat) (k : R) : Prop := largest (ec_Q (E c)) (el_mu P) k /\
  forall u v, bilinear (2 * nn c) (fst (ecell c)) v u = elastic_form (nn c) (ec_Q (E c)) (ec_D0 (E c)) (ec_D1 (E c)) (ec_S (E c)) P k u v.
Lemma ecell_ok c : (c < Cell2Ds_number mesh)%nat -> elastic_cell (ec_space (E c)) P = Ok (ecell c) /\
  shaped (2 * nn c) (2 * nn c) (fst (ecell c)) /\ sized (2 * nn c) (snd (ecell c)) /\ (exists k, estab c k) /\
  forall v, rsum (2 * nn c) (fun i => v i * v_at (snd (ecell c)) i) = cell_work m info E P c v.
Proof using HM.
  intros Hc. destruct (em_cells _ _ _ _ _ HM c Hc) as (_ & SE). destruct (cell_form _ _ _ _ _ _ _ SE P) as (A & b & k & E0 & S1 & S2 & L & B & W).
  unfold estab, ecell. rewrite E0. cbn [fst snd]. split; [reflexivity|]. split; [exact S1|]. split; [exact S2|]. split; [exists k; split; [exact L|exact B]|exact W].
Qed.
Definition eop (c : nat) : cell_op :=
  {| op_cell := c; op_test := hand c; op_trial := hand c; op_lhs := Some (fst (ecell c)); op_rhs := Some (list_of_vec (snd (ecell c))) |}.
Lemma eop_fits c : (c < Cell2Ds_number mesh)%nat -> op_fits 2 (N + N) (eop c) /\ trial_total 2 (N + N) (NS + NS) (eop c).
Proof using HM.
  intros Hc. pose proof (pair_packed m info info data data HC HN HC HN c Hc) as Pk. destruct (ecell_ok c Hc) as (_ & (L1 & L2) & L3 & _). split.
  - do 4 eexists. split; [exact Pk|]. split; [exact Pk|]. split; [reflexivity|]. split.
    + intros A EA. inversion EA; subst A. cbn [pair_local l_num_total_dofs]. unfold cell_size in *. lia.
    + intros b Eb. inversion Eb; subst b. unfold list_of_vec. rewrite map_length, seq_length. cbn [pair_local l_num_total_dofs]. unfold cell_size, sized in *. lia.
  - do 2 eexists. split; [exact Pk|]. split; reflexivity.
Qed.
Lemma eops_fits : Forall (op_fits 2 (N + N)) (map eop cells) /\ Forall (trial_total 2 (N + N) (NS + NS)) (map eop cells).
Proof using HM.
  split; apply Forall_forall; intros o Ho; apply in_map_iff in Ho; destruct Ho as (c & <- & Hc); apply in_seq in Hc; apply eop_fits; lia.
Qed.

Lemma elastic_run : exists st, elastic_body m data create P = Ok st /\ assemble_all 2 (map eop cells) (asm_init (N + N)) = Ok st.
Proof using HM.
  unfold elastic_body. rewrite pair_count_ok. cbn [bind]. cbn [num_total_dofs pair_count].
  pose (Inv := fun k (st : asm_state) => length (asm_rhs st) = (N + N)%nat /\ assemble_all 2 (map eop (seq 0 k)) (asm_init (N + N)) = Ok st).
  destruct (@for_loop_total _ Inv (elastic_step data (pair_count data data) create P) (Cell2Ds_number mesh) (asm_init (N + N))) as (st & Es & _ & Is).
  - split; [apply repeat_length|reflexivity].
  - intros c st Hc (Lr & E0). unfold elastic_step. rewrite (proj1 (em_cells _ _ _ _ _ HM c Hc)). cbn [bind].
    rewrite (pair_local_ok m info info data data HC HN HC HN c Hc). cbn [bind]. rewrite (proj1 (ecell_ok c Hc)). cbn [bind].
    destruct (eop_fits c Hc) as (Fc & _). destruct (assemble_gen_total 2 (N + N) (eop c) st Fc Lr) as (st1 & E1 & L1).
    unfold assemble_lhs_rhs. change (elastic_handlers data (pair_count data data) (pair_local m info info c)) with (hand c).
    cbn [eop op_cell op_test op_trial op_lhs op_rhs] in E1. rewrite E1. exists st1. split; [reflexivity|]. split; [exact L1|].
    rewrite seq_S, map_app. cbn [map plus]. unfold assemble_all in *. rewrite foldM_app. rewrite E0. cbn [bind foldM eop op_cell op_test op_trial op_lhs op_rhs]. rewrite E1. reflexivity.
  - exists st. split; [exact Es|exact Is].
Qed.

Section Rows.
Variables (u0 u1 g0 g1 : list R).
Hypothesis Lu0 : length u0 = N.
Hypothesis Lu1 : length u1 = N.
Hypothesis Lg0 : length g0 = NS.
Hypothesis Lg1 : length g1 = NS.
Local Notation U c := (cell_displacement m info data u0 u1 g0 g1 c).
Definition erow (c i : nat) : R := rsum (2 * nn c) (fun j => m_at (fst (ecell c)) i j * U c j) - v_at (snd (ecell c)) i.
Lemma elastic_rows st : assemble_all 2 (map eop cells) (asm_init (N + N)) = Ok st ->
  (forall r, (r < N)%nat -> operator_row st (u0 ++ u1) (g0 ++ g1) r - nth r (asm_rhs st) 0 = cells_sum mesh (fun c => free_places info mesh data c r (erow c))) /\
  (forall r, (r < N)%nat -> operator_row st (u0 ++ u1) (g0 ++ g1) (N + r) - nth (N + r) (asm_rhs st) 0 =
     cells_sum mesh (fun c => free_places info mesh data c r (fun p => erow c (nn c + p)%nat))).
Proof using HM Lu0 Lu1 Lg0 Lg1.
  intros E0. destruct eops_fits as (F1 & F2).
  destruct (C15_assembly 2 (N + N) (N + N) (NS + NS) (map eop cells) F1 F2) as (st0' & E0' & L0 & G1 & G2 & _ & _ & G3).
  assert (st0' = st) by congruence. subst st0'.
  pose (uloc := fun o : cell_op => match global_solution_to_local_solution 2 (op_cell o) [data; data] (nn (op_cell o) + nn (op_cell o)) (l_offsets_DOFs (pair_local m info info (op_cell o)))
     (offsets_DOFs (pair_count data data)) (offsets_Strongs (pair_count data data)) (u0 ++ u1) (g0 ++ g1) with Ok l => l | _ => [] end).
  assert (Ul : forall c j, (c < Cell2Ds_number mesh)%nat -> (j < 2 * nn c)%nat -> nth j (uloc (eop c)) 0 = U c j).
  { intros c j Hc Hj. destruct (pair_solution m info info data data HC HN HC HN u0 u1 g0 g1 Lu0 Lu1 Lg0 Lg1 c Hc) as (loc & El & Ll & A0 & A1).
    unfold uloc. cbn [eop op_cell]. unfold cell_size at 1 2. rewrite El. unfold cell_displacement. destruct (Nat.ltb_spec j (nn c)) as [Hl|Hl].
    - apply A0. exact Hl.
    - rewrite <- A1 by (unfold cell_size in *; lia). f_equal. unfold cell_size in *. lia. }
  assert (Op : forall r, operator_row st (u0 ++ u1) (g0 ++ g1) r - nth r (asm_rhs st) 0 =
     cells_sum mesh (fun c => lsum (fun p => if numbered (free_number 2 c (hand c) p) r then erow c (slot_pos (hand c) p) else 0) (slots 2 c [data; data]))).
  { intros r. unfold operator_row. rewrite G3.
    rewrite (C16_operator 2 (N + N) (map eop cells) st (u0 ++ u1) (g0 ++ g1) uloc).
    - unfold cells_sum, rhs_sum. rewrite !lsum_map.
      rewrite <- lsum_less.
      apply lsum_ext. intros c Hc. apply in_seq in Hc. cbn [eop op_lhs op_rhs op_cell op_test dofs_data pair_handlers mixed_handlers].
      change (mixed_handlers data data (pair_count data data) (pair_local m info info c)) with (hand c).
      destruct (ecell_ok c ltac:(lia)) as (_ & (L1 & L2) & L3 & _). rewrite L2.
      assert (Sl : forall p, In p (slots 2 c [data; data]) -> (slot_pos (hand c) p < 2 * nn c)%nat).
      { intros p Hp. rewrite (pair_slots m info info data data HC HN HC HN c ltac:(lia)) in Hp. apply in_app_or in Hp. destruct Hp as [Hp|Hp]; apply in_map_iff in Hp; destruct Hp as (i & <- & Hi);
          apply in_seq in Hi; unfold slot_pos; simpl; unfold cell_size; lia. }
      revert Sl. generalize (slots 2 c [data; data]). intros l Sl. induction l as [|p l IH]; cbn [lsum]; [ring|]. rewrite <- IH by (intros p' Hp'; apply Sl; right; exact Hp').
      destruct (numbered _ _); [|ring].
      assert (Hb : nth (slot_pos (hand c) p) (list_of_vec (snd (ecell c))) 0 = v_at (snd (ecell c)) (slot_pos (hand c) p)).
      { specialize (Sl p (or_introl eq_refl)). unfold list_of_vec. unfold sized in L3. rewrite (nth_indep _ 0 (v_at (snd (ecell c)) 0%nat)) by (rewrite map_length, seq_length; lia). rewrite map_nth, seq_nth by lia. reflexivity. }
      rewrite Hb. unfold erow. rewrite (rsum_ext (2 * nn c) _ (fun j => m_at (fst (ecell c)) (slot_pos (hand c) p) j * U c j)); [ring|].
      intros j Hj. rewrite <- (Ul c j) by lia. reflexivity.
    - exact F1.
    - rewrite !app_length, Lu0, Lu1, Lg0, Lg1. exact F2.
    - exact E0.
    - intros o Ho. apply in_map_iff in Ho. destruct Ho as (c & <- & Hc). apply in_seq in Hc. exists (nn c + nn c)%nat. split.
      + destruct (pair_solution m info info data data HC HN HC HN u0 u1 g0 g1 Lu0 Lu1 Lg0 Lg1 c ltac:(lia)) as (loc & El & _).
        unfold uloc. cbn [eop op_cell op_trial dofs_data pair_handlers mixed_handlers local_offsets global_offsets_DOFs global_offsets_Strongs]. unfold cell_size. rewrite El. reflexivity.
      + cbn [eop op_cell op_trial dofs_data pair_handlers mixed_handlers local_offsets]. rewrite (pair_local_ok m info info data data HC HN HC HN c ltac:(lia)). reflexivity. }
  split; intros r Hr; rewrite Op; apply lsum_ext; intros c Hc; apply in_seq in Hc.
  - apply (pair_free_velocity m info info data data HC HN HC HN c r (erow c)); lia.
  - apply (pair_free_pressure m info info data data HC HN HC HN c r (erow c)); lia.
Qed.
Lemma free_places_test c v F : (c < Cell2Ds_number mesh)%nat -> length v = N ->
  rsum N (fun r => nth r v 0 * free_places info mesh data c r F) = rsum (nn c) (fun p => cell_value info mesh data v (repeat 0 NS) c p * F p).
Proof using HM.
  clear Lu0 Lu1 Lg0 Lg1. intros Hc Lv. destruct (local_solution_ok m info data HC HN c v (repeat 0 NS) Hc Lv (repeat_length _ _)) as (w & Ew & Sw & Hw).
  rewrite (free_places_pair m info data c v w F HC HN Hc Lv Ew). apply rsum_ext. intros p Hp. f_equal. unfold cell_value.
  destruct (nth_error (closure_dofs info mesh 2 c) p) as [h|] eqn:Eh; [|apply nth_error_None in Eh; unfold cell_size in Hp; lia].
  rewrite (Hw p h Eh). reflexivity.
Qed.
Lemma elastic_tested st v0 v1 : assemble_all 2 (map eop cells) (asm_init (N + N)) = Ok st -> length v0 = N -> length v1 = N ->
  rsum (N + N) (fun r => nth r (v0 ++ v1) 0 * (operator_row st (u0 ++ u1) (g0 ++ g1) r - nth r (asm_rhs st) 0)) =
  cells_sum mesh (fun c => let V := cell_displacement m info data v0 v1 (repeat 0 NS) (repeat 0 NS) c in
    bilinear (2 * nn c) (fst (ecell c)) V (U c) - cell_work m info E P c V).
Proof using HM Lu0 Lu1 Lg0 Lg1.
  intros E0 Lv0 Lv1. destruct (elastic_rows st E0) as (R0' & R1'). rewrite rsum_add.
  rewrite (rsum_ext N (fun r => nth r (v0 ++ v1) 0 * _) (fun r => rsum (Cell2Ds_number mesh) (fun c => nth r v0 0 * free_places info mesh data c r (erow c)))).
  2:{ intros r Hr. rewrite app_nth1 by lia. rewrite R0' by exact Hr. unfold cells_sum. rewrite lsum_seq, <- rsum_scal. reflexivity. }
  rewrite (rsum_ext N (fun r => nth (N + r) (v0 ++ v1) 0 * _) (fun r => rsum (Cell2Ds_number mesh) (fun c => nth r v1 0 * free_places info mesh data c r (fun p => erow c (nn c + p)%nat)))).
  2:{ intros r Hr. rewrite app_nth2 by lia. replace (N + r - length v0)%nat with r by lia. rewrite R1' by exact Hr. unfold cells_sum. rewrite lsum_seq, <- rsum_scal. reflexivity. }
  rewrite rsum_swap, (rsum_swap N). rewrite <- rsum_plus. unfold cells_sum. rewrite lsum_seq. apply rsum_ext. intros c Hc. cbv beta zeta.
  rewrite (free_places_test c v0) by auto. rewrite (free_places_test c v1) by auto.
  destruct (ecell_ok c Hc) as (_ & _ & _ & _ & W). rewrite <- W.
  set (V := cell_displacement m info data v0 v1 (repeat 0 NS) (repeat 0 NS) c).
  unfold bilinear. rewrite <- rsum_minus. replace (2 * nn c)%nat with (nn c + nn c)%nat by lia. rewrite rsum_add. f_equal; apply rsum_ext; intros p Hp; unfold erow.
  - assert (EV : V p = cell_value info mesh data v0 (repeat 0 NS) c p) by (unfold V, cell_displacement; destruct (Nat.ltb_spec p (nn c)); [reflexivity|lia]).
    rewrite <- EV. replace (2 * nn c)%nat with (nn c + nn c)%nat by lia. rewrite Rmult_minus_distr_l, <- rsum_scal. f_equal. apply rsum_ext. intros j Hj. ring.
  - assert (EV : V (nn c + p)%nat = cell_value info mesh data v1 (repeat 0 NS) c p).
    { unfold V, cell_displacement. destruct (Nat.ltb_spec (nn c + p) (nn c)); [lia|]. f_equal. lia. }
    rewrite <- EV. replace (2 * nn c)%nat with (nn c + nn c)%nat by lia. rewrite Rmult_minus_distr_l, <- rsum_scal. f_equal. apply rsum_ext. intros j Hj. ring.
Qed.
End Rows.
End Run.

Lemma finite_choice (Q : nat -> R -> Prop) n : (forall c, (c < n)%nat -> exists k, Q c k) -> exists k : nat -> R, forall c, (c < n)%nat -> Q c (k c).
Proof.
  induction n as [|n IH]; intros H; [exists (fun _ => 0); intros; lia|]. destruct IH as (k & Hk); [intros c Hc; apply H; lia|]. destruct (H n ltac:(lia)) as (a & Ha).
  exists (fun c => if (c =? n)%nat then a else k c). intros c Hc. destruct (Nat.eqb_spec c n) as [->|Hne]; [exact Ha|apply Hk; lia].
Qed.
Lemma lsum_plus2 {A} (f g : A -> R) l : lsum (fun x => f x + g x) l = lsum f l + lsum g l.
Proof. induction l as [|x l IH]; cbn [lsum]; [ring|]. rewrite IH. ring. Qed.
Lemma nth_repeat0 n i : nth i (repeat 0 n) 0 = 0.
Proof. apply nth_repeat. Qed.
Lemma cell_value_zero info mesh data a b c p : cell_value info mesh data (repeat 0 a) (repeat 0 b) c p = 0.
Proof.
  unfold cell_value, value_of. destruct (nth_error _ p) as [h|]; [|reflexivity]. destruct (lookup data h) as [x|]; [|reflexivity].
  assert (Z : forall k i, match nth_error (repeat 0 k) i with Some x => x | None => 0 end = 0).
  { intros k i. destruct (nth_error (repeat 0 k) i) eqn:En; [|reflexivity]. apply nth_error_In in En. apply repeat_spec in En. exact En. }
  destruct (dof_type x); auto.
Qed.

Theorem elastic_system m info data create E P : elastic_mesh m info data create E -> let N := NumberDOFs data in let NS := NumberStrongs data in
  exists st k, elastic_body m data create P = Ok st /\ length (asm_rhs st) = (N + N)%nat /\
  (forall r s v, In (r, s, v) (trip_DOFs st) -> (r < N + N)%nat /\ (s < N + N)%nat) /\
  (forall r s v, In (r, s, v) (trip_Strongs st) -> (r < N + N)%nat /\ (s < NS + NS)%nat) /\
  (forall c, (c < Cell2Ds_number (md_mesh m))%nat -> largest (ec_Q (E c)) (el_mu P) (k c)) /\
  (forall u0 u1 g0 g1 v0 v1, length u0 = N -> length u1 = N -> length g0 = NS -> length g1 = NS -> length v0 = N -> length v1 = N ->
    rsum (N + N) (fun r => nth r (v0 ++ v1) 0 * (operator_row st (u0 ++ u1) (g0 ++ g1) r - nth r (asm_rhs st) 0)) =
    cells_sum (md_mesh m) (fun c => let V := cell_displacement m info data v0 v1 (repeat 0 NS) (repeat 0 NS) c in
      cell_energy m info E P k c (cell_displacement m info data u0 u1 g0 g1 c) V - cell_work m info E P c V)) /\
  (forall v0 v1, length v0 = N -> length v1 = N -> rsum (N + N) (fun r => nth r (v0 ++ v1) 0 * nth r (asm_rhs st) 0) =
    cells_sum (md_mesh m) (fun c => cell_work m info E P c (cell_displacement m info data v0 v1 (repeat 0 NS) (repeat 0 NS) c))) /\
  forall u0 u1 v0 v1, length u0 = N -> length u1 = N -> length v0 = N -> length v1 = N -> matrix_form (N + N) st (u0 ++ u1) (v0 ++ v1) =
    cells_sum (md_mesh m) (fun c => cell_energy m info E P k c (cell_displacement m info data u0 u1 (repeat 0 NS) (repeat 0 NS) c)
      (cell_displacement m info data v0 v1 (repeat 0 NS) (repeat 0 NS) c)).
Proof.
  intros HM. cbv zeta. destruct (elastic_run m info data create P E HM) as (st & Eb & E0).
  destruct (eops_fits m info data create P E HM) as (F1 & F2).
  destruct (C15_assembly _ _ _ _ _ F1 F2) as (st0 & E0' & L0 & G1 & G2 & _). assert (st0 = st) by congruence. subst st0.
  destruct (finite_choice (fun c k => estab m info P E c k) (Cell2Ds_number (md_mesh m))) as (k & Hk).
  { intros c Hc. apply (ecell_ok m info data create P E HM c Hc). }
  exists st, k. split; [exact Eb|]. split; [exact L0|]. split; [exact G1|]. split; [exact G2|]. split; [intros c Hc; apply (Hk c Hc)|].
  set (N := NumberDOFs data) in *. set (NS := NumberStrongs data) in *.
  assert (T : forall u0 u1 g0 g1 v0 v1, length u0 = N -> length u1 = N -> length g0 = NS -> length g1 = NS -> length v0 = N -> length v1 = N ->
    rsum (N + N) (fun r => nth r (v0 ++ v1) 0 * (operator_row st (u0 ++ u1) (g0 ++ g1) r - nth r (asm_rhs st) 0)) =
    cells_sum (md_mesh m) (fun c => let V := cell_displacement m info data v0 v1 (repeat 0 NS) (repeat 0 NS) c in
      cell_energy m info E P k c (cell_displacement m info data u0 u1 g0 g1 c) V - cell_work m info E P c V)).
  { intros. rewrite (elastic_tested m info data create P E HM) by assumption. unfold cells_sum. apply lsum_ext. intros c Hc. apply in_seq in Hc. cbv zeta. f_equal.
    apply (proj2 (Hk c ltac:(lia))). }
  assert (L2 : length (repeat 0 NS) = NS) by apply repeat_length. assert (L1 : length (repeat 0 N) = N) by apply repeat_length.
  assert (W : forall v0 v1, length v0 = N -> length v1 = N -> rsum (N + N) (fun r => nth r (v0 ++ v1) 0 * nth r (asm_rhs st) 0) =
    cells_sum (md_mesh m) (fun c => cell_work m info E P c (cell_displacement m info data v0 v1 (repeat 0 NS) (repeat 0 NS) c))).
  { intros v0 v1 Lv0 Lv1. pose proof (T (repeat 0 N) (repeat 0 N) (repeat 0 NS) (repeat 0 NS) v0 v1 L1 L1 L2 L2 Lv0 Lv1) as TT.
    assert (Z : forall r, operator_row st (repeat 0 N ++ repeat 0 N) (repeat 0 NS ++ repeat 0 NS) r = 0).
    { intros r. unfold operator_row. rewrite <- !repeat_app. rewrite (rsum_0 (length (repeat 0 (N + N)))), (rsum_0 (length (repeat 0 (NS + NS)))); [ring| |]; intros; rewrite nth_repeat0; ring. }
    rewrite (rsum_ext (N + N) _ (fun r => -1 * (nth r (v0 ++ v1) 0 * nth r (asm_rhs st) 0))) in TT by (intros r _; rewrite Z; ring). rewrite rsum_scal in TT.
    assert (TT' : rsum (N + N) (fun r => nth r (v0 ++ v1) 0 * nth r (asm_rhs st) 0) = - (-1 * rsum (N + N) (fun r => nth r (v0 ++ v1) 0 * nth r (asm_rhs st) 0))) by ring.
    rewrite TT', TT. unfold cells_sum. rewrite !lsum_seq. cbv zeta. rewrite rsum_minus.
    rewrite (rsum_0 (Cell2Ds_number (md_mesh m)) (fun c => cell_energy m info E P k c _ _)); [ring|]. intros c Hc.
    unfold cell_energy. rewrite <- (proj2 (Hk c Hc)). unfold bilinear. apply rsum_0. intros i Hi. apply rsum_0. intros j Hj.
    unfold cell_displacement at 2. rewrite !cell_value_zero. destruct (j <? _)%nat; ring. }
  split; [exact T|]. split; [exact W|].
  intros u0 u1 v0 v1 Lu0 Lu1 Lv0 Lv1. pose proof (T u0 u1 (repeat 0 NS) (repeat 0 NS) v0 v1 Lu0 Lu1 L2 L2 Lv0 Lv1) as TT. cbv zeta in TT.
  unfold cells_sum in TT. rewrite lsum_less in TT. fold (cells_sum (md_mesh m) (fun c => cell_work m info E P c (cell_displacement m info data v0 v1 (repeat 0 NS) (repeat 0 NS) c))) in TT.
  rewrite <- (W v0 v1 Lv0 Lv1) in TT. unfold cells_sum.
  rewrite (rsum_ext (N + N) _ (fun r => nth r (v0 ++ v1) 0 * rsum (N + N) (fun s => entry (trip_DOFs st) r s * nth s (u0 ++ u1) 0) - nth r (v0 ++ v1) 0 * nth r (asm_rhs st) 0)) in TT.
  2:{ intros r _. unfold operator_row. rewrite <- repeat_app. rewrite (rsum_0 (length (repeat 0 (NS + NS)))) by (intros; rewrite nth_repeat0; ring). rewrite app_length, Lu0, Lu1. ring. }
  rewrite rsum_minus in TT. unfold matrix_form. lra.
Qed.
