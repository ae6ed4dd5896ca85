(** Proofs: the errors of the mixed problem. *)
From Coq Require Import List Arith Bool Reals Lra Lia.
From Verif Require Import Base RSum MatrixModel DofsModel DofsSpec AssemblerModel AssemblerSpec EquationModel EquationSpec EquationProofs VemQuadModel VemModel VemSpec
  VemMccModel VemMccSpec DriverModel DriverSpec DriverSpec2 DriverProofs DriverProofs2 DriverProofs3 DriverProofs4 DriverProofs5 Pcc2dSpec
  Mcc2dModel Mcc2dSpec Mcc2dProofs Mcc2dProofs3 Mcc2dProofs4.
Import ListNotations.
Local Open Scope R_scope.

Lemma mmulv_at A v n : m_cols A = v_size v -> m_rows A = n -> exists x, mmulv A v = Ok x /\ is_vec x n (fun q => combine A (v_at v) q).
Proof. intros H Hr. unfold mmulv. rewrite H, Nat.eqb_refl. eexists. split; [reflexivity|]. unfold is_vec, combine. cbn. rewrite H. auto. Qed.
Lemma vsub_at v w n f g : is_vec v n f -> is_vec w n g -> exists r, vsub v w = Ok r /\ is_vec r n (fun i => f i - g i).
Proof. intros (A1 & A2) (B1 & B2). unfold vsub. rewrite A1, B1, Nat.eqb_refl. eexists. split; [reflexivity|]. unfold is_vec. cbn. split; auto. intros. now rewrite A2, B2. Qed.
Lemma vsquare_at v n f : is_vec v n f -> is_vec (vsquare v) n (fun i => f i ^ 2).
Proof. intros (A1 & A2). unfold is_vec, vsquare. cbn. split; auto. intros i. rewrite A2. ring. Qed.
Lemma vdot_at w v n f : v_size w = n -> is_vec v n f -> vdot w v = Ok (rsum n (fun q => v_at w q * f q)).
Proof. intros Hw (A1 & A2). unfold vdot. rewrite Hw, A1, Nat.eqb_refl. f_equal. apply rsum_ext. intros. now rewrite A2. Qed.

Lemma cell_errors_ok create edges nu c n n' E llt exact_p exact_v u r : mixed_forms create edges nu c n n' E -> v_size u = n -> v_size r = n' ->
  exists x, mixed_cell_errors llt (xf_space E) exact_p exact_v u r = Ok x /\
  ce_numeric x = cell_rule E (combine (xf_P E) (v_at r)) /\ ce_exact x = cell_rule E (fun q => at_x exact_p E q) /\
  ce_error_p x = cell_rule E (fun q => (combine (xf_P E) (v_at r) q - at_x exact_p E q) ^ 2) /\ ce_norm_p x = cell_rule E (fun q => combine (xf_P E) (v_at r) q ^ 2) /\
  ce_error_v x = cell_rule E (fun q => (combine (xf_V E 0) (v_at u) q - at_x exact_v E q 0%nat) ^ 2 + (combine (xf_V E 1) (v_at u) q - at_x exact_v E q 1%nat) ^ 2) /\
  ce_norm_v x = cell_rule E (fun q => combine (xf_V E 0) (v_at u) q ^ 2 + combine (xf_V E 1) (v_at u) q ^ 2) /\
  exists a, ce_super_p x = cell_rule E (fun q => (combine (xf_P E) (v_at r) q - combine (xf_P E) a q) ^ 2) /\
    (exact_for positive_definite llt -> (forall s, (exists i, (i < n')%nat /\ s i <> 0) -> 0 < cell_rule E (fun q => combine (xf_P E) s q ^ 2)) ->
     forall j, (j < n')%nat -> cell_rule E (fun q => (combine (xf_P E) a q - at_x exact_p E q) * m_at (xf_P E) q j) = 0).
Proof.
  intros X Lu Lr. destruct (xe_points _ _ _ _ _ _ _ X) as (P1 & P2 & P3). destruct (xe_V _ _ _ _ _ _ _ X) as (EV & SV). destruct (xe_P _ _ _ _ _ _ _ X) as (EP & SP).
  set (nq := v_size (xf_weights E)) in *. unfold mixed_cell_errors. rewrite EV, EP. cbn [bind].
  change (q_Points (mx_InternalQuadrature (xf_space E))) with (xf_points E). change (q_Weights (mx_InternalQuadrature (xf_space E))) with (xf_weights E).
  rewrite function_evaluation_ok by auto. cbn [bind]. destruct (function_evaluation_array_ok 3 (xf_points E) exact_v ltac:(auto)) as (xv & Exv & Lxv & Fxv & Vxv). rewrite Exv. cbn [bind].
  set (xp := {| v_size := m_cols (xf_points E); v_at := _ |}).
  assert (XP : is_vec xp nq (fun q => at_x exact_p E q)) by (split; [exact P1|reflexivity]).
  destruct (twv_ok (xf_P E) (xf_weights E) xp nq n' SP eq_refl (proj1 XP)) as (rhs & Erhs & Rrhs). rewrite Erhs. cbn [bind].
  destruct (twb_ok (xf_P E) (xf_weights E) (xf_P E) nq n' n' SP eq_refl SP) as (H & EH & RH1 & RH2 & RH3). rewrite EH. cbn [bind].
  unfold msolve. cbn [m_rows m_cols]. rewrite RH1, RH2, (proj1 Rrhs), !Nat.eqb_refl. cbn [andb bind m_rows m_at].
  set (B := {| m_rows := n'; m_cols := 1; m_at := _ |}). set (av := {| v_size := n'; v_at := fun i => llt H B i 0%nat |}).
  destruct SP as (SP1 & SP2). destruct (mmulv_at (xf_P E) r nq ltac:(congruence) SP1) as (n1 & En & Rn). rewrite En. cbn [bind].
  destruct (mmulv_at (xf_P E) av nq SP2 SP1) as (i1 & Ei & Ri). rewrite Ei. cbn [bind].
  rewrite (vdot_at _ _ nq _ eq_refl Rn). cbn [bind]. rewrite (vdot_at _ _ nq _ eq_refl XP). cbn [bind].
  destruct (vsub_at _ _ _ _ _ Rn XP) as (dd & Ed & Rd). rewrite Ed. cbn [bind]. destruct (vsub_at _ _ _ _ _ Rn Ri) as (sd & Es & Rs). rewrite Es. cbn [bind].
  rewrite (vdot_at _ _ nq _ eq_refl (vsquare_at _ _ _ Rd)), (vdot_at _ _ nq _ eq_refl (vsquare_at _ _ _ Rn)). cbn [bind].
  change (idx_ [xf_V E 0; xf_V E 1] 0) with (Ok (xf_V E 0)). change (idx_ [xf_V E 0; xf_V E 1] 1) with (Ok (xf_V E 1)). cbn [bind]. destruct (SV 0%nat ltac:(lia)) as (V01 & V02). destruct (SV 1%nat ltac:(lia)) as (V11 & V12).
  assert (CO : forall d, (d < 3)%nat -> exists xd, idx_ xv d = Ok xd /\ is_vec xd nq (fun q => at_x exact_v E q d)).
  { intros d Hd. destruct (nth_error xv d) as [xd|] eqn:Exd; [|apply nth_error_None in Exd; lia]. exists xd. split; [unfold idx_; rewrite Exd; reflexivity|]. split.
    - rewrite Forall_forall in Fxv. rewrite <- P1. apply Fxv. apply (nth_error_In _ _ Exd).
    - intros q. specialize (Vxv d q Hd). unfold vcomp in Vxv. rewrite (nth_error_nth _ _ _ Exd) in Vxv. exact Vxv. }
  destruct (CO 0%nat ltac:(lia)) as (x0 & Ex0 & R0). destruct (CO 1%nat ltac:(lia)) as (x1 & Ex1 & R1'). 
  destruct (mmulv_at (xf_V E 0) u nq ltac:(congruence) V01) as (n0 & En0 & Rn0). rewrite En0. cbn [bind]. rewrite Ex0. cbn [bind]. destruct (vsub_at _ _ _ _ _ Rn0 R0) as (dv0 & Ed0 & Rd0). rewrite Ed0. cbn [bind].
  destruct (mmulv_at (xf_V E 1) u nq ltac:(congruence) V11) as (n2 & En1 & Rn1). rewrite En1. cbn [bind]. rewrite Ex1. cbn [bind]. destruct (vsub_at _ _ _ _ _ Rn1 R1') as (dv1 & Ed1 & Rd1). rewrite Ed1. cbn [bind].
  destruct (EquationProofs.vadd_ok _ _ _ _ _ (vsquare_at _ _ _ Rd0) (vsquare_at _ _ _ Rd1)) as (dv & Edv & Rdv). rewrite Edv. cbn [bind].
  destruct (EquationProofs.vadd_ok _ _ _ _ _ (vsquare_at _ _ _ Rn0) (vsquare_at _ _ _ Rn1)) as (nv & Env & Rnv). rewrite Env. cbn [bind].
  rewrite (vdot_at _ _ nq _ eq_refl (vsquare_at _ _ _ Rs)). cbn [bind]. rewrite (vdot_at _ _ nq _ eq_refl Rdv). cbn [bind]. rewrite (vdot_at _ _ nq _ eq_refl Rnv). cbn [bind].
  eexists. split; [reflexivity|]. cbn [ce_numeric ce_exact ce_error_p ce_super_p ce_norm_p ce_error_v ce_norm_v].
  do 6 (split; [reflexivity|]). exists (v_at av). split; [reflexivity|]. intros EX PD j Hj.
  assert (PDH : positive_definite H).
  { split; [congruence|]. split.
    - intros i i' _ _. rewrite !RH3. apply rsum_ext. intros; ring.
    - intros s Hs. rewrite RH2 in Hs. eapply Rlt_le_trans; [apply (PD s Hs)|]. right. rewrite RH1, RH2. unfold cell_rule, combine. rewrite SP2. fold nq.
      rewrite (rsum_ext nq _ (fun q => rsum n' (fun i => rsum n' (fun i' => s i * (m_at (xf_P E) q i * v_at (xf_weights E) q * m_at (xf_P E) q i') * s i')))).
      + rewrite rsum_swap. apply rsum_ext. intros i Hi. rewrite rsum_swap. apply rsum_ext. intros i' Hi'. rewrite RH3, <- rsum_scal, <- rsum_scal_r. reflexivity.
      + intros q _. rewrite <- Rsqr_pow2. unfold Rsqr. rewrite rsum_mult, <- rsum_scal. apply rsum_ext. intros i _. rewrite <- rsum_scal. apply rsum_ext. intros i' _. ring. }
  pose proof (EX H B ltac:(congruence) RH1 PDH j 0%nat ltac:(rewrite RH1; exact Hj) ltac:(cbn; lia)) as SO. cbn [m_at] in SO. unfold B at 2 in SO. cbn [m_at] in SO. rewrite (proj2 Rrhs), RH2 in SO.
  unfold cell_rule, combine. fold nq. rewrite SP2. rewrite (rsum_ext _ _ (fun q => rsum n' (fun i => (m_at (xf_P E) q j * v_at (xf_weights E) q * m_at (xf_P E) q i) * llt H B i 0%nat) - m_at (xf_P E) q j * v_at (xf_weights E) q * v_at xp q)).
  - rewrite rsum_minus, rsum_swap. apply Rminus_diag_eq. rewrite <- SO. apply rsum_ext. intros i Hi. rewrite RH3, <- rsum_scal_r. reflexivity.
  - intros q Hq. change (at_x exact_p E q) with (v_at xp q). cbn [av v_at]. rewrite Rmult_minus_distr_r, Rmult_minus_distr_l. f_equal; [|ring]. rewrite <- rsum_scal_r, <- rsum_scal. apply rsum_ext. intros; ring.
Qed.

Section Errors.
Variables (m : Mesh2D) (info0 info1 : MeshDOFsInfo) (d0 d1 : DOFsData) (create : nat -> outcome MixedSpace) (E : nat -> MixedForms).
Local Notation mesh := (md_mesh m).
Local Notation nc := (Cell2Ds_number mesh).
Hypothesis HC0 : CreateDOFs 2 info0 mesh = Ok d0.
Hypothesis HN0 : nc = num_cells info0 2.
Hypothesis HC1 : CreateDOFs 2 info1 mesh = Ok d1.
Hypothesis HN1 : nc = num_cells info1 2.
Local Notation n0 c := (length (closure_dofs info0 mesh 2 c)).
Local Notation n1 c := (length (closure_dofs info1 mesh 2 c)).
Hypothesis HE : forall c, (c < nc)%nat -> mixed_forms create (Cell2D_edges mesh c) (requested info0 1) c (n0 c) (n1 c) (E c).
Local Notation N0 := (NumberDOFs d0).
Local Notation N1 := (NumberDOFs d1).
Local Notation S0 := (NumberStrongs d0).
Local Notation S1 := (NumberStrongs d1).

Lemma local_pair D x c : length x = (N0 + N1)%nat -> length (md_solutionNeumann D) = (S0 + S1)%nat -> (c < nc)%nat ->
  exists u r, mixed_local_solution d0 d1 (pair_count d0 d1) x (md_solutionNeumann D) c = Ok (u, r) /\ v_size u = n0 c /\ v_size r = n1 c /\
  (forall p, (p < n0 c)%nat -> v_at u p = cell_velocity info0 mesh d0 D x c p) /\ (forall p, (p < n1 c)%nat -> v_at r p = cell_pressure info1 mesh d0 d1 D x c p).
Proof.
  intros Lx Ls Hc. unfold mixed_local_solution. rewrite (pair_local_ok m info0 info1 d0 d1 HC0 HN0 HC1 HN1 c Hc). cbn [bind l_num_total_dofs pair_local].
  unfold at_ at 1. rewrite (closure1 m info1 d1 HC1 HN1 c Hc). cbn [bind]. replace (n0 c + n1 c - n1 c)%nat with (n0 c) by lia.
  set (gs := md_solutionNeumann D) in *.
  destruct (pair_solution m info0 info1 d0 d1 HC0 HN0 HC1 HN1 (firstn N0 x) (skipn N0 x) (firstn S0 gs) (skipn S0 gs)) with (c := c) as (loc & El & Ll & V0 & V1); auto;
    try (rewrite firstn_length; lia); try (rewrite skipn_length; lia).
  rewrite !firstn_skipn in El. rewrite El. cbn [bind]. unfold vec_segment. cbn [vec_of_list v_size]. rewrite Ll.
  replace (0 + n0 c <=? n0 c + n1 c)%nat with true by (symmetry; apply Nat.leb_le; lia). rewrite Nat.leb_refl. cbn [bind]. eexists _, _. split; [reflexivity|]. cbn [v_size v_at]. do 2 (split; [reflexivity|]).
  split; intros p Hp; [rewrite Nat.add_0_l; apply (V0 p Hp)|apply (V1 p Hp)].
Qed.
Lemma mixed_errors_ok llt diameters exact_p exact_v D x : length x = (N0 + N1)%nat -> length (md_solutionNeumann D) = (S0 + S1)%nat -> length diameters = nc ->
  (forall r j v, In (r, j, v) (md_globalMatrixA D) -> (r < N0 + N1)%nat /\ (j < N0 + N1)%nat) ->
  exists e, mixed_errors m d0 d1 create llt diameters exact_p exact_v D x = Ok e /\ mixed_numbers m info0 info1 d0 d1 E llt diameters exact_p exact_v D x e.
Proof.
  intros Lx Ls Ld TR. unfold mixed_errors. rewrite pair_count_ok. cbn [bind num_total_dofs pair_count].
  set (good := fun c ce =>
    let u d q := combine (xf_V (E c) d) (cell_velocity info0 mesh d0 D x c) q in let r q := combine (xf_P (E c)) (cell_pressure info1 mesh d0 d1 D x c) q in
    let p q := at_x exact_p (E c) q in let v d q := at_x exact_v (E c) q d in
    ce_numeric ce = cell_rule (E c) r /\ ce_exact ce = cell_rule (E c) p /\ ce_error_p ce = cell_rule (E c) (fun q => (r q - p q) ^ 2) /\ ce_norm_p ce = cell_rule (E c) (fun q => r q ^ 2) /\
    ce_error_v ce = cell_rule (E c) (fun q => (u 0%nat q - v 0%nat q) ^ 2 + (u 1%nat q - v 1%nat q) ^ 2) /\ ce_norm_v ce = cell_rule (E c) (fun q => u 0%nat q ^ 2 + u 1%nat q ^ 2) /\
    exists a, ce_super_p ce = cell_rule (E c) (fun q => (r q - combine (xf_P (E c)) a q) ^ 2) /\
      (exact_for positive_definite llt -> (forall s, (exists i, (i < m_cols (xf_P (E c)))%nat /\ s i <> 0) -> 0 < cell_rule (E c) (fun q => combine (xf_P (E c)) s q ^ 2)) ->
       forall j, (j < m_cols (xf_P (E c)))%nat -> cell_rule (E c) (fun q => (combine (xf_P (E c)) a q - p q) * m_at (xf_P (E c)) q j) = 0)).
  destruct (@for_loop_total _ (fun i s => length (fst s) = i /\ (forall c ce, nth_error (fst s) c = Some ce -> good c ce) /\ (forall c, (c < i)%nat -> nth c diameters 0 <= snd s) /\
      (snd s = 0 \/ exists c, (c < i)%nat /\ snd s = nth c diameters 0))
    (fun c s => space <- create c ;; vr <- mixed_local_solution d0 d1 (pair_count d0 d1) x (md_solutionNeumann D) c ;; y <- mixed_cell_errors llt space exact_p exact_v (fst vr) (snd vr) ;;
      h <- at_ diameters c ;; Ok (fst s ++ [y], if Rlt_dec (snd s) h then h else snd s)) nc ([], 0)) as (s & Es & Is1 & Is2 & Is3 & Is4).
  { cbn [fst snd length]. split; [reflexivity|]. split; [intros [|c'] ce' Hn; discriminate|]. split; [intros; lia|left; reflexivity]. }
  { intros c s Hc (I1' & I2 & I3 & I4). pose proof (HE c Hc) as X. rewrite (xe_space _ _ _ _ _ _ _ X). cbn [bind].
    destruct (local_pair D x c Lx Ls Hc) as (u & r & Eu & Lu & Lr & Vu & Vr). rewrite Eu. cbn [bind fst snd].
    destruct (cell_errors_ok create _ _ c (n0 c) (n1 c) (E c) llt exact_p exact_v u r X Lu Lr) as (ce & Ec & Q).
    rewrite Ec. cbn [bind]. unfold at_. destruct (nth_error diameters c) as [h|] eqn:Eh; [|apply nth_error_None in Eh; lia]. cbn [bind]. eexists. split; [reflexivity|]. cbn [fst snd].
    split; [rewrite app_length, I1'; simpl; lia|]. split; [|].
    - intros c' ce' Hn. destruct (Nat.lt_ge_cases c' (length (fst s))) as [H|H]; [rewrite nth_error_app1 in Hn by exact H; auto|]. rewrite nth_error_app2 in Hn by exact H.
      destruct (c' - length (fst s))%nat as [|t] eqn:Et; [|destruct t; discriminate]. cbn in Hn. injection Hn as <-. assert (c' = c) as -> by lia. unfold good. cbv zeta.
      destruct (xe_P _ _ _ _ _ _ _ X) as (_ & _ & SP). destruct (xe_V _ _ _ _ _ _ _ X) as (_ & SV).
      assert (CP : forall q, combine (xf_P (E c)) (v_at r) q = combine (xf_P (E c)) (cell_pressure info1 mesh d0 d1 D x c) q) by (intros q; apply combine_ext; intros j Hj; apply Vr; rewrite <- SP; exact Hj).
      assert (CV : forall d q, (d < 2)%nat -> combine (xf_V (E c) d) (v_at u) q = combine (xf_V (E c) d) (cell_velocity info0 mesh d0 D x c) q) by (intros d q Hd; apply combine_ext; intros j Hj; apply Vu; rewrite <- (proj2 (SV d Hd)); exact Hj).
      destruct Q as (Q1 & Q2 & Q3 & Q4 & Q5 & Q6 & a & Q7 & Q8). rewrite SP. rewrite Q1, Q2, Q3, Q4, Q5, Q6. unfold cell_rule.
      split; [apply rsum_ext; intros; rewrite CP; reflexivity|]. split; [reflexivity|]. do 2 (split; [apply rsum_ext; intros; rewrite CP; reflexivity|]). do 2 (split; [apply rsum_ext; intros; rewrite !CV by lia; reflexivity|]).
      exists a. split; [rewrite Q7; apply rsum_ext; intros; rewrite CP; reflexivity|exact Q8].
    - split.
      + intros c' Hc'. destruct (Nat.eq_dec c' c) as [->|Hn]; [rewrite (nth_error_nth _ _ _ Eh); destruct (Rlt_dec (snd s) h); lra|]. specialize (I3 c' ltac:(lia)). destruct (Rlt_dec (snd s) h); lra.
      + destruct (Rlt_dec (snd s) h) as [Hl|Hl]; [right; exists c; split; [lia|symmetry; apply nth_error_nth; exact Eh]|]. destruct I4 as [I4|(c' & Hc' & I4)]; [left; exact I4|right; exists c'; split; [lia|exact I4]]. }
  rewrite Es. cbn [bind]. eexists. split; [reflexivity|].
  assert (ROW : forall r, triplets_row (md_globalMatrixA D) x r - nth r (md_rightHandSide D) 0 = mixed_residual D x r).
  { intros r. unfold mixed_residual, mixed_row. f_equal. apply triplets_row_entries. intros i j a Hi. rewrite Lx. apply (TR _ _ _ Hi). }
  constructor; cbn [me_residual_norm me_numeric_pressure me_exact_pressure me_cells_error_pressure me_cells_super_error_pressure me_cells_norm_pressure me_cells_error_velocity me_cells_norm_velocity
    me_error_pressure me_super_error_pressure me_norm_pressure me_error_velocity me_norm_velocity me_mesh_size].
  - destruct (Nat.ltb_spec 0 (N0 + N1)) as [H|H].
    + split; [apply sqrt_pos|]. rewrite sqrt_sqrt; [|apply lsum_nonneg; intros; apply pow2_ge_0]. rewrite lsum_seq. apply rsum_ext. intros r _. cbn [Nat.add]. rewrite ROW. ring.
    + split; [lra|]. replace (N0 + N1)%nat with 0%nat by lia. cbn. ring.
  - repeat constructor; rewrite map_length; exact Is1.
  - intros c Hc. destruct (nth_error (fst s) c) as [ce|] eqn:Ece; [|apply nth_error_None in Ece; lia]. specialize (Is2 c ce Ece).
    assert (NM : forall f, nth c (map f (fst s)) 0 = f ce) by (intros f; apply nth_error_nth; apply map_nth_error; exact Ece). rewrite !NM. exact Is2.
  - assert (TOT : forall l, 0 <= sqrt (sum_list l) /\ (Forall (fun y => 0 <= y) l -> sqrt (sum_list l) * sqrt (sum_list l) = rsum (length l) (fun c => nth c l 0))).
    { intros l. split; [apply sqrt_pos|]. intros F. rewrite sum_list_nth, sqrt_sqrt; [reflexivity|]. apply rsum_nonneg. intros i Hi. rewrite Forall_forall in F. apply F. apply nth_In. exact Hi. }
    repeat split; apply TOT.
  - split; [exact Is3|exact Is4].
Qed.
End Errors.
