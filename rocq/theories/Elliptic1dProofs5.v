(** The driver of the elliptic problem on networks of segments: uniqueness, errors, values at the vertices. *)
From Coq Require Import List Arith Bool Reals Lra Lia Permutation.
From Verif Require Import Base RSum MatrixModel DofsModel DofsSpec DofsProofs DofsProofs2 AssemblerModel AssemblerSpec AssemblerProofs AssemblerProofs2
  EquationModel EquationSpec EquationProofs VemQuadModel VemQuadSpec VemModel VemSpec DriverModel DriverSpec DriverSpec2 DriverProofs DriverProofs2 DriverProofs3 DriverProofs4
  DriverProofs5 DriverProofs6 DriverProofs7 LagrangeModel LagrangeSpec LagrangeProofs LagrangeProofs2 Mcc2dModel Mcc2dProofs3 ParabolicModel Elliptic1dModel Elliptic1dSpec Elliptic1dProofs Elliptic1dProofs2
  Elliptic1dProofs3 Elliptic1dProofs4 VemProofs3 Pcc2dProofs4 RtProofs GreenSpec GreenProofs.
Import ListNotations.
Local Open Scope R_scope.

Lemma free_unknown1 k info mesh data r : (k <= 3)%nat -> CreateDOFs k info mesh = Ok data -> (r < NumberDOFs data)%nat ->
  exists g y, valid k info g /\ lookup data g = Some y /\ dof_type y = TDOF /\ dof_index y = r.
Proof.
  intros Hk HC Hr.
  assert (IN : In r (indices_of TDOF k data)) by (apply (Permutation_in r (Permutation_sym (C01_free_numbering k info mesh data Hk HC))); apply in_seq; lia).
  apply in_map_iff in IN. destruct IN as (y & EX & IN). apply filter_In in IN. destruct IN as [IN TX].
  apply in_flat_map in IN. destruct IN as (d & Hd & IN). apply in_seq in Hd. apply in_concat in IN. destruct IN as (row & HR & IN).
  apply In_nth_error in HR. destruct HR as (e & HR). apply In_nth_error in IN. destruct IN as (i & IN).
  assert (He : (e < num_cells info d)%nat).
  { destruct (CreateDOFs_stage k info mesh data Hk HC) as (_ & Hst).
    rewrite <- (core_done_length info data d); [apply nth_error_Some; rewrite HR; discriminate|apply (st_types _ _ _ _ Hst); lia|apply (st_core _ _ _ _ Hst); lia]. }
  destruct (valid_row k info mesh data Hk HC d e ltac:(lia) He) as (row' & HR' & LR & _). rewrite HR in HR'. injection HR' as <-.
  assert (Hi : (i < requested info d e)%nat) by (rewrite <- LR; apply nth_error_Some; rewrite IN; discriminate).
  exists (entity_dof d e i), y. split; [split; [cbn; lia|split; [exact He|exact Hi]]|]. split; [unfold lookup; cbn; rewrite HR; exact IN|]. split; [|exact EX].
  unfold is_type in TX. destruct (dof_type y); congruence.
Qed.

Section Unique.
Variables (junk : nat -> nat -> R) (lobatto : nat -> Vec) (gauss : nat -> QuadratureData) (k : nat) (type : FEM_PCC_1D_Types) (qo : nat).
Hypothesis HLo : type = GaussLobatto -> lobatto_ok lobatto k.
Local Notation Q := (gauss (computed_quadrature_order k qo)).
Hypothesis HQ : rule_shape Q.
Local Notation n := (k + 1)%nat.
Local Notation nq := (v_size (q_Weights Q)).
Local Notation x := (node lobatto k type).
Local Notation phi := (phi1 x n).
Local Notation dphi := (dphi1 x n).
Variables (m : Mesh2D) (info : MeshDOFsInfo) (data : DOFsData) (G : MeshGeometricData1D) (ref : FEM_1D_Reference) (P : EllipticProblem1D).
Hypothesis NW : network m info data G k.
Hypothesis ER : FEM_1D_CreateReference junk lobatto gauss k type qo = Ok ref.
Local Notation mesh := (md_mesh m).
Local Notation nc := (num_cells info 1).
Local Notation nv := (num_cells info 0).
Local Notation NF := (NumberDOFs data).
Local Notation NS := (NumberStrongs data).
Local Notation val uD uS c := (segment_value m info data uD uS c).
Local Notation L c := (segment_length m c).

Section Energy.
Hypothesis EX : exact_rule (2 * (k - 1)) Q.
Hypothesis WP : rule_positive Q.
Hypothesis EL : elliptic_data m info P Q.

Lemma energy_nonneg c u du : (c < nc)%nat -> 0 <= segment_energy m Q P c u du u du.
Proof using NW WP EL.
  intros Hc. pose proof (nw_lengths _ _ _ _ _ NW c Hc) as Lp. unfold segment_energy. apply Rmult_le_pos; [lra|]. unfold apply_rule. apply rsum_nonneg. intros q Hq. cbv zeta.
  pose proof (WP q Hq). destruct (EL c q Hc Hq). apply Rmult_le_pos; [lra|]. apply Rplus_le_le_0_compat; rewrite Rmult_assoc; (apply Rmult_le_pos; [lra|apply Rle_0_sqr]).
Qed.
Lemma energy_zero c u du : (c < nc)%nat -> segment_energy m Q P c u du u du = 0 -> forall q, (q < nq)%nat -> du (rule_point Q q) = 0.
Proof using NW WP EL.
  intros Hc Z q Hq. pose proof (nw_lengths _ _ _ _ _ NW c Hc) as Lp. unfold segment_energy in Z. apply Rmult_integral in Z. destruct Z as [Z|Z]; [lra|]. unfold apply_rule in Z.
  assert (T : forall q, (q < nq)%nat -> (fun q => v_at (q_Weights Q) q * (let t := rule_point Q q in on_segment m (ep_diffusion P) c t * (du t / L c) * (du t / L c) + on_segment m (ep_reaction P) c t * u t * u t)) q = 0).
  { apply (rsum_zero_each nq); [|apply Req_le; exact Z]. intros q' Hq'. cbv zeta. pose proof (WP q' Hq'). destruct (EL c q' Hc Hq'). apply Rmult_le_pos; [lra|]. apply Rplus_le_le_0_compat; rewrite Rmult_assoc; (apply Rmult_le_pos; [lra|apply Rle_0_sqr]). }
  specialize (T q Hq).
  cbv beta zeta in T. pose proof (WP q Hq) as W. destruct (EL c q Hc Hq) as (K & C). set (t := rule_point Q q) in *.
  set (d := du t / L c) in *. assert (Hd : d = 0).
  { apply Rmult_integral in T. destruct T as [T|T]; [lra|]. assert (0 <= on_segment m (ep_reaction P) c t * u t * u t) by (rewrite Rmult_assoc; apply Rmult_le_pos; [lra|apply Rle_0_sqr]).
    assert (0 <= on_segment m (ep_diffusion P) c t * d * d) by (rewrite Rmult_assoc; apply Rmult_le_pos; [lra|apply Rle_0_sqr]).
    assert (Z2 : on_segment m (ep_diffusion P) c t * d * d = 0) by lra. rewrite Rmult_assoc in Z2. apply Rmult_integral in Z2. destruct Z2; [lra|]. apply Rsqr_0_uniq. exact H1. }
  unfold d, Rdiv in Hd. apply Rmult_integral in Hd. destruct Hd as [Hd|Hd]; [exact Hd|]. pose proof (Rinv_0_lt_compat _ Lp). lra.
Qed.
Lemma flat_segment c v : (c < nc)%nat -> segment_energy m Q P c (along k phi v) (along k dphi v) (along k phi v) (along k dphi v) = 0 ->
  forall t t', along k phi v t = along k phi v t'.
Proof using NW WP EL EX.
  intros Hc Z. pose proof (nwk _ _ _ _ _ NW). pose proof (energy_zero c _ _ Hc Z) as Zq.
  assert (PD : is_poly (S (k - 1)) (along k dphi v)).
  { pose proof (along_poly lobatto k type v) as PA. replace n with (S k) in PA by lia. destruct (is_poly_derivative k _ PA) as (df & Pdf & Ddf). replace (S (k - 1)) with k by lia.
    apply (is_poly_ext k df); [|exact Pdf]. intros t. apply (uniqueness_limite (along k phi v) t); [replace n with (S k) by lia; apply Ddf|apply along_deriv]. }
  apply (constant (along k phi v) (along k dphi v)); [intros t; apply along_deriv|].
  apply (Q_square (q_Points Q) (q_Weights Q) (k - 1) (exact_rule_segment _ _ EX) _ PD). unfold GreenProofs.Q. cbn [fst snd]. rewrite !Rmult_0_l, !Rplus_0_l.
  apply rsum_0. intros q Hq. change (m_at (q_Points Q) 0 q) with (rule_point Q q). rewrite Zq by exact Hq. ring.
Qed.

Lemma vof_minus uD uD' uS h : length uD = NF -> length uD' = NF -> length uS = NS -> valid 1 info h ->
  vof data (map (fun i => nth i uD 0 - nth i uD' 0) (seq 0 NF)) (repeat 0 NS) h = vof data uD uS h - vof data uD' uS h.
Proof using NW.
  intros LD LD' LS V. destruct (valid_lookup 1 info mesh data ltac:(lia) (nwC _ _ _ _ _ NW) h V) as (y & t & Hy & Ht & B).
  destruct B as [(_ & Ty & Lt)|(_ & Ty & Lt)]; unfold vof, value_of; rewrite Hy, Ty.
  - rewrite nth_error_repeat by auto. destruct (nth_error uS (dof_index y)); ring.
  - rewrite !(nth_error_nth' _ 0) by (rewrite ?map_length, ?seq_length; lia). rewrite nth_map_seq by auto. reflexivity.
Qed.

Hypothesis TI : all_tied m info.
Lemma kernel vD : length vD = NF ->
  let v c := val vD (repeat 0 NS) c in rsum nc (fun c => segment_energy m Q P c (along k phi (v c)) (along k dphi (v c)) (along k phi (v c)) (along k dphi (v c))) = 0 ->
  forall r, (r < NF)%nat -> nth r vD 0 = 0.
Proof using HLo NW EX WP EL TI.
  intros LV v E3 r Hr. pose proof (nwk _ _ _ _ _ NW) as Kp.
  assert (Flat : forall c, (c < nc)%nat -> forall t t', along k phi (v c) t = along k phi (v c) t').
  { intros c Hc. apply (flat_segment c (v c) Hc). apply (rsum_zero_each nc (fun c => segment_energy m Q P c (along k phi (v c)) (along k dphi (v c)) (along k phi (v c)) (along k dphi (v c)))); [|lra|exact Hc].
    intros c' Hc'. apply energy_nonneg. exact Hc'. }
  assert (Ends : forall c i, (c < nc)%nat -> (i < 2)%nat -> along k phi (v c) (INR i) = vof data vD (repeat 0 NS) (entity_dof 0 (end_of m c i) 0)).
  { intros c i Hc Hi. rewrite <- (node_end lobatto k type i Hi), (along_node lobatto k type HLo m info data G NW) by lia. unfold v. rewrite (segment_value_at m info data G k NW) by (auto; lia). rewrite end_dof by auto. reflexivity. }
  assert (Zero : forall c, tied m info c -> (c < nc)%nat /\ forall t, along k phi (v c) t = 0).
  { intros c T. induction T as [c i Hc Hi Hs|c c' i i' T (Hc & IH) Hc' Hi Hi' He]; (split; [assumption|]); intros t.
    - rewrite (Flat c Hc t (INR i)), Ends by auto. apply (vof_strong_zero k m info data G NW); [apply (vertex_valid k m info data G NW); apply (net_end_range m info data G k NW); auto|exact Hs].
    - rewrite (Flat c' Hc' t (INR i')), Ends, <- He, <- Ends by auto. apply IH. }
  destruct TI as (TC & TV).
  assert (Val : forall c j, (c < nc)%nat -> (j < n)%nat -> vof data vD (repeat 0 NS) (cell_dof m c j) = 0).
  { intros c j Hc Hj. rewrite <- (segment_value_at m info data G k NW) by auto. fold (v c). rewrite <- (along_node lobatto k type HLo m info data G NW (v c) j Hj). apply (Zero c (TC c Hc)). }
  destruct (free_unknown1 1 info mesh data r ltac:(lia) (nwC _ _ _ _ _ NW) Hr) as (h & y & (V1 & V2 & V3) & Hy & Ty & Iy).
  assert (Z : vof data vD (repeat 0 NS) h = 0).
  { destruct h as [d e i]. cbn [g_dim g_cell g_dof] in *. destruct d as [|[|d]]; [| |lia].
    - destruct (TV e V2) as (c & i' & Hc & Hi' & He). rewrite (nw_vertex_unknowns _ _ _ _ _ NW) in V3 by auto. replace i with 0%nat by lia.
      specialize (Val c i' Hc ltac:(lia)). rewrite end_dof, He in Val by auto. exact Val.
    - rewrite (nw_cell_unknowns _ _ _ _ _ NW) in V3 by auto. apply (Val e (S (S i)) V2). lia. }
  unfold vof, value_of in Z. rewrite Hy, Ty, Iy, (nth_error_nth' _ 0) in Z by lia. exact Z.
Qed.

Lemma matrix_energy D vD : segment_assemble m info data junk ref G P = Ok D -> length vD = NF ->
  let v c := val vD (repeat 0 NS) c in
  rsum NF (fun r => nth r vD 0 * triplets_row (sd_globalMatrixA D) vD r) =
  rsum nc (fun c => segment_energy m Q P c (along k phi (v c)) (along k dphi (v c)) (along k phi (v c)) (along k dphi (v c))).
Proof using HLo HQ NW ER.
  intros ED LV v.
  destruct (segment_variational junk lobatto gauss k type qo HLo HQ m info data G ref P NW ER) as (D' & ED' & LS & _ & RG & _ & _ & VF). rewrite ED in ED'. inversion ED'; subst D'.
  set (z := repeat 0 NF). assert (LZ : length z = NF) by apply repeat_length.
  pose proof (VF vD vD LV LV) as E1. pose proof (VF z vD LZ LV) as E2. cbv zeta in E1, E2.
  assert (Z0 : forall r, triplets_row (sd_globalMatrixA D) z r = 0).
  { intros r. rewrite triplets_row_entries by (intros i j a Hin; rewrite LZ; apply (RG i j a Hin)). apply rsum_0. intros j Hj. unfold z. rewrite nth_repeat. ring. }
  apply (f_equal2 Rminus E1) in E2. rewrite <- !rsum_minus in E2. etransitivity; [|etransitivity; [exact E2|]].
  - apply rsum_ext. intros r Hr. unfold segment_residual. rewrite Z0. ring.
  - apply rsum_ext. intros c Hc. fold (v c).
    match goal with |- (?a - ?f - ?g) - (?b - ?f - ?g) = ?w => replace ((a - f - g) - (b - f - g)) with (a - b) by ring end.
    unfold segment_energy, apply_rule. rewrite <- Rmult_minus_distr_l, <- rsum_minus. f_equal. apply rsum_ext. intros q Hq. cbv zeta.
    assert (A : forall ps, along k ps (v c) (rule_point Q q) = along k ps (val vD (sd_solutionDirichlet D) c) (rule_point Q q) - along k ps (val z (sd_solutionDirichlet D) c) (rule_point Q q)).
    { intros ps. unfold along. rewrite <- rsum_minus. apply rsum_ext. intros j Hj. unfold v. rewrite !(segment_value_at m info data G k NW) by auto.
      pose proof (vof_minus vD z (sd_solutionDirichlet D) (cell_dof m c j) LV LZ LS ltac:(apply (net_valid m info data G k NW); auto)) as B.
      replace (map (fun i => nth i vD 0 - nth i z 0) (seq 0 NF)) with vD in B.
      - rewrite B. ring.
      - apply (nth_ext _ _ 0 0); [rewrite map_length, seq_length; exact LV|]. intros i Hi. rewrite nth_map_seq by lia. unfold z. rewrite nth_repeat. ring. }
    rewrite !A. unfold Rdiv. ring.
Qed.
Lemma matrix_positive D vD : segment_assemble m info data junk ref G P = Ok D -> length vD = NF -> (exists r, (r < NF)%nat /\ nth r vD 0 <> 0) ->
  0 < rsum NF (fun r => nth r vD 0 * triplets_row (sd_globalMatrixA D) vD r).
Proof using HLo HQ NW ER EX WP EL TI.
  intros ED LV (r & Hr & Nz). rewrite (matrix_energy D vD ED LV). cbv zeta.
  match goal with |- 0 < ?x => assert (N : 0 <= x) end.
  { apply rsum_nonneg. intros c Hc. apply energy_nonneg. exact Hc. }
  destruct N as [N|N]; [exact N|]. exfalso. apply Nz. apply (kernel vD LV); auto.
Qed.
Lemma unique D uD uD' : segment_assemble m info data junk ref G P = Ok D -> length uD = NF -> length uD' = NF ->
  (forall r, (r < NF)%nat -> triplets_row (sd_globalMatrixA D) uD r = triplets_row (sd_globalMatrixA D) uD' r) -> uD = uD'.
Proof using HLo HQ NW ER EX WP EL TI.
  intros ED LD LD' SD.
  destruct (segment_variational junk lobatto gauss k type qo HLo HQ m info data G ref P NW ER) as (D' & ED' & LS & _ & RG & _). rewrite ED in ED'. inversion ED'; subst D'.
  set (vD := map (fun i => nth i uD 0 - nth i uD' 0) (seq 0 NF)). assert (LV : length vD = NF) by (unfold vD; rewrite map_length, seq_length; reflexivity).
  assert (Z : rsum NF (fun r => nth r vD 0 * triplets_row (sd_globalMatrixA D) vD r) = 0).
  { apply rsum_0. intros r Hr. assert (E : triplets_row (sd_globalMatrixA D) vD r = triplets_row (sd_globalMatrixA D) uD r - triplets_row (sd_globalMatrixA D) uD' r).
    { rewrite !triplets_row_entries by (intros i j a Hin; rewrite ?LD, ?LD', ?LV; apply (RG i j a Hin)). rewrite LD, LD', LV, <- rsum_minus. apply rsum_ext. intros j Hj. unfold vD. rewrite nth_map_seq by auto. ring. }
    rewrite E, SD by auto. ring. }
  rewrite (matrix_energy D vD ED LV) in Z. apply (nth_ext _ _ 0 0); [congruence|]. intros r Hr. rewrite LD in Hr. pose proof (kernel vD LV Z r Hr) as K. unfold vD in K. rewrite nth_map_seq in K by auto. lra.
Qed.
End Energy.

(** ** Errors *)
Variables (exact : R -> R -> R -> R) (exact_d : R -> R -> R -> nat -> R).
Local Notation err_L2 := (segment_error_L2 m Q exact).
Local Notation norm_L2 := (segment_norm_L2 m Q).
Local Notation err_H1 := (segment_error_H1 m Q exact_d).
Local Notation norm_H1 := (segment_norm_H1 m Q).

Lemma cell_errors_ok c sp T (u : list R) : is_segment_space lobatto gauss k type qo m c sp -> length u = n -> (forall d, T d = segment_vector m c d) ->
  exists e, segment_cell_errors sp T (L c) exact exact_d (vec_of_list u) = Ok e /\
    sc_error_L2 e = err_L2 c (along k phi (fun j => nth j u 0)) /\ sc_norm_L2 e = norm_L2 c (along k phi (fun j => nth j u 0)) /\
    sc_error_H1 e = err_H1 c (along k dphi (fun j => nth j u 0)) /\ sc_norm_H1 e = norm_H1 c (along k dphi (fun j => nth j u 0)).
Proof using.
  intros (P1 & P2 & P3 & W1 & W2 & (SV1 & SV2) & HV & Dm & EDm & (SD1 & SD2) & HD) Lu HT. unfold segment_cell_errors.
  rewrite function_evaluation_ok by (right; lia). cbn [bind].
  destruct (function_evaluation_array_ok 3 (q_Points (ss_Quadrature sp)) exact_d ltac:(right; lia)) as (l & El & Ll & Fl & Vl). rewrite El. cbn [bind].
  destruct l as [|x0 [|x1 [|x2 l]]]; try discriminate. cbn [idx_ nth_error bind]. unfold idx_. cbn [nth_error bind].
  inversion Fl as [|? ? F0 Fl']; subst. inversion Fl' as [|? ? F1 _]; subst. unfold sized in F0, F1.
  unfold vadd. cbn [v_size]. rewrite F0, F1, Nat.eqb_refl. cbn [bind].
  unfold mmulv. rewrite SV2. cbn [vec_of_list v_size]. rewrite Lu, Nat.eqb_refl. cbn [bind]. unfold vsub at 1. cbn [v_size]. rewrite SV1, P2, Nat.eqb_refl. cbn [bind].
  unfold vdot, vsquare. cbn [v_size v_at]. rewrite W1, Nat.eqb_refl. cbn [bind]. rewrite EDm. cbn [nth_error bind]. rewrite SD2, Nat.eqb_refl. cbn [bind]. unfold vsub. cbn [v_size v_at]. rewrite SD1, ?P2, Nat.eqb_refl. cbn [bind v_size v_at].
  rewrite Nat.eqb_refl. cbn [bind]. eexists. split; [reflexivity|]. cbn [sc_error_L2 sc_norm_L2 sc_error_H1 sc_norm_H1].
  assert (AV : forall q, (q < nq)%nat -> rsum n (fun j => m_at (ss_Values sp) q j * nth j u 0) = along k phi (fun j => nth j u 0) (rule_point Q q)).
  { intros q Hq. unfold along. apply rsum_ext. intros j Hj. rewrite HV by auto. ring. }
  assert (AD : forall q, (q < nq)%nat -> rsum n (fun j => m_at Dm q j * nth j u 0) = along k dphi (fun j => nth j u 0) (rule_point Q q) / L c).
  { intros q Hq. unfold along, Rdiv. rewrite <- rsum_scal_r. apply rsum_ext. intros j Hj. rewrite HD by auto. unfold Rdiv. ring. }
  unfold segment_error_L2, segment_norm_L2, segment_error_H1, segment_norm_H1, apply_rule. rewrite <- !rsum_scal.
  split; [|split; [|split]]; apply rsum_ext; intros q Hq; rewrite W2, ?AV, ?AD, ?P3 by auto.
  - unfold on_segment, at_point. ring.
  - ring.
  - pose proof (Vl 0%nat q ltac:(lia)) as V0. pose proof (Vl 1%nat q ltac:(lia)) as V1. unfold vcomp in V0, V1. cbn [nth] in V0, V1. rewrite V0, V1, !P3, !HT by auto.
    unfold tangential. rewrite rsum2. unfold on_segment, at_point. ring.
  - ring.
Qed.

Lemma extract1 uD uS : length uD = NF -> length uS = NS ->
  exists un ue, extract_solution_on_cell0Ds (all_active m) data uD uS (Some exact) = Ok (un, ue) /\ length un = nv /\ length ue = nv /\
    forall v, (v < nv)%nat -> nth v ue 0 = at_point exact (md_coords m v) /\ nth v un 0 = vof data uD uS (entity_dof 0 v 0).
Proof using NW.
  intros LD LS. unfold extract_solution_on_cell0Ds. cbn [all_active md_mesh md_active0 md_coords negb]. rewrite (nw_vertices _ _ _ _ _ NW).
  match goal with |- exists un ue, for_loop nv ?f ?s0 = _ /\ _ => destruct (@for_loop_total _ (fun i (st : list R * list R) => length (fst st) = nv /\ length (snd st) = nv /\
     (forall v, (v < i)%nat -> nth v (snd st) 0 = at_point exact (md_coords m v) /\ nth v (fst st) 0 = vof data uD uS (entity_dof 0 v 0))) f nv s0) as ((un & ue) & E & L1 & L2 & H) end.
  - cbn [fst snd]. rewrite !repeat_length. split; [auto|]. split; [auto|]. intros; lia.
  - intros v (un & ue) Hv (L1 & L2 & H1). cbn [fst snd] in *. rewrite function_evaluation_ok by (right; simpl; lia). cbn [bind]. unfold vec_get. cbn [v_size column3 m_cols Nat.ltb Nat.leb bind v_at m_at].
    rewrite set_idx_in by lia. cbn [bind].
    destruct (valid_row 1 info mesh data ltac:(lia) (nwC _ _ _ _ _ NW) 0 v ltac:(lia) Hv) as (row & Er & Lr & HL). rewrite (nw_vertex_unknowns _ _ _ _ _ NW) in Lr by auto.
    unfold at_ at 1. rewrite Er. cbn [bind]. rewrite Lr. cbn [for_loop for_from].
    assert (V : valid 1 info (entity_dof 0 v 0)) by (apply (vertex_valid k m info data G NW); auto).
    destruct (valid_lookup 1 info mesh data ltac:(lia) (nwC _ _ _ _ _ NW) _ V) as (y & ty & Hy & _ & Hcase).
    unfold for_loop. cbn [for_from]. unfold at_. rewrite <- HL, Hy. cbn [bind].
    assert (Hz : exists z, vof data uD uS (entity_dof 0 v 0) = z /\ match dof_type y with
       | TDOF => z <- idx_ uD (dof_index y);; set_idx un v z | TStrong => z <- idx_ uS (dof_index y);; set_idx un v z | TUnknown => Throw end = Ok (replace un v z)).
    { eexists. split; [reflexivity|]. unfold vof, value_of. rewrite Hy. destruct Hcase as [(_ & Ty & Bd)|(_ & Ty & Bd)]; rewrite Ty; unfold idx_; rewrite (nth_error_nth' _ 0) by lia; cbn [bind]; apply set_idx_in; lia. }
    destruct Hz as (z & Ez & Es). eexists. split; [destruct (dof_type y); rewrite Es; cbn [bind]; reflexivity|]. cbn [fst snd]. rewrite !length_replace. split; [auto|]. split; [auto|].
    intros w Hw. destruct (Nat.eq_dec w v) as [->|Nw].
    + rewrite !nth_replace_same by lia. split; [reflexivity|symmetry; exact Ez].
    + rewrite !nth_replace_other by auto. apply H1. lia.
  - exists un, ue. cbn [fst snd] in *. auto.
Qed.

Lemma errors_ok D uD : segment_assemble m info data junk ref G P = Ok D -> length uD = NF ->
  exists e, segment_errors m data junk ref G exact exact_d D uD = Ok e /\
    let u c := val uD (sd_solutionDirichlet D) c in
    se_residual_norm e = sqrt (rsum NF (fun r => segment_residual D uD r ^ 2)) /\
    (length (se_cell0Ds_numeric e) = nv /\ length (se_cell0Ds_exact e) = nv /\
     forall v, (v < nv)%nat -> nth v (se_cell0Ds_exact e) 0 = at_point exact (md_coords m v) /\
       value_of data uD (sd_solutionDirichlet D) (entity_dof 0 v 0) = Some (nth v (se_cell0Ds_numeric e) 0)) /\
    (length (se_cell1Ds_error_L2 e) = nc /\ length (se_cell1Ds_norm_L2 e) = nc /\ length (se_cell1Ds_error_H1 e) = nc /\ length (se_cell1Ds_norm_H1 e) = nc /\
     forall c, (c < nc)%nat -> nth c (se_cell1Ds_error_L2 e) 0 = err_L2 c (along k phi (u c)) /\ nth c (se_cell1Ds_norm_L2 e) 0 = norm_L2 c (along k phi (u c)) /\
       nth c (se_cell1Ds_error_H1 e) 0 = err_H1 c (along k dphi (u c)) /\ nth c (se_cell1Ds_norm_H1 e) 0 = norm_H1 c (along k dphi (u c))) /\
    (se_error_L2 e = sqrt (rsum nc (fun c => nth c (se_cell1Ds_error_L2 e) 0)) /\ se_norm_L2 e = sqrt (rsum nc (fun c => nth c (se_cell1Ds_norm_L2 e) 0)) /\
     se_error_H1 e = sqrt (rsum nc (fun c => nth c (se_cell1Ds_error_H1 e) 0)) /\ se_norm_H1 e = sqrt (rsum nc (fun c => nth c (se_cell1Ds_norm_H1 e) 0))) /\
    (forall c, (c < nc)%nat -> L c <= se_mesh_size e) /\ (se_mesh_size e = 0 \/ exists c, (c < nc)%nat /\ se_mesh_size e = L c).
Proof using HLo HQ NW ER.
  intros ED LD.
  destruct (segment_rows junk lobatto gauss k type qo HLo HQ m info data G ref P NW ER) as (D' & ED' & LS & _). rewrite ED in ED'. inversion ED'; subst D'.
  unfold segment_errors. destruct (extract1 uD (sd_solutionDirichlet D) LD LS) as (un & ue & Ev & Lun & Lue & Vv). rewrite Ev. cbn [bind]. rewrite (nw_cells _ _ _ _ _ NW).
  match goal with |- exists e, bind (for_loop nc ?f ?s0) _ = _ /\ _ => destruct (@for_loop_total _ (fun i (st : list SegmentCellErrors * R) => length (fst st) = i /\
     (forall c d, (c < i)%nat -> let e := nth c (fst st) d in let u := val uD (sd_solutionDirichlet D) c in
       sc_error_L2 e = err_L2 c (along k phi u) /\ sc_norm_L2 e = norm_L2 c (along k phi u) /\ sc_error_H1 e = err_H1 c (along k dphi u) /\ sc_norm_H1 e = norm_H1 c (along k dphi u)) /\
     (forall c, (c < i)%nat -> L c <= snd st) /\ (snd st = 0 \/ exists c, (c < i)%nat /\ snd st = L c)) f nc s0) as ((cells & h) & E & Lc & Vc & M1 & M2) end.
  - split; [reflexivity|]. split; [intros; lia|]. split; [intros; lia|]. left. reflexivity.
  - intros c (l & h) Hc (Ll & Hl & H1 & H2). cbn [fst snd] in *.
    destruct (segment_space_ok junk lobatto gauss k type qo (nwk _ _ _ _ _ NW) HLo HQ m info data G ref NW ER c Hc) as (sp & Es & Hs). rewrite Es. cbn [bind].
    destruct (nw_geometry _ _ _ _ _ NW c Hc) as (V & T & EV & V1 & V2 & V3 & ET & HT & EL). unfold idx_, at_. rewrite ET. cbn [bind]. rewrite EL. cbn [bind].
    destruct (segment_solution_ok m info data G k NW c uD _ Hc LD LS) as (loc & _ & Lloc & El & Vl). rewrite El. cbn [bind].
    destruct (cell_errors_ok c sp T loc Hs Lloc HT) as (e & Ee & A1 & A2 & A3 & A4). rewrite Ee. cbn [bind]. eexists. split; [reflexivity|]. cbn [fst snd].
    assert (Al : forall ps t, along k ps (fun j => nth j loc 0) t = along k ps (val uD (sd_solutionDirichlet D) c) t) by (intros ps t; unfold along; apply rsum_ext; intros j Hj; rewrite Vl by auto; reflexivity).
    split; [rewrite app_length, Ll; simpl; lia|]. split.
    + intros c' d Hc'. cbv zeta. destruct (Nat.eq_dec c' c) as [->|Nc].
      * rewrite app_nth2, Ll, Nat.sub_diag by lia. cbn [nth]. rewrite A1, A2, A3, A4. unfold segment_error_L2, segment_norm_L2, segment_error_H1, segment_norm_H1, apply_rule.
        repeat split; f_equal; apply rsum_ext; intros q Hq; rewrite Al; reflexivity.
      * rewrite app_nth1 by lia. apply Hl. lia.
    + split.
      * intros c' Hc'. destruct (Nat.eq_dec c' c) as [->|Nc]; [destruct (Rlt_dec h (L c)); lra|]. specialize (H1 c' ltac:(lia)). destruct (Rlt_dec h (L c)); lra.
      * destruct (Rlt_dec h (L c)); [right; exists c; split; [lia|reflexivity]|]. destruct H2 as [H2|(c' & Hc' & H2)]; [left; exact H2|right; exists c'; split; [lia|exact H2]].
  - rewrite E. cbn [bind]. cbn [fst snd] in *. eexists. split; [reflexivity|].
    cbn [se_residual_norm se_cell0Ds_numeric se_cell0Ds_exact se_cell1Ds_error_L2 se_cell1Ds_norm_L2 se_cell1Ds_error_H1 se_cell1Ds_norm_H1 se_error_L2 se_norm_L2 se_error_H1 se_norm_H1 se_mesh_size fst snd].
    split. { destruct (Nat.ltb_spec 0 NF) as [Zn|Zn]; [rewrite lsum_seq; reflexivity|]. replace NF with 0%nat by lia. simpl. symmetry. apply sqrt_0. }
    split. { split; [exact Lun|]. split; [exact Lue|]. intros v Hv. destruct (Vv v Hv) as (B1 & B2). split; [exact B1|]. rewrite B2. apply (vof_some m info data G k NW); auto. apply (vertex_valid k m info data G NW); auto. }
    split.
    { rewrite !map_length. repeat (split; [exact Lc|]). intros c Hc. destruct cells as [|e0 cells']; [simpl in Lc; lia|]. set (cs := e0 :: cells') in *.
      rewrite (nth_indep (map sc_error_L2 cs) 0 (sc_error_L2 e0)) by (rewrite map_length; lia). rewrite map_nth.
      rewrite (nth_indep (map sc_norm_L2 cs) 0 (sc_norm_L2 e0)) by (rewrite map_length; lia). rewrite map_nth.
      rewrite (nth_indep (map sc_error_H1 cs) 0 (sc_error_H1 e0)) by (rewrite map_length; lia). rewrite map_nth.
      rewrite (nth_indep (map sc_norm_H1 cs) 0 (sc_norm_H1 e0)) by (rewrite map_length; lia). rewrite map_nth. apply (Vc c e0 Hc). }
    split. { rewrite !sum_list_nth, !map_length, Lc. auto. }
    split; [exact M1|exact M2].
Qed.
End Unique.
