(** The driver of the elliptic problem on networks of segments: the statements for any nodal basis. *)
From Coq Require Import List Arith Bool Reals Lra Lia.
From Verif Require Import Base RSum MatrixModel DofsModel DofsSpec AssemblerModel AssemblerSpec EquationModel EquationSpec VemQuadModel VemQuadSpec VemModel VemSpec DriverModel DriverSpec DriverSpec2
  DriverProofs2 LagrangeModel LagrangeSpec LagrangeProofs LagrangeProofs2 DriverProofs Pcc2dProofs4 Mcc2dModel Mcc2dProofs3 ParabolicModel GaussModel Elliptic1dModel Elliptic1dSpec Elliptic1dProofs Elliptic1dProofs2 Elliptic1dProofs3 Elliptic1dProofs4 Elliptic1dProofs5.
Import ListNotations.
Local Open Scope R_scope.

Section Basis.
Variables (junk : nat -> nat -> R) (lobatto : nat -> Vec) (gauss : nat -> QuadratureData) (k : nat) (type : FEM_PCC_1D_Types) (qo : nat).
Variables (m : Mesh2D) (info : MeshDOFsInfo) (data : DOFsData) (G : MeshGeometricData1D) (ref : FEM_1D_Reference) (P : EllipticProblem1D).
Hypothesis ST : segment_setting junk lobatto gauss k type qo m info data G ref.
Local Notation Q := (gauss (computed_quadrature_order k qo)).
Local Notation x := (node lobatto k type).
Local Notation nc := (num_cells info 1).
Local Notation NF := (NumberDOFs data).
Local Notation NS := (NumberStrongs data).
Local Notation val uD uS c := (segment_value m info data uD uS c).
Variables (phi dphi : nat -> R -> R).
Hypothesis NB : nodal_basis k x phi dphi.
Local Notation HLo := (sg_nodes _ _ _ _ _ _ _ _ _ _ _ ST).
Local Notation HQ := (sg_rule _ _ _ _ _ _ _ _ _ _ _ ST).
Local Notation NW := (sg_network _ _ _ _ _ _ _ _ _ _ _ ST).
Local Notation ER := (sg_reference _ _ _ _ _ _ _ _ _ _ _ ST).

Lemma along_basis u t : along k phi u t = along k (phi1 x (k + 1)) u t /\ along k dphi u t = along k (dphi1 x (k + 1)) u t.
Proof using NB ST.
  unfold along. split; apply rsum_ext; intros j Hj; destruct (basis_unique k x phi dphi (node_distinct lobatto k type (nwk _ _ _ _ _ NW) HLo) NB j t Hj) as (E1 & E2); [rewrite E1|rewrite E2]; reflexivity.
Qed.
Lemma forms_basis c u v : segment_energy m Q P c (along k phi u) (along k dphi u) (along k phi v) (along k dphi v) =
    segment_energy m Q P c (along k (phi1 x (k + 1)) u) (along k (dphi1 x (k + 1)) u) (along k (phi1 x (k + 1)) v) (along k (dphi1 x (k + 1)) v) /\
  segment_source m Q P c (along k phi v) = segment_source m Q P c (along k (phi1 x (k + 1)) v) /\
  segment_weak m info P c (along k phi v) = segment_weak m info P c (along k (phi1 x (k + 1)) v).
Proof using NB ST.
  split; [|split].
  - unfold segment_energy, apply_rule. f_equal. apply rsum_ext. intros q Hq. cbv zeta. rewrite !(proj1 (along_basis _ _)), !(proj2 (along_basis _ _)). reflexivity.
  - unfold segment_source, apply_rule. f_equal. apply rsum_ext. intros q Hq. rewrite (proj1 (along_basis _ _)). reflexivity.
  - unfold segment_weak. apply rsum_ext. intros i Hi. rewrite (proj1 (along_basis _ _)). reflexivity.
Qed.

Lemma basis_variational : exists D, segment_assemble m info data junk ref G P = Ok D /\ length (sd_solutionDirichlet D) = NS /\ length (sd_rightHandSide D) = NF /\
  (forall r j v, In (r, j, v) (sd_globalMatrixA D) -> (r < NF)%nat /\ (j < NF)%nat) /\
  (forall r j, entry (sd_globalMatrixA D) r j = entry (sd_globalMatrixA D) j r) /\
  (forall v uD, (v < num_cells info 0)%nat -> strong_entity info 0 v ->
     value_of data uD (sd_solutionDirichlet D) (entity_dof 0 v 0) = Some (at_point (ep_strong P (marker_of info 0 v)) (md_coords m v))) /\
  forall uD vD, length uD = NF -> length vD = NF ->
    let u c := val uD (sd_solutionDirichlet D) c in let v c := val vD (repeat 0 NS) c in
    rsum NF (fun r => nth r vD 0 * segment_residual D uD r) =
    rsum nc (fun c => segment_energy m Q P c (along k phi (u c)) (along k dphi (u c)) (along k phi (v c)) (along k dphi (v c))
                      - segment_source m Q P c (along k phi (v c)) - segment_weak m info P c (along k phi (v c))).
Proof using NB ST.
  destruct (segment_variational junk lobatto gauss k type qo HLo HQ m info data G ref P NW ER) as (D & ED & A1 & A2 & A3 & A4 & A5 & VF).
  exists D. repeat (split; [assumption|]). intros uD vD LD LV. cbv zeta. rewrite (VF uD vD LD LV). cbv zeta. apply rsum_ext. intros c Hc.
  destruct (forms_basis c (val uD (sd_solutionDirichlet D) c) (val vD (repeat 0 NS) c)) as (-> & -> & ->). reflexivity.
Qed.

Lemma basis_patch p s ds fl dfl : solves_network m info P k p s ds fl dfl -> exact_rule (2 * k) Q -> rule_inside Q ->
  exists D uD, segment_assemble m info data junk ref G P = Ok D /\ interpolates m info data x p uD /\ solves_segments D NF uD /\
    forall c t, (c < nc)%nat -> along k phi (val uD (sd_solutionDirichlet D) c) t = s c t /\ along k dphi (val uD (sd_solutionDirichlet D) c) t = ds c t.
Proof using NB ST.
  intros SN EX IN. destruct basis_variational as (D & ED & _). destruct (interpolant_exists lobatto k type m info data G NW p) as (uD & HI). exists D, uD. split; [exact ED|]. split; [exact HI|]. split.
  - apply (patch junk lobatto gauss k type qo HLo HQ m info data G ref P NW ER p s ds fl dfl SN EX IN D uD ED HI).
  - intros c t Hc. rewrite (proj1 (along_basis _ _)), (proj2 (along_basis _ _)).
    apply (along_reproduces lobatto k type HLo m info data G NW (s c) (ds c) _ (s_poly k m info P p s ds fl dfl SN c Hc)).
    + intros t'. apply (sn_derivative _ _ _ _ _ _ _ _ _ SN c t' Hc).
    + intros j Hj. apply (interpolated_value junk lobatto gauss k type qo HLo HQ m info data G ref P NW ER p s ds fl dfl SN D uD c j ED HI Hc Hj).
Qed.

Lemma basis_solvable : exact_rule (2 * (k - 1)) Q -> rule_positive Q -> elliptic_data m info P Q -> all_tied m info ->
  exists D, segment_assemble m info data junk ref G P = Ok D /\
  (forall r j, entry (sd_globalMatrixA D) r j = entry (sd_globalMatrixA D) j r) /\
  (forall w, length w = NF -> (exists r, (r < NF)%nat /\ nth r w 0 <> 0) -> 0 < rsum NF (fun r => nth r w 0 * triplets_row (sd_globalMatrixA D) w r)) /\
  forall b, exists u, length u = NF /\ (forall r, (r < NF)%nat -> triplets_row (sd_globalMatrixA D) u r = b r) /\
    forall u', length u' = NF -> (forall r, (r < NF)%nat -> triplets_row (sd_globalMatrixA D) u' r = b r) -> u' = u.
Proof using ST.
  clear phi dphi NB. intros EX WP EL TI. destruct (segment_variational junk lobatto gauss k type qo HLo HQ m info data G ref P NW ER) as (D & ED & _ & _ & RG & SY & _). exists D. split; [exact ED|]. split; [exact SY|]. split.
  { intros w Lw Nz. apply (matrix_positive junk lobatto gauss k type qo HLo HQ m info data G ref P NW ER EX WP EL TI D w ED Lw Nz). }
  intros b. set (A := sd_globalMatrixA D) in *. set (g := GaussModel.gauss NF (fun i j => entry A i j) b). set (u := map g (seq 0 NF)).
  assert (Lu : length u = NF) by (unfold u; rewrite map_length, seq_length; reflexivity).
  assert (Rw : forall w r, length w = NF -> triplets_row A w r = rsum NF (fun j => entry A r j * nth j w 0)).
  { intros w r Lw. rewrite triplets_row_entries by (intros i j a Hin; rewrite Lw; apply (RG i j a Hin)). rewrite Lw. reflexivity. }
  assert (U := unique junk lobatto gauss k type qo HLo HQ m info data G ref P NW ER EX WP EL TI D).
  exists u. split; [exact Lu|]. split.
  - intros r Hr. rewrite Rw by auto. rewrite (rsum_ext NF _ (fun j => entry A r j * g j)) by (intros j Hj; unfold u; rewrite nth_map_seq by auto; reflexivity).
    apply (gauss_ok NF (fun i j => entry A i j) b); [|exact Hr]. intros y Z j Hj.
    assert (E : map y (seq 0 NF) = repeat 0 NF).
    { apply (U _ _ ED); [rewrite map_length, seq_length; reflexivity|apply repeat_length|]. intros i Hi. fold A. rewrite !Rw by (rewrite ?map_length, ?seq_length, ?repeat_length; reflexivity).
      rewrite (rsum_ext NF _ (fun j => entry A i j * y j)) by (intros l Hl; rewrite nth_map_seq by auto; reflexivity). rewrite Z by auto. symmetry. apply rsum_0. intros l Hl. rewrite nth_repeat. ring. }
    apply (f_equal (fun l => nth j l 0)) in E. rewrite nth_map_seq, nth_repeat in E by auto. exact E.
  - intros u' Lu' H'. apply (U _ _ ED Lu' Lu). intros r Hr. fold A. rewrite H' by auto. symmetry. rewrite Rw by auto.
    rewrite (rsum_ext NF _ (fun j => entry A r j * g j)) by (intros j Hj; unfold u; rewrite nth_map_seq by auto; reflexivity).
    apply (gauss_ok NF (fun i j => entry A i j) b); [|exact Hr]. intros y Z j Hj.
    assert (E : map y (seq 0 NF) = repeat 0 NF).
    { apply (U _ _ ED); [rewrite map_length, seq_length; reflexivity|apply repeat_length|]. intros i Hi. fold A. rewrite !Rw by (rewrite ?map_length, ?seq_length, ?repeat_length; reflexivity).
      rewrite (rsum_ext NF _ (fun j => entry A i j * y j)) by (intros l Hl; rewrite nth_map_seq by auto; reflexivity). rewrite Z by auto. symmetry. apply rsum_0. intros l Hl. rewrite nth_repeat. ring. }
    apply (f_equal (fun l => nth j l 0)) in E. rewrite nth_map_seq, nth_repeat in E by auto. exact E.
Qed.

Lemma basis_errors exact exact_d D uD : segment_assemble m info data junk ref G P = Ok D -> length uD = NF ->
  exists e, segment_errors m data junk ref G exact exact_d D uD = Ok e /\
    let u c := val uD (sd_solutionDirichlet D) c in
    se_residual_norm e = sqrt (rsum NF (fun r => segment_residual D uD r ^ 2)) /\
    (length (se_cell1Ds_error_L2 e) = nc /\ length (se_cell1Ds_norm_L2 e) = nc /\ length (se_cell1Ds_error_H1 e) = nc /\ length (se_cell1Ds_norm_H1 e) = nc /\
     forall c, (c < nc)%nat -> nth c (se_cell1Ds_error_L2 e) 0 = segment_error_L2 m Q exact c (along k phi (u c)) /\ nth c (se_cell1Ds_norm_L2 e) 0 = segment_norm_L2 m Q c (along k phi (u c)) /\
       nth c (se_cell1Ds_error_H1 e) 0 = segment_error_H1 m Q exact_d c (along k dphi (u c)) /\ nth c (se_cell1Ds_norm_H1 e) 0 = segment_norm_H1 m Q c (along k dphi (u c))) /\
    (se_error_L2 e = sqrt (rsum nc (fun c => nth c (se_cell1Ds_error_L2 e) 0)) /\ se_norm_L2 e = sqrt (rsum nc (fun c => nth c (se_cell1Ds_norm_L2 e) 0)) /\
     se_error_H1 e = sqrt (rsum nc (fun c => nth c (se_cell1Ds_error_H1 e) 0)) /\ se_norm_H1 e = sqrt (rsum nc (fun c => nth c (se_cell1Ds_norm_H1 e) 0))) /\
    (forall c, (c < nc)%nat -> segment_length m c <= se_mesh_size e) /\ (se_mesh_size e = 0 \/ exists c, (c < nc)%nat /\ se_mesh_size e = segment_length m c).
Proof using NB ST.
  intros ED LD. destruct (errors_ok junk lobatto gauss k type qo HLo HQ m info data G ref P NW ER exact exact_d D uD ED LD) as (e & Ee & E1 & _ & (L1 & L2 & L3 & L4 & E3) & E4 & E5).
  exists e. split; [exact Ee|]. cbv zeta. split; [exact E1|]. split; [|split; [exact E4|exact E5]]. repeat (split; [assumption|]). intros c Hc. destruct (E3 c Hc) as (-> & -> & -> & ->).
  unfold segment_error_L2, segment_norm_L2, segment_error_H1, segment_norm_H1, apply_rule.
  repeat split; f_equal; apply rsum_ext; intros q Hq; rewrite ?(proj1 (along_basis _ _)), ?(proj2 (along_basis _ _)); reflexivity.
Qed.

Lemma vertex_values exact exact_d D uD : segment_assemble m info data junk ref G P = Ok D -> length uD = NF ->
  exists e, segment_errors m data junk ref G exact exact_d D uD = Ok e /\ length (se_cell0Ds_numeric e) = num_cells info 0 /\ length (se_cell0Ds_exact e) = num_cells info 0 /\
    (forall v, (v < num_cells info 0)%nat -> nth v (se_cell0Ds_exact e) 0 = at_point exact (md_coords m v)) /\
    (forall v, (v < num_cells info 0)%nat -> strong_entity info 0 v -> nth v (se_cell0Ds_numeric e) 0 = at_point (ep_strong P (marker_of info 0 v)) (md_coords m v)) /\
    forall c i, (c < nc)%nat -> (i < 2)%nat -> nth (end_of m c i) (se_cell0Ds_numeric e) 0 = along k phi (val uD (sd_solutionDirichlet D) c) (INR i).
Proof using NB ST.
  intros ED LD. destruct (errors_ok junk lobatto gauss k type qo HLo HQ m info data G ref P NW ER exact exact_d D uD ED LD) as (e & Ee & _ & (L1 & L2 & E2) & _).
  destruct (segment_variational junk lobatto gauss k type qo HLo HQ m info data G ref P NW ER) as (D' & ED' & LS & _ & _ & _ & St & _). rewrite ED in ED'. inversion ED'; subst D'.
  exists e. split; [exact Ee|]. split; [exact L1|]. split; [exact L2|]. split; [intros v Hv; apply (E2 v Hv)|]. split.
  - intros v Hv Hs. destruct (E2 v Hv) as (_ & B). rewrite (St v uD Hv Hs) in B. congruence.
  - intros c i Hc Hi. pose proof (nwk _ _ _ _ _ NW). rewrite (proj1 (along_basis _ _)). rewrite <- (node_end lobatto k type i Hi), (along_node lobatto k type HLo m info data G NW) by lia.
    rewrite (segment_value_at m info data G k NW) by (auto; lia). rewrite end_dof by auto.
    destruct (E2 _ (net_end_range m info data G k NW c i Hc Hi)) as (_ & B). unfold vof. rewrite B. reflexivity.
Qed.

Lemma basis_exact p s ds fl dfl exact_d D uD e : solves_network m info P k p s ds fl dfl -> exact_rule (2 * k) Q -> rule_inside Q -> rule_positive Q -> elliptic_data m info P Q -> all_tied m info ->
  (forall c t, (c < nc)%nat -> 0 <= t <= 1 -> ds c t / segment_length m c = tangential 3 m exact_d c t) ->
  segment_assemble m info data junk ref G P = Ok D -> solves_segments D NF uD -> segment_errors m data junk ref G p exact_d D uD = Ok e ->
  interpolates m info data x p uD /\
  (forall c t, (c < nc)%nat -> along k phi (val uD (sd_solutionDirichlet D) c) t = s c t) /\
  se_residual_norm e = 0 /\ se_error_L2 e = 0 /\
  (forall c, (c < nc)%nat -> nth c (se_cell1Ds_error_L2 e) 0 = 0 /\ nth c (se_cell1Ds_error_H1 e) 0 = third_component m Q exact_d c) /\
  se_error_H1 e = sqrt (rsum nc (third_component m Q exact_d)).
Proof using NB ST.
  intros SN EX IN WP EL TI CH ED (LD & SD) Ee. pose proof (nwk _ _ _ _ _ NW) as Kp.
  destruct (basis_patch p s ds fl dfl SN EX IN) as (D' & w & ED' & HI & (Lw & SW) & AL). rewrite ED in ED'. inversion ED'; subst D'.
  assert (EX' : exact_rule (2 * (k - 1)) Q) by (intros a Ha; apply EX; lia).
  assert (w = uD) as ->.
  { apply (unique junk lobatto gauss k type qo HLo HQ m info data G ref P NW ER EX' WP EL TI D w uD ED Lw LD). intros r Hr. specialize (SW r Hr). specialize (SD r Hr). unfold segment_residual in SW, SD. lra. }
  destruct (basis_errors p exact_d D uD ED LD) as (e' & Ee' & E1 & (_ & _ & _ & _ & E2) & (E3 & _ & E4 & _) & _). rewrite Ee in Ee'. inversion Ee'; subst e'. cbv zeta in *.
  assert (EC : forall c, (c < nc)%nat -> nth c (se_cell1Ds_error_L2 e) 0 = 0 /\ nth c (se_cell1Ds_error_H1 e) 0 = third_component m Q exact_d c).
  { intros c Hc. destruct (E2 c Hc) as (-> & _ & -> & _). split.
    - unfold segment_error_L2, apply_rule. rewrite rsum_0; [ring|]. intros q Hq. rewrite (proj1 (AL c _ Hc)), (sn_along _ _ _ _ _ _ _ _ _ SN c _ Hc (IN q Hq)). ring.
    - unfold segment_error_H1, third_component, apply_rule. f_equal. apply rsum_ext. intros q Hq. rewrite (proj2 (AL c _ Hc)), (CH c _ Hc (IN q Hq)). unfold tangential. cbn [rsum]. ring. }
  split; [exact HI|]. split; [intros c t Hc; apply (AL c t Hc)|]. split.
  - rewrite E1. rewrite rsum_0; [apply sqrt_0|]. intros r Hr. rewrite SW by auto. ring.
  - split; [rewrite E3, rsum_0; [apply sqrt_0|]; intros c Hc; apply (EC c Hc)|]. split; [exact EC|]. rewrite E4. f_equal. apply rsum_ext. intros c Hc. apply (EC c Hc).
Qed.
End Basis.
