(** The driver of the elliptic problem on networks of segments: rows of the system, the variational statement. *)
From Coq Require Import List Arith Bool Reals Lra Lia.
From Verif Require Import Base RSum MatrixModel DofsModel DofsSpec DofsProofs DofsProofs2 AssemblerModel AssemblerSpec AssemblerProofs AssemblerProofs2
  EquationModel EquationSpec EquationProofs VemQuadModel VemQuadSpec VemModel VemSpec DriverModel DriverSpec DriverSpec2 DriverProofs DriverProofs2 DriverProofs3 DriverProofs4
  DriverProofs5 DriverProofs6 DriverProofs7 LagrangeModel LagrangeSpec LagrangeProofs LagrangeProofs2 Mcc2dModel Mcc2dProofs3 ParabolicModel Elliptic1dModel Elliptic1dSpec Elliptic1dProofs Elliptic1dProofs2 TriangleProofs.
Import ListNotations.
Local Open Scope R_scope.

Lemma prod_sums n f g : rsum n f * rsum n g = rsum n (fun i => rsum n (fun j => f j * g i)).
Proof. rewrite <- rsum_scal. apply rsum_ext. intros i Hi. symmetry. apply rsum_scal_r. Qed.

Section Run.
Variables (junk : nat -> nat -> R) (lobatto : nat -> Vec) (gauss : nat -> QuadratureData) (k : nat) (type : FEM_PCC_1D_Types) (qo : nat).
Hypothesis HLo : type = GaussLobatto -> lobatto_ok lobatto k.
Local Notation Q := (gauss (computed_quadrature_order k qo)).
Hypothesis HQ : rule_shape Q.
Local Notation n := (k + 1)%nat.
Local Notation x := (node lobatto k type).
Local Notation phi := (phi1 x n).
Local Notation dphi := (dphi1 x n).
Variables (m : Mesh2D) (info : MeshDOFsInfo) (data : DOFsData) (G : MeshGeometricData1D) (ref : FEM_1D_Reference) (P : EllipticProblem1D).
Hypothesis NW : network m info data G k.
Hypothesis ER : FEM_1D_CreateReference junk lobatto gauss k type qo = Ok ref.
Local Notation mesh := (md_mesh m).
Local Notation nc := (num_cells info 1).
Local Notation NF := (NumberDOFs data).
Local Notation NS := (NumberStrongs data).
Local Notation cells := (seq 0 nc).

Definition ab_of (c : nat) : Mat * Vec :=
  match (sp <- segment_space junk ref G c ;; segment_cell sp P) with Ok Ab => Ab | _ => (mzero 0 0, vzero 0) end.
Lemma ab_of_ok c : (c < nc)%nat -> exists sp, segment_space junk ref G c = Ok sp /\ segment_cell sp P = Ok (ab_of c) /\
  m_rows (fst (ab_of c)) = n /\ m_cols (fst (ab_of c)) = n /\ v_size (snd (ab_of c)) = n /\
  (forall i j, (i < n)%nat -> (j < n)%nat -> m_at (fst (ab_of c)) i j = segment_energy m Q P c (phi j) (dphi j) (phi i) (dphi i)) /\
  (forall i, (i < n)%nat -> v_at (snd (ab_of c)) i = segment_source m Q P c (phi i)).
Proof using HLo HQ NW ER.
  intros Hc. destruct (segment_space_ok junk lobatto gauss k type qo (nwk _ _ _ _ _ NW) HLo HQ m info data G ref NW ER c Hc) as (sp & Es & Hs).
  destruct (segment_cell_ok lobatto gauss k type qo (nwk _ _ _ _ _ NW) m P c sp Hs) as (A & b & EA & (S1 & S2) & S3 & S4 & S5).
  exists sp. unfold ab_of. rewrite Es. cbn [bind]. rewrite EA. cbn [fst snd]. auto 10.
Qed.
Definition op1 (c : nat) : cell_op :=
  {| op_cell := c; op_test := single_handler data; op_trial := single_handler data; op_lhs := Some (fst (ab_of c)); op_rhs := Some (list_of_vec (snd (ab_of c))) |}.
Lemma op1_fits c : (c < nc)%nat -> op_fits 1 NF (op1 c) /\ trial_total 1 NF NS (op1 c).
Proof using HLo HQ NW ER.
  intros Hc. destruct (net_packed m info data G k NW c Hc) as (Pk & _). destruct (ab_of_ok c Hc) as (sp & _ & _ & L1 & L2 & L3 & _). split.
  - do 4 eexists. split; [exact Pk|]. split; [exact Pk|]. split; [reflexivity|]. split.
    + intros A EA. inversion EA; subst A. auto.
    + intros b Eb. inversion Eb; subst b. unfold list_of_vec. rewrite map_length, seq_length. exact L3.
  - do 2 eexists. split; [exact Pk|]. split; reflexivity.
Qed.
Lemma ops1_fits : Forall (op_fits 1 NF) (map op1 cells) /\ Forall (trial_total 1 NF NS) (map op1 cells).
Proof using HLo HQ NW ER.
  split; apply Forall_forall; intros o Ho; apply in_map_iff in Ho; destruct Ho as (c & <- & Hc); apply in_seq in Hc; apply op1_fits; lia.
Qed.
Local Notation weak c r := (rsum 2 (fun i => if free_is data (cell_dof m c i) r then end_datum m info P c i else 0)).

Lemma segment_run : exists st, for_loop (Cell1Ds_number mesh) (segment_step m info data junk ref G P) (asm_init NF) = Ok st /\ length (asm_rhs st) = NF /\
  exists st0, assemble_all 1 (map op1 cells) (asm_init NF) = Ok st0 /\ trip_DOFs st = trip_DOFs st0 /\ trip_Strongs st = trip_Strongs st0 /\
    forall r, nth r (asm_rhs st) 0 = nth r (asm_rhs st0) 0 + rsum nc (fun c => weak c r).
Proof using HLo HQ NW ER.
  rewrite (nw_cells _ _ _ _ _ NW).
  pose (Inv := fun i (s : asm_state) => length (asm_rhs s) = NF /\
    exists st0, assemble_all 1 (map op1 (seq 0 i)) (asm_init NF) = Ok st0 /\ trip_DOFs s = trip_DOFs st0 /\ trip_Strongs s = trip_Strongs st0 /\
      length (asm_rhs st0) = NF /\ forall r, nth r (asm_rhs s) 0 = nth r (asm_rhs st0) 0 + rsum i (fun c => weak c r)).
  destruct (@for_loop_total _ Inv (segment_step m info data junk ref G P) nc (asm_init NF)) as (st & Es & Lr & st0 & E0 & T1 & T2 & L0 & V0).
  - split; [apply repeat_length|]. exists (asm_init NF). split; [reflexivity|]. split; [reflexivity|]. split; [reflexivity|]. split; [apply repeat_length|]. intros r. simpl rsum. ring.
  - intros c st Hc (Lr & st0 & E0 & T1 & T2 & L0 & V0). destruct (ab_of_ok c Hc) as (sp & Esp & Ecell & _). destruct (net_packed m info data G k NW c Hc) as (_ & Gl).
    unfold segment_step. rewrite Esp. cbn [bind]. rewrite Ecell. cbn [bind]. unfold at_. rewrite Gl. cbn [bind].
    destruct (op1_fits c Hc) as (Fc & _).
    destruct (assemble_gen_total 1 NF (op1 c) st Fc Lr) as (st1 & E1 & L1). destruct (assemble_gen_total 1 NF (op1 c) st0 Fc L0) as (st1' & E1' & L1').
    unfold assemble_lhs_rhs. cbn [op1 op_cell op_test op_trial op_lhs op_rhs] in E1. rewrite E1. cbn [bind].
    destruct (weak_ends_ok m info data G k NW P c Hc (asm_rhs st1) L1) as (w & Ew & Lw & Vw). rewrite Ew. cbn [bind].
    eexists. split; [reflexivity|]. unfold Inv. cbn [asm_rhs trip_DOFs trip_Strongs]. split; [exact Lw|]. exists st1'. split.
    + rewrite seq_S, map_app. unfold assemble_all in *. rewrite (foldM_app _ _ _ _). cbn [Nat.add]. rewrite E0. cbn [bind map foldM]. rewrite E1'. reflexivity.
    + apply assemble_gen_adds in E1. apply assemble_gen_adds in E1'. cbn [op1 op_cell op_test op_trial op_lhs op_rhs] in E1'.
      destruct E1 as (A1 & A2 & _ & A3). destruct E1' as (B1 & B2 & _ & B3). rewrite A1, A2, B1, B2, T1, T2. split; [reflexivity|]. split; [reflexivity|]. split; [exact L1'|].
      intros r. rewrite Vw, A3, B3, V0. change (rsum (S c) (fun c => weak c r)) with (rsum c (fun c => weak c r) + weak c r). ring.
  - exists st. split; [exact Es|]. split; [exact Lr|]. exists st0. auto.
Qed.

Local Notation val uD uS c := (segment_value m info data uD uS c).
Lemma segment_rows : exists D, segment_assemble m info data junk ref G P = Ok D /\ length (sd_solutionDirichlet D) = NS /\ length (sd_rightHandSide D) = NF /\
  (forall r j v, In (r, j, v) (sd_globalMatrixA D) -> (r < NF)%nat /\ (j < NF)%nat) /\
  (forall v uD, (v < num_cells info 0)%nat -> strong_entity info 0 v ->
     value_of data uD (sd_solutionDirichlet D) (entity_dof 0 v 0) = Some (at_point (ep_strong P (marker_of info 0 v)) (md_coords m v))) /\
  (forall r j, entry (sd_globalMatrixA D) r j = lhs_sum 1 free_number (map op1 cells) r j) /\
  forall uD, length uD = NF -> forall r, (r < NF)%nat -> segment_residual D uD r =
    rsum nc (fun c => places m data k c r (fun i => rsum n (fun j => segment_energy m Q P c (phi j) (dphi j) (phi i) (dphi i) * val uD (sd_solutionDirichlet D) c j) - segment_source m Q P c (phi i)))
    - rsum nc (fun c => weak c r).
Proof using HLo HQ NW ER.
  destruct segment_run as (st & Er & Lr & st0 & E0 & T1 & T2 & V0). destruct ops1_fits as (F1 & F2).
  destruct (C15_assembly 1 NF NF NS (map op1 cells) F1 F2) as (st0' & E0' & L0 & G1 & G2 & G4 & _ & G3).
  assert (st0' = st0) by congruence. subst st0'.
  destruct (strong_vertices_ok m info data G k NW (ep_strong P)) as (gS & Eg & Lg & Vg).
  unfold segment_assemble. rewrite Er. cbn [bind]. rewrite Eg. cbn [bind]. eexists. split; [reflexivity|]. cbn [sd_solutionDirichlet sd_rightHandSide sd_globalMatrixA].
  split; [exact Lg|]. split. { destruct (0 <? NS)%nat; [|exact Lr]. unfold SubtractionMultiplication. rewrite map_length, seq_length. exact Lr. }
  split; [rewrite T1; exact G1|]. split; [intros v uD Hv Hs; apply Vg; auto|]. split; [rewrite T1; exact G4|].
  intros uD LD r Hr.
  assert (Rhs : nth r (if (0 <? NS)%nat then SubtractionMultiplication (asm_rhs st) (trip_Strongs st) gS else asm_rhs st) 0 =
    nth r (asm_rhs st) 0 - rsum (length gS) (fun s => entry (trip_Strongs st) r s * nth s gS 0)).
  { destruct (Nat.ltb_spec 0 NS) as [Zn|Zn].
    - unfold SubtractionMultiplication. rewrite nth_map_seq by lia. f_equal. apply triplets_row_entries. intros i j a Hi. rewrite Lg. rewrite T2 in Hi. apply (G2 _ _ _ Hi).
    - rewrite Lg. replace NS with 0%nat by lia. simpl. ring. }
  pose (uloc := fun o : cell_op => match global_solution_to_local_solution 1 (op_cell o) [data] n [0%nat] [0%nat] [0%nat] uD gS with Ok l => l | _ => [] end).
  unfold segment_residual. cbn [sd_globalMatrixA sd_rightHandSide]. rewrite Rhs, triplets_row_entries by (intros i j a Hi; rewrite T1 in Hi; rewrite LD; apply (G1 _ _ _ Hi)).
  rewrite V0, T1, T2, G3. match goal with |- ?a - (?b + ?e - ?d) = _ => replace (a - (b + e - d)) with (a + d - b - e) by ring end. f_equal.
  rewrite (C16_operator 1 NF (map op1 cells) st0 uD gS uloc).
  - unfold rhs_sum. rewrite !lsum_map. rewrite <- lsum_less, lsum_seq. apply rsum_ext. intros c Hc. cbn [op1 op_lhs op_rhs op_cell op_test dofs_data single_handler].
    destruct (ab_of_ok c Hc) as (sp & _ & _ & L1 & L2 & L3 & A4 & A5). rewrite L2.
    destruct (segment_solution_ok m info data G k NW c uD gS Hc LD Lg) as (loc & El & _ & _ & Vl).
    rewrite <- (net_free m info data G k NW c r _ Hc). cbn [dofs_data single_handler]. rewrite <- lsum_less. apply lsum_ext. intros p Hp.
    rewrite (net_slots m info data G k NW c Hc) in Hp. apply in_map_iff in Hp. destruct Hp as (i & <- & Hi). apply in_seq in Hi.
    destruct (numbered _ r); [|ring]. unfold slot_pos. cbn [fst snd single_handler local_offsets nth]. rewrite Nat.add_0_r. f_equal.
    + apply rsum_ext. intros j Hj. rewrite A4 by lia. f_equal. rewrite <- Vl by auto. unfold uloc. cbn [op1 op_cell]. rewrite El. reflexivity.
    + unfold list_of_vec. rewrite nth_map_seq by lia. apply A5. lia.
  - exact F1.
  - rewrite LD, Lg. exact F2.
  - exact E0.
  - intros o Ho. apply in_map_iff in Ho. destruct Ho as (c & <- & Hc). apply in_seq in Hc. exists n.
    destruct (segment_solution_ok m info data G k NW c uD gS ltac:(lia) LD Lg) as (loc & El & _). destruct (net_packed m info data G k NW c ltac:(lia)) as (Pk & _). split.
    + unfold uloc. cbn [op1 op_cell op_trial dofs_data single_handler local_offsets global_offsets_DOFs global_offsets_Strongs]. rewrite El. reflexivity.
    + apply (pk_local Pk).
Qed.

(** ** The variational statement *)
Lemma energy_along c u v : segment_energy m Q P c (along k phi u) (along k dphi u) (along k phi v) (along k dphi v) =
  rsum n (fun i => v i * rsum n (fun j => segment_energy m Q P c (phi j) (dphi j) (phi i) (dphi i) * u j)).
Proof using.
  unfold segment_energy, apply_rule, along.
  rewrite (rsum_ext n _ (fun i => rsum n (fun j => rsum (v_size (q_Weights Q)) (fun q => segment_length m c * (v i * u j * (v_at (q_Weights Q) q *
     (on_segment m (ep_diffusion P) c (rule_point Q q) * (dphi j (rule_point Q q) / segment_length m c) * (dphi i (rule_point Q q) / segment_length m c) +
      on_segment m (ep_reaction P) c (rule_point Q q) * phi j (rule_point Q q) * phi i (rule_point Q q)))))))).
  2:{ intros i Hi. rewrite <- rsum_scal. apply rsum_ext. intros j Hj. rewrite !rsum_scal. ring. }
  rewrite (rsum_ext n _ (fun i => rsum (v_size (q_Weights Q)) (fun q => rsum n (fun j => segment_length m c * (v i * u j * (v_at (q_Weights Q) q *
     (on_segment m (ep_diffusion P) c (rule_point Q q) * (dphi j (rule_point Q q) / segment_length m c) * (dphi i (rule_point Q q) / segment_length m c) +
      on_segment m (ep_reaction P) c (rule_point Q q) * phi j (rule_point Q q) * phi i (rule_point Q q)))))))) by (intros; apply rsum_swap).
  rewrite rsum_swap, <- rsum_scal. apply rsum_ext. intros q Hq. cbv zeta. set (t := rule_point Q q).
  transitivity (segment_length m c * v_at (q_Weights Q) q * (on_segment m (ep_diffusion P) c t / segment_length m c / segment_length m c) * (rsum n (fun j => u j * dphi j t) * rsum n (fun j => v j * dphi j t)) +
    segment_length m c * v_at (q_Weights Q) q * on_segment m (ep_reaction P) c t * (rsum n (fun j => u j * phi j t) * rsum n (fun j => v j * phi j t))).
  { unfold Rdiv. ring. }
  rewrite !prod_sums, <- !rsum_scal, <- rsum_plus. apply rsum_ext. intros i Hi. cbv beta. rewrite <- !rsum_scal, <- rsum_plus. apply rsum_ext. intros j Hj. unfold Rdiv. ring.
Qed.
Lemma source_along c v : segment_source m Q P c (along k phi v) = rsum n (fun i => v i * segment_source m Q P c (phi i)).
Proof using.
  unfold segment_source, apply_rule, along.
  rewrite (rsum_ext n _ (fun i => rsum (v_size (q_Weights Q)) (fun q => segment_length m c * (v i * (v_at (q_Weights Q) q * (on_segment m (ep_source P) c (rule_point Q q) * phi i (rule_point Q q))))))).
  2:{ intros i Hi. rewrite !rsum_scal. ring. }
  rewrite rsum_swap, <- rsum_scal. apply rsum_ext. intros q Hq. rewrite <- !rsum_scal. apply rsum_ext. intros i Hi. ring.
Qed.
Lemma node_end i : (i < 2)%nat -> x i = INR i.
Proof using. intros Hi. destruct i as [|[|i]]; [reflexivity|reflexivity|lia]. Qed.
Lemma along_node v j : (j < n)%nat -> along k phi v (x j) = v j.
Proof using HLo NW.
  intros Hj. unfold along. rewrite (rsum_single n _ j Hj).
  - rewrite phi1_nodal by (auto; apply (node_distinct lobatto k type (nwk _ _ _ _ _ NW) HLo)). unfold kron. rewrite Nat.eqb_refl. ring.
  - intros i Hi Hne. rewrite phi1_nodal by (auto; apply (node_distinct lobatto k type (nwk _ _ _ _ _ NW) HLo)). unfold kron. destruct (Nat.eqb_spec i j); [congruence|ring].
Qed.
Lemma weak_along c v : segment_weak m info P c (along k phi v) = rsum 2 (fun i => v i * end_datum m info P c i).
Proof using HLo NW.
  unfold segment_weak. apply rsum_ext. intros i Hi. unfold end_datum. destruct (weak_vertex info (end_of m c i)); [|ring].
  rewrite <- (node_end i Hi), along_node by (pose proof (nwk _ _ _ _ _ NW); lia). ring.
Qed.
Lemma weak_pair c vD : (c < nc)%nat -> length vD = NF -> rsum NF (fun r => nth r vD 0 * weak c r) = rsum 2 (fun i => val vD (repeat 0 NS) c i * end_datum m info P c i).
Proof using NW.
  intros Hc LD. pose proof (nwk _ _ _ _ _ NW).
  transitivity (rsum n (fun j => val vD (repeat 0 NS) c j * (if (j <? 2)%nat then end_datum m info P c j else 0))).
  - rewrite <- (places_pair m info data G k NW c vD _ Hc LD). apply rsum_ext. intros r Hr. f_equal. unfold places. replace n with (2 + (k - 1))%nat by lia. rewrite rsum_add.
    rewrite (rsum_0 (k - 1)). 2:{ intros i Hi. destruct (free_is _ _ _); reflexivity. } rewrite Rplus_0_r. apply rsum_ext. intros i Hi. rewrite (proj2 (Nat.ltb_lt i 2) Hi). reflexivity.
  - replace n with (2 + (k - 1))%nat by lia. rewrite rsum_add. rewrite (rsum_0 (k - 1)).
    2:{ intros i Hi. change (2 + i <? 2)%nat with false. cbv iota. ring. } rewrite Rplus_0_r. apply rsum_ext. intros i Hi. rewrite (proj2 (Nat.ltb_lt i 2) Hi). reflexivity.
Qed.

Lemma segment_variational : exists D, segment_assemble m info data junk ref G P = Ok D /\ length (sd_solutionDirichlet D) = NS /\ length (sd_rightHandSide D) = NF /\
  (forall r j v, In (r, j, v) (sd_globalMatrixA D) -> (r < NF)%nat /\ (j < NF)%nat) /\
  (forall r j, entry (sd_globalMatrixA D) r j = entry (sd_globalMatrixA D) j r) /\
  (forall v uD, (v < num_cells info 0)%nat -> strong_entity info 0 v ->
     value_of data uD (sd_solutionDirichlet D) (entity_dof 0 v 0) = Some (at_point (ep_strong P (marker_of info 0 v)) (md_coords m v))) /\
  forall uD vD, length uD = NF -> length vD = NF ->
    let u c := val uD (sd_solutionDirichlet D) c in let v c := val vD (repeat 0 NS) c in
    rsum NF (fun r => nth r vD 0 * segment_residual D uD r) =
    rsum nc (fun c => segment_energy m Q P c (along k phi (u c)) (along k dphi (u c)) (along k phi (v c)) (along k dphi (v c))
                      - segment_source m Q P c (along k phi (v c)) - segment_weak m info P c (along k phi (v c))).
Proof using HLo HQ NW ER.
  destruct segment_rows as (D & ED & L1 & L2 & R1 & St & Em & Rw). exists D. split; [exact ED|]. split; [exact L1|]. split; [exact L2|]. split; [exact R1|]. split.
  { intros r j. rewrite !Em. unfold lhs_sum. rewrite !lsum_map, !lsum_seq. apply rsum_ext. intros c Hc. cbn [op1 op_lhs op_cell op_test op_trial dofs_data single_handler].
    change (lsum (fun p => lsum (fun q => if numbered (free_number 1 c (single_handler data) p) r && numbered (free_number 1 c (single_handler data) q) j
       then m_at (fst (ab_of c)) (slot_pos (single_handler data) p) (slot_pos (single_handler data) q) else 0) (slots 1 c [data])) (slots 1 c [data]) =
      lsum (fun p => lsum (fun q => if numbered (free_number 1 c (single_handler data) p) j && numbered (free_number 1 c (single_handler data) q) r
       then m_at (fst (ab_of c)) (slot_pos (single_handler data) p) (slot_pos (single_handler data) q) else 0) (slots 1 c [data])) (slots 1 c [data])).
    rewrite (net_slots m info data G k NW c Hc). rewrite !lsum_map, !lsum_seq.
    rewrite (rsum_ext n _ (fun p => rsum n (fun q => if numbered (free_number 1 c (single_handler data) (0%nat, p)) r && numbered (free_number 1 c (single_handler data) (0%nat, q)) j
       then m_at (fst (ab_of c)) (slot_pos (single_handler data) (0%nat, p)) (slot_pos (single_handler data) (0%nat, q)) else 0))) by (intros; rewrite lsum_map, lsum_seq; reflexivity).
    rewrite (rsum_ext n (fun i => lsum _ _) (fun p => rsum n (fun q => if numbered (free_number 1 c (single_handler data) (0%nat, p)) j && numbered (free_number 1 c (single_handler data) (0%nat, q)) r
       then m_at (fst (ab_of c)) (slot_pos (single_handler data) (0%nat, p)) (slot_pos (single_handler data) (0%nat, q)) else 0))) by (intros; rewrite lsum_map, lsum_seq; reflexivity).
    rewrite rsum_swap. apply rsum_ext. intros q Hq. apply rsum_ext. intros p Hp. rewrite andb_comm. destruct (_ && _); [|reflexivity].
    unfold slot_pos. cbn [fst snd single_handler local_offsets nth]. rewrite !Nat.add_0_r. destruct (ab_of_ok c Hc) as (sp & _ & _ & _ & _ & _ & A4 & _). rewrite !A4 by auto.
    unfold segment_energy, apply_rule. f_equal. apply rsum_ext. intros z Hz. cbv zeta. ring. }
  split; [exact St|]. intros uD vD LD LV u v.
  rewrite (rsum_ext NF _ (fun r => rsum nc (fun c => nth r vD 0 * places m data k c r (fun i => rsum n (fun j => segment_energy m Q P c (phi j) (dphi j) (phi i) (dphi i) * u c j) - segment_source m Q P c (phi i)))
     - rsum nc (fun c => nth r vD 0 * weak c r))).
  2:{ intros r Hr. rewrite (Rw uD LD r Hr), !rsum_scal. unfold u. ring. }
  rewrite rsum_minus, (rsum_swap NF nc (fun r c => nth r vD 0 * places m data k c r _)), (rsum_swap NF nc (fun r c => nth r vD 0 * weak c r)), <- rsum_minus.
  apply rsum_ext. intros c Hc. rewrite (places_pair m info data G k NW c vD _ Hc LV), weak_pair, energy_along, source_along, weak_along by auto. fold (v c). f_equal.
  rewrite <- rsum_minus. apply rsum_ext. intros i Hi. cbv beta. ring.
Qed.
End Run.
