(** The meaning of the whole assembly of elasticity, and its solution (C149). *)
From Coq Require Import List Arith Bool Reals Lia Lra.
From Verif Require Import Base RSum MatrixModel DofsModel DofsSpec DofsProofs DofsProofs2 AssemblerModel AssemblerSpec AssemblerProofs AssemblerProofs2
  EquationModel EquationSpec EquationProofs TriangleProofs VemQuadModel VemQuadSpec GreenSpec VemModel VemSpec DriverModel DriverSpec DriverSpec2 DriverProofs DriverProofs2 DriverProofs3 DriverProofs6
  DriverProofs7 Pcc2dModel Pcc2dSpec Mcc2dModel Mcc2dSpec Mcc2dProofs Mcc2dProofs2 Mcc2dProofs3 ElasticModel ElasticSpec ElasticGlobalModel ElasticGlobalSpec ElasticGlobalProofs ElasticGlobalProofs2
  ElasticBoundaryModel ElasticBoundarySpec ElasticBoundaryProofs ElasticBoundaryProofs2 ElasticBoundaryProofs3 ElasticBoundaryProofs4.
Import ListNotations.
Local Open Scope R_scope.

Section Meaning.
Variables (m : Mesh2D) (info : MeshDOFsInfo) (data : DOFsData) (create : nat -> outcome LocalSpace) (P : ElasticProblem) (E : nat -> CellElement).
Variables (geometry : nat -> Polygon) (gauss : QuadratureData) (gS gW : nat -> R -> R -> R -> nat -> R) (pt : nat -> nat -> nat -> R) (sp : nat -> LocalSpace) (B : nat -> Mat).
Hypothesis HM : elastic_mesh m info data create E.
Local Notation N := (NumberDOFs data).
Local Notation NS := (NumberStrongs data).

Lemma residual_row st D uS w u r : elastic_body m data create P = Ok st ->
  (forall r s v, In (r, s, v) (trip_Strongs st) -> (r < N + N)%nat /\ (s < NS + NS)%nat) ->
  ed_globalMatrixA D = trip_DOFs st -> length uS = (NS + NS)%nat ->
  nth r (ed_rightHandSide D) 0 = nth r (asm_rhs st) 0 + nth r w 0 - (if (0 <? NS)%nat then triplets_row (trip_Strongs st) uS r else 0) ->
  assembled_residual D u r = operator_row st u uS r - nth r (asm_rhs st) 0 - nth r w 0.
Proof.
  intros EB RG G1 LS Hr. unfold assembled_residual, operator_row. rewrite Hr, G1.
  assert (X : (if (0 <? NS)%nat then triplets_row (trip_Strongs st) uS r else 0) = rsum (length uS) (fun j => entry (trip_Strongs st) r j * nth j uS 0)).
  { destruct (0 <? NS)%nat eqn:Z.
    - apply triplets_row_entries. intros i j a Hi. rewrite LS. apply (RG i j a Hi).
    - apply Nat.ltb_ge in Z. rewrite LS. replace (NS + NS)%nat with 0%nat by lia. reflexivity. }
  rewrite X. ring.
Qed.

Theorem elastic_assembled_meaning :
  (forall c v, (c < Cell2Ds_number (md_mesh m))%nat -> In v (Cell2D_vertices (md_mesh m) c) -> strong_entity info 0 v -> (requested info 0 v <= 1)%nat) ->
  edge_points_agree m info create (fun _ => true) (fun e => strong_entity info 1 e /\ (0 < requested info 1 e)%nat) pt ->
  (forall c, (c < Cell2Ds_number (md_mesh m))%nat -> weak_cell info info (md_mesh m) create gauss (geometry c) c (sp c) (B c)) ->
  m_cols (q_Points gauss) = v_size (q_Weights gauss) ->
  exists D k g0 g1, elastic_assemble m info data geometry gauss create P gS gW = Ok D /\
  (forall c, (c < Cell2Ds_number (md_mesh m))%nat -> largest (ec_Q (E c)) (el_mu P) (k c)) /\
  length (ed_rightHandSide D) = (N + N)%nat /\ length g0 = NS /\ length g1 = NS /\ ed_solutionDirichlet D = g0 ++ g1 /\
  elastic_strong m info data create gS = Ok (g0 ++ g1) /\
  (forall r s v, In (r, s, v) (ed_globalMatrixA D) -> (r < N + N)%nat /\ (s < N + N)%nat) /\
  forall u0 u1 v0 v1, length u0 = N -> length u1 = N -> length v0 = N -> length v1 = N ->
    rsum (N + N) (fun r => nth r (v0 ++ v1) 0 * assembled_residual D (u0 ++ u1) r) =
    cells_sum (md_mesh m) (fun c => let V := cell_displacement m info data v0 v1 (repeat 0 NS) (repeat 0 NS) c in
      cell_energy m info E P k c (cell_displacement m info data u0 u1 g0 g1 c) V - cell_work m info E P c V) - boundary_work m info data geometry gauss B gW v0 v1.
Proof using HM.
  intros H1 H2 H3 H4. pose proof (em_dofs _ _ _ _ _ HM) as HC. pose proof (em_number _ _ _ _ _ HM) as HN.
  destruct (elastic_strong_ok m info data HC HN create gS pt H1 H2) as (uS & ES & LS & _).
  destruct (elastic_weak_ok m info data HC HN geometry gauss create gW sp B H3 H4) as (w & EW & LW & HW).
  destruct (full_ok m info data create P E geometry gauss gS gW HM uS w ES EW) as (st & D & EB & ED & G1 & G2 & G3 & LR & HR).
  destruct (elastic_system m info data create E P HM) as (st' & k & EB' & L & R1 & R2 & K & MF & _). rewrite EB in EB'. injection EB' as <-.
  exists D, k, (firstn NS uS), (skipn NS uS). rewrite firstn_skipn. split; [exact ED|]. split; [exact K|]. split; [exact LR|]. rewrite firstn_length, skipn_length. split; [lia|]. split; [lia|]. split; [exact G3|].
  split; [exact ES|]. split; [rewrite G1; exact R1|]. intros u0 u1 v0 v1 U0 U1 V0 V1. rewrite <- MF by (rewrite ?firstn_length, ?skipn_length; lia). rewrite firstn_skipn.
  assert (W : rsum (N + N) (fun r => nth r (v0 ++ v1) 0 * nth r w 0) = boundary_work m info data geometry gauss B gW v0 v1).
  { unfold boundary_work. rewrite rsum_add. cbn [rsum Nat.eqb]. rewrite Rplus_0_l. f_equal.
    - apply rsum_ext. intros r Hr. rewrite app_nth1 by lia. specialize (HW 0%nat r ltac:(lia) Hr). replace (r + 0 * N)%nat with r in HW by lia. rewrite HW. reflexivity.
    - apply rsum_ext. intros r Hr. rewrite app_nth2 by lia. replace (N + r - length v0)%nat with r by lia. specialize (HW 1%nat r ltac:(lia) Hr). replace (r + 1 * N)%nat with (N + r)%nat in HW by lia. rewrite HW. reflexivity. }
  rewrite <- W, <- rsum_minus. apply rsum_ext. intros r Hr. rewrite (residual_row st D uS w (u0 ++ u1) r EB R2 G1 LS (HR r Hr)). ring.
Qed.
End Meaning.

Theorem elastic_solution gt lob junk lu llt k ref m info geometry data :
  vem_mesh gt lob lu llt k ref m info geometry -> CreateDOFs 2 info (md_mesh m) = Ok data ->
  forall P, (forall x y z, 0 < el_mu P x y z /\ 0 <= el_lambda P x y z) -> positive_rules gt k m geometry ->
  (forall c, (c < Cell2Ds_number (md_mesh m))%nat -> clamped m info c) -> covered info (md_mesh m) ->
  forall gauss gS gW, m_cols (q_Points gauss) = v_size (q_Weights gauss) -> let N := NumberDOFs data in
  exists D uD, elastic_assemble m info data geometry gauss (Create_VEM junk lu llt ref geometry) P gS gW = Ok D /\
  length uD = (N + N)%nat /\ (forall r, (r < N + N)%nat -> assembled_residual D uD r = 0) /\
  forall vD, length vD = (N + N)%nat -> (forall r, (r < N + N)%nat -> assembled_residual D vD r = 0) -> vD = uD.
Proof.
  intros VM HC P PC PR CL CO gauss gS gW GW N.
  pose proof (vem_elastic_mesh gt lob junk lu llt k ref m info geometry data VM HC) as HM. pose proof (em_number _ _ _ _ _ HM) as HN.
  destruct (vem_strong_cells gt lob junk lu llt k ref m info geometry VM) as (pt & EA). destruct (vem_weak_cells gt lob junk lu llt k ref m info geometry VM gauss GW) as (sp & B & WC).
  destruct (elastic_strong_ok m info data HC HN (Create_VEM junk lu llt ref geometry) gS pt) as (uS & ES & LS & _); [|exact EA|].
  { intros c v Hc Hv _. rewrite (vm_vertex_dofs _ _ _ _ _ _ _ _ _ VM c v Hc Hv). lia. }
  destruct (elastic_weak_ok m info data HC HN geometry gauss _ gW sp (fun _ => B) WC GW) as (w & EW & LW & _).
  destruct (full_ok _ _ _ _ P _ geometry gauss gS gW HM uS w ES EW) as (st & D & EB & ED & G1 & G2 & G3 & LR & HR).
  destruct (elastic_system _ _ _ _ _ P HM) as (st' & k' & EB' & _ & _ & R2 & _). rewrite EB in EB'. injection EB' as <-.
  destruct (elastic_definite gt lob junk lu llt k ref m info geometry data VM HC P PC PR CL CO) as (st' & EB' & _ & _ & SOL). rewrite EB in EB'. injection EB' as <-.
  destruct (SOL (asm_rhs st) w uS) as (uD & [LD SD] & UD). exists D, uD. split; [exact ED|]. split; [exact LD|]. split.
  - intros r Hr. rewrite (residual_row m data _ P st D uS w uD r EB R2 G1 LS (HR r Hr)). rewrite (SD r Hr). ring.
  - intros vD LV HV. apply UD. split; [exact LV|]. intros r Hr. specialize (HV r Hr). rewrite (residual_row m data _ P st D uS w vD r EB R2 G1 LS (HR r Hr)) in HV. lra.
Qed.
