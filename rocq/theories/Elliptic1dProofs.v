(** The finite element on a segment: tables, quadrature, local matrix. *)
From Coq Require Import List Arith Bool Reals Lra Lia.
From Verif Require Import Base RSum MatrixModel DofsModel DofsSpec DofsProofs DofsProofs2 AssemblerModel AssemblerSpec AssemblerProofs AssemblerProofs2
  EquationModel EquationSpec EquationProofs VemQuadModel VemQuadSpec VemModel VemSpec DriverModel DriverSpec DriverSpec2 DriverProofs DriverProofs2 DriverProofs3 DriverProofs4
  DriverProofs5 DriverProofs6 DriverProofs7 LagrangeModel LagrangeSpec LagrangeProofs LagrangeProofs2 GreenSpec GreenProofs RtProofs Mcc2dModel Elliptic1dModel Elliptic1dSpec.
Import ListNotations.
Local Open Scope R_scope.

Lemma phi1_poly x n i : (i < n)%nat -> is_poly n (phi1 x n i).
Proof.
  intros Hi. unfold phi1. pose proof (is_poly_pne n n i x Hi ltac:(lia)) as H. destruct (Nat.ltb_spec i n) as [Zn|Zn]; [|lia].
  eapply is_poly_ext; [|apply (is_poly_scal n (/ pne n i (fun j => x i - x j)) _ H)]. intros t. cbv beta. unfold Rdiv. ring.
Qed.
Lemma is_poly_of_coeffs n f : (exists a, forall t, f t = polynomial n a t) -> is_poly n f.
Proof. intros (a & E). eapply is_poly_ext; [|apply (is_poly_coeffs n a)]. intros t. symmetry. apply E. Qed.
Lemma basis_unique k x phi dphi : distinct (k + 1) x -> nodal_basis k x phi dphi -> forall i t, (i < k + 1)%nat ->
  phi i t = phi1 x (k + 1) i t /\ dphi i t = dphi1 x (k + 1) i t.
Proof.
  intros D [B1 B2 B3] i t Hi.
  assert (E : forall t, phi i t = phi1 x (k + 1) i t).
  { intros s. assert (Z : phi i s + -1 * phi1 x (k + 1) i s = 0); [|lra].
    apply (is_poly_roots (k + 1) (fun s => phi i s + -1 * phi1 x (k + 1) i s) x).
    - apply is_poly_plus; [apply is_poly_of_coeffs; apply B1; exact Hi|apply (is_poly_scal _ _ (phi1 x (k + 1) i)); apply phi1_poly; exact Hi].
    - exact D.
    - intros j Hj. rewrite B2, phi1_nodal by auto. ring. }
  split; [apply E|]. apply (uniqueness_limite (phi i) t); [apply B3; exact Hi|].
  eapply derivable_pt_lim_ext; [intros s; symmetry; apply E|]. apply dphi1_derivative. exact Hi.
Qed.
Lemma basis_exists k x : distinct (k + 1) x -> nodal_basis k x (phi1 x (k + 1)) (dphi1 x (k + 1)).
Proof.
  intros D. constructor.
  - intros i Hi. apply is_poly_coef. apply phi1_poly. exact Hi.
  - intros i j Hi Hj. apply phi1_nodal; auto.
  - intros i t Hi. apply dphi1_derivative. exact Hi.
Qed.

Lemma local_order junk lobatto order type data s : (1 <= order)%nat ->
  FEM_1D_Create junk lobatto order type = Ok data -> f1_NumDofs0D data = 1%nat -> f1_NumDofs1D data = (order - 1)%nat -> f1_NumBasisFunctions data = (order + 1)%nat ->
  m_rows (f1_DofPositions data) = 3%nat -> m_cols (f1_DofPositions data) = (order + 1)%nat ->
  exists l, FEM_1D_CreateLocalSpace junk data s = Ok l /\ l1_Origin l = sg_Origin s /\ l1_Tangent l = sg_Tangent s /\ l1_Length l = sg_Length s /\
    l1_NumberOfBasisFunctions l = (order + 1)%nat /\ l1_DofsMeshOrder l = seq 0 (order + 1).
Proof.
  intros Ho _ N0 N1 N2 S1 S2. set (n := (order + 1)%nat) in *. unfold FEM_1D_CreateLocalSpace. rewrite N0, N1, N2. cbn [Nat.add].
  destruct (push_range_ok n 0 1 0 (repeat 0%nat n)) as (l1 & E1 & L1 & H1); try lia; [apply repeat_length|]. rewrite E1. cbn [bind].
  destruct (push_range_ok n 1 2 1 l1) as (l2 & E2 & L2 & H2); try lia; auto. rewrite E2. cbn [bind].
  destruct (push_range_ok n 2 (2 + (order - 1)) 2 l2) as (l3 & E3 & L3 & H3); try lia; auto. cbn [Nat.add] in E3. rewrite E3. cbn [bind].
  assert (El : l3 = seq 0 n).
  { apply nth_error_ext_len; [now rewrite seq_length|]. intros i Hi. rewrite nth_error_seq_lt by lia. apply H3. lia. }
  rewrite El. destruct (seg_F_ok junk (sg_Origin s) (sg_Tangent s) (f1_DofPositions data)) as (P & EP & P1 & P2 & P3); [lia|]. rewrite EP. cbn [bind].
  destruct (map_values_ok junk n P) as (Dofs & ED & D1 & D2 & D3); [lia|]. rewrite ED. cbn [bind].
  eexists. split; [reflexivity|]. cbn [l1_Origin l1_Tangent l1_Length l1_NumberOfBasisFunctions l1_DofsMeshOrder]. auto.
Qed.

Section Space.
Variables (junk : nat -> nat -> R) (lobatto : nat -> Vec) (gauss : nat -> QuadratureData) (k : nat) (type : FEM_PCC_1D_Types) (qo : nat).
Hypothesis Hk : (1 <= k)%nat.
Hypothesis HLo : type = GaussLobatto -> lobatto_ok lobatto k.
Local Notation Q := (gauss (computed_quadrature_order k qo)).
Hypothesis HQ : rule_shape Q.
Local Notation n := (k + 1)%nat.
Local Notation nq := (v_size (q_Weights Q)).
Local Notation x := (node lobatto k type).

Lemma node_distinct : distinct n x.
Proof using Hk HLo.
  assert (E : exists p, distinct n p /\ forall j, (j < n)%nat -> x j = p (perm1 n j)).
  { destruct type.
    - exists (v_at (LinSpaced01 n)). split; [apply linspaced_distinct|]. assert (INR k <> 0) by (apply not_0_INR; lia).
      intros j Hj. destruct j as [|[|j]]; cbn [node perm1 LinSpaced01 v_at]; (destruct (Nat.eqb_spec (k + 1) 1) as [Zn|Zn]; [lia|clear Zn]); replace (n - 1)%nat with k by lia.
      + cbn. field. auto.
      + field. auto.
      + reflexivity.
    - destruct (HLo eq_refl) as (_ & Dl & Z0 & Z1 & _). exists (v_at (lobatto (2 * k - 1)%nat)). split; [exact Dl|].
      intros j Hj. destruct j as [|[|j]]; cbn [node perm1]; auto. replace (n - 1)%nat with k by lia. auto. }
  destruct E as (p & Dp & E). intros i j Hi Hj H. rewrite !E in H by auto. apply Dp in H; try (apply perm1_lt; lia). apply perm1_inj in H; auto; lia.
Qed.
Lemma node_inside j : (j < n)%nat -> 0 <= x j <= 1.
Proof using Hk HLo.
  intros Hj. destruct j as [|[|j]]; cbn [node]; [lra|lra|]. destruct type.
  - assert (0 < INR k) by (apply lt_0_INR; lia). split.
    + apply Rmult_le_pos; [apply pos_INR|left; apply Rinv_0_lt_compat; auto].
    + apply (Rmult_le_reg_r (INR k)); auto. unfold Rdiv. rewrite Rmult_assoc, Rinv_l, Rmult_1_r, Rmult_1_l by lra. apply le_INR. lia.
  - destruct (HLo eq_refl) as (_ & _ & _ & _ & B). apply B. lia.
Qed.

Lemma reference_ok : exists ref, FEM_1D_CreateReference junk lobatto gauss k type qo = Ok ref /\ rf_Quadrature ref = Q /\
  FEM_1D_Create junk lobatto k type = Ok (rf_data ref) /\
  f1_NumDofs0D (rf_data ref) = 1%nat /\ f1_NumDofs1D (rf_data ref) = (k - 1)%nat /\ f1_NumBasisFunctions (rf_data ref) = n /\
  m_rows (f1_DofPositions (rf_data ref)) = 3%nat /\ m_cols (f1_DofPositions (rf_data ref)) = n /\
  shaped nq n (rf_Values ref) /\ (forall q i, (q < nq)%nat -> (i < n)%nat -> m_at (rf_Values ref) q i = phi1 x n i (rule_point Q q)) /\
  exists D, rf_Derivatives ref = [D] /\ shaped nq n D /\ forall q i, (q < nq)%nat -> (i < n)%nat -> m_at D q i = dphi1 x n i (rule_point Q q).
Proof using Hk HLo HQ.
  destruct HQ as (Q1 & Q2).
  destruct (create1_ok junk lobatto k type Hk) as (data & E & _ & N0 & N1 & N2 & (S1 & S2 & S3) & DI & Ec).
  - destruct type; [reflexivity|exact (proj1 (HLo eq_refl))].
  - destruct type; [apply linspaced_distinct|exact (proj1 (proj2 (HLo eq_refl)))].
  - assert (X : forall j, (j < n)%nat -> m_at (f1_DofPositions data) 0 j = x j).
    { intros j Hj. destruct (S3 j Hj) as (-> & _). assert (INR k <> 0) by (apply not_0_INR; lia).
      destruct type; cbn [row0].
      - cbn [LinSpaced01 v_at]. destruct (Nat.eqb_spec (k + 1) 1) as [Zn|Zn]; [lia|clear Zn]. replace (n - 1)%nat with k by lia. destruct j as [|[|j]]; cbn [node perm1].
        + cbn. field. auto.
        + replace (n - 1)%nat with k by lia. field. auto.
        + reflexivity.
      - destruct (HLo eq_refl) as (_ & _ & Z0 & Z1 & _). destruct j as [|[|j]]; cbn [node perm1]; auto. replace (n - 1)%nat with k by lia. auto. }
    assert (PX : forall i t, (i < n)%nat -> phi1 (fun j => m_at (f1_DofPositions data) 0 j) n i t = phi1 x n i t /\ dphi1 (fun j => m_at (f1_DofPositions data) 0 j) n i t = dphi1 x n i t).
    { intros i t Hi. assert (B := basis_exists k (fun j => m_at (f1_DofPositions data) 0 j) DI).
      assert (B' : nodal_basis k x (phi1 (fun j => m_at (f1_DofPositions data) 0 j) n) (dphi1 (fun j => m_at (f1_DofPositions data) 0 j) n)).
      { destruct B as [B1 B2 B3]. constructor; auto. intros a b Ha Hb. rewrite <- (X b Hb). apply B2; auto. }
      apply (basis_unique k x _ _ node_distinct B' i t Hi). }
    destruct (values1_ok junk n _ _ (q_Points Q) S1 S2 DI Q1 Ec data eq_refl eq_refl) as (V & EV & V1 & V2 & V3).
    destruct (derivs1_ok junk n _ _ (q_Points Q) S1 S2 DI Q1 Ec data eq_refl eq_refl) as (D & ED & D1 & D2 & D3).
    unfold FEM_1D_CreateReference. rewrite E. cbn [bind]. rewrite EV. cbn [bind]. rewrite ED. cbn [bind].
    eexists. split; [reflexivity|]. cbn [rf_Quadrature rf_data rf_Values rf_Derivatives]. rewrite Q2 in *.
    split; [reflexivity|]. split; [reflexivity|]. split; [exact N0|]. split; [exact N1|]. split; [exact N2|]. split; [exact S1|]. split; [exact S2|].
    split; [split; [exact V1|exact V2]|]. split.
    + intros q i Hq Hi. rewrite V3 by auto. apply PX. exact Hi.
    + exists D. split; [reflexivity|]. split; [split; [exact D1|exact D2]|]. intros q i Hq Hi. rewrite D3 by auto. apply PX. exact Hi.
Qed.

Variables (m : Mesh2D) (info : MeshDOFsInfo) (data : DOFsData) (G : MeshGeometricData1D) (ref : FEM_1D_Reference).
Hypothesis NW : network m info data G k.
Hypothesis ER : FEM_1D_CreateReference junk lobatto gauss k type qo = Ok ref.
Local Notation L c := (segment_length m c).

(** the local space of a cell *)
Definition is_segment_space (c : nat) (sp : SegmentSpace) : Prop :=
  m_rows (q_Points (ss_Quadrature sp)) = 3%nat /\ m_cols (q_Points (ss_Quadrature sp)) = nq /\
  (forall d q, (q < nq)%nat -> m_at (q_Points (ss_Quadrature sp)) d q = segment_point m c (rule_point Q q) d) /\
  v_size (q_Weights (ss_Quadrature sp)) = nq /\ (forall q, v_at (q_Weights (ss_Quadrature sp)) q = v_at (q_Weights Q) q * L c) /\
  shaped nq n (ss_Values sp) /\ (forall q i, (q < nq)%nat -> (i < n)%nat -> m_at (ss_Values sp) q i = phi1 x n i (rule_point Q q)) /\
  exists D, ss_Derivatives sp = [D] /\ shaped nq n D /\ forall q i, (q < nq)%nat -> (i < n)%nat -> m_at D q i = dphi1 x n i (rule_point Q q) / L c.

Lemma segment_space_ok c : (c < num_cells info 1)%nat -> exists sp, segment_space junk ref G c = Ok sp /\ is_segment_space c sp.
Proof using Hk HLo HQ NW ER.
  intros Hc. destruct reference_ok as (ref' & E' & EQ & EC & N0 & N1 & N2 & S1 & S2 & SV & HV & D & ED & SD & HD). rewrite ER in E'. inversion E'; subst ref'. clear E'.
  pose proof HQ as (Q1 & Q2).
  destruct (nw_geometry _ _ _ _ _ NW c Hc) as (V & T & EV & V1 & V2 & V3 & ET & HT & EL). pose proof (nw_lengths _ _ _ _ _ NW c Hc) as Lp.
  unfold segment_space, at_. rewrite EV. cbn [bind]. unfold mat_col. rewrite V1, Nat.eqb_refl. rewrite (proj2 (Nat.ltb_lt 0 (m_cols V)) V2). cbn [andb bind]. rewrite ET. cbn [bind]. rewrite EL. cbn [bind].
  destruct (local_order junk lobatto k type (rf_data ref) {| sg_Origin := fun i => m_at V i 0; sg_Tangent := T; sg_Length := L c |} Hk EC N0 N1 N2 S1 S2) as (l & El & L1 & L2 & L3 & L4 & L5).
  rewrite El. cbn [bind]. cbn [sg_Origin sg_Tangent sg_Length] in L1, L2, L3. unfold seg_InternalQuadrature. rewrite EQ.
  destruct (seg_F_ok junk (l1_Origin l) (l1_Tangent l) (q_Points Q) Q1) as (P & EP & P1 & P2 & P3). rewrite EP. cbn [bind]. rewrite Q2, Nat.eqb_refl. cbn [negb bind]. rewrite L4, L5.
  destruct (map_values_ok junk n (rf_Values ref)) as (B & EB & B1 & B2 & B3); [destruct SV as (_ & ->); lia|]. rewrite EB. cbn [bind].
  unfold seg_MapDerivatives. rewrite ED. cbn [idx_ nth_error bind].
  match goal with |- context [seg_MapValues junk n (seq 0 n) ?r] => destruct (map_values_ok junk n r) as (A & EA & A1 & A2 & A3) end; [cbn [m_cols]; destruct SD as (_ & ->); lia|].
  rewrite EA. cbn [bind]. eexists. split; [reflexivity|]. unfold is_segment_space. cbn [ss_Quadrature ss_Values ss_Derivatives q_Points q_Weights v_size v_at].
  split; [exact P1|]. split; [rewrite P2; exact Q2|]. split.
  { intros d q Hq. rewrite P3 by lia. rewrite L1, L2, V3, HT. unfold segment_point, rule_point. ring. }
  split; [reflexivity|]. split; [intros q; rewrite L3, (Rabs_right (L c)) by lra; reflexivity|].
  split; [split; [rewrite B1; apply SV|exact B2]|]. split; [intros q i Hq Hi; rewrite B3 by exact Hi; apply HV; auto|].
  exists A. split; [reflexivity|]. split; [split; [rewrite A1; apply SD|exact A2]|]. intros q i Hq Hi. rewrite A3 by exact Hi. cbn [m_at]. rewrite L3, HD by auto. reflexivity.
Qed.

Variable P : EllipticProblem1D.
Local Notation phi := (phi1 x n).
Local Notation dphi := (dphi1 x n).

Lemma segment_cell_ok c sp : is_segment_space c sp -> exists A b, segment_cell sp P = Ok (A, b) /\
  shaped n n A /\ v_size b = n /\
  (forall i j, (i < n)%nat -> (j < n)%nat -> m_at A i j = segment_energy m Q P c (phi j) (dphi j) (phi i) (dphi i)) /\
  (forall i, (i < n)%nat -> v_at b i = segment_source m Q P c (phi i)).
Proof using Hk.
  intros (P1 & P2 & P3 & W1 & W2 & SV & HV & D & ED & SD & HD). unfold segment_cell.
  rewrite !function_evaluation_ok by (right; lia). cbn [bind].
  destruct (C21_diffusion {| v_size := m_cols (q_Points (ss_Quadrature sp)); v_at := fun q => ep_diffusion P (m_at (q_Points (ss_Quadrature sp)) 0 q) (m_at (q_Points (ss_Quadrature sp)) 1 q) (m_at (q_Points (ss_Quadrature sp)) 2 q) |}
    (ss_Derivatives sp) (ss_Derivatives sp) (q_Weights (ss_Quadrature sp)) nq n n) as (A & EA & (A1 & A2 & A3)); rewrite ?ED; try discriminate; auto.
  rewrite ED in EA. rewrite EA. cbn [bind].
  destruct (C21_reaction {| v_size := m_cols (q_Points (ss_Quadrature sp)); v_at := fun q => ep_reaction P (m_at (q_Points (ss_Quadrature sp)) 0 q) (m_at (q_Points (ss_Quadrature sp)) 1 q) (m_at (q_Points (ss_Quadrature sp)) 2 q) |}
    (ss_Values sp) (ss_Values sp) (q_Weights (ss_Quadrature sp)) nq n n SV SV) as (M & EM & (M1 & M2 & M3)); auto.
  rewrite EM. cbn [bind].
  destruct (C21_forcing {| v_size := m_cols (q_Points (ss_Quadrature sp)); v_at := fun q => ep_source P (m_at (q_Points (ss_Quadrature sp)) 0 q) (m_at (q_Points (ss_Quadrature sp)) 1 q) (m_at (q_Points (ss_Quadrature sp)) 2 q) |}
    (ss_Values sp) (q_Weights (ss_Quadrature sp)) nq n SV) as (b & Eb & (b1 & b2)); auto.
  rewrite Eb. cbn [bind]. unfold madd. rewrite A1, A2, M1, M2, !Nat.eqb_refl. cbn [andb bind]. eexists. exists b. split; [reflexivity|].
  split; [split; reflexivity|]. split; [exact b1|]. split.
  - intros i j Hi Hj. cbn [m_at]. rewrite A3, M3, <- rsum_plus. unfold segment_energy, apply_rule. rewrite <- rsum_scal. apply rsum_ext. intros q Hq. cbv beta zeta. cbn [v_at length].
    rewrite W2, !P3 by auto. rewrite ED. cbn [length]. unfold rsum at 1. unfold comp. cbn [nth]. rewrite !HD, !HV by auto. unfold on_segment, at_point. ring.
  - intros i Hi. rewrite b2. unfold segment_source, apply_rule. rewrite <- rsum_scal. apply rsum_ext. intros q Hq. cbv beta. cbn [v_at].
    rewrite W2, !P3, HV by auto. unfold on_segment, at_point. ring.
Qed.
End Space.
