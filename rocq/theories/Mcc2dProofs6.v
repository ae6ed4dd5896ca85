(** Proofs: what the mixed virtual element provides to the driver, cell by cell. *)
From Coq Require Import List Arith Bool Reals Lra Lia.
From Verif Require VemQuadProofs VemProofs2.
From Verif Require Import Base RSum PolyProofs MatrixModel MonomialsModel MonomialsSpec DofsModel DofsSpec AssemblerModel AssemblerSpec EquationModel EquationSpec VemQuadModel VemQuadSpec GreenSpec GreenProofs VemModel VemSpec
  VemMccModel VemMccSpec VemMccProofs VemMccProofs2 VemMccProofs3 VemMccProofs4 VemMccProofs5 DriverModel DriverSpec DriverSpec2 DriverProofs5 Pcc2dSpec Pcc2dProofs4 Mcc2dModel Mcc2dSpec Mcc2dProofs4.
Import ListNotations.
Local Open Scope R_scope.

(** the data of the local space *)
Definition get {A} (d : A) (x : outcome A) : A := match x with Ok a => a | _ => d end.
Definition no_rule : QuadratureData := {| q_Points := mzero 0 0; q_Weights := vzero 0 |}.
Definition side_sign (p : Polygon) (ed : nat) : R := if nth ed (pg_EdgesDirection p) true then 1 else -1.
Definition mcc_E (ref : MCC_2D_Reference) (p : Polygon) (l : MCC_Local) (lq : MCC_Pressure_Local) : MixedForms := {|
  xf_space := MCC_space ref p l lq;
  xf_V := fun d => nth d (get [] (MCC_Values_quadrature l)) (mzero 0 0);
  xf_D := get (mzero 0 0) (MCC_DivergenceValues l);
  xf_P := get (mzero 0 0) (MCC_Pressure_Values_quadrature lq);
  xf_S := get (mzero 0 0) (MCC_DofiDofi l);
  xf_Q := fun ed => get no_rule (MCC_EdgeQuadrature ref l ed);
  xf_B := fun ed => mscal (side_sign p ed) (midentity (rm_NumDofs1D ref));
  xf_G := fun ed => get no_rule (MCC_EdgeDofsCoordinates ref l ed);
  xf_N := fun ed => mscal (side_sign p ed) (midentity (rm_NumDofs1D ref)) |}.

Lemma following_mod n i : (i < n)%nat -> following n i = ((i + 1) mod n)%nat.
Proof.
  intros H. unfold following. destruct (Nat.eqb_spec i (n - 1)) as [->|Hn].
  - replace (n - 1 + 1)%nat with n by lia. rewrite Nat.mod_same by lia. reflexivity.
  - rewrite Nat.mod_small; lia.
Qed.

Lemma rsum_nonzero n f : rsum n f <> 0 -> exists j, (j < n)%nat /\ f j <> 0.
Proof. induction n; cbn [rsum]; intros H; [lra|]. destruct (Req_dec (f n) 0) as [Z|Z]; [|exists n; auto]. destruct IHn as (j & Hj & Nz); [lra|]. exists j. auto. Qed.

Section Cell.
Variables (gt gs : nat -> QuadratureData) (junk : nat -> nat -> R) (llt : Solver) (svd : Svd) (k : nat) (p : Polygon) (ref refq : MCC_2D_Reference) (l : MCC_Local) (lq : MCC_Pressure_Local).
Hypothesis MS : mcc_space gt gs junk llt svd k p ref l.
Hypothesis RQ : MCC_Pressure_Create gt gs k = Ok refq.
Hypothesis LQ : MCC_Pair_Pressure junk refq p l = Ok lq.
Let LF : mcc_facts gt gs k p llt svd l. Proof. apply (LF gt gs junk llt svd k p ref l MS). Qed.
Let GR : good_mixed_rules gt gs k. Proof. apply (ms_rules _ _ _ _ _ _ _ _ _ MS). Qed.
Let GP : good_polygon p. Proof. apply (ms_polygon _ _ _ _ _ _ _ _ _ MS). Qed.
Let RF : MCC_Velocity_Create gt gs k = Ok ref. Proof. apply (ms_reference _ _ _ _ _ _ _ _ _ MS). Qed.
Let Ellt : exact_for positive_definite llt. Proof. apply (ms_llt _ _ _ _ _ _ _ _ _ MS). Qed.
Let SV : completes svd (lm_TkNabla l). Proof. apply (ms_svd _ _ _ _ _ _ _ _ _ MS). Qed.
Local Notation nv := (m_cols (pg_Vertices p)).
Local Notation nb := ((k + 1) * nv)%nat.
Local Notation E := (mcc_E ref p l lq).
Local Notation seg := (gs (2 * k + 1)%nat).
Local Notation om q := (v_at (q_Weights seg) q).
Local Notation tq q := (m_at (q_Points seg) 0 q).
Local Notation X q := (m_at (mcc_points l) 0 q).
Local Notation Y q := (m_at (mcc_points l) 1 q).
Local Notation nq := (v_size (q_Weights (lm_InternalQuadrature l))).
Local Notation w q := (v_at (q_Weights (lm_InternalQuadrature l)) q).
Local Notation len i := (Rabs (v_at (pg_EdgesLength p) i)).

Lemma cell_sizes : lm_NumBasisFunctions l = (nb + k * (k + 2))%nat /\ (2 * lm_Nk l = (k + 1) * (k + 2))%nat /\ (0 < lm_Nk l)%nat /\ m_cols (mcc_points l) = nq /\ m_rows (mcc_points l) = 3%nat /\ (0 < nq)%nat.
Proof.
  rewrite (mf_N _ _ _ _ _ _ _ LF), (mf_Nk _ _ _ _ _ _ _ LF). destruct (mf_IQ _ _ _ _ _ _ _ LF) as (R3 & RC). unfold mcc_points. rewrite R3, RC.
  split; [rewrite <- (nn_no k p); reflexivity|]. split; [pose proof (VemProofs2.num2_k k); lia|]. split; [apply num2_pos|]. split; [reflexivity|]. split; [reflexivity|].
  rewrite <- RC. destruct (Nat.eq_dec nq 0) as [Z|]; [exfalso|lia]. pose proof (mf_area _ _ _ _ _ _ _ LF) as A. unfold mcc_inside, apply_rule in A. rewrite Z in A. cbn [rsum] in A. pose proof (gp_area _ GP). lra.
Qed.
Lemma reference_sizes : rm_NumDofs1D ref = (k + 1)%nat /\ vq_ReferenceSegmentQuadrature (rm_Quadrature ref) = seg /\ m_cols (q_Points seg) = (k + 1)%nat.
Proof. destruct (rf_all gt gs k ref p RF) as (_ & _ & A & _ & _ & _ & B). split; [exact A|]. split; [exact B|]. apply (gm_segment_points _ _ _ GR). Qed.
Lemma pressure_values : exists V, MCC_Pressure_Values_quadrature lq = Ok V /\ m_rows V = nq /\ m_cols V = lm_Nk l /\ lq_InternalQuadrature lq = lm_InternalQuadrature l /\
  forall q i, (i < lm_Nk l)%nat -> m_at V q i = mcc_monomial ref l i (X q) (Y q).
Proof.
  destruct (C114_pair_all gt gs junk llt svd k p ref l MS refq RQ) as (lq' & E1 & _ & E2 & (V & E3 & E4 & E5 & E6) & _). rewrite LQ in E1. injection E1 as <-. exists V. split; [exact E3|].
  split; [rewrite E4; apply cell_sizes|]. auto.
Qed.
Lemma velocity_values : exists V0 V1, MCC_Values_quadrature l = Ok [V0; V1] /\ (forall V, In V [V0; V1] -> m_rows V = nq /\ m_cols V = lm_NumBasisFunctions l) /\
  forall u q, (q < nq)%nat -> combine V0 u q = proj k p l u 0 (X q) (Y q) /\ combine V1 u q = proj k p l u 1 (X q) (Y q).
Proof.
  destruct (values_quadrature gt gs junk llt svd k p ref l MS) as (V0 & V1 & E1 & E2 & E3). exists V0, V1. split; [exact E1|]. destruct cell_sizes as (A & _ & _ & B & _). split.
  - intros V HV. rewrite (mf_N _ _ _ _ _ _ _ LF), <- B. apply E2. exact HV.
  - intros u q Hq. apply E3. rewrite B. exact Hq.
Qed.
Lemma divergence_values : exists V, MCC_DivergenceValues l = Ok V /\ m_rows V = nq /\ m_cols V = lm_NumBasisFunctions l /\ forall u q, combine V u q = div k p l u (X q) (Y q).
Proof.
  destruct (values_div gt gs junk llt svd k p ref l MS) as (V & E1 & E2 & E3 & E4). exists V. split; [exact E1|]. destruct cell_sizes as (A & _ & _ & B & _). rewrite (mf_N _ _ _ _ _ _ _ LF), <- B. auto.
Qed.
Lemma stabilisation_values : exists S, MCC_DofiDofi l = Ok S /\ m_rows S = lm_NumBasisFunctions l /\ m_cols S = lm_NumBasisFunctions l /\ (0 < pg_Measure p -> forall u, 0 <= rsum (lm_NumBasisFunctions l) (fun i => u i * combine S u i)) /\
  (forall f0 f0x f0y f1 f1x f1y, poly2 k f0 f0x f0y -> poly2 k f1 f1x f1y -> forall i, combine S (dofs k p l f0 f1) i = 0).
Proof.
  assert (HD : lm_Diameter l <> 0) by (rewrite (mf_diam _ _ _ _ _ _ _ LF); apply gp_diameter; exact GP).
  destruct (gradients_exist ref l HD) as (gx & gy & G). destruct (C113_stabilisation_all gt gs junk llt svd k p ref l MS gx gy G) as (S & E1 & E2 & E3 & _ & E5 & E6).
  exists S. do 3 (split; [assumption|]). split.
  - intros MP u. destruct (E5 u) as (P0 & P0x & P0y & P1 & P1x & P1y & _ & _ & _ & _ & SQ). rewrite E2, E3 in SQ.
    rewrite (rsum_ext _ _ (fun i => rsum (lm_NumBasisFunctions l) (fun j => u i * m_at S i j * u j))) by (intros i Hi; unfold combine; rewrite E3, <- rsum_scal; apply rsum_ext; intros; ring).
    rewrite SQ, (mf_measure _ _ _ _ _ _ _ LF). apply Rmult_le_pos; [lra|]. apply rsum_nonneg. intros; apply pow2_ge_0.
  - intros f0 f0x f0y f1 f1x f1y H0 H1 i. rewrite <- (E6 f0 f0x f0y f1 f1x f1y H0 H1 i). apply combine_ext. intros j Hj. rewrite E3, (mf_N _ _ _ _ _ _ _ LF) in Hj. symmetry. apply (dof_dofs gt gs junk llt svd k p ref l MS); auto.
Qed.

(** the edges *)
Lemma boundary_size : v_size (q_Weights (eq_Quadrature (lm_BoundaryQuadrature l))) = nb /\ m_cols (mcc_boundary_points l) = nb /\ m_rows (mcc_boundary_points l) = 3%nat.
Proof. destruct (mf_BQ _ _ _ _ _ _ _ LF) as (R3 & RC). pose proof (mf_BQn _ _ _ _ _ _ _ LF) as A. unfold mcc_boundary_points in *. rewrite RC. auto. Qed.
Lemma boundary_weight i q : (i < nv)%nat -> (q < k + 1)%nat -> v_at (q_Weights (eq_Quadrature (lm_BoundaryQuadrature l))) ((k + 1) * i + q) = len i * om q.
Proof.
  intros Hi Hq. pose proof (mf_sum _ _ _ _ _ _ _ LF (fun j => if (j =? (k + 1) * i + q)%nat then 1 else 0)) as A. unfold apply_rule in A. rewrite (proj1 boundary_size) in A.
  rewrite (rsum_single nb _ ((k + 1) * i + q)) in A; [|nia|intros j _ Hj; apply Nat.eqb_neq in Hj; rewrite Hj; ring]. rewrite Nat.eqb_refl, Rmult_1_r in A. rewrite A.
  rewrite (rsum_single nv _ i Hi).
  - f_equal. rewrite (rsum_single (k + 1) _ q Hq); [rewrite Nat.eqb_refl; ring|]. intros q' _ Hn. destruct (Nat.eqb_spec ((k + 1) * i + q') ((k + 1) * i + q)); [lia|ring].
  - intros i' Hi' Hn. rewrite rsum_0; [ring|]. intros q' Hq'. destruct (Nat.eqb_spec ((k + 1) * i' + q') ((k + 1) * i + q)) as [e|]; [exfalso; apply Hn; nia|ring].
Qed.
Lemma boundary_point i q d : (i < nv)%nat -> (q < k + 1)%nat -> (d < 3)%nat -> m_at (mcc_boundary_points l) d ((k + 1) * i + q) = edge_point p i (tq q) d.
Proof.
  intros Hi Hq Hd. rewrite (mf_points _ _ _ _ _ _ _ LF i q d Hi Hq Hd). pose proof (gp_tangents _ GP i d Hi Hd) as T. unfold along, edge_first, edge_last, edge_point.
  cbv zeta in T. rewrite !following_mod in * by exact Hi. destruct (nth i (pg_EdgesDirection p) true); rewrite T; ring.
Qed.
Lemma edge_quadrature i : (i < nv)%nat -> exists Q, MCC_EdgeQuadrature ref l i = Ok Q /\ m_cols (q_Points Q) = (k + 1)%nat /\ v_size (q_Weights Q) = (k + 1)%nat /\ m_rows (q_Points Q) = 3%nat /\
  (forall q, (q < k + 1)%nat -> v_at (q_Weights Q) q = len i * om q) /\ forall q d, (q < k + 1)%nat -> (d < 3)%nat -> m_at (q_Points Q) d q = edge_point p i (tq q) d.
Proof.
  intros Hi. destruct reference_sizes as (_ & RS & RC). destruct boundary_size as (B1 & B2 & B3). unfold MCC_EdgeQuadrature, middle_cols, mat_block, vec_segment. rewrite RS, RC. fold (mcc_boundary_points l). rewrite B1, B2.
  assert (LE : ((k + 1) * i + (k + 1) <=? nb)%nat = true) by (apply Nat.leb_le; nia). rewrite LE. replace (0 + m_rows (mcc_boundary_points l) <=? m_rows (mcc_boundary_points l))%nat with true by (symmetry; apply Nat.leb_refl). cbn [andb bind].
  eexists. split; [reflexivity|]. cbn [q_Points q_Weights m_cols m_rows v_size v_at m_at]. do 3 (split; [auto|]). split; intros q; intros; [apply boundary_weight|apply boundary_point]; auto.
Qed.
Lemma edge_coordinates i : (i < nv)%nat -> exists Q, MCC_EdgeDofsCoordinates ref l i = Ok Q /\ m_cols (q_Points Q) = (k + 1)%nat /\ m_rows (q_Points Q) = 3%nat /\
  forall q d, (q < k + 1)%nat -> (d < 3)%nat -> m_at (q_Points Q) d q = edge_point p i (tq q) d.
Proof.
  intros Hi. destruct reference_sizes as (RS & _ & RC). destruct boundary_size as (B1 & B2 & B3). unfold MCC_EdgeDofsCoordinates, middle_cols, mat_block. rewrite RS. fold (mcc_boundary_points l). rewrite B2.
  assert (LE : ((k + 1) * i + (k + 1) <=? nb)%nat = true) by (apply Nat.leb_le; nia). rewrite LE. replace (0 + m_rows (mcc_boundary_points l) <=? m_rows (mcc_boundary_points l))%nat with true by (symmetry; apply Nat.leb_refl). cbn [andb bind].
  eexists. split; [reflexivity|]. cbn [q_Points q_Weights m_cols m_rows v_size v_at m_at]. do 2 (split; [auto|]). intros q d; intros; apply boundary_point; auto.
Qed.
Lemma sign_identity i v j : (j < k + 1)%nat -> combine (mscal (side_sign p i) (midentity (k + 1))) v j = side_sign p i * v j.
Proof.
  intros Hj. unfold combine. cbn [mscal midentity m_cols m_at]. rewrite (rsum_single _ _ j Hj); [rewrite Nat.eqb_refl; ring|]. intros s _ Hn. destruct (Nat.eqb_spec j s); [congruence|ring].
Qed.

(** the element of the driver *)
Lemma mcc_forms create edges nu c : create c = Ok (MCC_space ref p l lq) -> length edges = nv -> (forall e, In e edges -> nu e = (k + 1)%nat) -> length (pg_EdgesDirection p) = nv ->
  mixed_forms create edges nu c (nb + k * (k + 2)) (lm_Nk l) E.
Proof.
  intros CR LE NU LD. destruct cell_sizes as (S1 & S2 & _ & S3 & S4 & S5). destruct reference_sizes as (R1 & R2 & R3). rewrite <- S1.
  assert (IN : forall ed e, nth_error edges ed = Some e -> (ed < nv)%nat /\ nu e = (k + 1)%nat).
  { intros ed e H. split; [rewrite <- LE; apply nth_error_Some; congruence|]. apply NU. eapply nth_error_In; eauto. }
  assert (DI : forall ed, (ed < nv)%nat -> idx_ (pg_EdgesDirection p) ed = Ok (nth ed (pg_EdgesDirection p) true)).
  { intros ed H. unfold idx_. rewrite (nth_error_nth' _ true) by lia. reflexivity. }
  unfold mcc_points in *. constructor; unfold xf_points, xf_weights; cbn [mcc_E xf_space MCC_space mx_InternalQuadrature xf_V xf_D xf_P xf_S xf_Q xf_B xf_G xf_N mx_VelocityValues mx_DivergenceValues mx_PressureValues mx_StabilizationMatrix mx_EdgeQuadrature mx_ValuesOnEdges mx_EdgeDofsCoordinates mx_EdgeDofs].
  - exact CR.
  - rewrite S3, S4. auto.
  - destruct velocity_values as (V0 & V1 & E1 & E2 & _). rewrite E1. cbn [get nth]. split; [reflexivity|]. intros [|[|d]] Hd; [| |lia]; cbn [nth]; split; apply E2; cbn; auto.
  - destruct divergence_values as (V & E1 & E2 & E3 & _). rewrite E1. split; [reflexivity|]. split; assumption.
  - destruct pressure_values as (V & E1 & E2 & E3 & _). rewrite E1. split; [reflexivity|]. split; assumption.
  - destruct stabilisation_values as (S & E1 & E2 & E3 & _). rewrite E1. split; [reflexivity|]. split; assumption.
  - intros ed e H. destruct (IN ed e H) as (Hi & _). destruct (edge_quadrature ed Hi) as (Q & E1 & E2 & E3 & E4 & _). rewrite E1. cbn [get]. split; [reflexivity|]. rewrite E2, E3, E4. auto.
  - intros ed e H. destruct (IN ed e H) as (Hi & ->). rewrite (DI ed Hi). cbn [bind]. split; [reflexivity|]. destruct (edge_quadrature ed Hi) as (Q & E1 & E2 & E3 & E4 & _). rewrite E1. cbn [get]. rewrite E3, R1. split; reflexivity.
  - intros ed e H. destruct (IN ed e H) as (Hi & _). destruct (edge_coordinates ed Hi) as (Q & E1 & E2 & E3 & _). rewrite E1. cbn [get]. split; [reflexivity|]. rewrite E3. auto.
  - intros ed e H. destruct (IN ed e H) as (Hi & ->). destruct (edge_coordinates ed Hi) as (Q & E1 & E2 & E3 & _). rewrite E1. cbn [get]. rewrite E2, R1. split; [reflexivity|]. intros v Hv. rewrite (DI ed Hi). cbn [bind].
    eexists. split; [reflexivity|]. cbn [vscal v_size v_at]. split; [exact Hv|]. intros i Hi'. rewrite sign_identity by exact Hi'. reflexivity.
Qed.

(** the flux through the edges *)
Lemma cell_inside f : rsum nq (fun q => w q * f (X q) (Y q)) = mcc_inside l f.
Proof. reflexivity. Qed.
Lemma cell_parts v g g0 g1 : poly2 k g g0 g1 ->
  rsum nq (fun q => w q * (g0 (X q) (Y q) * combine (xf_V E 0) v q + g1 (X q) (Y q) * combine (xf_V E 1) v q + g (X q) (Y q) * combine (xf_D E) v q)) =
  rsum nv (fun i => side_sign p i * (len i * rsum (k + 1) (fun q => om q * (g (edge_point p i (tq q) 0%nat) (edge_point p i (tq q) 1%nat) * v ((k + 1) * i + q)%nat)))).
Proof.
  intros HG. assert (HG' : poly2 (k + 1) g g0 g1) by (apply (poly2_le k); [lia|exact HG]).
  destruct velocity_values as (V0 & V1 & E1 & _ & EV). destruct divergence_values as (V & D1 & _ & _ & ED). cbn [mcc_E xf_V xf_D]. rewrite E1, D1. cbn [get nth].
  transitivity (mcc_inside l (fun x y => g0 x y * proj k p l v 0 x y + g1 x y * proj k p l v 1 x y + g x y * div k p l v x y)).
  { unfold mcc_inside, apply_rule. apply rsum_ext. intros q Hq; destruct (EV v q Hq) as (-> & ->); rewrite ED; reflexivity. }
  rewrite I_plus. rewrite (VemMccProofs4.parts gt gs junk llt svd k p ref l MS g g0 g1 v HG').
  match goal with |- ?a - ?b + ?b = _ => replace (a - b + b) with a by ring end. rewrite <- (outflow_out gt gs junk llt svd k p ref l MS). unfold mcc_outflow. rewrite (mf_sum _ _ _ _ _ _ _ LF). apply rsum_ext. intros i Hi.
  rewrite <- Rmult_assoc, (Rmult_comm (side_sign p i) (len i)), Rmult_assoc. f_equal. rewrite <- rsum_scal. apply rsum_ext. intros q Hq. rewrite !boundary_point by (auto; lia).
  unfold mcc_sign. rewrite (mf_order _ _ _ _ _ _ _ LF). replace (((k + 1) * i + q) / (k + 1))%nat with i by (apply (Nat.div_unique _ (k + 1) i q); lia). fold (side_sign p i). ring.
Qed.
Lemma cell_edge_form g i j : (i < nv)%nat -> (j < k + 1)%nat -> edge_form E g i j = side_sign p i * (len i * (om j * at_point g (edge_point p i (tq j)))).
Proof.
  intros Hi Hj. unfold edge_form. destruct (edge_quadrature i Hi) as (Q & E1 & E2 & E3 & E4 & EW & EP). cbn [mcc_E xf_Q xf_B]. rewrite E1. cbn [get]. rewrite E3, (proj1 reference_sizes). cbn [mscal midentity m_at].
  rewrite (rsum_single _ _ j Hj); [|intros s _ Hn; destruct (Nat.eqb_spec s j); [congruence|ring]]. rewrite Nat.eqb_refl, EW by exact Hj. unfold at_col. rewrite !EP by (auto; lia). unfold at_point. ring.
Qed.
Lemma cell_boundary_value g i j : (i < nv)%nat -> (j < k + 1)%nat -> boundary_value E g i j = side_sign p i * at_point g (edge_point p i (tq j)).
Proof.
  intros Hi Hj. unfold boundary_value. destruct (edge_coordinates i Hi) as (Q & E1 & E2 & E3 & EP). cbn [mcc_E xf_G xf_N]. rewrite E1, (proj1 reference_sizes). cbn [get]. rewrite sign_identity by exact Hj. f_equal. unfold at_col. rewrite !EP by (auto; lia). reflexivity.
Qed.

(** positivity *)
Lemma cell_weights q : (q < nq)%nat -> 0 <= w q.
Proof.
  intros Hq. destruct (VemQuadProofs.internal_ok (gt (2 * (k + 1))%nat) (pg_TriangulationVertices p)) as (IQ & EI & _).
  - apply (gm_triangle _ _ _ GR).
  - apply (gm_triangle _ _ _ GR).
  - apply (gp_triangulation _ GP).
  - pose proof (quadrature_same gt gs junk llt svd k p ref l MS IQ EI) as EQ. rewrite EQ in *. eapply internal_nonneg; [apply (gm_triangle _ _ _ GR)|apply (gp_triangulation _ GP)|exact EI|apply (gm_triangle_nonneg _ _ _ GR)|exact Hq].
Qed.
Lemma cell_mass v : 0 < pg_Measure p ->
  rsum nq (fun q => w q * (combine (xf_V E 0) v q * combine (xf_V E 0) v q + combine (xf_V E 1) v q * combine (xf_V E 1) v q)) + rsum (nb + k * (k + 2)) (fun i => v i * combine (xf_S E) v i) <= 0 ->
  forall i, (i < nb + k * (k + 2))%nat -> v i = 0.
Proof.
  intros MP H i Hi. destruct velocity_values as (V0 & V1 & E1 & _ & _). destruct stabilisation_values as (S & D1 & D2 & D3 & _). cbn [mcc_E xf_V xf_S] in H. rewrite E1, D1 in H. cbn [get nth] in H.
  rewrite <- (nn_no k p) in Hi, H. apply (mass_positive gt gs junk llt svd k p ref l MS V0 V1 S MP E1 D1 v); [|exact Hi]. unfold mass_form. eapply Rle_trans; [|exact H]. right. unfold apply_rule. f_equal.
  apply rsum_ext. intros a Ha. unfold combine. rewrite D3, (mf_N _ _ _ _ _ _ _ LF), <- rsum_scal. apply rsum_ext. intros; ring.
Qed.
Lemma pressure_combine r q : combine (xf_P E) r q = mcc_polynomial ref l (lm_Nk l) r (X q) (Y q).
Proof. destruct pressure_values as (V & E1 & E2 & E3 & _ & E4). cbn [mcc_E xf_P]. rewrite E1. cbn [get]. unfold combine, mcc_polynomial. rewrite E3. apply rsum_ext. intros i Hi. rewrite E4 by exact Hi. ring. Qed.
Lemma cell_div_kernel r : (forall v, (forall i, (i < nb)%nat -> v i = 0) -> rsum nq (fun q => w q * (combine (xf_P E) r q * combine (xf_D E) v q)) = 0) ->
  exists C, (forall q, (q < nq)%nat -> combine (xf_P E) r q = C) /\ (C = 0 -> forall i, (i < lm_Nk l)%nat -> r i = 0).
Proof.
  intros H. destruct divergence_values as (V & D1 & _ & _ & ED). destruct cell_sizes as (_ & _ & NP & _).
  assert (NK : lm_Nk l = num2 k) by apply (mf_Nk _ _ _ _ _ _ _ LF). assert (NS : num2 (k + 1) = S (num2 k + k + 1)) by (rewrite num2_S; lia).
  assert (PC : forall q, combine (xf_P E) r q = comb p (num2 k) r (X q) (Y q)) by (intros q; rewrite pressure_combine, NK; apply (poly_comb gt gs junk llt svd k p ref l MS); lia).
  assert (Z : forall c, (S c < lm_Nk l)%nat -> r (S c) = 0).
  { intros c Hc. set (v := fun j => if (j =? nb + c)%nat then 1 else 0). specialize (H v ltac:(intros i Hi; unfold v; destruct (Nat.eqb_spec i (nb + c)); [lia|reflexivity])).
    cbn [mcc_E xf_D] in H. rewrite D1 in H. cbn [get] in H.
    assert (H' : mcc_inside l (fun x y => comb p (num2 k) r x y * div k p l v x y) = 0).
    { etransitivity; [|exact H]. unfold mcc_inside, apply_rule. apply rsum_ext. intros q Hq. rewrite ED, PC. reflexivity. }
    clear H. rename H' into H. rewrite (div_parts gt gs k p llt svd l GR GP LF Ellt) in H. unfold outflow in H. rewrite (rsum_0 nb) in H by (intros j Hj; unfold v; destruct (Nat.eqb_spec j (nb + c)); [lia|ring]).
    rewrite (rsum_single _ _ c) in H; [|lia|intros s Hs Hn; unfold v; destruct (Nat.eqb_spec (nb + s) (nb + c)); [lia|ring]]. unfold v in H. rewrite Nat.eqb_refl in H.
    pose proof (gp_measure _ GP). assert (pg_Measure p * r (S c) = 0) as Q by lra. apply Rmult_integral in Q. tauto. }
  exists (r 0%nat). split.
  - intros q Hq. rewrite PC. unfold comb. rewrite (rsum_single _ _ 0%nat); [rewrite (ph0 p); ring|lia|]. intros [|s] Hs Hn; [lia|]. rewrite Z by lia. ring.
  - intros C0 [|i] Hi; [exact C0|apply Z; exact Hi].
Qed.
Lemma cell_pressure_mass s : (exists i, (i < lm_Nk l)%nat /\ s i <> 0) -> 0 < rsum nq (fun q => w q * combine (xf_P E) s q ^ 2).
Proof.
  intros (i & Hi & Nz). assert (NK : lm_Nk l = num2 k) by apply (mf_Nk _ _ _ _ _ _ _ LF).
  destruct (I_square gt gs k p llt svd l GR GP LF _ _ _ (poly2_le k (k + 1) _ _ _ ltac:(lia) (VemMccProofs3.comb_poly2 p GP k s))) as (A & B).
  assert (EQ : rsum nq (fun q => w q * combine (xf_P E) s q ^ 2) = mcc_inside l (fun x y => comb p (num2 k) s x y * comb p (num2 k) s x y)).
  { unfold mcc_inside, apply_rule. apply rsum_ext. intros q _. rewrite pressure_combine, NK, (poly_comb gt gs junk llt svd k p ref l MS) by (rewrite num2_S; lia). unfold mcc_points. ring. }
  rewrite EQ. destruct A as [A|A]; [exact A|]. exfalso. apply Nz. rewrite NK in Hi. refine (phi_independent _ _ _ _ k s _ i Hi). 2: exact (B (eq_sym A)). apply (gp_diameter _ GP).
Qed.
Lemma segment_weight : exists j, (j < k + 1)%nat /\ om j <> 0.
Proof.
  pose proof (gm_segment_exact _ _ _ GR 0%nat ltac:(lia)) as A. unfold apply_rule in A. rewrite (proj2 (gm_segment _ _ _ GR)), (gm_segment_points _ _ _ GR) in A.
  destruct (rsum_nonzero (k + 1) (fun q => om q * m_at (q_Points seg) 0 q ^ 0)) as (j & Hj & Nz); [rewrite A; cbn; lra|]. exists j. split; [exact Hj|]. intros Z. apply Nz. rewrite Z. ring.
Qed.
(** dofs of polynomial fields *)
Lemma field_values f0 f0x f0y f1 f1x f1y q : poly2 k f0 f0x f0y -> poly2 k f1 f1x f1y -> (q < nq)%nat ->
  combine (xf_V E 0) (dofs k p l f0 f1) q = f0 (X q) (Y q) /\ combine (xf_V E 1) (dofs k p l f0 f1) q = f1 (X q) (Y q) /\ combine (xf_D E) (dofs k p l f0 f1) q = f0x (X q) (Y q) + f1y (X q) (Y q).
Proof.
  intros H0 H1 Hq. destruct velocity_values as (V0 & V1 & E1 & _ & EV). destruct divergence_values as (V & D1 & _ & _ & ED). cbn [mcc_E xf_V xf_D]. rewrite E1, D1. cbn [get nth].
  destruct (EV (dofs k p l f0 f1) q Hq) as (-> & ->). rewrite ED. destruct (proj_exact gt gs k p llt svd l GR GP LF Ellt SV _ _ _ _ _ _ H0 H1 (X q) (Y q)) as (-> & ->). split; [reflexivity|]. split; [reflexivity|].
  apply (div_exact gt gs k p llt svd l GR GP LF Ellt f0 f0x f0y f1 f1x f1y); apply (poly2_le k); auto; lia.
Qed.
Lemma polynomial_coefficients g g0 g1 : poly2 k g g0 g1 -> exists a, forall q, combine (xf_P E) a q = g (X q) (Y q).
Proof.
  intros H. destruct (comb_of_poly2 gt gs junk llt svd k p ref l MS k g g0 g1 H) as (a & A & _). exists a. intros q. rewrite pressure_combine, (mf_Nk _ _ _ _ _ _ _ LF), A. apply (poly_comb gt gs junk llt svd k p ref l MS). rewrite num2_S. lia.
Qed.
End Cell.
