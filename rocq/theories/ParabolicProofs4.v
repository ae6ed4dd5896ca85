(** Proofs: the virtual element in the driver of the heat equation: cells, regularity of the steps, balance of polynomials. *)
From Coq Require Import List Arith Bool Reals Lia Lra FunctionalExtensionality.
From Verif Require Import Base RSum MatrixModel MonomialsModel MonomialsSpec LagrangeModel LagrangeSpec DofsModel DofsSpec DofsProofs DofsProofs2 AssemblerModel AssemblerSpec EquationModel EquationSpec VemQuadModel VemQuadSpec VemQuadProofs VemQuadProofs2 GreenSpec GreenProofs PolyProofs VemModel VemSpec
  VemProofs VemProofs2 VemProofs3 VemProofs4 VemProofs5 DriverModel DriverSpec DriverSpec2 Pcc2dModel Pcc2dSpec DriverProofs DriverProofs2 DriverProofs3 DriverProofs4 DriverProofs5 DriverProofs6 DriverProofs7 Pcc2dProofs Pcc2dProofs2 Pcc2dProofs3 Pcc2dProofs4 Pcc2dProofs5 Pcc2dProofs6 Pcc2dProofs7
  Mcc2dProofs3 ParabolicModel ParabolicSpec ParabolicProofs ParabolicProofs2 ParabolicProofs3.
Import ListNotations.
Local Open Scope R_scope.

Lemma all_active_mesh gt lob lu llt k ref m info geometry : vem_mesh gt lob lu llt k ref m info geometry -> vem_mesh gt lob lu llt k ref (all_active m) info geometry.
Proof. intros [H1 H2 H3 H4 H5 H6 H7 H8 H9 H10 H11 H12]. split; assumption. Qed.

Section Heat.
Variables (gt lob : nat -> QuadratureData) (junk : nat -> nat -> R) (lu llt : Solver) (k : nat) (ref : VEM_2D_Reference) (m : Mesh2D) (info : MeshDOFsInfo) (geometry : nat -> Polygon).
Hypothesis VM : vem_mesh gt lob lu llt k ref m info geometry.
Let mesh := md_mesh m.
Let nc := Cell2Ds_number mesh.
Let Hk := vm_order _ _ _ _ _ _ _ _ _ VM.
Notation loc := (loc junk lu llt ref geometry).
Notation create := (create junk lu llt ref geometry).
Notation forms := (forms junk lu llt ref geometry).
Notation CS c Hc := (cell_space gt lob junk lu llt k ref m info geometry VM c Hc).
Notation qx c q := (m_at (q_Points (lv_InternalQuadrature (loc c))) 0 q).
Notation qy c q := (m_at (q_Points (lv_InternalQuadrature (loc c))) 1 q).

Definition hcreate := Create_parabolic_VEM create (fun c => VEM_PCC_2D_CreateLocalSpace junk lu llt ref (geometry c)).
Definition hcell (c : nat) : HeatCell := {|
  hc_space := {| ps_space := VEM_space junk ref (geometry c) (loc c); ps_StabilizationPi0k := VEM_DofiDofi (loc c) Pi0k_t |};
  hc_V := cf_U (forms c); hc_V0 := get (mzero 0 0) (VEM_Values_quadrature (loc c) Pi0k_t); hc_D := cf_dU (forms c); hc_SA := cf_S (forms c);
  hc_SM := get (mzero 0 0) (VEM_DofiDofi (loc c) Pi0k_t) |}.
Lemma hspaces : spaces hcreate = create.
Proof using. clear. apply functional_extensionality. intros c. unfold spaces, hcreate, Create_parabolic_VEM, Pcc2dProofs3.create, Create_VEM. destruct (VEM_PCC_2D_CreateLocalSpace junk lu llt ref (geometry c)); reflexivity. Qed.

Lemma hcell_ok c : (c < nc)%nat -> heat_cell hcreate c (lv_NumBasisFunctions (loc c)) (hcell c).
Proof using VM.
  intros Hc. destruct (forms_ok gt lob junk lu llt k ref m info geometry VM c Hc) as (CF & _). destruct CF as [E1 E2 E3 E4 (P1 & P2 & P3) (U1 & U2) (dU1 & dU2) (V1 & V2) (dV1 & dV2) (S1 & S2)].
  destruct (quadrature_values_all _ _ _ _ _ _ _ _ _ (CS c Hc)) as ((A & EA & RA & CA & _) & _). cbv zeta in RA.
  destruct (stabilization_all _ _ _ _ _ _ _ _ _ (CS c Hc) Pi0k_t (or_intror eq_refl)) as (S & ES & RS & CS' & _).
  split; unfold hc_points, hc_weights, hcell; cbn [hc_space ps_space ps_StabilizationPi0k hc_V hc_V0 hc_D hc_SA hc_SM].
  - unfold hcreate, Create_parabolic_VEM. rewrite (create_ok gt lob junk lu llt k ref m info geometry VM c Hc). cbn [bind]. rewrite (vs_local _ _ _ _ _ _ _ _ _ (CS c Hc)). reflexivity.
  - split; [exact P1|split; [exact P2|exact P3]].
  - split; [exact U1|exact U2].
  - cbn [VEM_space ls_Values ls_InternalQuadrature]. rewrite EA. cbn [get]. split; [reflexivity|]. split; [|exact CA]. rewrite RA. exact P1.
  - split; [exact dU1|exact dU2].
  - split; [exact S1|exact S2].
  - rewrite ES. cbn [get]. split; [reflexivity|]. split; assumption.
Qed.
Lemma hcell_size c : (c < nc)%nat -> heat_cell hcreate c (length (closure_dofs info mesh 2 c)) (hcell c).
Proof using VM. intros Hc. unfold mesh. rewrite (size_closure gt lob junk lu llt k ref m info geometry VM c Hc). apply hcell_ok. exact Hc. Qed.
Lemma hvalues c u q : (c < nc)%nat -> combine (hc_V (hcell c)) u q = projected ref (loc c) (lv_Pi0km1 (loc c)) u (qx c q) (qy c q).
Proof using VM. intros Hc. destruct (forms_ok gt lob junk lu llt k ref m info geometry VM c Hc) as (_ & HU & _). apply HU. Qed.
Lemma square_sum X (u : nat -> R) n : m_rows X = n -> m_cols X = n -> rsum (m_cols X) (fun p => u p * combine X u p) = rsum (m_rows X) (fun i => rsum (m_cols X) (fun j => u i * m_at X i j * u j)).
Proof using. clear. intros EQ EC. unfold combine. rewrite EQ, EC. apply rsum_ext. intros i Hi. rewrite <- rsum_scal. apply rsum_ext. intros; ring. Qed.

Hypothesis PM : forall c, (c < nc)%nat -> 0 < pg_Measure (geometry c).
Lemma hstab c t : t = PiNabla_t \/ t = Pi0k_t -> (c < nc)%nat -> semidefinite (get (mzero 0 0) (VEM_DofiDofi (loc c) t)).
Proof using VM PM.
  intros Ht Hc. destruct (stabilization_all _ _ _ _ _ _ _ _ _ (CS c Hc) t Ht) as (S & ES & RS & CS' & SY & _ & SQ). rewrite ES. cbn [get]. split; [exact SY|]. intros u.
  rewrite (square_sum S u _ RS CS'), SQ. apply Rmult_le_pos.
  - destruct Ht as [->| ->]; [lra|]. pose proof (lf_measure _ _ _ _ _ _ (LF _ _ _ _ _ _ _ _ _ (CS c Hc))) as LM. rewrite LM. apply Rlt_le, PM, Hc.
  - apply rsum_nonneg. intros. apply pow2_ge_0.
Qed.
Lemma hsound kappa c : positive_rules gt k m geometry -> (forall x y z, 0 <= kappa x y z) -> (c < nc)%nat -> sound_cell kappa (hcell c).
Proof using VM PM.
  intros PR PK Hc. split; [|split; [|split]].
  - intros q Hq. apply Rlt_le. apply (positive_weights gt lob junk lu llt k ref m info geometry VM c q PR Hc Hq).
  - intros q Hq. apply PK.
  - apply (hstab c PiNabla_t (or_introl eq_refl) Hc).
  - apply (hstab c Pi0k_t (or_intror eq_refl) Hc).
Qed.

Lemma dofs_ext l f g j : (forall x y, f x y = g x y) -> dofs_of ref l f j = dofs_of ref l g j.
Proof using. clear. intros H. unfold dofs_of. destruct (j <? _)%nat; [apply H|]. f_equal. unfold apply_rule. apply rsum_ext. intros q Hq. cbv zeta. rewrite H. reflexivity. Qed.
(** unknowns without gradient and without stabilisation are those of a constant *)
Lemma flat_constant c u : (c < nc)%nat -> (forall d q, (d < 2)%nat -> (q < v_size (hc_weights (hcell c)))%nat -> combine (hc_D (hcell c) d) u q = 0) ->
  rsum (m_cols (hc_SA (hcell c))) (fun p => u p * combine (hc_SA (hcell c)) u p) = 0 ->
  exists C, forall j, (j < lv_NumBasisFunctions (loc c))%nat -> u j = dofs_of ref (loc c) (fun _ _ => C) j.
Proof using VM.
  intros Hc HD HS. pose proof (CS c Hc) as VS. pose proof (LF _ _ _ _ _ _ _ _ _ VS) as LFc.
  destruct (forms_ok gt lob junk lu llt k ref m info geometry VM c Hc) as (CF & _ & _ & (P0 & P1 & EP & HP) & _).
  destruct (lf_PD _ _ _ _ _ _ LFc) as (P0' & P1' & EP' & R0 & C0 & R1' & C1 & _). rewrite EP in EP'. injection EP' as <- <-.
  destruct (lf_Pi _ _ _ _ _ _ LFc) as (RP & CP & _). pose proof (lf_N _ _ _ _ _ _ LFc) as NN.
  assert (Z : forall P, m_rows P = num2 (k - 1) -> (forall q, (q < v_size (cf_weights (forms c)))%nat -> projected ref (loc c) P u (qx c q) (qy c q) = 0) -> forall x y, projected ref (loc c) P u x y = 0).
  { intros P RR ZQ. pose proof (projected_poly2 _ _ _ _ _ _ _ _ _ VS P u (k - 1) RR ltac:(lia)) as PP. apply (poly2_le (k - 1) k) in PP; [|lia].
    apply (proj2 (I_square gt lob k (geometry c) lu llt (loc c) (vm_rules _ _ _ _ _ _ _ _ _ VM) (vm_polygon _ _ _ _ _ _ _ _ _ VM c Hc) LFc _ _ _ PP)).
    unfold fI, apply_rule. apply rsum_0. intros q Hq. rewrite ZQ by exact Hq. ring. }
  assert (Z0 : forall x y, projected ref (loc c) P0 u x y = 0).
  { apply Z; [exact R0|]. intros q Hq. destruct (HP u q) as (H & _). rewrite <- H. apply (HD 0%nat q Nat.lt_0_2 Hq). }
  assert (Z1 : forall x y, projected ref (loc c) P1 u x y = 0).
  { apply Z; [exact R1'|]. intros q Hq. destruct (HP u q) as (_ & H & _). rewrite <- H. apply (HD 1%nat q (le_n 2) Hq). }
  assert (HS' : rsum (ls_Size (cf_test (forms c))) (fun p => u p * combine (cf_S (forms c)) u p) = 0).
  { destruct CF as [_ _ _ E4 _ _ _ _ _ (_ & (_ & S2))]. rewrite E4, <- S2. exact HS. }
  set (f := projected ref (loc c) (lv_PiNabla (loc c)) u). rewrite (stabilisation_square gt lob junk lu llt k ref m info geometry VM) in HS' by exact Hc. fold f in HS'.
  assert (UF : forall j, (j < lv_NumBasisFunctions (loc c))%nat -> u j = dofs_of ref (loc c) f j).
  { intros j Hj. pose proof (rsum_zero_each _ _ (fun q _ => pow2_ge_0 (dofs_of ref (loc c) f q - u q)) (Req_le _ _ HS') j Hj) as E. cbv beta in E.
    assert (E' : dofs_of ref (loc c) f j - u j = 0) by nra. lra. }
  pose proof (projected_poly2 _ _ _ _ _ _ _ _ _ VS (lv_PiNabla (loc c)) u k RP (le_n k)) as Pf. fold f in Pf.
  match type of Pf with poly2 _ _ ?a ?b => set (fx := a) in *; set (fy := b) in * end.
  assert (G : forall x y, fx x y = 0 /\ fy x y = 0).
  { intros x y. destruct (reproduce_all _ _ _ _ _ _ _ _ _ VS f fx fy Pf x y) as (_ & _ & _ & P0' & P1' & EP' & H0 & H1). rewrite EP in EP'. injection EP' as <- <-. rewrite <- H0, <- H1.
    rewrite !(projected_agree ref _ _ (dofs_of ref (loc c) f) u) by (intros j Hj; symmetry; apply UF; rewrite NN; congruence). auto. }
  pose proof (flat_poly k f fx fy Pf (fun x y => proj1 (G x y)) (fun x y => proj2 (G x y))) as FC.
  exists (f 0 0). intros j Hj. rewrite UF by exact Hj. apply dofs_ext. exact FC.
Qed.

(** ** The mass of a polynomial *)
Lemma combine_p A p q : (p < m_cols A)%nat -> m_at A q p = combine A (fun j => if (j =? p)%nat then 1 else 0) q.
Proof using. clear. intros Hp. symmetry. unfold combine. rewrite (rsum_single (m_cols A) _ p); [rewrite Nat.eqb_refl; ring|exact Hp|]. intros i Hi Ni. destruct (Nat.eqb_spec i p); [congruence|ring]. Qed.

Lemma mass_exact c f fx fy p : (c < nc)%nat -> poly2 k f fx fy -> (p < lv_NumBasisFunctions (loc c))%nat -> mass_form (hcell c) (dofs_of ref (loc c) f) p = load_form (hcell c) (planar f) p.
Proof using VM.
  intros Hc Pf Hp. pose proof (CS c Hc) as VS. pose proof (LF _ _ _ _ _ _ _ _ _ VS) as LFc.
  destruct (stabilization_all _ _ _ _ _ _ _ _ _ VS Pi0k_t (or_intror eq_refl)) as (S & ES & _ & _ & _ & SP & _).
  unfold mass_form, load_form. assert (EZ : combine (hc_SM (hcell c)) (dofs_of ref (loc c) f) p = 0) by (unfold hcell; cbn [hc_SM]; rewrite ES; apply (SP f fx fy Pf)). rewrite EZ, Rplus_0_r.
  destruct (hcell_ok c Hc) as [_ _ (_ & (_ & CV)) _ _ _ _]. set (e := fun j => if (j =? p)%nat then 1 else 0).
  assert (HE : forall q, m_at (hc_V (hcell c)) q p = projected ref (loc c) (lv_Pi0km1 (loc c)) e (qx c q) (qy c q)).
  { intros q. rewrite combine_p by (rewrite CV; exact Hp). apply hvalues. exact Hc. }
  set (P := lv_Pi0km1 (loc c)) in *. destruct (lf_P0 _ _ _ _ _ _ LFc) as (RP & CP & _). fold P in RP, CP.
  transitivity (rsum (m_rows P) (fun i => rsum (m_cols P) (fun j => m_at P i j * e j) * inside (loc c) (fun x y => projected ref (loc c) P (dofs_of ref (loc c) f) x y * scaled_monomial ref (loc c) i x y))).
  - unfold inside, apply_rule. change (hc_weights (hcell c)) with (q_Weights (lv_InternalQuadrature (loc c))).
    rewrite (rsum_ext (v_size (q_Weights (lv_InternalQuadrature (loc c)))) _ (fun q => rsum (m_rows P) (fun i => rsum (m_cols P) (fun j => m_at P i j * e j) * (v_at (q_Weights (lv_InternalQuadrature (loc c))) q * (projected ref (loc c) P (dofs_of ref (loc c) f) (qx c q) (qy c q) * scaled_monomial ref (loc c) i (qx c q) (qy c q)))))).
    + rewrite rsum_swap. apply rsum_ext. intros i Hi. rewrite rsum_scal. reflexivity.
    + intros q Hq. rewrite HE, hvalues by exact Hc. fold P. unfold projected at 2. rewrite <- !rsum_scal. apply rsum_ext. intros i Hi. ring.
  - transitivity (rsum (m_rows P) (fun i => rsum (m_cols P) (fun j => m_at P i j * e j) * inside (loc c) (fun x y => f x y * scaled_monomial ref (loc c) i x y))).
    + apply rsum_ext. intros i Hi. f_equal. pose proof (lf_Nkm1 _ _ _ _ _ _ LFc) as N1. pose proof (lf_Nk _ _ _ _ _ _ LFc) as N0.
      assert (Hi1 : (i < lv_Nkm1 (loc c))%nat) by (rewrite N1; congruence).
      assert (Hi0 : (i < lv_NumProjectorBasisFunctions (loc c))%nat) by (rewrite N0; rewrite N1 in Hi1; pose proof (num2_mono (k - 1) k ltac:(lia)); lia).
      destruct (orthogonal_all _ _ _ _ _ _ _ _ _ VS (dofs_of ref (loc c) f) i Hi0) as (O1 & O2). fold P in O2. rewrite (O2 Hi1), <- O1. unfold inside, apply_rule. apply rsum_ext. intros q Hq.
      destruct (reproduce_all _ _ _ _ _ _ _ _ _ VS f fx fy Pf (qx c q) (qy c q)) as (_ & -> & _). reflexivity.
    + unfold inside, apply_rule. change (hc_weights (hcell c)) with (q_Weights (lv_InternalQuadrature (loc c))).
      rewrite (rsum_ext (v_size (q_Weights (lv_InternalQuadrature (loc c)))) _ (fun q => rsum (m_rows P) (fun i => rsum (m_cols P) (fun j => m_at P i j * e j) * (v_at (q_Weights (lv_InternalQuadrature (loc c))) q * (f (qx c q) (qy c q) * scaled_monomial ref (loc c) i (qx c q) (qy c q)))))).
      * rewrite rsum_swap. apply rsum_ext. intros i Hi. rewrite rsum_scal. reflexivity.
      * intros q Hq. rewrite HE. unfold hc_at, planar. change (hc_points (hcell c)) with (q_Points (lv_InternalQuadrature (loc c))). unfold projected. rewrite <- !rsum_scal. apply rsum_ext. intros i Hi. ring.
Qed.

(** ** Regularity of the steps *)
Variable data : DOFsData.
Hypothesis HC : CreateDOFs 2 info (md_mesh m) = Ok data.
Let HN := vm_cells _ _ _ _ _ _ _ _ _ VM.
Definition hk (kappa : R -> R -> R -> R) (c : nat) : R := get 0 (max_abs {| v_size := v_size (hc_weights (hcell c)); v_at := hc_at kappa (hcell c) |}).
Lemma hk_ok kappa c : (c < nc)%nat -> greatest_value (hcell c) kappa (hk kappa c).
Proof using VM.
  intros Hc. unfold hk. destruct (he_points _ _ _ _ (hcell_ok c Hc)) as (_ & _ & P3). destruct (max_abs_ok {| v_size := v_size (hc_weights (hcell c)); v_at := hc_at kappa (hcell c) |} P3) as (x & -> & U & i & Hi & Ai). cbn [get].
  split; [exact U|]. exists i. auto.
Qed.

Lemma regular kappa a A M : positive_rules gt k m geometry -> covered info mesh -> (forall x y z, 0 < kappa x y z) -> 0 < a -> StaticAssemble m data hcreate kappa = Ok (A, M) ->
  forall v, length v = NumberDOFs data -> a * quadratic (NumberDOFs data) A v v + quadratic (NumberDOFs data) M v v <= 0 -> forall r, (r < NumberDOFs data)%nat -> nth r v 0 = 0.
Proof using VM PM HC.
  intros PR CO PK Ha EAM v Lv HQ. assert (PK' : forall x y z, 0 <= kappa x y z) by (intros; apply Rlt_le, PK).
  destruct (local_exist m info data HC HN v (repeat 0 (NumberStrongs data)) Lv (repeat_length _ _)) as (vl & Evl & Hv).
  destruct (quadratic_energy m info data HC HN hcreate hcell hcell_size kappa (hk kappa) (hk_ok kappa) A M EAM v _ Lv Hv) as (QA & QM).
  pose proof (energy_parts m info hcreate hcell hcell_size kappa (fun c => hsound kappa c PR PK') (hk kappa) (hk_ok kappa)) as EP.
  rewrite QA, QM, <- rsum_scal, <- rsum_plus in HQ.
  assert (EZ : forall c, (c < nc)%nat -> stiff_energy kappa (hcell c) (hk kappa c) (length (closure_dofs info mesh 2 c)) (v_at (vl c)) = 0 /\ mass_energy (hcell c) (length (closure_dofs info mesh 2 c)) (v_at (vl c)) = 0).
  { intros c Hc. destruct (EP c (v_at (vl c)) Hc) as (X1 & X2).
    assert (Z : a * stiff_energy kappa (hcell c) (hk kappa c) (length (closure_dofs info mesh 2 c)) (v_at (vl c)) + mass_energy (hcell c) (length (closure_dofs info mesh 2 c)) (v_at (vl c)) = 0).
    { apply (rsum_zero_each nc (fun c => a * stiff_energy kappa (hcell c) (hk kappa c) (length (closure_dofs info mesh 2 c)) (v_at (vl c)) + mass_energy (hcell c) (length (closure_dofs info mesh 2 c)) (v_at (vl c)))); auto.
      intros i Hi. destruct (EP i (v_at (vl i)) Hi). apply Rplus_le_le_0_compat; [apply Rmult_le_pos; [lra|assumption]|assumption]. }
    assert (0 <= a * stiff_energy kappa (hcell c) (hk kappa c) (length (closure_dofs info mesh 2 c)) (v_at (vl c))) by (apply Rmult_le_pos; [lra|exact X1]).
    fold mesh in X2. split; [|lra]. apply (Rmult_eq_reg_l a); lra. }
  assert (VZ : forall c, (c < nc)%nat -> forall j, (j < length (closure_dofs info mesh 2 c))%nat -> v_at (vl c) j = 0).
  { intros c Hc j Hj. destruct (EZ c Hc) as (Z1 & Z2). destruct (hsound kappa c PR PK' Hc) as (PW & _ & (_ & SA) & (_ & SM)). destruct (hcell_size c Hc) as [_ (_ & _ & NQ) _ _ _ (_ & (_ & CA)) (_ & (_ & CM))].
    set (u := v_at (vl c)) in *. unfold stiff_energy in Z1. unfold mass_energy in Z2. specialize (SA u). specialize (SM u). 
    assert (KP : 0 < hk kappa c).
    { destruct (hk_ok kappa c Hc) as (U & _). eapply Rlt_le_trans; [|apply (U 0%nat NQ)]. unfold hc_at. rewrite Rabs_pos_eq by apply PK'. apply PK. }
    assert (G0 : 0 <= rsum (v_size (hc_weights (hcell c))) (fun q => v_at (hc_weights (hcell c)) q * hc_at kappa (hcell c) q * rsum 2 (fun d => combine (hc_D (hcell c) d) u q * combine (hc_D (hcell c) d) u q))).
    { apply rsum_nonneg. intros q Hq. apply Rmult_le_pos; [apply Rmult_le_pos; [auto|apply PK']|]. rewrite rsum2. nra. }
    assert (M0 : 0 <= rsum (v_size (hc_weights (hcell c))) (fun q => v_at (hc_weights (hcell c)) q * (combine (hc_V (hcell c)) u q * combine (hc_V (hcell c)) u q))).
    { apply rsum_nonneg. intros q Hq. apply Rmult_le_pos; [auto|]. nra. }
    rewrite <- CA in Z1. rewrite <- CM in Z2. assert (0 <= hk kappa c * rsum (m_cols (hc_SA (hcell c))) (fun p => u p * combine (hc_SA (hcell c)) u p)) by (apply Rmult_le_pos; lra).
    assert (S0 : rsum (m_cols (hc_SA (hcell c))) (fun p => u p * combine (hc_SA (hcell c)) u p) = 0) by (apply (Rmult_eq_reg_l (hk kappa c)); lra).
    assert (GZ : rsum (v_size (hc_weights (hcell c))) (fun q => v_at (hc_weights (hcell c)) q * hc_at kappa (hcell c) q * rsum 2 (fun d => combine (hc_D (hcell c) d) u q * combine (hc_D (hcell c) d) u q)) <= 0) by lra.
    assert (MZ : rsum (v_size (hc_weights (hcell c))) (fun q => v_at (hc_weights (hcell c)) q * (combine (hc_V (hcell c)) u q * combine (hc_V (hcell c)) u q)) <= 0) by lra.
    destruct (flat_constant c u Hc) as (C & HCst); [|exact S0|].
    - intros d q Hd Hq. pose proof (rsum_zero_each _ _ (fun q Hq => Rmult_le_pos _ _ (Rmult_le_pos _ _ (PW q Hq) (PK' _ _ _)) (rsum_nonneg 2 _ (fun d _ => Rle_0_sqr (combine (hc_D (hcell c) d) u q)))) GZ q Hq) as ZZ. cbv beta in ZZ.
      assert (WQ : 0 < v_at (hc_weights (hcell c)) q) by (apply (positive_weights gt lob junk lu llt k ref m info geometry VM c q PR Hc Hq)). pose proof (PK (m_at (hc_points (hcell c)) 0%nat q) (m_at (hc_points (hcell c)) 1%nat q) (m_at (hc_points (hcell c)) 2%nat q)) as KQ.
      apply Rmult_integral in ZZ. destruct ZZ as [ZZ|ZZ]; [apply Rmult_integral in ZZ; unfold hc_at in ZZ; lra|]. 
      pose proof (rsum_zero_each 2 _ (fun d _ => Rle_0_sqr (combine (hc_D (hcell c) d) u q)) (Req_le _ _ ZZ) d Hd) as Z3. cbv beta in Z3. apply Rsqr_0_uniq. exact Z3.
    - assert (CZ : C = 0).
      { pose proof (rsum_zero_each _ _ (fun q Hq => Rmult_le_pos _ _ (PW q Hq) (Rle_0_sqr (combine (hc_V (hcell c)) u q))) MZ 0%nat NQ) as ZZ. cbv beta in ZZ.
        assert (WQ : 0 < v_at (hc_weights (hcell c)) 0%nat) by (apply (positive_weights gt lob junk lu llt k ref m info geometry VM c 0%nat PR Hc NQ)). apply Rmult_integral in ZZ. destruct ZZ as [ZZ|ZZ]; [lra|].
        apply Rsqr_0_uniq in ZZ. rewrite hvalues in ZZ by exact Hc.
        assert (PC : forall n, poly2 n (fun _ _ => C) (fun _ _ => 0) (fun _ _ => 0)) by (intros n; apply poly2_const).
        destruct (reproduce_all _ _ _ _ _ _ _ _ _ (CS c Hc) _ _ _ (PC k) (qx c 0%nat) (qy c 0%nat)) as (_ & _ & R3 & _). specialize (R3 (PC _)). rewrite <- R3, <- ZZ. symmetry. apply projected_agree.
        intros i Hi. apply HCst. destruct (lf_P0 _ _ _ _ _ _ (LF _ _ _ _ _ _ _ _ _ (CS c Hc))) as (_ & CP & _). pose proof (lf_N _ _ _ _ _ _ (LF _ _ _ _ _ _ _ _ _ (CS c Hc))) as NN. rewrite NN. congruence. }
      unfold mesh in Hj. rewrite (size_closure gt lob junk lu llt k ref m info geometry VM c Hc) in Hj. rewrite (HCst j Hj), CZ. unfold dofs_of. destruct (j <? _)%nat; [reflexivity|]. unfold apply_rule. rewrite rsum_0; [ring|]. intros q Hq. ring. }
  intros r Hr. destruct (free_unknown info mesh data r HC Hr) as (g & x & Vg & Lx & Tx & Ix). destruct (covered_cell info mesh g HN CO Vg) as (c & Hc & G). apply In_nth_error in G. destruct G as (p & Hp).
  destruct (local_solution_ok m info data HC HN c v (repeat 0 (NumberStrongs data)) Hc Lv (repeat_length _ _)) as (w & Ew & _ & Hw). rewrite (proj1 (Evl c Hc)) in Ew. injection Ew as <-.
  specialize (Hw p g Hp). unfold value_of in Hw. rewrite Lx, Tx, Ix in Hw. rewrite (nth_error_nth _ _ 0 Hw). apply (VZ c Hc). apply nth_error_Some. intro E0; rewrite E0 in Hp; discriminate.
Qed.
Lemma regular_heat kappa a : positive_rules gt k m geometry -> covered info mesh -> (forall x y z, 0 < kappa x y z) -> 0 < a -> regular_step m data hcreate kappa a.
Proof using VM PM HC.
  intros PR CO PK Ha A M EAM x Hx. set (v := map x (seq 0 (NumberDOFs data))). intros j Hj.
  pose proof (regular kappa a A M PR CO PK Ha EAM v ltac:(unfold v; rewrite map_length, seq_length; reflexivity)) as RG. rewrite <- (nth_map_seq x (NumberDOFs data) j 0 Hj). apply RG; [|exact Hj].
  unfold v. rewrite <- !bilinear_quadratic. unfold bilinear. rewrite <- rsum_scal, <- rsum_plus. apply Req_le. apply rsum_0. intros r Hr. rewrite <- (Rmult_0_r (x r)), <- (Hx r Hr).
  rewrite (rsum_ext _ (fun j => (a * entry (trip_DOFs A) r j + entry (trip_DOFs M) r j) * x j) (fun j => a * (entry (trip_DOFs A) r j * x j) + entry (trip_DOFs M) r j * x j)) by (intros; ring). rewrite rsum_plus, rsum_scal. ring.
Qed.
End Heat.
