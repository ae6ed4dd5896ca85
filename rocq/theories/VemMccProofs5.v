(** The pressure of the mixed pair and the local mixed problem. *)
From Coq Require Import List Arith Bool Lia ZArith Reals Lra.
From Verif Require Import Base RSum MatrixModel MonomialsModel MonomialsSpec MonomialsProofs MonomialsProofs2 MonomialsProofs3 MonomialsProofs4 MonomialsProps
  LagrangeModel GBasisProofs VemQuadModel VemQuadSpec VemQuadProofs VemQuadProofs2 GreenSpec GreenProofs PolyProofs VemModel VemSpec VemProofs VemProofs2 VemProofs3 VemProofs4 VemProofs5 GaussModel VemMccModel VemMccSpec VemMccProofs VemMccProofs2 VemMccProofs3 VemMccProofs4.
Import ListNotations.
Local Open Scope R_scope.

(** ** Pressure *)
Lemma pressure_reference gt gs k ref : MCC_Pressure_Create gt gs k = Ok ref -> rm_Order ref = k /\ (rm_NumDofs2D ref = num2 k)%nat /\ Compute M2 k = Ok (rm_Monomials ref) /\
  vq_ReferenceTriangleQuadrature (rm_Quadrature ref) = gt (2 * (k + 1))%nat.
Proof.
  unfold MCC_Pressure_Create. intros E. apply bind_Ok in E. destruct E as (m & E & F). injection F as <-. cbn [rm_Order rm_NumDofs2D rm_Monomials rm_Quadrature]. split; [reflexivity|]. split; [apply num2_half|]. auto.
Qed.
Lemma pressure_exists gt gs k : exists ref, MCC_Pressure_Create gt gs k = Ok ref.
Proof. unfold MCC_Pressure_Create. destruct (C27_monomials_enumerated_once 2 M2 k class2) as (m & E & _). rewrite E. cbn [bind]. eauto. Qed.
Lemma pressure_local gt gs k p junk ref : good_mixed_rules gt gs k -> good_polygon p -> MCC_Pressure_Create gt gs k = Ok ref -> exists l IQ,
  PolygonInternalQuadrature (gt (2 * (k + 1))%nat) (pg_TriangulationVertices p) = Ok IQ /\ MCC_Pressure_CreateLocalSpace junk ref p = Ok l /\
  lq_NumBasisFunctions l = num2 k /\ lq_Nk l = num2 k /\ lq_Centroid l = pg_Centroid p /\ lq_Diameter l = pg_Diameter p /\ lq_InternalQuadrature l = IQ /\ lq_Qmatrix l = mzero 0 0 /\
  m_rows (lq_VanderInternal l) = m_cols (q_Points IQ) /\ m_cols (lq_VanderInternal l) = num2 k /\
  (forall q i, (i < num2 k)%nat -> m_at (lq_VanderInternal l) q i = phi (pg_Centroid p 0%nat) (pg_Centroid p 1%nat) (pg_Diameter p) i (m_at (q_Points IQ) 0 q) (m_at (q_Points IQ) 1 q)) /\
  m_rows (lq_Hmatrix l) = num2 k /\ m_cols (lq_Hmatrix l) = num2 k /\
  (forall i j, m_at (lq_Hmatrix l) i j = apply_rule (q_Weights IQ) (fun q => m_at (lq_VanderInternal l) q i * m_at (lq_VanderInternal l) q j)).
Proof.
  intros GR GP E. destruct (pressure_reference _ _ _ _ E) as (r1 & r2 & r3 & r4). destruct (gp_triangulation _ GP) as (HT & _).
  destruct (C49_internal_all (gt (2 * (k + 1))%nat) (pg_TriangulationVertices p) (fun _ _ => 0) (gm_triangle _ _ _ GR) HT) as (IQ & EI & I1 & _).
  pose proof (internal_nonneg _ _ _ (gm_triangle _ _ _ GR) HT EI (gm_triangle_nonneg _ _ _ GR)) as NNW.
  unfold MCC_Pressure_CreateLocalSpace. rewrite r1, r2, r4, EI. cbn [bind].
  destruct (vander_m k _ r3 junk (q_Points IQ) (pg_Centroid p) (pg_Diameter p) (proj1 I1) (gp_diameter _ GP)) as (V & EV & V1 & V2 & V3). rewrite EV. cbn [bind]. rewrite (vsqrt_ok _ NNW). cbn [bind].
  destruct (gram_ok (q_Weights IQ) V NNW) as (H & EH & h1 & h2 & h3). { rewrite V1. symmetry. apply I1. } rewrite EH. cbn [bind].
  eexists _, IQ. split; [reflexivity|]. split; [reflexivity|]. cbn [lq_NumBasisFunctions lq_Nk lq_Centroid lq_Diameter lq_InternalQuadrature lq_Qmatrix lq_VanderInternal lq_Hmatrix].
  rewrite num2_half. do 8 (split; [auto|]). split; [auto|]. split; [congruence|]. split; [congruence|]. exact h3.
Qed.

Lemma C114_alone_all : forall gt gs k p junk, good_mixed_rules gt gs k -> good_polygon p -> exists ref l, MCC_Pressure_Create gt gs k = Ok ref /\ MCC_Pressure_CreateLocalSpace junk ref p = Ok l /\
  MCC_Pressure_Values_quadrature l = UB /\ forall points, m_rows points = 3%nat -> MCC_Pressure_Values junk ref l points = UB.
Proof.
  intros gt gs k p junk GR GP. destruct (pressure_exists gt gs k) as (ref & E). destruct (pressure_local gt gs k p junk ref GR GP E) as (l & IQ & EI & EL & _ & _ & f1 & f2 & f3 & f4 & f5 & f6 & _). exists ref, l. do 2 (split; [auto|]).
  pose proof (num2_pos k). unfold MCC_Pressure_Values_quadrature, MCC_Pressure_Values, mmul. rewrite f4. cbn [mtrans mzero m_rows m_cols]. split.
  - rewrite f6. destruct (num2 k); [lia|reflexivity].
  - intros points HP. rewrite f1, f2. destruct (pressure_reference _ _ _ _ E) as (_ & _ & r3 & _). destruct (vander_m k _ r3 junk points (pg_Centroid p) (pg_Diameter p) HP (gp_diameter _ GP)) as (V & EV & V1 & V2 & V3). rewrite EV. cbn [bind]. rewrite V2. destruct (num2 k); [lia|reflexivity].
Qed.

Section All.
Variables (gt gs : nat -> QuadratureData) (junk : nat -> nat -> R) (llt : Solver) (svd : Svd) (k : nat) (p : Polygon) (ref : MCC_2D_Reference) (l : MCC_Local).
Hypothesis MS : mcc_space gt gs junk llt svd k p ref l.
Let GR : good_mixed_rules gt gs k. Proof. apply (ms_rules _ _ _ _ _ _ _ _ _ MS). Qed.
Let GP : good_polygon p. Proof. apply (ms_polygon _ _ _ _ _ _ _ _ _ MS). Qed.
Let Ellt : exact_for positive_definite llt. Proof. apply (ms_llt _ _ _ _ _ _ _ _ _ MS). Qed.
Let SV : completes svd (lm_TkNabla l). Proof. apply (ms_svd _ _ _ _ _ _ _ _ _ MS). Qed.
Let RF : MCC_Velocity_Create gt gs k = Ok ref. Proof. apply (ms_reference _ _ _ _ _ _ _ _ _ MS). Qed.
Let LF : mcc_facts gt gs k p llt svd l. Proof. apply (LF gt gs junk llt svd k p ref l MS). Qed.
Let cx := pg_Centroid p 0%nat.
Let cy := pg_Centroid p 1%nat.
Let h := pg_Diameter p.
Let Nk := num2 k.
Let nn := (num2 k - 1)%nat.
Let no := (num2 k - (k + 1))%nat.
Let nv := m_cols (pg_Vertices p).
Let nb := ((k + 1) * nv)%nat.
Let N := (nb + (nn + no))%nat.
Notation I := (mcc_inside l).
Notation ph := (phi cx cy h).
Notation comb := (VemMccProofs3.comb p).
Notation dv := (VemMccProofs3.div k p l).
Notation pr := (VemMccProofs3.proj k p l).
Let Hh : h <> 0. Proof. apply gp_diameter; auto. Qed.
Let fN : lm_NumBasisFunctions l = N. Proof. apply (mf_N _ _ _ _ _ _ _ LF). Qed.
Let fNk : lm_Nk l = Nk. Proof. apply (mf_Nk _ _ _ _ _ _ _ LF). Qed.

Lemma quadrature_same IQ : PolygonInternalQuadrature (gt (2 * (k + 1))%nat) (pg_TriangulationVertices p) = Ok IQ -> lm_InternalQuadrature l = IQ.
Proof.
  intros E. pose proof (ms_local _ _ _ _ _ _ _ _ _ MS) as EL. unfold MCC_CreateLocalSpace in EL. destruct (rf_all gt gs k ref p RF) as (_ & _ & _ & _ & _ & rt & _). rewrite rt, E in EL. cbn [bind] in EL.
  repeat match type of EL with
  | (_ <- _ ;; _) = Ok _ => apply bind_Ok in EL; destruct EL as (? & _ & EL)
  | (let '(_, _) := ?x in _) = Ok _ => destruct x
  | (match ?x with _ => _ end) = Ok _ => destruct x; try discriminate
  end. injection EL as <-. reflexivity.
Qed.

Lemma C114_pair_all : forall refq, MCC_Pressure_Create gt gs k = Ok refq -> exists lq, MCC_Pair_Pressure junk refq p l = Ok lq /\
  lq_NumBasisFunctions lq = lm_Nk l /\ lq_InternalQuadrature lq = lm_InternalQuadrature l /\
  (exists V, MCC_Pressure_Values_quadrature lq = Ok V /\ m_rows V = m_cols (mcc_points l) /\ m_cols V = lm_Nk l /\
    forall q i, (i < lm_Nk l)%nat -> m_at V q i = mcc_monomial ref l i (m_at (mcc_points l) 0 q) (m_at (mcc_points l) 1 q)) /\
  (forall points, m_rows points = 3%nat -> exists V, MCC_Pressure_Values junk refq lq points = Ok V /\ m_rows V = m_cols points /\ m_cols V = lm_Nk l /\
    forall q i, (i < lm_Nk l)%nat -> m_at V q i = mcc_monomial ref l i (m_at points 0 q) (m_at points 1 q)) /\
  (forall i j, (i < lm_Nk l)%nat -> (j < lm_Nk l)%nat -> m_at (lq_Hmatrix lq) i j = mcc_inside l (fun x y => mcc_monomial ref l i x y * mcc_monomial ref l j x y)).
Proof.
  intros refq E. destruct (pressure_local gt gs k p junk refq GR GP E) as (lq & IQ & EI & EL & f0 & f0' & f1 & f2 & f3 & f4 & f5 & f6 & f7 & f8 & f9 & f10). pose proof (quadrature_same IQ EI) as EQ.
  unfold MCC_Pair_Pressure. rewrite EL. cbn [bind]. rewrite (mf_Q _ _ _ _ _ _ _ LF), fNk. unfold topLeftCorner, mat_block. cbn [midentity m_rows m_cols].
  assert (HK : (Nk <= num2 (k + 1))%nat) by (rewrite num2_S; unfold Nk; lia). rewrite (leb_true (0 + Nk) (num2 (k + 1))) by lia. cbn [andb bind].
  eexists. split; [reflexivity|]. cbn [lq_NumBasisFunctions lq_InternalQuadrature lq_Hmatrix]. split; [exact f0|]. split; [congruence|].
  assert (MP : forall i x y, (i < Nk)%nat -> mcc_monomial ref l i x y = ph i x y) by (intros; apply (mono_ph gt gs junk llt svd k p ref l MS); lia).
  assert (ID : forall (v : nat -> R) i, (i < Nk)%nat -> rsum Nk (fun c => v c * (if (0 + i =? 0 + c)%nat then 1 else 0)) = v i).
  { intros v i Hi. rewrite (rsum_single _ _ i); auto; [rewrite Nat.eqb_refl; ring|]. intros c Hc Hne. replace (0 + i =? 0 + c)%nat with false by (symmetry; apply Nat.eqb_neq; lia). ring. }
  split; [|split].
  - unfold MCC_Pressure_Values_quadrature, mmul. cbn [lq_VanderInternal lq_Qmatrix mtrans m_rows m_cols m_at]. rewrite f6. fold Nk. rewrite Nat.eqb_refl. eexists. split; [reflexivity|]. cbn [m_rows m_cols m_at]. unfold mcc_points. rewrite EQ. do 2 (split; [auto|]).
    intros q i Hi. rewrite MP by auto. transitivity (rsum Nk (fun c => m_at (lq_VanderInternal lq) q c * (if (0 + i =? 0 + c)%nat then 1 else 0))); [reflexivity|]. rewrite ID by auto. apply f7. auto.
  - intros points HP. unfold MCC_Pressure_Values. cbn [lq_Centroid lq_Diameter lq_Qmatrix]. rewrite f1, f2. destruct (pressure_reference _ _ _ _ E) as (_ & _ & r3 & _).
    destruct (vander_m k _ r3 junk points (pg_Centroid p) (pg_Diameter p) HP (gp_diameter _ GP)) as (V & EV & V1 & V2 & V3). rewrite EV. cbn [bind]. unfold mmul. cbn [mtrans m_rows m_cols m_at]. rewrite V2. fold Nk. rewrite Nat.eqb_refl.
    eexists. split; [reflexivity|]. cbn [m_rows m_cols m_at]. do 2 (split; [auto|]). intros q i Hi. rewrite MP by auto. transitivity (rsum Nk (fun c => m_at V q c * (if (0 + i =? 0 + c)%nat then 1 else 0))); [reflexivity|]. rewrite ID by auto. apply V3. auto.
  - intros i j Hi Hj. rewrite f10. unfold mcc_inside, mcc_points. rewrite EQ. apply apply_ext. intros q Hq. rewrite !MP, !f7 by auto. reflexivity.
Qed.

(** ** The local mixed problem *)
Lemma C115_onto_all : forall f fx fy, poly2 k f fx fy -> exists u V, MCC_DivergenceValues l = Ok V /\ forall q, combine V u q = f (m_at (mcc_points l) 0 q) (m_at (mcc_points l) 1 q).
Proof.
  intros f fx fy P. destruct (div_onto gt gs k p llt svd l GR GP LF Ellt f fx fy P) as (u & U). destruct (values_div gt gs junk llt svd k p ref l MS) as (V & E & _ & _ & A). exists u, V. split; auto. intros q. now rewrite A, U.
Qed.

Definition mass_form (V0 V1 S : Mat) (u : nat -> R) : R :=
  apply_rule (q_Weights (lm_InternalQuadrature l)) (fun q => combine V0 u q * combine V0 u q + combine V1 u q * combine V1 u q) + rsum N (fun i => rsum N (fun j => u i * m_at S i j * u j)).
Lemma mass_positive V0 V1 S : 0 < pg_Measure p -> MCC_Values_quadrature l = Ok [V0; V1] -> MCC_DofiDofi l = Ok S -> forall u, mass_form V0 V1 S u <= 0 -> forall j, (j < N)%nat -> u j = 0.
Proof.
  intros PM EV ES u Hu.
  destruct (values_quadrature gt gs junk llt svd k p ref l MS) as (V0' & V1' & EV' & _ & A). rewrite EV in EV'. injection EV' as <- <-.
  destruct (mf_D _ _ _ _ _ _ _ LF) as (d1 & d2 & _). destruct (mf_P _ _ _ _ _ _ _ LF) as (p1 & p2 & _). fold Nk in d2, p1. change (m_rows (lm_Dmatrix l) = N) in d1. change (m_cols (lm_Pi0k l) = N) in p2.
  unfold MCC_DofiDofi in ES. destruct (C51_dofi_all (lm_Pi0k l) (lm_Measure l) (lm_Dmatrix l)) as (S' & E & RS & CS & SY & _ & SQ & SD); [congruence|congruence|]. rewrite ES in E. injection E as <-. rewrite d1 in RS, CS, SQ. rewrite d2, p2 in SQ. rewrite RS, CS in SQ.
  unfold mass_form in Hu. rewrite SQ, (mf_measure _ _ _ _ _ _ _ LF) in Hu.
  set (res := rsum N (fun q => (rsum (2 * Nk) (fun c => m_at (lm_Dmatrix l) q c * rsum N (fun j => m_at (lm_Pi0k l) c j * u j)) - u q) ^ 2)) in *.
  assert (NR : 0 <= res) by (apply rsum_nonneg; intros; apply pow2_ge_0). assert (0 <= pg_Measure p * res) by (apply Rmult_le_pos; lra).
  set (x := VemMccProofs3.coef k p (lm_Pi0k l) u).
  assert (EE : apply_rule (q_Weights (lm_InternalQuadrature l)) (fun q => combine V0 u q * combine V0 u q + combine V1 u q * combine V1 u q) = I (fun s t => field k p l 0 x s t * field k p l 0 x s t) + I (fun s t => field k p l 1 x s t * field k p l 1 x s t)).
  { rewrite <- I_plus. apply apply_ext. intros q Hq. destruct (A u q) as (-> & ->); [|reflexivity]. rewrite (proj2 (mf_IQ _ _ _ _ _ _ _ LF)) in Hq. exact Hq. }
  rewrite EE in Hu. pose proof (energy_zero gt gs k p llt svd l GR GP LF SV x ltac:(lra)) as Z. destruct (field_square gt gs k p llt svd l GR GP LF 0 x) as (F0 & _), (field_square gt gs k p llt svd l GR GP LF 1 x) as (F1 & _).
  assert (R0 : res = 0). { assert (pg_Measure p * res = 0) as Q by lra. apply Rmult_integral in Q. destruct Q; [lra|auto]. }
  intros j Hj. pose proof (rsum_nonneg_0 _ _ ltac:(intros; apply pow2_ge_0) R0 j Hj) as Q. cbv beta in Q. rewrite (rsum_0 (2 * Nk)) in Q.
  - assert (u j * u j = 0) as Q2 by lra. apply Rmult_integral in Q2. tauto.
  - intros c Hc. assert (E0 : rsum N (fun j => m_at (lm_Pi0k l) c j * u j) = 0) by (apply (Z c); exact Hc). rewrite E0. ring.
Qed.

Lemma C115_mass_all : 0 < lm_Measure l -> exists V0 V1 S, MCC_Values_quadrature l = Ok [V0; V1] /\ MCC_DofiDofi l = Ok S /\
  forall u, (exists j, (j < lm_NumBasisFunctions l)%nat /\ u j <> 0) ->
    0 < apply_rule (q_Weights (lm_InternalQuadrature l)) (fun q => combine V0 u q * combine V0 u q + combine V1 u q * combine V1 u q) +
        rsum (lm_NumBasisFunctions l) (fun i => rsum (lm_NumBasisFunctions l) (fun j => u i * m_at S i j * u j)).
Proof.
  rewrite (mf_measure _ _ _ _ _ _ _ LF). intros PM. destruct (values_quadrature gt gs junk llt svd k p ref l MS) as (V0 & V1 & EV & _). exists V0, V1.
  assert (EX : exists S, MCC_DofiDofi l = Ok S). { destruct (mf_D _ _ _ _ _ _ _ LF) as (d1 & d2 & _). destruct (mf_P _ _ _ _ _ _ _ LF) as (p1 & p2 & _). destruct (C51_dofi_all (lm_Pi0k l) (lm_Measure l) (lm_Dmatrix l)) as (S' & E & _); [congruence|congruence|]. eauto. }
  destruct EX as (S & ES). exists S. do 2 (split; [auto|]). rewrite fN. intros u (j & Hj & Hu). apply Rnot_le_lt. intros Q. apply Hu. apply (mass_positive V0 V1 S PM EV ES u Q j Hj).
Qed.

Lemma C115_mixed_all : 0 < lm_Measure l -> exists V0 V1 V S, MCC_Values_quadrature l = Ok [V0; V1] /\ MCC_DivergenceValues l = Ok V /\ MCC_DofiDofi l = Ok S /\
  let A i j := apply_rule (q_Weights (lm_InternalQuadrature l)) (fun q => m_at V0 q i * m_at V0 q j + m_at V1 q i * m_at V1 q j) + m_at S i j in
  let B i j := apply_rule (q_Weights (lm_InternalQuadrature l)) (fun q => m_at (MCC_PolynomialsValues_quadrature l) q i * m_at V q j) in
  forall u p : nat -> R,
    (forall j, (j < lm_NumBasisFunctions l)%nat -> rsum (lm_NumBasisFunctions l) (fun i => A j i * u i) - rsum (lm_Nk l) (fun i => B i j * p i) = 0) ->
    (forall i, (i < lm_Nk l)%nat -> rsum (lm_NumBasisFunctions l) (fun j => B i j * u j) = 0) ->
    (forall j, (j < lm_NumBasisFunctions l)%nat -> u j = 0) /\ (forall i, (i < lm_Nk l)%nat -> p i = 0).
Proof.
  rewrite (mf_measure _ _ _ _ _ _ _ LF). intros PM. destruct (values_quadrature gt gs junk llt svd k p ref l MS) as (V0 & V1 & EV & VD & VV). destruct (values_div gt gs junk llt svd k p ref l MS) as (V & EDv & v1 & v2 & DV).
  assert (EX : exists S, MCC_DofiDofi l = Ok S). { destruct (mf_D _ _ _ _ _ _ _ LF) as (d1 & d2 & _). destruct (mf_P _ _ _ _ _ _ _ LF) as (p1 & p2 & _). destruct (C51_dofi_all (lm_Pi0k l) (lm_Measure l) (lm_Dmatrix l)) as (S' & E & _); [congruence|congruence|]. eauto. }
  destruct EX as (S & ES). exists V0, V1, V, S. do 3 (split; [auto|]). cbv zeta. rewrite fN, fNk. set (W := q_Weights (lm_InternalQuadrature l)). set (M := MCC_PolynomialsValues_quadrature l).
  destruct (VD V0 ltac:(now left)) as (_ & c0). destruct (VD V1 ltac:(right; now left)) as (_ & c1). change (m_cols V0 = N) in c0. change (m_cols V1 = N) in c1. change (m_cols V = N) in v2.
  assert (CMB : forall X u q, m_cols X = N -> combine X u q = rsum N (fun j => m_at X q j * u j)) by (intros X u q <-; reflexivity).
  intros u pp H1 H2.
  assert (BU : forall i v, rsum N (fun j => apply_rule W (fun q => m_at M q i * m_at V q j) * v j) = apply_rule W (fun q => m_at M q i * combine V v q)).
  { intros i v. rewrite (apply_ext _ (fun q => m_at M q i * combine V v q) (fun q => rsum N (fun j => v j * (m_at M q i * m_at V q j)))) by (intros q Hq; rewrite CMB by auto; rewrite <- rsum_scal; apply rsum_ext; intros; ring).
    rewrite apply_rsum. apply rsum_ext. intros j Hj. rewrite apply_scal. ring. }
  assert (CR : rsum N (fun j => u j * rsum Nk (fun i => apply_rule W (fun q => m_at M q i * m_at V q j) * pp i)) = 0).
  { rewrite (rsum_ext _ _ (fun j => rsum Nk (fun i => pp i * (apply_rule W (fun q => m_at M q i * m_at V q j) * u j)))) by (intros; rewrite <- rsum_scal; apply rsum_ext; intros; ring).
    rewrite rsum_swap. apply rsum_0. intros i Hi. rewrite rsum_scal, H2 by auto. ring. }
  assert (U0 : forall j, (j < N)%nat -> u j = 0).
  { apply (mass_positive V0 V1 S PM EV ES u). apply Req_le. unfold mass_form.
    transitivity (rsum N (fun j => u j * (rsum N (fun i => (apply_rule W (fun q => m_at V0 q j * m_at V0 q i + m_at V1 q j * m_at V1 q i) + m_at S j i) * u i) - rsum Nk (fun i => apply_rule W (fun q => m_at M q i * m_at V q j) * pp i))));
      [|apply rsum_0; intros j Hj; rewrite H1 by auto; ring].
    rewrite (rsum_ext N (fun j => u j * (_ - _)) (fun j => u j * rsum N (fun i => (apply_rule W (fun q => m_at V0 q j * m_at V0 q i + m_at V1 q j * m_at V1 q i) + m_at S j i) * u i) - u j * rsum Nk (fun i => apply_rule W (fun q => m_at M q i * m_at V q j) * pp i))) by (intros; ring).
    rewrite rsum_minus, CR, Rminus_0_r. fold W.
    rewrite (rsum_ext N (fun j => u j * rsum N _) (fun j => apply_rule W (fun q => m_at V0 q j * u j * combine V0 u q + m_at V1 q j * u j * combine V1 u q) + rsum N (fun i => u j * m_at S j i * u i))).
    - rewrite rsum_plus. f_equal. rewrite <- apply_rsum. apply apply_ext. intros q Hq. rewrite rsum_plus, !rsum_scal_r, <- !CMB by auto. reflexivity.
    - intros j Hj. rewrite (apply_ext _ (fun q => m_at V0 q j * u j * combine V0 u q + m_at V1 q j * u j * combine V1 u q) (fun q => rsum N (fun i => u j * u i * (m_at V0 q j * m_at V0 q i + m_at V1 q j * m_at V1 q i)))).
      + rewrite apply_rsum, <- rsum_plus, <- rsum_scal. apply rsum_ext. intros i Hi. rewrite apply_scal. ring.
      + intros q Hq. rewrite !CMB by auto. rewrite <- !rsum_scal, <- rsum_plus. apply rsum_ext. intros; ring. }
  split; [exact U0|].
  destruct (mf_VI _ _ _ _ _ _ _ LF) as (_ & _ & VI). fold Nk cx cy h in VI.
  destruct (div_onto gt gs k p llt svd l GR GP LF Ellt (comb Nk pp) _ _ (VemMccProofs3.comb_poly2 p GP k pp)) as (v & HV).
  assert (Z : I (fun x y => comb Nk pp x y * comb Nk pp x y) = 0).
  { transitivity (rsum N (fun j => v j * rsum Nk (fun i => apply_rule W (fun q => m_at M q i * m_at V q j) * pp i))).
    - rewrite (rsum_ext N _ (fun j => rsum Nk (fun i => pp i * (apply_rule W (fun q => m_at M q i * m_at V q j) * v j)))) by (intros; rewrite <- rsum_scal; apply rsum_ext; intros; ring).
      rewrite rsum_swap. rewrite (rsum_ext Nk _ (fun i => apply_rule W (fun q => pp i * (m_at M q i * combine V v q)))) by (intros i Hi; rewrite rsum_scal, BU, apply_scal; reflexivity).
      rewrite <- apply_rsum. apply apply_ext. intros q Hq. rewrite DV, HV. unfold VemMccProofs3.comb at 1. rewrite <- rsum_scal_r. apply rsum_ext. intros i Hi. unfold M, MCC_PolynomialsValues_quadrature. rewrite VI by auto. fold cx cy h. ring.
    - apply rsum_0. intros j Hj. specialize (H1 j Hj). rewrite (rsum_0 N) in H1 by (intros i Hi; rewrite U0 by auto; ring). replace (rsum Nk (fun i => apply_rule W (fun q => m_at M q i * m_at V q j) * pp i)) with 0 by lra. ring. }
  intros i Hi. apply (phi_independent cx cy h Hh k pp); auto. exact (proj2 (I_square gt gs k p llt svd l GR GP LF _ _ _ (poly2_le k (k + 1) _ _ _ ltac:(lia) (VemMccProofs3.comb_poly2 p GP k pp))) Z).
Qed.
End All.

(** ** Two cells that share an edge *)
Lemma C112_neighbours_all : forall gt gs junk llt svd llt' svd' k ref p l p' l' i i', mcc_space gt gs junk llt svd k p ref l -> mcc_space gt gs junk llt' svd' k p' ref l' ->
  (i < m_cols (pg_Vertices p))%nat -> (i' < m_cols (pg_Vertices p'))%nat ->
  Rabs (v_at (pg_EdgesLength p) i) = Rabs (v_at (pg_EdgesLength p') i') -> nth i (pg_EdgesDirection p) true = negb (nth i' (pg_EdgesDirection p') true) ->
  (forall d, (d < 3)%nat -> m_at (pg_Vertices p) d (edge_first (pg_Vertices p) (pg_EdgesDirection p) i) = m_at (pg_Vertices p') d (edge_first (pg_Vertices p') (pg_EdgesDirection p') i') /\
                            m_at (pg_Vertices p) d (edge_last (pg_Vertices p) (pg_EdgesDirection p) i) = m_at (pg_Vertices p') d (edge_last (pg_Vertices p') (pg_EdgesDirection p') i')) ->
  (forall q d, (q < k + 1)%nat -> (d < 3)%nat -> m_at (mcc_boundary_points l) d ((k + 1) * i + q) = m_at (mcc_boundary_points l') d ((k + 1) * i' + q)) /\
  (forall u u', (forall q, (q < k + 1)%nat -> u ((k + 1) * i + q)%nat = u' ((k + 1) * i' + q)%nat) -> mcc_edge_outflow ref l p i u = - mcc_edge_outflow ref l' p' i' u').
Proof.
  intros gt gs junk llt svd llt' svd' k ref p l p' l' i i' MS MS' Hi Hi' HL HD HV. split.
  - intros q d Hq Hd. rewrite (edge_points gt gs junk llt svd k p ref l MS), (edge_points gt gs junk llt' svd' k p' ref l' MS') by auto. unfold along. destruct (HV d Hd) as (-> & ->). reflexivity.
  - intros u u' HU. unfold mcc_edge_outflow. rewrite HL, HD, (mf_order _ _ _ _ _ _ _ (LF gt gs junk llt svd k p ref l MS)), (mf_order _ _ _ _ _ _ _ (LF gt gs junk llt' svd' k p' ref l' MS')).
    destruct (rf_all gt gs k ref p (ms_reference _ _ _ _ _ _ _ _ _ MS)) as (_ & _ & _ & _ & _ & _ & ->).
    rewrite Ropp_mult_distr_r. f_equal. replace (- apply_rule (q_Weights (gs (2 * k + 1)%nat)) (fun q => (if nth i' (pg_EdgesDirection p') true then 1 else -1) * u' ((k + 1) * i' + q)%nat))
      with (-1 * apply_rule (q_Weights (gs (2 * k + 1)%nat)) (fun q => (if nth i' (pg_EdgesDirection p') true then 1 else -1) * u' ((k + 1) * i' + q)%nat)) by ring. rewrite <- apply_scal.
    apply apply_ext. intros q Hq. rewrite (proj2 (gm_segment _ _ _ (ms_rules _ _ _ _ _ _ _ _ _ MS))), (gm_segment_points _ _ _ (ms_rules _ _ _ _ _ _ _ _ _ MS)) in Hq. rewrite HU by auto. destruct (nth i' (pg_EdgesDirection p') true); cbn [negb]; ring.
Qed.

Lemma measure_of gt gs junk llt svd k p ref l : mcc_space gt gs junk llt svd k p ref l -> lm_Measure l = pg_Measure p.
Proof. intros MS. apply (mf_measure _ _ _ _ _ _ _ (LF gt gs junk llt svd k p ref l MS)). Qed.

(** a scaled monomial has partial derivatives *)
Lemma power_affine (C c h : R) n x : h <> 0 -> derivable_pt_lim (fun t => C * ((t - c) / h) ^ n) x (C * (INR n * ((x - c) / h) ^ Nat.pred n * (1 / h))).
Proof.
  intros Hh. apply (derivable_pt_lim_scal (fun t => ((t - c) / h) ^ n)). apply (derivable_pt_lim_comp (fun t => (t - c) / h) (fun u => u ^ n)); [|apply derivable_pt_lim_pow].
  apply (derivable_pt_lim_ext (fun t => (1 / h) * (t - c))); [intros t; field; auto|].
  assert (D : derivable_pt_lim (fun t => (1 / h) * (t - c)) x ((1 / h) * (1 - 0))).
  { apply (derivable_pt_lim_scal (fun t => t - c)). apply (derivable_pt_lim_minus id (fct_cte c)); [apply derivable_pt_lim_id|apply derivable_pt_lim_const]. }
  replace ((1 / h) * (1 - 0)) with (1 / h) in D by (field; auto). exact D.
Qed.
Lemma gradients_exist ref l : lm_Diameter l <> 0 -> exists gx gy, mcc_gradients ref l gx gy.
Proof.
  intros Hh. pose (P := fun x y => scaled (lm_Centroid l) (lm_Diameter l) (fun d => match d with 0%nat => x | 1%nat => y | _ => 0 end)).
  exists (fun i x y => match expo (Exponents (rm_Monomials ref)) i with [] => 0 | a :: t => mono_from 1 t (P x y) * (INR (Z.to_nat a) * ((x - lm_Centroid l 0%nat) / lm_Diameter l) ^ Nat.pred (Z.to_nat a) * (1 / lm_Diameter l)) end).
  exists (fun i x y => match expo (Exponents (rm_Monomials ref)) i with [] => 0 | [_] => 0 | a :: b :: t => ((x - lm_Centroid l 0%nat) / lm_Diameter l) ^ Z.to_nat a * mono_from 2 t (P x y) *
     (INR (Z.to_nat b) * ((y - lm_Centroid l 1%nat) / lm_Diameter l) ^ Nat.pred (Z.to_nat b) * (1 / lm_Diameter l)) end).
  intros i x y. unfold mcc_monomial. fold (P x y). destruct (expo (Exponents (rm_Monomials ref)) i) as [|a t].
  { split; apply derivable_pt_lim_const. }
  split.
  - eapply derivable_pt_lim_ext; [|apply (power_affine (mono_from 1 t (P x y)) (lm_Centroid l 0%nat) _ _ x Hh)]. intros u. cbv beta. unfold mono. cbn [mono_from]. rewrite Rmult_comm. f_equal.
    apply mono_from_ext. intros j Hj. unfold P, scaled. destruct j; [lia|reflexivity].
  - destruct t as [|b t].
    { eapply derivable_pt_lim_ext; [|apply (derivable_pt_lim_const (((x - lm_Centroid l 0%nat) / lm_Diameter l) ^ Z.to_nat a))]. intros u. unfold mono, fct_cte. cbn [mono_from]. rewrite Rmult_1_r. reflexivity. }
    eapply derivable_pt_lim_ext; [|apply (power_affine (((x - lm_Centroid l 0%nat) / lm_Diameter l) ^ Z.to_nat a * mono_from 2 t (P x y)) (lm_Centroid l 1%nat) _ _ y Hh)]. intros u. cbv beta. unfold mono. cbn [mono_from].
    rewrite (mono_from_ext 2 t (P x y) (scaled (lm_Centroid l) (lm_Diameter l) (fun d => match d with 0%nat => x | 1%nat => u | _ => 0 end))).
    + unfold scaled. ring.
    + intros j Hj. unfold P, scaled. destruct j as [|[|j]]; [lia|lia|reflexivity].
Qed.
