(** The statements about the Raviart-Thomas triangle. *)
From Coq Require Import List Arith Bool Lia ZArith Reals Lra.
From Verif Require Import Base RSum MatrixModel MonomialsModel MonomialsSpec MonomialsProofs MonomialsProofs2 MonomialsProofs3 MonomialsProofs4 MonomialsProps
  LagrangeSpec LagrangeProofs GBasisProofs VemQuadModel VemQuadSpec VemQuadProofs VemQuadProofs2 GreenSpec GreenProofs PolyProofs VemModel VemSpec VemProofs VemProofs2
  RtModel RtSpec RtProofs RtProofs2 RtProofs3 RtProofs4 RtProofs5.
Import ListNotations.
Local Open Scope R_scope.

Lemma C79_all : forall gt gs junk lu k, rt_rules gt gs k -> exact_for nonsingular lu ->
  exists ref, RT_Create gt gs junk lu k = Ok ref /\
    rt_v_NumBasisFunctions ref = ((k + 1) * (k + 3))%nat /\ rt_v_NumDofs0D ref = 0%nat /\ rt_v_NumDofs1D ref = (k + 1)%nat /\ rt_v_NumDofs2D ref = (k * (k + 1))%nat /\
    (2 * rt_p_NumBasisFunctions ref = (k + 1) * (k + 2))%nat /\
    forall dirs, length dirs = 3%nat -> exists b v, map_at (rt_basis_functions ref) dirs = Ok b /\
      m_cols (rb_MonomialsCoefficients b) = rt_v_NumBasisFunctions ref /\ velocity_fields ref (rb_MonomialsCoefficients b) v /\
      forall r j, (r < rt_v_NumBasisFunctions ref)%nat -> (j < rt_v_NumBasisFunctions ref)%nat ->
        rt_dof (gs (2 * k + 1)%nat) (gt (2 * (k + 1))%nat) k ref dirs r (v j) = delta r j.
Proof.
  intros gt gs junk lu k RR LU. destruct (create_ok gt gs k RR junk lu LU) as (ref & E & B & _). exists ref. split; auto.
  assert (EL : rt_element gt gs junk lu k ref) by (constructor; auto). pose proof (num2_val k). pose proof (low_add k).
  rewrite (rx_N _ _ _ _ B), (rx_n0 _ _ _ _ B), (rx_n1 _ _ _ _ B), (rx_n2 _ _ _ _ B), (rx_p _ _ _ _ B).
  split; [apply N_dim|]. split; auto. split; auto. split; [nia|]. split; auto.
  intros dirs Hd. destruct (C79_facts gt gs junk lu k ref EL dirs Hd) as (b & v & E1 & _ & E3 & E4 & _ & E6). exists b, v. auto.
Qed.

Lemma C80_all : forall gt gs junk lu k ref dirs b v, rt_element gt gs junk lu k ref -> length dirs = 3%nat ->
  map_at (rt_basis_functions ref) dirs = Ok b -> velocity_fields ref (rb_MonomialsCoefficients b) v ->
  (forall j, (j < rt_v_NumBasisFunctions ref)%nat -> rt_field k (v j)) /\
  forall w, rt_field k w -> forall x y, let u := fun j => rt_dof (gs (2 * k + 1)%nat) (gt (2 * (k + 1))%nat) k ref dirs j w in
    fst w x y = fst (lincomb (rt_v_NumBasisFunctions ref) u v) x y /\ snd w x y = snd (lincomb (rt_v_NumBasisFunctions ref) u v) x y.
Proof.
  intros gt gs junk lu k ref dirs b v EL Hd Eb Hv. destruct (element_facts gt gs k (re_rules _ _ _ _ _ _ EL) junk lu ref EL) as (B & _). rewrite (rx_N _ _ _ _ B). split.
  - intros j Hj. destruct (C79_facts gt gs junk lu k ref EL dirs Hd) as (b' & v' & Eb' & _ & CC & Hv' & Hf & _). rewrite Eb in Eb'. injection Eb' as <-.
    destruct (Hf j) as (p1 & p1x & p1y & p2 & p2x & p2y & q & qx & qy & A1 & A2 & A3 & A4). exists p1, p1x, p1y, p2, p2x, p2y, q, qx, qy. do 3 (split; auto).
    intros x y. destruct (fields_unique junk k ref _ v v' CC Hv Hv' j x y Hj) as (-> & ->). apply A4.
  - intros w Hw x y. apply (reproduces gt gs junk lu k ref EL dirs b v w Hd Eb Hv Hw x y).
Qed.

Lemma C55_all : forall gt gs junk lu k ref C, rt_element gt gs junk lu k ref -> m_rows C = rt_v_NumBasisFunctions ref ->
  rt_v_NumBasisFunctions ref = ((k + 1) * (k + 3))%nat /\
  exists v d, velocity_fields ref C v /\ divergence_fields ref C d /\ forall j, is_divergence (v j) (d j).
Proof.
  intros gt gs junk lu k ref C EL HC. destruct (element_facts gt gs k (re_rules _ _ _ _ _ _ EL) junk lu ref EL) as (B & _). rewrite (rx_N _ _ _ _ B) in *. split; [apply N_dim|].
  exists (fld k C), (fun j => vdiv (1 / 3) (1 / 3) 1 k (column C j)). split; [apply (values_of gt gs k ref C B HC)|]. split; [apply (divergence_of gt gs k ref C B HC)|]. intros j. apply divergence_is.
Qed.

Lemma C56_all : forall gt gs junk lu k ref p, rt_element gt gs junk lu k ref -> triangle_ok p ->
  exists l b v d v' d', RT_CreateLocalSpace ref p = Ok l /\ rl_NumVelocityBasisFunctions l = rt_v_NumBasisFunctions ref /\
    map_at (rt_basis_functions ref) (mp_EdgesDirection p) = Ok b /\ velocity_fields ref (rb_MonomialsCoefficients b) v /\ divergence_fields ref (rb_MonomialsCoefficients b) d /\
    velocity_fields_at ref l v' /\ divergence_fields_at ref l d' /\
    forall j, (j < rl_NumVelocityBasisFunctions l)%nat -> is_divergence (v' j) (d' j) /\
      (forall x y, d' j (px p x y) (py p x y) = d j x y / (2 * signed_area (mp_Vertices p))) /\
      forall e t, (e < 3)%nat -> flux p e (v' j) t = normal_part (dir_of p e) e (v j) t.
Proof.
  intros gt gs junk lu k ref p EL P. destruct (element_facts gt gs k (re_rules _ _ _ _ _ _ EL) junk lu ref EL) as (B & DD).
  destruct (DD _ (to_dirs _ P)) as (BQ & b & D). destruct (local_ok gt gs junk lu k ref EL p P) as (l & El & E1 & E2 & E3 & E4 & _).
  pose proof (values_of gt gs k ref _ B (rd_rows _ _ _ _ _ _ _ _ D)) as HV. pose proof (divergence_of gt gs k ref _ B (rd_rows _ _ _ _ _ _ _ _ D)) as HD.
  exists l, b, (fld k (rb_MonomialsCoefficients b)), (fun j => vdiv (1 / 3) (1 / 3) 1 k (column (rb_MonomialsCoefficients b) j)).
  exists (fun j => push p (fld k (rb_MonomialsCoefficients b) j)), (fun j x y => vdiv (1 / 3) (1 / 3) 1 k (column (rb_MonomialsCoefficients b) j) (inv_x p x y) (inv_y p x y) / mapTriangle_det (mp_Vertices p)).
  split; auto. split; [rewrite E4; symmetry; apply B|]. split; [apply D|]. split; auto. split; auto.
  split; [apply (local_values gt gs junk lu k ref EL p P l b _ El (rd_b _ _ _ _ _ _ _ _ D) HV)|].
  split; [apply (local_divergence gt gs junk lu k ref EL p P l b _ El (rd_b _ _ _ _ _ _ _ _ D) HD)|].
  intros j Hj. split; [apply (push_divergence k p P)|]. split.
  - intros x y. destruct (inv_in p P x y) as (-> & ->). now rewrite det_area.
  - intros e t He. apply (push_flux p P); auto.
Qed.

Lemma fields_at_unique ref l v v' j x y : velocity_fields_at ref l v -> velocity_fields_at ref l v' -> (j < rl_NumVelocityBasisFunctions l)%nat ->
  fst (v j) x y = fst (v' j) x y /\ snd (v j) x y = snd (v' j) x y.
Proof.
  intros H H' Hj. set (P := {| m_rows := 3; m_cols := 1; m_at := fun d _ => match d with 0%nat => x | _ => y end |}). set (junk := fun _ _ : nat => 0).
  destruct (H junk P eq_refl) as (V0 & V1 & E & _ & _ & _ & _ & A). destruct (H' junk P eq_refl) as (V0' & V1' & E' & _ & _ & _ & _ & A').
  rewrite E in E'. injection E' as <- <-. destruct (A 0%nat j ltac:(cbn; lia) Hj) as (A0 & A1). destruct (A' 0%nat j ltac:(cbn; lia) Hj) as (A0' & A1'). cbn in *. split; congruence.
Qed.

Section Shared.
Variables (gt gs : nat -> QuadratureData) (junk : nat -> nat -> R) (lu : Solver) (k : nat) (ref : RT_Reference).
Hypothesis EL : rt_element gt gs junk lu k ref.
Notation seg := (gs (2 * k + 1)%nat).
Notation tri := (gt (2 * (k + 1))%nat).
Notation n := (k + 1)%nat.
Notation N := (3 * n + 2 * low k)%nat.

(** the flux of a combination: a polynomial of degree k whose moments are the coefficients of the edge *)
Lemma flux_combination p l v u e : triangle_ok p -> RT_CreateLocalSpace ref p = Ok l -> velocity_fields_at ref l v -> (e < 3)%nat ->
  is_poly (S k) (flux p e (lincomb N u v)) /\
  forall i, (i < n)%nat -> Q ((0, 0) : R * R) (q_Points seg) (q_Weights seg) (fun t => (t - 1 / 2) ^ i * flux p e (lincomb N u v) t) = u (n * e + i)%nat.
Proof.
  intros P El Hv He. destruct (element_facts gt gs k (re_rules _ _ _ _ _ _ EL) junk lu ref EL) as (B & DD).
  destruct (DD _ (to_dirs _ P)) as (BQ & b & D). pose proof (values_of gt gs k ref _ B (rd_rows _ _ _ _ _ _ _ _ D)) as HV.
  pose proof (local_values gt gs junk lu k ref EL p P l b _ El (rd_b _ _ _ _ _ _ _ _ D) HV) as HL.
  destruct (local_ok gt gs junk lu k ref EL p P) as (l' & El' & _ & _ & _ & E4 & _). rewrite El in El'. injection El' as <-.
  set (C := rb_MonomialsCoefficients b) in *. set (c := fun l => rsum N (fun j => u j * column C j l)).
  assert (FC : forall t, flux p e (lincomb N u v) t = orient (dir_of p e) * trace k (dir_of p e) e c t).
  { intros t. transitivity (flux p e (push p (lincomb N u (fld k C))) t).
    - unfold flux. set (X := edge_at p e t 0). set (Y := edge_at p e t 1). unfold lincomb, push. cbn [fst snd].
      rewrite (rsum_ext N (fun j => u j * fst (v j) X Y) (fun j => u j * fst (push p (fld k C j)) X Y)) by (intros j Hj; now rewrite (proj1 (fields_at_unique ref l v _ j X Y Hv HL ltac:(lia)))).
      rewrite (rsum_ext N (fun j => u j * snd (v j) X Y) (fun j => u j * snd (push p (fld k C j)) X Y)) by (intros j Hj; now rewrite (proj2 (fields_at_unique ref l v _ j X Y Hv HL ltac:(lia)))).
      cbn [push fst snd]. set (x := inv_x p X Y). set (y := inv_y p X Y).
      assert (A : forall a a' d, rsum N (fun j => u j * ((a * fst (fld k C j) x y + a' * snd (fld k C j) x y) / d)) = (a * rsum N (fun j => u j * fst (fld k C j) x y) + a' * rsum N (fun j => u j * snd (fld k C j) x y)) / d).
      { intros a a' d. rewrite <- !rsum_scal, <- rsum_plus. unfold Rdiv. rewrite <- rsum_scal_r. apply rsum_ext. intros; ring. }
      rewrite !A. reflexivity.
    - rewrite (push_flux p P _ e t He). unfold normal_part, trace. f_equal. unfold lincomb. cbn [fst snd].
      set (x := edge_x _ _ _). set (y := edge_y _ _ _). destruct (VX_lin k N u (column C) x y) as (L1 & L2). unfold c. rewrite L1, L2. reflexivity. }
  split.
  - eapply is_poly_ext; [intros t; symmetry; apply FC|]. apply is_poly_scal. now apply trace_poly.
  - intros i Hi.
    transitivity (rt_dof seg tri k ref (mp_EdgesDirection p) (n * e + i) (lincomb N u (fld k C))).
    + unfold rt_dof. cbv zeta. rewrite ltb_true by nia.
      replace ((n * e + i) mod n)%nat with i by (apply (Nat.mod_unique _ _ e); lia). replace ((n * e + i) / n)%nat with e by (apply (Nat.div_unique _ _ _ i); lia).
      unfold Q, edge_dof. cbn [fst snd]. rewrite !Rmult_0_l, !Rplus_0_l. apply apply_ext. intros q Hq. cbv zeta. f_equal. rewrite FC.
      fold (dir_of p e). unfold normal_part, trace. f_equal. unfold lincomb. cbn [fst snd].
      set (x := edge_x _ _ _). set (y := edge_y _ _ _). destruct (VX_lin k N u (column C) x y) as (L1 & L2). unfold c. rewrite L1, L2. reflexivity.
    + rewrite dof_linear by nia. rewrite (rsum_ext N _ (fun j => if (j =? n * e + i)%nat then u j else 0)).
      * apply rsum_indicator. nia.
      * intros j Hj. unfold C. rewrite (dual gt gs k ref junk _ BQ b _ j B D) by (auto; nia). unfold delta. rewrite Nat.eqb_sym. destruct (j =? n * e + i)%nat; ring.
Qed.
End Shared.

Lemma C81_all : forall gt gs junk lu k ref p p' l l' v v' u u' e e', rt_element gt gs junk lu k ref -> triangle_ok p -> triangle_ok p' ->
  RT_CreateLocalSpace ref p = Ok l -> RT_CreateLocalSpace ref p' = Ok l' -> velocity_fields_at ref l v -> velocity_fields_at ref l' v' ->
  (e < 3)%nat -> (e' < 3)%nat -> (forall d, (d < 2)%nat -> edge_from p e d = edge_from p' e' d /\ edge_to p e d = edge_to p' e' d) ->
  (forall i, (i < rt_v_NumDofs1D ref)%nat -> u (rt_v_NumDofs1D ref * e + i)%nat = u' (rt_v_NumDofs1D ref * e' + i)%nat) ->
  forall t, let X := edge_at p e t 0 in let Y := edge_at p e t 1 in
    let nx := edge_to p e 1 - edge_from p e 1 in let ny := - (edge_to p e 0 - edge_from p e 0) in
    let w := lincomb (rt_v_NumBasisFunctions ref) u v in let w' := lincomb (rt_v_NumBasisFunctions ref) u' v' in
    nx * fst w X Y + ny * snd w X Y = nx * fst w' X Y + ny * snd w' X Y.
Proof.
  intros gt gs junk lu k ref p p' l l' v v' u u' e e' EL P P' El El' Hv Hv' He He' HE HU.
  destruct (element_facts gt gs k (re_rules _ _ _ _ _ _ EL) junk lu ref EL) as (B & _). rewrite (rx_N _ _ _ _ B). rewrite (rx_n1 _ _ _ _ B) in HU.
  destruct (flux_combination gt gs junk lu k ref EL p l v u e P El Hv He) as (A1 & A2). destruct (flux_combination gt gs junk lu k ref EL p' l' v' u' e' P' El' Hv' He') as (A1' & A2').
  set (g := fun t => flux p e (lincomb (3 * (k + 1) + 2 * low k) u v) t + -1 * flux p' e' (lincomb (3 * (k + 1) + 2 * low k) u' v') t).
  assert (Z : forall t, g t = 0).
  { apply (edge_zero (q_Points (gs (2 * k + 1)%nat)) (q_Weights (gs (2 * k + 1)%nat)) k (exact_2k gt gs k (re_rules _ _ _ _ _ _ EL))).
    - apply is_poly_plus; auto. now apply is_poly_scal.
    - intros i Hi. set (QQ := Q ((0, 0) : R * R) (q_Points (gs (2 * k + 1)%nat)) (q_Weights (gs (2 * k + 1)%nat))) in *.
      transitivity (QQ (fun t => (t - 1 / 2) ^ i * flux p e (lincomb (3 * (k + 1) + 2 * low k) u v) t + -1 * ((t - 1 / 2) ^ i * flux p' e' (lincomb (3 * (k + 1) + 2 * low k) u' v') t))).
      + apply Q_ext. intros t. unfold g. ring.
      + unfold QQ. rewrite Q_plus, (Q_scal _ _ _ (-1) (fun t => (t - 1 / 2) ^ i * flux p' e' (lincomb (3 * (k + 1) + 2 * low k) u' v') t)). fold QQ. rewrite A2, A2' by lia. rewrite HU by lia. ring. }
  intros t. cbv zeta. specialize (Z t). unfold g, flux, edge_at in Z. unfold edge_at.
  destruct (HE 0%nat ltac:(lia)) as (F0 & T0). destruct (HE 1%nat ltac:(lia)) as (F1 & T1). rewrite <- F0, <- T0, <- F1, <- T1 in Z. lra.
Qed.

Lemma C82_all : forall gt gs junk lu k ref p, rt_element gt gs junk lu k ref -> triangle_ok p ->
  exists l, RT_CreateLocalSpace ref p = Ok l /\ rl_NumVelocityBasisFunctions l = rt_v_NumBasisFunctions ref /\ rl_NumPressureBasisFunctions l = rt_p_NumBasisFunctions ref /\
    rule (rl_InternalQuadrature l) /\
    (forall f, apply_rule (q_Weights (rl_InternalQuadrature l)) (fun q => f (m_at (q_Points (rl_InternalQuadrature l)) 0 q) (m_at (q_Points (rl_InternalQuadrature l)) 1 q)) =
       2 * area (mp_Vertices p) * apply_rule (q_Weights (gt (2 * (k + 1))%nat)) (fun q => let x := m_at (q_Points (gt (2 * (k + 1))%nat)) 0 q in let y := m_at (q_Points (gt (2 * (k + 1))%nat)) 1 q in f (px p x y) (py p x y))) /\
    (forall e, (e < 3)%nat -> exists Q, nth_error (rl_BoundaryQuadrature l) e = Some Q /\ rule Q /\
       forall f, apply_rule (q_Weights Q) (fun q => f (m_at (q_Points Q) 0 q) (m_at (q_Points Q) 1 q)) =
         Rabs (v_at (mp_EdgesLength p) e) * apply_rule (q_Weights (gs (2 * k + 1)%nat)) (fun q => let t := m_at (q_Points (gs (2 * k + 1)%nat)) 0 q in f (edge_at p e t 0) (edge_at p e t 1))) /\
    (forall v, velocity_fields_at ref l v -> exists V0 V1, RT_VelocityValues ref l = Ok [V0; V1] /\
       forall q j, (q < m_cols (q_Points (rl_InternalQuadrature l)))%nat -> (j < rl_NumVelocityBasisFunctions l)%nat ->
         m_at V0 q j = fst (v j) (m_at (q_Points (rl_InternalQuadrature l)) 0 q) (m_at (q_Points (rl_InternalQuadrature l)) 1 q) /\
         m_at V1 q j = snd (v j) (m_at (q_Points (rl_InternalQuadrature l)) 0 q) (m_at (q_Points (rl_InternalQuadrature l)) 1 q)) /\
    (forall d, divergence_fields_at ref l d -> exists D, RT_VelocityDivergenceValues ref l = Ok D /\
       forall q j, (q < m_cols (q_Points (rl_InternalQuadrature l)))%nat -> (j < rl_NumVelocityBasisFunctions l)%nat ->
         m_at D q j = d j (m_at (q_Points (rl_InternalQuadrature l)) 0 q) (m_at (q_Points (rl_InternalQuadrature l)) 1 q)) /\
    (forall junk', exists A, RT_PressureValues_at junk' ref l (q_Points (rl_InternalQuadrature l)) = Ok A /\
       forall q j, (q < m_cols (q_Points (rl_InternalQuadrature l)))%nat -> (j < rl_NumPressureBasisFunctions l)%nat -> m_at (RT_PressureValues ref l) q j = m_at A q j).
Proof.
  intros gt gs junk lu k ref p EL P. destruct (element_facts gt gs k (re_rules _ _ _ _ _ _ EL) junk lu ref EL) as (B & DD). pose proof (re_rules _ _ _ _ _ _ EL) as RR.
  destruct (DD _ (to_dirs _ P)) as (BQ & b & D). destruct (local_ok gt gs junk lu k ref EL p P) as (l & El & E1 & E2 & E3 & E4 & E5 & I1 & I2 & I3 & I4 & _ & I6).
  destruct (rr_triangle _ _ _ RR) as (TR & TW). destruct (rr_segment _ _ _ RR) as (SR & SW). pose proof (rr_segment_points _ _ _ RR) as SP.
  pose proof (values_of gt gs k ref _ B (rd_rows _ _ _ _ _ _ _ _ D)) as HV. pose proof (divergence_of gt gs k ref _ B (rd_rows _ _ _ _ _ _ _ _ D)) as HD.
  pose proof (local_values gt gs junk lu k ref EL p P l b _ El (rd_b _ _ _ _ _ _ _ _ D) HV) as HLV. pose proof (local_divergence gt gs junk lu k ref EL p P l b _ El (rd_b _ _ _ _ _ _ _ _ D) HD) as HLD.
  exists l. split; auto. split; [rewrite E4; symmetry; apply B|]. split; [rewrite E5; symmetry; apply B|]. split; [split; congruence|].
  split; [|split; [|split; [|split]]].
  - intros f. unfold apply_rule. rewrite I3, TW, <- rsum_scal. apply rsum_ext. intros q Hq. destruct (I4 q Hq) as (-> & -> & ->). cbv zeta. ring.
  - intros e He. destruct (I6 e He) as (Q & EQ & Q1 & Q2 & Q3 & Q4). exists Q. split; auto. split; [split; congruence|]. intros f. unfold apply_rule. rewrite Q3, SW, SP, <- rsum_scal. apply rsum_ext.
    intros q Hq. destruct (Q4 q Hq) as (-> & -> & ->). cbv zeta. ring.
  - intros v Hv. unfold RT_VelocityValues. rewrite E2, (rd_b _ _ _ _ _ _ _ _ D). cbn [bind].
    destruct (HV junk _ TR) as (V0 & V1 & EV & R0' & C0' & R1' & C1' & VA). rewrite (rd_values _ _ _ _ _ _ _ _ D) in EV. injection EV as ->.
    unfold MapVelocityValues. cbn [idx_ nth_error bind]. rewrite E1. rewrite !madd_ok by (cbn [mscal m_rows m_cols]; congruence). cbn [bind]. eexists _, _. split; [reflexivity|].
    intros q j Hq Hj. cbn [mscal m_at]. rewrite E4 in Hj. rewrite I2 in Hq. set (X := m_at (q_Points (rl_InternalQuadrature l)) 0 q). set (Y := m_at (q_Points (rl_InternalQuadrature l)) 1 q).
    destruct (fields_at_unique ref l v _ j X Y Hv HLV ltac:(lia)) as (-> & ->). cbn [push fst snd]. destruct (I4 q Hq) as (F0 & F1 & _). unfold X, Y. rewrite F0, F1.
    destruct (inv_in p P (m_at (q_Points (gt (2 * (k + 1))%nat)) 0 q) (m_at (q_Points (gt (2 * (k + 1))%nat)) 1 q)) as (-> & ->).
    destruct (VA q j Hq ltac:(rewrite (rd_cols _ _ _ _ _ _ _ _ D); lia)) as (-> & ->). cbn [fld fst snd]. split; field; apply (det_nz p P).
  - intros d Hd. unfold RT_VelocityDivergenceValues. rewrite E2, (rd_b _ _ _ _ _ _ _ _ D). cbn [bind]. eexists. split; [reflexivity|].
    destruct (HD junk _ TR) as (V & EV & R0' & C0' & VA). rewrite (rd_div _ _ _ _ _ _ _ _ D) in EV. injection EV as ->.
    intros q j Hq Hj. unfold MapVelocityDivergenceValues. rewrite E1. cbn [mscal m_at].
    destruct (HLD junk (q_Points (rl_InternalQuadrature l)) I1) as (A & EA & _ & _ & AA). destruct (Hd junk (q_Points (rl_InternalQuadrature l)) I1) as (A' & EA' & _ & _ & AA'). rewrite EA in EA'. injection EA' as <-.
    rewrite <- AA' by auto. rewrite AA by auto. rewrite E4 in Hj. rewrite I2 in Hq. destruct (I4 q Hq) as (F0 & F1 & _). rewrite F0, F1.
    destruct (inv_in p P (m_at (q_Points (gt (2 * (k + 1))%nat)) 0 q) (m_at (q_Points (gt (2 * (k + 1))%nat)) 1 q)) as (-> & ->).
    rewrite VA by (auto; rewrite (rd_cols _ _ _ _ _ _ _ _ D); lia). field. apply (det_nz p P).
  - intros junk'. unfold RT_PressureValues_at. rewrite E1. destruct (FInv_ok p P _ I1) as (Q & EQ & QR & QC & QA). rewrite EQ. cbn [bind]. unfold EvaluatePressureBasisFunctions. rewrite (rx_scale _ _ _ _ B).
    destruct (vander_m k _ (rx_mono _ _ _ _ B) junk' Q (rt_center_2D ref) 1 QR R1_neq_R0) as (V & EV & VR & VC & VA). rewrite EV. cbn [bind]. eexists. split; [reflexivity|].
    intros q j Hq Hj. unfold RT_PressureValues, MapPressureValues. rewrite E5 in Hj. rewrite I2 in Hq. rewrite (rx_PV _ _ _ _ B) by auto. rewrite VA by auto. destruct (QA q) as (-> & ->). destruct (I4 q Hq) as (-> & -> & _).
    destruct (inv_in p P (m_at (q_Points (gt (2 * (k + 1))%nat)) 0 q) (m_at (q_Points (gt (2 * (k + 1))%nat)) 1 q)) as (-> & ->). now rewrite (rx_c0 _ _ _ _ B), (rx_c1 _ _ _ _ B).
Qed.

(** local conservation *)
Lemma C83_all : forall gt gs junk lu k ref C v d dirs j, rt_element gt gs junk lu k ref -> m_rows C = rt_v_NumBasisFunctions ref -> (j < m_cols C)%nat ->
  velocity_fields ref C v -> divergence_fields ref C d -> length dirs = 3%nat ->
  inner_dof (gt (2 * (k + 1))%nat) (fun _ _ => 1) (d j) = rsum 3 (fun e => orient (nth e dirs true) * edge_dof (gs (2 * k + 1)%nat) (nth e dirs true) e 0 (v j)).
Proof.
  intros gt gs junk lu k ref C v d dirs j EL HC Hj Hv Hdv Hd. destruct (element_facts gt gs k (re_rules _ _ _ _ _ _ EL) junk lu ref EL) as (B & _). pose proof (re_rules _ _ _ _ _ _ EL) as RR. rewrite (rx_N _ _ _ _ B) in HC.
  pose proof (values_of gt gs k ref _ B HC) as HV. pose proof (divergence_of gt gs k ref _ B HC) as HD. set (c := column C j).
  assert (UV : forall x y, fst (v j) x y = vx (1 / 3) (1 / 3) 1 k c x y /\ snd (v j) x y = vy (1 / 3) (1 / 3) 1 k c x y /\ d j x y = vdiv (1 / 3) (1 / 3) 1 k c x y).
  { intros x y. set (P := {| m_rows := 3; m_cols := 1; m_at := fun d _ => match d with 0%nat => x | _ => y end |}).
    destruct (Hv junk P eq_refl) as (V0 & V1 & E & _ & _ & _ & _ & A). destruct (HV junk P eq_refl) as (V0' & V1' & E' & _ & _ & _ & _ & A').
    rewrite E in E'. injection E' as <- <-. destruct (A 0%nat j ltac:(cbn; lia) Hj) as (A0 & A1). destruct (A' 0%nat j ltac:(cbn; lia) Hj) as (A0' & A1').
    destruct (Hdv junk P eq_refl) as (W & EW & _ & _ & AW). destruct (HD junk P eq_refl) as (W' & EW' & _ & _ & AW'). rewrite EW in EW'. injection EW' as <-.
    specialize (AW 0%nat j ltac:(cbn; lia) Hj). specialize (AW' 0%nat j ltac:(cbn; lia) Hj). unfold P in *. cbn [m_at fld fst snd] in A0, A1, A0', A1', AW, AW'. fold c in A0', A1', AW'. split; [congruence|]. split; congruence. }
  set (seg := gs (2 * k + 1)%nat). set (QQ := Q ((0, 0) : R * R) (q_Points seg) (q_Weights seg)).
  assert (TE : forall e, (e < 3)%nat -> orient (nth e dirs true) * edge_dof seg (nth e dirs true) e 0 (v j) = QQ (fun t => trace k true e c t)).
  { intros e He. transitivity (QQ (fun t => trace k (nth e dirs true) e c t)).
    - unfold edge_dof, QQ, Q. cbn [fst snd]. rewrite !Rmult_0_l, !Rplus_0_l. rewrite <- apply_scal. apply apply_ext. intros q Hq. cbv zeta. unfold normal_part, trace.
      set (x := edge_x _ _ _). set (y := edge_y _ _ _). destruct (UV x y) as (-> & -> & _). unfold orient. destruct (nth e dirs true); cbn [pow]; ring.
    - destruct (nth e dirs true); [reflexivity|]. destruct (is_poly_poly2 k _ (trace_poly k true e c He)) as (g' & PG).
      assert (R := Q_rev ((0, 0) : R * R) (q_Points seg) (q_Weights seg) (2 * k + 1) (rr_segment_exact _ _ _ RR) _ _ _ 0 (poly2_le k (2 * k + 1) _ _ _ ltac:(lia) PG)). cbv beta in R.
      unfold QQ. rewrite <- R. apply Q_ext. intros t. unfold trace, edge_x, edge_y, from3, to3. set (a := corner_x e). set (a' := corner_x (next3 e)). set (bb := corner_y e). set (b' := corner_y (next3 e)).
      replace ((1 - t) * a' + t * a) with ((1 - (1 - t)) * a + (1 - t) * a') by ring. replace ((1 - t) * b' + t * bb) with ((1 - (1 - t)) * bb + (1 - t) * b') by ring. reflexivity. }
  rewrite (rsum_ext 3 _ (fun e => QQ (fun t => trace k true e c t))) by (intros e He; apply TE; auto).
  assert (G := rt_green (1 / 3) (1 / 3) 1 k R1_neq_R0 (q_Points seg) (q_Weights seg) (gt (2 * (k + 1))%nat) (rr_segment_exact _ _ _ RR) (exact_tri gt gs k RR (2 * k) ltac:(lia)) c _ _ _ (poly2_const k 1)).
  cbv beta in G. fold QQ in G.
  assert (E0 : QQ (fun t => trace k true 0 c t) = - QQ (fun s => vy (1 / 3) (1 / 3) 1 k c s 0 * 1)).
  { transitivity (QQ (fun s => -1 * (vy (1 / 3) (1 / 3) 1 k c s 0 * 1))); [|unfold QQ; rewrite Q_scal; ring]. apply Q_ext. intros t. unfold trace, edge_x, edge_y. cbn.
    replace ((1 - t) * 0 + t * 1) with t by ring. replace ((1 - t) * 0 + t * 0) with 0 by ring. ring. }
  assert (E1 : QQ (fun t => trace k true 1 c t) = QQ (fun s => vx (1 / 3) (1 / 3) 1 k c (1 - s) s * 1) + QQ (fun s => vy (1 / 3) (1 / 3) 1 k c (1 - s) s * 1)).
  { unfold QQ. rewrite <- Q_plus. apply Q_ext. intros t. unfold trace, edge_x, edge_y. cbn.
    replace ((1 - t) * 1 + t * 0) with (1 - t) by ring. replace ((1 - t) * 0 + t * 1) with t by ring. ring. }
  assert (E2 : QQ (fun t => trace k true 2 c t) = - QQ (fun s => vx (1 / 3) (1 / 3) 1 k c 0 s * 1)).
  { destruct (is_poly_poly2 k _ (trace_poly k true 2 c ltac:(lia))) as (g' & PG).
    assert (R := Q_rev ((0, 0) : R * R) (q_Points seg) (q_Weights seg) (2 * k + 1) (rr_segment_exact _ _ _ RR) _ _ _ 0 (poly2_le k (2 * k + 1) _ _ _ ltac:(lia) PG)). cbv beta in R.
    unfold QQ. rewrite <- R. fold QQ. transitivity (QQ (fun s => -1 * (vx (1 / 3) (1 / 3) 1 k c 0 s * 1))); [|unfold QQ; rewrite Q_scal; ring]. apply Q_ext. intros t. unfold trace, edge_x, edge_y. cbn.
    replace ((1 - (1 - t)) * 0 + (1 - t) * 0) with 0 by ring. replace ((1 - (1 - t)) * 0 + (1 - t) * 0) with 0 by ring. replace ((1 - (1 - t)) * 1 + (1 - t) * 0) with t by ring. ring. }
  cbn [rsum]. rewrite E0, E1, E2.
  assert (L0 : forall f, L (gt (2 * (k + 1))%nat) (fun x y => f x y * 0) = 0).
  { intros f. rewrite (L_ext _ _ (fun x y => 0 * f x y)) by (intros; ring). rewrite L_scal. ring. }
  rewrite !L0 in G. transitivity (L (gt (2 * (k + 1))%nat) (fun x y => vdiv (1 / 3) (1 / 3) 1 k c x y * 1)).
  - unfold inner_dof, L. apply apply_ext. intros q Hq. cbv zeta. destruct (UV (m_at (q_Points (gt (2 * (k + 1))%nat)) 0 q) (m_at (q_Points (gt (2 * (k + 1))%nat)) 1 q)) as (_ & _ & ->). ring.
  - lra.
Qed.
