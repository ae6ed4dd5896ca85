(** Properties of the two dimensional divergence free virtual element. *)
From Coq Require Import List Arith Bool Lia ZArith Reals Lra.
From Verif Require Import Base RSum MatrixModel MonomialsModel MonomialsSpec GBasisModel LagrangeSpec VemQuadModel VemQuadSpec VemModel VemSpec GaussModel VemProps Pcc2dProps DfModel DfSpec DfProofs6 GreenSpec GreenProofs.
Import ListNotations.
Local Open Scope R_scope.

(** C129: the reference element and the local space are created *)
Theorem C129_space_exists : forall v gt lob junk lu llt k p, df_rules gt lob k -> df_polygon v p -> exact_for nonsingular lu -> exact_for positive_definite llt ->
  exists ref l, df_space v gt lob junk lu llt k p ref l.
Proof. exact df_exists. Qed.

(** C129: the numbers of basis functions *)
Theorem C129_sizes : forall v gt lob junk lu llt k p ref l, df_space v gt lob junk lu llt k p ref l ->
  ld_Order l = k /\ ld_NumVertexBasisFunctions l = m_cols (pg_Vertices p) /\ ld_NumEdgeBasisFunctions l = ((k - 1) * m_cols (pg_Vertices p))%nat /\ ld_NumBoundaryBasisFunctions l = (2 * (m_cols (pg_Vertices p) + (k - 1) * m_cols (pg_Vertices p)))%nat /\
  ld_NumBigOPlusInternalBasisFunctions l = ((k - 2) * (k - 1) / 2)%nat /\ ld_NumDivergenceInternalBasisFunctions l = match v with Full => (k * (k + 1) / 2 - 1)%nat | Reduced => 0%nat end /\
  ld_NumBasisFunctions l = df_size v k (m_cols (pg_Vertices p)).
Proof. exact sizes_all. Qed.

(** C129: the pressure space: as many functions as divergence dofs plus one, values and mass matrix of the scaled monomials *)
Theorem C129_pressure : forall v gt lob junk lu llt k p ref l, df_space v gt lob junk lu llt k p ref l ->
  forall junk', exists rp lp, DF_Pressure_Create v gt lob k = Ok rp /\ DF_Pressure_CreateLocalSpace junk' rp p = Ok lp /\
  lq_NumBasisFunctions lp = (1 + ld_NumDivergenceInternalBasisFunctions l)%nat /\ lq_InternalQuadrature lp = ld_InternalQuadrature l /\
  (exists V, DF_Pressure_Values_quadrature lp = Ok V /\ m_rows V = m_cols (q_Points (ld_InternalQuadrature l)) /\ m_cols V = lq_NumBasisFunctions lp /\
     forall q i, (i < lq_NumBasisFunctions lp)%nat -> m_at V q i = df_monomial ref l i (m_at (q_Points (ld_InternalQuadrature l)) 0 q) (m_at (q_Points (ld_InternalQuadrature l)) 1 q)) /\
  (forall junk'' points, m_rows points = 3%nat -> exists V, DF_Pressure_Values junk'' rp lp points = Ok V /\ m_rows V = m_cols points /\ m_cols V = lq_NumBasisFunctions lp /\
     forall q i, (i < lq_NumBasisFunctions lp)%nat -> m_at V q i = df_monomial ref l i (m_at points 0 q) (m_at points 1 q)) /\
  m_rows (lq_Hmatrix lp) = lq_NumBasisFunctions lp /\ m_cols (lq_Hmatrix lp) = lq_NumBasisFunctions lp /\
  forall i j, (i < lq_NumBasisFunctions lp)%nat -> (j < lq_NumBasisFunctions lp)%nat -> m_at (lq_Hmatrix lp) i j = df_inside l (fun x y => df_monomial ref l i x y * df_monomial ref l j x y).
Proof. exact pressure_all. Qed.

(** C130: every vector of dofs has a trace on the boundary *)
Theorem C130_traces : forall v gt lob junk lu llt k p ref l, df_space v gt lob junk lu llt k p ref l ->
  forall u, exists t, df_traces lob k p u t.
Proof. exact traces_all. Qed.

(** C130: the divergence: mean given by the flux of the trace, moments given by the dofs, degree *)
Theorem C130_divergence : forall v gt lob junk lu llt k p ref l, df_space v gt lob junk lu llt k p ref l ->
  forall u t, df_traces lob k p u t ->
  df_inside l (df_poly ref l (ld_Vmatrix l) u) = df_flux lob k p t (fun _ _ => 1) /\
  (forall c, (c < ld_NumDivergenceInternalBasisFunctions l)%nat -> df_inside l (fun x y => df_monomial ref l (1 + c) x y * df_poly ref l (ld_Vmatrix l) u x y) =
     u (ld_NumBoundaryBasisFunctions l + ld_NumBigOPlusInternalBasisFunctions l + c)%nat) /\
  match v with Full => exists dx dy, poly2 (k - 1) (df_poly ref l (ld_Vmatrix l) u) dx dy | Reduced => exists a, forall x y, df_poly ref l (ld_Vmatrix l) u x y = a end.
Proof. exact divergence_all. Qed.

(** C130: values of the divergence at the quadrature points *)
Theorem C130_divergence_values : forall v gt lob junk lu llt k p ref l, df_space v gt lob junk lu llt k p ref l ->
  exists M, DF_DivergenceValues v l = Ok M /\ m_rows M = m_cols (q_Points (ld_InternalQuadrature l)) /\ m_cols M = ld_NumBasisFunctions l /\
  forall u q, combine M u q = df_poly ref l (ld_Vmatrix l) u (m_at (q_Points (ld_InternalQuadrature l)) 0 q) (m_at (q_Points (ld_InternalQuadrature l)) 1 q).
Proof. exact divergence_values_all. Qed.

(** C131: the projection of degree k *)
Theorem C131_projection : forall v gt lob junk lu llt k p ref l, df_space v gt lob junk lu llt k p ref l ->
  forall u t, df_traces lob k p u t ->
  let Q0 := df_poly ref l (of_list (ld_Pi0k l) 0) u in let Q1 := df_poly ref l (of_list (ld_Pi0k l) 1) u in
  let P0 := df_poly ref l (of_list (ld_PiNabla l) 0) u in let P1 := df_poly ref l (of_list (ld_PiNabla l) 1) u in
  (forall g gx gy, poly2 (k + 1) g gx gy -> df_inside l (fun x y => Q0 x y * gx x y + Q1 x y * gy x y) = df_flux lob k p t g - df_inside l (fun x y => g x y * df_poly ref l (ld_Vmatrix l) u x y)) /\
  (forall c, (c < ld_NumBigOPlusInternalBasisFunctions l)%nat -> df_inside l (fun x y => df_monomial ref l c x y * (df_scaled l 1 x y * Q0 x y - df_scaled l 0 x y * Q1 x y)) = u (ld_NumBoundaryBasisFunctions l + c)%nat) /\
  (forall c, (ld_NumBigOPlusInternalBasisFunctions l <= c < k * (k + 1) / 2)%nat ->
     df_inside l (fun x y => df_monomial ref l c x y * (df_scaled l 1 x y * Q0 x y - df_scaled l 0 x y * Q1 x y)) = df_inside l (fun x y => df_monomial ref l c x y * (df_scaled l 1 x y * P0 x y - df_scaled l 0 x y * P1 x y))).
Proof. exact projection_all. Qed.

(** C131: the projection of degree k - 2 *)
Theorem C131_lower : forall v gt lob junk lu llt k p ref l, df_space v gt lob junk lu llt k p ref l ->
  forall u d g gx gy, (d < 2)%nat -> poly2 (k - 2) g gx gy ->
  df_inside l (fun x y => g x y * df_poly ref l (of_list (ld_Pi0km2 l) d) u x y) = df_inside l (fun x y => g x y * df_poly ref l (of_list (ld_Pi0k l) d) u x y).
Proof. exact projection_km2_all. Qed.

(** C132: the gradient projection of each component *)
Theorem C132_gradient : forall v gt lob junk lu llt k p ref l, df_space v gt lob junk lu llt k p ref l ->
  forall u t d, df_traces lob k p u t -> (d < 2)%nat -> exists px py, poly2 k (df_poly ref l (of_list (ld_PiNabla l) d) u) px py /\
  df_inside l (df_poly ref l (of_list (ld_PiNabla l) d) u) = df_inside l (df_poly ref l (of_list (ld_Pi0km2 l) d) u) /\
  forall g gx gy gxx gxy gyx gyy, poly2 k g gx gy -> poly2 (k - 1) gx gxx gxy -> poly2 (k - 1) gy gyx gyy ->
    df_inside l (fun x y => px x y * gx x y + py x y * gy x y) = df_around lob k p (fun e s => t d e s * (df_at p gx e s * df_normal p 0 e + df_at p gy e s * df_normal p 1 e)) -
      df_inside l (fun x y => (gxx x y + gyy x y) * df_poly ref l (of_list (ld_Pi0km2 l) d) u x y).
Proof. exact gradient_all. Qed.

(** C132: the projections of the derivatives *)
Theorem C132_derivatives : forall v gt lob junk lu llt k p ref l, df_space v gt lob junk lu llt k p ref l ->
  forall u t d e g gx gy, df_traces lob k p u t -> (d < 2)%nat -> (e < 2)%nat -> poly2 (k - 1) g gx gy ->
  df_inside l (fun x y => g x y * df_poly ref l (of_list (ld_Pi0km1Der l) (2 * d + e)) u x y) = df_around lob k p (fun a s => df_at p g a s * (df_normal p e a * t d a s)) -
    df_inside l (fun x y => (match e with 0%nat => gx | _ => gy end) x y * df_poly ref l (of_list (ld_Pi0km2 l) d) u x y).
Proof. exact derivatives_all. Qed.

(** C133: polynomial fields are reproduced *)
Theorem C133_reproduction : forall v gt lob junk lu llt k p ref l, df_space v gt lob junk lu llt k p ref l ->
  forall f0 f1 f0x f0y f1x f1y, poly2 k f0 f0x f0y -> poly2 k f1 f1x f1y ->
  match v with Full => True | Reduced => exists a, forall x y, f0x x y + f1y x y = a end ->
  let u := df_dofs ref l f0 f1 (fun x y => f0x x y + f1y x y) in
  forall x y,
    df_poly ref l (ld_Vmatrix l) u x y = f0x x y + f1y x y /\
    df_poly ref l (of_list (ld_PiNabla l) 0) u x y = f0 x y /\ df_poly ref l (of_list (ld_PiNabla l) 1) u x y = f1 x y /\
    df_poly ref l (of_list (ld_Pi0k l) 0) u x y = f0 x y /\ df_poly ref l (of_list (ld_Pi0k l) 1) u x y = f1 x y /\
    df_poly ref l (of_list (ld_Pi0km1Der l) 0) u x y = f0x x y /\ df_poly ref l (of_list (ld_Pi0km1Der l) 1) u x y = f0y x y /\
    df_poly ref l (of_list (ld_Pi0km1Der l) 2) u x y = f1x x y /\ df_poly ref l (of_list (ld_Pi0km1Der l) 3) u x y = f1y x y.
Proof. exact polynomial_all. Qed.

(** C133: moments of degree k - 2 of polynomial fields *)
Theorem C133_lower : forall v gt lob junk lu llt k p ref l, df_space v gt lob junk lu llt k p ref l ->
  forall f0 f1 f0x f0y f1x f1y, poly2 k f0 f0x f0y -> poly2 k f1 f1x f1y ->
  match v with Full => True | Reduced => exists a, forall x y, f0x x y + f1y x y = a end ->
  let u := df_dofs ref l f0 f1 (fun x y => f0x x y + f1y x y) in
  forall g gx gy, poly2 (k - 2) g gx gy ->
    df_inside l (fun x y => g x y * df_poly ref l (of_list (ld_Pi0km2 l) 0) u x y) = df_inside l (fun x y => g x y * f0 x y) /\
    df_inside l (fun x y => g x y * df_poly ref l (of_list (ld_Pi0km2 l) 1) u x y) = df_inside l (fun x y => g x y * f1 x y).
Proof. exact polynomial_km2_all. Qed.

(** C134: the trace of the projected gradient is the divergence *)
Theorem C134_trace : forall v gt lob junk lu llt k p ref l, df_space v gt lob junk lu llt k p ref l ->
  forall u x y, df_poly ref l (of_list (ld_Pi0km1Der l) 0) u x y + df_poly ref l (of_list (ld_Pi0km1Der l) 3) u x y = df_poly ref l (ld_Vmatrix l) u x y.
Proof. exact trace_all. Qed.

(** C134: functions whose divergence is orthogonal to the pressures are divergence free *)
Theorem C134_divergence_free : forall v gt lob junk lu llt k p ref l, df_space v gt lob junk lu llt k p ref l ->
  forall u,
  (forall c, (c < match v with Full => (k * (k + 1) / 2)%nat | Reduced => 1%nat end)%nat -> df_inside l (fun x y => df_monomial ref l c x y * df_poly ref l (ld_Vmatrix l) u x y) = 0) ->
  forall x y, df_poly ref l (ld_Vmatrix l) u x y = 0.
Proof. exact divergence_free_all. Qed.

(** C134: every pressure is the divergence of a velocity *)
Theorem C134_onto : forall v gt lob junk lu llt k p ref l, df_space v gt lob junk lu llt k p ref l ->
  forall q qx qy, poly2 (match v with Full => (k - 1)%nat | Reduced => 0%nat end) q qx qy -> exists u, forall x y, df_poly ref l (ld_Vmatrix l) u x y = q x y.
Proof. exact divergence_onto_all. Qed.

(** C135: stabilization *)
Theorem C135_stabilization : forall v gt lob junk lu llt k p ref l, df_space v gt lob junk lu llt k p ref l ->
  (exists S, DF_DofiDofi l DF_PiNabla = Ok S /\ df_stabilizes v k ref l (ld_PiNabla l) 1 S) /\
  (exists S, DF_DofiDofi l DF_Pi0k = Ok S /\ df_stabilizes v k ref l (ld_Pi0k l) (pg_Measure p) S) /\
  DF_DofiDofi l DF_Pi0km2 = Throw /\ DF_DofiDofi l DF_Pi0km1Der = Throw.
Proof. exact stabilization_all. Qed.

(** C136: values and derivatives at points *)
Theorem C136_values : forall v gt lob junk lu llt k p ref l, df_space v gt lob junk lu llt k p ref l ->
  df_values_at k ref l (q_Points (ld_InternalQuadrature l)) (DF_Values_quadrature l) (DF_DerivativeValues_quadrature l) /\
  forall junk' points, m_rows points = 3%nat -> df_values_at k ref l points (fun t => DF_Values junk' ref p l t points) (fun t => DF_DerivativeValues junk' ref p l t points).
Proof. exact values_all. Qed.

Print Assumptions C129_space_exists.
Print Assumptions C129_sizes.
Print Assumptions C129_pressure.
Print Assumptions C130_traces.
Print Assumptions C130_divergence.
Print Assumptions C130_divergence_values.
Print Assumptions C131_projection.
Print Assumptions C131_lower.
Print Assumptions C132_gradient.
Print Assumptions C132_derivatives.
Print Assumptions C133_reproduction.
Print Assumptions C133_lower.
Print Assumptions C134_trace.
Print Assumptions C134_divergence_free.
Print Assumptions C134_onto.
Print Assumptions C135_stabilization.
Print Assumptions C136_values.

(** ** Cases: spaces of order 2 on a trapezium *)
(** the rule of Lobatto with four points, exact for degree 5 *)
Definition lobatto_rule : QuadratureData := {|
  q_Points := {| m_rows := 3; m_cols := 4; m_at := fun d j => match d, j with 0%nat, 1%nat => (1 - / sqrt 5) / 2 | 0%nat, 2%nat => (1 + / sqrt 5) / 2 | 0%nat, 3%nat => 1 | _, _ => 0 end |};
  q_Weights := {| v_size := 4; v_at := fun j => match j with 1%nat | 2%nat => 5 / 12 | _ => 1 / 12 end |} |}.
Definition segment_rules (n : nat) : QuadratureData := if (n =? 5)%nat then lobatto_rule else simpson_rule.
Example df_rules_case : df_rules (fun _ => collapsed_rule) segment_rules 2.
Proof.
  constructor; cbn [segment_rules Nat.eqb Nat.mul Nat.add Nat.sub].
  - lia.
  - destruct collapsed_good; constructor; auto.
  - intros q Hq. cbn in Hq. do 20 (destruct q as [|q]; [cbn; lra|]). lia.
  - intros i j Hi Hj. destruct i as [|[|[|i]]], j as [|[|[|j]]]; try lia; cbn; intros; lra.
  - split; reflexivity.
  - reflexivity.
  - reflexivity.
  - reflexivity.
  - reflexivity.
  - assert (s5 : / sqrt 5 * / sqrt 5 = / 5) by (rewrite <- Rinv_mult, sqrt_sqrt; lra). intros a Ha. unfold apply_rule. cbn [lobatto_rule q_Weights q_Points v_size v_at m_at rsum]. set (s := / sqrt 5) in *.
    assert (s2 : s ^ 2 = / 5) by (cbn; lra). assert (s4 : s ^ 4 = / 25) by (replace (s ^ 4) with (s ^ 2 * s ^ 2) by ring; rewrite s2; field).
    destruct a as [|[|[|[|[|[|a]]]]]]; [| | | | | |lia]; cbn [INR Nat.add].
    + field.
    + field.
    + transitivity (1 / 12 * 0 + 5 / 12 * ((1 + s ^ 2) / 2) + 1 / 12); [field|rewrite s2; field].
    + transitivity (5 / 12 * ((1 + 3 * s ^ 2) / 4) + 1 / 12); [field|rewrite s2; field].
    + transitivity (5 / 12 * ((1 + 6 * s ^ 2 + s ^ 4) / 8) + 1 / 12); [field|rewrite s2, s4; field].
    + transitivity (5 / 12 * ((1 + 10 * s ^ 2 + 5 * s ^ 4) / 16) + 1 / 12); [field|rewrite s2, s4; field].
Qed.
Example df_polygon_case v : df_polygon v trapezium.
Proof. split; [apply trapezium_good|]. destruct v; auto. unfold shoelace, following. cbn. lra. Qed.

(** 18 functions of the full space and 16 of the reduced one *)
Example df_case : forall v junk, exists ref l, df_space v (fun _ => collapsed_rule) segment_rules junk gauss_solver gauss_solver 2 trapezium ref l /\
  ld_NumBasisFunctions l = match v with Full => 18%nat | Reduced => 16%nat end.
Proof.
  intros v junk. destruct (C129_space_exists v (fun _ => collapsed_rule) segment_rules junk gauss_solver gauss_solver 2 trapezium df_rules_case (df_polygon_case v) gauss_nonsingular gauss_positive) as (ref & l & VS).
  exists ref, l. split; auto. destruct (C129_sizes _ _ _ _ _ _ _ _ _ _ VS) as (_ & _ & _ & _ & _ & _ & s). rewrite s. destruct v; reflexivity.
Qed.
(** the field (x y, x ^ 2) of divergence y is reproduced by the full space *)
Example C133_case : forall junk, exists ref l, df_space Full (fun _ => collapsed_rule) segment_rules junk gauss_solver gauss_solver 2 trapezium ref l /\
  let u := df_dofs ref l (fun x y => x ^ 1 * y ^ 1) (fun x y => x ^ 2 * y ^ 0) (fun x y => INR 1 * x ^ (1 - 1) * y ^ 1 + INR 0 * x ^ 2 * y ^ (0 - 1)) in
  forall x y, df_poly ref l (ld_Vmatrix l) u x y = y /\ df_poly ref l (of_list (ld_PiNabla l) 0) u x y = x * y /\ df_poly ref l (of_list (ld_Pi0k l) 1) u x y = x * x.
Proof.
  intros junk. destruct (df_case Full junk) as (ref & l & VS & _). exists ref, l. split; auto. intros u x y.
  destruct (C133_reproduction _ _ _ _ _ _ _ _ _ _ VS _ _ _ _ _ _ (poly2_mono 2 1 1 ltac:(lia)) (poly2_mono 2 2 0 ltac:(lia)) Logic.I x y) as (A & B & _ & _ & C & _). fold u in A, B, C. rewrite A, B, C. cbn. repeat split; ring.
Qed.
(** the field (x y, - y ^ 2 / 2), without divergence, is reproduced by the reduced space *)
Example C133_case_reduced : forall junk, exists ref l u, df_space Reduced (fun _ => collapsed_rule) segment_rules junk gauss_solver gauss_solver 2 trapezium ref l /\
  forall x y, df_poly ref l (ld_Vmatrix l) u x y = 0 /\ df_poly ref l (of_list (ld_PiNabla l) 0) u x y = x * y /\ df_poly ref l (of_list (ld_Pi0k l) 1) u x y = - (1 / 2) * (y * y).
Proof.
  intros junk. destruct (df_case Reduced junk) as (ref & l & VS & _).
  pose proof (C133_reproduction _ _ _ _ _ _ _ _ _ _ VS _ _ _ _ _ _ (poly2_mono 2 1 1 ltac:(lia)) (poly2_scal 2 (-(1/2)) _ _ _ (poly2_mono 2 0 2 ltac:(lia)))) as X.
  exists ref, l. eexists. split; [exact VS|]. intros x y. destruct (X ltac:(exists 0; intros; cbn; field) x y) as (A & B & _ & _ & C & _). rewrite A, B, C. cbn. repeat split; field.
Qed.
(** the traces of any dofs, the mean of the divergence, and the gradient of each component tested with x *)
Example C132_case : forall v junk u, exists ref l t, df_space v (fun _ => collapsed_rule) segment_rules junk gauss_solver gauss_solver 2 trapezium ref l /\ df_traces segment_rules 2 trapezium u t /\
  df_inside l (df_poly ref l (ld_Vmatrix l) u) = df_flux segment_rules 2 trapezium t (fun _ _ => 1) /\
  df_inside l (fun x y => 1 * df_poly ref l (of_list (ld_Pi0km1Der l) (2 * 1 + 0)) u x y) =
    df_around segment_rules 2 trapezium (fun a s => 1 * (df_normal trapezium 0 a * t 1%nat a s)) - df_inside l (fun x y => 0 * df_poly ref l (of_list (ld_Pi0km2 l) 1) u x y).
Proof.
  intros v junk u. destruct (df_case v junk) as (ref & l & VS & _). destruct (C130_traces _ _ _ _ _ _ _ _ _ _ VS u) as (t & T). exists ref, l, t. split; auto. split; auto.
  split; [apply (C130_divergence _ _ _ _ _ _ _ _ _ _ VS u t T)|]. apply (C132_derivatives _ _ _ _ _ _ _ _ _ _ VS u t 1 0 _ _ _ T ltac:(lia) ltac:(lia) (poly2_const (2 - 1) 1)).
Qed.
(** a velocity of divergence y *)
Example C134_case : forall junk, exists ref l u, df_space Full (fun _ => collapsed_rule) segment_rules junk gauss_solver gauss_solver 2 trapezium ref l /\ forall x y, df_poly ref l (ld_Vmatrix l) u x y = x ^ 0 * y ^ 1.
Proof.
  intros junk. destruct (df_case Full junk) as (ref & l & VS & _). destruct (C134_onto _ _ _ _ _ _ _ _ _ _ VS _ _ _ (poly2_mono 1 0 1 ltac:(lia))) as (u & U). exists ref, l, u. auto.
Qed.
(** the stabilization of the gradient projection is nonnegative *)
Example C135_case : forall v junk, exists ref l S, df_space v (fun _ => collapsed_rule) segment_rules junk gauss_solver gauss_solver 2 trapezium ref l /\ DF_DofiDofi l DF_PiNabla = Ok S /\
  forall u, 0 <= rsum (ld_NumBasisFunctions l) (fun i => rsum (ld_NumBasisFunctions l) (fun j => u i * m_at S i j * u j)).
Proof.
  intros v junk. destruct (df_case v junk) as (ref & l & VS & _). destruct (C135_stabilization _ _ _ _ _ _ _ _ _ _ VS) as ((S & ES & _ & _ & _ & F & _) & _). exists ref, l, S. split; auto. split; auto. intros u.
  destruct (C130_traces _ _ _ _ _ _ _ _ _ _ VS u) as (t & T).
  destruct (C132_gradient _ _ _ _ _ _ _ _ _ _ VS u t 0 T ltac:(lia)) as (ax & ay & P0 & _). destruct (C132_gradient _ _ _ _ _ _ _ _ _ _ VS u t 1 T ltac:(lia)) as (bx & byy & P1 & _).
  rewrite (F u _ _ _ _ _ _ (fun _ _ => eq_refl) (fun _ _ => eq_refl) P0 P1). rewrite Rmult_1_l. apply rsum_nonneg. intros. rewrite <- Rsqr_pow2. apply Rle_0_sqr.
Qed.
