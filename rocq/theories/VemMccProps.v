(** Theorems about the two dimensional mixed virtual element (VEM/MCC/2D). *)
From Coq Require Import List Arith Bool Lia ZArith Reals Lra.
From Verif Require Import Base RSum MatrixModel MonomialsModel MonomialsSpec MonomialsProps VemQuadModel VemQuadSpec VemQuadProps GreenSpec GreenProofs VemModel VemSpec VemProps GaussModel Pcc2dProps Fem2dProps
  VemMccModel VemMccSpec VemMccProofs3 VemMccProofs4 VemMccProofs5.
Import ListNotations.
Local Open Scope R_scope.

(** C110: the space is created on every polygon, with these sizes *)
Theorem C110_created : forall gt gs junk llt svd k p, good_mixed_rules gt gs k -> good_polygon p ->
  exists ref l, MCC_Velocity_Create gt gs k = Ok ref /\ MCC_CreateLocalSpace junk llt svd ref p = Ok l /\
    lm_NumBoundaryBasisFunctions l = ((k + 1) * m_cols (pg_Vertices p))%nat /\ (2 * lm_Nk l = (k + 1) * (k + 2))%nat /\ (lm_NumNablaInternalBasisFunctions l = lm_Nk l - 1)%nat /\
    (2 * lm_NumBigOPlusInternalBasisFunctions l = k * (k + 1))%nat /\ lm_NumInternalBasisFunctions l = (lm_NumNablaInternalBasisFunctions l + lm_NumBigOPlusInternalBasisFunctions l)%nat /\
    lm_NumBasisFunctions l = (lm_NumBoundaryBasisFunctions l + lm_NumInternalBasisFunctions l)%nat /\
    m_cols (lm_Pi0k l) = lm_NumBasisFunctions l /\ m_cols (lm_Vmatrix l) = lm_NumBasisFunctions l /\ m_rows (lm_Dmatrix l) = lm_NumBasisFunctions l /\ m_cols (mcc_boundary_points l) = lm_NumBoundaryBasisFunctions l.
Proof. exact C110_exists_all. Qed.

(** the hypotheses on the solver and on the decomposition can always be met *)
Theorem C110_space_exists : forall gt gs junk k p, good_mixed_rules gt gs k -> good_polygon p -> exists llt svd ref l, mcc_space gt gs junk llt svd k p ref l.
Proof. exact C110_space_all. Qed.

(** C110: the vector polynomials: gradients first, and each pair of polynomials of degree k is one combination of them only *)
Theorem C110_vectors : forall gt gs junk llt svd k p ref l, mcc_space gt gs junk llt svd k p ref l ->
  (forall gx gy a x y, mcc_gradients ref l gx gy -> (a < lm_NkNabla l)%nat -> mcc_basis ref l 0 a x y = gx (a + 1)%nat x y /\ mcc_basis ref l 1 a x y = gy (a + 1)%nat x y) /\
  (forall f0 f0x f0y f1 f1x f1y, poly2 k f0 f0x f0y -> poly2 k f1 f1x f1y -> exists c,
    (forall x y, f0 x y = rsum (2 * lm_Nk l) (fun a => c a * mcc_basis ref l 0 a x y) /\ f1 x y = rsum (2 * lm_Nk l) (fun a => c a * mcc_basis ref l 1 a x y)) /\
    forall c', (forall x y, f0 x y = rsum (2 * lm_Nk l) (fun a => c' a * mcc_basis ref l 0 a x y) /\ f1 x y = rsum (2 * lm_Nk l) (fun a => c' a * mcc_basis ref l 1 a x y)) ->
      forall a, (a < 2 * lm_Nk l)%nat -> c' a = c a).
Proof. intros gt gs junk llt svd k p ref l MS. exact (C110_vectors_all gt gs junk llt svd k p ref l MS). Qed.

(** C111: what the values are for any dofs: the projection P and the divergence D are given by integration by parts *)
Theorem C111_projection : forall gt gs junk llt svd k p ref l, mcc_space gt gs junk llt svd k p ref l ->
  forall u, exists P0 P0x P0y P1 P1x P1y D Dx Dy, poly2 k P0 P0x P0y /\ poly2 k P1 P1x P1y /\ poly2 k D Dx Dy /\
  (exists V0 V1, MCC_Values_quadrature l = Ok [V0; V1] /\ forall q, (q < m_cols (mcc_points l))%nat ->
    combine V0 u q = P0 (m_at (mcc_points l) 0 q) (m_at (mcc_points l) 1 q) /\ combine V1 u q = P1 (m_at (mcc_points l) 0 q) (m_at (mcc_points l) 1 q)) /\
  (forall points, m_rows points = 3%nat -> exists V0 V1, MCC_Values junk ref l points = Ok [V0; V1] /\ forall q, (q < m_cols points)%nat ->
    combine V0 u q = P0 (m_at points 0 q) (m_at points 1 q) /\ combine V1 u q = P1 (m_at points 0 q) (m_at points 1 q)) /\
  (exists V, MCC_DivergenceValues l = Ok V /\ forall q, combine V u q = D (m_at (mcc_points l) 0 q) (m_at (mcc_points l) 1 q)) /\
  (forall m mx my, poly2 (k + 1) m mx my -> mcc_inside l (fun x y => P0 x y * mx x y + P1 x y * my x y) = mcc_outflow l p m u - mcc_inside l (fun x y => m x y * D x y)) /\
  (forall r, (r < lm_NumBigOPlusInternalBasisFunctions l)%nat ->
    mcc_inside l (fun x y => P0 x y * mcc_vector ref l (lm_TkBigOPlus l) r 0 x y + P1 x y * mcc_vector ref l (lm_TkBigOPlus l) r 1 x y) = lm_Measure l * u (lm_NumBoundaryBasisFunctions l + lm_NumNablaInternalBasisFunctions l + r)%nat) /\
  (forall a, mcc_inside l (fun x y => mcc_polynomial ref l (lm_Nk l) a x y * D x y) =
    mcc_outflow l p (mcc_polynomial ref l (lm_Nk l) a) u - lm_Measure l * rsum (lm_NumNablaInternalBasisFunctions l) (fun c => a (c + 1)%nat * u (lm_NumBoundaryBasisFunctions l + c)%nat)).
Proof. intros gt gs junk llt svd k p ref l MS. exact (C111_projection_all gt gs junk llt svd k p ref l MS). Qed.

(** C111: the values of the dofs of a polynomial field are the field *)
Theorem C111_reproduces : forall gt gs junk llt svd k p ref l, mcc_space gt gs junk llt svd k p ref l ->
  forall gx gy f0 f0x f0y f1 f1x f1y, mcc_gradients ref l gx gy -> poly2 k f0 f0x f0y -> poly2 k f1 f1x f1y ->
  (exists V0 V1, MCC_Values_quadrature l = Ok [V0; V1] /\ forall q, (q < m_cols (mcc_points l))%nat ->
    combine V0 (mcc_dof ref l p gx gy f0 f1) q = f0 (m_at (mcc_points l) 0 q) (m_at (mcc_points l) 1 q) /\ combine V1 (mcc_dof ref l p gx gy f0 f1) q = f1 (m_at (mcc_points l) 0 q) (m_at (mcc_points l) 1 q)) /\
  (forall points, m_rows points = 3%nat -> exists V0 V1, MCC_Values junk ref l points = Ok [V0; V1] /\ forall q, (q < m_cols points)%nat ->
    combine V0 (mcc_dof ref l p gx gy f0 f1) q = f0 (m_at points 0 q) (m_at points 1 q) /\ combine V1 (mcc_dof ref l p gx gy f0 f1) q = f1 (m_at points 0 q) (m_at points 1 q)).
Proof. intros gt gs junk llt svd k p ref l MS. exact (C111_reproduces_all gt gs junk llt svd k p ref l MS). Qed.

(** C112: the divergence of the dofs of a field of degree k + 1 is its divergence *)
Theorem C112_divergence : forall gt gs junk llt svd k p ref l, mcc_space gt gs junk llt svd k p ref l ->
  forall gx gy f0 f0x f0y f1 f1x f1y, mcc_gradients ref l gx gy -> poly2 (k + 1) f0 f0x f0y -> poly2 (k + 1) f1 f1x f1y ->
  exists V, MCC_DivergenceValues l = Ok V /\ m_rows V = m_cols (mcc_points l) /\ m_cols V = lm_NumBasisFunctions l /\
    forall q, combine V (mcc_dof ref l p gx gy f0 f1) q = f0x (m_at (mcc_points l) 0 q) (m_at (mcc_points l) 1 q) + f1y (m_at (mcc_points l) 0 q) (m_at (mcc_points l) 1 q).
Proof. intros gt gs junk llt svd k p ref l MS. exact (C112_divergence_all gt gs junk llt svd k p ref l MS). Qed.

(** C112: the sum of the divergence over the cell is what flows out of its edges *)
Theorem C112_conservation : forall gt gs junk llt svd k p ref l, mcc_space gt gs junk llt svd k p ref l ->
  exists V, MCC_DivergenceValues l = Ok V /\
  forall u, apply_rule (q_Weights (lm_InternalQuadrature l)) (combine V u) = rsum (m_cols (pg_Vertices p)) (fun i => mcc_edge_outflow ref l p i u).
Proof. intros gt gs junk llt svd k p ref l MS. exact (C112_conservation_all gt gs junk llt svd k p ref l MS). Qed.

(** C112: what flows out of a cell through an edge flows into the cell on the other side *)
Theorem C112_neighbours : forall gt gs junk llt svd llt' svd' k ref p l p' l' i i', mcc_space gt gs junk llt svd k p ref l -> mcc_space gt gs junk llt' svd' k p' ref l' ->
  (i < m_cols (pg_Vertices p))%nat -> (i' < m_cols (pg_Vertices p'))%nat ->
  Rabs (v_at (pg_EdgesLength p) i) = Rabs (v_at (pg_EdgesLength p') i') -> nth i (pg_EdgesDirection p) true = negb (nth i' (pg_EdgesDirection p') true) ->
  (forall d, (d < 3)%nat -> m_at (pg_Vertices p) d (edge_first (pg_Vertices p) (pg_EdgesDirection p) i) = m_at (pg_Vertices p') d (edge_first (pg_Vertices p') (pg_EdgesDirection p') i') /\
                            m_at (pg_Vertices p) d (edge_last (pg_Vertices p) (pg_EdgesDirection p) i) = m_at (pg_Vertices p') d (edge_last (pg_Vertices p') (pg_EdgesDirection p') i')) ->
  (forall q d, (q < k + 1)%nat -> (d < 3)%nat -> m_at (mcc_boundary_points l) d ((k + 1) * i + q) = m_at (mcc_boundary_points l') d ((k + 1) * i' + q)) /\
  (forall u u', (forall q, (q < k + 1)%nat -> u ((k + 1) * i + q)%nat = u' ((k + 1) * i' + q)%nat) -> mcc_edge_outflow ref l p i u = - mcc_edge_outflow ref l' p' i' u').
Proof. exact C112_neighbours_all. Qed.

(** C113: the stabilisation: symmetric, zero on polynomial fields, sees only the difference of the boundary dofs *)
Theorem C113_stabilisation : forall gt gs junk llt svd k p ref l, mcc_space gt gs junk llt svd k p ref l ->
  forall gx gy, mcc_gradients ref l gx gy -> exists S, MCC_DofiDofi l = Ok S /\ m_rows S = lm_NumBasisFunctions l /\ m_cols S = lm_NumBasisFunctions l /\
  (forall i j, m_at S i j = m_at S j i) /\
  (forall u, exists P0 P0x P0y P1 P1x P1y, poly2 k P0 P0x P0y /\ poly2 k P1 P1x P1y /\
    (exists V0 V1, MCC_Values_quadrature l = Ok [V0; V1] /\ forall q, (q < m_cols (mcc_points l))%nat ->
      combine V0 u q = P0 (m_at (mcc_points l) 0 q) (m_at (mcc_points l) 1 q) /\ combine V1 u q = P1 (m_at (mcc_points l) 0 q) (m_at (mcc_points l) 1 q)) /\
    (forall j, (lm_NumBoundaryBasisFunctions l <= j < lm_NumBasisFunctions l)%nat -> mcc_dof ref l p gx gy P0 P1 j = u j) /\
    rsum (m_rows S) (fun i => rsum (m_cols S) (fun j => u i * m_at S i j * u j)) = lm_Measure l * rsum (lm_NumBoundaryBasisFunctions l) (fun j => (mcc_dof ref l p gx gy P0 P1 j - u j) ^ 2)) /\
  (forall f0 f0x f0y f1 f1x f1y, poly2 k f0 f0x f0y -> poly2 k f1 f1x f1y -> forall i, combine S (mcc_dof ref l p gx gy f0 f1) i = 0).
Proof. intros gt gs junk llt svd k p ref l MS. exact (C113_stabilisation_all gt gs junk llt svd k p ref l MS). Qed.

(** C114: the space of the pressure as created by itself has no values *)
Theorem C114_alone : forall gt gs k p junk, good_mixed_rules gt gs k -> good_polygon p -> exists ref l, MCC_Pressure_Create gt gs k = Ok ref /\ MCC_Pressure_CreateLocalSpace junk ref p = Ok l /\
  MCC_Pressure_Values_quadrature l = UB /\ forall points, m_rows points = 3%nat -> MCC_Pressure_Values junk ref l points = UB.
Proof. exact C114_alone_all. Qed.

(** C114: the space of the pressure of the pair has the scaled monomials as values *)
Theorem C114_pair : forall gt gs junk llt svd k p ref l, mcc_space gt gs junk llt svd k p ref l ->
  forall refq, MCC_Pressure_Create gt gs k = Ok refq -> exists lq, MCC_Pair_Pressure junk refq p l = Ok lq /\
  lq_NumBasisFunctions lq = lm_Nk l /\ lq_InternalQuadrature lq = lm_InternalQuadrature l /\
  (exists V, MCC_Pressure_Values_quadrature lq = Ok V /\ m_rows V = m_cols (mcc_points l) /\ m_cols V = lm_Nk l /\
    forall q i, (i < lm_Nk l)%nat -> m_at V q i = mcc_monomial ref l i (m_at (mcc_points l) 0 q) (m_at (mcc_points l) 1 q)) /\
  (forall points, m_rows points = 3%nat -> exists V, MCC_Pressure_Values junk refq lq points = Ok V /\ m_rows V = m_cols points /\ m_cols V = lm_Nk l /\
    forall q i, (i < lm_Nk l)%nat -> m_at V q i = mcc_monomial ref l i (m_at points 0 q) (m_at points 1 q)) /\
  (forall i j, (i < lm_Nk l)%nat -> (j < lm_Nk l)%nat -> m_at (lq_Hmatrix lq) i j = mcc_inside l (fun x y => mcc_monomial ref l i x y * mcc_monomial ref l j x y)).
Proof. intros gt gs junk llt svd k p ref l MS. exact (C114_pair_all gt gs junk llt svd k p ref l MS). Qed.

(** C115: the divergence reaches every polynomial of degree k *)
Theorem C115_onto : forall gt gs junk llt svd k p ref l, mcc_space gt gs junk llt svd k p ref l ->
  forall f fx fy, poly2 k f fx fy -> exists u V, MCC_DivergenceValues l = Ok V /\ forall q, combine V u q = f (m_at (mcc_points l) 0 q) (m_at (mcc_points l) 1 q).
Proof. intros gt gs junk llt svd k p ref l MS. exact (C115_onto_all gt gs junk llt svd k p ref l MS). Qed.

(** C115: the mass matrix with the stabilisation is positive definite *)
Theorem C115_mass : forall gt gs junk llt svd k p ref l, mcc_space gt gs junk llt svd k p ref l ->
  0 < lm_Measure l -> exists V0 V1 S, MCC_Values_quadrature l = Ok [V0; V1] /\ MCC_DofiDofi l = Ok S /\
  forall u, (exists j, (j < lm_NumBasisFunctions l)%nat /\ u j <> 0) ->
    0 < apply_rule (q_Weights (lm_InternalQuadrature l)) (fun q => combine V0 u q * combine V0 u q + combine V1 u q * combine V1 u q) +
        rsum (lm_NumBasisFunctions l) (fun i => rsum (lm_NumBasisFunctions l) (fun j => u i * m_at S i j * u j)).
Proof. intros gt gs junk llt svd k p ref l MS. exact (C115_mass_all gt gs junk llt svd k p ref l MS). Qed.

(** C115: the mixed problem on a cell has at most one solution *)
Theorem C115_mixed : forall gt gs junk llt svd k p ref l, mcc_space gt gs junk llt svd k p ref l ->
  0 < lm_Measure l -> exists V0 V1 V S, MCC_Values_quadrature l = Ok [V0; V1] /\ MCC_DivergenceValues l = Ok V /\ MCC_DofiDofi l = Ok S /\
  let A i j := apply_rule (q_Weights (lm_InternalQuadrature l)) (fun q => m_at V0 q i * m_at V0 q j + m_at V1 q i * m_at V1 q j) + m_at S i j in
  let B i j := apply_rule (q_Weights (lm_InternalQuadrature l)) (fun q => m_at (MCC_PolynomialsValues_quadrature l) q i * m_at V q j) in
  forall u p : nat -> R,
    (forall j, (j < lm_NumBasisFunctions l)%nat -> rsum (lm_NumBasisFunctions l) (fun i => A j i * u i) - rsum (lm_Nk l) (fun i => B i j * p i) = 0) ->
    (forall i, (i < lm_Nk l)%nat -> rsum (lm_NumBasisFunctions l) (fun j => B i j * u j) = 0) ->
    (forall j, (j < lm_NumBasisFunctions l)%nat -> u j = 0) /\ (forall i, (i < lm_Nk l)%nat -> p i = 0).
Proof. intros gt gs junk llt svd k p ref l MS. exact (C115_mixed_all gt gs junk llt svd k p ref l MS). Qed.

Print Assumptions C110_created.
Print Assumptions C110_space_exists.
Print Assumptions C110_vectors.
Print Assumptions C111_projection.
Print Assumptions C111_reproduces.
Print Assumptions C112_divergence.
Print Assumptions C112_conservation.
Print Assumptions C112_neighbours.
Print Assumptions C113_stabilisation.
Print Assumptions C114_alone.
Print Assumptions C114_pair.
Print Assumptions C115_onto.
Print Assumptions C115_mass.
Print Assumptions C115_mixed.

(** ** Examples: two unit squares sharing an edge, order 1, the rule with two Gauss points on the edges *)
Definition gauss2_rule : QuadratureData := {|
  q_Points := {| m_rows := 3; m_cols := 2; m_at := fun d j => match d, j with 0%nat, 0%nat => (1 - sqrt (/ 3)) / 2 | 0%nat, 1%nat => (1 + sqrt (/ 3)) / 2 | _, _ => 0 end |};
  q_Weights := {| v_size := 2; v_at := fun _ => 1 / 2 |} |}.
Example mixed_good : good_mixed_rules (fun _ => collapsed_rule) (fun _ => gauss2_rule) 1.
Proof.
  assert (Q : sqrt (/ 3) * sqrt (/ 3) = / 3) by (apply sqrt_sqrt; lra).
  constructor; cbn [gauss2_rule q_Points m_cols Nat.add]; try reflexivity.
  - apply collapsed_exact.
  - apply collapsed_exact.
  - intros q Hq. apply Rlt_le. exact (tr_positive q Hq).
  - split; reflexivity.
  - intros a H. unfold apply_rule. cbn [gauss2_rule q_Weights q_Points m_at v_size v_at rsum]. generalize dependent (sqrt (/ 3)). intros s Q.
    destruct a as [|[|[|[|a]]]]; [| | | |lia]; cbn [pow Nat.add INR]; try lra.
Qed.
Example C110_case : forall junk c, exists llt svd ref l, mcc_space (fun _ => collapsed_rule) (fun _ => gauss2_rule) junk llt svd 1 (sq_geometry c) ref l /\ lm_NumBasisFunctions l = 11%nat /\ lm_NumBigOPlusInternalBasisFunctions l = 1%nat.
Proof.
  intros junk c. destruct (C110_space_exists _ _ junk 1 (sq_geometry c) mixed_good (sq_good c)) as (llt & svd & ref & l & MS). exists llt, svd, ref, l. split; [exact MS|].
  destruct (C110_created _ _ junk llt svd 1 (sq_geometry c) mixed_good (sq_good c)) as (ref' & l' & E1 & E2 & s1 & s2 & s3 & s4 & s5 & s6 & _).
  rewrite (ms_reference _ _ _ _ _ _ _ _ _ MS) in E1. injection E1 as <-. rewrite (ms_local _ _ _ _ _ _ _ _ _ MS) in E2. injection E2 as <-. cbn in s1. lia.
Qed.
(** the gradients of the scaled monomials exist *)
Example mcc_gradients_case : forall ref l, lm_Diameter l <> 0 -> exists gx gy, mcc_gradients ref l gx gy.
Proof. exact gradients_exist. Qed.
(** a field of degree 2 = k + 1 and a field of degree 1 *)
Example C112_field : poly2 2 (fun x y => x * x + -2 * (x * y)) (fun x y => 2 * x + -2 * y) (fun x y => -2 * x) /\ poly2 1 (fun x y => 1 + 2 * x + 3 * y) (fun _ _ => 2) (fun _ _ => 3).
Proof.
  split; [|apply poly2_affine; lia].
  eapply poly2_ext; [apply (poly2_add 2 _ _ _ _ _ _ (poly2_mono 2 2 0 ltac:(lia)) (poly2_scal 2 (-2) _ _ _ (poly2_mono 2 1 1 ltac:(lia))))| | |]; intros; cbn; ring.
Qed.
Example C112_neighbours_case : forall junk, exists llt svd llt' svd' ref l l', mcc_space (fun _ => collapsed_rule) (fun _ => gauss2_rule) junk llt svd 1 (sq_geometry 0) ref l /\
  mcc_space (fun _ => collapsed_rule) (fun _ => gauss2_rule) junk llt' svd' 1 (sq_geometry 1) ref l' /\
  forall u u', (forall q, (q < 2)%nat -> u (2 * 1 + q)%nat = u' (2 * 3 + q)%nat) -> mcc_edge_outflow ref l (sq_geometry 0) 1 u = - mcc_edge_outflow ref l' (sq_geometry 1) 3 u'.
Proof.
  intros junk. destruct (C110_space_exists _ _ junk 1 (sq_geometry 0) mixed_good (sq_good 0)) as (llt & svd & ref & l & MS). destruct (C110_space_exists _ _ junk 1 (sq_geometry 1) mixed_good (sq_good 1)) as (llt' & svd' & ref' & l' & MS').
  assert (ref' = ref) as ->. { pose proof (ms_reference _ _ _ _ _ _ _ _ _ MS) as E. rewrite (ms_reference _ _ _ _ _ _ _ _ _ MS') in E. injection E as <-. reflexivity. }
  exists llt, svd, llt', svd', ref, l, l'. do 2 (split; [assumption|]).
  apply (proj2 (C112_neighbours _ _ junk llt svd llt' svd' 1 ref (sq_geometry 0) l (sq_geometry 1) l' 1 3 MS MS' ltac:(cbn; lia) ltac:(cbn; lia) eq_refl eq_refl ltac:(intros d Hd; destruct d as [|[|[|d]]]; [| | |lia]; cbn; lra))).
Qed.
Example C115_case : forall junk, exists llt svd ref l, mcc_space (fun _ => collapsed_rule) (fun _ => gauss2_rule) junk llt svd 1 (sq_geometry 0) ref l /\ 0 < lm_Measure l.
Proof.
  intros junk. destruct (C110_space_exists _ _ junk 1 (sq_geometry 0) mixed_good (sq_good 0)) as (llt & svd & ref & l & MS). exists llt, svd, ref, l. split; [exact MS|].
  rewrite (measure_of _ _ _ _ _ _ _ _ _ MS). cbn. lra.
Qed.
