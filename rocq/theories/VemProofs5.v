(** The statements about the virtual element. *)
From Coq Require Import List Arith Bool Lia ZArith Reals Lra.
From Verif Require Import Base RSum MatrixModel MonomialsModel MonomialsSpec LagrangeModel VemQuadModel VemQuadSpec VemQuadProofs VemQuadProofs2 GreenSpec GreenProofs PolyProofs VemModel VemSpec VemProofs VemProofs2 VemProofs3 VemProofs4.
Import ListNotations.
Local Open Scope R_scope.

Lemma C51_dofi_all : forall P coefficient D, m_cols D = m_rows P -> m_rows D = m_cols P ->
  exists S, utilities_DofiDofi P coefficient D = Ok S /\ m_rows S = m_rows D /\ m_cols S = m_rows D /\
    (forall i j, m_at S i j = m_at S j i) /\
    (0 <= coefficient -> forall x : nat -> R, 0 <= rsum (m_rows S) (fun i => rsum (m_cols S) (fun j => x i * m_at S i j * x j))) /\
    (forall x : nat -> R, rsum (m_rows S) (fun i => rsum (m_cols S) (fun j => x i * m_at S i j * x j)) =
      coefficient * rsum (m_rows D) (fun q => (rsum (m_cols D) (fun c => m_at D q c * rsum (m_cols P) (fun j => m_at P c j * x j)) - x q) ^ 2)) /\
    ((forall i j, (i < m_rows P)%nat -> (j < m_rows P)%nat -> product P D i j = delta i j) ->
      forall i c, (c < m_cols D)%nat -> product S D i c = 0).
Proof.
  intros P c D H1 H2. destruct (dofi_ok P c D H1 H2) as (S & E & RS & CS & A). exists S. split; auto. split; auto. split; auto.
  assert (SQ : forall x : nat -> R, rsum (m_rows S) (fun i => rsum (m_cols S) (fun j => x i * m_at S i j * x j)) =
    c * rsum (m_rows D) (fun q => (rsum (m_cols D) (fun c => m_at D q c * rsum (m_cols P) (fun j => m_at P c j * x j)) - x q) ^ 2)).
  { intros x. rewrite RS, CS. rewrite (rsum_ext _ _ (fun i => rsum (m_rows D) (fun j => x i * rsum (m_rows D) (fun q => (fun _ => c) q * (fun q i => product D P q i - delta q i) q i * (fun q i => product D P q i - delta q i) q j) * x j))) by (intros; apply rsum_ext; intros; now rewrite A).
    rewrite form_square, rsum_scal. f_equal. apply rsum_ext. intros q Hq. cbv beta.
    replace (rsum (m_rows D) (fun i => (product D P q i - delta q i) * x i)) with (rsum (m_cols D) (fun c0 => m_at D q c0 * rsum (m_cols P) (fun j => m_at P c0 j * x j)) - x q); [ring|].
    rewrite (rsum_ext (m_rows D) _ (fun i => product D P q i * x i - delta q i * x i)) by (intros; ring). rewrite rsum_minus, rsum_delta_l by auto. f_equal.
    unfold product. rewrite (rsum_ext (m_rows D) _ (fun i => rsum (m_cols D) (fun e => m_at D q e * (m_at P e i * x i)))) by (intros; rewrite <- rsum_scal_r; apply rsum_ext; intros; ring).
    rewrite rsum_swap. apply rsum_ext. intros e _. rewrite rsum_scal, H2. reflexivity. }
  split; [intros i j; rewrite !A; apply rsum_ext; intros; ring|]. split; [|split; auto].
  - intros Hc x. rewrite SQ. apply Rmult_le_pos; auto. apply rsum_nonneg. intros q _. apply pow2_ge_0.
  - intros PI i e He. unfold product. rewrite CS.
    rewrite (rsum_ext (m_rows D) _ (fun j => rsum (m_rows D) (fun q => c * (product D P q i - delta q i) * ((product D P q j - delta q j) * m_at D j e)))) by (intros j _; rewrite A, <- rsum_scal_r; apply rsum_ext; intros; ring).
    rewrite rsum_swap. apply rsum_0. intros q Hq. rewrite rsum_scal. rewrite (residual_0 P D q (fun j => m_at D j e) (fun c => delta c e)); auto; [ring|].
    intros r _. symmetry. apply rsum_delta. auto.
Qed.

Lemma C51_drecipe_all : forall P K w D, m_cols D = m_rows P -> m_rows D = m_cols P -> m_rows K = m_rows D -> m_cols K = m_rows D -> v_size w = m_rows D ->
  exists S, utilities_DRecipe P K w D = Ok S /\ m_rows S = m_rows D /\ m_cols S = m_rows D /\
    (forall i j, m_at S i j = m_at S j i) /\
    (forall x : nat -> R, rsum (m_rows S) (fun i => rsum (m_cols S) (fun j => x i * m_at S i j * x j)) =
      rsum (m_rows D) (fun q => Rmax (m_at K q q) (v_at w q) * (rsum (m_cols D) (fun c => m_at D q c * rsum (m_cols P) (fun j => m_at P c j * x j)) - x q) ^ 2)) /\
    ((forall i, (i < m_rows D)%nat -> 0 <= v_at w i) -> forall x : nat -> R, 0 <= rsum (m_rows S) (fun i => rsum (m_cols S) (fun j => x i * m_at S i j * x j))) /\
    ((forall i j, (i < m_rows P)%nat -> (j < m_rows P)%nat -> product P D i j = delta i j) ->
      forall i c, (c < m_cols D)%nat -> product S D i c = 0).
Proof.
  intros P K w D H1 H2 K1 K2 W. destruct (drecipe_ok P K w D H1 H2 K1 K2 W) as (S & E & RS & CS & A). exists S. split; auto. split; auto. split; auto.
  assert (SQ : forall x : nat -> R, rsum (m_rows S) (fun i => rsum (m_cols S) (fun j => x i * m_at S i j * x j)) =
    rsum (m_rows D) (fun q => Rmax (m_at K q q) (v_at w q) * (rsum (m_cols D) (fun c => m_at D q c * rsum (m_cols P) (fun j => m_at P c j * x j)) - x q) ^ 2)).
  { intros x. rewrite RS, CS. rewrite (rsum_ext _ _ (fun i => rsum (m_rows D) (fun j => x i * rsum (m_rows D) (fun q => (fun q => Rmax (m_at K q q) (v_at w q)) q * (fun q i => product D P q i - delta q i) q i * (fun q i => product D P q i - delta q i) q j) * x j))) by (intros; apply rsum_ext; intros; now rewrite A).
    rewrite form_square. apply rsum_ext. intros q Hq. cbv beta.
    replace (rsum (m_rows D) (fun i => (product D P q i - delta q i) * x i)) with (rsum (m_cols D) (fun c0 => m_at D q c0 * rsum (m_cols P) (fun j => m_at P c0 j * x j)) - x q); [ring|].
    rewrite (rsum_ext (m_rows D) _ (fun i => product D P q i * x i - delta q i * x i)) by (intros; ring). rewrite rsum_minus, rsum_delta_l by auto. f_equal.
    unfold product. rewrite (rsum_ext (m_rows D) _ (fun i => rsum (m_cols D) (fun e => m_at D q e * (m_at P e i * x i)))) by (intros; rewrite <- rsum_scal_r; apply rsum_ext; intros; ring).
    rewrite rsum_swap. apply rsum_ext. intros e _. rewrite rsum_scal, H2. reflexivity. }
  split; [intros i j; rewrite !A; apply rsum_ext; intros; ring|]. split; [auto|]. split.
  - intros Hc x. rewrite SQ. apply rsum_nonneg. intros q Hq. apply Rmult_le_pos; [|apply pow2_ge_0]. pose proof (Rmax_r (m_at K q q) (v_at w q)). specialize (Hc q Hq). lra.
  - intros PI i e He. unfold product. rewrite CS.
    rewrite (rsum_ext (m_rows D) _ (fun j => rsum (m_rows D) (fun q => Rmax (m_at K q q) (v_at w q) * (product D P q i - delta q i) * ((product D P q j - delta q j) * m_at D j e)))) by (intros j _; rewrite A, <- rsum_scal_r; apply rsum_ext; intros; ring).
    rewrite rsum_swap. apply rsum_0. intros q Hq. rewrite rsum_scal. rewrite (residual_0 P D q (fun j => m_at D j e) (fun c => delta c e)); auto; [ring|].
    intros r _. symmetry. apply rsum_delta. auto.
Qed.

Lemma C69_all : forall gt lob junk lu llt k p, (1 <= k)%nat -> good_rules gt lob k -> good_polygon p -> exact_for nonsingular lu -> exact_for positive_definite llt ->
  exists ref l, vem_space gt lob junk lu llt k p ref l.
Proof.
  intros gt lob junk lu llt k p Hk GR GP E1 E2. destruct (reference_ok gt lob k Hk GR) as (ref & E & RF). destruct (local_ok gt lob k ref p Hk GR RF GP junk lu llt) as (l & EL & _).
  exists ref, l. constructor; auto.
Qed.

Section All.
Variables (gt lob : nat -> QuadratureData) (junk : nat -> nat -> R) (lu llt : Solver) (k : nat) (p : Polygon) (ref : VEM_2D_Reference) (l : VEM_2D_Local).
Hypothesis VS : vem_space gt lob junk lu llt k p ref l.
Let Hk := vs_order _ _ _ _ _ _ _ _ _ VS.
Let GR := vs_rules _ _ _ _ _ _ _ _ _ VS.
Let GP := vs_polygon _ _ _ _ _ _ _ _ _ VS.
Let Elu := vs_lu _ _ _ _ _ _ _ _ _ VS.
Let Ellt := vs_llt _ _ _ _ _ _ _ _ _ VS.
Let LFs := LF gt lob junk lu llt k p ref l VS.

Lemma sizes_all : lv_NumBoundaryBasisFunctions l = (k * m_cols (pg_Vertices p))%nat /\ (2 * lv_NumInternalBasisFunctions l = k * (k - 1))%nat /\
  lv_NumBasisFunctions l = (lv_NumBoundaryBasisFunctions l + lv_NumInternalBasisFunctions l)%nat /\
  (2 * lv_NumProjectorBasisFunctions l = (k + 1) * (k + 2))%nat /\ (2 * lv_Nkm1 l = k * (k + 1))%nat.
Proof.
  rewrite (lf_nb _ _ _ _ _ _ LFs), (lf_ni _ _ _ _ _ _ LFs), (lf_N _ _ _ _ _ _ LFs), (lf_Nk _ _ _ _ _ _ LFs), (lf_Nkm1 _ _ _ _ _ _ LFs).
  split; [destruct k; [lia|]; replace (S n - 1)%nat with n by lia; lia|]. split; [|split; [reflexivity|]].
  - destruct (Nat.eq_dec k 1) as [K|K]; [rewrite (nint_1 k K), K; lia|]. rewrite nint_2 by lia. pose proof (num2_k (k - 2)) as Q. rewrite Q. replace (k - 2 + 1)%nat with (k - 1)%nat by lia. replace (k - 2 + 2)%nat with k by lia. lia.
  - split; [apply num2_k|]. pose proof (num2_k (k - 1)) as Q. rewrite Q. replace (k - 1 + 1)%nat with k by lia. replace (k - 1 + 2)%nat with (k + 1)%nat by lia. lia.
Qed.

Lemma wellposed_all : nonsingular (lv_Gmatrix l) /\ positive_definite (lv_Hmatrix l) /\ positive_definite (corner (lv_Hmatrix l) (lv_Nkm1 l)) /\
  m_rows (lv_Gmatrix l) = lv_NumProjectorBasisFunctions l /\ m_rows (lv_Hmatrix l) = lv_NumProjectorBasisFunctions l.
Proof.
  split; [apply (G_nonsingular gt lob k p lu llt l Hk GR GP LFs)|]. split; [apply (H_pd_k gt lob k p lu llt l Hk GR GP LFs)|]. rewrite (lf_Nkm1 _ _ _ _ _ _ LFs), (lf_Nk _ _ _ _ _ _ LFs).
  split; [apply (H_pd gt lob k p lu llt l Hk GR GP LFs); lia|]. split; [apply (lf_G _ _ _ _ _ _ LFs)|apply (lf_H _ _ _ _ _ _ LFs)].
Qed.

Lemma D_all : m_rows (lv_Dmatrix l) = lv_NumBasisFunctions l /\ m_cols (lv_Dmatrix l) = lv_NumProjectorBasisFunctions l /\
  forall i j, (i < lv_NumBasisFunctions l)%nat -> (j < lv_NumProjectorBasisFunctions l)%nat -> m_at (lv_Dmatrix l) i j = dofs_of ref l (scaled_monomial ref l j) i.
Proof.
  rewrite (lf_N _ _ _ _ _ _ LFs), (lf_Nk _ _ _ _ _ _ LFs). destruct (lf_D _ _ _ _ _ _ LFs) as (R & C & _). split; auto. split; auto. intros i j Hi Hj.
  rewrite (dofs_comb gt lob junk lu llt k p ref l VS (scaled_monomial ref l j) (fun c => delta c j)); auto.
  - symmetry. apply rsum_delta. auto.
  - intros x y. rewrite (scaled_phi gt lob junk lu llt k p ref l VS) by auto. symmetry. rewrite (rsum_ext _ _ (fun c => (fun c => phi (pg_Centroid p 0%nat) (pg_Centroid p 1%nat) (pg_Diameter p) c x y) c * delta c j)) by (intros; ring). apply (rsum_delta (num2 k) j). auto.
Qed.

Lemma projectors_D_all : forall i j, (i < lv_NumProjectorBasisFunctions l)%nat -> (j < lv_NumProjectorBasisFunctions l)%nat ->
  product (lv_Bmatrix l) (lv_Dmatrix l) i j = m_at (lv_Gmatrix l) i j /\ product (lv_PiNabla l) (lv_Dmatrix l) i j = delta i j /\
  product (lv_Cmatrix l) (lv_Dmatrix l) i j = m_at (lv_Hmatrix l) i j /\ product (lv_Pi0k l) (lv_Dmatrix l) i j = delta i j /\
  ((i < lv_Nkm1 l)%nat -> rsum (lv_Nkm1 l) (fun c => m_at (lv_Hmatrix l) i c * product (lv_Pi0km1 l) (lv_Dmatrix l) c j) = m_at (lv_Hmatrix l) i j) /\
  ((i < lv_Nkm1 l)%nat -> (j < lv_Nkm1 l)%nat -> product (lv_Pi0km1 l) (lv_Dmatrix l) i j = delta i j).
Proof.
  rewrite (lf_Nk _ _ _ _ _ _ LFs), (lf_Nkm1 _ _ _ _ _ _ LFs). intros i j Hi Hj.
  split; [apply (BD gt k p lu llt l Hk GP LFs); auto|]. split; [apply (Pi_D gt lob k p lu llt l Hk GR GP LFs Elu); auto|]. split; [apply (CD gt lob k p lu llt l Hk GR GP LFs Elu); auto|].
  split; [apply (P0k_D gt lob k p lu llt l Hk GR GP LFs Elu Ellt); auto|]. split.
  - intros Hi'. apply (P0km1_orth gt lob k p lu llt l Hk GR GP LFs Elu Ellt); auto.
  - intros Hi' Hj'. apply (P0km1_D gt lob k p lu llt l Hk GR GP LFs Elu Ellt); auto.
Qed.

Lemma reproduce_all : forall f fx fy, poly2 k f fx fy -> forall x y,
  projected ref l (lv_PiNabla l) (dofs_of ref l f) x y = f x y /\ projected ref l (lv_Pi0k l) (dofs_of ref l f) x y = f x y /\
  (poly2 (k - 1) f fx fy -> projected ref l (lv_Pi0km1 l) (dofs_of ref l f) x y = f x y) /\
  exists P0 P1, lv_Pi0km1Der l = [P0; P1] /\ projected ref l P0 (dofs_of ref l f) x y = fx x y /\ projected ref l P1 (dofs_of ref l f) x y = fy x y.
Proof.
  intros f fx fy Pf x y. split; [apply (PiNabla_poly gt lob junk lu llt k p ref l VS f fx fy Pf)|]. split; [apply (Pi0k_poly gt lob junk lu llt k p ref l VS f fx fy Pf)|].
  split; [intros Q; apply (Pi0km1_poly gt lob junk lu llt k p ref l VS f fx fy Q)|]. destruct (Pi0km1Der_poly gt lob junk lu llt k p ref l VS f fx fy Pf) as (P0 & P1 & E & A & B). exists P0, P1. auto.
Qed.

Lemma values_all : forall junk' points, m_rows points = 3%nat ->
  (exists A, VEM_Values junk' ref l Pi0k_t points = Ok A /\ m_rows A = m_cols points /\ m_cols A = lv_NumBasisFunctions l /\
    forall u q, combine A u q = projected ref l (lv_Pi0k l) u (m_at points 0 q) (m_at points 1 q)) /\
  (exists A, VEM_Values junk' ref l Pi0km1_t points = Ok A /\ m_rows A = m_cols points /\ m_cols A = lv_NumBasisFunctions l /\
    forall u q, combine A u q = projected ref l (lv_Pi0km1 l) u (m_at points 0 q) (m_at points 1 q)) /\
  (exists A0 A1, VEM_DerivativeValues junk' ref l PiNabla_t points = Ok [A0; A1] /\ m_rows A0 = m_cols points /\ m_cols A0 = lv_NumBasisFunctions l /\ m_rows A1 = m_cols points /\ m_cols A1 = lv_NumBasisFunctions l /\
    forall u, exists gx gy, poly2 k (projected ref l (lv_PiNabla l) u) gx gy /\
      forall q, combine A0 u q = gx (m_at points 0 q) (m_at points 1 q) /\ combine A1 u q = gy (m_at points 0 q) (m_at points 1 q)) /\
  (exists P0 P1 A0 A1, lv_Pi0km1Der l = [P0; P1] /\ VEM_DerivativeValues junk' ref l Pi0km1Der_t points = Ok [A0; A1] /\ m_rows A0 = m_cols points /\ m_cols A0 = lv_NumBasisFunctions l /\ m_rows A1 = m_cols points /\ m_cols A1 = lv_NumBasisFunctions l /\
    forall u q, combine A0 u q = projected ref l P0 u (m_at points 0 q) (m_at points 1 q) /\ combine A1 u q = projected ref l P1 u (m_at points 0 q) (m_at points 1 q)).
Proof.
  intros junk' points Hp. rewrite (lf_N _ _ _ _ _ _ LFs). unfold VEM_Values, VEM_DerivativeValues. destruct (points_tables gt lob junk lu llt k p ref l VS junk' points Hp) as (V & V0 & V1 & EV & EVD & T). rewrite EV, EVD. cbn [bind].
  destruct (values_ok gt lob junk lu llt k p ref l VS _ _ _ _ _ _ T) as (A & B). destruct (derivative_values_ok gt lob junk lu llt k p ref l VS _ _ _ _ _ _ T) as (C & D). auto.
Qed.

Lemma quadrature_values_all : let points := q_Points (lv_InternalQuadrature l) in
  (exists A, VEM_Values_quadrature l Pi0k_t = Ok A /\ m_rows A = m_cols points /\ m_cols A = lv_NumBasisFunctions l /\
    forall u q, combine A u q = projected ref l (lv_Pi0k l) u (m_at points 0 q) (m_at points 1 q)) /\
  (exists A, VEM_Values_quadrature l Pi0km1_t = Ok A /\ m_rows A = m_cols points /\ m_cols A = lv_NumBasisFunctions l /\
    forall u q, combine A u q = projected ref l (lv_Pi0km1 l) u (m_at points 0 q) (m_at points 1 q)) /\
  (exists A0 A1, VEM_DerivativeValues_quadrature l PiNabla_t = Ok [A0; A1] /\ m_rows A0 = m_cols points /\ m_cols A0 = lv_NumBasisFunctions l /\ m_rows A1 = m_cols points /\ m_cols A1 = lv_NumBasisFunctions l /\
    forall u, exists gx gy, poly2 k (projected ref l (lv_PiNabla l) u) gx gy /\
      forall q, combine A0 u q = gx (m_at points 0 q) (m_at points 1 q) /\ combine A1 u q = gy (m_at points 0 q) (m_at points 1 q)) /\
  (exists P0 P1 A0 A1, lv_Pi0km1Der l = [P0; P1] /\ VEM_DerivativeValues_quadrature l Pi0km1Der_t = Ok [A0; A1] /\ m_rows A0 = m_cols points /\ m_cols A0 = lv_NumBasisFunctions l /\ m_rows A1 = m_cols points /\ m_cols A1 = lv_NumBasisFunctions l /\
    forall u q, combine A0 u q = projected ref l P0 u (m_at points 0 q) (m_at points 1 q) /\ combine A1 u q = projected ref l P1 u (m_at points 0 q) (m_at points 1 q)).
Proof.
  cbv zeta. rewrite (lf_N _ _ _ _ _ _ LFs). unfold VEM_Values_quadrature, VEM_DerivativeValues_quadrature. destruct (quadrature_tables gt lob junk lu llt k p ref l VS) as (V0 & V1 & EV & T). rewrite EV.
  destruct (values_ok gt lob junk lu llt k p ref l VS _ _ _ _ _ _ T) as (A & B). destruct (derivative_values_ok gt lob junk lu llt k p ref l VS _ _ _ _ _ _ T) as (C & D). auto.
Qed.

Lemma laplacian_all : let points := q_Points (lv_InternalQuadrature l) in
  exists A, VEM_LaplacianValues_quadrature l Pi0km1Der_t = Ok A /\ m_rows A = m_cols points /\ m_cols A = lv_NumBasisFunctions l /\
    (forall u, exists P0 P1 gxx gxy gyx gyy, lv_Pi0km1Der l = [P0; P1] /\ poly2 (k - 1) (projected ref l P0 u) gxx gxy /\ poly2 (k - 1) (projected ref l P1 u) gyx gyy /\
      forall q, combine A u q = gxx (m_at points 0 q) (m_at points 1 q) + gyy (m_at points 0 q) (m_at points 1 q)) /\
    (forall f fx fy fxx fxy fyx fyy, poly2 k f fx fy -> poly2 (k - 1) fx fxx fxy -> poly2 (k - 1) fy fyx fyy ->
      forall q, combine A (dofs_of ref l f) q = fxx (m_at points 0 q) (m_at points 1 q) + fyy (m_at points 0 q) (m_at points 1 q)).
Proof.
  cbv zeta. rewrite (lf_N _ _ _ _ _ _ LFs). destruct (laplacian_ok gt lob junk lu llt k p ref l VS) as (P0 & P1 & A & EP & EA & R & C & H). exists A. do 3 (split; auto). split.
  - intros u. destruct (H u) as (gx & gxx & gxy & gy & gyx & gyy & -> & -> & p1 & p2 & K). exists P0, P1, gxx, gxy, gyx, gyy. auto.
  - intros f fx fy fxx fxy fyx fyy Pf Px Py q. destruct (H (dofs_of ref l f)) as (gx & gxx & gxy & gy & gyx & gyy & -> & -> & p1 & p2 & K). rewrite K.
    destruct (Pi0km1Der_poly gt lob junk lu llt k p ref l VS f fx fy Pf) as (P0' & P1' & EP' & X & Y). rewrite EP in EP'. injection EP' as <- <-.
    f_equal; [apply (proj1 (poly2_derivatives_unique _ _ _ _ _ _ _ _ p1 Px X))|apply (proj2 (poly2_derivatives_unique _ _ _ _ _ _ _ _ p2 Py Y))].
Qed.

Lemma laplacian_points_all : forall junk' points, m_rows points = 3%nat ->
  (m_cols points <> lv_Nkm1 l -> VEM_LaplacianValues junk' ref l Pi0km1Der_t points = UB) /\
  (m_cols points = lv_Nkm1 l -> exists A, VEM_LaplacianValues junk' ref l Pi0km1Der_t points = Ok A /\ m_cols A = lv_NumProjectorBasisFunctions l).
Proof.
  intros junk' points Hp. rewrite (lf_Nkm1 _ _ _ _ _ _ LFs), (lf_Nk _ _ _ _ _ _ LFs). unfold VEM_LaplacianValues.
  destruct (points_tables gt lob junk lu llt k p ref l VS junk' points Hp) as (V & V0 & V1 & EV & EVD & [t1 t2 t3 t4 t5 t6 _ _ _]). rewrite EVD. cbn [bind].
  destruct (lf_PD _ _ _ _ _ _ LFs) as (P0 & P1 & EP & R0 & C0 & R1 & C1 & _). rewrite EP, (lf_Nkm1 _ _ _ _ _ _ LFs), (lf_dim _ _ _ _ _ _ LFs).
  assert (LE : (num2 (k - 1) <= m_cols P0)%nat).
  { rewrite C0. assert (NV : (1 <= m_cols (pg_Vertices p))%nat).
    { destruct (m_cols (pg_Vertices p)) eqn:E; [|lia]. pose proof (gp_area _ GP) as S. unfold shoelace in S. rewrite E in S. cbn [rsum] in S. lra. }
    destruct sizes_all as (_ & s2 & _ & _ & s5). rewrite (lf_ni _ _ _ _ _ _ LFs) in s2. rewrite (lf_Nkm1 _ _ _ _ _ _ LFs) in s5. set (nv := m_cols (pg_Vertices p)) in *.
    assert (k <= nv + (k - 1) * nv)%nat by nia. nia. }
  assert (LE1 : (num2 (k - 1) <= m_cols P1)%nat) by (rewrite C1, <- C0; auto).
  cbn [utilities_LaplacianValues for_from Nat.sub idx_ nth_error bind Nat.add]. unfold leftCols, mat_block. cbn [Nat.add]. rewrite !(leb_true (m_rows P0)), (leb_true (num2 (k - 1)) (m_cols P0)) by lia. cbn [andb bind].
  unfold mmul. cbn [m_cols m_rows]. rewrite t3. split.
  - intros Hn. destruct (Nat.eqb_spec (num2 (k - 1)) (m_cols points)); [congruence|]. reflexivity.
  - intros Hn. rewrite Hn, Nat.eqb_refl. cbn [bind]. rewrite !(leb_true (m_rows P1)), (leb_true (num2 (k - 1)) (m_cols P1)) by lia. cbn [andb bind m_cols]. rewrite t5, Hn, Nat.eqb_refl. cbn [bind]. unfold madd. cbn [m_rows m_cols].
    rewrite R0, R1, t4, t6, !Nat.eqb_refl. cbn [andb]. eexists. split; [reflexivity|]. reflexivity.
Qed.

Lemma orthogonal_all : forall u i, (i < lv_NumProjectorBasisFunctions l)%nat ->
  let m := scaled_monomial ref l i in let PN := projected ref l (lv_PiNabla l) u in
  let given := if (i <? lv_NumInternalBasisFunctions l)%nat then lv_Measure l * u (lv_NumBoundaryBasisFunctions l + i)%nat else inside l (fun x y => PN x y * m x y) in
  inside l (fun x y => projected ref l (lv_Pi0k l) u x y * m x y) = given /\
  ((i < lv_Nkm1 l)%nat -> inside l (fun x y => projected ref l (lv_Pi0km1 l) u x y * m x y) = given).
Proof.
  intros u i. rewrite (lf_Nk _ _ _ _ _ _ LFs), (lf_Nkm1 _ _ _ _ _ _ LFs), (lf_ni _ _ _ _ _ _ LFs). intros Hi. cbv zeta. split; [apply (l2_k gt lob junk lu llt k p ref l VS u i Hi)|]. intros Hi'. apply (l2_km1 gt lob junk lu llt k p ref l VS u i Hi').
Qed.

Lemma energy_all : forall u g gx gy gxx gxy gyx gyy (c : nat -> R), poly2 k g gx gy -> poly2 (k - 1) gx gxx gxy -> poly2 (k - 1) gy gyx gyy ->
  (forall x y, gxx x y + gyy x y = rsum (lv_NumInternalBasisFunctions l) (fun i => c i * scaled_monomial ref l i x y)) ->
  exists px py, poly2 k (projected ref l (lv_PiNabla l) u) px py /\
    inside l (fun x y => px x y * gx x y + py x y * gy x y) = flux l 0 gx u + flux l 1 gy u - moment l c u.
Proof. rewrite (lf_ni _ _ _ _ _ _ LFs). exact (energy gt lob junk lu llt k p ref l VS). Qed.

Lemma constant_all : forall u, 
  let PN := projected ref l (lv_PiNabla l) u in
  (k = 1%nat -> around l PN = rsum (lv_NumBoundaryBasisFunctions l) (fun q => v_at (q_Weights (eq_Quadrature (lv_BoundaryQuadrature l))) q * u q)) /\
  ((2 <= k)%nat -> inside l PN = lv_Measure l * u (lv_NumBoundaryBasisFunctions l)).
Proof.
  intros u PN. assert (pos : (0 < num2 k)%nat) by apply num2_pos. destruct (lf_Pi _ _ _ _ _ _ LFs) as (RP & CP & _). destruct (lf_G _ _ _ _ _ _ LFs) as (_ & _ & G1 & _). destruct (lf_B _ _ _ _ _ _ LFs) as (_ & _ & B1 & _ & B3).
  set (nb := (m_cols (pg_Vertices p) + (k - 1) * m_cols (pg_Vertices p))%nat) in *. set (ni := nint k) in *.
  assert (ROW : rsum (num2 k) (fun c => m_at (lv_Gmatrix l) 0 c * rsum (nb + ni) (fun j => m_at (lv_PiNabla l) c j * u j)) = rsum (nb + ni) (fun j => m_at (lv_Bmatrix l) 0 j * u j)).
  { rewrite (rsum_ext (num2 k) _ (fun c => rsum (nb + ni) (fun j => m_at (lv_Gmatrix l) 0 c * m_at (lv_PiNabla l) c j * u j))) by (intros; rewrite <- rsum_scal; apply rsum_ext; intros; ring).
    rewrite rsum_swap. apply rsum_ext. intros j Hj. rewrite rsum_scal_r. f_equal. apply (Pi_solves gt lob k p lu llt l Hk GR GP LFs Elu 0 j pos Hj). }
  rewrite (lf_nb _ _ _ _ _ _ LFs), (lf_measure _ _ _ _ _ _ LFs). fold nb.
  assert (PNE : forall x y, PN x y = rsum (num2 k) (fun c => rsum (nb + ni) (fun j => m_at (lv_PiNabla l) c j * u j) * phi (pg_Centroid p 0%nat) (pg_Centroid p 1%nat) (pg_Diameter p) c x y)).
  { intros x y. unfold PN, projected. rewrite RP, CP. fold nb ni. apply rsum_ext. intros c Hc. rewrite (scaled_phi gt lob junk lu llt k p ref l VS) by auto. reflexivity. }
  split; intros K.
  - transitivity (fW l PN); [reflexivity|]. rewrite (W_ext l _ _ PNE), W_rsum. transitivity (rsum (num2 k) (fun c => m_at (lv_Gmatrix l) 0 c * rsum (nb + ni) (fun j => m_at (lv_PiNabla l) c j * u j))).
    + apply rsum_ext. intros c Hc. rewrite W_scal, G1 by auto. rewrite K. cbn [Nat.eqb]. ring.
    + rewrite ROW. rewrite rsum_add. rewrite (rsum_0 ni) by (unfold ni; rewrite (nint_1 k K); intros; lia). rewrite Rplus_0_r. apply rsum_ext. intros j Hj. rewrite B1 by auto. now rewrite K.
  - transitivity (fI l PN); [reflexivity|]. rewrite (I_ext l _ _ PNE), I_rsum. transitivity (rsum (num2 k) (fun c => m_at (lv_Gmatrix l) 0 c * rsum (nb + ni) (fun j => m_at (lv_PiNabla l) c j * u j))).
    + apply rsum_ext. intros c Hc. rewrite I_scal, G1 by auto. destruct (Nat.eqb_spec k 1); [lia|]. ring.
    + assert (P0 : (0 < ni)%nat) by (unfold ni; rewrite nint_2 by lia; apply num2_pos).
      rewrite ROW. rewrite rsum_add. rewrite (rsum_0 nb) by (intros j Hj; rewrite B1 by auto; destruct (Nat.eqb_spec k 1); [lia|ring]). rewrite Rplus_0_l. rewrite (rsum_single ni _ 0); auto.
      * rewrite B3 by auto. cbn [Nat.eqb andb]. now rewrite Nat.add_0_r.
      * intros c Hc Hc0. rewrite B3 by auto. rewrite (proj2 (Nat.eqb_neq c 0) Hc0). cbn [Nat.eqb andb]. unfold dd. change (ea 0) with 0%nat. change (eb 0) with 0%nat. cbn [Nat.ltb Nat.leb andb]. ring.
Qed.

Lemma derivative_projection_all : forall d u g gx gy (c : nat -> R), (d < 2)%nat -> poly2 (k - 1) g gx gy ->
  (forall x y, (match d with 0%nat => gx | _ => gy end) x y = rsum (lv_NumInternalBasisFunctions l) (fun i => c i * scaled_monomial ref l i x y)) ->
  exists P, nth_error (lv_Pi0km1Der l) d = Some P /\ inside l (fun x y => projected ref l P u x y * g x y) = flux l d g u - moment l c u.
Proof. rewrite (lf_ni _ _ _ _ _ _ LFs). exact (derivative_projection gt lob junk lu llt k p ref l VS). Qed.

(** stabilization of the space *)
Lemma stabilization_all : forall t, t = PiNabla_t \/ t = Pi0k_t -> exists S, VEM_DofiDofi l t = Ok S /\ m_rows S = lv_NumBasisFunctions l /\ m_cols S = lv_NumBasisFunctions l /\
  (forall i j, m_at S i j = m_at S j i) /\
  (forall f fx fy, poly2 k f fx fy -> forall i, combine S (dofs_of ref l f) i = 0) /\
  (forall u : nat -> R, rsum (m_rows S) (fun i => rsum (m_cols S) (fun j => u i * m_at S i j * u j)) =
    (match t with PiNabla_t => 1 | _ => lv_Measure l end) * rsum (lv_NumBasisFunctions l) (fun q =>
       (dofs_of ref l (projected ref l (match t with PiNabla_t => lv_PiNabla l | _ => lv_Pi0k l end) u) q - u q) ^ 2)).
Proof.
  destruct (lf_D _ _ _ _ _ _ LFs) as (RD & CD & _). destruct (lf_Pi _ _ _ _ _ _ LFs) as (RP & CP & _). destruct (lf_P0 _ _ _ _ _ _ LFs) as (_ & _ & R0 & C0 & _).
  rewrite (lf_N _ _ _ _ _ _ LFs).
  assert (K : forall P coef, m_rows P = num2 k -> m_cols P = (m_cols (pg_Vertices p) + (k - 1) * m_cols (pg_Vertices p) + nint k)%nat ->
    (forall i j, (i < num2 k)%nat -> (j < num2 k)%nat -> product P (lv_Dmatrix l) i j = delta i j) -> exists S, utilities_DofiDofi P coef (lv_Dmatrix l) = Ok S /\ m_rows S = m_cols P /\ m_cols S = m_cols P /\
    (forall i j, m_at S i j = m_at S j i) /\ (forall f fx fy, poly2 k f fx fy -> forall i, combine S (dofs_of ref l f) i = 0) /\
    (forall u : nat -> R, rsum (m_rows S) (fun i => rsum (m_cols S) (fun j => u i * m_at S i j * u j)) = coef * rsum (m_cols P) (fun q => (dofs_of ref l (projected ref l P u) q - u q) ^ 2))).
  { intros P coef RP' CP' PI. destruct (C51_dofi_all P coef (lv_Dmatrix l)) as (S & E & RS & CS & SY & _ & SQ & SD); [congruence|congruence|]. exists S. split; auto. rewrite RS, CS. split; [congruence|]. split; [congruence|]. split; auto. split.
    - intros f fx fy Pf i. destruct (phi_represent (pg_Centroid p 0%nat) (pg_Centroid p 1%nat) (pg_Diameter p) (gp_diameter _ GP) k f fx fy Pf) as (a & Ha & _). unfold combine. rewrite CS, RD.
      rewrite (rsum_ext _ _ (fun j => rsum (num2 k) (fun c => m_at S i j * m_at (lv_Dmatrix l) j c * a c))) by (intros j Hj; rewrite (dofs_comb gt lob junk lu llt k p ref l VS f a Ha j Hj), <- rsum_scal; apply rsum_ext; intros; ring).
      rewrite rsum_swap. apply rsum_0. intros c Hc. rewrite rsum_scal_r. assert (Z : product S (lv_Dmatrix l) i c = 0) by (apply SD; [intros; apply PI; congruence|rewrite CD; auto]). unfold product in Z. rewrite CS, RD in Z. rewrite Z. ring.
    - intros u. rewrite <- CP' in RD. rewrite RS, CS in SQ. rewrite SQ, RD, CD. f_equal. apply rsum_ext. intros q Hq. f_equal. f_equal. rewrite CP' in Hq.
      rewrite (dofs_comb gt lob junk lu llt k p ref l VS (projected ref l P u) (fun c => rsum (m_cols P) (fun j => m_at P c j * u j))); auto.
      intros x y. unfold projected. rewrite RP'. apply rsum_ext. intros c Hc. rewrite (scaled_phi gt lob junk lu llt k p ref l VS) by auto. reflexivity. }
  intros t [-> | ->]; cbn [VEM_DofiDofi].
  - destruct (K (lv_PiNabla l) 1 RP CP) as (S & E & r & c & sy & pl & sq); [intros; apply (Pi_D gt lob k p lu llt l Hk GR GP LFs Elu); auto|]. rewrite CP in *. exists S. auto 10.
  - destruct (K (lv_Pi0k l) (lv_Measure l) R0 C0) as (S & E & r & c & sy & pl & sq); [intros; apply (P0k_D gt lob k p lu llt l Hk GR GP LFs Elu Ellt); auto|]. rewrite C0 in *. exists S. auto 10.
Qed.
End All.
