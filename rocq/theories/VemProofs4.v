(** The virtual element seen from its interface: values, derivatives, projections, stabilization. *)
From Coq Require Import List Arith Bool Lia ZArith Reals Lra.
From Verif Require Import Base RSum MatrixModel MonomialsModel MonomialsSpec LagrangeModel VemQuadModel VemQuadSpec VemQuadProofs VemQuadProofs2 GreenSpec GreenProofs PolyProofs VemModel VemSpec VemProofs VemProofs2 VemProofs3.
Import ListNotations.
Local Open Scope R_scope.

(** ** Stabilization *)
Lemma dofi_ok P c D : m_cols D = m_rows P -> m_rows D = m_cols P -> exists S, utilities_DofiDofi P c D = Ok S /\ m_rows S = m_rows D /\ m_cols S = m_rows D /\
  forall i j, m_at S i j = rsum (m_rows D) (fun q => c * (product D P q i - delta q i) * (product D P q j - delta q j)).
Proof.
  intros H1 H2. unfold utilities_DofiDofi, mmul. rewrite H1, Nat.eqb_refl. cbn [bind m_rows m_cols mscal mtrans sub_diagonal]. rewrite Nat.eqb_refl. eexists. split; [reflexivity|]. cbn [m_rows m_cols m_at mscal mtrans sub_diagonal].
  split; [auto|]. split; [auto|]. intros i j. apply rsum_ext. intros q Hq. unfold product, delta. rewrite H1. reflexivity.
Qed.
Lemma drecipe_ok P K w D : m_cols D = m_rows P -> m_rows D = m_cols P -> m_rows K = m_rows D -> m_cols K = m_rows D -> v_size w = m_rows D -> exists S, utilities_DRecipe P K w D = Ok S /\ m_rows S = m_rows D /\ m_cols S = m_rows D /\
  forall i j, m_at S i j = rsum (m_rows D) (fun q => Rmax (m_at K q q) (v_at w q) * (product D P q i - delta q i) * (product D P q j - delta q j)).
Proof.
  intros H1 H2 K1 K2 W. unfold utilities_DRecipe, mmul. rewrite H1, Nat.eqb_refl. cbn [bind]. rewrite K1, K2, W, Nat.min_id, Nat.eqb_refl. cbn [andb]. unfold weighted, mdiag, mmul. cbn [m_rows m_cols mtrans sub_diagonal v_size]. rewrite Nat.eqb_refl. cbn [bind m_cols]. rewrite Nat.eqb_refl.
  eexists. split; [reflexivity|]. cbn [m_rows m_cols m_at mtrans sub_diagonal v_at]. split; [auto|]. split; [auto|]. intros i j. apply rsum_ext. intros q Hq. unfold product, delta. rewrite H1. ring.
Qed.

(** a form sum_q c_q r_q(i) r_q(j) *)
Lemma form_square n m (c : nat -> R) (r : nat -> nat -> R) (x : nat -> R) :
  rsum n (fun i => rsum n (fun j => x i * rsum m (fun q => c q * r q i * r q j) * x j)) = rsum m (fun q => c q * (rsum n (fun i => r q i * x i) * rsum n (fun i => r q i * x i))).
Proof.
  rewrite (rsum_ext n _ (fun i => rsum m (fun q => c q * (rsum n (fun j => r q i * x i * (r q j * x j)))))).
  - rewrite rsum_swap. apply rsum_ext. intros q _. rewrite rsum_scal, rsum_mult. reflexivity.
  - intros i _. rewrite (rsum_ext n _ (fun j => rsum m (fun q => c q * (r q i * x i * (r q j * x j))))) by (intros; rewrite <- rsum_scal, <- rsum_scal_r; apply rsum_ext; intros; ring).
    rewrite rsum_swap. apply rsum_ext. intros q _. now rewrite rsum_scal.
Qed.
(** (D P - I) D = 0 when P D = I *)
Lemma residual_0 P D q (u a : nat -> R) : m_cols D = m_rows P -> m_rows D = m_cols P -> (q < m_rows D)%nat -> (forall i j, (i < m_rows P)%nat -> (j < m_rows P)%nat -> product P D i j = delta i j) ->
  (forall i, (i < m_rows D)%nat -> u i = rsum (m_cols D) (fun c => m_at D i c * a c)) ->
  rsum (m_rows D) (fun i => (product D P q i - delta q i) * u i) = 0.
Proof.
  intros H1 H2 Hq PI HU. rewrite (rsum_ext _ _ (fun i => product D P q i * u i - u i * delta i q)) by (intros; unfold delta; rewrite (Nat.eqb_sym q i); ring).
  rewrite rsum_minus, rsum_delta by auto. rewrite (HU q Hq).
  assert (PU : forall i, (i < m_rows P)%nat -> rsum (m_cols P) (fun j => m_at P i j * u j) = a i).
  { intros i Hi. rewrite (rsum_ext (m_cols P) _ (fun j => m_at P i j * rsum (m_cols D) (fun c => m_at D j c * a c))) by (intros j Hj; rewrite HU by lia; reflexivity).
    rewrite (rsum_ext (m_cols P) _ (fun j => rsum (m_cols D) (fun c => m_at P i j * m_at D j c * a c))) by (intros; rewrite <- rsum_scal; apply rsum_ext; intros; ring).
    rewrite rsum_swap. rewrite (rsum_ext (m_cols D) _ (fun c => a c * delta c i)); [apply rsum_delta; lia|]. intros c Hc. rewrite rsum_scal_r. change (rsum (m_cols P) (fun j => m_at P i j * m_at D j c)) with (product P D i c).
    rewrite PI by lia. unfold delta. rewrite (Nat.eqb_sym i c). ring. }
  assert (E : rsum (m_rows D) (fun i => product D P q i * u i) = rsum (m_cols D) (fun c => m_at D q c * a c)); [|lra].
  unfold product. rewrite (rsum_ext (m_rows D) _ (fun i => rsum (m_cols D) (fun c => m_at D q c * (m_at P c i * u i)))) by (intros; rewrite <- rsum_scal_r; apply rsum_ext; intros; ring).
  rewrite rsum_swap. apply rsum_ext. intros c Hc. rewrite rsum_scal, H2, PU by lia. reflexivity.
Qed.

Section Api.
Variables (gt lob : nat -> QuadratureData) (junk : nat -> nat -> R) (lu llt : Solver) (k : nat) (p : Polygon) (ref : VEM_2D_Reference) (l : VEM_2D_Local).
Hypothesis VS : vem_space gt lob junk lu llt k p ref l.
Let Hk := vs_order _ _ _ _ _ _ _ _ _ VS.
Let GR := vs_rules _ _ _ _ _ _ _ _ _ VS.
Let GP := vs_polygon _ _ _ _ _ _ _ _ _ VS.
Let Elu := vs_lu _ _ _ _ _ _ _ _ _ VS.
Let Ellt := vs_llt _ _ _ _ _ _ _ _ _ VS.
Let cx := pg_Centroid p 0%nat.
Let cy := pg_Centroid p 1%nat.
Let h := pg_Diameter p.
Let Nk := num2 k.
Let Nm := num2 (k - 1).
Let ni := nint k.
Let nv := m_cols (pg_Vertices p).
Let nb := (nv + (k - 1) * nv)%nat.
Let N := (nb + ni)%nat.
Notation ph := (phi cx cy h).
Notation phx := (phix cx cy h).
Notation phy := (phiy cx cy h).

Lemma RF : ref_facts gt k ref.
Proof. destruct (reference_ok gt lob k Hk GR) as (ref' & E & F). rewrite (vs_reference _ _ _ _ _ _ _ _ _ VS) in E. injection E as <-. exact F. Qed.
Lemma LF : local_facts gt k p lu llt l.
Proof. destruct (local_ok gt lob k ref p Hk GR RF GP junk lu llt) as (l' & E & F). rewrite (vs_local _ _ _ _ _ _ _ _ _ VS) in E. injection E as <-. exact F. Qed.
Let Hh : h <> 0. Proof. apply gp_diameter; auto. Qed.
Let Hmeas : pg_Measure p <> 0. Proof. apply gp_measure; auto. Qed.
Lemma HNm' : (Nm <= Nk)%nat. Proof. apply num2_mono. lia. Qed.
Lemma Hni' : (ni <= Nm)%nat. Proof. apply nint_le; auto. Qed.

Lemma lc : lv_Centroid l = pg_Centroid p. Proof. apply (lf_centroid _ _ _ _ _ _ LF). Qed.
Lemma ld : lv_Diameter l = h. Proof. apply (lf_diam _ _ _ _ _ _ LF). Qed.
Lemma scaled_phi i x y : (i < Nk)%nat -> scaled_monomial ref l i x y = ph i x y.
Proof. intros Hi. unfold scaled_monomial. rewrite lc, ld. rewrite (mono_phi k _ (rf_mono _ _ _ RF)) by auto. reflexivity. Qed.

Lemma Dint c j : (c < ni)%nat -> (j < Nk)%nat -> pg_Measure p * m_at (lv_Dmatrix l) (nb + c) j = fI l (fun x y => ph c x y * ph j x y).
Proof. exact (Dinternal gt k p lu llt l Hk GP LF c j). Qed.
Lemma Dbnd i j : (i < nb)%nat -> (j < Nk)%nat -> m_at (lv_Dmatrix l) i j = ph j (m_at (boundary_points l) 0 i) (m_at (boundary_points l) 1 i).
Proof. exact (Dboundary gt k p lu llt l LF i j). Qed.
Lemma Hent i j : (i < Nk)%nat -> (j < Nk)%nat -> m_at (lv_Hmatrix l) i j = fI l (fun x y => ph i x y * ph j x y).
Proof. exact (Hij gt k p lu llt l LF i j). Qed.

(** dofs of a combination of monomials *)
Lemma dofs_comb f (a : nat -> R) : (forall x y, f x y = rsum Nk (fun j => a j * ph j x y)) -> forall q, (q < N)%nat -> dofs_of ref l f q = rsum Nk (fun j => m_at (lv_Dmatrix l) q j * a j).
Proof.
  intros Hf q Hq. unfold dofs_of. rewrite (lf_nb _ _ _ _ _ _ LF), (lf_measure _ _ _ _ _ _ LF). fold nv nb. destruct (Nat.ltb_spec q nb) as [Hb|Hb].
  - rewrite Hf. apply rsum_ext. intros j Hj. rewrite Dbnd by auto. ring.
  - cbv zeta. set (c := (q - nb)%nat). assert (Hc : (c < ni)%nat) by (unfold c, N in *; lia). replace q with (nb + c)%nat by (unfold c; lia).
    pose proof Hni'. pose proof HNm'. rewrite <- (Rmult_1_l (rsum Nk _)), <- (Rinv_l (pg_Measure p)), Rmult_assoc by auto. f_equal. rewrite <- rsum_scal.
    rewrite (rsum_ext Nk _ (fun j => a j * fI l (fun x y => ph c x y * ph j x y))) by (intros j Hj; rewrite <- (Dint c j Hc Hj); ring).
    unfold fI. rewrite (rsum_ext Nk _ (fun j => apply_rule (q_Weights (lv_InternalQuadrature l)) (fun q => a j * (ph c (m_at (q_Points (lv_InternalQuadrature l)) 0 q) (m_at (q_Points (lv_InternalQuadrature l)) 1 q) * ph j (m_at (q_Points (lv_InternalQuadrature l)) 0 q) (m_at (q_Points (lv_InternalQuadrature l)) 1 q))))) by (intros; now rewrite apply_scal).
    rewrite <- apply_rsum. apply apply_ext. intros r _. rewrite Hf, scaled_phi by lia. rewrite <- rsum_scal_r. apply rsum_ext. intros; ring.
Qed.

(** a projector with P D = T maps the dofs of a combination of monomials to T a *)
Lemma project_dofs P f (a : nat -> R) (T : nat -> nat -> R) i : m_cols P = N -> (forall x y, f x y = rsum Nk (fun j => a j * ph j x y)) ->
  (forall j, (j < Nk)%nat -> product P (lv_Dmatrix l) i j = T i j) -> rsum N (fun q => m_at P i q * dofs_of ref l f q) = rsum Nk (fun j => T i j * a j).
Proof.
  intros HP Hf HT. rewrite (rsum_ext N _ (fun q => rsum Nk (fun j => m_at P i q * m_at (lv_Dmatrix l) q j * a j))).
  - rewrite rsum_swap. apply rsum_ext. intros j Hj. rewrite rsum_scal_r, <- HT by auto. unfold product. now rewrite HP.
  - intros q Hq. rewrite (dofs_comb f a Hf q Hq), <- rsum_scal. apply rsum_ext. intros; ring.
Qed.
Lemma rsum_delta_l n i (f : nat -> R) : (i < n)%nat -> rsum n (fun j => delta i j * f j) = f i.
Proof. intros H. rewrite (rsum_ext n _ (fun j => f j * delta j i)) by (intros; unfold delta; rewrite (Nat.eqb_sym i); ring). now apply rsum_delta. Qed.

(** ** Projections reproduce polynomials *)
Lemma PiNabla_poly f fx fy : poly2 k f fx fy -> forall x y, projected ref l (lv_PiNabla l) (dofs_of ref l f) x y = f x y.
Proof.
  intros P x y. destruct (phi_represent cx cy h Hh k f fx fy P) as (a & Ha & _). destruct (lf_Pi _ _ _ _ _ _ LF) as (R & C & _). unfold projected. rewrite R, C. fold Nk. fold nv nb ni N. rewrite Ha. apply rsum_ext. intros i Hi.
  rewrite (project_dofs (lv_PiNabla l) f a delta i C Ha) by (intros; apply (Pi_D gt lob k p lu llt l Hk GR GP LF Elu); auto). rewrite rsum_delta_l by auto. now rewrite scaled_phi.
Qed.
Lemma Pi0k_poly f fx fy : poly2 k f fx fy -> forall x y, projected ref l (lv_Pi0k l) (dofs_of ref l f) x y = f x y.
Proof.
  intros P x y. destruct (phi_represent cx cy h Hh k f fx fy P) as (a & Ha & _). destruct (lf_P0 _ _ _ _ _ _ LF) as (_ & _ & R & C & _). unfold projected. rewrite R, C. fold Nk. fold nv nb ni N. rewrite Ha. apply rsum_ext. intros i Hi.
  rewrite (project_dofs (lv_Pi0k l) f a delta i C Ha) by (intros; apply (P0k_D gt lob k p lu llt l Hk GR GP LF Elu Ellt); auto). rewrite rsum_delta_l by auto. now rewrite scaled_phi.
Qed.
Lemma Pi0km1_poly f fx fy : poly2 (k - 1) f fx fy -> forall x y, projected ref l (lv_Pi0km1 l) (dofs_of ref l f) x y = f x y.
Proof.
  intros P x y. pose proof HNm' as L. destruct (phi_represent cx cy h Hh (k - 1) f fx fy P) as (a & Ha & _). fold Nm in Ha.
  assert (Ha' : forall x y, f x y = rsum Nk (fun j => (if (j <? Nm)%nat then a j else 0) * ph j x y)).
  { intros. replace Nk with (Nm + (Nk - Nm))%nat by lia. rewrite rsum_add, (rsum_0 (Nk - Nm)), Rplus_0_r, Ha.
    - apply rsum_ext. intros j Hj. now rewrite (ltb_true j Nm).
    - intros j Hj. rewrite (ltb_false (Nm + j) Nm) by lia. ring. }
  destruct (lf_P0 _ _ _ _ _ _ LF) as (R & C & _). unfold projected. rewrite R, C. fold Nm. fold nv nb ni N. rewrite Ha. apply rsum_ext. intros i Hi.
  rewrite (project_dofs (lv_Pi0km1 l) f _ (product (lv_Pi0km1 l) (lv_Dmatrix l)) i C Ha') by reflexivity. rewrite scaled_phi by lia. f_equal.
  replace Nk with (Nm + (Nk - Nm))%nat by lia. rewrite rsum_add, (rsum_0 (Nk - Nm)), Rplus_0_r by (intros j Hj; rewrite (ltb_false (Nm + j) Nm) by lia; ring).
  rewrite (rsum_ext Nm _ (fun j => delta i j * a j)); [now apply rsum_delta_l|]. intros j Hj. rewrite (ltb_true j Nm) by auto. now rewrite (P0km1_D gt lob k p lu llt l Hk GR GP LF Elu Ellt).
Qed.
Lemma Pi0km1Der_poly f fx fy : poly2 k f fx fy -> exists P0 P1, lv_Pi0km1Der l = [P0; P1] /\
  (forall x y, projected ref l P0 (dofs_of ref l f) x y = fx x y) /\ (forall x y, projected ref l P1 (dofs_of ref l f) x y = fy x y).
Proof.
  intros P. pose proof HNm' as L. destruct (phi_represent cx cy h Hh k f fx fy P) as (a & Ha & Hax & Hay).
  destruct (PD_D gt lob k p lu llt l Hk GR GP LF Ellt) as (P0 & P1 & E & R0 & C0 & R1 & C1 & D0 & D1). exists P0, P1. split; auto.
  fold nv nb ni N in C0, C1. fold Nm in R0, R1, D0, D1. fold Nk h in D0, D1.
  split; intros x y; unfold projected.
  - rewrite R0, C0, Hax. rewrite (rsum_ext Nm _ (fun i => rsum Nk (fun j => a j * (d0 j i * ph i x y / h)))).
    + rewrite rsum_swap. apply rsum_ext. intros j Hj. rewrite rsum_scal. f_equal. unfold Rdiv. rewrite rsum_scal_r. apply (der0_Nm k p Hk GP j x y Hj).
    + intros i Hi. rewrite (project_dofs P0 f a (fun i j => d0 j i / h) i C0 Ha) by (intros; apply D0; auto). rewrite scaled_phi by lia. rewrite <- rsum_scal_r. apply rsum_ext. intros; unfold Rdiv; ring.
  - rewrite R1, C1, Hay. rewrite (rsum_ext Nm _ (fun i => rsum Nk (fun j => a j * (d1 j i * ph i x y / h)))).
    + rewrite rsum_swap. apply rsum_ext. intros j Hj. rewrite rsum_scal. f_equal. unfold Rdiv. rewrite rsum_scal_r. apply (der1_Nm k p Hk GP j x y Hj).
    + intros i Hi. rewrite (project_dofs P1 f a (fun i j => d1 j i / h) i C1 Ha) by (intros; apply D1; auto). rewrite scaled_phi by lia. rewrite <- rsum_scal_r. apply rsum_ext. intros; unfold Rdiv; ring.
Qed.

(** ** Values *)
Lemma combine_mul V P u q : m_cols V = m_rows P -> combine {| m_rows := m_rows V; m_cols := m_cols P; m_at := fun i j => rsum (m_cols V) (fun l => m_at V i l * m_at P l j) |} u q =
  rsum (m_rows P) (fun i => rsum (m_cols P) (fun j => m_at P i j * u j) * m_at V q i).
Proof.
  intros E. unfold combine. cbn [m_cols m_at]. rewrite E. rewrite (rsum_ext (m_cols P) _ (fun j => rsum (m_rows P) (fun i => m_at P i j * u j * m_at V q i))) by (intros; rewrite <- rsum_scal_r; apply rsum_ext; intros; ring).
  rewrite rsum_swap. apply rsum_ext. intros i _. now rewrite rsum_scal_r.
Qed.
Lemma left_mul V P n : m_cols V = Nk -> (n <= Nk)%nat -> m_rows P = n -> exists A, (V' <- leftCols V n ;; mmul V' P) = Ok A /\ m_rows A = m_rows V /\ m_cols A = m_cols P /\
  forall u q, combine A u q = rsum n (fun i => rsum (m_cols P) (fun j => m_at P i j * u j) * m_at V q i).
Proof.
  intros HV Hn HP. unfold leftCols, mat_block. rewrite HV. rewrite (leb_true (0 + m_rows V)), (leb_true (0 + n)) by lia. cbn [andb bind]. unfold mmul. cbn [m_cols m_rows m_at]. rewrite HP, Nat.eqb_refl.
  eexists. split; [reflexivity|]. cbn [m_rows m_cols]. split; auto. split; auto. intros u q.
  pose proof (combine_mul {| m_rows := m_rows V; m_cols := n; m_at := fun i j => m_at V (0 + i) (0 + j) |} P u q (eq_sym HP)) as E. cbn [m_rows m_cols m_at] in E. rewrite E, HP. reflexivity.
Qed.
Lemma full_mul V P : m_cols V = Nk -> m_rows P = Nk -> exists A, mmul V P = Ok A /\ m_rows A = m_rows V /\ m_cols A = m_cols P /\
  forall u q, combine A u q = rsum Nk (fun i => rsum (m_cols P) (fun j => m_at P i j * u j) * m_at V q i).
Proof.
  intros HV HP. unfold mmul. rewrite HV, HP, Nat.eqb_refl. eexists. split; [reflexivity|]. cbn [m_rows m_cols]. split; auto. split; auto. intros u q.
  pose proof (combine_mul V P u q) as E. rewrite HV, HP in E. apply E. auto.
Qed.

(** tables of values of the monomials and of their derivatives at n points with coordinates X and Y *)
Record tables (V V0 V1 : Mat) (n : nat) (X Y : nat -> R) : Prop := {
  t_rows : m_rows V = n; t_cols : m_cols V = Nk; t_rows0 : m_rows V0 = n; t_cols0 : m_cols V0 = Nk; t_rows1 : m_rows V1 = n; t_cols1 : m_cols V1 = Nk;
  t_V : forall q i, (i < Nk)%nat -> m_at V q i = ph i (X q) (Y q);
  t_V0 : forall q i, (i < Nk)%nat -> m_at V0 q i = phx i (X q) (Y q);
  t_V1 : forall q i, (i < Nk)%nat -> m_at V1 q i = phy i (X q) (Y q) }.

Lemma quadrature_tables : exists V0 V1, lv_VanderInternalDerivatives l = [V0; V1] /\
  tables (lv_VanderInternal l) V0 V1 (m_cols (q_Points (lv_InternalQuadrature l))) (m_at (q_Points (lv_InternalQuadrature l)) 0) (m_at (q_Points (lv_InternalQuadrature l)) 1).
Proof.
  destruct (lf_VI _ _ _ _ _ _ LF) as (a & b & c). destruct (lf_VID _ _ _ _ _ _ LF) as (V0 & V1 & E & d & e & f & g & i & j). exists V0, V1. split; auto. constructor; auto.
Qed.
Lemma points_tables junk' points : m_rows points = 3%nat -> exists V V0 V1, VEM_PolynomialsValues junk' ref l points = Ok V /\ VEM_PolynomialsDerivativeValues junk' ref l points = Ok [V0; V1] /\
  tables V V0 V1 (m_cols points) (m_at points 0) (m_at points 1).
Proof.
  intros Hp. unfold VEM_PolynomialsDerivativeValues, VEM_PolynomialsValues. rewrite lc, ld.
  destruct (vander_m k _ (rf_mono _ _ _ RF) junk' points (pg_Centroid p) h Hp Hh) as (V & EV & a & b & c).
  destruct (vander_der_m k _ (rf_mono _ _ _ RF) junk' junk' points (pg_Centroid p) h V Hp Hh EV) as (VD & V0 & V1 & ED & EL & d & e & f & g & i & j).
  exists V, V0, V1. split; auto. rewrite EV. cbn [bind]. rewrite ED, EL. split; auto. constructor; auto.
Qed.

Lemma values_ok V V0 V1 n X Y : tables V V0 V1 n X Y ->
  (exists A, utilities_Values Pi0k_t (lv_Nkm1 l) (lv_Pi0km1 l) (lv_Pi0k l) V = Ok A /\ m_rows A = n /\ m_cols A = N /\ forall u q, combine A u q = projected ref l (lv_Pi0k l) u (X q) (Y q)) /\
  (exists A, utilities_Values Pi0km1_t (lv_Nkm1 l) (lv_Pi0km1 l) (lv_Pi0k l) V = Ok A /\ m_rows A = n /\ m_cols A = N /\ forall u q, combine A u q = projected ref l (lv_Pi0km1 l) u (X q) (Y q)).
Proof.
  intros [t1 t2 t3 t4 t5 t6 t7 t8 t9]. destruct (lf_P0 _ _ _ _ _ _ LF) as (R1 & C1 & R & C & _). fold Nm Nk nv nb ni N in R1, C1, R, C. rewrite (lf_Nkm1 _ _ _ _ _ _ LF). fold Nm. pose proof HNm'. split; cbn [utilities_Values].
  - destruct (full_mul V (lv_Pi0k l) t2 R) as (A & E & a & b & c). exists A. split; auto. split; [congruence|]. split; [congruence|]. intros u q. rewrite c. unfold projected. rewrite R. apply rsum_ext. intros i Hi. rewrite t7, scaled_phi by auto. reflexivity.
  - destruct (left_mul V (lv_Pi0km1 l) Nm t2 ltac:(auto) R1) as (A & E & a & b & c). exists A. split; auto. split; [congruence|]. split; [congruence|]. intros u q. rewrite c. unfold projected. rewrite R1. apply rsum_ext. intros i Hi. rewrite t7, scaled_phi by lia. reflexivity.
Qed.

Lemma projected_poly2 P u n : m_rows P = num2 n -> (n <= k)%nat -> poly2 n (projected ref l P u) (fun x y => rsum (m_rows P) (fun i => rsum (m_cols P) (fun j => m_at P i j * u j) * phx i x y)) (fun x y => rsum (m_rows P) (fun i => rsum (m_cols P) (fun j => m_at P i j * u j) * phy i x y)).
Proof.
  intros R Hn. rewrite R. assert (LE : (num2 n <= Nk)%nat) by (apply num2_mono; auto). eapply poly2_ext; [apply (comb_poly2 p GP n (fun i => rsum (m_cols P) (fun j => m_at P i j * u j)))| | |]; intros x y; cbv beta; try reflexivity.
  unfold projected, comb. rewrite R. apply rsum_ext. intros i Hi. rewrite scaled_phi by lia. reflexivity.
Qed.

Lemma derivative_values_ok V V0 V1 n X Y : tables V V0 V1 n X Y ->
  (exists A0 A1, utilities_DerivativeValues (lv_Dimension l) PiNabla_t (lv_Nkm1 l) V [V0; V1] (lv_PiNabla l) (lv_Pi0km1Der l) = Ok [A0; A1] /\ m_rows A0 = n /\ m_cols A0 = N /\ m_rows A1 = n /\ m_cols A1 = N /\
    forall u, exists gx gy, poly2 k (projected ref l (lv_PiNabla l) u) gx gy /\ forall q, combine A0 u q = gx (X q) (Y q) /\ combine A1 u q = gy (X q) (Y q)) /\
  (exists P0 P1 A0 A1, lv_Pi0km1Der l = [P0; P1] /\ utilities_DerivativeValues (lv_Dimension l) Pi0km1Der_t (lv_Nkm1 l) V [V0; V1] (lv_PiNabla l) (lv_Pi0km1Der l) = Ok [A0; A1] /\ m_rows A0 = n /\ m_cols A0 = N /\ m_rows A1 = n /\ m_cols A1 = N /\
    forall u q, combine A0 u q = projected ref l P0 u (X q) (Y q) /\ combine A1 u q = projected ref l P1 u (X q) (Y q)).
Proof.
  intros [t1 t2 t3 t4 t5 t6 t7 t8 t9]. rewrite (lf_Nkm1 _ _ _ _ _ _ LF), (lf_dim _ _ _ _ _ _ LF). fold Nm. pose proof HNm' as L. split.
  - destruct (lf_Pi _ _ _ _ _ _ LF) as (R & C & _). fold Nk nv nb ni N in R, C. unfold utilities_DerivativeValues, for_loop. cbn [for_from idx_ nth_error bind].
    destruct (full_mul V0 (lv_PiNabla l) t4 R) as (A0 & E0 & a & b & c). destruct (full_mul V1 (lv_PiNabla l) t6 R) as (A1 & E1 & d & e & f). rewrite E0. cbn [bind]. rewrite E1. cbn [bind app]. exists A0, A1. split; [reflexivity|].
    do 4 (split; [congruence|]). intros u. eexists _, _. split; [apply (projected_poly2 (lv_PiNabla l) u k); auto|]. intros q. rewrite c, f, R. split; apply rsum_ext; intros i Hi; rewrite ?t8, ?t9 by auto; reflexivity.
  - destruct (lf_PD _ _ _ _ _ _ LF) as (P0 & P1 & EP & R0 & C0 & R1 & C1 & _). fold Nm nv nb ni N in R0, C0, R1, C1. rewrite EP. exists P0, P1.
    destruct (left_mul V P0 Nm t2 L R0) as (A0 & E0 & a & b & c). destruct (left_mul V P1 Nm t2 L R1) as (A1 & E1 & d & e & f). exists A0, A1. split; auto.
    unfold utilities_DerivativeValues, for_loop. cbn [for_from idx_ nth_error bind]. destruct (leftCols V Nm) as [W| |] eqn:EL; try discriminate. cbn [bind] in *. rewrite E0. cbn [bind]. rewrite E1. cbn [bind app]. split; [reflexivity|].
    do 4 (split; [congruence|]). intros u q. rewrite c, f. unfold projected. rewrite R0, R1. split; apply rsum_ext; intros i Hi; rewrite t7, scaled_phi by lia; reflexivity.
Qed.

Lemma laplacian_ok : exists P0 P1 A, lv_Pi0km1Der l = [P0; P1] /\ VEM_LaplacianValues_quadrature l Pi0km1Der_t = Ok A /\ m_rows A = m_cols (q_Points (lv_InternalQuadrature l)) /\ m_cols A = N /\
  forall u, exists gx gxx gxy gy gyx gyy, gx = projected ref l P0 u /\ gy = projected ref l P1 u /\ poly2 (k - 1) gx gxx gxy /\ poly2 (k - 1) gy gyx gyy /\
    forall q, combine A u q = gxx (m_at (q_Points (lv_InternalQuadrature l)) 0 q) (m_at (q_Points (lv_InternalQuadrature l)) 1 q) + gyy (m_at (q_Points (lv_InternalQuadrature l)) 0 q) (m_at (q_Points (lv_InternalQuadrature l)) 1 q).
Proof.
  destruct quadrature_tables as (V0 & V1 & EV & [t1 t2 t3 t4 t5 t6 t7 t8 t9]). unfold VEM_LaplacianValues_quadrature. rewrite (lf_Nkm1 _ _ _ _ _ _ LF), (lf_dim _ _ _ _ _ _ LF), EV. fold Nm. pose proof HNm' as L.
  destruct (lf_PD _ _ _ _ _ _ LF) as (P0 & P1 & EP & R0 & C0 & R1 & C1 & _). fold Nm nv nb ni N in R0, C0, R1, C1. rewrite EP.
  destruct (left_mul V0 P0 Nm t4 L R0) as (A0 & E0 & a & b & c). destruct (left_mul V1 P1 Nm t6 L R1) as (A1 & E1 & d & e & f).
  cbn [utilities_LaplacianValues for_from Nat.sub for_loop idx_ nth_error bind Nat.add]. destruct (leftCols V0 Nm) as [W0| |] eqn:EL0; try discriminate. destruct (leftCols V1 Nm) as [W1| |] eqn:EL1; try discriminate. cbn [bind] in *.
  rewrite E0. cbn [bind]. rewrite E1. cbn [bind]. unfold madd. rewrite a, b, d, e, t3, t5, C0, C1, !Nat.eqb_refl. cbn [andb]. exists P0, P1. eexists. split; auto. split; [reflexivity|]. cbn [m_rows m_cols]. split; [congruence|]. split; [congruence|].
  intros u. eexists _, _, _, _, _, _. split; [reflexivity|]. split; [reflexivity|]. split; [apply (projected_poly2 P0 u (k - 1)); [auto|lia]|]. split; [apply (projected_poly2 P1 u (k - 1)); [auto|lia]|].
  intros q. assert (S : forall B, m_cols B = N -> combine {| m_rows := m_cols (q_Points (lv_InternalQuadrature l)); m_cols := N; m_at := fun i j => m_at A0 i j + m_at A1 i j |} u q = combine A0 u q + combine A1 u q).
  { intros _ _. unfold combine. cbn [m_cols m_at]. rewrite b, e, C0, C1, <- rsum_plus. apply rsum_ext. intros; ring. }
  rewrite <- !t3 in *. etransitivity; [|etransitivity; [apply (S A0); congruence|]].
  - unfold combine. cbn [m_cols m_at]. reflexivity.
  - rewrite c, f, R0, R1. f_equal; apply rsum_ext; intros i Hi; rewrite ?t8, ?t9 by lia; reflexivity.
Qed.

(** ** The projections of arbitrary dofs *)
Lemma inside_fI f : inside l f = fI l f. Proof. reflexivity. Qed.
Notation co P u i := (rsum N (fun j => m_at P i j * u j)).

Lemma mass P u i : m_cols P = N -> (m_rows P <= Nk)%nat -> (i < Nk)%nat -> inside l (fun x y => projected ref l P u x y * scaled_monomial ref l i x y) = rsum (m_rows P) (fun c => m_at (lv_Hmatrix l) i c * co P u c).
Proof.
  intros C R Hi. rewrite inside_fI. rewrite (I_ext l _ (fun x y => rsum (m_rows P) (fun c => co P u c * (ph i x y * ph c x y)))).
  - rewrite I_rsum. apply rsum_ext. intros c Hc. rewrite I_scal, Hent by lia. ring.
  - intros x y. unfold projected. rewrite C, scaled_phi, <- rsum_scal_r by auto. apply rsum_ext. intros c Hc. rewrite scaled_phi by lia. ring.
Qed.
Lemma mul_vec A P B u n i : (forall j, (j < N)%nat -> rsum n (fun c => m_at A i c * m_at P c j) = m_at B i j) -> rsum n (fun c => m_at A i c * co P u c) = co B u i.
Proof.
  intros H. rewrite (rsum_ext n _ (fun c => rsum N (fun j => m_at A i c * m_at P c j * u j))) by (intros; rewrite <- rsum_scal; apply rsum_ext; intros; ring).
  rewrite rsum_swap. apply rsum_ext. intros j Hj. now rewrite rsum_scal_r, H.
Qed.
Lemma C_vec u i : (i < Nk)%nat -> co (lv_Cmatrix l) u i = if (i <? ni)%nat then pg_Measure p * u (nb + i)%nat else rsum Nk (fun c => m_at (lv_Hmatrix l) i c * co (lv_PiNabla l) u c).
Proof.
  intros Hi. destruct (lf_C _ _ _ _ _ _ LF) as (_ & _ & C1 & C2). fold Nk nv nb ni N in C1, C2. destruct (Nat.ltb_spec i ni).
  - rewrite (rsum_single N _ (nb + i)); [|unfold N; lia|].
    + rewrite C1, Nat.eqb_refl by (auto; unfold N; lia). reflexivity.
    + intros q Hq Hn. rewrite C1, (proj2 (Nat.eqb_neq _ _) Hn) by auto. ring.
  - symmetry. apply mul_vec. intros j Hj. rewrite C2 by (auto; lia). reflexivity.
Qed.
Lemma l2_k u i : (i < Nk)%nat -> inside l (fun x y => projected ref l (lv_Pi0k l) u x y * scaled_monomial ref l i x y) =
  if (i <? ni)%nat then lv_Measure l * u (lv_NumBoundaryBasisFunctions l + i)%nat else inside l (fun x y => projected ref l (lv_PiNabla l) u x y * scaled_monomial ref l i x y).
Proof.
  intros Hi. destruct (lf_P0 _ _ _ _ _ _ LF) as (R1 & C1 & R & C & _). destruct (lf_Pi _ _ _ _ _ _ LF) as (RP & CP & _). fold Nm Nk nv nb ni N in R1, C1, R, C, RP, CP. rewrite mass by (auto; lia). rewrite R.
  rewrite (mul_vec _ _ (lv_Cmatrix l)) by (intros; apply (P0k_solves gt lob k p lu llt l Hk GR GP LF Ellt); auto). rewrite C_vec by auto.
  rewrite (lf_measure _ _ _ _ _ _ LF), (lf_nb _ _ _ _ _ _ LF). fold nv nb. destruct (i <? ni)%nat; auto. rewrite mass by (auto; lia). now rewrite RP.
Qed.
Lemma l2_km1 u i : (i < Nm)%nat -> inside l (fun x y => projected ref l (lv_Pi0km1 l) u x y * scaled_monomial ref l i x y) =
  if (i <? ni)%nat then lv_Measure l * u (lv_NumBoundaryBasisFunctions l + i)%nat else inside l (fun x y => projected ref l (lv_PiNabla l) u x y * scaled_monomial ref l i x y).
Proof.
  intros Hi. pose proof HNm' as L. destruct (lf_P0 _ _ _ _ _ _ LF) as (R1 & C1 & R & C & _). destruct (lf_Pi _ _ _ _ _ _ LF) as (RP & CP & _). fold Nm Nk nv nb ni N in R1, C1, R, C, RP, CP. rewrite mass by (auto; lia). rewrite R1.
  rewrite (mul_vec _ _ (lv_Cmatrix l)) by (intros; apply (P0km1_solves gt lob k p lu llt l Hk GR GP LF Ellt); auto). rewrite C_vec by lia.
  rewrite (lf_measure _ _ _ _ _ _ LF), (lf_nb _ _ _ _ _ _ LF). fold nv nb. destruct (i <? ni)%nat; auto. rewrite mass by (auto; lia). now rewrite RP.
Qed.

(** coefficients on the first ni monomials are determined by the function *)
Lemma first_unique (a b : nat -> R) : (forall x y, rsum ni (fun c => a c * ph c x y) = rsum ni (fun c => b c * ph c x y)) -> forall c, (c < ni)%nat -> a c = b c.
Proof.
  intros H c Hc. destruct (Nat.eq_dec k 1) as [K|K]; [unfold ni in Hc; rewrite (nint_1 k K) in Hc; lia|]. unfold ni in *. rewrite nint_2 in * by lia.
  assert (a c - b c = 0); [|lra]. apply (phi_independent cx cy h Hh (k - 2) (fun c => a c - b c)); auto. intros x y.
  rewrite (rsum_ext _ _ (fun j => a j * ph j x y - b j * ph j x y)) by (intros; ring). rewrite rsum_minus, H. ring.
Qed.
Lemma moment_eq (g : nat -> R) u : moment l g u = pg_Measure p * rsum ni (fun c => g c * u (nb + c)%nat).
Proof. unfold moment. rewrite (lf_measure _ _ _ _ _ _ LF), (lf_nb _ _ _ _ _ _ LF), (lf_ni _ _ _ _ _ _ LF). reflexivity. Qed.
Lemma flux_eq d g u : (d < 2)%nat -> flux l d g u = rsum nb (fun q => v_at (normal_weights (lv_BoundaryQuadrature l) d) q * (g (m_at (boundary_points l) 0 q) (m_at (boundary_points l) 1 q) * u q)).
Proof. intros Hd. unfold flux, apply_rule. now rewrite (lf_wN _ _ _ _ _ _ LF) by auto. Qed.

Lemma energy u g gx gy gxx gxy gyx gyy (c : nat -> R) : poly2 k g gx gy -> poly2 (k - 1) gx gxx gxy -> poly2 (k - 1) gy gyx gyy ->
  (forall x y, gxx x y + gyy x y = rsum ni (fun i => c i * scaled_monomial ref l i x y)) ->
  exists px py, poly2 k (projected ref l (lv_PiNabla l) u) px py /\
    inside l (fun x y => px x y * gx x y + py x y * gy x y) = flux l 0 gx u + flux l 1 gy u - moment l c u.
Proof.
  intros Pg Px Py Hc. pose proof HNm' as L2. pose proof Hni' as L1. destruct (phi_represent cx cy h Hh k g gx gy Pg) as (a & Ha & Hax & Hay).
  destruct (lf_Pi _ _ _ _ _ _ LF) as (RP & CP & _). fold Nk nv nb ni N in RP, CP. fold Nk in Ha, Hax, Hay.
  eexists _, _. split; [apply (projected_poly2 (lv_PiNabla l) u k); auto|]. rewrite RP, CP.
  (** left side *)
  set (t := fun i => co (lv_PiNabla l) u i).
  destruct (lf_G _ _ _ _ _ _ LF) as (_ & _ & _ & G2). destruct (lf_B _ _ _ _ _ _ LF) as (_ & CB & _ & B2 & B3). fold cx cy h nv nb ni N Nk in G2, B2, B3, CB.
  assert (LHS : inside l (fun x y => rsum Nk (fun i => t i * phx i x y) * gx x y + rsum Nk (fun i => t i * phy i x y) * gy x y) =
    rsum Nk (fun i => a i * (fI l (fun x y => phx i x y * rsum Nk (fun j => t j * phx j x y)) + fI l (fun x y => phy i x y * rsum Nk (fun j => t j * phy j x y))))).
  { rewrite inside_fI, I_plus. rewrite (I_ext l (fun x y => rsum Nk (fun i => t i * phx i x y) * gx x y) (fun x y => rsum Nk (fun i => a i * (phx i x y * rsum Nk (fun j => t j * phx j x y))))).
    2:{ intros x y. rewrite Hax, <- rsum_scal. apply rsum_ext. intros; ring. }
    rewrite (I_ext l (fun x y => rsum Nk (fun i => t i * phy i x y) * gy x y) (fun x y => rsum Nk (fun i => a i * (phy i x y * rsum Nk (fun j => t j * phy j x y))))).
    2:{ intros x y. rewrite Hay, <- rsum_scal. apply rsum_ext. intros; ring. }
    rewrite !I_rsum, <- rsum_plus. apply rsum_ext. intros i _. rewrite !I_scal. ring. }
  etransitivity; [exact LHS|]. clear LHS.
  (** rows *)
  assert (ROW : forall i, (i < Nk)%nat -> fI l (fun x y => phx i x y * rsum Nk (fun j => t j * phx j x y)) + fI l (fun x y => phy i x y * rsum Nk (fun j => t j * phy j x y)) =
     rsum nb (fun q => v_at (normal_weights (lv_BoundaryQuadrature l) 0) q * (phx i (m_at (boundary_points l) 0 q) (m_at (boundary_points l) 1 q) * u q)) +
     rsum nb (fun q => v_at (normal_weights (lv_BoundaryQuadrature l) 1) q * (phy i (m_at (boundary_points l) 0 q) (m_at (boundary_points l) 1 q) * u q)) -
     pg_Measure p * rsum ni (fun c => dd i c / (h * h) * u (nb + c)%nat)).
  { intros i Hi. destruct (Nat.eq_dec i 0) as [->|Hi0].
    - rewrite (I_ext l (fun x y => phx 0 x y * _) (fun x y => 0 * 1)) by (intros; rewrite (proj1 (phix_0 p 0 _ _ eq_refl)); ring).
      rewrite (I_ext l (fun x y => phy 0 x y * _) (fun x y => 0 * 1)) by (intros; rewrite (proj2 (phix_0 p 0 _ _ eq_refl)); ring). rewrite I_scal.
      rewrite (rsum_0 nb) by (intros; rewrite (proj1 (phix_0 p 0 _ _ eq_refl)); ring). rewrite (rsum_0 nb) by (intros; rewrite (proj2 (phix_0 p 0 _ _ eq_refl)); ring).
      rewrite (rsum_0 ni); [ring|]. intros c' _. unfold dd. change (ea 0) with 0%nat. change (eb 0) with 0%nat. cbn [Nat.ltb Nat.leb andb]. unfold Rdiv. ring.
    - transitivity (co (lv_Bmatrix l) u i).
      + rewrite <- (mul_vec (lv_Gmatrix l) (lv_PiNabla l) (lv_Bmatrix l) u Nk i) by (intros j Hj; apply (Pi_solves gt lob k p lu llt l Hk GR GP LF Elu i j Hi Hj)).
        rewrite (I_ext l (fun x y => phx i x y * _) (fun x y => rsum Nk (fun j => t j * (phx i x y * phx j x y)))) by (intros; rewrite <- rsum_scal; apply rsum_ext; intros; ring).
        rewrite (I_ext l (fun x y => phy i x y * _) (fun x y => rsum Nk (fun j => t j * (phy i x y * phy j x y)))) by (intros; rewrite <- rsum_scal; apply rsum_ext; intros; ring).
        rewrite !I_rsum, <- rsum_plus. apply rsum_ext. intros j Hj. rewrite !I_scal, G2 by (auto; lia). unfold t. ring.
      + unfold N. rewrite rsum_add. rewrite <- rsum_plus. unfold Rminus. f_equal.
        * apply rsum_ext. intros q Hq. rewrite B2 by (auto; lia). ring.
        * rewrite Ropp_mult_distr_l, <- rsum_scal. apply rsum_ext. intros c' Hc'. rewrite B3 by auto. rewrite (proj2 (Nat.eqb_neq i 0)) by auto. cbn [andb]. field. auto. }
  rewrite (rsum_ext Nk _ (fun i => a i * _)) by (intros i Hi; rewrite (ROW i Hi); reflexivity). cbv beta.
  (** right side *)
  rewrite !flux_eq, moment_eq by lia.
  assert (Hc' : forall i, (i < ni)%nat -> c i = rsum Nk (fun j => a j * (dd j i / (h * h)))).
  { apply first_unique. intros x y. rewrite (rsum_ext ni _ (fun i => c i * scaled_monomial ref l i x y)) by (intros; rewrite scaled_phi by lia; reflexivity). rewrite <- Hc.
    assert (DX : forall x y, gxx x y = rsum Nk (fun j => a j * phixx cx cy h j x y)).
    { apply (proj1 (poly2_derivatives_unique _ (k - 1) _ _ _ (fun x y => rsum Nk (fun j => a j * phx j x y)) (fun x y => rsum Nk (fun j => a j * phixx cx cy h j x y)) (fun x y => rsum Nk (fun j => a j * phixy cx cy h j x y)) Px
        ltac:(apply (poly2_rsum (k - 1) Nk (fun j x y => a j * phx j x y) (fun j x y => a j * phixx cx cy h j x y) (fun j x y => a j * phixy cx cy h j x y)); intros j Hj; apply poly2_scal; apply phix_poly2; auto) Hax)). }
    assert (DY : forall x y, gyy x y = rsum Nk (fun j => a j * phiyy cx cy h j x y)).
    { apply (proj2 (poly2_derivatives_unique _ (k - 1) _ _ _ (fun x y => rsum Nk (fun j => a j * phy j x y)) (fun x y => rsum Nk (fun j => a j * phixy cx cy h j x y)) (fun x y => rsum Nk (fun j => a j * phiyy cx cy h j x y)) Py
        ltac:(apply (poly2_rsum (k - 1) Nk (fun j x y => a j * phy j x y) (fun j x y => a j * phixy cx cy h j x y) (fun j x y => a j * phiyy cx cy h j x y)); intros j Hj; apply poly2_scal; apply phiy_poly2; auto) Hay)). }
    rewrite DX, DY, <- rsum_plus. rewrite (rsum_ext ni _ (fun i => rsum Nk (fun j => a j * (dd j i * ph i x y / (h * h))))) by (intros; rewrite <- rsum_scal_r; apply rsum_ext; intros; unfold Rdiv; ring).
    rewrite rsum_swap. apply rsum_ext. intros j Hj. rewrite rsum_scal. unfold Rdiv. rewrite rsum_scal_r. change (rsum ni (fun i => dd j i * ph i x y) * / (h * h)) with (rsum ni (fun i => dd j i * ph i x y) / (h * h)).
    pose proof (lap_ni k p Hk GP j x y Hj) as LP. fold cx cy h ni in LP. rewrite LP. ring. }
  rewrite (rsum_ext nb (fun q => v_at (normal_weights (lv_BoundaryQuadrature l) 0) q * (gx _ _ * u q)) (fun q => rsum Nk (fun i => a i * (v_at (normal_weights (lv_BoundaryQuadrature l) 0) q * (phx i (m_at (boundary_points l) 0 q) (m_at (boundary_points l) 1 q) * u q))))).
  2:{ intros q _. rewrite Hax. rewrite <- (rsum_scal_r Nk (u q)), <- rsum_scal. apply rsum_ext. intros; ring. }
  rewrite (rsum_ext nb (fun q => v_at (normal_weights (lv_BoundaryQuadrature l) 1) q * (gy _ _ * u q)) (fun q => rsum Nk (fun i => a i * (v_at (normal_weights (lv_BoundaryQuadrature l) 1) q * (phy i (m_at (boundary_points l) 0 q) (m_at (boundary_points l) 1 q) * u q))))).
  2:{ intros q _. rewrite Hay. rewrite <- (rsum_scal_r Nk (u q)), <- rsum_scal. apply rsum_ext. intros; ring. }
  rewrite (rsum_ext ni (fun i => c i * u (nb + i)%nat) (fun i => rsum Nk (fun j => a j * (dd j i / (h * h) * u (nb + i)%nat)))).
  2:{ intros i Hi. rewrite Hc' by auto. rewrite <- rsum_scal_r. apply rsum_ext. intros; ring. }
  rewrite (rsum_swap nb), (rsum_swap nb), (rsum_swap ni). rewrite <- rsum_scal, <- rsum_plus, <- rsum_minus. apply rsum_ext. intros i Hi. rewrite !rsum_scal. ring.
Qed.

Lemma derivative_projection d u g gx gy (c : nat -> R) : (d < 2)%nat -> poly2 (k - 1) g gx gy ->
  (forall x y, (match d with 0%nat => gx | _ => gy end) x y = rsum ni (fun i => c i * scaled_monomial ref l i x y)) ->
  exists P, nth_error (lv_Pi0km1Der l) d = Some P /\ inside l (fun x y => projected ref l P u x y * g x y) = flux l d g u - moment l c u.
Proof.
  intros Hd Pg Hc. pose proof HNm' as L2. pose proof Hni' as L1. destruct (phi_represent cx cy h Hh (k - 1) g gx gy Pg) as (a & Ha & Hax & Hay). fold Nm in Ha, Hax, Hay.
  destruct (lf_PD _ _ _ _ _ _ LF) as (P0 & P1 & EP & R0 & C0 & R1 & C1 & S0 & S1). destruct (lf_E _ _ _ _ _ _ LF) as (E0 & E1 & EE & a1 & a2 & a3 & a4 & e1 & e2 & e3 & e4).
  rewrite EE in S0, S1. cbn [nth] in S0, S1. pose proof (H_pd gt lob k p lu llt l Hk GR GP LF (k - 1) ltac:(lia)) as PD. specialize (S0 Ellt PD). specialize (S1 Ellt PD). fold Nm nv nb ni N cx cy h in R0, C0, R1, C1, a1, a2, a3, a4, e1, e2, e3, e4, S0, S1.
  (** one direction *)
  assert (K : forall P E (dm : nat -> nat -> R) (der : nat -> R -> R -> R), m_rows P = Nm -> m_cols P = N -> m_cols E = N -> solves (corner (lv_Hmatrix l) Nm) P E ->
    (forall i q, (i < Nm)%nat -> (q < nb)%nat -> m_at E i q = ph i (m_at (boundary_points l) 0 q) (m_at (boundary_points l) 1 q) * v_at (normal_weights (lv_BoundaryQuadrature l) d) q) ->
    (forall i c, (i < Nm)%nat -> (c < ni)%nat -> m_at E i (nb + c) = - (pg_Measure p / h) * dm i c) ->
    (forall j x y, (j < Nm)%nat -> rsum ni (fun c => dm j c * ph c x y) / h = der j x y) ->
    (forall x y, rsum Nm (fun j => a j * der j x y) = rsum ni (fun i => c i * scaled_monomial ref l i x y)) ->
    inside l (fun x y => projected ref l P u x y * g x y) = flux l d g u - moment l c u).
  { intros P E dm der R C CE S e e' Hder Hsum.
    rewrite (I_ext l _ (fun x y => rsum Nm (fun i => a i * (projected ref l P u x y * scaled_monomial ref l i x y)))).
    2:{ intros x y. rewrite Ha, <- rsum_scal. apply rsum_ext. intros i Hi. rewrite scaled_phi by lia. ring. }
    rewrite I_rsum, flux_eq, moment_eq by auto.
    assert (Hc' : forall i, (i < ni)%nat -> c i = rsum Nm (fun j => a j * (dm j i / h))).
    { apply first_unique. intros x y. rewrite (rsum_ext ni _ (fun i => c i * scaled_monomial ref l i x y)) by (intros; rewrite scaled_phi by lia; reflexivity). rewrite <- Hsum.
      rewrite (rsum_ext ni _ (fun i => rsum Nm (fun j => a j * (dm j i * ph i x y / h)))) by (intros; rewrite <- rsum_scal_r; apply rsum_ext; intros; unfold Rdiv; ring).
      rewrite rsum_swap. apply rsum_ext. intros j Hj. rewrite rsum_scal. unfold Rdiv. rewrite rsum_scal_r, <- Hder by auto. reflexivity. }
    rewrite (rsum_ext ni (fun i => c i * u (nb + i)%nat) (fun i => rsum Nm (fun j => a j * (dm j i / h * u (nb + i)%nat)))) by (intros i Hi; rewrite Hc' by auto; rewrite <- rsum_scal_r; apply rsum_ext; intros; ring).
    rewrite (rsum_ext nb _ (fun q => rsum Nm (fun i => a i * (v_at (normal_weights (lv_BoundaryQuadrature l) d) q * (ph i (m_at (boundary_points l) 0 q) (m_at (boundary_points l) 1 q) * u q))))) by (intros q _; rewrite Ha; rewrite <- (rsum_scal_r Nm (u q)), <- rsum_scal; apply rsum_ext; intros; ring).
    rewrite (rsum_swap nb), (rsum_swap ni), <- rsum_scal, <- rsum_minus. apply rsum_ext. intros i Hi. rewrite !rsum_scal.
    rewrite I_scal. rewrite <- inside_fI. rewrite mass by (auto; lia). rewrite R. rewrite (mul_vec _ _ E) by (intros j Hj; apply (S i j); cbn [corner m_rows]; [auto|rewrite CE; auto]).
    unfold N. rewrite rsum_add. rewrite (rsum_ext nb _ (fun q => v_at (normal_weights (lv_BoundaryQuadrature l) d) q * (ph i (m_at (boundary_points l) 0 q) (m_at (boundary_points l) 1 q) * u q))) by (intros q Hq; rewrite e by auto; ring).
    rewrite (rsum_ext ni (fun c => m_at E i (nb + c) * u (nb + c)%nat) (fun c => - pg_Measure p * (dm i c / h * u (nb + c)%nat))) by (intros q Hq; rewrite e' by auto; unfold Rdiv; ring). rewrite rsum_scal. ring. }
  destruct d as [|[|]]; [exists P0|exists P1|lia]; rewrite EP; (split; [reflexivity|]).
  - apply (K P0 E0 d0 phx); auto; [intros; apply (der0_ni k p Hk GP); auto|]. intros x y. rewrite <- Hc. now rewrite Hax.
  - apply (K P1 E1 d1 phy); auto; [intros; apply (der1_ni k p Hk GP); auto|]. intros x y. rewrite <- Hc. now rewrite Hay.
Qed.
End Api.
