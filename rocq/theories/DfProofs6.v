(** The divergence free virtual element seen from its interface. *)
From Coq Require Import List Arith Bool Lia ZArith Reals Lra.
From Verif Require Import Base RSum MatrixModel MonomialsModel MonomialsSpec MonomialsProps GBasisModel GBasisProofs LagrangeModel LagrangeSpec LagrangeProofs VemQuadModel VemQuadSpec VemQuadProofs VemQuadProofs2
  VemModel VemSpec VemProofs VemMccModel VemMccProofs VemMccProofs2 VemMccProofs3 VemProofs2 VemProofs3 VemProofs4 Pcc2dProofs4 DfModel DfSpec DfProofs DfProofs2 DfProofs3 DfProofs4 DfProofs5 GreenSpec GreenProofs PolyProofs.
Import ListNotations.
Local Open Scope R_scope.

Lemma half_m k : (1 <= k)%nat -> (k * (k + 1) / 2)%nat = num2 (k - 1).
Proof. intros H. replace k with (k - 1 + 1)%nat at 1 by lia. replace (k + 1)%nat with (k - 1 + 2)%nat by lia. apply half_0. Qed.
Lemma size_eq v k nv : (2 <= k)%nat -> df_size v k nv = (2 * (nv + (k - 1) * nv) + (ndiv_of v k + n3 k))%nat.
Proof. intros H. unfold df_size, ndiv_of, n3. destruct v; [rewrite half_m by lia|]; reflexivity. Qed.

Lemma df_exists v gt lob junk lu llt k p : df_rules gt lob k -> df_polygon v p -> exact_for nonsingular lu -> exact_for positive_definite llt -> exists ref l, df_space v gt lob junk lu llt k p ref l.
Proof.
  intros FR DP LU LT. destruct (dref_ok v gt lob k FR) as (ref & ER & RF). destruct (companion gt lob k FR p junk lu llt (proj1 DP)) as (l' & LF & EI & EB).
  destruct (df_local_ok v gt lob k p FR (proj1 DP) junk lu llt l' LF EI EB ref RF) as (l & EL & FF). exists ref, l. constructor; auto.
Qed.

(** multiplication by the values of the monomials *)
Lemma values_act V P A n u q : mmul V P = Ok A -> m_cols V = n -> combine A u q = rsum n (fun i => m_at V q i * act P u i).
Proof. intros E <-. change (combine A u q) with (act A u q). apply (act_mul V P A u q E). Qed.
Lemma mmul_ex A B : m_cols A = m_rows B -> exists C, mmul A B = Ok C /\ m_rows C = m_rows A /\ m_cols C = m_cols B.
Proof. intros E. unfold mmul. rewrite E, Nat.eqb_refl. eexists. split; [reflexivity|]. split; reflexivity. Qed.

(** the stabilization of two components *)
Lemma df_dofi_ok P0 P1 c D0 D1 n : m_rows D0 = n -> m_rows D1 = n -> m_cols P0 = n -> m_cols P1 = n -> m_cols D0 = m_rows P0 -> m_cols D1 = m_rows P1 ->
  exists S, df_utilities_DofiDofi 2 [P0; P1] c [D0; D1] = Ok S /\ m_rows S = n /\ m_cols S = n /\ (forall i j, m_at S i j = m_at S j i) /\
    (forall x i, (forall q, (q < n)%nat -> act D0 (fun a => act P0 x a) q + act D1 (fun a => act P1 x a) q = x q) -> combine S x i = 0) /\
    forall x : nat -> R, rsum n (fun i => rsum n (fun j => x i * m_at S i j * x j)) = c * rsum n (fun q => (act D0 (fun a => act P0 x a) q + act D1 (fun a => act P1 x a) q - x q) ^ 2).
Proof.
  intros d0 d1 p0 p1 e0 e1. unfold df_utilities_DofiDofi. cbn [idx_ nth_error bind].
  destruct (mmul_ex D0 P0 e0) as (A0 & EA0 & ra0 & ca0). rewrite EA0. cbn [bind]. cbn [Nat.sub for_from nth_error idx_ bind]. destruct (mmul_ex D1 P1 e1) as (A1 & EA1 & ra1 & ca1). rewrite EA1. cbn [bind].
  unfold madd. rewrite ra0, ra1, ca0, ca1, d0, d1, p0, p1, !Nat.eqb_refl. cbn [andb bind]. set (T := sub_diagonal _).
  destruct (mmul_ex (mscal c (mtrans T)) T) as (S & ES & rs & cs); [cbn; auto|]. rewrite ES. exists S. split; [reflexivity|]. cbn [mscal mtrans T sub_diagonal m_rows m_cols] in rs, cs.
  assert (RS : m_rows S = n) by congruence. assert (CS : m_cols S = n) by congruence. split; [auto|]. split; [auto|].
  set (r := fun q i => m_at A0 q i + m_at A1 q i - (if (q =? i)%nat then 1 else 0)).
  assert (SA : forall i j, m_at S i j = rsum n (fun q => c * r q i * r q j)).
  { intros i j. revert ES. unfold mmul. cbn [mscal mtrans T sub_diagonal m_rows m_cols]. rewrite Nat.eqb_refl. intros [= <-]. cbn [m_at mscal mtrans T sub_diagonal m_rows m_cols]. unfold r. apply rsum_ext. intros q Hq. ring. }
  assert (RX : forall x q, (q < n)%nat -> rsum n (fun i => r q i * x i) = act D0 (fun a => act P0 x a) q + act D1 (fun a => act P1 x a) q - x q).
  { intros x q Hq. unfold r. rewrite (rsum_ext n _ (fun i => m_at A0 q i * x i + m_at A1 q i * x i - (if (q =? i)%nat then x i else 0))) by (intros i Hi; destruct (q =? i)%nat; ring).
    rewrite rsum_minus, rsum_plus. f_equal; [f_equal|].
    - rewrite <- p0, <- ca0. change (act A0 x q = act D0 (fun a => act P0 x a) q). rewrite (act_mul D0 P0 A0 x q EA0). reflexivity.
    - rewrite <- p1, <- ca1. change (act A1 x q = act D1 (fun a => act P1 x a) q). rewrite (act_mul D1 P1 A1 x q EA1). reflexivity.
    - rewrite (rsum_single n _ q); auto; [now rewrite Nat.eqb_refl|]. intros i Hi Ni. destruct (Nat.eqb_spec q i); [congruence|reflexivity]. }
  split; [intros i j; rewrite !SA; apply rsum_ext; intros; ring|]. split.
  - intros x i H. unfold combine. rewrite CS. rewrite (rsum_ext n _ (fun j => rsum n (fun q => c * r q i * (r q j * x j)))) by (intros j Hj; rewrite SA, <- rsum_scal_r; apply rsum_ext; intros; ring).
    rewrite rsum_swap. apply rsum_0. intros q Hq. rewrite rsum_scal, RX by auto. rewrite H by auto. ring.
  - intros x. rewrite (rsum_ext n _ (fun i => rsum n (fun j => x i * rsum n (fun q => (fun _ => c) q * r q i * r q j) * x j))) by (intros; apply rsum_ext; intros; rewrite SA; reflexivity).
    rewrite (form_square n n (fun _ => c) r x). rewrite <- rsum_scal. apply rsum_ext. intros q Hq. rewrite RX by auto. ring.
Qed.

Lemma variant_dec (v : DF_Variant) : {v = Full} + {v = Reduced}.
Proof. destruct v; auto. Qed.
(** a primitive of a polynomial *)
Lemma primitive_x n f fx fy : poly2 n f fx fy -> exists F Fx Fy, poly2 (S n) F Fx Fy /\ forall x y, Fx x y = f x y.
Proof.
  intros P. induction P as [a b H|f fx fy g gx gy P1 (F1 & X1 & Y1 & Q1 & E1) P2 (F2 & X2 & Y2 & Q2 & E2)|c f fx fy P (F & X & Y & Q & E)|f fx fy g gx gy P (F & X & Y & Q & E) Ef Ex Ey].
  - do 3 eexists. split; [apply (poly2_scal _ (/ INR (a + 1))), (poly2_mono (S n) (a + 1) b); lia|]. intros x y. cbv beta. replace (a + 1 - 1)%nat with a by lia. field. apply not_0_INR. lia.
  - do 3 eexists. split; [apply (poly2_add _ _ _ _ _ _ _ Q1 Q2)|]. intros x y. cbv beta. rewrite E1, E2. reflexivity.
  - do 3 eexists. split; [apply (poly2_scal _ c _ _ _ Q)|]. intros x y. cbv beta. rewrite E. reflexivity.
  - exists F, X, Y. split; auto. intros x y. rewrite E. apply Ef.
Qed.
Lemma poly2_0_const f fx fy : poly2 0 f fx fy -> exists a, forall x y, f x y = a.
Proof.
  intros P. induction P as [a b H|f fx fy g gx gy P1 (a & A) P2 (b & B)|c f fx fy P (a & A)|f fx fy g gx gy P (a & A) Ef Ex Ey].
  - exists 1. intros. replace a with 0%nat by lia. replace b with 0%nat by lia. cbn. ring.
  - exists (a + b). intros. rewrite A, B. reflexivity.
  - exists (c * a). intros. rewrite A. reflexivity.
  - exists a. intros. rewrite <- Ef. apply A.
Qed.

Section All.
Variables (v : DF_Variant) (gt lob : nat -> QuadratureData) (junk : nat -> nat -> R) (lu llt : Solver) (k : nat) (p : Polygon) (ref : DF_Velocity_Reference) (l : DF_Local).
Hypothesis VS : df_space v gt lob junk lu llt k p ref l.
Let FR := fs_rules _ _ _ _ _ _ _ _ _ _ VS.
Let DP := fs_polygon _ _ _ _ _ _ _ _ _ _ VS.
Let LU := fs_lu _ _ _ _ _ _ _ _ _ _ VS.
Let LT := fs_llt _ _ _ _ _ _ _ _ _ _ VS.
Let GP : good_polygon p := proj1 DP.
Let Hk : (2 <= k)%nat. Proof. apply (fr_order _ _ _ FR). Qed.
Let cx := pg_Centroid p 0%nat.
Let cy := pg_Centroid p 1%nat.
Let h := pg_Diameter p.
Let Hh : h <> 0. Proof. apply gp_diameter; auto. Qed.
Notation nv := (m_cols (pg_Vertices p)).
Notation Nk := (num2 k).
Notation Nm := (num2 (k - 1)).
Notation N2 := (num2 (k - 2)).
Notation ph := (phi cx cy h).
Notation phx := (phix cx cy h).
Notation phy := (phiy cx cy h).
Notation ns := (nv + (k - 1) * nv)%nat.
Notation nb := (2 * ns)%nat.
Notation nd := (ndiv_of v k).

Definition opened (l' : VEM_2D_Local) : Prop :=
  local_facts gt k p lu llt l' /\ PolygonInternalQuadrature (gt (2 * k)%nat) (pg_TriangulationVertices p) = Ok (lv_InternalQuadrature l') /\
  PolygonEdgesLobattoQuadrature junk (inner_points (lob (2 * k - 1)%nat) (k - 1)) (inner_weights (lob (2 * k - 1)%nat) (k - 1)) (end_weights (lob (2 * k - 1)%nat) (k - 1))
    (pg_Vertices p) (pg_EdgesLength p) (pg_EdgesDirection p) (pg_EdgesTangent p) (pg_EdgesNormal p) = Ok (lv_BoundaryQuadrature l') /\
  df_facts v lob k p junk lu llt l' l.

Lemma df_open : dref_facts v gt lob k ref /\ exists l', opened l'.
Proof.
  destruct (dref_ok v gt lob k FR) as (ref' & ER & RF). rewrite (fs_reference _ _ _ _ _ _ _ _ _ _ VS) in ER. injection ER as <-. split; auto.
  destruct (companion gt lob k FR p junk lu llt GP) as (l' & LF & EI & EB). destruct (df_local_ok v gt lob k p FR GP junk lu llt l' LF EI EB ref RF) as (lx & EL & FF).
  rewrite (fs_local _ _ _ _ _ _ _ _ _ _ VS) in EL. injection EL as <-. exists l'. repeat (split; auto).
Qed.

Lemma sizes_all : ld_Order l = k /\ ld_NumVertexBasisFunctions l = nv /\ ld_NumEdgeBasisFunctions l = ((k - 1) * nv)%nat /\ ld_NumBoundaryBasisFunctions l = nb /\
  ld_NumBigOPlusInternalBasisFunctions l = ((k - 2) * (k - 1) / 2)%nat /\ ld_NumDivergenceInternalBasisFunctions l = match v with Full => (k * (k + 1) / 2 - 1)%nat | Reduced => 0%nat end /\
  ld_NumBasisFunctions l = df_size v k nv.
Proof.
  destruct df_open as (RF & l' & LF & EI & EB & FF). repeat split; try apply FF.
  - rewrite (ff_nd _ _ _ _ _ _ _ _ _ FF). unfold ndiv_of. destruct v; [rewrite half_m by lia|]; reflexivity.
  - rewrite (ff_N _ _ _ _ _ _ _ _ _ FF), size_eq by auto. reflexivity.
Qed.

Lemma inside_I l' f : opened l' -> df_inside l f = fI l' f.
Proof. intros (_ & _ & _ & FF). unfold df_inside, fI. rewrite (ff_IQ _ _ _ _ _ _ _ _ _ FF). reflexivity. Qed.
Lemma mono_ph i x y : (i < Nk)%nat -> df_monomial ref l i x y = ph i x y.
Proof.
  intros Hi. destruct df_open as (RF & l' & LF & EI & EB & FF). unfold df_monomial. rewrite (ff_centroid _ _ _ _ _ _ _ _ _ FF), (ff_diam _ _ _ _ _ _ _ _ _ FF).
  rewrite (mono_phi k _ (df_mono _ _ _ _ _ RF)) by auto. reflexivity.
Qed.
Lemma scaled_sx x y : df_scaled l 0 x y = sx p x /\ df_scaled l 1 x y = sy p y.
Proof. destruct df_open as (RF & l' & LF & EI & EB & FF). unfold df_scaled. rewrite (ff_centroid _ _ _ _ _ _ _ _ _ FF), (ff_diam _ _ _ _ _ _ _ _ _ FF). split; reflexivity. Qed.
Lemma poly_pol n P u x y : m_rows P = n -> (n <= Nk)%nat -> df_poly ref l P u x y = pol p n P u x y.
Proof. intros <- H. unfold df_poly, pol. apply rsum_ext. intros i Hi. rewrite mono_ph by lia. reflexivity. Qed.
Lemma Nm_Nk : (Nm <= Nk)%nat. Proof. apply num2_mono. lia. Qed.
Lemma N2_Nk : (N2 <= Nk)%nat. Proof. apply num2_mono. lia. Qed.
Lemma nd_Nk : (1 + nd <= Nm)%nat. Proof. unfold ndiv_of. pose proof (num2_pos (k - 1)). destruct v; lia. Qed.

(** the matrices of the projections *)
Lemma V_dims : m_rows (ld_Vmatrix l) = (1 + nd)%nat /\ m_cols (ld_Vmatrix l) = df_size v k nv.
Proof. destruct df_open as (RF & l' & LF & EI & EB & FF). destruct (ff_V _ _ _ _ _ _ _ _ _ FF) as (A & B & _). rewrite size_eq by auto. auto. Qed.
Lemma PN_dims d : (d < 2)%nat -> m_rows (of_list (ld_PiNabla l) d) = Nk /\ m_cols (of_list (ld_PiNabla l) d) = df_size v k nv.
Proof. intros Hd. destruct df_open as (RF & l' & LF & EI & EB & FF). destruct (ff_Pi _ _ _ _ _ _ _ _ _ FF) as (Q0 & Q1 & E & H). rewrite E, size_eq by auto. destruct (H d Hd) as (A & B & _). auto. Qed.
Lemma Q_dims d : (d < 2)%nat -> m_rows (of_list (ld_Pi0k l) d) = Nk /\ m_cols (of_list (ld_Pi0k l) d) = df_size v k nv.
Proof. intros Hd. destruct df_open as (RF & l' & LF & EI & EB & FF). destruct (ff_Pk _ _ _ _ _ _ _ _ _ FF) as (Q0 & Q1 & E & H). rewrite E, size_eq by auto. destruct (H d Hd) as (A & B & _). auto. Qed.
Lemma S_dims d : (d < 2)%nat -> m_rows (of_list (ld_Pi0km2 l) d) = N2 /\ m_cols (of_list (ld_Pi0km2 l) d) = df_size v k nv.
Proof. intros Hd. destruct df_open as (RF & l' & LF & EI & EB & FF). destruct (ff_P2 _ _ _ _ _ _ _ _ _ FF) as (Q0 & Q1 & E & H). rewrite E, size_eq by auto. destruct (H d Hd) as (A & B & _). auto. Qed.
Lemma F_dims d e : (d < 2)%nat -> (e < 2)%nat -> m_rows (of_list (ld_Pi0km1Der l) (2 * d + e)) = Nm /\ m_cols (of_list (ld_Pi0km1Der l) (2 * d + e)) = df_size v k nv.
Proof. intros Hd He. destruct df_open as (RF & l' & LF & EI & EB & FF). destruct (ff_F _ _ _ _ _ _ _ _ _ FF) as (F00 & F01 & F10 & F11 & E & H). rewrite E, size_eq by auto. destruct (H d e Hd He) as (A & B & _). auto. Qed.

Lemma dv_eq u x y : df_poly ref l (ld_Vmatrix l) u x y = fdv v k p l u x y.
Proof. destruct V_dims as (A & _). pose proof nd_Nk. pose proof Nm_Nk. rewrite (poly_pol (1 + nd)) by (auto; lia). reflexivity. Qed.
Lemma PN_eq d u x y : (d < 2)%nat -> df_poly ref l (of_list (ld_PiNabla l) d) u x y = fPN k p l d u x y.
Proof. intros Hd. destruct (PN_dims d Hd) as (A & _). rewrite (poly_pol Nk) by auto. reflexivity. Qed.
Lemma Q_eq d u x y : (d < 2)%nat -> df_poly ref l (of_list (ld_Pi0k l) d) u x y = fQ k p l d u x y.
Proof. intros Hd. destruct (Q_dims d Hd) as (A & _). rewrite (poly_pol Nk) by auto. reflexivity. Qed.
Lemma S_eq d u x y : (d < 2)%nat -> df_poly ref l (of_list (ld_Pi0km2 l) d) u x y = fS k p l d u x y.
Proof. intros Hd. destruct (S_dims d Hd) as (A & _). pose proof N2_Nk. rewrite (poly_pol N2) by auto. reflexivity. Qed.
Lemma F_eq d e u x y : (d < 2)%nat -> (e < 2)%nat -> df_poly ref l (of_list (ld_Pi0km1Der l) (2 * d + e)) u x y = fF k p l d e u x y.
Proof. intros Hd He. destruct (F_dims d e Hd He) as (A & _). pose proof Nm_Nk. rewrite (poly_pol Nm) by auto. reflexivity. Qed.

(** ** Divergence *)
Lemma traces_all : forall u, exists t, df_traces lob k p u t.
Proof. intros u. apply (traces_exist gt lob k p u FR). Qed.

Lemma divergence_all : forall u t, df_traces lob k p u t ->
  df_inside l (df_poly ref l (ld_Vmatrix l) u) = df_flux lob k p t (fun _ _ => 1) /\
  (forall c, (c < ld_NumDivergenceInternalBasisFunctions l)%nat -> df_inside l (fun x y => df_monomial ref l (1 + c) x y * df_poly ref l (ld_Vmatrix l) u x y) =
     u (ld_NumBoundaryBasisFunctions l + ld_NumBigOPlusInternalBasisFunctions l + c)%nat) /\
  match v with Full => exists dx dy, poly2 (k - 1) (df_poly ref l (ld_Vmatrix l) u) dx dy | Reduced => exists a, forall x y, df_poly ref l (ld_Vmatrix l) u x y = a end.
Proof.
  intros u t T. destruct df_open as (RF & l' & OP). pose proof OP as (LF & EI & EB & FF). split; [|split].
  - rewrite (inside_I l') by auto. rewrite (I_ex l' _ (fdv v k p l u)) by (intros; apply dv_eq). rewrite (dv_mean v gt lob k p FR DP junk lu llt l' LF EB l FF LT). apply (bq_flux v gt lob k p FR DP junk lu llt l' l FF); auto.
  - intros c Hc. rewrite (ff_nd _ _ _ _ _ _ _ _ _ FF) in Hc. rewrite (ff_nb _ _ _ _ _ _ _ _ _ FF), (ff_nbig _ _ _ _ _ _ _ _ _ FF). pose proof nd_Nk. pose proof Nm_Nk.
    rewrite (inside_I l') by auto. rewrite (I_ex l' _ (fun x y => ph (1 + c) x y * fdv v k p l u x y)) by (intros; rewrite mono_ph, dv_eq by lia; reflexivity).
    destruct (ff_V _ _ _ _ _ _ _ _ _ FF) as (_ & _ & VV). apply variant_cases in VV. destruct VV as [(Ev & VV)|(Ev & _)]; [|exfalso; rewrite Ev in Hc; cbn in Hc; lia].
    destruct (ff_W _ _ _ _ _ _ _ _ _ FF) as (_ & _ & _ & W1). rewrite <- (W1 u c Hc). apply VV; auto. lia.
  - assert (X : forall x y, df_poly ref l (ld_Vmatrix l) u x y = fdv v k p l u x y) by (intros; apply dv_eq).
    destruct (dv_poly v gt lob k p FR DP junk lu llt l' LF EB l FF LU LT u) as (dx & dy & PV).
    assert (Y : (v = Full -> exists dx dy, poly2 (k - 1) (df_poly ref l (ld_Vmatrix l) u) dx dy) /\ (v = Reduced -> exists a, forall x y, df_poly ref l (ld_Vmatrix l) u x y = a)).
    { split; intros Ev.
      - exists dx, dy. eapply poly2_ext; [exact PV|..]; intros; try reflexivity. symmetry. apply X.
      - exists (act (ld_Vmatrix l) u 0). intros x y. rewrite X. unfold fdv, pol. rewrite (rsum_single _ _ 0%nat); [rewrite ph0; ring|lia|]. intros i Hi Ni. exfalso. rewrite Ev in Hi. cbn in Hi. lia. }
    destruct Y as (Y1 & Y2). destruct v; auto.
Qed.

Lemma IQ_points : q_Points (ld_InternalQuadrature l) = q_Points (ld_InternalQuadrature l) /\ exists l', opened l' /\ ld_InternalQuadrature l = lv_InternalQuadrature l'.
Proof. destruct df_open as (RF & l' & OP). split; auto. exists l'. split; auto. apply OP. Qed.

Lemma divergence_values_all : exists M, DF_DivergenceValues v l = Ok M /\ m_rows M = m_cols (q_Points (ld_InternalQuadrature l)) /\ m_cols M = ld_NumBasisFunctions l /\
  forall u q, combine M u q = df_poly ref l (ld_Vmatrix l) u (m_at (q_Points (ld_InternalQuadrature l)) 0 q) (m_at (q_Points (ld_InternalQuadrature l)) 1 q).
Proof.
  destruct df_open as (RF & l' & OP). pose proof OP as (LF & EI & EB & FF). destruct (ff_VI _ _ _ _ _ _ _ _ _ FF) as (vr & vc & ve). destruct V_dims as (A & B). pose proof nd_Nk. pose proof Nm_Nk.
  unfold DF_DivergenceValues. assert (NC : match v with Full => ld_Nkm1 l | Reduced => 1%nat end = (1 + nd)%nat).
  { rewrite (ff_Nm _ _ _ _ _ _ _ _ _ FF). unfold ndiv_of. pose proof (num2_pos (k - 1)). destruct v; lia. }
  rewrite NC. rewrite leftCols_ex by lia. cbn [bind]. destruct (mmul_ex {| m_rows := m_rows (ld_VanderInternal l); m_cols := (1 + nd)%nat; m_at := m_at (ld_VanderInternal l) |} (ld_Vmatrix l)) as (M & EM & rm & cm); [cbn; auto|].
  exists M. split; auto. cbn [m_rows] in rm. rewrite (ff_IQ _ _ _ _ _ _ _ _ _ FF). split; [congruence|]. split; [rewrite cm, B; symmetry; apply sizes_all|].
  intros u q. rewrite (values_act _ _ _ (1 + nd) u q EM eq_refl). rewrite dv_eq. unfold fdv, pol. apply rsum_ext. intros i Hi. cbn [m_at]. rewrite ve by lia. ring.
Qed.

(** ** Projections of degree k and k - 2 *)
Lemma projection_all : forall u t, df_traces lob k p u t ->
  let Q0 := df_poly ref l (of_list (ld_Pi0k l) 0) u in let Q1 := df_poly ref l (of_list (ld_Pi0k l) 1) u in
  let P0 := df_poly ref l (of_list (ld_PiNabla l) 0) u in let P1 := df_poly ref l (of_list (ld_PiNabla l) 1) u in
  (forall g gx gy, poly2 (k + 1) g gx gy -> df_inside l (fun x y => Q0 x y * gx x y + Q1 x y * gy x y) = df_flux lob k p t g - df_inside l (fun x y => g x y * df_poly ref l (ld_Vmatrix l) u x y)) /\
  (forall c, (c < ld_NumBigOPlusInternalBasisFunctions l)%nat -> df_inside l (fun x y => df_monomial ref l c x y * (df_scaled l 1 x y * Q0 x y - df_scaled l 0 x y * Q1 x y)) = u (ld_NumBoundaryBasisFunctions l + c)%nat) /\
  (forall c, (ld_NumBigOPlusInternalBasisFunctions l <= c < k * (k + 1) / 2)%nat ->
     df_inside l (fun x y => df_monomial ref l c x y * (df_scaled l 1 x y * Q0 x y - df_scaled l 0 x y * Q1 x y)) = df_inside l (fun x y => df_monomial ref l c x y * (df_scaled l 1 x y * P0 x y - df_scaled l 0 x y * P1 x y))).
Proof.
  intros u t T Q0 Q1 P0 P1. destruct df_open as (RF & l' & OP). pose proof OP as (LF & EI & EB & FF). pose proof Nm_Nk. rewrite (ff_nbig _ _ _ _ _ _ _ _ _ FF), (ff_nb _ _ _ _ _ _ _ _ _ FF), half_m by lia.
  assert (L3 : (n3 k <= Nm)%nat) by (pose proof (n3_Nm v gt lob k p FR); pose proof (num2_mono (k - 2) (k - 1) ltac:(lia)); lia).
  assert (RT : forall c, (c < Nm)%nat -> df_inside l (fun x y => df_monomial ref l c x y * (df_scaled l 1 x y * Q0 x y - df_scaled l 0 x y * Q1 x y)) = gamma k p l' l u c).
  { intros c Hc. rewrite (inside_I l') by auto. rewrite <- (Q_rot v gt lob k p FR junk lu llt l' l FF LT u c Hc). apply I_ex. intros x y. rewrite mono_ph by lia. rewrite (proj1 (scaled_sx x y)), (proj2 (scaled_sx x y)). unfold Q0, Q1. rewrite !Q_eq by lia. reflexivity. }
  split; [|split].
  - intros g gx gy Pg. rewrite !(inside_I l') by auto. rewrite (I_ex l' (fun x y => g x y * df_poly ref l (ld_Vmatrix l) u x y) (fun x y => g x y * fdv v k p l u x y)) by (intros; rewrite dv_eq; reflexivity).
    rewrite <- (Q_grad v gt lob k p FR DP junk lu llt l' LF EB l FF LT u t g gx gy T Pg). apply I_ex. intros x y. unfold Q0, Q1. rewrite !Q_eq by lia. reflexivity.
  - intros c Hc. rewrite RT by lia. apply (gamma_low k p l' l); auto.
  - intros c Hc. rewrite RT by lia. rewrite (gamma_high k p l' l) by lia. rewrite (inside_I l') by auto. apply I_ex. intros x y. rewrite mono_ph by lia. rewrite (proj1 (scaled_sx x y)), (proj2 (scaled_sx x y)). unfold P0, P1. rewrite !PN_eq by lia. reflexivity.
Qed.

Lemma projection_km2_all : forall u d g gx gy, (d < 2)%nat -> poly2 (k - 2) g gx gy ->
  df_inside l (fun x y => g x y * df_poly ref l (of_list (ld_Pi0km2 l) d) u x y) = df_inside l (fun x y => g x y * df_poly ref l (of_list (ld_Pi0k l) d) u x y).
Proof.
  intros u d g gx gy Hd Pg. destruct df_open as (RF & l' & OP). pose proof OP as (LF & EI & EB & FF). rewrite !(inside_I l') by auto.
  rewrite (I_ex l' _ (fun x y => g x y * fS k p l d u x y)) by (intros; rewrite S_eq by auto; reflexivity). rewrite (S_Q v gt lob k p FR DP junk lu llt l' l FF LT d u g gx gy Hd Pg).
  apply I_ex. intros. rewrite Q_eq by auto. reflexivity.
Qed.

(** ** Gradient and derivatives *)
Lemma gradient_all : forall u t d, df_traces lob k p u t -> (d < 2)%nat -> exists px py, poly2 k (df_poly ref l (of_list (ld_PiNabla l) d) u) px py /\
  df_inside l (df_poly ref l (of_list (ld_PiNabla l) d) u) = df_inside l (df_poly ref l (of_list (ld_Pi0km2 l) d) u) /\
  forall g gx gy gxx gxy gyx gyy, poly2 k g gx gy -> poly2 (k - 1) gx gxx gxy -> poly2 (k - 1) gy gyx gyy ->
    df_inside l (fun x y => px x y * gx x y + py x y * gy x y) = df_around lob k p (fun e s => t d e s * (df_at p gx e s * df_normal p 0 e + df_at p gy e s * df_normal p 1 e)) -
      df_inside l (fun x y => (gxx x y + gyy x y) * df_poly ref l (of_list (ld_Pi0km2 l) d) u x y).
Proof.
  intros u t d T Hd. destruct df_open as (RF & l' & OP). pose proof OP as (LF & EI & EB & FF). pose proof (cpoly v p DP k (fun j => act (of_list (ld_PiNabla l) d) u j)) as PP.
  do 2 eexists. split; [|split].
  - eapply poly2_ext; [exact PP|..]; intros; try reflexivity. rewrite PN_eq by auto. reflexivity.
  - rewrite !(inside_I l') by auto. rewrite (I_ex l' _ (fPN k p l d u)) by (intros; apply PN_eq; auto). rewrite (PN_mean v lob k p junk lu llt l' l FF LU LT d u Hd). apply I_ex. intros. symmetry. apply S_eq; auto.
  - intros g gx gy gxx gxy gyx gyy Pg Px Py. rewrite !(inside_I l') by auto. rewrite (I_ex l' (fun x y => (gxx x y + gyy x y) * _) (fun x y => (gxx x y + gyy x y) * fS k p l d u x y)) by (intros; rewrite S_eq by auto; reflexivity).
    apply (PN_ok v gt lob k p FR DP junk lu llt l' EB l FF LU LT d u t _ _ g gx gy gxx gxy gyx gyy Hd T PP Pg Px Py).
Qed.

Lemma derivatives_all : forall u t d e g gx gy, df_traces lob k p u t -> (d < 2)%nat -> (e < 2)%nat -> poly2 (k - 1) g gx gy ->
  df_inside l (fun x y => g x y * df_poly ref l (of_list (ld_Pi0km1Der l) (2 * d + e)) u x y) = df_around lob k p (fun a s => df_at p g a s * (df_normal p e a * t d a s)) -
    df_inside l (fun x y => (match e with 0%nat => gx | _ => gy end) x y * df_poly ref l (of_list (ld_Pi0km2 l) d) u x y).
Proof.
  intros u t d e g gx gy T Hd He Pg. destruct df_open as (RF & l' & OP). pose proof OP as (LF & EI & EB & FF). rewrite !(inside_I l') by auto.
  rewrite (I_ex l' _ (fun x y => g x y * fF k p l d e u x y)) by (intros; rewrite F_eq by auto; reflexivity). rewrite (F_ok v gt lob k p FR DP junk lu llt l' EB l FF LT d e u t g gx gy Hd He T Pg). f_equal.
  apply I_ex. intros x y. rewrite S_eq by auto. destruct e; reflexivity.
Qed.

Lemma trace_all : forall u x y, df_poly ref l (of_list (ld_Pi0km1Der l) 0) u x y + df_poly ref l (of_list (ld_Pi0km1Der l) 3) u x y = df_poly ref l (ld_Vmatrix l) u x y.
Proof.
  intros u x y. destruct df_open as (RF & l' & OP). pose proof OP as (LF & EI & EB & FF). rewrite dv_eq. change 3%nat with (2 * 1 + 1)%nat. change 0%nat with (2 * 0 + 0)%nat. rewrite !F_eq by lia.
  apply (trace_div v gt lob k p FR DP junk lu llt l' LF EB l FF LU LT).
Qed.

(** ** Polynomial fields *)
Lemma dofs_cases l' f0 f1 dv : opened l' -> let u := df_dofs ref l f0 f1 dv in
  (forall d q, (d < 2)%nat -> (q < ns)%nat -> u (d * ns + q)%nat = (if (d =? 0)%nat then f0 else f1) (m_at (boundary_points l') 0 q) (m_at (boundary_points l') 1 q)) /\
  (forall c, (c < n3 k)%nat -> u (nb + c)%nat = fI l' (fun x y => ph c x y * (sy p y * f0 x y - sx p x * f1 x y))) /\
  (forall c, (c < nd)%nat -> u (nb + n3 k + c)%nat = fI l' (fun x y => ph (1 + c) x y * dv x y)).
Proof.
  intros OP u. pose proof OP as (LF & EI & EB & FF). unfold u, df_dofs. rewrite (ff_nv _ _ _ _ _ _ _ _ _ FF), (ff_ne _ _ _ _ _ _ _ _ _ FF), (ff_nbig _ _ _ _ _ _ _ _ _ FF), (ff_ED _ _ _ _ _ _ _ _ _ FF). cbv zeta. fold (boundary_points l').
  pose proof nd_Nk. pose proof Nm_Nk. assert (L3 : (n3 k <= Nk)%nat) by (pose proof (n3_Nm v gt lob k p FR); pose proof N2_Nk; lia).
  split; [|split].
  - intros d q Hd Hq. destruct d as [|[|d]]; [| |lia]; cbn [Nat.eqb].
    + rewrite Nat.mul_0_l, Nat.add_0_l. rewrite ltb_true by lia. reflexivity.
    + rewrite Nat.mul_1_l. rewrite ltb_false, ltb_true by lia. replace (ns + q - ns)%nat with q by lia. reflexivity.
  - intros c Hc. rewrite !ltb_false, ltb_true by lia. replace (nb + c - nb)%nat with c by lia. rewrite (inside_I l') by auto. apply I_ex. intros x y. rewrite mono_ph by lia. rewrite (proj1 (scaled_sx x y)), (proj2 (scaled_sx x y)). reflexivity.
  - intros c Hc. rewrite !ltb_false by lia. replace (nb + n3 k + c - nb - n3 k)%nat with c by lia. rewrite (inside_I l') by auto. apply I_ex. intros x y. rewrite mono_ph by lia. reflexivity.
Qed.

Lemma polynomial_all : forall f0 f1 f0x f0y f1x f1y, poly2 k f0 f0x f0y -> poly2 k f1 f1x f1y ->
  match v with Full => True | Reduced => exists a, forall x y, f0x x y + f1y x y = a end ->
  let u := df_dofs ref l f0 f1 (fun x y => f0x x y + f1y x y) in
  forall x y,
    df_poly ref l (ld_Vmatrix l) u x y = f0x x y + f1y x y /\
    df_poly ref l (of_list (ld_PiNabla l) 0) u x y = f0 x y /\ df_poly ref l (of_list (ld_PiNabla l) 1) u x y = f1 x y /\
    df_poly ref l (of_list (ld_Pi0k l) 0) u x y = f0 x y /\ df_poly ref l (of_list (ld_Pi0k l) 1) u x y = f1 x y /\
    df_poly ref l (of_list (ld_Pi0km1Der l) 0) u x y = f0x x y /\ df_poly ref l (of_list (ld_Pi0km1Der l) 1) u x y = f0y x y /\
    df_poly ref l (of_list (ld_Pi0km1Der l) 2) u x y = f1x x y /\ df_poly ref l (of_list (ld_Pi0km1Der l) 3) u x y = f1y x y.
Proof.
  intros f0 f1 f0x f0y f1x f1y P0 P1 HR u x y. destruct df_open as (RF & l' & OP). pose proof OP as (LF & EI & EB & FF).
  assert (UR : v = Reduced -> exists a, forall x y, f0x x y + f1y x y = a) by (intros ->; exact HR).
  destruct (dofs_cases l' f0 f1 (fun x y => f0x x y + f1y x y) OP) as (U0 & U1 & U2).
  split; [rewrite dv_eq; apply (dv_field v gt lob k p FR DP junk lu llt l' LF EB EI l FF LU LT f0 f1 f0x f0y f1x f1y u P0 P1 U0 U2 UR)|].
  assert (A := fun d => PN_field v gt lob k p FR DP junk lu llt l' LF EB EI l FF LU LT f0 f1 f0x f0y f1x f1y u P0 P1 U0 U1 U2 UR d x y).
  assert (B := fun d => Q_field v gt lob k p FR DP junk lu llt l' LF EB EI l FF LU LT f0 f1 f0x f0y f1x f1y u P0 P1 U0 U1 U2 UR d x y).
  assert (C := fun d e => F_field v gt lob k p FR DP junk lu llt l' LF EB EI l FF LU LT f0 f1 f0x f0y f1x f1y u P0 P1 U0 U1 U2 UR d e x y).
  rewrite !PN_eq, !Q_eq by lia. pose proof (F_eq 0 0 u x y ltac:(lia) ltac:(lia)) as E0. pose proof (F_eq 0 1 u x y ltac:(lia) ltac:(lia)) as E1. pose proof (F_eq 1 0 u x y ltac:(lia) ltac:(lia)) as E2. pose proof (F_eq 1 1 u x y ltac:(lia) ltac:(lia)) as E3.
  cbn [Nat.mul Nat.add] in E0, E1, E2, E3. rewrite E0, E1, E2, E3, !A, !B, !C by lia. cbn [Nat.eqb]. repeat split; reflexivity.
Qed.

Lemma polynomial_km2_all : forall f0 f1 f0x f0y f1x f1y, poly2 k f0 f0x f0y -> poly2 k f1 f1x f1y ->
  match v with Full => True | Reduced => exists a, forall x y, f0x x y + f1y x y = a end ->
  let u := df_dofs ref l f0 f1 (fun x y => f0x x y + f1y x y) in
  forall g gx gy, poly2 (k - 2) g gx gy ->
    df_inside l (fun x y => g x y * df_poly ref l (of_list (ld_Pi0km2 l) 0) u x y) = df_inside l (fun x y => g x y * f0 x y) /\
    df_inside l (fun x y => g x y * df_poly ref l (of_list (ld_Pi0km2 l) 1) u x y) = df_inside l (fun x y => g x y * f1 x y).
Proof.
  intros f0 f1 f0x f0y f1x f1y P0 P1 HR u g gx gy Pg. destruct df_open as (RF & l' & OP). rewrite !(projection_km2_all u _ g gx gy) by (auto; lia). rewrite !(inside_I l') by auto.
  split; apply I_ex; intros x y; f_equal; apply (polynomial_all f0 f1 f0x f0y f1x f1y P0 P1 HR x y).
Qed.

(** ** Stabilization *)
Lemma D_dofs a0 a1 : exists p0x p0y p1x p1y,
  poly2 k (fun x y => rsum Nk (fun j => a0 j * ph j x y)) p0x p0y /\ poly2 k (fun x y => rsum Nk (fun j => a1 j * ph j x y)) p1x p1y /\
  forall q, (q < df_size v k nv)%nat -> act (of_list (ld_Dmatrix l) 0) a0 q + act (of_list (ld_Dmatrix l) 1) a1 q = df_dofs ref l (fun x y => rsum Nk (fun j => a0 j * ph j x y)) (fun x y => rsum Nk (fun j => a1 j * ph j x y)) (fun x y => p0x x y + p1y x y) q.
Proof.
  destruct df_open as (RF & l' & OP). pose proof OP as (LF & EI & EB & FF).
  do 4 eexists. split; [apply (cpoly v p DP k a0)|]. split; [apply (cpoly v p DP k a1)|]. fold cx cy h. intros q Hq. rewrite size_eq in Hq by auto.
  destruct (dofs_cases l' (fun x y => rsum Nk (fun j => a0 j * ph j x y)) (fun x y => rsum Nk (fun j => a1 j * ph j x y)) (fun x y => rsum Nk (fun j => a0 j * phx j x y) + rsum Nk (fun j => a1 j * phy j x y)) OP) as (U0 & U1 & U2).
  destruct (ff_D _ _ _ _ _ _ _ _ _ FF) as (D0 & D1 & ED & HD). rewrite ED. cbn [of_list nth]. destruct (HD 0%nat ltac:(lia)) as (_ & c0 & B0 & M0 & V0). destruct (HD 1%nat ltac:(lia)) as (_ & c1 & B1 & M1 & V1). cbn [nth] in c0, c1, B0, B1, M0, M1, V0, V1.
  unfold act. rewrite c0, c1. destruct (Nat.lt_ge_cases q nb) as [H1|H1]; [|destruct (Nat.lt_ge_cases q (nb + n3 k)) as [H2|H2]].
  - destruct (Nat.lt_ge_cases q ns) as [H0|H0].
    + rewrite (rsum_ext Nk _ (fun j => a0 j * ph j (m_at (boundary_points l') 0 q) (m_at (boundary_points l') 1 q))) by (intros j Hj; pose proof (B0 0%nat q j ltac:(lia) H0 Hj) as X; cbn [Nat.eqb Nat.mul Nat.add] in X; rewrite X; apply Rmult_comm).
      rewrite (rsum_0 Nk (fun j => m_at D1 q j * a1 j)) by (intros j Hj; pose proof (B1 0%nat q j ltac:(lia) H0 Hj) as X; cbn [Nat.eqb Nat.mul Nat.add] in X; rewrite X; ring). rewrite Rplus_0_r.
      pose proof (U0 0%nat q ltac:(lia) H0) as X. cbn [Nat.eqb Nat.mul Nat.add] in X. symmetry. exact X.
    + replace q with (1 * ns + (q - ns))%nat by lia. rewrite U0 by lia. cbn [Nat.eqb].
      rewrite (rsum_0 Nk) by (intros j Hj; rewrite B0 by lia; cbn [Nat.eqb]; ring). rewrite Rplus_0_l. apply rsum_ext. intros j Hj. rewrite B1 by lia. cbn [Nat.eqb]. apply Rmult_comm.
  - replace q with (nb + (q - nb))%nat by lia. rewrite U1 by lia.
    rewrite (I_ex l' _ (fun x y => (sy p y * ph (q - nb) x y) * rsum Nk (fun j => a0 j * ph j x y) + (- sx p x * ph (q - nb) x y) * rsum Nk (fun j => a1 j * ph j x y))) by (intros; ring).
    rewrite I_pl, !I_comb. f_equal; apply rsum_ext; intros j Hj; [rewrite M0 by lia|rewrite M1 by lia]; cbn [Nat.eqb]; reflexivity.
  - replace q with (nb + n3 k + (q - nb - n3 k))%nat by lia. rewrite U2 by lia.
    rewrite (I_ex l' _ (fun x y => ph (1 + (q - nb - n3 k)) x y * rsum Nk (fun j => a0 j * phx j x y) + ph (1 + (q - nb - n3 k)) x y * rsum Nk (fun j => a1 j * phy j x y))) by (intros; ring).
    rewrite I_pl, !I_comb. f_equal; apply rsum_ext; intros j Hj; [rewrite V0 by lia|rewrite V1 by lia]; cbn [Nat.eqb]; reflexivity.
Qed.

Lemma dofs_ext f0 f1 dv g0 g1 dw q : (forall x y, f0 x y = g0 x y) -> (forall x y, f1 x y = g1 x y) -> (forall x y, dv x y = dw x y) -> df_dofs ref l f0 f1 dv q = df_dofs ref l g0 g1 dw q.
Proof.
  intros A B C. unfold df_dofs. cbv zeta. destruct (_ <? _)%nat; [apply A|]. destruct (_ <? _)%nat; [apply B|]. destruct (_ <? _)%nat; apply apply_ext; intros; rewrite ?A, ?B, ?C; reflexivity.
Qed.

Lemma D_all : exists D0 D1, ld_Dmatrix l = [D0; D1] /\ m_rows D0 = df_size v k nv /\ m_rows D1 = df_size v k nv /\ m_cols D0 = Nk /\ m_cols D1 = Nk.
Proof.
  destruct df_open as (RF & l' & OP). pose proof OP as (LF & EI & EB & FF). destruct (ff_D _ _ _ _ _ _ _ _ _ FF) as (D0 & D1 & ED & HD). exists D0, D1. split; auto.
  destruct (HD 0%nat ltac:(lia)) as (r0 & c0 & _). destruct (HD 1%nat ltac:(lia)) as (r1 & c1 & _). cbn [nth] in r0, r1, c0, c1. rewrite size_eq by auto. auto.
Qed.

Lemma stabilization_of P0 P1 c : m_rows P0 = Nk -> m_rows P1 = Nk -> m_cols P0 = df_size v k nv -> m_cols P1 = df_size v k nv ->
  (forall f0 f1 f0x f0y f1x f1y, poly2 k f0 f0x f0y -> poly2 k f1 f1x f1y -> match v with Full => True | Reduced => exists a, forall x y, f0x x y + f1y x y = a end -> forall x y,
     df_poly ref l P0 (df_dofs ref l f0 f1 (fun x y => f0x x y + f1y x y)) x y = f0 x y /\ df_poly ref l P1 (df_dofs ref l f0 f1 (fun x y => f0x x y + f1y x y)) x y = f1 x y) ->
  exists S, df_utilities_DofiDofi (ld_Dimension l) [P0; P1] c (ld_Dmatrix l) = Ok S /\ m_rows S = ld_NumBasisFunctions l /\ m_cols S = ld_NumBasisFunctions l /\ (forall i j, m_at S i j = m_at S j i) /\
    (forall u r0 r1 r0x r0y r1x r1y, (forall x y, r0 x y = df_poly ref l P0 u x y) -> (forall x y, r1 x y = df_poly ref l P1 u x y) -> poly2 k r0 r0x r0y -> poly2 k r1 r1x r1y ->
       rsum (ld_NumBasisFunctions l) (fun i => rsum (ld_NumBasisFunctions l) (fun j => u i * m_at S i j * u j)) =
       c * rsum (ld_NumBasisFunctions l) (fun q => (df_dofs ref l r0 r1 (fun x y => r0x x y + r1y x y) q - u q) ^ 2)) /\
    (forall f0 f1 f0x f0y f1x f1y i, poly2 k f0 f0x f0y -> poly2 k f1 f1x f1y -> match v with Full => True | Reduced => exists a, forall x y, f0x x y + f1y x y = a end ->
       combine S (df_dofs ref l f0 f1 (fun x y => f0x x y + f1y x y)) i = 0).
Proof.
  intros r0 r1 c0 c1 EX. destruct D_all as (D0 & D1 & ED & d0 & d1 & d2 & d3). destruct df_open as (RF & l' & OP). pose proof OP as (LF & EI & EB & FF). rewrite (ff_dim _ _ _ _ _ _ _ _ _ FF), ED.
  destruct (df_dofi_ok P0 P1 c D0 D1 (df_size v k nv) d0 d1 c0 c1 ltac:(congruence) ltac:(congruence)) as (S & ES & rs & cs & SY & SZ & SF). exists S. split; auto.
  rewrite (proj2 (proj2 (proj2 (proj2 (proj2 (proj2 sizes_all)))))). do 3 (split; auto).
  assert (DD : forall u g0 g1 g0x g0y g1x g1y, (forall x y, g0 x y = df_poly ref l P0 u x y) -> (forall x y, g1 x y = df_poly ref l P1 u x y) -> poly2 k g0 g0x g0y -> poly2 k g1 g1x g1y ->
    forall q, (q < df_size v k nv)%nat -> act D0 (fun a => act P0 u a) q + act D1 (fun a => act P1 u a) q = df_dofs ref l g0 g1 (fun x y => g0x x y + g1y x y) q).
  { intros u g0 g1 g0x g0y g1x g1y E0 E1 G0 G1 q Hq. destruct (D_dofs (fun a => act P0 u a) (fun a => act P1 u a)) as (p0x & p0y & p1x & p1y & A0 & A1 & DQ).
    rewrite ED in DQ. cbn [of_list nth] in DQ. rewrite DQ by auto.
    assert (X0 : forall x y, rsum Nk (fun j => act P0 u j * ph j x y) = g0 x y) by (intros; rewrite E0, (poly_pol Nk) by auto; reflexivity).
    assert (X1 : forall x y, rsum Nk (fun j => act P1 u j * ph j x y) = g1 x y) by (intros; rewrite E1, (poly_pol Nk) by auto; reflexivity).
    apply dofs_ext; auto. intros x y. rewrite (proj1 (poly2_derivatives_unique _ _ _ _ _ _ _ _ A0 G0 X0)), (proj2 (poly2_derivatives_unique _ _ _ _ _ _ _ _ A1 G1 X1)). reflexivity. }
  split.
  - intros u g0 g1 g0x g0y g1x g1y E0 E1 G0 G1. rewrite SF. f_equal. apply rsum_ext. intros q Hq. rewrite (DD u g0 g1 g0x g0y g1x g1y) by auto. reflexivity.
  - intros f0 f1 f0x f0y f1x f1y i P0' P1' HR. apply SZ. intros q Hq. pose proof (EX f0 f1 f0x f0y f1x f1y P0' P1' HR) as X.
    rewrite (DD _ f0 f1 f0x f0y f1x f1y) by (auto; intros; symmetry; apply X). reflexivity.
Qed.

Lemma PN_list : ld_PiNabla l = [of_list (ld_PiNabla l) 0; of_list (ld_PiNabla l) 1].
Proof. destruct df_open as (RF & l' & OP). pose proof OP as (LF & EI & EB & FF). destruct (ff_Pi _ _ _ _ _ _ _ _ _ FF) as (Q0 & Q1 & E & _). rewrite E. reflexivity. Qed.
Lemma Q_list : ld_Pi0k l = [of_list (ld_Pi0k l) 0; of_list (ld_Pi0k l) 1].
Proof. destruct df_open as (RF & l' & OP). pose proof OP as (LF & EI & EB & FF). destruct (ff_Pk _ _ _ _ _ _ _ _ _ FF) as (Q0 & Q1 & E & _). rewrite E. reflexivity. Qed.
Lemma S_list : ld_Pi0km2 l = [of_list (ld_Pi0km2 l) 0; of_list (ld_Pi0km2 l) 1].
Proof. destruct df_open as (RF & l' & OP). pose proof OP as (LF & EI & EB & FF). destruct (ff_P2 _ _ _ _ _ _ _ _ _ FF) as (Q0 & Q1 & E & _). rewrite E. reflexivity. Qed.
Lemma F_list : ld_Pi0km1Der l = [of_list (ld_Pi0km1Der l) 0; of_list (ld_Pi0km1Der l) 1; of_list (ld_Pi0km1Der l) 2; of_list (ld_Pi0km1Der l) 3].
Proof. destruct df_open as (RF & l' & OP). pose proof OP as (LF & EI & EB & FF). destruct (ff_F _ _ _ _ _ _ _ _ _ FF) as (F00 & F01 & F10 & F11 & E & _). rewrite E. reflexivity. Qed.

Notation df_stabilizes := (df_stabilizes v k ref l).
Lemma stabilization_all : (exists S, DF_DofiDofi l DF_PiNabla = Ok S /\ df_stabilizes (ld_PiNabla l) 1 S) /\
  (exists S, DF_DofiDofi l DF_Pi0k = Ok S /\ df_stabilizes (ld_Pi0k l) (pg_Measure p) S) /\
  DF_DofiDofi l DF_Pi0km2 = Throw /\ DF_DofiDofi l DF_Pi0km1Der = Throw.
Proof.
  split; [|split; [|split; reflexivity]].
  - destruct (PN_dims 0 ltac:(lia)) as (a0 & b0). destruct (PN_dims 1 ltac:(lia)) as (a1 & b1).
    destruct (stabilization_of (of_list (ld_PiNabla l) 0) (of_list (ld_PiNabla l) 1) 1 a0 a1 b0 b1) as (S & ES & H).
    { intros f0 f1 f0x f0y f1x f1y P0 P1 HR x y. destruct (polynomial_all f0 f1 f0x f0y f1x f1y P0 P1 HR x y) as (_ & A & B & _). split; auto. }
    exists S. split; auto. cbn [DF_DofiDofi]. rewrite PN_list. exact ES.
  - destruct (Q_dims 0 ltac:(lia)) as (a0 & b0). destruct (Q_dims 1 ltac:(lia)) as (a1 & b1).
    destruct (stabilization_of (of_list (ld_Pi0k l) 0) (of_list (ld_Pi0k l) 1) (pg_Measure p) a0 a1 b0 b1) as (S & ES & H).
    { intros f0 f1 f0x f0y f1x f1y P0 P1 HR x y. destruct (polynomial_all f0 f1 f0x f0y f1x f1y P0 P1 HR x y) as (_ & _ & _ & A & B & _). split; auto. }
    exists S. split; auto. cbn [DF_DofiDofi]. destruct df_open as (RF & l' & OP). pose proof OP as (LF & EI & EB & FF). rewrite (ff_measure _ _ _ _ _ _ _ _ _ FF), Q_list. exact ES.
Qed.

(** ** Divergence free functions *)
Lemma divergence_free_all : forall u,
  (forall c, (c < match v with Full => (k * (k + 1) / 2)%nat | Reduced => 1%nat end)%nat -> df_inside l (fun x y => df_monomial ref l c x y * df_poly ref l (ld_Vmatrix l) u x y) = 0) ->
  forall x y, df_poly ref l (ld_Vmatrix l) u x y = 0.
Proof.
  intros u H x y. destruct df_open as (RF & l' & OP). pose proof OP as (LF & EI & EB & FF). pose proof nd_Nk. pose proof Nm_Nk. rewrite dv_eq. pose proof (num2_pos (k - 1)).
  assert (NN : match v with Full => (k * (k + 1) / 2)%nat | Reduced => 1%nat end = (1 + nd)%nat) by (unfold ndiv_of; rewrite half_m by lia; destruct v; lia). rewrite NN in H.
  assert (M : forall c, (c < 1 + nd)%nat -> fI l' (fun x y => ph c x y * fdv v k p l u x y) = 0).
  { intros c Hc. rewrite <- (H c Hc), (inside_I l') by auto. apply I_ex. intros. rewrite mono_ph, dv_eq by lia. reflexivity. }
  assert (NV : exists n fx fy, (n <= k)%nat /\ num2 n = (1 + nd)%nat /\ poly2 n (fdv v k p l u) fx fy).
  { pose proof (variant_dec v) as [Ev|Ev].
    - destruct (dv_poly v gt lob k p FR DP junk lu llt l' LF EB l FF LU LT u) as (fx & fy & PV). exists (k - 1)%nat, fx, fy. split; [lia|]. split; auto. unfold ndiv_of. rewrite Ev. lia.
    - exists 0%nat, (fun _ _ => 0), (fun _ _ => 0). split; [lia|]. split; [unfold ndiv_of; rewrite Ev; reflexivity|]. eapply poly2_ext; [apply (poly2_const 0 (act (ld_Vmatrix l) u 0))|..]; try reflexivity.
      intros a b. unfold fdv, pol. rewrite (rsum_single _ _ 0%nat); [rewrite (ph0 p); ring|lia|]. intros i Hi Ni. exfalso. unfold ndiv_of in Hi. rewrite Ev in Hi. lia. }
  destruct NV as (n & fx & fy & Hn & En & PV). apply (same v gt lob k p FR DP lu llt l' LF n _ fx fy (fun _ _ => 0) (fun _ _ => 0) (fun _ _ => 0) Hn PV (poly2_const n 0)).
  intros i Hi. rewrite M by lia. rewrite (I_ex l' _ (fun x y => 0 * (fun _ _ => 0) x y)) by (intros; ring). rewrite I_sc. ring.
Qed.

Lemma divergence_onto_all : forall q qx qy, poly2 (match v with Full => (k - 1)%nat | Reduced => 0%nat end) q qx qy -> exists u, forall x y, df_poly ref l (ld_Vmatrix l) u x y = q x y.
Proof.
  intros q qx qy Pq. destruct (primitive_x _ q qx qy Pq) as (F & Fx & Fy & PF & EF).
  assert (LE : (S (match v with Full => (k - 1)%nat | Reduced => 0%nat end) <= k)%nat) by (destruct v; lia).
  exists (df_dofs ref l F (fun _ _ => 0) (fun x y => Fx x y + 0)). intros x y. rewrite <- EF.
  assert (HR : match v with Full => True | Reduced => exists a, forall x y, Fx x y + 0 = a end).
  { pose proof (variant_dec v) as [Ev|Ev]; rewrite Ev; auto. rewrite Ev in Pq. destruct (poly2_0_const q qx qy Pq) as (a & Ea). exists a. intros. rewrite EF, Ea. ring. }
  rewrite (proj1 (polynomial_all F (fun _ _ => 0) Fx Fy (fun _ _ => 0) (fun _ _ => 0) (poly2_le _ _ _ _ _ LE PF) (poly2_const k 0) HR x y)). ring.
Qed.

(** ** Values *)
Lemma at_points P n V points (b : nat -> R -> R -> R) : m_rows P = n -> m_cols P = df_size v k nv -> m_cols V = n -> m_rows V = m_cols points ->
  (forall q i, (i < n)%nat -> m_at V q i = b i (m_at points 0 q) (m_at points 1 q)) ->
  exists A, mmul V P = Ok A /\ m_rows A = m_cols points /\ m_cols A = ld_NumBasisFunctions l /\
    forall u q, combine A u q = rsum n (fun i => b i (m_at points 0 q) (m_at points 1 q) * act P u i).
Proof.
  intros rp cp cv rv E. destruct (mmul_ex V P ltac:(congruence)) as (A & EA & ra & ca). exists A. split; auto. split; [congruence|]. split; [rewrite ca, cp; symmetry; apply sizes_all|].
  intros u q. rewrite (values_act V P A n u q EA cv). apply rsum_ext. intros i Hi. rewrite E by auto. reflexivity.
Qed.

Notation gives := (df_gives l).
Lemma utilities_values V points : m_cols V = Nk -> m_rows V = m_cols points -> (forall q i, (i < Nk)%nat -> m_at V q i = ph i (m_at points 0 q) (m_at points 1 q)) ->
  (exists L, df_utilities_Values (ld_Dimension l) DF_Pi0k (ld_Nkm2 l) (ld_Pi0km2 l) (ld_Pi0k l) V = Ok L /\ gives points L 2 (fun d u => df_poly ref l (of_list (ld_Pi0k l) d) u)) /\
  (exists L, df_utilities_Values (ld_Dimension l) DF_Pi0km2 (ld_Nkm2 l) (ld_Pi0km2 l) (ld_Pi0k l) V = Ok L /\ gives points L 2 (fun d u => df_poly ref l (of_list (ld_Pi0km2 l) d) u)).
Proof.
  intros cv rv E. destruct df_open as (RF & l' & OP). pose proof OP as (LF & EI & EB & FF). rewrite (ff_dim _ _ _ _ _ _ _ _ _ FF), (ff_N2 _ _ _ _ _ _ _ _ _ FF). unfold df_utilities_Values. pose proof N2_Nk. split.
  - destruct (Q_dims 0 ltac:(lia)) as (a0 & b0). destruct (Q_dims 1 ltac:(lia)) as (a1 & b1). rewrite Q_list. cbn [for_loop for_from Nat.add idx_ nth_error bind].
    destruct (at_points _ Nk V points ph a0 b0 cv rv E) as (A0 & EA0 & A0r & A0c & A0v). destruct (at_points _ Nk V points ph a1 b1 cv rv E) as (A1 & EA1 & A1r & A1c & A1v).
    rewrite EA0. cbn [bind]. rewrite EA1. cbn [bind app]. eexists. split; [reflexivity|]. split; auto. intros d Hd. destruct d as [|[|d]]; [| |lia]; cbn [of_list nth]; (split; [auto|]); (split; [auto|]); intros u q.
    + rewrite A0v. rewrite (poly_pol Nk) by auto. apply rsum_ext. intros. apply Rmult_comm.
    + rewrite A1v. rewrite (poly_pol Nk) by auto. apply rsum_ext. intros. apply Rmult_comm.
  - destruct (S_dims 0 ltac:(lia)) as (a0 & b0). destruct (S_dims 1 ltac:(lia)) as (a1 & b1). rewrite S_list. cbn [for_loop for_from Nat.add idx_ nth_error bind]. rewrite leftCols_ex by lia. cbn [bind].
    set (W := {| m_rows := m_rows V; m_cols := N2; m_at := m_at V |}). assert (E' : forall q i, (i < N2)%nat -> m_at W q i = ph i (m_at points 0 q) (m_at points 1 q)) by (intros; apply E; lia).
    destruct (at_points _ N2 W points ph a0 b0 eq_refl rv E') as (A0 & EA0 & A0r & A0c & A0v). destruct (at_points _ N2 W points ph a1 b1 eq_refl rv E') as (A1 & EA1 & A1r & A1c & A1v).
    rewrite EA0. cbn [bind]. rewrite EA1. cbn [bind app]. eexists. split; [reflexivity|]. split; auto. intros d Hd. destruct d as [|[|d]]; [| |lia]; cbn [of_list nth]; (split; [auto|]); (split; [auto|]); intros u q.
    + rewrite A0v. rewrite (poly_pol N2) by auto. apply rsum_ext. intros. apply Rmult_comm.
    + rewrite A1v. rewrite (poly_pol N2) by auto. apply rsum_ext. intros. apply Rmult_comm.
Qed.

Lemma utilities_derivatives V V0 V1 points : m_cols V = Nk -> m_rows V = m_cols points -> (forall q i, (i < Nk)%nat -> m_at V q i = ph i (m_at points 0 q) (m_at points 1 q)) ->
  m_cols V0 = Nk -> m_rows V0 = m_cols points -> (forall q i, (i < Nk)%nat -> m_at V0 q i = phx i (m_at points 0 q) (m_at points 1 q)) ->
  m_cols V1 = Nk -> m_rows V1 = m_cols points -> (forall q i, (i < Nk)%nat -> m_at V1 q i = phy i (m_at points 0 q) (m_at points 1 q)) ->
  (exists L f, df_utilities_DerivativeValues (ld_Dimension l) DF_PiNabla (ld_Nkm1 l) V [V0; V1] (ld_PiNabla l) (ld_Pi0km1Der l) = Ok L /\ gives points L 4 f /\
     forall u d, (d < 2)%nat -> poly2 k (df_poly ref l (of_list (ld_PiNabla l) d) u) (f (2 * d)%nat u) (f (2 * d + 1)%nat u)) /\
  (exists L, df_utilities_DerivativeValues (ld_Dimension l) DF_Pi0km1Der (ld_Nkm1 l) V [V0; V1] (ld_PiNabla l) (ld_Pi0km1Der l) = Ok L /\ gives points L 4 (fun d u => df_poly ref l (of_list (ld_Pi0km1Der l) d) u)).
Proof.
  intros cv rv E cv0 rv0 E0 cv1 rv1 E1. destruct df_open as (RF & l' & OP). pose proof OP as (LF & EI & EB & FF). rewrite (ff_dim _ _ _ _ _ _ _ _ _ FF), (ff_Nm _ _ _ _ _ _ _ _ _ FF). unfold df_utilities_DerivativeValues. pose proof Nm_Nk. split.
  - destruct (PN_dims 0 ltac:(lia)) as (a0 & b0). destruct (PN_dims 1 ltac:(lia)) as (a1 & b1). rewrite PN_list. cbn [for_loop for_from Nat.add idx_ nth_error bind].
    destruct (at_points _ Nk V0 points phx a0 b0 cv0 rv0 E0) as (A0 & EA0 & A0r & A0c & A0v). destruct (at_points _ Nk V1 points phy a0 b0 cv1 rv1 E1) as (A1 & EA1 & A1r & A1c & A1v).
    destruct (at_points _ Nk V0 points phx a1 b1 cv0 rv0 E0) as (A2 & EA2 & A2r & A2c & A2v). destruct (at_points _ Nk V1 points phy a1 b1 cv1 rv1 E1) as (A3 & EA3 & A3r & A3c & A3v).
    rewrite EA0. cbn [bind]. rewrite EA1. cbn [bind]. rewrite EA2. cbn [bind]. rewrite EA3. cbn [bind app].
    exists [A0; A1; A2; A3], (fun d u x y => rsum Nk (fun i => act (of_list (ld_PiNabla l) (d / 2)) u i * (if (d mod 2 =? 0)%nat then phx i x y else phy i x y))).
    split; [reflexivity|]. split.
    + split; auto. intros d Hd. destruct d as [|[|[|[|d]]]]; [| | | |lia]; cbn [of_list nth]; (split; [auto|]); (split; [auto|]); intros u q; rewrite ?A0v, ?A1v, ?A2v, ?A3v; apply rsum_ext; intros; apply Rmult_comm.
    + rewrite <- PN_list. intros u d Hd. pose proof (cpoly v p DP k (fun j => act (of_list (ld_PiNabla l) d) u j)) as PP. fold cx cy h in PP. destruct d as [|[|d]]; [| |lia]; (eapply poly2_ext; [exact PP|..]; [|reflexivity|reflexivity]; intros x y; rewrite PN_eq by lia; reflexivity).
  - destruct (F_dims 0 0 ltac:(lia) ltac:(lia)) as (a0 & b0). destruct (F_dims 0 1 ltac:(lia) ltac:(lia)) as (a1 & b1). destruct (F_dims 1 0 ltac:(lia) ltac:(lia)) as (a2 & b2). destruct (F_dims 1 1 ltac:(lia) ltac:(lia)) as (a3 & b3).
    cbn [Nat.mul Nat.add] in a0, b0, a1, b1, a2, b2, a3, b3. rewrite F_list. cbn [for_loop for_from Nat.add Nat.mul idx_ nth_error bind]. rewrite leftCols_ex by lia. cbn [bind].
    set (W := {| m_rows := m_rows V; m_cols := Nm; m_at := m_at V |}). assert (E' : forall q i, (i < Nm)%nat -> m_at W q i = ph i (m_at points 0 q) (m_at points 1 q)) by (intros; apply E; lia).
    destruct (at_points _ Nm W points ph a0 b0 eq_refl rv E') as (A0 & EA0 & A0r & A0c & A0v). destruct (at_points _ Nm W points ph a1 b1 eq_refl rv E') as (A1 & EA1 & A1r & A1c & A1v).
    destruct (at_points _ Nm W points ph a2 b2 eq_refl rv E') as (A2 & EA2 & A2r & A2c & A2v). destruct (at_points _ Nm W points ph a3 b3 eq_refl rv E') as (A3 & EA3 & A3r & A3c & A3v).
    rewrite EA0. cbn [bind]. rewrite EA1. cbn [bind]. rewrite EA2. cbn [bind]. rewrite EA3. cbn [bind app]. eexists. split; [reflexivity|]. split; auto.
    intros d Hd. destruct d as [|[|[|[|d]]]]; [| | | |lia]; cbn [of_list nth]; (split; [auto|]); (split; [auto|]); intros u q; rewrite ?A0v, ?A1v, ?A2v, ?A3v; rewrite (poly_pol Nm) by auto; apply rsum_ext; intros; apply Rmult_comm.
Qed.

Notation df_values_at := (df_values_at k ref l).
Lemma values_all : df_values_at (q_Points (ld_InternalQuadrature l)) (DF_Values_quadrature l) (DF_DerivativeValues_quadrature l) /\
  forall junk' points, m_rows points = 3%nat -> df_values_at points (fun t => DF_Values junk' ref p l t points) (fun t => DF_DerivativeValues junk' ref p l t points).
Proof.
  destruct df_open as (RF & l' & OP). pose proof OP as (LF & EI & EB & FF). split.
  - destruct (ff_VI _ _ _ _ _ _ _ _ _ FF) as (vr & vc & ve). destruct (ff_VID _ _ _ _ _ _ _ _ _ FF) as (V0 & V1 & EV & r0 & c0 & r1 & c1 & e0 & e1). rewrite (ff_IQ _ _ _ _ _ _ _ _ _ FF).
    destruct (utilities_values _ (q_Points (lv_InternalQuadrature l')) vc vr ve) as (A & B). destruct (utilities_derivatives _ V0 V1 (q_Points (lv_InternalQuadrature l')) vc vr ve c0 r0 e0 c1 r1 e1) as (C & D).
    split; [exact A|]. split; [exact B|]. unfold DF_DerivativeValues_quadrature. rewrite EV. split; [exact C|]. split; [exact D|]. repeat split.
  - intros junk' points HP. destruct (vander_m k _ (df_mono _ _ _ _ _ RF) junk' points (pg_Centroid p) (pg_Diameter p) HP Hh) as (V & EV & r & c & e).
    destruct (der_entries k _ junk' points (pg_Centroid p) (pg_Diameter p) V (df_mono _ _ _ _ _ RF) Hh r c e) as (VD & V0 & V1 & ED & EVD & r0 & c0 & r1 & c1 & e0 & e1). subst VD.
    destruct (utilities_values V points c r e) as (A & B). destruct (utilities_derivatives V V0 V1 points c r e c0 r0 e0 c1 r1 e1) as (C & D).
    unfold df_values_at, DF_DerivativeValues, DF_Values, DF_PolynomialsDerivativeValues, DF_PolynomialsValues. rewrite EV. cbn [bind]. rewrite ED. cbn [bind]. repeat (split; auto).
Qed.

(** ** Pressure *)
Definition pressure_order : nat := match v with Full => (k - 1)%nat | Reduced => 0%nat end.
Lemma pressure_all : forall junk', exists rp lp, DF_Pressure_Create v gt lob k = Ok rp /\ DF_Pressure_CreateLocalSpace junk' rp p = Ok lp /\
  lq_NumBasisFunctions lp = (1 + ld_NumDivergenceInternalBasisFunctions l)%nat /\ lq_InternalQuadrature lp = ld_InternalQuadrature l /\
  (exists V, DF_Pressure_Values_quadrature lp = Ok V /\ m_rows V = m_cols (q_Points (ld_InternalQuadrature l)) /\ m_cols V = lq_NumBasisFunctions lp /\
     forall q i, (i < lq_NumBasisFunctions lp)%nat -> m_at V q i = df_monomial ref l i (m_at (q_Points (ld_InternalQuadrature l)) 0 q) (m_at (q_Points (ld_InternalQuadrature l)) 1 q)) /\
  (forall junk'' points, m_rows points = 3%nat -> exists V, DF_Pressure_Values junk'' rp lp points = Ok V /\ m_rows V = m_cols points /\ m_cols V = lq_NumBasisFunctions lp /\
     forall q i, (i < lq_NumBasisFunctions lp)%nat -> m_at V q i = df_monomial ref l i (m_at points 0 q) (m_at points 1 q)) /\
  m_rows (lq_Hmatrix lp) = lq_NumBasisFunctions lp /\ m_cols (lq_Hmatrix lp) = lq_NumBasisFunctions lp /\
  forall i j, (i < lq_NumBasisFunctions lp)%nat -> (j < lq_NumBasisFunctions lp)%nat -> m_at (lq_Hmatrix lp) i j = df_inside l (fun x y => df_monomial ref l i x y * df_monomial ref l j x y).
Proof.
  intros junk'. destruct df_open as (RF & l' & OP). pose proof OP as (LF & EI & EB & FF). pose proof nd_Nk. pose proof Nm_Nk. rewrite (ff_nd _ _ _ _ _ _ _ _ _ FF), (ff_IQ _ _ _ _ _ _ _ _ _ FF).
  unfold DF_Pressure_Create. fold pressure_order. destruct (C27_monomials_enumerated_once 2 M2 pressure_order class2) as (m & EM & _). rewrite EM. cbn [bind].
  rewrite (DfProofs2.quad_ok gt lob k FR). cbn [bind]. 
  destruct (gp_triangulation _ GP) as (HT & _). pose proof (gr_triangle _ _ _ (fr_rules _ _ _ FR)) as GT.
  destruct (C49_internal_all (gt (2 * k)%nat) (pg_TriangulationVertices p) (fun _ _ => 0) GT HT) as (IQ' & EI' & I1 & _). rewrite EI in EI'. injection EI' as <-.
  pose proof (internal_nonneg _ _ _ GT HT EI (fr_weights _ _ _ FR)) as NNW. destruct I1 as (RW & SZ).
  destruct (vander_m pressure_order m EM junk' (q_Points (lv_InternalQuadrature l')) (pg_Centroid p) (pg_Diameter p) RW Hh) as (V & EV & V1 & V2 & V3).
  destruct (gram_ok (q_Weights (lv_InternalQuadrature l')) V NNW ltac:(congruence)) as (G & EG & g1 & g2 & g3).
  do 2 eexists. split; [reflexivity|]. unfold DF_Pressure_CreateLocalSpace. cbn [rp_Quadrature dq_base vq_ReferenceTriangleQuadrature rp_Monomials rp_Dimension rp_Order rp_NumDofs2D]. rewrite EI. cbn [bind]. rewrite EV. cbn [bind]. rewrite (vsqrt_ok _ NNW). cbn [bind]. rewrite EG. cbn [bind]. split; [reflexivity|].
  cbn [lq_NumBasisFunctions lq_InternalQuadrature lq_Hmatrix lq_Centroid lq_Diameter DF_Pressure_Values_quadrature lq_VanderInternal DF_Pressure_Values rp_Monomials]. pose proof (num2_pos (k - 1)).
  assert (NN : match v with Full => (k * (k + 1) / 2)%nat | Reduced => 1%nat end = (1 + nd)%nat) by (unfold ndiv_of; rewrite half_m by lia; destruct v; lia). rewrite !NN.
  assert (NP : num2 pressure_order = (1 + nd)%nat) by (unfold pressure_order, ndiv_of; destruct v; [lia|reflexivity]). rewrite NP in *.
  split; auto. split; auto. split; [|split].
  - exists V. split; auto. split; auto. split; [congruence|]. intros q i Hi. rewrite V3 by auto. rewrite mono_ph by lia. reflexivity.
  - intros junk'' points HP. destruct (vander_m pressure_order m EM junk'' points (pg_Centroid p) (pg_Diameter p) HP Hh) as (W & EW & W1 & W2 & W3). exists W. rewrite NP in W2, W3. split; auto. split; auto. split; [congruence|].
    intros q i Hi. rewrite W3 by auto. rewrite mono_ph by lia. reflexivity.
  - split; [congruence|]. split; [congruence|]. intros i j Hi Hj. rewrite g3, (inside_I l') by auto. apply rsum_ext. intros q Hq. f_equal. rewrite !V3 by auto. rewrite !mono_ph by lia. reflexivity.
Qed.
End All.
