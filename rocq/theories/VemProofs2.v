(** The matrices of the virtual element in terms of scaled monomials. *)
From Coq Require Import List Arith Bool Lia ZArith Reals Lra.
From Verif Require Import Base RSum MatrixModel MonomialsModel MonomialsSpec MonomialsProofs MonomialsProofs2 MonomialsProofs3 MonomialsProofs4 MonomialsProps
  LagrangeModel GBasisProofs VemQuadModel VemQuadSpec VemQuadProofs VemQuadProofs2 GreenSpec GreenProofs PolyProofs VemModel VemSpec VemProofs.
Import ListNotations.
Local Open Scope R_scope.

(** ** Tables of monomials *)
Section Tables.
Variables (k : nat) (m : Monomials_Data).
Hypothesis E : Compute M2 k = Ok m.

Lemma num_m : NumMonomials m = num2 k.
Proof. apply (num_data M2 idx2 good_2D k m E). Qed.
Lemma expo_m i : (i < num2 k)%nat -> expo (Exponents m) i = [Z.of_nat (ea i); Z.of_nat (eb i)].
Proof. intros H. rewrite (expo_enum M2 idx2 good_2D k m E i H). apply enum_ab. Qed.
Lemma mono_phi c h i x : (i < num2 k)%nat -> mono (expo (Exponents m) i) (scaled c h x) = phi (c 0%nat) (c 1%nat) h i (x 0%nat) (x 1%nat).
Proof. intros H. rewrite expo_m by auto. rewrite mono_2, !Nat2Z.id. reflexivity. Qed.

Lemma vander_m junk points c h : m_rows points = 3%nat -> h <> 0 ->
  exists V, Vander 2 junk m points c h = Ok V /\ m_rows V = m_cols points /\ m_cols V = num2 k /\
    forall q i, (i < num2 k)%nat -> m_at V q i = phi (c 0%nat) (c 1%nat) h i (m_at points 0 q) (m_at points 1 q).
Proof.
  intros Hr Hh. destruct (C31_vander_evaluates 2 M2 k m junk points c h class2 E Hr Hh) as (V & EV & R & C & A & _). exists V. rewrite num_m in *. repeat (split; auto).
  intros q i Hi. rewrite A by auto. apply (mono_phi c h i (pt points q) Hi).
Qed.

Lemma vander_der_m junk junk' points c h V : m_rows points = 3%nat -> h <> 0 -> Vander 2 junk m points c h = Ok V ->
  exists VD V0 V1, VanderDerivatives M2 junk' m V h = Ok VD /\ VD = [V0; V1] /\
    m_rows V0 = m_cols points /\ m_cols V0 = num2 k /\ m_rows V1 = m_cols points /\ m_cols V1 = num2 k /\
    (forall q i, (i < num2 k)%nat -> m_at V0 q i = phix (c 0%nat) (c 1%nat) h i (m_at points 0 q) (m_at points 1 q)) /\
    (forall q i, (i < num2 k)%nat -> m_at V1 q i = phiy (c 0%nat) (c 1%nat) h i (m_at points 0 q) (m_at points 1 q)).
Proof.
  intros Hr Hh EV. destruct (C32_vander_derivatives 2 M2 k m junk junk' points c h V class2 E Hr Hh EV) as (VD & EVD & L & A).
  destruct VD as [|V0 [|V1 [|]]]; try discriminate. exists [V0; V1], V0, V1. split; auto. split; auto.
  destruct (A 0%nat ltac:(lia)) as (A0 & N0 & R0 & C0 & P0). destruct (A 1%nat ltac:(lia)) as (A1 & N1 & R1 & C1 & P1). injection N0 as <-. injection N1 as <-.
  rewrite num_m in *. do 4 (split; auto). split; intros q i Hi.
  - specialize (P0 q i Hi). unfold is_partial in P0. apply (uniqueness_limite (fun t => phi (c 0%nat) (c 1%nat) h i t (m_at points 1 q)) (m_at points 0 q)).
    + eapply derivable_pt_lim_ext; [|exact P0]. intros t. cbv beta. rewrite mono_phi by auto. reflexivity.
    + apply (poly2_partials _ _ _ _ _ _ (phi_poly2 (c 0%nat) (c 1%nat) h Hh i)).
  - specialize (P1 q i Hi). unfold is_partial in P1. apply (uniqueness_limite (fun t => phi (c 0%nat) (c 1%nat) h i (m_at points 0 q) t) (m_at points 1 q)).
    + eapply derivable_pt_lim_ext; [|exact P1]. intros t. cbv beta. rewrite mono_phi by auto. reflexivity.
    + apply (poly2_partials _ _ _ _ _ _ (phi_poly2 (c 0%nat) (c 1%nat) h Hh i)).
Qed.

(** entries of the derivative matrices *)
Definition d0 (i l : nat) : R := if ((0 <? ea i) && (l =? ix (ea i - 1) (eb i)))%nat then INR (ea i) else 0.
Definition d1 (i l : nat) : R := if ((0 <? eb i) && (l =? ix (ea i) (eb i - 1)))%nat then INR (eb i) else 0.
Definition dd (i l : nat) : R := (if ((1 <? ea i) && (l =? ix (ea i - 2) (eb i)))%nat then INR (ea i) * INR (ea i - 1) else 0) +
  (if ((1 <? eb i) && (l =? ix (ea i) (eb i - 2)))%nat then INR (eb i) * INR (eb i - 1) else 0).

Lemma zlt n a : (Z.of_nat n <? Z.of_nat a)%Z = (n <? a)%nat.
Proof. destruct (Z.ltb_spec (Z.of_nat n) (Z.of_nat a)), (Nat.ltb_spec n a); auto; lia. Qed.

Lemma der_m : exists D0 D1, DerivativeMatrices m = [D0; D1] /\ m_rows D0 = num2 k /\ m_cols D0 = num2 k /\ m_rows D1 = num2 k /\ m_cols D1 = num2 k /\
  (forall i l, (i < num2 k)%nat -> m_at D0 i l = d0 i l) /\ (forall i l, (i < num2 k)%nat -> m_at D1 i l = d1 i l) /\
  m_rows (Laplacian m) = num2 k /\ m_cols (Laplacian m) = num2 k /\ (forall i l, (i < num2 k)%nat -> m_at (Laplacian m) i l = dd i l).
Proof.
  pose proof (the_data M2 idx2 good_2D k m E) as U. destruct (u_D _ _ _ _ _ U) as (L & A). destruct (u_L _ _ _ _ _ U) as (L1 & L2 & L3).
  change (mc_dim M2) with 2%nat in *. destruct (DerivativeMatrices m) as [|D0 [|D1 [|]]] eqn:ED; try discriminate. exists D0, D1.
  destruct (A 0%nat ltac:(lia)) as (A0 & N0 & R0 & C0 & P0). destruct (A 1%nat ltac:(lia)) as (A1 & N1 & R1 & C1 & P1). injection N0 as <-. injection N1 as <-.
  fold (num2 k) in *. split; auto. do 4 (split; auto).
  assert (V0 : forall i l, dval idx2 (enum M2 i) 0 l = d0 i l).
  { intros i l. unfold dval, d0. rewrite enum_ab. cbn [nth]. change 0%Z with (Z.of_nat 0) at 1. rewrite zlt. destruct (Nat.ltb_spec 0 (ea i)); cbn [andb]; auto.
    unfold lower, ix. cbn [replace nth]. replace (Z.of_nat (ea i) - 1)%Z with (Z.of_nat (ea i - 1)) by lia. now rewrite <- INR_IZR_INZ. }
  assert (V1 : forall i l, dval idx2 (enum M2 i) 1 l = d1 i l).
  { intros i l. unfold dval, d1. rewrite enum_ab. cbn [nth]. change 0%Z with (Z.of_nat 0) at 1. rewrite zlt. destruct (Nat.ltb_spec 0 (eb i)); cbn [andb]; auto.
    unfold lower, ix. cbn [replace nth]. replace (Z.of_nat (eb i) - 1)%Z with (Z.of_nat (eb i - 1)) by lia. now rewrite <- INR_IZR_INZ. }
  split; [intros i l Hi; rewrite P0, (ltb_true i) by auto; apply V0|]. split; [intros i l Hi; rewrite P1, (ltb_true i) by auto; apply V1|].
  do 2 (split; auto). intros i l Hi. rewrite L3, (ltb_true i) by auto. cbn [rsum]. rewrite Rplus_0_l. unfold dd. f_equal.
  - unfold lval. rewrite enum_ab. cbn [nth]. change 1%Z with (Z.of_nat 1) at 1. rewrite zlt. destruct (Nat.ltb_spec 1 (ea i)); cbn [andb]; auto.
    unfold lower, ix. cbn [replace nth]. replace (Z.of_nat (ea i) - 2)%Z with (Z.of_nat (ea i - 2)) by lia. rewrite mult_IZR, !INR_IZR_INZ. repeat f_equal. now replace (Z.of_nat (ea i) - 1)%Z with (Z.of_nat (ea i - 1)) by lia.
  - unfold lval. rewrite enum_ab. cbn [nth]. change 1%Z with (Z.of_nat 1) at 1. rewrite zlt. destruct (Nat.ltb_spec 1 (eb i)); cbn [andb]; auto.
    unfold lower, ix. cbn [replace nth]. replace (Z.of_nat (eb i) - 2)%Z with (Z.of_nat (eb i - 2)) by lia. rewrite mult_IZR, !INR_IZR_INZ. repeat f_equal. now replace (Z.of_nat (eb i) - 1)%Z with (Z.of_nat (eb i - 1)) by lia.
Qed.
End Tables.

(** sums with the derivative matrices *)
Section Derivatives.
Variables (cx cy h : R).
Hypothesis Hh : h <> 0.
(** n: any number of columns that contains the index *)
Lemma sum_d0 n i (g : nat -> R) : ((0 < ea i)%nat -> (ix (ea i - 1) (eb i) < n)%nat) ->
  rsum n (fun l => d0 i l * g l) = if (0 <? ea i)%nat then INR (ea i) * g (ix (ea i - 1) (eb i)) else 0.
Proof. intros H. unfold d0. apply (rsum_pick n (0 <? ea i)%nat). intros T. apply Nat.ltb_lt in T. auto. Qed.
Lemma sum_d1 n i (g : nat -> R) : ((0 < eb i)%nat -> (ix (ea i) (eb i - 1) < n)%nat) ->
  rsum n (fun l => d1 i l * g l) = if (0 <? eb i)%nat then INR (eb i) * g (ix (ea i) (eb i - 1)) else 0.
Proof. intros H. unfold d1. apply (rsum_pick n (0 <? eb i)%nat). intros T. apply Nat.ltb_lt in T. auto. Qed.
Lemma sum_dd n i (g : nat -> R) : ((1 < ea i)%nat -> (ix (ea i - 2) (eb i) < n)%nat) -> ((1 < eb i)%nat -> (ix (ea i) (eb i - 2) < n)%nat) ->
  rsum n (fun l => dd i l * g l) = (if (1 <? ea i)%nat then INR (ea i) * INR (ea i - 1) * g (ix (ea i - 2) (eb i)) else 0) +
    (if (1 <? eb i)%nat then INR (eb i) * INR (eb i - 1) * g (ix (ea i) (eb i - 2)) else 0).
Proof.
  intros H1 H2. unfold dd. rewrite (rsum_ext n _ (fun l => (if ((1 <? ea i) && (l =? ix (ea i - 2) (eb i)))%nat then INR (ea i) * INR (ea i - 1) else 0) * g l +
    (if ((1 <? eb i) && (l =? ix (ea i) (eb i - 2)))%nat then INR (eb i) * INR (eb i - 1) else 0) * g l)) by (intros; ring).
  rewrite rsum_plus. f_equal; apply rsum_pick; intros T; apply Nat.ltb_lt in T; auto.
Qed.

Lemma phix_sum n i x y : ((0 < ea i)%nat -> (ix (ea i - 1) (eb i) < n)%nat) -> rsum n (fun l => d0 i l * phi cx cy h l x y) / h = phix cx cy h i x y.
Proof.
  intros H. rewrite sum_d0 by auto. rewrite phix_eq. destruct (Nat.ltb_spec 0 (ea i)), (Nat.eqb_spec (ea i) 0); try lia; field; auto.
Qed.
Lemma phiy_sum n i x y : ((0 < eb i)%nat -> (ix (ea i) (eb i - 1) < n)%nat) -> rsum n (fun l => d1 i l * phi cx cy h l x y) / h = phiy cx cy h i x y.
Proof.
  intros H. rewrite sum_d1 by auto. rewrite phiy_eq. destruct (Nat.ltb_spec 0 (eb i)), (Nat.eqb_spec (eb i) 0); try lia; field; auto.
Qed.
Lemma lap_sum n i x y : ((1 < ea i)%nat -> (ix (ea i - 2) (eb i) < n)%nat) -> ((1 < eb i)%nat -> (ix (ea i) (eb i - 2) < n)%nat) ->
  rsum n (fun l => dd i l * phi cx cy h l x y) / (h * h) = phixx cx cy h i x y + phiyy cx cy h i x y.
Proof.
  intros H1 H2. rewrite sum_dd by auto. unfold phixx, phiyy, phi, mn. rewrite !ea_ix, !eb_ix.
  assert (Z0 : forall n, ~ (1 < n)%nat -> INR n * INR (n - 1) = 0).
  { intros z Hz. destruct z as [|[|z]]; [cbn; ring|cbn; ring|lia]. }
  destruct (Nat.ltb_spec 1 (ea i)) as [A|A], (Nat.ltb_spec 1 (eb i)) as [B|B]; rewrite ?(Z0 (ea i)), ?(Z0 (eb i)) by lia; field; auto.
Qed.
End Derivatives.

(** ** Reference element *)
Section Reference.
Variables (gt lob : nat -> QuadratureData) (k : nat).
Hypothesis Hk : (1 <= k)%nat.
Hypothesis GR : good_rules gt lob k.

Lemma num2_k : (2 * num2 k = (k + 1) * (k + 2))%nat.
Proof. apply (proj1 (proj2 (class_num 2 M2 k class2))). reflexivity. Qed.
Lemma nkm1 : (num2 k - k - 1 = num2 (k - 1))%nat.
Proof.
  pose proof (proj1 (proj2 (class_num 2 M2 k class2)) eq_refl). pose proof (proj1 (proj2 (class_num 2 M2 (k - 1) class2)) eq_refl). unfold num2.
  replace (k - 1 + 1)%nat with k in * by lia. replace (k - 1 + 2)%nat with (k + 1)%nat in * by lia. nia.
Qed.
Definition nint : nat := (k * (k - 1) / 2)%nat.
Lemma nint_1 : k = 1%nat -> nint = 0%nat.
Proof. intros e. unfold nint. rewrite e. reflexivity. Qed.
Lemma nint_2 : (2 <= k)%nat -> nint = num2 (k - 2).
Proof. intros H. unfold num2. rewrite <- (half_num 0). unfold nint. replace (k - 2 + 1)%nat with (k - 1)%nat by lia. replace (k - 2 + 2)%nat with k by lia. rewrite (Nat.mul_comm k). reflexivity. Qed.
Lemma nint_lt i : (i < nint)%nat <-> (ea i + eb i + 2 <= k)%nat.
Proof.
  destruct (Nat.eq_dec k 1) as [e|e].
  - rewrite nint_1 by auto. lia.
  - rewrite nint_2 by lia. rewrite ab_lt. lia.
Qed.
Lemma nint_le : (nint <= num2 (k - 1))%nat.
Proof. destruct (Nat.eq_dec k 1) as [e|e]; [rewrite nint_1 by auto; lia|]. rewrite nint_2 by lia. apply num2_mono. lia. Qed.

Record ref_facts (ref : VEM_2D_Reference) : Prop := {
  rf_dim : rv_Dimension ref = 2%nat;
  rf_order : rv_Order ref = k;
  rf_n1 : rv_NumDofs1D ref = (k - 1)%nat;
  rf_n2 : rv_NumDofs2D ref = nint;
  rf_mono : Compute M2 k = Ok (rv_Monomials ref);
  rf_tri : vq_ReferenceTriangleQuadrature (rv_Quadrature ref) = gt (2 * k)%nat;
  rf_seg : segment_rule (vq_ReferenceEdgeDOFsInternalPoints (rv_Quadrature ref)) (vq_ReferenceEdgeDOFsInternalWeights (rv_Quadrature ref));
  rf_segn : m_cols (vq_ReferenceEdgeDOFsInternalPoints (rv_Quadrature ref)) = (k - 1)%nat;
  rf_exact : exact_segment (2 * k - 1) (vq_ReferenceEdgeDOFsExtremaWeights (rv_Quadrature ref)) (vq_ReferenceEdgeDOFsInternalPoints (rv_Quadrature ref)) (vq_ReferenceEdgeDOFsInternalWeights (rv_Quadrature ref));
  rf_sym : fst (vq_ReferenceEdgeDOFsExtremaWeights (rv_Quadrature ref)) = snd (vq_ReferenceEdgeDOFsExtremaWeights (rv_Quadrature ref)) }.

Lemma reference_ok : exists ref, VEM_PCC_2D_Create gt lob k = Ok ref /\ ref_facts ref.
Proof.
  unfold VEM_PCC_2D_Create. destruct (C27_monomials_enumerated_once 2 M2 k class2) as (m & E & _). rewrite E. cbn [bind].
  unfold Compute_PCC_2D. destruct (Nat.eqb_spec k 0); [lia|]. destruct GR as [T TE (L1 & L2) LP F La We LE].
  destruct (Nat.eqb_spec k 1) as [K|K].
  - cbn [bind]. eexists. split; [reflexivity|]. constructor; cbn [rv_Dimension rv_Order rv_NumDofs1D rv_NumDofs2D rv_Monomials rv_Quadrature vq_ReferenceTriangleQuadrature vq_ReferenceEdgeDOFsInternalPoints vq_ReferenceEdgeDOFsInternalWeights vq_ReferenceEdgeDOFsExtremaWeights]; auto.
    + split; cbn; lia.
    + cbn. lia.
    + intros a Ha. assert (a = 0 \/ a = 1)%nat as [-> | ->] by lia; unfold apply_rule; cbn; field.
  - rewrite LP. rewrite (ltb_false (k + 1) 2) by lia. rewrite block_ok by lia. cbn [bind]. unfold vec_segment, vec_get. rewrite L2, LP.
    rewrite (leb_true (1 + (k + 1 - 2))), (ltb_true 0 (k + 1)) by lia. cbn [bind]. destruct (Nat.eqb_spec (k + 1) 0); [lia|]. rewrite (ltb_true (k + 1 - 1)) by lia. cbn [bind].
    eexists. split; [reflexivity|]. constructor; cbn [rv_Dimension rv_Order rv_NumDofs1D rv_NumDofs2D rv_Monomials rv_Quadrature vq_ReferenceTriangleQuadrature vq_ReferenceEdgeDOFsInternalPoints vq_ReferenceEdgeDOFsInternalWeights vq_ReferenceEdgeDOFsExtremaWeights m_cols fst snd]; auto.
    + split; cbn; lia.
    + lia.
    + intros a Ha. rewrite <- (LE a Ha). unfold apply_rule. cbn [v_size v_at m_at fst snd]. rewrite L2, LP. replace (k + 1)%nat with (S ((k + 1 - 2) + 1)) at 3 by lia.
      rewrite rsum_S_l, rsum_add. cbn [rsum]. rewrite F. replace (k + 1 - 1)%nat with k by lia. replace (S (k + 1 - 2 + 0)) with k by lia. rewrite La. cbn [Nat.add]. ring.
    + replace (k + 1 - 1)%nat with k by lia. auto.
Qed.
End Reference.

(** ** Solvers *)
Lemma pd_ext A B : positive_definite A -> m_rows A = m_rows B -> m_cols A = m_cols B -> (forall i j, m_at A i j = m_at B i j) -> positive_definite B.
Proof.
  intros (P1 & P2 & P3) R C Ee. split; [congruence|]. rewrite <- R, <- C. split.
  - intros i j Hi Hj. rewrite <- !Ee. auto.
  - intros x Hx. erewrite rsum_ext; [apply (P3 x Hx)|]. intros i Hi. apply rsum_ext. intros j Hj. now rewrite Ee.
Qed.
Lemma exact_use llt A B H X : exact_for positive_definite llt -> positive_definite H -> m_rows A = m_rows H -> m_cols A = m_cols H -> (forall i j, m_at A i j = m_at H i j) -> m_rows A = m_rows B ->
  (forall i j, m_at X i j = llt A B i j) -> forall i j, (i < m_rows H)%nat -> (j < m_cols B)%nat -> rsum (m_cols H) (fun l => m_at H i l * m_at X l j) = m_at B i j.
Proof.
  intros Ex PD R C Ee RB EX i j Hi Hj. rewrite <- (Ex A B) with (i := i) (j := j); [|rewrite R, C; apply PD|auto| |lia|auto].
  - cbn [m_at]. rewrite C. apply rsum_ext. intros q Hq. now rewrite EX, Ee.
  - apply (pd_ext H); auto.
Qed.

(** ** Local space *)
Section Local.
Variables (gt lob : nat -> QuadratureData) (k : nat) (ref : VEM_2D_Reference) (p : Polygon).
Hypothesis Hk : (1 <= k)%nat.
Hypothesis GR : good_rules gt lob k.
Hypothesis RF : ref_facts gt k ref.
Hypothesis GP : good_polygon p.
Variables (junk : nat -> nat -> R) (lu llt : Solver).
Let cx := pg_Centroid p 0%nat.
Let cy := pg_Centroid p 1%nat.
Let h := pg_Diameter p.
Let Nk := num2 k.
Let Nm := num2 (k - 1).
Let ni := nint k.
Let nv := m_cols (pg_Vertices p).
Let nb := (nv + (k - 1) * nv)%nat.
Let N := (nb + ni)%nat.

(** the three functionals *)
Definition fI (l : VEM_2D_Local) (f : R -> R -> R) : R :=
  apply_rule (q_Weights (lv_InternalQuadrature l)) (fun q => f (m_at (q_Points (lv_InternalQuadrature l)) 0 q) (m_at (q_Points (lv_InternalQuadrature l)) 1 q)).
Definition fW (l : VEM_2D_Local) (f : R -> R -> R) : R :=
  apply_rule (q_Weights (eq_Quadrature (lv_BoundaryQuadrature l))) (fun q => f (m_at (boundary_points l) 0 q) (m_at (boundary_points l) 1 q)).
Definition fN (l : VEM_2D_Local) (d : nat) (f : R -> R -> R) : R :=
  apply_rule (normal_weights (lv_BoundaryQuadrature l) d) (fun q => f (m_at (boundary_points l) 0 q) (m_at (boundary_points l) 1 q)).

Record local_facts (l : VEM_2D_Local) : Prop := {
  lf_dim : lv_Dimension l = 2%nat; lf_order : lv_Order l = k;
  lf_nb : lv_NumBoundaryBasisFunctions l = nb; lf_ni : lv_NumInternalBasisFunctions l = ni; lf_N : lv_NumBasisFunctions l = N; lf_Nk : lv_NumProjectorBasisFunctions l = Nk;
  lf_Nkm1 : lv_Nkm1 l = Nm; lf_measure : lv_Measure l = pg_Measure p; lf_diam : lv_Diameter l = h; lf_centroid : lv_Centroid l = pg_Centroid p;
  lf_IQ : rule (lv_InternalQuadrature l);
  lf_BQ : rule (eq_Quadrature (lv_BoundaryQuadrature l));
  lf_BQn : m_cols (boundary_points l) = nb;
  lf_wN : forall d, (d < 2)%nat -> v_size (normal_weights (lv_BoundaryQuadrature l) d) = nb;
  lf_int : forall f, fI l f = lsum (fun T => 2 * area T * L (gt (2 * k)%nat) (fun x y => f (in_triangle T x y 0) (in_triangle T x y 1))) (pg_TriangulationVertices p);
  lf_area : fI l (fun _ _ => 1) = shoelace (pg_Vertices p);
  lf_perimeter : fW l (fun _ _ => 1) = rsum nv (fun i => Rabs (v_at (pg_EdgesLength p) i));
  lf_green : forall F Fx Fy, poly2 (2 * k - 1) F Fx Fy -> fI l Fx = fN l 0 F /\ fI l Fy = fN l 1 F;
  lf_VI : m_rows (lv_VanderInternal l) = m_cols (q_Points (lv_InternalQuadrature l)) /\ m_cols (lv_VanderInternal l) = Nk /\
    (forall q i, (i < Nk)%nat -> m_at (lv_VanderInternal l) q i = phi cx cy h i (m_at (q_Points (lv_InternalQuadrature l)) 0 q) (m_at (q_Points (lv_InternalQuadrature l)) 1 q));
  lf_VID : exists V0 V1, lv_VanderInternalDerivatives l = [V0; V1] /\
    m_rows V0 = m_cols (q_Points (lv_InternalQuadrature l)) /\ m_cols V0 = Nk /\ m_rows V1 = m_cols (q_Points (lv_InternalQuadrature l)) /\ m_cols V1 = Nk /\
    (forall q i, (i < Nk)%nat -> m_at V0 q i = phix cx cy h i (m_at (q_Points (lv_InternalQuadrature l)) 0 q) (m_at (q_Points (lv_InternalQuadrature l)) 1 q)) /\
    (forall q i, (i < Nk)%nat -> m_at V1 q i = phiy cx cy h i (m_at (q_Points (lv_InternalQuadrature l)) 0 q) (m_at (q_Points (lv_InternalQuadrature l)) 1 q));
  lf_H : m_rows (lv_Hmatrix l) = Nk /\ m_cols (lv_Hmatrix l) = Nk /\
    forall i j, (i < Nk)%nat -> (j < Nk)%nat -> m_at (lv_Hmatrix l) i j = fI l (fun x y => phi cx cy h i x y * phi cx cy h j x y);
  lf_G : m_rows (lv_Gmatrix l) = Nk /\ m_cols (lv_Gmatrix l) = Nk /\
    (forall j, (j < Nk)%nat -> m_at (lv_Gmatrix l) 0 j = if (k =? 1)%nat then fW l (phi cx cy h j) else fI l (phi cx cy h j)) /\
    (forall i j, (0 < i < Nk)%nat -> (j < Nk)%nat -> m_at (lv_Gmatrix l) i j = fI l (fun x y => phix cx cy h i x y * phix cx cy h j x y) + fI l (fun x y => phiy cx cy h i x y * phiy cx cy h j x y));
  lf_B : m_rows (lv_Bmatrix l) = Nk /\ m_cols (lv_Bmatrix l) = N /\
    (forall j, (j < nb)%nat -> m_at (lv_Bmatrix l) 0 j = if (k =? 1)%nat then v_at (q_Weights (eq_Quadrature (lv_BoundaryQuadrature l))) j else 0) /\
    (forall i j, (0 < i < Nk)%nat -> (j < nb)%nat -> m_at (lv_Bmatrix l) i j =
      phix cx cy h i (m_at (boundary_points l) 0 j) (m_at (boundary_points l) 1 j) * v_at (normal_weights (lv_BoundaryQuadrature l) 0) j +
      phiy cx cy h i (m_at (boundary_points l) 0 j) (m_at (boundary_points l) 1 j) * v_at (normal_weights (lv_BoundaryQuadrature l) 1) j) /\
    (forall i c, (i < Nk)%nat -> (c < ni)%nat -> m_at (lv_Bmatrix l) i (nb + c) = if ((i =? 0) && (c =? 0))%nat then pg_Measure p else - pg_Measure p / (h * h) * dd i c);
  lf_Pi : m_rows (lv_PiNabla l) = Nk /\ m_cols (lv_PiNabla l) = N /\ (forall i j, m_at (lv_PiNabla l) i j = lu (lv_Gmatrix l) (lv_Bmatrix l) i j);
  lf_C : m_rows (lv_Cmatrix l) = Nk /\ m_cols (lv_Cmatrix l) = N /\
    (forall i j, (i < ni)%nat -> (j < N)%nat -> m_at (lv_Cmatrix l) i j = if (j =? nb + i)%nat then pg_Measure p else 0) /\
    (forall i j, (ni <= i < Nk)%nat -> (j < N)%nat -> m_at (lv_Cmatrix l) i j = rsum Nk (fun c => m_at (lv_Hmatrix l) i c * m_at (lv_PiNabla l) c j));
  lf_P0 : m_rows (lv_Pi0km1 l) = Nm /\ m_cols (lv_Pi0km1 l) = N /\ m_rows (lv_Pi0k l) = Nk /\ m_cols (lv_Pi0k l) = N /\
    (exact_for positive_definite llt -> positive_definite (corner (lv_Hmatrix l) Nm) -> solves (corner (lv_Hmatrix l) Nm) (lv_Pi0km1 l) (top (lv_Cmatrix l) Nm)) /\
    (exact_for positive_definite llt -> positive_definite (lv_Hmatrix l) -> solves (lv_Hmatrix l) (lv_Pi0k l) (lv_Cmatrix l));
  lf_E : exists E0 E1, lv_Ematrix l = [E0; E1] /\ m_rows E0 = Nm /\ m_cols E0 = N /\ m_rows E1 = Nm /\ m_cols E1 = N /\
    (forall i j, (i < Nm)%nat -> (j < nb)%nat -> m_at E0 i j = phi cx cy h i (m_at (boundary_points l) 0 j) (m_at (boundary_points l) 1 j) * v_at (normal_weights (lv_BoundaryQuadrature l) 0) j) /\
    (forall i c, (i < Nm)%nat -> (c < ni)%nat -> m_at E0 i (nb + c) = - (pg_Measure p / h) * d0 i c) /\
    (forall i j, (i < Nm)%nat -> (j < nb)%nat -> m_at E1 i j = phi cx cy h i (m_at (boundary_points l) 0 j) (m_at (boundary_points l) 1 j) * v_at (normal_weights (lv_BoundaryQuadrature l) 1) j) /\
    (forall i c, (i < Nm)%nat -> (c < ni)%nat -> m_at E1 i (nb + c) = - (pg_Measure p / h) * d1 i c);
  lf_PD : exists P0 P1, lv_Pi0km1Der l = [P0; P1] /\ m_rows P0 = Nm /\ m_cols P0 = N /\ m_rows P1 = Nm /\ m_cols P1 = N /\
    (exact_for positive_definite llt -> positive_definite (corner (lv_Hmatrix l) Nm) -> solves (corner (lv_Hmatrix l) Nm) P0 (nth 0 (lv_Ematrix l) (mzero 0 0))) /\
    (exact_for positive_definite llt -> positive_definite (corner (lv_Hmatrix l) Nm) -> solves (corner (lv_Hmatrix l) Nm) P1 (nth 1 (lv_Ematrix l) (mzero 0 0)));
  lf_D : m_rows (lv_Dmatrix l) = N /\ m_cols (lv_Dmatrix l) = Nk /\
    (forall i j, (i < nb)%nat -> (j < Nk)%nat -> m_at (lv_Dmatrix l) i j = phi cx cy h j (m_at (boundary_points l) 0 i) (m_at (boundary_points l) 1 i)) /\
    (forall c j, (c < ni)%nat -> (j < Nk)%nat -> m_at (lv_Dmatrix l) (nb + c) j = / pg_Measure p * m_at (lv_Hmatrix l) c j) }.

Lemma phix_0 i x y : i = 0%nat -> phix cx cy h i x y = 0 /\ phiy cx cy h i x y = 0.
Proof. intros ->. unfold phix, phiy. change (ea 0) with 0%nat. change (eb 0) with 0%nat. cbn [INR]. split; unfold Rdiv; ring. Qed.

Lemma local_ok : exists l, VEM_PCC_2D_CreateLocalSpace junk lu llt ref p = Ok l /\ local_facts l.
Proof.
  destruct RF as [r1 r2 r3 r4 rm rt rs rsn re rsy]. destruct GP as [pe pt_ pn ptr pa pm pd].
  unfold VEM_PCC_2D_CreateLocalSpace. rewrite rt, r2, r3, r4.
  pose proof (gr_triangle _ _ _ GR) as HR. pose proof (gr_triangle_exact _ _ _ GR) as HE.
  set (IP := vq_ReferenceEdgeDOFsInternalPoints (rv_Quadrature ref)) in *. set (IW := vq_ReferenceEdgeDOFsInternalWeights (rv_Quadrature ref)) in *. set (ext := vq_ReferenceEdgeDOFsExtremaWeights (rv_Quadrature ref)) in *.
  assert (HE' : exact_triangle (2 * k - 1 - 1) (gt (2 * k)%nat)) by (intros a b Hab; apply HE; lia).
  destruct (C68_lobatto_all (2 * k - 1) junk ext IP IW (gt (2 * k)%nat) (pg_TriangulationVertices p) (pg_Vertices p) (pg_EdgesLength p) (pg_EdgesDirection p) (pg_EdgesTangent p) (pg_EdgesNormal p)
    rs re rsy HR HE' pe pt_ pn ptr) as (IQ & BQ & EI & EB & GREEN).
  destruct (lobatto_full junk IP IW ext (pg_Vertices p) (pg_EdgesLength p) (pg_EdgesDirection p) (pg_EdgesTangent p) (pg_EdgesNormal p) rs pe pt_) as (BQ' & EB' & B1 & B2 & B3 & B4 & _).
  rewrite EB in EB'. injection EB' as <-. rewrite rsn in B2, B4.
  destruct (C49_internal_all (gt (2 * k)%nat) (pg_TriangulationVertices p) (fun _ _ => 0) HR (proj1 ptr)) as (IQ' & EI' & I1 & _). rewrite EI in EI'. injection EI' as <-.
  rewrite EI. cbn [bind]. rewrite EB. cbn [bind]. fold nv.
  assert (NM : NumMonomials (rv_Monomials ref) = Nk) by (apply (num_m k); auto). rewrite NM.
  assert (NKM : (Nk - k - 1)%nat = Nm) by (apply nkm1; auto). rewrite NKM. fold ni. fold nb. fold N.
  destruct (vander_m k _ rm junk (q_Points IQ) (pg_Centroid p) h (proj1 I1) pd) as (VI & EVI & V1 & V2 & V3). fold h. rewrite EVI. cbn [bind].
  destruct (vander_der_m k _ rm junk junk (q_Points IQ) (pg_Centroid p) h VI (proj1 I1) pd EVI) as (VID & VID0 & VID1 & EVID & EL & D1 & D2 & D3 & D4 & D5 & D6). rewrite EVID. cbn [bind].
  destruct (vander_m k _ rm junk (q_Points (eq_Quadrature BQ)) (pg_Centroid p) h (proj1 B1) pd) as (VB & EVB & W1 & W2 & W3). rewrite EVB. cbn [bind].
  destruct (vander_der_m k _ rm junk junk (q_Points (eq_Quadrature BQ)) (pg_Centroid p) h VB (proj1 B1) pd EVB) as (VBD & VBD0 & VBD1 & EVBD & EL' & F1 & F2 & F3 & F4 & F5 & F6). rewrite EVBD. cbn [bind].
  fold nv in B2, B4. fold nb in B2, B4. rewrite B2 in *. fold cx cy in V3, D5, D6, W3, F5, F6. fold Nk in V2, D2, D4, W2, F2, F4, V3, D5, D6, W3, F5, F6.
  destruct (der_m k _ rm) as (De0 & De1 & EDe & e1 & e2 & e3 & e4 & e5 & e6 & e7 & e8 & e9). fold Nk in e1, e2, e3, e4, e5, e6, e7, e8, e9.
  assert (HniNm : (ni <= Nm)%nat) by (apply nint_le; auto).
  assert (HNm : (Nm <= Nk)%nat) by (apply num2_mono; lia).
  assert (Hpos : (0 < Nk)%nat) by apply num2_pos.
  assert (HO : (k = 1)%nat /\ ni = 0%nat \/ (1 < k)%nat). { destruct (Nat.eq_dec k 1); [left; split; auto; apply nint_1; auto|right; lia]. }
  assert (HO' : (k = 1)%nat /\ ni = 0%nat \/ (k <> 1 /\ 1 <= ni)%nat). { destruct HO as [|HO]; [left; auto|right]. split; [lia|]. unfold ni. rewrite nint_2 by lia. pose proof (num2_pos (k - 2)). lia. }
  assert (EH : weighted VI (q_Weights IQ) VI = Ok {| m_rows := Nk; m_cols := Nk; m_at := fun i j => rsum (m_cols (q_Points IQ)) (fun q => m_at VI q i * v_at (q_Weights IQ) q * m_at VI q j) |}).
  { unfold weighted, mdiag, mmul. cbn [m_rows m_cols mtrans]. rewrite V1, (proj2 I1), Nat.eqb_refl. cbn [bind m_cols]. rewrite Nat.eqb_refl. cbn [m_rows mtrans m_at]. rewrite V2. reflexivity. }
  rewrite EH. cbn [bind]. set (H := {| m_rows := Nk; m_cols := Nk; m_at := _ |}).
  destruct (eq_WeightsTimesNormal BQ) as [|wN0 [|wN1 [|]]] eqn:EW; try discriminate.
  assert (S0 : v_size wN0 = nb) by (specialize (B4 0%nat ltac:(lia)); unfold normal_weights in B4; now rewrite EW in B4).
  assert (S1 : v_size wN1 = nb) by (specialize (B4 1%nat ltac:(lia)); unfold normal_weights in B4; now rewrite EW in B4).
  rewrite EL, EL'.
  destruct (ComputePiNabla_ok lu k nb ni N Nk (Laplacian (rv_Monomials ref)) (pg_Measure p) h (q_Weights IQ) (q_Weights (eq_Quadrature BQ)) [wN0; wN1] VI [VID0; VID1] VB [VBD0; VBD1] VID0 VID1 VBD0 VBD1 wN0 wN1)
    as (G & B & Pi & EP & g1 & g2 & b1 & b2 & p1 & p2 & p3 & g3 & g4 & b3 & b4 & b5); try reflexivity; auto; try lia; try (rewrite (proj2 I1); auto); try (rewrite (proj2 B1); auto).
  rewrite EP. cbn [bind].
  destruct (ComputeL2Projectors_ok llt (pg_Measure p) k Nm Nk nb ni N H Pi eq_refl eq_refl p1 p2 ltac:(lia) HNm eq_refl HO) as (C & P1 & P & Hm & Cm & EC & cs1 & cs2 & c1 & c2 & c3 & c4 & c5 & c6 & hm1 & hm2 & hm3 & cm1 & cm2 & cm3 & c7 & c8).
  rewrite EC. cbn [bind]. rewrite EDe. cbn [idx_ nth_error bind].
  destruct (derivative_projector_ok llt (pg_Measure p) h k Nm Nk nb ni N H VB De0 wN0 eq_refl eq_refl W1 W2 e1 e2 S0 ltac:(lia) HNm eq_refl HO) as (E0 & Q0 & Hm0 & EE0 & xs & x1 & x2 & x3 & x4 & xh1 & xh2 & xh3 & x5 & x6).
  rewrite EE0. cbn [bind].
  destruct (derivative_projector_ok llt (pg_Measure p) h k Nm Nk nb ni N H VB De1 wN1 eq_refl eq_refl W1 W2 e3 e4 S1 ltac:(lia) HNm eq_refl HO) as (E1 & Q1 & Hm1 & EE1 & ys & y1 & y2 & y3 & y4 & yh1 & yh2 & yh3 & y5 & y6).
  rewrite EE1. cbn [bind].
  destruct (ComputePolynomialsDofs_ok (pg_Measure p) k nb ni N Nk VB H eq_refl eq_refl W1 W2 ltac:(lia) eq_refl HO) as (D & ED & s1 & s2 & s3 & s4). rewrite ED. cbn [bind].
  eexists. split; [reflexivity|].
  assert (NW0 : normal_weights BQ 0 = wN0) by (unfold normal_weights; rewrite EW; reflexivity).
  assert (NW1 : normal_weights BQ 1 = wN1) by (unfold normal_weights; rewrite EW; reflexivity).
  constructor; unfold fI, fW, fN, boundary_points; cbn [lv_Dimension lv_Order lv_NumBoundaryBasisFunctions lv_NumInternalBasisFunctions lv_NumBasisFunctions lv_NumProjectorBasisFunctions lv_Nkm1 lv_Measure lv_Diameter lv_Centroid
    lv_InternalQuadrature lv_BoundaryQuadrature lv_VanderInternal lv_VanderInternalDerivatives lv_Hmatrix lv_Gmatrix lv_Bmatrix lv_PiNabla lv_Cmatrix lv_Pi0km1 lv_Pi0k lv_Ematrix lv_Pi0km1Der lv_Dmatrix]; auto.
  - intros f. destruct (C49_internal_all (gt (2 * k)%nat) (pg_TriangulationVertices p) f HR (proj1 ptr)) as (IQ' & EI' & _ & _ & SF). rewrite EI in EI'. injection EI' as <-. exact SF.
  - assert (W12 : apply_rule (q_Weights (gt (2 * k)%nat)) (fun _ => 1) = 1 / 2).
    { etransitivity; [|etransitivity; [apply (HE 0%nat 0%nat); lia|]]; [apply apply_ext; intros; cbn [pow]; ring|cbn; field]. }
    destruct (C49_area_all (gt (2 * k)%nat) _ _ HR W12 ptr) as (IQ' & EI' & _ & A). rewrite EI in EI'. injection EI' as <-. exact A.
  - assert (W1' : fst ext + snd ext + rsum (v_size IW) (v_at IW) = 1).
    { etransitivity; [|etransitivity; [apply (re 0%nat); lia|cbn; field]]. rewrite <- apply_1. cbn [pow]. rewrite !Rmult_1_r. reflexivity. }
    destruct (C49_lobatto_all junk IP IW ext (pg_Vertices p) (pg_EdgesLength p) (pg_EdgesDirection p) (pg_EdgesTangent p) (pg_EdgesNormal p) rs pe pt_ W1') as (BQ' & EB' & A & _). rewrite EB in EB'. injection EB' as <-. exact A.
  - exists VID0, VID1. auto 10.
  - do 2 (split; auto). intros i j Hi Hj. cbn [H m_at]. unfold apply_rule. rewrite (proj2 I1). apply rsum_ext. intros q Hq. rewrite !V3 by auto. ring.
  - do 2 (split; auto). split.
    + intros j Hj. rewrite g3. destruct (k =? 1)%nat; unfold apply_rule.
      * rewrite (proj2 B1), B2. apply rsum_ext. intros q Hq. rewrite W3 by auto. ring.
      * apply rsum_ext. intros q Hq. rewrite V3 by auto. ring.
    + intros i j Hi Hj. rewrite g4 by lia. unfold apply_rule. f_equal; apply rsum_ext; intros q Hq; rewrite ?D5, ?D6 by lia; ring.
  - do 2 (split; auto). split; [|split].
    + intros j Hj. rewrite b3 by auto. destruct (k =? 1)%nat; auto. rewrite F5, F6 by auto. rewrite (proj1 (phix_0 0 _ _ eq_refl)), (proj2 (phix_0 0 _ _ eq_refl)). ring.
    + intros i j Hi Hj. rewrite b4, F5, F6, NW0, NW1 by lia. reflexivity.
    + intros i c Hi Hc. rewrite b5 by auto. rewrite e9 by auto. reflexivity.
  - do 4 (split; auto). split; intros Ex PD i j Hi Hj; cbn [m_rows m_cols m_at corner top] in *.
    + rewrite <- cm3. apply (exact_use llt Hm Cm _ P1 Ex PD); cbn [m_rows m_cols m_at corner]; auto; try congruence.
    + apply (exact_use llt H C _ P Ex PD); auto; try congruence.
  - exists E0, E1. do 5 (split; auto). split; [|split; [|split]].
    + intros i j Hi Hj. rewrite x5, W3, NW0 by (auto; lia). reflexivity.
    + intros i c Hi Hc. rewrite x6, e5 by (auto; lia). reflexivity.
    + intros i j Hi Hj. rewrite y5, W3, NW1 by (auto; lia). reflexivity.
    + intros i c Hi Hc. rewrite y6, e6 by (auto; lia). reflexivity.
  - exists Q0, Q1. do 5 (split; auto). split; intros Ex PD i j Hi Hj; cbn [m_rows m_cols m_at corner nth] in *.
    + apply (exact_use llt Hm0 E0 _ Q0 Ex PD); cbn [m_rows m_cols m_at corner]; auto; try congruence.
    + apply (exact_use llt Hm1 E1 _ Q1 Ex PD); cbn [m_rows m_cols m_at corner]; auto; try congruence.
  - do 2 (split; auto). split.
    + intros i j Hi Hj. rewrite s3, W3 by auto. reflexivity.
    + intros c j Hc Hj. rewrite s4 by auto. reflexivity.
Qed.
End Local.
