(** The divergence free virtual element in terms of scaled monomials. *)
From Coq Require Import List Arith Bool Lia ZArith Reals Lra.
From Verif Require Import Base RSum MatrixModel MonomialsModel MonomialsSpec MonomialsProofs MonomialsProofs2 MonomialsProofs3 MonomialsProofs4 MonomialsProps
  GBasisModel LagrangeModel LagrangeSpec LagrangeProofs GBasisProofs VemQuadModel VemQuadSpec VemQuadProofs VemQuadProofs2 GreenSpec GreenProofs PolyProofs VemModel VemSpec VemProofs VemProofs2 VemProofs3
  VemMccModel VemMccProofs VemMccProofs2 DfModel DfSpec DfProofs.
Import ListNotations.
Local Open Scope R_scope.

(** ** Decomposition of the vectors of monomials *)
Record gb_facts (k : nat) (g : GBasis_Data) (Gr0 P0 Gr1 P1 : Mat) : Prop := {
  gf_mono : Compute M2 (k + 1) = Ok (gb_monomials g);
  gf_Nkm1 : gb_Nkm1 g = num2 (k - 1); gf_Nkp1 : gb_Nkp1 g = num2 (k + 1);
  gf_list : gb_VectorDecomposition g = [[Gr0; P0]; [Gr1; P1]];
  gf_size : m_rows Gr0 = num2 k /\ m_cols Gr0 = num2 (k + 1) /\ m_rows P0 = num2 k /\ m_cols P0 = num2 (k - 1) /\
            m_rows Gr1 = num2 k /\ m_cols Gr1 = num2 (k + 1) /\ m_rows P1 = num2 k /\ m_cols P1 = num2 (k - 1);
  gf_Gr0 : forall i c, (i < num2 k)%nat -> m_at Gr0 i c = if (c =? ix (ea i + 1) (eb i))%nat then 1 / INR (ea i + eb i + 1) else 0;
  gf_P0 : forall i c, (i < num2 k)%nat -> m_at P0 i c = if ((0 <? eb i) && (c =? ix (ea i) (eb i - 1)))%nat then INR (eb i) / INR (ea i + eb i + 1) else 0;
  gf_Gr1 : forall i c, (i < num2 k)%nat -> m_at Gr1 i c = if (c =? ix (ea i) (eb i + 1))%nat then 1 / INR (ea i + eb i + 1) else 0;
  gf_P1 : forall i c, (i < num2 k)%nat -> m_at P1 i c = if ((0 <? ea i) && (c =? ix (ea i - 1) (eb i)))%nat then - INR (ea i) / INR (ea i + eb i + 1) else 0 }.

Lemma gbasis_ok k : (1 <= k)%nat -> exists g Gr0 P0 Gr1 P1, GBasis_2D_Compute k = Ok g /\ gb_facts k g Gr0 P0 Gr1 P1.
Proof.
  intros Hk. unfold GBasis_2D_Compute. destruct (Compute_ok Monomials_2D idx2 good_2D (k + 1)) as (m & Em & _). rewrite Em. cbn [bind].
  destruct (fill_MatrixExponents_ok k m Em) as (A & EA & TA). rewrite EA. cbn [bind].
  destruct (decomposition_2D_ok k m Em A TA) as (VD & EV & TV). rewrite EV. cbn [bind].
  destruct TV as (L & H). destruct VD as [|r0 [|r1 [|]]]; try discriminate L.
  destruct (H 0%nat ltac:(lia)) as (row & q1 & q2 & q3). cbn in q1. injection q1 as <-. destruct r0 as [|Gr0 [|P0 [|]]]; try discriminate q2.
  destruct (H 1%nat ltac:(lia)) as (row & r1' & r2 & r3). cbn in r1'. injection r1' as <-. destruct r1 as [|Gr1 [|P1 [|]]]; try discriminate r2.
  destruct (q3 0%nat ltac:(lia)) as (B & b1 & b2 & b3 & b4). cbn in b1. injection b1 as <-.
  destruct (q3 1%nat ltac:(lia)) as (B & c1 & c2 & c3 & c4). cbn in c1. injection c1 as <-.
  destruct (r3 0%nat ltac:(lia)) as (B & d1 & d2 & d3 & d4). cbn in d1. injection d1 as <-.
  destruct (r3 1%nat ltac:(lia)) as (B & e1 & e2 & e3 & e4). cbn in e1. injection e1 as <-.
  assert (Hs : forall i, IZR (esum [Z.of_nat (ea i); Z.of_nat (eb i)] + 1) = INR (ea i + eb i + 1)).
  { intros i. rewrite INR_IZR_INZ. f_equal. unfold esum. cbn [fold_right]. lia. }
  exists {| gb_degree := k; gb_monomials := m; gb_Nk := (k + 1) * (k + 2) / 2; gb_Nkm1 := k * (k + 1) / 2; gb_Nkp1 := (k + 2) * (k + 3) / 2; gb_VectorDecomposition := [[Gr0; P0]; [Gr1; P1]];
    gb_MatrixExponents := A; gb_DimFirstBasis := 0; gb_MapExponents := {| t_n := 0; t_at := fun _ _ _ => 0%nat |}; gb_SaveFirstGroup := []; gb_MapFirstGroup := [] |}, Gr0, P0, Gr1, P1.
  cbn [cols2] in *. rewrite (Nk_num k) in *. rewrite (Nkp1_num k) in *. rewrite (Nkm1_num k) in * by lia. fold (num2 k) in *. fold (num2 (k + 1)) in *. fold (num2 (k - 1)) in *.
  split; [reflexivity|]. constructor; cbn [gb_monomials gb_Nkm1 gb_Nkp1 gb_VectorDecomposition]; auto.
  - repeat split; auto.
  - intros i c Hi. rewrite b4, (ltb_true i) by auto. unfold val2. cbv zeta. rewrite enum_ab. cbn [nth andb]. unfold ix. rewrite Hs. replace (Z.of_nat (ea i) + 1)%Z with (Z.of_nat (ea i + 1)) by lia. reflexivity.
  - intros i c Hi. rewrite c4, (ltb_true i) by auto. unfold val2. cbv zeta. rewrite enum_ab. cbn [nth]. change 0%Z with (Z.of_nat 0) at 1. rewrite zlt. unfold ix. rewrite Hs.
    destruct (Nat.ltb_spec 0 (eb i)); cbn [andb]; auto. replace (Z.of_nat (eb i) - 1)%Z with (Z.of_nat (eb i - 1)) by lia. rewrite <- INR_IZR_INZ. reflexivity.
  - intros i c Hi. rewrite d4, (ltb_true i) by auto. unfold val2. cbv zeta. rewrite enum_ab. cbn [nth andb]. unfold ix. rewrite Hs. replace (Z.of_nat (eb i) + 1)%Z with (Z.of_nat (eb i + 1)) by lia. reflexivity.
  - intros i c Hi. rewrite e4, (ltb_true i) by auto. unfold val2. cbv zeta. rewrite enum_ab. cbn [nth]. change 0%Z with (Z.of_nat 0) at 1. rewrite zlt. unfold ix. rewrite Hs.
    destruct (Nat.ltb_spec 0 (ea i)); cbn [andb]; auto. replace (Z.of_nat (ea i) - 1)%Z with (Z.of_nat (ea i - 1)) by lia. rewrite <- INR_IZR_INZ. reflexivity.
Qed.

(** ** Reference element *)
Definition inner_points (r : QuadratureData) (n : nat) : Mat := {| m_rows := 3; m_cols := n; m_at := fun i j => m_at (q_Points r) i (1 + j) |}.
Definition inner_weights (r : QuadratureData) (n : nat) : Vec := {| v_size := n; v_at := fun j => v_at (q_Weights r) (1 + j) |}.
Definition end_weights (r : QuadratureData) (n : nat) : R * R := (v_at (q_Weights r) 0, v_at (q_Weights r) (n + 1)).

Lemma split_segment_ok order r n : order <> 1%nat -> rule r -> m_cols (q_Points r) = (n + 2)%nat ->
  split_segment order r = Ok (inner_points r n, inner_weights r n, end_weights r n).
Proof.
  intros Ho (R1' & R2') Hn. unfold split_segment. destruct (Nat.eqb_spec order 1); [lia|]. rewrite Hn. rewrite ltb_false by lia. replace (n + 2 - 2)%nat with n by lia.
  rewrite block_ok by lia. cbn [bind]. unfold vec_segment, vec_get. rewrite R2', Hn. rewrite (leb_true (1 + n)) by lia. cbn [bind]. rewrite (ltb_true 0) by lia. cbn [bind].
  destruct (Nat.eqb_spec (n + 2) 0); [lia|]. rewrite ltb_true by lia. cbn [bind]. unfold inner_points, inner_weights, end_weights. cbn [Nat.add]. replace (n + 2 - 1)%nat with (n + 1)%nat by lia. reflexivity.
Qed.

Lemma split_exact r n : rule r -> m_cols (q_Points r) = (n + 2)%nat -> m_at (q_Points r) 0 0 = 0 -> m_at (q_Points r) 0 (n + 1) = 1 ->
  forall f, apply_rule (q_Weights r) (fun q => f (m_at (q_Points r) 0 q)) =
    fst (end_weights r n) * f 0 + snd (end_weights r n) * f 1 + apply_rule (inner_weights r n) (fun q => f (m_at (inner_points r n) 0 q)).
Proof.
  intros (_ & W) Hn F La f. unfold apply_rule. cbn [inner_weights v_size v_at inner_points m_at end_weights fst snd]. rewrite W, Hn.
  replace (n + 2)%nat with (S (n + 1)) by lia. rewrite rsum_S_l, rsum_add. cbn [rsum]. rewrite F. replace (S (n + 0)) with (n + 1)%nat by lia. rewrite La. cbn [Nat.add]. ring.
Qed.

Lemma half_0 n : ((n + 1) * (n + 2) / 2)%nat = num2 n. Proof. apply num2_half. Qed.

Section Reference.
Variables (v : DF_Variant) (gt lob : nat -> QuadratureData) (k : nat).
Hypothesis FR : df_rules gt lob k.
Let Hk : (2 <= k)%nat. Proof. apply (fr_order _ _ _ FR). Qed.
Let GR := fr_rules _ _ _ FR.

(** number of monomials of degree at most k - 3 *)
Definition n3 : nat := ((k - 2) * (k - 1) / 2)%nat.
Lemma n3_lt i : (i < n3)%nat <-> (ea i + eb i + 3 <= k)%nat.
Proof using Hk.
  unfold n3. destruct (Nat.eq_dec k 2) as [e|e].
  - rewrite e. cbn. lia.
  - replace (k - 2)%nat with (k - 3 + 1)%nat by lia. replace (k - 1)%nat with (k - 3 + 2)%nat by lia. rewrite half_0, ab_lt. lia.
Qed.
Definition ndiv_of : nat := match v with Full => (num2 (k - 1) - 1)%nat | Reduced => 0%nat end.

Record dref_facts (ref : DF_Velocity_Reference) : Prop := {
  df_dim : rd_Dimension ref = 2%nat; df_order : rd_Order ref = k; df_n1 : rd_NumDofs1D ref = (k - 1)%nat;
  df_ndiv : rd_NumDofs2D_Divergence ref = ndiv_of; df_nbig : rd_NumDofs2D_BigOPlus ref = n3;
  df_mono : Compute M2 k = Ok (rd_Monomials ref);
  df_gb : exists Gr0 P0 Gr1 P1, gb_facts k (rd_GBasis ref) Gr0 P0 Gr1 P1;
  df_gbc : GBasis_2D_Compute k = Ok (rd_GBasis ref);
  df_quad : rd_Quadrature ref = {| dq_base := {| vq_ReferenceSegmentQuadrature := lob (2 * k + 1)%nat; vq_ReferenceEdgeDOFsQuadrature := lob (2 * k - 1)%nat;
                      vq_ReferenceTriangleQuadrature := gt (2 * k)%nat;
                      vq_ReferenceEdgeDOFsInternalPoints := inner_points (lob (2 * k - 1)%nat) (k - 1); vq_ReferenceEdgeDOFsInternalWeights := inner_weights (lob (2 * k - 1)%nat) (k - 1);
                      vq_ReferenceEdgeDOFsExtremaWeights := end_weights (lob (2 * k - 1)%nat) (k - 1) |};
        dq_ReferenceSegmentInternalPoints := inner_points (lob (2 * k + 1)%nat) k; dq_ReferenceSegmentInternalWeights := inner_weights (lob (2 * k + 1)%nat) k;
        dq_ReferenceSegmentExtremaWeights := end_weights (lob (2 * k + 1)%nat) k |} }.

Lemma edge_cols : m_cols (q_Points (lob (2 * k - 1)%nat)) = (k - 1 + 2)%nat.
Proof using FR Hk. rewrite (gr_edge_points _ _ _ GR). lia. Qed.
Lemma quad_ok : Compute_DF_PCC_2D gt lob k = Ok {| dq_base := {| vq_ReferenceSegmentQuadrature := lob (2 * k + 1)%nat; vq_ReferenceEdgeDOFsQuadrature := lob (2 * k - 1)%nat;
                      vq_ReferenceTriangleQuadrature := gt (2 * k)%nat;
                      vq_ReferenceEdgeDOFsInternalPoints := inner_points (lob (2 * k - 1)%nat) (k - 1); vq_ReferenceEdgeDOFsInternalWeights := inner_weights (lob (2 * k - 1)%nat) (k - 1);
                      vq_ReferenceEdgeDOFsExtremaWeights := end_weights (lob (2 * k - 1)%nat) (k - 1) |};
        dq_ReferenceSegmentInternalPoints := inner_points (lob (2 * k + 1)%nat) k; dq_ReferenceSegmentInternalWeights := inner_weights (lob (2 * k + 1)%nat) k;
        dq_ReferenceSegmentExtremaWeights := end_weights (lob (2 * k + 1)%nat) k |}.
Proof using FR Hk.
  unfold Compute_DF_PCC_2D. destruct (Nat.eqb_spec k 0); [lia|].
  rewrite (split_segment_ok k _ k); [|lia|apply (fr_segment _ _ _ FR)|apply (fr_segment_points _ _ _ FR)]. cbn [bind]. rewrite (split_segment_ok k _ (k - 1)); [|lia|apply (gr_edge _ _ _ GR)|apply edge_cols]. reflexivity.
Qed.

Lemma dref_ok : exists ref, DF_Velocity_Create v gt lob k = Ok ref /\ dref_facts ref.
Proof using FR Hk.
  unfold DF_Velocity_Create. destruct (C27_monomials_enumerated_once 2 M2 k class2) as (m & E & _). rewrite E. cbn [bind].
  destruct (gbasis_ok k) as (g & Gr0 & P0 & Gr1 & P1 & EG & GF); [lia|]. rewrite EG. cbn [bind]. rewrite quad_ok. cbn [bind].
  eexists. split; [reflexivity|]. constructor; cbn [rd_Dimension rd_Order rd_NumDofs1D rd_NumDofs2D_Divergence rd_NumDofs2D_BigOPlus rd_Monomials rd_GBasis rd_Quadrature]; eauto 6.
  unfold ndiv_of. destruct v; auto. replace k with (k - 1 + 1)%nat at 1 by lia. replace (k + 1)%nat with (k - 1 + 2)%nat by lia. rewrite half_0. reflexivity.
Qed.

(** the primal space of the same order on the same polygon *)
Lemma companion p junk lu llt : good_polygon p -> exists l', local_facts gt k p lu llt l' /\
  PolygonInternalQuadrature (gt (2 * k)%nat) (pg_TriangulationVertices p) = Ok (lv_InternalQuadrature l') /\
  PolygonEdgesLobattoQuadrature junk (inner_points (lob (2 * k - 1)%nat) (k - 1)) (inner_weights (lob (2 * k - 1)%nat) (k - 1)) (end_weights (lob (2 * k - 1)%nat) (k - 1))
    (pg_Vertices p) (pg_EdgesLength p) (pg_EdgesDirection p) (pg_EdgesTangent p) (pg_EdgesNormal p) = Ok (lv_BoundaryQuadrature l').
Proof using FR Hk.
  intros GP. destruct (reference_ok gt lob k ltac:(lia) GR) as (ref & ER & RF). destruct (local_ok gt lob k ref p ltac:(lia) GR RF GP junk lu llt) as (l' & EL & LF).
  exists l'. split; auto.
  assert (Q : Compute_PCC_2D gt lob k = Ok (rv_Quadrature ref)).
  { revert ER. unfold VEM_PCC_2D_Create. destruct (Compute Monomials_2D k); try discriminate. cbn [bind]. destruct (Compute_PCC_2D gt lob k); try discriminate. cbn [bind]. intros [= <-]. reflexivity. }
  revert Q. unfold Compute_PCC_2D. destruct (Nat.eqb_spec k 0); [lia|]. destruct (Nat.eqb_spec k 1); [lia|].
  pose proof (split_segment_ok k (lob (2 * k - 1)%nat) (k - 1) ltac:(lia) (gr_edge _ _ _ GR) edge_cols) as SS. revert SS. unfold split_segment. destruct (Nat.eqb_spec k 1); [lia|].
  destruct (m_cols (q_Points (lob (2 * k - 1)%nat)) <? 2)%nat; try discriminate.
  repeat (match goal with |- context [bind ?x _] => destruct x; cbn [bind]; try discriminate end). intros SS Q0.
  match type of SS with Ok (?m, ?w, ?e) = _ => assert (S1 : m = inner_points (lob (2 * k - 1)%nat) (k - 1)) by congruence; assert (S2 : w = inner_weights (lob (2 * k - 1)%nat) (k - 1)) by congruence; assert (S3 : e = end_weights (lob (2 * k - 1)%nat) (k - 1)) by congruence; rewrite S1, S2, S3 in Q0 end.
  match type of Q0 with Ok ?x = Ok ?y => assert (Q : x = y) by congruence end.
  revert EL. unfold VEM_PCC_2D_CreateLocalSpace. rewrite <- Q. cbn [vq_ReferenceTriangleQuadrature vq_ReferenceEdgeDOFsInternalPoints vq_ReferenceEdgeDOFsInternalWeights vq_ReferenceEdgeDOFsExtremaWeights].
  destruct (PolygonInternalQuadrature _ _) as [IQ| |]; try discriminate. cbn [bind].
  destruct (PolygonEdgesLobattoQuadrature _ _ _ _ _ _ _ _ _) as [ED| |]; try discriminate. cbn [bind].
  repeat (match goal with |- bind ?x _ = Ok l' -> _ => destruct x; cbn [bind]; try (intros T; discriminate T) | |- (let (_, _) := ?x in _) = Ok l' -> _ => destruct x end).
  intros [= <-]. cbn [lv_InternalQuadrature lv_BoundaryQuadrature]. auto.
Qed.
End Reference.

(** derivatives of a matrix with the values of the monomials *)
Lemma der_entries k m junk points c h V : Compute M2 k = Ok m -> h <> 0 -> m_rows V = m_cols points -> m_cols V = num2 k ->
  (forall q i, (i < num2 k)%nat -> m_at V q i = phi (c 0%nat) (c 1%nat) h i (m_at points 0 q) (m_at points 1 q)) ->
  exists VD V0 V1, VanderDerivatives M2 junk m V h = Ok VD /\ VD = [V0; V1] /\
    m_rows V0 = m_cols points /\ m_cols V0 = num2 k /\ m_rows V1 = m_cols points /\ m_cols V1 = num2 k /\
    (forall q i, (i < num2 k)%nat -> m_at V0 q i = phix (c 0%nat) (c 1%nat) h i (m_at points 0 q) (m_at points 1 q)) /\
    (forall q i, (i < num2 k)%nat -> m_at V1 q i = phiy (c 0%nat) (c 1%nat) h i (m_at points 0 q) (m_at points 1 q)).
Proof.
  intros E Hh R C HV. destruct (g_C32 M2 idx2 good_2D k m E ltac:(cbn; lia) (class_num1 _ M2 k class2) junk points c h V Hh R) as (VD & EVD & L & A).
  { rewrite (num_m k m E). auto. } { intros q i Hi. rewrite (num_m k m E) in Hi. rewrite HV by auto. symmetry. apply (mono_phi k m E c h i (pt points q) Hi). }
  change (mc_dim M2) with 2%nat in *. destruct VD as [|V0 [|V1 [|]]]; try discriminate L. exists [V0; V1], V0, V1. split; auto. split; auto.
  destruct (A 0%nat ltac:(lia)) as (A0 & N0 & r0 & c0 & p0). destruct (A 1%nat ltac:(lia)) as (A1 & N1 & r1 & c1 & p1). injection N0 as <-. injection N1 as <-.
  rewrite (num_m k m E) in *. do 4 (split; auto). split; intros q i Hi.
  - specialize (p0 q i Hi). unfold is_partial in p0. apply (uniqueness_limite (fun t => phi (c 0%nat) (c 1%nat) h i t (m_at points 1 q)) (m_at points 0 q)).
    + eapply derivable_pt_lim_ext; [|exact p0]. intros t. cbv beta. rewrite (mono_phi k m E) by auto. reflexivity.
    + apply (poly2_partials _ _ _ _ _ _ (phi_poly2 (c 0%nat) (c 1%nat) h Hh i)).
  - specialize (p1 q i Hi). unfold is_partial in p1. apply (uniqueness_limite (fun t => phi (c 0%nat) (c 1%nat) h i (m_at points 0 q) t) (m_at points 1 q)).
    + eapply derivable_pt_lim_ext; [|exact p1]. intros t. cbv beta. rewrite (mono_phi k m E) by auto. reflexivity.
    + apply (poly2_partials _ _ _ _ _ _ (phi_poly2 (c 0%nat) (c 1%nat) h Hh i)).
Qed.


Lemma pd_ext_in A B : positive_definite A -> m_rows A = m_rows B -> m_cols A = m_cols B -> (forall i j, (i < m_rows A)%nat -> (j < m_cols A)%nat -> m_at A i j = m_at B i j) -> positive_definite B.
Proof.
  intros (sq & sy & P) R C H. split; [congruence|]. split.
  - rewrite <- R. intros i j Hi Hj. rewrite <- !H by lia. apply sy; lia.
  - rewrite <- R, <- ?C. intros x X. specialize (P x X). eapply Rlt_le_trans; [exact P|]. right. apply rsum_ext. intros i Hi. apply rsum_ext. intros j Hj. rewrite H by lia. reflexivity.
Qed.
Lemma corner_ex A n : (n <= m_rows A)%nat -> (n <= m_cols A)%nat -> topLeftCorner A n n = Ok (corner A n).
Proof. intros. unfold topLeftCorner. rewrite block_ok by lia. reflexivity. Qed.
Lemma leftCols_ex A n : (n <= m_cols A)%nat -> leftCols A n = Ok {| m_rows := m_rows A; m_cols := n; m_at := m_at A |}.
Proof. intros. unfold leftCols. rewrite block_ok by lia. reflexivity. Qed.
Lemma topRows_ex A n : (n <= m_rows A)%nat -> topRows A n = Ok {| m_rows := n; m_cols := m_cols A; m_at := m_at A |}.
Proof. intros. unfold topRows. rewrite block_ok by lia. reflexivity. Qed.
Lemma first_row_ex P : (0 < m_rows P)%nat -> df_first_row P = Ok {| v_size := m_cols P; v_at := fun j => m_at P 0 j |}.
Proof. intros. unfold df_first_row, row_vec, mrow. rewrite (ltb_true 0) by auto. reflexivity. Qed.

(** ** Local space *)
Section Local.
Variables (v : DF_Variant) (gt lob : nat -> QuadratureData) (k : nat) (p : Polygon).
Hypothesis FR : df_rules gt lob k.
Hypothesis GP : good_polygon p.
Variables (junk : nat -> nat -> R) (lu llt : Solver) (l' : VEM_2D_Local).
Hypothesis LF : local_facts gt k p lu llt l'.
Hypothesis EI : PolygonInternalQuadrature (gt (2 * k)%nat) (pg_TriangulationVertices p) = Ok (lv_InternalQuadrature l').
Hypothesis EB : PolygonEdgesLobattoQuadrature junk (inner_points (lob (2 * k - 1)%nat) (k - 1)) (inner_weights (lob (2 * k - 1)%nat) (k - 1)) (end_weights (lob (2 * k - 1)%nat) (k - 1))
    (pg_Vertices p) (pg_EdgesLength p) (pg_EdgesDirection p) (pg_EdgesTangent p) (pg_EdgesNormal p) = Ok (lv_BoundaryQuadrature l').
Let Hk : (2 <= k)%nat. Proof. apply (fr_order _ _ _ FR). Qed.
Let GR := fr_rules _ _ _ FR.
Let cx := pg_Centroid p 0%nat.
Let cy := pg_Centroid p 1%nat.
Let h := pg_Diameter p.
Let nv := m_cols (pg_Vertices p).
Let ns := (nv + (k - 1) * nv)%nat.
Let nb := (2 * ns)%nat.
Let nd := ndiv_of v k.
Let N := (nb + (nd + n3 k))%nat.
Let Nk := num2 k.
Let Nm := num2 (k - 1).
Let N2 := num2 (k - 2).
Let Np := num2 (k + 1).
Let I := fI l'.
Notation ph := (phi cx cy h).
Notation phx := (phix cx cy h).
Notation phy := (phiy cx cy h).
Let Hh : h <> 0. Proof. apply gp_diameter; auto. Qed.

(** boundary sum of the dofs with the edge rule: component d of the normal, component e of the field *)
Definition edsum (d e : nat) (g : R -> R -> R) (u : nat -> R) : R :=
  apply_rule (normal_weights (lv_BoundaryQuadrature l') d) (fun q => g (m_at (boundary_points l') 0 q) (m_at (boundary_points l') 1 q) * u (e * ns + q)%nat).
(** boundary sum of the traces with the second edge rule *)
Definition bqsum (l : DF_Local) (g : R -> R -> R) (u : nat -> R) : R :=
  let P := q_Points (eq_Quadrature (ld_BoundaryQuadrature l)) in let K := ld_VanderKp1EdgeProjections l in
  apply_rule (normal_weights (ld_BoundaryQuadrature l) 0) (fun q => g (m_at P 0 q) (m_at P 1 q) * act K u q) +
  apply_rule (normal_weights (ld_BoundaryQuadrature l) 1) (fun q => g (m_at P 0 q) (m_at P 1 q) * act K (fun j => u (ns + j)%nat) q).
(** the polynomial of the first n rows of a matrix *)
Definition pol (n : nat) (A : Mat) (u : nat -> R) (x y : R) : R := rsum n (fun i => act A u i * ph i x y).
Definition sx (x : R) : R := (x - cx) / h.
Definition sy (y : R) : R := (y - cy) / h.
Definition beta (l : DF_Local) (u : nat -> R) (i : nat) : R := bqsum l (ph i) u - I (fun x y => ph i x y * pol (1 + nd) (ld_Vmatrix l) u x y).
Definition gamma (l : DF_Local) (u : nat -> R) (c : nat) : R :=
  if (c <? n3 k)%nat then u (nb + c)%nat
  else I (fun x y => sy y * ph c x y * pol Nk (of_list (ld_PiNabla l) 0) u x y) - I (fun x y => sx x * ph c x y * pol Nk (of_list (ld_PiNabla l) 1) u x y).
Definition inv_s (i : nat) : R := / INR (ea i + eb i + 1).

Record df_facts (l : DF_Local) : Prop := {
  ff_dim : ld_Dimension l = 2%nat; ff_order : ld_Order l = k;
  ff_nv : ld_NumVertexBasisFunctions l = nv; ff_ne : ld_NumEdgeBasisFunctions l = ((k - 1) * nv)%nat; ff_nb : ld_NumBoundaryBasisFunctions l = nb;
  ff_nd : ld_NumDivergenceInternalBasisFunctions l = nd; ff_nbig : ld_NumBigOPlusInternalBasisFunctions l = n3 k; ff_ni : ld_NumInternalBasisFunctions l = (nd + n3 k)%nat; ff_N : ld_NumBasisFunctions l = N;
  ff_Np : ld_NKp1 l = Np; ff_Nk : ld_Nk l = Nk; ff_Nm : ld_Nkm1 l = Nm; ff_N2 : ld_Nkm2 l = N2; ff_N3 : ld_Nkm3 l = n3 k;
  ff_IQ : ld_InternalQuadrature l = lv_InternalQuadrature l'; ff_ED : ld_EdgesDOFs l = lv_BoundaryQuadrature l';
  ff_BQ : PolygonEdgesLobattoQuadrature junk (inner_points (lob (2 * k + 1)%nat) k) (inner_weights (lob (2 * k + 1)%nat) k) (end_weights (lob (2 * k + 1)%nat) k)
    (pg_Vertices p) (pg_EdgesLength p) (pg_EdgesDirection p) (pg_EdgesTangent p) (pg_EdgesNormal p) = Ok (ld_BoundaryQuadrature l);
  ff_diam : ld_Diameter l = h; ff_measure : ld_Measure l = pg_Measure p; ff_centroid : ld_Centroid l = pg_Centroid p;
  ff_VI : m_rows (ld_VanderInternal l) = m_cols (q_Points (lv_InternalQuadrature l')) /\ m_cols (ld_VanderInternal l) = Nk /\
    (forall q i, (i < Nk)%nat -> m_at (ld_VanderInternal l) q i = ph i (m_at (q_Points (lv_InternalQuadrature l')) 0 q) (m_at (q_Points (lv_InternalQuadrature l')) 1 q));
  ff_VID : exists V0 V1, ld_VanderInternalDerivatives l = [V0; V1] /\
    m_rows V0 = m_cols (q_Points (lv_InternalQuadrature l')) /\ m_cols V0 = Nk /\ m_rows V1 = m_cols (q_Points (lv_InternalQuadrature l')) /\ m_cols V1 = Nk /\
    (forall q i, (i < Nk)%nat -> m_at V0 q i = phx i (m_at (q_Points (lv_InternalQuadrature l')) 0 q) (m_at (q_Points (lv_InternalQuadrature l')) 1 q)) /\
    (forall q i, (i < Nk)%nat -> m_at V1 q i = phy i (m_at (q_Points (lv_InternalQuadrature l')) 0 q) (m_at (q_Points (lv_InternalQuadrature l')) 1 q));
  ff_K : m_rows (ld_VanderKp1EdgeProjections l) = (nv + k * nv)%nat /\ m_cols (ld_VanderKp1EdgeProjections l) = ns /\
    (forall u j, (j < nv)%nat -> act (ld_VanderKp1EdgeProjections l) u j = u j) /\
    (forall f u e q, is_poly (k + 1) f -> (e < nv)%nat -> (q < k)%nat -> f 0 = u (edge_first (pg_Vertices p) (pg_EdgesDirection p) e) -> f 1 = u (edge_last (pg_Vertices p) (pg_EdgesDirection p) e) ->
      (forall i, (i < k - 1)%nat -> f (m_at (q_Points (lob (2 * k - 1)%nat)) 0 (1 + i)) = u (nv + e * (k - 1) + i)%nat) ->
      act (ld_VanderKp1EdgeProjections l) u (nv + k * e + q) = f (m_at (q_Points (lob (2 * k + 1)%nat)) 0 (1 + q)));
  ff_D : exists D0 D1, ld_Dmatrix l = [D0; D1] /\ forall d, (d < 2)%nat -> m_rows (nth d [D0; D1] (mzero 0 0)) = N /\ m_cols (nth d [D0; D1] (mzero 0 0)) = Nk /\
    (forall e q j, (e < 2)%nat -> (q < ns)%nat -> (j < Nk)%nat -> m_at (nth d [D0; D1] (mzero 0 0)) (e * ns + q) j = if (e =? d)%nat then ph j (m_at (boundary_points l') 0 q) (m_at (boundary_points l') 1 q) else 0) /\
    (forall c j, (c < n3 k)%nat -> (j < Nk)%nat -> m_at (nth d [D0; D1] (mzero 0 0)) (nb + c) j = I (fun x y => (if (d =? 0)%nat then sy y else - sx x) * ph c x y * ph j x y)) /\
    (forall c j, (c < nd)%nat -> (j < Nk)%nat -> m_at (nth d [D0; D1] (mzero 0 0)) (nb + n3 k + c) j = I (fun x y => ph (1 + c) x y * (if (d =? 0)%nat then phx j x y else phy j x y)));
  ff_W : m_rows (ld_Wmatrix l) = (1 + nd)%nat /\ m_cols (ld_Wmatrix l) = N /\
    (forall u, act (ld_Wmatrix l) u 0 = edsum 0 0 (fun _ _ => 1) u + edsum 1 1 (fun _ _ => 1) u) /\
    (forall u c, (c < nd)%nat -> act (ld_Wmatrix l) u (1 + c) = u (nb + n3 k + c)%nat);
  ff_V : m_rows (ld_Vmatrix l) = (1 + nd)%nat /\ m_cols (ld_Vmatrix l) = N /\
    match v with
    | Full => exact_for positive_definite llt -> forall u i, (i < Nm)%nat -> I (fun x y => ph i x y * pol (1 + nd) (ld_Vmatrix l) u x y) = act (ld_Wmatrix l) u i
    | Reduced => forall u, act (ld_Vmatrix l) u 0 = 1 / pg_Measure p * act (ld_Wmatrix l) u 0
    end;
  ff_C : exists C0 C1, ld_Cmatrix l = [C0; C1] /\ m_rows C0 = Nk /\ m_cols C0 = N /\ m_rows C1 = Nk /\ m_cols C1 = N /\
    (forall u i, (i < Nk)%nat -> act C0 u i = h * inv_s i * beta l u (ix (ea i + 1) (eb i)) + (if (0 <? eb i)%nat then INR (eb i) * inv_s i * gamma l u (ix (ea i) (eb i - 1)) else 0)) /\
    (forall u i, (i < Nk)%nat -> act C1 u i = h * inv_s i * beta l u (ix (ea i) (eb i + 1)) - (if (0 <? ea i)%nat then INR (ea i) * inv_s i * gamma l u (ix (ea i - 1) (eb i)) else 0));
  ff_Ck : exists C0 C1, ld_Cmatrixkm2 l = [C0; C1] /\ m_rows C0 = N2 /\ m_cols C0 = N /\ m_rows C1 = N2 /\ m_cols C1 = N /\
    (forall u i, (i < N2)%nat -> act C0 u i = act (of_list (ld_Cmatrix l) 0) u i /\ act C1 u i = act (of_list (ld_Cmatrix l) 1) u i);
  ff_Pi : exists Q0 Q1, ld_PiNabla l = [Q0; Q1] /\ forall d, (d < 2)%nat -> let P := of_list [Q0; Q1] d in m_rows P = Nk /\ m_cols P = N /\
    (exact_for nonsingular lu -> forall u, I (pol Nk P u) = act (of_list (ld_Cmatrix l) d) u 0 /\
      forall i, (0 < i < Nk)%nat -> I (fun x y => phx i x y * rsum Nk (fun j => act P u j * phx j x y)) + I (fun x y => phy i x y * rsum Nk (fun j => act P u j * phy j x y)) =
        edsum 0 d (phx i) u + edsum 1 d (phy i) u - 1 / (h * h) * rsum N2 (fun c => dd i c * act (of_list (ld_Cmatrix l) d) u c));
  ff_Pk : exists Q0 Q1, ld_Pi0k l = [Q0; Q1] /\ forall d, (d < 2)%nat -> let P := of_list [Q0; Q1] d in m_rows P = Nk /\ m_cols P = N /\
    (exact_for positive_definite llt -> forall u i, (i < Nk)%nat -> I (fun x y => ph i x y * pol Nk P u x y) = act (of_list (ld_Cmatrix l) d) u i);
  ff_P2 : exists Q0 Q1, ld_Pi0km2 l = [Q0; Q1] /\ forall d, (d < 2)%nat -> let P := of_list [Q0; Q1] d in m_rows P = N2 /\ m_cols P = N /\
    (exact_for positive_definite llt -> forall u i, (i < N2)%nat -> I (fun x y => ph i x y * pol N2 P u x y) = act (of_list (ld_Cmatrix l) d) u i);
  ff_F : exists F00 F01 F10 F11, ld_Pi0km1Der l = [F00; F01; F10; F11] /\ forall d e, (d < 2)%nat -> (e < 2)%nat -> let P := of_list [F00; F01; F10; F11] (2 * d + e) in m_rows P = Nm /\ m_cols P = N /\
    (exact_for positive_definite llt -> forall u i, (i < Nm)%nat -> I (fun x y => ph i x y * pol Nm P u x y) =
      edsum e d (ph i) u - 1 / h * rsum N2 (fun c => (if (e =? 0)%nat then d0 i c else d1 i c) * act (of_list (ld_Cmatrix l) d) u c)) }.

Lemma nv_2 : (2 <= nv)%nat.
Proof.
  destruct (Nat.le_gt_cases 2 nv) as [|C]; auto. exfalso. pose proof (gp_area _ GP) as A. unfold shoelace in A. rewrite rsum_0 in A; [lra|]. intros i Hi. cbv zeta.
  assert (i = 0%nat) by (unfold nv in C; lia). subst i. assert (F : following (m_cols (pg_Vertices p)) 0 = 0%nat). { unfold following. replace (m_cols (pg_Vertices p)) with 1%nat by (unfold nv in C; lia). reflexivity. }
  rewrite F. ring.
Qed.

(** the values of the edge functions *)
Lemma edge_values_ok : exists EF, df_edge_values junk k {| v_size := k - 1; v_at := fun j => m_at (q_Points (lob (2 * k - 1)%nat)) 0 (1 + j) |} {| v_size := k; v_at := fun j => m_at (q_Points (lob (2 * k + 1)%nat)) 0 (1 + j) |} = Ok EF /\
  m_rows EF = k /\ m_cols EF = (k + 1)%nat /\
  forall f q, is_poly (k + 1) f -> (q < k)%nat ->
    m_at EF q 0 * f 0 + m_at EF q 1 * f 1 + rsum (k - 1) (fun i => m_at EF q (2 + i) * f (m_at (q_Points (lob (2 * k - 1)%nat)) 0 (1 + i))) = f (m_at (q_Points (lob (2 * k + 1)%nat)) 0 (1 + q)).
Proof.
  unfold df_edge_values, joined. cbn [ends01 v_size]. rewrite (proj2 (Nat.eqb_eq (2 + (k - 1)) (k + 1)) ltac:(lia)). cbn [bind].
  set (x := {| v_size := (k + 1)%nat; v_at := _ |}). pose proof (gr_edge_first _ _ _ GR) as X0. pose proof (gr_edge_last _ _ _ GR) as X1. pose proof (fr_distinct _ _ _ FR) as DX.
  set (pos := fun i : nat => match i with 0%nat => 0%nat | 1%nat => k | S (S m) => (1 + m)%nat end).
  assert (XV : forall i, (i < k + 1)%nat -> v_at x i = m_at (q_Points (lob (2 * k - 1)%nat)) 0 (pos i)).
  { intros [|[|i]] Hi; cbn [x v_at ends01 v_size pos].
    - rewrite X0. reflexivity.
    - rewrite X1. reflexivity.
    - rewrite ltb_false by lia. do 2 f_equal. lia. }
  assert (D : distinct (v_size x) (v_at x)).
  { intros i j Hi Hj E. cbn [x v_size] in Hi, Hj. rewrite !XV in E by auto. apply DX in E; [| |]; destruct i as [|[|i]], j as [|[|j]]; cbn [pos] in *; lia. }
  destruct (lagrange_ok junk x {| v_size := k; v_at := fun j => m_at (q_Points (lob (2 * k + 1)%nat)) 0 (1 + j) |} D) as (c & EF & E1' & E2' & sc & r & cc & VV). rewrite E1'. cbn [bind]. cbn [v_size x] in r, cc.
  exists EF. split; [exact E2'|]. split; [exact r|]. split; [exact cc|]. intros f q Pf Hq.
  rewrite <- (lagrange_reproduces (k + 1) (v_at x) f (m_at (q_Points (lob (2 * k + 1)%nat)) 0 (1 + q)) D Pf). cbn [v_size v_at] in VV.
  rewrite (rsum_ext (k + 1) _ (fun i => m_at EF q i * f (v_at x i))) by (intros i Hi; rewrite VV by auto; cbn [x v_size]; ring).
  replace (k + 1)%nat with (2 + (k - 1))%nat at 1 by lia. rewrite rsum_add. cbn [rsum]. rewrite (XV 0%nat), (XV 1%nat) by lia. cbn [pos]. rewrite X0, X1. rewrite Rplus_0_l. f_equal.
  apply rsum_ext. intros i Hi. rewrite (XV (2 + i)%nat) by lia. reflexivity.
Qed.

Lemma I_ex f g : (forall x y, f x y = g x y) -> I f = I g. Proof. intros E. apply apply_ext. intros; apply E. Qed.
Lemma I_pl f g : I (fun x y => f x y + g x y) = I f + I g. Proof. apply apply_plus. Qed.
Lemma I_sc c f : I (fun x y => c * f x y) = c * I f. Proof. apply apply_scal. Qed.
Lemma I_rs n (f : nat -> R -> R -> R) : I (fun x y => rsum n (fun i => f i x y)) = rsum n (fun i => I (f i)).
Proof. unfold I, fI. apply apply_rsum. Qed.
Lemma I_comb n (a : nat -> R) (f : R -> R -> R) (g : nat -> R -> R -> R) : I (fun x y => f x y * rsum n (fun j => a j * g j x y)) = rsum n (fun j => I (fun x y => f x y * g j x y) * a j).
Proof.
  rewrite (I_ex _ (fun x y => rsum n (fun j => a j * (f x y * g j x y)))) by (intros; rewrite <- rsum_scal; apply rsum_ext; intros; ring).
  rewrite I_rs. apply rsum_ext. intros j _. rewrite I_sc. ring.
Qed.

Lemma solved n A X B u i : (forall i l, (i < num2 n)%nat -> (l < num2 n)%nat -> m_at A i l = I (fun x y => ph i x y * ph l x y)) -> (i < num2 n)%nat ->
  rsum (num2 n) (fun l => m_at A i l * act X u l) = act B u i -> I (fun x y => ph i x y * pol (num2 n) X u x y) = act B u i.
Proof. intros HA Hi <-. unfold pol. rewrite I_comb. apply rsum_ext. intros l Hl. rewrite HA by auto. reflexivity. Qed.

Lemma sizes : ((k + 3) * (k + 2) / 2)%nat = Np /\ ((k + 1) * (k + 2) / 2)%nat = Nk /\ (k * (k + 1) / 2)%nat = Nm /\ ((k - 1) * k / 2)%nat = N2.
Proof.
  unfold Np, Nk, Nm, N2. split; [|split; [|split]].
  - replace ((k + 3) * (k + 2))%nat with ((k + 1 + 1) * (k + 1 + 2))%nat by lia. apply half_0.
  - apply half_0.
  - rewrite <- half_0. replace (k - 1 + 1)%nat with k by lia. replace (k - 1 + 2)%nat with (k + 1)%nat by lia. reflexivity.
  - rewrite <- half_0. replace (k - 2 + 1)%nat with (k - 1)%nat by lia. replace (k - 2 + 2)%nat with k by lia. reflexivity.
Qed.
Lemma n3_Nm : (n3 k <= N2)%nat.
Proof. destruct (Nat.le_gt_cases (n3 k) N2) as [|C]; auto. apply (n3_lt gt lob k FR) in C. assert (~ (N2 < N2)%nat) as X by lia. exfalso. apply X. unfold N2 at 2. apply ab_lt. lia. Qed.
Lemma nd_case : match v with Full => Nm = (1 + nd)%nat | Reduced => nd = 0%nat end.
Proof. unfold nd, ndiv_of, Nm. destruct v; auto. pose proof (num2_pos (k - 1)). lia. Qed.

Lemma nd_le : (1 + nd <= Nm)%nat.
Proof. unfold nd, ndiv_of, Nm. pose proof (num2_pos (k - 1)). destruct v; lia. Qed.
Lemma nd_full : match v with Full => (1 + nd <= Nk)%nat | Reduced => nd = 0%nat end.
Proof. pose proof nd_le. assert (Nm <= Nk)%nat by (apply num2_mono; lia). unfold nd, ndiv_of in *. destruct v; auto; lia. Qed.
Lemma ncol_eq : match v with Full => Nm | Reduced => 1%nat end = (1 + nd)%nat.
Proof. pose proof nd_case as ND. unfold nd, ndiv_of, Nm in *. destruct v; auto. Qed.

(** the sum over the interior rule *)
Lemma I_sum f : I f = rsum (v_size (q_Weights (lv_InternalQuadrature l'))) (fun q => v_at (q_Weights (lv_InternalQuadrature l')) q * f (m_at (q_Points (lv_InternalQuadrature l')) 0 q) (m_at (q_Points (lv_InternalQuadrature l')) 1 q)).
Proof. reflexivity. Qed.

Lemma df_local_ok ref : dref_facts v gt lob k ref -> exists l, DF_CreateLocalSpace v junk lu llt ref p = Ok l /\ df_facts l.
Proof.
  intros RF. destruct (df_gb _ _ _ _ _ RF) as (Gr0 & P0 & Gr1 & P1 & GF). destruct sizes as (S1 & S2 & S3 & S4). pose proof n3_Nm as L3. pose proof nv_2 as NV. pose proof nd_case as ND.
  assert (L2 : (N2 <= Nm)%nat) by (apply num2_mono; lia). assert (L1 : (Nm <= Nk)%nat) by (apply num2_mono; lia). assert (L0 : (Nk <= Np)%nat) by (apply num2_mono; lia).
  assert (PosN2 : (0 < N2)%nat) by apply num2_pos.
  unfold DF_CreateLocalSpace. cbv zeta. rewrite (df_quad _ _ _ _ _ RF). cbn [dq_base vq_ReferenceTriangleQuadrature vq_ReferenceEdgeDOFsInternalPoints vq_ReferenceEdgeDOFsInternalWeights vq_ReferenceEdgeDOFsExtremaWeights
    dq_ReferenceSegmentInternalPoints dq_ReferenceSegmentInternalWeights dq_ReferenceSegmentExtremaWeights]. rewrite (df_order _ _ _ _ _ RF), (df_n1 _ _ _ _ _ RF), (df_ndiv _ _ _ _ _ RF), (df_nbig _ _ _ _ _ RF), (df_dim _ _ _ _ _ RF).
  rewrite S1, S2, S3, S4. change ((k - 2) * (k - 1) / 2)%nat with (n3 k). rewrite EI. cbn [bind].
  destruct (lobatto_full junk (inner_points (lob (2 * k + 1)%nat) k) (inner_weights (lob (2 * k + 1)%nat) k) (end_weights (lob (2 * k + 1)%nat) k) (pg_Vertices p) (pg_EdgesLength p) (pg_EdgesDirection p) (pg_EdgesTangent p) (pg_EdgesNormal p))
    as (BQ & EBQ & bRule & bCols & bLen & bSize & _); [split; cbn [inner_points inner_weights v_size m_cols m_rows]; [reflexivity|lia]|apply (gp_edges _ GP)|apply (gp_tangents _ GP)|].
  cbn [inner_points m_cols] in bCols, bSize. rewrite EBQ. cbn [bind]. rewrite EB. cbn [bind].
  fold nv h. set (IQ := lv_InternalQuadrature l') in *. set (ED := lv_BoundaryQuadrature l') in *.
  pose proof (lf_IQ _ _ _ _ _ _ LF) as (iR & iS). fold IQ in iR, iS. pose proof (lf_BQ _ _ _ _ _ _ LF) as (eR & eS). fold ED in eR, eS. pose proof (lf_BQn _ _ _ _ _ _ LF) as eN. unfold boundary_points in eN. fold ED in eN.
  pose proof (lf_wN _ _ _ _ _ _ LF) as eW. fold ED in eW. destruct bRule as (bR & bS).
  assert (LE : length (eq_WeightsTimesNormal ED) = 2%nat).
  { destruct (lobatto_full junk (inner_points (lob (2 * k - 1)%nat) (k - 1)) (inner_weights (lob (2 * k - 1)%nat) (k - 1)) (end_weights (lob (2 * k - 1)%nat) (k - 1)) (pg_Vertices p) (pg_EdgesLength p) (pg_EdgesDirection p) (pg_EdgesTangent p) (pg_EdgesNormal p))
      as (ED' & EED & _ & _ & Len & _); [split; cbn [inner_points inner_weights v_size m_cols m_rows]; [reflexivity|lia]|apply (gp_edges _ GP)|apply (gp_tangents _ GP)|]. rewrite EB in EED. injection EED as <-. exact Len. }
  destruct (vander_m (k + 1) (gb_monomials (rd_GBasis ref)) (gf_mono _ _ _ _ _ _ GF) junk (q_Points IQ) (pg_Centroid p) h iR Hh) as (VIp & EVIp & vir & vic & vie). rewrite EVIp. cbn [bind].
  fold cx cy Np in vic, vie. rewrite leftCols_ex by lia. cbn [bind]. set (VI := {| m_rows := m_rows VIp; m_cols := Nk; m_at := m_at VIp |}).
  assert (VIr : m_rows VI = v_size (q_Weights IQ)) by (cbn [VI m_rows]; congruence). assert (VIc : m_cols VI = Nk) by reflexivity.
  destruct (der_entries k (rd_Monomials ref) junk (q_Points IQ) (pg_Centroid p) h VI (df_mono _ _ _ _ _ RF) Hh vir eq_refl) as (VID & VID0 & VID1 & EVID & -> & d0r & d0c & d1r & d1c & d0e & d1e).
  { intros q i Hi. cbn [VI m_at]. apply vie. fold Nk in Hi. lia. }
  rewrite EVID. cbn [bind]. fold cx cy Nk in d0c, d1c, d0e, d1e.
  destruct (vander_m k (rd_Monomials ref) (df_mono _ _ _ _ _ RF) junk (q_Points (eq_Quadrature ED)) (pg_Centroid p) h eR Hh) as (VB & EVB & vbr & vbc & vbe). rewrite EVB. cbn [bind]. fold cx cy Nk in vbc, vbe.
  destruct (der_entries k (rd_Monomials ref) junk (q_Points (eq_Quadrature ED)) (pg_Centroid p) h VB (df_mono _ _ _ _ _ RF) Hh vbr vbc vbe) as (VBD & VBD0 & VBD1 & EVBD & -> & e0r & e0c & e1r & e1c & e0e & e1e).
  rewrite EVBD. cbn [bind]. fold cx cy Nk in e0c, e1c, e0e, e1e.
  destruct (vander_m (k + 1) (gb_monomials (rd_GBasis ref)) (gf_mono _ _ _ _ _ _ GF) junk (q_Points (eq_Quadrature BQ)) (pg_Centroid p) h bR Hh) as (VBp & EVBp & vpr & vpc & vpe). rewrite EVBp. cbn [bind]. fold cx cy Np in vpc, vpe.
  destruct (C34_vander_all k (rd_GBasis ref) VI (fun q => scaled (pg_Centroid p) h (pt (q_Points IQ) q)) (df_gbc _ _ _ _ _ RF)) as (VG0 & VG1 & EVG & g0r & g0c & g1r & g1c & ge).
  { cbn [VI m_cols]. unfold Nk. assert (num2 1 <= num2 k)%nat by (apply num2_mono; lia). change (num2 1) with 3%nat in *. lia. }
  { cbn [VI m_cols]. rewrite (gf_Nkm1 _ _ _ _ _ _ GF), (gf_Nkp1 _ _ _ _ _ _ GF). fold Nm Np. lia. }
  { intros q i Hq Hi. cbn [VI m_cols m_at] in *. rewrite vie by lia. symmetry. apply (mono_phi (k + 1) _ (gf_mono _ _ _ _ _ _ GF) (pg_Centroid p) h i (pt (q_Points IQ) q)). fold Np. lia. }
  rewrite (gf_Nkm1 _ _ _ _ _ _ GF) in g0c, g1c, ge. fold Nm in g0c, g1c, ge. cbn [VI m_rows] in g0r, g1r, ge.
  assert (ge0 : forall q i, (q < m_cols (q_Points IQ))%nat -> (i < Nm)%nat -> m_at VG0 q i = sy (m_at (q_Points IQ) 1 q) * ph i (m_at (q_Points IQ) 0 q) (m_at (q_Points IQ) 1 q)).
  { intros q i Hq Hi. rewrite (proj1 (ge q i ltac:(lia) Hi)). rewrite (mono_phi (k + 1) _ (gf_mono _ _ _ _ _ _ GF) (pg_Centroid p) h i (pt (q_Points IQ) q)) by (fold Np; lia). reflexivity. }
  assert (ge1 : forall q i, (q < m_cols (q_Points IQ))%nat -> (i < Nm)%nat -> m_at VG1 q i = - sx (m_at (q_Points IQ) 0 q) * ph i (m_at (q_Points IQ) 0 q) (m_at (q_Points IQ) 1 q)).
  { intros q i Hq Hi. rewrite (proj2 (ge q i ltac:(lia) Hi)). rewrite (mono_phi (k + 1) _ (gf_mono _ _ _ _ _ _ GF) (pg_Centroid p) h i (pt (q_Points IQ) q)) by (fold Np; lia). reflexivity. }
  rewrite EVG. cbn [bind idx_ nth_error]. rewrite !leftCols_ex by lia. cbn [bind].
  rewrite !first_row_ex by (cbn [inner_points m_rows]; lia). cbn [bind]. cbn [inner_points m_cols m_at].
  destruct edge_values_ok as (EF & EEF & efr & efc & efe). rewrite EEF. cbn [bind v_size].
  destruct (edge_projections_ok k nv (pg_EdgesDirection p) EF Hk NV (ed_dirs _ _ _ _ _ (gp_edges _ GP)) efr efc) as (K & EK & Kr & Kc & K1 & K2). rewrite EK. cbn [bind]. fold ns in Kc.
  assert (NNW : forall q, (q < v_size (q_Weights IQ))%nat -> 0 <= v_at (q_Weights IQ) q).
  { apply (internal_nonneg _ _ _ (gr_triangle _ _ _ GR) (proj1 (gp_triangulation _ GP)) EI (fr_weights _ _ _ FR)). }
  rewrite vsqrt_ok by exact NNW. cbn [bind].
  destruct (gram_ok (q_Weights IQ) VIp NNW) as (Hp & EHp & hr & hc & he); [congruence|]. rewrite EHp. cbn [bind].
  rewrite corner_ex by lia. cbn [bind]. set (H := corner Hp Nk). assert (Hr : m_rows H = Nk) by reflexivity. assert (Hc : m_cols H = Nk) by reflexivity.
  assert (hpe : forall i j, (i < Np)%nat -> (j < Np)%nat -> m_at Hp i j = I (fun x y => ph i x y * ph j x y)).
  { intros i j Hi Hj. rewrite he, I_sum. fold IQ. apply rsum_ext. intros q _. rewrite !vie by auto. reflexivity. }
  assert (HPD : forall n, (n <= k)%nat -> positive_definite (corner H (num2 n))).
  { intros n Hn. assert (num2 n <= Nk)%nat by (apply num2_mono; auto). apply (pd_ext_in (corner (lv_Hmatrix l') (num2 n))); [apply (H_pd gt lob k p lu llt l' ltac:(lia) GR GP LF n Hn)| | |]; try reflexivity.
    cbn [corner m_rows m_cols m_at H]. intros i j Hi Hj. rewrite hpe by lia. apply (Hij gt k p lu llt l' LF); fold Nk; lia. }
  destruct (eq_WeightsTimesNormal ED) as [|eN0 [|eN1 [|]]] eqn:EEN; try discriminate LE. destruct (eq_WeightsTimesNormal BQ) as [|bN0 [|bN1 [|]]] eqn:EBN; try discriminate bLen.
  cbn [idx_ nth_error bind]. fold nv in bCols, bSize, eN, eW. fold ns in eN, eW.
  assert (w0 : normal_weights ED 0 = eN0) by (unfold normal_weights; rewrite EEN; reflexivity). assert (w1 : normal_weights ED 1 = eN1) by (unfold normal_weights; rewrite EEN; reflexivity).
  assert (y0 : normal_weights BQ 0 = bN0) by (unfold normal_weights; rewrite EBN; reflexivity). assert (y1 : normal_weights BQ 1 = bN1) by (unfold normal_weights; rewrite EBN; reflexivity).
  pose proof (eW 0%nat ltac:(lia)) as w0s. pose proof (eW 1%nat ltac:(lia)) as w1s. pose proof (bSize 0%nat ltac:(lia)) as y0s. pose proof (bSize 1%nat ltac:(lia)) as y1s. rewrite w0 in w0s. rewrite w1 in w1s. rewrite y0 in y0s. rewrite y1 in y1s.
  fold ns nd. fold nb. fold N.
  destruct (Dmatrix_ok v ns nb (n3 k) nd N Nk (q_Weights IQ) VB VI {| m_rows := m_rows VG0; m_cols := n3 k; m_at := m_at VG0 |} VID0 0 (v_size (q_Weights IQ))) as (D0 & ED0 & D0r & D0c & D0a & D0b & D0d); mfields; try exact nd_full; try congruence; try reflexivity; try lia.
  rewrite ED0. cbn [bind].
  destruct (Dmatrix_ok v ns nb (n3 k) nd N Nk (q_Weights IQ) VB VI {| m_rows := m_rows VG1; m_cols := n3 k; m_at := m_at VG1 |} VID1 1 (v_size (q_Weights IQ))) as (D1 & ED1 & D1r & D1c & D1a & D1b & D1d); mfields; try exact nd_full; try congruence; try reflexivity; try lia.
  rewrite ED1. cbn [bind].
  destruct (Divergence_ok v llt (pg_Measure p) ns nb (n3 k) nd N Nm eN0 eN1 H) as (W & V & EW & Wr & Wc & Vr & Vc & W0 & W1 & Va); cbn [corner m_rows m_cols]; try congruence; try reflexivity; try lia; auto.
  rewrite EW. cbn [bind]. rewrite (gf_list _ _ _ _ _ _ GF). cbn [idx_ nth_error bind].
  destruct (gf_size _ _ _ _ _ _ GF) as (gr0 & gc0 & pr0 & pc0 & gr1 & gc1 & pr1 & pc1). fold Nk Np Nm in gr0, gc0, pr0, pc0, gr1, gc1, pr1, pc1.
  rewrite ncol_eq.
  assert (ND2 : (1 + nd <= Np)%nat) by (pose proof nd_le; lia).
  destruct (Cmatrix_ok (1 + nd) h ns nb (n3 k) N Np Nk (n3 k) (nv + k * nv) Gr0 P0 VBp bN0 bN1 K Hp V) as (C0 & EC0 & C0r & C0c & C0e); try congruence; try reflexivity; try lia.
  rewrite EC0. cbn [bind].
  destruct (Cmatrix_ok (1 + nd) h ns nb (n3 k) N Np Nk (n3 k) (nv + k * nv) Gr1 P1 VBp bN0 bN1 K Hp V) as (C1 & EC1 & C1r & C1c & C1e); try congruence; try reflexivity; try lia.
  rewrite EC1. cbn [bind]. rewrite !topRows_ex by lia. cbn [bind]. set (Ck0 := {| m_rows := N2; m_cols := m_cols C0; m_at := m_at C0 |}). set (Ck1 := {| m_rows := N2; m_cols := m_cols C1; m_at := m_at C1 |}).
  assert (Ck0r : m_rows Ck0 = N2) by reflexivity. assert (Ck1r : m_rows Ck1 = N2) by reflexivity. assert (Ck0c : m_cols Ck0 = N) by exact C0c. assert (Ck1c : m_cols Ck1 = N) by exact C1c.
  destruct (Gmatrix_ok (pg_Measure p) (q_Weights IQ) VI VID0 VID1 (v_size (q_Weights IQ)) Nk) as (G & EG & Gr & Gc & Ge0 & Ge1); mfields; try congruence; try lia. rewrite EG. cbn [bind].
  destruct (der_m k (rd_Monomials ref) (df_mono _ _ _ _ _ RF)) as (Dx & Dy & EDM & Dxr & Dxc & Dyr & Dyc & Dxe & Dye & Lr & Lc & Le). fold Nk in Dxr, Dxc, Dyr, Dyc, Dxe, Dye, Lr, Lc, Le.
  assert (NB : N = (2 * ns + (nd + n3 k))%nat) by reflexivity.
  destruct (Bmatrix_ok (pg_Measure p) h ns N Nk N2 0 (Laplacian (rd_Monomials ref)) VBD0 VBD1 eN0 eN1 Ck0) as (B0 & EB0 & B0r & B0c & B0e); mfields; try congruence; try lia. rewrite EB0. cbn [bind].
  destruct (Bmatrix_ok (pg_Measure p) h ns N Nk N2 1 (Laplacian (rd_Monomials ref)) VBD0 VBD1 eN0 eN1 Ck1) as (B1 & EB1 & B1r & B1c & B1e); mfields; try congruence; try lia. rewrite EB1. cbn [bind].
  destruct (msolve_ok nonsingular lu G B0) as (Q0 & EQ0 & Q0r & Q0c & Q0e); try congruence. rewrite EQ0. cbn [bind].
  destruct (msolve_ok nonsingular lu G B1) as (Q1 & EQ1 & Q1r & Q1c & Q1e); try congruence. rewrite EQ1. cbn [bind].
  destruct (enhanced_ok N Nk Nm (n3 k) (q_Weights IQ) VI VG0 VG1 Q0 Q1 (v_size (q_Weights IQ))) as (TE & ETE & TEr & TEc & TEe); mfields; try congruence; try lia. rewrite ETE. cbn [bind].
  destruct (enhance_C_ok N Nk Nm N2 (n3 k) P0 C0 TE) as (CC0 & ECC0 & CC0r & CC0c & CC0a & CC0b); try congruence; try lia. rewrite ECC0. cbn [bind].
  destruct (enhance_C_ok N Nk Nm N2 (n3 k) P1 C1 TE) as (CC1 & ECC1 & CC1r & CC1c & CC1a & CC1b); try congruence; try lia. rewrite ECC1. cbn [bind].
  destruct (msolve_ok positive_definite llt H CC0) as (T0 & ET0 & T0r & T0c & T0e); cbn [corner m_rows m_cols]; try congruence. rewrite ET0. cbn [bind].
  destruct (msolve_ok positive_definite llt H CC1) as (T1 & ET1 & T1r & T1c & T1e); cbn [corner m_rows m_cols]; try congruence. rewrite ET1. cbn [bind].
  rewrite (corner_ex H N2) by (cbn [H corner m_rows m_cols]; lia). cbn [bind].
  destruct (msolve_ok positive_definite llt (corner H N2) Ck0) as (U0 & EU0 & U0r & U0c & U0e); cbn [corner m_rows m_cols]; try congruence. rewrite EU0. cbn [bind].
  destruct (msolve_ok positive_definite llt (corner H N2) Ck1) as (U1 & EU1 & U1r & U1c & U1e); cbn [corner m_rows m_cols]; try congruence. rewrite EU1. cbn [bind].
  rewrite EDM. cbn [idx_ nth_error bind].
  destruct (Ematrix_ok h ns N Nm N2 0 Dx VB eN0 Ck0) as (E00 & EE00 & E00r & E00c & E00e); mfields; try congruence; try lia. rewrite EE00. cbn [bind].
  destruct (Ematrix_ok h ns N Nm N2 0 Dy VB eN1 Ck0) as (E01 & EE01 & E01r & E01c & E01e); mfields; try congruence; try lia. rewrite EE01. cbn [bind].
  destruct (Ematrix_ok h ns N Nm N2 1 Dx VB eN0 Ck1) as (E10 & EE10 & E10r & E10c & E10e); mfields; try congruence; try lia. rewrite EE10. cbn [bind].
  destruct (Ematrix_ok h ns N Nm N2 1 Dy VB eN1 Ck1) as (E11 & EE11 & E11r & E11c & E11e); mfields; try congruence; try lia. rewrite EE11. cbn [bind].
  rewrite (corner_ex H Nm) by (cbn [H corner m_rows m_cols]; lia). cbn [bind].
  destruct (msolve_ok positive_definite llt (corner H Nm) E00) as (F00 & EF00 & F00r & F00c & F00e); cbn [corner m_rows m_cols]; try congruence. rewrite EF00. cbn [bind].
  destruct (msolve_ok positive_definite llt (corner H Nm) E01) as (F01 & EF01 & F01r & F01c & F01e); cbn [corner m_rows m_cols]; try congruence. rewrite EF01. cbn [bind].
  destruct (msolve_ok positive_definite llt (corner H Nm) E10) as (F10 & EF10 & F10r & F10c & F10e); cbn [corner m_rows m_cols]; try congruence. rewrite EF10. cbn [bind].
  destruct (msolve_ok positive_definite llt (corner H Nm) E11) as (F11 & EF11 & F11r & F11c & F11e); cbn [corner m_rows m_cols]; try congruence. rewrite EF11. cbn [bind].
  eexists. split; [reflexivity|].
  cbn [corner m_rows m_cols] in U0r, U1r, F00r, F01r, F10r, F11r.
  match goal with |- df_facts ?L => set (l := L) end.
  (** sums *)
  assert (bsums : forall (f : nat -> R), apply_rule bN0 f = rsum (nv + k * nv) (fun q => v_at bN0 q * f q) /\ apply_rule bN1 f = rsum (nv + k * nv) (fun q => v_at bN1 q * f q)) by (intros f; unfold apply_rule; rewrite y0s, y1s; auto).
  assert (esums : forall (f : nat -> R), apply_rule eN0 f = rsum ns (fun q => v_at eN0 q * f q) /\ apply_rule eN1 f = rsum ns (fun q => v_at eN1 q * f q)) by (intros f; unfold apply_rule; rewrite w0s, w1s; auto).
  assert (BETA : forall u t, (t < Np)%nat -> rsum (nv + k * nv) (fun q => m_at VBp q t * (v_at bN0 q * act K u q + v_at bN1 q * act K (fun j => u (ns + j)%nat) q)) - rsum (1 + nd) (fun c => m_at Hp t c * act V u c) = beta l u t).
  { intros u t Ht. unfold beta. f_equal; [|f_equal].
    - unfold bqsum. cbn [l ld_BoundaryQuadrature ld_VanderKp1EdgeProjections]. rewrite y0, y1, (proj1 (bsums _)), (proj2 (bsums _)), <- rsum_plus. apply rsum_ext. intros q Hq. rewrite vpe by auto. ring.
    - unfold pol. cbn [l ld_Vmatrix]. rewrite I_comb. apply rsum_ext. intros c Hc'. rewrite hpe by lia. reflexivity. }
  assert (GAM : forall u c, (c < Nm - n3 k)%nat -> act TE u c = gamma l u (n3 k + c)).
  { intros u c Hc'. unfold gamma. rewrite ltb_false by lia. rewrite TEe. cbn [l ld_PiNabla of_list nth]. unfold pol. rewrite !(I_comb Nk). unfold Rminus. f_equal; [|rewrite <- rsum_opp]; apply rsum_ext; intros j Hj.
    - rewrite I_sum. fold IQ. f_equal. apply rsum_ext. intros q Hq. rewrite ge0 by lia. cbn [VI m_at]. rewrite vie by lia. ring.
    - rewrite <- Ropp_mult_distr_l_reverse. rewrite I_sum. fold IQ. f_equal. rewrite <- rsum_opp. apply rsum_ext. intros q Hq. rewrite ge1 by lia. cbn [VI m_at]. rewrite vie by lia. ring. }
  assert (CROW : forall Gr P C CC t1 a1 (b2 : bool) t2 a2 u i, (i < Nk)%nat -> (forall c, m_at Gr i c = if (c =? t1)%nat then a1 else 0) -> (forall c, m_at P i c = if (b2 && (c =? t2)%nat)%bool then a2 else 0) ->
    (1 <= t1 < Np)%nat -> (b2 = true -> (t2 < Nm)%nat /\ ((i < N2)%nat <-> (t2 < n3 k)%nat)) ->
    act C u i = rsum (Np - 1) (fun l0 => h * m_at Gr i (1 + l0) * (rsum (nv + k * nv) (fun q => m_at VBp q (1 + l0) * (v_at bN0 q * act K u q + v_at bN1 q * act K (fun j => u (ns + j)%nat) q)) - rsum (1 + nd) (fun c => m_at Hp (1 + l0) c * act V u c))) + rsum (n3 k) (fun c => m_at P i c * u (nb + c)%nat) ->
    ((i < N2)%nat -> act CC u i = act C u i) -> ((N2 <= i < Nk)%nat -> act CC u i = act C u i + rsum (Nm - n3 k) (fun c => m_at P i (n3 k + c) * act TE u c)) ->
    act CC u i = h * a1 * beta l u t1 + (if b2 then a2 * gamma l u t2 else 0)).
  { intros Gr' P C CC t1 a1 b2 t2 a2 u i Hi HG HP Ht1 Ht2 HC HA HB.
    rewrite (rsum_ext (Np - 1) _ (fun l0 => h * m_at Gr' i (1 + l0) * beta l u (1 + l0))) in HC by (intros l0 Hl0; rewrite BETA by lia; reflexivity).
    rewrite (rsum_single (Np - 1) _ (t1 - 1)) in HC; [|lia|intros j Hj Hn; rewrite HG; destruct (Nat.eqb_spec (1 + j) t1); [lia|ring]].
    rewrite HG in HC. replace (1 + (t1 - 1))%nat with t1 in HC by lia. rewrite Nat.eqb_refl in HC.
    destruct b2; cbn [andb] in HP.
    - destruct (Ht2 eq_refl) as (Ht & Hiff). destruct (Nat.ltb_spec i N2) as [Li|Li].
      + rewrite HA, HC by auto. f_equal. apply Hiff in Li. rewrite (rsum_single (n3 k) _ t2) by (first [assumption | intros j Hj Hn; rewrite HP; destruct (Nat.eqb_spec j t2); [lia|ring]]). rewrite HP, Nat.eqb_refl. unfold gamma. rewrite ltb_true by auto. reflexivity.
      + rewrite HB, HC by auto. assert (L3' : (n3 k <= t2)%nat) by (destruct (Nat.le_gt_cases (n3 k) t2); auto; exfalso; apply Hiff in H0; lia).
        rewrite (rsum_0 (n3 k)) by (intros j Hj; rewrite HP; destruct (Nat.eqb_spec j t2); [lia|ring]).
        rewrite (rsum_single (Nm - n3 k) _ (t2 - n3 k)) by (first [lia | intros j Hj Hn; rewrite HP; destruct (Nat.eqb_spec (n3 k + j) t2); [lia|ring]]). rewrite HP. replace (n3 k + (t2 - n3 k))%nat with t2 by lia. rewrite Nat.eqb_refl, GAM by lia.
        replace (n3 k + (t2 - n3 k))%nat with t2 by lia. ring.
    - rewrite (rsum_0 (n3 k)) in HC by (intros j Hj; rewrite HP; ring). destruct (Nat.ltb_spec i N2) as [Li|Li]; [rewrite HA, HC by auto; ring|]. rewrite HB, HC by auto. rewrite (rsum_0 (Nm - n3 k)) by (intros j Hj; rewrite HP; ring). ring. }
  assert (deg1 : forall a b, (a + b <= k + 1)%nat -> (1 <= a + b)%nat -> (1 <= ix a b < Np)%nat).
  { intros a b Hu Hl. split; [|unfold Np; apply ab_lt; rewrite ea_ix, eb_ix; lia]. destruct (ix a b) eqn:EX; [|lia]. exfalso. assert (X : (ix a b < num2 0)%nat) by (rewrite EX; apply num2_pos). apply ab_lt in X. rewrite ea_ix, eb_ix in X. lia. }
  assert (deg2 : forall a b i, (i < Nk)%nat -> (a + b + 1 = ea i + eb i)%nat -> (ix a b < Nm)%nat /\ ((i < N2)%nat <-> (ix a b < n3 k)%nat)).
  { intros a b i Hi He. unfold Nm, N2. rewrite !ab_lt, (n3_lt gt lob k FR), ea_ix, eb_ix. apply ab_lt in Hi. lia. }
  assert (CCE0 : forall u i, (i < Nk)%nat -> act CC0 u i = h * inv_s i * beta l u (ix (ea i + 1) (eb i)) + (if (0 <? eb i)%nat then INR (eb i) * inv_s i * gamma l u (ix (ea i) (eb i - 1)) else 0)).
  { intros u i Hi. pose proof (proj1 (ab_lt _ _) Hi) as Hd. apply (CROW Gr0 P0 C0 CC0); auto.
    - intros c. rewrite (gf_Gr0 _ _ _ _ _ _ GF) by auto. unfold inv_s, Rdiv. rewrite Rmult_1_l. reflexivity.
    - intros c. rewrite (gf_P0 _ _ _ _ _ _ GF) by auto. reflexivity.
    - apply deg1; lia.
    - intros Hb. apply Nat.ltb_lt in Hb. apply deg2; auto; lia. }
  assert (CCE1 : forall u i, (i < Nk)%nat -> act CC1 u i = h * inv_s i * beta l u (ix (ea i) (eb i + 1)) - (if (0 <? ea i)%nat then INR (ea i) * inv_s i * gamma l u (ix (ea i - 1) (eb i)) else 0)).
  { intros u i Hi. pose proof (proj1 (ab_lt _ _) Hi) as Hd. rewrite (CROW Gr1 P1 C1 CC1 (ix (ea i) (eb i + 1)) (inv_s i) (0 <? ea i)%nat (ix (ea i - 1) (eb i)) (- (INR (ea i) * inv_s i))); auto.
    - destruct (0 <? ea i)%nat; ring.
    - intros c. rewrite (gf_Gr1 _ _ _ _ _ _ GF) by auto. unfold inv_s, Rdiv. rewrite Rmult_1_l. reflexivity.
    - intros c. rewrite (gf_P1 _ _ _ _ _ _ GF) by auto. unfold inv_s. destruct (_ && _)%bool; auto. unfold Rdiv. ring.
    - apply deg1; lia.
    - intros Hb. apply Nat.ltb_lt in Hb. apply deg2; auto; lia. }
  (** the matrix of the gradients *)
  assert (GI0 : forall j, (j < Nk)%nat -> m_at G 0 j = 1 / pg_Measure p * I (ph j)).
  { intros j Hj. rewrite Ge0, I_sum. fold IQ. f_equal. apply rsum_ext. intros q _. cbn [VI m_at]. rewrite vie by lia. ring. }
  assert (GI1 : forall i j, (1 <= i < Nk)%nat -> (j < Nk)%nat -> m_at G i j = I (fun x y => phx i x y * phx j x y) + I (fun x y => phy i x y * phy j x y)).
  { intros i j Hi Hj. rewrite Ge1 by auto. rewrite !I_sum. fold IQ. f_equal; apply rsum_ext; intros q _; rewrite ?d0e, ?d1e by lia; ring. }
  assert (NG : nonsingular G).
  { destruct (G_nonsingular gt lob k p lu llt l' ltac:(lia) GR GP LF) as (_ & NS). split; [congruence|]. destruct (lf_G _ _ _ _ _ _ LF) as (R' & C' & G1 & G2). fold cx cy h I in G1, G2. fold Nk in R', C', G1, G2. rewrite R', C' in NS. rewrite Gr, Gc.
    intros x Z. apply NS. intros i Hi. rewrite <- (Z i Hi). destruct (Nat.eq_dec i 0) as [->|Hn].
    - pose proof (Z 0%nat Hi) as Z0. rewrite (rsum_ext Nk _ (fun j => 1 / pg_Measure p * (I (ph j) * x j))) in Z0 by (intros j Hj; rewrite GI0 by auto; ring). rewrite rsum_scal in Z0.
      apply Rmult_integral in Z0. destruct Z0 as [Z0|Z0]; [exfalso; apply Rmult_integral in Z0; destruct Z0 as [Z0|Z0]; [lra|]; apply (Rinv_neq_0_compat (pg_Measure p)) in Z0; auto; apply (gp_measure _ GP)|].
      rewrite (Z 0%nat Hi). rewrite <- Z0. apply rsum_ext. intros j Hj. rewrite G1 by auto. destruct (Nat.eqb_spec k 1); [lia|]. reflexivity.
    - apply rsum_ext. intros j Hj. rewrite G2, GI1 by lia. reflexivity. }
  assert (PIN : forall d C CC B Q, (d < 2)%nat -> (forall u i, (i < N2)%nat -> act CC u i = act C u i) ->
    (forall u i, (i < Nk)%nat -> act B u i = (if (i =? 0)%nat then 1 / pg_Measure p * act C u 0 else 0) + rsum ns (fun q => (m_at VBD0 q i * v_at eN0 q + m_at VBD1 q i * v_at eN1 q) * u (d * ns + q)%nat) + -1 / (h * h) * rsum N2 (fun c => m_at (Laplacian (rd_Monomials ref)) i c * act C u c)) ->
    (forall u i, (i < Nk)%nat -> rsum Nk (fun l0 => m_at G i l0 * act Q u l0) = act B u i) ->
    forall u, I (pol Nk Q u) = act CC u 0 /\
      forall i, (0 < i < Nk)%nat -> I (fun x y => phx i x y * rsum Nk (fun j => act Q u j * phx j x y)) + I (fun x y => phy i x y * rsum Nk (fun j => act Q u j * phy j x y)) =
        edsum 0 d (phx i) u + edsum 1 d (phy i) u - 1 / (h * h) * rsum N2 (fun c => dd i c * act CC u c)).
  { intros d C CC B Q Hd HCC HB HS u. split.
    - pose proof (HS u 0%nat ltac:(lia)) as E. rewrite HB in E by lia. cbn [Nat.eqb] in E.
      rewrite (rsum_0 ns) in E by (intros q Hq; rewrite e0e, e1e by lia; rewrite (proj1 (phix_0 p 0 _ _ eq_refl)), (proj2 (phix_0 p 0 _ _ eq_refl)); ring).
      rewrite (rsum_0 N2) in E by (intros c Hc'; rewrite Le by lia; unfold dd; change (ea 0) with 0%nat; change (eb 0) with 0%nat; cbn [Nat.ltb Nat.leb andb]; ring).
      rewrite (rsum_ext Nk _ (fun j => 1 / pg_Measure p * (I (ph j) * act Q u j))) in E by (intros j Hj; rewrite GI0 by auto; ring). rewrite rsum_scal, <- HCC in E by lia.
      rewrite (I_ex _ (fun x y => 1 * rsum Nk (fun j => act Q u j * ph j x y))) by (intros; unfold pol; ring). rewrite I_comb.
      rewrite (rsum_ext Nk _ (fun j => I (ph j) * act Q u j)) by (intros j Hj; f_equal; apply I_ex; intros; ring).
      apply (Rmult_eq_reg_l (1 / pg_Measure p)); [|unfold Rdiv; rewrite Rmult_1_l; apply Rinv_neq_0_compat; apply (gp_measure _ GP)]. rewrite E. ring.
    - intros i Hi. rewrite !I_comb, <- rsum_plus. rewrite (rsum_ext Nk _ (fun j => m_at G i j * act Q u j)) by (intros j Hj; rewrite GI1 by lia; ring). rewrite HS, HB by lia.
      destruct (Nat.eqb_spec i 0); [lia|]. rewrite Rplus_0_l. unfold Rminus. f_equal.
      + unfold edsum, boundary_points. fold ED. rewrite w0, w1, (proj1 (esums _)), (proj2 (esums _)), <- rsum_plus. apply rsum_ext. intros q Hq. rewrite e0e, e1e by lia. ring.
      + rewrite (rsum_ext N2 _ (fun c => dd i c * act CC u c)) by (intros c Hc'; rewrite Le, HCC by lia; reflexivity). unfold Rdiv. ring. }
  assert (FIN : forall d e (eD : nat -> nat -> R) eN C CC E F, (d < 2)%nat -> (e < 2)%nat -> normal_weights ED e = eN -> (forall u i, (i < N2)%nat -> act CC u i = act C u i) ->
    (forall u i, (i < Nm)%nat -> act E u i = - (1 / h) * rsum N2 (fun c => eD i c * act C u c) + rsum ns (fun q => m_at VB q i * v_at eN q * u (d * ns + q)%nat)) ->
    (forall i c, (i < Nm)%nat -> eD i c = if (e =? 0)%nat then d0 i c else d1 i c) ->
    (forall u i, (i < Nm)%nat -> rsum Nm (fun l0 => m_at Hp i l0 * act F u l0) = act E u i) ->
    forall u i, (i < Nm)%nat -> I (fun x y => ph i x y * pol Nm F u x y) = edsum e d (ph i) u - 1 / h * rsum N2 (fun c => (if (e =? 0)%nat then d0 i c else d1 i c) * act CC u c)).
  { intros d e eD eN' C CC E F Hd He EN' HCC HE HD HS u i Hi. transitivity (act E u i); [apply (solved (k - 1) Hp F E u i); [intros i' l0 Hi' Hl'; apply hpe; fold Nm in Hi', Hl'; lia|auto|apply HS; auto]|]. rewrite HE by auto.
    rewrite (rsum_ext N2 _ (fun c => (if (e =? 0)%nat then d0 i c else d1 i c) * act CC u c)) by (intros c Hc'; rewrite HD, HCC by lia; reflexivity). unfold edsum. fold ED. rewrite EN'. unfold apply_rule. rewrite <- EN', (eW e He).
    rewrite (rsum_ext ns (fun q => m_at VB q i * v_at (normal_weights ED e) q * u (d * ns + q)%nat) (fun q => v_at (normal_weights ED e) q * (ph i (m_at (boundary_points l') 0 q) (m_at (boundary_points l') 1 q) * u (d * ns + q)%nat))); [ring|].
    intros q Hq. rewrite vbe by lia. unfold boundary_points. fold ED. ring. }
  constructor; cbn [l ld_Dimension ld_Order ld_NumVertexBasisFunctions ld_NumEdgeBasisFunctions ld_NumBoundaryBasisFunctions ld_NumDivergenceInternalBasisFunctions ld_NumBigOPlusInternalBasisFunctions ld_NumInternalBasisFunctions ld_NumBasisFunctions
    ld_NKp1 ld_Nk ld_Nkm1 ld_Nkm2 ld_Nkm3 ld_InternalQuadrature ld_EdgesDOFs ld_BoundaryQuadrature ld_Diameter ld_Measure ld_Centroid ld_VanderInternal ld_VanderInternalDerivatives ld_VanderKp1EdgeProjections ld_Dmatrix ld_Wmatrix ld_Vmatrix ld_Cmatrix ld_Cmatrixkm2 ld_PiNabla ld_Pi0k ld_Pi0km2 ld_Pi0km1Der of_list nth]; auto.
  - split; [exact vir|]. split; [reflexivity|]. intros q i Hi. cbn [VI m_at]. apply vie. lia.
  - exists VID0, VID1. auto 10.
  - do 2 (split; [assumption|]). split; [exact K1|]. intros f u e q Pf He Hq F0 F1 Fi. rewrite K2 by auto. rewrite <- (efe f q Pf Hq). replace (k + 1)%nat with (2 + (k - 1))%nat by lia. rewrite rsum_add. cbn [rsum edge_node Nat.add].
    rewrite Rplus_0_l. unfold first_end, last_end, edge_first, edge_last in *. fold nv in F0, F1. rewrite <- F0, <- F1. f_equal. apply rsum_ext. intros i Hi. specialize (Fi i Hi). cbn [Nat.add] in Fi. rewrite Fi. reflexivity.
  - exists D0, D1. split; [reflexivity|]. intros d Hd. destruct d as [|[|]]; [| |lia]; cbn [Nat.eqb].
    + do 2 (split; [assumption|]). split; [|split].
      * intros e q j He Hq Hj. rewrite D0a by auto. destruct (e =? 0)%nat; [apply vbe; auto|reflexivity].
      * intros c j Hc' Hj. rewrite D0b, I_sum by auto. fold IQ. apply rsum_ext. intros q Hq. cbn [m_at VI]. rewrite ge0, vie by lia. ring.
      * intros c j Hc' Hj. rewrite D0d, I_sum by auto. fold IQ. apply rsum_ext. intros q Hq. cbn [m_at VI]. pose proof nd_le. rewrite d0e, vie by lia. ring.
    + do 2 (split; [assumption|]). split; [|split].
      * intros e q j He Hq Hj. rewrite D1a by auto. destruct (e =? 1)%nat; [apply vbe; auto|reflexivity].
      * intros c j Hc' Hj. rewrite D1b, I_sum by auto. fold IQ. apply rsum_ext. intros q Hq. cbn [m_at VI]. rewrite ge1, vie by lia. ring.
      * intros c j Hc' Hj. rewrite D1d, I_sum by auto. fold IQ. apply rsum_ext. intros q Hq. cbn [m_at VI]. pose proof nd_le. rewrite d1e, vie by lia. ring.
  - do 2 (split; [assumption|]). split; [|exact W1]. intros u. rewrite W0. unfold edsum. fold ED. rewrite w0, w1, (proj1 (esums _)), (proj2 (esums _)). f_equal; apply rsum_ext; intros q Hq; rewrite ?Nat.mul_0_l, ?Nat.mul_1_l; cbn [Nat.add]; ring.
  - do 2 (split; [assumption|]). pose proof (HPD (k - 1)%nat ltac:(lia)) as PDm. fold Nm in PDm. pose proof nd_case as ND'. clearbody nd. destruct v.
    + intros Ex u i Hi. rewrite <- ND'. apply (solved (k - 1) Hp V W u i); [intros i' l0 Hi' Hl'; apply hpe; fold Nm in Hi', Hl'; lia|auto|apply (Va Ex PDm u i Hi)].
    + intros u. apply Va.
  - exists CC0, CC1. auto 10.
  - exists Ck0, Ck1. do 5 (split; [reflexivity || assumption|]). intros u i Hi. rewrite CC0a, CC1a by auto. split; reflexivity.
  - exists Q0, Q1. split; [reflexivity|]. intros d Hd. destruct d as [|[|]]; [| |lia]; (split; [congruence|split; [congruence|]]); intros Ex.
    + apply (PIN 0%nat C0 CC0 B0 Q0); auto. intros u i Hi. rewrite <- (Q0e Ex NG u i) by lia. rewrite Gc. reflexivity.
    + apply (PIN 1%nat C1 CC1 B1 Q1); auto. intros u i Hi. rewrite <- (Q1e Ex NG u i) by lia. rewrite Gc. reflexivity.
  - assert (PDk : positive_definite H) by (apply (pd_ext (corner H Nk)); [apply (HPD k); auto| | |]; reflexivity).
    exists T0, T1. split; [reflexivity|]. intros d Hd. destruct d as [|[|]]; [| |lia]; (split; [congruence|split; [congruence|]]); intros Ex u i Hi.
    + apply (solved k Hp T0 CC0 u i); [intros i' l0 Hi' Hl'; apply hpe; fold Nk in Hi', Hl'; lia|auto|apply (T0e Ex PDk u i Hi)].
    + apply (solved k Hp T1 CC1 u i); [intros i' l0 Hi' Hl'; apply hpe; fold Nk in Hi', Hl'; lia|auto|apply (T1e Ex PDk u i Hi)].
  - pose proof (HPD (k - 2)%nat ltac:(lia)) as PD2. fold N2 in PD2.
    exists U0, U1. split; [reflexivity|]. intros d Hd. destruct d as [|[|]]; [| |lia]; (split; [congruence|split; [congruence|]]); intros Ex u i Hi.
    + rewrite CC0a by auto. apply (solved (k - 2) Hp U0 Ck0 u i); [intros i' l0 Hi' Hl'; apply hpe; fold N2 in Hi', Hl'; lia|auto|apply (U0e Ex PD2 u i Hi)].
    + rewrite CC1a by auto. apply (solved (k - 2) Hp U1 Ck1 u i); [intros i' l0 Hi' Hl'; apply hpe; fold N2 in Hi', Hl'; lia|auto|apply (U1e Ex PD2 u i Hi)].
  - pose proof (HPD (k - 1)%nat ltac:(lia)) as PDm. fold Nm in PDm.
    exists F00, F01, F10, F11. split; [reflexivity|]. intros d e Hd He. destruct d as [|[|]]; [| |lia]; (destruct e as [|[|]]; [| |lia]); (cbn [Nat.mul Nat.add nth]; split; [congruence|split; [congruence|]]); intros Ex.
    + apply (FIN 0%nat 0%nat (m_at Dx) eN0 C0 CC0 E00 F00); auto. { intros i c Hi. apply Dxe. lia. } intros u i Hi. apply (F00e Ex PDm u i Hi).
    + apply (FIN 0%nat 1%nat (m_at Dy) eN1 C0 CC0 E01 F01); auto. { intros i c Hi. apply Dye. lia. } intros u i Hi. apply (F01e Ex PDm u i Hi).
    + apply (FIN 1%nat 0%nat (m_at Dx) eN0 C1 CC1 E10 F10); auto. { intros i c Hi. apply Dxe. lia. } intros u i Hi. apply (F10e Ex PDm u i Hi).
    + apply (FIN 1%nat 1%nat (m_at Dy) eN1 C1 CC1 E11 F11); auto. { intros i c Hi. apply Dye. lia. } intros u i Hi. apply (F11e Ex PDm u i Hi).
Qed.
End Local.
