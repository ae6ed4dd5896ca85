(** The matrices of the mixed virtual element in terms of scaled monomials. *)
From Coq Require Import List Arith Bool Lia ZArith Reals Lra.
From Verif Require Import Base RSum MatrixModel MonomialsModel MonomialsSpec MonomialsProofs MonomialsProofs2 MonomialsProofs3 MonomialsProofs4 MonomialsProps
  LagrangeModel GBasisProofs VemQuadModel VemQuadSpec VemQuadProofs VemQuadProofs2 GreenSpec GreenProofs PolyProofs VemModel VemSpec VemProofs VemProofs2 VemProofs3 VemMccModel VemMccSpec VemMccProofs.
Import ListNotations.
Local Open Scope R_scope.

(** sums over a triangulation of the square of a polynomial *)
Section Square.
Variables (q : QuadratureData) (n k : nat) (ts : list Mat).
Hypothesis EX : exact_triangle n q.
Hypothesis Hn : (2 * k <= n)%nat.
Hypothesis PT : exists T, In T ts /\ 0 < area T.
Definition tsum (f : R -> R -> R) : R := lsum (fun T => 2 * area T * L q (fun x y => f (in_triangle T x y 0) (in_triangle T x y 1))) ts.

Lemma tsum_square f fx fy : poly2 k f fx fy -> 0 <= tsum (fun x y => f x y * f x y) /\ (tsum (fun x y => f x y * f x y) = 0 -> forall x y, f x y = 0).
Proof.
  intros P. unfold tsum.
  assert (SQ : forall T, 0 <= L q (fun x y => f (in_triangle T x y 0) (in_triangle T x y 1) * f (in_triangle T x y 0) (in_triangle T x y 1)) /\
    (L q (fun x y => f (in_triangle T x y 0) (in_triangle T x y 1) * f (in_triangle T x y 0) (in_triangle T x y 1)) = 0 -> forall x y, f (in_triangle T x y 0) (in_triangle T x y 1) = 0)).
  { intros T. set (X := fun x y => m_at T 0 0 + (m_at T 0 1 - m_at T 0 0) * x + (m_at T 0 2 - m_at T 0 0) * y). set (Y := fun x y => m_at T 1 0 + (m_at T 1 1 - m_at T 1 0) * x + (m_at T 1 2 - m_at T 1 0) * y).
    assert (EX0 : forall x y, in_triangle T x y 0 = X x y) by (intros; unfold in_triangle, X; ring). assert (EY : forall x y, in_triangle T x y 1 = Y x y) by (intros; unfold in_triangle, Y; ring).
    assert (PC := poly2_comp k f fx fy (m_at T 0 0) (m_at T 0 1 - m_at T 0 0) (m_at T 0 2 - m_at T 0 0) (m_at T 1 0) (m_at T 1 1 - m_at T 1 0) (m_at T 1 2 - m_at T 1 0) P). cbv zeta in PC. fold (X) in PC.
    destruct (L_square n k q _ _ _ EX Hn PC) as (S1 & S2).
    rewrite (L_ext q (fun x y => f (in_triangle T x y 0) (in_triangle T x y 1) * f (in_triangle T x y 0) (in_triangle T x y 1)) (fun x y => f (X x y) (Y x y) * f (X x y) (Y x y))) by (intros; now rewrite EX0, EY).
    split; [exact S1|]. intros Z x y. rewrite EX0, EY. apply (S2 Z). }
  split.
  - apply lsum_nonneg. intros T _. pose proof (Rabs_pos (signed_area T)). fold (area T) in *. destruct (SQ T). apply Rmult_le_pos; [lra|auto].
  - intros Z x y. destruct PT as (T & HT & AT).
    assert (ZT : L q (fun x y => f (in_triangle T x y 0) (in_triangle T x y 1) * f (in_triangle T x y 0) (in_triangle T x y 1)) = 0).
    { assert (Q : 2 * area T * L q (fun x y => f (in_triangle T x y 0) (in_triangle T x y 1) * f (in_triangle T x y 0) (in_triangle T x y 1)) = 0).
      { clear PT. revert Z HT. generalize ts. clear - SQ. intros us Z HT.
        assert (NN : forall U, 0 <= 2 * area U * L q (fun x y => f (in_triangle U x y 0) (in_triangle U x y 1) * f (in_triangle U x y 0) (in_triangle U x y 1))).
        { intros U. pose proof (Rabs_pos (signed_area U)). fold (area U) in *. destruct (SQ U). apply Rmult_le_pos; [lra|auto]. }
        induction us as [|U us IH]; [destruct HT|].
        match type of Z with lsum ?F (U :: us) = 0 => assert (SPL : lsum F (U :: us) = F U + lsum F us) by reflexivity; assert (LN : 0 <= lsum F us) by (apply lsum_nonneg; intros; apply NN) end.
        rewrite SPL in Z. clear SPL. cbv beta in Z. pose proof (NN U). destruct HT as [->|HT]; [lra|]. apply IH; auto. lra. }
      apply Rmult_integral in Q. destruct Q; [lra|auto]. }
    pose proof (proj2 (SQ T) ZT) as ZF.
    assert (DN : signed_area T <> 0) by (intros E; unfold area in AT; rewrite E, Rabs_R0 in AT; lra). unfold signed_area, cross in DN.
    set (ax := m_at T 0 0) in *. set (ay := m_at T 1 0) in *. set (bx := m_at T 0 1) in *. set (by_ := m_at T 1 1) in *. set (cx' := m_at T 0 2) in *. set (cy' := m_at T 1 2) in *.
    assert (DN' : (bx - ax) * (cy' - ay) - (cx' - ax) * (by_ - ay) <> 0) by (intros E; apply DN; rewrite E; lra).
    specialize (ZF (((x - ax) * (cy' - ay) - (cx' - ax) * (y - ay)) / ((bx - ax) * (cy' - ay) - (cx' - ax) * (by_ - ay))) (((bx - ax) * (y - ay) - (x - ax) * (by_ - ay)) / ((bx - ax) * (cy' - ay) - (cx' - ax) * (by_ - ay)))).
    unfold in_triangle in ZF. fold ax ay bx by_ cx' cy' in ZF. rewrite <- ZF. f_equal; field; auto.
Qed.
End Square.

Lemma internal_nonneg data tris r : rule data -> triangles tris -> PolygonInternalQuadrature data tris = Ok r ->
  (forall q, (q < v_size (q_Weights data))%nat -> 0 <= v_at (q_Weights data) q) -> forall q, (q < v_size (q_Weights r))%nat -> 0 <= v_at (q_Weights r) q.
Proof.
  intros (HP & HW) HT ER NN q Hq. destruct (internal_ok data tris HP HW HT) as (r' & E & r1 & r2 & r3 & r4). rewrite ER in E. injection E as <-. set (nq := m_cols (q_Points data)) in *. rewrite r3 in Hq.
  assert (nq <> 0)%nat by (intros Z; rewrite Z in Hq; lia).
  assert (Hd : (q / nq < length tris)%nat) by (apply Nat.div_lt_upper_bound; auto; lia). assert (Hm := Nat.mod_upper_bound q nq ltac:(auto)).
  assert (exists T, nth_error tris (q / nq) = Some T) as (T & HTn) by (apply nth_error_Some_ex; auto).
  destruct (r4 (q / nq)%nat (q mod nq)%nat T HTn Hm) as (_ & A). rewrite <- Nat.div_mod in A by auto. rewrite A. apply Rmult_le_pos; [apply NN; lia|apply Rabs_pos].
Qed.

Lemma num2_S k : num2 (k + 1) = S (num2 k + (k + 1))%nat.
Proof. pose proof (num2_k k). pose proof (num2_k (k + 1)). nia. Qed.
Lemma num2_half k : ((k + 1) * (k + 2) / 2)%nat = num2 k.
Proof. rewrite <- num2_k. rewrite Nat.mul_comm. now rewrite Nat.div_mul. Qed.
Lemma num2_ge k : (k + 1 <= num2 k)%nat.
Proof. pose proof (num2_k k). nia. Qed.

Section Local.
Variables (gt gs : nat -> QuadratureData) (k : nat) (ref : MCC_2D_Reference) (p : Polygon).
Hypothesis GR : good_mixed_rules gt gs k.
Hypothesis GP : good_polygon p.
Variables (junk : nat -> nat -> R) (llt : Solver) (svd : Svd).
Let cx := pg_Centroid p 0%nat.
Let cy := pg_Centroid p 1%nat.
Let h := pg_Diameter p.
Let Nk := num2 k.
Let NN := (num2 k + (k + 1))%nat.
Let nn := (num2 k - 1)%nat.
Let no := (num2 k - (k + 1))%nat.
Let nv := m_cols (pg_Vertices p).
Let nb := ((k + 1) * nv)%nat.
Let N := (nb + (nn + no))%nat.

Definition mI (l : MCC_Local) (f : R -> R -> R) : R := mcc_inside l f.
(** component d of the vector polynomial a *)
Definition gv (l : MCC_Local) (d a : nat) (x y : R) : R := rsum Nk (fun c => Tall NN (lm_TkNabla l) (lm_TkBigOPlus l) a (Nk * d + c) * phi cx cy h c x y).
Definition bx (l : MCC_Local) (j : nat) : R := m_at (mcc_boundary_points l) 0 j.
Definition by' (l : MCC_Local) (j : nat) : R := m_at (mcc_boundary_points l) 1 j.
Definition bw (l : MCC_Local) (j : nat) : R := v_at (q_Weights (eq_Quadrature (lm_BoundaryQuadrature l))) j.
Definition sg (j : nat) : R := sgn (pg_EdgesDirection p) (j / (k + 1)).
Definition nr (d j : nat) : R := m_at (pg_EdgesNormal p) d (j / (k + 1)).

Record mcc_facts (l : MCC_Local) : Prop := {
  mf_dim : lm_Dimension l = 2%nat; mf_order : lm_Order l = k;
  mf_nb : lm_NumBoundaryBasisFunctions l = nb; mf_nn : lm_NumNablaInternalBasisFunctions l = nn; mf_no : lm_NumBigOPlusInternalBasisFunctions l = no;
  mf_ni : lm_NumInternalBasisFunctions l = (nn + no)%nat; mf_N : lm_NumBasisFunctions l = N; mf_Nk : lm_Nk l = Nk; mf_NN : lm_NkNabla l = NN;
  mf_measure : lm_Measure l = pg_Measure p; mf_diam : lm_Diameter l = h; mf_centroid : lm_Centroid l = pg_Centroid p;
  mf_Q : lm_QmatrixKp1 l = midentity (num2 (k + 1));
  mf_IQ : rule (lm_InternalQuadrature l);
  mf_BQ : rule (eq_Quadrature (lm_BoundaryQuadrature l));
  mf_BQn : m_cols (mcc_boundary_points l) = nb;
  mf_points : forall i q d, (i < nv)%nat -> (q < k + 1)%nat -> (d < 3)%nat -> m_at (mcc_boundary_points l) d ((k + 1) * i + q) =
    along (pg_Vertices p) (edge_first (pg_Vertices p) (pg_EdgesDirection p) i) (edge_last (pg_Vertices p) (pg_EdgesDirection p) i) (m_at (q_Points (gs (2 * k + 1)%nat)) 0 q) d;
  mf_sum : forall f, apply_rule (q_Weights (eq_Quadrature (lm_BoundaryQuadrature l))) f =
    rsum nv (fun i => Rabs (v_at (pg_EdgesLength p) i) * rsum (k + 1) (fun q => v_at (q_Weights (gs (2 * k + 1)%nat)) q * f ((k + 1) * i + q)%nat));
  mf_int : forall f, mcc_inside l f = tsum (gt (2 * (k + 1))%nat) (pg_TriangulationVertices p) f;
  mf_area : mcc_inside l (fun _ _ => 1) = shoelace (pg_Vertices p);
  mf_green : forall F Fx Fy, poly2 (2 * k + 1) F Fx Fy ->
    mcc_inside l Fx = rsum nb (fun j => bw l j * (F (bx l j) (by' l j) * nr 0 j)) /\ mcc_inside l Fy = rsum nb (fun j => bw l j * (F (bx l j) (by' l j) * nr 1 j));
  mf_VI : m_rows (lm_VanderInternal l) = m_cols (mcc_points l) /\ m_cols (lm_VanderInternal l) = Nk /\
    (forall q i, (i < Nk)%nat -> m_at (lm_VanderInternal l) q i = phi cx cy h i (m_at (mcc_points l) 0 q) (m_at (mcc_points l) 1 q));
  mf_H : m_rows (lm_Hmatrix l) = Nk /\ m_cols (lm_Hmatrix l) = Nk /\
    forall i j, (i < Nk)%nat -> (j < Nk)%nat -> m_at (lm_Hmatrix l) i j = mcc_inside l (fun x y => phi cx cy h i x y * phi cx cy h j x y);
  mf_TN : m_rows (lm_TkNabla l) = NN /\ m_cols (lm_TkNabla l) = (2 * Nk)%nat /\
    (forall a c, (a < NN)%nat -> (c < Nk)%nat -> m_at (lm_TkNabla l) a c = 1 / h * d0 (S a) c) /\
    (forall a c, (a < NN)%nat -> (c < Nk)%nat -> m_at (lm_TkNabla l) a (Nk + c) = 1 / h * d1 (S a) c);
  mf_TB : m_rows (lm_TkBigOPlus l) = no /\ m_cols (lm_TkBigOPlus l) = (2 * Nk)%nat /\
    (forall r c, m_at (lm_TkBigOPlus l) r c = svd (lm_TkNabla l) (NN + r)%nat c);
  mf_GI : m_rows (lm_GkVanderInternal l) = (2 * Nk)%nat /\ m_cols (lm_GkVanderInternal l) = (2 * m_cols (mcc_points l))%nat /\
    (forall a q d, (q < m_cols (mcc_points l))%nat -> (d < 2)%nat -> m_at (lm_GkVanderInternal l) a (m_cols (mcc_points l) * d + q) = gv l d a (m_at (mcc_points l) 0 q) (m_at (mcc_points l) 1 q));
  mf_G : m_rows (lm_Gmatrix l) = (2 * Nk)%nat /\ m_cols (lm_Gmatrix l) = (2 * Nk)%nat /\
    (forall a b, m_at (lm_Gmatrix l) a b = mcc_inside l (fun x y => gv l 0 a x y * gv l 0 b x y + gv l 1 a x y * gv l 1 b x y));
  mf_W : m_rows (lm_Wmatrix l) = Nk /\ m_cols (lm_Wmatrix l) = N /\
    (forall i j, (i < Nk)%nat -> (j < nb)%nat -> m_at (lm_Wmatrix l) i j = phi cx cy h i (bx l j) (by' l j) * (bw l j * sg j)) /\
    (forall i c, (i < Nk)%nat -> (c < nn + no)%nat -> m_at (lm_Wmatrix l) i (nb + c) = if (i =? S c)%nat then - pg_Measure p else 0);
  mf_V : m_rows (lm_Vmatrix l) = Nk /\ m_cols (lm_Vmatrix l) = N /\ (forall i j, m_at (lm_Vmatrix l) i j = llt (lm_Hmatrix l) (lm_Wmatrix l) i j);
  mf_B : m_rows (lm_Bmatrix l) = (2 * Nk)%nat /\ m_cols (lm_Bmatrix l) = N /\
    (forall a j, (a < NN)%nat -> (j < N)%nat -> m_at (lm_Bmatrix l) a j = - rsum Nk (fun c => mcc_inside l (fun x y => phi cx cy h (S a) x y * phi cx cy h c x y) * m_at (lm_Vmatrix l) c j) +
      (if (j <? nb)%nat then phi cx cy h (S a) (bx l j) (by' l j) * (bw l j * sg j) else 0)) /\
    (forall r j, (r < no)%nat -> (j < N)%nat -> m_at (lm_Bmatrix l) (NN + r) j = if (j =? nb + nn + r)%nat then pg_Measure p else 0);
  mf_P : m_rows (lm_Pi0k l) = (2 * Nk)%nat /\ m_cols (lm_Pi0k l) = N /\ (forall i j, m_at (lm_Pi0k l) i j = llt (lm_Gmatrix l) (lm_Bmatrix l) i j);
  mf_D : m_rows (lm_Dmatrix l) = N /\ m_cols (lm_Dmatrix l) = (2 * Nk)%nat /\
    (forall j a, (j < nb)%nat -> (a < 2 * Nk)%nat -> m_at (lm_Dmatrix l) j a = sg j * (gv l 0 a (bx l j) (by' l j) * nr 0 j + gv l 1 a (bx l j) (by' l j) * nr 1 j)) /\
    (forall c a, (c < nn)%nat -> (a < 2 * Nk)%nat -> m_at (lm_Dmatrix l) (nb + c) a = / pg_Measure p * m_at (lm_Gmatrix l) c a) /\
    (forall r a, (r < no)%nat -> (a < 2 * Nk)%nat -> m_at (lm_Dmatrix l) (nb + nn + r) a = / pg_Measure p * m_at (lm_Gmatrix l) (NN + r) a) }.

Lemma NN_no : (NN + no = 2 * Nk)%nat.
Proof. unfold NN, no, Nk. pose proof (num2_ge k). lia. Qed.
Lemma nn_no : (nn + no = k * (k + 2))%nat.
Proof. unfold nn, no. pose proof (num2_ge k). pose proof (num2_k k). nia. Qed.

Lemma mcc_reference : exists r, MCC_Velocity_Create gt gs k = Ok r /\ Compute M2 (k + 1) = Ok (rm_Monomials r).
Proof.
  unfold MCC_Velocity_Create. destruct (C27_monomials_enumerated_once 2 M2 (k + 1) class2) as (m & E & _). rewrite E. cbn [bind]. eexists. split; [reflexivity|]. auto.
Qed.

Hypothesis RF : MCC_Velocity_Create gt gs k = Ok ref.
Lemma rf_all : rm_Dimension ref = 2%nat /\ rm_Order ref = k /\ rm_NumDofs1D ref = (k + 1)%nat /\ rm_NumDofs2D ref = (nn + no)%nat /\ Compute M2 (k + 1) = Ok (rm_Monomials ref) /\
  vq_ReferenceTriangleQuadrature (rm_Quadrature ref) = gt (2 * (k + 1))%nat /\ vq_ReferenceSegmentQuadrature (rm_Quadrature ref) = gs (2 * k + 1)%nat.
Proof.
  unfold MCC_Velocity_Create in RF. apply bind_Ok in RF. destruct RF as (m & E & F). injection F as <-. cbn [rm_Dimension rm_Order rm_NumDofs1D rm_NumDofs2D rm_Monomials rm_Quadrature].
  rewrite nn_no. repeat (split; [auto|]). auto.
Qed.

Lemma mcc_local_ok : exists l, MCC_CreateLocalSpace junk llt svd ref p = Ok l /\ mcc_facts l.
Proof.
  destruct rf_all as (r1 & r2 & r3 & r4 & rm & rt & rs). destruct GP as [pe pt_ pn ptr pa pm pd]. destruct GR as [T TE TN0 S SP SE].
  unfold MCC_CreateLocalSpace. rewrite rt, rs, r1, r2, r3, r4, num2_half, (ed_lengths _ _ _ _ _ pe). fold nv. fold nb. fold Nk. change (Nk + (k + 1))%nat with NN. change (Nk - 1)%nat with nn. change (Nk - (k + 1))%nat with no. fold N.
  assert (ES : exact_segment (2 * k + 1) (0, 0) (q_Points (gs (2 * k + 1)%nat)) (q_Weights (gs (2 * k + 1)%nat))).
  { intros a Ha. cbn [fst snd]. rewrite SE by auto. ring. }
  assert (HE' : exact_triangle (2 * k + 1 - 1) (gt (2 * (k + 1))%nat)) by (intros a b Hab; apply TE; lia).
  destruct (C68_edges_all (2 * k + 1) junk (gs (2 * k + 1)%nat) (gt (2 * (k + 1))%nat) (pg_TriangulationVertices p) (pg_Vertices p) (pg_EdgesLength p) (pg_EdgesDirection p) (pg_EdgesTangent p) (pg_EdgesNormal p)
    S ES T HE' pe pt_ pn ptr) as (IQ & BQ & EI & EB & GREEN).
  destruct (edges_full junk (gs (2 * k + 1)%nat) (pg_Vertices p) (pg_EdgesLength p) (pg_EdgesDirection p) (pg_EdgesTangent p) (pg_EdgesNormal p) S pe pt_) as (BQ' & EB' & B1 & B2 & B3 & B4 & B5 & B6 & B7).
  rewrite EB in EB'. injection EB' as <-. rewrite SP in B2, B4, B5, B6, B7. fold nv in B2, B4, B5, B6, B7. fold nb in B2, B4.
  destruct (C49_internal_all (gt (2 * (k + 1))%nat) (pg_TriangulationVertices p) (fun _ _ => 0) T (proj1 ptr)) as (IQ' & EI' & I1 & _). rewrite EI in EI'. injection EI' as <-.
  pose proof (internal_nonneg _ _ _ T (proj1 ptr) EI TN0) as NNW.
  rewrite EI. cbn [bind]. rewrite EB. cbn [bind].
  destruct (vander_m (k + 1) _ rm junk (q_Points IQ) (pg_Centroid p) h (proj1 I1) pd) as (VIp & EVI & V1 & V2 & V3). fold h. rewrite EVI. cbn [bind].
  assert (HS : num2 (k + 1) = Datatypes.S NN) by apply num2_S. assert (HNk : (Nk <= num2 (k + 1))%nat) by (rewrite HS; unfold NN, Nk; lia).
  unfold leftCols at 1, mat_block. replace ((0 + m_rows VIp <=? m_rows VIp) && (0 + Nk <=? m_cols VIp))%nat with true by mtruth. cbn [bind]. set (VI := {| m_rows := m_rows VIp; m_cols := Nk; m_at := _ |}).
  destruct (vander_m (k + 1) _ rm junk (q_Points (eq_Quadrature BQ)) (pg_Centroid p) h (proj1 B1) pd) as (VBp & EVB & U1 & U2 & U3). rewrite EVB. cbn [bind].
  unfold leftCols, mat_block. replace ((0 + m_rows VBp <=? m_rows VBp) && (0 + Nk <=? m_cols VBp))%nat with true by mtruth. cbn [bind]. set (VB := {| m_rows := m_rows VBp; m_cols := Nk; m_at := _ |}).
  rewrite (vsqrt_ok _ NNW). cbn [bind].
  assert (WI := proj2 I1). assert (WB := proj2 B1). rewrite B2 in WB.
  destruct (gram_ok (q_Weights IQ) VI NNW) as (H & EH & h1 & h2 & h3). { cbn [VI m_rows]. congruence. } rewrite EH. cbn [bind]. cbn [VI m_cols] in h1, h2.
  destruct (der_m (k + 1) _ rm) as (De0 & De1 & EDe & e1 & e2 & e3 & e4 & e5 & e6 & _).
  destruct (TkNabla_ok Nk NN h (rm_Monomials ref) De0 De1 EDe) as (TN & ETN & t1 & t2 & t3 & t4); try lia. rewrite ETN. cbn [bind].
  pose proof NN_no as HNN. pose proof (num2_pos k) as Hpos. fold Nk in Hpos.
  destruct (TkBigOPlus_ok svd Nk NN TN t2 ltac:(lia)) as (TB & ETB & u1 & u2 & u3). rewrite ETB. cbn [bind].
  assert (v1 : m_rows VI = v_size (q_Weights IQ)) by (cbn [VI m_rows]; congruence). assert (v2 : m_cols VI = Nk) by reflexivity.
  destruct (GkVander_ok Nk NN (v_size (q_Weights IQ)) TN TB VI t1 t2 u1 u2 ltac:(lia) v1 v2) as (GI & EGI & g1 & g2 & g3 & g4). rewrite EGI. cbn [bind].
  destruct (gram2_ok (q_Weights IQ) (mtrans GI) NNW g2) as (ro & G & Ero & EG & G1 & G2 & G3). rewrite Ero. cbn [bind]. rewrite EG. cbn [bind]. cbn [mtrans m_cols m_at] in G1, G2, G3. rewrite g1 in G1, G2.
  assert (w1 : m_rows VB = nb) by (cbn [VB m_rows]; congruence).
  destruct (ValuesOnBoundary_ok junk k nv N Nk NN (pg_Vertices p) (pg_EdgesNormal p) (pg_EdgesDirection p) (q_Weights (eq_Quadrature BQ)) VB VBp TN TB eq_refl (proj1 (ed_normals _ _ _ _ _ pe)) (proj2 (ed_normals _ _ _ _ _ pe)) (ed_dirs _ _ _ _ _ pe) WB
    ltac:(fold nb; unfold N; lia) w1 eq_refl ltac:(fold nb; congruence) ltac:(lia) t1 t2 u1 u2 ltac:(lia)) as (W2 & B2' & GB & EV & q1 & q2 & q3 & q4 & q5 & q6 & q7 & q8 & q9). fold nb in EV, q5, q7, q8, q9. rewrite EV. cbn [bind].
  assert (H0 : k = 0%nat -> nn = 0%nat) by (intros ->; reflexivity).
  destruct (Divergence_ok llt (pg_Measure p) k Nk nb nn (nn + no) N W2 H q1 q2 h1 h2 Hpos eq_refl eq_refl ltac:(lia) H0) as (W & V & EW & a1 & a2 & a3 & a4 & a5 & a6). rewrite EW. cbn [bind].
  destruct (L2Projectors_ok llt (pg_Measure p) Nk NN no N (q_Weights IQ) VI VIp V B2' G v1 v2 ltac:(congruence) ltac:(lia) a3 a4 q3 q4 G1 G2 HNN ltac:(unfold N; lia)) as (B & P & EP & b1 & b2 & b3 & b4 & b5 & b6 & b7). rewrite EP. cbn [bind].
  assert (HO : (nn + no <= 2 * Nk)%nat) by (unfold nn, no, Nk; lia).
  assert (H00 : k = 0%nat -> (nn + no = 0)%nat) by (intros ->; reflexivity).
  destruct (PolynomialBasisDofs_ok (pg_Measure p) k Nk nb nn no N GB G q5 q6 G1 G2 eq_refl HO H00) as (D & ED & c1 & c2 & c3 & c4 & c5). rewrite ED. cbn [bind].
  eexists. split; [reflexivity|].
  assert (FV : forall q i, (i < Nk)%nat -> m_at VI q i = phi cx cy h i (m_at (q_Points IQ) 0 q) (m_at (q_Points IQ) 1 q)).
  { intros q i Hi. cbn [VI m_at Nat.add]. apply V3. lia. }
  assert (FB : forall q i, (i < Nk)%nat -> m_at VB q i = phi cx cy h i (m_at (q_Points (eq_Quadrature BQ)) 0 q) (m_at (q_Points (eq_Quadrature BQ)) 1 q)).
  { intros q i Hi. cbn [VB m_at Nat.add]. apply U3. lia. }
  constructor; unfold mcc_inside, mcc_points, mcc_boundary_points, bx, by', bw, gv, sg, nr, tsum; cbn [lm_Dimension lm_Order lm_NumBoundaryBasisFunctions lm_NumNablaInternalBasisFunctions lm_NumBigOPlusInternalBasisFunctions lm_NumInternalBasisFunctions lm_NumBasisFunctions lm_Nk lm_NkNabla
    lm_Measure lm_Diameter lm_Centroid lm_QmatrixKp1 lm_InternalQuadrature lm_BoundaryQuadrature lm_VanderInternal lm_Hmatrix lm_TkNabla lm_TkBigOPlus lm_GkVanderInternal lm_Gmatrix lm_Wmatrix lm_Vmatrix lm_Bmatrix lm_Pi0k lm_Dmatrix]; auto.
  - rewrite (num_m (k + 1) _ rm). reflexivity.
  - intros f. destruct (C49_internal_all (gt (2 * (k + 1))%nat) (pg_TriangulationVertices p) f T (proj1 ptr)) as (IQ' & EI' & _ & _ & SF). rewrite EI in EI'. injection EI' as <-. exact SF.
  - assert (W12 : apply_rule (q_Weights (gt (2 * (k + 1))%nat)) (fun _ => 1) = 1 / 2).
    { etransitivity; [|etransitivity; [apply (TE 0%nat 0%nat); lia|]]; [apply apply_ext; intros; cbn [pow]; ring|cbn; field]. }
    destruct (C49_area_all (gt (2 * (k + 1))%nat) _ _ T W12 ptr) as (IQ' & EI' & _ & A). rewrite EI in EI'. injection EI' as <-. exact A.
  - intros F Fx Fy PF. destruct (GREEN F Fx Fy PF) as (GX & GY). rewrite GX, GY.
    assert (X : forall d, (d < 2)%nat -> apply_rule (normal_weights BQ d) (fun j => F (m_at (q_Points (eq_Quadrature BQ)) 0 j) (m_at (q_Points (eq_Quadrature BQ)) 1 j)) =
      rsum nb (fun j => v_at (q_Weights (eq_Quadrature BQ)) j * (F (m_at (q_Points (eq_Quadrature BQ)) 0 j) (m_at (q_Points (eq_Quadrature BQ)) 1 j) * m_at (pg_EdgesNormal p) d (j / (k + 1))))).
    { intros d Hd. rewrite B7 by auto. rewrite <- WB. change (rsum (v_size (q_Weights (eq_Quadrature BQ))) ?g) with (rsum (v_size (q_Weights (eq_Quadrature BQ))) g).
      pose proof (B6 (fun j => F (m_at (q_Points (eq_Quadrature BQ)) 0 j) (m_at (q_Points (eq_Quadrature BQ)) 1 j) * m_at (pg_EdgesNormal p) d (j / (k + 1)))) as B6'. unfold apply_rule in B6'. rewrite B6'.
      apply rsum_ext. intros i Hi. rewrite (Rmult_comm (m_at (pg_EdgesNormal p) d i)), Rmult_assoc. f_equal. rewrite <- rsum_scal. apply rsum_ext. intros q Hq.
      assert (Q : (((k + 1) * i + q) / (k + 1))%nat = i). { symmetry. apply (Nat.div_unique _ (k + 1) i q); lia. } cbv beta. rewrite Q. ring. }
    rewrite !X by lia. split; reflexivity.
  - split; [exact h1|]. split; [exact h2|]. intros i j Hi Hj. rewrite h3. unfold apply_rule. apply rsum_ext. intros q Hq. rewrite !FV by auto. reflexivity.
  - do 2 (split; [auto|]). split; intros a c Ha Hc; [rewrite t3, e5 by lia|rewrite t4, e6 by lia]; reflexivity.
  - split; [lia|]. split; [exact u2|exact u3].
  - do 2 (split; [congruence|]). intros a q d Hq Hd. rewrite <- WI in *. destruct d as [|[|]]; [| |lia].
    + rewrite Nat.mul_0_r, Nat.mul_0_r. cbn [Nat.add]. rewrite g3 by auto. apply rsum_ext. intros c Hc. rewrite FV by auto. reflexivity.
    + rewrite !Nat.mul_1_r. rewrite g4 by auto. apply rsum_ext. intros c Hc. rewrite FV by auto. reflexivity.
  - do 2 (split; [auto|]). intros a b. rewrite G3. unfold apply_rule. apply rsum_ext. intros q Hq. rewrite !g3, !g4 by auto. rewrite Nat.mul_0_r, Nat.mul_1_r. cbn [Nat.add].
    f_equal; f_equal; f_equal; apply rsum_ext; intros c Hc; rewrite FV by auto; reflexivity.
  - do 2 (split; [auto|]). split.
    + intros i j Hi Hj. rewrite a6, q7 by (unfold N; lia). rewrite (ltb_true j nb) by auto. rewrite FB by auto.
      destruct (Nat.eqb_spec j (nb + (i - 1))); [lia|]. rewrite andb_false_r, Rplus_0_l. reflexivity.
    + intros i c Hi Hc. rewrite a6, q7 by (unfold N; lia). rewrite (ltb_false (nb + c) nb) by lia. rewrite Rplus_0_r.
      destruct (Nat.leb_spec 1 i), (Nat.ltb_spec i (1 + nn)), (Nat.eqb_spec (nb + c) (nb + (i - 1))), (Nat.eqb_spec i (Datatypes.S c)); cbn [andb]; auto; try (unfold nn in *; lia).
  - do 2 (split; [auto|]). split.
    + intros a j Ha Hj. rewrite b6, q8 by auto. f_equal; [|destruct (j <? nb)%nat; auto; rewrite U3 by lia; reflexivity].
      f_equal. apply rsum_ext. intros c Hc. f_equal. unfold apply_rule. apply rsum_ext. intros q Hq. rewrite FV, V3 by lia. reflexivity.
    + intros r j Hr Hj. rewrite b7 by auto. replace (N - no + r)%nat with (nb + nn + r)%nat by (unfold N; lia). reflexivity.
  - do 2 (split; [auto|]). split; [|split].
    + intros j a Hj Ha. rewrite c3, q9 by auto. rewrite Nat.mul_0_r, Nat.mul_1_r. cbn [Nat.add]. f_equal. f_equal; f_equal; apply rsum_ext; intros c Hc; rewrite FB by auto; reflexivity.
    + intros c a Hc Ha. rewrite c4 by auto. unfold Rdiv. rewrite Rmult_1_l. reflexivity.
    + intros r a Hr Ha. rewrite c5 by auto. unfold Rdiv. rewrite Rmult_1_l. do 2 f_equal. lia.
Qed.
End Local.
