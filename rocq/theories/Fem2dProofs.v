(** Proofs: the finite element of one triangle of a mesh: its functions are the polynomials, tables at the quadrature, Green's formula, traces. *)
From Coq Require Import List Arith Bool ZArith Reals Lia Lra FunctionalExtensionality.
From Verif Require Import Base RSum MatrixModel MonomialsModel MonomialsSpec LagrangeModel LagrangeSpec LagrangeProofs TriangleModel TriangleSpec TriangleProofs TriangleProofs2 TriangleProofs3 TriangleProofs4 TriangleProofs5 TriangleProofs6
  VemQuadModel VemQuadSpec VemQuadProofs VemQuadProofs2 GreenSpec GreenProofs PolyProofs VemModel VemSpec ZfemModel ZfemProofs4 DofsModel AssemblerModel DriverModel DriverSpec DriverSpec2 Pcc2dModel Pcc2dSpec Pcc2dProofs4 Fem2dSpec.
Import ListNotations.
Local Open Scope R_scope.
Notation poly2 := GreenSpec.poly2.

Lemma poly2_rsum_ex n m (f : nat -> R -> R -> R) : (forall i, (i < m)%nat -> exists fx fy, poly2 n (f i) fx fy) -> exists fx fy, poly2 n (fun x y => rsum m (fun i => f i x y)) fx fy.
Proof.
  induction m as [|m IH]; intros H.
  - exists (fun _ _ => 0), (fun _ _ => 0). apply (poly2_const n 0).
  - destruct IH as (fx & fy & P1); [intros; apply H; lia|]. destruct (H m ltac:(lia)) as (gx & gy & P2). do 2 eexists. cbn [rsum]. apply (poly2_add n _ _ _ _ _ _ P1 P2).
Qed.
Lemma poly2_rprod n (f : nat -> R -> R -> R) : (forall t, (t < n)%nat -> exists a b c, forall x y, f t x y = a + b * x + c * y) -> exists fx fy, poly2 n (fun x y => rprod n (fun t => f t x y)) fx fy.
Proof.
  induction n as [|n IH]; intros H.
  - exists (fun _ _ => 0), (fun _ _ => 0). apply (poly2_const 0 1).
  - destruct IH as (fx & fy & P1); [intros; apply H; lia|]. destruct (H n ltac:(lia)) as (a & b & c & E). pose proof (poly2_mult _ _ _ _ _ _ _ _ P1 (poly2_affine 1 a b c (le_n _))) as P2.
    do 2 eexists. replace (S n) with (n + 1)%nat by lia. eapply (poly2_ext _ _ _ _ _ _ _ P2); try (intros; reflexivity). intros x y. replace (n + 1)%nat with (S n) by lia. cbn [rprod]. now rewrite E.
Qed.
Lemma shape_poly2 o c : (1 <= o)%nat -> (fst c + snd c <= o)%nat -> exists fx fy, poly2 o (TriangleProofs2.phi o c) fx fy.
Proof.
  intros Ho H. destruct c as [i j]. cbn [fst snd] in H. destruct (poly2_rprod o (fun t => fac o (i, j) t)) as (fx & fy & P1).
  - intros t _. unfold fac. cbn [fst snd]. destruct (t <? o - i - j)%nat; [|destruct (t <? o - i)%nat].
    + exists (1 - INR t * (1 / INR o)), (-1), (-1). intros; ring.
    + exists (- (INR (t - (o - i - j)) * (1 / INR o))), 1, 0. intros; ring.
    + exists (- (INR (t - (o - i)) * (1 / INR o))), 0, 1. intros; ring.
  - do 2 eexists. eapply (poly2_ext _ _ _ _ _ _ _ (poly2_scal _ (/ rprod o (fun t => fac o (i, j) t (INR j * (1 / INR o)) (INR i * (1 / INR o)))) _ _ _ P1)); try (intros; reflexivity).
    intros x y. rewrite (phi_fac o Ho i j x y H). unfold Rdiv. ring.
Qed.

(** the points of the unknowns of an edge of a triangle, in the order of the functions of the edge *)
Definition tri_nodes (k i : nat) : R := match i with 0%nat => 0 | 1%nat => 1 | S (S q) => INR (S q) / INR k end.
Definition node_number (k i : nat) : nat := match i with 0%nat => 0%nat | 1%nat => k | S (S q) => S q end.
Lemma node_number_ok k i : (1 <= k)%nat -> tri_nodes k i = INR (node_number k i) / INR k.
Proof. intros H. assert (INR k <> 0) by (apply not_0_INR; lia). destruct i as [|[|q]]; cbn [tri_nodes node_number]; [cbn; field; auto|field; auto|reflexivity]. Qed.
Lemma tri_nodes_distinct k : (1 <= k)%nat -> distinct (k + 1) (tri_nodes k).
Proof.
  intros Hk i j Hi Hj E. rewrite !node_number_ok in E by auto. assert (INR k <> 0) by (apply not_0_INR; lia).
  assert (E' : node_number k i = node_number k j). { apply INR_eq. apply (Rmult_eq_reg_r (/ INR k)); [exact E|apply Rinv_neq_0_compat; auto]. }
  destruct i as [|[|i]], j as [|[|j]]; cbn [node_number] in E'; lia.
Qed.

(** the tangents are the differences of the vertices *)
Definition geometry_tangents (P : Polygon) : Prop := forall i c, (i < m_cols (pg_Vertices P))%nat -> (c < 3)%nat ->
  m_at (pg_EdgesTangent P) c i = m_at (pg_Vertices P) c ((i + 1) mod m_cols (pg_Vertices P))%nat - m_at (pg_Vertices P) c i.

Section Cell.
Variables (gauss : QuadratureData) (k : nat) (ref : Tri_Data) (P : Polygon) (l : Tri_Local).
Hypotheses (Hk : (1 <= k)%nat) (ER : Tri_Create k = Ok ref) (HR : in_range ref) (GT : good_triangle P)
  (EL : Tri_CreateLocalSpace ref 3 (pg_EdgesDirection P) (triangle_map (pg_Vertices P)) = Ok l)
  (RG : rule gauss) (EG : exact_triangle (2 * k) gauss).
Let T := pg_Vertices P.
Let dir := pg_EdgesDirection P.
Let m := triangle_map T.
Let N := ft_NumBasisFunctions ref.
Let X i := m_at (lt_Dofs l) 0 i.
Let Y i := m_at (lt_Dofs l) 1 i.

Lemma dir_length : (3 <= length dir)%nat.
Proof using Hk ER HR GT EL RG EG. unfold dir. rewrite (ed_dirs _ _ _ _ _ (gt_edges _ GT)), (gt_three _ GT). apply le_n. Qed.
Lemma det_ne : (m_at T 0 1 - m_at T 0 0) * (m_at T 1 2 - m_at T 1 0) <> (m_at T 0 2 - m_at T 0 0) * (m_at T 1 1 - m_at T 1 0).
Proof using Hk ER HR GT EL RG EG. pose proof (gt_area _ GT) as A. fold T in A. unfold signed_area, cross in A. intros E. clear - A E. lra. Qed.
Lemma inv_ok : inverse3 (mt_B m) (mt_BInv m).
Proof using Hk ER HR GT EL RG EG. apply map_inverse, det_ne. Qed.

(** every choice of unknowns is the one of a polynomial *)
Lemma unisolvent u : exists f fx fy, poly2 k f fx fy /\ forall i, (i < N)%nat -> f (X i) (Y i) = u i.
Proof using Hk ER HR GT EL RG EG.
  destruct (C45_local_nodal_all k ref dir m l Hk ER dir_length HR inv_ok EL) as (V & EV & V1 & V2 & V3).
  destruct (local_values_ok k ref dir m l (lt_Dofs l) Hk ER dir_length HR EL) as (V' & EV' & _ & _ & V4). rewrite EV in EV'. injection EV' as <-.
  destruct (local_ok k ref dir m ER dir_length HR) as (l' & EL' & _ & _ & _ & _ & _ & M6 & _). unfold m, T, dir in EL'. rewrite EL in EL'. injection EL' as <-. fold T dir m in M6.
  pose proof (created_ok k ref Hk ER) as TO. destruct TO as (_ & _ & _ & _ & T5 & _).
  set (c := fun d => nth (sig ref dir d) (Lp k) (0%nat, 0%nat)).
  assert (Hc : forall d, (d < N)%nat -> nth_error (Lp k) (sig ref dir d) = Some (c d) /\ (fst (c d) + snd (c d) <= k)%nat).
  { intros d Hd. destruct (M6 d Hd) as (_ & Hs). destruct (nth_error_Some_ex (Lp k) (i := sig ref dir d)) as (p & Ep); [rewrite Lp_length by auto; rewrite <- T5; exact Hs|].
    assert (c d = p) by (apply nth_error_nth; exact Ep). rewrite H. split; [exact Ep|]. apply (Lp_In k Hk). apply (nth_error_In _ _ Ep). }
  set (FI := fun r x y => mt_BInv m r 0%nat * (x - mt_b m 0%nat) + mt_BInv m r 1%nat * (y - mt_b m 1%nat)).
  destruct (poly2_rsum_ex k N (fun d x y => u d * TriangleProofs2.phi k (c d) (FI 0%nat x y) (FI 1%nat x y))) as (fx & fy & Pf).
  - intros d Hd. destruct (Hc d Hd) as [_ Hcd]. destruct (shape_poly2 k (c d) Hk Hcd) as (gx & gy & Pg).
    pose proof (poly2_comp k _ _ _ (- (mt_BInv m 0%nat 0%nat * mt_b m 0%nat + mt_BInv m 0%nat 1%nat * mt_b m 1%nat)) (mt_BInv m 0%nat 0%nat) (mt_BInv m 0%nat 1%nat)
      (- (mt_BInv m 1%nat 0%nat * mt_b m 0%nat + mt_BInv m 1%nat 1%nat * mt_b m 1%nat)) (mt_BInv m 1%nat 0%nat) (mt_BInv m 1%nat 1%nat) Pg) as Pc. cbv zeta in Pc.
    do 2 eexists. eapply (poly2_ext _ _ _ _ _ _ _ (poly2_scal _ (u d) _ _ _ Pc)); try (intros; reflexivity). intros x y. cbv beta. unfold FI. do 2 f_equal; ring.
  - do 3 eexists. split; [exact Pf|]. intros i Hi. cbv beta.
    assert (K : forall d, (d < N)%nat -> TriangleProofs2.phi k (c d) (FI 0%nat (X i) (Y i)) (FI 1%nat (X i) (Y i)) = kron d i).
    { intros d Hd. rewrite <- (V3 d i Hd Hi), (V4 i d (c d) Hd (proj1 (Hc d Hd))). unfold FI, X, Y. cbn [mt_FInv m_at rsum m triangle_map mt_BInv]. f_equal; ring. }
    rewrite (rsum_single N _ i Hi); [|intros d Hd Nd]; rewrite K by auto; unfold kron.
    + rewrite Nat.eqb_refl. ring.
    + destruct (Nat.eqb_spec d i); [congruence|ring].
Qed.

(** the tables at the quadrature are the values at its points *)
Let points := mt_F m (q_Points gauss).
Lemma F_back c q : (c < 3)%nat -> m_at (mt_FInv m points) c q = m_at (q_Points gauss) c q.
Proof using Hk ER HR GT EL RG EG.
  intros Hc. unfold points. cbn [mt_FInv mt_F m_at]. pose proof inv_ok as HI.
  rewrite (rsum_ext 3 _ (fun r => rsum 3 (fun j => mt_BInv m c r * mt_B m r j * m_at (q_Points gauss) j q))).
  2: { intros r Hr. cbn [rsum]. ring. }
  rewrite rsum_swap. rewrite (rsum_ext 3 _ (fun j => (if (c =? j)%nat then 1 else 0) * m_at (q_Points gauss) j q)).
  2: { intros j Hj. rewrite rsum_scal_r. f_equal. apply HI; lia. }
  destruct c as [|[|[|c]]]; [| | |lia]; cbn; ring.
Qed.
Lemma row_back c : (c < 3)%nat -> mrow (mt_FInv m points) c = mrow (q_Points gauss) c.
Proof using Hk ER HR GT EL RG EG.
  intros Hc. unfold mrow. rewrite (proj1 RG). cbn [mt_FInv m_rows]. destruct (Nat.ltb_spec c 3); [|lia]. f_equal. apply functional_extensionality. intros q. apply (F_back c q Hc).
Qed.
Lemma map_l : lt_Map l = m.
Proof using Hk ER HR GT EL RG EG. destruct (local_ok k ref dir m ER dir_length HR) as (l' & EL' & M1 & _). unfold m, T, dir in EL'. rewrite EL in EL'. injection EL' as <-. exact M1. Qed.
Lemma quadrature_table : FEM_Values_quadrature gauss ref l = Tri_LocalValues ref l points.
Proof using Hk ER HR GT EL RG EG.
  unfold FEM_Values_quadrature, Tri_LocalValues. rewrite map_l. f_equal. unfold Tri_Values. rewrite !row_back by lia. reflexivity.
Qed.
Lemma quadrature_derivative_table : FEM_Derivatives_quadrature gauss ref l = Tri_LocalDerivatives ref l points.
Proof using Hk ER HR GT EL RG EG.
  unfold FEM_Derivatives_quadrature, Tri_LocalDerivatives. rewrite map_l. f_equal. unfold Tri_Derivatives. rewrite !row_back by lia. reflexivity.
Qed.
Lemma values_table f fx fy pts : poly2 k f fx fy -> exists V, Tri_LocalValues ref l pts = Ok V /\ m_rows V = m_cols pts /\ m_cols V = N /\
  forall u, (forall i, (i < N)%nat -> u i = f (X i) (Y i)) -> forall q, (q < m_cols pts)%nat -> combine V u q = f (m_at pts 0 q) (m_at pts 1 q).
Proof using Hk ER HR GT EL RG EG.
  intros Pf. destruct (local_reproduces k ref dir m l Hk ER dir_length HR EL inv_ok eq_refl eq_refl pts f fx fy Pf) as (V & EV & R1 & R2 & H).
  exists V. do 3 (split; [assumption|]). intros u Hu q Hq. rewrite <- (H q Hq). unfold combine. rewrite R2. apply rsum_ext. intros i Hi. rewrite Hu by exact Hi. unfold X, Y. ring.
Qed.
Lemma gradient_table f fx fy pts : poly2 k f fx fy -> exists D0 D1, Tri_LocalDerivatives ref l pts = Ok [D0; D1] /\ m_rows D0 = m_cols pts /\ m_cols D0 = N /\ m_rows D1 = m_cols pts /\ m_cols D1 = N /\
  forall u, (forall i, (i < N)%nat -> u i = f (X i) (Y i)) -> forall q, (q < m_cols pts)%nat -> combine D0 u q = fx (m_at pts 0 q) (m_at pts 1 q) /\ combine D1 u q = fy (m_at pts 0 q) (m_at pts 1 q).
Proof using Hk ER HR GT EL RG EG.
  intros Pf. destruct (local_gradient_reproduces k ref dir m l Hk ER dir_length HR EL inv_ok eq_refl eq_refl pts f fx fy Pf) as (D0 & D1 & ED & R1 & R2 & R3 & R4 & H).
  exists D0, D1. do 5 (split; [assumption|]). intros u Hu q Hq. destruct (H q Hq) as [H0 H1]. rewrite <- H0, <- H1. unfold combine. rewrite R2, R4. split; apply rsum_ext; intros i Hi; rewrite Hu by exact Hi; unfold X, Y; ring.
Qed.

(** the points of the unknowns *)
Lemma counts_ref : ft_NumDofs0D ref = 1%nat /\ ft_NumDofs1D ref = (k - 1)%nat /\ (3 + 3 * (k - 1) + ft_NumDofs2D ref = N)%nat /\ (2 * N = (k + 1) * (k + 2))%nat /\ m_rows (lt_Dofs l) = 3%nat /\ m_cols (lt_Dofs l) = N /\ lt_NumberOfBasisFunctions l = N.
Proof using Hk ER HR GT EL RG EG.
  destruct (C41_all k Hk) as (data' & E' & _ & A1 & A2 & A3 & A4 & _). rewrite ER in E'. injection E' as <-.
  destruct (local_ok k ref dir m ER dir_length HR) as (l' & EL' & M1 & M2 & M3 & M4 & M5 & M6 & M7 & M8 & M9). unfold m, T, dir in EL'. rewrite EL in EL'. injection EL' as <-.
  fold N in A1, A4. rewrite A2, A3 in A4. repeat split; auto; lia.
Qed.
Lemma vertex_dof v c : (v < 3)%nat -> (c < 3)%nat -> m_at (lt_Dofs l) c v = m_at T c v.
Proof using Hk ER HR GT EL RG EG.
  intros Hv Hc. rewrite (vertex_pos k ref dir m l Hk ER dir_length HR EL v c Hv). unfold affine. cbn [rsum]. cbn [m triangle_map mt_B mt_b]. unfold mapTriangle_B.
  pose proof (gt_plane _ GT) as GP. fold T in GP. destruct c as [|[|[|c]]]; [| | |lia]; destruct v as [|[|[|v]]]; try lia; cbn [vec3 vx vy]; rewrite ?GP by lia; ring.
Qed.
Lemma start_stop e : (e < 3)%nat -> (start dir e < 3)%nat /\ (stop dir e < 3)%nat.
Proof using Hk ER HR GT EL RG EG. intros He. pose proof (Nat.mod_upper_bound (e + 1) 3 ltac:(discriminate)). unfold start, stop. destruct (nth e dir true); lia. Qed.
Lemma edge_start e t c : (e < 3)%nat -> (c < 3)%nat -> geometry_tangents P -> DriverSpec2.edge_point P e t c = m_at T c (start dir e) + t * (m_at T c (stop dir e) - m_at T c (start dir e)).
Proof using Hk ER HR GT EL RG EG.
  intros He Hc HT. unfold DriverSpec2.edge_point, start, stop. rewrite (HT e c) by (rewrite ?(gt_three _ GT); auto). rewrite (gt_three _ GT). fold T dir. destruct (nth e dir true); ring.
Qed.

(** a polynomial on an edge, from its unknowns *)
Lemma edge_trace e f fx fy w : (e < 3)%nat -> poly2 k f fx fy ->
  w 0%nat = f (m_at T 0 (start dir e)) (m_at T 1 (start dir e)) -> w 1%nat = f (m_at T 0 (stop dir e)) (m_at T 1 (stop dir e)) ->
  (forall q, (q < k - 1)%nat -> w (S (S q)) = f (X (3 + e * (k - 1) + q)) (Y (3 + e * (k - 1) + q))) ->
  forall t, f (m_at T 0 (start dir e) + t * (m_at T 0 (stop dir e) - m_at T 0 (start dir e))) (m_at T 1 (start dir e) + t * (m_at T 1 (stop dir e) - m_at T 1 (start dir e))) =
    Pcc2dProofs4.interp (k + 1) (tri_nodes k) w t.
Proof using Hk ER HR GT EL RG EG.
  intros He Pf W0 W1 WQ t. destruct (start_stop e He) as [S0 S1]. pose proof (tri_nodes_distinct k Hk) as ND.
  set (g := fun t => f (m_at T 0 (start dir e) + t * (m_at T 0 (stop dir e) - m_at T 0 (start dir e))) (m_at T 1 (start dir e) + t * (m_at T 1 (stop dir e) - m_at T 1 (start dir e)))).
  change (g t = Pcc2dProofs4.interp (k + 1) (tri_nodes k) w t). enough (Z : g t + (-1) * Pcc2dProofs4.interp (k + 1) (tri_nodes k) w t = 0) by lra. revert t.
  apply (is_poly_roots (k + 1) (fun t => g t + (-1) * Pcc2dProofs4.interp (k + 1) (tri_nodes k) w t) (tri_nodes k)); auto.
  - apply is_poly_plus; [|apply is_poly_scal, interp_poly]. replace (k + 1)%nat with (S k) by lia. apply (poly_along k f fx fy). exact Pf.
  - intros i Hi. rewrite interp_node by auto. enough (g (tri_nodes k i) = w i) by lra. unfold g. destruct i as [|[|q]]; cbn [tri_nodes].
    + rewrite W0. f_equal; ring.
    + rewrite W1. f_equal; ring.
    + rewrite WQ by lia. unfold X, Y. rewrite !(edge_dofs k ref dir m l Hk ER dir_length HR EL e q) by (auto; lia). rewrite !vertex_dof by (auto; lia). f_equal; ring.
Qed.

(** Green's formula on the triangle: quadrature inside, a rule of the edges outside *)
Lemma inside_point c q : (c < 2)%nat -> m_at points c q = in_triangle T (m_at (q_Points gauss) 0 q) (m_at (q_Points gauss) 1 q) c.
Proof using Hk ER HR GT EL RG EG. intros Hc. unfold points, in_triangle. cbn [mt_F m_at m triangle_map mt_B mt_b rsum]. unfold mapTriangle_B. destruct c as [|[|c]]; [ring|ring|lia]. Qed.
Lemma quadrature_ok : exists Q, FEM_InternalQuadrature gauss m T = Ok Q /\ q_Points Q = points /\ v_size (q_Weights Q) = v_size (q_Weights gauss) /\
  (forall q, v_at (q_Weights Q) q = 2 * area T * v_at (q_Weights gauss) q) /\ m_cols points = v_size (q_Weights gauss).
Proof using Hk ER HR GT EL RG EG.
  destruct RG as [R3 RS]. unfold FEM_InternalQuadrature. rewrite R3. cbn [Nat.eqb negb]. unfold vcwise. cbn [v_size]. rewrite RS, Nat.eqb_refl. cbn [bind].
  eexists. split; [reflexivity|]. cbn [q_Points q_Weights v_size v_at mapTriangle_DetJ]. split; [reflexivity|]. split; [auto|]. split; [|unfold points; cbn [mt_F m_cols]; auto].
  intros q. rewrite <- tri_det_area. unfold tri_det. cbn [mapTriangle_B]. rewrite Rmult_comm. reflexivity.
Qed.
Lemma green_cell E F Fx Fy : exact_interval (2 * k - 1) E -> poly2 (2 * k - 1) F Fx Fy ->
  2 * area T * apply_rule (q_Weights gauss) (fun q => Fx (m_at points 0 q) (m_at points 1 q)) =
    rsum 3 (fun i => (m_at T 1 (following 3 i) - m_at T 1 i) * apply_rule (q_Weights E) (fun q => let t := m_at (q_Points E) 0 q in
      F (m_at T 0 (start dir i) + t * (m_at T 0 (stop dir i) - m_at T 0 (start dir i))) (m_at T 1 (start dir i) + t * (m_at T 1 (stop dir i) - m_at T 1 (start dir i))))) /\
  2 * area T * apply_rule (q_Weights gauss) (fun q => Fy (m_at points 0 q) (m_at points 1 q)) =
    rsum 3 (fun i => - (m_at T 0 (following 3 i) - m_at T 0 i) * apply_rule (q_Weights E) (fun q => let t := m_at (q_Points E) 0 q in
      F (m_at T 0 (start dir i) + t * (m_at T 0 (stop dir i) - m_at T 0 (start dir i))) (m_at T 1 (start dir i) + t * (m_at T 1 (stop dir i) - m_at T 1 (start dir i))))).
Proof using Hk ER HR GT EL RG EG.
  intros [_ EX] PF.
  assert (ES : exact_segment (2 * k - 1) (0, 0) (q_Points E) (q_Weights E)). { intros a Ha. cbn [fst snd]. rewrite (EX a Ha). ring. }
  assert (ET : exact_triangle (2 * k - 1 - 1) gauss) by (intros a b Hab; apply EG; lia).
  destruct (green_triangle (0, 0) (q_Points E) (q_Weights E) (2 * k - 1) ES gauss ET F Fx Fy PF T (Rlt_le _ _ (gt_area _ GT))) as [GX GY].
  assert (SD : forall i, (i < 3)%nat -> side (0, 0) (q_Points E) (q_Weights E) F (col2 T i, col2 T (following 3 i)) =
    apply_rule (q_Weights E) (fun q => let t := m_at (q_Points E) 0 q in
      F (m_at T 0 (start dir i) + t * (m_at T 0 (stop dir i) - m_at T 0 (start dir i))) (m_at T 1 (start dir i) + t * (m_at T 1 (stop dir i) - m_at T 1 (start dir i))))).
  { intros i Hi. assert (K : forall s, side (0, 0) (q_Points E) (q_Weights E) F s = apply_rule (q_Weights E) (fun q => let t := m_at (q_Points E) 0 q in
       F (fst (fst s) + t * (fst (snd s) - fst (fst s))) (snd (fst s) + t * (snd (snd s) - snd (fst s))))).
    { intros s. unfold side, Q. cbn [fst snd]. rewrite !Rmult_0_l, !Rplus_0_l. apply apply_ext. intros q Hq. cbv zeta. f_equal; ring. }
    unfold start, stop. rewrite (following_mod 3 i Hi). destruct (nth i dir true).
    - rewrite K. reflexivity.
    - rewrite <- (side_reverse (0, 0) (q_Points E) (q_Weights E) (2 * k - 1) ES F Fx Fy PF). rewrite K. reflexivity. }
  unfold L in GX, GY. split.
  - rewrite (apply_ext _ _ (fun j => Fx (in_triangle T (m_at (q_Points gauss) 0 j) (m_at (q_Points gauss) 1 j) 0) (in_triangle T (m_at (q_Points gauss) 0 j) (m_at (q_Points gauss) 1 j) 1))) by (intros; rewrite !inside_point by lia; reflexivity).
    rewrite GX. cbn [sides lsum rsum]. rewrite <- !SD by lia. unfold dy. cbn [fst snd col2 following Nat.eqb Nat.sub]. ring.
  - rewrite (apply_ext _ _ (fun j => Fy (in_triangle T (m_at (q_Points gauss) 0 j) (m_at (q_Points gauss) 1 j) 0) (in_triangle T (m_at (q_Points gauss) 0 j) (m_at (q_Points gauss) 1 j) 1))) by (intros; rewrite !inside_point by lia; reflexivity).
    rewrite GY. cbn [sides lsum rsum]. rewrite <- !SD by lia. unfold dx. cbn [fst snd col2 following Nat.eqb Nat.sub]. ring.
Qed.
End Cell.
