(** Proofs: the virtual element on one cell, its boundary points and fluxes edge by edge, the discrete divergence theorem. *)
From Coq Require Import List Arith Bool Reals Lia Lra.
From Verif Require Import Base RSum MatrixModel MonomialsModel MonomialsSpec LagrangeModel DofsModel DofsSpec AssemblerModel AssemblerSpec EquationModel EquationSpec VemQuadModel VemQuadSpec VemQuadProofs VemQuadProofs2 GreenSpec GreenProofs PolyProofs VemModel VemSpec
  VemProofs VemProofs2 VemProofs3 VemProofs4 VemProofs5 DriverModel DriverSpec DriverSpec2 Pcc2dModel Pcc2dSpec DriverProofs DriverProofs2 DriverProofs3 DriverProofs4 DriverProofs5 DriverProofs6 DriverProofs7 Pcc2dProofs.
Import ListNotations.
Local Open Scope R_scope.

Section Cell.
Variables (gt lob : nat -> QuadratureData) (junk : nat -> nat -> R) (lu llt : Solver) (k : nat) (p : Polygon) (ref : VEM_2D_Reference) (l : VEM_2D_Local).
Hypothesis VS : vem_space gt lob junk lu llt k p ref l.
Let Hk := vs_order _ _ _ _ _ _ _ _ _ VS.
Let GR := vs_rules _ _ _ _ _ _ _ _ _ VS.
Let GP := vs_polygon _ _ _ _ _ _ _ _ _ VS.
Let nv := m_cols (pg_Vertices p).
Let RFc := RF gt lob junk lu llt k p ref l VS.
Let LFc := LF gt lob junk lu llt k p ref l VS.
Let P := vq_ReferenceEdgeDOFsInternalPoints (rv_Quadrature ref).
Let W := vq_ReferenceEdgeDOFsInternalWeights (rv_Quadrature ref).
Let ext := vq_ReferenceEdgeDOFsExtremaWeights (rv_Quadrature ref).

Lemma boundary_rule : PolygonEdgesLobattoQuadrature junk P W ext (pg_Vertices p) (pg_EdgesLength p) (pg_EdgesDirection p) (pg_EdgesTangent p) (pg_EdgesNormal p) = Ok (lv_BoundaryQuadrature l).
Proof using VS.
  pose proof (vs_local _ _ _ _ _ _ _ _ _ VS) as E. unfold VEM_PCC_2D_CreateLocalSpace in E.
  apply bind_Ok in E. destruct E as (IQ & EI & E). apply bind_Ok in E. destruct E as (BQ & EB & E).
  repeat (apply bind_Ok in E; destruct E as (? & _ & E); try (destruct x as [[? ?] ?]; cbn beta iota in E)); repeat match type of E with context [let '(_, _) := ?x in _] => destruct x end.
  repeat (apply bind_Ok in E; destruct E as (? & _ & E); repeat match type of E with context [let '(_, _) := ?x in _] => destruct x end).
  injection E as <-. cbn [lv_BoundaryQuadrature]. exact EB.
Qed.
Lemma Pn : m_cols P = (k - 1)%nat. Proof using VS. apply (rf_segn _ _ _ RFc). Qed.
Lemma ext_sym : fst ext = snd ext. Proof using VS. apply (rf_sym _ _ _ RFc). Qed.
Let full := lobatto_full junk P W ext (pg_Vertices p) (pg_EdgesLength p) (pg_EdgesDirection p) (pg_EdgesTangent p) (pg_EdgesNormal p)
  (rf_seg _ _ _ RFc) (gp_edges _ GP) (gp_tangents _ GP).

Lemma bp_vertex j d : (j < nv)%nat -> (d < 3)%nat -> m_at (boundary_points l) d j = m_at (pg_Vertices p) d j.
Proof using VS. destruct full as (r & E & _ & _ & _ & _ & H & _). rewrite boundary_rule in E. injection E as <-. intros. apply H; auto. Qed.
Lemma edge_first_last i t d : (i < nv)%nat -> (d < 3)%nat ->
  along (pg_Vertices p) (edge_first (pg_Vertices p) (pg_EdgesDirection p) i) (edge_last (pg_Vertices p) (pg_EdgesDirection p) i) t d = DriverSpec2.edge_point p i t d.
Proof using VS.
  intros Hi Hd. unfold along, edge_first, edge_last, DriverSpec2.edge_point. rewrite (gp_tangents _ GP i d Hi Hd). fold nv. rewrite <- (following_mod nv i Hi). destruct (nth i (pg_EdgesDirection p) true); ring.
Qed.
Lemma bp_edge i q d : (i < nv)%nat -> (q < k - 1)%nat -> (d < 3)%nat -> m_at (boundary_points l) d (nv + (k - 1) * i + q) = DriverSpec2.edge_point p i (m_at P 0 q) d.
Proof using VS.
  destruct full as (r & E & _ & _ & _ & _ & _ & H & _). rewrite boundary_rule in E. injection E as <-. intros Hi Hq Hd. rewrite Pn in H.
  rewrite <- (edge_first_last i (m_at P 0 q) d) by auto. apply H; auto.
Qed.
(** the flux through the boundary, edge by edge *)
Lemma flux_edges d g u : (d < 2)%nat -> flux l d g u = rsum nv (fun i => m_at (pg_EdgesNormal p) d i * Rabs (v_at (pg_EdgesLength p) i) *
  (fst ext * (g (m_at (pg_Vertices p) 0 i) (m_at (pg_Vertices p) 1 i) * u i)
   + fst ext * (g (m_at (pg_Vertices p) 0 (following nv i)) (m_at (pg_Vertices p) 1 (following nv i)) * u (following nv i))
   + rsum (k - 1) (fun q => v_at W q * (g (DriverSpec2.edge_point p i (m_at P 0 q) 0%nat) (DriverSpec2.edge_point p i (m_at P 0 q) 1%nat) * u (nv + (k - 1) * i + q)%nat)))).
Proof using VS.
  intros Hd. destruct full as (r & E & _ & _ & _ & _ & _ & _ & _ & _ & H). rewrite boundary_rule in E. injection E as <-. unfold flux. rewrite H by auto. fold nv. rewrite Pn, <- ext_sym. apply rsum_ext. intros i Hi. f_equal.
  pose proof (following_lt nv i Hi) as Hf. rewrite !bp_vertex by (auto; lia). f_equal. apply rsum_ext. intros q Hq. rewrite !bp_edge by (auto; lia). reflexivity.
Qed.
Lemma nv_pos : (0 < nv)%nat.
Proof using VS.
  pose proof (gp_area _ GP) as HA. unfold shoelace in HA. fold nv in HA. destruct nv; [cbn in HA; unfold Rdiv in HA; rewrite Rmult_0_l in HA; lra|lia].
Qed.
Lemma normal_length i : (i < nv)%nat ->
  m_at (pg_EdgesNormal p) 0 i * Rabs (v_at (pg_EdgesLength p) i) = m_at (pg_Vertices p) 1 (following nv i) - m_at (pg_Vertices p) 1 i /\
  m_at (pg_EdgesNormal p) 1 i * Rabs (v_at (pg_EdgesLength p) i) = - (m_at (pg_Vertices p) 0 (following nv i) - m_at (pg_Vertices p) 0 i).
Proof using VS. intros Hi. apply (gp_normals _ GP i Hi). Qed.

(** the coefficients of a derivative of a polynomial of degree k - 1 on the first monomials *)
Lemma derivative_coefficients g gx gy : poly2 (k - 1) g gx gy -> exists c0 c1,
  (forall x y, gx x y = rsum (lv_NumInternalBasisFunctions l) (fun i => c0 i * scaled_monomial ref l i x y)) /\
  (forall x y, gy x y = rsum (lv_NumInternalBasisFunctions l) (fun i => c1 i * scaled_monomial ref l i x y)).
Proof using VS.
  intros Pg. pose proof (gp_diameter _ GP) as Hh.
  destruct (phi_represent (pg_Centroid p 0%nat) (pg_Centroid p 1%nat) (pg_Diameter p) Hh (k - 1) g gx gy Pg) as (a & Ha & Hax & Hay).
  pose proof (nint_le k Hk) as L1. pose proof (num2_mono (k - 1) k ltac:(lia)) as L2.
  rewrite (lf_ni _ _ _ _ _ _ LFc).
  assert (K : forall der dm, (forall i x y, (i < num2 (k - 1))%nat -> rsum (nint k) (fun c => dm i c * phi (pg_Centroid p 0%nat) (pg_Centroid p 1%nat) (pg_Diameter p) c x y) / pg_Diameter p = der i x y) ->
    exists c, forall x y, rsum (num2 (k - 1)) (fun i => a i * der i x y) = rsum (nint k) (fun i => c i * scaled_monomial ref l i x y)).
  { intros der dm Hd. exists (fun c => rsum (num2 (k - 1)) (fun i => a i * (dm i c / pg_Diameter p))). intros x y.
    rewrite (rsum_ext (nint k) _ (fun c => rsum (num2 (k - 1)) (fun i => a i * (dm i c * phi (pg_Centroid p 0%nat) (pg_Centroid p 1%nat) (pg_Diameter p) c x y / pg_Diameter p)))).
    - rewrite rsum_swap. apply rsum_ext. intros i Hi. rewrite rsum_scal. unfold Rdiv. rewrite rsum_scal_r. rewrite <- Hd by auto. reflexivity.
    - intros c Hc. rewrite (scaled_phi gt lob junk lu llt k p ref l VS) by lia. rewrite <- rsum_scal_r. apply rsum_ext. intros i _. unfold Rdiv. ring. }
  destruct (K _ _ (fun i x y => der0_ni k p Hk GP i x y)) as (c0 & H0). destruct (K _ _ (fun i x y => der1_ni k p Hk GP i x y)) as (c1 & H1).
  exists c0, c1. split; intros x y; [rewrite Hax; apply H0|rewrite Hay; apply H1].
Qed.
Lemma moment_projected c u : moment l c u = inside l (fun x y => projected ref l (lv_Pi0km1 l) u x y * rsum (lv_NumInternalBasisFunctions l) (fun i => c i * scaled_monomial ref l i x y)).
Proof using VS.
  pose proof (nint_le k Hk) as L1. pose proof (num2_mono (k - 1) k ltac:(lia)) as L2.
  rewrite inside_fI. rewrite (I_ext l _ (fun x y => rsum (lv_NumInternalBasisFunctions l) (fun i => c i * (projected ref l (lv_Pi0km1 l) u x y * scaled_monomial ref l i x y)))).
  2: { intros x y. rewrite <- rsum_scal. apply rsum_ext. intros; ring. }
  rewrite I_rsum. unfold moment. rewrite <- rsum_scal. apply rsum_ext. intros i Hi. rewrite I_scal. rewrite <- inside_fI.
  rewrite (lf_ni _ _ _ _ _ _ LFc) in Hi.
  destruct (orthogonal_all gt lob junk lu llt k p ref l VS u i) as (_ & H). { rewrite (lf_Nk _ _ _ _ _ _ LFc). lia. }
  rewrite (lf_Nkm1 _ _ _ _ _ _ LFc) in H. rewrite (H ltac:(lia)). rewrite (lf_ni _ _ _ _ _ _ LFc), (ltb_true i (nint k)) by auto. ring.
Qed.

(** the projected gradient and the projected function satisfy the divergence theorem against the polynomials of degree k - 1 *)
Lemma divergence u g0 g0x g0y g1 g1x g1y : poly2 (k - 1) g0 g0x g0y -> poly2 (k - 1) g1 g1x g1y -> exists P0 P1, lv_Pi0km1Der l = [P0; P1] /\
  inside l (fun x y => projected ref l P0 u x y * g0 x y + projected ref l P1 u x y * g1 x y) + inside l (fun x y => projected ref l (lv_Pi0km1 l) u x y * (g0x x y + g1y x y)) =
  flux l 0 g0 u + flux l 1 g1 u.
Proof using VS.
  intros H0 H1. destruct (derivative_coefficients _ _ _ H0) as (c0 & _ & E0 & _). destruct (derivative_coefficients _ _ _ H1) as (_ & c1 & _ & E1).
  destruct (derivative_projection_all gt lob junk lu llt k p ref l VS 0 u g0 g0x g0y c0) as (Q0 & F0 & D0); auto.
  destruct (derivative_projection_all gt lob junk lu llt k p ref l VS 1 u g1 g1x g1y c1) as (Q1 & F1 & D1); auto.
  destruct (lf_PD _ _ _ _ _ _ LFc) as (P0 & P1 & EP & _). rewrite EP in F0, F1. injection F0 as <-. injection F1 as <-. exists P0, P1. split; auto.
  rewrite moment_projected in D0, D1.
  assert (M0 : inside l (fun x y => projected ref l (lv_Pi0km1 l) u x y * g0x x y) = inside l (fun x y => projected ref l (lv_Pi0km1 l) u x y * rsum (lv_NumInternalBasisFunctions l) (fun i => c0 i * scaled_monomial ref l i x y))) by (apply I_ext; intros; now rewrite E0).
  assert (M1 : inside l (fun x y => projected ref l (lv_Pi0km1 l) u x y * g1y x y) = inside l (fun x y => projected ref l (lv_Pi0km1 l) u x y * rsum (lv_NumInternalBasisFunctions l) (fun i => c1 i * scaled_monomial ref l i x y))) by (apply I_ext; intros; now rewrite E1).
  assert (M2 : inside l (fun x y => projected ref l (lv_Pi0km1 l) u x y * (g0x x y + g1y x y)) = inside l (fun x y => projected ref l (lv_Pi0km1 l) u x y * g0x x y) + inside l (fun x y => projected ref l (lv_Pi0km1 l) u x y * g1y x y)).
  { rewrite <- (I_plus l). apply I_ext. intros; ring. }
  assert (M3 : inside l (fun x y => projected ref l P0 u x y * g0 x y + projected ref l P1 u x y * g1 x y) = inside l (fun x y => projected ref l P0 u x y * g0 x y) + inside l (fun x y => projected ref l P1 u x y * g1 x y)) by apply (I_plus l).
  rewrite M3, M2, M0, M1, D0, D1. ring.
Qed.

(** ** The unknowns of a function *)
Lemma Nkm2_ni : lv_Nkm2 l = lv_NumInternalBasisFunctions l.
Proof using VS.
  destruct (sizes_all gt lob junk lu llt k p ref l VS) as (_ & H & _).
  pose proof (vs_local _ _ _ _ _ _ _ _ _ VS) as E. unfold VEM_PCC_2D_CreateLocalSpace in E.
  apply bind_Ok in E. destruct E as (IQ & EI & E). apply bind_Ok in E. destruct E as (BQ & EB & E).
  repeat (apply bind_Ok in E; destruct E as (? & _ & E); repeat match type of E with context [let '(_, _) := ?x in _] => destruct x end).
  assert (E2 : lv_Nkm2 l = ((rv_Order ref - 1) * rv_Order ref / 2)%nat) by (injection E as <-; reflexivity). rewrite E2, (rf_order _ _ _ RFc).
  replace ((k - 1) * k)%nat with (lv_NumInternalBasisFunctions l * 2)%nat by (rewrite (Nat.mul_comm (k - 1)); lia). apply Nat.div_mul. lia.
Qed.
Lemma internal_moments f : exists dofs, internal_dofs (VEM_space junk ref p l) (planar f) dofs /\ v_size dofs = lv_NumInternalBasisFunctions l /\
  forall i, (i < lv_NumInternalBasisFunctions l)%nat -> v_at dofs i = dofs_of ref l f (lv_NumBoundaryBasisFunctions l + i).
Proof using VS.
  destruct (lf_IQ _ _ _ _ _ _ LFc) as [RQ SQ]. destruct (lf_VI _ _ _ _ _ _ LFc) as (RV & CV & EV).
  pose proof (nint_le k Hk) as L1. pose proof (num2_mono (k - 1) k ltac:(lia)) as L2.
  set (Q := lv_InternalQuadrature l) in *.
  set (v := {| v_size := m_cols (q_Points Q); v_at := fun q => planar f (m_at (q_Points Q) 0 q) (m_at (q_Points Q) 1 q) (m_at (q_Points Q) 2 q) |}).
  assert (EB : mat_block (lv_VanderInternal l) 0 0 (m_rows (lv_VanderInternal l)) (lv_NumInternalBasisFunctions l) = Ok {| m_rows := m_rows (lv_VanderInternal l); m_cols := lv_NumInternalBasisFunctions l; m_at := fun i j => m_at (lv_VanderInternal l) (0 + i) (0 + j) |}).
  { unfold mat_block. rewrite CV. rewrite leb_true, leb_true by (rewrite ?(lf_ni _ _ _ _ _ _ LFc); lia). reflexivity. }
  eexists. split; [exists Q, v; split; [reflexivity|]; split; [right; lia|]; split; [reflexivity|]; cbn [VEM_space ls_InternalDofs]|].
  - unfold VEM_ScaledPolynomialsValues, leftCols. rewrite Nkm2_ni, EB. cbn [bind]. unfold twv, mdiag, mmulv, mtrans, mscal. cbn [m_rows m_cols]. rewrite RV, SQ, Nat.eqb_refl. cbn [bind m_cols v_size v]. rewrite ?SQ, Nat.eqb_refl. reflexivity.
  - cbn [v_size v_at]. split; [reflexivity|]. intros i Hi. unfold dofs_of. destruct (Nat.ltb_spec (lv_NumBoundaryBasisFunctions l + i) (lv_NumBoundaryBasisFunctions l)); [lia|]. cbv zeta.
    replace (lv_NumBoundaryBasisFunctions l + i - lv_NumBoundaryBasisFunctions l)%nat with i by lia. unfold apply_rule. fold Q. rewrite SQ. cbn [m_cols m_rows m_at v_at v]. rewrite <- rsum_scal. rewrite ?RV. apply rsum_ext. intros q Hq.
    rewrite (lf_ni _ _ _ _ _ _ LFc) in Hi. rewrite EV by lia. rewrite (scaled_phi gt lob junk lu llt k p ref l VS) by lia. unfold planar. cbn [Nat.add]. field. rewrite (lf_measure _ _ _ _ _ _ LFc). apply (gp_measure _ GP).
Qed.
End Cell.
