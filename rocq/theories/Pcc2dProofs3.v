(** Proofs: the virtual element on a mesh: spaces of the cells, unknowns of a function, zero error of the interpolant of a polynomial. *)
From Coq Require Import List Arith Bool Reals Lia Lra.
From Verif Require Import Base RSum MatrixModel MonomialsModel MonomialsSpec LagrangeModel DofsModel DofsSpec AssemblerModel AssemblerSpec EquationModel EquationSpec VemQuadModel VemQuadSpec VemQuadProofs VemQuadProofs2 GreenSpec GreenProofs PolyProofs VemModel VemSpec
  VemProofs VemProofs2 VemProofs3 VemProofs4 VemProofs5 DriverModel DriverSpec DriverSpec2 Pcc2dModel Pcc2dSpec DriverProofs DriverProofs2 DriverProofs3 DriverProofs4 DriverProofs5 DriverProofs6 DriverProofs7 Pcc2dProofs Pcc2dProofs2.
Import ListNotations.
Local Open Scope R_scope.

Definition no_quadrature : QuadratureData := {| q_Points := mzero 0 0; q_Weights := vzero 0 |}.
Definition no_local : VEM_2D_Local := {|
  lv_Dimension := 0; lv_Order := 0; lv_NumVertexBasisFunctions := 0; lv_NumEdgeBasisFunctions := 0; lv_NumBoundaryBasisFunctions := 0;
  lv_NumInternalBasisFunctions := 0; lv_NumBasisFunctions := 0; lv_NumProjectorBasisFunctions := 0; lv_Nkm1 := 0; lv_Nkm2 := 0;
  lv_InternalQuadrature := no_quadrature; lv_BoundaryQuadrature := {| eq_Quadrature := no_quadrature; eq_WeightsTimesNormal := [] |};
  lv_Diameter := 0; lv_Measure := 0; lv_Centroid := fun _ => 0; lv_VanderInternal := mzero 0 0; lv_VanderInternalDerivatives := [];
  lv_VanderBoundary := mzero 0 0; lv_VanderBoundaryDerivatives := []; lv_Hmatrix := mzero 0 0; lv_Gmatrix := mzero 0 0; lv_Bmatrix := mzero 0 0;
  lv_PiNabla := mzero 0 0; lv_Cmatrix := mzero 0 0; lv_Pi0km1 := mzero 0 0; lv_Pi0k := mzero 0 0; lv_Ematrix := []; lv_Pi0km1Der := []; lv_Dmatrix := mzero 0 0 |}.
Definition get {A} (d : A) (o : outcome A) : A := match o with Ok a => a | _ => d end.

Section Mesh.
Variables (gt lob : nat -> QuadratureData) (junk : nat -> nat -> R) (lu llt : Solver) (k : nat) (ref : VEM_2D_Reference) (m : Mesh2D) (info : MeshDOFsInfo) (geometry : nat -> Polygon).
Hypothesis VM : vem_mesh gt lob lu llt k ref m info geometry.
Let mesh := md_mesh m.
Let nc := Cell2Ds_number mesh.
Let Hk := vm_order _ _ _ _ _ _ _ _ _ VM.
Let P := vq_ReferenceEdgeDOFsInternalPoints (rv_Quadrature ref).
Definition loc (c : nat) : VEM_2D_Local := get no_local (VEM_PCC_2D_CreateLocalSpace junk lu llt ref (geometry c)).
Definition create := Create_VEM junk lu llt ref geometry.

Lemma cell_space c : (c < nc)%nat -> vem_space gt lob junk lu llt k (geometry c) ref (loc c).
Proof using VM.
  intros Hc. destruct (C69_all gt lob junk lu llt k (geometry c) Hk (vm_rules _ _ _ _ _ _ _ _ _ VM) (vm_polygon _ _ _ _ _ _ _ _ _ VM c Hc) (vm_lu _ _ _ _ _ _ _ _ _ VM) (vm_llt _ _ _ _ _ _ _ _ _ VM)) as (ref' & l & VS).
  assert (ref' = ref). { pose proof (vs_reference _ _ _ _ _ _ _ _ _ VS) as E. rewrite (vm_reference _ _ _ _ _ _ _ _ _ VM) in E. now injection E as <-. } subst ref'.
  unfold loc. rewrite (vs_local _ _ _ _ _ _ _ _ _ VS). exact VS.
Qed.
Lemma create_ok c : (c < nc)%nat -> create c = Ok (VEM_space junk ref (geometry c) (loc c)).
Proof using VM. intros Hc. unfold create, Create_VEM. rewrite (vs_local _ _ _ _ _ _ _ _ _ (cell_space c Hc)). reflexivity. Qed.
Lemma nv_mesh c : (c < nc)%nat -> m_cols (pg_Vertices (geometry c)) = length (Cell2D_vertices mesh c).
Proof using VM. intros Hc. apply (vm_geometry _ _ _ _ _ _ _ _ _ VM c Hc). Qed.
Lemma ne_mesh c : (c < nc)%nat -> length (Cell2D_edges mesh c) = length (Cell2D_vertices mesh c).
Proof using VM. intros Hc. apply (vm_edges _ _ _ _ _ _ _ _ _ VM c Hc). Qed.
Lemma nb_mesh c : (c < nc)%nat -> lv_NumBoundaryBasisFunctions (loc c) = (length (Cell2D_vertices mesh c) + (k - 1) * length (Cell2D_edges mesh c))%nat.
Proof using VM. intros Hc. destruct (sizes_all _ _ _ _ _ _ _ _ _ (cell_space c Hc)) as (H & _). rewrite H, nv_mesh, ne_mesh by auto. nia. Qed.
Lemma ni_mesh c : (c < nc)%nat -> lv_NumInternalBasisFunctions (loc c) = requested info 2 c.
Proof using VM. intros Hc. destruct (sizes_all _ _ _ _ _ _ _ _ _ (cell_space c Hc)) as (_ & H & _). pose proof (vm_cell_dofs _ _ _ _ _ _ _ _ _ VM c Hc). lia. Qed.
Lemma N_mesh c : (c < nc)%nat -> lv_NumBasisFunctions (loc c) = (lv_NumBoundaryBasisFunctions (loc c) + lv_NumInternalBasisFunctions (loc c))%nat.
Proof using VM. intros Hc. apply (sizes_all _ _ _ _ _ _ _ _ _ (cell_space c Hc)). Qed.

Lemma VD c : (c < nc)%nat -> forall v, In v (Cell2D_vertices mesh c) -> requested info 0 v = 1%nat.
Proof using VM. intros Hc v Hv. apply (vm_vertex_dofs _ _ _ _ _ _ _ _ _ VM c v Hc Hv). Qed.
Lemma ED c : (c < nc)%nat -> forall e, In e (Cell2D_edges mesh c) -> requested info 1 e = (k - 1)%nat.
Proof using VM. intros Hc e He. apply (vm_edge_dofs _ _ _ _ _ _ _ _ _ VM c e Hc He). Qed.
Lemma size_closure c : (c < nc)%nat -> length (closure_dofs info mesh 2 c) = lv_NumBasisFunctions (loc c).
Proof using VM. intros Hc. rewrite (closure_length info mesh c (k - 1) (requested info 2 c) (VD c Hc) (ED c Hc) eq_refl). rewrite N_mesh, nb_mesh, ni_mesh by auto. reflexivity. Qed.

(** the points of the unknowns of the edges *)
Definition pt (e q d : nat) : R := let a := md_coords m (nth 0 (Cell1D_vertices mesh e) 0%nat) d in let b := md_coords m (nth 1 (Cell1D_vertices mesh e) 0%nat) d in
  a + m_at P 0 q * (b - a).
Lemma pt_edge c i q d : (c < nc)%nat -> (i < length (Cell2D_edges mesh c))%nat -> (d < 3)%nat ->
  DriverSpec2.edge_point (geometry c) i (m_at P 0 q) d = pt (nth i (Cell2D_edges mesh c) 0%nat) q d.
Proof using VM. intros Hc Hi Hd. apply (edge_point_mesh m c); auto; [apply (vm_geometry _ _ _ _ _ _ _ _ _ VM c Hc)|]. rewrite nv_mesh, <- ne_mesh by auto. auto. Qed.
Lemma vertex_coords c i d : (c < nc)%nat -> (i < length (Cell2D_vertices mesh c))%nat -> (d < 3)%nat -> m_at (pg_Vertices (geometry c)) d i = md_coords m (nth i (Cell2D_vertices mesh c) 0%nat) d.
Proof using VM. intros Hc Hi Hd. apply (vm_geometry _ _ _ _ _ _ _ _ _ VM c Hc); auto. rewrite nv_mesh; auto. Qed.
Definition td (f : R -> R -> R) (c i : nat) : R := dofs_of ref (loc c) f (lv_NumBoundaryBasisFunctions (loc c) + i).

(** the unknowns of a function, place by place *)
Lemma dofs_places f c j h : (c < nc)%nat -> nth_error (closure_dofs info mesh 2 c) j = Some h -> dofs_of ref (loc c) f j = dof_value m pt (td f) (planar f) h.
Proof using VM.
  intros Hc Hj. pose proof (cell_space c Hc) as VS. pose proof (nth_error_Some (closure_dofs info mesh 2 c) j) as HS. rewrite Hj in HS. assert (Lj : (j < length (closure_dofs info mesh 2 c))%nat) by (apply HS; discriminate).
  rewrite (closure_length info mesh c (k - 1) (requested info 2 c) (VD c Hc) (ED c Hc) eq_refl) in Lj. pose proof (nb_mesh c Hc) as NB. pose proof (ne_mesh c Hc) as NE. pose proof (nv_mesh c Hc) as NV.
  destruct (place_cases mesh c (k - 1) (requested info 2 c) j Lj) as [H|[(i & q & Hi & Hq & ->)|(i & Hi & ->)]].
  - rewrite (place_vertex info mesh c (k - 1) (requested info 2 c) (VD c Hc) (ED c Hc) eq_refl) in Hj by auto. injection Hj as <-. unfold dofs_of. rewrite (ltb_true j) by (rewrite NB; apply (Nat.lt_le_trans _ _ _ H), Nat.le_add_r).
    unfold dof_value. cbn [entity_dof g_dim g_cell g_dof]. unfold at_point, planar. rewrite !(bp_vertex gt lob junk lu llt k (geometry c) ref (loc c) VS) by (auto; lia). rewrite !vertex_coords by (auto; lia). reflexivity.
  - rewrite (place_edge info mesh c (k - 1) (requested info 2 c) (VD c Hc) (ED c Hc) eq_refl) in Hj by auto. injection Hj as <-. unfold dofs_of. rewrite ltb_true by (rewrite NB; clear - Hi Hq; revert Hq Hi; generalize (k - 1)%nat; intros; nia).
    unfold dof_value. cbn [entity_dof g_dim g_cell g_dof]. unfold at_point, planar. rewrite <- NV. rewrite !(bp_edge gt lob junk lu llt k (geometry c) ref (loc c) VS) by (auto; lia). fold P. rewrite !(pt_edge c) by (auto; lia). reflexivity.
  - rewrite (place_cell info mesh c (k - 1) (requested info 2 c) (VD c Hc) (ED c Hc) eq_refl) in Hj by auto. injection Hj as <-. unfold dof_value. cbn [entity_dof g_dim g_cell g_dof]. unfold td. rewrite NB. reflexivity.
Qed.

Lemma edges_agree : edge_points_agree m info create (fun _ => true) (fun _ => True) pt.
Proof using VM.
  intros c Hc _. exists (VEM_space junk ref (geometry c) (loc c)). split; [apply create_ok; auto|]. intros ed e He _. pose proof (cell_space c Hc) as VS.
  assert (Hed : (ed < length (Cell2D_edges mesh c))%nat) by (apply nth_error_Some; fold mesh in He; rewrite He; discriminate).
  assert (Ee : e = nth ed (Cell2D_edges mesh c) 0%nat) by (symmetry; apply nth_error_nth; exact He).
  pose proof (RF _ _ _ _ _ _ _ _ _ VS) as RFs. pose proof (rf_segn _ _ _ RFs) as PN. fold P in PN. cbn [VEM_space ls_EdgeDofsCoordinates]. fold P. unfold edge_dofs_coordinates.
  assert (RE : requested info 1 e = (k - 1)%nat). { apply (ED c Hc). rewrite Ee. apply nth_In. auto. }
  destruct (Nat.eqb_spec (m_cols P) 0) as [Z|Z]; [exists (mzero 0 0); cbn [mzero m_cols m_rows]; rewrite RE; repeat split; auto; lia|].
  pose proof (vm_polygon _ _ _ _ _ _ _ _ _ VM c Hc) as GP. destruct (gp_edges _ GP) as [EV _ EDi [ET ET'] _]. pose proof (nv_mesh c Hc) as NV. pose proof (ne_mesh c Hc) as NE.
  assert (EA : at_ (pg_EdgesDirection (geometry c)) ed = Ok (nth ed (pg_EdgesDirection (geometry c)) true)) by (apply at_Ok, nth_error_nth_d; lia). rewrite EA. cbn [bind].
  assert (Hnv : m_cols (pg_Vertices (geometry c)) <> 0%nat) by lia. pose proof (Nat.mod_upper_bound (ed + 1) _ Hnv) as Hm.
  unfold mat_col. rewrite EV, ET, !Nat.eqb_refl. cbn [andb].
  rewrite ltb_true by (destruct (nth ed (pg_EdgesDirection (geometry c)) true); lia). cbn [bind]. rewrite ltb_true by lia. cbn [bind].
  destruct (rf_seg _ _ _ RFs) as [_ RP]. fold P in RP. destruct (Nat.eqb_spec (m_rows P) 0); [lia|]. eexists. split; [reflexivity|]. cbn [m_cols m_rows m_at]. split; [lia|]. split; [auto|].
  intros i Hi d Hd. rewrite Ee, <- (pt_edge c) by auto. unfold DriverSpec2.edge_point. cbn [m_at]. destruct (nth ed (pg_EdgesDirection (geometry c)) true); ring.
Qed.

Variable data : DOFsData.
Hypothesis HC : CreateDOFs 2 info (md_mesh m) = Ok data.
Let HN := vm_cells _ _ _ _ _ _ _ _ _ VM.

(** the interpolant: on every cell its local unknowns are those of the function *)
Lemma interpolant f : exists uD uS, evaluate_function_on_dofs m data k create (planar f) = Ok (uD, uS) /\ length uD = NumberDOFs data /\ length uS = NumberStrongs data /\
  forall c, (c < nc)%nat -> exists u, local_solution data uD uS c = Ok u /\ v_size u = length (closure_dofs info mesh 2 c) /\
    forall j h, nth_error (closure_dofs info mesh 2 c) j = Some h -> v_at u j = dof_value m pt (td f) (planar f) h.
Proof using VM HC.
  destruct (interpolation m info data HC HN k create (planar f) pt (td f)) as (uD & uS & E & L1 & L2 & H).
  - intros c v Hc Hv. apply (VD c Hc v Hv).
  - intros _. exact edges_agree.
  - intros _ c sp Hc Es _. rewrite create_ok in Es by auto. injection Es as <-. destruct (internal_moments _ _ _ _ _ _ _ _ _ (cell_space c Hc) f) as (dofs & I1' & I2 & I3).
    exists dofs. rewrite ni_mesh in I2, I3 by auto. split; [exact I1'|]. split; [lia|]. exact I3.
  - exists uD, uS. repeat (split; [assumption|]). intros c Hc. destruct (H c Hc) as (u & Eu & Su & Hu). exists u. repeat (split; [assumption|]). intros j h Hj. apply (Hu j h Hj).
    destruct (Nat.lt_ge_cases 1 k) as [|K1]; [auto|right]. assert (k = 1%nat) by lia.
    pose proof (nth_error_Some (closure_dofs info mesh 2 c) j) as HS. rewrite Hj in HS. assert (Lj : (j < length (closure_dofs info mesh 2 c))%nat) by (apply HS; discriminate).
    rewrite (closure_length info mesh c (k - 1) (requested info 2 c) (VD c Hc) (ED c Hc) eq_refl) in Lj. pose proof (vm_cell_dofs _ _ _ _ _ _ _ _ _ VM c Hc).
    assert (Hj' : (j < length (Cell2D_vertices mesh c))%nat) by nia. rewrite (place_vertex info mesh c (k - 1) (requested info 2 c) (VD c Hc) (ED c Hc) eq_refl) in Hj by auto. injection Hj as <-. reflexivity.
Qed.

(** combinations of local unknowns equal to those of a function *)
Lemma combine_agree A u v q : (forall j, (j < m_cols A)%nat -> u j = v j) -> combine A u q = combine A v q.
Proof using Type. intros H. apply rsum_ext. intros j Hj. now rewrite H. Qed.

Lemma zero_errors f fx fy uD uS : poly2 k f fx fy ->
  (forall c, (c < nc)%nat -> exists u, local_solution data uD uS c = Ok u /\ v_size u = length (closure_dofs info mesh 2 c) /\
    forall j h, nth_error (closure_dofs info mesh 2 c) j = Some h -> v_at u j = dof_value m pt (td f) (planar f) h) ->
  exists rL rH, compute_error_L2 m data create uD uS (Some (planar f)) = Ok rL /\ pe_error rL = 0 /\
    compute_error_H1 m data create uD uS (Some (planar_gradient fx fy)) = Ok rH /\ pe_error rH = 0.
Proof using VM HC.
  intros Pf HU.
  assert (QQ : forall c, (c < nc)%nat -> m_cols (q_Points (lv_InternalQuadrature (loc c))) = v_size (q_Weights (lv_InternalQuadrature (loc c))) /\ (3 <= m_rows (q_Points (lv_InternalQuadrature (loc c))))%nat).
  { intros c Hc. destruct (lf_IQ _ _ _ _ _ _ (LF _ _ _ _ _ _ _ _ _ (cell_space c Hc))). lia. }
  assert (TL : exists rL, compute_error_L2 m data create uD uS (Some (planar f)) = Ok rL).
  { apply L2_total. intros c Hc _. destruct (HU c Hc) as (u & Eu & Su & Hu). destruct (quadrature_values_all _ _ _ _ _ _ _ _ _ (cell_space c Hc)) as ((A & EA & RA & CA & _) & _). cbv zeta in RA.
    exists (VEM_space junk ref (geometry c) (loc c)), u, A. destruct (QQ c Hc) as [Q1 Q2]. split; [split; [apply create_ok; auto|]; split; [exact Eu|]; split; [exact Q1|exact Q2]|]. cbn [VEM_space ls_Values ls_InternalQuadrature].
    split; [exact EA|]. split; [congruence|]. rewrite CA, Su. now rewrite size_closure. }
  assert (TH : exists rH, compute_error_H1 m data create uD uS (Some (planar_gradient fx fy)) = Ok rH).
  { apply H1_total. intros c Hc _. destruct (HU c Hc) as (u & Eu & Su & Hu). destruct (quadrature_values_all _ _ _ _ _ _ _ _ _ (cell_space c Hc)) as (_ & _ & _ & P0 & P1 & A0 & A1 & _ & EA & RA & CA & RA' & CA' & _).
    exists (VEM_space junk ref (geometry c) (loc c)), u, A0, A1. destruct (QQ c Hc) as [Q1 Q2]. split; [split; [apply create_ok; auto|]; split; [exact Eu|]; split; [exact Q1|exact Q2]|]. cbn [VEM_space ls_DerivativeValues ls_InternalQuadrature].
    split; [exact EA|]. rewrite CA, CA', Su, size_closure by auto. repeat split; congruence. }
  destruct TL as (rL & EL). destruct TH as (rH & EH). exists rL, rH. split; [exact EL|]. split; [|split; [exact EH|]].
  - apply (reproduced_L2 m info data create (planar f) uD uS (dof_value m pt (td f) (planar f)) rL); auto. intros c sp V Hc _ Ec EV. rewrite create_ok in Ec by auto. injection Ec as <-. cbn [VEM_space ls_Values ls_InternalQuadrature] in *.
    destruct (quadrature_values_all _ _ _ _ _ _ _ _ _ (cell_space c Hc)) as ((A & EA & RA & CA & HA) & _). rewrite EA in EV. injection EV as <-. split; [rewrite CA; symmetry; apply size_closure; auto|].
    intros u q Hu _. rewrite (combine_agree A u (dofs_of ref (loc c) f)).
    + rewrite HA. destruct (reproduce_all _ _ _ _ _ _ _ _ _ (cell_space c Hc) f fx fy Pf (m_at (q_Points (lv_InternalQuadrature (loc c))) 0 q) (m_at (q_Points (lv_InternalQuadrature (loc c))) 1 q)) as (_ & H & _). cbv zeta. rewrite H. reflexivity.
    + intros j Hj. rewrite CA, <- size_closure in Hj by auto. destruct (nth_error (closure_dofs info mesh 2 c) j) as [h|] eqn:Eh; [|apply nth_error_None in Eh; lia]. rewrite (Hu j h Eh). symmetry. apply dofs_places; auto.
  - apply (reproduced_H1 m info data create (planar_gradient fx fy) uD uS (dof_value m pt (td f) (planar f)) rH); auto. intros c sp D d Dd Hc _ Ec ED' Hd Hn. rewrite create_ok in Ec by auto. injection Ec as <-. cbn [VEM_space ls_DerivativeValues ls_InternalQuadrature] in *.
    destruct (quadrature_values_all _ _ _ _ _ _ _ _ _ (cell_space c Hc)) as (_ & _ & _ & P0 & P1 & A0 & A1 & EP & EA & RA & CA & RA' & CA' & HA). rewrite EA in ED'. injection ED' as <-.
    assert (CD : m_cols Dd = lv_NumBasisFunctions (loc c)) by (destruct d as [|[|]]; [injection Hn as <-; auto|injection Hn as <-; auto|lia]).
    split; [rewrite CD; symmetry; apply size_closure; auto|]. intros u q Hu _. rewrite (combine_agree Dd u (dofs_of ref (loc c) f)).
    + destruct (reproduce_all _ _ _ _ _ _ _ _ _ (cell_space c Hc) f fx fy Pf (m_at (q_Points (lv_InternalQuadrature (loc c))) 0 q) (m_at (q_Points (lv_InternalQuadrature (loc c))) 1 q)) as (_ & _ & _ & P0' & P1' & EP' & H0 & H1). rewrite EP in EP'. injection EP' as <- <-.
      destruct (HA (dofs_of ref (loc c) f) q) as [HA0 HA1]. unfold exact_gradient_at, planar_gradient. destruct d as [|[|]]; [injection Hn as <-|injection Hn as <-|lia]; [rewrite HA0; exact H0|rewrite HA1; exact H1].
    + intros j Hj. rewrite CD, <- size_closure in Hj by auto. destruct (nth_error (closure_dofs info mesh 2 c) j) as [h|] eqn:Eh; [|apply nth_error_None in Eh; lia]. rewrite (Hu j h Eh). symmetry. apply dofs_places; auto.
Qed.
End Mesh.
