(** Proofs: finite elements on a mesh of triangles: spaces of the cells, unknowns of a function, zero error of the interpolant of a polynomial. *)
From Coq Require Import List Arith Bool ZArith Reals Lia Lra.
From Verif Require Import Base RSum MatrixModel MonomialsModel MonomialsSpec LagrangeModel LagrangeSpec LagrangeProofs TriangleModel TriangleSpec TriangleProofs4 DofsModel DofsSpec AssemblerModel AssemblerSpec EquationModel EquationSpec VemQuadModel VemQuadSpec VemQuadProofs VemQuadProofs2 GreenSpec GreenProofs PolyProofs VemModel VemSpec
  ZfemModel DriverModel DriverSpec DriverSpec2 Pcc2dModel Pcc2dSpec DriverProofs DriverProofs2 DriverProofs3 DriverProofs4 DriverProofs5 DriverProofs6 DriverProofs7 Pcc2dProofs Pcc2dProofs3 Pcc2dProofs4 Fem2dSpec Fem2dProofs.
Import ListNotations.
Local Open Scope R_scope.

Definition no_tri : Tri_Local := {| lt_Map := triangle_map (mzero 0 0); lt_B_lap := fun _ _ => 0; lt_Order := 0; lt_NumberOfBasisFunctions := 0; lt_DofsMeshOrder := []; lt_Dofs := mzero 0 0 |}.

Section Mesh.
Variables (gauss : QuadratureData) (junk : nat -> nat -> R) (lob : nat -> Vec) (k : nat) (edge : FEM_1D_Data) (ref : Tri_Data) (m : Mesh2D) (info : MeshDOFsInfo) (geometry : nat -> Polygon).
Hypothesis VM : fem_mesh gauss junk lob k edge ref m info geometry.
Let mesh := md_mesh m.
Let nc := Cell2Ds_number mesh.
Let Hk := fm_order _ _ _ _ _ _ _ _ _ VM.
Notation create := (fem_create junk gauss edge ref geometry).
Definition floc (c : nat) : Tri_Local := get no_tri (Tri_CreateLocalSpace ref 3 (pg_EdgesDirection (geometry c)) (triangle_map (pg_Vertices (geometry c)))).
Definition fquad (c : nat) : QuadratureData := get no_quadrature (FEM_InternalQuadrature gauss (triangle_map (pg_Vertices (geometry c))) (pg_Vertices (geometry c))).
Definition fpoints (c : nat) : Mat := mt_F (triangle_map (pg_Vertices (geometry c))) (q_Points gauss).
Let NB := ft_NumBasisFunctions ref.
Notation X c i := (m_at (lt_Dofs (floc c)) 0 i).
Notation Y c i := (m_at (lt_Dofs (floc c)) 1 i).
Definition fdofs (f : R -> R -> R) (c i : nat) : R := f (X c i) (Y c i).

Lemma tri_ok c : (c < nc)%nat -> good_triangle (geometry c).
Proof using VM. apply (fm_triangle _ _ _ _ _ _ _ _ _ VM). Qed.
Lemma local_created c : (c < nc)%nat -> Tri_CreateLocalSpace ref 3 (pg_EdgesDirection (geometry c)) (triangle_map (pg_Vertices (geometry c))) = Ok (floc c).
Proof using VM.
  intros Hc. pose proof (tri_ok c Hc) as GT. destruct (local_ok k ref (pg_EdgesDirection (geometry c)) (triangle_map (pg_Vertices (geometry c))) (fm_reference _ _ _ _ _ _ _ _ _ VM)) as (l & EL & _).
  - rewrite (ed_dirs _ _ _ _ _ (gt_edges _ GT)), (gt_three _ GT). lia.
  - apply (fm_range _ _ _ _ _ _ _ _ _ VM).
  - unfold floc. rewrite EL. reflexivity.
Qed.
Ltac cell L c Hc := pose proof (L gauss k ref (geometry c) (floc c) Hk (fm_reference _ _ _ _ _ _ _ _ _ VM) (fm_range _ _ _ _ _ _ _ _ _ VM) (tri_ok c Hc) (local_created c Hc) (fm_rule _ _ _ _ _ _ _ _ _ VM) (fm_exact _ _ _ _ _ _ _ _ _ VM)).
Lemma quad_ok c : (c < nc)%nat -> FEM_InternalQuadrature gauss (triangle_map (pg_Vertices (geometry c))) (pg_Vertices (geometry c)) = Ok (fquad c) /\ q_Points (fquad c) = fpoints c /\
  v_size (q_Weights (fquad c)) = v_size (q_Weights gauss) /\ (forall q, v_at (q_Weights (fquad c)) q = 2 * area (pg_Vertices (geometry c)) * v_at (q_Weights gauss) q) /\ m_cols (fpoints c) = v_size (q_Weights gauss).
Proof using VM. intros Hc. cell quadrature_ok c Hc. destruct H as (Q & E & H). unfold fquad. rewrite E. cbn [get]. split; [reflexivity|]. exact H. Qed.
Lemma fcreate_ok c : (c < nc)%nat -> create c = Ok (FEM_space junk gauss edge ref (floc c) (fquad c)).
Proof using VM.
  intros Hc. unfold fem_create, Create_FEM. rewrite (gt_three _ (tri_ok c Hc)), (local_created c Hc). cbn [bind]. rewrite (proj1 (quad_ok c Hc)). reflexivity.
Qed.
Lemma fnv c : (c < nc)%nat -> length (Cell2D_vertices mesh c) = 3%nat.
Proof using VM. intros Hc. rewrite <- (gt_three _ (tri_ok c Hc)). symmetry. apply (fm_geometry _ _ _ _ _ _ _ _ _ VM c Hc). Qed.
Lemma fne c : (c < nc)%nat -> length (Cell2D_edges mesh c) = 3%nat.
Proof using VM. intros Hc. rewrite <- (fnv c Hc). apply (fm_edges _ _ _ _ _ _ _ _ _ VM c Hc). Qed.
Lemma fsizes c : (c < nc)%nat -> ft_NumDofs0D ref = 1%nat /\ ft_NumDofs1D ref = (k - 1)%nat /\ NB = (3 + (k - 1) * 3 + requested info 2 c)%nat /\ ft_NumDofs2D ref = requested info 2 c /\
  m_rows (lt_Dofs (floc c)) = 3%nat /\ m_cols (lt_Dofs (floc c)) = NB /\ lt_NumberOfBasisFunctions (floc c) = NB.
Proof using VM.
  intros Hc. cell counts_ref c Hc. destruct H as (C0 & C1 & C2 & C3 & C4 & C5 & C6). pose proof (fm_cell_dofs _ _ _ _ _ _ _ _ _ VM c Hc) as CD. fold NB in C2, C3, C5, C6.
  assert (E2 : ft_NumDofs2D ref = requested info 2 c). { pose proof Hk as Hk'. destruct k as [|[|k']]; [lia| |]; cbn [Nat.sub] in *; nia. }
  repeat split; auto. lia.
Qed.
Lemma FVD c : (c < nc)%nat -> forall v, In v (Cell2D_vertices mesh c) -> requested info 0 v = 1%nat.
Proof using VM. intros Hc v Hv. apply (fm_vertex_dofs _ _ _ _ _ _ _ _ _ VM c v Hc Hv). Qed.
Lemma FED c : (c < nc)%nat -> forall e, In e (Cell2D_edges mesh c) -> requested info 1 e = (k - 1)%nat.
Proof using VM. intros Hc e He. apply (fm_edge_dofs _ _ _ _ _ _ _ _ _ VM c e Hc He). Qed.
Lemma fsize_closure c : (c < nc)%nat -> length (closure_dofs info mesh 2 c) = NB.
Proof using VM.
  intros Hc. rewrite (closure_length info mesh c (k - 1) (requested info 2 c) (FVD c Hc) (FED c Hc) eq_refl). rewrite fnv, fne by auto. symmetry. apply (fsizes c Hc).
Qed.

(** the points of the unknowns of the edges *)
Definition fpt (e q d : nat) : R := let a := md_coords m (nth 0 (Cell1D_vertices mesh e) 0%nat) d in let b := md_coords m (nth 1 (Cell1D_vertices mesh e) 0%nat) d in
  a + tri_nodes k (S (S q)) * (b - a).
Lemma ftangents c : (c < nc)%nat -> geometry_tangents (geometry c).
Proof using VM. intros Hc. destruct (fm_geometry _ _ _ _ _ _ _ _ _ VM c Hc) as (_ & _ & G & _). exact G. Qed.
Lemma fedge_point c i t d : (c < nc)%nat -> (i < 3)%nat -> (d < 3)%nat -> let e := nth i (Cell2D_edges mesh c) 0%nat in let T := pg_Vertices (geometry c) in let dir := pg_EdgesDirection (geometry c) in
  m_at T d (start dir i) + t * (m_at T d (stop dir i) - m_at T d (start dir i)) =
  md_coords m (nth 0 (Cell1D_vertices mesh e) 0%nat) d + t * (md_coords m (nth 1 (Cell1D_vertices mesh e) 0%nat) d - md_coords m (nth 0 (Cell1D_vertices mesh e) 0%nat) d).
Proof using VM.
  intros Hc Hi Hd e T dir. cell edge_start c Hc. specialize (H i t d Hi Hd (ftangents c Hc)). fold T dir in H. rewrite <- H. unfold e, mesh.
  apply (edge_point_mesh m c); auto; [apply (fm_geometry _ _ _ _ _ _ _ _ _ VM c Hc)|]. rewrite (gt_three _ (tri_ok c Hc)). auto.
Qed.
Lemma fpt_dof c i q d : (c < nc)%nat -> (i < 3)%nat -> (q < k - 1)%nat -> (d < 3)%nat -> m_at (lt_Dofs (floc c)) d (3 + i * (k - 1) + q) = fpt (nth i (Cell2D_edges mesh c) 0%nat) q d.
Proof using VM.
  intros Hc Hi Hq Hd. cell vertex_dof c Hc. cell dir_length c Hc. cell start_stop c Hc. destruct (H1 i Hi) as [S0 S1].
  rewrite (edge_dofs k ref (pg_EdgesDirection (geometry c)) (triangle_map (pg_Vertices (geometry c))) (floc c) Hk (fm_reference _ _ _ _ _ _ _ _ _ VM) H0 (fm_range _ _ _ _ _ _ _ _ _ VM) (local_created c Hc) i q d Hi Hq Hd).
  rewrite !H by auto. unfold fpt. cbv zeta. rewrite <- (fedge_point c i (tri_nodes k (S (S q))) d Hc Hi Hd). cbn [tri_nodes]. ring.
Qed.
Lemma fvertex c i d : (c < nc)%nat -> (i < 3)%nat -> (d < 3)%nat -> m_at (lt_Dofs (floc c)) d i = md_coords m (nth i (Cell2D_vertices mesh c) 0%nat) d.
Proof using VM.
  intros Hc Hi Hd. cell vertex_dof c Hc. rewrite H by auto. apply (fm_geometry _ _ _ _ _ _ _ _ _ VM c Hc); auto. rewrite (gt_three _ (tri_ok c Hc)). auto.
Qed.
Definition ftd (f : R -> R -> R) (c i : nat) : R := fdofs f c (3 + (k - 1) * 3 + i).

Lemma fdofs_places f c j h : (c < nc)%nat -> nth_error (closure_dofs info mesh 2 c) j = Some h -> fdofs f c j = dof_value m fpt (ftd f) (planar f) h.
Proof using VM.
  intros Hc Hj. pose proof (nth_error_Some (closure_dofs info mesh 2 c) j) as HS. rewrite Hj in HS. assert (Lj : (j < length (closure_dofs info mesh 2 c))%nat) by (apply HS; discriminate).
  rewrite (closure_length info mesh c (k - 1) (requested info 2 c) (FVD c Hc) (FED c Hc) eq_refl) in Lj. pose proof (fne c Hc) as NE. pose proof (fnv c Hc) as NV.
  destruct (place_cases mesh c (k - 1) (requested info 2 c) j Lj) as [H|[(i & q & Hi & Hq & ->)|(i & Hi & ->)]].
  - rewrite (place_vertex info mesh c (k - 1) (requested info 2 c) (FVD c Hc) (FED c Hc) eq_refl) in Hj by auto. injection Hj as <-.
    unfold dof_value, fdofs. cbn [entity_dof g_dim g_cell g_dof]. unfold at_point, planar. rewrite !fvertex by (auto; lia). reflexivity.
  - rewrite (place_edge info mesh c (k - 1) (requested info 2 c) (FVD c Hc) (FED c Hc) eq_refl) in Hj by auto. injection Hj as <-.
    unfold dof_value, fdofs. cbn [entity_dof g_dim g_cell g_dof]. unfold at_point, planar. rewrite NV, (Nat.mul_comm (k - 1) i). rewrite !fpt_dof by (auto; lia). reflexivity.
  - rewrite (place_cell info mesh c (k - 1) (requested info 2 c) (FVD c Hc) (FED c Hc) eq_refl) in Hj by auto. injection Hj as <-. unfold dof_value. cbn [entity_dof g_dim g_cell g_dof]. unfold ftd. rewrite NV, NE. reflexivity.
Qed.

Lemma fedges_agree : edge_points_agree m info create (fun _ => true) (fun _ => True) fpt.
Proof using VM.
  intros c Hc _. exists (FEM_space junk gauss edge ref (floc c) (fquad c)). split; [apply fcreate_ok; auto|]. intros ed e He _.
  assert (Hed : (ed < length (Cell2D_edges mesh c))%nat) by (apply nth_error_Some; fold mesh in He; rewrite He; discriminate). rewrite (fne c Hc) in Hed.
  assert (Ee : e = nth ed (Cell2D_edges mesh c) 0%nat) by (symmetry; apply nth_error_nth; exact He).
  assert (RE : requested info 1 e = (k - 1)%nat). { apply (FED c Hc). rewrite Ee. apply nth_In. rewrite (fne c Hc). auto. }
  cbn [FEM_space ls_EdgeDofsCoordinates]. destruct (Nat.ltb_spec ed 4); [|lia]. destruct (fsizes c Hc) as (C0 & C1 & C2 & C3 & C4 & C5 & C6). rewrite C0, C1. unfold FEM_dofs_block.
  destruct (Nat.eqb_spec (k - 1) 0) as [Z|Z]; [exists (mzero 0 0); cbn [mzero m_cols m_rows]; rewrite RE; repeat split; auto; lia|].
  unfold mat_block. rewrite C4, C5. assert (LB : (3 * 1 + ed * (k - 1) + (k - 1) <= NB)%nat).
  { rewrite C2. clear - Hed. generalize (k - 1)%nat. intros. destruct ed as [|[|[|]]]; lia. }
  destruct (Nat.leb_spec (0 + 3) 3); [|lia]. destruct (Nat.leb_spec (3 * 1 + ed * (k - 1) + (k - 1)) NB); [|lia]. cbn [andb].
  eexists. split; [reflexivity|]. cbn [m_cols m_rows m_at]. split; [auto|]. split; [auto|]. intros i Hi d Hd. cbn [Nat.add Nat.mul m_at]. rewrite Ee, <- (fpt_dof c) by (auto; lia). reflexivity.
Qed.

Variable data : DOFsData.
Hypothesis HC : CreateDOFs 2 info (md_mesh m) = Ok data.
Let HN := fm_cells _ _ _ _ _ _ _ _ _ VM.

(** the interpolant: on every cell its local unknowns are those of the function *)
Lemma finterpolant f : exists uD uS, evaluate_function_on_dofs m data k create (planar f) = Ok (uD, uS) /\ length uD = NumberDOFs data /\ length uS = NumberStrongs data /\
  forall c, (c < nc)%nat -> exists u, local_solution data uD uS c = Ok u /\ v_size u = length (closure_dofs info mesh 2 c) /\
    forall j h, nth_error (closure_dofs info mesh 2 c) j = Some h -> v_at u j = dof_value m fpt (ftd f) (planar f) h.
Proof using VM HC.
  destruct (interpolation m info data HC HN k create (planar f) fpt (ftd f)) as (uD & uS & E & L1 & L2 & H).
  - intros c v Hc Hv. apply (FVD c Hc v Hv).
  - intros _. exact fedges_agree.
  - intros _ c sp Hc Es Hr. rewrite fcreate_ok in Es by auto. injection Es as <-. destruct (fsizes c Hc) as (C0 & C1 & C2 & C3 & C4 & C5 & C6).
    eexists. unfold internal_dofs. cbn [FEM_space ls_InternalDofsCoordinates ls_InternalDofs]. rewrite C0, C1, C3. unfold FEM_dofs_block. destruct (Nat.eqb_spec (requested info 2 c) 0); [lia|].
    unfold mat_block. rewrite C4, C5. destruct (Nat.leb_spec (0 + 3) 3); [|lia]. destruct (Nat.leb_spec (3 * 1 + 3 * (k - 1) + requested info 2 c) NB); [|lia]. cbn [andb bind].
    split; [|split].
    + do 2 eexists. split; [reflexivity|]. cbn [q_Points m_cols m_rows m_at]. split; [auto|]. split; [reflexivity|reflexivity].
    + cbn [v_size]. lia.
    + intros i Hi. cbn [v_at Nat.add]. unfold planar, ftd, fdofs. f_equal; f_equal; lia.
  - exists uD, uS. repeat (split; [assumption|]). intros c Hc. destruct (H c Hc) as (u & Eu & Su & Hu). exists u. repeat (split; [assumption|]). intros j h Hj. apply (Hu j h Hj).
    destruct (Nat.lt_ge_cases 1 k) as [|K1]; [auto|right]. assert (k = 1%nat) by lia.
    pose proof (nth_error_Some (closure_dofs info mesh 2 c) j) as HS. rewrite Hj in HS. assert (Lj : (j < length (closure_dofs info mesh 2 c))%nat) by (apply HS; discriminate).
    rewrite (closure_length info mesh c (k - 1) (requested info 2 c) (FVD c Hc) (FED c Hc) eq_refl) in Lj. pose proof (fm_cell_dofs _ _ _ _ _ _ _ _ _ VM c Hc) as CD.
    assert (Z1 : (k - 1 = 0)%nat) by lia. rewrite Z1 in CD, Lj. assert (Hj' : (j < length (Cell2D_vertices mesh c))%nat) by lia. rewrite (place_vertex info mesh c (k - 1) (requested info 2 c) (FVD c Hc) (FED c Hc) eq_refl) in Hj by auto. injection Hj as <-. reflexivity.
Qed.

(** the tables of a cell *)
Lemma ftables c f fx fy pts : (c < nc)%nat -> poly2 k f fx fy -> exists V D0 D1, Tri_LocalValues ref (floc c) pts = Ok V /\ Tri_LocalDerivatives ref (floc c) pts = Ok [D0; D1] /\
  m_rows V = m_cols pts /\ m_cols V = NB /\ m_rows D0 = m_cols pts /\ m_cols D0 = NB /\ m_rows D1 = m_cols pts /\ m_cols D1 = NB /\
  forall u, (forall i, (i < NB)%nat -> u i = fdofs f c i) -> forall q, (q < m_cols pts)%nat ->
    combine V u q = f (m_at pts 0 q) (m_at pts 1 q) /\ combine D0 u q = fx (m_at pts 0 q) (m_at pts 1 q) /\ combine D1 u q = fy (m_at pts 0 q) (m_at pts 1 q).
Proof using VM.
  intros Hc Pf. cell values_table c Hc. cell gradient_table c Hc. destruct (H f fx fy pts Pf) as (V & EV & R1 & R2 & HV). destruct (H0 f fx fy pts Pf) as (D0 & D1 & ED & S1 & S2 & S3 & S4 & HD).
  exists V, D0, D1. do 8 (split; [assumption|]). intros u Hu q Hq. split; [apply HV; auto|apply HD; auto].
Qed.
Lemma fquadrature_tables c : (c < nc)%nat -> FEM_Values_quadrature gauss ref (floc c) = Tri_LocalValues ref (floc c) (fpoints c) /\ FEM_Derivatives_quadrature gauss ref (floc c) = Tri_LocalDerivatives ref (floc c) (fpoints c).
Proof using VM. intros Hc. cell quadrature_table c Hc. cell quadrature_derivative_table c Hc. split; assumption. Qed.
Lemma funisolvent c u : (c < nc)%nat -> exists f fx fy, poly2 k f fx fy /\ forall i, (i < NB)%nat -> u i = fdofs f c i.
Proof using VM. intros Hc. cell unisolvent c Hc. destruct (H u) as (f & fx & fy & Pf & Hf). exists f, fx, fy. split; [exact Pf|]. intros i Hi. symmetry. apply (Hf i Hi). Qed.

Lemma fzero_errors f fx fy uD uS : poly2 k f fx fy ->
  (forall c, (c < nc)%nat -> exists u, local_solution data uD uS c = Ok u /\ v_size u = length (closure_dofs info mesh 2 c) /\
    forall j h, nth_error (closure_dofs info mesh 2 c) j = Some h -> v_at u j = dof_value m fpt (ftd f) (planar f) h) ->
  exists rL rH, compute_error_L2 m data create uD uS (Some (planar f)) = Ok rL /\ pe_error rL = 0 /\
    compute_error_H1 m data create uD uS (Some (planar_gradient fx fy)) = Ok rH /\ pe_error rH = 0.
Proof using VM HC.
  intros Pf HU.
  assert (QQ : forall c, (c < nc)%nat -> m_cols (q_Points (fquad c)) = v_size (q_Weights (fquad c)) /\ (3 <= m_rows (q_Points (fquad c)))%nat /\ m_cols (fpoints c) = v_size (q_Weights (fquad c))).
  { intros c Hc. destruct (quad_ok c Hc) as (_ & Q1 & Q2 & _ & Q4). rewrite Q1, Q2, Q4. repeat split; auto. }
  assert (TL : exists rL, compute_error_L2 m data create uD uS (Some (planar f)) = Ok rL).
  { apply L2_total. intros c Hc _. destruct (HU c Hc) as (u & Eu & Su & Hu). destruct (ftables c f fx fy (fpoints c) Hc Pf) as (V & D0 & D1 & EV & ED & RV & CV & RD0 & CD0 & RD1 & CD1 & _). destruct (fquadrature_tables c Hc) as [T1 T2].
    exists (FEM_space junk gauss edge ref (floc c) (fquad c)), u, V. destruct (QQ c Hc) as (Q1 & Q2 & Q3). split; [split; [apply fcreate_ok; auto|]; split; [exact Eu|]; split; [exact Q1|exact Q2]|]. cbn [FEM_space ls_Values ls_InternalQuadrature].
    rewrite T1. split; [exact EV|]. split; [congruence|]. rewrite CV, Su. now rewrite fsize_closure. }
  assert (TH : exists rH, compute_error_H1 m data create uD uS (Some (planar_gradient fx fy)) = Ok rH).
  { apply H1_total. intros c Hc _. destruct (HU c Hc) as (u & Eu & Su & Hu). destruct (ftables c f fx fy (fpoints c) Hc Pf) as (V & D0 & D1 & EV & ED & RV & CV & RD0 & CD0 & RD1 & CD1 & _). destruct (fquadrature_tables c Hc) as [T1 T2].
    exists (FEM_space junk gauss edge ref (floc c) (fquad c)), u, D0, D1. destruct (QQ c Hc) as (Q1 & Q2 & Q3). split; [split; [apply fcreate_ok; auto|]; split; [exact Eu|]; split; [exact Q1|exact Q2]|]. cbn [FEM_space ls_DerivativeValues ls_InternalQuadrature].
    rewrite T2. split; [exact ED|]. rewrite CD0, CD1, Su, fsize_closure by auto. repeat split; congruence. }
  assert (AG : forall c u, (c < nc)%nat -> (forall j h, nth_error (closure_dofs info mesh 2 c) j = Some h -> u j = dof_value m fpt (ftd f) (planar f) h) -> forall i, (i < NB)%nat -> u i = fdofs f c i).
  { intros c u Hc Hu j Hj. rewrite <- (fsize_closure c Hc) in Hj. destruct (nth_error (closure_dofs info mesh 2 c) j) as [h|] eqn:Eh; [|apply nth_error_None in Eh; lia]. rewrite (Hu j h Eh). symmetry. apply fdofs_places; auto. }
  destruct TL as (rL & EL). destruct TH as (rH & EH). exists rL, rH. split; [exact EL|]. split; [|split; [exact EH|]].
  - apply (reproduced_L2 m info data create (planar f) uD uS (dof_value m fpt (ftd f) (planar f)) rL); auto. intros c sp V Hc _ Ec EV. rewrite fcreate_ok in Ec by auto. injection Ec as <-. cbn [FEM_space ls_Values ls_InternalQuadrature] in *.
    destruct (ftables c f fx fy (fpoints c) Hc Pf) as (V' & D0 & D1 & EV' & ED & RV & CV & RD0 & CD0 & RD1 & CD1 & HT). destruct (fquadrature_tables c Hc) as [T1 T2]. rewrite T1, EV' in EV. injection EV as <-.
    split; [rewrite CV; symmetry; apply fsize_closure; auto|]. intros u q Hu Hq. destruct (QQ c Hc) as (Q1 & Q2 & Q3). destruct (HT u (AG c u Hc Hu) q) as (H1 & _); [congruence|]. rewrite H1. rewrite (proj1 (proj2 (quad_ok c Hc))). reflexivity.
  - apply (reproduced_H1 m info data create (planar_gradient fx fy) uD uS (dof_value m fpt (ftd f) (planar f)) rH); auto. intros c sp D d Dd Hc _ Ec ED' Hd Hn. rewrite fcreate_ok in Ec by auto. injection Ec as <-. cbn [FEM_space ls_DerivativeValues ls_InternalQuadrature] in *.
    destruct (ftables c f fx fy (fpoints c) Hc Pf) as (V' & D0 & D1 & EV' & ED & RV & CV & RD0 & CD0 & RD1 & CD1 & HT). destruct (fquadrature_tables c Hc) as [T1 T2]. rewrite T2, ED in ED'. injection ED' as <-.
    assert (CD : m_cols Dd = NB) by (destruct d as [|[|]]; [injection Hn as <-; auto|injection Hn as <-; auto|lia]).
    split; [rewrite CD; symmetry; apply fsize_closure; auto|]. intros u q Hu Hq. destruct (QQ c Hc) as (Q1 & Q2 & Q3). destruct (HT u (AG c u Hc Hu) q) as (_ & H1 & H2); [congruence|].
    unfold exact_gradient_at, planar_gradient. rewrite (proj1 (proj2 (quad_ok c Hc))). destruct d as [|[|]]; [injection Hn as <-; exact H1|injection Hn as <-; exact H2|lia].
Qed.
End Mesh.
