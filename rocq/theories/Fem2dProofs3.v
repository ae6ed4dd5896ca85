(** Proofs: the patch test of the finite element on a mesh of triangles. *)
From Coq Require Import List Arith Bool ZArith Reals Lia Lra.
From Verif Require Import Base RSum MatrixModel MonomialsModel MonomialsSpec LagrangeModel LagrangeSpec LagrangeProofs LagrangeProofs2 TriangleModel TriangleSpec TriangleProofs4 DofsModel DofsSpec AssemblerModel AssemblerSpec EquationModel EquationSpec VemQuadModel VemQuadSpec VemQuadProofs VemQuadProofs2 GreenSpec GreenProofs PolyProofs VemModel VemSpec
  ZfemModel DriverModel DriverSpec DriverSpec2 Pcc2dModel Pcc2dSpec DriverProofs DriverProofs2 DriverProofs3 DriverProofs4 DriverProofs5 DriverProofs6 DriverProofs7 Pcc2dProofs Pcc2dProofs3 Pcc2dProofs4 Pcc2dProofs6 Fem2dSpec Fem2dProofs Fem2dProofs2.
Import ListNotations.
Local Open Scope R_scope.

Section Patch.
Variables (gauss : QuadratureData) (junk : nat -> nat -> R) (lob : nat -> Vec) (k : nat) (edge : FEM_1D_Data) (ref : Tri_Data) (m : Mesh2D) (info : MeshDOFsInfo) (geometry : nat -> Polygon).
Hypothesis VM : fem_mesh gauss junk lob k edge ref m info geometry.
Let mesh := md_mesh m.
Let nc := Cell2Ds_number mesh.
Let Hk := fm_order _ _ _ _ _ _ _ _ _ VM.
Notation create := (fem_create junk gauss edge ref geometry).
Notation floc := (floc ref geometry).
Notation fquad := (fquad gauss geometry).
Notation fpoints := (fpoints gauss geometry).
Notation fdofs := (fdofs ref geometry).
Notation NB := (ft_NumBasisFunctions ref).
Notation vx := (Pcc2dProofs6.vx m).
Notation on_line := (Pcc2dProofs6.on_line m).
Notation edge_unknowns := (Pcc2dProofs6.edge_unknowns m).
Notation edge_interp w e t := (Pcc2dProofs4.interp (k + 1) (tri_nodes k) (edge_unknowns w e) t).
Ltac cell L c Hc := pose proof (L gauss k ref (geometry c) (floc c) Hk (fm_reference _ _ _ _ _ _ _ _ _ VM) (fm_range _ _ _ _ _ _ _ _ _ VM) (tri_ok _ _ _ _ _ _ _ _ _ VM c Hc) (local_created _ _ _ _ _ _ _ _ _ VM c Hc) (fm_rule _ _ _ _ _ _ _ _ _ VM) (fm_exact _ _ _ _ _ _ _ _ _ VM)).

Lemma FNE c : (c < nc)%nat -> length (Cell2D_edges mesh c) = 3%nat.
Proof using VM. apply (fne _ _ _ _ _ _ _ _ _ VM c). Qed.
Lemma FNV c : (c < nc)%nat -> length (Cell2D_vertices mesh c) = 3%nat.
Proof using VM. apply (fnv _ _ _ _ _ _ _ _ _ VM c). Qed.

Definition fforms (c : nat) : CellForms := let l := floc c in let sp := FEM_space junk gauss edge ref l (fquad c) in {|
  cf_trial := sp; cf_test := sp;
  cf_U := get (mzero 0 0) (FEM_Values_quadrature gauss ref l);
  cf_dU := fun d => nth d (get [] (FEM_Derivatives_quadrature gauss ref l)) (mzero 0 0);
  cf_V := get (mzero 0 0) (Tri_LocalValues ref l (q_Points (fquad c)));
  cf_dV := fun d => nth d (get [] (Tri_LocalDerivatives ref l (q_Points (fquad c)))) (mzero 0 0);
  cf_S := mzero (lt_NumberOfBasisFunctions l) (lt_NumberOfBasisFunctions l) |}.

Lemma fnq : (0 < v_size (q_Weights gauss))%nat.
Proof using VM.
  pose proof (fm_exact _ _ _ _ _ _ _ _ _ VM 0%nat 0%nat ltac:(lia)) as E. unfold apply_rule in E. destruct (v_size (q_Weights gauss)); [|lia]. cbn in E. lra.
Qed.
Lemma fforms_points c : (c < nc)%nat -> cf_points (fforms c) = fpoints c.
Proof using VM. intros Hc. apply (quad_ok _ _ _ _ _ _ _ _ _ VM c Hc). Qed.
Lemma fforms_weights c : (c < nc)%nat -> v_size (cf_weights (fforms c)) = v_size (q_Weights gauss) /\ forall q, v_at (cf_weights (fforms c)) q = 2 * area (pg_Vertices (geometry c)) * v_at (q_Weights gauss) q.
Proof using VM. intros Hc. destruct (quad_ok _ _ _ _ _ _ _ _ _ VM c Hc) as (_ & _ & A & B & _). split; [exact A|exact B]. Qed.

Lemma fforms_ok c : (c < nc)%nat -> cell_forms create create c NB NB (fforms c) /\
  (cf_V (fforms c) = cf_U (fforms c) /\ forall d, cf_dV (fforms c) d = cf_dU (fforms c) d) /\
  (forall f fx fy u, poly2 k f fx fy -> (forall i, (i < NB)%nat -> u i = fdofs f c i) -> forall q, (q < v_size (q_Weights gauss))%nat ->
    combine (cf_U (fforms c)) u q = f (m_at (fpoints c) 0 q) (m_at (fpoints c) 1 q) /\ combine (cf_dU (fforms c) 0) u q = fx (m_at (fpoints c) 0 q) (m_at (fpoints c) 1 q) /\
    combine (cf_dU (fforms c) 1) u q = fy (m_at (fpoints c) 0 q) (m_at (fpoints c) 1 q)) /\
  (forall u i, combine (cf_S (fforms c)) u i = 0).
Proof using VM.
  intros Hc. destruct (quad_ok _ _ _ _ _ _ _ _ _ VM c Hc) as (_ & Q1 & Q2 & Q3 & Q4). destruct (fsizes _ _ _ _ _ _ _ _ _ VM c Hc) as (C0 & C1 & C2 & C3 & C4 & C5 & C6).
  destruct (fquadrature_tables _ _ _ _ _ _ _ _ _ VM c Hc) as [T1 T2].
  destruct (ftables _ _ _ _ _ _ _ _ _ VM c _ _ _ (fpoints c) Hc (poly2_const k 0)) as (V & D0 & D1 & EV & ED & RV & CV & RD0 & CD0 & RD1 & CD1 & _).
  unfold fforms. cbn [cf_U cf_dU cf_V cf_dV cf_S]. rewrite T1, T2, Q1, EV, ED. cbn [get]. split; [|split; [|split]].
  - split; unfold cf_points, cf_weights, shaped; cbn [cf_trial cf_test cf_U cf_dU cf_V cf_dV cf_S FEM_space ls_InternalQuadrature ls_Size ls_Values ls_DerivativeValues ls_ValuesAt ls_DerivativeValuesAt ls_StabilizationMatrix nth].
    + apply (fcreate_ok _ _ _ _ _ _ _ _ _ VM c Hc).
    + apply (fcreate_ok _ _ _ _ _ _ _ _ _ VM c Hc).
    + exact C6.
    + exact C6.
    + rewrite Q1, Q2, Q4. pose proof fnq. repeat split; auto.
    + rewrite T1, Q2, <- Q4. repeat split; auto.
    + rewrite T2, Q2, <- Q4. split; [exact ED|]. intros [|[|]] Hd; [split; auto|split; auto|lia].
    + rewrite Q1, Q2, <- Q4. repeat split; auto.
    + rewrite Q1, Q2, <- Q4. split; [exact ED|]. intros [|[|]] Hd; [split; auto|split; auto|lia].
    + rewrite C6. repeat split; reflexivity.
  - split; reflexivity.
  - intros f fx fy u Pf Hu q Hq. destruct (ftables _ _ _ _ _ _ _ _ _ VM c f fx fy (fpoints c) Hc Pf) as (V' & D0' & D1' & EV' & ED' & _ & _ & _ & _ & _ & _ & HT).
    rewrite EV in EV'. injection EV' as <-. rewrite ED in ED'. injection ED' as <- <-. cbn [nth]. apply HT; [exact Hu|]. rewrite Q4. exact Hq.
  - intros u i. unfold combine. apply rsum_0. intros j Hj. cbn [mzero m_at]. ring.
Qed.

(** the balance of a cell: the rule integrates the divergence of the flux against a polynomial *)
Lemma fcell_balance c K adv rea F f fx fy g0 g0x g0y g1 g1x g1y kk v p px py : (c < nc)%nat -> poly2 k f fx fy ->
  solves_equation K adv rea F f fx fy g0 g0x g0y g1 g1x g1y -> poly2 k p px py -> (forall i, (i < NB)%nat -> v i = fdofs p c i) ->
  rsum NB (fun i => v i * (elliptic_form (fforms c) (Some K) adv rea kk (fdofs f c) i - source_form (fforms c) F i)) =
  2 * area (pg_Vertices (geometry c)) * apply_rule (q_Weights gauss) (fun q => let x := m_at (fpoints c) 0 q in let y := m_at (fpoints c) 1 q in g0x x y * p x y + g0 x y * px x y) +
  2 * area (pg_Vertices (geometry c)) * apply_rule (q_Weights gauss) (fun q => let x := m_at (fpoints c) 0 q in let y := m_at (fpoints c) 1 q in g1y x y * p x y + g1 x y * py x y).
Proof using VM.
  intros Hc Pf [F0 F1 EQ] Pp Hv. destruct (fforms_ok c Hc) as (CF & [EV ED] & HT & HS). destruct (fforms_weights c Hc) as [SW WW].
  rewrite (rsum_ext _ _ (fun i => v i * elliptic_form (fforms c) (Some K) adv rea kk (fdofs f c) i - v i * source_form (fforms c) F i)) by (intros; ring). rewrite rsum_minus.
  rewrite (pair_of_form create create c _ _ (fforms c) (Some K) adv rea kk _ v CF). rewrite (pair_of_source (fforms c) NB) by (apply (ce_V _ _ _ _ _ _ CF)).
  unfold pair_form. rewrite (rsum_0 (ls_Size (cf_test (fforms c)))) by (intros i Hi; rewrite HS; ring).
  replace (if (ls_Size (cf_test (fforms c)) =? ls_Size (cf_trial (fforms c)))%nat then kk * 0 else 0) with 0 by (destruct (_ =? _)%nat; ring).
  rewrite Rplus_0_r, <- rsum_minus. rewrite SW. unfold apply_rule. rewrite <- !rsum_scal, <- rsum_plus. apply rsum_ext. intros q Hq. cbv beta zeta. rewrite WW, EV.
  destruct (HT f fx fy (fdofs f c) Pf (fun i _ => eq_refl) q Hq) as (H1 & H2 & H3). destruct (HT p px py v Pp Hv q Hq) as (H4 & H5 & H6). cbn [rsum]. rewrite !ED, H1, H2, H3, H4, H5, H6. unfold at_q. rewrite (fforms_points c Hc).
  set (x := m_at (fpoints c) 0 q). set (y := m_at (fpoints c) 1 q). set (z := m_at (fpoints c) 2 q). rewrite (F0 x y z), (F1 x y z), (EQ x y z). cbn [Nat.mul Nat.add]. destruct adv, rea; ring.
Qed.

(** the flux through an edge, its orientation being its own; [E]: the rule of the edges *)
Definition fthrough (E : QuadratureData) (w : GlobalCell_DOF -> R) (e : nat) (g : R -> R -> R) : R :=
  apply_rule (q_Weights E) (fun q => on_line e g (m_at (q_Points E) 0 q) * edge_interp w e (m_at (q_Points E) 0 q)).
Definition fedge_flux (E : QuadratureData) (w : GlobalCell_DOF -> R) (g0 g1 : R -> R -> R) (e : nat) : R :=
  (vx e 1 1 - vx e 0 1) * fthrough E w e g0 - (vx e 1 0 - vx e 0 0) * fthrough E w e g1.

Lemma fedge_ends c i : (c < nc)%nat -> (i < length (Cell2D_edges mesh c))%nat ->
  let e := nth i (Cell2D_edges mesh c) 0%nat in
  let v := nth i (Cell2D_vertices mesh c) 0%nat in let v' := nth (following 3 i) (Cell2D_vertices mesh c) 0%nat in
  (i < 3)%nat /\ (following 3 i < 3)%nat /\
  if direction_of geometry (c, i) then nth 0 (Cell1D_vertices mesh e) 0%nat = v /\ nth 1 (Cell1D_vertices mesh e) 0%nat = v'
  else nth 0 (Cell1D_vertices mesh e) 0%nat = v' /\ nth 1 (Cell1D_vertices mesh e) 0%nat = v.
Proof using VM.
  intros Hc Hi e v v'. rewrite (FNE c Hc) in Hi.
  destruct (fm_geometry _ _ _ _ _ _ _ _ _ VM c Hc) as (_ & _ & _ & G4). fold mesh in G4. rewrite (gt_three _ (tri_ok _ _ _ _ _ _ _ _ _ VM c Hc)) in G4. specialize (G4 i Hi). cbv zeta in G4. rewrite (following_mod 3 i Hi) in G4.
  split; [exact Hi|]. split; [apply following_lt; lia|]. exact G4.
Qed.
Lemma fvertex_coords c j d : (c < nc)%nat -> (j < 3)%nat -> (d < 3)%nat -> m_at (pg_Vertices (geometry c)) d j = md_coords m (nth j (Cell2D_vertices mesh c) 0%nat) d.
Proof using VM. intros Hc Hj Hd. apply (fm_geometry _ _ _ _ _ _ _ _ _ VM c Hc); auto. rewrite (gt_three _ (tri_ok _ _ _ _ _ _ _ _ _ VM c Hc)). auto. Qed.

(** the values of a polynomial on an edge from the unknowns of the edge *)
Lemma ftrace c i w p px py t : (c < nc)%nat -> (i < 3)%nat -> poly2 k p px py -> (forall j, (j < NB)%nat -> at_places info mesh c w j = fdofs p c j) ->
  on_line (nth i (Cell2D_edges mesh c) 0%nat) p t = edge_interp w (nth i (Cell2D_edges mesh c) 0%nat) t.
Proof using VM.
  intros Hc Hi Pp Hw. cell edge_trace c Hc. rename H into TR. pose proof (fedge_point _ _ _ _ _ _ _ _ _ VM c i t) as FP. cbv zeta in FP. unfold Pcc2dProofs6.on_line, Pcc2dProofs6.vx. fold mesh. rewrite <- !FP by (auto; lia).
  set (T := pg_Vertices (geometry c)) in *. set (dir := pg_EdgesDirection (geometry c)) in *. set (e := nth i (Cell2D_edges mesh c) 0%nat) in *.
  pose proof (FVD _ _ _ _ _ _ _ _ _ VM c Hc) as HVD. pose proof (FED _ _ _ _ _ _ _ _ _ VM c Hc) as HED. fold mesh in HVD, HED. pose proof (FNV c Hc) as NV. pose proof (FNE c Hc) as NE. fold mesh in NV, NE.
  destruct (fsizes _ _ _ _ _ _ _ _ _ VM c Hc) as (C0 & C1 & C2 & C3 & C4 & C5 & C6).
  assert (PV : forall j, (j < 3)%nat -> w (entity_dof 0 (nth j (Cell2D_vertices mesh c) 0%nat) 0) = p (m_at T 0 j) (m_at T 1 j)).
  { intros j Hj. pose proof (Hw j ltac:(lia)) as E. unfold at_places in E. rewrite (place_vertex info mesh c (k - 1) (requested info 2 c) HVD HED eq_refl j) in E by lia. rewrite E.
    unfold Fem2dProofs2.fdofs. cell vertex_dof c Hc. rewrite !H by (auto; lia). reflexivity. }
  destruct (fedge_ends c i Hc ltac:(lia)) as (_ & I2 & EE). cbv zeta in EE. fold e in EE.
  assert (SS : nth 0 (Cell1D_vertices mesh e) 0%nat = nth (start dir i) (Cell2D_vertices mesh c) 0%nat /\ nth 1 (Cell1D_vertices mesh e) 0%nat = nth (stop dir i) (Cell2D_vertices mesh c) 0%nat).
  { unfold start, stop. rewrite (following_mod 3 i Hi). unfold direction_of in EE. cbn [fst snd] in EE. fold dir in EE. destruct (nth i dir true); destruct EE as [-> ->]; split; reflexivity. }
  cell start_stop c Hc. destruct (H i Hi) as [SS0 SS1]. fold dir in SS0, SS1. destruct SS as [SS2 SS3].
  apply (TR i p px py (edge_unknowns w e) Hi Pp).
  - unfold Pcc2dProofs6.edge_unknowns. fold mesh. rewrite SS2. apply PV. exact SS0.
  - unfold Pcc2dProofs6.edge_unknowns. fold mesh. rewrite SS3. apply PV. exact SS1.
  - intros q Hq. unfold Pcc2dProofs6.edge_unknowns. assert (LB : (3 + i * (k - 1) + q < NB)%nat) by (rewrite C2; clear - Hi Hq; destruct i as [|[|[|]]]; lia).
    pose proof (Hw (3 + i * (k - 1) + q)%nat LB) as E. unfold at_places in E. rewrite (Nat.mul_comm i) in E. rewrite <- NV in E at 1. rewrite (place_edge info mesh c (k - 1) (requested info 2 c) HVD HED eq_refl i q) in E by lia.
    fold e in E. rewrite E. unfold Fem2dProofs2.fdofs. rewrite (Nat.mul_comm i). reflexivity.
Qed.

Lemma fflux_balance E c w g0 g0x g0y g1 g1x g1y p px py : (c < nc)%nat -> exact_interval (2 * k - 1) E -> poly2 (k - 1) g0 g0x g0y -> poly2 (k - 1) g1 g1x g1y -> poly2 k p px py ->
  (forall j, (j < NB)%nat -> at_places info mesh c w j = fdofs p c j) ->
  2 * area (pg_Vertices (geometry c)) * apply_rule (q_Weights gauss) (fun q => let x := m_at (fpoints c) 0 q in let y := m_at (fpoints c) 1 q in g0x x y * p x y + g0 x y * px x y) +
  2 * area (pg_Vertices (geometry c)) * apply_rule (q_Weights gauss) (fun q => let x := m_at (fpoints c) 0 q in let y := m_at (fpoints c) 1 q in g1y x y * p x y + g1 x y * py x y) =
  rsum (length (Cell2D_edges mesh c)) (fun i => sign (direction_of geometry (c, i)) * fedge_flux E w g0 g1 (edge_of mesh (c, i))).
Proof using VM.
  intros Hc EX Pg0 Pg1 Pp Hw. pose proof (poly2_mult _ _ _ _ _ _ _ _ Pg0 Pp) as P0. pose proof (poly2_mult _ _ _ _ _ _ _ _ Pg1 Pp) as P1. replace (k - 1 + k)%nat with (2 * k - 1)%nat in P0, P1 by (pose proof Hk; lia).
  cell green_cell c Hc. destruct (H E _ _ _ EX P0) as [G0 _]. destruct (H E _ _ _ EX P1) as [_ G1]. clear H. cbv beta zeta in G0, G1. cbv zeta. unfold Fem2dProofs2.fpoints. rewrite G0, G1.
  rewrite <- rsum_plus. rewrite (FNE c Hc). apply rsum_ext. intros i Hi. destruct (fedge_ends c i Hc ltac:(rewrite (FNE c Hc); exact Hi)) as (_ & I2 & EE). cbv zeta in EE.
  assert (TH : forall g, apply_rule (q_Weights E) (fun q =>
    g (m_at (pg_Vertices (geometry c)) 0 (start (pg_EdgesDirection (geometry c)) i) + m_at (q_Points E) 0 q * (m_at (pg_Vertices (geometry c)) 0 (stop (pg_EdgesDirection (geometry c)) i) - m_at (pg_Vertices (geometry c)) 0 (start (pg_EdgesDirection (geometry c)) i)))
      (m_at (pg_Vertices (geometry c)) 1 (start (pg_EdgesDirection (geometry c)) i) + m_at (q_Points E) 0 q * (m_at (pg_Vertices (geometry c)) 1 (stop (pg_EdgesDirection (geometry c)) i) - m_at (pg_Vertices (geometry c)) 1 (start (pg_EdgesDirection (geometry c)) i))) *
    p (m_at (pg_Vertices (geometry c)) 0 (start (pg_EdgesDirection (geometry c)) i) + m_at (q_Points E) 0 q * (m_at (pg_Vertices (geometry c)) 0 (stop (pg_EdgesDirection (geometry c)) i) - m_at (pg_Vertices (geometry c)) 0 (start (pg_EdgesDirection (geometry c)) i)))
      (m_at (pg_Vertices (geometry c)) 1 (start (pg_EdgesDirection (geometry c)) i) + m_at (q_Points E) 0 q * (m_at (pg_Vertices (geometry c)) 1 (stop (pg_EdgesDirection (geometry c)) i) - m_at (pg_Vertices (geometry c)) 1 (start (pg_EdgesDirection (geometry c)) i)))) =
    fthrough E w (edge_of mesh (c, i)) g).
  { intros g. unfold fthrough, edge_of. cbn [fst snd]. apply apply_ext. intros q Hq. rewrite <- (ftrace c i w p px py _ Hc Hi Pp Hw). unfold Pcc2dProofs6.on_line, Pcc2dProofs6.vx. fold mesh.
    pose proof (fedge_point _ _ _ _ _ _ _ _ _ VM c i (m_at (q_Points E) 0 q)) as FP. cbv zeta in FP. fold mesh in FP. rewrite <- !FP by (auto; lia). reflexivity. }
  rewrite !TH. rewrite !fvertex_coords by (auto; lia). unfold fedge_flux, Pcc2dProofs6.vx, edge_of. cbn [fst snd]. fold mesh. set (e := nth i (Cell2D_edges mesh c) 0%nat) in *. unfold sign.
  destruct (direction_of geometry (c, i)); destruct EE as [-> ->]; ring.
Qed.

Variable data : DOFsData.
Hypothesis HC : CreateDOFs 2 info (md_mesh m) = Ok data.
Let HN := fm_cells _ _ _ _ _ _ _ _ _ VM.

Lemma interp_zero n x w t : (forall i, (i < n)%nat -> w i = 0) -> Pcc2dProofs4.interp n x w t = 0.
Proof using. intros H. apply rsum_0. intros i Hi. rewrite H by exact Hi. ring. Qed.
Lemma fstrong_flux E g0 g1 r ci : In ci (incidences mesh) -> strong_edge info mesh (edge_of mesh ci) -> fedge_flux E (hat data r) g0 g1 (edge_of mesh ci) = 0.
Proof using VM HC.
  destruct ci as [c i]. intros Hci (S1 & S0 & S0'). apply in_incidences in Hci. destruct Hci as [Hc Hi]. destruct (fedge_ends c i Hc Hi) as (I1' & I2 & EE). cbv zeta in EE.
  assert (He : (edge_of mesh (c, i) < num_cells info 1)%nat) by (apply (edge_range m info data HC HN c); auto; apply nth_In; auto).
  assert (HV : forall j, (j < 3)%nat -> (nth j (Cell2D_vertices mesh c) 0%nat < num_cells info 0)%nat) by (intros j Hj; apply (vertex_range m info data HC HN c); auto; apply nth_In; fold mesh; rewrite (FNV c Hc); auto).
  unfold fedge_flux, fthrough. unfold edge_of in *. cbn [fst snd] in *. set (e := nth i (Cell2D_edges mesh c) 0%nat) in *.
  assert (Z : forall t, edge_interp (hat data r) e t = 0).
  { intros t. apply interp_zero. intros [|[|q]] _; unfold Pcc2dProofs6.edge_unknowns; fold mesh.
    - apply (hat_strong m info data 0); auto. destruct (direction_of geometry (c, i)); destruct EE as [-> _]; auto.
    - apply (hat_strong m info data 0); auto. destruct (direction_of geometry (c, i)); destruct EE as [_ ->]; auto.
    - apply (hat_strong m info data 1); auto; lia. }
  unfold apply_rule. rewrite !rsum_0 by (intros q Hq; rewrite Z; ring). ring.
Qed.

(** the functions of an edge *)
Lemma fedge_functions y : exists B, FEM_1D_Values junk {| m_rows := 3; m_cols := v_size y; m_at := fun i j => match i with 0%nat => v_at y j | _ => junk i j end |} edge = Ok B /\ m_rows B = v_size y /\ m_cols B = (k + 1)%nat /\
  forall w q, (q < v_size y)%nat -> rsum (k + 1)%nat (fun i => w i * m_at B q i) = Pcc2dProofs4.interp (k + 1) (tri_nodes k) w (v_at y q).
Proof using VM.
  pose proof (fm_edge _ _ _ _ _ _ _ _ _ VM) as EE.
  destruct (C40_dofs_all junk lob k Equispaced Hk) as (dd & Ed & _ & _ & _ & _ & _ & D0 & D1 & DQ & _); [discriminate|]. rewrite EE in Ed. injection Ed as <-.
  destruct (C40_basis_all junk lob k Equispaced edge Hk ltac:(discriminate) EE) as [_ HB]. set (pts := {| m_rows := 3; m_cols := v_size y; m_at := fun i j => match i with 0%nat => v_at y j | _ => junk i j end |}).
  destruct (HB pts (fun _ => 0) ltac:(cbn; lia)) as (B & E1 & E2 & E3 & _). exists B. split; [exact E1|]. split; [exact E2|]. split; [exact E3|]. intros w q Hq.
  destruct (is_poly_polynomial _ _ (interp_poly (k + 1) (tri_nodes k) w)) as (a & Ha). destruct (HB pts a ltac:(cbn; lia)) as (B' & E1' & _ & _ & H). rewrite E1 in E1'. injection E1' as <-.
  rewrite Ha. specialize (H q Hq). cbn [pts m_at] in H. rewrite <- H. apply rsum_ext. intros i Hi. f_equal. rewrite <- Ha.
  assert (EN : m_at (f1_DofPositions edge) 0 i = tri_nodes k i).
  { assert (INR k <> 0) by (apply not_0_INR; pose proof Hk; lia). destruct i as [|[|i]]; cbn [tri_nodes]; [rewrite D0; cbn [INR]; field; auto|rewrite D1; field; auto|]. change (S (S i)) with (2 + i)%nat. rewrite DQ by lia. reflexivity. }
  rewrite EN. symmetry. apply interp_node; [apply tri_nodes_distinct; exact Hk|exact Hi].
Qed.

Lemma fedge_test_interp c i r B : (c < nc)%nat -> (i < length (Cell2D_edges mesh c))%nat ->
  edge_test info mesh data (edge_of mesh (c, i)) r B = rsum (k + 1) (fun j => edge_unknowns (hat data r) (edge_of mesh (c, i)) j * B j).
Proof using VM.
  intros Hc Hi. destruct (fedge_ends c i Hc Hi) as (I1' & I2 & EE). cbv zeta in EE. unfold edge_of. cbn [fst snd]. set (e := nth i (Cell2D_edges mesh c) 0%nat) in *.
  pose proof (FVD _ _ _ _ _ _ _ _ _ VM c Hc) as HVD. pose proof (FED _ _ _ _ _ _ _ _ _ VM c Hc) as HED. fold mesh in HVD, HED. pose proof (FNV c Hc) as NV. fold mesh in NV.
  assert (R0 : requested info 0 (nth 0 (Cell1D_vertices mesh e) 0%nat) = 1%nat) by (apply HVD; destruct (direction_of geometry (c, i)); destruct EE as [-> _]; apply nth_In; lia).
  assert (R1' : requested info 0 (nth 1 (Cell1D_vertices mesh e) 0%nat) = 1%nat) by (apply HVD; destruct (direction_of geometry (c, i)); destruct EE as [_ ->]; apply nth_In; lia).
  assert (RE : requested info 1 e = (k - 1)%nat) by (apply HED; apply nth_In; auto).
  unfold edge_test. rewrite RE. replace (k + 1)%nat with (2 + (k - 1))%nat by (pose proof Hk; lia). rewrite rsum_add. f_equal.
  - cbn [rsum]. rewrite R0, R1'. cbn [rsum Pcc2dProofs6.edge_unknowns]. fold mesh. unfold hat. destruct (free_is data (entity_dof 0 (nth 0 (Cell1D_vertices mesh e) 0%nat) 0) r), (free_is data (entity_dof 0 (nth 1 (Cell1D_vertices mesh e) 0%nat) 0) r); ring.
  - apply rsum_ext. intros q Hq. cbn [Nat.add Pcc2dProofs6.edge_unknowns]. unfold hat. destruct (free_is data (entity_dof 1 e q) r); ring.
Qed.

Lemma fweak_flux c i r g0 g1 h E B : In (c, i) (incidences mesh) -> weak_edge info (edge_of mesh (c, i)) = true -> neumann_data info mesh geometry g0 g1 h ->
  (forall w q, (q < v_size (q_Weights E))%nat -> rsum (k + 1)%nat (fun i => w i * m_at B q i) = Pcc2dProofs4.interp (k + 1) (tri_nodes k) w (m_at (q_Points E) 0 q)) ->
  sign (direction_of geometry (c, i)) * fedge_flux E (hat data r) g0 g1 (edge_of mesh (c, i)) =
  rsum (v_size (q_Weights E)) (fun q => v_at (q_Weights E) q * Rabs (v_at (pg_EdgesLength (geometry c)) i) *
    DriverSpec.at_point (h (marker_of info 1 (edge_of mesh (c, i)))) (DriverSpec2.edge_point (geometry c) i (m_at (q_Points E) 0%nat q)) * edge_test info mesh data (edge_of mesh (c, i)) r (m_at B q)).
Proof using VM.
  intros Hci HW ND HB. pose proof Hci as Hci'. apply in_incidences in Hci. destruct Hci as [Hc Hi].
  pose proof (FNE c Hc) as NE. fold mesh in NE. pose proof (tri_ok _ _ _ _ _ _ _ _ _ VM c Hc) as GT.
  unfold fedge_flux, fthrough. set (A := fun g q => on_line (edge_of mesh (c, i)) g (m_at (q_Points E) 0 q) * edge_interp (hat data r) (edge_of mesh (c, i)) (m_at (q_Points E) 0 q)).
  rewrite (rsum_ext (v_size (q_Weights E)) _ (fun q =>
    m_at (pg_EdgesNormal (geometry c)) 0 i * Rabs (v_at (pg_EdgesLength (geometry c)) i) * (v_at (q_Weights E) q * A g0 q)
    + m_at (pg_EdgesNormal (geometry c)) 1 i * Rabs (v_at (pg_EdgesLength (geometry c)) i) * (v_at (q_Weights E) q * A g1 q))).
  2: { intros q Hq. rewrite (ND c i (m_at (q_Points E) 0 q) Hci' HW). cbv zeta. rewrite fedge_test_interp by auto. rewrite HB by auto.
       rewrite !(edge_point_mesh m c (geometry c) i) by (try lia; try (apply (fm_geometry _ _ _ _ _ _ _ _ _ VM c Hc)); rewrite (gt_three _ GT); lia). unfold A, Pcc2dProofs6.on_line, Pcc2dProofs6.vx, edge_of. cbn [fst snd]. fold mesh. ring. }
  rewrite rsum_plus, !rsum_scal. fold (apply_rule (q_Weights E) (A g0)). fold (apply_rule (q_Weights E) (A g1)).
  change (fun q => on_line (edge_of mesh (c, i)) g0 (m_at (q_Points E) 0 q) * edge_interp (hat data r) (edge_of mesh (c, i)) (m_at (q_Points E) 0 q)) with (A g0).
  change (fun q => on_line (edge_of mesh (c, i)) g1 (m_at (q_Points E) 0 q) * edge_interp (hat data r) (edge_of mesh (c, i)) (m_at (q_Points E) 0 q)) with (A g1).
  generalize (apply_rule (q_Weights E) (A g0)) (apply_rule (q_Weights E) (A g1)). intros A0 A1. destruct (fedge_ends c i Hc Hi) as (I1' & I2 & EE). cbv zeta in EE.
  destruct (gt_normals _ GT i ltac:(rewrite (gt_three _ GT); exact I1')) as [N0 N1]. rewrite (gt_three _ GT) in N0, N1. rewrite N0, N1. rewrite !fvertex_coords by (auto; lia).
  unfold Pcc2dProofs6.vx, edge_of, sign. cbn [fst snd]. fold mesh. destruct (direction_of geometry (c, i)); destruct EE as [-> ->]; ring.
Qed.

(** the patch test *)
Lemma fpatch K adv rea F h E f fx fy g0 g0x g0y g1 g1x g1y : (forall c, (c < nc)%nat -> md_active2 m c = true) ->
  poly2 k f fx fy -> poly2 (k - 1) g0 g0x g0y -> poly2 (k - 1) g1 g1x g1y ->
  solves_equation K adv rea F f fx fy g0 g0x g0y g1 g1x g1y ->
  closed_boundary info mesh geometry -> neumann_data info mesh geometry g0 g1 h -> exact_interval (2 * k - 1) E ->
  exists s b w uD uS, assemble_elliptic_operator m data data create create (Some K) adv rea = Ok s /\
    assemble_source_term m data create create F = Ok b /\ assemble_weak_term m info data geometry E create h = Ok w /\
    evaluate_function_on_dofs m data k create (planar f) = Ok (uD, uS) /\ length uD = NumberDOFs data /\ length uS = NumberStrongs data /\
    forall r, operator_row s uD uS r = nth r b 0 + nth r w 0.
Proof using VM HC.
  intros ACT Pf Pg0 Pg1 SE CL ND EX.
  assert (CF : forall c, (c < nc)%nat -> md_active2 m c = true -> cell_forms create create c (length (closure_dofs info mesh 2 c)) (length (closure_dofs info mesh 2 c)) (fforms c)).
  { intros c Hc _. unfold mesh. rewrite (fsize_closure _ _ _ _ _ _ _ _ _ VM c Hc). apply fforms_ok; auto. }
  destruct (operator_ok m info info data data create create fforms HC HN HC HN CF (Some K) adv rea (fun c => kmax (fforms c) K)) as (s & Es & _ & _ & HS).
  { intros c K' Hc Ha E'. injection E' as <-. apply kmax_ok. apply (ce_points _ _ _ _ _ _ (CF c Hc Ha)). }
  destruct (source_ok m info info data data create create fforms HC HN HC HN CF F) as (b & Eb & Lb & Hb).
  destruct (fedge_functions {| v_size := m_cols (q_Points E); v_at := fun q => m_at (q_Points E) 0%nat q |}) as (B & EB & RB & CB & HB). cbn [v_size v_at] in RB, HB.
  pose proof (proj1 EX) as SQ.
  destruct (weak_term_ok m info info data HC HN) with (geometry := geometry) (gauss := E) (create := create) (g := h) (sp := fun c => FEM_space junk gauss edge ref (floc c) (fquad c)) (B := fun _ : nat => B) as (w & Ew & Lw & Hw).
  { intros e He. destruct (info_entry m info data HC 1 e) as (b0 & row & E0 & _); [lia|exact He|]. eauto. }
  { intros c Hc Ha. pose proof (tri_ok _ _ _ _ _ _ _ _ _ VM c Hc) as GT. destruct (gt_edges _ GT) as [EV EL EDi [ET ET'] _]. pose proof (FNE c Hc) as NE. pose proof (gt_three _ GT) as NV.
    split; auto.
    - apply (fcreate_ok _ _ _ _ _ _ _ _ _ VM c Hc).
    - rewrite NV; exact NE.
    - split; [congruence|]. intros e He. rewrite (FED _ _ _ _ _ _ _ _ _ VM c Hc e He), CB. pose proof Hk. lia. }
  { exact SQ. }
  destruct (finterpolant _ _ _ _ _ _ _ _ _ VM data HC f) as (uD & uS & Eu & LD & LS & HU).
  exists s, b, w, uD, uS. split; [exact Es|]. split; [exact Eb|]. split; [exact Ew|]. split; [exact Eu|]. split; [exact LD|]. split; [exact LS|].
  intros r. destruct (HS uD uS LD LS) as (ul & Hul & HR'). rewrite HR', Hb, Hw. rewrite !active_all by exact ACT. fold mesh nc.
  set (T := fun c p => elliptic_form (fforms c) (Some K) adv rea (kmax (fforms c) K) (v_at (ul c)) p - source_form (fforms c) F p).
  pose proof (balance m info data geometry (fedge_flux E (hat data r) g0 g1) T (fun c i => rsum (v_size (q_Weights E)) (fun q => v_at (q_Weights E) q * Rabs (v_at (pg_EdgesLength (geometry c)) i) *
    DriverSpec.at_point (h (marker_of info 1 (edge_of mesh (c, i)))) (DriverSpec2.edge_point (geometry c) i (m_at (q_Points E) 0%nat q)) * edge_test info mesh data (edge_of mesh (c, i)) r (m_at B q))) r) as BAL.
  fold mesh nc in BAL. rewrite (rsum_ext nc (fun c => weak_form _ _ _ _ _ _ _ _ _ _) (fun c => rsum (length (Cell2D_edges mesh c)) (fun i => if weak_edge info (edge_of mesh (c, i)) then rsum (v_size (q_Weights E)) (fun q => v_at (q_Weights E) q * Rabs (v_at (pg_EdgesLength (geometry c)) i) *
    DriverSpec.at_point (h (marker_of info 1 (edge_of mesh (c, i)))) (DriverSpec2.edge_point (geometry c) i (m_at (q_Points E) 0%nat q)) * edge_test info mesh data (edge_of mesh (c, i)) r (m_at B q)) else 0))).
  2: { intros c Hc. unfold weak_form. rewrite (gt_three _ (tri_ok _ _ _ _ _ _ _ _ _ VM c Hc)), <- (FNE c Hc). reflexivity. }
  rewrite <- BAL; auto.
  - rewrite <- rsum_plus. apply rsum_ext. intros c Hc. rewrite !free_places_sum, <- rsum_plus. apply rsum_ext. intros p Hp. unfold T. ring.
  - intros c Hc. fold nc in Hc. unfold mesh at 1. rewrite (fsize_closure _ _ _ _ _ _ _ _ _ VM c Hc).
    destruct (funisolvent _ _ _ _ _ _ _ _ _ VM c (at_places info mesh c (hat data r)) Hc) as (p & px & py & Pp & Hp).
    rewrite <- (fflux_balance E c (hat data r) g0 g0x g0y g1 g1x g1y p px py Hc EX Pg0 Pg1 Pp Hp).
    rewrite <- (fcell_balance c K adv rea F f fx fy g0 g0x g0y g1 g1x g1y (kmax (fforms c) K) (at_places info mesh c (hat data r)) p px py Hc Pf SE Pp Hp). apply rsum_ext. intros i Hi. unfold T. f_equal. f_equal.
    destruct (fforms_ok c Hc) as (CFc & _). apply (form_agree _ _ _ _ _ _ _ _ _ _ _ _ _ CFc eq_refl). intros j Hj.
    destruct (HU c Hc) as (u & Eu' & Su & Hu'). rewrite (Hul c Hc) in Eu'. injection Eu' as ->. rewrite <- (fsize_closure _ _ _ _ _ _ _ _ _ VM c Hc) in Hj.
    destruct (nth_error (closure_dofs info (md_mesh m) 2 c) j) as [h'|] eqn:Eh; [|apply nth_error_None in Eh; lia]. rewrite (Hu' j h' Eh). symmetry. apply (fdofs_places _ _ _ _ _ _ _ _ _ VM f c j h' Hc Eh).
  - intros c i Hci HWk. apply (fweak_flux c i r g0 g1 h E B); auto. intros w' q Hq. apply HB. congruence.
  - intros ci Hci HSt. apply fstrong_flux; auto.
Qed.
End Patch.
