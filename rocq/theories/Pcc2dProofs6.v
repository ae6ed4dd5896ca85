(** Proofs: the patch test of the virtual element on a mesh. *)
From Coq Require Import List Arith Bool Reals Lia Lra.
From Verif Require Import Base RSum MatrixModel MonomialsModel MonomialsSpec LagrangeModel LagrangeSpec LagrangeProofs DofsModel DofsSpec AssemblerModel AssemblerSpec EquationModel EquationSpec VemQuadModel VemQuadSpec VemQuadProofs VemQuadProofs2 GreenSpec GreenProofs PolyProofs VemModel VemSpec
  VemProofs VemProofs2 VemProofs3 VemProofs4 VemProofs5 DriverModel DriverSpec DriverSpec2 Pcc2dModel Pcc2dSpec DriverProofs DriverProofs2 DriverProofs3 DriverProofs4 DriverProofs5 DriverProofs6 DriverProofs7 Pcc2dProofs Pcc2dProofs2 Pcc2dProofs3 Pcc2dProofs4 Pcc2dProofs5.
Import ListNotations.
Local Open Scope R_scope.

(** the form tested on a combination depends on the local unknowns of the trial functions only *)
Lemma form_agree ct cs c n n' E dif adv rea k u u' p : cell_forms ct cs c n n' E -> n = n' -> (forall j, (j < n)%nat -> u j = u' j) ->
  elliptic_form E dif adv rea k u p = elliptic_form E dif adv rea k u' p.
Proof.
  intros HE EN H. destruct HE as [E1 E2 E3 E4 (P1 & P2 & P3) (U1 & U2) (dU1 & dU2) (V1 & V2) (dV1 & dV2) (S1 & S2)].
  assert (A : forall M, m_cols M = n -> forall q, combine M u q = combine M u' q) by (intros M HM q; apply rsum_ext; intros j Hj; rewrite H by congruence; reflexivity).
  destruct (dU2 0%nat ltac:(lia)) as [_ C0]. destruct (dU2 1%nat ltac:(lia)) as [_ C1]. destruct U2 as [_ CU]. destruct S2 as [_ CS].
  unfold elliptic_form. f_equal.
  - apply rsum_ext. intros q Hq. f_equal. f_equal; [f_equal|].
    + destruct dif; [|reflexivity]. cbn [rsum]. rewrite !(A _ C0), !(A _ C1). reflexivity.
    + destruct adv; [|reflexivity]. cbn [rsum]. rewrite !(A _ C0), !(A _ C1). reflexivity.
    + destruct rea; [|reflexivity]. rewrite (A _ CU). reflexivity.
  - destruct dif; [|reflexivity]. rewrite (A (cf_S E)) by congruence. reflexivity.
Qed.
Lemma pair_of_source E n f v : m_cols (cf_V E) = n ->
  rsum n (fun p => v p * source_form E f p) = rsum (v_size (cf_weights E)) (fun q => v_at (cf_weights E) q * (at_q f E q * combine (cf_V E) v q)).
Proof.
  intros C. unfold source_form, combine. rewrite C. rewrite (rsum_ext n _ (fun p => rsum (v_size (cf_weights E)) (fun q => v_at (cf_weights E) q * (at_q f E q * (m_at (cf_V E) q p * v p))))) by (intros; rewrite <- rsum_scal; apply rsum_ext; intros; ring).
  rewrite rsum_swap. apply rsum_ext. intros q Hq. rewrite <- !rsum_scal. apply rsum_ext. intros; ring.
Qed.

Section Patch.
Variables (gt lob : nat -> QuadratureData) (junk : nat -> nat -> R) (lu llt : Solver) (k : nat) (ref : VEM_2D_Reference) (m : Mesh2D) (info : MeshDOFsInfo) (geometry : nat -> Polygon).
Hypothesis VM : vem_mesh gt lob lu llt k ref m info geometry.
Let mesh := md_mesh m.
Let nc := Cell2Ds_number mesh.
Let Hk := vm_order _ _ _ _ _ _ _ _ _ VM.
Let P := vq_ReferenceEdgeDOFsInternalPoints (rv_Quadrature ref).
Let W := vq_ReferenceEdgeDOFsInternalWeights (rv_Quadrature ref).
Let ext := vq_ReferenceEdgeDOFsExtremaWeights (rv_Quadrature ref).
Notation loc := (loc junk lu llt ref geometry).
Notation create := (create junk lu llt ref geometry).
Notation CS c Hc := (cell_space gt lob junk lu llt k ref m info geometry VM c Hc).
Notation pt := (pt ref m).

Definition forms (c : nat) : CellForms := let l := loc c in let sp := VEM_space junk ref (geometry c) l in let points := q_Points (lv_InternalQuadrature l) in {|
  cf_trial := sp; cf_test := sp;
  cf_U := get (mzero 0 0) (VEM_Values_quadrature l Pi0km1_t);
  cf_dU := fun d => nth d (get [] (VEM_DerivativeValues_quadrature l Pi0km1Der_t)) (mzero 0 0);
  cf_V := get (mzero 0 0) (VEM_Values junk ref l Pi0km1_t points);
  cf_dV := fun d => nth d (get [] (VEM_DerivativeValues junk ref l Pi0km1Der_t points)) (mzero 0 0);
  cf_S := get (mzero 0 0) (VEM_DofiDofi l PiNabla_t) |}.
Notation qx c q := (m_at (q_Points (lv_InternalQuadrature (loc c))) 0 q).
Notation qy c q := (m_at (q_Points (lv_InternalQuadrature (loc c))) 1 q).

Lemma forms_ok c : (c < nc)%nat -> cell_forms create create c (lv_NumBasisFunctions (loc c)) (lv_NumBasisFunctions (loc c)) (forms c) /\
  (forall u q, combine (cf_U (forms c)) u q = projected ref (loc c) (lv_Pi0km1 (loc c)) u (qx c q) (qy c q)) /\
  (forall u q, combine (cf_V (forms c)) u q = projected ref (loc c) (lv_Pi0km1 (loc c)) u (qx c q) (qy c q)) /\
  (exists P0 P1, lv_Pi0km1Der (loc c) = [P0; P1] /\ forall u q,
    combine (cf_dU (forms c) 0) u q = projected ref (loc c) P0 u (qx c q) (qy c q) /\ combine (cf_dU (forms c) 1) u q = projected ref (loc c) P1 u (qx c q) (qy c q) /\
    combine (cf_dV (forms c) 0) u q = projected ref (loc c) P0 u (qx c q) (qy c q) /\ combine (cf_dV (forms c) 1) u q = projected ref (loc c) P1 u (qx c q) (qy c q)) /\
  (forall f fx fy, poly2 k f fx fy -> forall i, combine (cf_S (forms c)) (dofs_of ref (loc c) f) i = 0).
Proof using VM.
  intros Hc. pose proof (CS c Hc) as VS. pose proof (LF _ _ _ _ _ _ _ _ _ VS) as LFc. destruct (lf_IQ _ _ _ _ _ _ LFc) as [Q1 Q2].
  destruct (quadrature_values_all _ _ _ _ _ _ _ _ _ VS) as (_ & (U & EU & RU & CU & HU) & _ & P0 & P1 & D0 & D1 & EP & ED & RD0 & CD0 & RD1 & CD1 & HD). cbv zeta in RU, RD0, RD1, HU, HD.
  destruct (values_all _ _ _ _ _ _ _ _ _ VS junk (q_Points (lv_InternalQuadrature (loc c))) Q1) as (_ & (V & EV & RV & CV & HV) & _ & P0' & P1' & D0' & D1' & EP' & ED' & RD0' & CD0' & RD1' & CD1' & HD').
  rewrite EP in EP'. injection EP' as <- <-.
  destruct (stabilization_all _ _ _ _ _ _ _ _ _ VS PiNabla_t (or_introl eq_refl)) as (S & ES & RS & CS' & SY & SP & _).
  assert (NQ : (0 < v_size (q_Weights (lv_InternalQuadrature (loc c))))%nat).
  { pose proof (lf_area _ _ _ _ _ _ LFc) as AR. pose proof (gp_area _ (vm_polygon _ _ _ _ _ _ _ _ _ VM c Hc)) as PA. rewrite <- AR in PA. unfold fI, apply_rule in PA. destruct (v_size (q_Weights (lv_InternalQuadrature (loc c)))); [cbn in PA; lra|lia]. }
  unfold forms. cbn [cf_U cf_dU cf_V cf_dV cf_S]. split; [|split; [|split; [|split]]].
  - split; cbn [cf_trial cf_test cf_U cf_dU cf_V cf_dV cf_S]; unfold cf_points, cf_weights, shaped; cbn [cf_trial cf_test VEM_space ls_InternalQuadrature ls_Size ls_Values ls_DerivativeValues ls_ValuesAt ls_DerivativeValuesAt ls_StabilizationMatrix].
    + apply (create_ok gt lob junk lu llt k ref m info geometry VM c Hc).
    + apply (create_ok gt lob junk lu llt k ref m info geometry VM c Hc).
    + reflexivity.
    + reflexivity.
    + repeat split; lia.
    + rewrite EU. cbn [get]. repeat split; congruence.
    + rewrite ED. cbn [get nth]. split; [reflexivity|]. intros [|[|]] Hd; [split; congruence|split; congruence|lia].
    + rewrite EV. cbn [get]. repeat split; congruence.
    + rewrite ED'. cbn [get nth]. split; [reflexivity|]. intros [|[|]] Hd; [split; congruence|split; congruence|lia].
    + rewrite ES. cbn [get]. repeat split; congruence.
  - rewrite EU. cbn [get]. exact HU.
  - rewrite EV. cbn [get]. exact HV.
  - exists P0, P1. split; [exact EP|]. rewrite ED, ED'. cbn [get nth]. intros u q. destruct (HD u q) as [HD0 HD1]. destruct (HD' u q) as [HD0' HD1']. auto.
  - rewrite ES. cbn [get]. exact SP.
Qed.
Lemma forms_points c : cf_points (forms c) = q_Points (lv_InternalQuadrature (loc c)). Proof using. reflexivity. Qed.
Lemma forms_weights c : cf_weights (forms c) = q_Weights (lv_InternalQuadrature (loc c)). Proof using. reflexivity. Qed.

(** the balance of a cell *)
Lemma cell_balance c K adv rea F f fx fy g0 g0x g0y g1 g1x g1y kk v : (c < nc)%nat -> poly2 k f fx fy -> poly2 (k - 1) g0 g0x g0y -> poly2 (k - 1) g1 g1x g1y ->
  solves_equation K adv rea F f fx fy g0 g0x g0y g1 g1x g1y -> (rea = None \/ poly2 (k - 1) f fx fy) ->
  rsum (lv_NumBasisFunctions (loc c)) (fun p => v p * (elliptic_form (forms c) (Some K) adv rea kk (dofs_of ref (loc c) f) p - source_form (forms c) F p)) =
  flux (loc c) 0 g0 v + flux (loc c) 1 g1 v.
Proof using VM.
  intros Hc Pf Pg0 Pg1 [F0 F1 EQ] HR. destruct (forms_ok c Hc) as (CF & HU & HV & (P0 & P1 & EP & HD) & HS). pose proof (CS c Hc) as VS.
  destruct (divergence _ _ _ _ _ _ _ _ _ VS v g0 g0x g0y g1 g1x g1y Pg0 Pg1) as (P0' & P1' & EP' & DIV). rewrite EP in EP'. injection EP' as <- <-. rewrite <- DIV. clear DIV.
  rewrite (rsum_ext _ _ (fun p => v p * elliptic_form (forms c) (Some K) adv rea kk (dofs_of ref (loc c) f) p - v p * source_form (forms c) F p)) by (intros; ring). rewrite rsum_minus.
  rewrite (pair_of_form create create c _ _ (forms c) (Some K) adv rea kk _ v CF). rewrite pair_of_source by (apply (ce_V _ _ _ _ _ _ CF)).
  unfold pair_form. rewrite (rsum_0 (ls_Size (cf_test (forms c)))) by (intros p Hp; rewrite (HS f fx fy Pf p); ring).
  replace (if (ls_Size (cf_test (forms c)) =? ls_Size (cf_trial (forms c)))%nat then kk * 0 else 0) with 0 by (destruct (_ =? _)%nat; ring).
  rewrite Rplus_0_r, <- rsum_minus. rewrite forms_weights. unfold inside, apply_rule. rewrite <- rsum_plus. apply rsum_ext. intros q Hq.
  destruct (reproduce_all _ _ _ _ _ _ _ _ _ VS f fx fy Pf (qx c q) (qy c q)) as (_ & _ & R3 & P0' & P1' & EP' & R4 & R5). rewrite EP in EP'. injection EP' as <- <-.
  destruct (HD (dofs_of ref (loc c) f) q) as (H1 & H2 & _). destruct (HD v q) as (_ & _ & H3 & H4). cbn [rsum]. rewrite H1, H2, H3, H4, R4, R5, HV. unfold at_q. rewrite forms_points.
  rewrite (F0 (qx c q) (qy c q) (m_at (q_Points (lv_InternalQuadrature (loc c))) 2 q)), (F1 (qx c q) (qy c q) (m_at (q_Points (lv_InternalQuadrature (loc c))) 2 q)), (EQ (qx c q) (qy c q) (m_at (q_Points (lv_InternalQuadrature (loc c))) 2 q)).
  cbn [Nat.mul Nat.add]. destruct rea as [rc|].
  - destruct HR as [HR|HR]; [discriminate|]. rewrite HU, (R3 HR). destruct adv; ring.
  - destruct adv; ring.
Qed.

(** the flux through an edge, its orientation being its own *)
Definition vx (e j d : nat) : R := md_coords m (nth j (Cell1D_vertices mesh e) 0%nat) d.
Definition through (w : GlobalCell_DOF -> R) (e : nat) (g : R -> R -> R) : R :=
  fst ext * (g (vx e 0 0) (vx e 0 1) * w (entity_dof 0 (nth 0 (Cell1D_vertices mesh e) 0%nat) 0))
  + fst ext * (g (vx e 1 0) (vx e 1 1) * w (entity_dof 0 (nth 1 (Cell1D_vertices mesh e) 0%nat) 0))
  + rsum (k - 1) (fun q => v_at W q * (g (pt e q 0%nat) (pt e q 1%nat) * w (entity_dof 1 e q))).
Definition edge_flux (w : GlobalCell_DOF -> R) (g0 g1 : R -> R -> R) (e : nat) : R :=
  (vx e 1 1 - vx e 0 1) * through w e g0 - (vx e 1 0 - vx e 0 0) * through w e g1.

Lemma edge_ends c i : (c < nc)%nat -> (i < length (Cell2D_edges mesh c))%nat ->
  let e := nth i (Cell2D_edges mesh c) 0%nat in let n := length (Cell2D_vertices mesh c) in
  let v := nth i (Cell2D_vertices mesh c) 0%nat in let v' := nth (following n i) (Cell2D_vertices mesh c) 0%nat in
  (i < n)%nat /\ (following n i < n)%nat /\
  if direction_of geometry (c, i) then nth 0 (Cell1D_vertices mesh e) 0%nat = v /\ nth 1 (Cell1D_vertices mesh e) 0%nat = v'
  else nth 0 (Cell1D_vertices mesh e) 0%nat = v' /\ nth 1 (Cell1D_vertices mesh e) 0%nat = v.
Proof using VM.
  intros Hc Hi e n v v'. pose proof (ne_mesh _ _ _ _ _ _ _ _ _ VM c Hc) as NE. pose proof (nv_mesh _ _ _ _ _ _ _ _ _ VM c Hc) as NV. fold mesh in NE, NV. fold n in NE, NV.
  destruct (vm_geometry _ _ _ _ _ _ _ _ _ VM c Hc) as (_ & _ & _ & G4). fold mesh in G4. specialize (G4 i ltac:(lia)). cbv zeta in G4. rewrite NV, (following_mod n i) in G4 by lia.
  split; [lia|]. split; [apply following_lt; lia|]. exact G4.
Qed.

Lemma flux_balance c w g0 g1 : (c < nc)%nat ->
  flux (loc c) 0 g0 (at_places info mesh c w) + flux (loc c) 1 g1 (at_places info mesh c w) =
  rsum (length (Cell2D_edges mesh c)) (fun i => sign (direction_of geometry (c, i)) * edge_flux w g0 g1 (edge_of mesh (c, i))).
Proof using VM.
  intros Hc. pose proof (CS c Hc) as VS. rewrite !(flux_edges _ _ _ _ _ _ _ _ _ VS) by lia. rewrite <- rsum_plus.
  pose proof (ne_mesh _ _ _ _ _ _ _ _ _ VM c Hc) as NE. pose proof (nv_mesh _ _ _ _ _ _ _ _ _ VM c Hc) as NV. fold mesh in NE, NV. rewrite NV, <- NE. apply rsum_ext. intros i Hi.
  pose proof (VD _ _ _ _ _ _ _ _ _ VM c Hc) as HVD. pose proof (ED _ _ _ _ _ _ _ _ _ VM c Hc) as HED. fold mesh in HVD, HED.
  destruct (edge_ends c i Hc Hi) as (I1' & I2 & EE). cbv zeta in EE. rewrite NE. set (n := length (Cell2D_vertices mesh c)) in *.
  assert (PV : forall j, (j < n)%nat -> at_places info mesh c w j = w (entity_dof 0 (nth j (Cell2D_vertices mesh c) 0%nat) 0)).
  { intros j Hj. unfold at_places. rewrite (place_vertex info mesh c (k - 1) (requested info 2 c) HVD HED eq_refl j Hj). reflexivity. }
  assert (PE : forall q, (q < k - 1)%nat -> at_places info mesh c w (n + (k - 1) * i + q) = w (entity_dof 1 (nth i (Cell2D_edges mesh c) 0%nat) q)).
  { intros q Hq. unfold at_places, n. rewrite (place_edge info mesh c (k - 1) (requested info 2 c) HVD HED eq_refl i q Hi Hq). reflexivity. }
  assert (PTS : forall g, rsum (k - 1) (fun q => v_at W q * (g (DriverSpec2.edge_point (geometry c) i (m_at P 0 q) 0%nat) (DriverSpec2.edge_point (geometry c) i (m_at P 0 q) 1%nat) * at_places info mesh c w (n + (k - 1) * i + q)%nat))
    = rsum (k - 1) (fun q => v_at W q * (g (pt (nth i (Cell2D_edges mesh c) 0%nat) q 0%nat) (pt (nth i (Cell2D_edges mesh c) 0%nat) q 1%nat) * w (entity_dof 1 (nth i (Cell2D_edges mesh c) 0%nat) q)))).
  { intros g. apply rsum_ext. intros q Hq. rewrite PE by auto. unfold P. rewrite !(pt_edge _ _ _ _ _ _ _ _ _ VM c i q) by (auto; lia). reflexivity. }
  fold P W ext. rewrite !PTS. rewrite !PV by auto.
  assert (VC : forall j d, (j < n)%nat -> (d < 3)%nat -> m_at (pg_Vertices (geometry c)) d j = md_coords m (nth j (Cell2D_vertices mesh c) 0%nat) d) by (intros; apply (vertex_coords _ _ _ _ _ _ _ _ _ VM c); auto).
  destruct (normal_length _ _ _ _ _ _ _ _ _ VS i ltac:(lia)) as [N0 N1]. rewrite NV in N0, N1. fold n in N0, N1. rewrite N0, N1. rewrite !VC by (auto; lia).
  unfold edge_flux, through, vx, edge_of. cbn [fst snd]. set (e := nth i (Cell2D_edges mesh c) 0%nat) in *. unfold sign.
  destruct (direction_of geometry (c, i)); destruct EE as [-> ->]; ring.
Qed.

Variable data : DOFsData.
Hypothesis HC : CreateDOFs 2 info (md_mesh m) = Ok data.
Let HN := vm_cells _ _ _ _ _ _ _ _ _ VM.

Lemma strong_flux g0 g1 r ci : In ci (incidences mesh) -> strong_edge info mesh (edge_of mesh ci) -> edge_flux (hat data r) g0 g1 (edge_of mesh ci) = 0.
Proof using VM HC.
  destruct ci as [c i]. intros Hci (S1 & S0 & S0'). apply in_incidences in Hci. destruct Hci as [Hc Hi]. destruct (edge_ends c i Hc Hi) as (I1' & I2 & EE). cbv zeta in EE.
  assert (He : (edge_of mesh (c, i) < num_cells info 1)%nat) by (apply (edge_range m info data HC HN c); auto; apply nth_In; auto).
  assert (HV : forall j, (j < length (Cell2D_vertices mesh c))%nat -> (nth j (Cell2D_vertices mesh c) 0%nat < num_cells info 0)%nat) by (intros j Hj; apply (vertex_range m info data HC HN c); auto; apply nth_In; auto).
  unfold edge_flux, through. unfold edge_of in *. cbn [fst snd] in *. set (e := nth i (Cell2D_edges mesh c) 0%nat) in *.
  assert (Z0 : hat data r (entity_dof 0 (nth 0 (Cell1D_vertices mesh e) 0%nat) 0) = 0).
  { apply (hat_strong m info data 0); auto. destruct (direction_of geometry (c, i)); destruct EE as [-> _]; auto. }
  assert (Z1 : hat data r (entity_dof 0 (nth 1 (Cell1D_vertices mesh e) 0%nat) 0) = 0).
  { apply (hat_strong m info data 0); auto. destruct (direction_of geometry (c, i)); destruct EE as [_ ->]; auto. }
  assert (ZE : forall q, hat data r (entity_dof 1 e q) = 0) by (intros q; apply (hat_strong m info data 1); auto; lia).
  rewrite Z0, Z1. rewrite !rsum_0 by (intros q Hq; rewrite ZE; ring). ring.
Qed.

(** the functions of an edge *)
Lemma reference_facts : ref_facts gt k ref.
Proof using VM.
  destruct (reference_ok gt lob k Hk (vm_rules _ _ _ _ _ _ _ _ _ VM)) as (ref' & E & RFs). rewrite (vm_reference _ _ _ _ _ _ _ _ _ VM) in E. injection E as <-. exact RFs.
Qed.
Lemma sizes_ref : m_cols P = (k - 1)%nat /\ v_size W = (k - 1)%nat /\ ((0 < k - 1)%nat -> (0 < m_rows P)%nat) /\ rv_Order ref = k.
Proof using VM. pose proof reference_facts as RFs. destruct (rf_seg _ _ _ RFs) as [SW SR]. pose proof (rf_segn _ _ _ RFs). unfold P, W. repeat split; try congruence; [intros; apply SR; lia|apply (rf_order _ _ _ RFs)]. Qed.
Lemma nodes_ok : distinct (k + 1) (edge_nodes ref).
Proof using VM. apply (nodes_distinct k ext P W Hk); [apply sizes_ref|apply (rf_exact _ _ _ reference_facts)]. Qed.
Lemma edge_functions y : exists B, VEM_ValuesOnEdge junk ref y = Ok B /\ m_rows B = v_size y /\ m_cols B = (k + 1)%nat /\ forall w q, (q < v_size y)%nat -> rsum (k + 1)%nat (fun i => w i * m_at B q i) = interp (k + 1) (edge_nodes ref) w (v_at y q).
Proof using VM.
  destruct sizes_ref as (CP & SW & RP & OR). unfold VEM_ValuesOnEdge. fold P. rewrite OR.
  assert (EN : (2 + (if (0 <? m_rows P)%nat then m_cols P else 0) =? k + 1)%nat = true).
  { apply Nat.eqb_eq. destruct (Nat.ltb_spec 0 (m_rows P)); [lia|]. destruct (Nat.lt_ge_cases 0 (k - 1)); [|lia]. specialize (RP ltac:(assumption)). lia. }
  rewrite EN. cbn [negb]. destruct (lagrange_ok junk {| v_size := k + 1; v_at := edge_nodes ref |} y nodes_ok) as (c & B & E1 & E2 & _ & RB & CB & HB). cbn [v_size v_at] in *.
  exists B. unfold edge_nodes in E1, E2 at 1. fold P in E1, E2. rewrite E1. cbn [bind]. split; [exact E2|]. split; [exact RB|]. split; [exact CB|].
  intros w q Hq. unfold interp. apply rsum_ext. intros i Hi. rewrite HB by auto. reflexivity.
Qed.

(** the function of unknown r on an edge *)
Definition edge_unknowns (w : GlobalCell_DOF -> R) (e i : nat) : R :=
  match i with 0%nat => w (entity_dof 0 (nth 0 (Cell1D_vertices mesh e) 0%nat) 0) | 1%nat => w (entity_dof 0 (nth 1 (Cell1D_vertices mesh e) 0%nat) 0) | S (S q) => w (entity_dof 1 e q) end.
Lemma edge_test_interp c i r B : (c < nc)%nat -> (i < length (Cell2D_edges mesh c))%nat ->
  edge_test info mesh data (edge_of mesh (c, i)) r B = rsum (k + 1) (fun j => edge_unknowns (hat data r) (edge_of mesh (c, i)) j * B j).
Proof using VM.
  intros Hc Hi. destruct (edge_ends c i Hc Hi) as (I1' & I2 & EE). cbv zeta in EE. unfold edge_of. cbn [fst snd]. set (e := nth i (Cell2D_edges mesh c) 0%nat) in *.
  pose proof (VD _ _ _ _ _ _ _ _ _ VM c Hc) as HVD. pose proof (ED _ _ _ _ _ _ _ _ _ VM c Hc) as HED. fold mesh in HVD, HED.
  assert (R0 : requested info 0 (nth 0 (Cell1D_vertices mesh e) 0%nat) = 1%nat) by (apply HVD; destruct (direction_of geometry (c, i)); destruct EE as [-> _]; apply nth_In; auto).
  assert (R1' : requested info 0 (nth 1 (Cell1D_vertices mesh e) 0%nat) = 1%nat) by (apply HVD; destruct (direction_of geometry (c, i)); destruct EE as [_ ->]; apply nth_In; auto).
  assert (RE : requested info 1 e = (k - 1)%nat) by (apply HED; apply nth_In; auto).
  unfold edge_test. rewrite RE. replace (k + 1)%nat with (2 + (k - 1))%nat by lia. rewrite rsum_add. f_equal.
  - cbn [rsum]. rewrite R0, R1'. cbn [rsum edge_unknowns]. unfold hat. destruct (free_is data (entity_dof 0 (nth 0 (Cell1D_vertices mesh e) 0%nat) 0) r), (free_is data (entity_dof 0 (nth 1 (Cell1D_vertices mesh e) 0%nat) 0) r); ring.
  - apply rsum_ext. intros q Hq. cbn [Nat.add edge_unknowns]. unfold hat. destruct (free_is data (entity_dof 1 e q) r); ring.
Qed.
Definition on_line (e : nat) (g : R -> R -> R) (t : R) : R := g (vx e 0 0 + t * (vx e 1 0 - vx e 0 0)) (vx e 0 1 + t * (vx e 1 1 - vx e 0 1)).

(** both rules integrate the flux against the function of an unknown *)
Lemma through_rule w e g gx gy gauss : poly2 (k - 1) g gx gy -> exact_interval (2 * k - 1) gauss ->
  through w e g = apply_rule (q_Weights gauss) (fun q => on_line e g (m_at (q_Points gauss) 0 q) * interp (k + 1) (edge_nodes ref) (edge_unknowns w e) (m_at (q_Points gauss) 0 q)).
Proof using VM.
  intros Pg EX. destruct sizes_ref as (CP & SW & RP & OR). pose proof nodes_ok as ND. set (L := interp (k + 1) (edge_nodes ref) (edge_unknowns w e)).
  assert (PL : is_poly (S (2 * k - 1)) (fun t => on_line e g t * L t)).
  { apply (is_poly_le (k + k)); [lia|]. apply is_poly_mult.
    - unfold on_line. replace k with (S (k - 1)) at 1 by lia. apply (poly_along _ _ _ _ _ _ _ _ Pg).
    - replace (S k) with (k + 1)%nat by lia. apply interp_poly. }
  destruct (is_poly_polynomial _ _ PL) as (a & Ha).
  transitivity (integral (S (2 * k - 1)) a).
  - rewrite <- (segment_integral _ _ _ _ a (rf_exact _ _ _ reference_facts)). fold ext P W. rewrite <- !Ha.
    assert (L0 : L 0 = edge_unknowns w e 0) by (apply (interp_node (k + 1) (edge_nodes ref) _ 0); auto; lia).
    assert (L1 : L 1 = edge_unknowns w e 1) by (apply (interp_node (k + 1) (edge_nodes ref) _ 1); auto; lia).
    rewrite L0, L1. replace (snd ext) with (fst ext) by (apply (rf_sym _ _ _ reference_facts)). unfold through, on_line. cbn [edge_unknowns]. f_equal; [f_equal|].
    + do 3 f_equal; ring.
    + do 3 f_equal; ring.
    + unfold apply_rule. rewrite SW. apply rsum_ext. intros q Hq. rewrite <- Ha.
      assert (Lq : L (m_at P 0 q) = edge_unknowns w e (S (S q))) by (apply (interp_node (k + 1) (edge_nodes ref) _ (S (S q))); auto; lia).
      rewrite Lq. reflexivity.
  - rewrite <- (interval_integral _ _ a EX). unfold apply_rule. apply rsum_ext. intros q Hq. rewrite <- Ha. reflexivity.
Qed.

Lemma weak_flux c i r g0 g0x g0y g1 g1x g1y h gauss B : In (c, i) (incidences mesh) -> weak_edge info (edge_of mesh (c, i)) = true ->
  poly2 (k - 1) g0 g0x g0y -> poly2 (k - 1) g1 g1x g1y -> neumann_data info mesh geometry g0 g1 h -> exact_interval (2 * k - 1) gauss ->
  (forall w q, (q < v_size (q_Weights gauss))%nat -> rsum (k + 1)%nat (fun i => w i * m_at B q i) = interp (k + 1) (edge_nodes ref) w (m_at (q_Points gauss) 0 q)) ->
  sign (direction_of geometry (c, i)) * edge_flux (hat data r) g0 g1 (edge_of mesh (c, i)) =
  rsum (v_size (q_Weights gauss)) (fun q => v_at (q_Weights gauss) q * Rabs (v_at (pg_EdgesLength (geometry c)) i) *
    at_point (h (marker_of info 1 (edge_of mesh (c, i)))) (DriverSpec2.edge_point (geometry c) i (m_at (q_Points gauss) 0%nat q)) * edge_test info mesh data (edge_of mesh (c, i)) r (m_at B q)).
Proof using VM junk.
  intros Hci HW P0 P1 ND EX HB. pose proof Hci as Hci'. apply in_incidences in Hci. destruct Hci as [Hc Hi]. pose proof (CS c Hc) as VS.
  pose proof (ne_mesh _ _ _ _ _ _ _ _ _ VM c Hc) as NE. pose proof (nv_mesh _ _ _ _ _ _ _ _ _ VM c Hc) as NV. fold mesh in NE, NV.
  unfold edge_flux. rewrite (through_rule _ _ g0 g0x g0y gauss P0 EX), (through_rule _ _ g1 g1x g1y gauss P1 EX).
  rewrite (rsum_ext (v_size (q_Weights gauss)) _ (fun q =>
    m_at (pg_EdgesNormal (geometry c)) 0 i * Rabs (v_at (pg_EdgesLength (geometry c)) i) * (v_at (q_Weights gauss) q * (on_line (edge_of mesh (c, i)) g0 (m_at (q_Points gauss) 0 q) * interp (k + 1) (edge_nodes ref) (edge_unknowns (hat data r) (edge_of mesh (c, i))) (m_at (q_Points gauss) 0 q)))
    + m_at (pg_EdgesNormal (geometry c)) 1 i * Rabs (v_at (pg_EdgesLength (geometry c)) i) * (v_at (q_Weights gauss) q * (on_line (edge_of mesh (c, i)) g1 (m_at (q_Points gauss) 0 q) * interp (k + 1) (edge_nodes ref) (edge_unknowns (hat data r) (edge_of mesh (c, i))) (m_at (q_Points gauss) 0 q))))).
  2: { intros q Hq. rewrite (ND c i (m_at (q_Points gauss) 0 q) Hci' HW). cbv zeta. rewrite edge_test_interp by auto. rewrite HB by auto.
       rewrite !(edge_point_mesh m c (geometry c) i) by (try lia; apply (vm_geometry _ _ _ _ _ _ _ _ _ VM c Hc)). unfold on_line, vx, edge_of. cbn [fst snd]. fold mesh. ring. }
  rewrite rsum_plus, !rsum_scal. fold (apply_rule (q_Weights gauss) (fun q => on_line (edge_of mesh (c, i)) g0 (m_at (q_Points gauss) 0 q) * interp (k + 1) (edge_nodes ref) (edge_unknowns (hat data r) (edge_of mesh (c, i))) (m_at (q_Points gauss) 0 q))).
  fold (apply_rule (q_Weights gauss) (fun q => on_line (edge_of mesh (c, i)) g1 (m_at (q_Points gauss) 0 q) * interp (k + 1) (edge_nodes ref) (edge_unknowns (hat data r) (edge_of mesh (c, i))) (m_at (q_Points gauss) 0 q))).
  generalize (apply_rule (q_Weights gauss) (fun q => on_line (edge_of mesh (c, i)) g0 (m_at (q_Points gauss) 0 q) * interp (k + 1) (edge_nodes ref) (edge_unknowns (hat data r) (edge_of mesh (c, i))) (m_at (q_Points gauss) 0 q))).
  generalize (apply_rule (q_Weights gauss) (fun q => on_line (edge_of mesh (c, i)) g1 (m_at (q_Points gauss) 0 q) * interp (k + 1) (edge_nodes ref) (edge_unknowns (hat data r) (edge_of mesh (c, i))) (m_at (q_Points gauss) 0 q))).
  intros A1 A0. destruct (edge_ends c i Hc Hi) as (I1' & I2 & EE). cbv zeta in EE.
  assert (VC : forall j d, (j < length (Cell2D_vertices mesh c))%nat -> (d < 3)%nat -> m_at (pg_Vertices (geometry c)) d j = md_coords m (nth j (Cell2D_vertices mesh c) 0%nat) d) by (intros; apply (vertex_coords _ _ _ _ _ _ _ _ _ VM c); auto).
  destruct (normal_length _ _ _ _ _ _ _ _ _ VS i ltac:(lia)) as [N0 N1]. rewrite NV in N0, N1. rewrite N0, N1. rewrite !VC by (auto; lia).
  unfold vx, edge_of, sign. cbn [fst snd]. destruct (direction_of geometry (c, i)); destruct EE as [-> ->]; ring.
Qed.

(** the patch test *)
Lemma patch K adv rea F h gauss f fx fy g0 g0x g0y g1 g1x g1y : (forall c, (c < nc)%nat -> md_active2 m c = true) ->
  poly2 k f fx fy -> poly2 (k - 1) g0 g0x g0y -> poly2 (k - 1) g1 g1x g1y ->
  solves_equation K adv rea F f fx fy g0 g0x g0y g1 g1x g1y -> (rea = None \/ poly2 (k - 1) f fx fy) ->
  closed_boundary info mesh geometry -> neumann_data info mesh geometry g0 g1 h -> exact_interval (2 * k - 1) gauss ->
  exists s b w uD uS, assemble_elliptic_operator m data data create create (Some K) adv rea = Ok s /\
    assemble_source_term m data create create F = Ok b /\ assemble_weak_term m info data geometry gauss create h = Ok w /\
    evaluate_function_on_dofs m data k create (planar f) = Ok (uD, uS) /\ length uD = NumberDOFs data /\ length uS = NumberStrongs data /\
    forall r, operator_row s uD uS r = nth r b 0 + nth r w 0.
Proof using VM HC.
  intros ACT Pf Pg0 Pg1 SE HR CL ND EX.
  assert (CF : forall c, (c < nc)%nat -> md_active2 m c = true -> cell_forms create create c (length (closure_dofs info mesh 2 c)) (length (closure_dofs info mesh 2 c)) (forms c)).
  { intros c Hc _. unfold mesh. rewrite (size_closure gt lob junk lu llt k ref m info geometry VM c Hc). apply forms_ok; auto. }
  destruct (operator_ok m info info data data create create forms HC HN HC HN CF (Some K) adv rea (fun c => kmax (forms c) K)) as (s & Es & _ & _ & HS).
  { intros c K' Hc Ha E. injection E as <-. apply kmax_ok. apply (ce_points _ _ _ _ _ _ (CF c Hc Ha)). }
  destruct (source_ok m info info data data create create forms HC HN HC HN CF F) as (b & Eb & Lb & Hb).
  destruct (edge_functions {| v_size := m_cols (q_Points gauss); v_at := fun q => m_at (q_Points gauss) 0%nat q |}) as (B & EB & RB & CB & HB). cbn [v_size v_at] in *.
  pose proof (proj1 EX) as SQ.
  destruct (weak_term_ok m info info data HC HN) with (geometry := geometry) (gauss := gauss) (create := create) (g := h) (sp := fun c => VEM_space junk ref (geometry c) (loc c)) (B := fun _ : nat => B) as (w & Ew & Lw & Hw).
  { intros e He. destruct (info_entry m info data HC 1 e) as (b0 & row & E0 & _); [lia|exact He|]. eauto. }
  { intros c Hc Ha. pose proof (vm_polygon _ _ _ _ _ _ _ _ _ VM c Hc) as GP. destruct (gp_edges _ GP) as [EV EL EDi [ET ET'] _]. pose proof (ne_mesh _ _ _ _ _ _ _ _ _ VM c Hc) as NE. pose proof (nv_mesh _ _ _ _ _ _ _ _ _ VM c Hc) as NV.
    split; auto.
    - apply (create_ok gt lob junk lu llt k ref m info geometry VM c Hc).
    - congruence.
    - split; [congruence|]. intros e He. rewrite (ED _ _ _ _ _ _ _ _ _ VM c Hc e He), CB. lia. }
  { exact SQ. }
  destruct (interpolant gt lob junk lu llt k ref m info geometry VM data HC f) as (uD & uS & Eu & LD & LS & HU).
  exists s, b, w, uD, uS. split; [exact Es|]. split; [exact Eb|]. split; [exact Ew|]. split; [exact Eu|]. split; [exact LD|]. split; [exact LS|].
  intros r. destruct (HS uD uS LD LS) as (ul & Hul & HR'). rewrite HR', Hb, Hw. rewrite !active_all by exact ACT. fold mesh nc.
  set (T := fun c p => elliptic_form (forms c) (Some K) adv rea (kmax (forms c) K) (v_at (ul c)) p - source_form (forms c) F p).
  pose proof (balance m info data geometry (edge_flux (hat data r) g0 g1) T (fun c i => rsum (v_size (q_Weights gauss)) (fun q => v_at (q_Weights gauss) q * Rabs (v_at (pg_EdgesLength (geometry c)) i) *
    at_point (h (marker_of info 1 (edge_of mesh (c, i)))) (DriverSpec2.edge_point (geometry c) i (m_at (q_Points gauss) 0%nat q)) * edge_test info mesh data (edge_of mesh (c, i)) r (m_at B q))) r) as BAL.
  fold mesh nc in BAL. rewrite (rsum_ext nc (fun c => weak_form _ _ _ _ _ _ _ _ _ _) (fun c => rsum (length (Cell2D_edges mesh c)) (fun i => if weak_edge info (edge_of mesh (c, i)) then rsum (v_size (q_Weights gauss)) (fun q => v_at (q_Weights gauss) q * Rabs (v_at (pg_EdgesLength (geometry c)) i) *
    at_point (h (marker_of info 1 (edge_of mesh (c, i)))) (DriverSpec2.edge_point (geometry c) i (m_at (q_Points gauss) 0%nat q)) * edge_test info mesh data (edge_of mesh (c, i)) r (m_at B q)) else 0))).
  2: { intros c Hc. unfold weak_form. rewrite (nv_mesh _ _ _ _ _ _ _ _ _ VM c Hc), <- (ne_mesh _ _ _ _ _ _ _ _ _ VM c Hc). reflexivity. }
  rewrite <- BAL; auto.
  - rewrite <- rsum_plus. apply rsum_ext. intros c Hc. rewrite !free_places_sum, <- rsum_plus. apply rsum_ext. intros p Hp. unfold T. ring.
  - intros c Hc. fold nc in Hc. rewrite <- flux_balance by auto. unfold mesh at 1. rewrite (size_closure gt lob junk lu llt k ref m info geometry VM c Hc).
    rewrite <- (cell_balance c K adv rea F f fx fy g0 g0x g0y g1 g1x g1y (kmax (forms c) K)) by auto. apply rsum_ext. intros p Hp. unfold T. f_equal. f_equal.
    destruct (forms_ok c Hc) as (CFc & _). apply (form_agree _ _ _ _ _ _ _ _ _ _ _ _ _ CFc eq_refl). intros j Hj.
    destruct (HU c Hc) as (u & Eu' & Su & Hu'). rewrite (Hul c Hc) in Eu'. injection Eu' as ->. rewrite <- (size_closure gt lob junk lu llt k ref m info geometry VM c Hc) in Hj.
    destruct (nth_error (closure_dofs info (md_mesh m) 2 c) j) as [h'|] eqn:Eh; [|apply nth_error_None in Eh; lia]. rewrite (Hu' j h' Eh). symmetry. apply (dofs_places gt lob junk lu llt k ref m info geometry VM f c j h' Hc Eh).
  - intros c i Hci HWk. apply (weak_flux c i r g0 g0x g0y g1 g1x g1y h gauss B); auto. intros w' q Hq. apply HB. congruence.
  - intros ci Hci HSt. apply strong_flux; auto.
Qed.
End Patch.
