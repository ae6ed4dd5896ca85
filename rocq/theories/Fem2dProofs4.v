(** Proofs: the assembled operator of the finite element is positive definite, the solution of the assembled system is the interpolant. *)
From Coq Require Import List Arith Bool ZArith Reals Lia Lra.
From Verif Require Import Base RSum MatrixModel MonomialsModel MonomialsSpec LagrangeModel LagrangeSpec LagrangeProofs LagrangeProofs2 TriangleModel TriangleSpec TriangleProofs4 DofsModel DofsSpec DofsProofs DofsProofs2 AssemblerModel AssemblerSpec EquationModel EquationSpec VemQuadModel VemQuadSpec VemQuadProofs VemQuadProofs2 GreenSpec GreenProofs PolyProofs RtProofs VemModel VemSpec
  ZfemModel DriverModel DriverSpec DriverSpec2 Pcc2dModel Pcc2dSpec DriverProofs DriverProofs2 DriverProofs3 DriverProofs4 DriverProofs5 DriverProofs6 DriverProofs7 Pcc2dProofs Pcc2dProofs3 Pcc2dProofs4 Pcc2dProofs6 Pcc2dProofs7 Pcc2dProofs8 Fem2dSpec Fem2dProofs Fem2dProofs2 Fem2dProofs3.
Import ListNotations.
Local Open Scope R_scope.

(** a polynomial that vanishes at the points of a triangle *)
Lemma triangle_vanish k gauss (T : Mat) g gx gy : exact_triangle (2 * k) gauss -> signed_area T <> 0 -> poly2 k g gx gy ->
  (forall q, (q < v_size (q_Weights gauss))%nat -> g (in_triangle T (m_at (q_Points gauss) 0 q) (m_at (q_Points gauss) 1 q) 0) (in_triangle T (m_at (q_Points gauss) 0 q) (m_at (q_Points gauss) 1 q) 1) = 0) ->
  forall x y, g x y = 0.
Proof.
  intros EX DN Pg Z.
  set (X := fun x y => m_at T 0 0 + (m_at T 0 1 - m_at T 0 0) * x + (m_at T 0 2 - m_at T 0 0) * y). set (Y := fun x y => m_at T 1 0 + (m_at T 1 1 - m_at T 1 0) * x + (m_at T 1 2 - m_at T 1 0) * y).
  assert (PC := poly2_comp k g gx gy (m_at T 0 0) (m_at T 0 1 - m_at T 0 0) (m_at T 0 2 - m_at T 0 0) (m_at T 1 0) (m_at T 1 1 - m_at T 1 0) (m_at T 1 2 - m_at T 1 0) Pg). cbv zeta in PC.
  destruct (L_square (2 * k) k gauss _ _ _ EX (le_n _) PC) as (_ & S2).
  assert (ZF : forall x y, g (X x y) (Y x y) = 0).
  { apply S2. unfold L, apply_rule. apply rsum_0. intros q Hq. specialize (Z q Hq).
    rewrite (Rmult_comm (v_at _ _)). replace (g _ _) with 0 at 1; [ring|]. rewrite <- Z at 1. unfold in_triangle. f_equal; ring. }
  unfold signed_area, cross in DN. intros x y. set (D := (m_at T 0 1 - m_at T 0 0) * (m_at T 1 2 - m_at T 1 0) - (m_at T 0 2 - m_at T 0 0) * (m_at T 1 1 - m_at T 1 0)).
  assert (HD : D <> 0) by (unfold D; intros E; apply DN; lra).
  specialize (ZF (((x - m_at T 0 0) * (m_at T 1 2 - m_at T 1 0) - (y - m_at T 1 0) * (m_at T 0 2 - m_at T 0 0)) / D) (((y - m_at T 1 0) * (m_at T 0 1 - m_at T 0 0) - (x - m_at T 0 0) * (m_at T 1 1 - m_at T 1 0)) / D)).
  replace (X _ _) with x in ZF by (unfold X; field_simplify_eq; [unfold D; ring|exact HD]). replace (Y _ _) with y in ZF by (unfold Y; field_simplify_eq; [unfold D; ring|exact HD]). exact ZF.
Qed.

Lemma elliptic_form_any (K : R -> R -> R -> nat -> R) E q x : rsum 2 (fun i => rsum 2 (fun j => at_q K E q (i + 3 * j)%nat * x j) * x i) =
  at_q K E q 0%nat * x 0%nat * x 0%nat + (at_q K E q 1%nat + at_q K E q 3%nat) * x 0%nat * x 1%nat + at_q K E q 4%nat * x 1%nat * x 1%nat.
Proof. cbn [rsum Nat.add Nat.mul]. ring. Qed.
Lemma elliptic_any K E : elliptic K -> nonnegative_diffusion E K /\ positive_diffusion E K.
Proof.
  intros EK. split.
  - intros q x _. rewrite elliptic_form_any. destruct (Req_dec (x 0%nat) 0) as [X0|X0]; [destruct (Req_dec (x 1%nat) 0) as [X1|X1]|]; [rewrite X0, X1; lra| |]; left; apply EK; auto.
  - intros q x _ H d Hd. rewrite elliptic_form_any in H. unfold at_q in H.
    assert (X0 : x 0%nat = 0).
    { destruct (Req_dec (x 0%nat) 0) as [X0|X0]; [exact X0|]. exfalso. apply (Rlt_irrefl 0). eapply Rlt_le_trans; [|exact H]. apply EK. auto. }
    assert (X1 : x 1%nat = 0).
    { destruct (Req_dec (x 1%nat) 0) as [X1|X1]; [exact X1|]. exfalso. apply (Rlt_irrefl 0). eapply Rlt_le_trans; [|exact H]. apply EK. auto. }
    destruct d as [|[|]]; [exact X0|exact X1|lia].
Qed.

Section Wellposed.
Variables (gauss : QuadratureData) (junk : nat -> nat -> R) (lob : nat -> Vec) (k : nat) (edge : FEM_1D_Data) (ref : Tri_Data) (m : Mesh2D) (info : MeshDOFsInfo) (geometry : nat -> Polygon).
Hypothesis VM : fem_mesh gauss junk lob k edge ref m info geometry.
Let mesh := md_mesh m.
Let nc := Cell2Ds_number mesh.
Let Hk := fm_order _ _ _ _ _ _ _ _ _ VM.
Notation create := (fem_create junk gauss edge ref geometry).
Notation floc := (floc ref geometry).
Notation fpoints := (fpoints gauss geometry).
Notation fdofs := (fdofs ref geometry).
Notation NB := (ft_NumBasisFunctions ref).
Notation fforms := (fforms gauss junk edge ref geometry).
Ltac cell L c Hc := pose proof (L gauss k ref (geometry c) (floc c) Hk (fm_reference _ _ _ _ _ _ _ _ _ VM) (fm_range _ _ _ _ _ _ _ _ _ VM) (tri_ok _ _ _ _ _ _ _ _ _ VM c Hc) (local_created _ _ _ _ _ _ _ _ _ VM c Hc) (fm_rule _ _ _ _ _ _ _ _ _ VM) (fm_exact _ _ _ _ _ _ _ _ _ VM)).

Lemma fflat c u : (c < nc)%nat -> (forall d q, (d < 2)%nat -> (q < v_size (cf_weights (fforms c)))%nat -> combine (cf_dU (fforms c) d) u q = 0) ->
  exists C, forall i, (i < NB)%nat -> u i = C.
Proof using VM.
  intros Hc HD. destruct (funisolvent _ _ _ _ _ _ _ _ _ VM c u Hc) as (p & px & py & Pp & Hp). destruct (fforms_ok _ _ _ _ _ _ _ _ _ VM c Hc) as (CF & _ & HT & _). destruct (fforms_weights _ _ _ _ _ _ _ _ _ VM c Hc) as [SW _].
  pose proof (gt_area _ (tri_ok _ _ _ _ _ _ _ _ _ VM c Hc)) as AR. cell inside_point c Hc. rename H into IP.
  assert (Z : forall g gx gy, poly2 (k - 1) g gx gy -> (forall q, (q < v_size (q_Weights gauss))%nat -> g (m_at (fpoints c) 0 q) (m_at (fpoints c) 1 q) = 0) -> forall x y, g x y = 0).
  { intros g gx gy Pg ZQ. apply (triangle_vanish k gauss (pg_Vertices (geometry c)) g gx gy (fm_exact _ _ _ _ _ _ _ _ _ VM)); [lra|apply (poly2_le (k - 1)); [lia|exact Pg]|].
    intros q Hq. rewrite <- !IP by lia. apply ZQ. exact Hq. }
  destruct (poly2_dx _ _ _ _ Pp) as (a & b & Px). destruct (poly2_dy _ _ _ _ Pp) as (a' & b' & Py).
  assert (ZX : forall x y, px x y = 0). { apply (Z _ _ _ Px). intros q Hq. destruct (HT p px py u Pp Hp q Hq) as (_ & <- & _). apply HD; [lia|]. rewrite SW. exact Hq. }
  assert (ZY : forall x y, py x y = 0). { apply (Z _ _ _ Py). intros q Hq. destruct (HT p px py u Pp Hp q Hq) as (_ & _ & <-). apply HD; [lia|]. rewrite SW. exact Hq. }
  exists (p 0 0). intros i Hi. rewrite (Hp i Hi). apply (flat_poly k p px py Pp ZX ZY).
Qed.

Variable data : DOFsData.
Hypothesis HC : CreateDOFs 2 info (md_mesh m) = Ok data.
Let HN := fm_cells _ _ _ _ _ _ _ _ _ VM.

Lemma fforms_same c b : (c < nc)%nat -> same_functions (fforms c) b.
Proof using VM.
  intros Hc. destruct (fforms_ok _ _ _ _ _ _ _ _ _ VM c Hc) as (CF & [EV ED] & _ & HS). split; [reflexivity|]. split; [|split].
  - intros d q p Hd _ Hp. now rewrite ED.
  - intros _ q p _ Hp. now rewrite EV.
  - intros p p' _ _. reflexivity.
Qed.
Lemma fpositive c q : positive_weights gauss -> (c < nc)%nat -> (q < v_size (cf_weights (fforms c)))%nat -> 0 < v_at (cf_weights (fforms c)) q.
Proof using VM.
  intros PW Hc Hq. destruct (fforms_weights _ _ _ _ _ _ _ _ _ VM c Hc) as [SW WW]. rewrite WW. rewrite SW in Hq. pose proof (gt_area _ (tri_ok _ _ _ _ _ _ _ _ _ VM c Hc)) as AR. specialize (PW q Hq).
  unfold area. rewrite Rabs_right by lra. apply Rmult_lt_0_compat; lra.
Qed.

(** the assembled operator is positive definite *)
Lemma fdefinite K rea : (forall c, (c < nc)%nat -> md_active2 m c = true) -> elliptic K -> absorbing rea -> positive_weights gauss ->
  (forall c, (c < nc)%nat -> anchored info mesh c) -> covered info mesh ->
  exists s, assemble_elliptic_operator m data data create create (Some K) None rea = Ok s /\
    forall uD, length uD = NumberDOFs data -> 0 <= energy (NumberDOFs data) s uD /\ (energy (NumberDOFs data) s uD = 0 -> forall r, nth r uD 0 = 0).
Proof using VM HC.
  intros ACT EK AB PR AN CO.
  assert (CF : forall c, (c < nc)%nat -> md_active2 m c = true -> cell_forms create create c (length (closure_dofs info mesh 2 c)) (length (closure_dofs info mesh 2 c)) (fforms c)).
  { intros c Hc _. unfold mesh. rewrite (fsize_closure _ _ _ _ _ _ _ _ _ VM c Hc). apply (fforms_ok _ _ _ _ _ _ _ _ _ VM c Hc). }
  assert (GD : forall c, (c < nc)%nat -> greatest_diffusion (fforms c) K (kmax (fforms c) K)) by (intros c Hc; apply kmax_ok; apply (ce_points _ _ _ _ _ _ (CF c Hc (ACT c Hc)))).
  destruct (operator_energy m info data create create fforms HC HN CF (Some K) rea (fun c => kmax (fforms c) K)) as (s & Es & H).
  - intros c K' Hc _ E. injection E as <-. apply GD; auto.
  - intros c Hc _. apply fforms_same; auto.
  - intros c q Hc _ Hq. apply fpositive; auto.
  - intros c K' _ _ E. injection E as <-. apply (elliptic_any K (fforms c) EK).
  - intros c f q _ _ E _. unfold at_q. apply AB. exact E.
  - intros c K' Hc _ _ u. apply Req_le. symmetry. apply rsum_0. intros i Hi. destruct (fforms_ok _ _ _ _ _ _ _ _ _ VM c Hc) as (_ & _ & _ & HS). rewrite HS. ring.
  - exists s. split; [exact Es|]. intros uD LD. destruct (H uD LD) as [H0 H1]. split; [exact H0|]. intros EZ. destruct (H1 EZ) as (ul & A & B).
    apply (all_zero m info data HC HN (k - 1) (fm_vertex_dofs _ _ _ _ _ _ _ _ _ VM) (fm_edge_dofs _ _ _ _ _ _ _ _ _ VM) uD ul LD A); auto.
    intros c Hc. destruct (B c Hc (ACT c Hc)) as (B1 & _ & B3).
    destruct (fflat c (v_at (ul c)) Hc (B1 K eq_refl (proj2 (elliptic_any K (fforms c) EK)))) as (C & F1).
    exists C. fold mesh. split.
    + intros i Hi. apply F1. unfold mesh in Hi. rewrite (FNV _ _ _ _ _ _ _ _ _ VM c Hc) in Hi. destruct (fsizes _ _ _ _ _ _ _ _ _ VM c Hc) as (_ & _ & C2 & _). lia.
    + intros EC j Hj. rewrite <- EC. apply F1. unfold mesh in Hj. rewrite (fsize_closure _ _ _ _ _ _ _ _ _ VM c Hc) in Hj. exact Hj.
Qed.

(** the boundary values assembled by the driver are the strong unknowns of the function *)
Lemma fstrong_values f g uD uS : dirichlet_data info mesh f g -> (forall c, (c < nc)%nat -> md_active2 m c = true) -> covered info mesh ->
  evaluate_function_on_dofs m data k create (planar f) = Ok (uD, uS) -> assemble_strong_solution m info data k create g = Ok uS.
Proof using VM HC.
  intros [DD NS] ACT CO EV. destruct (finterpolant _ _ _ _ _ _ _ _ _ VM data HC f) as (uD' & uS' & EV' & LD & LS & HU). rewrite EV in EV'. injection EV' as <- <-.
  pose proof (fedges_agree _ _ _ _ _ _ _ _ _ VM) as EA.
  destruct (strong_result m info data HC HN k create g (fpt k m)) as (uS' & E & LS' & HS).
  { intros c v Hc _ Hv _. rewrite (fm_vertex_dofs _ _ _ _ _ _ _ _ _ VM c v Hc Hv). lia. }
  { intros _ c Hc _. destruct (EA c Hc eq_refl) as (sp & Es & H). exists sp. split; [exact Es|]. intros ed e He _. apply (H ed e He Logic.I). }
  rewrite E. f_equal. apply nth_ext with (d := 0) (d' := 0); [congruence|]. intros t Ht. rewrite LS' in Ht.
  destruct (strong_unknown info mesh data t HC Ht) as (h & x & Vh & Lx & Tx & Ix). destruct (covered_cell info mesh h HN CO Vh) as (c & Hc & G).
  destruct (closure_valid m info data c h HC HN Hc G) as (_ & PL). destruct Vh as (V1 & V2 & V3).
  destruct (valid_lookup 2 info mesh data ltac:(lia) HC h (conj V1 (conj V2 V3))) as (x' & t' & Lx' & Bt & Cs). rewrite Lx in Lx'. injection Lx' as <-.
  destruct Cs as [(-> & _ & _)|(_ & T & _)]; [|congruence].
  destruct (HS (g_dim h) (g_cell h) (g_dof h) V1 V2 V3 Bt) as (x' & Lx' & _ & RV & _). rewrite entity_eta, Lx in Lx'. injection Lx' as <-. rewrite Ix in RV.
  apply In_nth_error in G. destruct G as (p & Hp). destruct (HU c Hc) as (u & Eu & Su & Hu). specialize (Hu p h Hp).
  destruct (local_solution_ok m info data HC HN c uD uS Hc LD LS) as (u' & Eu' & _ & Hv). rewrite Eu in Eu'. injection Eu' as <-. specialize (Hv p h Hp).
  unfold value_of in Hv. rewrite Lx, Tx, Ix in Hv. rewrite (nth_error_nth _ _ 0 Hv), Hu.
  assert (D : g_dim h <> 2%nat). { intros D. destruct PL as [(D' & _)|[(D' & _)|(_ & D')]]; [lia|lia|]. apply (NS c Hc). unfold strong_entity. rewrite <- D', <- D. exact Bt. }
  assert (RS : receives_strong m info k (g_dim h) (g_cell h)).
  { split; [exact Bt|]. exists c. split; [exact Hc|]. split; [apply ACT; exact Hc|]. destruct PL as [PL|[(D' & PL)|(D' & _)]]; [left; exact PL|right|congruence]. split; [exact D'|]. split; [|exact PL].
    rewrite D' in V3. rewrite (fm_edge_dofs _ _ _ _ _ _ _ _ _ VM c _ Hc PL) in V3. lia. }
  rewrite (nth_error_nth _ _ 0 (RV RS)). unfold strong_value, dof_value, DriverSpec.at_point, planar.
  destruct (g_dim h) as [|[|]] eqn:ED'; [| |lia]; (rewrite DD; [reflexivity|lia|exact Bt]).
Qed.

(** the discrete solution is exact *)
Lemma fexact_solution K rea F h g E f fx fy g0 g0x g0y g1 g1x g1y : (forall c, (c < nc)%nat -> md_active2 m c = true) ->
  elliptic K -> absorbing rea -> positive_weights gauss -> (forall c, (c < nc)%nat -> anchored info mesh c) -> covered info mesh ->
  poly2 k f fx fy -> poly2 (k - 1) g0 g0x g0y -> poly2 (k - 1) g1 g1x g1y ->
  solves_equation K None rea F f fx fy g0 g0x g0y g1 g1x g1y ->
  closed_boundary info mesh geometry -> neumann_data info mesh geometry g0 g1 h -> dirichlet_data info mesh f g -> exact_interval (2 * k - 1) E ->
  exists s b w uD uS, assemble_elliptic_operator m data data create create (Some K) None rea = Ok s /\
    assemble_source_term m data create create F = Ok b /\ assemble_weak_term m info data geometry E create h = Ok w /\
    assemble_strong_solution m info data k create g = Ok uS /\
    solves_system s b w uD uS (NumberDOFs data) /\ (forall vD, solves_system s b w vD uS (NumberDOFs data) -> vD = uD) /\
    exists rL rH, compute_error_L2 m data create uD uS (Some (planar f)) = Ok rL /\ pe_error rL = 0 /\
      compute_error_H1 m data create uD uS (Some (planar_gradient fx fy)) = Ok rH /\ pe_error rH = 0.
Proof using VM HC.
  intros ACT EK AB PR AN CO Pf Pg0 Pg1 SE CL ND DD EX.
  destruct (fpatch _ _ _ _ _ _ _ _ _ VM data HC K None rea F h E f fx fy g0 g0x g0y g1 g1x g1y ACT Pf Pg0 Pg1 SE CL ND EX) as (s & b & w & uD & uS & Es & Eb & Ew & EV & LD & LS & ROW).
  destruct (fdefinite K rea ACT EK AB PR AN CO) as (s' & Es' & DEF). rewrite Es in Es'. injection Es' as <-.
  exists s, b, w, uD, uS. repeat (split; [assumption|]). split; [apply (fstrong_values f g uD uS); assumption|]. 
  assert (SO : solves_system s b w uD uS (NumberDOFs data)) by (split; [exact LD|intros r _; apply ROW]). split; [exact SO|]. split.
  - intros vD HV. destruct (definite_solvable _ s (fun uD L => proj2 (DEF uD L)) b w uS) as (u0 & _ & UN). rewrite (UN vD HV), (UN uD SO). reflexivity.
  - destruct (finterpolant _ _ _ _ _ _ _ _ _ VM data HC f) as (uD' & uS' & EV' & _ & _ & HU). rewrite EV in EV'. injection EV' as <- <-.
    apply (fzero_errors _ _ _ _ _ _ _ _ _ VM data HC f fx fy uD uS Pf HU).
Qed.
End Wellposed.
