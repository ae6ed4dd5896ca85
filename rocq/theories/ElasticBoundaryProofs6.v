(** The patch test of elasticity (C150). *)
From Coq Require Import List Arith Bool Reals Lia Lra.
From Verif Require Import Base RSum MatrixModel DofsModel DofsSpec DofsProofs DofsProofs2 AssemblerModel AssemblerSpec AssemblerProofs AssemblerProofs2
  EquationModel EquationSpec EquationProofs VemQuadModel VemQuadSpec GreenSpec VemModel VemSpec VemProofs5 Mcc2dProofs3 LagrangeSpec LagrangeProofs DriverModel DriverSpec DriverSpec2 DriverProofs DriverProofs2 DriverProofs3 DriverProofs4 DriverProofs5 DriverProofs6
  DriverProofs7 Pcc2dModel Pcc2dSpec Pcc2dProofs Pcc2dProofs2 Pcc2dProofs3 Pcc2dProofs4 Pcc2dProofs5 Pcc2dProofs6 Pcc2dProofs7 Mcc2dSpec ElasticModel ElasticSpec ElasticProofs ElasticProofs2 ElasticProofs3 ElasticGlobalModel ElasticGlobalSpec ElasticGlobalProofs ElasticGlobalProofs2
  ElasticBoundaryModel ElasticBoundarySpec ElasticBoundaryProofs ElasticBoundaryProofs2 ElasticBoundaryProofs3 ElasticBoundaryProofs4 ElasticBoundaryProofs5.
Import ListNotations.
Local Open Scope R_scope.

Section Patch.
Variables (gt lob : nat -> QuadratureData) (junk : nat -> nat -> R) (lu llt : Solver) (k : nat) (ref : VEM_2D_Reference) (m : Mesh2D) (info : MeshDOFsInfo) (geometry : nat -> Polygon) (data : DOFsData).
Hypothesis VM : vem_mesh gt lob lu llt k ref m info geometry.
Hypothesis HC : CreateDOFs 2 info (md_mesh m) = Ok data.
Local Notation mesh := (md_mesh m).
Local Notation nc := (Cell2Ds_number (md_mesh m)).
Local Notation loc := (Pcc2dProofs3.loc junk lu llt ref geometry).
Local Notation create := (Create_VEM junk lu llt ref geometry).
Local Notation CS c Hc := (cell_space gt lob junk lu llt k ref m info geometry VM c Hc).
Local Notation E := (vem_cells junk lu llt ref geometry).
Local Notation sp c := (VEM_space junk ref (geometry c) (loc c)).
Local Notation sz c := (cell_size info m c).
Local Notation N := (NumberDOFs data).
Local Notation NS := (NumberStrongs data).
Local Notation zz := (repeat 0 NS).

(** the flux (g0, g1) against the derivatives of function p of a cell *)
Definition tested (g0 g1 : R -> R -> R) (c p : nat) : R := rsum (v_size (q_Weights (ec_Q (E c)))) (fun q => v_at (q_Weights (ec_Q (E c))) q *
  (at_quadrature (ec_Q (E c)) (planar g0) q * m_at (ec_D0 (E c)) q p + at_quadrature (ec_Q (E c)) (planar g1) q * m_at (ec_D1 (E c)) q p)).

Lemma cell_facts c : (c < nc)%nat -> sz c = lv_NumBasisFunctions (loc c) /\
  (exists P0 P1, lv_Pi0km1Der (loc c) = [P0; P1] /\ forall u q, let x := m_at (q_Points (ec_Q (E c))) 0 q in let y := m_at (q_Points (ec_Q (E c))) 1 q in
    rsum (sz c) (fun j => m_at (ec_D0 (E c)) q j * u j) = projected ref (loc c) P0 u x y /\ rsum (sz c) (fun j => m_at (ec_D1 (E c)) q j * u j) = projected ref (loc c) P1 u x y) /\
  forall f fx fy, poly2 k f fx fy -> (forall q, rsum (sz c) (fun j => m_at (ec_D0 (E c)) q j * dofs_of ref (loc c) f j) = at_quadrature (ec_Q (E c)) (planar fx) q /\
    rsum (sz c) (fun j => m_at (ec_D1 (E c)) q j * dofs_of ref (loc c) f j) = at_quadrature (ec_Q (E c)) (planar fy) q) /\
    forall i, rsum (sz c) (fun j => m_at (ec_S (E c)) i j * dofs_of ref (loc c) f j) = 0.
Proof.
  intros Hc. pose proof (sp_size gt lob junk lu llt k ref m info geometry VM c Hc) as SZ. split; [exact SZ|]. rewrite SZ.
  destruct (vem_element gt lob junk lu llt k (geometry c) ref (loc c) (CS c Hc) (sp c) (sp_scalar junk lu llt ref geometry c)) as (V & D0 & D1 & S & SE & _ & _ & PF).
  destruct SE as [A1 A2 (A3 & A3') (A4 & A4') (A5 & A5')].
  destruct (quadrature_values_all gt lob junk lu llt k (geometry c) ref (loc c) (CS c Hc)) as (_ & _ & _ & (P0 & P1 & D0' & D1' & EP & ED & D01 & D02 & D11 & D12 & D3)).
  change (ls_DerivativeValues (sp c)) with (VEM_DerivativeValues_quadrature (loc c) Pi0km1Der_t) in A4. rewrite ED in A4. injection A4 as -> ->.
  unfold vem_cells. cbn [ec_Q ec_V ec_D0 ec_D1 ec_S]. change (ls_DerivativeValues (sp c)) with (VEM_DerivativeValues_quadrature (loc c) Pi0km1Der_t). rewrite ED. unfold at0. rewrite A5. cbn [get nth].
  split.
  - exists P0, P1. split; [exact EP|]. intros u q. destruct (D3 u q) as (X0 & X1). unfold combine in X0, X1. rewrite D02 in X0. rewrite D12 in X1. auto.
  - intros f fx fy Pf. destruct (PF f fx fy Pf) as (X & Y). split; [|exact Y]. intros q. destruct (X q) as (_ & X1 & X2). auto.
Qed.

Lemma tested_flux c g0 g0x g0y g1 g1x g1y v : (c < nc)%nat -> poly2 (k - 1) g0 g0x g0y -> poly2 (k - 1) g1 g1x g1y -> (forall x y, g0x x y + g1y x y = 0) ->
  rsum (sz c) (fun p => v p * tested g0 g1 c p) = flux (loc c) 0 g0 v + flux (loc c) 1 g1 v.
Proof.
  intros Hc G0 G1 DZ. destruct (cell_facts c Hc) as (SZ & (P0 & P1 & EP & HD) & _).
  destruct (Pcc2dProofs2.divergence _ _ _ _ _ _ _ _ _ (CS c Hc) v g0 g0x g0y g1 g1x g1y G0 G1) as (P0' & P1' & EP' & DIV). rewrite EP in EP'. injection EP' as <- <-. rewrite <- DIV. clear DIV.
  unfold inside, apply_rule. rewrite (rsum_0 _ (fun q => _ * (projected ref (loc c) (lv_Pi0km1 (loc c)) v _ _ * _))) by (intros q _; rewrite DZ; ring). rewrite Rplus_0_r.
  unfold tested. rewrite (rsum_ext (sz c) _ (fun p => rsum (v_size (q_Weights (ec_Q (E c)))) (fun q => v p * (v_at (q_Weights (ec_Q (E c))) q *
  (at_quadrature (ec_Q (E c)) (planar g0) q * m_at (ec_D0 (E c)) q p + at_quadrature (ec_Q (E c)) (planar g1) q * m_at (ec_D1 (E c)) q p))))) by (intros p _; rewrite <- rsum_scal; reflexivity).
  rewrite rsum_swap. apply rsum_ext. intros q _. destruct (HD v q) as (H0 & H1). cbv zeta in H0, H1. change (ec_Q (E c)) with (lv_InternalQuadrature (loc c)) in *. rewrite <- H0, <- H1.
  rewrite (rsum_ext (sz c) _ (fun p => (v_at (q_Weights (lv_InternalQuadrature (loc c))) q * at_quadrature (lv_InternalQuadrature (loc c)) (planar g0) q) * (m_at (ec_D0 (E c)) q p * v p) +
    (v_at (q_Weights (lv_InternalQuadrature (loc c))) q * at_quadrature (lv_InternalQuadrature (loc c)) (planar g1) q) * (m_at (ec_D1 (E c)) q p * v p))) by (intros; ring).
  rewrite rsum_plus, !rsum_scal. unfold at_quadrature, planar. ring.
Qed.

Lemma comp_balance g0 g0x g0y g1 g1x g1y h gauss B r : poly2 (k - 1) g0 g0x g0y -> poly2 (k - 1) g1 g1x g1y -> (forall x y, g0x x y + g1y x y = 0) ->
  closed_boundary info mesh geometry -> neumann_data info mesh geometry g0 g1 h -> exact_interval (2 * k - 1) gauss ->
  (forall w q, (q < v_size (q_Weights gauss))%nat -> rsum (k + 1)%nat (fun i => w i * m_at B q i) = interp (k + 1) (edge_nodes ref) w (m_at (q_Points gauss) 0 q)) ->
  rsum nc (fun c => rsum (sz c) (fun p => at_places info mesh c (hat data r) p * tested g0 g1 c p)) = rsum nc (fun c => weak_form info info mesh data (geometry c) gauss B h c r).
Proof.
  intros G0 G1 DZ CL ND EX HB.
  rewrite (rsum_ext nc (fun c => weak_form _ _ _ _ _ _ _ _ _ _) (fun c => rsum (length (Cell2D_edges mesh c)) (fun i => if weak_edge info (edge_of mesh (c, i)) then rsum (v_size (q_Weights gauss)) (fun q => v_at (q_Weights gauss) q * Rabs (v_at (pg_EdgesLength (geometry c)) i) *
    at_point (h (marker_of info 1 (edge_of mesh (c, i)))) (DriverSpec2.edge_point (geometry c) i (m_at (q_Points gauss) 0%nat q)) * edge_test info mesh data (edge_of mesh (c, i)) r (m_at B q)) else 0))).
  2: { intros c Hc. unfold weak_form. rewrite (nv_mesh _ _ _ _ _ _ _ _ _ VM c Hc), <- (ne_mesh _ _ _ _ _ _ _ _ _ VM c Hc). reflexivity. }
  rewrite <- (balance m info data geometry (edge_flux k ref m (hat data r) g0 g1) (tested g0 g1) (fun c i => rsum (v_size (q_Weights gauss)) (fun q => v_at (q_Weights gauss) q * Rabs (v_at (pg_EdgesLength (geometry c)) i) *
    at_point (h (marker_of info 1 (edge_of mesh (c, i)))) (DriverSpec2.edge_point (geometry c) i (m_at (q_Points gauss) 0%nat q)) * edge_test info mesh data (edge_of mesh (c, i)) r (m_at B q))) r); auto.
  - apply rsum_ext. intros c Hc. rewrite free_places_sum. reflexivity.
  - intros c Hc. rewrite <- (flux_balance gt lob junk lu llt k ref m info geometry VM c (hat data r) g0 g1 Hc). apply (tested_flux c g0 g0x g0y g1 g1x g1y); auto.
  - intros c i Hci HWk. apply (weak_flux gt lob junk lu llt k ref m info geometry VM data c i r g0 g0x g0y g1 g1x g1y h gauss B); auto.
  - intros ci Hci HSt. apply (strong_flux gt lob lu llt k ref m info geometry VM data HC); auto.
Qed.

Variables (P : ElasticProblem) (f0 f0x f0y f1 f1x f1y s00 s01 s11 : R -> R -> R).
Hypothesis F0 : poly2 k f0 f0x f0y.
Hypothesis F1 : poly2 k f1 f1x f1y.
Hypothesis S00 : forall x y z, s00 x y = 2 * el_mu P x y z * f0x x y + el_lambda P x y z * (f0x x y + f1y x y).
Hypothesis S01 : forall x y z, s01 x y = el_mu P x y z * (f0y x y + f1x x y).
Hypothesis S11 : forall x y z, s11 x y = 2 * el_mu P x y z * f1y x y + el_lambda P x y z * (f0x x y + f1y x y).

Lemma energy_stress c kk U V : (c < nc)%nat -> (forall j, (j < sz c)%nat -> U j = dofs_of ref (loc c) f0 j /\ U (sz c + j)%nat = dofs_of ref (loc c) f1 j) ->
  cell_energy m info E P kk c U V = rsum (sz c) (fun p => V p * tested s00 s01 c p) + rsum (sz c) (fun p => V (sz c + p)%nat * tested s01 s11 c p).
Proof.
  intros Hc HU. destruct (cell_facts c Hc) as (_ & _ & HF). destruct (HF f0 f0x f0y F0) as (A0 & B0). destruct (HF f1 f1x f1y F1) as (A1 & B1). unfold cell_energy, elastic_form.
  assert (G : forall q, gradient (sz c) (ec_D0 (E c)) (ec_D1 (E c)) U 0 0 q = at_quadrature (ec_Q (E c)) (planar f0x) q /\ gradient (sz c) (ec_D0 (E c)) (ec_D1 (E c)) U 0 1 q = at_quadrature (ec_Q (E c)) (planar f0y) q /\
    gradient (sz c) (ec_D0 (E c)) (ec_D1 (E c)) U 1 0 q = at_quadrature (ec_Q (E c)) (planar f1x) q /\ gradient (sz c) (ec_D0 (E c)) (ec_D1 (E c)) U 1 1 q = at_quadrature (ec_Q (E c)) (planar f1y) q).
  { intros q. destruct (A0 q) as (X0 & X1). destruct (A1 q) as (Y0 & Y1). rewrite <- X0, <- X1, <- Y0, <- Y1. unfold gradient.
    repeat split; apply rsum_ext; intros j Hj; destruct (HU j Hj) as (H0 & H1); cbn [Nat.mul Nat.add]; rewrite ?Nat.add_0_r, ?H0, ?H1; reflexivity. }
  rewrite (rsum_0 2 (fun d => bilinear _ _ _ _)).
  2: { intros d Hd. unfold bilinear. apply rsum_0. intros i Hi. destruct d as [|[|d]]; [| |lia].
    - rewrite (rsum_ext _ _ (fun j => half (sz c) 0 V i * (m_at (ec_S (E c)) i j * dofs_of ref (loc c) f0 j))). { rewrite rsum_scal, B0. ring. }
      intros j Hj. unfold half at 2. cbn [Nat.mul Nat.add]. rewrite (proj1 (HU j Hj)). ring.
    - rewrite (rsum_ext _ _ (fun j => half (sz c) 1 V i * (m_at (ec_S (E c)) i j * dofs_of ref (loc c) f1 j))). { rewrite rsum_scal, B1. ring. }
      intros j Hj. unfold half at 2. cbn [Nat.mul]. rewrite Nat.add_0_r, (proj2 (HU j Hj)). ring. }
  rewrite Rmult_0_r, Rplus_0_r.
  assert (T : forall g0 g1 W, rsum (sz c) (fun p => W p * tested g0 g1 c p) = rsum (v_size (q_Weights (ec_Q (E c)))) (fun q => v_at (q_Weights (ec_Q (E c))) q *
    (at_quadrature (ec_Q (E c)) (planar g0) q * rsum (sz c) (fun p => m_at (ec_D0 (E c)) q p * W p) + at_quadrature (ec_Q (E c)) (planar g1) q * rsum (sz c) (fun p => m_at (ec_D1 (E c)) q p * W p)))).
  { intros g0 g1 W. unfold tested. rewrite (rsum_ext (sz c) _ (fun p => rsum (v_size (q_Weights (ec_Q (E c)))) (fun q => W p * (v_at (q_Weights (ec_Q (E c))) q *
      (at_quadrature (ec_Q (E c)) (planar g0) q * m_at (ec_D0 (E c)) q p + at_quadrature (ec_Q (E c)) (planar g1) q * m_at (ec_D1 (E c)) q p))))) by (intros p _; rewrite <- rsum_scal; reflexivity).
    rewrite rsum_swap. apply rsum_ext. intros q _. rewrite <- !rsum_scal, <- rsum_plus, <- rsum_scal. apply rsum_ext. intros p _. ring. }
  rewrite !T, <- rsum_plus. apply rsum_ext. intros q _. destruct (G q) as (G00 & G01 & G10 & G11). cbn [rsum]. unfold strain, ElasticSpec.divergence. rewrite G00, G01, G10, G11.
  assert (VG : forall b, gradient (sz c) (ec_D0 (E c)) (ec_D1 (E c)) V 1 b q = rsum (sz c) (fun p => m_at (match b with O => ec_D0 (E c) | _ => ec_D1 (E c) end) q p * V (sz c + p)%nat)).
  { intros b. unfold gradient. apply rsum_ext. intros p _. cbn [Nat.mul]. rewrite Nat.add_0_r. reflexivity. }
  rewrite !VG. unfold gradient. cbn [Nat.mul Nat.add]. unfold at_quadrature, planar.
  rewrite (S00 _ _ (m_at (q_Points (ec_Q (E c))) 2 q)), (S01 _ _ (m_at (q_Points (ec_Q (E c))) 2 q)), (S11 _ _ (m_at (q_Points (ec_Q (E c))) 2 q)).
  field.
Qed.

Definition unit_at (r : nat) : list R := map (fun i => if (i =? r)%nat then 1 else 0) (seq 0 N).
Lemma unit_length r : length (unit_at r) = N.
Proof. unfold unit_at. rewrite map_length, seq_length. reflexivity. Qed.
Lemma unit_nth r i : (i < N)%nat -> nth i (unit_at r) 0 = if (i =? r)%nat then 1 else 0.
Proof. intros Hi. unfold unit_at. rewrite nth_map_seq by exact Hi. reflexivity. Qed.
Lemma unit_places c r p : (r < N)%nat -> cell_value info mesh data (unit_at r) zz c p = at_places info mesh c (hat data r) p.
Proof.
  intros Hr. unfold cell_value, at_places. destruct (nth_error (closure_dofs info mesh 2 c) p) as [h|]; [|reflexivity]. unfold value_of, hat, free_is, is_type.
  destruct (lookup data h) as [x|]; [|reflexivity]. destruct (dof_type x); cbn [andb]; try reflexivity.
  all: try (destruct (nth_error zz (dof_index x)) eqn:EZ; [apply nth_error_In, repeat_spec in EZ; subst|]; reflexivity).
  destruct (Nat.lt_ge_cases (dof_index x) N) as [L|L].
  - rewrite (nth_error_nth' _ 0) by (rewrite unit_length; exact L). rewrite unit_nth by exact L. destruct (_ =? _)%nat; reflexivity.
  - rewrite (proj2 (nth_error_None _ _)) by (rewrite unit_length; exact L). destruct (Nat.eqb_spec (dof_index x) r); [lia|reflexivity].
Qed.
Lemma zero_places c p : cell_value info mesh data (repeat 0 N) zz c p = 0.
Proof.
  unfold cell_value. destruct (nth_error (closure_dofs info mesh 2 c) p) as [h|]; [|reflexivity]. unfold value_of. destruct (lookup data h) as [x|]; [|reflexivity].
  destruct (dof_type x); [..]; try reflexivity; (destruct (nth_error _ (dof_index x)) eqn:EZ; [apply nth_error_In, repeat_spec in EZ; subst|]; reflexivity).
Qed.

(** the strong values that the driver computes are those of the interpolated function *)
Lemma strong_agree gS h f uD s uS : (h < 2)%nat -> dirichlet_data info mesh f (component gS h) -> covered info mesh -> length uD = N -> length s = NS ->
  (forall c, (c < nc)%nat -> exists u, local_solution data uD s c = Ok u /\ v_size u = length (closure_dofs info mesh 2 c) /\
    forall j h, nth_error (closure_dofs info mesh 2 c) j = Some h -> v_at u j = dof_value m (pt ref m) (td junk lu llt ref geometry f) (planar f) h) ->
  (forall h d e i, (h < 2)%nat -> (d <= 2)%nat -> (e < num_cells info d)%nat -> (i < requested info d e)%nat -> strong_entity info d e ->
    exists x, lookup data (entity_dof d e i) = Some x /\ dof_type x = TStrong /\ (dof_index x < NS)%nat /\
      (of_a_cell m d e -> nth_error uS (dof_index x + h * NS) = Some (strong_value m info (pt ref m) (component gS h) d e i)) /\
      (~ of_a_cell m d e -> nth_error uS (dof_index x + h * NS) = Some 0)) ->
  forall t, (t < NS)%nat -> nth (t + h * NS) uS 0 = nth t s 0.
Proof using VM HC.
  intros Hh [DD NSt] CO LD LS HU HS t Ht. pose proof (vm_cells _ _ _ _ _ _ _ _ _ VM) as HN.
  destruct (strong_unknown info mesh data t HC Ht) as (g & x & Vh & Lx & Tx & Ix). destruct (covered_cell info mesh g HN CO Vh) as (c & Hc & G).
  destruct (closure_valid m info data c g HC HN Hc G) as (_ & PL). destruct Vh as (V1 & V2 & V3).
  destruct (valid_lookup 2 info mesh data ltac:(lia) HC g (conj V1 (conj V2 V3))) as (x' & t' & Lx' & Bt & Cs). rewrite Lx in Lx'. injection Lx' as <-.
  destruct Cs as [(-> & _ & _)|(_ & T & _)]; [|congruence].
  destruct (HS h (g_dim g) (g_cell g) (g_dof g) Hh V1 V2 V3 Bt) as (x' & Lx' & _ & _ & RV & _). rewrite entity_eta, Lx in Lx'. injection Lx' as <-. rewrite Ix in RV.
  apply In_nth_error in G. destruct G as (p & Hp). destruct (HU c Hc) as (u & Eu & Su & Hu). specialize (Hu p g Hp).
  destruct (local_solution_ok m info data HC HN c uD s Hc LD LS) as (u' & Eu' & _ & Hv). rewrite Eu in Eu'. injection Eu' as <-. specialize (Hv p g Hp).
  unfold value_of in Hv. rewrite Lx, Tx, Ix in Hv. rewrite (nth_error_nth _ _ 0 Hv), Hu.
  assert (D : g_dim g <> 2%nat). { intros D. destruct PL as [(D' & _)|[(D' & _)|(_ & D')]]; [lia|lia|]. apply (NSt c Hc). unfold strong_entity. rewrite <- D', <- D. exact Bt. }
  assert (RS : of_a_cell m (g_dim g) (g_cell g)) by (exists c; split; [exact Hc|]; destruct PL as [PL|[PL|(D' & _)]]; [left; exact PL|right; exact PL|congruence]).
  rewrite (nth_error_nth _ _ 0 (RV RS)). unfold strong_value, dof_value, at_point, planar.
  destruct (g_dim g) as [|[|]] eqn:ED'; [| |lia]; (rewrite DD; [reflexivity|lia|exact Bt]).
Qed.
Lemma interp_value f uD s : length uD = N -> length s = NS ->
  (forall c, (c < nc)%nat -> exists u, local_solution data uD s c = Ok u /\ v_size u = length (closure_dofs info mesh 2 c) /\
    forall j h, nth_error (closure_dofs info mesh 2 c) j = Some h -> v_at u j = dof_value m (pt ref m) (td junk lu llt ref geometry f) (planar f) h) ->
  forall c j, (c < nc)%nat -> (j < sz c)%nat -> cell_value info mesh data uD s c j = dofs_of ref (loc c) f j.
Proof using VM HC.
  intros LD LS HU c j Hc Hj. pose proof (vm_cells _ _ _ _ _ _ _ _ _ VM) as HN. unfold cell_value.
  destruct (nth_error (closure_dofs info mesh 2 c) j) as [g|] eqn:Hp; [|apply nth_error_None in Hp; unfold cell_size in Hj; lia].
  destruct (HU c Hc) as (u & Eu & Su & Hu). specialize (Hu j g Hp). destruct (local_solution_ok m info data HC HN c uD s Hc LD LS) as (u' & Eu' & _ & Hv). rewrite Eu in Eu'. injection Eu' as <-. rewrite (Hv j g Hp), Hu.
  symmetry. apply (dofs_places gt lob junk lu llt k ref m info geometry VM f c j g Hc Hp).
Qed.

Variables (s00x s00y s01x s01y s11x s11y : R -> R -> R) (gauss : QuadratureData) (gS gW : nat -> R -> R -> R -> nat -> R).
Theorem elastic_patch : poly2 (k - 1) s00 s00x s00y -> poly2 (k - 1) s01 s01x s01y -> poly2 (k - 1) s11 s11x s11y ->
  (forall x y, s00x x y + s01y x y = 0 /\ s01x x y + s11y x y = 0) -> (forall x y z d, el_source P x y z d = 0) ->
  closed_boundary info mesh geometry -> neumann_data info mesh geometry s00 s01 (component gW 0) -> neumann_data info mesh geometry s01 s11 (component gW 1) ->
  dirichlet_data info mesh f0 (component gS 0) -> dirichlet_data info mesh f1 (component gS 1) -> covered info mesh -> exact_interval (2 * k - 1) gauss ->
  exists D u0 u1 g0 g1, elastic_assemble m info data geometry gauss create P gS gW = Ok D /\
  length u0 = N /\ length u1 = N /\ length g0 = NS /\ length g1 = NS /\ ed_solutionDirichlet D = g0 ++ g1 /\
  (forall c l j, (c < nc)%nat -> VEM_PCC_2D_CreateLocalSpace junk lu llt ref (geometry c) = Ok l -> (j < sz c)%nat ->
    cell_displacement m info data u0 u1 g0 g1 c j = dofs_of ref l f0 j /\ cell_displacement m info data u0 u1 g0 g1 c (sz c + j) = dofs_of ref l f1 j) /\
  forall r, (r < N + N)%nat -> assembled_residual D (u0 ++ u1) r = 0.
Proof using VM HC F0 F1 S00 S01 S11.
  intros G00 G01 G11 EQ SRC CL ND0 ND1 DD0 DD1 CO EX. pose proof (vm_cells _ _ _ _ _ _ _ _ _ VM) as HN. pose proof (proj1 EX) as SQ.
  pose proof (vem_elastic_mesh gt lob junk lu llt k ref m info geometry data VM HC) as HM.
  destruct (interpolant gt lob junk lu llt k ref m info geometry VM data HC f0) as (u0 & g0 & _ & L0 & M0 & H0).
  destruct (interpolant gt lob junk lu llt k ref m info geometry VM data HC f1) as (u1 & g1 & _ & L1 & M1 & H1).
  destruct (edge_functions gt lob junk lu llt k ref m info geometry VM {| v_size := m_cols (q_Points gauss); v_at := fun q => m_at (q_Points gauss) 0%nat q |}) as (B & EB & RB & CB & HB). cbn [v_size v_at] in *.
  assert (V1 : forall c v, (c < nc)%nat -> In v (Cell2D_vertices mesh c) -> strong_entity info 0 v -> (requested info 0 v <= 1)%nat).
  { intros c v Hc Hv _. rewrite (vm_vertex_dofs _ _ _ _ _ _ _ _ _ VM c v Hc Hv). lia. }
  assert (EA : edge_points_agree m info create (fun _ => true) (fun e => strong_entity info 1 e /\ (0 < requested info 1 e)%nat) (pt ref m)).
  { intros c Hc Ha. destruct (edges_agree gt lob junk lu llt k ref m info geometry VM c Hc Ha) as (sp & Es & H). exists sp. split; [exact Es|]. intros ed e He _. apply H; auto. }
  assert (WC : forall c, (c < nc)%nat -> weak_cell info info mesh create gauss (geometry c) c (sp c) B).
  { intros c Hc. pose proof (vm_polygon _ _ _ _ _ _ _ _ _ VM c Hc) as GP. destruct (gp_edges _ GP) as [EV EL EDi [ET ET'] _]. pose proof (ne_mesh _ _ _ _ _ _ _ _ _ VM c Hc) as NE. pose proof (nv_mesh _ _ _ _ _ _ _ _ _ VM c Hc) as NV.
    split; auto.
    - apply (create_ok gt lob junk lu llt k ref m info geometry VM c Hc).
    - congruence.
    - split; [congruence|]. intros e He. rewrite (ED _ _ _ _ _ _ _ _ _ VM c Hc e He), CB. pose proof (vm_order _ _ _ _ _ _ _ _ _ VM). lia. }
  destruct (elastic_assembled_meaning m info data create P E geometry gauss gS gW (pt ref m) (fun c => sp c) (fun _ => B) HM V1 EA WC SQ) as (D & kk & h0 & h1 & ED' & _ & LR & K0 & K1 & GD & ES & _ & ID).
  destruct (elastic_strong_ok m info data HC HN create gS (pt ref m) V1 EA) as (uS & ES' & LS & HS). rewrite ES in ES'. injection ES' as <-.
  pose proof (strong_agree gS 0 f0 u0 g0 _ ltac:(lia) DD0 CO L0 M0 H0 HS) as X0. pose proof (strong_agree gS 1 f1 u1 g1 _ ltac:(lia) DD1 CO L1 M1 H1 HS) as X1.
  assert (h0 = g0) as ->. { apply nth_ext with (d := 0) (d' := 0); [congruence|]. intros t Ht. rewrite <- X0 by lia. rewrite Nat.mul_0_l, Nat.add_0_r, app_nth1 by lia. reflexivity. }
  assert (h1 = g1) as ->. { apply nth_ext with (d := 0) (d' := 0); [congruence|]. intros t Ht. rewrite <- X1 by lia. rewrite Nat.mul_1_l, app_nth2 by lia. f_equal. lia. }
  assert (UV : forall c j, (c < nc)%nat -> (j < sz c)%nat -> cell_displacement m info data u0 u1 g0 g1 c j = dofs_of ref (loc c) f0 j /\ cell_displacement m info data u0 u1 g0 g1 c (sz c + j) = dofs_of ref (loc c) f1 j).
  { intros c j Hc Hj. unfold cell_displacement. destruct (Nat.ltb_spec j (sz c)); [|lia]. destruct (Nat.ltb_spec (sz c + j) (sz c)); [lia|]. replace (sz c + j - sz c)%nat with j by lia.
    split; apply interp_value; auto. }
  exists D, u0, u1, g0, g1. split; [exact ED'|]. repeat (split; [assumption|]). split.
  { intros c l j Hc El Hj. pose proof (vs_local _ _ _ _ _ _ _ _ _ (CS c Hc)) as El'. rewrite El in El'. injection El' as ->. apply UV; auto. }
  assert (HB' : forall w q, (q < v_size (q_Weights gauss))%nat -> rsum (k + 1)%nat (fun i => w i * m_at B q i) = interp (k + 1) (edge_nodes ref) w (m_at (q_Points gauss) 0 q)) by (intros; apply HB; lia).
  assert (ALL : forall v0 v1, length v0 = N -> length v1 = N -> rsum (N + N) (fun r => nth r (v0 ++ v1) 0 * assembled_residual D (u0 ++ u1) r) =
    rsum nc (fun c => rsum (sz c) (fun p => cell_value info mesh data v0 zz c p * tested s00 s01 c p) + rsum (sz c) (fun p => cell_value info mesh data v1 zz c p * tested s01 s11 c p)) - boundary_work m info data geometry gauss (fun _ => B) gW v0 v1).
  { intros v0 v1 W0 W1. rewrite ID by auto. f_equal. unfold cells_sum. rewrite lsum_seq_rsum. apply rsum_ext. intros c Hc. cbv zeta. rewrite (energy_stress c kk _ _ Hc (fun j Hj => UV c j Hc Hj)).
    unfold cell_work. rewrite (rsum_0 (v_size _)). 2: { intros q _. rewrite (rsum_0 2); [ring|]. intros d _. unfold at_quadrature. rewrite SRC. ring. }
    rewrite Rminus_0_r. f_equal; apply rsum_ext; intros p Hp; f_equal; unfold cell_displacement; [destruct (Nat.ltb_spec p (sz c)); [reflexivity|lia]|].
    destruct (Nat.ltb_spec (sz c + p) (sz c)); [lia|]. f_equal. lia. }
  assert (ONE : forall n F r, (r < n)%nat -> rsum n (fun i => (if (i =? r)%nat then 1 else 0) * F i) = F r).
  { intros n F r Hr. rewrite (rsum_single n _ r Hr) by (intros i _ Hi; destruct (Nat.eqb_spec i r); [congruence|ring]). rewrite Nat.eqb_refl. ring. }
  assert (WF : forall g r, cells_sum mesh (fun c => weak_form info info mesh data (geometry c) gauss B g c r) = rsum nc (fun c => weak_form info info mesh data (geometry c) gauss B g c r)) by (intros; unfold cells_sum; apply lsum_seq_rsum).
  intros r Hr. destruct (Nat.lt_ge_cases r N) as [H|H].
  - specialize (ALL (unit_at r) (repeat 0 N) (unit_length r) (repeat_length _ _)).
    assert (LHS : rsum (N + N) (fun i => nth i (unit_at r ++ repeat 0 N) 0 * assembled_residual D (u0 ++ u1) i) = assembled_residual D (u0 ++ u1) r).
    { rewrite rsum_add. rewrite (rsum_0 N (fun i => nth (N + i) _ 0 * _)). 2: { intros i Hi. rewrite app_nth2 by (rewrite unit_length; lia). rewrite nth_repeat. ring. }
      rewrite Rplus_0_r. rewrite <- (ONE N (assembled_residual D (u0 ++ u1)) r H). apply rsum_ext. intros i Hi. rewrite app_nth1 by (rewrite unit_length; lia). rewrite unit_nth by lia. reflexivity. }
    rewrite LHS in ALL. rewrite ALL. unfold boundary_work. cbn [rsum Nat.eqb]. rewrite (rsum_0 N (fun i => nth i (repeat 0 N) 0 * _)) by (intros i _; rewrite nth_repeat; ring).
    rewrite (rsum_ext N _ (fun i => (if (i =? r)%nat then 1 else 0) * cells_sum mesh (fun c => weak_form info info mesh data (geometry c) gauss B (component gW 0) c i))) by (intros i Hi; rewrite unit_nth by lia; reflexivity).
    rewrite (ONE N (fun i => cells_sum mesh (fun c => weak_form info info mesh data (geometry c) gauss B (component gW 0) c i)) r H). rewrite WF.
    rewrite <- (comp_balance s00 s00x s00y s01 s01x s01y (component gW 0) gauss B r G00 G01 (fun x y => proj1 (EQ x y)) CL ND0 EX HB').
    match goal with |- ?a - (0 + ?b + 0) = 0 => enough (a = b) as -> by ring end. apply rsum_ext. intros c Hc. rewrite (rsum_0 (sz c) (fun p => _ * tested s01 s11 c p)) by (intros p _; rewrite zero_places; ring).
    rewrite Rplus_0_r. apply rsum_ext. intros p _. rewrite unit_places by exact H. reflexivity.
  - assert (H' : (r - N < N)%nat) by lia. specialize (ALL (repeat 0 N) (unit_at (r - N)) (repeat_length _ _) (unit_length _)).
    assert (LHS : rsum (N + N) (fun i => nth i (repeat 0 N ++ unit_at (r - N)) 0 * assembled_residual D (u0 ++ u1) i) = assembled_residual D (u0 ++ u1) r).
    { rewrite rsum_add. rewrite (rsum_0 N). 2: { intros i Hi. rewrite app_nth1 by (rewrite repeat_length; lia). rewrite nth_repeat. ring. }
      rewrite Rplus_0_l. transitivity (assembled_residual D (u0 ++ u1) (N + (r - N))%nat); [|f_equal; lia]. rewrite <- (ONE N (fun i => assembled_residual D (u0 ++ u1) (N + i)) (r - N)%nat H'). apply rsum_ext. intros i Hi. rewrite app_nth2 by (rewrite repeat_length; lia).
      rewrite repeat_length. replace (N + i - N)%nat with i by lia. rewrite unit_nth by lia. reflexivity. }
    rewrite LHS in ALL. rewrite ALL. unfold boundary_work. cbn [rsum Nat.eqb]. rewrite (rsum_0 N (fun i => nth i (repeat 0 N) 0 * _)) by (intros i _; rewrite nth_repeat; ring).
    rewrite (rsum_ext N _ (fun i => (if (i =? r - N)%nat then 1 else 0) * cells_sum mesh (fun c => weak_form info info mesh data (geometry c) gauss B (component gW 1) c i))) by (intros i Hi; rewrite unit_nth by lia; reflexivity).
    rewrite (ONE N (fun i => cells_sum mesh (fun c => weak_form info info mesh data (geometry c) gauss B (component gW 1) c i)) (r - N)%nat H'). rewrite WF.
    rewrite <- (comp_balance s01 s01x s01y s11 s11x s11y (component gW 1) gauss B (r - N) G01 G11 (fun x y => proj2 (EQ x y)) CL ND1 EX HB').
    match goal with |- ?a - (0 + 0 + ?b) = 0 => enough (a = b) as -> by ring end. apply rsum_ext. intros c Hc. rewrite (rsum_0 (sz c) (fun p => _ * tested s00 s01 c p)) by (intros p _; rewrite zero_places; ring).
    rewrite Rplus_0_l. apply rsum_ext. intros p _. rewrite unit_places by exact H'. reflexivity.
Qed.
End Patch.

Theorem elastic_patch_solution : forall gauss_triangle lobatto junk lu llt k ref m info geometry data,
  vem_mesh gauss_triangle lobatto lu llt k ref m info geometry -> CreateDOFs 2 info (md_mesh m) = Ok data ->
  forall P f0 f0x f0y f1 f1x f1y s00 s01 s11, poly2 k f0 f0x f0y -> poly2 k f1 f1x f1y ->
  (forall x y z, s00 x y = 2 * el_mu P x y z * f0x x y + el_lambda P x y z * (f0x x y + f1y x y)) ->
  (forall x y z, s01 x y = el_mu P x y z * (f0y x y + f1x x y)) ->
  (forall x y z, s11 x y = 2 * el_mu P x y z * f1y x y + el_lambda P x y z * (f0x x y + f1y x y)) ->
  forall s00x s00y s01x s01y s11x s11y gauss gS gW, poly2 (k - 1) s00 s00x s00y -> poly2 (k - 1) s01 s01x s01y -> poly2 (k - 1) s11 s11x s11y ->
  (forall x y, s00x x y + s01y x y = 0 /\ s01x x y + s11y x y = 0) -> (forall x y z d, el_source P x y z d = 0) ->
  closed_boundary info (md_mesh m) geometry ->
  neumann_data info (md_mesh m) geometry s00 s01 (component gW 0) -> neumann_data info (md_mesh m) geometry s01 s11 (component gW 1) ->
  dirichlet_data info (md_mesh m) f0 (component gS 0) -> dirichlet_data info (md_mesh m) f1 (component gS 1) -> covered info (md_mesh m) -> exact_interval (2 * k - 1) gauss ->
  let N := NumberDOFs data in let NS := NumberStrongs data in
  exists D u0 u1 g0 g1, elastic_assemble m info data geometry gauss (Create_VEM junk lu llt ref geometry) P gS gW = Ok D /\
  length u0 = N /\ length u1 = N /\ length g0 = NS /\ length g1 = NS /\ ed_solutionDirichlet D = g0 ++ g1 /\
  (forall c l j, (c < Cell2Ds_number (md_mesh m))%nat -> VEM_PCC_2D_CreateLocalSpace junk lu llt ref (geometry c) = Ok l -> (j < cell_size info m c)%nat ->
    cell_displacement m info data u0 u1 g0 g1 c j = dofs_of ref l f0 j /\ cell_displacement m info data u0 u1 g0 g1 c (cell_size info m c + j) = dofs_of ref l f1 j) /\
  (forall r, (r < N + N)%nat -> assembled_residual D (u0 ++ u1) r = 0) /\
  ((forall x y z, 0 < el_mu P x y z /\ 0 <= el_lambda P x y z) -> positive_rules gauss_triangle k m geometry ->
   (forall c, (c < Cell2Ds_number (md_mesh m))%nat -> clamped m info c) ->
   forall vD, length vD = (N + N)%nat -> (forall r, (r < N + N)%nat -> assembled_residual D vD r = 0) -> vD = u0 ++ u1).
Proof.
  intros gt lob junk lu llt k ref m info geometry data VM HC P f0 f0x f0y f1 f1x f1y s00 s01 s11 F0 F1 E0 E1 E2 s00x s00y s01x s01y s11x s11y gauss gS gW G0 G1 G2 EQ SRC CL ND0 ND1 DD0 DD1 CO EX N NS.
  destruct (elastic_patch gt lob junk lu llt k ref m info geometry data VM HC P f0 f0x f0y f1 f1x f1y s00 s01 s11 F0 F1 E0 E1 E2 s00x s00y s01x s01y s11x s11y gauss gS gW G0 G1 G2 EQ SRC CL ND0 ND1 DD0 DD1 CO EX)
    as (D & u0 & u1 & g0 & g1 & ED & L0 & L1 & M0 & M1 & GD & HU & RES).
  exists D, u0, u1, g0, g1. repeat (split; [assumption|]). intros PC PR CLA vD LV HV.
  destruct (elastic_solution gt lob junk lu llt k ref m info geometry data VM HC P PC PR CLA CO gauss gS gW (proj1 EX)) as (D' & uD & ED' & _ & _ & UN). rewrite ED in ED'. injection ED' as <-.
  rewrite (UN vD LV HV). symmetry. apply UN; [rewrite app_length; fold N in L0, L1; lia|exact RES].
Qed.
