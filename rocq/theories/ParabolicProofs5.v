(** Proofs: polynomials in the driver of the heat equation: balance, boundary values, exact steps and runs. *)
From Coq Require Import List Arith Bool Reals Lia Lra FunctionalExtensionality.
From Verif Require Import Base RSum MatrixModel MonomialsModel MonomialsSpec LagrangeModel LagrangeSpec DofsModel DofsSpec DofsProofs DofsProofs2 AssemblerModel AssemblerSpec EquationModel EquationSpec VemQuadModel VemQuadSpec VemQuadProofs VemQuadProofs2 GreenSpec GreenProofs PolyProofs VemModel VemSpec
  VemProofs VemProofs2 VemProofs3 VemProofs4 VemProofs5 DriverModel DriverSpec DriverSpec2 Pcc2dModel Pcc2dSpec DriverProofs DriverProofs2 DriverProofs3 DriverProofs4 DriverProofs5 DriverProofs6 DriverProofs7 Pcc2dProofs Pcc2dProofs2 Pcc2dProofs3 Pcc2dProofs4 Pcc2dProofs5 Pcc2dProofs6 Pcc2dProofs7
  Mcc2dProofs3 ParabolicModel ParabolicSpec ParabolicProofs ParabolicProofs2 ParabolicProofs3 ParabolicProofs4.
Import ListNotations.
Local Open Scope R_scope.

Section Exact.
Variables (gt lob : nat -> QuadratureData) (junk : nat -> nat -> R) (lu llt : Solver) (k : nat) (ref : VEM_2D_Reference) (m : Mesh2D) (info : MeshDOFsInfo) (geometry : nat -> Polygon).
Hypothesis VM : vem_mesh gt lob lu llt k ref m info geometry.
Let mesh := md_mesh m.
Let nc := Cell2Ds_number mesh.
Let Hk := vm_order _ _ _ _ _ _ _ _ _ VM.
Notation loc := (loc junk lu llt ref geometry).
Notation create := (create junk lu llt ref geometry).
Notation forms := (forms junk lu llt ref geometry).
Notation hcreate := (hcreate junk lu llt ref geometry).
Notation hcell := (hcell junk lu llt ref geometry).
Notation hk := (hk junk lu llt ref geometry).
Notation CS c Hc := (cell_space gt lob junk lu llt k ref m info geometry VM c Hc).
Variable data : DOFsData.
Hypothesis HC : CreateDOFs 2 info (md_mesh m) = Ok data.
Let HN := vm_cells _ _ _ _ _ _ _ _ _ VM.

Lemma weak_cells gauss : m_cols (q_Points gauss) = v_size (q_Weights gauss) -> exists B,
  (forall c, (c < nc)%nat -> weak_cell info info mesh (spaces hcreate) gauss (geometry c) c (ps_space (hc_space (hcell c))) B) /\
  forall w q, (q < v_size (q_Weights gauss))%nat -> rsum (k + 1)%nat (fun i => w i * m_at B q i) = interp (k + 1) (edge_nodes ref) w (m_at (q_Points gauss) 0%nat q).
Proof using VM HC.
  intros SQ. destruct (edge_functions gt lob junk lu llt k ref m info geometry VM {| v_size := m_cols (q_Points gauss); v_at := fun q => m_at (q_Points gauss) 0%nat q |}) as (B & EB & RB & CB & HB). cbn [v_size v_at] in *.
  exists B. split; [|intros w q Hq; apply HB; congruence].
  intros c Hc. pose proof (vm_polygon _ _ _ _ _ _ _ _ _ VM c Hc) as GP. destruct (gp_edges _ GP) as [EV EL EDi [ET ET'] _]. pose proof (ne_mesh _ _ _ _ _ _ _ _ _ VM c Hc) as NE. pose proof (nv_mesh _ _ _ _ _ _ _ _ _ VM c Hc) as NV.
  split; auto.
  - rewrite hspaces. apply (create_ok gt lob junk lu llt k ref m info geometry VM c Hc).
  - unfold mesh. congruence.
  - split; [congruence|]. intros e He. rewrite (ED _ _ _ _ _ _ _ _ _ VM c Hc e He), CB. lia.
Qed.

Lemma stiffness_elliptic c kappa kk u p : (c < nc)%nat -> (p < lv_NumBasisFunctions (loc c))%nat ->
  stiffness_form (hcell c) kappa kk u p = elliptic_form (forms c) (Some (fun x y z i => if (i =? 0)%nat || (i =? 4)%nat then kappa x y z else 0)) None None kk u p.
Proof using VM.
  intros Hc Hp. destruct (forms_same gt lob junk lu llt k ref m info geometry VM c true Hc) as (_ & SF & _).
  destruct (forms_ok gt lob junk lu llt k ref m info geometry VM c Hc) as (CF & _). destruct CF as [_ _ E3 E4 _ _ (dU1 & _) _ (dV1 & _) _].
  unfold stiffness_form, elliptic_form. rewrite E3, E4, Nat.eqb_refl. f_equal. apply rsum_ext. intros q Hq. rewrite !rsum2. cbn [Nat.add Nat.mul Nat.eqb orb].
  change (hc_weights (hcell c)) with (cf_weights (forms c)). change (hc_D (hcell c)) with (cf_dU (forms c)). 
  rewrite E4 in SF. rewrite (SF 0%nat q p Nat.lt_0_2 Hq Hp), (SF 1%nat q p (le_n 2) Hq Hp). unfold at_q, hc_at. change (hc_points (hcell c)) with (cf_points (forms c)). cbn [Nat.eqb orb]. ring.
Qed.

Lemma heat_patch kappa kk F h g gauss B q qx qy v : heat_polynomial k info mesh geometry kappa F g h q qx qy v -> closed_boundary info mesh geometry -> exact_interval (2 * k - 1) gauss ->
  (forall w q, (q < v_size (q_Weights gauss))%nat -> rsum (k + 1)%nat (fun i => w i * m_at B q i) = interp (k + 1) (edge_nodes ref) w (m_at (q_Points gauss) 0%nat q)) -> forall r,
  cells_row info m data (fun c => mass_form (hcell c) (dofs_of ref (loc c) v)) r + cells_row info m data (fun c => stiffness_form (hcell c) kappa (kk c) (dofs_of ref (loc c) q)) r =
  load_row info m data geometry gauss hcell (fun _ => B) F h r.
Proof using VM HC.
  intros [Pq (vx & vy & Pv) (g0 & g0x & g0y & g1 & g1x & g1y & Pg0 & Pg1 & EQ & ND) DD] CL EX HB r. unfold load_row, cells_row. fold mesh nc.
  set (T := fun c p => mass_form (hcell c) (dofs_of ref (loc c) v) p + stiffness_form (hcell c) kappa (kk c) (dofs_of ref (loc c) q) p - load_form (hcell c) F p).
  pose proof (balance m info data geometry (edge_flux k ref m (hat data r) g0 g1) T (fun c i => rsum (v_size (q_Weights gauss)) (fun q => v_at (q_Weights gauss) q * Rabs (v_at (pg_EdgesLength (geometry c)) i) *
    at_point (h (marker_of info 1 (edge_of mesh (c, i)))) (DriverSpec2.edge_point (geometry c) i (m_at (q_Points gauss) 0%nat q)) * edge_test info mesh data (edge_of mesh (c, i)) r (m_at B q))) r) as BAL.
  fold mesh nc in BAL. rewrite (rsum_ext nc (fun c => weak_form _ _ _ _ _ _ _ _ _ _) (fun c => rsum (length (Cell2D_edges mesh c)) (fun i => if weak_edge info (edge_of mesh (c, i)) then rsum (v_size (q_Weights gauss)) (fun q => v_at (q_Weights gauss) q * Rabs (v_at (pg_EdgesLength (geometry c)) i) *
    at_point (h (marker_of info 1 (edge_of mesh (c, i)))) (DriverSpec2.edge_point (geometry c) i (m_at (q_Points gauss) 0%nat q)) * edge_test info mesh data (edge_of mesh (c, i)) r (m_at B q)) else 0))).
  2: { intros c Hc. unfold weak_form. rewrite (nv_mesh _ _ _ _ _ _ _ _ _ VM c Hc), <- (ne_mesh _ _ _ _ _ _ _ _ _ VM c Hc). reflexivity. }
  rewrite <- BAL; auto.
  - rewrite <- !rsum_plus. apply rsum_ext. intros c Hc. rewrite !free_places_sum, <- !rsum_plus. apply rsum_ext. intros p Hp. unfold T. ring.
  - intros c Hc. fold nc in Hc. rewrite <- (flux_balance gt lob junk lu llt k ref m info geometry VM) by auto. unfold mesh at 1. rewrite (size_closure gt lob junk lu llt k ref m info geometry VM c Hc).
    rewrite <- (cell_balance gt lob junk lu llt k ref m info geometry VM c (fun x y z i => if (i =? 0)%nat || (i =? 4)%nat then kappa x y z else 0) None None (fun x y z => F x y z - v x y) q qx qy g0 g0x g0y g1 g1x g1y (kk c)); auto.
    + apply rsum_ext. intros p Hp. unfold T. rewrite stiffness_elliptic by assumption. rewrite (mass_exact gt lob junk lu llt k ref m info geometry VM c v vx vy p Hc Pv Hp). f_equal.
      assert (LS : load_form (hcell c) F p - load_form (hcell c) (planar v) p = source_form (forms c) (fun x y z => F x y z - v x y) p).
      { unfold load_form, source_form. rewrite <- rsum_minus. apply rsum_ext. intros i Hi. change (hc_weights (hcell c)) with (cf_weights (forms c)). unfold at_q, hc_at, planar. change (hc_points (hcell c)) with (cf_points (forms c)). change (hc_V (hcell c)) with (cf_U (forms c)).
        destruct (forms_same gt lob junk lu llt k ref m info geometry VM c true Hc) as (_ & _ & SV & _). rewrite (SV eq_refl i p Hi); [ring|]. destruct (forms_ok gt lob junk lu llt k ref m info geometry VM c Hc) as (CF & _). rewrite (ce_size' _ _ _ _ _ _ CF). exact Hp. }
      lra.
    + split; intros x y z; destruct (EQ x y z) as (Q0 & Q1 & Q2); cbn [Nat.eqb orb]; [rewrite Q0; ring|rewrite Q1; ring|rewrite Q2; ring].
  - intros c i Hci HWk. apply (weak_flux gt lob junk lu llt k ref m info geometry VM data c i r g0 g0x g0y g1 g1x g1y h gauss B); auto.
  - intros ci Hci HSt. apply (strong_flux gt lob lu llt k ref m info geometry VM data HC); auto.
Qed.

(** the boundary values assembled at a time are the strong unknowns of the function *)
Lemma heat_strong f g uD uS : dirichlet_data info mesh f g -> covered info mesh -> evaluate_function_on_dofs m data k create (planar f) = Ok (uD, uS) ->
  assemble_strong_solution (all_active m) info data 2 create g = Ok uS.
Proof using VM HC.
  intros [DD NS] CO EV. destruct (interpolant gt lob junk lu llt k ref m info geometry VM data HC f) as (uD' & uS' & EV' & LD & LS & HU). rewrite EV in EV'. injection EV' as <- <-.
  pose proof (edges_agree gt lob junk lu llt k ref m info geometry VM) as EA.
  destruct (strong_result (all_active m) info data HC HN 2 create g (pt ref m)) as (uS' & E & LS' & HS).
  { intros c v Hc _ Hv _. pose proof (vm_vertex_dofs _ _ _ _ _ _ _ _ _ VM c v Hc Hv) as RV. rewrite RV. apply le_n. }
  { intros _ c Hc _. destruct (EA c Hc eq_refl) as (sp & Es & H). exists sp. split; [exact Es|]. intros ed e He _. apply (H ed e He Logic.I). }
  rewrite E. f_equal. apply nth_ext with (d := 0) (d' := 0); [congruence|]. intros t Ht. rewrite LS' in Ht.
  destruct (strong_unknown info mesh data t HC Ht) as (h & x & Vh & Lx & Tx & Ix). destruct (covered_cell info mesh h HN CO Vh) as (c & Hc & G).
  destruct (closure_valid m info data c h HC HN Hc G) as (_ & PL). destruct Vh as (V1 & V2 & V3).
  destruct (valid_lookup 2 info mesh data ltac:(lia) HC h (conj V1 (conj V2 V3))) as (x' & t' & Lx' & Bt & Cs). rewrite Lx in Lx'. injection Lx' as <-.
  destruct Cs as [(-> & _ & _)|(_ & T & _)]; [|congruence].
  destruct (HS (g_dim h) (g_cell h) (g_dof h) V1 V2 V3 Bt) as (x' & Lx' & _ & RV & _). rewrite entity_eta, Lx in Lx'. injection Lx' as <-. rewrite Ix in RV.
  apply In_nth_error in G. destruct G as (p & Hp). destruct (HU c Hc) as (u & Eu & Su & Hu). specialize (Hu p h Hp).
  destruct (local_solution_ok m info data HC HN c uD uS Hc LD LS) as (u' & Eu' & _ & Hv). rewrite Eu in Eu'. injection Eu' as <-. specialize (Hv p h Hp).
  unfold value_of in Hv. rewrite Lx, Tx, Ix in Hv. rewrite (nth_error_nth _ _ 0 Hv), Hu.
  assert (D : g_dim h <> 2%nat). { intros D. destruct PL as [(D' & _)|[(D' & _)|(_ & D')]]; [lia|lia|]. apply (NS c Hc). unfold strong_entity. rewrite <- D', <- D. exact Bt. }
  assert (RS : receives_strong (all_active m) info 2 (g_dim h) (g_cell h)).
  { split; [exact Bt|]. exists c. split; [exact Hc|]. split; [reflexivity|]. destruct PL as [PL|[(D' & PL)|(D' & _)]]; [left; exact PL|right|congruence]. split; [exact D'|]. split; [apply le_n|exact PL]. }
  rewrite (nth_error_nth _ _ 0 (RV RS)). unfold strong_value, dof_value, at_point, planar.
  destruct (g_dim h) as [|[|]] eqn:ED'; [| |lia]; (rewrite DD; [reflexivity|lia|exact Bt]).
Qed.

Lemma interpolant_values f uD uS : evaluate_function_on_dofs m data k create (planar f) = Ok (uD, uS) ->
  length uD = NumberDOFs data /\ length uS = NumberStrongs data /\ local_values data uD uS (fun c => dofs_of ref (loc c) f) m.
Proof using VM HC.
  intros EV. destruct (interpolant gt lob junk lu llt k ref m info geometry VM data HC f) as (uD' & uS' & EV' & LD & LS & HU). rewrite EV in EV'. injection EV' as <- <-.
  split; [exact LD|]. split; [exact LS|]. intros c Hc. destruct (HU c Hc) as (u & Eu & Su & Hu). exists u. split; [exact Eu|]. intros j Hj. rewrite Su in Hj. unfold mesh in Hj.
  destruct (nth_error (closure_dofs info (md_mesh m) 2 c) j) as [h'|] eqn:Eh; [|apply nth_error_None in Eh; lia].
  rewrite (Hu j h' Eh). apply (dofs_places gt lob junk lu llt k ref m info geometry VM f c j h' Hc Eh).
Qed.

Lemma dofs_lin l f g a b j : dofs_of ref l (fun x y => a * f x y + b * g x y) j = a * dofs_of ref l f j + b * dofs_of ref l g j.
Proof using.
  clear. unfold dofs_of. destruct (j <? _)%nat; [reflexivity|]. unfold apply_rule. cbv zeta.
  match goal with |- ?c * rsum ?n _ = _ => match goal with |- _ = a * (_ * rsum _ ?F) + b * (_ * rsum _ ?G) => transitivity (c * rsum n (fun q => a * F q + b * G q)) end end.
  - f_equal. apply rsum_ext. intros. ring.
  - rewrite rsum_plus, !rsum_scal. ring.
Qed.

(** two steps from the same report with the same data are the same *)
Lemma theta_unique kappa dt theta load load' d d' e' : regular_step m data hcreate kappa (dt * theta) ->
  length (sd_solution d) = NumberDOFs data -> length (sd_dirichlet d) = NumberStrongs data -> length (sd_solution d') = NumberDOFs data -> length (sd_dirichlet d') = NumberStrongs data ->
  length (sd_solution e') = NumberDOFs data -> sd_dirichlet e' = sd_dirichlet d' ->
  theta_step info m data hcell kappa (hk kappa) dt theta load load' d d' -> theta_step info m data hcell kappa (hk kappa) dt theta load load' d e' -> sd_solution d' = sd_solution e'.
Proof using VM HC.
  intros RG Lu LD Lu' LD' Le EE H1 H2.
  destruct (static_ok m info data HC HN hcreate hcell (hcell_size gt lob junk lu llt k ref m info geometry VM) kappa (hk kappa) (hk_ok gt lob junk lu llt k ref m info geometry VM kappa)) as (A & M & EA & _ & _).
  pose proof (theta_rows m info data HC HN hcreate hcell (hcell_size gt lob junk lu llt k ref m info geometry VM) kappa (hk kappa) (hk_ok gt lob junk lu llt k ref m info geometry VM kappa) A M EA dt theta load load') as TR.
  rewrite (TR d d' Lu LD Lu' LD') in H1. rewrite (TR d e' Lu LD Le ltac:(congruence)) in H2.
  apply nth_ext with (d := 0) (d' := 0); [congruence|]. intros j Hj. rewrite Lu' in Hj.
  pose proof (RG A M EA (fun j => nth j (sd_solution d') 0 - nth j (sd_solution e') 0)) as Z. cut (nth j (sd_solution d') 0 - nth j (sd_solution e') 0 = 0); [lra|]. apply Z; [|exact Hj]. clear Z j Hj.
  intros r Hr. specialize (H1 r Hr). specialize (H2 r Hr). unfold operator_row in H1, H2. rewrite Lu', LD' in H1. rewrite Le, EE, LD' in H2.
  set (X := rsum (NumberDOFs data) (fun j => entry (trip_DOFs A) r j * nth j (sd_solution d') 0)) in *. set (X' := rsum (NumberDOFs data) (fun j => entry (trip_DOFs A) r j * nth j (sd_solution e') 0)) in *.
  set (Y := rsum (NumberDOFs data) (fun j => entry (trip_DOFs M) r j * nth j (sd_solution d') 0)) in *. set (Y' := rsum (NumberDOFs data) (fun j => entry (trip_DOFs M) r j * nth j (sd_solution e') 0)) in *.
  transitivity (dt * theta * (X - X') + (Y - Y')); [|lra]. unfold X, X', Y, Y'. rewrite <- !rsum_minus, <- rsum_scal, <- rsum_plus. apply rsum_ext. intros; ring.
Qed.

(** the step is exact when the increment of the polynomial is the weighted rate *)
Lemma step_exact kappa dt theta gauss B F F' g g' h h' q qx qy v q' qx' qy' v' d d' :
  heat_polynomial k info mesh geometry kappa F g h q qx qy v -> heat_polynomial k info mesh geometry kappa F' g' h' q' qx' qy' v' ->
  (forall x y, q' x y - q x y = dt * (theta * v' x y + (1 - theta) * v x y)) -> closed_boundary info mesh geometry -> exact_interval (2 * k - 1) gauss ->
  (forall w q, (q < v_size (q_Weights gauss))%nat -> rsum (k + 1)%nat (fun i => w i * m_at B q i) = interp (k + 1) (edge_nodes ref) w (m_at (q_Points gauss) 0%nat q)) ->
  evaluate_function_on_dofs m data k create (planar q) = Ok (sd_solution d, sd_dirichlet d) -> evaluate_function_on_dofs m data k create (planar q') = Ok (sd_solution d', sd_dirichlet d') ->
  theta_step info m data hcell kappa (hk kappa) dt theta (load_row info m data geometry gauss hcell (fun _ => B) F h) (load_row info m data geometry gauss hcell (fun _ => B) F' h') d d'.
Proof using VM HC.
  intros HP HP' INC CL EX HB EV EV'. destruct (interpolant_values q _ _ EV) as (_ & _ & HL). destruct (interpolant_values q' _ _ EV') as (_ & _ & HL').
  exists (fun c => dofs_of ref (loc c) q), (fun c => dofs_of ref (loc c) q'). split; [exact HL|]. split; [exact HL'|]. intros r Hr.
  rewrite <- (heat_patch kappa (hk kappa) F h g gauss B q qx qy v HP CL EX HB r), <- (heat_patch kappa (hk kappa) F' h' g' gauss B q' qx' qy' v' HP' CL EX HB r).
  rewrite (cells_row_ext m info data (fun c => mass_form (hcell c) (fun j => dofs_of ref (loc c) q' j - dofs_of ref (loc c) q j)) (fun c p => (dt * theta) * mass_form (hcell c) (dofs_of ref (loc c) v') p + (dt * (1 - theta)) * mass_form (hcell c) (dofs_of ref (loc c) v) p)).
  2:{ intros c p Hc. rewrite <- mass_lin. apply mass_ext; intros j _; rewrite <- dofs_lin; (transitivity (dofs_of ref (loc c) (fun x y => 1 * q' x y + (-1) * q x y) j); [rewrite dofs_lin; ring|]); apply dofs_ext; intros x y; specialize (INC x y); lra. }
  rewrite (cells_row_ext m info data (fun c => stiffness_form (hcell c) kappa (hk kappa c) (fun j => theta * dofs_of ref (loc c) q' j + (1 - theta) * dofs_of ref (loc c) q j)) (fun c p => theta * stiffness_form (hcell c) kappa (hk kappa c) (dofs_of ref (loc c) q') p + (1 - theta) * stiffness_form (hcell c) kappa (hk kappa c) (dofs_of ref (loc c) q) p)).
  2:{ intros c p Hc. rewrite <- stiffness_lin. reflexivity. }
  rewrite (cells_row_lin info m data (dt * theta) (dt * (1 - theta)) (fun c => mass_form (hcell c) (dofs_of ref (loc c) v')) (fun c => mass_form (hcell c) (dofs_of ref (loc c) v))).
  rewrite (cells_row_lin info m data theta (1 - theta) (fun c => stiffness_form (hcell c) kappa (hk kappa c) (dofs_of ref (loc c) q')) (fun c => stiffness_form (hcell c) kappa (hk kappa c) (dofs_of ref (loc c) q))). ring.
Qed.

Lemma run_exact solver pb dt theta gauss t0 ts (q qx qy v : nat -> R -> R -> R) : exact_solver solver -> regular_step m data hcreate (pb_diffusion pb) (dt * theta) -> covered info mesh ->
  Cell0Ds_number mesh = num_cells info 0 -> closed_boundary info mesh geometry -> exact_interval (2 * k - 1) gauss ->
  (forall i t, nth_error (t0 :: ts) i = Some t -> heat_polynomial k info mesh geometry (pb_diffusion pb) (fun x y z => pb_source pb x y z t) (fun i x y z => pb_strong pb i x y z t) (fun i x y z => pb_weak pb i x y z t) (q i) (qx i) (qy i) (v i)) ->
  (forall i x y, (i < length ts)%nat -> q (S i) x y - q i x y = dt * (theta * v (S i) x y + (1 - theta) * v i x y)) ->
  (forall x y z, pb_initial pb x y z = q 0%nat x y) ->
  exists ds, run solver m info data geometry gauss k hcreate pb dt theta (t0 :: ts) = Ok ds /\ length ds = length (t0 :: ts) /\
  forall i t d, nth_error (t0 :: ts) i = Some t -> nth_error ds i = Some d ->
    evaluate_function_on_dofs m data k (spaces hcreate) (planar (q i)) = Ok (sd_solution d, sd_dirichlet d) /\
    ((forall x y z j, pb_exact pb x y z t = q i x y /\ pb_gradient pb x y z t j = planar_gradient (qx i) (qy i) x y z j) -> pe_error (sd_L2 d) = 0 /\ pe_error (sd_H1 d) = 0).
Proof using VM HC.
  intros HS RG CO HN0 CL EX HP INC IN. destruct (weak_cells gauss (proj1 EX)) as (B & HW & HB).
  destruct (interpolant gt lob junk lu llt k ref m info geometry VM data HC (q 0%nat)) as (u0 & uD0 & EI & L0 & LD0 & _).
  assert (IE : pb_initial pb = planar (q 0%nat)) by (do 3 (apply functional_extensionality; intro); apply IN).
  destruct (run_ok m info data HC HN HN0 hcreate hcell (hcell_size gt lob junk lu llt k ref m info geometry VM) geometry gauss (fun _ => B) HW (proj1 EX) (pt ref m)) with (solver := solver) (order := k) (pb := pb) (dt := dt) (theta := theta)
    (kk := hk (pb_diffusion pb)) (u0 := u0) (uD0 := uD0) (t0 := t0) (ts := ts) as (ds & ER & LL & (d0 & E0 & S0 & SD0) & RP & ST); auto.
  { intros c w Hc Hw. pose proof (vm_vertex_dofs _ _ _ _ _ _ _ _ _ VM c w Hc Hw) as RV. rewrite RV. apply le_n. }
  { rewrite hspaces. apply (edges_agree gt lob junk lu llt k ref m info geometry VM). }
  { apply (hk_ok gt lob junk lu llt k ref m info geometry VM). }
  { unfold ComputeInitalCondition. rewrite hspaces, IE. exact EI. }
  exists ds. split; [exact ER|]. split; [exact LL|].
  assert (EV : forall i t d, nth_error (t0 :: ts) i = Some t -> nth_error ds i = Some d -> evaluate_function_on_dofs m data k create (planar (q i)) = Ok (sd_solution d, sd_dirichlet d)).
  { induction i as [|i IH]; intros t d Ht Hd.
    - rewrite E0 in Hd. injection Hd as <-. rewrite S0, SD0. exact EI.
    - assert (Li : (S i < length (t0 :: ts))%nat) by (apply nth_error_Some; congruence).
      destruct (nth_error (t0 :: ts) i) as [t'|] eqn:Et; [|apply nth_error_None in Et; lia]. destruct (nth_error ds i) as [d'|] eqn:Ed; [|apply nth_error_None in Ed; lia].
      specialize (IH t' d' eq_refl eq_refl). destruct (ST i t' t d' d Et Ht Ed Hd) as (TS & _ & DS). rewrite hspaces in DS.
      destruct (interpolant gt lob junk lu llt k ref m info geometry VM data HC (q (S i))) as (u & uD & EU & LU & LUD & _).
      assert (ED : uD = sd_dirichlet d). { pose proof (heat_strong (q (S i)) _ u uD (hp_strong _ _ _ _ _ _ _ _ _ _ _ _ (HP (S i) t Ht)) CO EU) as DS'. rewrite DS in DS'. injection DS' as DS'. congruence. }
      set (e := {| sd_solution := u; sd_dirichlet := uD; sd_residual := 0; sd_vertices := sd_vertices d; sd_L2 := sd_L2 d; sd_H1 := sd_H1 d |}).
      destruct (RP (S i) t d Ht Hd) as (Ld & LDd & _). destruct (RP i t' d' Et Ed) as (Ld' & LDd' & _).
      assert (EE : sd_solution d = sd_solution e).
      { apply (theta_unique (pb_diffusion pb) dt theta _ _ d' d e RG Ld' LDd' Ld LDd LU ED TS).
        apply (step_exact (pb_diffusion pb) dt theta gauss B _ _ _ _ _ _ _ _ _ _ _ _ _ _ d' e (HP i t' Et) (HP (S i) t Ht)); auto. intros x y. apply INC. simpl in Li. lia. }
      rewrite EU, EE. unfold e. cbn [sd_solution]. congruence. }
  intros i t d Ht Hd. rewrite hspaces. split; [apply (EV i t d Ht Hd)|]. intros EXA. destruct (RP i t d Ht Hd) as (_ & _ & _ & RL & RH). specialize (EV i t d Ht Hd).
  assert (X1 : (fun x y z => pb_exact pb x y z t) = planar (q i)) by (do 3 (apply functional_extensionality; intro); apply (EXA _ _ _ 0%nat)).
  assert (X2 : (fun x y z j => pb_gradient pb x y z t j) = planar_gradient (qx i) (qy i)) by (do 4 (apply functional_extensionality; intro); apply EXA).
  rewrite hspaces in RL, RH. rewrite X1 in RL. rewrite X2 in RH. 
  destruct (interpolant gt lob junk lu llt k ref m info geometry VM data HC (q i)) as (u & uD & EU & _ & _ & HU). rewrite EV in EU. injection EU as <- <-.
  destruct (zero_errors gt lob junk lu llt k ref (all_active m) info geometry (all_active_mesh _ _ _ _ _ _ _ _ _ VM) data HC (q i) (qx i) (qy i) _ _ (hp_value _ _ _ _ _ _ _ _ _ _ _ _ (HP i t Ht)) HU) as (rL & rH & EL & ZL & EH & ZH).
  rewrite RL in EL. injection EL as <-. rewrite RH in EH. injection EH as <-. auto.
Qed.
End Exact.
