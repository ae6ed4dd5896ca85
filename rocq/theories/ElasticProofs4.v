(** The kernel of the cell matrix of the virtual element: exactly the rigid motions. *)
From Coq Require Import List Arith Bool Reals Lia Lra.
From Verif Require Import Base RSum MatrixModel EquationModel EquationSpec GreenSpec VemQuadModel VemQuadSpec VemQuadProofs VemModel VemSpec VemProofs VemProofs2 VemProofs3 VemProofs4 VemProofs5 GreenProofs RtProofs PolyProofs DriverModel ElasticModel ElasticSpec ElasticProofs ElasticProofs2 ElasticProofs3.
Import ListNotations.
Local Open Scope R_scope.

(** polynomial displacements without strain are rigid *)
Lemma no_strain n f fx fy g gx gy : poly2 n f fx fy -> poly2 n g gx gy ->
  (forall x y, fx x y = 0) -> (forall x y, gy x y = 0) -> (forall x y, fy x y + gx x y = 0) ->
  exists a c r, (forall x y, f x y = a - r * y) /\ forall x y, g x y = c + r * x.
Proof.
  intros Pf Pg Zf Zg Zs.
  assert (Ff : forall x y, f x y = f 0 y).
  { intros x y. apply (constant (fun t => f t y) (fun t => fx t y)); [|intros; apply Zf]. intros t. apply (poly2_partials _ _ _ _ t y Pf). }
  assert (Gg : forall x y, g x y = g x 0).
  { intros x y. apply (constant (fun t => g x t) (fun t => gy x t)); [|intros; apply Zg]. intros t. apply (poly2_partials _ _ _ _ x t Pg). }
  assert (Fy : forall x y, fy x y = fy 0 y).
  { intros x y. apply (uniqueness_limite (fun t => f x t) y); [apply (poly2_partials _ _ _ _ x y Pf)|].
    eapply derivable_pt_lim_ext; [|apply (poly2_partials _ _ _ _ 0 y Pf)]. intros t. cbv beta. symmetry. apply Ff. }
  assert (Gx : forall x y, gx x y = gx x 0).
  { intros x y. apply (uniqueness_limite (fun t => g t y) x); [apply (poly2_partials _ _ _ _ x y Pg)|].
    eapply derivable_pt_lim_ext; [|apply (poly2_partials _ _ _ _ x 0 Pg)]. intros t. cbv beta. symmetry. apply Gg. }
  set (r := gx 0 0).
  assert (Fr : forall x y, fy x y = - r). { intros x y. rewrite Fy. pose proof (Zs 0 y) as Z. rewrite Gx in Z. fold r in Z. lra. }
  assert (Gr : forall x y, gx x y = r). { intros x y. pose proof (Zs x y) as Z. rewrite Fr in Z. lra. }
  exists (f 0 0), (g 0 0), r. split; intros x y.
  - rewrite Ff. enough (E : f 0 y + r * y = f 0 0 + r * 0) by lra.
    apply (constant (fun t => f 0 t + r * t) (fun t => fy 0 t + r)); [|intros; rewrite Fr; lra]. intros t.
    apply derivable_pt_lim_plus; [apply (poly2_partials _ _ _ _ 0 t Pf)|]. replace r with (r * 1) at 2 by ring. apply (derivable_pt_lim_scal (fun t => t)). apply derivable_pt_lim_id.
  - rewrite Gg. enough (E : g x 0 + - r * x = g 0 0 + - r * 0) by lra.
    apply (constant (fun t => g t 0 + - r * t) (fun t => gx t 0 + - r)); [|intros; rewrite Gr; lra]. intros t.
    apply derivable_pt_lim_plus; [apply (poly2_partials _ _ _ _ t 0 Pg)|]. replace (- r) with (- r * 1) at 2 by ring. apply (derivable_pt_lim_scal (fun t => t)). apply derivable_pt_lim_id.
Qed.

Section Vem.
Variables (gt lob : nat -> QuadratureData) (junk : nat -> nat -> R) (lu llt : Solver) (k : nat) (p : Polygon) (ref : VEM_2D_Reference) (l : VEM_2D_Local).
Hypothesis VS : vem_space gt lob junk lu llt k p ref l.
Variable sp : LocalSpace.
Hypothesis U : vem_scalar l sp.
Local Notation N := (lv_NumBasisFunctions l). Local Notation Q := (lv_InternalQuadrature l).
Local Notation d1 := (dofs_of ref l (fun _ _ => 1)). Local Notation dx := (dofs_of ref l (fun x _ => x)). Local Notation dy := (dofs_of ref l (fun _ y => y)).

Lemma vanish_points e ex ey : poly2 k e ex ey ->
  (forall q, (q < v_size (q_Weights Q))%nat -> e (m_at (q_Points Q) 0 q) (m_at (q_Points Q) 1 q) = 0) -> forall x y, e x y = 0.
Proof.
  intros Pe Z. destruct (I_square gt lob k p lu llt l (vs_rules _ _ _ _ _ _ _ _ _ VS) (vs_polygon _ _ _ _ _ _ _ _ _ VS) (LF gt lob junk lu llt k p ref l VS) e ex ey Pe) as (_ & H).
  apply H. unfold fI, apply_rule. apply rsum_0. intros q Hq. rewrite (Z q Hq). ring.
Qed.
Lemma dofs_ext f g j : (forall x y, f x y = g x y) -> dofs_of ref l f j = dofs_of ref l g j.
Proof.
  intros H. unfold dofs_of. destruct (j <? _)%nat; [apply H|]. f_equal. unfold apply_rule. apply rsum_ext. intros q _. cbv zeta. rewrite H. reflexivity.
Qed.
Lemma dofs_lin f g a b j : dofs_of ref l (fun x y => a * f x y + b * g x y) j = a * dofs_of ref l f j + b * dofs_of ref l g j.
Proof.
  unfold dofs_of. destruct (j <? _)%nat; [reflexivity|]. cbv zeta. unfold apply_rule.
  match goal with |- ?m * rsum _ _ = a * (?m * ?A) + b * (?m * ?B) => transitivity (m * (a * A + b * B)); [|ring] end.
  f_equal. rewrite <- !rsum_scal, <- rsum_plus. apply rsum_ext. intros q _. ring.
Qed.

(** positive weights *)
Lemma vem_rule : PolygonInternalQuadrature (gt (2 * k)%nat) (pg_TriangulationVertices p) = Ok Q.
Proof.
  pose proof (vs_local _ _ _ _ _ _ _ _ _ VS) as E. unfold VEM_PCC_2D_CreateLocalSpace in E.
  apply bind_Ok in E. destruct E as (IQ & EI & E).
  repeat (apply bind_Ok in E; destruct E as (? & _ & E); try (destruct x as [[? ?] ?]; cbn beta iota in E)); repeat match type of E with context [let '(_, _) := ?x in _] => destruct x end.
  repeat (apply bind_Ok in E; destruct E as (? & _ & E); repeat match type of E with context [let '(_, _) := ?x in _] => destruct x end).
  injection E as <-. cbn [lv_InternalQuadrature].
  destruct (reference_ok gt lob k (vs_order _ _ _ _ _ _ _ _ _ VS) (vs_rules _ _ _ _ _ _ _ _ _ VS)) as (ref' & ER & RF). rewrite (vs_reference _ _ _ _ _ _ _ _ _ VS) in ER. injection ER as <-.
  rewrite <- EI. f_equal. symmetry. apply (rf_tri _ _ _ RF).
Qed.
Lemma vem_weights : (forall q, (q < v_size (q_Weights (gt (2 * k)%nat)))%nat -> 0 < v_at (q_Weights (gt (2 * k)%nat)) q) ->
  (forall T, In T (pg_TriangulationVertices p) -> 0 < signed_area T) -> forall q, (q < v_size (q_Weights Q))%nat -> 0 < v_at (q_Weights Q) q.
Proof.
  intros PW PT q Hq. destruct (gr_triangle _ _ _ (vs_rules _ _ _ _ _ _ _ _ _ VS)) as [T1 T2].
  destruct (gp_triangulation _ (vs_polygon _ _ _ _ _ _ _ _ _ VS)) as (TR & _).
  destruct (VemQuadProofs.internal_ok (gt (2 * k)%nat) (pg_TriangulationVertices p) T1 T2 TR) as (r & Er & _ & _ & Sr & Hr).
  rewrite vem_rule in Er. injection Er as <-. rewrite Sr in Hq. set (nq := m_cols (q_Points (gt (2 * k)%nat))) in *.
  assert (NQ : (0 < nq)%nat) by nia. pose proof (Nat.div_mod q nq ltac:(lia)) as DM. pose proof (Nat.mod_upper_bound q nq ltac:(lia)) as MB.
  assert (DB : (q / nq < length (pg_TriangulationVertices p))%nat) by (apply Nat.div_lt_upper_bound; lia).
  destruct (nth_error (pg_TriangulationVertices p) (q / nq)) as [T|] eqn:ET; [|apply nth_error_None in ET; lia].
  destruct (Hr _ (q mod nq) T ET MB) as [_ HW]. rewrite <- DM in HW. rewrite HW. replace (tri_det T) with (2 * signed_area T) by (unfold tri_det, signed_area, cross; cbv zeta; field).
  pose proof (PT T (nth_error_In _ _ ET)) as PA. rewrite Rabs_right by lra. apply Rmult_lt_0_compat; [apply PW; rewrite T2; exact MB|lra].
Qed.

Variable P : ElasticProblem.
Section Positive.
Hypothesis W : forall q, (q < v_size (q_Weights Q))%nat -> 0 < v_at (q_Weights Q) q /\ 0 < at_quadrature Q (el_mu P) q /\ 0 <= at_quadrature Q (el_lambda P) q.

Lemma vem_kernel A b : elastic_cell sp P = Ok (A, b) ->
  (forall u, 0 <= bilinear (2 * N) A u u) /\
  forall u, bilinear (2 * N) A u u = 0 -> exists a c r, forall j, (j < 2 * N)%nat -> u j = rigid N d1 dx dy a c r j.
Proof.
  intros E. destruct (vem_element gt lob junk lu llt k p ref l VS sp U) as (V & D0 & D1 & S & SE & S3 & S4 & F).
  assert (W0 : forall q, (q < v_size (q_Weights Q))%nat -> 0 <= v_at (q_Weights Q) q /\ 0 <= at_quadrature Q (el_mu P) q /\ 0 <= at_quadrature Q (el_lambda P) q).
  { intros q Hq. destruct (W q Hq) as (? & ? & ?). repeat split; lra. }
  split; [exact (cell_nonneg sp N Q V D0 D1 S P A b SE E W0 S4)|]. intros u Zu.
  destruct (cell_zero_energy sp N Q V D0 D1 S P A b SE E W0 S4 u (fun q Hq => conj (proj1 (W q Hq)) (proj1 (proj2 (W q Hq)))) Zu) as (Zs & Zb).
  (* the unknowns are those of polynomials *)
  destruct (stabilization_all gt lob junk lu llt k p ref l VS PiNabla_t (or_introl eq_refl)) as (S' & ES & R1' & R2' & _ & _ & R5').
  destruct (se_stabilization _ _ _ _ _ _ _ SE) as (ES' & _). destruct U as (_ & _ & _ & U4). rewrite U4, ES in ES'. injection ES' as ->.
  assert (POLY : forall d, (d < 2)%nat -> exists f fx fy, poly2 k f fx fy /\ forall j, (j < N)%nat -> u (d * N + j)%nat = dofs_of ref l f j).
  { intros d Hd. destruct (quadrature_values_all gt lob junk lu llt k p ref l VS) as (_ & _ & (A0 & A1 & _ & _ & _ & _ & _ & G) & _).
    destruct (G (half N d u)) as (gx & gy & PG & _). exists (projected ref l (lv_PiNabla l) (half N d u)), gx, gy. split; [exact PG|]. intros j Hj.
    pose proof (Zb d Hd) as Z. unfold bilinear in Z. specialize (R5' (half N d u)). rewrite R1', R2', Z, Rmult_1_l in R5'. symmetry in R5'.
    pose proof (rsum_zero_each N _ (fun i _ => pow2_ge_0 _) R5' j Hj) as Zj. cbv beta in Zj. unfold half in Zj at 2.
    assert (Hz : dofs_of ref l (projected ref l (lv_PiNabla l) (half N d u)) j - u (d * N + j)%nat = 0) by (apply Rsqr_0_uniq; unfold Rsqr; rewrite <- Zj; ring). lra. }
  destruct (POLY 0%nat ltac:(lia)) as (f & fx & fy & Pf & Hf). destruct (POLY 1%nat ltac:(lia)) as (g & gx & gy & Pg & Hg).
  destruct (F _ _ _ Pf) as (Ff & _). destruct (F _ _ _ Pg) as (Fg & _).
  assert (GR : forall q, gradient N D0 D1 u 0 0 q = fx (m_at (q_Points Q) 0 q) (m_at (q_Points Q) 1 q) /\ gradient N D0 D1 u 0 1 q = fy (m_at (q_Points Q) 0 q) (m_at (q_Points Q) 1 q) /\
    gradient N D0 D1 u 1 0 q = gx (m_at (q_Points Q) 0 q) (m_at (q_Points Q) 1 q) /\ gradient N D0 D1 u 1 1 q = gy (m_at (q_Points Q) 0 q) (m_at (q_Points Q) 1 q)).
  { intros q. destruct (Ff q) as (_ & <- & <-). destruct (Fg q) as (_ & <- & <-). unfold gradient.
    repeat split; apply rsum_ext; intros j Hj; rewrite ?Hf, ?Hg by exact Hj; reflexivity. }
  assert (Vx : forall x y, fx x y = 0).
  { destruct (poly2_dx _ _ _ _ Pf) as (a1 & a2 & Pa). apply (vanish_points fx a1 a2); [apply (poly2_le (k - 1) k); [lia|exact Pa]|]. intros q Hq.
    pose proof (Zs q 0%nat 0%nat Hq ltac:(lia) ltac:(lia)) as Z. unfold strain in Z. destruct (GR q) as (G1 & _). rewrite G1 in Z. lra. }
  assert (Vy : forall x y, gy x y = 0).
  { destruct (poly2_dy _ _ _ _ Pg) as (a1 & a2 & Pa). apply (vanish_points gy a1 a2); [apply (poly2_le (k - 1) k); [lia|exact Pa]|]. intros q Hq.
    pose proof (Zs q 1%nat 1%nat Hq ltac:(lia) ltac:(lia)) as Z. unfold strain in Z. destruct (GR q) as (_ & _ & _ & G1). rewrite G1 in Z. lra. }
  assert (Vs : forall x y, fy x y + gx x y = 0).
  { destruct (poly2_dy _ _ _ _ Pf) as (a1 & a2 & Pa). destruct (poly2_dx _ _ _ _ Pg) as (b1 & b2 & Pb).
    apply (vanish_points (fun x y => fy x y + gx x y) (fun x y => a1 x y + b1 x y) (fun x y => a2 x y + b2 x y)); [apply (poly2_le (k - 1) k); [lia|apply poly2_add; auto]|]. intros q Hq.
    pose proof (Zs q 0%nat 1%nat Hq ltac:(lia) ltac:(lia)) as Z. unfold strain in Z. destruct (GR q) as (_ & G1 & G2 & _). rewrite G1, G2 in Z. lra. }
  destruct (no_strain k f fx fy g gx gy Pf Pg Vx Vy Vs) as (a & c & r & Ef & Eg). exists a, c, r. intros j Hj. unfold rigid.
  destruct (Nat.ltb_spec j N) as [Lj|Lj].
  - replace (u j) with (u (0 * N + j)%nat) by (f_equal; lia). rewrite (Hf j Lj). rewrite (dofs_ext f (fun x y => a * 1 + - r * y) j) by (intros; rewrite Ef; ring).
    rewrite (dofs_lin (fun _ _ => 1) (fun _ y => y)). ring.
  - replace (u j) with (u (1 * N + (j - N))%nat) by (f_equal; lia). rewrite (Hg (j - N)%nat) by lia. rewrite (dofs_ext g (fun x y => c * 1 + r * x)) by (intros; rewrite Eg; ring).
    rewrite (dofs_lin (fun _ _ => 1) (fun x _ => x)). ring.
Qed.
End Positive.

Lemma vem_kernel_all : (forall q, (q < v_size (q_Weights (gt (2 * k)%nat)))%nat -> 0 < v_at (q_Weights (gt (2 * k)%nat)) q) ->
  (forall T, In T (pg_TriangulationVertices p) -> 0 < signed_area T) -> (forall x y z, 0 < el_mu P x y z /\ 0 <= el_lambda P x y z) ->
  exists A b, elastic_cell sp P = Ok (A, b) /\ (forall u, 0 <= bilinear (2 * N) A u u) /\
  forall u, bilinear (2 * N) A u u = 0 <-> exists a c r, forall j, (j < 2 * N)%nat -> u j = rigid N d1 dx dy a c r j.
Proof.
  intros PW PT PC. destruct (vem_elastic gt lob junk lu llt k p ref l VS sp U P) as (V & D0 & D1 & S & A & b & _ & E & _ & _ & K).
  exists A, b. split; [exact E|].
  assert (W : forall q, (q < v_size (q_Weights Q))%nat -> 0 < v_at (q_Weights Q) q /\ 0 < at_quadrature Q (el_mu P) q /\ 0 <= at_quadrature Q (el_lambda P) q).
  { intros q Hq. split; [apply vem_weights; auto|]. apply PC. }
  destruct (vem_kernel W A b E) as (NN & KK). split; [exact NN|]. intros u. split; [apply KK|].
  intros (a & c & r & H). unfold bilinear. apply rsum_0. intros i Hi. rewrite <- (Rmult_0_r (u i)). rewrite <- (K a c r i Hi), <- rsum_scal.
  apply rsum_ext. intros j Hj. rewrite (H j Hj). ring.
Qed.
End Vem.
