(** The driver of the elliptic problem on networks of segments: patch test and unique solvability. *)
From Coq Require Import List Arith Bool Reals Lra Lia Permutation.
From Verif Require Import Base RSum MatrixModel DofsModel DofsSpec DofsProofs DofsProofs2 AssemblerModel AssemblerSpec AssemblerProofs AssemblerProofs2
  EquationModel EquationSpec EquationProofs VemQuadModel VemQuadSpec VemModel VemSpec DriverModel DriverSpec DriverSpec2 DriverProofs DriverProofs2 DriverProofs3 DriverProofs4
  DriverProofs5 DriverProofs6 DriverProofs7 LagrangeModel LagrangeSpec LagrangeProofs LagrangeProofs2 Mcc2dModel Mcc2dProofs3 ParabolicModel Elliptic1dModel Elliptic1dSpec Elliptic1dProofs Elliptic1dProofs2
  Elliptic1dProofs3 VemProofs3 Pcc2dProofs4 RtProofs GreenSpec GreenProofs.
Import ListNotations.
Local Open Scope R_scope.

(** ** Rules *)
Lemma exact_rule_segment N Q : exact_rule N Q -> exact_segment N (0, 0) (q_Points Q) (q_Weights Q).
Proof. intros H a Ha. cbn [fst snd]. rewrite <- (H a Ha). unfold rule_point. ring. Qed.
Lemma rule_ftc N Q F dF : exact_rule N Q -> is_poly (S (S N)) F -> (forall t, derivable_pt_lim F t (dF t)) ->
  apply_rule (q_Weights Q) (fun q => dF (rule_point Q q)) = F 1 - F 0.
Proof.
  intros EX PF DF. destruct (is_poly_poly2 (S N) F PF) as (g & P2).
  assert (E := Q_int (0, 0) (q_Points Q) (q_Weights Q) N (exact_rule_segment N Q EX) _ _ _ 0 P2). cbv beta in E. rewrite <- E. unfold GreenProofs.Q. cbn [fst snd].
  rewrite !Rmult_0_l, !Rplus_0_l. apply rsum_ext. intros q Hq. f_equal. unfold rule_point.
  apply (uniqueness_limite F (m_at (q_Points Q) 0 q)); [apply DF|]. apply (poly2_partials _ _ _ _ _ 0 P2).
Qed.
Lemma is_poly_derivative n : forall f, is_poly (S n) f -> exists df, is_poly n df /\ forall t, derivable_pt_lim f t (df t).
Proof.
  induction n as [|n IH]; intros f (c & g & Hg & E).
  - exists (fun _ => 0). split; [intros t; reflexivity|]. intros t. eapply derivable_pt_lim_ext; [|apply (derivable_pt_lim_const c)]. intros s. rewrite E. cbn in Hg. rewrite Hg. unfold fct_cte. ring.
  - destruct (IH g Hg) as (dg & Pg & Dg). exists (fun t => g t + t * dg t). split; [apply is_poly_plus; [exact Hg|apply is_poly_x; exact Pg]|].
    intros t. eapply derivable_pt_lim_ext; [intros s; symmetry; apply E|].
    replace (g t + t * dg t) with (0 + (1 * g t + t * dg t)) by ring. apply (derivable_pt_lim_plus (fct_cte c) (fun s => s * g s)); [apply derivable_pt_lim_const|].
    apply (derivable_pt_lim_mult id g); [apply derivable_pt_lim_id|apply Dg].
Qed.

Section Patch.
Variables (junk : nat -> nat -> R) (lobatto : nat -> Vec) (gauss : nat -> QuadratureData) (k : nat) (type : FEM_PCC_1D_Types) (qo : nat).
Hypothesis HLo : type = GaussLobatto -> lobatto_ok lobatto k.
Local Notation Q := (gauss (computed_quadrature_order k qo)).
Hypothesis HQ : rule_shape Q.
Local Notation n := (k + 1)%nat.
Local Notation x := (node lobatto k type).
Local Notation phi := (phi1 x n).
Local Notation dphi := (dphi1 x n).
Variables (m : Mesh2D) (info : MeshDOFsInfo) (data : DOFsData) (G : MeshGeometricData1D) (ref : FEM_1D_Reference) (P : EllipticProblem1D).
Hypothesis NW : network m info data G k.
Hypothesis ER : FEM_1D_CreateReference junk lobatto gauss k type qo = Ok ref.
Local Notation mesh := (md_mesh m).
Local Notation nc := (num_cells info 1).
Local Notation nv := (num_cells info 0).
Local Notation NF := (NumberDOFs data).
Local Notation NS := (NumberStrongs data).
Local Notation val uD uS c := (segment_value m info data uD uS c).
Local Notation L c := (segment_length m c).

Lemma along_poly u : is_poly n (along k phi u).
Proof using. unfold along. apply (is_poly_rsum n n (fun i t => u i * phi i t)). intros i Hi. apply (is_poly_scal n (u i) (phi i)). apply phi1_poly. exact Hi. Qed.
Lemma along_deriv u t : derivable_pt_lim (along k phi u) t (along k dphi u t).
Proof using.
  unfold along. assert (H : forall N, (N <= n)%nat -> derivable_pt_lim (fun t => rsum N (fun i => u i * phi i t)) t (rsum N (fun i => u i * dphi i t))); [|apply H; lia].
  induction N as [|N IH]; intros HN; cbn [rsum]; [apply (derivable_pt_lim_const 0)|].
  apply (derivable_pt_lim_plus (fun t => rsum N (fun i => u i * phi i t)) (fun t => u N * phi N t)); [apply IH; lia|].
  apply (derivable_pt_lim_scal (phi N) (u N)). apply dphi1_derivative. lia.
Qed.
(** a polynomial of degree k is the combination of its values at the nodes *)
Lemma along_reproduces s ds u : is_poly n s -> (forall t, derivable_pt_lim s t (ds t)) -> (forall j, (j < n)%nat -> u j = s (x j)) ->
  forall t, along k phi u t = s t /\ along k dphi u t = ds t.
Proof using HLo NW.
  intros Ps Ds Hu. assert (E : forall t, along k phi u t = s t).
  { intros t. assert (Z : along k phi u t + -1 * s t = 0); [|lra].
    apply (is_poly_roots n (fun t => along k phi u t + -1 * s t) x).
    - apply is_poly_plus; [apply along_poly|apply (is_poly_scal n (-1) s Ps)].
    - apply (node_distinct lobatto k type (nwk _ _ _ _ _ NW) HLo).
    - intros j Hj. rewrite (along_node lobatto k type HLo m info data G NW u j Hj), Hu by auto. ring. }
  intros t. split; [apply E|]. apply (uniqueness_limite s t); [|apply Ds]. eapply derivable_pt_lim_ext; [apply E|]. apply along_deriv.
Qed.

(** ** Values of the unknowns *)
Lemma vof_strong_zero vD h : valid 1 info h -> strong_entity info (g_dim h) (g_cell h) -> vof data vD (repeat 0 NS) h = 0.
Proof using NW.
  intros V Hs. destruct (valid_lookup 1 info mesh data ltac:(lia) (nwC _ _ _ _ _ NW) h V) as (y & t & Hy & Ht & B). unfold strong_entity in Hs. rewrite Hs in Ht. inversion Ht; subst t.
  destruct B as [(_ & Ty & Lt)|(Hne & _)]; [|congruence]. unfold vof, value_of. rewrite Hy, Ty, nth_error_repeat by auto. reflexivity.
Qed.
Lemma vof_free uD uS uS' h : valid 1 info h -> ~ strong_entity info (g_dim h) (g_cell h) -> vof data uD uS h = vof data uD uS' h.
Proof using NW.
  intros V Hs. destruct (valid_lookup 1 info mesh data ltac:(lia) (nwC _ _ _ _ _ NW) h V) as (y & t & Hy & Ht & B). unfold strong_entity in Hs.
  destruct B as [(Ht' & _)|(_ & Ty & Lt)]; [congruence|]. unfold vof, value_of. rewrite Hy, Ty. reflexivity.
Qed.
Lemma strong_dec d e : strong_entity info d e \/ ~ strong_entity info d e.
Proof using. unfold strong_entity. destruct (boundary_type info d e) as [[]|]; [right|left|right|right|right|right]; congruence. Qed.
Lemma vertex_valid v : (v < nv)%nat -> valid 1 info (entity_dof 0 v 0).
Proof using NW. intros Hv. repeat split; simpl; auto. rewrite (nw_vertex_unknowns _ _ _ _ _ NW) by auto. lia. Qed.
Lemma end_dof c i : (i < 2)%nat -> cell_dof m c i = entity_dof 0 (end_of m c i) 0.
Proof using. intros Hi. destruct i as [|[|i]]; [reflexivity|reflexivity|lia]. Qed.
Lemma point_end c i d : (i < 2)%nat -> segment_point m c (INR i) d = md_coords m (end_of m c i) d.
Proof using. intros Hi. unfold segment_point, segment_vector. destruct i as [|[|i]]; [simpl; ring|simpl; ring|lia]. Qed.

Variables (p : R -> R -> R -> R) (s ds fl dfl : nat -> R -> R).

Lemma interpolant_exists : exists uD, interpolates m info data x p uD.
Proof using NW.
  clear s ds fl dfl. pose (T := nodal_value m x p). pose (z := (repeat 0 NF, repeat 0 NS)).
  assert (Lp : forall d D0 st, (d <= 1)%nat -> written 1 info data T D0 st -> exists st', written 1 info data T (fun h => D0 h \/ g_dim h = d) st').
  { intros d D0 st Hd W0.
    destruct (@for_loop_total _ (fun i st => written 1 info data T (fun h => D0 h \/ (g_dim h = d /\ (g_cell h < i)%nat)) st)
      (fun e st => row <- at_ (CellsDOFs data d) e ;; set_dofs row {| v_size := length row; v_at := fun i => T (entity_dof d e i) |} 0 st) (num_cells info d) st) as (st' & _ & W').
    - eapply written_ext; [|exact W0]. intros h _. split; [tauto|]. intros [H|(_ & H)]; [auto|lia].
    - intros e st1 He W1. destruct (valid_row 1 info mesh data ltac:(lia) (nwC _ _ _ _ _ NW) d e Hd He) as (row & Er & _). unfold at_. rewrite Er. cbn [bind].
      destruct (written_step 1 info mesh data ltac:(lia) (nwC _ _ _ _ _ NW) T (fun h => D0 h \/ (g_dim h = d /\ (g_cell h < e)%nat)) d e row {| v_size := length row; v_at := fun i => T (entity_dof d e i) |} 0 st1 Hd He Er) as (st2 & E2 & W2); [simpl; lia|intros; reflexivity|exact W1|].
      exists st2. split; [exact E2|]. eapply written_ext; [|exact W2]. intros h _. cbv beta. unfold entity. split.
      + intros [[H|(A & B)]|(A & B)]; [auto|right; split; [auto|lia]|right; split; [auto|lia]].
      + intros [H|(A & B)]; [auto|]. destruct (Nat.eq_dec (g_cell h) e); [right; auto|left; right; split; [auto|lia]].
    - exists st'. eapply written_ext; [|exact W']. intros h (_ & Vc & _). cbv beta. split; [tauto|]. intros [H|H]; [auto|]. right. rewrite <- H. auto. }
  destruct (Lp 0%nat _ z ltac:(lia) (written_init 1 info mesh data ltac:(lia) (nwC _ _ _ _ _ NW) T)) as (st1 & W1).
  destruct (Lp 1%nat _ st1 ltac:(lia) W1) as (st2 & ((LD & LS) & W2)). exists (fst st2). split; [exact LD|].
  intros d e i Hd He Hi Hs uS. assert (V : valid 1 info (entity_dof d e i)) by (repeat split; auto).
  destruct (W2 _ V) as (W3 & _). specialize (W3 ltac:(simpl; lia)). unfold DriverProofs2.val in W3.
  destruct (valid_lookup 1 info mesh data ltac:(lia) (nwC _ _ _ _ _ NW) _ V) as (y & t & Hy & Ht & B). unfold strong_entity in Hs.
  destruct B as [(Ht' & _)|(_ & Ty & Lt)]; [simpl in Ht; congruence|]. unfold value_of in *. rewrite Hy, Ty in *. exact W3.
Qed.

Hypothesis SN : solves_network m info P k p s ds fl dfl.
Hypothesis EX : exact_rule (2 * k) Q.
Hypothesis IN : rule_inside Q.

Lemma s_poly c : (c < nc)%nat -> is_poly n (s c).
Proof using SN. intros Hc. apply is_poly_of_coeffs. apply (sn_polynomial _ _ _ _ _ _ _ _ _ SN c Hc). Qed.
Lemma fl_poly c : (c < nc)%nat -> is_poly (k + 2) (fl c).
Proof using SN. intros Hc. apply is_poly_of_coeffs. apply (sn_flux_polynomial _ _ _ _ _ _ _ _ _ SN c Hc). Qed.

Lemma interpolated_value D uD c j : segment_assemble m info data junk ref G P = Ok D -> interpolates m info data x p uD -> (c < nc)%nat -> (j < n)%nat ->
  val uD (sd_solutionDirichlet D) c j = s c (x j).
Proof using HLo HQ NW ER SN.
  intros ED (LD & HI) Hc Hj. rewrite (segment_value_at m info data G k NW) by auto.
  rewrite <- (sn_along _ _ _ _ _ _ _ _ _ SN c (x j) Hc (node_inside lobatto k type (nwk _ _ _ _ _ NW) HLo j Hj)).
  destruct (segment_rows junk lobatto gauss k type qo HLo HQ m info data G ref P NW ER) as (D' & ED' & _ & _ & _ & St & _). rewrite ED in ED'. inversion ED'; subst D'.
  destruct (Nat.ltb_spec j 2) as [Hj2|Hj2].
  - rewrite end_dof by auto. pose proof (net_end_range m info data G k NW c j Hc Hj2) as Rv. rewrite (node_end lobatto k type j Hj2).
    assert (Ep : on_segment m p c (INR j) = at_point p (md_coords m (end_of m c j))) by (unfold on_segment, at_point; rewrite !point_end by auto; reflexivity). rewrite Ep. unfold vof.
    destruct (strong_dec 0 (end_of m c j)) as [Hs|Hs].
    + rewrite (St _ uD Rv Hs). apply (sn_strong _ _ _ _ _ _ _ _ _ SN); auto.
    + assert (H0 : (0 < requested info 0 (end_of m c j))%nat) by (rewrite (nw_vertex_unknowns _ _ _ _ _ NW) by auto; lia). rewrite (HI 0%nat (end_of m c j) 0%nat ltac:(lia) Rv H0 Hs). reflexivity.
  - destruct j as [|[|i]]; try lia. cbn [cell_dof]. unfold vof. assert (H1 : (i < requested info 1 c)%nat) by (rewrite (nw_cell_unknowns _ _ _ _ _ NW) by auto; lia). rewrite (HI 1%nat c i ltac:(lia) Hc H1 (sn_cells _ _ _ _ _ _ _ _ _ SN c Hc)). reflexivity.
Qed.

Lemma by_parts c v dv : (c < nc)%nat -> is_poly n v -> (forall t, derivable_pt_lim v t (dv t)) ->
  segment_energy m Q P c (s c) (ds c) v dv - segment_source m Q P c v = fl c 1 * v 1 - fl c 0 * v 0.
Proof using SN EX IN NW.
  intros Hc Pv Dv. pose proof (nw_lengths _ _ _ _ _ NW c Hc) as Lp.
  rewrite <- (rule_ftc (2 * k) Q (fun t => fl c t * v t) (fun t => dfl c t * v t + fl c t * dv t) EX).
  - unfold segment_energy, segment_source, apply_rule. rewrite <- !rsum_scal, <- rsum_minus. apply rsum_ext. intros q Hq. cbv zeta. set (t := rule_point Q q).
    pose proof (IN q Hq) as It. fold t in It. rewrite (sn_flux _ _ _ _ _ _ _ _ _ SN c t Hc It), <- (sn_equation _ _ _ _ _ _ _ _ _ SN c t Hc It). field. lra.
  - replace (S (S (2 * k))) with (k + 2 + k)%nat by lia. apply is_poly_mult; [apply fl_poly; auto|]. rewrite <- Nat.add_1_r. exact Pv.
  - intros t. apply (derivable_pt_lim_mult (fl c) v); [apply (sn_flux_derivative _ _ _ _ _ _ _ _ _ SN c t Hc)|apply Dv].
Qed.
Lemma energy_ext c u du u' du' v dv : (forall t, u t = u' t /\ du t = du' t) -> segment_energy m Q P c u du v dv = segment_energy m Q P c u' du' v dv.
Proof using. intros H. unfold segment_energy, apply_rule. f_equal. apply rsum_ext. intros q Hq. cbv zeta. destruct (H (rule_point Q q)) as (-> & ->). reflexivity. Qed.

(** sums over the ends grouped by vertex *)
Lemma ends_by_vertex (X : nat -> nat -> R) (V : nat -> R) :
  rsum nc (fun c => rsum 2 (fun i => X c i * V (end_of m c i))) = rsum nv (fun v => V v * rsum nc (fun c => rsum 2 (fun i => if (end_of m c i =? v)%nat then X c i else 0))).
Proof using NW.
  rewrite (rsum_ext nv _ (fun v => rsum nc (fun c => rsum 2 (fun i => V v * (if (end_of m c i =? v)%nat then X c i else 0))))).
  2:{ intros v Hv. rewrite <- rsum_scal. apply rsum_ext. intros c Hc. symmetry. apply rsum_scal. }
  rewrite (rsum_swap nv nc). apply rsum_ext. intros c Hc. rewrite (rsum_swap nv 2). apply rsum_ext. intros i Hi.
  rewrite (rsum_single nv _ (end_of m c i)); [rewrite Nat.eqb_refl; ring|apply (net_end_range m info data G k NW); auto|].
  intros v Hv Hne. destruct (Nat.eqb_spec (end_of m c i) v); [congruence|ring].
Qed.

Lemma unit_row (f : nat -> R) N : (forall vD, length vD = N -> rsum N (fun r => nth r vD 0 * f r) = 0) -> forall r, (r < N)%nat -> f r = 0.
Proof using.
  clear. intros H r Hr. assert (Lv : length (map (fun i => if (i =? r)%nat then 1 else 0) (seq 0 N)) = N) by (rewrite map_length, seq_length; reflexivity).
  specialize (H _ Lv). rewrite (rsum_single N _ r Hr) in H.
  - rewrite nth_map_seq, Nat.eqb_refl in H by auto. lra.
  - intros i Hi Hne. rewrite nth_map_seq by auto. destruct (Nat.eqb_spec i r); [congruence|ring].
Qed.

Lemma patch D uD : segment_assemble m info data junk ref G P = Ok D -> interpolates m info data x p uD -> solves_segments D NF uD.
Proof using HLo HQ NW ER SN EX IN.
  intros ED HI. pose proof HI as (LD & _). split; [exact LD|]. apply unit_row. intros vD LV.
  destruct (segment_variational junk lobatto gauss k type qo HLo HQ m info data G ref P NW ER) as (D' & ED' & L1 & L2 & _ & _ & _ & VF). rewrite ED in ED'. inversion ED'; subst D'.
  specialize (VF uD vD LD LV). cbv zeta in VF. rewrite VF. clear VF.
  pose (V := fun v => vof data vD (repeat 0 NS) (entity_dof 0 v 0)).
  transitivity (rsum nc (fun c => rsum 2 (fun i => (end_sign i * fl c (INR i) - end_datum m info P c i) * V (end_of m c i)))).
  - apply rsum_ext. intros c Hc. set (v := val vD (repeat 0 NS) c).
    rewrite (energy_ext c _ _ (s c) (ds c)).
    2:{ apply along_reproduces; [apply s_poly; auto|intros t; apply (sn_derivative _ _ _ _ _ _ _ _ _ SN c t Hc)|]. intros j Hj. apply interpolated_value; auto. }
    rewrite (by_parts c _ _ Hc (along_poly v) (along_deriv v)), (weak_along lobatto k type HLo m info data G P NW c v).
    assert (Hv : forall i, (i < 2)%nat -> v i = V (end_of m c i)).
    { intros i Hi. unfold v, V. rewrite (segment_value_at m info data G k NW) by (pose proof (nwk _ _ _ _ _ NW); lia). rewrite end_dof by auto. reflexivity. }
    assert (Av : forall i, (i < 2)%nat -> along k phi v (INR i) = v i).
    { intros i Hi. rewrite <- (node_end lobatto k type i Hi). apply (along_node lobatto k type HLo m info data G NW). pose proof (nwk _ _ _ _ _ NW). lia. }
    rewrite !rsum2. pose proof (Av 0%nat ltac:(lia)) as A0. pose proof (Av 1%nat ltac:(lia)) as A1. simpl in A0, A1. rewrite A0, A1, !Hv by lia. unfold end_sign. simpl. ring.
  - rewrite ends_by_vertex. apply rsum_0. intros v Hv. destruct (strong_dec 0 v) as [Hs|Hs].
    + unfold V. rewrite vof_strong_zero; [ring|apply vertex_valid; auto|exact Hs].
    + match goal with |- _ * ?y = 0 => assert (Z : y = 0); [|rewrite Z; ring] end.
      pose proof (sn_balance _ _ _ _ _ _ _ _ _ SN v Hv Hs) as B.
      apply Rminus_diag_eq in B. etransitivity; [|exact B]. rewrite <- rsum_minus. apply rsum_ext. intros c Hc. rewrite <- rsum_minus. apply rsum_ext. intros i Hi. unfold end_datum.
      destruct (Nat.eqb_spec (end_of m c i) v) as [Ev|Ev]; [rewrite Ev; ring|ring].
Qed.
End Patch.
