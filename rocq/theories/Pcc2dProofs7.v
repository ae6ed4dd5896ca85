(** Proofs: the assembled operator of the virtual element is positive definite, the solution of the assembled system is the interpolant. *)
From Coq Require Import List Arith Bool Reals Lia Lra Permutation.
From Verif Require Import Base RSum MatrixModel MonomialsModel MonomialsSpec LagrangeModel LagrangeSpec LagrangeProofs DofsModel DofsSpec DofsProofs DofsProofs2 AssemblerModel AssemblerSpec EquationModel EquationSpec VemQuadModel VemQuadSpec VemQuadProofs VemQuadProofs2 GreenSpec GreenProofs PolyProofs VemModel VemSpec
  VemProofs VemProofs2 VemProofs3 VemProofs4 VemProofs5 DriverModel DriverSpec DriverSpec2 Pcc2dModel Pcc2dSpec DriverProofs DriverProofs2 DriverProofs3 DriverProofs4 DriverProofs5 DriverProofs6 DriverProofs7 Pcc2dProofs Pcc2dProofs2 Pcc2dProofs3 Pcc2dProofs4 Pcc2dProofs5 Pcc2dProofs6.
Import ListNotations.
Local Open Scope R_scope.

(** ** Every free unknown belongs to a cell *)
Lemma rows_dofs info mesh data d : CreateDOFs 2 info mesh = Ok data -> (d <= 2)%nat -> length (CellsDOFs data d) = num_cells info d.
Proof.
  intros E Hd. destruct (CreateDOFs_stage 2 info mesh data ltac:(lia) E) as (_ & Hst).
  apply core_done_length; [apply (st_types _ _ _ _ Hst)|apply (st_core _ _ _ _ Hst)]; lia.
Qed.

Lemma some_unknown T info mesh data r : CreateDOFs 2 info mesh = Ok data -> In r (indices_of T 2 data) ->
  exists g x, valid 2 info g /\ lookup data g = Some x /\ dof_type x = T /\ dof_index x = r.
Proof.
  intros HC IN.
  apply in_map_iff in IN. destruct IN as (x & EX & IN). apply filter_In in IN. destruct IN as [IN TX].
  apply in_flat_map in IN. destruct IN as (d & Hd & IN). apply in_seq in Hd. apply in_concat in IN. destruct IN as (row & HR & IN).
  apply In_nth_error in HR. destruct HR as (e & HR). apply In_nth_error in IN. destruct IN as (i & IN).
  assert (He : (e < num_cells info d)%nat) by (rewrite <- (rows_dofs info mesh data d HC) by lia; apply nth_error_Some; rewrite HR; discriminate).
  destruct (valid_row 2 info mesh data ltac:(lia) HC d e ltac:(lia) He) as (row' & HR' & LR & _). rewrite HR in HR'. injection HR' as <-.
  assert (Hi : (i < requested info d e)%nat) by (rewrite <- LR; apply nth_error_Some; rewrite IN; discriminate).
  exists (entity_dof d e i), x. split; [split; [cbn; lia|split; [exact He|exact Hi]]|]. split; [unfold lookup; cbn; rewrite HR; exact IN|]. split; [|exact EX].
  unfold is_type in TX. destruct T, (dof_type x); congruence.
Qed.
Lemma free_unknown info mesh data r : CreateDOFs 2 info mesh = Ok data -> (r < NumberDOFs data)%nat ->
  exists g x, valid 2 info g /\ lookup data g = Some x /\ dof_type x = TDOF /\ dof_index x = r.
Proof.
  intros HC Hr. apply (some_unknown TDOF info mesh); [exact HC|].
  apply (Permutation_in r (Permutation_sym (C01_free_numbering 2 info mesh data ltac:(lia) HC))). apply in_seq. lia.
Qed.
Lemma strong_unknown info mesh data r : CreateDOFs 2 info mesh = Ok data -> (r < NumberStrongs data)%nat ->
  exists g x, valid 2 info g /\ lookup data g = Some x /\ dof_type x = TStrong /\ dof_index x = r.
Proof.
  intros HC Hr. apply (some_unknown TStrong info mesh); [exact HC|].
  apply (Permutation_in r (Permutation_sym (C02_strong_numbering 2 info mesh data ltac:(lia) HC))). apply in_seq. lia.
Qed.
Lemma covered_cell info mesh g : Cell2Ds_number mesh = num_cells info 2 -> covered info mesh -> valid 2 info g -> exists c, (c < Cell2Ds_number mesh)%nat /\ In g (closure_dofs info mesh 2 c).
Proof.
  intros HN [CV CE] (V1 & V2 & V3).
  assert (EX : exists c, (c < Cell2Ds_number mesh)%nat /\ In (g_dim g, g_cell g) (closure_entities mesh 2 c)).
  { destruct (g_dim g) as [|[|[|]]]; [| | |lia].
    - destruct (CV (g_cell g) V2 ltac:(lia)) as (c & Hc & Hin). exists c. split; [exact Hc|]. cbn. apply in_or_app. left. apply in_map. exact Hin.
    - destruct (CE (g_cell g) V2 ltac:(lia)) as (c & Hc & Hin). exists c. split; [exact Hc|]. cbn. apply in_or_app. right. apply in_or_app. left. apply in_map. exact Hin.
    - exists (g_cell g). split; [rewrite HN; exact V2|]. cbn. apply in_or_app. right. apply in_or_app. right. left. reflexivity. }
  destruct EX as (c & Hc & Hin). exists c. split; [exact Hc|]. apply in_closure_dofs; auto.
Qed.

(** ** Locally constant solutions vanish *)
Section Anchor.
Variables (m : Mesh2D) (info : MeshDOFsInfo) (data : DOFsData).
Let mesh := md_mesh m.
Let nc := Cell2Ds_number mesh.
Hypothesis HC : CreateDOFs 2 info mesh = Ok data.
Hypothesis HN : nc = num_cells info 2.
Variable ke : nat.
Hypothesis HV : forall c v, (c < nc)%nat -> In v (Cell2D_vertices mesh c) -> requested info 0 v = 1%nat.
Hypothesis HE : forall c e, (c < nc)%nat -> In e (Cell2D_edges mesh c) -> requested info 1 e = ke.
Variables (uD : list R) (ul : nat -> Vec).
Hypothesis LD : length uD = NumberDOFs data.
Hypothesis HU : forall c, (c < nc)%nat -> local_solution data uD (repeat 0 (NumberStrongs data)) c = Ok (ul c).
Hypothesis FLAT : forall c, (c < nc)%nat -> exists C, (forall i, (i < length (Cell2D_vertices mesh c))%nat -> v_at (ul c) i = C) /\
  (C = 0 -> forall j, (j < length (closure_dofs info mesh 2 c))%nat -> v_at (ul c) j = 0).

Lemma value_at c p h : (c < nc)%nat -> nth_error (closure_dofs info mesh 2 c) p = Some h -> value_of data uD (repeat 0 (NumberStrongs data)) h = Some (v_at (ul c) p).
Proof using HC HN LD HU.
  intros Hc Hp. destruct (local_solution_ok m info data HC HN c uD (repeat 0 (NumberStrongs data)) Hc LD (repeat_length _ _)) as (u & Eu & _ & H).
  fold mesh in H. rewrite (HU c Hc) in Eu. injection Eu as ->. apply H. exact Hp.
Qed.
Lemma vertex_at c i : (c < nc)%nat -> (i < length (Cell2D_vertices mesh c))%nat ->
  nth_error (closure_dofs info mesh 2 c) i = Some (entity_dof 0 (nth i (Cell2D_vertices mesh c) 0%nat) 0).
Proof using HV HE. intros Hc Hi. apply (place_vertex info mesh c ke (requested info 2 c)); auto. intros v. apply HV; auto. intros e. apply HE; auto. Qed.

Lemma anchored_zero c : anchored info mesh c -> (c < nc)%nat /\ forall j, (j < length (closure_dofs info mesh 2 c))%nat -> v_at (ul c) j = 0.
Proof using HC HN HV HE LD HU FLAT.
  induction 1 as [c v Hc Hv Hs|c c' v Ha [Hc IH] Hc' Hv Hv'].
  - split; [exact Hc|]. destruct (FLAT c Hc) as (C & H1 & H2). apply H2. destruct (In_nth _ _ 0%nat Hv) as (i & Hi & Ei). rewrite <- (H1 i Hi).
    pose proof (vertex_at c i Hc Hi) as P. rewrite Ei in P. pose proof (value_at c i _ Hc P) as W.
    destruct (closure_valid m info data c _ HC HN Hc (nth_error_In _ _ P)) as (Vd & _).
    destruct (valid_lookup 2 info mesh data ltac:(lia) HC _ Vd) as (x & t & Lx & Bt & Cs). cbn [entity_dof g_dim g_cell] in Bt. unfold strong_entity in Hs. rewrite Hs in Bt. injection Bt as <-.
    destruct Cs as [(_ & Tx & Ix)|(N & _)]; [|congruence]. unfold value_of in W. rewrite Lx, Tx in W. rewrite nth_error_repeat in W by auto. injection W as <-. reflexivity.
  - split; [exact Hc'|]. destruct (FLAT c' Hc') as (C & H1 & H2). apply H2. destruct (In_nth _ _ 0%nat Hv) as (i & Hi & Ei). destruct (In_nth _ _ 0%nat Hv') as (i' & Hi' & Ei'). rewrite <- (H1 i' Hi').
    pose proof (vertex_at c i Hc Hi) as P. pose proof (vertex_at c' i' Hc' Hi') as P'. rewrite Ei in P. rewrite Ei' in P'.
    pose proof (value_at c i _ Hc P) as W. pose proof (value_at c' i' _ Hc' P') as W'. rewrite W in W'. injection W' as <-. apply IH. apply nth_error_Some. rewrite P. discriminate.
Qed.

Lemma all_zero : (forall c, (c < nc)%nat -> anchored info mesh c) -> covered info mesh -> forall r, nth r uD 0 = 0.
Proof using HC HN HV HE LD HU FLAT.
  intros AN CO r. destruct (Nat.lt_ge_cases r (NumberDOFs data)) as [Hr|Hr]; [|apply nth_overflow; lia].
  destruct (free_unknown info mesh data r HC Hr) as (g & x & Vg & Lx & Tx & Ix). destruct (covered_cell info mesh g HN CO Vg) as (c & Hc & G). apply In_nth_error in G. destruct G as (p & Hp).
  pose proof (value_at c p g Hc Hp) as W. unfold value_of in W. rewrite Lx, Tx, Ix in W. rewrite (nth_error_nth _ _ 0 W).
  apply (anchored_zero c (AN c Hc)). apply nth_error_Some. rewrite Hp. discriminate.
Qed.
End Anchor.

(** ** A polynomial without gradient is a constant *)
Lemma flat_line f : (forall x, derivable_pt_lim f x 0) -> forall a b, f a = f b.
Proof.
  intros H. assert (D : derivable f) by (intros x; exists 0; apply H). apply (null_derivative_1 f D). intros x. apply derive_pt_eq_0. apply H.
Qed.
Lemma flat_poly n f fx fy : poly2 n f fx fy -> (forall x y, fx x y = 0) -> (forall x y, fy x y = 0) -> forall x y, f x y = f 0 0.
Proof.
  intros Pf X Y x y. transitivity (f 0 y).
  - apply (flat_line (fun t => f t y)). intros t. pose proof (proj1 (poly2_partials n f fx fy t y Pf)) as H. rewrite X in H. exact H.
  - apply (flat_line (fun t => f 0 t)). intros t. pose proof (proj2 (poly2_partials n f fx fy 0 t Pf)) as H. rewrite Y in H. exact H.
Qed.

Section Wellposed.
Variables (gt lob : nat -> QuadratureData) (junk : nat -> nat -> R) (lu llt : Solver) (k : nat) (ref : VEM_2D_Reference) (m : Mesh2D) (info : MeshDOFsInfo) (geometry : nat -> Polygon).
Hypothesis VM : vem_mesh gt lob lu llt k ref m info geometry.
Let mesh := md_mesh m.
Let nc := Cell2Ds_number mesh.
Let Hk := vm_order _ _ _ _ _ _ _ _ _ VM.
Notation loc := (loc junk lu llt ref geometry).
Notation create := (create junk lu llt ref geometry).
Notation forms := (forms junk lu llt ref geometry).
Notation CS c Hc := (cell_space gt lob junk lu llt k ref m info geometry VM c Hc).
Notation qx c q := (m_at (q_Points (lv_InternalQuadrature (loc c))) 0 q).
Notation qy c q := (m_at (q_Points (lv_InternalQuadrature (loc c))) 1 q).

(** the weights of the cells *)
Lemma internal_rule c : (c < nc)%nat -> PolygonInternalQuadrature (gt (2 * k)%nat) (pg_TriangulationVertices (geometry c)) = Ok (lv_InternalQuadrature (loc c)).
Proof using VM.
  intros Hc. pose proof (CS c Hc) as VS. pose proof (vs_local _ _ _ _ _ _ _ _ _ VS) as E. unfold VEM_PCC_2D_CreateLocalSpace in E.
  apply bind_Ok in E. destruct E as (IQ & EI & E). 
  repeat (apply bind_Ok in E; destruct E as (? & _ & E); try (destruct x as [[? ?] ?]; cbn beta iota in E)); repeat match type of E with context [let '(_, _) := ?x in _] => destruct x end.
  repeat (apply bind_Ok in E; destruct E as (? & _ & E); repeat match type of E with context [let '(_, _) := ?x in _] => destruct x end).
  injection E as <-. cbn [lv_InternalQuadrature]. 
  pose proof (reference_facts gt lob lu llt k ref m info geometry VM) as RF. 
  rewrite <- EI. f_equal. symmetry. apply (rf_tri _ _ _ RF).
Qed.
Lemma positive_weights c q : positive_rules gt k m geometry -> (c < nc)%nat -> (q < v_size (cf_weights (forms c)))%nat -> 0 < v_at (cf_weights (forms c)) q.
Proof using VM.
  intros [PW PT] Hc Hq. rewrite (forms_weights junk lu llt ref geometry c) in *. pose proof (vm_rules _ _ _ _ _ _ _ _ _ VM) as GR. destruct (gr_triangle _ _ _ GR) as [T1 T2].
  destruct (gp_triangulation _ (vm_polygon _ _ _ _ _ _ _ _ _ VM c Hc)) as (TR & _).
  destruct (VemQuadProofs.internal_ok (gt (2 * k)%nat) (pg_TriangulationVertices (geometry c)) T1 T2 TR) as (r & Er & _ & _ & Sr & Hr).
  rewrite (internal_rule c Hc) in Er. injection Er as <-. rewrite Sr in Hq. set (nq := m_cols (q_Points (gt (2 * k)%nat))) in *.
  assert (NQ : (0 < nq)%nat) by nia. pose proof (Nat.div_mod q nq ltac:(lia)) as DM. pose proof (Nat.mod_upper_bound q nq ltac:(lia)) as MB.
  assert (DB : (q / nq < length (pg_TriangulationVertices (geometry c)))%nat) by (apply Nat.div_lt_upper_bound; lia).
  destruct (nth_error (pg_TriangulationVertices (geometry c)) (q / nq)) as [T|] eqn:ET; [|apply nth_error_None in ET; lia].
  destruct (Hr _ (q mod nq) T ET MB) as [_ HW]. rewrite <- DM in HW. rewrite HW. rewrite tri_det_area. unfold area.
  pose proof (PT c T Hc (nth_error_In _ _ ET)) as PA. rewrite Rabs_right by lra. apply Rmult_lt_0_compat; [apply PW; rewrite T2; exact MB|lra].
Qed.

(** a cell without energy is flat *)
Lemma projected_agree l P u v x y : (forall j, (j < m_cols P)%nat -> u j = v j) -> projected ref l P u x y = projected ref l P v x y.
Proof using. intros H. apply rsum_ext. intros i Hi. f_equal. apply rsum_ext. intros j Hj. now rewrite H. Qed.

Lemma stabilisation_square c u : (c < nc)%nat -> rsum (ls_Size (cf_test (forms c))) (fun p => u p * combine (cf_S (forms c)) u p) =
  rsum (lv_NumBasisFunctions (loc c)) (fun q => (dofs_of ref (loc c) (projected ref (loc c) (lv_PiNabla (loc c)) u) q - u q) ^ 2).
Proof using VM.
  intros Hc. destruct (stabilization_all _ _ _ _ _ _ _ _ _ (CS c Hc) PiNabla_t (or_introl eq_refl)) as (S & ES & RS & CS' & _ & _ & SQ).
  specialize (SQ u). rewrite Rmult_1_l in SQ. rewrite <- SQ. unfold Pcc2dProofs6.forms. cbn [cf_test cf_S VEM_space ls_Size]. rewrite ES. cbn [get]. rewrite RS.
  apply rsum_ext. intros i Hi. unfold combine. rewrite <- rsum_scal. apply rsum_ext. intros. ring.
Qed.

Lemma flat c u : (c < nc)%nat -> (forall d q, (d < 2)%nat -> (q < v_size (cf_weights (forms c)))%nat -> combine (cf_dU (forms c) d) u q = 0) ->
  rsum (ls_Size (cf_test (forms c))) (fun p => u p * combine (cf_S (forms c)) u p) = 0 ->
  exists C, (forall i, (i < lv_NumBoundaryBasisFunctions (loc c))%nat -> u i = C) /\ (C = 0 -> forall j, (j < lv_NumBasisFunctions (loc c))%nat -> u j = 0).
Proof using VM.
  intros Hc HD HS. pose proof (CS c Hc) as VS. pose proof (LF _ _ _ _ _ _ _ _ _ VS) as LFc.
  destruct (forms_ok gt lob junk lu llt k ref m info geometry VM c Hc) as (_ & _ & _ & (P0 & P1 & EP & HP) & _).
  destruct (lf_PD _ _ _ _ _ _ LFc) as (P0' & P1' & EP' & R0 & C0 & R1' & C1 & _). rewrite EP in EP'. injection EP' as <- <-.
  destruct (lf_Pi _ _ _ _ _ _ LFc) as (RP & CP & _). pose proof (lf_N _ _ _ _ _ _ LFc) as NN.
  (* the projected gradient vanishes *)
  assert (Z : forall P, m_rows P = num2 (k - 1) -> (forall q, (q < v_size (cf_weights (forms c)))%nat -> projected ref (loc c) P u (qx c q) (qy c q) = 0) -> forall x y, projected ref (loc c) P u x y = 0).
  { intros P RR ZQ. pose proof (projected_poly2 _ _ _ _ _ _ _ _ _ VS P u (k - 1) RR ltac:(lia)) as PP. apply (poly2_le (k - 1) k) in PP; [|lia].
    apply (proj2 (I_square gt lob k (geometry c) lu llt (loc c) (vm_rules _ _ _ _ _ _ _ _ _ VM) (vm_polygon _ _ _ _ _ _ _ _ _ VM c Hc) LFc _ _ _ PP)).
    unfold fI, apply_rule. apply rsum_0. intros q Hq. rewrite ZQ by exact Hq. ring. }
  assert (Z0 : forall x y, projected ref (loc c) P0 u x y = 0).
  { apply Z; [exact R0|]. intros q Hq. destruct (HP u q) as (H & _). rewrite <- H. apply HD; auto. }
  assert (Z1 : forall x y, projected ref (loc c) P1 u x y = 0).
  { apply Z; [exact R1'|]. intros q Hq. destruct (HP u q) as (_ & H & _). rewrite <- H. apply HD; auto. }
  (* the unknowns are those of their projection *)
  set (f := projected ref (loc c) (lv_PiNabla (loc c)) u). rewrite stabilisation_square in HS by exact Hc. fold f in HS.
  assert (UF : forall j, (j < lv_NumBasisFunctions (loc c))%nat -> u j = dofs_of ref (loc c) f j).
  { intros j Hj. pose proof (rsum_zero_each _ _ (fun q _ => pow2_ge_0 (dofs_of ref (loc c) f q - u q)) (Req_le _ _ HS) j Hj) as E. cbv beta in E. 
    assert (E' : dofs_of ref (loc c) f j - u j = 0) by nra. lra. }
  pose proof (projected_poly2 _ _ _ _ _ _ _ _ _ VS (lv_PiNabla (loc c)) u k RP (le_n k)) as Pf. fold f in Pf.
  match type of Pf with poly2 _ _ ?a ?b => set (fx := a) in *; set (fy := b) in * end.
  assert (G : forall x y, fx x y = 0 /\ fy x y = 0).
  { intros x y. destruct (reproduce_all _ _ _ _ _ _ _ _ _ VS f fx fy Pf x y) as (_ & _ & _ & P0' & P1' & EP' & H0 & H1). rewrite EP in EP'. injection EP' as <- <-. rewrite <- H0, <- H1.
    rewrite !(projected_agree _ _ (dofs_of ref (loc c) f) u) by (intros j Hj; symmetry; apply UF; rewrite NN; congruence). auto. }
  pose proof (flat_poly k f fx fy Pf (fun x y => proj1 (G x y)) (fun x y => proj2 (G x y))) as FC.
  pose proof (N_mesh gt lob junk lu llt k ref m info geometry VM c Hc) as NB.
  exists (f 0 0). split.
  - intros i Hi. rewrite UF by lia. unfold dofs_of. replace (i <? _)%nat with true by (symmetry; apply Nat.ltb_lt; exact Hi). apply FC.
  - intros EC j Hj. rewrite UF by exact Hj. unfold dofs_of. destruct (j <? _)%nat; [rewrite FC; exact EC|]. unfold apply_rule. rewrite rsum_0; [ring|]. intros q Hq. cbv zeta. rewrite FC, EC. ring.
Qed.

Variable data : DOFsData.
Hypothesis HC : CreateDOFs 2 info (md_mesh m) = Ok data.
Let HN := vm_cells _ _ _ _ _ _ _ _ _ VM.

Lemma combine_unit A p q : (p < m_cols A)%nat -> combine A (fun j => if (j =? p)%nat then 1 else 0) q = m_at A q p.
Proof using. intros Hp. unfold combine. rewrite (rsum_single (m_cols A) _ p); [rewrite Nat.eqb_refl; ring|exact Hp|]. intros i Hi Ni. destruct (Nat.eqb_spec i p); [congruence|ring]. Qed.

Lemma forms_same c b : (c < nc)%nat -> same_functions (forms c) b.
Proof using VM.
  intros Hc. destruct (forms_ok gt lob junk lu llt k ref m info geometry VM c Hc) as (CF & HU & HV & (P0 & P1 & EP & HP) & _).
  destruct CF as [E1 E2 E3 E4 _ (U1 & U2 & U3) (dU1 & dU2) (V1 & V2 & V3) (dV1 & dV2) (S1 & S2)].
  split; [congruence|]. split; [|split].
  - intros d q p Hd _ Hp. rewrite E4 in Hp. destruct (dU2 d Hd) as [_ CU]. destruct (dV2 d Hd) as [_ CV].
    rewrite <- (combine_unit (cf_dV (forms c) d)), <- (combine_unit (cf_dU (forms c) d)) by lia.
    destruct (HP (fun j => if (j =? p)%nat then 1 else 0) q) as (H1 & H2 & H3 & H4). destruct d as [|[|]]; [congruence|congruence|lia].
  - intros _ q p _ Hp. rewrite E4 in Hp. rewrite <- (combine_unit (cf_V (forms c))), <- (combine_unit (cf_U (forms c))) by lia. rewrite HU, HV. reflexivity.
  - intros p p' _ _. destruct (stabilization_all _ _ _ _ _ _ _ _ _ (CS c Hc) PiNabla_t (or_introl eq_refl)) as (S & ES & _ & _ & SY & _).
    unfold Pcc2dProofs6.forms. cbn [cf_S]. rewrite ES. apply SY.
Qed.

Lemma elliptic_form_sum K c q x : rsum 2 (fun i => rsum 2 (fun j => at_q K (forms c) q (i + 3 * j)%nat * x j) * x i) =
  at_q K (forms c) q 0%nat * x 0%nat * x 0%nat + (at_q K (forms c) q 1%nat + at_q K (forms c) q 3%nat) * x 0%nat * x 1%nat + at_q K (forms c) q 4%nat * x 1%nat * x 1%nat.
Proof using. cbn [rsum Nat.add Nat.mul]. ring. Qed.
Lemma elliptic_positive K c : elliptic K -> nonnegative_diffusion (forms c) K /\ positive_diffusion (forms c) K.
Proof using VM.
  intros EK. split.
  - intros q x _. rewrite elliptic_form_sum. destruct (Req_dec (x 0%nat) 0) as [X0|X0]; [destruct (Req_dec (x 1%nat) 0) as [X1|X1]|]; [rewrite X0, X1; lra| |]; left; apply EK; auto.
  - intros q x _ H d Hd. rewrite elliptic_form_sum in H. unfold at_q in H.
    assert (X0 : x 0%nat = 0).
    { destruct (Req_dec (x 0%nat) 0) as [X0|X0]; [exact X0|]. exfalso. apply (Rlt_irrefl 0). eapply Rlt_le_trans; [|exact H]. apply EK. auto. }
    assert (X1 : x 1%nat = 0).
    { destruct (Req_dec (x 1%nat) 0) as [X1|X1]; [exact X1|]. exfalso. apply (Rlt_irrefl 0). eapply Rlt_le_trans; [|exact H]. apply EK. auto. }
    destruct d as [|[|]]; [exact X0|exact X1|lia].
Qed.

(** the assembled operator is positive definite *)
Lemma definite K rea : (forall c, (c < nc)%nat -> md_active2 m c = true) -> elliptic K -> absorbing rea -> positive_rules gt k m geometry ->
  (forall c, (c < nc)%nat -> anchored info mesh c) -> covered info mesh ->
  exists s, assemble_elliptic_operator m data data create create (Some K) None rea = Ok s /\
    forall uD, length uD = NumberDOFs data -> 0 <= energy (NumberDOFs data) s uD /\ (energy (NumberDOFs data) s uD = 0 -> forall r, nth r uD 0 = 0).
Proof using VM HC.
  intros ACT EK AB PR AN CO.
  assert (CF : forall c, (c < nc)%nat -> md_active2 m c = true -> cell_forms create create c (length (closure_dofs info mesh 2 c)) (length (closure_dofs info mesh 2 c)) (forms c)).
  { intros c Hc _. unfold mesh. rewrite (size_closure gt lob junk lu llt k ref m info geometry VM c Hc). apply (forms_ok gt lob junk lu llt k ref m info geometry VM c Hc). }
  assert (GD : forall c, (c < nc)%nat -> greatest_diffusion (forms c) K (kmax (forms c) K)) by (intros c Hc; apply kmax_ok; apply (ce_points _ _ _ _ _ _ (CF c Hc (ACT c Hc)))).
  destruct (operator_energy m info data create create forms HC HN CF (Some K) rea (fun c => kmax (forms c) K)) as (s & Es & H).
  - intros c K' Hc _ E. injection E as <-. apply GD; auto.
  - intros c Hc _. apply forms_same; auto.
  - intros c q Hc _ Hq. apply positive_weights; auto.
  - intros c K' _ _ E. injection E as <-. apply (elliptic_positive K c EK).
  - intros c f q _ _ E _. unfold at_q. apply AB. exact E.
  - intros c K' Hc _ _ u. rewrite stabilisation_square by exact Hc. apply rsum_nonneg. intros. apply pow2_ge_0.
  - exists s. split; [exact Es|]. intros uD LD. destruct (H uD LD) as [H0 H1]. split; [exact H0|]. intros EZ. destruct (H1 EZ) as (ul & A & B).
    apply (all_zero m info data HC HN (k - 1) (vm_vertex_dofs _ _ _ _ _ _ _ _ _ VM) (vm_edge_dofs _ _ _ _ _ _ _ _ _ VM) uD ul LD A); auto.
    intros c Hc. destruct (B c Hc (ACT c Hc)) as (B1 & _ & B3).
    assert (KP : 0 < kmax (forms c) K).
    { destruct (GD c Hc) as [G1 _]. pose proof (ce_points _ _ _ _ _ _ (CF c Hc (ACT c Hc))) as (_ & _ & NQ). eapply Rlt_le_trans; [|apply (G1 0%nat 0%nat); [lia|exact NQ]].
      eapply Rlt_le_trans; [|apply Rle_abs]. unfold at_q. pose proof (EK (m_at (cf_points (forms c)) 0 0) (m_at (cf_points (forms c)) 1 0) (m_at (cf_points (forms c)) 2 0) 1 0 ltac:(left; lra)) as E1. lra. }
    destruct (flat c (v_at (ul c)) Hc (B1 K eq_refl (proj2 (elliptic_positive K c EK)))) as (C & F1 & F2).
    { specialize (B3 K eq_refl). apply Rmult_integral in B3. destruct B3; [lra|assumption]. }
    exists C. pose proof (nb_mesh gt lob junk lu llt k ref m info geometry VM c Hc) as NB. split.
    + intros i Hi. apply F1. rewrite NB. eapply Nat.lt_le_trans; [exact Hi|apply Nat.le_add_r].
    + intros EC j Hj. apply (F2 EC). unfold mesh in Hj. rewrite (size_closure gt lob junk lu llt k ref m info geometry VM c Hc) in Hj. exact Hj.
Qed.

(** the boundary values assembled by the driver are the strong unknowns of the function *)
Lemma strong_values f g uD uS : dirichlet_data info mesh f g -> (forall c, (c < nc)%nat -> md_active2 m c = true) -> covered info mesh ->
  evaluate_function_on_dofs m data k create (planar f) = Ok (uD, uS) -> assemble_strong_solution m info data k create g = Ok uS.
Proof using VM HC.
  intros [DD NS] ACT CO EV. destruct (interpolant gt lob junk lu llt k ref m info geometry VM data HC f) as (uD' & uS' & EV' & LD & LS & HU). rewrite EV in EV'. injection EV' as <- <-.
  pose proof (edges_agree gt lob junk lu llt k ref m info geometry VM) as EA.
  destruct (strong_result m info data HC HN k create g (pt ref m)) as (uS' & E & LS' & HS).
  { intros c v Hc _ Hv _. rewrite (vm_vertex_dofs _ _ _ _ _ _ _ _ _ VM c v Hc Hv). lia. }
  { intros _ c Hc _. destruct (EA c Hc eq_refl) as (sp & Es & H). exists sp. split; [exact Es|]. intros ed e He _. apply (H ed e He Logic.I). }
  rewrite E. f_equal. apply nth_ext with (d := 0) (d' := 0); [congruence|]. intros t Ht. rewrite LS' in Ht.
  destruct (strong_unknown info mesh data t HC Ht) as (h & x & Vh & Lx & Tx & Ix). destruct (covered_cell info mesh h HN CO Vh) as (c & Hc & G).
  destruct (closure_valid m info data c h HC HN Hc G) as (_ & PL). destruct Vh as (V1 & V2 & V3).
  destruct (valid_lookup 2 info mesh data ltac:(lia) HC h (conj V1 (conj V2 V3))) as (x' & t' & Lx' & Bt & Cs). rewrite Lx in Lx'. injection Lx' as <-.
  destruct Cs as [(-> & _ & _)|(_ & T & _)]; [|congruence].
  destruct (HS (g_dim h) (g_cell h) (g_dof h) V1 V2 V3 Bt) as (x' & Lx' & _ & RV & _). rewrite entity_eta, Lx in Lx'. injection Lx' as <-. rewrite Ix in RV.
  apply In_nth_error in G. destruct G as (p & Hp). destruct (HU c Hc) as (u & Eu & Su & Hu). specialize (Hu p h Hp).
  destruct (local_solution_ok m info data HC HN c uD uS Hc LD LS) as (u' & Eu' & _ & Hv). rewrite Eu in Eu'. injection Eu' as <-. specialize (Hv p h Hp).
  unfold value_of in Hv. rewrite Lx, Tx, Ix in Hv. rewrite (nth_error_nth _ _ 0 Hv), Hu.
  assert (D : g_dim h <> 2%nat). { intros D. destruct PL as [(D' & _)|[(D' & _)|(_ & D')]]; [lia|lia|]. apply (NS c Hc). unfold strong_entity. rewrite <- D', <- D. exact Bt. }
  assert (RS : receives_strong m info k (g_dim h) (g_cell h)).
  { split; [exact Bt|]. exists c. split; [exact Hc|]. split; [apply ACT; exact Hc|]. destruct PL as [PL|[(D' & PL)|(D' & _)]]; [left; exact PL|right|congruence]. split; [exact D'|]. split; [|exact PL].
    rewrite D' in V3. rewrite (vm_edge_dofs _ _ _ _ _ _ _ _ _ VM c _ Hc PL) in V3. lia. }
  rewrite (nth_error_nth _ _ 0 (RV RS)). unfold strong_value, dof_value, at_point, planar.
  destruct (g_dim h) as [|[|]] eqn:ED'; [| |lia]; (rewrite DD; [reflexivity|lia|exact Bt]).
Qed.

(** the discrete solution is exact *)
Lemma exact_solution K rea F h g gauss f fx fy g0 g0x g0y g1 g1x g1y : (forall c, (c < nc)%nat -> md_active2 m c = true) ->
  elliptic K -> absorbing rea -> positive_rules gt k m geometry -> (forall c, (c < nc)%nat -> anchored info mesh c) -> covered info mesh ->
  poly2 k f fx fy -> poly2 (k - 1) g0 g0x g0y -> poly2 (k - 1) g1 g1x g1y ->
  solves_equation K None rea F f fx fy g0 g0x g0y g1 g1x g1y -> (rea = None \/ poly2 (k - 1) f fx fy) ->
  closed_boundary info mesh geometry -> neumann_data info mesh geometry g0 g1 h -> dirichlet_data info mesh f g -> exact_interval (2 * k - 1) gauss ->
  exists s b w uD uS, assemble_elliptic_operator m data data create create (Some K) None rea = Ok s /\
    assemble_source_term m data create create F = Ok b /\ assemble_weak_term m info data geometry gauss create h = Ok w /\
    assemble_strong_solution m info data k create g = Ok uS /\
    solves_system s b w uD uS (NumberDOFs data) /\ (forall vD, solves_system s b w vD uS (NumberDOFs data) -> vD = uD) /\
    exists rL rH, compute_error_L2 m data create uD uS (Some (planar f)) = Ok rL /\ pe_error rL = 0 /\
      compute_error_H1 m data create uD uS (Some (planar_gradient fx fy)) = Ok rH /\ pe_error rH = 0.
Proof using VM HC.
  intros ACT EK AB PR AN CO Pf Pg0 Pg1 SE HR CL ND DD EX.
  destruct (patch gt lob junk lu llt k ref m info geometry VM data HC K None rea F h gauss f fx fy g0 g0x g0y g1 g1x g1y ACT Pf Pg0 Pg1 SE HR CL ND EX) as (s & b & w & uD & uS & Es & Eb & Ew & EV & LD & LS & ROW).
  destruct (definite K rea ACT EK AB PR AN CO) as (s' & Es' & DEF). rewrite Es in Es'. injection Es' as <-.
  exists s, b, w, uD, uS. repeat (split; [assumption|]). split; [apply (strong_values f g uD uS); assumption|]. split; [split; [exact LD|intros r _; apply ROW]|]. split.
  - intros vD [LV HV]. set (e := map (fun j => nth j vD 0 - nth j uD 0) (seq 0 (NumberDOFs data))).
    assert (NE : forall j, (j < NumberDOFs data)%nat -> nth j e 0 = nth j vD 0 - nth j uD 0).
    { intros j Hj. unfold e. rewrite (nth_indep _ 0 ((fun j => nth j vD 0 - nth j uD 0) 0%nat)) by (rewrite map_length, seq_length; exact Hj). rewrite (map_nth (fun j => nth j vD 0 - nth j uD 0)), seq_nth by exact Hj. reflexivity. }
    destruct (DEF e ltac:(unfold e; rewrite map_length, seq_length; reflexivity)) as [_ Z].
    assert (EZ : energy (NumberDOFs data) s e = 0).
    { unfold energy. apply rsum_0. intros r Hr. rewrite (rsum_ext _ (fun j => entry (trip_DOFs s) r j * nth j e 0) (fun j => entry (trip_DOFs s) r j * nth j vD 0 - entry (trip_DOFs s) r j * nth j uD 0)) by (intros j Hj; rewrite NE by exact Hj; ring).
      rewrite rsum_minus. pose proof (HV r Hr) as H1. pose proof (ROW r) as H2. unfold operator_row in H1, H2. rewrite LV in H1. rewrite LD in H2. 
      match goal with |- _ * (?a - ?b) = 0 => replace (a - b) with 0 by lra end. ring. }
    specialize (Z EZ). apply nth_ext with (d := 0) (d' := 0); [congruence|]. intros j Hj. rewrite LV in Hj. specialize (Z j). rewrite NE in Z by exact Hj. lra.
  - destruct (interpolant gt lob junk lu llt k ref m info geometry VM data HC f) as (uD' & uS' & EV' & _ & _ & HU). rewrite EV in EV'. injection EV' as <- <-.
    apply (zero_errors gt lob junk lu llt k ref m info geometry VM data HC f fx fy uD uS Pf HU).
Qed.
End Wellposed.
