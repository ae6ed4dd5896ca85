(** Proofs: statements of the theorems on meshes of polygons; conservation. *)
From Coq Require Import List Arith Bool Reals Lra Lia.
From Verif Require Import Base RSum GaussModel MatrixModel DofsModel DofsSpec AssemblerModel AssemblerSpec EquationModel EquationSpec PolyProofs VemQuadModel VemQuadSpec GreenSpec GreenProofs VemModel VemSpec VemProofs VemProofs2
  VemMccModel VemMccSpec VemMccProofs VemMccProofs2 VemMccProofs3 VemMccProofs4 VemMccProofs5 DriverModel DriverSpec DriverSpec2 Pcc2dSpec Pcc2dProofs Pcc2dProofs4
  Mcc2dModel Mcc2dSpec Mcc2dProofs3 Mcc2dProofs4 Mcc2dProofs5 Mcc2dProofs6 Mcc2dProofs7 Mcc2dProofs8.
Import ListNotations.
Local Open Scope R_scope.

Section Mesh.
Variables (gt gs : nat -> QuadratureData) (junk : nat -> nat -> R) (llt : Solver) (svd : Svd) (k : nat) (ref refq : MCC_2D_Reference) (m : Mesh2D) (info0 info1 : MeshDOFsInfo) (geometry : nat -> Polygon) (ls : nat -> MCC_Local).
Hypothesis MM : mcc_mesh gt gs junk llt svd k ref refq m info0 info1 geometry ls.
Local Notation mesh := (md_mesh m).
Local Notation nc := (Cell2Ds_number mesh).
Local Notation create := (Create_MCC junk llt svd ref refq geometry).
Variables (d0 d1 : DOFsData) (P : MixedProblem).
Hypothesis HC0 : CreateDOFs 2 info0 mesh = Ok d0.
Hypothesis HC1 : CreateDOFs 2 info1 mesh = Ok d1.
Local Notation N0 := (NumberDOFs d0).
Local Notation N1 := (NumberDOFs d1).
Let MS c : (c < nc)%nat -> mcc_space gt gs junk llt svd k (geometry c) ref (ls c). Proof. apply (xm_space _ _ _ _ _ _ _ _ _ _ _ _ _ MM). Qed.
Let RQ : MCC_Pressure_Create gt gs k = Ok refq. Proof. apply (xm_pressure _ _ _ _ _ _ _ _ _ _ _ _ _ MM). Qed.
Local Notation E := (forms_of junk ref refq geometry ls).

Lemma dofs_of c gx gy u0 u1 j : (c < nc)%nat -> mcc_gradients ref (ls c) gx gy -> (j < lm_NumBasisFunctions (ls c))%nat -> dofs k (geometry c) (ls c) u0 u1 j = mcc_dof ref (ls c) (geometry c) gx gy u0 u1 j.
Proof.
  intros Hc G Hj. symmetry. apply (dof_dofs gt gs junk llt svd k _ ref _ (MS c Hc)); [exact G|]. rewrite (mf_N _ _ _ _ _ _ _ (VemMccProofs4.LF gt gs junk llt svd k _ ref _ (MS c Hc))) in Hj. exact Hj.
Qed.

Definition conserves (D : MixedData) (x : list R) : Prop :=
  (forall c, (c < nc)%nat -> rsum (m_cols (pg_Vertices (geometry c))) (fun i => mcc_edge_outflow ref (ls c) (geometry c) i (cell_velocity info0 mesh d0 D x c)) +
    mcc_reacted ref (ls c) (mp_reaction P) (cell_pressure info1 mesh d0 d1 D x c) = mcc_total (ls c) (mp_source P)) /\
  (forall c i c' i', In (c, i) (incidences mesh) -> In (c', i') (incidences mesh) -> edge_of mesh (c, i) = edge_of mesh (c', i') -> direction_of geometry (c, i) = negb (direction_of geometry (c', i')) ->
    mcc_edge_outflow ref (ls c) (geometry c) i (cell_velocity info0 mesh d0 D x c) = - mcc_edge_outflow ref (ls c') (geometry c') i' (cell_velocity info0 mesh d0 D x c')) /\
  cells_sum mesh (fun c => mcc_total (ls c) (mp_source P) - mcc_reacted ref (ls c) (mp_reaction P) (cell_pressure info1 mesh d0 d1 D x c)) =
    lsum (fun ci => if (uses mesh geometry (edge_of mesh ci) true =? uses mesh geometry (edge_of mesh ci) false)%nat then 0
                    else mcc_edge_outflow ref (ls (fst ci)) (geometry (fst ci)) (snd ci) (cell_velocity info0 mesh d0 D x (fst ci))) (incidences mesh) /\
  (forall f fx fy, (forall a b z, mp_reaction P a b z = 0) -> poly2 k f fx fy -> (forall a b z, mp_source P a b z = f a b) ->
    forall c, (c < nc)%nat -> exists V, MCC_DivergenceValues (ls c) = Ok V /\ forall q, (q < m_cols (mcc_points (ls c)))%nat -> combine V (cell_velocity info0 mesh d0 D x c) q = f (m_at (mcc_points (ls c)) 0 q) (m_at (mcc_points (ls c)) 1 q)).

Lemma mcc_conserves : strong_once info0 mesh \/ (exists u0 u1, flux_data info0 mesh geometry u0 u1 (mp_strong P)) -> cells_free info1 mesh ->
  exists D, mixed_assemble m info0 d0 d1 create P = Ok D /\ forall x, length x = (N0 + N1)%nat -> (forall r, (r < N0 + N1)%nat -> mixed_residual D x r = 0) -> conserves D x.
Proof.
  intros SO CF. destruct (strong_sv gt gs junk llt svd k ref refq m info0 info1 geometry ls MM P SO) as (sv & SA).
  destruct (assembled gt gs junk llt svd k ref refq m info0 info1 geometry ls MM d0 d1 P HC0 HC1 sv SA) as (D & gS & A1 & A2 & A3 & A4 & A5 & A6 & A7). exists D. split; [exact A1|]. intros x Lx Z.
  pose proof (mcc_balance gt gs junk llt svd k ref refq m info0 info1 geometry ls MM d0 d1 P HC1 D gS x A7 A2 A3 Lx CF Z) as BA.
  assert (C1 : forall c, (c < nc)%nat -> rsum (m_cols (pg_Vertices (geometry c))) (fun i => mcc_edge_outflow ref (ls c) (geometry c) i (cell_velocity info0 mesh d0 D x c)) +
    mcc_reacted ref (ls c) (mp_reaction P) (cell_pressure info1 mesh d0 d1 D x c) = mcc_total (ls c) (mp_source P)).
  { intros c Hc. specialize (BA c _ _ _ Hc (poly2_const k 1)). destruct (C112_conservation_all gt gs junk llt svd k _ ref _ (MS c Hc)) as (V & EV & CV). rewrite <- CV.
    assert (ED : xf_D (E c) = V) by (unfold forms_of, mcc_E; cbn [xf_D]; rewrite EV; reflexivity). rewrite ED in BA.
    apply Rminus_diag_uniq. etransitivity; [|exact BA]. unfold mcc_reacted, mcc_total, apply_rule, cell_rule. change (xf_weights (E c)) with (q_Weights (lm_InternalQuadrature (ls c))).
    rewrite <- rsum_plus, <- rsum_minus. apply rsum_ext. intros q Hq. unfold forms_of. rewrite (pressure_combine gt gs junk llt svd k _ ref refq _ _ (MS c Hc) RQ (lqs_ok gt gs junk llt svd k ref refq m info0 info1 geometry ls MM c Hc)).
    unfold at_x. change (xf_points (mcc_E ref (geometry c) (ls c) (lqs junk refq geometry ls c))) with (mcc_points (ls c)). ring. }
  assert (NE : forall c i c' i', In (c, i) (incidences mesh) -> In (c', i') (incidences mesh) -> edge_of mesh (c, i) = edge_of mesh (c', i') -> direction_of geometry (c, i) = negb (direction_of geometry (c', i')) ->
    mcc_edge_outflow ref (ls c) (geometry c) i (cell_velocity info0 mesh d0 D x c) = - mcc_edge_outflow ref (ls c') (geometry c') i' (cell_velocity info0 mesh d0 D x c'))
    by (intros; apply (mcc_neighbours gt gs junk llt svd k ref refq m info0 info1 geometry ls MM d0); auto).
  split; [exact C1|]. split; [exact NE|]. split.
  - set (val := fun e q => match value_of d0 (firstn N0 x) (firstn (NumberStrongs d0) (md_solutionNeumann D)) (entity_dof 1 e q) with Some y => y | None => 0 end).
    set (X := fun e => edge_rule gs k m e (fun _ _ => 1) (val e)).
    assert (OX : forall ci, In ci (incidences mesh) -> mcc_edge_outflow ref (ls (fst ci)) (geometry (fst ci)) (snd ci) (cell_velocity info0 mesh d0 D x (fst ci)) = (if direction_of geometry ci then 1 else -1) * X (edge_of mesh ci)).
    { intros [c i] Hci. cbn [fst snd]. rewrite (outflow_rule gt gs junk llt svd k ref refq m info0 info1 geometry ls MM c i _ Hci). unfold sign. f_equal. unfold X. apply edge_rule_ext. intros q Hq.
      destruct (proj1 (in_incidences _ _ _) Hci) as (Hc & Hi). apply (edge_dofs gt gs junk llt svd k ref refq m info0 info1 geometry ls MM d0); auto. }
    transitivity (lsum (fun ci => mcc_edge_outflow ref (ls (fst ci)) (geometry (fst ci)) (snd ci) (cell_velocity info0 mesh d0 D x (fst ci))) (incidences mesh)).
    + rewrite (lsum_incidences mesh (fun c i => mcc_edge_outflow ref (ls c) (geometry c) i (cell_velocity info0 mesh d0 D x c))). unfold cells_sum. rewrite lsum_seq. apply rsum_ext. intros c Hc. rewrite <- C1 by exact Hc.
      rewrite (edges_vertices gt gs junk llt svd k ref refq m info0 info1 geometry ls MM c Hc). ring.
    + pose proof (cancel_edges (incidences mesh) (edge_of mesh) (direction_of geometry) (fun e => if (uses mesh geometry e true =? uses mesh geometry e false)%nat then X e else 0)) as K.
      apply Rminus_diag_uniq. rewrite <- lsum_less. etransitivity; [|apply K].
      * apply lsum_ext. intros ci Hci. rewrite OX by exact Hci. destruct (uses mesh geometry (edge_of mesh ci) true =? uses mesh geometry (edge_of mesh ci) false)%nat; ring.
      * intros ci Hci. destruct (Nat.eqb_spec (uses mesh geometry (edge_of mesh ci) true) (uses mesh geometry (edge_of mesh ci) false)) as [H|H]; [right; exact H|left; reflexivity].
  - intros f fx fy R0 Pf Hf c Hc. destruct (divergence_values gt gs junk llt svd k _ ref _ (MS c Hc)) as (V & EV & _ & _ & DV). exists V. split; [exact EV|]. intros q Hq. rewrite DV.
    set (u := cell_velocity info0 mesh d0 D x c) in *. apply Rminus_diag_uniq.
    assert (GP := ms_polygon _ _ _ _ _ _ _ _ _ (MS c Hc)). assert (GR := ms_rules _ _ _ _ _ _ _ _ _ (MS c Hc)). assert (LFc := VemMccProofs4.LF gt gs junk llt svd k _ ref _ (MS c Hc)).
    assert (PD : exists gx gy, poly2 k (fun a b => div k (geometry c) (ls c) u a b - f a b) gx gy).
    { pose proof (poly2_add k _ _ _ _ _ _ (VemMccProofs3.comb_poly2 (geometry c) GP k (coef k (geometry c) (lm_Vmatrix (ls c)) u)) (poly2_scal k (-1) _ _ _ Pf)) as PA.
      eexists. eexists. refine (poly2_ext k _ _ _ _ _ _ PA _ (fun _ _ => eq_refl) (fun _ _ => eq_refl)). intros a b. unfold div. ring. }
    destruct PD as (gx & gy & PD). pose proof (I_square gt gs k (geometry c) llt svd (ls c) GR GP LFc _ _ _ (poly2_le k (k + 1) _ _ _ ltac:(lia) PD)) as (_ & SQ). apply SQ.
    etransitivity; [|exact (BA c _ gx gy Hc PD)]. unfold mcc_inside, cell_rule, apply_rule. change (xf_weights (E c)) with (q_Weights (lm_InternalQuadrature (ls c))). apply rsum_ext. intros q' Hq'.
    assert (ED : xf_D (E c) = V) by (unfold forms_of, mcc_E; cbn [xf_D]; rewrite EV; reflexivity). rewrite ED, DV. unfold at_x, at_col. rewrite R0, Hf.
    change (xf_points (E c)) with (mcc_points (ls c)). fold u. ring.
Qed.
End Mesh.

(** spaces with one solver and one decomposition on polygons of the same diameter *)
Lemma mcc_spaces_exist gt gs junk k geometry n h : good_mixed_rules gt gs k -> (0 < n)%nat -> (forall c, (c < n)%nat -> good_polygon (geometry c) /\ pg_Diameter (geometry c) = h) ->
  exists llt svd ref refq ls, (forall c, (c < n)%nat -> mcc_space gt gs junk llt svd k (geometry c) ref (ls c)) /\ MCC_Pressure_Create gt gs k = Ok refq.
Proof.
  intros GR Hn HG. destruct (mcc_reference gt gs k) as (ref & ER & _). destruct (pressure_exists gt gs k) as (refq & EQ).
  destruct (mcc_local_ok gt gs k ref (geometry 0%nat) GR (proj1 (HG 0%nat Hn)) junk gauss_solver (fun _ _ _ => 0) ER) as (l0 & EL0 & LF0). destruct (mf_TN _ _ _ _ _ _ _ LF0) as (a1 & a2 & a3 & a4).
  destruct (completion (lm_TkNabla l0)) as (B & HB). { rewrite a1, a2. pose proof (num2_ge k). lia. }
  destruct (finite_choice (fun c l => mcc_space gt gs junk gauss_solver (fun _ => B) k (geometry c) ref l) n) as (L & _ & HL).
  { intros c Hc. destruct (HG c Hc) as (GP & HD). destruct (mcc_local_ok gt gs k ref (geometry c) GR GP junk gauss_solver (fun _ => B) ER) as (l & EL & LF). destruct (mf_TN _ _ _ _ _ _ _ LF) as (b1 & b2 & b3 & b4).
    exists l. constructor; auto using gauss_positive. apply (completes_ext _ (lm_TkNabla l0)); try congruence; auto.
    rewrite a1, a2. intros a c' Ha Hc'. rewrite (proj2 (HG 0%nat Hn)) in a3, a4. rewrite HD in b3, b4. destruct (Nat.ltb_spec c' (num2 k)).
    - rewrite a3, b3 by auto. reflexivity.
    - replace c' with (num2 k + (c' - num2 k))%nat by lia. rewrite a4, b4 by (auto; lia). reflexivity. }
  exists gauss_solver, (fun _ => B), ref, refq, (fun c => nth c L l0). split; [intros c Hc; apply HL; exact Hc|exact EQ].
Qed.
