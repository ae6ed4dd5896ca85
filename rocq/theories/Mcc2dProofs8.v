(** Proofs: the mixed problem with the mixed virtual element on meshes of polygons. *)
From Coq Require Import List Arith Bool Reals Lra Lia.
From Verif Require Import Base RSum MatrixModel DofsModel DofsSpec AssemblerModel AssemblerSpec EquationModel EquationSpec VemQuadModel VemQuadSpec GreenSpec GreenProofs VemModel VemSpec
  VemMccModel VemMccSpec VemMccProofs VemMccProofs2 VemMccProofs3 VemMccProofs4 VemMccProofs5 DriverModel DriverSpec DriverSpec2 DriverProofs2 DriverProofs3 DriverProofs4 DriverProofs5 Pcc2dSpec Pcc2dProofs Pcc2dProofs4 Pcc2dProofs7
  Mcc2dModel Mcc2dSpec Mcc2dProofs3 Mcc2dProofs4 Mcc2dProofs5 Mcc2dProofs6 Mcc2dProofs7.
Import ListNotations.
Local Open Scope R_scope.

Definition mixed_kmax (E : MixedForms) (K : R -> R -> R -> nat -> R) : R :=
  big_max (flat_map (fun d => map (fun q => Rabs (at_x K E q d)) (seq 0 (v_size (xf_weights E)))) (seq 0 9)).
Lemma mixed_kmax_ok E K : (0 < v_size (xf_weights E))%nat -> greatest_inverse E K (mixed_kmax E K).
Proof.
  intros H. unfold mixed_kmax. set (l := flat_map _ (seq 0 9)).
  assert (IN : forall x, In x l <-> exists d q, (d < 9)%nat /\ (q < v_size (xf_weights E))%nat /\ x = Rabs (at_x K E q d)).
  { intros x. unfold l. rewrite in_flat_map. split.
    - intros (d & Hd & Hx). apply in_seq in Hd. apply in_map_iff in Hx. destruct Hx as (q & <- & Hq). apply in_seq in Hq. exists d, q. repeat split; lia.
    - intros (d & q & Hd & Hq & ->). exists d. split; [apply in_seq; lia|]. apply in_map_iff. exists q. split; auto. apply in_seq. lia. }
  split.
  - intros d q Hd Hq. apply big_max_ge, IN. eauto.
  - apply IN, big_max_in. intros Z. assert (In (Rabs (at_x K E 0%nat 0%nat)) l) by (apply IN; exists 0%nat, 0%nat; repeat split; auto; lia). rewrite Z in H0. destruct H0.
Qed.
Definition no_pressure : MCC_Pressure_Local := {| lq_Order := 0; lq_Dimension := 0; lq_Nk := 0; lq_Nkm1 := 0; lq_NumBasisFunctions := 0; lq_Diameter := 0; lq_Centroid := fun _ => 0;
  lq_InternalQuadrature := no_rule; lq_VanderInternal := mzero 0 0; lq_Qmatrix := mzero 0 0; lq_Hmatrix := mzero 0 0 |}.

Section MccMesh.
Variables (gt gs : nat -> QuadratureData) (junk : nat -> nat -> R) (llt : Solver) (svd : Svd) (k : nat) (ref refq : MCC_2D_Reference) (m : Mesh2D) (info0 info1 : MeshDOFsInfo) (geometry : nat -> Polygon) (ls : nat -> MCC_Local).
Hypothesis MM : mcc_mesh gt gs junk llt svd k ref refq m info0 info1 geometry ls.
Local Notation mesh := (md_mesh m).
Local Notation nc := (Cell2Ds_number mesh).
Local Notation ne c := (length (Cell2D_edges mesh c)).
Local Notation nv c := (m_cols (pg_Vertices (geometry c))).
Local Notation seg := (gs (2 * k + 1)%nat).
Local Notation create := (Create_MCC junk llt svd ref refq geometry).
Local Notation n0 c := (length (closure_dofs info0 mesh 2 c)).
Local Notation n1 c := (length (closure_dofs info1 mesh 2 c)).
Let HN0 : nc = num_cells info0 2. Proof. apply (xm_cells0 _ _ _ _ _ _ _ _ _ _ _ _ _ MM). Qed.
Let HN1 : nc = num_cells info1 2. Proof. apply (xm_cells1 _ _ _ _ _ _ _ _ _ _ _ _ _ MM). Qed.
Let MS c : (c < nc)%nat -> mcc_space gt gs junk llt svd k (geometry c) ref (ls c). Proof. apply (xm_space _ _ _ _ _ _ _ _ _ _ _ _ _ MM). Qed.
Let RQ : MCC_Pressure_Create gt gs k = Ok refq. Proof. apply (xm_pressure _ _ _ _ _ _ _ _ _ _ _ _ _ MM). Qed.

Definition lqs (c : nat) : MCC_Pressure_Local := get no_pressure (MCC_Pair_Pressure junk refq (geometry c) (ls c)).
Lemma lqs_ok c : (c < nc)%nat -> MCC_Pair_Pressure junk refq (geometry c) (ls c) = Ok (lqs c).
Proof. intros Hc. unfold lqs. destruct (C114_pair_all gt gs junk llt svd k _ ref _ (MS c Hc) refq RQ) as (lq & -> & _). reflexivity. Qed.
Definition forms_of (c : nat) : MixedForms := mcc_E ref (geometry c) (ls c) (lqs c).
Local Notation E := forms_of.
Lemma edges_vertices c : (c < nc)%nat -> ne c = nv c.
Proof. intros Hc. rewrite (xm_edges _ _ _ _ _ _ _ _ _ _ _ _ _ MM c Hc). symmetry. apply (xm_geometry _ _ _ _ _ _ _ _ _ _ _ _ _ MM c Hc). Qed.
Lemma velocity_size c : (c < nc)%nat -> n0 c = ((k + 1) * nv c + k * (k + 2))%nat.
Proof.
  intros Hc. rewrite <- edges_vertices by exact Hc. rewrite (length0 info0 mesh c (k + 1) (k * (k + 2))); auto.
  - intros v; apply (xm_vertex0 _ _ _ _ _ _ _ _ _ _ _ _ _ MM c v Hc).
  - intros e; apply (xm_edge0 _ _ _ _ _ _ _ _ _ _ _ _ _ MM c e Hc).
  - apply (xm_cell0 _ _ _ _ _ _ _ _ _ _ _ _ _ MM c Hc).
Qed.
Lemma pressure_size c : (c < nc)%nat -> n1 c = lm_Nk (ls c) /\ requested info1 2 c = lm_Nk (ls c).
Proof.
  intros Hc. assert (Q : requested info1 2 c = lm_Nk (ls c)).
  { pose proof (xm_cell1 _ _ _ _ _ _ _ _ _ _ _ _ _ MM c Hc). destruct (cell_sizes gt gs junk llt svd k _ ref _ (MS c Hc)) as (_ & X & _). lia. }
  split; [|exact Q]. rewrite (length0 info1 mesh c 0 (lm_Nk (ls c))); auto.
  - intros v; apply (xm_vertex1 _ _ _ _ _ _ _ _ _ _ _ _ _ MM c v Hc).
  - intros e; apply (xm_edge1 _ _ _ _ _ _ _ _ _ _ _ _ _ MM c e Hc).
Qed.
Lemma directions c : (c < nc)%nat -> length (pg_EdgesDirection (geometry c)) = nv c.
Proof. intros Hc. pose proof (ms_polygon _ _ _ _ _ _ _ _ _ (MS c Hc)) as GP. apply (gp_edges _ GP). Qed.
Lemma mcc_created c : (c < nc)%nat -> create c = Ok (MCC_space ref (geometry c) (ls c) (lqs c)).
Proof. intros Hc. unfold Create_MCC. rewrite (ms_local _ _ _ _ _ _ _ _ _ (MS c Hc)). cbn [bind]. rewrite lqs_ok by exact Hc. reflexivity. Qed.
Lemma HE c : (c < nc)%nat -> mixed_forms create (Cell2D_edges mesh c) (requested info0 1) c (n0 c) (n1 c) (E c).
Proof.
  intros Hc. rewrite velocity_size by exact Hc. rewrite (proj1 (pressure_size c Hc)). apply (mcc_forms gt gs junk llt svd k _ ref refq _ _ (MS c Hc) RQ (lqs_ok c Hc)).
  - apply mcc_created. exact Hc.
  - apply edges_vertices. exact Hc.
  - intros e. apply (xm_edge0 _ _ _ _ _ _ _ _ _ _ _ _ _ MM c e Hc).
  - apply directions. exact Hc.
Qed.

(** the flux through an edge *)
Definition first_end (e d : nat) : R := md_coords m (nth 0 (Cell1D_vertices mesh e) 0%nat) d.
Definition last_end (e d : nat) : R := md_coords m (nth 1 (Cell1D_vertices mesh e) 0%nat) d.
Definition on_edge (e : nat) (t : R) (d : nat) : R := first_end e d + t * (last_end e d - first_end e d).
Definition edge_len (e : nat) : R := sqrt ((last_end e 0 - first_end e 0) * (last_end e 0 - first_end e 0) + (last_end e 1 - first_end e 1) * (last_end e 1 - first_end e 1)).
Definition edge_rule (e : nat) (p : R -> R -> R) (v : nat -> R) : R :=
  edge_len e * rsum (k + 1) (fun q => v_at (q_Weights seg) q * (p (on_edge e (m_at (q_Points seg) 0 q) 0%nat) (on_edge e (m_at (q_Points seg) 0 q) 1%nat) * v q)).
Lemma ends c i d : In (c, i) (incidences mesh) -> (d < 3)%nat -> first_end (edge_of mesh (c, i)) d = m_at (pg_Vertices (geometry c)) d (if direction_of geometry (c, i) then i else ((i + 1) mod nv c)%nat) /\
  last_end (edge_of mesh (c, i)) d = m_at (pg_Vertices (geometry c)) d (if direction_of geometry (c, i) then ((i + 1) mod nv c)%nat else i) /\
  m_at (pg_EdgesTangent (geometry c)) d i = sign (direction_of geometry (c, i)) * (last_end (edge_of mesh (c, i)) d - first_end (edge_of mesh (c, i)) d) /\ (i < nv c)%nat.
Proof.
  intros Hci Hd. destruct (proj1 (in_incidences _ _ _) Hci) as (Hc & Hi). rewrite (edges_vertices c Hc) in Hi. destruct (xm_geometry _ _ _ _ _ _ _ _ _ _ _ _ _ MM c Hc) as (G1 & G2 & G3 & G4).
  assert (Hj : ((i + 1) mod nv c < nv c)%nat) by (apply Nat.mod_upper_bound; lia). specialize (G4 i Hi). cbv zeta in G4. rewrite (G3 i d Hi Hd).
  unfold first_end, last_end, edge_of, direction_of, sign in *. cbn [fst snd] in *. destruct (nth i (pg_EdgesDirection (geometry c)) true); destruct G4 as (-> & ->); rewrite !G2 by auto; repeat split; auto; ring.
Qed.
Lemma on_edge_point c i t d : In (c, i) (incidences mesh) -> (d < 3)%nat -> edge_point (geometry c) i t d = on_edge (edge_of mesh (c, i)) t d.
Proof.
  intros Hci Hd. destruct (ends c i d Hci Hd) as (A & B & C & _). unfold edge_point, on_edge. rewrite C, A, B. unfold direction_of, sign. cbn [fst snd]. destruct (nth i (pg_EdgesDirection (geometry c)) true); ring.
Qed.
Lemma edge_length c i : In (c, i) (incidences mesh) -> Rabs (v_at (pg_EdgesLength (geometry c)) i) = edge_len (edge_of mesh (c, i)) /\ edge_len (edge_of mesh (c, i)) <> 0.
Proof.
  intros Hci. destruct (proj1 (in_incidences _ _ _) Hci) as (Hc & _). destruct (ends c i 0 Hci ltac:(lia)) as (_ & _ & T0 & Hi). destruct (ends c i 1 Hci ltac:(lia)) as (_ & _ & T1 & _).
  destruct (xm_lengths _ _ _ _ _ _ _ _ _ _ _ _ _ MM c i Hc Hi) as (L & Nz). unfold edge_len. rewrite T0, T1 in L. set (e := edge_of mesh (c, i)) in *.
  assert (Q : Rabs (v_at (pg_EdgesLength (geometry c)) i) = sqrt ((last_end e 0 - first_end e 0) * (last_end e 0 - first_end e 0) + (last_end e 1 - first_end e 1) * (last_end e 1 - first_end e 1))).
  { rewrite <- sqrt_Rsqr_abs. f_equal. unfold Rsqr. rewrite L. unfold sign. destruct (direction_of geometry (c, i)); ring. }
  split; [exact Q|]. rewrite <- Q. apply Rabs_no_R0. exact Nz.
Qed.
Lemma side_sign_direction c i : side_sign (geometry c) i = sign (direction_of geometry (c, i)).
Proof. reflexivity. Qed.
Lemma mcc_parts c v p p0 p1 : (c < nc)%nat -> poly2 k p p0 p1 ->
  rsum (v_size (xf_weights (E c))) (fun q => v_at (xf_weights (E c)) q * (p0 (m_at (xf_points (E c)) 0%nat q) (m_at (xf_points (E c)) 1%nat q) * combine (xf_V (E c) 0) v q +
    p1 (m_at (xf_points (E c)) 0%nat q) (m_at (xf_points (E c)) 1%nat q) * combine (xf_V (E c) 1) v q + p (m_at (xf_points (E c)) 0%nat q) (m_at (xf_points (E c)) 1%nat q) * combine (xf_D (E c)) v q)) =
  rsum (ne c) (fun i => sign (direction_of geometry (c, i)) * edge_rule (edge_of mesh (c, i)) p (fun j => v ((k + 1) * i + j)%nat)).
Proof.
  intros Hc Hp. rewrite (edges_vertices c Hc). etransitivity; [apply (cell_parts gt gs junk llt svd k _ ref _ _ (MS c Hc) v p p0 p1 Hp)|]. apply rsum_ext. intros i Hi.
  assert (Hci : In (c, i) (incidences mesh)) by (apply in_incidences; split; [exact Hc|rewrite edges_vertices by exact Hc; exact Hi]).
  rewrite side_sign_direction. f_equal. unfold edge_rule. rewrite (proj1 (edge_length c i Hci)). f_equal. apply rsum_ext. intros q Hq. rewrite !(on_edge_point c i) by (auto; lia). reflexivity.
Qed.
Lemma mcc_edge_flux c i g p v : In (c, i) (incidences mesh) -> (forall t, let x := edge_point (geometry c) i t in at_point g x = p (x 0%nat) (x 1%nat)) ->
  rsum (k + 1) (fun j => v j * edge_form (E c) g i j) = sign (direction_of geometry (c, i)) * edge_rule (edge_of mesh (c, i)) p v.
Proof.
  intros Hci Hg. destruct (proj1 (in_incidences _ _ _) Hci) as (Hc & Hi). rewrite (edges_vertices c Hc) in Hi. unfold edge_rule. rewrite <- (proj1 (edge_length c i Hci)), <- !rsum_scal. apply rsum_ext. intros j Hj.
  unfold forms_of. rewrite (cell_edge_form gt gs junk llt svd k _ ref _ _ (MS c Hc) g i j Hi Hj). specialize (Hg (m_at (q_Points seg) 0 j)). cbv zeta in Hg. rewrite Hg, side_sign_direction, !(on_edge_point c i) by (auto; lia). ring.
Qed.
Lemma edge_rule_ext e p v v' : (forall j, (j < k + 1)%nat -> v j = v' j) -> edge_rule e p v = edge_rule e p v'.
Proof. intros H. unfold edge_rule. f_equal. apply rsum_ext. intros q Hq. rewrite H by exact Hq. reflexivity. Qed.
Lemma edge_rule_zero e p : edge_rule e p (fun _ => 0) = 0.
Proof. unfold edge_rule. rewrite rsum_0; [ring|]. intros; ring. Qed.
Lemma edge_rule_one ci : In ci (incidences mesh) -> exists j, (j < k + 1)%nat /\ edge_rule (edge_of mesh ci) (fun _ _ => 1) (fun s => if (s =? j)%nat then 1 else 0) <> 0.
Proof.
  destruct ci as [c i]. intros Hci. destruct (proj1 (in_incidences _ _ _) Hci) as (Hc & _). destruct (segment_weight gt gs junk llt svd k _ ref _ (MS c Hc)) as (j & Hj & Nz). exists j. split; [exact Hj|].
  unfold edge_rule. rewrite (rsum_single _ _ j Hj); [|intros s _ Hn; destruct (Nat.eqb_spec s j); [congruence|ring]]. rewrite Nat.eqb_refl. pose proof (proj2 (edge_length c i Hci)) as L.
  intros Z. apply Rmult_integral in Z. destruct Z as [Z|Z]; [contradiction|]. apply Nz. lra.
Qed.

Variables (d0 d1 : DOFsData) (P : MixedProblem).
Hypothesis HC0 : CreateDOFs 2 info0 mesh = Ok d0.
Hypothesis HC1 : CreateDOFs 2 info1 mesh = Ok d1.
Local Notation N0 := (NumberDOFs d0).
Local Notation N1 := (NumberDOFs d1).
Local Notation S0 := (NumberStrongs d0).
Local Notation S1 := (NumberStrongs d1).
Definition kk (c : nat) : R := mixed_kmax (E c) (mp_inverse_diffusion P).
Lemma Hk c : (c < nc)%nat -> greatest_inverse (E c) (mp_inverse_diffusion P) (kk c).
Proof. intros Hc. apply mixed_kmax_ok. apply (xe_points _ _ _ _ _ _ _ (HE c Hc)). Qed.
Local Notation Sums := (sums m info0 info1 d0 d1 P E kk).
Lemma HV0 c v : (c < nc)%nat -> In v (Cell2D_vertices mesh c) -> requested info0 0 v = 0%nat. Proof. apply (xm_vertex0 _ _ _ _ _ _ _ _ _ _ _ _ _ MM). Qed.
Lemma HE0 c e : (c < nc)%nat -> In e (Cell2D_edges mesh c) -> requested info0 1 e = (k + 1)%nat. Proof. apply (xm_edge0 _ _ _ _ _ _ _ _ _ _ _ _ _ MM). Qed.

(** the assembled system *)
Lemma assembled sv : strong_agree m info0 E (mp_strong P) sv -> exists D gS, mixed_assemble m info0 d0 d1 create P = Ok D /\ md_solutionNeumann D = gS ++ repeat 0 S1 /\ length gS = S0 /\
  length (md_rightHandSide D) = (N0 + N1)%nat /\ (forall r j v, In (r, j, v) (md_globalMatrixA D) -> (r < N0 + N1)%nat /\ (j < N0 + N1)%nat) /\
  (forall c e i, (c < nc)%nat -> In e (Cell2D_edges mesh c) -> strong_entity info0 1 e -> (i < k + 1)%nat -> value_of d0 [] gS (entity_dof 1 e i) = Some (sv e i)) /\ Sums D gS.
Proof.
  intros HS. destruct (mixed_assemble_ok m info0 info1 d0 d1 create P E kk sv HC0 HN0 HC1 HN1 HE Hk HS) as (D & gS & A1 & A2 & A3 & A4 & A5 & A6 & A7). exists D, gS. do 5 (split; [assumption|]). split; [|exact A7].
  intros c e i Hc He Hs Hi. apply (A6 c e i Hc He Hs). rewrite (HE0 c e Hc He). exact Hi.
Qed.
(** boundary values when Strong edges belong to one cell *)
Definition once_value (e j : nat) : R := match find (fun ci => (edge_of mesh ci =? e)%nat) (incidences mesh) with
  | Some ci => boundary_value (E (fst ci)) (mp_strong P (marker_of info0 1 e)) (snd ci) j | None => 0 end.
Lemma once_agree : strong_once info0 mesh -> strong_agree m info0 E (mp_strong P) once_value.
Proof.
  intros SO c ed e i Hc He Hs Hi. unfold once_value.
  assert (Hci : In (c, ed) (incidences mesh)) by (apply in_incidences; split; [exact Hc|apply nth_error_Some; congruence]).
  assert (Ee : edge_of mesh (c, ed) = e) by (unfold edge_of; cbn [fst snd]; apply nth_error_nth; exact He).
  destruct (find _ (incidences mesh)) as [ci|] eqn:F.
  - apply find_some in F. destruct F as (F1 & F2). apply Nat.eqb_eq in F2. assert (ci = (c, ed)) as -> by (apply (SO (c, ed) ci Hci F1); rewrite Ee; auto). reflexivity.
  - pose proof (find_none _ _ F (c, ed) Hci) as X. cbv beta in X. rewrite Ee, Nat.eqb_refl in X. discriminate.
Qed.

(** the dofs of a polynomial field, edge by edge *)
Section Field.
Variables (u0 u0x u0y u1 u1x u1y : R -> R -> R).
Hypothesis U0 : poly2 k u0 u0x u0y.
Hypothesis U1 : poly2 k u1 u1x u1y.
Definition edge_flux_at (e q : nat) : R :=
  let t := m_at (q_Points seg) 0 q in let x := on_edge e t 0%nat in let y := on_edge e t 1%nat in
  (u0 x y * (last_end e 1 - first_end e 1) - u1 x y * (last_end e 0 - first_end e 0)) / edge_len e.
Definition field_target (h : GlobalCell_DOF) : R :=
  if (g_dim h =? 1)%nat then edge_flux_at (g_cell h) (g_dof h) else dofs k (geometry (g_cell h)) (ls (g_cell h)) u0 u1 ((k + 1) * nv (g_cell h) + g_dof h).
Lemma side_normal c i : In (c, i) (incidences mesh) -> side_sign (geometry c) i * m_at (pg_EdgesNormal (geometry c)) 0 i = (last_end (edge_of mesh (c, i)) 1 - first_end (edge_of mesh (c, i)) 1) / edge_len (edge_of mesh (c, i)) /\
  side_sign (geometry c) i * m_at (pg_EdgesNormal (geometry c)) 1 i = - (last_end (edge_of mesh (c, i)) 0 - first_end (edge_of mesh (c, i)) 0) / edge_len (edge_of mesh (c, i)).
Proof.
  intros Hci. destruct (proj1 (in_incidences _ _ _) Hci) as (Hc & _). destruct (ends c i 0 Hci ltac:(lia)) as (_ & _ & T0 & Hi). destruct (ends c i 1 Hci ltac:(lia)) as (_ & _ & T1 & _).
  destruct (edge_length c i Hci) as (L & Nz). pose proof (ms_polygon _ _ _ _ _ _ _ _ _ (MS c Hc)) as GP. destruct (gp_normals _ GP i Hi) as (A & B). pose proof (gp_tangents _ GP i 0%nat Hi ltac:(lia)) as X0. pose proof (gp_tangents _ GP i 1%nat Hi ltac:(lia)) as X1.
  rewrite <- X1, T1, L in A. rewrite <- X0, T0, L in B. rewrite side_sign_direction. set (e := edge_of mesh (c, i)) in *. unfold sign in *.
  split; apply Rmult_eq_reg_r with (edge_len e); auto; rewrite Rmult_assoc, ?A, ?B; field_simplify; auto; destruct (direction_of geometry (c, i)); field; auto.
Qed.
Lemma dofs_edge c i q : In (c, i) (incidences mesh) -> (q < k + 1)%nat -> dofs k (geometry c) (ls c) u0 u1 ((k + 1) * i + q) = edge_flux_at (edge_of mesh (c, i)) q.
Proof.
  intros Hci Hq. destruct (proj1 (in_incidences _ _ _) Hci) as (Hc & Hi). rewrite (edges_vertices c Hc) in Hi. unfold dofs.
  replace ((k + 1) * i + q <? (k + 1) * nv c)%nat with true by (symmetry; apply Nat.ltb_lt; nia). unfold sg, nr, bx, by'. replace (((k + 1) * i + q) / (k + 1))%nat with i by (symmetry; rewrite Nat.mul_comm, Nat.div_add_l by lia; rewrite Nat.div_small by exact Hq; lia).
  rewrite !(boundary_point gt gs junk llt svd k _ ref _ (MS c Hc)) by (auto; lia). rewrite !(on_edge_point c i) by (auto; lia). destruct (side_normal c i Hci) as (A & B). unfold edge_flux_at. cbv zeta.
  change (sgn (pg_EdgesDirection (geometry c)) i) with (side_sign (geometry c) i). set (a := u0 _ _). set (b := u1 _ _).
  replace (side_sign (geometry c) i * (a * m_at (pg_EdgesNormal (geometry c)) 0 i + b * m_at (pg_EdgesNormal (geometry c)) 1 i)) with
    (a * (side_sign (geometry c) i * m_at (pg_EdgesNormal (geometry c)) 0 i) + b * (side_sign (geometry c) i * m_at (pg_EdgesNormal (geometry c)) 1 i)) by ring.
  rewrite A, B. unfold Rdiv. ring.
Qed.
Lemma flux_agree : flux_data info0 mesh geometry u0 u1 (mp_strong P) -> strong_agree m info0 E (mp_strong P) edge_flux_at.
Proof.
  intros FD c ed e j Hc He Hs Hj.
  assert (Hci : In (c, ed) (incidences mesh)) by (apply in_incidences; split; [exact Hc|apply nth_error_Some; congruence]).
  assert (Ee : edge_of mesh (c, ed) = e) by (unfold edge_of; cbn [fst snd]; apply nth_error_nth; exact He). rewrite (HE0 c e Hc (nth_error_In _ _ He)) in Hj.
  unfold forms_of. rewrite (cell_boundary_value gt gs junk llt svd k _ ref _ _ (MS c Hc)); [|rewrite <- edges_vertices by exact Hc; apply nth_error_Some; congruence|exact Hj].
  rewrite <- Ee. pose proof (FD c ed (m_at (q_Points seg) 0 j) Hci ltac:(rewrite Ee; exact Hs)) as X. cbv zeta in X. rewrite X, <- (dofs_edge c ed j Hci Hj). destruct (side_normal c ed Hci) as (A & B).
  rewrite (dofs_edge c ed j Hci Hj). unfold edge_flux_at. cbv zeta. rewrite !(on_edge_point c ed) by (auto; lia). set (a := u0 _ _). set (b := u1 _ _).
  replace (side_sign (geometry c) ed * (a * m_at (pg_EdgesNormal (geometry c)) 0 ed + b * m_at (pg_EdgesNormal (geometry c)) 1 ed)) with
    (a * (side_sign (geometry c) ed * m_at (pg_EdgesNormal (geometry c)) 0 ed) + b * (side_sign (geometry c) ed * m_at (pg_EdgesNormal (geometry c)) 1 ed)) by ring.
  rewrite A, B. unfold Rdiv. ring.
Qed.
Hypothesis CF0 : cells_free info0 mesh.
Lemma velocity_realised gS : length gS = S0 ->
  (forall c e i, (c < nc)%nat -> In e (Cell2D_edges mesh c) -> strong_entity info0 1 e -> (i < k + 1)%nat -> value_of d0 [] gS (entity_dof 1 e i) = Some (edge_flux_at e i)) ->
  exists vD, length vD = N0 /\ forall c j, (c < nc)%nat -> (j < n0 c)%nat -> cell_value info0 mesh d0 vD gS c j = dofs k (geometry c) (ls c) u0 u1 j.
Proof.
  intros Lg SV. destruct (realise info0 mesh d0 HC0 field_target) as (vD & vS & LD & LS & HU). exists vD. split; [exact LD|]. intros c j Hc Hj.
  assert (PV := fun v => HV0 c v Hc). assert (PE := fun e => HE0 c e Hc). assert (PC := xm_cell0 _ _ _ _ _ _ _ _ _ _ _ _ _ MM c Hc).
  assert (VD : forall h, In h (closure_dofs info0 mesh 2 c) -> exists x, lookup d0 h = Some x /\ (strong_entity info0 (g_dim h) (g_cell h) /\ dof_type x = TStrong \/ ~ strong_entity info0 (g_dim h) (g_cell h) /\ value_of d0 vD gS h = Some (field_target h))).
  { intros h Hin. destruct (closure_valid m info0 d0 c h HC0 HN0 Hc Hin) as (V & _). destruct (valid_lookup 2 info0 mesh d0 ltac:(lia) HC0 h V) as (x & t & Lx & Bt & B). exists x. split; [exact Lx|]. specialize (HU h V).
    unfold strong_entity. rewrite Bt. destruct B as [(-> & Tx & _)|(Nt & Tx & _)]; [left; auto|right]. split; [congruence|]. unfold value_of in *. rewrite Lx, Tx in *. exact HU. }
  rewrite velocity_size in Hj by exact Hc. rewrite <- edges_vertices in Hj by exact Hc. destruct (place0_cases (k + 1) (k * (k + 2)) (ne c) j Hj) as [(i & q & Hi & Hq & ->)|(i & Hi & ->)].
  - pose proof (place0_edge info0 mesh c (k + 1) (k * (k + 2)) PV PE PC i q Hi Hq) as Hn. unfold cell_value. rewrite Hn. destruct (VD _ (nth_error_In _ _ Hn)) as (x & Lx & B).
    assert (Hci : In (c, i) (incidences mesh)) by (apply in_incidences; auto). rewrite (dofs_edge c i q Hci Hq). change (nth i (Cell2D_edges mesh c) 0%nat) with (edge_of mesh (c, i)) in *.
    assert (He : In (edge_of mesh (c, i)) (Cell2D_edges mesh c)) by (apply nth_In; exact Hi).
    destruct B as [(Bs & Tx)|(_ & ->)]; [|reflexivity]. specialize (SV c _ q Hc He Bs Hq). unfold value_of in *. rewrite Lx, Tx in *. rewrite SV. reflexivity.
  - pose proof (place0_cell info0 mesh c (k + 1) (k * (k + 2)) PV PE PC i Hi) as Hn. unfold cell_value. rewrite Hn. destruct (VD _ (nth_error_In _ _ Hn)) as (x & Lx & B). cbn [entity_dof g_dim g_cell] in B.
    destruct B as [(Bs & _)|(_ & ->)]; [destruct (CF0 c Hc Bs)|]. unfold field_target. cbn [entity_dof g_dim g_cell g_dof Nat.eqb]. rewrite <- edges_vertices by exact Hc. reflexivity.
Qed.
End Field.
Lemma pressure_realised p p0 p1 : cells_free info1 mesh -> poly2 k p p0 p1 ->
  exists pD, length pD = N1 /\ forall c x y, (c < nc)%nat -> mcc_polynomial ref (ls c) (lm_Nk (ls c)) (cell_value info1 mesh d1 pD (repeat 0 S1) c) x y = p x y.
Proof.
  intros CF Hp. destruct (finite_choice (fun c a => forall x y, mcc_polynomial ref (ls c) (lm_Nk (ls c)) a x y = p x y) nc) as (al & _ & HA).
  { intros c Hc. destruct (comb_of_poly2 gt gs junk llt svd k _ ref _ (MS c Hc) k p p0 p1 Hp) as (a & A & _). exists a. intros x y.
    pose proof (mf_Nk _ _ _ _ _ _ _ (VemMccProofs4.LF gt gs junk llt svd k _ ref _ (MS c Hc))) as NK.
    rewrite A, NK. apply (poly_comb gt gs junk llt svd k _ ref _ (MS c Hc)). rewrite num2_S. lia. }
  set (T := fun h : GlobalCell_DOF => if (g_dim h =? 2)%nat then nth (g_cell h) al (fun _ => 0) (g_dof h) else 0).
  destruct (realise_free m info0 info1 HN0 HN1 info1 d1 T HC1) as (pD & LD & HU).
  { intros h (_ & V & _) Hs. unfold T. destruct (Nat.eqb_spec (g_dim h) 2) as [Ed|]; [|reflexivity]. rewrite Ed in *. destruct (CF (g_cell h)); [rewrite HN1; exact V|exact Hs]. }
  exists pD. split; [exact LD|]. intros c x y Hc. rewrite <- (HA c (fun _ => 0) Hc x y). apply rsum_ext. intros i Hi. f_equal.
  assert (PV := fun v => xm_vertex1 _ _ _ _ _ _ _ _ _ _ _ _ _ MM c v Hc). assert (PE := fun e => xm_edge1 _ _ _ _ _ _ _ _ _ _ _ _ _ MM c e Hc). destruct (pressure_size c Hc) as (_ & PC).
  pose proof (place0_cell info1 mesh c 0 (lm_Nk (ls c)) PV PE PC i Hi) as Hn. cbn [Nat.mul Nat.add] in Hn. unfold cell_value. rewrite Hn.
  destruct (closure_valid m info1 d1 c _ HC1 HN1 Hc (nth_error_In _ _ Hn)) as (V & _). rewrite (HU _ V). reflexivity.
Qed.

(** the patch test *)
Lemma mcc_patch u0 u0x u0y u1 u1x u1y p px py : cells_free info0 mesh -> cells_free info1 mesh -> mixed_closed info0 mesh geometry -> poly2 k u0 u0x u0y -> poly2 k u1 u1x u1y -> poly2 k p px py ->
  solves_mixed P u0 u0x u0y u1 u1x u1y p px py -> pressure_data info0 mesh geometry p (mp_weak P) -> flux_data info0 mesh geometry u0 u1 (mp_strong P) ->
  exists D x, mixed_assemble m info0 d0 d1 create P = Ok D /\ length x = (N0 + N1)%nat /\ (forall r, (r < N0 + N1)%nat -> mixed_residual D x r = 0) /\
  (forall c j, (c < nc)%nat -> (j < lm_NumBasisFunctions (ls c))%nat -> cell_velocity info0 mesh d0 D x c j = dofs k (geometry c) (ls c) u0 u1 j) /\
  (forall c a b, (c < nc)%nat -> mcc_polynomial ref (ls c) (lm_Nk (ls c)) (cell_pressure info1 mesh d0 d1 D x c) a b = p a b).
Proof.
  intros CF0 CF1 CL U0 U1 Hp SM PD FD. destruct (assembled (edge_flux_at u0 u1) (flux_agree u0 u1 FD)) as (D & gS & A1 & A2 & A3 & A4 & A5 & A6 & A7).
  destruct (velocity_realised u0 u1 CF0 gS A3 A6) as (vD & Lv & HV). destruct (pressure_realised p px py CF1 Hp) as (pD & Lp & HP).
  assert (FV : forall c q, (c < nc)%nat -> (q < v_size (xf_weights (E c)))%nat -> let X := m_at (xf_points (E c)) 0%nat q in let Y := m_at (xf_points (E c)) 1%nat q in
    combine (xf_V (E c) 0) (cell_value info0 mesh d0 vD gS c) q = u0 X Y /\ combine (xf_V (E c) 1) (cell_value info0 mesh d0 vD gS c) q = u1 X Y /\
    combine (xf_D (E c)) (cell_value info0 mesh d0 vD gS c) q = u0x X Y + u1y X Y /\ combine (xf_P (E c)) (cell_value info1 mesh d1 pD (repeat 0 S1) c) q = p X Y).
  { intros c q Hc Hq. cbv zeta. destruct (field_values gt gs junk llt svd k _ ref _ (lqs c) (MS c Hc) u0 u0x u0y u1 u1x u1y q U0 U1 Hq) as (F0 & F1 & F2).
    pose proof (HE c Hc) as X. split; [|split; [|split]].
    - fold (E c) in F0. etransitivity; [|exact F0]. apply combine_ext. intros j Hj. apply HV; auto. rewrite (proj2 (proj2 (xe_V _ _ _ _ _ _ _ X) 0%nat ltac:(lia))) in Hj. exact Hj.
    - fold (E c) in F1. etransitivity; [|exact F1]. apply combine_ext. intros j Hj. apply HV; auto. rewrite (proj2 (proj2 (xe_V _ _ _ _ _ _ _ X) 1%nat ltac:(lia))) in Hj. exact Hj.
    - fold (E c) in F2. etransitivity; [|exact F2]. apply combine_ext. intros j Hj. apply HV; auto. rewrite (proj2 (proj2 (xe_D _ _ _ _ _ _ _ X))) in Hj. exact Hj.
    - unfold forms_of. rewrite (pressure_combine gt gs junk llt svd k _ ref refq _ _ (MS c Hc) RQ (lqs_ok c Hc)). apply HP. exact Hc. }
  exists D, (vD ++ pD). split; [exact A1|]. split; [rewrite app_length; lia|].
  assert (SG : firstn S0 (md_solutionNeumann D) = gS) by (rewrite A2, firstn_app, A3, Nat.sub_diag, <- A3, firstn_all; cbn [firstn]; apply app_nil_r).
  assert (SZ : skipn S0 (md_solutionNeumann D) = repeat 0 S1) by (rewrite A2, skipn_app, A3, Nat.sub_diag, <- A3, skipn_all; reflexivity).
  assert (XV : firstn N0 (vD ++ pD) = vD) by (rewrite firstn_app, Lv, Nat.sub_diag, <- Lv, firstn_all; cbn [firstn]; apply app_nil_r).
  assert (XP : skipn N0 (vD ++ pD) = pD) by (rewrite skipn_app, Lv, Nat.sub_diag, <- Lv, skipn_all; reflexivity).
  split; [|split].
  - assert (R0 : forall r, (r < N0)%nat -> mixed_residual D (vD ++ pD) r = 0).
    { apply (patch_velocity m info0 info1 d0 d1 create P E kk HC0 HN0 HN1 HE geometry k (k + 1) edge_rule HV0 HE0 mcc_parts mcc_edge_flux edge_rule_ext edge_rule_zero D gS vD pD p px py A7 Lv Lp Hp); auto.
      - intros c q Hc Hq. destruct (FV c q Hc Hq) as (-> & -> & _ & ->). unfold at_x, at_col. split; [apply (sm_momentum0 _ _ _ _ _ _ _ _ _ _ SM)|]. split; [apply (sm_momentum1 _ _ _ _ _ _ _ _ _ _ SM)|reflexivity].
      - intros c i Hc Hi. pose proof (HE c Hc) as X. destruct (stabilisation_values gt gs junk llt svd k _ ref _ (MS c Hc)) as (S & ES & _ & _ & _ & Z).
        assert (EX : xf_S (E c) = S) by (unfold forms_of, mcc_E; cbn [xf_S]; rewrite ES; reflexivity). rewrite EX.
        rewrite <- (Z u0 u0x u0y u1 u1x u1y U0 U1 i). apply combine_ext. intros j Hj. apply HV; auto. rewrite <- EX, (proj2 (proj2 (xe_S _ _ _ _ _ _ _ X))) in Hj. exact Hj. }
    assert (R1' : forall r, (r < N1)%nat -> mixed_residual D (vD ++ pD) (N0 + r) = 0).
    { apply (patch_pressure m info0 info1 d0 d1 P E kk D gS vD pD A7 Lv Lp). intros c q Hc Hq. destruct (FV c q Hc Hq) as (_ & _ & -> & ->). unfold at_x, at_col. apply (sm_mass _ _ _ _ _ _ _ _ _ _ SM). }
    intros r Hr. destruct (Nat.lt_ge_cases r N0) as [H|H]; [apply R0; exact H|]. replace r with (N0 + (r - N0))%nat by lia. apply R1'. lia.
  - intros c j Hc Hj. unfold cell_velocity. rewrite SG, XV. apply HV; [exact Hc|]. rewrite velocity_size by exact Hc. destruct (cell_sizes gt gs junk llt svd k _ ref _ (MS c Hc)) as (<- & _). exact Hj.
  - intros c a b Hc. unfold cell_pressure. rewrite SZ, XP. apply HP. exact Hc.
Qed.

Lemma strong_sv : strong_once info0 mesh \/ (exists u0 u1, flux_data info0 mesh geometry u0 u1 (mp_strong P)) -> exists sv, strong_agree m info0 E (mp_strong P) sv.
Proof. intros [SO|(u0 & u1 & FD)]; [exists once_value; apply once_agree; exact SO|exists (edge_flux_at u0 u1); apply flux_agree; exact FD]. Qed.
(** unique solvability *)
Lemma mcc_solvable : strong_once info0 mesh \/ (exists u0 u1, flux_data info0 mesh geometry u0 u1 (mp_strong P)) ->
  elliptic (mp_inverse_diffusion P) -> (forall x y z i, mp_advection P x y z i = 0) -> (forall x y z, 0 <= mp_reaction P x y z) ->
  covered info0 mesh -> covered info1 mesh -> cells_free info0 mesh -> (forall c, (c < nc)%nat -> drained info0 mesh geometry c) ->
  exists D, mixed_assemble m info0 d0 d1 create P = Ok D /\ forall b, exists x, length x = (N0 + N1)%nat /\ (forall r, (r < N0 + N1)%nat -> mixed_row D x r = b r) /\
    (forall y, length y = (N0 + N1)%nat -> (forall r, (r < N0 + N1)%nat -> mixed_row D y r = b r) -> y = x).
Proof.
  intros SA EL ADV REA CO0 CO1 CF DR.
  pose proof (strong_sv SA) as SA'.
  destruct SA' as (sv & SA'). destruct (assembled sv SA') as (D & gS & A1 & A2 & A3 & A4 & A5 & A6 & A7). exists D. split; [exact A1|]. intros b.
  apply (element_solvable m info0 info1 d0 d1 create P E kk HC0 HN0 HC1 HN1 HE geometry k (k + 1) edge_rule HV0 HE0 mcc_parts edge_rule_ext edge_rule_zero Hk) with (gS := gS); auto.
  - intros c q Hc. apply (cell_weights gt gs junk llt svd k _ ref _ (MS c Hc)).
  - intros c v Hc. destruct (stabilisation_values gt gs junk llt svd k _ ref _ (MS c Hc)) as (S & ES & _ & _ & Z & _).
    assert (EX : xf_S (E c) = S) by (unfold forms_of, mcc_E; cbn [xf_S]; rewrite ES; reflexivity). rewrite EX, velocity_size by exact Hc. destruct (cell_sizes gt gs junk llt svd k _ ref _ (MS c Hc)) as (<- & _). apply Z. apply (xm_measure _ _ _ _ _ _ _ _ _ _ _ _ _ MM c Hc).
  - intros c v Hc HM p. rewrite velocity_size by exact Hc. rewrite velocity_size in HM by exact Hc. apply (cell_mass gt gs junk llt svd k _ ref _ (lqs c) (MS c Hc) v (xm_measure _ _ _ _ _ _ _ _ _ _ _ _ _ MM c Hc) HM).
  - intros c r Hc HK. rewrite (proj1 (pressure_size c Hc)). rewrite edges_vertices in HK by exact Hc. apply (cell_div_kernel gt gs junk llt svd k _ ref refq _ _ (MS c Hc) RQ (lqs_ok c Hc) r HK).
  - apply edge_rule_one.
  - apply poly2_const.
Qed.

(** the errors *)
Lemma forms_divide D x gS : md_solutionNeumann D = gS ++ repeat 0 S1 -> length gS = S0 -> length x = (N0 + N1)%nat ->
  (forall c, cell_velocity info0 mesh d0 D x c = cell_value info0 mesh d0 (firstn N0 x) gS c) /\ (forall c, cell_pressure info1 mesh d0 d1 D x c = cell_value info1 mesh d1 (skipn N0 x) (repeat 0 S1) c) /\
  length (firstn N0 x) = N0 /\ length (skipn N0 x) = N1 /\ firstn N0 x ++ skipn N0 x = x /\ length (md_solutionNeumann D) = (S0 + S1)%nat.
Proof.
  intros A2 A3 Lx.
  assert (SG : firstn S0 (md_solutionNeumann D) = gS) by (rewrite A2, firstn_app, A3, Nat.sub_diag, <- A3, firstn_all; cbn [firstn]; apply app_nil_r).
  assert (SZ : skipn S0 (md_solutionNeumann D) = repeat 0 S1) by (rewrite A2, skipn_app, A3, Nat.sub_diag, <- A3, skipn_all; reflexivity).
  unfold cell_velocity, cell_pressure. rewrite SG, SZ. split; [reflexivity|]. split; [reflexivity|]. split; [rewrite firstn_length; lia|]. split; [rewrite skipn_length; lia|]. split; [apply firstn_skipn|].
  rewrite A2, app_length, repeat_length. lia.
Qed.
Lemma mcc_errors llt' diameters exact_p exact_v x : strong_once info0 mesh \/ (exists u0 u1, flux_data info0 mesh geometry u0 u1 (mp_strong P)) -> length x = (N0 + N1)%nat -> length diameters = nc ->
  exists D e, mixed_assemble m info0 d0 d1 create P = Ok D /\ mixed_errors m d0 d1 create llt' diameters exact_p exact_v D x = Ok e /\
  mixed_numbers m info0 info1 d0 d1 E llt' diameters exact_p exact_v D x e.
Proof.
  intros SO Lx Ld. destruct (strong_sv SO) as (sv & SA). destruct (assembled sv SA) as (D & gS & A1 & A2 & A3 & A4 & A5 & A6 & A7). exists D.
  destruct (forms_divide D x gS A2 A3 Lx) as (_ & _ & _ & _ & _ & LN).
  destruct (mixed_errors_ok m info0 info1 d0 d1 create E HC0 HN0 HC1 HN1 HE llt' diameters exact_p exact_v D x Lx LN Ld A5) as (e & Ee & Ne). exists e. auto.
Qed.
Lemma mcc_exact u0 u0x u0y u1 u1x u1y p px py : cells_free info0 mesh -> cells_free info1 mesh -> mixed_closed info0 mesh geometry -> poly2 k u0 u0x u0y -> poly2 k u1 u1x u1y -> poly2 k p px py ->
  solves_mixed P u0 u0x u0y u1 u1x u1y p px py -> pressure_data info0 mesh geometry p (mp_weak P) -> flux_data info0 mesh geometry u0 u1 (mp_strong P) ->
  elliptic (mp_inverse_diffusion P) -> (forall x y z i, mp_advection P x y z i = 0) -> (forall x y z, 0 <= mp_reaction P x y z) ->
  covered info0 mesh -> covered info1 mesh -> (forall c, (c < nc)%nat -> drained info0 mesh geometry c) ->
  exists D, mixed_assemble m info0 d0 d1 create P = Ok D /\ forall x, length x = (N0 + N1)%nat -> (forall r, (r < N0 + N1)%nat -> mixed_residual D x r = 0) ->
  (forall c j, (c < nc)%nat -> (j < lm_NumBasisFunctions (ls c))%nat -> cell_velocity info0 mesh d0 D x c j = dofs k (geometry c) (ls c) u0 u1 j) /\
  (forall c a b, (c < nc)%nat -> mcc_polynomial ref (ls c) (lm_Nk (ls c)) (cell_pressure info1 mesh d0 d1 D x c) a b = p a b) /\
  (forall llt' diameters exact_p exact_v, exact_for positive_definite llt' -> length diameters = nc -> (forall a b z, exact_p a b z = p a b) -> (forall a b z, exact_v a b z 0%nat = u0 a b /\ exact_v a b z 1%nat = u1 a b) ->
    exists e, mixed_errors m d0 d1 create llt' diameters exact_p exact_v D x = Ok e /\ me_residual_norm e = 0 /\ me_error_pressure e = 0 /\ me_super_error_pressure e = 0 /\ me_error_velocity e = 0).
Proof.
  intros CF0 CF1 CL U0 U1 Hp SM PD FD EL ADV REA CO0 CO1 DR.
  destruct (mcc_patch u0 u0x u0y u1 u1x u1y p px py CF0 CF1 CL U0 U1 Hp SM PD FD) as (D & x0 & A1 & L0 & Z0 & V0 & P0). exists D. split; [exact A1|]. intros x Lx Zx.
  destruct (mcc_solvable (or_intror (ex_intro _ u0 (ex_intro _ u1 FD))) EL ADV REA CO0 CO1 CF0 DR) as (D' & A1' & SO). rewrite A1 in A1'. injection A1' as <-.
  destruct (SO (fun r => nth r (md_rightHandSide D) 0)) as (y & _ & _ & UN).
  assert (XY : x = x0). { transitivity y; [|symmetry]; apply UN; auto; intros r Hr; [specialize (Zx r Hr)|specialize (Z0 r Hr)]; unfold mixed_residual in *; lra. }
  subst x0. split; [exact V0|]. split; [exact P0|]. intros llt' diameters exact_p exact_v EX Ld Hep Hev.
  destruct (mcc_errors llt' diameters exact_p exact_v x (or_intror (ex_intro _ u0 (ex_intro _ u1 FD))) Lx Ld) as (D' & e & A1' & Ee & NU). rewrite A1 in A1'. injection A1' as <-. exists e. split; [exact Ee|].
  assert (FV : forall c q, (c < nc)%nat -> (q < v_size (xf_weights (E c)))%nat -> combine (xf_V (E c) 0) (cell_velocity info0 mesh d0 D x c) q = at_x exact_v (E c) q 0%nat /\
    combine (xf_V (E c) 1) (cell_velocity info0 mesh d0 D x c) q = at_x exact_v (E c) q 1%nat /\ combine (xf_P (E c)) (cell_pressure info1 mesh d0 d1 D x c) q = at_x exact_p (E c) q).
  { intros c q Hc Hq. destruct (field_values gt gs junk llt svd k _ ref _ (lqs c) (MS c Hc) u0 u0x u0y u1 u1x u1y q U0 U1 Hq) as (F0 & F1 & _). fold (E c) in F0, F1.
    pose proof (HE c Hc) as X. unfold at_x, at_col. destruct (Hev (m_at (xf_points (E c)) 0 q) (m_at (xf_points (E c)) 1 q) (m_at (xf_points (E c)) 2 q)) as (-> & ->). rewrite Hep.
    destruct (cell_sizes gt gs junk llt svd k _ ref _ (MS c Hc)) as (NB & _). pose proof (velocity_size c Hc) as VS. split; [|split].
    - etransitivity; [|exact F0]. apply combine_ext. intros j Hj. apply V0; auto. rewrite (proj2 (proj2 (xe_V _ _ _ _ _ _ _ X) 0%nat ltac:(lia))) in Hj. lia.
    - etransitivity; [|exact F1]. apply combine_ext. intros j Hj. apply V0; auto. rewrite (proj2 (proj2 (xe_V _ _ _ _ _ _ _ X) 1%nat ltac:(lia))) in Hj. lia.
    - unfold forms_of at 1. rewrite (pressure_combine gt gs junk llt svd k _ ref refq _ _ (MS c Hc) RQ (lqs_ok c Hc)). apply P0. exact Hc. }
  assert (CZ : forall c f, (forall q, (q < v_size (xf_weights (E c)))%nat -> f q = 0) -> cell_rule (E c) f = 0) by (intros c f Hf; unfold cell_rule; apply rsum_0; intros q Hq; rewrite Hf by exact Hq; ring).
  assert (TZ : forall t l, 0 <= t -> (Forall (fun y => 0 <= y) l -> t * t = rsum (length l) (fun c => nth c l 0)) -> (forall c, (c < length l)%nat -> nth c l 0 = 0) -> t = 0).
  { intros t l T0 T1 Hl. assert (t * t = 0). { rewrite T1; [apply rsum_0; exact Hl|]. apply Forall_forall. intros z Hz. destruct (In_nth _ _ 0 Hz) as (c & Hc & <-). rewrite Hl by exact Hc. lra. } nra. }
  destruct (en_residual _ _ _ _ _ _ _ _ _ _ _ _ _ NU) as (Q0 & Q1). split; [rewrite (rsum_0 (N0 + N1)) in Q1 by (intros r Hr; rewrite Zx by exact Hr; ring); nra|].
  pose proof (en_lengths _ _ _ _ _ _ _ _ _ _ _ _ _ NU) as LE. inversion LE as [|? ? _ LE1]; subst. inversion LE1 as [|? ? _ LE2]; subst. inversion LE2 as [|? ? L3 LE3]; subst. inversion LE3 as [|? ? L4 LE4]; subst. inversion LE4 as [|? ? _ LE5]; subst. inversion LE5 as [|? ? L6 _]; subst.
  destruct (en_totals _ _ _ _ _ _ _ _ _ _ _ _ _ NU) as ((T1 & T1') & (T2 & T2') & _ & (T4 & T4') & _).
  pose proof (en_cells _ _ _ _ _ _ _ _ _ _ _ _ _ NU) as EC. cbv zeta in EC. split; [|split].
  - apply (TZ _ _ T1 T1'). rewrite L3. intros c Hc. destruct (EC c Hc) as (_ & _ & -> & _). apply CZ. intros q Hq. destruct (FV c q Hc Hq) as (_ & _ & ->). ring.
  - apply (TZ _ _ T2 T2'). rewrite L4. intros c Hc. destruct (EC c Hc) as (_ & _ & _ & _ & _ & _ & a & -> & PR). pose proof (HE c Hc) as X. pose proof (proj2 (proj2 (xe_P _ _ _ _ _ _ _ X))) as CP. rewrite CP in PR.
    destruct (pressure_size c Hc) as (PS & _). rewrite PS in *. specialize (PR EX ltac:(intros s Hs; exact (cell_pressure_mass gt gs junk llt svd k _ ref refq _ _ (MS c Hc) RQ (lqs_ok c Hc) s Hs))).
    set (r := cell_pressure info1 mesh d0 d1 D x c) in *.
    assert (Z : cell_rule (E c) (fun q => combine (xf_P (E c)) (fun j => a j - r j) q ^ 2) = 0).
    { transitivity (rsum (lm_Nk (ls c)) (fun j => (a j - r j) * cell_rule (E c) (fun q => (combine (xf_P (E c)) a q - at_x exact_p (E c) q) * m_at (xf_P (E c)) q j))); [|apply rsum_0; intros j Hj; rewrite PR by exact Hj; ring].
      unfold cell_rule. rewrite (rsum_ext (lm_Nk (ls c)) _ (fun j => rsum (v_size (xf_weights (E c))) (fun q => v_at (xf_weights (E c)) q * ((combine (xf_P (E c)) a q - at_x exact_p (E c) q) * (m_at (xf_P (E c)) q j * (a j - r j)))))) by (intros j Hj; rewrite <- rsum_scal; apply rsum_ext; intros; ring).
      rewrite rsum_swap. apply rsum_ext. intros q Hq. rewrite !rsum_scal. f_equal. destruct (FV c q Hc Hq) as (_ & _ & FP). fold r in FP. rewrite <- FP, <- combine_less. match goal with |- _ = _ * ?Z => replace Z with (combine (xf_P (E c)) (fun j => a j - r j) q) by (unfold combine; rewrite CP; reflexivity) end. ring. }
    etransitivity; [|exact Z]. unfold cell_rule. apply rsum_ext. intros q Hq. rewrite combine_less. ring.
  - apply (TZ _ _ T4 T4'). rewrite L6. intros c Hc. destruct (EC c Hc) as (_ & _ & _ & _ & -> & _). apply CZ. intros q Hq. destruct (FV c q Hc Hq) as (-> & -> & _). ring.
Qed.

(** balance of mass *)
Lemma edge_dofs D x c i q : (c < nc)%nat -> (i < ne c)%nat -> (q < k + 1)%nat -> cell_velocity info0 mesh d0 D x c ((k + 1) * i + q) =
  match value_of d0 (firstn N0 x) (firstn S0 (md_solutionNeumann D)) (entity_dof 1 (edge_of mesh (c, i)) q) with Some y => y | None => 0 end.
Proof.
  intros Hc Hi Hq. unfold cell_velocity, cell_value. rewrite (place0_edge info0 mesh c (k + 1) (k * (k + 2)) (fun v => HV0 c v Hc) (fun e => HE0 c e Hc) (xm_cell0 _ _ _ _ _ _ _ _ _ _ _ _ _ MM c Hc) i q Hi Hq). reflexivity.
Qed.
Lemma outflow_rule c i u : In (c, i) (incidences mesh) -> mcc_edge_outflow ref (ls c) (geometry c) i u = sign (direction_of geometry (c, i)) * edge_rule (edge_of mesh (c, i)) (fun _ _ => 1) (fun q => u ((k + 1) * i + q)%nat).
Proof.
  intros Hci. destruct (proj1 (in_incidences _ _ _) Hci) as (Hc & _). destruct (reference_sizes gt gs junk llt svd k _ ref _ (MS c Hc)) as (_ & RS & RC).
  unfold mcc_edge_outflow. rewrite RS, (proj1 (edge_length c i Hci)). rewrite (mf_order _ _ _ _ _ _ _ (VemMccProofs4.LF gt gs junk llt svd k _ ref _ (MS c Hc))).
  unfold apply_rule, edge_rule. rewrite (proj2 (gm_segment _ _ _ (ms_rules _ _ _ _ _ _ _ _ _ (MS c Hc)))), RC.
  rewrite (rsum_ext _ _ (fun q => sign (direction_of geometry (c, i)) * (v_at (q_Weights seg) q * (1 * u ((k + 1) * i + q)%nat)))); [rewrite rsum_scal; ring|]. intros q _. unfold sign, direction_of. cbn [fst snd]. ring.
Qed.
Lemma mcc_neighbours D x c i c' i' : In (c, i) (incidences mesh) -> In (c', i') (incidences mesh) -> edge_of mesh (c, i) = edge_of mesh (c', i') -> direction_of geometry (c, i) = negb (direction_of geometry (c', i')) ->
  mcc_edge_outflow ref (ls c) (geometry c) i (cell_velocity info0 mesh d0 D x c) = - mcc_edge_outflow ref (ls c') (geometry c') i' (cell_velocity info0 mesh d0 D x c').
Proof.
  intros H H' Ee Ed. rewrite (outflow_rule c i _ H), (outflow_rule c' i' _ H'), Ed. destruct (proj1 (in_incidences _ _ _) H) as (Hc & Hi). destruct (proj1 (in_incidences _ _ _) H') as (Hc' & Hi').
  rewrite (edge_rule_ext _ _ (fun q => cell_velocity info0 mesh d0 D x c ((k + 1) * i + q)) (fun q => cell_velocity info0 mesh d0 D x c' ((k + 1) * i' + q))) by (intros q Hq; rewrite !edge_dofs, Ee by auto; reflexivity).
  rewrite Ee. unfold sign. destruct (direction_of geometry (c', i')); cbn [negb]; ring.
Qed.
Lemma mcc_balance D gS x : Sums D gS -> md_solutionNeumann D = gS ++ repeat 0 S1 -> length gS = S0 -> length x = (N0 + N1)%nat -> cells_free info1 mesh ->
  (forall r, (r < N0 + N1)%nat -> mixed_residual D x r = 0) -> forall c g gx gy, (c < nc)%nat -> poly2 k g gx gy ->
  cell_rule (E c) (fun q => (combine (xf_D (E c)) (cell_velocity info0 mesh d0 D x c) q + at_x (mp_reaction P) (E c) q * combine (xf_P (E c)) (cell_pressure info1 mesh d0 d1 D x c) q - at_x (mp_source P) (E c) q) *
    g (m_at (xf_points (E c)) 0%nat q) (m_at (xf_points (E c)) 1%nat q)) = 0.
Proof.
  intros SM A2 A3 Lx CF Z c g gx gy Hc Hg. destruct (forms_divide D x gS A2 A3 Lx) as (CV & CP & LV & LP & EX & _).
  destruct (polynomial_coefficients gt gs junk llt svd k _ ref refq _ _ (MS c Hc) RQ (lqs_ok c Hc) g gx gy Hg) as (a & Ha). fold (E c) in Ha.
  set (T := fun h : GlobalCell_DOF => if ((g_dim h =? 2) && (g_cell h =? c))%nat then a (g_dof h) else 0).
  destruct (realise_free m info0 info1 HN0 HN1 info1 d1 T HC1) as (y & Ly & HU).
  { intros h (_ & V & _) Hs. unfold T. destruct (Nat.eqb_spec (g_dim h) 2) as [Ed|]; [|reflexivity]. rewrite Ed in *. destruct (CF (g_cell h)); [rewrite HN1; exact V|exact Hs]. }
  assert (CVA : forall c', (c' < nc)%nat -> forall p, (p < n1 c')%nat -> cell_value info1 mesh d1 y (repeat 0 S1) c' p = if (c' =? c)%nat then a p else 0).
  { intros c' Hc' p Hp. destruct (pressure_size c' Hc') as (PS & PC). rewrite PS in Hp. assert (PV := fun v => xm_vertex1 _ _ _ _ _ _ _ _ _ _ _ _ _ MM c' v Hc'). assert (PE := fun e => xm_edge1 _ _ _ _ _ _ _ _ _ _ _ _ _ MM c' e Hc').
    pose proof (place0_cell info1 mesh c' 0 (lm_Nk (ls c')) PV PE PC p Hp) as Hn. cbn [Nat.mul Nat.add] in Hn. unfold cell_value. rewrite Hn.
    destruct (closure_valid m info1 d1 c' _ HC1 HN1 Hc' (nth_error_In _ _ Hn)) as (V & _). rewrite (HU _ V). reflexivity. }
  set (F := fun c => pressure_form (E c) P (cell_value info0 mesh d0 (firstn N0 x) gS c) (cell_value info1 mesh d1 (skipn N0 x) (repeat 0 S1) c)).
  pose proof (tested_rows m info1 d1 F y HC1 HN1 Ly) as TR. rewrite rsum_0 in TR.
  2: { intros r Hr. pose proof (proj2 (SM _ _ LV LP) r Hr) as RR. rewrite EX in RR. rewrite Z in RR by lia. etransitivity; [apply f_equal; symmetry; exact RR|ring]. }
  unfold cells_sum in TR. rewrite (lsum_single _ _ c) in TR; [|apply seq_NoDup|apply in_seq; lia|].
  2: { intros c' Hin Hn. apply in_seq in Hin. apply rsum_0. intros p Hp. rewrite CVA by (auto; lia). destruct (Nat.eqb_spec c' c); [contradiction|ring]. }
  rewrite (rsum_ext _ _ (fun p => a p * F c p)) in TR by (intros p Hp; rewrite CVA by auto; rewrite Nat.eqb_refl; reflexivity).
  unfold F in TR. rewrite (pressure_tested create _ _ c _ _ (E c) P (HE c Hc)) in TR. rewrite CV, CP. symmetry. etransitivity; [exact TR|]. unfold cell_rule. apply rsum_ext. intros q Hq. rewrite Ha. reflexivity.
Qed.
End MccMesh.
