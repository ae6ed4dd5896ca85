(** The divergence free virtual element: the sums along the boundary, and the identities of the projections. *)
From Coq Require Import List Arith Bool Lia ZArith Reals Lra.
From Verif Require Import Base RSum MatrixModel MonomialsModel MonomialsSpec GBasisModel LagrangeModel LagrangeSpec LagrangeProofs VemQuadModel VemQuadSpec VemQuadProofs VemQuadProofs2 GreenSpec GreenProofs PolyProofs
  VemModel VemSpec VemProofs VemProofs2 VemProofs3 VemMccModel VemMccProofs2 VemMccProofs3 Pcc2dProofs4 DfModel DfSpec DfProofs DfProofs2.
Import ListNotations.
Local Open Scope R_scope.

(** two rules exact for the powers agree on polynomials *)
Lemma rules_agree n (w w' : Vec) (x x' : nat -> R) f : (forall a, (a < n)%nat -> apply_rule w (fun q => x q ^ a) = apply_rule w' (fun q => x' q ^ a)) -> is_poly n f ->
  apply_rule w (fun q => f (x q)) = apply_rule w' (fun q => f (x' q)).
Proof.
  intros H P. destruct (is_poly_polynomial n f P) as (a & Ha).
  rewrite (apply_ext w _ (fun q => rsum n (fun m => a m * x q ^ m))) by (intros; apply Ha). rewrite (apply_ext w' _ (fun q => rsum n (fun m => a m * x' q ^ m))) by (intros; apply Ha).
  rewrite !apply_rsum. apply rsum_ext. intros m Hm. rewrite !apply_scal, H by auto. reflexivity.
Qed.

Section Edges.
Variables (k : nat) (p : Polygon) (junk : nat -> nat -> R).
Hypothesis GP : good_polygon p.
Let V := pg_Vertices p.
Let nv := m_cols V.
Let dirs := pg_EdgesDirection p.

Lemma ends_pair (f : nat -> R) e : f e + f (following nv e) = f (edge_first V dirs e) + f (edge_last V dirs e).
Proof. unfold edge_first, edge_last. fold nv. destruct (nth e dirs true); ring. Qed.

Lemma edge_rule r n B d (f : nat -> R) (F : nat -> R -> R) : rule r -> m_cols (q_Points r) = (n + 2)%nat -> m_at (q_Points r) 0 0 = 0 -> m_at (q_Points r) 0 (n + 1) = 1 -> v_at (q_Weights r) 0 = v_at (q_Weights r) (n + 1) ->
  PolygonEdgesLobattoQuadrature junk (inner_points r n) (inner_weights r n) (end_weights r n) (pg_Vertices p) (pg_EdgesLength p) (pg_EdgesDirection p) (pg_EdgesTangent p) (pg_EdgesNormal p) = Ok B -> (d < 2)%nat ->
  (forall e, (e < nv)%nat -> f (edge_first V dirs e) = F e 0 /\ f (edge_last V dirs e) = F e 1 /\ forall q, (q < n)%nat -> f (nv + n * e + q)%nat = F e (m_at (q_Points r) 0 (1 + q))) ->
  apply_rule (normal_weights B d) f = rsum nv (fun e => m_at (pg_EdgesNormal p) d e * Rabs (v_at (pg_EdgesLength p) e) * apply_rule (q_Weights r) (fun q => F e (m_at (q_Points r) 0 q))).
Proof.
  intros HR HC H0 H1 HW EB Hd HF.
  destruct (lobatto_full junk (inner_points r n) (inner_weights r n) (end_weights r n) (pg_Vertices p) (pg_EdgesLength p) (pg_EdgesDirection p) (pg_EdgesTangent p) (pg_EdgesNormal p))
    as (B' & EB' & _ & _ & _ & _ & _ & _ & _ & _ & WN); [split; cbn [inner_points inner_weights v_size m_cols m_rows]; [reflexivity|lia]|apply (gp_edges _ GP)|apply (gp_tangents _ GP)|].
  rewrite EB in EB'. injection EB' as <-. rewrite WN by auto. fold V nv. cbn [inner_points m_cols inner_weights v_at]. apply rsum_ext. intros e He. f_equal.
  rewrite (split_exact r n HR HC H0 H1). destruct (HF e He) as (F0 & F1 & Fq). rewrite <- F0, <- F1. cbn [end_weights fst snd]. rewrite <- HW. unfold apply_rule. cbn [inner_weights v_size v_at inner_points m_at].
  rewrite (rsum_ext n _ (fun q => v_at (q_Weights r) (1 + q) * F e (m_at (q_Points r) 0 (1 + q)))) by (intros q Hq; rewrite Fq by auto; reflexivity).
  apply (f_equal2 Rplus); [|reflexivity]. rewrite <- !Rmult_plus_distr_l, ends_pair. reflexivity.
Qed.

(** the points of the rule *)
Lemma edge_positions r n B (g : R -> R -> R) e : rule r -> m_at (q_Points r) 0 0 = 0 -> m_at (q_Points r) 0 (n + 1) = 1 ->
  PolygonEdgesLobattoQuadrature junk (inner_points r n) (inner_weights r n) (end_weights r n) (pg_Vertices p) (pg_EdgesLength p) (pg_EdgesDirection p) (pg_EdgesTangent p) (pg_EdgesNormal p) = Ok B -> (e < nv)%nat ->
  let P := q_Points (eq_Quadrature B) in
  let f := fun q => g (m_at P 0 q) (m_at P 1 q) in
  f (edge_first V dirs e) = df_at p g e 0 /\ f (edge_last V dirs e) = df_at p g e 1 /\ forall q, (q < n)%nat -> f (nv + n * e + q)%nat = df_at p g e (m_at (q_Points r) 0 (1 + q)).
Proof.
  intros HR H0 H1 EB He.
  destruct (lobatto_full junk (inner_points r n) (inner_weights r n) (end_weights r n) (pg_Vertices p) (pg_EdgesLength p) (pg_EdgesDirection p) (pg_EdgesTangent p) (pg_EdgesNormal p))
    as (B' & EB' & _ & _ & _ & _ & PV & PE & _); [split; cbn [inner_points inner_weights v_size m_cols m_rows]; [reflexivity|lia]|apply (gp_edges _ GP)|apply (gp_tangents _ GP)|].
  rewrite EB in EB'. injection EB' as <-. fold V nv dirs in PV, PE. cbn [inner_points m_cols m_at] in PE. cbv zeta.
  assert (L : (edge_first V dirs e < nv)%nat /\ (edge_last V dirs e < nv)%nat) by (unfold edge_first, edge_last; fold nv; pose proof (following_lt nv e He); destruct (nth e dirs true); lia). destruct L as (La & Lb).
  unfold df_at. fold V dirs. split; [|split].
  - rewrite !PV by (auto; lia). f_equal; unfold along; ring.
  - rewrite !PV by (auto; lia). f_equal; unfold along; ring.
  - intros q Hq. rewrite !PE by (auto; lia). reflexivity.
Qed.

(** a polynomial along an edge *)
Lemma at_poly n g gx gy e : poly2 n g gx gy -> is_poly (n + 1) (df_at p g e).
Proof.
  intros P. unfold df_at. fold V dirs. set (a := edge_first V dirs e). set (b := edge_last V dirs e).
  pose proof (poly2_comp n g gx gy (m_at V 0 a) (m_at V 0 b - m_at V 0 a) 0 (m_at V 1 a) (m_at V 1 b - m_at V 1 a) 0 P) as PC. cbv zeta in PC. apply poly2_x_is_poly with (y := 0) in PC. rewrite Nat.add_1_r.
  eapply is_poly_ext; [|exact PC]. intros s. cbv beta. f_equal; unfold along; ring.
Qed.

End Edges.

(** interpolation at distinct points *)
Lemma interpolant n (x val : nat -> R) : distinct n x -> exists f, is_poly n f /\ forall i, (i < n)%nat -> f (x i) = val i.
Proof.
  intros D. exists (fun t => rsum n (fun i => val i * (pne n i (fun j => t - x j) / pne n i (fun j => x i - x j)))). split.
  - apply (is_poly_rsum n n (fun i t => _)). intros i Hi. eapply is_poly_ext; [|apply (is_poly_scal n (val i / pne n i (fun j => x i - x j)) (fun t => pne n i (fun j => t - x j)))].
    + intros s. cbv beta. unfold Rdiv. ring.
    + pose proof (is_poly_pne n n i x Hi (le_n _)) as H. destruct (Nat.ltb_spec i n); [exact H|lia].
  - intros m Hm. rewrite (rsum_single n _ m); auto.
    + field. apply pne_neq_0; auto.
    + intros i Hi Nn. rewrite pne_other by auto. unfold Rdiv. ring.
Qed.

Lemma traces_exist gt lob k p u : df_rules gt lob k -> exists t, df_traces lob k p u t.
Proof.
  intros FR. set (x := m_at (q_Points (lob (2 * k - 1)%nat)) 0).
  assert (X : forall d e, exists f, is_poly (k + 1) f /\ forall i, (i < k + 1)%nat -> f (x i) = u (d * df_scalar k p + df_point_dof k p e i)%nat) by (intros d e; apply interpolant; apply (fr_distinct _ _ _ FR)).
  (* the interpolant is given by a formula *)
  exists (fun d e s => rsum (k + 1) (fun i => u (d * df_scalar k p + df_point_dof k p e i)%nat * (pne (k + 1) i (fun j => s - x j) / pne (k + 1) i (fun j => x i - x j)))).
  intros d e Hd He. destruct (X d e) as (f & Pf & Vf).
  assert (E : forall s, rsum (k + 1) (fun i => u (d * df_scalar k p + df_point_dof k p e i)%nat * (pne (k + 1) i (fun j => s - x j) / pne (k + 1) i (fun j => x i - x j))) = f s).
  { intros s. rewrite <- (lagrange_reproduces (k + 1) x f s (fr_distinct _ _ _ FR) Pf). apply rsum_ext. intros i Hi. rewrite Vf by auto. reflexivity. }
  split.
  - destruct (is_poly_polynomial _ f Pf) as (a & Ha). exists a. intros s. rewrite E. apply Ha.
  - intros i Hi. rewrite E. apply Vf. lia.
Qed.
