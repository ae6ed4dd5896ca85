(** The divergence free virtual element: the identities of the projections. *)
From Coq Require Import List Arith Bool Lia ZArith Reals Lra.
From Verif Require Import Base RSum MatrixModel MonomialsModel MonomialsSpec GBasisModel LagrangeModel LagrangeSpec LagrangeProofs VemQuadModel VemQuadSpec VemQuadProofs VemQuadProofs2
  VemModel VemSpec VemProofs VemMccModel VemMccProofs2 VemMccProofs3 VemProofs2 VemProofs3 Pcc2dProofs4 DfModel DfSpec DfProofs DfProofs2 DfProofs3 GreenSpec GreenProofs PolyProofs.
Import ListNotations.
Local Open Scope R_scope.

Lemma at_mul p a b e s : df_at p (fun x y => a x y * b x y) e s = df_at p a e s * df_at p b e s.
Proof. reflexivity. Qed.

Lemma variant_cases v (A B : Prop) : match v with Full => A | Reduced => B end -> (v = Full /\ A) \/ (v = Reduced /\ B).
Proof. destruct v; auto. Qed.

Section Space.
Variables (v : DF_Variant) (gt lob : nat -> QuadratureData) (k : nat) (p : Polygon).
Hypothesis FR : df_rules gt lob k.
Hypothesis DP : df_polygon v p.
Variables (junk : nat -> nat -> R) (lu llt : Solver) (l' : VEM_2D_Local).
Hypothesis LF : local_facts gt k p lu llt l'.
Hypothesis EB : PolygonEdgesLobattoQuadrature junk (inner_points (lob (2 * k - 1)%nat) (k - 1)) (inner_weights (lob (2 * k - 1)%nat) (k - 1)) (end_weights (lob (2 * k - 1)%nat) (k - 1))
    (pg_Vertices p) (pg_EdgesLength p) (pg_EdgesDirection p) (pg_EdgesTangent p) (pg_EdgesNormal p) = Ok (lv_BoundaryQuadrature l').
Variable l : DF_Local.
Hypothesis FF : df_facts v lob k p junk lu llt l' l.
Hypothesis LU : exact_for nonsingular lu.
Hypothesis LT : exact_for positive_definite llt.
Let GP : good_polygon p := proj1 DP.
Let Hk : (2 <= k)%nat. Proof. apply (fr_order _ _ _ FR). Qed.
Let GR := fr_rules _ _ _ FR.
Let cx := pg_Centroid p 0%nat.
Let cy := pg_Centroid p 1%nat.
Let h := pg_Diameter p.
Let nv := m_cols (pg_Vertices p).
Let ns := (nv + (k - 1) * nv)%nat.
Let nb := (2 * ns)%nat.
Let nd := ndiv_of v k.
Let Nk := num2 k.
Let Nm := num2 (k - 1).
Let N2 := num2 (k - 2).
Let I := fI l'.
Notation ph := (phi cx cy h).
Notation phx := (phix cx cy h).
Notation phy := (phiy cx cy h).
Let Hh : h <> 0. Proof. apply gp_diameter; auto. Qed.

Definition fdv (u : nat -> R) : R -> R -> R := pol p (1 + nd) (ld_Vmatrix l) u.
Definition fPN (d : nat) (u : nat -> R) : R -> R -> R := pol p Nk (of_list (ld_PiNabla l) d) u.
Definition fQ (d : nat) (u : nat -> R) : R -> R -> R := pol p Nk (of_list (ld_Pi0k l) d) u.
Definition fS (d : nat) (u : nat -> R) : R -> R -> R := pol p N2 (of_list (ld_Pi0km2 l) d) u.
Definition fF (d e : nat) (u : nat -> R) : R -> R -> R := pol p Nm (of_list (ld_Pi0km1Der l) (2 * d + e)) u.
Definition fC (d : nat) (u : nat -> R) (i : nat) : R := act (of_list (ld_Cmatrix l) d) u i.
Notation bt := (beta v k p l' l).
Notation gm := (gamma k p l' l).
Notation eds := (edsum k p l').
Notation bqs := (bqsum k p l).

(** ** Traces *)
Lemma trace_vals u t d e : df_traces lob k p u t -> (d < 2)%nat -> (e < nv)%nat ->
  t d e 0 = u (d * ns + edge_first (pg_Vertices p) (pg_EdgesDirection p) e)%nat /\ t d e 1 = u (d * ns + edge_last (pg_Vertices p) (pg_EdgesDirection p) e)%nat /\
  (forall i, (i < k - 1)%nat -> t d e (m_at (q_Points (lob (2 * k - 1)%nat)) 0 (1 + i)) = u (d * ns + (nv + e * (k - 1) + i))%nat) /\ is_poly (k + 1) (t d e).
Proof.
  intros T Hd He. destruct (T d e Hd He) as ((a & Ha) & V). split; [|split; [|split]].
  - rewrite <- (gr_edge_first _ _ _ GR). rewrite V by lia. reflexivity.
  - rewrite <- (gr_edge_last _ _ _ GR). rewrite V by lia. unfold df_point_dof. destruct (Nat.eqb_spec k 0); [lia|]. rewrite Nat.eqb_refl. reflexivity.
  - intros i Hi. rewrite V by lia. unfold df_point_dof. destruct (Nat.eqb_spec (1 + i) 0); [lia|]. destruct (Nat.eqb_spec (1 + i) k); [lia|]. f_equal. unfold df_scalar. fold nv ns. nia.
  - eapply is_poly_ext; [|apply (is_poly_coeffs (k + 1) a)]. intros s. symmetry. apply Ha.
Qed.

Lemma first_lt e : (e < nv)%nat -> (edge_first (pg_Vertices p) (pg_EdgesDirection p) e < nv)%nat /\ (edge_last (pg_Vertices p) (pg_EdgesDirection p) e < nv)%nat.
Proof. intros He. unfold edge_first, edge_last. fold nv. pose proof (following_lt nv e He). destruct (nth e (pg_EdgesDirection p) true); lia. Qed.

Lemma bq_flux u t g : df_traces lob k p u t -> bqs g u = df_flux lob k p t g.
Proof.
  intros T. unfold bqsum. fold nv. fold ns. cbv zeta. set (P := q_Points _).
  assert (X : forall d, (d < 2)%nat -> apply_rule (normal_weights (ld_BoundaryQuadrature l) d) (fun q => g (m_at P 0 q) (m_at P 1 q) * act (ld_VanderKp1EdgeProjections l) (fun j => u (d * ns + j)%nat) q) =
    rsum nv (fun e => m_at (pg_EdgesNormal p) d e * Rabs (v_at (pg_EdgesLength p) e) * apply_rule (q_Weights (lob (2 * k + 1)%nat)) (fun q => df_at p g e (m_at (q_Points (lob (2 * k + 1)%nat)) 0 q) * t d e (m_at (q_Points (lob (2 * k + 1)%nat)) 0 q)))).
  { intros d Hd. apply (edge_rule p junk GP (lob (2 * k + 1)%nat) k _ d _ (fun e s => df_at p g e s * t d e s)); auto.
    - apply (fr_segment _ _ _ FR). - apply (fr_segment_points _ _ _ FR). - apply (fr_segment_first _ _ _ FR). - apply (fr_segment_last _ _ _ FR). - apply (fr_segment_ends _ _ _ FR). - apply (ff_BQ _ _ _ _ _ _ _ _ _ FF).
    - intros e He. fold nv in He. destruct (trace_vals u t d e T Hd He) as (T0 & T1 & Ti & TP). destruct (first_lt e He) as (La & Lb).
      destruct (edge_positions p junk GP (lob (2 * k + 1)%nat) k (ld_BoundaryQuadrature l) g e (fr_segment _ _ _ FR) (fr_segment_first _ _ _ FR) (fr_segment_last _ _ _ FR) (ff_BQ _ _ _ _ _ _ _ _ _ FF) He) as (P0 & P1 & Pi).
      destruct (ff_K _ _ _ _ _ _ _ _ _ FF) as (_ & _ & K0 & K1). fold nv in K0, K1.
      rewrite !K0 by auto. fold P in P0, P1, Pi. cbv beta. rewrite P0, P1, T0, T1. split; [reflexivity|]. split; [reflexivity|]. intros q Hq. fold nv. rewrite Pi by auto.
      f_equal. apply K1; auto. }
  pose proof (X 0%nat ltac:(lia)) as X0. pose proof (X 1%nat ltac:(lia)) as X1. replace (1 * ns)%nat with ns in X1 by lia.
  transitivity (apply_rule (normal_weights (ld_BoundaryQuadrature l) 0) (fun q => g (m_at P 0 q) (m_at P 1 q) * act (ld_VanderKp1EdgeProjections l) (fun j => u (0 * ns + j)%nat) q) +
    apply_rule (normal_weights (ld_BoundaryQuadrature l) 1) (fun q => g (m_at P 0 q) (m_at P 1 q) * act (ld_VanderKp1EdgeProjections l) (fun j => u (ns + j)%nat) q)); [reflexivity|].
  rewrite X0, X1. rewrite <- rsum_plus. unfold df_flux, df_around. fold nv. apply rsum_ext. intros e He.
  rewrite !Rmult_assoc, <- !apply_scal, <- apply_plus. rewrite <- ?apply_scal. apply apply_ext. intros q _. unfold df_normal. ring.
Qed.

Lemma ed_flux u t d e g gx gy : df_traces lob k p u t -> (d < 2)%nat -> (e < 2)%nat -> poly2 (k - 1) g gx gy ->
  eds d e g u = df_around lob k p (fun a s => df_at p g a s * (df_normal p d a * t e a s)).
Proof.
  intros T Hd He Pg. unfold edsum. fold nv. fold ns. rewrite (edge_rule p junk GP (lob (2 * k - 1)%nat) (k - 1) _ d _ (fun a s => df_at p g a s * t e a s)); auto.
  - unfold df_around. fold nv. apply rsum_ext. intros a Ha. destruct (trace_vals u t e a T He Ha) as (T0 & T1 & Ti & TP).
    rewrite (rules_agree (2 * k) (q_Weights (lob (2 * k - 1)%nat)) (q_Weights (lob (2 * k + 1)%nat)) (m_at (q_Points (lob (2 * k - 1)%nat)) 0) (m_at (q_Points (lob (2 * k + 1)%nat)) 0) (fun s => df_at p g a s * t e a s)).
    + rewrite <- !apply_scal. apply apply_ext. intros q _. unfold df_normal. ring.
    + intros b Hb. rewrite (gr_edge_exact _ _ _ GR) by lia. rewrite (fr_segment_exact _ _ _ FR) by lia. reflexivity.
    + replace (2 * k)%nat with (k + 1 + (k - 1))%nat by lia. eapply is_poly_ext; [|apply (is_poly_mult (k + 1) (k - 1) (t e a) (df_at p g a)); [exact TP|]].
      * intros s. cbv beta. ring.
      * rewrite <- Nat.add_1_r. eapply (at_poly p); eauto.
  - apply (gr_edge _ _ _ GR). - rewrite (gr_edge_points _ _ _ GR). lia. - apply (gr_edge_first _ _ _ GR). - replace (k - 1 + 1)%nat with k by lia. apply (gr_edge_last _ _ _ GR). - replace (k - 1 + 1)%nat with k by lia. apply (gr_edge_ends _ _ _ GR).
  - intros a Ha. fold nv in Ha. destruct (trace_vals u t e a T He Ha) as (T0 & T1 & Ti & TP).
    destruct (edge_positions p junk GP (lob (2 * k - 1)%nat) (k - 1) (lv_BoundaryQuadrature l') g a (gr_edge _ _ _ GR) (gr_edge_first _ _ _ GR) ltac:(replace (k - 1 + 1)%nat with k by lia; apply (gr_edge_last _ _ _ GR)) EB Ha) as (P0 & P1 & Pi).
    fold (boundary_points l') in P0, P1, Pi. cbv beta. rewrite P0, P1, T0, T1. split; [reflexivity|]. split; [reflexivity|]. intros q Hq. fold nv. rewrite Pi by auto. rewrite Ti by auto. do 2 f_equal. fold nv. nia.
Qed.

Lemma ed_bq u g gx gy : poly2 (k - 1) g gx gy -> eds 0 0 g u + eds 1 1 g u = bqs g u.
Proof.
  intros Pg. destruct (traces_exist gt lob k p u FR) as (t & T). rewrite (bq_flux u t g T), !(ed_flux u t _ _ g gx gy T) by (auto; lia).
  unfold df_flux, df_around. rewrite <- rsum_plus. apply rsum_ext. intros e He. rewrite <- !apply_scal, <- apply_plus. rewrite <- ?apply_scal. apply apply_ext. intros q _. ring.
Qed.

Lemma bq_lin n (c : nat -> R) (g : nat -> R -> R -> R) u : bqs (fun x y => rsum n (fun j => c j * g j x y)) u = rsum n (fun j => c j * bqs (g j) u).
Proof.
  unfold bqsum. cbv zeta. rewrite (rsum_ext n (fun j => c j * (_ + _)) (fun j => apply_rule (normal_weights (ld_BoundaryQuadrature l) 0) (fun q => c j * (g j (m_at (q_Points (eq_Quadrature (ld_BoundaryQuadrature l))) 0 q) (m_at (q_Points (eq_Quadrature (ld_BoundaryQuadrature l))) 1 q) * act (ld_VanderKp1EdgeProjections l) u q)) +
     apply_rule (normal_weights (ld_BoundaryQuadrature l) 1) (fun q => c j * (g j (m_at (q_Points (eq_Quadrature (ld_BoundaryQuadrature l))) 0 q) (m_at (q_Points (eq_Quadrature (ld_BoundaryQuadrature l))) 1 q) * act (ld_VanderKp1EdgeProjections l) (fun a => u (nv + (k - 1) * nv + a)%nat) q)))).
  2:{ intros j Hj. rewrite !apply_scal. unfold nv. apply Rmult_plus_distr_l. }
  rewrite rsum_plus, <- !apply_rsum. unfold nv. f_equal; apply apply_ext; intros q _; rewrite <- rsum_scal_r; apply rsum_ext; intros; cbv beta; ring.
Qed.
Lemma bq_ext u f g : (forall x y, f x y = g x y) -> bqs f u = bqs g u.
Proof. intros E. unfold bqsum. cbv zeta. f_equal; apply apply_ext; intros q _; rewrite E; reflexivity. Qed.
Lemma ed_ext d e u f g : (forall x y, f x y = g x y) -> eds d e f u = eds d e g u.
Proof. intros E. unfold edsum. apply apply_ext; intros q _; rewrite E; reflexivity. Qed.
Lemma ed_lin d e n (c : nat -> R) (g : nat -> R -> R -> R) u : eds d e (fun x y => rsum n (fun j => c j * g j x y)) u = rsum n (fun j => c j * eds d e (g j) u).
Proof.
  unfold edsum. rewrite (rsum_ext n (fun j => c j * _) (fun j => apply_rule (normal_weights (lv_BoundaryQuadrature l') d) (fun q => c j * (g j (m_at (boundary_points l') 0 q) (m_at (boundary_points l') 1 q) * u (e * (m_cols (pg_Vertices p) + (k - 1) * m_cols (pg_Vertices p)) + q)%nat)))) by (intros; rewrite apply_scal; reflexivity).
  rewrite <- apply_rsum. apply apply_ext. intros q _. rewrite <- rsum_scal_r. apply rsum_ext. intros. ring.
Qed.
Lemma ed_0 d e u g : (forall x y, g x y = 0) -> eds d e g u = 0.
Proof. intros E. unfold edsum, apply_rule. apply rsum_0. intros q _. rewrite E. ring. Qed.

(** ** Moments *)
Lemma I_0 g : (forall x y, g x y = 0) -> I g = 0.
Proof. intros E. unfold I, fI, apply_rule. apply rsum_0. intros q _. rewrite E. ring. Qed.
Lemma ph0 x y : ph 0%nat x y = 1.
Proof. unfold phi, mn. change (ea 0) with 0%nat. change (eb 0) with 0%nat. cbn [pow]. ring. Qed.
Lemma dv_mean u : I (fdv u) = bqs (fun _ _ => 1) u.
Proof.
  rewrite <- (ed_bq u (fun _ _ => 1) (fun _ _ => 0) (fun _ _ => 0)) by (apply poly2_const). destruct (ff_W _ _ _ _ _ _ _ _ _ FF) as (_ & _ & W0 & _). rewrite <- W0.
  destruct (ff_V _ _ _ _ _ _ _ _ _ FF) as (_ & _ & VV). apply variant_cases in VV. pose proof (variant_cases _ _ _ (proj2 DP)) as M. destruct VV as [(Ev & VV)|(Ev & VV)].
  - rewrite <- (VV LT u 0%nat (num2_pos _)). apply I_ex. intros x y. fold cx cy h. rewrite ph0. unfold fdv, nd. ring.
  - destruct M as [(Ev' & _)|(_ & M)]; [congruence|]. unfold I. rewrite (I_ex l' _ (fun x y => act (ld_Vmatrix l) u 0 * 1)).
    + rewrite I_sc, (lf_area _ _ _ _ _ _ LF), VV, M. field. pose proof (gp_area _ GP). lra.
    + intros x y. unfold fdv, pol. rewrite (rsum_single (1 + nd) _ 0%nat); [fold cx cy h; rewrite ph0; ring|lia|]. intros i Hi Ni. exfalso. unfold nd in Hi. rewrite Ev in Hi. cbn in Hi. lia.
Qed.

Lemma beta_0 u : bt u 0 = 0.
Proof.
  unfold beta. rewrite (bq_ext u _ (fun _ _ => 1)) by (intros; apply ph0). rewrite <- dv_mean. apply Rminus_diag_eq. apply I_ex. intros x y. unfold fdv, nd. fold cx cy h. rewrite ph0. ring.
Qed.

Lemma C_grad u m : (m < num2 (k + 1))%nat ->
  (if (ea m =? 0)%nat then 0 else INR (ea m) / h * fC 0 u (ix (ea m - 1) (eb m))) + (if (eb m =? 0)%nat then 0 else INR (eb m) / h * fC 1 u (ix (ea m) (eb m - 1))) = bt u m.
Proof.
  intros Hm. apply ab_lt in Hm. destruct (ff_C _ _ _ _ _ _ _ _ _ FF) as (C0 & C1 & EC & _ & _ & _ & _ & E0 & E1). unfold fC. rewrite EC. cbn [of_list nth].
  assert (B0 := beta_0 u). pose proof (ix_ab m) as EM.
  assert (Z : forall n, n <> 0%nat -> INR n <> 0) by (intros n Hn; apply not_0_INR; auto).
  destruct (Nat.eqb_spec (ea m) 0) as [A|A], (Nat.eqb_spec (eb m) 0) as [B|B].
  - replace m with 0%nat; [rewrite B0; ring|]. rewrite A, B in EM. rewrite <- EM. symmetry. apply ix_00.
  - rewrite E1 by (apply ab_lt; rewrite ea_ix, eb_ix; lia). unfold inv_s. rewrite !ea_ix, !eb_ix, A. cbn [Nat.ltb Nat.leb]. replace (0 + (eb m - 1) + 1)%nat with (eb m) by lia. replace (eb m - 1 + 1)%nat with (eb m) by lia.
    rewrite <- A at 1. rewrite EM. fold h. field. split; auto.
  - rewrite E0 by (apply ab_lt; rewrite ea_ix, eb_ix; lia). unfold inv_s. rewrite !ea_ix, !eb_ix, B. cbn [Nat.ltb Nat.leb]. replace (ea m - 1 + 0 + 1)%nat with (ea m) by lia. replace (ea m - 1 + 1)%nat with (ea m) by lia.
    rewrite <- B at 1. rewrite EM. fold h. field. split; auto.
  - rewrite E0, E1 by (apply ab_lt; rewrite ea_ix, eb_ix; lia). unfold inv_s. rewrite !ea_ix, !eb_ix. rewrite !ltb_true by lia.
    replace (ea m - 1 + eb m + 1)%nat with (ea m + eb m)%nat by lia. replace (ea m + (eb m - 1) + 1)%nat with (ea m + eb m)%nat by lia. replace (ea m - 1 + 1)%nat with (ea m) by lia. replace (eb m - 1 + 1)%nat with (eb m) by lia. rewrite EM. fold h.
    assert (NZ := Z (ea m + eb m)%nat ltac:(lia)). rewrite plus_INR in *. field. split; auto.
Qed.

Lemma C_rot u c : (c < Nm)%nat -> fC 0 u (ix (ea c) (eb c + 1)) - fC 1 u (ix (ea c + 1) (eb c)) = gm u c.
Proof.
  intros Hc. apply ab_lt in Hc. destruct (ff_C _ _ _ _ _ _ _ _ _ FF) as (C0 & C1 & EC & _ & _ & _ & _ & E0 & E1). unfold fC. rewrite EC. cbn [of_list nth].
  rewrite E0, E1 by (apply ab_lt; rewrite ea_ix, eb_ix; lia). unfold inv_s. rewrite !ea_ix, !eb_ix, !ltb_true by lia.
  replace (eb c + 1 - 1)%nat with (eb c) by lia. replace (ea c + 1 - 1)%nat with (ea c) by lia. rewrite ix_ab.
  replace (ea c + (eb c + 1) + 1)%nat with (ea c + eb c + 2)%nat by lia. replace (ea c + 1 + eb c + 1)%nat with (ea c + eb c + 2)%nat by lia.
  assert (NZ : INR (ea c + eb c + 2) <> 0) by (apply not_0_INR; lia). rewrite !plus_INR in *. cbn [INR] in *. field. exact NZ.
Qed.

(** ** A pair of functions with the moments C up to degree n *)
Lemma pair_grad n u Q0 Q1 t g gx gy : (n <= k)%nat -> (forall i, (i < num2 n)%nat -> I (fun x y => ph i x y * Q0 x y) = fC 0 u i) -> (forall i, (i < num2 n)%nat -> I (fun x y => ph i x y * Q1 x y) = fC 1 u i) ->
  df_traces lob k p u t -> poly2 (n + 1) g gx gy -> I (fun x y => Q0 x y * gx x y + Q1 x y * gy x y) = df_flux lob k p t g - I (fun x y => g x y * fdv u x y).
Proof.
  intros Hn M0 M1 T Pg. destruct (phi_represent cx cy h Hh (n + 1) g gx gy Pg) as (c & R0 & Rx & Ry). rewrite <- (bq_flux u t g T).
  rewrite (bq_ext u g (fun x y => rsum (num2 (n + 1)) (fun j => c j * ph j x y))) by auto. rewrite bq_lin.
  unfold I. rewrite I_pl. rewrite (I_ex l' (fun x y => Q0 x y * gx x y) (fun x y => Q0 x y * rsum (num2 (n + 1)) (fun j => c j * phx j x y))) by (intros; rewrite Rx; reflexivity).
  rewrite (I_ex l' (fun x y => Q1 x y * gy x y) (fun x y => Q1 x y * rsum (num2 (n + 1)) (fun j => c j * phy j x y))) by (intros; rewrite Ry; reflexivity).
  rewrite (I_ex l' (fun x y => g x y * fdv u x y) (fun x y => fdv u x y * rsum (num2 (n + 1)) (fun j => c j * ph j x y))) by (intros; rewrite R0; ring).
  rewrite !I_comb, <- rsum_plus, <- rsum_minus. apply rsum_ext. intros m Hm. fold I.
  transitivity (bt u m * c m).
  - rewrite <- (C_grad u m) by (pose proof (num2_mono (n + 1) (k + 1) ltac:(lia)); lia). rewrite Rmult_plus_distr_r. apply ab_lt in Hm. f_equal; f_equal.
    + rewrite (I_ex l' _ (fun x y => (if (ea m =? 0)%nat then 0 else INR (ea m) / h) * (ph (ix (ea m - 1) (eb m)) x y * Q0 x y))) by (intros x y; rewrite phix_eq; destruct (ea m =? 0)%nat; ring).
      rewrite I_sc. fold I. destruct (Nat.eqb_spec (ea m) 0); [ring|]. rewrite M0 by (apply ix_lt; lia). reflexivity.
    + rewrite (I_ex l' _ (fun x y => (if (eb m =? 0)%nat then 0 else INR (eb m) / h) * (ph (ix (ea m) (eb m - 1)) x y * Q1 x y))) by (intros x y; rewrite phiy_eq; destruct (eb m =? 0)%nat; ring).
      rewrite I_sc. fold I. destruct (Nat.eqb_spec (eb m) 0); [ring|]. rewrite M1 by (apply ix_lt; lia). reflexivity.
  - unfold beta, I. fold cx cy h. rewrite (I_ex l' (fun x y => fdv u x y * ph m x y) (fun x y => ph m x y * fdv u x y)) by (intros; ring). unfold fdv, nd. fold cx cy h. ring.
Qed.

Lemma ph_sy c x y : sy p y * ph c x y = ph (ix (ea c) (eb c + 1)) x y.
Proof. unfold sy, phi, mn. fold cy h. rewrite ea_ix, eb_ix, Nat.add_1_r. cbn [pow]. unfold Rdiv. ring. Qed.
Lemma ph_sx c x y : sx p x * ph c x y = ph (ix (ea c + 1) (eb c)) x y.
Proof. unfold sx, phi, mn. fold cx h. rewrite ea_ix, eb_ix, Nat.add_1_r. cbn [pow]. unfold Rdiv. ring. Qed.

Lemma pair_rot n u Q0 Q1 c : (n <= k)%nat -> (forall i, (i < num2 n)%nat -> I (fun x y => ph i x y * Q0 x y) = fC 0 u i) -> (forall i, (i < num2 n)%nat -> I (fun x y => ph i x y * Q1 x y) = fC 1 u i) ->
  (ea c + eb c + 1 <= n)%nat -> I (fun x y => ph c x y * (sy p y * Q0 x y - sx p x * Q1 x y)) = gm u c.
Proof.
  intros Hn M0 M1 Hc. rewrite <- C_rot by (apply ab_lt; lia). rewrite <- M0, <- M1 by (apply ix_lt; lia). unfold I.
  rewrite (I_ex l' _ (fun x y => ph (ix (ea c) (eb c + 1)) x y * Q0 x y + (-1) * (ph (ix (ea c + 1) (eb c)) x y * Q1 x y))) by (intros x y; rewrite <- ph_sy, <- ph_sx; ring).
  rewrite I_pl, I_sc. ring.
Qed.

Lemma Q_mom d u i : (d < 2)%nat -> (i < Nk)%nat -> I (fun x y => ph i x y * fQ d u x y) = fC d u i.
Proof.
  intros Hd Hi. destruct (ff_Pk _ _ _ _ _ _ _ _ _ FF) as (Q0 & Q1 & EQ & H). destruct (H d Hd) as (_ & _ & M). unfold fQ. rewrite EQ. apply M; auto.
Qed.
Lemma S_mom d u i : (d < 2)%nat -> (i < N2)%nat -> I (fun x y => ph i x y * fS d u x y) = fC d u i.
Proof.
  intros Hd Hi. destruct (ff_P2 _ _ _ _ _ _ _ _ _ FF) as (Q0 & Q1 & EQ & H). destruct (H d Hd) as (_ & _ & M). unfold fS. rewrite EQ. apply M; auto.
Qed.
Lemma gamma_low u c : (c < n3 k)%nat -> gm u c = u (nb + c)%nat.
Proof. intros Hc. unfold gamma. rewrite ltb_true by auto. reflexivity. Qed.
Lemma gamma_high u c : (n3 k <= c)%nat -> gm u c = I (fun x y => ph c x y * (sy p y * fPN 0 u x y - sx p x * fPN 1 u x y)).
Proof.
  intros Hc. unfold gamma. rewrite ltb_false by auto. unfold I.
  rewrite (I_ex l' (fun x y => ph c x y * (sy p y * fPN 0 u x y - sx p x * fPN 1 u x y)) (fun x y => sy p y * ph c x y * fPN 0 u x y + (-1) * (sx p x * ph c x y * fPN 1 u x y))) by (intros; ring).
  rewrite I_pl, I_sc. unfold fPN. fold I. fold cx cy h Nk. ring.
Qed.

(** ** The projections of degree k and of degree k - 2 *)
Lemma Q_grad u t g gx gy : df_traces lob k p u t -> poly2 (k + 1) g gx gy -> I (fun x y => fQ 0 u x y * gx x y + fQ 1 u x y * gy x y) = df_flux lob k p t g - I (fun x y => g x y * fdv u x y).
Proof. intros T Pg. apply (pair_grad k u _ _ t g gx gy); auto; intros; apply Q_mom; auto. Qed.
Lemma S_grad u t g gx gy : df_traces lob k p u t -> poly2 (k - 1) g gx gy -> I (fun x y => fS 0 u x y * gx x y + fS 1 u x y * gy x y) = df_flux lob k p t g - I (fun x y => g x y * fdv u x y).
Proof. intros T Pg. apply (pair_grad (k - 2) u _ _ t g gx gy); auto; try lia; try (intros; apply S_mom; auto). replace (k - 2 + 1)%nat with (k - 1)%nat by lia. auto. Qed.
Lemma Q_rot u c : (c < Nm)%nat -> I (fun x y => ph c x y * (sy p y * fQ 0 u x y - sx p x * fQ 1 u x y)) = gm u c.
Proof. intros Hc. apply ab_lt in Hc. apply (pair_rot k u); auto; try lia; intros; apply Q_mom; auto. Qed.
Lemma S_rot u c : (c < n3 k)%nat -> I (fun x y => ph c x y * (sy p y * fS 0 u x y - sx p x * fS 1 u x y)) = u (nb + c)%nat.
Proof. intros Hc. rewrite <- gamma_low by auto. apply (n3_lt gt lob k FR) in Hc. apply (pair_rot (k - 2) u); auto; try lia; intros; apply S_mom; auto. Qed.
Lemma S_Q d u g gx gy : (d < 2)%nat -> poly2 (k - 2) g gx gy -> I (fun x y => g x y * fS d u x y) = I (fun x y => g x y * fQ d u x y).
Proof.
  intros Hd Pg. destruct (phi_represent cx cy h Hh (k - 2) g gx gy Pg) as (c & R0 & _ & _).
  unfold I. rewrite (I_ex l' (fun x y => g x y * fS d u x y) (fun x y => fS d u x y * rsum N2 (fun j => c j * ph j x y))) by (intros; rewrite R0; apply Rmult_comm).
  rewrite (I_ex l' (fun x y => g x y * fQ d u x y) (fun x y => fQ d u x y * rsum N2 (fun j => c j * ph j x y))) by (intros; rewrite R0; apply Rmult_comm).
  unfold I. rewrite !I_comb. apply rsum_ext. intros m Hm. f_equal.
  rewrite (I_ex l' (fun x y => fS d u x y * ph m x y) (fun x y => ph m x y * fS d u x y)) by (intros; ring). rewrite (I_ex l' (fun x y => fQ d u x y * ph m x y) (fun x y => ph m x y * fQ d u x y)) by (intros; ring).
  fold I. rewrite S_mom, Q_mom; auto. pose proof (num2_mono (k - 2) k ltac:(lia)). unfold Nk, N2 in *. lia.
Qed.

(** ** The projection of the gradient *)
Lemma PN_mean d u : (d < 2)%nat -> I (fPN d u) = I (fS d u).
Proof.
  intros Hd. destruct (ff_Pi _ _ _ _ _ _ _ _ _ FF) as (Q0 & Q1 & EQ & H). destruct (H d Hd) as (_ & _ & M). unfold fPN. rewrite EQ. destruct (M LU u) as (M0 & _). fold I in M0. fold Nk in M0. rewrite M0. fold (fC d u 0).
  rewrite <- S_mom by (auto; apply num2_pos). apply I_ex. intros x y. rewrite ph0. ring.
Qed.
(** sums of the products of derivatives, in coefficients *)
Lemma PN_energy d u (c : nat -> R) : (d < 2)%nat ->
  I (fun x y => rsum Nk (fun i => c i * phx i x y) * rsum Nk (fun j => act (of_list (ld_PiNabla l) d) u j * phx j x y)) + I (fun x y => rsum Nk (fun i => c i * phy i x y) * rsum Nk (fun j => act (of_list (ld_PiNabla l) d) u j * phy j x y)) =
  eds 0 d (fun x y => rsum Nk (fun i => c i * phx i x y)) u + eds 1 d (fun x y => rsum Nk (fun i => c i * phy i x y)) u - I (fun x y => rsum Nk (fun i => c i * (phixx cx cy h i x y + phiyy cx cy h i x y)) * fS d u x y).
Proof.
  intros Hd. destruct (ff_Pi _ _ _ _ _ _ _ _ _ FF) as (Q0 & Q1 & EQ & H). destruct (H d Hd) as (_ & _ & M). rewrite EQ. destruct (M LU u) as (_ & ME). set (P := of_list [Q0; Q1] d) in *.
  set (Gx := fun x y => rsum Nk (fun j => act P u j * phx j x y)). set (Gy := fun x y => rsum Nk (fun j => act P u j * phy j x y)).
  unfold I; rewrite (I_ex l' _ (fun x y => Gx x y * rsum Nk (fun i => c i * phx i x y))) by (intros; apply Rmult_comm). rewrite (I_ex l' (fun x y => rsum Nk (fun i => c i * phy i x y) * _) (fun x y => Gy x y * rsum Nk (fun i => c i * phy i x y))) by (intros; apply Rmult_comm).
  rewrite (I_ex l' (fun x y => rsum Nk (fun i => c i * (phixx cx cy h i x y + phiyy cx cy h i x y)) * _) (fun x y => fS d u x y * rsum Nk (fun i => c i * (phixx cx cy h i x y + phiyy cx cy h i x y)))) by (intros; apply Rmult_comm).
  unfold I. rewrite (I_comb l' Nk c Gx), (I_comb l' Nk c Gy), (I_comb l' Nk c (fS d u) (fun i x y => phixx cx cy h i x y + phiyy cx cy h i x y)). rewrite !ed_lin, <- !rsum_plus, <- rsum_minus. apply rsum_ext. intros i Hi. fold I.
  destruct (Nat.eq_dec i 0) as [->|Ni].
  - rewrite !I_0; [|intros; unfold phixx, phiyy|intros|intros]. 2:{ change (ea 0) with 0%nat. change (eb 0) with 0%nat. cbn [INR]. unfold Rdiv. ring. }
    2,3: rewrite ?(proj1 (VemProofs2.phix_0 p 0%nat _ _ eq_refl)), ?(proj2 (VemProofs2.phix_0 p 0%nat _ _ eq_refl)); ring.
    rewrite !ed_0; [ring| |]; intros; [apply (proj2 (VemProofs2.phix_0 p 0%nat _ _ eq_refl))|apply (proj1 (VemProofs2.phix_0 p 0%nat _ _ eq_refl))].
  - specialize (ME i ltac:(unfold Nk in Hi; lia)). fold I in ME. fold cx cy h Nk N2 in ME.
    unfold I; rewrite (I_ex l' (fun x y => Gx x y * phx i x y) (fun x y => phx i x y * Gx x y)) by (intros; ring). rewrite (I_ex l' (fun x y => Gy x y * phy i x y) (fun x y => phy i x y * Gy x y)) by (intros; ring).
    rewrite <- Rmult_plus_distr_r. unfold Gx, Gy. fold I. rewrite ME.
    replace (I (fun x y => fS d u x y * (phixx cx cy h i x y + phiyy cx cy h i x y))) with (1 / (h * h) * rsum N2 (fun c0 => dd i c0 * act (of_list (ld_Cmatrix l) d) u c0)); [ring|].
    apply ab_lt in Hi. unfold I; rewrite (I_ex l' _ (fun x y => 1 / (h * h) * (fS d u x y * rsum N2 (fun c0 => dd i c0 * ph c0 x y)))).
    + rewrite I_sc, I_comb. f_equal. apply rsum_ext. intros a Ha. rewrite (I_ex l' _ (fun x y => ph a x y * fS d u x y)) by (intros; ring). fold I. rewrite S_mom by auto. unfold fC. ring.
    + intros x y. rewrite <- (lap_sum cx cy h Hh N2 i x y) by (intros; apply ix_lt; lia). field; auto.
Qed.

Lemma cpoly n (c : nat -> R) : poly2 n (fun x y => rsum (num2 n) (fun j => c j * ph j x y)) (fun x y => rsum (num2 n) (fun j => c j * phx j x y)) (fun x y => rsum (num2 n) (fun j => c j * phy j x y)).
Proof. apply (poly2_rsum n (num2 n) (fun j x y => c j * ph j x y) (fun j x y => c j * phx j x y) (fun j x y => c j * phy j x y)). intros j Hj. apply poly2_scal. apply phi_k; auto. Qed.
Lemma cpolyx n (c : nat -> R) : (1 <= n)%nat -> poly2 (n - 1) (fun x y => rsum (num2 n) (fun j => c j * phx j x y)) (fun x y => rsum (num2 n) (fun j => c j * phixx cx cy h j x y)) (fun x y => rsum (num2 n) (fun j => c j * phixy cx cy h j x y)).
Proof. intros Hn. apply (poly2_rsum (n - 1) (num2 n) (fun j x y => c j * phx j x y) (fun j x y => c j * phixx cx cy h j x y) (fun j x y => c j * phixy cx cy h j x y)). intros j Hj. apply poly2_scal. apply phix_poly2; auto. Qed.
Lemma cpolyy n (c : nat -> R) : (1 <= n)%nat -> poly2 (n - 1) (fun x y => rsum (num2 n) (fun j => c j * phy j x y)) (fun x y => rsum (num2 n) (fun j => c j * phixy cx cy h j x y)) (fun x y => rsum (num2 n) (fun j => c j * phiyy cx cy h j x y)).
Proof. intros Hn. apply (poly2_rsum (n - 1) (num2 n) (fun j x y => c j * phy j x y) (fun j x y => c j * phixy cx cy h j x y) (fun j x y => c j * phiyy cx cy h j x y)). intros j Hj. apply poly2_scal. apply phiy_poly2; auto. Qed.

Lemma PN_ok d u t fx fy g gx gy gxx gxy gyx gyy : (d < 2)%nat -> df_traces lob k p u t -> poly2 k (fPN d u) fx fy -> poly2 k g gx gy -> poly2 (k - 1) gx gxx gxy -> poly2 (k - 1) gy gyx gyy ->
  I (fun x y => fx x y * gx x y + fy x y * gy x y) = df_around lob k p (fun e s => t d e s * (df_at p gx e s * df_normal p 0 e + df_at p gy e s * df_normal p 1 e)) - I (fun x y => (gxx x y + gyy x y) * fS d u x y).
Proof.
  intros Hd T Pf Pg Px Py. destruct (phi_represent cx cy h Hh k g gx gy Pg) as (c & R0 & Rx & Ry). pose proof (PN_energy d u c Hd) as E.
  assert (DPN : forall x y, fx x y = rsum Nk (fun j => act (of_list (ld_PiNabla l) d) u j * phx j x y) /\ fy x y = rsum Nk (fun j => act (of_list (ld_PiNabla l) d) u j * phy j x y)).
  { destruct (poly2_derivatives_unique k k _ _ _ _ _ _ Pf (cpoly k (fun j => act (of_list (ld_PiNabla l) d) u j))) as (A & B); [reflexivity|]. split; auto. }
  assert (D1 : forall x y, gxx x y = rsum Nk (fun j => c j * phixx cx cy h j x y)) by (apply (proj1 (poly2_derivatives_unique _ _ _ _ _ _ _ _ Px (cpolyx k c ltac:(lia)) Rx))).
  assert (D2 : forall x y, gyy x y = rsum Nk (fun j => c j * phiyy cx cy h j x y)) by (apply (proj2 (poly2_derivatives_unique _ _ _ _ _ _ _ _ Py (cpolyy k c ltac:(lia)) Ry))).
  unfold I; rewrite (I_ex l' _ (fun x y => rsum Nk (fun i => c i * phx i x y) * rsum Nk (fun j => act (of_list (ld_PiNabla l) d) u j * phx j x y) + rsum Nk (fun i => c i * phy i x y) * rsum Nk (fun j => act (of_list (ld_PiNabla l) d) u j * phy j x y)))
    by (intros x y; rewrite (proj1 (DPN x y)), (proj2 (DPN x y)), Rx, Ry; fold Nk; ring).
  rewrite I_pl. fold I. rewrite E. f_equal.
  - rewrite (ed_ext 0 d u _ gx), (ed_ext 1 d u _ gy) by (intros; rewrite ?Rx, ?Ry; reflexivity). rewrite (ed_flux u t 0 d gx gxx gxy T), (ed_flux u t 1 d gy gyx gyy T) by (auto; lia).
    unfold df_around. rewrite <- rsum_plus. apply rsum_ext. intros e He. rewrite <- !apply_scal, <- apply_plus, <- ?apply_scal. apply apply_ext. intros q _. ring.
  - apply I_ex. intros x y. rewrite D1, D2, <- rsum_plus. f_equal. apply rsum_ext. intros; ring.
Qed.

(** ** The projections of the derivatives *)
Lemma F_ok d e u t g gx gy : (d < 2)%nat -> (e < 2)%nat -> df_traces lob k p u t -> poly2 (k - 1) g gx gy ->
  I (fun x y => g x y * fF d e u x y) = df_around lob k p (fun a s => df_at p g a s * (df_normal p e a * t d a s)) - I (fun x y => (if (e =? 0)%nat then gx x y else gy x y) * fS d u x y).
Proof.
  intros Hd He T Pg. rewrite <- (ed_flux u t e d g gx gy T He Hd Pg). destruct (phi_represent cx cy h Hh (k - 1) g gx gy Pg) as (c & R0 & Rx & Ry).
  rewrite (ed_ext e d u g (fun x y => rsum Nm (fun j => c j * ph j x y))) by auto. rewrite ed_lin.
  unfold I; rewrite (I_ex l' (fun x y => g x y * _) (fun x y => fF d e u x y * rsum Nm (fun j => c j * ph j x y))) by (intros; rewrite R0; apply Rmult_comm).
  rewrite (I_ex l' (fun x y => (if (e =? 0)%nat then gx x y else gy x y) * _) (fun x y => fS d u x y * rsum Nm (fun j => c j * (if (e =? 0)%nat then phx j x y else phy j x y)))) by (intros; destruct (e =? 0)%nat; rewrite ?Rx, ?Ry; apply Rmult_comm).
  unfold I. rewrite I_comb, (I_comb l' Nm c (fS d u) (fun j x y => if (e =? 0)%nat then phx j x y else phy j x y)), <- rsum_minus. apply rsum_ext. intros i Hi. fold I.
  destruct (ff_F _ _ _ _ _ _ _ _ _ FF) as (F00 & F01 & F10 & F11 & EF & HF). destruct (HF d e Hd He) as (_ & _ & M). unfold fF. rewrite EF.
  unfold I; rewrite (I_ex l' _ (fun x y => ph i x y * pol p Nm (of_list [F00; F01; F10; F11] (2 * d + e)) u x y)) by (intros; ring). fold I in M. unfold I in M |- *. unfold Nm, cx, cy, h in *. rewrite M by auto. fold cx cy h Nm in Hi |- *.
  fold I. replace (I (fun x y => fS d u x y * (if (e =? 0)%nat then phx i x y else phy i x y))) with (1 / h * rsum N2 (fun c0 => (if (e =? 0)%nat then d0 i c0 else d1 i c0) * act (of_list (ld_Cmatrix l) d) u c0)); [unfold N2; ring|].
  apply ab_lt in Hi. unfold I; rewrite (I_ex l' _ (fun x y => 1 / h * (fS d u x y * rsum N2 (fun c0 => (if (e =? 0)%nat then d0 i c0 else d1 i c0) * ph c0 x y)))).
  - rewrite I_sc, I_comb. f_equal. apply rsum_ext. intros a Ha. rewrite (I_ex l' _ (fun x y => ph a x y * fS d u x y)) by (intros; ring). fold I. rewrite S_mom by auto. unfold fC. ring.
  - intros x y. destruct (e =? 0)%nat.
    + rewrite <- (phix_sum cx cy h Hh N2 i x y) by (intros; apply ix_lt; lia). field; auto.
    + rewrite <- (phiy_sum cx cy h Hh N2 i x y) by (intros; apply ix_lt; lia). field; auto.
Qed.
End Space.
