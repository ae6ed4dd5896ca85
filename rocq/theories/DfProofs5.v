(** The divergence free virtual element: the trace of the projected derivatives, and polynomial fields. *)
From Coq Require Import List Arith Bool Lia ZArith Reals Lra.
From Verif Require Import Base RSum MatrixModel MonomialsModel MonomialsSpec GBasisModel LagrangeModel LagrangeSpec LagrangeProofs VemQuadModel VemQuadSpec VemQuadProofs VemQuadProofs2
  VemModel VemSpec VemProofs VemMccModel VemMccProofs2 VemMccProofs3 VemProofs2 VemProofs3 Pcc2dProofs4 DfModel DfSpec DfProofs DfProofs2 DfProofs3 DfProofs4 GreenSpec GreenProofs PolyProofs.
Import ListNotations.
Local Open Scope R_scope.

Section Exact.
Variables (v : DF_Variant) (gt lob : nat -> QuadratureData) (k : nat) (p : Polygon).
Hypothesis FR : df_rules gt lob k.
Hypothesis DP : df_polygon v p.
Variables (junk : nat -> nat -> R) (lu llt : Solver) (l' : VEM_2D_Local).
Hypothesis LF : local_facts gt k p lu llt l'.
Hypothesis EB : PolygonEdgesLobattoQuadrature junk (inner_points (lob (2 * k - 1)%nat) (k - 1)) (inner_weights (lob (2 * k - 1)%nat) (k - 1)) (end_weights (lob (2 * k - 1)%nat) (k - 1))
    (pg_Vertices p) (pg_EdgesLength p) (pg_EdgesDirection p) (pg_EdgesTangent p) (pg_EdgesNormal p) = Ok (lv_BoundaryQuadrature l').
Hypothesis EI : PolygonInternalQuadrature (gt (2 * k)%nat) (pg_TriangulationVertices p) = Ok (lv_InternalQuadrature l').
Variable l : DF_Local.
Hypothesis FF : df_facts v lob k p junk lu llt l' l.
Hypothesis LU : exact_for nonsingular lu.
Hypothesis LT : exact_for positive_definite llt.
Let GP : good_polygon p := proj1 DP.
Let Hk : (2 <= k)%nat. Proof. apply (fr_order _ _ _ FR). Qed.
Let GR := fr_rules _ _ _ FR.
Let cx := pg_Centroid p 0%nat.
Let cy := pg_Centroid p 1%nat.
Let h := pg_Diameter p.
Let nv := m_cols (pg_Vertices p).
Let ns := (nv + (k - 1) * nv)%nat.
Let nb := (2 * ns)%nat.
Let nd := ndiv_of v k.
Let Nk := num2 k.
Let Nm := num2 (k - 1).
Let N2 := num2 (k - 2).
Notation I := (fI l').
Notation ph := (phi cx cy h).
Notation phx := (phix cx cy h).
Notation phy := (phiy cx cy h).
Let Hh : h <> 0. Proof. apply gp_diameter; auto. Qed.

Notation dv := (fdv v k p l).
Notation PN := (fPN k p l).
Notation Q := (fQ k p l).
Notation Sp := (fS k p l).
Notation F := (fF k p l).
Notation C := (fC l).
Notation bt := (beta v k p l' l).
Notation gm := (gamma k p l' l).
Notation eds := (edsum k p l').
Notation bqs := (bqsum k p l).
Let bq_flux' := bq_flux v gt lob k p FR DP junk lu llt l' l FF.
Let ed_flux' := ed_flux v gt lob k p FR DP junk l' EB.
Let ed_bq' := ed_bq v gt lob k p FR DP junk lu llt l' EB l FF.
Let dv_mean' := dv_mean v gt lob k p FR DP junk lu llt l' LF EB l FF LT.
Let S_grad' := S_grad v gt lob k p FR DP junk lu llt l' LF EB l FF LT.
Let F_ok' := F_ok v gt lob k p FR DP junk lu llt l' EB l FF LT.
Let PN_ok' := PN_ok v gt lob k p FR DP junk lu llt l' EB l FF LU LT.
Let PN_mean' := PN_mean v lob k p junk lu llt l' l FF LU LT.
Let S_mom' := S_mom v lob k p junk lu llt l' l FF LT.
Let Q_mom' := Q_mom v lob k p junk lu llt l' l FF LT.
Let cpoly' := cpoly v p DP.
Let Isq := VemProofs3.I_square gt lob k p lu llt l' GR GP LF.

Lemma Iex f g : (forall x y, f x y = g x y) -> I f = I g. Proof. apply I_ex. Qed.
Lemma Ipl f g : I (fun x y => f x y + g x y) = I f + I g. Proof. apply I_pl. Qed.
Lemma Imi f g : I (fun x y => f x y - g x y) = I f - I g.
Proof. rewrite (Iex _ (fun x y => f x y + (-1) * g x y)) by (intros; ring). rewrite I_pl, I_sc. ring. Qed.
Lemma Isc c f : I (fun x y => c * f x y) = c * I f. Proof. apply I_sc. Qed.

Lemma I_ph0 f : I (fun x y => ph 0%nat x y * f x y) = I f.
Proof. apply Iex. intros x y. unfold cx, cy, h. rewrite ph0. ring. Qed.

(** two polynomials with the same moments *)
Lemma same n f fx fy g gx gy : (n <= k)%nat -> poly2 n f fx fy -> poly2 n g gx gy -> (forall i, (i < num2 n)%nat -> I (fun x y => ph i x y * f x y) = I (fun x y => ph i x y * g x y)) -> forall x y, f x y = g x y.
Proof.
  intros Hn Pf Pg E x y. pose proof (poly2_add n f fx fy _ _ _ Pf (poly2_scal n (-1) g gx gy Pg)) as Pd. destruct (Isq _ _ _ (poly2_le n k _ _ _ Hn Pd)) as (_ & Z).
  assert (D : f x y + -1 * g x y = 0); [|lra]. apply (Z). clear x y Z. destruct (phi_represent cx cy h Hh n _ _ _ Pd) as (c & R0 & _).
  rewrite (Iex _ (fun x y => (f x y + -1 * g x y) * rsum (num2 n) (fun j => c j * ph j x y))) by (intros; rewrite <- R0; reflexivity).
  rewrite I_comb. apply rsum_0. intros i Hi. rewrite (Iex _ (fun x y => ph i x y * f x y - ph i x y * g x y)) by (intros; ring). rewrite Imi, E by auto. ring.
Qed.
(** moments against polynomials *)
Lemma moments n f1 f2 g gx gy : poly2 n g gx gy -> (forall i, (i < num2 n)%nat -> I (fun x y => ph i x y * f1 x y) = I (fun x y => ph i x y * f2 x y)) -> I (fun x y => g x y * f1 x y) = I (fun x y => g x y * f2 x y).
Proof.
  intros Pg E. destruct (phi_represent cx cy h Hh n g gx gy Pg) as (c & R0 & _).
  rewrite (Iex (fun x y => g x y * f1 x y) (fun x y => f1 x y * rsum (num2 n) (fun j => c j * ph j x y))) by (intros; rewrite R0; apply Rmult_comm).
  rewrite (Iex (fun x y => g x y * f2 x y) (fun x y => f2 x y * rsum (num2 n) (fun j => c j * ph j x y))) by (intros; rewrite R0; apply Rmult_comm).
  rewrite !I_comb. apply rsum_ext. intros i Hi. f_equal. rewrite (Iex _ (fun x y => ph i x y * f1 x y)) by (intros; ring). rewrite E by auto. apply Iex. intros; ring.
Qed.

Lemma dv_poly u : exists fx fy, poly2 (k - 1) (dv u) fx fy.
Proof.
  assert (LE : (1 + nd <= Nm)%nat) by (unfold nd, ndiv_of, Nm; pose proof (num2_pos (k - 1)); destruct v; lia). do 2 eexists. eapply poly2_ext; [apply (cpoly' (k - 1)%nat (fun j => if (j <? 1 + nd)%nat then act (ld_Vmatrix l) u j else 0))|..]; try reflexivity.
  intros x y. unfold fdv, pol. fold cx cy h nd Nm. replace Nm with (1 + nd + (Nm - (1 + nd)))%nat by lia. rewrite rsum_add. rewrite (rsum_0 (Nm - (1 + nd))); [rewrite Rplus_0_r|].
  - apply rsum_ext. intros i Hi. rewrite ltb_true by auto. reflexivity.
  - intros i Hi. rewrite ltb_false by lia. ring.
Qed.

(** ** The trace of the projected derivatives is the divergence *)
Lemma trace_div u x y : F 0 0 u x y + F 1 1 u x y = dv u x y.
Proof.
  destruct (dv_poly u) as (gx & gy & Pd). revert x y. eapply (same (k - 1)); [lia| |exact Pd|].
  - apply poly2_add; apply cpoly'.
  - intros i Hi. destruct (traces_exist gt lob k p u FR) as (t & T). pose proof (phi_k cx cy h Hh (k - 1) i Hi) as Pi.
    rewrite (Iex _ (fun x y => ph i x y * F 0 0 u x y + ph i x y * F 1 1 u x y)) by (intros; ring). rewrite Ipl.
    rewrite (F_ok' 0%nat 0%nat u t _ _ _ ltac:(lia) ltac:(lia) T Pi), (F_ok' 1%nat 1%nat u t _ _ _ ltac:(lia) ltac:(lia) T Pi). cbn [Nat.eqb].
    pose proof (S_grad' u t _ _ _ T Pi) as SG. rewrite Ipl in SG.
    assert (FL : df_flux lob k p t (ph i) = df_around lob k p (fun a s => df_at p (ph i) a s * (df_normal p 0 a * t 0%nat a s)) + df_around lob k p (fun a s => df_at p (ph i) a s * (df_normal p 1 a * t 1%nat a s))).
    { unfold df_flux, df_around. rewrite <- rsum_plus. apply rsum_ext. intros e He. rewrite <- !apply_scal, <- apply_plus, <- ?apply_scal. apply apply_ext. intros q _. ring. }
    rewrite (Iex (fun x y => phx i x y * Sp 0 u x y) (fun x y => Sp 0 u x y * phx i x y)), (Iex (fun x y => phy i x y * Sp 1 u x y) (fun x y => Sp 1 u x y * phy i x y)) by (intros; ring).
    rewrite FL in SG. lra.
Qed.

(** ** Green along the boundary *)
Lemma green_around f fx fy : poly2 (2 * k + 1) f fx fy -> df_around lob k p (fun e s => df_normal p 0 e * df_at p f e s) = I fx /\ df_around lob k p (fun e s => df_normal p 1 e * df_at p f e s) = I fy.
Proof.
  intros Pf.
  assert (X : forall d, (d < 2)%nat -> df_around lob k p (fun e s => df_normal p d e * df_at p f e s) = apply_rule (normal_weights (ld_BoundaryQuadrature l) d) (fun q => f (m_at (q_Points (eq_Quadrature (ld_BoundaryQuadrature l))) 0 q) (m_at (q_Points (eq_Quadrature (ld_BoundaryQuadrature l))) 1 q))).
  { intros d Hd. rewrite (edge_rule p junk GP (lob (2 * k + 1)%nat) k _ d _ (fun e s => df_at p f e s)); auto.
    - unfold df_around. apply rsum_ext. intros e He. rewrite <- !apply_scal. apply apply_ext. intros q _. unfold df_normal. ring.
    - apply (fr_segment _ _ _ FR). - apply (fr_segment_points _ _ _ FR). - apply (fr_segment_first _ _ _ FR). - apply (fr_segment_last _ _ _ FR). - apply (fr_segment_ends _ _ _ FR). - apply (ff_BQ _ _ _ _ _ _ _ _ _ FF).
    - intros e He. apply (edge_positions p junk GP (lob (2 * k + 1)%nat) k (ld_BoundaryQuadrature l) f e (fr_segment _ _ _ FR) (fr_segment_first _ _ _ FR) (fr_segment_last _ _ _ FR) (ff_BQ _ _ _ _ _ _ _ _ _ FF) He). }
  rewrite !X by lia.
  destruct (C68_lobatto_all (2 * k + 1) junk (end_weights (lob (2 * k + 1)%nat) k) (inner_points (lob (2 * k + 1)%nat) k) (inner_weights (lob (2 * k + 1)%nat) k) (gt (2 * k)%nat) (pg_TriangulationVertices p) (pg_Vertices p) (pg_EdgesLength p) (pg_EdgesDirection p) (pg_EdgesTangent p) (pg_EdgesNormal p))
    as (I' & B' & EI' & EB' & G).
  - split; cbn [inner_points inner_weights v_size m_cols m_rows]; [reflexivity|lia].
  - intros a Ha. rewrite <- (fr_segment_exact _ _ _ FR) by auto. symmetry. apply (split_exact (lob (2 * k + 1)%nat) k (fr_segment _ _ _ FR) (fr_segment_points _ _ _ FR) (fr_segment_first _ _ _ FR) (fr_segment_last _ _ _ FR) (fun s => s ^ a)).
  - apply (fr_segment_ends _ _ _ FR).
  - apply (gr_triangle _ _ _ GR).
  - replace (2 * k + 1 - 1)%nat with (2 * k)%nat by lia. apply (gr_triangle_exact _ _ _ GR).
  - apply (gp_edges _ GP). - apply (gp_tangents _ GP). - apply (gp_normals _ GP). - apply (gp_triangulation _ GP).
  - rewrite EI in EI'. injection EI' as <-. rewrite (ff_BQ _ _ _ _ _ _ _ _ _ FF) in EB'. injection EB' as <-. destruct (G f fx fy Pf) as (G0 & G1). split; symmetry; assumption.
Qed.

(** ** Polynomial fields *)
Section Field.
Variables (f0 f1 f0x f0y f1x f1y : R -> R -> R) (u : nat -> R).
Hypothesis P0 : poly2 k f0 f0x f0y.
Hypothesis P1 : poly2 k f1 f1x f1y.
Let fd (d : nat) := if (d =? 0)%nat then f0 else f1.
Let fdx (d : nat) := if (d =? 0)%nat then f0x else f1x.
Let fdy (d : nat) := if (d =? 0)%nat then f0y else f1y.
Hypothesis U0 : forall d q, (d < 2)%nat -> (q < ns)%nat -> u (d * ns + q)%nat = fd d (m_at (boundary_points l') 0 q) (m_at (boundary_points l') 1 q).
Hypothesis U1 : forall c, (c < n3 k)%nat -> u (nb + c)%nat = I (fun x y => ph c x y * (sy p y * f0 x y - sx p x * f1 x y)).
Hypothesis U2 : forall c, (c < nd)%nat -> u (nb + n3 k + c)%nat = I (fun x y => ph (1 + c) x y * (f0x x y + f1y x y)).
Hypothesis UR : v = Reduced -> exists a, forall x y, f0x x y + f1y x y = a.

Lemma Pd d : poly2 k (fd d) (fdx d) (fdy d).
Proof. unfold fd, fdx, fdy. destruct (d =? 0)%nat; auto. Qed.

Definition ft (d e : nat) (s : R) : R := df_at p (fd d) e s.
Lemma ft_traces : df_traces lob k p u ft.
Proof.
  intros d e Hd He. split.
  - apply is_poly_polynomial. apply (at_poly p k _ (fdx d) (fdy d)). apply Pd.
  - intros i Hi. unfold ft, df_scalar. fold nv in He |- *. fold ns.
    destruct (edge_positions p junk GP (lob (2 * k - 1)%nat) (k - 1) (lv_BoundaryQuadrature l') (fd d) e (gr_edge _ _ _ GR) (gr_edge_first _ _ _ GR) ltac:(replace (k - 1 + 1)%nat with k by lia; apply (gr_edge_last _ _ _ GR)) EB He) as (Q0 & Q1 & Qi).
    fold (boundary_points l') in Q0, Q1, Qi. destruct (first_lt v gt lob k p FR e He) as (La & Lb). fold nv in La, Lb. unfold df_point_dof. fold nv.
    destruct (Nat.eqb_spec i 0) as [->|N0]; [|destruct (Nat.eqb_spec i k) as [->|Nk']].
    + rewrite (gr_edge_first _ _ _ GR), <- Q0, U0 by (auto; unfold ns; nia). reflexivity.
    + rewrite (gr_edge_last _ _ _ GR), <- Q1, U0 by (auto; unfold ns; nia). reflexivity.
    + rewrite U0 by (auto; unfold ns; nia). fold nv in Qi. rewrite (Qi (i - 1)%nat) by lia. f_equal. f_equal. lia.
Qed.

Lemma flux_field g gx gy : poly2 (k + 1) g gx gy -> df_flux lob k p ft g = I (fun x y => gx x y * f0 x y + gy x y * f1 x y) + I (fun x y => g x y * (f0x x y + f1y x y)).
Proof.
  intros Pg. pose proof (poly2_mult _ _ _ _ _ _ _ _ Pg P0) as M0. pose proof (poly2_mult _ _ _ _ _ _ _ _ Pg P1) as M1. replace (k + 1 + k)%nat with (2 * k + 1)%nat in M0, M1 by lia.
  destruct (green_around _ _ _ M0) as (G0 & _). destruct (green_around _ _ _ M1) as (_ & G1).
  transitivity (df_around lob k p (fun e s => df_normal p 0 e * df_at p (fun x y => g x y * f0 x y) e s) + df_around lob k p (fun e s => df_normal p 1 e * df_at p (fun x y => g x y * f1 x y) e s)).
  - unfold df_flux, df_around. rewrite <- rsum_plus. apply rsum_ext. intros e He. rewrite <- !apply_scal, <- apply_plus, <- ?apply_scal. apply apply_ext. intros q _. unfold ft, df_at. change (fd 0) with f0. change (fd 1) with f1. ring.
  - rewrite G0, G1, <- !Ipl. apply Iex. intros; ring.
Qed.

Lemma dv_field x y : dv u x y = f0x x y + f1y x y.
Proof.
  assert (FL1 : I (dv u) = I (fun x y => f0x x y + f1y x y)).
  { rewrite dv_mean'. rewrite (bq_flux' u ft _ ft_traces). rewrite (flux_field (fun _ _ => 1) (fun _ _ => 0) (fun _ _ => 0)) by apply poly2_const.
    rewrite (I_0 l' (fun x y => 0 * f0 x y + 0 * f1 x y)) by (intros; ring). rewrite Rplus_0_l. apply Iex. intros; ring. }
  destruct (ff_V _ _ _ _ _ _ _ _ _ FF) as (_ & _ & VV). apply variant_cases in VV. destruct VV as [(Ev & VV)|(Ev & _)].
  - destruct (dv_poly u) as (dx & dy & Pv). destruct (poly2_derivatives 0 p GP (k - 1) f0 f0x f0y) as (axx & axy & ayy & A & _); [replace (k - 1 + 1)%nat with k by lia; auto|].
    destruct (poly2_derivatives 0 p GP (k - 1) f1 f1x f1y) as (bxx & bxy & byy & _ & B); [replace (k - 1 + 1)%nat with k by lia; auto|].
    revert x y. eapply (same (k - 1)); [lia|exact Pv|apply (poly2_add _ _ _ _ _ _ _ A B)|]. intros i Hi. destruct (ff_W _ _ _ _ _ _ _ _ _ FF) as (_ & _ & _ & W1).
    destruct i as [|c].
    + rewrite !I_ph0. exact FL1.
    + unfold fdv. rewrite VV by auto. change (S c) with (1 + c)%nat. rewrite W1; [apply U2|]; unfold nd; rewrite Ev; cbn [ndiv_of]; lia.
  - destruct (UR Ev) as (a & Ha). assert (DV : forall x y, dv u x y = act (ld_Vmatrix l) u 0).
    { intros x' y'. unfold fdv, pol. rewrite (rsum_single _ _ 0%nat); [rewrite ph0; ring|lia|]. intros i Hi Ni. exfalso. rewrite Ev in Hi. cbn in Hi. lia. }
    rewrite (Iex _ (fun x y => act (ld_Vmatrix l) u 0 * 1)) in FL1 by (intros; rewrite DV; ring). rewrite (Iex (fun x y => f0x x y + _) (fun x y => a * 1)) in FL1 by (intros; rewrite Ha; ring).
    rewrite !Isc, (lf_area _ _ _ _ _ _ LF) in FL1. rewrite DV, Ha. pose proof (gp_area _ GP). nra.
Qed.

Lemma beta_field m : (m < num2 (k + 1))%nat -> bt u m = I (fun x y => phx m x y * f0 x y + phy m x y * f1 x y).
Proof.
  intros Hm. unfold beta. fold cx cy h. rewrite (bq_flux' u ft _ ft_traces), (flux_field _ _ _ (phi_k cx cy h Hh _ _ Hm)).
  rewrite (Iex (fun x y => ph m x y * pol p (1 + ndiv_of v k) (ld_Vmatrix l) u x y) (fun x y => ph m x y * (f0x x y + f1y x y))) by (intros; f_equal; apply dv_field). ring.
Qed.

(** the moments, where the rotated moments are those of the field *)
Lemma C_field d i : (d < 2)%nat -> (i < Nk)%nat -> (forall c, (ea c + eb c + 1 = ea i + eb i)%nat -> gm u c = I (fun x y => ph c x y * (sy p y * f0 x y - sx p x * f1 x y))) ->
  C d u i = I (fun x y => ph i x y * fd d x y).
Proof.
  intros Hd Hi G. pose proof (proj1 (ab_lt _ _) Hi) as Hi'. destruct (ff_C _ _ _ _ _ _ _ _ _ FF) as (C0 & C1 & EC & _ & _ & _ & _ & E0 & E1). unfold fC. rewrite EC. unfold of_list.
  assert (NZ : INR (ea i) + INR (eb i) + 1 <> 0) by (pose proof (pos_INR (ea i)); pose proof (pos_INR (eb i)); lra).
  destruct d as [|[|d]]; [| |lia]; cbn [nth fd Nat.eqb].
  - rewrite E0, beta_field by (auto; apply ix_lt; lia). fold h. unfold inv_s. rewrite !plus_INR. cbn [INR].
    rewrite (Iex _ (fun x y => (INR (ea i) + 1) / h * (ph i x y * f0 x y) + (if (0 <? eb i)%nat then INR (eb i) / h else 0) * (ph (ix (ea i + 1) (eb i - 1)) x y * f1 x y))).
    2:{ intros x y. rewrite phix_eq, phiy_eq, !ea_ix, !eb_ix. destruct (Nat.eqb_spec (ea i + 1) 0); [lia|]. replace (ea i + 1 - 1)%nat with (ea i) by lia. rewrite ix_ab, plus_INR. cbn [INR].
        destruct (Nat.eqb_spec (eb i) 0), (Nat.ltb_spec 0 (eb i)); try lia; ring. }
    rewrite Ipl, !Isc. destruct (Nat.ltb_spec 0 (eb i)).
    + rewrite G by (rewrite ea_ix, eb_ix; lia). rewrite (Iex (fun x y => ph (ix (ea i) (eb i - 1)) x y * _) (fun x y => ph i x y * f0 x y - ph (ix (ea i + 1) (eb i - 1)) x y * f1 x y)).
      2:{ intros x y. pose proof (ph_sx p (ix (ea i) (eb i - 1)) x y) as A. pose proof (ph_sy p (ix (ea i) (eb i - 1)) x y) as B. rewrite !ea_ix, !eb_ix in A, B. replace (eb i - 1 + 1)%nat with (eb i) in B by lia. rewrite ix_ab in B. fold cx cy h in A, B. rewrite <- A, <- B. ring. }
      rewrite Imi. field. auto.
    + replace (eb i) with 0%nat in * by lia. cbn [INR] in *. pose proof (pos_INR (ea i)). field. split; auto; lra.
  - rewrite E1, beta_field by (auto; apply ix_lt; lia). fold h. unfold inv_s. rewrite !plus_INR. cbn [INR].
    rewrite (Iex _ (fun x y => (INR (eb i) + 1) / h * (ph i x y * f1 x y) + (if (0 <? ea i)%nat then INR (ea i) / h else 0) * (ph (ix (ea i - 1) (eb i + 1)) x y * f0 x y))).
    2:{ intros x y. rewrite phix_eq, phiy_eq, !ea_ix, !eb_ix. destruct (Nat.eqb_spec (eb i + 1) 0); [lia|]. replace (eb i + 1 - 1)%nat with (eb i) by lia. rewrite ix_ab, plus_INR. cbn [INR].
        destruct (Nat.eqb_spec (ea i) 0), (Nat.ltb_spec 0 (ea i)); try lia; ring. }
    rewrite Ipl, !Isc. destruct (Nat.ltb_spec 0 (ea i)).
    + rewrite G by (rewrite ea_ix, eb_ix; lia). rewrite (Iex (fun x y => ph (ix (ea i - 1) (eb i)) x y * _) (fun x y => ph (ix (ea i - 1) (eb i + 1)) x y * f0 x y - ph i x y * f1 x y)).
      2:{ intros x y. pose proof (ph_sx p (ix (ea i - 1) (eb i)) x y) as A. pose proof (ph_sy p (ix (ea i - 1) (eb i)) x y) as B. rewrite !ea_ix, !eb_ix in A, B. replace (ea i - 1 + 1)%nat with (ea i) in A by lia. rewrite ix_ab in A. fold cx cy h in A, B. rewrite <- A, <- B. ring. }
      rewrite Imi. field. auto.
    + replace (ea i) with 0%nat in * by lia. cbn [INR] in *. pose proof (pos_INR (eb i)). field. split; auto; lra.
Qed.

Lemma gamma_field_low c : (c < n3 k)%nat -> gm u c = I (fun x y => ph c x y * (sy p y * f0 x y - sx p x * f1 x y)).
Proof. intros Hc. rewrite (gamma_low k p l' l) by auto. apply U1; auto. Qed.

Lemma S_field d i : (d < 2)%nat -> (i < N2)%nat -> I (fun x y => ph i x y * Sp d u x y) = I (fun x y => ph i x y * fd d x y).
Proof.
  intros Hd Hi. rewrite S_mom' by auto. pose proof (num2_mono (k - 2) k ltac:(lia)). apply C_field; auto; [unfold Nk, N2 in *; lia|]. intros c Hc. apply ab_lt in Hi. apply gamma_field_low. apply (n3_lt gt lob k FR). lia.
Qed.

Lemma around_field d e g gx gy : (d < 2)%nat -> (e < 2)%nat -> poly2 (k - 1) g gx gy ->
  df_around lob k p (fun a s => df_at p g a s * (df_normal p e a * ft d a s)) = I (fun x y => (if (e =? 0)%nat then gx x y else gy x y) * fd d x y) + I (fun x y => g x y * (if (e =? 0)%nat then fdx d x y else fdy d x y)).
Proof.
  intros Hd He Pg. pose proof (poly2_mult _ _ _ _ _ _ _ _ Pg (Pd d)) as M. apply (poly2_le _ (2 * k + 1)) in M; [|lia]. destruct (green_around _ _ _ M) as (G0 & G1). rewrite <- Ipl.
  transitivity (df_around lob k p (fun a s => df_normal p e a * df_at p (fun x y => g x y * fd d x y) a s)).
  - unfold df_around. apply rsum_ext. intros a Ha. f_equal. apply apply_ext. intros q _. unfold ft, df_at. ring.
  - destruct e as [|[|e]]; [| |lia]; cbn [Nat.eqb]; assumption.
Qed.

Lemma PN_field d x y : (d < 2)%nat -> PN d u x y = fd d x y.
Proof.
  intros Hd. assert (XX : exists px py, poly2 k (PN d u) px py) by (do 2 eexists; apply (cpoly' k (fun j => act (of_list (ld_PiNabla l) d) u j))). destruct XX as (px & py & Pp).
  assert (PE : poly2 k (fun x y => PN d u x y + -1 * fd d x y) (fun x y => px x y + -1 * fdx d x y) (fun x y => py x y + -1 * fdy d x y)) by (apply poly2_add; [exact Pp|apply poly2_scal, Pd]).
  set (gx := fun x y => px x y + -1 * fdx d x y) in PE. set (gy := fun x y => py x y + -1 * fdy d x y) in PE.
  destruct (poly2_derivatives 0 p GP (k - 1) (fun x y => PN d u x y + -1 * fd d x y) gx gy) as (gxx & gxy & gyy & Px & Py); [replace (k - 1 + 1)%nat with k by lia; exact PE|].
  pose proof (PN_ok' d u ft px py _ gx gy gxx gxy gxy gyy Hd ft_traces Pp PE Px Py) as E.
  assert (AR : df_around lob k p (fun e s => ft d e s * (df_at p gx e s * df_normal p 0 e + df_at p gy e s * df_normal p 1 e)) =
    I (fun x y => (gxx x y + gyy x y) * fd d x y) + I (fun x y => fdx d x y * gx x y + fdy d x y * gy x y)).
  { transitivity (df_around lob k p (fun a s => df_at p gx a s * (df_normal p 0 a * ft d a s)) + df_around lob k p (fun a s => df_at p gy a s * (df_normal p 1 a * ft d a s))).
    - unfold df_around. rewrite <- rsum_plus. apply rsum_ext. intros e He. rewrite <- !apply_scal, <- apply_plus, <- ?apply_scal. apply apply_ext. intros q _. ring.
    - rewrite (around_field d 0 gx gxx gxy), (around_field d 1 gy gxy gyy) by (auto; lia). cbn [Nat.eqb]. rewrite (Iex (fun x y => (gxx x y + gyy x y) * fd d x y) (fun x y => gxx x y * fd d x y + gyy x y * fd d x y)) by (intros; ring).
      rewrite (Iex (fun x y => fdx d x y * gx x y + fdy d x y * gy x y) (fun x y => gx x y * fdx d x y + gy x y * fdy d x y)) by (intros; ring). rewrite !Ipl. ring. }
  assert (LP : I (fun x y => (gxx x y + gyy x y) * Sp d u x y) = I (fun x y => (gxx x y + gyy x y) * fd d x y)).
  { destruct (poly2_derivatives 0 p GP (k - 2) gx gxx gxy) as (a1 & a2 & a3 & A & _); [replace (k - 2 + 1)%nat with (k - 1)%nat by lia; exact Px|]. destruct (poly2_derivatives 0 p GP (k - 2) gy gxy gyy) as (b1 & b2 & b3 & _ & B); [replace (k - 2 + 1)%nat with (k - 1)%nat by lia; exact Py|].
    eapply (moments (k - 2)); [apply (poly2_add _ _ _ _ _ _ _ A B)|]. intros i Hi. apply S_field; auto. }
  rewrite AR, LP in E.
  assert (Z : I (fun x y => gx x y * gx x y) + I (fun x y => gy x y * gy x y) = 0).
  { rewrite <- Ipl. rewrite (Iex _ (fun x y => (px x y * gx x y + py x y * gy x y) - (fdx d x y * gx x y + fdy d x y * gy x y))) by (intros; unfold gx, gy; ring). rewrite Imi, E. ring. }
  destruct (Isq _ _ _ (poly2_le (k - 1) k _ _ _ ltac:(lia) Px)) as (X1 & X2). destruct (Isq _ _ _ (poly2_le (k - 1) k _ _ _ ltac:(lia) Py)) as (Y1 & Y2). assert (ZX := X2 ltac:(lra)). assert (ZY := Y2 ltac:(lra)).
  set (er := fun x y => PN d u x y + -1 * fd d x y) in *.
  assert (CST : forall a b, er a b = er 0 0).
  { intros a b. transitivity (er 0 b).
    - apply (constant (fun t => er t b) (fun t => gx t b)); [|intros; apply ZX]. intros t. apply (poly2_partials _ _ _ _ t b PE).
    - apply (constant (fun t => er 0 t) (fun t => gy 0 t)); [|intros; apply ZY]. intros t. apply (poly2_partials _ _ _ _ 0 t PE). }
  assert (ME : I er = 0).
  { unfold er. rewrite Ipl, Isc. rewrite PN_mean' by auto. pose proof (S_field d 0 Hd (num2_pos _)) as S0.
    rewrite !I_ph0 in S0. rewrite S0. ring. }
  rewrite (Iex er (fun _ _ => er 0 0 * 1)) in ME by (intros; rewrite CST; ring). rewrite Isc, (lf_area _ _ _ _ _ _ LF) in ME. pose proof (gp_area _ GP). apply Rmult_integral in ME. destruct ME as [ME|ME]; [|lra].
  pose proof (CST x y) as E1. rewrite ME in E1. unfold er in E1. lra.
Qed.

Lemma gamma_field c : gm u c = I (fun x y => ph c x y * (sy p y * f0 x y - sx p x * f1 x y)).
Proof.
  destruct (Nat.le_gt_cases (n3 k) c) as [G|G]; [|apply gamma_field_low; auto]. rewrite (gamma_high k p l' l) by auto. apply Iex. intros x y. rewrite !PN_field by lia. reflexivity.
Qed.

Lemma Q_field d x y : (d < 2)%nat -> Q d u x y = fd d x y.
Proof.
  intros Hd. revert x y. eapply (same k); [lia|apply cpoly'|apply Pd|]. intros i Hi. change (I (fun x y => ph i x y * Q d u x y) = I (fun x y => ph i x y * fd d x y)). rewrite Q_mom' by auto. apply C_field; auto. intros c _. apply gamma_field.
Qed.

Lemma F_field d e x y : (d < 2)%nat -> (e < 2)%nat -> F d e u x y = if (e =? 0)%nat then fdx d x y else fdy d x y.
Proof.
  intros Hd He. destruct (poly2_derivatives 0 p GP (k - 1) (fd d) (fdx d) (fdy d)) as (axx & axy & ayy & A & B); [replace (k - 1 + 1)%nat with k by lia; apply Pd|].
  assert (G : forall g gx gy, poly2 (k - 1) g gx gy -> I (fun x y => g x y * F d e u x y) = I (fun x y => g x y * (if (e =? 0)%nat then fdx d x y else fdy d x y))).
  { intros g gx gy Pg. rewrite (F_ok' d e u ft g gx gy Hd He ft_traces Pg), (around_field d e g gx gy Hd He Pg).
    replace (I (fun x y => (if (e =? 0)%nat then gx x y else gy x y) * Sp d u x y)) with (I (fun x y => (if (e =? 0)%nat then gx x y else gy x y) * fd d x y)); [ring|]. symmetry.
    destruct (poly2_derivatives 0 p GP (k - 2) g gx gy) as (bxx & bxy & byy & A' & B'); [replace (k - 2 + 1)%nat with (k - 1)%nat by lia; auto|].
    destruct (e =? 0)%nat; eapply (moments (k - 2)); eauto; intros; apply S_field; auto. }
  revert x y. destruct (Nat.eqb_spec e 0); (eapply (same (k - 1)); [lia|apply cpoly'|eassumption|]); intros i Hi; apply (G _ _ _ (phi_k cx cy h Hh _ _ Hi)).
Qed.
End Field.
End Exact.
