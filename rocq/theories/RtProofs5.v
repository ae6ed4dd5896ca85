(** The properties of the Raviart-Thomas triangle. *)
From Coq Require Import List Arith Bool Lia ZArith Reals Lra.
From Verif Require Import Base RSum MatrixModel MonomialsModel MonomialsSpec MonomialsProofs MonomialsProofs2 MonomialsProofs3 MonomialsProofs4 MonomialsProps
  LagrangeSpec LagrangeProofs GBasisProofs VemQuadModel VemQuadSpec VemQuadProofs VemQuadProofs2 GreenSpec GreenProofs PolyProofs VemModel VemSpec VemProofs VemProofs2
  RtModel RtSpec RtProofs RtProofs2 RtProofs3 RtProofs4.
Import ListNotations.
Local Open Scope R_scope.

Section Element.
Variables (gt gs : nat -> QuadratureData) (junk : nat -> nat -> R) (lu : Solver) (k : nat) (ref : RT_Reference).
Hypothesis EL : rt_element gt gs junk lu k ref.
Notation seg := (gs (2 * k + 1)%nat).
Notation tri := (gt (2 * (k + 1))%nat).
Notation n := (k + 1)%nat.
Notation N := (3 * n + 2 * low k)%nat.
Notation VX := (vx (1 / 3) (1 / 3) 1 k).
Notation VY := (vy (1 / 3) (1 / 3) 1 k).
Notation VD := (vdiv (1 / 3) (1 / 3) 1 k).
Let RR := re_rules _ _ _ _ _ _ EL.
Let B := proj1 (element_facts gt gs k RR junk lu ref EL).
Let DD := proj2 (element_facts gt gs k RR junk lu ref EL).

Lemma fields_unique C v v' : m_cols C = N -> velocity_fields ref C v -> velocity_fields ref C v' ->
  forall j x y, (j < N)%nat -> fst (v j) x y = fst (v' j) x y /\ snd (v j) x y = snd (v' j) x y.
Proof using junk.
  intros HC H H' j x y Hj. set (P := {| m_rows := 3; m_cols := 1; m_at := fun d _ => match d with 0%nat => x | _ => y end |}).
  destruct (H junk P eq_refl) as (V0 & V1 & E & _ & _ & _ & _ & A). destruct (H' junk P eq_refl) as (V0' & V1' & E' & _ & _ & _ & _ & A').
  rewrite E in E'. injection E' as <- <-. destruct (A 0%nat j ltac:(cbn; lia) ltac:(lia)) as (A0 & A1). destruct (A' 0%nat j ltac:(cbn; lia) ltac:(lia)) as (A0' & A1'). cbn in *. split; congruence.
Qed.

Lemma dof_linear dirs r u (w : nat -> field) m : (r < N)%nat -> rt_dof seg tri k ref dirs r (lincomb m u w) = rsum m (fun j => u j * rt_dof seg tri k ref dirs r (w j)).
Proof using.
  intros Hr. unfold rt_dof. cbv zeta. destruct (r <? 3 * n)%nat; [|destruct (r <? 3 * n + below k)%nat].
  - unfold edge_dof, apply_rule. rewrite (rsum_ext m _ (fun j => rsum (v_size (q_Weights seg)) (fun q => u j * (v_at (q_Weights seg) q * ((m_at (q_Points seg) 0 q - 1 / 2) ^ (r mod n) * normal_part (nth (r / n) dirs true) (r / n) (w j) (m_at (q_Points seg) 0 q)))))) by (intros; symmetry; apply rsum_scal).
    rewrite rsum_swap. apply rsum_ext. intros q Hq. cbv zeta. unfold normal_part, lincomb. cbn [fst snd].
    set (X := edge_x _ _ _). set (Y := edge_y _ _ _). set (o := orient _). set (a := out_x _). set (b := out_y _). set (z := (_ ^ _)). set (wq := v_at _ q).
    transitivity (rsum m (fun j => (wq * z * o * a) * (u j * fst (w j) X Y)) + rsum m (fun j => (wq * z * o * b) * (u j * snd (w j) X Y))).
    + rewrite !rsum_scal. ring.
    + rewrite <- rsum_plus. apply rsum_ext. intros; ring.
  - unfold inner_dof, apply_rule, lincomb. cbn [fst snd]. rewrite (rsum_ext m _ (fun j => rsum (v_size (q_Weights tri)) (fun q => u j * (v_at (q_Weights tri) q * (rt_monomial ref (r - 3 * n) (m_at (q_Points tri) 0 q) (m_at (q_Points tri) 1 q) * fst (w j) (m_at (q_Points tri) 0 q) (m_at (q_Points tri) 1 q)))))) by (intros; symmetry; apply rsum_scal).
    rewrite rsum_swap. apply rsum_ext. intros q Hq. cbv zeta. rewrite <- !rsum_scal. apply rsum_ext. intros; ring.
  - unfold inner_dof, apply_rule, lincomb. cbn [fst snd]. rewrite (rsum_ext m _ (fun j => rsum (v_size (q_Weights tri)) (fun q => u j * (v_at (q_Weights tri) q * (rt_monomial ref (r - 3 * n - below k) (m_at (q_Points tri) 0 q) (m_at (q_Points tri) 1 q) * snd (w j) (m_at (q_Points tri) 0 q) (m_at (q_Points tri) 1 q)))))) by (intros; symmetry; apply rsum_scal).
    rewrite rsum_swap. apply rsum_ext. intros q Hq. cbv zeta. rewrite <- !rsum_scal. apply rsum_ext. intros; ring.
Qed.

Lemma dof_ext dirs r v v' : (forall x y, fst v x y = fst v' x y /\ snd v x y = snd v' x y) -> rt_dof seg tri k ref dirs r v = rt_dof seg tri k ref dirs r v'.
Proof using.
  intros H. unfold rt_dof. cbv zeta. destruct (r <? 3 * n)%nat; [|destruct (r <? 3 * n + below k)%nat]; unfold edge_dof, inner_dof; apply apply_ext; intros q Hq; cbv zeta; unfold normal_part.
  - destruct (H (edge_x (nth (r / n) dirs true) (r / n) (m_at (q_Points seg) 0 q)) (edge_y (nth (r / n) dirs true) (r / n) (m_at (q_Points seg) 0 q))) as (-> & ->). reflexivity.
  - destruct (H (m_at (q_Points tri) 0 q) (m_at (q_Points tri) 1 q)) as (-> & _). reflexivity.
  - destruct (H (m_at (q_Points tri) 0 q) (m_at (q_Points tri) 1 q)) as (_ & ->). reflexivity.
Qed.

(** coefficients of a combination of fields *)
Lemma VX_lin m (u : nat -> R) (c : nat -> nat -> R) x y : VX (fun l => rsum m (fun j => u j * c j l)) x y = rsum m (fun j => u j * VX (c j) x y) /\
  VY (fun l => rsum m (fun j => u j * c j l)) x y = rsum m (fun j => u j * VY (c j) x y).
Proof using.
  unfold vx, vy, vh. set (X := (x - 1 / 3) / 1). set (Y := (y - 1 / 3) / 1).
  assert (A : forall s (g : nat -> R) o, rsum s (fun l => rsum m (fun j => u j * c j (o + l)%nat) * g l) = rsum m (fun j => u j * rsum s (fun l => c j (o + l)%nat * g l))).
  { intros s g o. rewrite (rsum_ext m _ (fun j => rsum s (fun l => u j * (c j (o + l)%nat * g l)))) by (intros; symmetry; apply rsum_scal). rewrite rsum_swap.
    apply rsum_ext. intros l Hl. rewrite <- rsum_scal_r. apply rsum_ext. intros; ring. }
  split.
  - assert (A0 := A (num2 k) (fun l => PolyProofs.phi (1 / 3) (1 / 3) 1 l x y) 0%nat). cbn [Nat.add] in A0. rewrite A0, (A n (fun l => PolyProofs.phi (1 / 3) (1 / 3) 1 (low k + l) x y) (2 * num2 k)%nat).
    rewrite <- rsum_scal, <- rsum_plus. apply rsum_ext. intros j Hj. cbn [Nat.add]. ring.
  - rewrite (A (num2 k) (fun l => PolyProofs.phi (1 / 3) (1 / 3) 1 l x y) (num2 k)), (A n (fun l => PolyProofs.phi (1 / 3) (1 / 3) 1 (low k + l) x y) (2 * num2 k)%nat).
    rewrite <- rsum_scal, <- rsum_plus. apply rsum_ext. intros j Hj. ring.
Qed.
Lemma VX_zero c x y : (forall j, (j < N)%nat -> c j = 0) -> VX c x y = 0 /\ VY c x y = 0.
Proof using.
  intros H. rewrite (N_val k) in H. unfold vx, vy, vh. rewrite !rsum_0; [split; ring|..]; intros i Hi; rewrite H by lia; ring.
Qed.

Lemma dofs_vanish dirs v : rt_field k v -> (forall r, (r < N)%nat -> rt_dof seg tri k ref dirs r v = 0) -> forall x y, fst v x y = 0 /\ snd v x y = 0.
Proof using RR B.
  intros F Z. destruct (space_fld k v F) as (c & C). intros x y. destruct (C x y) as (-> & ->). apply VX_zero. apply (rows_vanish gt gs k RR dirs). intros r Hr.
  specialize (Z r Hr). rewrite (dof_ext dirs r v (VX c, VY c) C), (dof_row gt gs k ref dirs r c B Hr) in Z.
  apply (f_equal (Rmult (signed k dirs r))) in Z. rewrite Rmult_0_r, <- Rmult_assoc, signed_square in Z. lra.
Qed.

Lemma rt_field_lin m u w : (forall j, (j < m)%nat -> rt_field k (w j)) -> rt_field k (lincomb m u w).
Proof using.
  intros H.
  assert (X : forall m', (m' <= m)%nat -> exists c, forall x y, fst (lincomb m' u w) x y = VX c x y /\ snd (lincomb m' u w) x y = VY c x y).
  { induction m' as [|m' IH]; intros Hm.
    - exists (fun _ => 0). intros x y. destruct (VX_zero (fun _ => 0) x y ltac:(auto)) as (-> & ->). split; reflexivity.
    - destruct IH as (c & C); [lia|]. destruct (space_fld k (w m') (H m' ltac:(lia))) as (d & D).
      exists (fun l => rsum 2 (fun j => (match j with 0%nat => 1 | _ => u m' end) * (match j with 0%nat => c | _ => d end) l)). intros x y.
      destruct (VX_lin 2 (fun j => match j with 0%nat => 1 | _ => u m' end) (fun j => match j with 0%nat => c | _ => d end) x y) as (-> & ->).
      destruct (C x y) as (C1 & C2). destruct (D x y) as (D1 & D2). unfold lincomb in C1, C2 |- *. cbn [fst snd rsum] in C1, C2 |- *. rewrite C1, C2, D1, D2. split; ring. }
  destruct (X m (le_n m)) as (c & C). destruct (fld_space k c) as (p1 & p1x & p1y & p2 & p2x & p2y & q & qx & qy & A1 & A2 & A3 & A4).
  exists p1, p1x, p1y, p2, p2x, p2y, q, qx, qy. repeat (split; auto); destruct (C x y) as (C1 & C2); destruct (A4 x y) as (D1 & D2); cbn [fst snd] in D1, D2; congruence.
Qed.

Lemma C79_facts dirs : length dirs = 3%nat -> exists b v, map_at (rt_basis_functions ref) dirs = Ok b /\
  m_rows (rb_MonomialsCoefficients b) = N /\ m_cols (rb_MonomialsCoefficients b) = N /\ velocity_fields ref (rb_MonomialsCoefficients b) v /\
  (forall j, rt_field k (v j)) /\ forall r j, (r < N)%nat -> (j < N)%nat -> rt_dof seg tri k ref dirs r (v j) = delta r j.
Proof using RR B DD EL.
  intros Hd. destruct (DD dirs Hd) as (BQ & b & D). exists b, (fld k (rb_MonomialsCoefficients b)).
  split; [apply D|]. split; [apply D|]. split; [apply D|]. split; [apply (values_of gt gs k ref _ B); apply D|]. split; [intros; apply fld_space|].
  intros r j Hr Hj. apply (dual gt gs k ref junk dirs BQ b r j B D Hr Hj).
Qed.

Lemma reproduces dirs b v w : length dirs = 3%nat -> map_at (rt_basis_functions ref) dirs = Ok b -> velocity_fields ref (rb_MonomialsCoefficients b) v -> rt_field k w ->
  forall x y, fst w x y = fst (lincomb N (fun j => rt_dof seg tri k ref dirs j w) v) x y /\ snd w x y = snd (lincomb N (fun j => rt_dof seg tri k ref dirs j w) v) x y.
Proof using RR B DD EL.
  intros Hd Eb Hv Hw. destruct (C79_facts dirs Hd) as (b' & v' & Eb' & CR & CC & Hv' & Hf & Hdel). rewrite Eb in Eb'. injection Eb' as <-.
  assert (U := fields_unique _ v v' CC Hv Hv').
  set (u := fun j => rt_dof seg tri k ref dirs j w).
  set (z := lincomb 2 (fun j => match j with 0%nat => 1 | _ => -1 end) (fun j => match j with 0%nat => w | _ => lincomb N u v' end)).
  assert (Z : forall x y, fst z x y = 0 /\ snd z x y = 0).
  { apply (dofs_vanish dirs).
    - apply rt_field_lin. intros [|j] Hj; auto. apply rt_field_lin. auto.
    - intros r Hr. unfold z. rewrite dof_linear by auto. cbn [rsum]. rewrite dof_linear by auto. fold (u r).
      rewrite (rsum_ext N _ (fun j => if (j =? r)%nat then u j else 0)).
      2:{ intros j Hj. rewrite Hdel by auto. unfold delta. rewrite Nat.eqb_sym. destruct (j =? r)%nat; ring. }
      rewrite (rsum_indicator N r u Hr). ring. }
  intros x y. destruct (Z x y) as (Z1 & Z2). unfold z, lincomb in Z1, Z2 |- *. cbn [fst snd rsum] in Z1, Z2 |- *.
  rewrite (rsum_ext N (fun j => u j * fst (v j) x y) (fun j => u j * fst (v' j) x y)) by (intros j Hj; now rewrite (proj1 (U j x y Hj))).
  rewrite (rsum_ext N (fun j => u j * snd (v j) x y) (fun j => u j * snd (v' j) x y)) by (intros j Hj; now rewrite (proj2 (U j x y Hj))).
  split; lra.
Qed.

(** ** Local space *)
Section Local.
Variable p : MCC_Polygon.
Hypothesis P : triangle_ok p.
Notation T := (mp_Vertices p).
Definition inv_x (x y : R) : R := (mapTriangle_B T 1 1 * (x - m_at T 0 0) - mapTriangle_B T 0 1 * (y - m_at T 1 0)) / mapTriangle_det T.
Definition inv_y (x y : R) : R := (- mapTriangle_B T 1 0 * (x - m_at T 0 0) + mapTriangle_B T 0 0 * (y - m_at T 1 0)) / mapTriangle_det T.
Definition push (v : field) : field :=
  (fun x y => (mapTriangle_B T 0 0 * fst v (inv_x x y) (inv_y x y) + mapTriangle_B T 0 1 * snd v (inv_x x y) (inv_y x y)) / mapTriangle_det T,
   fun x y => (mapTriangle_B T 1 0 * fst v (inv_x x y) (inv_y x y) + mapTriangle_B T 1 1 * snd v (inv_x x y) (inv_y x y)) / mapTriangle_det T).

Lemma det_area : mapTriangle_det T = 2 * signed_area T.
Proof using. unfold mapTriangle_det, signed_area, cross. cbn. field. Qed.
Lemma det_nz : mapTriangle_det T <> 0.
Proof using P. rewrite det_area. apply Rmult_integral_contrapositive. split; [lra|apply P]. Qed.
Lemma inv_in x y : inv_x (px p x y) (py p x y) = x /\ inv_y (px p x y) (py p x y) = y.
Proof using P.
  pose proof det_nz as D. unfold inv_x, inv_y, px, py, in_triangle, mapTriangle_det in *. cbn [mapTriangle_B] in *. split; field; auto.
Qed.
Lemma FInv_ok points : m_rows points = 3%nat -> exists Q, mapTriangle_FInv T points = Ok Q /\ m_rows Q = 3%nat /\ m_cols Q = m_cols points /\
  forall q, m_at Q 0 q = inv_x (m_at points 0 q) (m_at points 1 q) /\ m_at Q 1 q = inv_y (m_at points 0 q) (m_at points 1 q).
Proof using P.
  intros H. unfold mapTriangle_FInv. rewrite (to_rows _ P), (to_cols _ P), H. cbn [Nat.eqb andb]. eexists. split; [reflexivity|]. split; [reflexivity|]. split; [reflexivity|].
  intros q. cbn [m_at rsum mapTriangle_BInv]. unfold inv_x, inv_y. split; field; apply det_nz.
Qed.

Lemma push_divergence c : is_divergence (push (VX c, VY c)) (fun x y => VD c (inv_x x y) (inv_y x y) / mapTriangle_det T).
Proof using P.
  pose proof det_nz as D. intros x y.
  set (a := (- mapTriangle_B T 1 1 * m_at T 0 0 + mapTriangle_B T 0 1 * m_at T 1 0) / mapTriangle_det T). set (b := mapTriangle_B T 1 1 / mapTriangle_det T). set (b' := - mapTriangle_B T 0 1 / mapTriangle_det T).
  set (e := (mapTriangle_B T 1 0 * m_at T 0 0 - mapTriangle_B T 0 0 * m_at T 1 0) / mapTriangle_det T). set (f := - mapTriangle_B T 1 0 / mapTriangle_det T). set (f' := mapTriangle_B T 0 0 / mapTriangle_det T).
  assert (IX : forall x y, inv_x x y = a + b * x + b' * y) by (intros; unfold inv_x, a, b, b'; field; auto).
  assert (IY : forall x y, inv_y x y = e + f * x + f' * y) by (intros; unfold inv_y, e, f, f'; field; auto).
  assert (P1 := poly2_comp _ _ _ _ a b b' e f f' (vx_poly (1 / 3) (1 / 3) 1 k R1_neq_R0 c)). assert (P2 := poly2_comp _ _ _ _ a b b' e f f' (vy_poly (1 / 3) (1 / 3) 1 k R1_neq_R0 c)). cbv zeta in P1, P2.
  assert (Q1 := poly2_add _ _ _ _ _ _ _ (poly2_scal _ (mapTriangle_B T 0 0 / mapTriangle_det T) _ _ _ P1) (poly2_scal _ (mapTriangle_B T 0 1 / mapTriangle_det T) _ _ _ P2)).
  assert (Q2 := poly2_add _ _ _ _ _ _ _ (poly2_scal _ (mapTriangle_B T 1 0 / mapTriangle_det T) _ _ _ P1) (poly2_scal _ (mapTriangle_B T 1 1 / mapTriangle_det T) _ _ _ P2)).
  destruct (poly2_partials _ _ _ _ x y Q1) as (D1 & _). destruct (poly2_partials _ _ _ _ x y Q2) as (_ & D2). clear P1 P2 Q1 Q2.
  eexists _, _. split; [|split].
  - eapply derivable_pt_lim_ext; [|exact D1]. intros t. cbn [push fst snd]. rewrite IX, IY. field. auto.
  - eapply derivable_pt_lim_ext; [|exact D2]. intros t. cbn [push fst snd]. rewrite IX, IY. field. auto.
  - cbv beta. rewrite <- (vdiv_eq (1 / 3) (1 / 3) 1 k R1_neq_R0). rewrite !IX, !IY. set (X := a + b * x + b' * y). set (Y := e + f * x + f' * y).
    unfold b, b', f, f'. unfold mapTriangle_det in *. field. auto.
Qed.

Lemma push_flux v e t : (e < 3)%nat -> flux p e (push v) t = normal_part (dir_of p e) e v t.
Proof using P.
  intros He. unfold flux.
  assert (EX : edge_at p e t 0 = px p (edge_x (dir_of p e) e t) (edge_y (dir_of p e) e t)).
  { unfold edge_at, edge_from, edge_to, px, in_triangle, edge_x, edge_y. destruct (dir_of p e), e as [|[|[|]]]; try lia; cbn; ring. }
  assert (EY : edge_at p e t 1 = py p (edge_x (dir_of p e) e t) (edge_y (dir_of p e) e t)).
  { unfold edge_at, edge_from, edge_to, py, in_triangle, edge_x, edge_y. destruct (dir_of p e), e as [|[|[|]]]; try lia; cbn; ring. }
  rewrite EX, EY. cbn [push fst snd]. destruct (inv_in (edge_x (dir_of p e) e t) (edge_y (dir_of p e) e t)) as (-> & ->).
  unfold normal_part. set (a := fst v _ _). set (b := snd v _ _). unfold edge_to, edge_from. pose proof det_nz as D. unfold mapTriangle_det in *. cbn [mapTriangle_B] in *.
  destruct (dir_of p e), e as [|[|[|]]]; try lia; cbn [from3 to3 next3 orient out_x out_y]; field; auto.
Qed.

Lemma local_ok : exists l, RT_CreateLocalSpace ref p = Ok l /\ rl_Vertices l = T /\ rl_EdgesDirection l = mp_EdgesDirection p /\ rl_Order l = k /\
  rl_NumVelocityBasisFunctions l = N /\ rl_NumPressureBasisFunctions l = num2 k /\
  m_rows (q_Points (rl_InternalQuadrature l)) = 3%nat /\ m_cols (q_Points (rl_InternalQuadrature l)) = m_cols (q_Points tri) /\ v_size (q_Weights (rl_InternalQuadrature l)) = m_cols (q_Points tri) /\
  (forall q, (q < m_cols (q_Points tri))%nat ->
     m_at (q_Points (rl_InternalQuadrature l)) 0 q = px p (m_at (q_Points tri) 0 q) (m_at (q_Points tri) 1 q) /\
     m_at (q_Points (rl_InternalQuadrature l)) 1 q = py p (m_at (q_Points tri) 0 q) (m_at (q_Points tri) 1 q) /\
     v_at (q_Weights (rl_InternalQuadrature l)) q = v_at (q_Weights tri) q * (2 * area T)) /\
  length (rl_BoundaryQuadrature l) = 3%nat /\
  (forall e, (e < 3)%nat -> exists Q, nth_error (rl_BoundaryQuadrature l) e = Some Q /\ m_rows (q_Points Q) = 3%nat /\ m_cols (q_Points Q) = n /\ v_size (q_Weights Q) = n /\
     forall q, (q < n)%nat -> m_at (q_Points Q) 0 q = edge_at p e (m_at (q_Points seg) 0 q) 0 /\ m_at (q_Points Q) 1 q = edge_at p e (m_at (q_Points seg) 0 q) 1 /\
       v_at (q_Weights Q) q = Rabs (v_at (mp_EdgesLength p) e) * v_at (q_Weights seg) q).
Proof using P RR B DD EL.
  unfold RT_CreateLocalSpace. rewrite (to_cols _ P). cbn [Nat.eqb negb].
  assert (ED : exists d0 d1 d2, mp_EdgesDirection p = [d0; d1; d2]).
  { pose proof (to_dirs _ P) as L. destruct (mp_EdgesDirection p) as [|a [|b [|c [|]]]]; try discriminate. eauto. }
  destruct ED as (d0 & d1 & d2 & ED). rewrite ED. cbn [idx_ nth_error bind]. rewrite (rx_Quadrature _ _ _ _ B). cbn [Compute_MCC_2D vq_ReferenceTriangleQuadrature vq_ReferenceSegmentQuadrature].
  destruct (rr_triangle _ _ _ RR) as (TR & TW). destruct (rr_segment _ _ _ RR) as (SR & SW). pose proof (rr_segment_points _ _ _ RR) as SP.
  unfold rt_InternalQuadrature, mapTriangle_F. rewrite (to_rows _ P), (to_cols _ P), TR. cbn [Nat.eqb andb bind]. rewrite vcwise_ok by (cbn; auto). cbn [bind v_size v_at mapTriangle_DetJ].
  destruct (DD [d0; d1; d2] eq_refl) as (BQ & b & D). destruct (rd_edges _ _ _ _ _ _ _ _ D) as (x & y & EF).
  unfold rt_BoundaryQuadrature_local. rewrite ED. cbn [length].
  assert (Le : forall e, (e < 3)%nat -> dir_of p e = nth e [d0; d1; d2] true) by (intros; unfold dir_of; now rewrite ED).
  destruct (@for_loop_total (list QuadratureData) (fun e acc => length acc = e /\ forall e', (e' < e)%nat -> exists Q, nth_error acc e' = Some Q /\ m_rows (q_Points Q) = 3%nat /\ m_cols (q_Points Q) = n /\ v_size (q_Weights Q) = n /\
     forall q, (q < n)%nat -> m_at (q_Points Q) 0 q = edge_at p e' (m_at (q_Points seg) 0 q) 0 /\ m_at (q_Points Q) 1 q = edge_at p e' (m_at (q_Points seg) 0 q) 1 /\
       v_at (q_Weights Q) q = Rabs (v_at (mp_EdgesLength p) e') * v_at (q_Weights seg) q)
    (fun e acc => len <- vec_get (mp_EdgesLength p) e ;; BQ <- map_at (rt_BoundaryQuadrature ref) [d0; d1; d2] ;;
      P <- middleCols (q_Points (eq_Quadrature BQ)) (e * rt_v_NumDofs1D ref) (rt_v_NumDofs1D ref) ;; F <- mapTriangle_F T P ;;
      Ok (acc ++ [{| q_Points := F; q_Weights := vscal (Rabs len) (q_Weights seg) |}])) 3 []) as (acc & EA & LA & IA).
  - split; auto. intros; lia.
  - intros e acc He (LA & IA). unfold vec_get. rewrite (to_lengths _ P), ltb_true by auto. cbn [bind]. rewrite (rd_BQ _ _ _ _ _ _ _ _ D). cbn [bind]. rewrite (rx_n1 _ _ _ _ B).
    unfold middleCols. rewrite block_ok by (rewrite ?(ef_cols _ _ _ _ _ _ EF); nia). cbn [bind]. unfold mapTriangle_F. cbn [m_rows]. rewrite (to_rows _ P), (to_cols _ P), (ef_rows _ _ _ _ _ _ EF). cbn [Nat.eqb andb bind].
    eexists. split; [reflexivity|]. split; [rewrite app_length; cbn; lia|]. intros e' He'. destruct (Nat.eq_dec e' e) as [->|Hne].
    + eexists. split; [rewrite nth_error_app2 by lia; rewrite LA, Nat.sub_diag; reflexivity|]. cbn [q_Points q_Weights m_rows m_cols v_size vscal v_at m_at]. split; auto. split; auto. split; [lia|].
      intros q Hq. destruct (ef_points _ _ _ _ _ _ EF e q He Hq) as (E0 & E1). replace (e * n + q)%nat with (n * e + q)%nat by lia. cbn [rsum Nat.add]. rewrite E0, E1. rewrite <- (Le e He).
      unfold edge_at, edge_from, edge_to, edge_x, edge_y. destruct (dir_of p e), e as [|[|[|]]]; try lia; cbn; (split; [ring|]; split; [ring|]; ring).
    + destruct (IA e' ltac:(lia)) as (Q & EQ & H). exists Q. split; auto. rewrite nth_error_app1 by lia. auto.
  - change (v_at (mp_EdgesLength p)) with (v_at (mp_EdgesLength p)). cbv zeta in EA |- *.
    match goal with |- context [for_loop 3 ?f []] => change (for_loop 3 f []) with (for_loop 3 (fun e acc => len <- vec_get (mp_EdgesLength p) e ;; BQ <- map_at (rt_BoundaryQuadrature ref) [d0; d1; d2] ;;
      P <- middleCols (q_Points (eq_Quadrature BQ)) (e * rt_v_NumDofs1D ref) (rt_v_NumDofs1D ref) ;; F <- mapTriangle_F T P ;;
      Ok (acc ++ [{| q_Points := F; q_Weights := vscal (Rabs len) (q_Weights seg) |}])) []) end.
    rewrite EA. cbn [bind]. eexists. split; [reflexivity|]. cbn [rl_Vertices rl_EdgesDirection rl_Order rl_NumVelocityBasisFunctions rl_NumPressureBasisFunctions rl_InternalQuadrature rl_BoundaryQuadrature q_Points q_Weights m_rows m_cols v_size v_at m_at].
    split; auto. split; auto. split; [apply B|]. split; [apply B|]. split; [apply B|]. split; auto. split; auto. split; auto. split; auto.
    intros q Hq. unfold px, py, in_triangle. cbn [rsum mapTriangle_B]. split; [ring|]. split; [ring|]. f_equal. rewrite <- tri_det_area. reflexivity.
Qed.

Lemma local_values l b v : RT_CreateLocalSpace ref p = Ok l -> map_at (rt_basis_functions ref) (mp_EdgesDirection p) = Ok b -> velocity_fields ref (rb_MonomialsCoefficients b) v ->
  velocity_fields_at ref l (fun j => push (v j)).
Proof using P RR B DD EL.
  intros El Eb Hv. destruct local_ok as (l' & El' & E1 & E2 & _ & E4 & _). rewrite El in El'. injection El' as <-.
  destruct (DD (mp_EdgesDirection p) (to_dirs _ P)) as (BQ & b' & D). assert (b' = b) by (pose proof (rd_b _ _ _ _ _ _ _ _ D) as X; rewrite Eb in X; congruence). subst b'.
  intros junk' points Hp. unfold RT_VelocityValues_at. rewrite E1. destruct (FInv_ok points Hp) as (Q & EQ & QR & QC & QA). rewrite EQ. cbn [bind]. rewrite E2, Eb. cbn [bind].
  destruct (Hv junk' Q QR) as (V0 & V1 & EV & R0' & C0' & R1' & C1' & VA). rewrite EV. cbn [bind]. unfold MapVelocityValues. cbn [idx_ nth_error bind]. rewrite E1.
  rewrite !madd_ok by (cbn [mscal m_rows m_cols]; congruence). cbn [bind]. eexists _, _. split; [reflexivity|]. cbn [mscal m_rows m_cols m_at].
  pose proof (rd_cols _ _ _ _ _ _ _ _ D) as CC. do 4 (split; [congruence|]). rewrite E4. intros q j Hq Hj. destruct (VA q j ltac:(lia) ltac:(lia)) as (A0 & A1). destruct (QA q) as (Q0 & Q1). rewrite A0, A1, Q0, Q1. cbn [push fst snd]. split; field; apply det_nz.
Qed.
Lemma local_divergence l b d : RT_CreateLocalSpace ref p = Ok l -> map_at (rt_basis_functions ref) (mp_EdgesDirection p) = Ok b -> divergence_fields ref (rb_MonomialsCoefficients b) d ->
  divergence_fields_at ref l (fun j x y => d j (inv_x x y) (inv_y x y) / mapTriangle_det T).
Proof using P RR B DD EL.
  intros El Eb Hv. destruct local_ok as (l' & El' & E1 & E2 & _ & E4 & _). rewrite El in El'. injection El' as <-.
  destruct (DD (mp_EdgesDirection p) (to_dirs _ P)) as (BQ & b' & D). assert (b' = b) by (pose proof (rd_b _ _ _ _ _ _ _ _ D) as X; rewrite Eb in X; congruence). subst b'.
  intros junk' points Hp. unfold RT_VelocityDivergenceValues_at. rewrite E1. destruct (FInv_ok points Hp) as (Q & EQ & QR & QC & QA). rewrite EQ. cbn [bind]. rewrite E2, Eb. cbn [bind].
  destruct (Hv junk' Q QR) as (V & EV & R0' & C0' & VA). rewrite EV. cbn [bind]. unfold MapVelocityDivergenceValues. rewrite E1.
  eexists. split; [reflexivity|]. cbn [mscal m_rows m_cols m_at].
  pose proof (rd_cols _ _ _ _ _ _ _ _ D) as CC. do 2 (split; [congruence|]). rewrite E4. intros q j Hq Hj. rewrite VA by lia. destruct (QA q) as (-> & ->). field. apply det_nz.
Qed.
End Local.
End Element.
