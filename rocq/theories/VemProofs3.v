(** Consistency of the virtual element: the projectors reproduce polynomials. *)
From Coq Require Import List Arith Bool Lia ZArith Reals Lra.
From Verif Require Import Base RSum MatrixModel MonomialsModel MonomialsSpec LagrangeModel VemQuadModel VemQuadSpec VemQuadProofs VemQuadProofs2 GreenSpec GreenProofs PolyProofs VemModel VemSpec VemProofs VemProofs2.
Import ListNotations.
Local Open Scope R_scope.

Lemma apply_rsum w n (f : nat -> nat -> R) : apply_rule w (fun q => rsum n (fun i => f i q)) = rsum n (fun i => apply_rule w (f i)).
Proof. unfold apply_rule. rewrite rsum_swap. apply rsum_ext. intros q _. now rewrite rsum_scal. Qed.

Lemma constant f f' : (forall x, derivable_pt_lim f x (f' x)) -> (forall x, f' x = 0) -> forall x y, f x = f y.
Proof.
  intros D Z. assert (A : forall a b, a <= b -> f a = f b).
  { intros a b Hab. apply Rle_antisym.
    - apply (nondecreasing f f'); auto. intros; rewrite Z; lra.
    - assert (- f a <= - f b); [|lra]. apply (nondecreasing (fun x => - f x) (fun x => - f' x)); auto; [|intros; rewrite Z; lra].
      intros x. apply derivable_pt_lim_opp. apply D. }
  intros x y. destruct (Rle_or_lt x y); [auto|symmetry; apply A; lra].
Qed.

Lemma cancel A n (x y : nat -> R) : nonsingular A -> m_cols A = n -> (forall i, (i < m_rows A)%nat -> rsum n (fun j => m_at A i j * x j) = rsum n (fun j => m_at A i j * y j)) -> forall j, (j < n)%nat -> x j = y j.
Proof.
  intros (_ & NS) <- H j Hj. assert (x j - y j = 0); [|lra]. apply (NS (fun j => x j - y j)); auto. intros i Hi.
  rewrite (rsum_ext _ _ (fun j => m_at A i j * x j - m_at A i j * y j)) by (intros; ring). rewrite rsum_minus, H by auto. ring.
Qed.
Lemma pd_nonsingular A : positive_definite A -> nonsingular A.
Proof.
  intros (S & _ & P). split; auto. intros x Z j Hj. destruct (Req_dec (x j) 0) as [|Hx]; auto. exfalso. pose proof (P x (ex_intro _ j (conj Hj Hx))) as Q.
  rewrite (rsum_0 (m_rows A)) in Q; [lra|]. intros i Hi. rewrite (rsum_ext _ _ (fun j => x i * (m_at A i j * x j))) by (intros; ring). rewrite rsum_scal, Z by auto. ring.
Qed.
Lemma rsum_delta n j (f : nat -> R) : (j < n)%nat -> rsum n (fun i => f i * delta i j) = f j.
Proof.
  intros H. rewrite (rsum_single n _ j H); unfold delta; [rewrite Nat.eqb_refl; ring|]. intros i Hi Hn. destruct (Nat.eqb_spec i j); [lia|ring].
Qed.
Lemma assoc A X D n m i j : rsum n (fun c => m_at A i c * rsum m (fun q => m_at X c q * m_at D q j)) = rsum m (fun q => rsum n (fun c => m_at A i c * m_at X c q) * m_at D q j).
Proof.
  rewrite (rsum_ext n _ (fun c => rsum m (fun q => m_at A i c * m_at X c q * m_at D q j))) by (intros; rewrite <- rsum_scal; apply rsum_ext; intros; ring).
  rewrite rsum_swap. apply rsum_ext. intros q _. now rewrite <- rsum_scal_r.
Qed.

Section Space.
Variables (gt lob : nat -> QuadratureData) (k : nat) (ref : VEM_2D_Reference) (p : Polygon) (lu llt : Solver) (l : VEM_2D_Local).
Hypothesis Hk : (1 <= k)%nat.
Hypothesis GR : good_rules gt lob k.
Hypothesis GP : good_polygon p.
Hypothesis LF : local_facts gt k p lu llt l.
Let cx := pg_Centroid p 0%nat.
Let cy := pg_Centroid p 1%nat.
Let h := pg_Diameter p.
Let Nk := num2 k.
Let Nm := num2 (k - 1).
Let ni := nint k.
Let nv := m_cols (pg_Vertices p).
Let nb := (nv + (k - 1) * nv)%nat.
Let N := (nb + ni)%nat.
Let I := fI l.
Let W := fW l.
Let n0 := fN l 0.
Let n1 := fN l 1.
Notation ph := (phi cx cy h).
Notation phx := (phix cx cy h).
Notation phy := (phiy cx cy h).

Let Hh : h <> 0. Proof. apply gp_diameter; auto. Qed.
Let Hm : pg_Measure p <> 0. Proof. apply gp_measure; auto. Qed.

(** the functionals are linear *)
Lemma I_ext f g : (forall x y, f x y = g x y) -> I f = I g. Proof. intros H. apply apply_ext. intros; apply H. Qed.
Lemma I_plus f g : I (fun x y => f x y + g x y) = I f + I g. Proof. apply apply_plus. Qed.
Lemma I_scal c f : I (fun x y => c * f x y) = c * I f. Proof. apply apply_scal. Qed.
Lemma I_rsum n (f : nat -> R -> R -> R) : I (fun x y => rsum n (fun i => f i x y)) = rsum n (fun i => I (f i)).
Proof. apply (apply_rsum _ n (fun i q => f i _ _)). Qed.
Lemma W_ext f g : (forall x y, f x y = g x y) -> W f = W g. Proof. intros H. apply apply_ext. intros; apply H. Qed.
Lemma W_scal c f : W (fun x y => c * f x y) = c * W f. Proof. apply apply_scal. Qed.
Lemma W_rsum n (f : nat -> R -> R -> R) : W (fun x y => rsum n (fun i => f i x y)) = rsum n (fun i => W (f i)).
Proof. apply (apply_rsum _ n (fun i q => f i _ _)). Qed.

Lemma Hij i j : (i < Nk)%nat -> (j < Nk)%nat -> m_at (lv_Hmatrix l) i j = I (fun x y => ph i x y * ph j x y).
Proof. intros Hi Hj. destruct (lf_H _ _ _ _ _ _ LF) as (_ & _ & H). apply H; auto. Qed.
Lemma HNm : (Nm <= Nk)%nat. Proof. apply num2_mono. lia. Qed.
Lemma Hni : (ni <= Nm)%nat. Proof. apply nint_le; auto. Qed.
Lemma ph0 x y : ph 0 x y = 1.
Proof. unfold phi, mn. change (ea 0) with 0%nat. change (eb 0) with 0%nat. cbn [pow]. ring. Qed.

(** ** B D = G *)
Lemma lap_ni i x y : (i < Nk)%nat -> rsum ni (fun c => dd i c * ph c x y) / (h * h) = phixx cx cy h i x y + phiyy cx cy h i x y.
Proof.
  intros Hi. apply ab_lt in Hi. apply lap_sum; auto; intros; apply nint_lt; auto; rewrite ea_ix, eb_ix; lia.
Qed.
Lemma der0_ni i x y : (i < Nm)%nat -> rsum ni (fun c => d0 i c * ph c x y) / h = phx i x y.
Proof. intros Hi. apply ab_lt in Hi. apply phix_sum; auto; intros; apply nint_lt; auto; rewrite ea_ix, eb_ix; lia. Qed.
Lemma der1_ni i x y : (i < Nm)%nat -> rsum ni (fun c => d1 i c * ph c x y) / h = phy i x y.
Proof. intros Hi. apply ab_lt in Hi. apply phiy_sum; auto; intros; apply nint_lt; auto; rewrite ea_ix, eb_ix; lia. Qed.
Lemma der0_Nm i x y : (i < Nk)%nat -> rsum Nm (fun c => d0 i c * ph c x y) / h = phx i x y.
Proof. intros Hi. apply ab_lt in Hi. apply phix_sum; auto; intros; apply ab_lt; rewrite ea_ix, eb_ix; lia. Qed.
Lemma der1_Nm i x y : (i < Nk)%nat -> rsum Nm (fun c => d1 i c * ph c x y) / h = phy i x y.
Proof. intros Hi. apply ab_lt in Hi. apply phiy_sum; auto; intros; apply ab_lt; rewrite ea_ix, eb_ix; lia. Qed.

Lemma Dboundary i j : (i < nb)%nat -> (j < Nk)%nat -> m_at (lv_Dmatrix l) i j = ph j (m_at (boundary_points l) 0 i) (m_at (boundary_points l) 1 i).
Proof. intros Hi Hj. destruct (lf_D _ _ _ _ _ _ LF) as (_ & _ & H & _). apply H; auto. Qed.
Lemma Dinternal c j : (c < ni)%nat -> (j < Nk)%nat -> pg_Measure p * m_at (lv_Dmatrix l) (nb + c) j = I (fun x y => ph c x y * ph j x y).
Proof.
  intros Hc Hj. destruct (lf_D _ _ _ _ _ _ LF) as (_ & _ & _ & H). rewrite H by auto. pose proof Hni. pose proof HNm. rewrite Hij by (auto; lia). field. auto.
Qed.

Lemma green F Fx Fy : poly2 (2 * k - 1) F Fx Fy -> I Fx = n0 F /\ I Fy = n1 F.
Proof. apply (lf_green _ _ _ _ _ _ LF). Qed.
Lemma sum_n0 (g : R -> R -> R) (f : nat -> R) : (forall q, (q < nb)%nat -> f q = g (m_at (boundary_points l) 0 q) (m_at (boundary_points l) 1 q) * v_at (normal_weights (lv_BoundaryQuadrature l) 0) q) -> rsum nb f = n0 g.
Proof. intros H. unfold n0, fN, apply_rule. rewrite (lf_wN _ _ _ _ _ _ LF) by lia. apply rsum_ext. intros q Hq. rewrite H by auto. ring. Qed.
Lemma sum_n1 (g : R -> R -> R) (f : nat -> R) : (forall q, (q < nb)%nat -> f q = g (m_at (boundary_points l) 0 q) (m_at (boundary_points l) 1 q) * v_at (normal_weights (lv_BoundaryQuadrature l) 1) q) -> rsum nb f = n1 g.
Proof. intros H. unfold n1, fN, apply_rule. rewrite (lf_wN _ _ _ _ _ _ LF) by lia. apply rsum_ext. intros q Hq. rewrite H by auto. ring. Qed.

Lemma B_cols : m_cols (lv_Bmatrix l) = N. Proof. apply (lf_B _ _ _ _ _ _ LF). Qed.
Lemma BD i j : (i < Nk)%nat -> (j < Nk)%nat -> product (lv_Bmatrix l) (lv_Dmatrix l) i j = m_at (lv_Gmatrix l) i j.
Proof.
  intros Hi Hj. unfold product. rewrite B_cols. unfold N. rewrite rsum_add. destruct (lf_B _ _ _ _ _ _ LF) as (_ & _ & B1 & B2 & B3). destruct (lf_G _ _ _ _ _ _ LF) as (_ & _ & G1 & G2).
  fold nv nb ni N Nk cx cy h I W in B1, B2, B3, G1, G2.
  pose proof Hni as L1. pose proof HNm as L2.
  destruct (Nat.eq_dec i 0) as [->|Hi0].
  - rewrite G1 by auto. destruct (Nat.eqb_spec k 1) as [K|K].
    + rewrite (rsum_ext nb _ (fun q => v_at (q_Weights (eq_Quadrature (lv_BoundaryQuadrature l))) q * ph j (m_at (boundary_points l) 0 q) (m_at (boundary_points l) 1 q))).
      2:{ intros q Hq. rewrite B1 by auto. rewrite Dboundary by auto. reflexivity. }
      unfold ni. rewrite (nint_1 k K). cbn [rsum]. rewrite Rplus_0_r. unfold W, fW, apply_rule. destruct (lf_BQ _ _ _ _ _ _ LF) as (_ & S). rewrite S. fold (boundary_points l).
      rewrite (lf_BQn _ _ _ _ _ _ LF). reflexivity.
    + rewrite (rsum_0 nb) by (intros q Hq; rewrite B1 by auto; ring). rewrite Rplus_0_l.
      assert (P : (0 < ni)%nat) by (unfold ni; rewrite nint_2 by lia; apply num2_pos).
      rewrite (rsum_single ni _ 0) by (try exact P; intros c Hc Hc0; rewrite B3 by auto; rewrite (proj2 (Nat.eqb_neq c 0) Hc0), andb_false_r; unfold dd; change (ea 0) with 0%nat; change (eb 0) with 0%nat; cbn [Nat.eqb andb Nat.ltb Nat.leb]; ring).
      rewrite B3 by auto. cbn [Nat.eqb andb]. rewrite Dinternal by auto. apply I_ext. intros. rewrite ph0. ring.
  - rewrite G2 by (auto; lia).
    assert (Pi := phi_k cx cy h Hh k i Hi). assert (Pj := phi_k cx cy h Hh k j Hj). assert (Pix := phix_poly2 cx cy h Hh k i Hk Hi). assert (Piy := phiy_poly2 cx cy h Hh k i Hk Hi).
    assert (Mx := poly2_mult _ _ _ _ _ _ _ _ Pix Pj). assert (My := poly2_mult _ _ _ _ _ _ _ _ Piy Pj). replace (k - 1 + k)%nat with (2 * k - 1)%nat in Mx, My by lia.
    destruct (green _ _ _ Mx) as (GX & _). destruct (green _ _ _ My) as (_ & GY). rewrite I_plus in GX, GY.
    rewrite (rsum_ext nb _ (fun q => phx i (m_at (boundary_points l) 0 q) (m_at (boundary_points l) 1 q) * ph j (m_at (boundary_points l) 0 q) (m_at (boundary_points l) 1 q) * v_at (normal_weights (lv_BoundaryQuadrature l) 0) q +
       phy i (m_at (boundary_points l) 0 q) (m_at (boundary_points l) 1 q) * ph j (m_at (boundary_points l) 0 q) (m_at (boundary_points l) 1 q) * v_at (normal_weights (lv_BoundaryQuadrature l) 1) q)).
    2:{ intros q Hq. rewrite B2 by (auto; lia). rewrite Dboundary by auto. ring. }
    rewrite rsum_plus. rewrite (sum_n0 (fun x y => phx i x y * ph j x y)), (sum_n1 (fun x y => phy i x y * ph j x y)) by (intros; reflexivity).
    rewrite (rsum_ext ni _ (fun c => - / (h * h) * I (fun x y => dd i c * ph c x y * ph j x y))).
    2:{ intros c Hc. rewrite B3 by auto. rewrite (proj2 (Nat.eqb_neq i 0)) by auto. cbn [andb]. rewrite (I_ext _ (fun x y => dd i c * (ph c x y * ph j x y))) by (intros; ring). rewrite I_scal, <- Dinternal by auto. field. auto. }
    rewrite rsum_scal, <- I_rsum.
    rewrite (I_ext _ (fun x y => (h * h) * (phixx cx cy h i x y * ph j x y + phiyy cx cy h i x y * ph j x y))).
    2:{ intros x y. rewrite rsum_scal_r. pose proof (lap_ni i x y Hi) as LP. replace (rsum ni (fun c => dd i c * ph c x y)) with (h * h * (phixx cx cy h i x y + phiyy cx cy h i x y)); [ring|]. rewrite <- LP. field. auto. }
    rewrite I_scal, I_plus. fold I n0 n1. rewrite <- GX, <- GY. field. auto.
Qed.

(** ** H is symmetric positive definite *)
Lemma positive_triangle : exists T, In T (pg_TriangulationVertices p) /\ 0 < area T.
Proof.
  pose proof (lf_area _ _ _ _ _ _ LF) as A. rewrite (lf_int _ _ _ _ _ _ LF) in A. pose proof (gp_area _ GP) as S. rewrite <- A in S. clear A.
  induction (pg_TriangulationVertices p) as [|T ts IH]; cbn [lsum fold_right map] in S; [cbn in S; lra|].
  destruct (Rtotal_order 0 (area T)) as [P|[P|P]].
  - exists T. split; [now left|auto].
  - destruct IH as (T' & H1 & H2); [|exists T'; split; [now right|auto]]. change (0 < 2 * area T * L (gt (2 * k)%nat) (fun _ _ => 1) + lsum (fun T => 2 * area T * L (gt (2 * k)%nat) (fun _ _ => 1)) ts) in S. rewrite <- P in S. lra.
  - exfalso. unfold area in P. pose proof (Rabs_pos (signed_area T)). lra.
Qed.

Lemma I_square f fx fy : poly2 k f fx fy -> 0 <= I (fun x y => f x y * f x y) /\ (I (fun x y => f x y * f x y) = 0 -> forall x y, f x y = 0).
Proof.
  intros P. unfold I. rewrite (lf_int _ _ _ _ _ _ LF).
  assert (SQ : forall T, 0 <= L (gt (2 * k)%nat) (fun x y => f (in_triangle T x y 0) (in_triangle T x y 1) * f (in_triangle T x y 0) (in_triangle T x y 1)) /\
    (L (gt (2 * k)%nat) (fun x y => f (in_triangle T x y 0) (in_triangle T x y 1) * f (in_triangle T x y 0) (in_triangle T x y 1)) = 0 -> forall x y, f (in_triangle T x y 0) (in_triangle T x y 1) = 0)).
  { intros T. set (X := fun x y => m_at T 0 0 + (m_at T 0 1 - m_at T 0 0) * x + (m_at T 0 2 - m_at T 0 0) * y). set (Y := fun x y => m_at T 1 0 + (m_at T 1 1 - m_at T 1 0) * x + (m_at T 1 2 - m_at T 1 0) * y).
    assert (EX : forall x y, in_triangle T x y 0 = X x y) by (intros; unfold in_triangle, X; ring). assert (EY : forall x y, in_triangle T x y 1 = Y x y) by (intros; unfold in_triangle, Y; ring).
    assert (PC := poly2_comp k f fx fy (m_at T 0 0) (m_at T 0 1 - m_at T 0 0) (m_at T 0 2 - m_at T 0 0) (m_at T 1 0) (m_at T 1 1 - m_at T 1 0) (m_at T 1 2 - m_at T 1 0) P). cbv zeta in PC. fold (X) in PC. 
    destruct (L_square (2 * k) k (gt (2 * k)%nat) _ _ _ (gr_triangle_exact _ _ _ GR) (le_n _) PC) as (S1 & S2).
    rewrite (L_ext (gt (2 * k)%nat) (fun x y => f (in_triangle T x y 0) (in_triangle T x y 1) * f (in_triangle T x y 0) (in_triangle T x y 1)) (fun x y => f (X x y) (Y x y) * f (X x y) (Y x y))) by (intros; now rewrite EX, EY).
    split; [exact S1|]. intros Z x y. rewrite EX, EY. apply (S2 Z). }
  split.
  - apply lsum_nonneg. intros T _. pose proof (Rabs_pos (signed_area T)). fold (area T) in *. destruct (SQ T). apply Rmult_le_pos; [lra|auto].
  - intros Z x y. destruct positive_triangle as (T & HT & AT).
    assert (ZT : L (gt (2 * k)%nat) (fun x y => f (in_triangle T x y 0) (in_triangle T x y 1) * f (in_triangle T x y 0) (in_triangle T x y 1)) = 0).
    { assert (Q : 2 * area T * L (gt (2 * k)%nat) (fun x y => f (in_triangle T x y 0) (in_triangle T x y 1) * f (in_triangle T x y 0) (in_triangle T x y 1)) = 0).
      { revert Z HT. generalize (pg_TriangulationVertices p). intros ts Z HT.
        assert (NN : forall U, 0 <= 2 * area U * L (gt (2 * k)%nat) (fun x y => f (in_triangle U x y 0) (in_triangle U x y 1) * f (in_triangle U x y 0) (in_triangle U x y 1))).
        { intros U. pose proof (Rabs_pos (signed_area U)). fold (area U) in *. destruct (SQ U). apply Rmult_le_pos; [lra|auto]. }
        induction ts as [|U ts IH]; [destruct HT|].
        match type of Z with lsum ?F (U :: ts) = 0 => assert (SPL : lsum F (U :: ts) = F U + lsum F ts) by reflexivity; assert (LN : 0 <= lsum F ts) by (apply lsum_nonneg; intros; apply NN) end.
        rewrite SPL in Z. clear SPL. cbv beta in Z. pose proof (NN U). destruct HT as [->|HT]; [lra|]. apply IH; auto. lra. }
      apply Rmult_integral in Q. destruct Q; [lra|auto]. }
    pose proof (proj2 (SQ T) ZT) as ZF.
    (** inverse of the map of the triangle *)
    assert (DN : signed_area T <> 0) by (intros E; unfold area in AT; rewrite E, Rabs_R0 in AT; lra). unfold signed_area, cross in DN.
    set (ax := m_at T 0 0) in *. set (ay := m_at T 1 0) in *. set (bx := m_at T 0 1) in *. set (by_ := m_at T 1 1) in *. set (cx' := m_at T 0 2) in *. set (cy' := m_at T 1 2) in *.
    assert (DN' : (bx - ax) * (cy' - ay) - (cx' - ax) * (by_ - ay) <> 0) by (intros E; apply DN; rewrite E; lra).
    specialize (ZF (((x - ax) * (cy' - ay) - (cx' - ax) * (y - ay)) / ((bx - ax) * (cy' - ay) - (cx' - ax) * (by_ - ay))) (((bx - ax) * (y - ay) - (x - ax) * (by_ - ay)) / ((bx - ax) * (cy' - ay) - (cx' - ax) * (by_ - ay)))).
    unfold in_triangle in ZF. fold ax ay bx by_ cx' cy' in ZF. rewrite <- ZF. f_equal; field; auto.
Qed.

Definition comb (n : nat) (x : nat -> R) (a b : R) : R := rsum n (fun j => x j * ph j a b).
Definition combx (n : nat) (x : nat -> R) (a b : R) : R := rsum n (fun j => x j * phx j a b).
Definition comby (n : nat) (x : nat -> R) (a b : R) : R := rsum n (fun j => x j * phy j a b).
Lemma comb_poly2 n x : poly2 n (comb (num2 n) x) (combx (num2 n) x) (comby (num2 n) x).
Proof. apply (poly2_rsum n (num2 n) (fun j a b => x j * ph j a b) (fun j a b => x j * phx j a b) (fun j a b => x j * phy j a b)). intros j Hj. apply poly2_scal. apply (phi_k cx cy h Hh n j Hj). Qed.

Lemma H_form n (x : nat -> R) : (n <= Nk)%nat -> rsum n (fun i => rsum n (fun j => x i * m_at (lv_Hmatrix l) i j * x j)) = I (fun a b => comb n x a b * comb n x a b).
Proof.
  intros Hn. rewrite (I_ext (fun a b => comb n x a b * comb n x a b) (fun a b => rsum n (fun i => rsum n (fun j => x i * ph i a b * (x j * ph j a b))))) by (intros; unfold comb; now rewrite rsum_mult).
  rewrite I_rsum. apply rsum_ext. intros i Hi. rewrite I_rsum. apply rsum_ext. intros j Hj. rewrite Hij by lia.
  rewrite (I_ext (fun a b => x i * ph i a b * (x j * ph j a b)) (fun a b => (x i * x j) * (ph i a b * ph j a b))) by (intros; ring). rewrite I_scal. ring.
Qed.

Lemma H_pd n : (n <= k)%nat -> positive_definite (corner (lv_Hmatrix l) (num2 n)).
Proof.
  intros Hn. assert (Hnk : (num2 n <= Nk)%nat) by (apply num2_mono; auto). split; [reflexivity|]. cbn [corner m_rows m_cols m_at]. split.
  - intros i j Hi Hj. rewrite !Hij by lia. apply I_ext. intros; ring.
  - intros x (j & Hj & Hx). rewrite H_form by auto. destruct (I_square _ _ _ (poly2_le n k _ _ _ Hn (comb_poly2 n x))) as (A & B). destruct A as [A|A]; auto. exfalso. apply Hx.
    apply (phi_independent cx cy h Hh n x); auto. intros a b. apply (B (eq_sym A)).
Qed.
Lemma H_pd_k : positive_definite (lv_Hmatrix l).
Proof.
  destruct (lf_H _ _ _ _ _ _ LF) as (R & C & _). apply (pd_ext (corner (lv_Hmatrix l) (num2 k))); [apply H_pd; auto| | |]; cbn [corner m_rows m_cols m_at]; auto.
Qed.

(** ** G is nonsingular *)
Lemma perimeter_pos : 0 < W (fun _ _ => 1).
Proof.
  unfold W. rewrite (lf_perimeter _ _ _ _ _ _ LF). destruct (rsum_nonneg (m_cols (pg_Vertices p)) (fun i => Rabs (v_at (pg_EdgesLength p) i)) ltac:(intros; apply Rabs_pos)) as [A|A]; auto.
  exfalso. symmetry in A. assert (Z : forall i, (i < m_cols (pg_Vertices p))%nat -> v_at (pg_EdgesLength p) i = 0).
  { intros i Hi. pose proof (rsum_nonneg_0 _ _ ltac:(intros; apply Rabs_pos) A i Hi) as E. cbv beta in E. destruct (Req_dec (v_at (pg_EdgesLength p) i) 0); auto. apply Rabs_no_R0 in H. lra. }
  pose proof (gp_area _ GP) as S. unfold shoelace in S. rewrite (rsum_0 (m_cols (pg_Vertices p))) in S; [lra|]. intros i Hi. cbv zeta.
  pose proof (gp_normals _ GP i Hi) as (N1 & N2). cbv zeta in N1, N2. rewrite (Z i Hi), Rabs_R0, Rmult_0_r in N1, N2.
  set (j := following (m_cols (pg_Vertices p)) i) in *. replace (m_at (pg_Vertices p) 1 j) with (m_at (pg_Vertices p) 1 i) by lra. replace (m_at (pg_Vertices p) 0 j) with (m_at (pg_Vertices p) 0 i) by lra. ring.
Qed.

Lemma G_nonsingular : nonsingular (lv_Gmatrix l).
Proof.
  destruct (lf_G _ _ _ _ _ _ LF) as (R & C & G1 & G2). split; [congruence|]. intros x. rewrite R, C. fold Nk cx cy h I W in G1, G2. fold Nk. intros Z.
  assert (GS : forall i, (0 < i < Nk)%nat -> I (fun a b => phx i a b * combx Nk x a b) + I (fun a b => phy i a b * comby Nk x a b) = 0).
  { intros i Hi. transitivity (rsum Nk (fun j => m_at (lv_Gmatrix l) i j * x j)); [|apply Z; lia]. symmetry.
    rewrite (rsum_ext Nk _ (fun j => I (fun a b => phx i a b * (x j * phx j a b)) + I (fun a b => phy i a b * (x j * phy j a b)))).
    - rewrite rsum_plus, <- !I_rsum. f_equal; apply I_ext; intros; unfold combx, comby; now rewrite rsum_scal.
    - intros j Hj. rewrite G2 by auto. rewrite (I_ext (fun a b => phx i a b * (x j * phx j a b)) (fun a b => x j * (phx i a b * phx j a b))), (I_ext (fun a b => phy i a b * (x j * phy j a b)) (fun a b => x j * (phy i a b * phy j a b))) by (intros; ring).
      rewrite !I_scal. fold cx cy h I. ring. }
  assert (E : I (fun a b => combx Nk x a b * combx Nk x a b) + I (fun a b => comby Nk x a b * comby Nk x a b) = 0).
  { rewrite (I_ext (fun a b => combx Nk x a b * combx Nk x a b) (fun a b => rsum Nk (fun i => x i * (phx i a b * combx Nk x a b)))) by (intros; unfold combx at 1; rewrite <- rsum_scal_r; apply rsum_ext; intros; ring).
    rewrite (I_ext (fun a b => comby Nk x a b * comby Nk x a b) (fun a b => rsum Nk (fun i => x i * (phy i a b * comby Nk x a b)))) by (intros; unfold comby at 1; rewrite <- rsum_scal_r; apply rsum_ext; intros; ring).
    rewrite !I_rsum, <- rsum_plus. apply rsum_0. intros i Hi. rewrite !I_scal, <- Rmult_plus_distr_l. destruct (Nat.eq_dec i 0) as [->|Hi0]; [|rewrite GS by lia; ring].
    rewrite (I_ext (fun a b => phx 0 a b * combx Nk x a b) (fun a b => 0 * 1)) by (intros; rewrite (proj1 (phix_0 p 0 _ _ eq_refl)); ring).
    rewrite (I_ext (fun a b => phy 0 a b * comby Nk x a b) (fun a b => 0 * 1)) by (intros; rewrite (proj2 (phix_0 p 0 _ _ eq_refl)); ring). rewrite I_scal. ring. }
  assert (Px : exists fx fy, poly2 k (combx Nk x) fx fy).
  { exists (fun a b => rsum Nk (fun j => x j * phixx cx cy h j a b)), (fun a b => rsum Nk (fun j => x j * phixy cx cy h j a b)). apply (poly2_le (k - 1)); [lia|].
    apply (poly2_rsum (k - 1) Nk (fun j a b => x j * phx j a b) (fun j a b => x j * phixx cx cy h j a b) (fun j a b => x j * phixy cx cy h j a b)). intros j Hj. apply poly2_scal. apply phix_poly2; auto. }
  assert (Py : exists fx fy, poly2 k (comby Nk x) fx fy).
  { exists (fun a b => rsum Nk (fun j => x j * phixy cx cy h j a b)), (fun a b => rsum Nk (fun j => x j * phiyy cx cy h j a b)). apply (poly2_le (k - 1)); [lia|].
    apply (poly2_rsum (k - 1) Nk (fun j a b => x j * phy j a b) (fun j a b => x j * phixy cx cy h j a b) (fun j a b => x j * phiyy cx cy h j a b)). intros j Hj. apply poly2_scal. apply phiy_poly2; auto. }
  destruct Px as (? & ? & Px), Py as (? & ? & Py). destruct (I_square _ _ _ Px) as (X1 & X2), (I_square _ _ _ Py) as (Y1 & Y2).
  assert (ZX := X2 ltac:(lra)). assert (ZY := Y2 ltac:(lra)).
  (** constant *)
  assert (CST : forall a b, comb Nk x a b = comb Nk x 0 0).
  { intros a b. transitivity (comb Nk x 0 b).
    - apply (constant (fun t => comb Nk x t b) (fun t => combx Nk x t b)); [|intros; apply ZX]. intros t. apply (poly2_partials _ _ _ _ t b (comb_poly2 k x)).
    - apply (constant (fun t => comb Nk x 0 t) (fun t => comby Nk x 0 t)); [|intros; apply ZY]. intros t. apply (poly2_partials _ _ _ _ 0 t (comb_poly2 k x)). }
  assert (pos : (0 < Nk)%nat) by apply num2_pos.
  assert (C0 : comb Nk x 0 0 = 0).
  { pose proof (Z 0%nat pos) as Z0. rewrite (rsum_ext Nk _ (fun j => if (k =? 1)%nat then W (fun a b => x j * ph j a b) else I (fun a b => x j * ph j a b))) in Z0.
    2:{ intros j Hj. rewrite G1 by auto. fold cx cy h W I. destruct (k =? 1)%nat; rewrite ?W_scal, ?I_scal; ring. }
    destruct (k =? 1)%nat.
    - rewrite <- W_rsum in Z0. rewrite (W_ext _ (fun _ _ => comb Nk x 0 0 * 1)) in Z0 by (intros; rewrite Rmult_1_r; apply CST). rewrite W_scal in Z0. pose proof perimeter_pos. apply Rmult_integral in Z0. destruct Z0; [auto|lra].
    - rewrite <- I_rsum in Z0. rewrite (I_ext _ (fun _ _ => comb Nk x 0 0 * 1)) in Z0 by (intros; rewrite Rmult_1_r; apply CST). rewrite I_scal in Z0.
      unfold I in Z0 at 1. rewrite (lf_area _ _ _ _ _ _ LF) in Z0. pose proof (gp_area _ GP). apply Rmult_integral in Z0. destruct Z0; [auto|lra]. }
  apply (phi_independent cx cy h Hh k x). intros a b. rewrite <- C0. apply CST.
Qed.

(** ** Projectors of polynomials *)
Hypothesis Elu : exact_for nonsingular lu.
Hypothesis Ellt : exact_for positive_definite llt.

Lemma Pi_solves i j : (i < Nk)%nat -> (j < N)%nat -> rsum Nk (fun c => m_at (lv_Gmatrix l) i c * m_at (lv_PiNabla l) c j) = m_at (lv_Bmatrix l) i j.
Proof.
  intros Hi Hj. destruct (lf_G _ _ _ _ _ _ LF) as (R & C & _). destruct (lf_B _ _ _ _ _ _ LF) as (RB & CB & _). destruct (lf_Pi _ _ _ _ _ _ LF) as (_ & _ & EP).
  rewrite <- (Elu (lv_Gmatrix l) (lv_Bmatrix l)); [|congruence|congruence|apply G_nonsingular|rewrite R; auto|rewrite CB; auto]. cbn [m_at]. rewrite C. apply rsum_ext. intros c _. now rewrite EP.
Qed.

Lemma Pi_D i j : (i < Nk)%nat -> (j < Nk)%nat -> product (lv_PiNabla l) (lv_Dmatrix l) i j = delta i j.
Proof.
  intros Hi Hj. destruct (lf_Pi _ _ _ _ _ _ LF) as (_ & CP & _). destruct (lf_G _ _ _ _ _ _ LF) as (R & C & _). unfold product. rewrite CP. fold nv nb ni N.
  apply (cancel (lv_Gmatrix l) Nk (fun i => rsum N (fun q => m_at (lv_PiNabla l) i q * m_at (lv_Dmatrix l) q j)) (fun i => delta i j) G_nonsingular C); auto.
  rewrite R. fold Nk. intros r Hr. rewrite rsum_delta by auto. rewrite assoc. rewrite <- BD by auto. unfold product. rewrite B_cols. apply rsum_ext. intros q Hq. now rewrite Pi_solves.
Qed.

Lemma CD i j : (i < Nk)%nat -> (j < Nk)%nat -> product (lv_Cmatrix l) (lv_Dmatrix l) i j = m_at (lv_Hmatrix l) i j.
Proof.
  intros Hi Hj. destruct (lf_C _ _ _ _ _ _ LF) as (_ & CC & C1 & C2). destruct (lf_Pi _ _ _ _ _ _ LF) as (_ & CP & _). unfold product. rewrite CC. fold nv nb ni N. fold nv nb ni N in C1, C2, CP. destruct (Nat.ltb_spec i ni).
  - rewrite (rsum_single N _ (nb + i)) by (unfold N in *; try lia; intros q Hq Hn; rewrite C1 by (auto; unfold N; lia); rewrite (proj2 (Nat.eqb_neq q (nb + i)) Hn); ring).
    rewrite C1 by (auto; unfold N; lia). rewrite Nat.eqb_refl, Dinternal by auto. rewrite Hij by auto. reflexivity.
  - rewrite (rsum_ext N _ (fun q => rsum Nk (fun c => m_at (lv_Hmatrix l) i c * m_at (lv_PiNabla l) c q) * m_at (lv_Dmatrix l) q j)) by (intros; rewrite C2 by (auto; lia); reflexivity).
    rewrite <- assoc. rewrite (rsum_ext Nk _ (fun c => m_at (lv_Hmatrix l) i c * delta c j)) by (intros c Hc; rewrite <- Pi_D by auto; unfold product; rewrite CP; reflexivity).
    apply rsum_delta. auto.
Qed.

Lemma P0k_solves i j : (i < Nk)%nat -> (j < N)%nat -> rsum Nk (fun c => m_at (lv_Hmatrix l) i c * m_at (lv_Pi0k l) c j) = m_at (lv_Cmatrix l) i j.
Proof.
  intros Hi Hj. destruct (lf_P0 _ _ _ _ _ _ LF) as (_ & _ & _ & _ & _ & S). destruct (lf_H _ _ _ _ _ _ LF) as (R & C & _). destruct (lf_C _ _ _ _ _ _ LF) as (_ & CC & _).
  pose proof (S Ellt H_pd_k i j) as Q. rewrite R, C, CC in Q. apply Q; auto.
Qed.
Lemma P0km1_solves i j : (i < Nm)%nat -> (j < N)%nat -> rsum Nm (fun c => m_at (lv_Hmatrix l) i c * m_at (lv_Pi0km1 l) c j) = m_at (lv_Cmatrix l) i j.
Proof.
  intros Hi Hj. destruct (lf_P0 _ _ _ _ _ _ LF) as (_ & _ & _ & _ & S & _). destruct (lf_C _ _ _ _ _ _ LF) as (_ & CC & _).
  pose proof (S Ellt (H_pd (k - 1) ltac:(lia)) i j) as Q. cbn [corner top m_rows m_cols m_at] in Q. rewrite CC in Q. apply Q; auto.
Qed.
Lemma P0k_D i j : (i < Nk)%nat -> (j < Nk)%nat -> product (lv_Pi0k l) (lv_Dmatrix l) i j = delta i j.
Proof.
  intros Hi Hj. destruct (lf_P0 _ _ _ _ _ _ LF) as (_ & _ & _ & CP & _). destruct (lf_H _ _ _ _ _ _ LF) as (R & C & _). destruct (lf_C _ _ _ _ _ _ LF) as (_ & CC & _). unfold product. rewrite CP. fold nv nb ni N. fold nv nb ni N in CC.
  apply (cancel (lv_Hmatrix l) Nk (fun i => rsum N (fun q => m_at (lv_Pi0k l) i q * m_at (lv_Dmatrix l) q j)) (fun i => delta i j) (pd_nonsingular _ H_pd_k) C); auto.
  rewrite R. fold Nk. intros r Hr. rewrite rsum_delta by auto. rewrite assoc. rewrite <- CD by auto. unfold product. rewrite CC. apply rsum_ext. intros q Hq. now rewrite P0k_solves.
Qed.
(** orthogonality of the projection on the lower degree *)
Lemma P0km1_orth i j : (i < Nm)%nat -> (j < Nk)%nat -> rsum Nm (fun c => m_at (lv_Hmatrix l) i c * product (lv_Pi0km1 l) (lv_Dmatrix l) c j) = m_at (lv_Hmatrix l) i j.
Proof.
  intros Hi Hj. pose proof HNm. destruct (lf_P0 _ _ _ _ _ _ LF) as (_ & CP & _). destruct (lf_C _ _ _ _ _ _ LF) as (_ & CC & _). fold nv nb ni N in CP, CC. unfold product. rewrite CP.
  rewrite assoc. rewrite <- CD by lia. unfold product. rewrite CC. apply rsum_ext. intros q Hq. now rewrite P0km1_solves.
Qed.
Lemma P0km1_D i j : (i < Nm)%nat -> (j < Nm)%nat -> product (lv_Pi0km1 l) (lv_Dmatrix l) i j = delta i j.
Proof.
  intros Hi Hj. pose proof HNm.
  apply (cancel (corner (lv_Hmatrix l) Nm) Nm (fun i => product (lv_Pi0km1 l) (lv_Dmatrix l) i j) (fun i => delta i j) (pd_nonsingular _ (H_pd (k - 1) ltac:(lia))) eq_refl); auto.
  cbn [corner m_rows m_at]. intros r Hr. rewrite rsum_delta by auto. apply P0km1_orth; auto. lia.
Qed.

(** derivatives *)
Lemma PD_D : exists P0 P1, lv_Pi0km1Der l = [P0; P1] /\ m_rows P0 = Nm /\ m_cols P0 = N /\ m_rows P1 = Nm /\ m_cols P1 = N /\
  (forall i j, (i < Nm)%nat -> (j < Nk)%nat -> product P0 (lv_Dmatrix l) i j = d0 j i / h) /\
  (forall i j, (i < Nm)%nat -> (j < Nk)%nat -> product P1 (lv_Dmatrix l) i j = d1 j i / h).
Proof.
  destruct (lf_E _ _ _ _ _ _ LF) as (E0 & E1 & EE & a1 & a2 & a3 & a4 & e1 & e2 & e3 & e4). destruct (lf_PD _ _ _ _ _ _ LF) as (P0 & P1 & EP & b1 & b2 & b3 & b4 & S0 & S1).
  rewrite EE in S0, S1. cbn [nth] in S0, S1. specialize (S0 Ellt (H_pd (k - 1) ltac:(lia))). specialize (S1 Ellt (H_pd (k - 1) ltac:(lia))). cbn [corner] in S0, S1.
  fold cx cy h Nm nv nb ni N in a1, a2, a3, a4, b1, b2, b3, b4, e1, e2, e3, e4, S0, S1. pose proof HNm as L2. pose proof Hni as L1.
  exists P0, P1. do 5 (split; auto).
  assert (PDN := pd_nonsingular _ (H_pd (k - 1) ltac:(lia))). fold Nm in PDN.
  split; intros i j Hi Hj.
  - apply (cancel (corner (lv_Hmatrix l) Nm) Nm (fun i => product P0 (lv_Dmatrix l) i j) (fun i => d0 j i / h) PDN eq_refl); auto. cbn [corner m_rows m_at]. intros r Hr. unfold product. rewrite b2, assoc.
    rewrite (rsum_ext N _ (fun q => m_at E0 r q * m_at (lv_Dmatrix l) q j)) by (intros q Hq; f_equal; apply (S0 r q); cbn [corner m_rows]; [auto|rewrite a2; auto]).
    rewrite (rsum_ext Nm _ (fun c => / h * I (fun x y => ph r x y * (d0 j c * ph c x y)))).
    2:{ intros c Hc. rewrite Hij by lia. rewrite (I_ext (fun x y => ph r x y * (d0 j c * ph c x y)) (fun x y => d0 j c * (ph r x y * ph c x y))) by (intros; ring). rewrite I_scal. unfold Rdiv. ring. }
    rewrite rsum_scal, <- I_rsum. rewrite (I_ext _ (fun x y => h * (ph r x y * phx j x y))).
    2:{ intros x y. rewrite rsum_scal, <- (der0_Nm j x y Hj). field. auto. }
    rewrite I_scal. rewrite <- Rmult_assoc, Rinv_l, Rmult_1_l by auto.
    unfold N. rewrite rsum_add. rewrite (rsum_ext nb _ (fun q => ph r (m_at (boundary_points l) 0 q) (m_at (boundary_points l) 1 q) * ph j (m_at (boundary_points l) 0 q) (m_at (boundary_points l) 1 q) * v_at (normal_weights (lv_BoundaryQuadrature l) 0) q)).
    2:{ intros q Hq. rewrite e1, Dboundary by auto. ring. }
    rewrite (sum_n0 (fun x y => ph r x y * ph j x y)) by (intros; reflexivity).
    assert (Mx := poly2_mult _ _ _ _ _ _ _ _ (phi_k cx cy h Hh (k - 1) r Hr) (phi_k cx cy h Hh k j Hj)). replace (k - 1 + k)%nat with (2 * k - 1)%nat in Mx by lia.
    destruct (green _ _ _ Mx) as (GX & _). rewrite I_plus in GX. rewrite <- GX.
    rewrite (rsum_ext ni _ (fun c => - / h * I (fun x y => d0 r c * ph c x y * ph j x y))).
    2:{ intros c Hc. rewrite e2 by auto. rewrite (I_ext _ (fun x y => d0 r c * (ph c x y * ph j x y))) by (intros; ring). rewrite I_scal, <- Dinternal by auto. field. auto. }
    rewrite rsum_scal, <- I_rsum. rewrite (I_ext (fun x y => rsum ni _) (fun x y => h * (phx r x y * ph j x y))).
    2:{ intros x y. rewrite rsum_scal_r, <- (der0_ni r x y Hr). field. auto. }
    rewrite I_scal. field. auto.
  - apply (cancel (corner (lv_Hmatrix l) Nm) Nm (fun i => product P1 (lv_Dmatrix l) i j) (fun i => d1 j i / h) PDN eq_refl); auto. cbn [corner m_rows m_at]. intros r Hr. unfold product. rewrite b4, assoc.
    rewrite (rsum_ext N _ (fun q => m_at E1 r q * m_at (lv_Dmatrix l) q j)) by (intros q Hq; f_equal; apply (S1 r q); cbn [corner m_rows]; [auto|rewrite a4; auto]).
    rewrite (rsum_ext Nm _ (fun c => / h * I (fun x y => ph r x y * (d1 j c * ph c x y)))).
    2:{ intros c Hc. rewrite Hij by lia. rewrite (I_ext (fun x y => ph r x y * (d1 j c * ph c x y)) (fun x y => d1 j c * (ph r x y * ph c x y))) by (intros; ring). rewrite I_scal. unfold Rdiv. ring. }
    rewrite rsum_scal, <- I_rsum. rewrite (I_ext _ (fun x y => h * (ph r x y * phy j x y))).
    2:{ intros x y. rewrite rsum_scal, <- (der1_Nm j x y Hj). field. auto. }
    rewrite I_scal. rewrite <- Rmult_assoc, Rinv_l, Rmult_1_l by auto.
    unfold N. rewrite rsum_add. rewrite (rsum_ext nb _ (fun q => ph r (m_at (boundary_points l) 0 q) (m_at (boundary_points l) 1 q) * ph j (m_at (boundary_points l) 0 q) (m_at (boundary_points l) 1 q) * v_at (normal_weights (lv_BoundaryQuadrature l) 1) q)).
    2:{ intros q Hq. rewrite e3, Dboundary by auto. ring. }
    rewrite (sum_n1 (fun x y => ph r x y * ph j x y)) by (intros; reflexivity).
    assert (My := poly2_mult _ _ _ _ _ _ _ _ (phi_k cx cy h Hh (k - 1) r Hr) (phi_k cx cy h Hh k j Hj)). replace (k - 1 + k)%nat with (2 * k - 1)%nat in My by lia.
    destruct (green _ _ _ My) as (_ & GY). rewrite I_plus in GY. rewrite <- GY.
    rewrite (rsum_ext ni _ (fun c => - / h * I (fun x y => d1 r c * ph c x y * ph j x y))).
    2:{ intros c Hc. rewrite e4 by auto. rewrite (I_ext _ (fun x y => d1 r c * (ph c x y * ph j x y))) by (intros; ring). rewrite I_scal, <- Dinternal by auto. field. auto. }
    rewrite rsum_scal, <- I_rsum. rewrite (I_ext (fun x y => rsum ni _) (fun x y => h * (phy r x y * ph j x y))).
    2:{ intros x y. rewrite rsum_scal_r, <- (der1_ni r x y Hr). field. auto. }
    rewrite I_scal. field. auto.
Qed.
End Space.
