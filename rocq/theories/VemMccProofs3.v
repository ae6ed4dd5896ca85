(** The mixed virtual element: vector polynomials, divergence and projection of any dofs. *)
From Coq Require Import List Arith Bool Lia ZArith Reals Lra.
From Verif Require Import Base RSum MatrixModel MonomialsModel MonomialsSpec MonomialsProofs MonomialsProofs2 MonomialsProofs3 MonomialsProofs4 MonomialsProps
  LagrangeModel GBasisProofs VemQuadModel VemQuadSpec VemQuadProofs VemQuadProofs2 GreenSpec GreenProofs PolyProofs VemModel VemSpec VemProofs VemProofs2 VemProofs3 GaussModel VemMccModel VemMccSpec VemMccProofs VemMccProofs2.
Import ListNotations.
Local Open Scope R_scope.

Section Space.
Variables (gt gs : nat -> QuadratureData) (k : nat) (p : Polygon) (llt : Solver) (svd : Svd) (l : MCC_Local).
Hypothesis GR : good_mixed_rules gt gs k.
Hypothesis GP : good_polygon p.
Hypothesis LF : mcc_facts gt gs k p llt svd l.
Hypothesis Ellt : exact_for positive_definite llt.
Hypothesis SV : completes svd (lm_TkNabla l).
Let cx := pg_Centroid p 0%nat.
Let cy := pg_Centroid p 1%nat.
Let h := pg_Diameter p.
Let Nk := num2 k.
Let NN := (num2 k + (k + 1))%nat.
Let nn := (num2 k - 1)%nat.
Let no := (num2 k - (k + 1))%nat.
Let nv := m_cols (pg_Vertices p).
Let nb := ((k + 1) * nv)%nat.
Let N := (nb + (nn + no))%nat.
Let ms := pg_Measure p.
Notation I := (mcc_inside l).
Notation ph := (phi cx cy h).
Notation phx := (phix cx cy h).
Notation phy := (phiy cx cy h).
Notation T := (Tall NN (lm_TkNabla l) (lm_TkBigOPlus l)).
(** component d of the vector polynomial a *)
Definition vp (d a : nat) (x y : R) : R := rsum Nk (fun c => T a (Nk * d + c) * ph c x y).
Notation g := vp.
Notation X := (bx l).
Notation Y := (by' l).
Notation w := (bw l).
Notation sn := (sg k p).
Notation nrm := (nr k p).

Let Hh : h <> 0. Proof. apply gp_diameter; auto. Qed.
Let Hm : ms <> 0. Proof. apply gp_measure; auto. Qed.
Let HNN : (NN + no = 2 * Nk)%nat. Proof. exact (NN_no k p). Qed.
Let HS : num2 (k + 1) = S NN. Proof. apply num2_S. Qed.
Let HNk : (Nk <= NN)%nat. Proof. unfold Nk, NN. lia. Qed.
Let Hpos : (0 < Nk)%nat. Proof. apply num2_pos. Qed.

Lemma I_ext f f' : (forall x y, f x y = f' x y) -> I f = I f'. Proof. intros H. apply apply_ext. intros; apply H. Qed.
Lemma I_plus f f' : I (fun x y => f x y + f' x y) = I f + I f'. Proof. apply apply_plus. Qed.
Lemma I_scal c f : I (fun x y => c * f x y) = c * I f. Proof. apply apply_scal. Qed.
Lemma I_rsum n (f : nat -> R -> R -> R) : I (fun x y => rsum n (fun i => f i x y)) = rsum n (fun i => I (f i)).
Proof. apply apply_rsum. Qed.
Lemma I_0 : I (fun _ _ => 0) = 0.
Proof. rewrite (I_ext (fun _ _ => 0) (fun _ _ => 0 * 0)) by (intros; ring). rewrite I_scal. ring. Qed.
Lemma ph0 x y : ph 0 x y = 1.
Proof. unfold phi. rewrite <- ix_00. unfold mn. rewrite ea_ix, eb_ix. cbn. ring. Qed.
Lemma phx0 x y : phx 0 x y = 0.
Proof. unfold phix. rewrite <- ix_00, ea_ix, eb_ix. cbn. unfold Rdiv. ring. Qed.
Lemma phy0 x y : phy 0 x y = 0.
Proof. unfold phiy. rewrite <- ix_00, ea_ix, eb_ix. cbn. unfold Rdiv. ring. Qed.

Definition comb (n : nat) (x : nat -> R) (a b : R) : R := rsum n (fun j => x j * ph j a b).
Definition combx (n : nat) (x : nat -> R) (a b : R) : R := rsum n (fun j => x j * phx j a b).
Definition comby (n : nat) (x : nat -> R) (a b : R) : R := rsum n (fun j => x j * phy j a b).
Lemma comb_poly2 n x : poly2 n (comb (num2 n) x) (combx (num2 n) x) (comby (num2 n) x).
Proof. apply (poly2_rsum n (num2 n) (fun j a b => x j * ph j a b) (fun j a b => x j * phx j a b) (fun j a b => x j * phy j a b)). intros j Hj. apply poly2_scal. apply (phi_k cx cy h Hh n j Hj). Qed.

Lemma positive_triangle : exists T, In T (pg_TriangulationVertices p) /\ 0 < area T.
Proof.
  pose proof (mf_area _ _ _ _ _ _ _ LF) as A. rewrite (mf_int _ _ _ _ _ _ _ LF) in A. unfold tsum in A. pose proof (gp_area _ GP) as S. rewrite <- A in S. clear A.
  induction (pg_TriangulationVertices p) as [|T ts IH]; cbn [lsum fold_right map] in S; [cbn in S; lra|].
  destruct (Rtotal_order 0 (area T)) as [P|[P|P]].
  - exists T. split; [now left|auto].
  - destruct IH as (T' & H1 & H2); [|exists T'; split; [now right|auto]]. change (0 < 2 * area T * L (gt (2 * (k + 1))%nat) (fun _ _ => 1) + lsum (fun T => 2 * area T * L (gt (2 * (k + 1))%nat) (fun _ _ => 1)) ts) in S. rewrite <- P in S. lra.
  - exfalso. unfold area in P. pose proof (Rabs_pos (signed_area T)). lra.
Qed.
Lemma I_square f fx fy : poly2 (k + 1) f fx fy -> 0 <= I (fun x y => f x y * f x y) /\ (I (fun x y => f x y * f x y) = 0 -> forall x y, f x y = 0).
Proof.
  intros P. rewrite (mf_int _ _ _ _ _ _ _ LF). apply (tsum_square (gt (2 * (k + 1))%nat) (2 * (k + 1)) (k + 1) (pg_TriangulationVertices p) (gm_triangle_exact _ _ _ GR) (le_n _) positive_triangle f fx fy P).
Qed.

(** ** The gradients *)
Lemma TN_grad a c : (a < NN)%nat -> (c < Nk)%nat -> T a c = 1 / h * d0 (S a) c /\ T a (Nk + c) = 1 / h * d1 (S a) c.
Proof. intros Ha Hc. unfold Tall. rewrite (ltb_true a NN) by auto. destruct (mf_TN _ _ _ _ _ _ _ LF) as (_ & _ & A & B). split; [apply A|apply B]; auto. Qed.
Lemma g_grad a x y : (a < NN)%nat -> g 0 a x y = phx (S a) x y /\ g 1 a x y = phy (S a) x y.
Proof.
  intros Ha. assert (Hi : (S a < num2 (k + 1))%nat) by lia. apply ab_lt in Hi. unfold vp. fold cx cy h Nk NN. rewrite Nat.mul_0_r, Nat.mul_1_r. cbn [Nat.add]. split.
  - rewrite <- (phix_sum cx cy h Hh Nk (S a)) by (intros; apply ab_lt; rewrite ea_ix, eb_ix; lia). unfold Rdiv. rewrite <- rsum_scal_r. apply rsum_ext. intros c Hc. rewrite (proj1 (TN_grad a c Ha Hc)). field. auto.
  - rewrite <- (phiy_sum cx cy h Hh Nk (S a)) by (intros; apply ab_lt; rewrite ea_ix, eb_ix; lia). unfold Rdiv. rewrite <- rsum_scal_r. apply rsum_ext. intros c Hc. rewrite (proj2 (TN_grad a c Ha Hc)). field. auto.
Qed.
Lemma g_big d r x y : g d (NN + r) x y = rsum Nk (fun c => m_at (lm_TkBigOPlus l) r (Nk * d + c) * ph c x y).
Proof. unfold vp. apply rsum_ext. intros c Hc. f_equal. unfold Tall. fold NN. rewrite (ltb_false (NN + r) NN) by lia. f_equal. lia. Qed.
Lemma g_poly2 d a : poly2 k (g d a) (fun x y => rsum Nk (fun c => T a (Nk * d + c) * phx c x y)) (fun x y => rsum Nk (fun c => T a (Nk * d + c) * phy c x y)).
Proof. apply (comb_poly2 k (fun c => T a (Nk * d + c)%nat)). Qed.

(** ** The rows of T are independent *)
Lemma T_sv r c : (r < no)%nat -> T (NN + r) c = svd (lm_TkNabla l) (NN + r)%nat c.
Proof. intros Hr. unfold Tall. rewrite (ltb_false (NN + r) NN) by lia. rewrite (proj2 (proj2 (mf_TB _ _ _ _ _ _ _ LF))). fold NN. f_equal. lia. Qed.
Lemma T_orth a s : (a < NN)%nat -> (s < no)%nat -> rsum (2 * Nk) (fun c => T a c * T (NN + s) c) = 0.
Proof.
  intros Ha Hs. destruct SV as (_ & A). destruct (mf_TN _ _ _ _ _ _ _ LF) as (t1 & t2 & _). rewrite t1, t2 in A. fold NN Nk in A. rewrite <- (A a (NN + s)%nat Ha ltac:(lia)).
  apply rsum_ext. intros c Hc. rewrite T_sv by auto. f_equal. unfold Tall. now rewrite (ltb_true a NN) by auto.
Qed.
Lemma T_orthonormal r s : (r < no)%nat -> (s < no)%nat -> rsum (2 * Nk) (fun c => T (NN + r) c * T (NN + s) c) = delta r s.
Proof.
  intros Hr Hs. destruct SV as (A & _). destruct (mf_TN _ _ _ _ _ _ _ LF) as (t1 & t2 & _). rewrite t1, t2 in A. fold NN Nk in A.
  transitivity (delta (NN + r) (NN + s)); [|unfold delta; destruct (Nat.eqb_spec (NN + r) (NN + s)), (Nat.eqb_spec r s); auto; lia].
  rewrite <- (A (NN + r)%nat (NN + s)%nat) by lia. apply rsum_ext. intros c Hc. now rewrite !T_sv by auto.
Qed.
Lemma T_independent x : (forall c, (c < 2 * Nk)%nat -> rsum (2 * Nk) (fun a => x a * T a c) = 0) -> forall a, (a < 2 * Nk)%nat -> x a = 0.
Proof.
  intros H.
  assert (SPL : forall c, rsum (2 * Nk) (fun a => x a * T a c) = rsum NN (fun a => x a * T a c) + rsum no (fun r => x (NN + r)%nat * T (NN + r) c)) by (intros c; rewrite <- HNN; apply rsum_add).
  assert (BIG : forall s, (s < no)%nat -> x (NN + s)%nat = 0).
  { intros s Hs.
    assert (Z : rsum (2 * Nk) (fun c => rsum (2 * Nk) (fun a => x a * T a c) * T (NN + s) c) = 0) by (apply rsum_0; intros c Hc; rewrite H by auto; ring).
    rewrite <- Z. rewrite (rsum_ext _ _ (fun c => rsum (2 * Nk) (fun a => x a * (T a c * T (NN + s) c)))) by (intros c Hc; rewrite <- rsum_scal_r; apply rsum_ext; intros; ring).
    rewrite rsum_swap. rewrite (rsum_ext _ _ (fun a => x a * rsum (2 * Nk) (fun c => T a c * T (NN + s) c))) by (intros; now rewrite rsum_scal).
    rewrite <- HNN at 1. rewrite rsum_add.
    rewrite (rsum_0 NN) by (intros a Ha; rewrite T_orth by auto; ring). rewrite Rplus_0_l.
    rewrite (rsum_ext _ _ (fun r => x (NN + r)%nat * delta r s)) by (intros r Hr; now rewrite T_orthonormal by auto). now rewrite (rsum_delta no s (fun r => x (NN + r)%nat)). }
  assert (SM : forall c, (c < 2 * Nk)%nat -> rsum NN (fun a => x a * T a c) = 0).
  { intros c Hc. rewrite <- (H c Hc), SPL. rewrite (rsum_0 no); [ring|]. intros r Hr. rewrite BIG by auto. ring. }
  set (m := fun a b => rsum NN (fun i => x i * ph (S i) a b)).
  assert (PM : poly2 (k + 1) m (fun a b => rsum NN (fun i => x i * phx (S i) a b)) (fun a b => rsum NN (fun i => x i * phy (S i) a b))).
  { apply (poly2_rsum (k + 1) NN (fun j a b => x j * ph (S j) a b) (fun j a b => x j * phx (S j) a b) (fun j a b => x j * phy (S j) a b)). intros j Hj. apply poly2_scal. apply (phi_k cx cy h Hh (k + 1)). lia. }
  assert (GZ : forall d a b, (d < 2)%nat -> rsum NN (fun i => x i * g d i a b) = 0).
  { intros d a b Hd. unfold vp. rewrite (rsum_ext _ _ (fun i => rsum Nk (fun c => x i * T i (Nk * d + c) * ph c a b))) by (intros; rewrite <- rsum_scal; apply rsum_ext; intros; fold cx cy h NN; ring).
    rewrite rsum_swap. apply rsum_0. intros c Hc. rewrite rsum_scal_r. rewrite SM; [ring|]. fold Nk in Hc. destruct d as [|[|]]; lia. }
  assert (MX : forall a b, rsum NN (fun i => x i * phx (S i) a b) = 0) by (intros a b; rewrite <- (GZ 0%nat a b) by lia; apply rsum_ext; intros i Hi; now rewrite (proj1 (g_grad i a b Hi))).
  assert (MY : forall a b, rsum NN (fun i => x i * phy (S i) a b) = 0) by (intros a b; rewrite <- (GZ 1%nat a b) by lia; apply rsum_ext; intros i Hi; now rewrite (proj2 (g_grad i a b Hi))).
  assert (CM : forall a b, m a b = m 0 0).
  { intros a b. transitivity (m 0 b).
    - apply (constant (fun t => m t b) (fun t => rsum NN (fun i => x i * phx (S i) t b))); [intros t; apply (poly2_partials _ _ _ _ t b PM)|intros; apply MX].
    - apply (constant (fun t => m 0 t) (fun t => rsum NN (fun i => x i * phy (S i) 0 t))); [intros t; apply (poly2_partials _ _ _ _ 0 t PM)|intros; apply MY]. }
  assert (IND := phi_independent cx cy h Hh (k + 1) (fun j => match j with O => - m 0 0 | S i => x i end)). rewrite HS in IND.
  assert (LOW : forall a, (a < NN)%nat -> x a = 0).
  { intros a Ha. apply (fun P => IND P (S a) ltac:(lia)). intros a' b'. rewrite rsum_S_l. rewrite ph0. specialize (CM a' b'). unfold m at 1 in CM. rewrite CM. ring. }
  intros a Ha. destruct (Nat.ltb_spec a NN); [auto|]. replace a with (NN + (a - NN))%nat by lia. apply BIG. lia.
Qed.

(** any coefficients are those of a combination of the rows *)
Definition Tt : Mat := {| m_rows := (2 * Nk)%nat; m_cols := (2 * Nk)%nat; m_at := fun c a => T a c |}.
Lemma T_span v : exists x, forall c, (c < 2 * Nk)%nat -> rsum (2 * Nk) (fun a => x a * T a c) = v c.
Proof.
  assert (NS : nonsingular Tt).
  { split; [reflexivity|]. cbn [Tt m_rows m_cols m_at]. intros x H. apply T_independent. intros c Hc. rewrite <- (H c Hc). apply rsum_ext. intros; ring. }
  pose proof (gauss_nonsingular Tt {| m_rows := (2 * Nk)%nat; m_cols := 1; m_at := fun c _ => v c |} eq_refl eq_refl NS) as Sol.
  exists (fun a => gauss_solver Tt {| m_rows := (2 * Nk)%nat; m_cols := 1; m_at := fun c _ => v c |} a 0%nat). intros c Hc.
  transitivity (m_at {| m_rows := (2 * Nk)%nat; m_cols := 1; m_at := fun c _ => v c |} c 0%nat); [|reflexivity]. rewrite <- (Sol c 0%nat Hc ltac:(cbn; lia)). cbn [Tt m_rows m_cols m_at]. apply rsum_ext. intros; ring.
Qed.

Definition field (d : nat) (x : nat -> R) (a b : R) : R := rsum (2 * Nk) (fun i => x i * g d i a b).
Lemma field_comb d x a b : field d x a b = comb Nk (fun c => rsum (2 * Nk) (fun i => x i * T i (Nk * d + c))) a b.
Proof.
  unfold field, comb, vp. fold cx cy h Nk NN. rewrite (rsum_ext _ _ (fun i => rsum Nk (fun c => x i * T i (Nk * d + c) * ph c a b))) by (intros; rewrite <- rsum_scal; apply rsum_ext; intros; ring).
  rewrite rsum_swap. apply rsum_ext. intros c Hc. now rewrite rsum_scal_r.
Qed.
Definition fieldx (d : nat) (x : nat -> R) (a b : R) : R := combx Nk (fun c => rsum (2 * Nk) (fun i => x i * T i (Nk * d + c))) a b.
Definition fieldy (d : nat) (x : nat -> R) (a b : R) : R := comby Nk (fun c => rsum (2 * Nk) (fun i => x i * T i (Nk * d + c))) a b.
Lemma field_poly2 d x : poly2 k (field d x) (fieldx d x) (fieldy d x).
Proof. eapply poly2_ext; [apply (comb_poly2 k (fun c => rsum (2 * Nk) (fun i => x i * T i (Nk * d + c)%nat)))| | |]; intros a b; [now rewrite field_comb| |]; reflexivity. Qed.
Lemma field_independent x : (forall d a b, (d < 2)%nat -> field d x a b = 0) -> forall i, (i < 2 * Nk)%nat -> x i = 0.
Proof.
  intros H. apply T_independent. intros c Hc.
  assert (Q : forall d c', (d < 2)%nat -> (c' < Nk)%nat -> rsum (2 * Nk) (fun i => x i * T i (Nk * d + c')) = 0).
  { intros d c' Hd Hc'. apply (phi_independent cx cy h Hh k (fun c => rsum (2 * Nk) (fun i => x i * T i (Nk * d + c)%nat))); [|exact Hc']. intros a b. specialize (H d a b Hd). rewrite field_comb in H. exact H. }
  destruct (Nat.ltb_spec c Nk); [specialize (Q 0%nat c)|specialize (Q 1%nat (c - Nk)%nat)].
  - rewrite Nat.mul_0_r in Q. apply Q; lia.
  - rewrite Nat.mul_1_r in Q. replace (Nk + (c - Nk))%nat with c in Q by lia. apply Q; lia.
Qed.
Lemma field_span f0 f0x f0y f1 f1x f1y : poly2 k f0 f0x f0y -> poly2 k f1 f1x f1y -> exists x, forall a b, f0 a b = field 0 x a b /\ f1 a b = field 1 x a b.
Proof.
  intros P0 P1. destruct (phi_represent cx cy h Hh k _ _ _ P0) as (c0 & C0 & _). destruct (phi_represent cx cy h Hh k _ _ _ P1) as (c1 & C1 & _).
  destruct (T_span (fun c => if (c <? Nk)%nat then c0 c else c1 (c - Nk)%nat)) as (x & Hx). exists x. intros a b. rewrite !field_comb, C0, C1. unfold comb. split; apply rsum_ext; intros c Hc.
  - rewrite Nat.mul_0_r. cbn [Nat.add]. rewrite Hx by (fold Nk in Hc; lia). now rewrite (ltb_true c Nk) by auto.
  - rewrite Nat.mul_1_r. rewrite Hx by (fold Nk in Hc; lia). rewrite (ltb_false (Nk + c) Nk) by lia. replace (Nk + c - Nk)%nat with c by lia. reflexivity.
Qed.

(** ** H and G are positive definite *)
Lemma Hij i j : (i < Nk)%nat -> (j < Nk)%nat -> m_at (lm_Hmatrix l) i j = I (fun x y => ph i x y * ph j x y).
Proof. apply (mf_H _ _ _ _ _ _ _ LF). Qed.
Lemma H_pd : positive_definite (lm_Hmatrix l).
Proof.
  destruct (mf_H _ _ _ _ _ _ _ LF) as (h1 & h2 & h3). fold Nk in h1, h2, h3. split; [congruence|]. rewrite h1, h2. split.
  - intros i j Hi Hj. rewrite !Hij by auto. apply I_ext. intros; ring.
  - intros x (j & Hj & Hx).
    rewrite (rsum_ext _ _ (fun i => rsum Nk (fun j => I (fun a b => x i * ph i a b * (x j * ph j a b))))).
    + rewrite (rsum_ext _ _ (fun i => I (fun a b => rsum Nk (fun j => x i * ph i a b * (x j * ph j a b))))) by (intros; now rewrite I_rsum). rewrite <- I_rsum.
      rewrite (I_ext _ (fun a b => comb Nk x a b * comb Nk x a b)) by (intros; unfold comb; now rewrite rsum_mult).
      destruct (I_square _ _ _ (poly2_le k (k + 1) _ _ _ ltac:(lia) (comb_poly2 k x))) as (A & B). destruct A as [A|A]; auto. exfalso. apply Hx.
      apply (phi_independent cx cy h Hh k x); auto. intros a b. apply (B (eq_sym A)).
    + intros i Hi. apply rsum_ext. intros j' Hj'. rewrite Hij by auto.
      rewrite (I_ext (fun a b => x i * ph i a b * (x j' * ph j' a b)) (fun a b => (x i * x j') * (ph i a b * ph j' a b))) by (intros; ring). rewrite I_scal. ring.
Qed.
Lemma Gab a b : m_at (lm_Gmatrix l) a b = I (fun x y => g 0 a x y * g 0 b x y + g 1 a x y * g 1 b x y).
Proof. apply (mf_G _ _ _ _ _ _ _ LF). Qed.
Lemma G_row a x : rsum (2 * Nk) (fun b => m_at (lm_Gmatrix l) a b * x b) = I (fun s t => g 0 a s t * field 0 x s t + g 1 a s t * field 1 x s t).
Proof.
  rewrite (I_ext _ (fun s t => rsum (2 * Nk) (fun b => x b * (g 0 a s t * g 0 b s t + g 1 a s t * g 1 b s t)))).
  - rewrite I_rsum. apply rsum_ext. intros b Hb. rewrite I_scal, Gab. ring.
  - intros s t. unfold field. rewrite <- !rsum_scal, <- rsum_plus. apply rsum_ext. intros; ring.
Qed.
Lemma G_form x : rsum (2 * Nk) (fun a => rsum (2 * Nk) (fun b => x a * m_at (lm_Gmatrix l) a b * x b)) = I (fun s t => field 0 x s t * field 0 x s t) + I (fun s t => field 1 x s t * field 1 x s t).
Proof.
  rewrite <- I_plus. rewrite (rsum_ext _ _ (fun a => I (fun s t => x a * (g 0 a s t * field 0 x s t + g 1 a s t * field 1 x s t)))).
  - rewrite <- I_rsum. apply I_ext. intros s t. unfold field at 3 5. rewrite <- !rsum_scal_r, <- rsum_plus. apply rsum_ext. intros; ring.
  - intros a Ha. rewrite I_scal, <- G_row, <- rsum_scal. apply rsum_ext. intros; ring.
Qed.
Lemma field_square d x : 0 <= I (fun s t => field d x s t * field d x s t) /\ (I (fun s t => field d x s t * field d x s t) = 0 -> forall s t, field d x s t = 0).
Proof. apply (I_square _ _ _ (poly2_le k (k + 1) _ _ _ ltac:(lia) (field_poly2 d x))). Qed.
Lemma energy_zero x : I (fun s t => field 0 x s t * field 0 x s t) + I (fun s t => field 1 x s t * field 1 x s t) <= 0 -> forall i, (i < 2 * Nk)%nat -> x i = 0.
Proof.
  intros H. destruct (field_square 0 x) as (A0 & B0), (field_square 1 x) as (A1 & B1). apply field_independent. intros d a b Hd. destruct d as [|[|]]; [apply B0; lra|apply B1; lra|lia].
Qed.
Lemma G_pd : positive_definite (lm_Gmatrix l).
Proof.
  destruct (mf_G _ _ _ _ _ _ _ LF) as (h1 & h2 & h3). fold Nk in h1, h2. split; [congruence|]. rewrite h1, h2. split.
  - intros i j Hi Hj. rewrite !Gab. apply I_ext. intros; ring.
  - intros x (j & Hj & Hx). rewrite G_form.
    apply Rnot_le_lt. intros E. apply Hx. apply (energy_zero x E j Hj).
Qed.

(** ** The divergence of any dofs *)
Definition coef (A : Mat) (u : nat -> R) (i : nat) : R := rsum N (fun j => m_at A i j * u j).
Definition div (u : nat -> R) (x y : R) : R := comb Nk (coef (lm_Vmatrix l) u) x y.
Definition outflow (f : R -> R -> R) (u : nat -> R) : R := rsum nb (fun j => w j * (f (X j) (Y j) * (sn j * u j))).
Lemma outflow_ext f f' u : (forall x y, f x y = f' x y) -> outflow f u = outflow f' u.
Proof. intros H. apply rsum_ext. intros j Hj. now rewrite H. Qed.
Lemma outflow_rsum n c (f : nat -> R -> R -> R) u : outflow (fun x y => rsum n (fun i => c i * f i x y)) u = rsum n (fun i => c i * outflow (f i) u).
Proof.
  unfold outflow. rewrite (rsum_ext _ _ (fun j => rsum n (fun i => c i * (w j * (f i (X j) (Y j) * (sn j * u j)))))).
  - rewrite rsum_swap. apply rsum_ext. intros i Hi. now rewrite rsum_scal.
  - intros j Hj. rewrite <- rsum_scal_r, <- rsum_scal. apply rsum_ext. intros; ring.
Qed.

Lemma W_coef i u : (i < Nk)%nat -> coef (lm_Wmatrix l) u i = outflow (ph i) u - (if (i =? 0)%nat then 0 else ms * u (nb + (i - 1))%nat).
Proof.
  intros Hi. destruct (mf_W _ _ _ _ _ _ _ LF) as (_ & _ & w3 & w4). fold Nk nb nn no cx cy h ms in w3, w4. unfold coef, N. rewrite rsum_add. unfold Rminus. f_equal.
  - unfold outflow. apply rsum_ext. intros j Hj. rewrite w3 by auto. ring.
  - destruct (Nat.eqb_spec i 0) as [->|Hi0].
    + rewrite rsum_0; [ring|]. intros c Hc. rewrite w4 by auto. cbn [Nat.eqb]. ring.
    + rewrite (rsum_single _ _ (i - 1)%nat).
      * rewrite w4 by (unfold nn, no, Nk in *; lia). replace (i =? S (i - 1))%nat with true by (symmetry; apply Nat.eqb_eq; lia). ring.
      * unfold nn, no, Nk in *; lia.
      * intros c Hc Hne. rewrite w4 by auto. replace (i =? S c)%nat with false by (symmetry; apply Nat.eqb_neq; lia). ring.
Qed.
Lemma HV i u : (i < Nk)%nat -> rsum Nk (fun c => m_at (lm_Hmatrix l) i c * coef (lm_Vmatrix l) u c) = coef (lm_Wmatrix l) u i.
Proof.
  intros Hi. destruct (mf_H _ _ _ _ _ _ _ LF) as (h1 & h2 & _). destruct (mf_V _ _ _ _ _ _ _ LF) as (v1 & v2 & v3). destruct (mf_W _ _ _ _ _ _ _ LF) as (w1 & w2 & _). fold nv in h1, h2, v1, v2, w1, w2; fold Nk nb nn no in h1, h2, v1, v2, w1, w2; fold N in h1, h2, v1, v2, w1, w2.
  assert (Sol : forall j, (j < N)%nat -> rsum Nk (fun c => m_at (lm_Hmatrix l) i c * m_at (lm_Vmatrix l) c j) = m_at (lm_Wmatrix l) i j).
  { intros j Hj. pose proof (exact_use llt (lm_Hmatrix l) (lm_Wmatrix l) (lm_Hmatrix l) (lm_Vmatrix l) Ellt H_pd eq_refl eq_refl ltac:(auto) ltac:(congruence) v3 i j) as E. rewrite h1, h2, w2 in E. apply E; auto. }
  unfold coef. rewrite (rsum_ext _ _ (fun c => rsum N (fun j => m_at (lm_Hmatrix l) i c * m_at (lm_Vmatrix l) c j * u j))) by (intros; rewrite <- rsum_scal; apply rsum_ext; intros; ring).
  rewrite rsum_swap. apply rsum_ext. intros j Hj. rewrite rsum_scal_r. now rewrite Sol.
Qed.
Lemma I_div f u : I (fun x y => f x y * div u x y) = rsum Nk (fun c => I (fun x y => f x y * ph c x y) * coef (lm_Vmatrix l) u c).
Proof.
  rewrite (I_ext _ (fun x y => rsum Nk (fun c => coef (lm_Vmatrix l) u c * (f x y * ph c x y)))) by (intros; unfold div, comb; rewrite <- rsum_scal; apply rsum_ext; intros; ring).
  rewrite I_rsum. apply rsum_ext. intros c Hc. rewrite I_scal. ring.
Qed.
Lemma div_moment i u : (i < Nk)%nat -> I (fun x y => ph i x y * div u x y) = outflow (ph i) u - (if (i =? 0)%nat then 0 else ms * u (nb + (i - 1))%nat).
Proof. intros Hi. rewrite I_div, <- W_coef, <- HV by auto. apply rsum_ext. intros c Hc. now rewrite Hij by auto. Qed.
Lemma div_parts c u : I (fun x y => comb Nk c x y * div u x y) = outflow (comb Nk c) u - ms * rsum nn (fun i => c (S i) * u (nb + i)%nat).
Proof.
  rewrite (I_ext _ (fun x y => rsum Nk (fun i => c i * (ph i x y * div u x y)))) by (intros; unfold comb; rewrite <- rsum_scal_r; apply rsum_ext; intros; ring).
  rewrite I_rsum. unfold comb at 1. rewrite outflow_rsum.
  rewrite (rsum_ext _ _ (fun i => c i * outflow (ph i) u - c i * (if (i =? 0)%nat then 0 else ms * u (nb + (i - 1))%nat))) by (intros i Hi; rewrite I_scal, div_moment by auto; ring).
  rewrite rsum_minus. f_equal. replace Nk with (S nn) by (unfold nn, Nk in *; lia). rewrite rsum_S_l. cbn [Nat.eqb]. rewrite Rmult_0_r, Rplus_0_l, <- rsum_scal. apply rsum_ext. intros i Hi.
  replace (nb + (S i - 1))%nat with (nb + i)%nat by lia. ring.
Qed.
Lemma conservation u : I (div u) = outflow (fun _ _ => 1) u.
Proof.
  rewrite (I_ext (div u) (fun x y => ph 0 x y * div u x y)) by (intros; rewrite ph0; ring). rewrite div_moment by auto. cbn [Nat.eqb]. rewrite (outflow_ext (ph 0) (fun _ _ => 1)) by (intros; apply ph0). ring.
Qed.

(** ** The projection of any dofs *)
Definition proj (u : nat -> R) (d : nat) (x y : R) : R := field d (coef (lm_Pi0k l) u) x y.
Lemma GP_B a u : (a < 2 * Nk)%nat -> rsum (2 * Nk) (fun c => m_at (lm_Gmatrix l) a c * coef (lm_Pi0k l) u c) = coef (lm_Bmatrix l) u a.
Proof.
  intros Ha. destruct (mf_G _ _ _ _ _ _ _ LF) as (h1 & h2 & _). destruct (mf_P _ _ _ _ _ _ _ LF) as (v1 & v2 & v3). destruct (mf_B _ _ _ _ _ _ _ LF) as (w1 & w2 & _). fold nv in h1, h2, v1, v2, w1, w2; fold Nk nb nn no in h1, h2, v1, v2, w1, w2; fold N in h1, h2, v1, v2, w1, w2.
  assert (Sol : forall j, (j < N)%nat -> rsum (2 * Nk) (fun c => m_at (lm_Gmatrix l) a c * m_at (lm_Pi0k l) c j) = m_at (lm_Bmatrix l) a j).
  { intros j Hj. pose proof (exact_use llt (lm_Gmatrix l) (lm_Bmatrix l) (lm_Gmatrix l) (lm_Pi0k l) Ellt G_pd eq_refl eq_refl ltac:(auto) ltac:(congruence) v3 a j) as E. rewrite h1, h2, w2 in E. apply E; auto. }
  unfold coef. rewrite (rsum_ext _ _ (fun c => rsum N (fun j => m_at (lm_Gmatrix l) a c * m_at (lm_Pi0k l) c j * u j))) by (intros; rewrite <- rsum_scal; apply rsum_ext; intros; ring).
  rewrite rsum_swap. apply rsum_ext. intros j Hj. rewrite rsum_scal_r. now rewrite Sol.
Qed.
Lemma proj_moment a u : (a < 2 * Nk)%nat -> I (fun x y => g 0 a x y * proj u 0 x y + g 1 a x y * proj u 1 x y) = coef (lm_Bmatrix l) u a.
Proof. intros Ha. unfold proj. rewrite <- G_row. now apply GP_B. Qed.
Lemma B_grad a u : (a < NN)%nat -> coef (lm_Bmatrix l) u a = outflow (ph (S a)) u - I (fun x y => ph (S a) x y * div u x y).
Proof.
  intros Ha. assert (b1 : forall j, (j < N)%nat -> m_at (lm_Bmatrix l) a j = - rsum Nk (fun c => I (fun x y => ph (S a) x y * ph c x y) * m_at (lm_Vmatrix l) c j) + (if (j <? nb)%nat then ph (S a) (X j) (Y j) * (w j * sn j) else 0)).
  { intros j Hj. apply (mf_B _ _ _ _ _ _ _ LF); auto. }
  unfold coef at 1.
  rewrite (rsum_ext _ _ (fun j => - (rsum Nk (fun c => I (fun x y => ph (S a) x y * ph c x y) * m_at (lm_Vmatrix l) c j) * u j) + (if (j <? nb)%nat then ph (S a) (X j) (Y j) * (w j * sn j) else 0) * u j)) by (intros j Hj; rewrite b1 by auto; ring).
  rewrite rsum_plus, rsum_opp. rewrite Rplus_comm. unfold Rminus. f_equal.
  - unfold N. rewrite rsum_add. rewrite (rsum_0 (nn + no)) by (intros j Hj; rewrite (ltb_false (nb + j) nb) by lia; ring). rewrite Rplus_0_r. unfold outflow. apply rsum_ext. intros j Hj. rewrite (ltb_true j nb) by auto. ring.
  - f_equal. rewrite I_div. unfold coef. rewrite (rsum_ext N _ (fun j => rsum Nk (fun c => I (fun x y => ph (S a) x y * ph c x y) * (m_at (lm_Vmatrix l) c j * u j)))) by (intros; rewrite <- rsum_scal_r; apply rsum_ext; intros; ring).
    rewrite rsum_swap. apply rsum_ext. intros c Hc. now rewrite rsum_scal.
Qed.
Lemma B_big r u : (r < no)%nat -> coef (lm_Bmatrix l) u (NN + r) = ms * u (nb + nn + r)%nat.
Proof.
  intros Hr. assert (b2 : forall j, (j < N)%nat -> m_at (lm_Bmatrix l) (NN + r) j = if (j =? nb + nn + r)%nat then ms else 0).
  { intros j Hj. apply (mf_B _ _ _ _ _ _ _ LF); auto. }
  unfold coef. rewrite (rsum_single _ _ (nb + nn + r)%nat).
  - rewrite b2 by (unfold N; lia). rewrite Nat.eqb_refl. reflexivity.
  - unfold N. lia.
  - intros j Hj Hne. rewrite b2 by auto. replace (j =? nb + nn + r)%nat with false by (symmetry; apply Nat.eqb_neq; auto). ring.
Qed.
Lemma proj_grad i u : (i < num2 (k + 1))%nat -> I (fun x y => phx i x y * proj u 0 x y + phy i x y * proj u 1 x y) = outflow (ph i) u - I (fun x y => ph i x y * div u x y).
Proof.
  intros Hi. destruct i as [|a].
  - rewrite (I_ext _ (fun _ _ => 0)) by (intros; rewrite phx0, phy0; ring). rewrite I_0, div_moment by auto. cbn [Nat.eqb]. ring.
  - assert (Ha : (a < NN)%nat) by lia. rewrite <- B_grad, <- proj_moment by lia. apply I_ext. intros x y. destruct (g_grad a x y Ha) as (-> & ->). reflexivity.
Qed.
Lemma proj_parts c u : I (fun x y => combx (num2 (k + 1)) c x y * proj u 0 x y + comby (num2 (k + 1)) c x y * proj u 1 x y) =
  outflow (comb (num2 (k + 1)) c) u - I (fun x y => comb (num2 (k + 1)) c x y * div u x y).
Proof.
  rewrite (I_ext _ (fun x y => rsum (num2 (k + 1)) (fun i => c i * (phx i x y * proj u 0 x y + phy i x y * proj u 1 x y)))) by (intros; unfold combx, comby; rewrite <- !rsum_scal_r, <- rsum_plus; apply rsum_ext; intros; ring).
  rewrite I_rsum. unfold comb at 1. rewrite outflow_rsum.
  rewrite (I_ext (fun x y => comb (num2 (k + 1)) c x y * div u x y) (fun x y => rsum (num2 (k + 1)) (fun i => c i * (ph i x y * div u x y)))) by (intros; unfold comb; rewrite <- rsum_scal_r; apply rsum_ext; intros; ring).
  rewrite I_rsum, <- rsum_minus. apply rsum_ext. intros i Hi. rewrite !I_scal, proj_grad by auto. ring.
Qed.
Lemma proj_big r u : (r < no)%nat -> I (fun x y => g 0 (NN + r) x y * proj u 0 x y + g 1 (NN + r) x y * proj u 1 x y) = ms * u (nb + nn + r)%nat.
Proof. intros Hr. rewrite proj_moment by lia. now apply B_big. Qed.

(** ** The dofs of a field *)
Definition dofs (f0 f1 : R -> R -> R) (j : nat) : R :=
  if (j <? nb)%nat then sn j * (f0 (X j) (Y j) * nrm 0 j + f1 (X j) (Y j) * nrm 1 j)
  else if (j <? nb + nn)%nat then / ms * I (fun x y => f0 x y * phx (S (j - nb)) x y + f1 x y * phy (S (j - nb)) x y)
  else / ms * I (fun x y => f0 x y * g 0 (NN + (j - nb - nn)) x y + f1 x y * g 1 (NN + (j - nb - nn)) x y).

Lemma sn_square j : sn j * sn j = 1.
Proof. unfold sg, sgn. destruct (nth _ _ _); ring. Qed.
Lemma outflow_dofs m mx my n f0 f0x f0y f1 f1x f1y : poly2 n m mx my -> poly2 (2 * k + 1 - n) f0 f0x f0y -> poly2 (2 * k + 1 - n) f1 f1x f1y -> (n <= 2 * k + 1)%nat ->
  outflow m (dofs f0 f1) = I (fun x y => m x y * (f0x x y + f1y x y)) + I (fun x y => f0 x y * mx x y + f1 x y * my x y).
Proof.
  intros PM P0 P1 Hn. pose proof (poly2_mult _ _ _ _ _ _ _ _ PM P0) as Q0. pose proof (poly2_mult _ _ _ _ _ _ _ _ PM P1) as Q1. replace (n + (2 * k + 1 - n))%nat with (2 * k + 1)%nat in Q0, Q1 by lia.
  destruct (mf_green _ _ _ _ _ _ _ LF _ _ _ Q0) as (E0 & _). destruct (mf_green _ _ _ _ _ _ _ LF _ _ _ Q1) as (_ & E1). fold nv nb in E0, E1.
  transitivity (rsum nb (fun j => w j * (m (X j) (Y j) * f0 (X j) (Y j) * nrm 0 j)) + rsum nb (fun j => w j * (m (X j) (Y j) * f1 (X j) (Y j) * nrm 1 j))).
  - unfold outflow. rewrite <- rsum_plus. apply rsum_ext. intros j Hj. unfold dofs. rewrite (ltb_true j nb) by auto. pose proof (sn_square j) as E.
    transitivity (w j * (m (X j) (Y j) * ((sn j * sn j) * (f0 (X j) (Y j) * nrm 0 j + f1 (X j) (Y j) * nrm 1 j)))); [ring|]. rewrite E. ring.
  - rewrite <- E0, <- E1, <- !I_plus. apply I_ext. intros; ring.
Qed.
Lemma dofs_nabla f0 f1 c : (c < nn)%nat -> ms * dofs f0 f1 (nb + c) = I (fun x y => f0 x y * phx (S c) x y + f1 x y * phy (S c) x y).
Proof.
  intros Hc. unfold dofs. rewrite (ltb_false (nb + c) nb) by lia. rewrite (ltb_true (nb + c) (nb + nn)) by lia. replace (nb + c - nb)%nat with c by lia. rewrite <- Rmult_assoc, Rinv_r by auto. ring.
Qed.
Lemma dofs_big f0 f1 r : (r < no)%nat -> ms * dofs f0 f1 (nb + nn + r) = I (fun x y => f0 x y * g 0 (NN + r) x y + f1 x y * g 1 (NN + r) x y).
Proof.
  intros Hc. unfold dofs. rewrite (ltb_false (nb + nn + r) nb) by lia. rewrite (ltb_false (nb + nn + r) (nb + nn)) by lia. replace (nb + nn + r - nb - nn)%nat with r by lia. rewrite <- Rmult_assoc, Rinv_r by auto. ring.
Qed.
Lemma poly2_derivatives n f fx fy : poly2 (n + 1) f fx fy -> exists fxx fxy fyy, poly2 n fx fxx fxy /\ poly2 n fy fxy fyy.
Proof.
  intros P. destruct (phi_represent cx cy h Hh (n + 1) _ _ _ P) as (c & _ & CX & CY).
  exists (fun x y => rsum (num2 (n + 1)) (fun j => c j * phixx cx cy h j x y)), (fun x y => rsum (num2 (n + 1)) (fun j => c j * phixy cx cy h j x y)), (fun x y => rsum (num2 (n + 1)) (fun j => c j * phiyy cx cy h j x y)). split.
  - eapply poly2_ext; [apply (poly2_rsum n (num2 (n + 1)) (fun j x y => c j * phx j x y) (fun j x y => c j * phixx cx cy h j x y) (fun j x y => c j * phixy cx cy h j x y))| | |]; try (intros; auto).
    apply poly2_scal. pose proof (phix_poly2 cx cy h Hh (n + 1) i ltac:(lia) H) as Q. replace (n + 1 - 1)%nat with n in Q by lia. exact Q.
  - eapply poly2_ext; [apply (poly2_rsum n (num2 (n + 1)) (fun j x y => c j * phy j x y) (fun j x y => c j * phixy cx cy h j x y) (fun j x y => c j * phiyy cx cy h j x y))| | |]; try (intros; auto).
    apply poly2_scal. pose proof (phiy_poly2 cx cy h Hh (n + 1) i ltac:(lia) H) as Q. replace (n + 1 - 1)%nat with n in Q by lia. exact Q.
Qed.
Lemma orth_zero n f fx fy : (n <= k + 1)%nat -> poly2 n f fx fy -> (forall i, (i < num2 n)%nat -> I (fun x y => ph i x y * f x y) = 0) -> forall x y, f x y = 0.
Proof.
  intros Hn P H. apply (proj2 (I_square f fx fy (poly2_le n (k + 1) _ _ _ Hn P))). destruct (phi_represent cx cy h Hh n _ _ _ P) as (c & C & _).
  rewrite (I_ext _ (fun x y => rsum (num2 n) (fun i => c i * (ph i x y * f x y)))) by (intros; rewrite C at 1; rewrite <- rsum_scal_r; apply rsum_ext; intros; ring).
  rewrite I_rsum. apply rsum_0. intros i Hi. rewrite I_scal, H by auto. ring.
Qed.
Lemma div_exact f0 f0x f0y f1 f1x f1y : poly2 (k + 1) f0 f0x f0y -> poly2 (k + 1) f1 f1x f1y -> forall x y, div (dofs f0 f1) x y = f0x x y + f1y x y.
Proof.
  intros P0 P1. destruct (poly2_derivatives _ _ _ _ P0) as (a1 & a2 & a3 & Q0 & _). destruct (poly2_derivatives _ _ _ _ P1) as (b1 & b2 & b3 & _ & Q1).
  set (u := dofs f0 f1).
  assert (PD : poly2 k (fun x y => div u x y + -1 * (f0x x y + f1y x y)) (fun x y => combx Nk (coef (lm_Vmatrix l) u) x y + -1 * (a1 x y + b2 x y)) (fun x y => comby Nk (coef (lm_Vmatrix l) u) x y + -1 * (a2 x y + b3 x y))).
  { apply poly2_add; [apply (comb_poly2 k (coef (lm_Vmatrix l) u))|]. apply (poly2_scal k (-1)). now apply poly2_add. }
  intros x y. assert (Z := orth_zero k _ _ _ ltac:(lia) PD). cbv beta in Z. cut (div u x y + -1 * (f0x x y + f1y x y) = 0); [lra|]. apply Z.
  intros i Hi. fold Nk in Hi. rewrite (I_ext _ (fun x y => ph i x y * div u x y + -1 * (ph i x y * (f0x x y + f1y x y)))) by (intros; ring). rewrite I_plus, I_scal, div_moment by auto.
  replace (2 * k + 1)%nat with (k + (k + 1))%nat in * by lia.
  pose proof (outflow_dofs (ph i) (phx i) (phy i) k f0 f0x f0y f1 f1x f1y (phi_k cx cy h Hh k i Hi)) as G. replace (2 * k + 1 - k)%nat with (k + 1)%nat in G by lia. unfold u. rewrite (G P0 P1 ltac:(lia)).
  destruct (Nat.eqb_spec i 0) as [->|Hi0].
  - rewrite (I_ext (fun x y => f0 x y * phx 0 x y + f1 x y * phy 0 x y) (fun _ _ => 0)) by (intros; rewrite phx0, phy0; ring). rewrite I_0. lra.
  - rewrite (dofs_nabla f0 f1 (i - 1)) by (unfold nn, Nk in *; lia). replace (S (i - 1)) with i by lia. lra.
Qed.
Lemma B_dofs a f0 f0x f0y f1 f1x f1y : (a < 2 * Nk)%nat -> poly2 k f0 f0x f0y -> poly2 k f1 f1x f1y ->
  coef (lm_Bmatrix l) (dofs f0 f1) a = I (fun x y => g 0 a x y * f0 x y + g 1 a x y * f1 x y).
Proof.
  intros Ha P0 P1. destruct (Nat.ltb_spec a NN) as [H|H].
  - rewrite B_grad by auto. pose proof (outflow_dofs (ph (S a)) (phx (S a)) (phy (S a)) (k + 1) f0 f0x f0y f1 f1x f1y (phi_k cx cy h Hh (k + 1) (S a) ltac:(lia))) as G. replace (2 * k + 1 - (k + 1))%nat with k in G by lia. rewrite (G P0 P1 ltac:(lia)).
    rewrite (I_ext (fun x y => ph (S a) x y * div (dofs f0 f1) x y) (fun x y => ph (S a) x y * (f0x x y + f1y x y))) by (intros; now rewrite (div_exact f0 f0x f0y f1 f1x f1y (poly2_le k (k + 1) _ _ _ ltac:(lia) P0) (poly2_le k (k + 1) _ _ _ ltac:(lia) P1))).
    rewrite (I_ext (fun x y => g 0 a x y * f0 x y + g 1 a x y * f1 x y) (fun x y => f0 x y * phx (S a) x y + f1 x y * phy (S a) x y)) by (intros x y; destruct (g_grad a x y H) as (-> & ->); ring). ring.
  - replace a with (NN + (a - NN))%nat by lia. rewrite B_big, dofs_big by lia. apply I_ext. intros; ring.
Qed.
(** the projection of the dofs of a polynomial field is the field *)
Lemma proj_coef x i : (i < 2 * Nk)%nat -> coef (lm_Pi0k l) (dofs (field 0 x) (field 1 x)) i = x i.
Proof.
  intros Hi. apply (cancel (lm_Gmatrix l) (2 * Nk) _ _ (pd_nonsingular _ G_pd)); [apply (mf_G _ _ _ _ _ _ _ LF)| |auto].
  destruct (mf_G _ _ _ _ _ _ _ LF) as (-> & _). fold Nk. intros a Ha. rewrite GP_B, G_row by auto. apply (B_dofs a _ _ _ _ _ _ Ha (field_poly2 0 x) (field_poly2 1 x)).
Qed.
Lemma dofs_ext f0 f1 f0' f1' j : (forall x y, f0 x y = f0' x y /\ f1 x y = f1' x y) -> dofs f0 f1 j = dofs f0' f1' j.
Proof.
  intros H. unfold dofs. destruct (j <? nb)%nat; [destruct (H (X j) (Y j)) as (-> & ->); reflexivity|].
  destruct (j <? nb + nn)%nat; f_equal; apply I_ext; intros x y; destruct (H x y) as (-> & ->); reflexivity.
Qed.
Lemma coef_ext A u u' i : (forall j, (j < N)%nat -> u j = u' j) -> coef A u i = coef A u' i.
Proof. intros H. apply rsum_ext. intros j Hj. now rewrite H. Qed.
Lemma proj_exact f0 f0x f0y f1 f1x f1y : poly2 k f0 f0x f0y -> poly2 k f1 f1x f1y -> forall x y, proj (dofs f0 f1) 0 x y = f0 x y /\ proj (dofs f0 f1) 1 x y = f1 x y.
Proof.
  intros P0 P1 x y. destruct (field_span _ _ _ _ _ _ P0 P1) as (c & C). destruct (C x y) as (E0 & E1). rewrite E0, E1. unfold proj, field.
  split; apply rsum_ext; intros i Hi; rewrite <- (proj_coef c i Hi); f_equal; apply coef_ext; intros j Hj; apply dofs_ext; intros; destruct (C x0 y0); auto.
Qed.

(** ** The dofs of the vector polynomials and the stabilisation *)
Lemma D_dofs x j : (j < N)%nat -> rsum (2 * Nk) (fun a => m_at (lm_Dmatrix l) j a * x a) = dofs (field 0 x) (field 1 x) j.
Proof.
  intros Hj. destruct (mf_D _ _ _ _ _ _ _ LF) as (_ & _ & e1' & e2' & e3').
  assert (e1 : forall j a, (j < nb)%nat -> (a < 2 * Nk)%nat -> m_at (lm_Dmatrix l) j a = sn j * (g 0 a (X j) (Y j) * nrm 0 j + g 1 a (X j) (Y j) * nrm 1 j)) by exact e1'.
  assert (e2 : forall c a, (c < nn)%nat -> (a < 2 * Nk)%nat -> m_at (lm_Dmatrix l) (nb + c) a = / ms * m_at (lm_Gmatrix l) c a) by exact e2'.
  assert (e3 : forall r a, (r < no)%nat -> (a < 2 * Nk)%nat -> m_at (lm_Dmatrix l) (nb + nn + r) a = / ms * m_at (lm_Gmatrix l) (NN + r) a) by exact e3'. clear e1' e2' e3'.
  assert (SYM : forall a b, m_at (lm_Gmatrix l) a b = m_at (lm_Gmatrix l) b a) by (intros; rewrite !Gab; apply I_ext; intros; ring).
  unfold dofs. destruct (Nat.ltb_spec j nb) as [H|H]; [|destruct (Nat.ltb_spec j (nb + nn)) as [H'|H']].
  - rewrite (rsum_ext _ _ (fun a => sn j * (x a * g 0 a (X j) (Y j) * nrm 0 j + x a * g 1 a (X j) (Y j) * nrm 1 j))) by (intros a Ha; rewrite e1 by auto; ring).
    rewrite rsum_scal, rsum_plus, !rsum_scal_r. reflexivity.
  - set (c := (j - nb)%nat). rewrite (rsum_ext _ _ (fun a => / ms * (m_at (lm_Gmatrix l) c a * x a))) by (intros a Ha; replace j with (nb + c)%nat by (unfold c; lia); rewrite e2 by (unfold c; lia); ring).
    rewrite rsum_scal, G_row. f_equal. apply I_ext. intros s t. destruct (g_grad c s t ltac:(unfold c, nn, NN, Nk in *; lia)) as (-> & ->). ring.
  - set (r := (j - nb - nn)%nat). rewrite (rsum_ext _ _ (fun a => / ms * (m_at (lm_Gmatrix l) (NN + r) a * x a))) by (intros a Ha; replace j with (nb + nn + r)%nat by (unfold r; lia); rewrite e3 by (unfold r, N in *; lia); ring).
    rewrite rsum_scal, G_row. f_equal. apply I_ext. intros s t. ring.
Qed.
(** the internal dofs of the projection are those given *)
Lemma proj_internal u c : (c < nn + no)%nat -> dofs (proj u 0) (proj u 1) (nb + c) = u (nb + c)%nat.
Proof.
  intros Hc. apply (Rmult_eq_reg_l ms); auto. destruct (Nat.ltb_spec c nn) as [H|H].
  - rewrite dofs_nabla by auto. rewrite (I_ext _ (fun x y => phx (S c) x y * proj u 0 x y + phy (S c) x y * proj u 1 x y)) by (intros; ring).
    rewrite proj_grad, div_moment by (unfold nn, NN, Nk in *; lia). cbn [Nat.eqb]. replace (nb + (S c - 1))%nat with (nb + c)%nat by lia. ring.
  - replace (nb + c)%nat with (nb + nn + (c - nn))%nat by lia. rewrite dofs_big by lia. rewrite <- proj_big by lia. apply I_ext. intros; ring.
Qed.

(** ** The divergence reaches every polynomial *)
Lemma weights_sum : rsum nb w = rsum nv (fun i => Rabs (v_at (pg_EdgesLength p) i)).
Proof.
  pose proof (mf_sum _ _ _ _ _ _ _ LF (fun _ => 1)) as E. destruct (mf_BQ _ _ _ _ _ _ _ LF) as (_ & V). fold (mcc_boundary_points l) in V. rewrite (mf_BQn _ _ _ _ _ _ _ LF) in V. unfold apply_rule in E. rewrite V in E. fold nv nb in E.
  transitivity (rsum nb (fun q => v_at (q_Weights (eq_Quadrature (lm_BoundaryQuadrature l))) q * 1)); [apply rsum_ext; intros; unfold bw; ring|]. rewrite E. apply rsum_ext. intros i Hi.
  pose proof (gm_segment_exact _ _ _ GR 0%nat ltac:(lia)) as S1. unfold apply_rule in S1. rewrite (proj2 (gm_segment _ _ _ GR)), (gm_segment_points _ _ _ GR) in S1.
  rewrite (rsum_ext _ _ (fun q => v_at (q_Weights (gs (2 * k + 1)%nat)) q * m_at (q_Points (gs (2 * k + 1)%nat)) 0 q ^ 0)) by (intros; cbn [pow]; ring). rewrite S1. cbn [Nat.add INR]. field.
Qed.
Lemma weights_pos : 0 < rsum nb w.
Proof.
  rewrite weights_sum. destruct (rsum_nonneg nv (fun i => Rabs (v_at (pg_EdgesLength p) i)) ltac:(intros; apply Rabs_pos)) as [A|A]; auto.
  exfalso. symmetry in A. assert (Z : forall i, (i < nv)%nat -> v_at (pg_EdgesLength p) i = 0).
  { intros i Hi. pose proof (rsum_nonneg_0 _ _ ltac:(intros; apply Rabs_pos) A i Hi) as E. cbv beta in E. destruct (Req_dec (v_at (pg_EdgesLength p) i) 0) as [|Q]; auto. apply Rabs_no_R0 in Q. lra. }
  pose proof (gp_area _ GP) as Sp. unfold shoelace in Sp. fold nv in Sp. rewrite (rsum_0 nv) in Sp; [lra|]. intros i Hi. cbv zeta.
  pose proof (gp_normals _ GP i Hi) as (N1 & N2). cbv zeta in N1, N2. fold nv in N1, N2. rewrite (Z i Hi), Rabs_R0, Rmult_0_r in N1, N2.
  set (j := following nv i) in *. replace (m_at (pg_Vertices p) 1 j) with (m_at (pg_Vertices p) 1 i) by lra. replace (m_at (pg_Vertices p) 0 j) with (m_at (pg_Vertices p) 0 i) by lra. ring.
Qed.
Lemma div_onto q qx qy : poly2 k q qx qy -> exists u, forall x y, div u x y = q x y.
Proof.
  intros P. set (t := I q / rsum nb w). pose proof weights_pos as WP.
  set (u0 := fun j => if (j <? nb)%nat then sn j * t else 0).
  set (u := fun j => if (j <? nb)%nat then sn j * t else (outflow (ph (S (j - nb))) u0 - I (fun x y => ph (S (j - nb)) x y * q x y)) / ms).
  assert (OE : forall f, outflow f u = outflow f u0) by (intros f; apply rsum_ext; intros j Hj; unfold u, u0; now rewrite (ltb_true j nb) by auto).
  exists u. intros x y. cut (div u x y + -1 * q x y = 0); [lra|]. revert x y.
  apply (orth_zero k (fun x y => div u x y + -1 * q x y) (fun x y => combx Nk (coef (lm_Vmatrix l) u) x y + -1 * qx x y) (fun x y => comby Nk (coef (lm_Vmatrix l) u) x y + -1 * qy x y)); [lia| |].
  { apply poly2_add; [apply (comb_poly2 k (coef (lm_Vmatrix l) u))|]. now apply (poly2_scal k (-1)). }
  intros i Hi. fold Nk in Hi. rewrite (I_ext _ (fun x y => ph i x y * div u x y + -1 * (ph i x y * q x y))) by (intros; ring). rewrite I_plus, I_scal, div_moment, OE by auto.
  destruct (Nat.eqb_spec i 0) as [->|Hi0].
  - rewrite (I_ext (fun x y => ph 0 x y * q x y) q) by (intros; rewrite ph0; ring). unfold outflow. rewrite (rsum_ext _ _ (fun j => w j * t)).
    + rewrite rsum_scal_r. unfold t. field. lra.
    + intros j Hj. unfold u0. rewrite (ltb_true j nb) by auto. rewrite ph0. pose proof (sn_square j). transitivity (w j * (sn j * sn j * t)); [ring|]. rewrite H. ring.
  - unfold u. rewrite (ltb_false (nb + (i - 1)) nb) by lia. replace (S (nb + (i - 1) - nb)) with i by lia. field. auto.
Qed.
End Space.
