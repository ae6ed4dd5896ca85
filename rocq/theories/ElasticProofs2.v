From Coq Require Import List Arith Bool Reals Lia Lra.
From Verif Require Import Base RSum MatrixModel EquationModel EquationSpec EquationProofs VemQuadModel VemModel DriverModel DriverProofs3 DriverProofs5 ElasticModel ElasticSpec ElasticProofs.
Import ListNotations.
Local Open Scope R_scope.

Definition unit_at (i j : nat) : R := if (j =? i)%nat then 1 else 0.
Lemma unit_sum N i f : (i < N)%nat -> rsum N (fun j => unit_at i j * f j) = f i.
Proof.
  intros Hi. rewrite (rsum_single N (fun j => unit_at i j * f j) i); auto.
  - unfold unit_at. rewrite Nat.eqb_refl. ring.
  - intros j Hj Hne. unfold unit_at. destruct (Nat.eqb_spec j i) as [E|E]; [congruence|ring].
Qed.
Lemma bilinear_unit_l N A i y : (i < N)%nat -> bilinear N A (unit_at i) y = rsum N (fun j => m_at A i j * y j).
Proof.
  intros Hi. unfold bilinear. transitivity (rsum N (fun a => unit_at i a * rsum N (fun j => m_at A a j * y j))).
  - apply rsum_ext. intros a _. rewrite <- rsum_scal. apply rsum_ext. intros; ring.
  - apply (unit_sum N i (fun a => rsum N (fun j => m_at A a j * y j))). exact Hi.
Qed.
Lemma bilinear_unit N A i j : (i < N)%nat -> (j < N)%nat -> bilinear N A (unit_at i) (unit_at j) = m_at A i j.
Proof.
  intros Hi Hj. rewrite bilinear_unit_l by auto. rewrite <- (unit_sum N j (fun b => m_at A i b)) by auto. apply rsum_ext. intros; ring.
Qed.
Lemma bilinear_sym n S x y : (forall i j, (i < n)%nat -> (j < n)%nat -> m_at S i j = m_at S j i) -> bilinear n S x y = bilinear n S y x.
Proof.
  intros H. unfold bilinear. rewrite rsum_swap. apply rsum_ext. intros i Hi. apply rsum_ext. intros j Hj. rewrite (H j i) by auto. ring.
Qed.
Lemma rsum_zero_each N (f : nat -> R) : (forall i, (i < N)%nat -> 0 <= f i) -> rsum N f = 0 -> forall i, (i < N)%nat -> f i = 0.
Proof.
  induction N as [|N IH]; intros Hp Hz i Hi; [lia|]. cbn [rsum] in Hz.
  assert (H1 : 0 <= rsum N f) by (apply rsum_nonneg; intros; apply Hp; lia). assert (H2 : 0 <= f N) by (apply Hp; lia).
  destruct (Nat.eq_dec i N) as [->|Hne]; [lra|]. apply IH; try lia; [intros; apply Hp; lia|lra].
Qed.

Lemma zero_point w m X L : 0 < w -> 0 < m -> 0 <= L -> 0 <= X -> w * (2 * m * X + L) = 0 -> X = 0.
Proof.
  intros Hw Hm HL HX Z. apply Rmult_integral in Z. destruct Z as [Z|Z]; [lra|]. assert (H3 : 0 <= 2 * m * X) by (apply Rmult_le_pos; lra).
  assert (H4 : 2 * m * X = 0) by lra. apply Rmult_integral in H4. destruct H4 as [H4|H4]; [lra|exact H4].
Qed.

Section Cell.
Variables (sp : LocalSpace) (n : nat) (Q : QuadratureData) (V D0 D1 S : Mat) (P : ElasticProblem) (A : Mat) (b : Vec).
Hypothesis SE : scalar_element sp n Q V D0 D1 S.
Hypothesis E : elastic_cell sp P = Ok (A, b).
Local Notation nq := (v_size (q_Weights Q)).

Lemma form_of : exists k, largest Q (el_mu P) k /\ forall u v, bilinear (2 * n) A v u = elastic_form n Q D0 D1 S P k u v.
Proof.
  destruct (cell_form sp n Q V D0 D1 S SE P) as (A' & b' & k & E' & _ & _ & L & F & _). rewrite E in E'. injection E' as <- <-. exists k. auto.
Qed.
Lemma cell_symmetric : (forall i j, (i < n)%nat -> (j < n)%nat -> m_at S i j = m_at S j i) -> forall i j, (i < 2 * n)%nat -> (j < 2 * n)%nat -> m_at A i j = m_at A j i.
Proof.
  intros H i j Hi Hj. destruct form_of as (k & _ & F). rewrite <- (bilinear_unit (2 * n) A i j), <- (bilinear_unit (2 * n) A j i) by auto.
  rewrite !F. unfold elastic_form. f_equal.
  - apply rsum_ext. intros q _. cbn [rsum]. ring.
  - f_equal. apply rsum_ext. intros d _. apply bilinear_sym. exact H.
Qed.
Lemma largest_nonneg f k : largest Q f k -> 0 <= k.
Proof. intros (_ & q & _ & <-). apply Rabs_pos. Qed.
Lemma squares4 n' (a c : nat) (D0' D1' : Mat) u q : 0 <= strain n' D0' D1' u a c q * strain n' D0' D1' u a c q.
Proof. apply Rle_0_sqr. Qed.
Section Sign.
Hypothesis W : forall q, (q < nq)%nat -> 0 <= v_at (q_Weights Q) q /\ 0 <= at_quadrature Q (el_mu P) q /\ 0 <= at_quadrature Q (el_lambda P) q.
Hypothesis SP : forall x, 0 <= bilinear n S x x.
Lemma point_nonneg u q : (q < nq)%nat -> 0 <= v_at (q_Weights Q) q *
    (2 * at_quadrature Q (el_mu P) q * rsum 2 (fun a => rsum 2 (fun c => strain n D0 D1 u a c q * strain n D0 D1 u a c q)) +
     at_quadrature Q (el_lambda P) q * (divergence n D0 D1 u q * divergence n D0 D1 u q)).
Proof.
  intros Hq. destruct (W q Hq) as (W1 & W2 & W3). apply Rmult_le_pos; auto. apply Rplus_le_le_0_compat; apply Rmult_le_pos; auto.
  - lra.
  - apply rsum_nonneg. intros a _. apply rsum_nonneg. intros c _. apply squares4.
  - apply Rle_0_sqr.
Qed.
Lemma cell_nonneg u : 0 <= bilinear (2 * n) A u u.
Proof.
  destruct form_of as (k & L & F). rewrite F. unfold elastic_form. apply Rplus_le_le_0_compat.
  - apply rsum_nonneg. intros q Hq. apply point_nonneg. exact Hq.
  - apply Rmult_le_pos; [apply (largest_nonneg _ _ L)|]. apply rsum_nonneg. intros d _. apply SP.
Qed.
Lemma cell_zero_energy u : (forall q, (q < nq)%nat -> 0 < v_at (q_Weights Q) q /\ 0 < at_quadrature Q (el_mu P) q) -> bilinear (2 * n) A u u = 0 ->
  (forall q a c, (q < nq)%nat -> (a < 2)%nat -> (c < 2)%nat -> strain n D0 D1 u a c q = 0) /\ forall d, (d < 2)%nat -> bilinear n S (half n d u) (half n d u) = 0.
Proof.
  intros Wp Z. destruct form_of as (k & L & F). rewrite F in Z. unfold elastic_form in Z.
  match type of Z with ?X + k * ?Y = 0 => assert (HX : 0 <= X) by (apply rsum_nonneg; intros q Hq; apply point_nonneg; exact Hq);
    assert (HY : 0 <= Y) by (apply rsum_nonneg; intros d _; apply SP) end.
  assert (Hk : 0 < k).
  { destruct (se_points _ _ _ _ _ _ _ SE) as (_ & _ & R3'). destruct L as (U & _). destruct (Wp 0%nat R3') as (_ & M0). specialize (U 0%nat R3').
    rewrite Rabs_pos_eq in U by lra. lra. }
  assert (HkY : 0 <= k * rsum 2 (fun d => bilinear n S (half n d u) (half n d u))) by (apply Rmult_le_pos; lra).
  split.
  - intros q a c Hq Ha Hc.
    match type of Z with ?X + _ = 0 => assert (ZX : X = 0) by lra end.
    pose proof (rsum_zero_each nq _ (fun q Hq => point_nonneg u q Hq) ZX q Hq) as Zq. cbv beta in Zq. destruct (Wp q Hq) as (P1 & P2). destruct (W q Hq) as (_ & _ & P3).
    assert (H0 : 0 <= rsum 2 (fun a => rsum 2 (fun c => strain n D0 D1 u a c q * strain n D0 D1 u a c q))) by (apply rsum_nonneg; intros; apply rsum_nonneg; intros; apply squares4).
    assert (H1 : rsum 2 (fun a => rsum 2 (fun c => strain n D0 D1 u a c q * strain n D0 D1 u a c q)) = 0).
    { assert (H2 : 0 <= at_quadrature Q (el_lambda P) q * (divergence n D0 D1 u q * divergence n D0 D1 u q)) by (apply Rmult_le_pos; [exact P3|apply Rle_0_sqr]).
      exact (zero_point _ _ _ _ P1 P2 H2 H0 Zq). }
    pose proof (rsum_zero_each 2 _ (fun a _ => rsum_nonneg 2 _ (fun c _ => squares4 n a c D0 D1 u q)) H1 a Ha) as H5. cbv beta in H5.
    pose proof (rsum_zero_each 2 _ (fun c _ => squares4 n a c D0 D1 u q) H5 c Hc) as H6. cbv beta in H6. apply Rmult_integral in H6. tauto.
  - intros d Hd. apply (rsum_zero_each 2 (fun d => bilinear n S (half n d u) (half n d u))); [intros; apply SP| |exact Hd].
    assert (H4 : k * rsum 2 (fun d => bilinear n S (half n d u) (half n d u)) = 0) by lra. apply Rmult_integral in H4. destruct H4 as [H4|H4]; lra.
Qed.
End Sign.

Lemma rigid_gradient (T : Mat) one x y a c r q : forall d, (d < 2)%nat ->
  rsum n (fun j => m_at T q j * rigid n one x y a c r (d * n + j)%nat) =
  match d with O => a * rsum n (fun j => m_at T q j * one j) - r * rsum n (fun j => m_at T q j * y j)
             | _ => c * rsum n (fun j => m_at T q j * one j) + r * rsum n (fun j => m_at T q j * x j) end.
Proof.
  intros d Hd. destruct d as [|[|d]]; [| |lia].
  - rewrite <- !rsum_scal, <- rsum_minus. apply rsum_ext. intros j Hj. unfold rigid. replace (0 * n + j)%nat with j by lia. rewrite (proj2 (Nat.ltb_lt j n) Hj). ring.
  - rewrite <- !rsum_scal, <- rsum_plus. apply rsum_ext. intros j Hj. unfold rigid. replace (1 * n + j <? n)%nat with false by (symmetry; apply Nat.ltb_ge; lia).
    replace (1 * n + j - n)%nat with j by lia. ring.
Qed.
Lemma cell_rigid one x y : linear_functions n Q D0 D1 S one x y -> forall a c r i, (i < 2 * n)%nat ->
  rsum (2 * n) (fun j => m_at A i j * rigid n one x y a c r j) = 0.
Proof.
  intros (LD & LS) a c r i Hi. destruct form_of as (k & _ & F). rewrite <- bilinear_unit_l by auto. rewrite F. unfold elastic_form.
  match goal with |- ?X + k * ?Y = 0 => assert (HX : X = 0); [|assert (HY : Y = 0); [|rewrite HX, HY; ring]] end.
  - apply rsum_0. intros q Hq. destruct (LD q Hq) as (L1 & L2 & L3 & L4 & L5 & L6).
    assert (T : strain n D0 D1 (rigid n one x y a c r) 0 0 q = 0 /\ strain n D0 D1 (rigid n one x y a c r) 0 1 q = 0 /\
      strain n D0 D1 (rigid n one x y a c r) 1 0 q = 0 /\ strain n D0 D1 (rigid n one x y a c r) 1 1 q = 0 /\ divergence n D0 D1 (rigid n one x y a c r) q = 0).
    { unfold divergence, strain, gradient. rewrite !rigid_gradient by lia. cbn match. rewrite L1, L2, L3, L4, L5, L6. repeat split; field. }
    destruct T as (T1 & T2 & T3 & T4 & T5). cbn [rsum]. rewrite T1, T2, T3, T4, T5. ring.
  - apply rsum_0. intros d Hd. unfold bilinear. apply rsum_0. intros p Hp. destruct (LS p Hp) as (L1 & L2 & L3).
    transitivity (half n d (unit_at i) p * rsum n (fun j => m_at S p j * rigid n one x y a c r (d * n + j)%nat)).
    + rewrite <- rsum_scal. apply rsum_ext. intros j _. unfold half. ring.
    + rewrite rigid_gradient by lia. destruct d; rewrite L1, ?L2, ?L3; ring.
Qed.
End Cell.

Lemma cell_errors sp n Q V D0 D1 S : scalar_element sp n Q V D0 D1 S -> forall x xd u, sized (2 * n) u ->
  exists r, elastic_errors sp x xd u = Ok r /\
  ee_error_L2 r = rsum (v_size (q_Weights Q)) (fun q => v_at (q_Weights Q) q * rsum 2 (fun a => (displacement n V (v_at u) a q - at_quadrature Q (fun s t z => x s t z a) q) ^ 2)) /\
  ee_norm_L2 r = rsum (v_size (q_Weights Q)) (fun q => v_at (q_Weights Q) q * rsum 2 (fun a => displacement n V (v_at u) a q ^ 2)) /\
  ee_error_H1 r = rsum (v_size (q_Weights Q)) (fun q => v_at (q_Weights Q) q *
    rsum 2 (fun a => rsum 2 (fun c => (gradient n D0 D1 (v_at u) a c q - at_quadrature Q (fun s t z => xd s t z (3 * a + c)%nat) q) ^ 2))) /\
  ee_norm_H1 r = rsum (v_size (q_Weights Q)) (fun q => v_at (q_Weights Q) q * rsum 2 (fun a => rsum 2 (fun c => gradient n D0 D1 (v_at u) a c q ^ 2))).
Proof.
  intros SE x xd u Su. destruct (se_points _ _ _ _ _ _ _ SE) as (R1' & R2' & R3'). unfold sized in Su.
  unfold elastic_errors. rewrite (se_quadrature _ _ _ _ _ _ _ SE), (values_ok _ _ _ _ _ _ _ SE). cbn [bind]. rewrite (derivatives_ok _ _ _ _ _ _ _ SE). cbn [bind].
  unfold function_evaluation_array, for_loop. cbn [for_from]. rewrite !(evaluation_ok _ _ _ _ _ _ _ SE). cbn [bind app]. rewrite R2'.
  cbn [idx_ nth_error bind Nat.mul Nat.add].
  assert (MV : forall d M, mmulv (placed (v_size (q_Weights Q)) n d M) u = Ok {| v_size := v_size (q_Weights Q); v_at := fun i => rsum (2 * n) (fun j => m_at (placed (v_size (q_Weights Q)) n d M) i j * v_at u j) |}).
  { intros d M. unfold mmulv. cbn [placed m_cols m_rows]. rewrite Su, Nat.eqb_refl. reflexivity. }
  rewrite !MV. unfold vsub, vadd, vdot. repeat (progress (cbn [bind v_size vzero vsquare]; rewrite ?Nat.eqb_refl)). rewrite ?MV.
  repeat (progress (cbn [bind v_size vzero vsquare]; rewrite ?MV, ?Nat.eqb_refl)).
  eexists. split; [reflexivity|]. cbn [ee_error_L2 ee_norm_L2 ee_error_H1 ee_norm_H1].
  repeat split; apply rsum_ext; intros q _; f_equal; cbn [vsquare v_at vzero rsum]; rewrite !placed_sum by lia; unfold displacement, gradient; cbn [Nat.mul Nat.add]; ring.
Qed.

Lemma lame_wrong E nu : 0 < E -> 0 <= nu < 1 / 2 -> fst (lame_of E nu) <> E / (2 * (1 + nu)) /\ snd (lame_of E nu) = E * nu / ((1 + nu) * (1 - 2 * nu)) /\
  fst (lame_of E nu) = 4 * (1 + nu) ^ 2 * (E / (2 * (1 + nu))).
Proof.
  intros HE Hn. unfold lame_of. cbn [fst snd]. assert (H3 : E * (2 * (1 + nu)) = 4 * (1 + nu) ^ 2 * (E / (2 * (1 + nu)))) by (field; lra).
  split; [|split; [reflexivity|exact H3]]. rewrite H3. assert (0 < E / (2 * (1 + nu))) by (apply Rdiv_lt_0_compat; lra). nra.
Qed.
