(** Proofs: the points of a rule of k + 1 points with both ends, exact for degree 2 k - 1, are distinct. *)
From Coq Require Import List Arith Bool Reals Lia Lra.
From Verif Require Import Base RSum MatrixModel LagrangeModel LagrangeSpec LagrangeProofs VemQuadModel VemQuadSpec GreenSpec GreenProofs PolyProofs Pcc2dProofs4.
Import ListNotations.
Local Open Scope R_scope.

Lemma rprod_zero n f j : (j < n)%nat -> f j = 0 -> rprod n f = 0.
Proof. induction n; intros Hj E; [lia|]. cbn [rprod]. destruct (Nat.eq_dec j n) as [->|N]; [rewrite E; ring|]. rewrite IHn by (auto; lia). ring. Qed.
Lemma rprod_positive n f : (forall j, (j < n)%nat -> 0 < f j) -> 0 < rprod n f.
Proof. induction n; intros H; cbn [rprod]; [lra|]. apply Rmult_lt_0_compat; auto. Qed.
Lemma abs_le_sum n (f : nat -> R) j : (j < n)%nat -> f j <= rsum n (fun i => Rabs (f i)).
Proof.
  intros Hj. apply (Rle_trans _ (rsum n (fun i => if (i =? j)%nat then Rabs (f i) else 0))).
  - rewrite (rsum_single n _ j); auto; [rewrite Nat.eqb_refl; apply Rle_abs|]. intros i Hi N. apply Nat.eqb_neq in N. now rewrite N.
  - apply rsum_le. intros i Hi. destruct (i =? j)%nat; [lra|apply Rabs_pos].
Qed.
Lemma antiderivative n a : exists F, (forall t, derivable_pt_lim F t (polynomial n a t)) /\ F 0 = 0 /\ F 1 = integral n a.
Proof.
  induction n as [|n IH].
  - exists (fct_cte 0). unfold polynomial, integral. cbn [rsum]. split; [intros t; apply derivable_pt_lim_const|]. split; reflexivity.
  - destruct IH as (F & D & F0 & F1). exists (fun t => F t + a n * / INR (n + 1) * t ^ S n). unfold polynomial, integral in *. cbn [rsum]. split; [|split].
    + intros t. apply (derivable_pt_lim_plus F (fun t => a n * / INR (n + 1) * t ^ S n)); [apply D|].
      replace (a n * t ^ n) with (a n * / INR (n + 1) * (INR (S n) * t ^ pred (S n))).
      * apply (derivable_pt_lim_scal (fun t => t ^ S n)). apply derivable_pt_lim_pow.
      * cbn [pred]. rewrite Nat.add_1_r. field. apply not_0_INR. lia.
    + rewrite F0, pow_i by lia. ring.
    + rewrite F1, pow1. ring.
Qed.
Lemma integral_zero n a : (forall t, 0 < t < 1 -> 0 <= polynomial n a t) -> integral n a = 0 -> forall t, 0 < t < 1 -> polynomial n a t = 0.
Proof.
  intros H Z t Ht. destruct (antiderivative n a) as (F & D & F0 & F1). rewrite Z in F1.
  assert (M : forall s s', 0 <= s -> s' <= 1 -> s <= s' -> F s <= F s') by (intros; apply (nondecreasing F (polynomial n a)); auto; intros; apply H; lra).
  apply (derivative_0 F (polynomial n a) 0 1); auto. intros s Hs. pose proof (M 0 s). pose proof (M s 1). lra.
Qed.

Lemma nodes_distinct k ext P W : (1 <= k)%nat -> v_size W = (k - 1)%nat -> exact_segment (2 * k - 1) ext P W ->
  distinct (k + 1) (fun i => match i with 0%nat => 0 | 1%nat => 1 | S (S j) => m_at P 0 j end).
Proof.
  intros Hk SW EX. set (x := fun i => match i with 0%nat => 0 | 1%nat => 1 | S (S j) => m_at P 0 j end).
  assert (K : forall i a, (i < k + 1)%nat -> (a < k - 1)%nat -> i <> S (S a) -> x i <> m_at P 0 a).
  { intros i a Hi Ha N E. set (h := fun t => pne (k - 1) a (fun q => t - m_at P 0 q)).
    assert (Hh : is_poly (k - 1) h). { pose proof (is_poly_pne (k - 1) (k - 1) a (fun q => m_at P 0 q) Ha (le_n _)) as H. destruct (Nat.ltb_spec a (k - 1)); [exact H|lia]. }
    assert (h0 : forall q, (q < k - 1)%nat -> q <> a -> h (m_at P 0 q) = 0).
    { intros q Hq Nq. unfold h, pne. apply (rprod_zero _ _ q Hq). apply Nat.eqb_neq in Nq. rewrite Nq. ring. }
    set (f := fun t => t * (1 - t) * (h t * h t)).
    assert (Hf : is_poly (S (2 * k - 1)) f).
    { assert (H2 : is_poly (k - 1 + (k - 2)) (fun t => h t * h t)) by (apply is_poly_mult; [exact Hh|]; replace (S (k - 2)) with (k - 1)%nat by lia; exact Hh).
      apply (is_poly_lin _ _ (-1) 1) in H2. apply is_poly_x in H2. cbv beta in H2. apply (is_poly_le (S (S (k - 1 + (k - 2))))); [lia|]. eapply is_poly_ext; [|exact H2]. intros t. unfold f. cbv beta. ring. }
    destruct (is_poly_polynomial _ _ Hf) as (c & Hc).
    assert (Z : integral (S (2 * k - 1)) c = 0).
    { rewrite <- (segment_integral (2 * k - 1) ext P W c EX), <- !Hc. unfold apply_rule. rewrite rsum_0; [unfold f; ring|]. intros q Hq. rewrite SW in Hq. rewrite <- Hc. unfold f. destruct (Nat.eq_dec q a) as [->|Nq].
      - rewrite <- E. destruct i as [|[|j]]; cbn [x]; [ring|ring|]. rewrite (h0 j) by (lia || congruence). ring.
      - rewrite (h0 q) by auto. ring. }
    assert (f0 : forall t, 0 < t < 1 -> f t = 0).
    { intros t Ht. rewrite Hc. apply integral_zero; auto. intros s Hs. rewrite <- Hc. unfold f. apply Rmult_le_pos; [apply Rmult_le_pos; lra|]. apply Rle_0_sqr. }
    assert (hz : forall t, 0 < t < 1 -> h t = 0).
    { intros t Ht. specialize (f0 t Ht). unfold f in f0. apply Rmult_integral in f0. destruct f0 as [f0|f0]; [|apply Rmult_integral in f0; tauto]. apply Rmult_integral in f0. lra. }
    destruct (points_in (k - 1) 1 Rlt_0_1) as (z & Dz & Hz).
    assert (h00 : forall t, h t = 0) by (apply (is_poly_roots (k - 1) h z Hh Dz); intros; apply hz; auto).
    specialize (h00 (rsum (k - 1) (fun q => Rabs (m_at P 0 q)) + 1)). unfold h, pne in h00.
    assert (0 < 0); [|lra]. rewrite <- h00 at 2. apply rprod_positive. intros q Hq. destruct (q =? a)%nat; [lra|]. pose proof (abs_le_sum (k - 1) (fun q => m_at P 0 q) q Hq). cbv beta in *. lra. }
  intros i j Hi Hj E. destruct (Nat.eq_dec i j) as [|N]; [auto|exfalso].
  destruct j as [|[|a]].
  - destruct i as [|[|b]]; [lia|cbn in E; lra|]. apply (K 0%nat b); try lia. symmetry. exact E.
  - destruct i as [|[|b]]; [cbn in E; lra|lia|]. apply (K 1%nat b); try lia. symmetry. exact E.
  - apply (K i a); auto; lia.
Qed.
