(** The divergence theorem for polynomials holds exactly for the quadratures of a triangulated polygon. *)
From Coq Require Import List Arith Bool Lia Reals Lra Permutation.
From Verif Require Import Base RSum MatrixModel VemQuadModel VemQuadSpec VemQuadProofs VemQuadProofs2 GreenSpec.
Import ListNotations.
Local Open Scope R_scope.

(** ** Polynomials *)
Lemma poly2_le n m f fx fy : (n <= m)%nat -> poly2 n f fx fy -> poly2 m f fx fy.
Proof.
  intros H P. induction P.
  - apply poly2_mono. lia.
  - now apply poly2_add.
  - now apply poly2_scal.
  - eapply poly2_ext; eauto.
Qed.

Lemma poly2_const n c : poly2 n (fun _ _ => c) (fun _ _ => 0) (fun _ _ => 0).
Proof. eapply poly2_ext; [apply (poly2_scal n c _ _ _ (poly2_mono n 0 0 ltac:(lia)))| | |]; intros; cbn; ring. Qed.

Lemma poly2_affine n a b c : (1 <= n)%nat -> poly2 n (fun x y => a + b * x + c * y) (fun _ _ => b) (fun _ _ => c).
Proof.
  intros H. eapply poly2_ext.
  - apply poly2_add; [apply poly2_add; [apply (poly2_const n a)|apply (poly2_scal n b _ _ _ (poly2_mono n 1 0 ltac:(lia)))]|apply (poly2_scal n c _ _ _ (poly2_mono n 0 1 ltac:(lia)))].
  - intros; cbn; ring.
  - intros; cbn; ring.
  - intros; cbn; ring.
Qed.

Lemma poly2_x n f fx fy : poly2 n f fx fy -> poly2 (S n) (fun x y => x * f x y) (fun x y => f x y + x * fx x y) (fun x y => x * fy x y).
Proof.
  intros P. induction P.
  - eapply poly2_ext; [apply (poly2_mono (S n) (S a) b); lia| | |]; intros x y.
    + cbn. ring.
    + rewrite S_INR. replace (S a - 1)%nat with a by lia. destruct a; [cbn; ring|]. replace (S a - 1)%nat with a by lia. cbn [pow]. ring.
    + cbn. ring.
  - eapply poly2_ext; [apply (poly2_add _ _ _ _ _ _ _ IHP1 IHP2)| | |]; intros; cbv beta; ring.
  - eapply poly2_ext; [apply (poly2_scal _ c _ _ _ IHP)| | |]; intros; cbv beta; ring.
  - eapply poly2_ext; [apply IHP| | |]; intros; cbv beta; rewrite <- ?H, <- ?H0, <- ?H1; ring.
Qed.
Lemma poly2_y n f fx fy : poly2 n f fx fy -> poly2 (S n) (fun x y => y * f x y) (fun x y => y * fx x y) (fun x y => f x y + y * fy x y).
Proof.
  intros P. induction P.
  - eapply poly2_ext; [apply (poly2_mono (S n) a (S b)); lia| | |]; intros x y.
    + cbn. ring.
    + cbn. ring.
    + rewrite S_INR. replace (S b - 1)%nat with b by lia. destruct b; [cbn; ring|]. replace (S b - 1)%nat with b by lia. cbn [pow]. ring.
  - eapply poly2_ext; [apply (poly2_add _ _ _ _ _ _ _ IHP1 IHP2)| | |]; intros; cbv beta; ring.
  - eapply poly2_ext; [apply (poly2_scal _ c _ _ _ IHP)| | |]; intros; cbv beta; ring.
  - eapply poly2_ext; [apply IHP| | |]; intros; cbv beta; rewrite <- ?H, <- ?H0, <- ?H1; ring.
Qed.

Lemma poly2_mult n m f fx fy g gx gy : poly2 n f fx fy -> poly2 m g gx gy ->
  poly2 (n + m) (fun x y => f x y * g x y) (fun x y => fx x y * g x y + f x y * gx x y) (fun x y => fy x y * g x y + f x y * gy x y).
Proof.
  intros P Q. induction P.
  - assert (K : poly2 (a + b + m) (fun x y => x ^ a * y ^ b * g x y)
       (fun x y => INR a * x ^ (a - 1) * y ^ b * g x y + x ^ a * y ^ b * gx x y) (fun x y => INR b * x ^ a * y ^ (b - 1) * g x y + x ^ a * y ^ b * gy x y)).
    { clear H. induction a as [|a IHa].
      - induction b as [|b IHb].
        + eapply poly2_ext; [exact Q| | |]; intros; cbn; ring.
        + eapply poly2_ext; [apply (poly2_y _ _ _ _ IHb)| | |]; intros x y.
          * cbn. ring.
          * cbn. ring.
          * rewrite S_INR. replace (S b - 1)%nat with b by lia. destruct b; [cbn; ring|]. replace (S b - 1)%nat with b by lia. cbn [pow]. ring.
      - eapply poly2_ext; [apply (poly2_x _ _ _ _ IHa)| | |]; intros x y.
        + cbn. ring.
        + rewrite S_INR. replace (S a - 1)%nat with a by lia. destruct a; [cbn; ring|]. replace (S a - 1)%nat with a by lia. cbn [pow]. ring.
        + cbn. ring. }
    apply (poly2_le (a + b + m)); [lia|exact K].
  - eapply poly2_ext; [apply (poly2_add _ _ _ _ _ _ _ IHP1 IHP2)| | |]; intros; cbv beta; ring.
  - eapply poly2_ext; [apply (poly2_scal _ c _ _ _ IHP)| | |]; intros; cbv beta; ring.
  - eapply poly2_ext; [apply IHP| | |]; intros; cbv beta; rewrite <- ?H, <- ?H0, <- ?H1; ring.
Qed.

Lemma poly2_affine_pow a b c k : let X := fun x y => a + b * x + c * y in
  poly2 k (fun x y => X x y ^ k) (fun x y => INR k * X x y ^ (k - 1) * b) (fun x y => INR k * X x y ^ (k - 1) * c).
Proof.
  intros X. induction k as [|k IH].
  - eapply poly2_ext; [apply (poly2_const 0 1)| | |]; intros; cbn; ring.
  - eapply poly2_ext; [apply (poly2_mult 1 k _ _ _ _ _ _ (poly2_affine 1 a b c (le_n 1)) IH)| | |]; intros x y; cbv beta; unfold X.
    + cbn. ring.
    + rewrite S_INR. replace (S k - 1)%nat with k by lia. destruct k; [cbn; ring|]. replace (S k - 1)%nat with k by lia. cbn [pow]. ring.
    + rewrite S_INR. replace (S k - 1)%nat with k by lia. destruct k; [cbn; ring|]. replace (S k - 1)%nat with k by lia. cbn [pow]. ring.
Qed.

(** composition with an affine map *)
Lemma poly2_comp n f fx fy a b c a' b' c' : poly2 n f fx fy ->
  let X := fun x y => a + b * x + c * y in let Y := fun x y => a' + b' * x + c' * y in
  poly2 n (fun x y => f (X x y) (Y x y)) (fun x y => b * fx (X x y) (Y x y) + b' * fy (X x y) (Y x y))
    (fun x y => c * fx (X x y) (Y x y) + c' * fy (X x y) (Y x y)).
Proof.
  intros P X Y. induction P.
  - eapply poly2_ext.
    + apply (poly2_le (a0 + b0) n); [lia|]. apply (poly2_mult a0 b0 _ _ _ _ _ _ (poly2_affine_pow a b c a0) (poly2_affine_pow a' b' c' b0)).
    + intros; reflexivity.
    + intros; unfold X, Y; ring.
    + intros; unfold X, Y; ring.
  - eapply poly2_ext; [apply (poly2_add _ _ _ _ _ _ _ IHP1 IHP2)| | |]; intros; cbv beta; ring.
  - eapply poly2_ext; [apply (poly2_scal _ c0 _ _ _ IHP)| | |]; intros; cbv beta; ring.
  - eapply poly2_ext; [apply IHP| | |]; intros; cbv beta; rewrite <- ?H, <- ?H0, <- ?H1; ring.
Qed.

(** the derivatives are the derivatives *)
Lemma poly2_partials n f fx fy x y : poly2 n f fx fy ->
  derivable_pt_lim (fun t => f t y) x (fx x y) /\ derivable_pt_lim (fun t => f x t) y (fy x y).
Proof.
  intros P. revert x y. induction P; intros x y.
  - split.
    + replace (INR a * x ^ (a - 1) * y ^ b) with (y ^ b * (INR a * x ^ Init.Nat.pred a)) by (rewrite <- Nat.sub_1_r; ring).
      apply (derivable_pt_lim_ext (fun t => y ^ b * t ^ a)); [intros; ring|]. apply derivable_pt_lim_scal. apply derivable_pt_lim_pow.
    + replace (INR b * x ^ a * y ^ (b - 1)) with (x ^ a * (INR b * y ^ Init.Nat.pred b)) by (rewrite <- Nat.sub_1_r; ring).
      apply (derivable_pt_lim_ext (fun t => x ^ a * t ^ b)); [intros; ring|]. apply derivable_pt_lim_scal. apply derivable_pt_lim_pow.
  - destruct (IHP1 x y), (IHP2 x y). split; apply derivable_pt_lim_plus; auto.
  - destruct (IHP x y). split; apply derivable_pt_lim_scal; auto.
  - destruct (IHP x y). rewrite <- H0, <- H1. split; eapply derivable_pt_lim_ext; try eassumption; auto; intros; cbv beta; auto.
Qed.

(** ** Rules on the unit segment *)
Section Rules.
Variables (ext : R * R) (points : Mat) (weights : Vec).
Definition Q (g : R -> R) : R := fst ext * g 0 + snd ext * g 1 + apply_rule weights (fun q => g (m_at points 0 q)).

Lemma apply_plus w f g : apply_rule w (fun q => f q + g q) = apply_rule w f + apply_rule w g.
Proof. unfold apply_rule. rewrite <- rsum_plus. apply rsum_ext. intros; ring. Qed.
Lemma apply_scal w c f : apply_rule w (fun q => c * f q) = c * apply_rule w f.
Proof. unfold apply_rule. rewrite <- rsum_scal. apply rsum_ext. intros; ring. Qed.
Lemma apply_ext w f g : (forall q, (q < v_size w)%nat -> f q = g q) -> apply_rule w f = apply_rule w g.
Proof. intros H. unfold apply_rule. apply rsum_ext. intros q Hq. now rewrite H. Qed.

Lemma Q_plus f g : Q (fun s => f s + g s) = Q f + Q g.
Proof. unfold Q. rewrite (apply_plus weights (fun q => f (m_at points 0 q)) (fun q => g (m_at points 0 q))). ring. Qed.
Lemma Q_scal c f : Q (fun s => c * f s) = c * Q f.
Proof. unfold Q. rewrite (apply_scal weights c (fun q => f (m_at points 0 q))). ring. Qed.
Lemma Q_ext f g : (forall s, f s = g s) -> Q f = Q g.
Proof. intros H. unfold Q. rewrite !H. f_equal. apply apply_ext. intros; apply H. Qed.

Variable n : nat.
Hypothesis exact : exact_segment n ext points weights.

Lemma Q_pow a : (a <= n)%nat -> Q (fun s => s ^ a) = / INR (a + 1).
Proof. intros H. unfold Q. apply (exact a H). Qed.

(** fundamental theorem *)
Lemma Q_int f fx fy y : poly2 (S n) f fx fy -> Q (fun s => fx s y) = f 1 y - f 0 y.
Proof.
  intros P. induction P.
  - rewrite (Q_ext _ (fun s => (INR a * y ^ b) * s ^ (a - 1))) by (intros; ring). rewrite Q_scal.
    destruct a as [|a]; [cbn; ring|]. replace (S a - 1)%nat with a by lia. rewrite Q_pow by lia. rewrite Nat.add_1_r. cbn [pow]. rewrite pow1. field. apply not_0_INR. lia.
  - rewrite (Q_plus (fun s => fx s y) (fun s => gx s y)), IHP1, IHP2. ring.
  - rewrite (Q_scal c (fun s => fx s y)), IHP. ring.
  - rewrite <- (Q_ext (fun s => fx s y)), IHP, !H by auto. reflexivity.
Qed.

Lemma beta_poly a b : poly2 (a + b) (fun x _ => (1 - x) ^ a * x ^ b)
  (fun x _ => - (INR a * (1 - x) ^ (a - 1) * x ^ b) + INR b * ((1 - x) ^ a * x ^ (b - 1))) (fun _ _ => 0).
Proof.
  eapply poly2_ext; [apply (poly2_mult a b _ _ _ _ _ _ (poly2_affine_pow 1 (-1) 0 a) (poly2_affine_pow 0 1 0 b))| | |]; intros x y; cbv beta;
    replace (1 + -1 * x + 0 * y) with (1 - x) by ring; replace (0 + 1 * x + 0 * y) with x by ring; ring.
Qed.

Lemma fact_nz k : INR (fact k) <> 0.
Proof. apply INR_fact_neq_0. Qed.
Lemma fact_R k : INR (fact (S k)) = INR (S k) * INR (fact k).
Proof. rewrite fact_simpl, mult_INR. reflexivity. Qed.
Lemma S_nz k : INR (S k) <> 0. Proof. apply not_0_INR. lia. Qed.

Lemma Q_beta a b : (a + b <= n)%nat -> Q (fun s => (1 - s) ^ a * s ^ b) = INR (fact a * fact b) / INR (fact (a + b + 1)).
Proof.
  revert b. induction a as [|a IH]; intros b H.
  - rewrite (Q_ext _ (fun s => s ^ b)) by (intros; cbn; ring). rewrite Q_pow by lia. rewrite mult_INR. cbn [Nat.add]. rewrite Nat.add_1_r, fact_R.
    change (INR (fact 0)) with 1. field. split; [apply fact_nz|apply S_nz].
  - assert (I := Q_int _ _ _ 0 (poly2_le _ _ _ _ _ (ltac:(lia) : (S a + S b <= S n)%nat) (beta_poly (S a) (S b)))). cbv beta in I.
    replace (S a - 1)%nat with a in I by lia. replace (S b - 1)%nat with b in I by lia.
    rewrite (Q_ext _ (fun s => - INR (S a) * ((1 - s) ^ a * s ^ S b) + INR (S b) * ((1 - s) ^ S a * s ^ b))) in I by (intros; ring).
    rewrite (Q_plus (fun s => - INR (S a) * ((1 - s) ^ a * s ^ S b)) (fun s => INR (S b) * ((1 - s) ^ S a * s ^ b))) in I.
    rewrite (Q_scal (- INR (S a)) (fun s => (1 - s) ^ a * s ^ S b)), (Q_scal (INR (S b)) (fun s => (1 - s) ^ S a * s ^ b)) in I.
    rewrite IH in I by lia. replace (1 - 1) with 0 in I by ring. rewrite !pow_ne_zero in I by lia.
    replace (a + S b + 1)%nat with (S a + b + 1)%nat in I by lia. rewrite mult_INR in I. rewrite (fact_R b) in I.
    rewrite mult_INR, (fact_R a).
    apply (Rmult_eq_reg_l (INR (S b))); [|apply S_nz].
    transitivity (INR (S a) * (INR (fact a) * (INR (S b) * INR (fact b)) / INR (fact (S a + b + 1)))); [lra|]. field. apply fact_nz.
Qed.

Lemma Q_rev_pow a : (a <= n)%nat -> Q (fun s => (1 - s) ^ a) = / INR (a + 1).
Proof.
  intros H. rewrite (Q_ext _ (fun s => (1 - s) ^ a * s ^ 0)) by (intros; cbn; ring). rewrite Q_beta by lia.
  rewrite Nat.add_0_r, mult_INR, Nat.add_1_r, fact_R. change (INR (fact 0)) with 1. field. split; [apply S_nz|apply fact_nz].
Qed.

Lemma Q_rev f fx fy y : poly2 n f fx fy -> Q (fun s => f (1 - s) y) = Q (fun s => f s y).
Proof.
  intros P. induction P.
  - rewrite (Q_ext _ (fun s => y ^ b * (1 - s) ^ a)), (Q_ext (fun s => s ^ a * y ^ b) (fun s => y ^ b * s ^ a)) by (intros; ring).
    rewrite !Q_scal, Q_rev_pow, Q_pow by lia. reflexivity.
  - rewrite (Q_plus (fun s => f (1 - s) y) (fun s => g (1 - s) y)), (Q_plus (fun s => f s y) (fun s => g s y)). congruence.
  - rewrite (Q_scal c (fun s => f (1 - s) y)), (Q_scal c (fun s => f s y)). congruence.
  - rewrite (Q_ext (fun s => g (1 - s) y) (fun s => f (1 - s) y)), (Q_ext (fun s => g s y) (fun s => f s y)) by (intros; now rewrite H). exact IHP.
Qed.

(** ** The reference triangle *)
Variable q : QuadratureData.
Hypothesis exactT : exact_triangle (n - 1) q.
Definition L (g : R -> R -> R) : R := apply_rule (q_Weights q) (fun j => g (m_at (q_Points q) 0 j) (m_at (q_Points q) 1 j)).
Lemma L_plus f g : L (fun x y => f x y + g x y) = L f + L g.
Proof. unfold L. apply (apply_plus (q_Weights q) (fun j => f (m_at (q_Points q) 0 j) (m_at (q_Points q) 1 j))). Qed.
Lemma L_scal c f : L (fun x y => c * f x y) = c * L f.
Proof. unfold L. apply (apply_scal (q_Weights q) c (fun j => f (m_at (q_Points q) 0 j) (m_at (q_Points q) 1 j))). Qed.
Lemma L_ext f g : (forall x y, f x y = g x y) -> L f = L g.
Proof. intros H. unfold L. apply apply_ext. intros; apply H. Qed.
Lemma L_mono a b : (a + b <= n - 1)%nat -> L (fun x y => x ^ a * y ^ b) = INR (fact a * fact b) / INR (fact (a + b + 2)).
Proof. apply exactT. Qed.

Lemma green_x f fx fy : poly2 n f fx fy -> L fx = Q (fun s => f (1 - s) s) - Q (fun s => f 0 s).
Proof.
  intros P. induction P.
  - destruct a as [|a].
    + rewrite (L_ext _ (fun x y => 0 * 1)) by (intros; cbn; ring). rewrite (L_scal 0 (fun _ _ => 1)).
      rewrite (Q_ext (fun s => (1 - s) ^ 0 * s ^ b) (fun s => 0 ^ 0 * s ^ b)) by (intros; cbn; ring). ring.
    + rewrite (L_ext _ (fun x y => INR (S a) * (x ^ a * y ^ b))) by (intros; replace (S a - 1)%nat with a by lia; ring).
      rewrite L_scal, L_mono by lia. rewrite Q_beta by lia.
      rewrite (Q_ext (fun s => 0 ^ S a * s ^ b) (fun s => 0 * s ^ b)) by (intros; rewrite pow_ne_zero by lia; ring). rewrite Q_scal.
      replace (S a + b + 1)%nat with (a + b + 2)%nat by lia. rewrite !mult_INR, (fact_R a). field. apply fact_nz.
  - rewrite L_plus, (Q_plus (fun s => f (1 - s) s) (fun s => g (1 - s) s)), (Q_plus (fun s => f 0 s) (fun s => g 0 s)), IHP1, IHP2. ring.
  - rewrite L_scal, (Q_scal c (fun s => f (1 - s) s)), (Q_scal c (fun s => f 0 s)), IHP. ring.
  - rewrite (L_ext gx fx), (Q_ext (fun s => g (1 - s) s) (fun s => f (1 - s) s)), (Q_ext (fun s => g 0 s) (fun s => f 0 s)) by (intros; now rewrite ?H, ?H0). exact IHP.
Qed.

Lemma green_y f fx fy : poly2 n f fx fy -> L fy = Q (fun s => f (1 - s) s) - Q (fun s => f s 0).
Proof.
  intros P. induction P.
  - destruct b as [|b].
    + rewrite (L_ext _ (fun x y => 0 * 1)) by (intros; cbn; ring). rewrite (L_scal 0 (fun _ _ => 1)).
      rewrite (Q_ext (fun s => (1 - s) ^ a * s ^ 0) (fun s => (1 - s) ^ a)) by (intros; cbn; ring).
      rewrite (Q_ext (fun s => s ^ a * 0 ^ 0) (fun s => s ^ a)) by (intros; cbn; ring). rewrite Q_rev_pow, Q_pow by lia. ring.
    + rewrite (L_ext _ (fun x y => INR (S b) * (x ^ a * y ^ b))) by (intros; replace (S b - 1)%nat with b by lia; ring).
      rewrite L_scal, L_mono by lia. rewrite Q_beta by lia.
      rewrite (Q_ext (fun s => s ^ a * 0 ^ S b) (fun s => 0 * s ^ a)) by (intros; rewrite pow_ne_zero by lia; ring). rewrite Q_scal.
      replace (a + S b + 1)%nat with (a + b + 2)%nat by lia. rewrite !mult_INR, (fact_R b). field. apply fact_nz.
  - rewrite L_plus, (Q_plus (fun s => f (1 - s) s) (fun s => g (1 - s) s)), (Q_plus (fun s => f s 0) (fun s => g s 0)), IHP1, IHP2. ring.
  - rewrite L_scal, (Q_scal c (fun s => f (1 - s) s)), (Q_scal c (fun s => f s 0)), IHP. ring.
  - rewrite (L_ext gy fy), (Q_ext (fun s => g (1 - s) s) (fun s => f (1 - s) s)), (Q_ext (fun s => g s 0) (fun s => f s 0)) by (intros; now rewrite ?H, ?H1). exact IHP.
Qed.

(** ** A side and a triangle anywhere in the plane *)
Variables (F Fx Fy : R -> R -> R).
Hypothesis PF : poly2 n F Fx Fy.
(** the rule on the segment from p to q *)
Definition side (s : (R * R) * (R * R)) : R :=
  Q (fun t => F ((1 - t) * fst (fst s) + t * fst (snd s)) ((1 - t) * snd (fst s) + t * snd (snd s))).
Lemma side_reverse s : side (reverse_side s) = side s.
Proof.
  destruct s as ((px & py) & (rx & ry)). unfold side, reverse_side. cbn [fst snd].
  assert (P := poly2_comp n F Fx Fy px (rx - px) 0 py (ry - py) 0 PF). cbv zeta in P.
  assert (E := Q_rev _ _ _ 0 P). cbv beta in E.
  rewrite (Q_ext _ (fun s => F (px + (rx - px) * (1 - s) + 0 * 0) (py + (ry - py) * (1 - s) + 0 * 0))) by (intros; f_equal; ring).
  rewrite E. apply Q_ext. intros; f_equal; ring.
Qed.
Definition dx (s : (R * R) * (R * R)) : R := fst (snd s) - fst (fst s).
Definition dy (s : (R * R) * (R * R)) : R := snd (snd s) - snd (fst s).

Lemma green_triangle T : 0 <= signed_area T ->
  2 * area T * L (fun x y => Fx (in_triangle T x y 0) (in_triangle T x y 1)) = lsum (fun s => dy s * side s) (sides T) /\
  2 * area T * L (fun x y => Fy (in_triangle T x y 0) (in_triangle T x y 1)) = lsum (fun s => - dx s * side s) (sides T).
Proof.
  intros HA. unfold area. rewrite (Rabs_right _ (Rle_ge _ _ HA)). unfold signed_area, cross, sides, col2, dx, dy. cbn [lsum fst snd].
  set (xa := m_at T 0 0). set (ya := m_at T 1 0). set (xb := m_at T 0 1). set (yb := m_at T 1 1). set (xc := m_at T 0 2). set (yc := m_at T 1 2).
  assert (P := poly2_comp n F Fx Fy xa (xb - xa) (xc - xa) ya (yb - ya) (yc - ya) PF). cbv zeta in P.
  assert (GX := green_x _ _ _ P). assert (GY := green_y _ _ _ P). cbv beta in GX, GY.
  assert (Ebc : Q (fun s => F (xa + (xb - xa) * (1 - s) + (xc - xa) * s) (ya + (yb - ya) * (1 - s) + (yc - ya) * s)) = side ((xb, yb), (xc, yc))).
  { unfold side. cbn [fst snd]. apply Q_ext. intros; f_equal; ring. }
  assert (Eac : Q (fun s => F (xa + (xb - xa) * 0 + (xc - xa) * s) (ya + (yb - ya) * 0 + (yc - ya) * s)) = side ((xc, yc), (xa, ya))).
  { rewrite <- side_reverse. unfold side, reverse_side. cbn [fst snd]. apply Q_ext. intros; f_equal; ring. }
  assert (Eab : Q (fun s => F (xa + (xb - xa) * s + (xc - xa) * 0) (ya + (yb - ya) * s + (yc - ya) * 0)) = side ((xa, ya), (xb, yb))).
  { unfold side. cbn [fst snd]. apply Q_ext. intros; f_equal; ring. }
  rewrite Ebc in GX, GY. rewrite Eac in GX. rewrite Eab in GY.
  set (X := fun x y => xa + (xb - xa) * x + (xc - xa) * y) in *. set (Y := fun x y => ya + (yb - ya) * x + (yc - ya) * y) in *.
  assert (EX : forall x y, in_triangle T x y 0 = X x y) by (intros; unfold in_triangle, X; fold xa xb xc; ring).
  assert (EY : forall x y, in_triangle T x y 1 = Y x y) by (intros; unfold in_triangle, Y; fold ya yb yc; ring).
  rewrite (L_ext (fun x y => Fx (in_triangle T x y 0) (in_triangle T x y 1)) (fun x y => Fx (X x y) (Y x y))) by (intros; now rewrite EX, EY).
  rewrite (L_ext (fun x y => Fy (in_triangle T x y 0) (in_triangle T x y 1)) (fun x y => Fy (X x y) (Y x y))) by (intros; now rewrite EX, EY).
  change (L (fun x y => (xb - xa) * Fx (X x y) (Y x y) + (yb - ya) * Fy (X x y) (Y x y)) = side ((xb, yb), (xc, yc)) - side ((xc, yc), (xa, ya))) in GX.
  change (L (fun x y => (xc - xa) * Fx (X x y) (Y x y) + (yc - ya) * Fy (X x y) (Y x y)) = side ((xb, yb), (xc, yc)) - side ((xa, ya), (xb, yb))) in GY.
  rewrite (L_plus (fun x y => (xb - xa) * Fx (X x y) (Y x y)) (fun x y => (yb - ya) * Fy (X x y) (Y x y))), (L_scal (xb - xa) (fun x y => Fx (X x y) (Y x y))), (L_scal (yb - ya) (fun x y => Fy (X x y) (Y x y))) in GX.
  rewrite (L_plus (fun x y => (xc - xa) * Fx (X x y) (Y x y)) (fun x y => (yc - ya) * Fy (X x y) (Y x y))), (L_scal (xc - xa) (fun x y => Fx (X x y) (Y x y))), (L_scal (yc - ya) (fun x y => Fy (X x y) (Y x y))) in GY.
  set (LX := L (fun x y => Fx (X x y) (Y x y))) in *. set (LY := L (fun x y => Fy (X x y) (Y x y))) in *.
  set (sbc := side ((xb, yb), (xc, yc))) in *. set (sca := side ((xc, yc), (xa, ya))) in *. set (sab := side ((xa, ya), (xb, yb))) in *.
  split.
  - transitivity ((yc - ya) * ((xb - xa) * LX + (yb - ya) * LY) - (yb - ya) * ((xc - xa) * LX + (yc - ya) * LY)); [field|]. rewrite GX, GY. ring.
  - transitivity ((xb - xa) * ((xc - xa) * LX + (yc - ya) * LY) - (xc - xa) * ((xb - xa) * LX + (yb - ya) * LY)); [field|]. rewrite GX, GY. ring.
Qed.

(** the inner sides cancel *)
Lemma sides_sum tris vertices (g : (R * R) * (R * R) -> R) : triangulates tris vertices -> (forall s, g (reverse_side s) = - g s) ->
  lsum (fun T => lsum g (sides T)) tris = lsum g (polygon_sides vertices).
Proof.
  intros (_ & _ & inner & P) HG. rewrite <- (lsum_flat_map g sides), (lsum_perm g _ _ P), !lsum_app, lsum_map.
  rewrite (lsum_ext (fun s => g (reverse_side s)) (fun s => - g s)) by (intros; apply HG). rewrite lsum_opp. ring.
Qed.

Lemma dx_rev s : dx (reverse_side s) = - dx s. Proof. unfold dx, reverse_side. cbn. ring. Qed.
Lemma dy_rev s : dy (reverse_side s) = - dy s. Proof. unfold dy, reverse_side. cbn. ring. Qed.
End Rules.

(** ** The polygon *)
Section Polygon.
Variables (n : nat) (ext : R * R) (points : Mat) (weights : Vec) (data : QuadratureData) (tris : list Mat) (vertices : Mat) (lengths : Vec) (dirs : list bool) (tangents normals : Mat).
Hypothesis HS : segment_rule points weights.
Hypothesis exactS : exact_segment n ext points weights.
Hypothesis sym : fst ext = snd ext.
Hypothesis HR : rule data.
Hypothesis exactT : exact_triangle (n - 1) data.
Hypothesis HT : triangulates tris vertices.
Hypothesis HN : normals_ok vertices lengths normals.
Let nv := m_cols vertices.
Let m := m_cols points.

Lemma edge_sum F Fx Fy i : poly2 n F Fx Fy -> (i < nv)%nat ->
  fst ext * F (m_at vertices 0 i) (m_at vertices 1 i) + snd ext * F (m_at vertices 0 (following nv i)) (m_at vertices 1 (following nv i)) +
  rsum m (fun q => v_at weights q * F (along vertices (edge_first vertices dirs i) (edge_last vertices dirs i) (m_at points 0 q) 0)
                                      (along vertices (edge_first vertices dirs i) (edge_last vertices dirs i) (m_at points 0 q) 1)) =
  side ext points weights F (col2 vertices i, col2 vertices (following nv i)).
Proof.
  clear HR exactT HT HN. intros P Hi.
  assert (D : forall a b, fst ext * F (m_at vertices 0 a) (m_at vertices 1 a) + snd ext * F (m_at vertices 0 b) (m_at vertices 1 b) +
    rsum m (fun q => v_at weights q * F (along vertices a b (m_at points 0 q) 0) (along vertices a b (m_at points 0 q) 1)) =
    side ext points weights F (col2 vertices a, col2 vertices b)).
  { intros a b. unfold side, Q, col2, along. cbn [fst snd]. unfold apply_rule. rewrite (proj1 HS). fold m.
    f_equal. f_equal; f_equal; f_equal; ring. }
  unfold edge_first, edge_last. fold nv. destruct (nth i dirs true); [apply D|].
  rewrite <- (side_reverse ext points weights n exactS F Fx Fy P). unfold reverse_side. cbn [fst snd]. rewrite <- D. rewrite sym. ring.
Qed.

Lemma polygon_green F Fx Fy : poly2 n F Fx Fy ->
  lsum (fun T => 2 * area T * apply_rule (q_Weights data) (fun q => Fx (in_triangle T (m_at (q_Points data) 0 q) (m_at (q_Points data) 1 q) 0) (in_triangle T (m_at (q_Points data) 0 q) (m_at (q_Points data) 1 q) 1))) tris =
    rsum nv (fun i => m_at normals 0 i * Rabs (v_at lengths i) * side ext points weights F (col2 vertices i, col2 vertices (following nv i))) /\
  lsum (fun T => 2 * area T * apply_rule (q_Weights data) (fun q => Fy (in_triangle T (m_at (q_Points data) 0 q) (m_at (q_Points data) 1 q) 0) (in_triangle T (m_at (q_Points data) 0 q) (m_at (q_Points data) 1 q) 1))) tris =
    rsum nv (fun i => m_at normals 1 i * Rabs (v_at lengths i) * side ext points weights F (col2 vertices i, col2 vertices (following nv i))).
Proof.
  intros P. assert (HA := proj1 (proj2 HT)). rewrite Forall_forall in HA.
  assert (G := fun T H => green_triangle ext points weights n exactS data exactT F Fx Fy P T (HA T H)).
  split.
  - rewrite (lsum_ext _ (fun T => lsum (fun s => dy s * side ext points weights F s) (sides T))).
    2:{ intros T H. apply (proj1 (G T H)). }
    rewrite (sides_sum tris vertices _ HT).
    2:{ intros s. rewrite dy_rev, (side_reverse ext points weights n exactS F Fx Fy P). ring. }
    unfold polygon_sides. rewrite lsum_map, lsum_seq. apply rsum_ext. intros i Hi.
    rewrite (proj1 (HN i Hi)). reflexivity.
  - rewrite (lsum_ext _ (fun T => lsum (fun s => - dx s * side ext points weights F s) (sides T))).
    2:{ intros T H. apply (proj2 (G T H)). }
    rewrite (sides_sum tris vertices _ HT).
    2:{ intros s. rewrite dx_rev, (side_reverse ext points weights n exactS F Fx Fy P). ring. }
    unfold polygon_sides. rewrite lsum_map, lsum_seq. apply rsum_ext. intros i Hi.
    rewrite (proj2 (HN i Hi)). reflexivity.
Qed.
End Polygon.

Lemma C68_lobatto_all : forall n junk ext points weights data tris vertices lengths dirs tangents normals,
  segment_rule points weights -> exact_segment n ext points weights -> fst ext = snd ext ->
  rule data -> exact_triangle (n - 1) data ->
  edge_data vertices lengths dirs tangents normals -> tangents_ok vertices tangents -> normals_ok vertices lengths normals ->
  triangulates tris vertices ->
  exists I B, PolygonInternalQuadrature data tris = Ok I /\
    PolygonEdgesLobattoQuadrature junk points weights ext vertices lengths dirs tangents normals = Ok B /\
    forall F Fx Fy, poly2 n F Fx Fy ->
      apply_rule (q_Weights I) (fun j => Fx (m_at (q_Points I) 0 j) (m_at (q_Points I) 1 j)) =
      apply_rule (normal_weights B 0) (fun j => F (m_at (q_Points (eq_Quadrature B)) 0 j) (m_at (q_Points (eq_Quadrature B)) 1 j)) /\
      apply_rule (q_Weights I) (fun j => Fy (m_at (q_Points I) 0 j) (m_at (q_Points I) 1 j)) =
      apply_rule (normal_weights B 1) (fun j => F (m_at (q_Points (eq_Quadrature B)) 0 j) (m_at (q_Points (eq_Quadrature B)) 1 j)).
Proof.
  intros n junk ext points weights data tris vertices lengths dirs tangents normals HS ES Hsym HR ET HE Ht HN HT.
  destruct (lobatto_full junk points weights ext vertices lengths dirs tangents normals HS HE Ht) as (B & EB & _ & _ & _ & _ & PV & PE & _ & _ & WN).
  destruct (C49_internal_all data tris (fun _ _ => 0) HR (proj1 HT)) as (I & EI & _).
  exists I, B. split; auto. split; auto. intros F Fx Fy P.
  destruct (C49_internal_all data tris Fx HR (proj1 HT)) as (I1 & E1 & _ & _ & SX). rewrite EI in E1. injection E1 as <-.
  destruct (C49_internal_all data tris Fy HR (proj1 HT)) as (I1 & E1 & _ & _ & SY). rewrite EI in E1. injection E1 as <-.
  rewrite SX, SY. destruct (polygon_green n ext points weights data tris vertices lengths normals ES ET HT HN F Fx Fy P) as (GX & GY).
  rewrite GX, GY, !WN by lia.
  split; apply rsum_ext; intros i Hi; f_equal; rewrite <- (edge_sum n ext points weights vertices dirs HS ES Hsym F Fx Fy i P Hi);
    rewrite !PV by (auto using following_lt; lia); f_equal; apply rsum_ext; intros q Hq; rewrite !PE by (auto; lia); reflexivity.
Qed.

Lemma C68_edges_all : forall n junk edge data tris vertices lengths dirs tangents normals,
  rule edge -> exact_segment n (0, 0) (q_Points edge) (q_Weights edge) ->
  rule data -> exact_triangle (n - 1) data ->
  edge_data vertices lengths dirs tangents normals -> tangents_ok vertices tangents -> normals_ok vertices lengths normals ->
  triangulates tris vertices ->
  exists I B, PolygonInternalQuadrature data tris = Ok I /\
    PolygonEdgesQuadrature junk edge vertices lengths dirs tangents normals = Ok B /\
    forall F Fx Fy, poly2 n F Fx Fy ->
      apply_rule (q_Weights I) (fun j => Fx (m_at (q_Points I) 0 j) (m_at (q_Points I) 1 j)) =
      apply_rule (normal_weights B 0) (fun j => F (m_at (q_Points (eq_Quadrature B)) 0 j) (m_at (q_Points (eq_Quadrature B)) 1 j)) /\
      apply_rule (q_Weights I) (fun j => Fy (m_at (q_Points I) 0 j) (m_at (q_Points I) 1 j)) =
      apply_rule (normal_weights B 1) (fun j => F (m_at (q_Points (eq_Quadrature B)) 0 j) (m_at (q_Points (eq_Quadrature B)) 1 j)).
Proof.
  intros n junk edge data tris vertices lengths dirs tangents normals HE0 ES HR ET HE Ht HN HT.
  assert (HS : segment_rule (q_Points edge) (q_Weights edge)) by (destruct HE0 as (A & A'); split; auto; rewrite A; lia).
  destruct (edges_full junk edge vertices lengths dirs tangents normals HE0 HE Ht) as (B & EB & _ & _ & _ & _ & PE & _ & WN).
  destruct (C49_internal_all data tris (fun _ _ => 0) HR (proj1 HT)) as (I & EI & _).
  exists I, B. split; auto. split; auto. intros F Fx Fy P.
  destruct (C49_internal_all data tris Fx HR (proj1 HT)) as (I1 & E1 & _ & _ & SX). rewrite EI in E1. injection E1 as <-.
  destruct (C49_internal_all data tris Fy HR (proj1 HT)) as (I1 & E1 & _ & _ & SY). rewrite EI in E1. injection E1 as <-.
  rewrite SX, SY. destruct (polygon_green n (0, 0) (q_Points edge) (q_Weights edge) data tris vertices lengths normals ES ET HT HN F Fx Fy P) as (GX & GY).
  rewrite GX, GY, !WN by lia.
  split; apply rsum_ext; intros i Hi; f_equal; rewrite <- (edge_sum n (0, 0) (q_Points edge) (q_Weights edge) vertices dirs HS ES eq_refl F Fx Fy i P Hi);
    cbn [fst snd]; rewrite !Rmult_0_l, !Rplus_0_l; apply rsum_ext; intros q Hq; rewrite !PE by (auto; lia); reflexivity.
Qed.

Lemma C49_area_all : forall data tris vertices, rule data -> apply_rule (q_Weights data) (fun _ => 1) = 1 / 2 -> triangulates tris vertices ->
  exists r, PolygonInternalQuadrature data tris = Ok r /\
    apply_rule (q_Weights r) (fun _ => 1) = lsum area tris /\
    apply_rule (q_Weights r) (fun _ => 1) = shoelace vertices.
Proof.
  intros data tris vertices HR HW HT. destruct (C49_internal_all data tris (fun _ _ => 1) HR (proj1 HT)) as (r & E & _ & _ & A). exists r. split; auto.
  cbv beta in A. rewrite A, HW. rewrite (lsum_ext _ area) by (intros; field). split; auto.
  assert (HA := proj1 (proj2 HT)). rewrite Forall_forall in HA.
  set (g := fun s : (R * R) * (R * R) => (fst (fst s) * snd (snd s) - fst (snd s) * snd (fst s)) / 2).
  rewrite (lsum_ext _ (fun T => lsum g (sides T))).
  - rewrite (sides_sum tris vertices g HT); [|intros ((a & b) & (c & d)); unfold g, reverse_side; cbn; field].
    unfold polygon_sides, shoelace. rewrite lsum_map, lsum_seq. unfold Rdiv. rewrite <- rsum_scal_r. apply rsum_ext. intros i Hi. reflexivity.
  - intros T H. unfold area. rewrite Rabs_right by (apply Rle_ge; auto). unfold signed_area, cross, sides, g, col2. cbn. field.
Qed.

Lemma C50_lobatto_all : forall junk ref_points ref_weights ext vertices lengths dirs tangents normals,
  segment_rule ref_points ref_weights -> edge_data vertices lengths dirs tangents normals -> tangents_ok vertices tangents ->
  let nv := m_cols vertices in let m := m_cols ref_points in
  exists r, PolygonEdgesLobattoQuadrature junk ref_points ref_weights ext vertices lengths dirs tangents normals = Ok r /\
    rule (eq_Quadrature r) /\ m_cols (q_Points (eq_Quadrature r)) = (nv + m * nv)%nat /\
    (forall j d, (j < nv)%nat -> (d < 3)%nat -> m_at (q_Points (eq_Quadrature r)) d j = m_at vertices d j) /\
    (forall j, (j < nv)%nat -> v_at (q_Weights (eq_Quadrature r)) j = fst ext * Rabs (v_at lengths j) + snd ext * Rabs (v_at lengths (preceding nv j))) /\
    (forall i q d, (i < nv)%nat -> (q < m)%nat -> (d < 3)%nat -> m_at (q_Points (eq_Quadrature r)) d (nv + m * i + q) =
        along vertices (edge_first vertices dirs i) (edge_last vertices dirs i) (m_at ref_points 0 q) d).
Proof.
  intros junk rp rw ext V l dirs t n Hr He Ht nv m.
  destruct (lobatto_full junk rp rw ext V l dirs t n Hr He Ht) as (r & E & A1 & A2 & _ & _ & A3 & A4 & A5 & _). exists r. repeat (split; auto).
Qed.
Lemma C50_edges_all : forall junk data vertices lengths dirs tangents normals, rule data ->
  edge_data vertices lengths dirs tangents normals -> tangents_ok vertices tangents ->
  let nv := m_cols vertices in let m := m_cols (q_Points data) in
  exists r, PolygonEdgesQuadrature junk data vertices lengths dirs tangents normals = Ok r /\
    rule (eq_Quadrature r) /\ m_cols (q_Points (eq_Quadrature r)) = (m * nv)%nat /\
    (forall i q d, (i < nv)%nat -> (q < m)%nat -> (d < 3)%nat -> m_at (q_Points (eq_Quadrature r)) d (m * i + q) =
        along vertices (edge_first vertices dirs i) (edge_last vertices dirs i) (m_at (q_Points data) 0 q) d).
Proof.
  intros junk data V l dirs t n Hr He Ht nv m.
  destruct (edges_full junk data V l dirs t n Hr He Ht) as (r & E & A1 & A2 & _ & _ & A3 & _). exists r. repeat (split; auto).
Qed.
Lemma C50_shared_all : forall junk junk' ref_points ref_weights ext vertices lengths dirs tangents normals vertices' lengths' dirs' tangents' normals' i i' r r',
  segment_rule ref_points ref_weights ->
  edge_data vertices lengths dirs tangents normals -> tangents_ok vertices tangents ->
  edge_data vertices' lengths' dirs' tangents' normals' -> tangents_ok vertices' tangents' ->
  (i < m_cols vertices)%nat -> (i' < m_cols vertices')%nat ->
  (forall d, (d < 3)%nat -> m_at vertices d (edge_first vertices dirs i) = m_at vertices' d (edge_first vertices' dirs' i') /\
                            m_at vertices d (edge_last vertices dirs i) = m_at vertices' d (edge_last vertices' dirs' i')) ->
  PolygonEdgesLobattoQuadrature junk ref_points ref_weights ext vertices lengths dirs tangents normals = Ok r ->
  PolygonEdgesLobattoQuadrature junk' ref_points ref_weights ext vertices' lengths' dirs' tangents' normals' = Ok r' ->
  let m := m_cols ref_points in
  forall q d, (q < m)%nat -> (d < 3)%nat ->
    m_at (q_Points (eq_Quadrature r)) d (m_cols vertices + m * i + q) = m_at (q_Points (eq_Quadrature r')) d (m_cols vertices' + m * i' + q).
Proof.
  intros junk junk' rp rw ext V l dirs t n V' l' dirs' t' n' i i' r r' Hr He Ht He' Ht' Hi Hi' HV E E' m q d Hq Hd.
  destruct (C50_lobatto_all junk rp rw ext V l dirs t n Hr He Ht) as (r1 & E1 & _ & _ & _ & _ & P). rewrite E in E1. injection E1 as <-.
  destruct (C50_lobatto_all junk' rp rw ext V' l' dirs' t' n' Hr He' Ht') as (r1 & E1 & _ & _ & _ & _ & P'). rewrite E' in E1. injection E1 as <-.
  unfold m. rewrite P, P' by auto. unfold along. destruct (HV d Hd) as (-> & ->). reflexivity.
Qed.
