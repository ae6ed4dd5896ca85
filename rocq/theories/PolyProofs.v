(** Polynomials of two variables: integrals over the reference triangle, uniqueness, representation by scaled monomials. *)
From Coq Require Import List Arith Bool Lia ZArith Reals Lra.
From Verif Require Import Base RSum MatrixModel MonomialsModel MonomialsSpec MonomialsProofs MonomialsProofs2 MonomialsProofs3 MonomialsProofs4
  LagrangeSpec LagrangeProofs GBasisProofs VemQuadModel VemQuadSpec VemQuadProofs VemQuadProofs2 GreenSpec GreenProofs.
Import ListNotations.
Local Open Scope R_scope.

Lemma poly2_rsum n m f fx fy : (forall i, (i < m)%nat -> poly2 n (f i) (fx i) (fy i)) ->
  poly2 n (fun x y => rsum m (fun i => f i x y)) (fun x y => rsum m (fun i => fx i x y)) (fun x y => rsum m (fun i => fy i x y)).
Proof.
  induction m as [|m IH]; intros H.
  - apply (poly2_const n 0).
  - cbn [rsum]. apply poly2_add; auto.
Qed.

(** ** Antiderivatives and the values of the beta function *)
Lemma beta_anti : forall b a, exists H, (forall x, derivable_pt_lim H x (x ^ a * (1 - x) ^ b)) /\ H 1 - H 0 = INR (fact a * fact b) / INR (fact (a + b + 1)).
Proof.
  induction b as [|b IH]; intros a.
  - exists (fun x => / INR (S a) * x ^ S a). split.
    + intros x. replace (x ^ a * (1 - x) ^ 0) with (/ INR (S a) * (INR (S a) * x ^ Nat.pred (S a))) by (cbn [Nat.pred pow]; field; apply S_nz).
      apply derivable_pt_lim_scal. apply derivable_pt_lim_pow.
    + rewrite pow1, pow_ne_zero by lia. rewrite Nat.add_0_r, Nat.add_1_r, mult_INR, fact_R. change (INR (fact 0)) with 1. field. split; [apply fact_nz|apply S_nz].
  - destruct (IH (S a)) as (H & D & V).
    exists (fun x => / INR (S a) * (x ^ S a * (1 - x) ^ S b + INR (S b) * H x)). split.
    + intros x. replace (x ^ a * (1 - x) ^ S b) with
        (/ INR (S a) * ((INR (S a) * x ^ a * (1 - x) ^ S b + x ^ S a * - (INR (S b) * (1 - x) ^ b)) + INR (S b) * (x ^ S a * (1 - x) ^ b))) by (field; apply S_nz).
      apply (derivable_pt_lim_scal (fun x => x ^ S a * (1 - x) ^ S b + INR (S b) * H x)). apply (derivable_pt_lim_plus (fun x => x ^ S a * (1 - x) ^ S b) (fun x => INR (S b) * H x)).
      * apply (derivable_pt_lim_mult (fun x => x ^ S a) (fun x => (1 - x) ^ S b)).
        -- apply (derivable_pt_lim_pow x (S a)).
        -- replace (- (INR (S b) * (1 - x) ^ b)) with ((INR (S b) * (1 - x) ^ Nat.pred (S b)) * (0 - 1)) by (cbn [Nat.pred]; ring).
           apply (derivable_pt_lim_comp (fun x => 1 - x) (fun y => y ^ S b)).
           ++ apply (derivable_pt_lim_minus (fun _ => 1) (fun x => x)); [apply derivable_pt_lim_const|apply derivable_pt_lim_id].
           ++ apply derivable_pt_lim_pow.
      * apply derivable_pt_lim_scal. apply D.
    + replace (1 - 1) with 0 by ring. rewrite !(pow_ne_zero (S _)) by lia.
      replace (/ INR (S a) * (1 ^ S a * 0 + INR (S b) * H 1) - / INR (S a) * (0 * (1 - 0) ^ S b + INR (S b) * H 0)) with (INR (S b) / INR (S a) * (H 1 - H 0)) by (field; apply S_nz).
      rewrite V. replace (S a + b + 1)%nat with (a + S b + 1)%nat by lia. rewrite !mult_INR, (fact_R a), (fact_R b). field. split; [apply fact_nz|apply S_nz].
Qed.

(** L f is an iterated integral of f *)
Lemma triangle_integral N q f fx fy : exact_triangle N q -> poly2 N f fx fy ->
  exists (F : R -> R -> R) (H : R -> R), (forall x y, derivable_pt_lim (F x) y (f x y)) /\ (forall x, F x 0 = 0) /\
    (forall x, derivable_pt_lim H x (F x (1 - x))) /\ L q f = H 1 - H 0.
Proof.
  intros EX P. induction P.
  - destruct (beta_anti (S b) a) as (H0 & D & V).
    exists (fun x y => x ^ a * / INR (S b) * y ^ S b), (fun x => / INR (S b) * H0 x). split; [|split; [|split]].
    + intros x y. replace (x ^ a * y ^ b) with ((x ^ a * / INR (S b)) * (INR (S b) * y ^ Nat.pred (S b))) by (cbn [Nat.pred]; field; apply S_nz).
      apply derivable_pt_lim_scal. apply derivable_pt_lim_pow.
    + intros x. rewrite pow_ne_zero by lia. ring.
    + intros x. replace (x ^ a * / INR (S b) * (1 - x) ^ S b) with (/ INR (S b) * (x ^ a * (1 - x) ^ S b)) by ring.
      apply derivable_pt_lim_scal. apply D.
    + unfold L. rewrite (EX a b H). replace (/ INR (S b) * H0 1 - / INR (S b) * H0 0) with (/ INR (S b) * (H0 1 - H0 0)) by ring. rewrite V.
      replace (a + S b + 1)%nat with (a + b + 2)%nat by lia. rewrite !mult_INR, (fact_R b). field. split; [apply fact_nz|apply S_nz].
  - destruct IHP1 as (F1 & H1 & A1 & A2 & A3 & A4), IHP2 as (F2 & H2 & B1 & B2 & B3 & B4).
    exists (fun x y => F1 x y + F2 x y), (fun x => H1 x + H2 x). split; [|split; [|split]].
    + intros x y. apply (derivable_pt_lim_plus (F1 x) (F2 x)); auto.
    + intros x. rewrite A2, B2. ring.
    + intros x. apply derivable_pt_lim_plus; auto.
    + rewrite (L_plus q f g). lra.
  - destruct IHP as (F1 & H1 & A1 & A2 & A3 & A4). exists (fun x y => c * F1 x y), (fun x => c * H1 x). split; [|split; [|split]].
    + intros x y. apply (derivable_pt_lim_scal (F1 x)); auto.
    + intros x. rewrite A2. ring.
    + intros x. apply derivable_pt_lim_scal; auto.
    + rewrite (L_scal q c f), A4. ring.
  - destruct IHP as (F1 & H2 & A1 & A2 & A3 & A4). exists F1, H2. split; [|split; [|split]]; auto.
    + intros x y. rewrite <- H. auto.
    + rewrite <- (L_ext q f g) by auto. auto.
Qed.

(** mean value: a function with non-negative derivative on [a, b] *)
Lemma nondecreasing f f' a b : (forall x, derivable_pt_lim f x (f' x)) -> (forall x, a < x < b -> 0 <= f' x) -> a <= b -> f a <= f b.
Proof.
  intros D H Hab. destruct (Req_dec a b) as [->|N]; [lra|].
  destruct (MVT_cor2 f f' a b ltac:(lra) (fun c _ => D c)) as (c & E & Hc). specialize (H c Hc). nra.
Qed.
(** constant on [a, b]: the derivative vanishes inside *)
Lemma derivative_0 f f' a b x : (forall x, derivable_pt_lim f x (f' x)) -> (forall t, a < t < b -> f t = f a) -> a < x < b -> f' x = 0.
Proof.
  intros D H Hx. apply (uniqueness_limite f x); [apply D|].
  intros eps He. assert (Hd : 0 < Rmin (x - a) (b - x)) by (apply Rmin_pos; lra).
  exists (mkposreal _ Hd). intros t Ht Ht'. cbn in Ht'.
  rewrite (H x Hx), (H (x + t)).
  - replace ((f a - f a) / t - 0) with 0 by (field; auto). now rewrite Rabs_R0.
  - pose proof (Rmin_l (x - a) (b - x)). pose proof (Rmin_r (x - a) (b - x)). apply Rabs_def2 in Ht'. lra.
Qed.

Lemma L_nonneg N q f fx fy : exact_triangle N q -> poly2 N f fx fy -> (forall x y, 0 <= f x y) -> 0 <= L q f /\
  (L q f = 0 -> forall x y, 0 < x -> 0 < y -> x + y < 1 -> f x y = 0).
Proof.
  intros EX P H0. destruct (triangle_integral N q f fx fy EX P) as (F & H & D1 & F0 & D2 & E).
  assert (FP : forall x y, 0 <= y -> 0 <= F x y) by (intros x y Hy; rewrite <- (F0 x); apply (nondecreasing (F x) (f x)); auto).
  assert (HM : forall a b, 0 <= a -> b <= 1 -> a <= b -> H a <= H b).
  { intros a b Ha Hb Hab. apply (nondecreasing H (fun x => F x (1 - x))); auto. intros x Hx. apply FP. lra. }
  split; [rewrite E; pose proof (HM 0 1); lra|].
  intros HL x y Hx Hy Hxy.
  assert (HC : forall t, 0 < t < 1 -> H t = H 0) by (intros t Ht; pose proof (HM 0 t); pose proof (HM t 1); lra).
  assert (Fx : F x (1 - x) = 0) by (apply (derivative_0 H (fun x => F x (1 - x)) 0 1); auto; lra).
  assert (FM : forall a b, a <= b -> F x a <= F x b) by (intros a b Hab; apply (nondecreasing (F x) (f x)); auto).
  apply (derivative_0 (F x) (f x) 0 (1 - x)); auto; [|lra].
  intros t Ht. pose proof (FM 0 t). pose proof (FM t (1 - x)). rewrite F0 in *. lra.
Qed.

(** ** A polynomial that vanishes in the triangle vanishes *)
Lemma poly2_y_is_poly n f fx fy x : poly2 n f fx fy -> is_poly (S n) (f x).
Proof.
  intros P. induction P.
  - apply (is_poly_le (S b)); [lia|]. apply (is_poly_ext _ (fun y => x ^ a * y ^ b)); [auto|]. apply is_poly_scal. clear.
    induction b; [apply (is_poly_const 1 1); lia|]. cbn [pow]. now apply is_poly_x.
  - now apply is_poly_plus.
  - now apply is_poly_scal.
  - eapply is_poly_ext; [|exact IHP]. auto.
Qed.
Lemma poly2_x_is_poly n f fx fy y : poly2 n f fx fy -> is_poly (S n) (fun x => f x y).
Proof.
  intros P. induction P.
  - apply (is_poly_le (S a)); [lia|]. apply (is_poly_ext _ (fun x => y ^ b * x ^ a)); [intros; ring|]. apply is_poly_scal. clear.
    induction a; [apply (is_poly_const 1 1); lia|]. cbn [pow]. now apply is_poly_x.
  - now apply (is_poly_plus _ (fun x => f x y) (fun x => g x y)).
  - now apply (is_poly_scal _ c (fun x => f x y)).
  - eapply is_poly_ext; [|exact IHP]. intros; apply H.
Qed.

(** n distinct points of ]0, b[ *)
Lemma points_in n b : 0 < b -> exists z : nat -> R, distinct n z /\ forall i, (i < n)%nat -> 0 < z i < b.
Proof.
  intros Hb. exists (fun i => b * (INR (S i) / INR (S n))).
  assert (Hn : 0 < INR (S n)) by (apply lt_0_INR; lia). split.
  - intros i j Hi Hj E. apply Rmult_eq_reg_l in E; [|lra]. unfold Rdiv in E. apply Rmult_eq_reg_r in E; [|apply Rinv_neq_0_compat; lra]. apply INR_eq in E. lia.
  - intros i Hi. assert (0 < INR (S i)) by (apply lt_0_INR; lia). assert (INR (S i) < INR (S n)) by (apply lt_INR; lia).
    assert (0 < INR (S i) / INR (S n) < 1). { split; [apply Rdiv_lt_0_compat; auto|]. apply (Rmult_lt_reg_r (INR (S n))); auto. unfold Rdiv. rewrite Rmult_assoc, Rinv_l by lra. lra. }
    nra.
Qed.

Lemma poly2_vanish n f fx fy : poly2 n f fx fy -> (forall x y, 0 < x -> 0 < y -> x + y < 1 -> f x y = 0) -> forall x y, f x y = 0.
Proof.
  intros P H. assert (HY : forall x, 0 < x < 1 -> forall y, f x y = 0).
  { intros x Hx. destruct (points_in (S n) (1 - x) ltac:(lra)) as (z & Dz & Bz).
    apply (is_poly_roots (S n) (f x) z (poly2_y_is_poly n f fx fy x P) Dz). intros i Hi. specialize (Bz i Hi). apply H; lra. }
  intros x y. destruct (points_in (S n) 1 ltac:(lra)) as (z & Dz & Bz).
  apply (is_poly_roots (S n) (fun x => f x y) z (poly2_x_is_poly n f fx fy y P) Dz). intros i Hi. apply HY. auto.
Qed.

Lemma L_square N k q g gx gy : exact_triangle N q -> (2 * k <= N)%nat -> poly2 k g gx gy ->
  0 <= L q (fun x y => g x y * g x y) /\ (L q (fun x y => g x y * g x y) = 0 -> forall x y, g x y = 0).
Proof.
  intros EX Hk P. assert (P2 := poly2_mult k k _ _ _ _ _ _ P P).
  assert (Hkk : (k + k <= N)%nat) by lia. assert (P3 := poly2_le _ N _ _ _ Hkk P2).
  destruct (L_nonneg N q _ _ _ EX P3 ltac:(intros; cbv beta; nra)) as (A & B). split; auto.
  intros E. apply (poly2_vanish k g gx gy P). intros x y Hx Hy Hxy. specialize (B E x y Hx Hy Hxy). cbv beta in B. nra.
Qed.

(** ** Scaled monomials *)
Notation M2 := Monomials_2D.
Definition ea (j : nat) : nat := Z.to_nat (nth 0 (enum M2 j) 0%Z).
Definition eb (j : nat) : nat := Z.to_nat (nth 1 (enum M2 j) 0%Z).
Definition num2 (k : nat) : nat := numM M2 k.
Definition ix (a b : nat) : nat := Z.to_nat (idx2 [Z.of_nat a; Z.of_nat b]).

Lemma enum_ab j : enum M2 j = [Z.of_nat (ea j); Z.of_nat (eb j)].
Proof.
  destruct (proj1 (tuple_2 _) (proj1 (enum_ok M2 idx2 good_2D j))) as (a & b & E & Ha & Hb). unfold ea, eb. rewrite E. cbn [nth]. rewrite !Z2Nat.id by lia. reflexivity.
Qed.
Lemma ab_lt k j : (j < num2 k)%nat <-> (ea j + eb j <= k)%nat.
Proof. unfold num2. rewrite (enum_lt M2 idx2 good_2D k j). rewrite enum_ab at 1. unfold degree. cbn [fold_right]. lia. Qed.
Lemma ea_ix a b : ea (ix a b) = a.
Proof. unfold ea, ix. rewrite enum2 by lia. cbn [nth]. apply Nat2Z.id. Qed.
Lemma eb_ix a b : eb (ix a b) = b.
Proof. unfold eb, ix. rewrite enum2 by lia. cbn [nth]. apply Nat2Z.id. Qed.
Lemma ix_lt a b k : (ix a b < num2 k)%nat <-> (a + b <= k)%nat.
Proof. rewrite ab_lt, ea_ix, eb_ix. tauto. Qed.
Lemma ix_ab j : ix (ea j) (eb j) = j.
Proof. apply (enum_inj M2 idx2 good_2D). rewrite (enum_ab (ix _ _)), ea_ix, eb_ix, <- enum_ab. reflexivity. Qed.
Lemma ix_00 : ix 0 0 = 0%nat.
Proof. reflexivity. Qed.
Lemma num2_mono i j : (i <= j)%nat -> (num2 i <= num2 j)%nat.
Proof.
  intros H. destruct (num2 i) as [|m] eqn:E; [lia|]. assert (m < num2 i)%nat by lia. apply ab_lt in H0. assert (m < num2 j)%nat by (apply ab_lt; lia). lia.
Qed.
Lemma num2_pos k : (0 < num2 k)%nat.
Proof. apply (numM_pos M2 idx2 good_2D). Qed.

(** monomials by two exponents *)
Definition mn (j : nat) (X Y : R) : R := X ^ ea j * Y ^ eb j.

(** a sum over monomials as a double sum *)
Lemma rsum_ab k f : rsum (num2 k) f = rsum (S k) (fun b => rsum (S k) (fun a => if (a + b <=? k)%nat then f (ix a b) else 0)).
Proof.
  transitivity (rsum (num2 k) (fun j => rsum (S k) (fun b => rsum (S k) (fun a => if ((a =? ea j) && (b =? eb j))%nat then f j else 0)))).
  - apply rsum_ext. intros j Hj. apply ab_lt in Hj.
    rewrite (rsum_single (S k) _ (eb j)).
    + rewrite (rsum_single (S k) _ (ea j)).
      * now rewrite !Nat.eqb_refl.
      * lia.
      * intros a _ Ha. destruct (Nat.eqb_spec a (ea j)); [congruence|]. reflexivity.
    + lia.
    + intros b _ Hb. apply rsum_0. intros a _. destruct (Nat.eqb_spec b (eb j)); [congruence|]. now rewrite andb_false_r.
  - rewrite rsum_swap. apply rsum_ext. intros b _. rewrite rsum_swap. apply rsum_ext. intros a _.
    destruct (Nat.leb_spec (a + b) k) as [H|H].
    + rewrite (rsum_single _ _ (ix a b)).
      * now rewrite ea_ix, eb_ix, !Nat.eqb_refl.
      * now apply ix_lt.
      * intros j _ Hj. destruct (Nat.eqb_spec a (ea j)) as [->|]; auto. destruct (Nat.eqb_spec b (eb j)) as [->|]; auto. cbn [andb]. rewrite ix_ab in Hj. congruence.
    + apply rsum_0. intros j Hj. apply ab_lt in Hj. destruct (Nat.eqb_spec a (ea j)) as [->|]; auto. destruct (Nat.eqb_spec b (eb j)) as [->|]; auto. lia.
Qed.

(** the coefficients of the zero polynomial *)
Lemma polynomial_0 n a : (forall t, polynomial n a t = 0) -> forall k, (k < n)%nat -> a k = 0.
Proof.
  revert a; induction n as [|n IH]; intros a H k Hk; [lia|].
  assert (E : forall t, polynomial (S n) a t = a 0%nat + t * polynomial n (fun k => a (S k)) t).
  { intros t. unfold polynomial. rewrite rsum_S_l. cbn [pow]. rewrite <- rsum_scal. rewrite Rmult_1_r. f_equal. apply rsum_ext. intros; ring. }
  assert (H0 : a 0%nat = 0) by (specialize (H 0); rewrite E in H; lra).
  destruct k; auto. apply (IH (fun k => a (S k))); [|lia].
  apply (is_poly_roots n _ (fun i => INR (S i))).
  - apply is_poly_coeffs.
  - intros i j _ _ Ei. apply INR_eq in Ei. lia.
  - intros i Hi. specialize (H (INR (S i))). rewrite E, H0 in H. assert (INR (S i) <> 0) by apply S_nz. nra.
Qed.

Lemma mn_independent k c : (forall X Y, rsum (num2 k) (fun j => c j * mn j X Y) = 0) -> forall j, (j < num2 k)%nat -> c j = 0.
Proof.
  intros H j Hj. rewrite <- (ix_ab j). apply ab_lt in Hj.
  assert (HB : forall X b, (b < S k)%nat -> rsum (S k) (fun a => (if (a + b <=? k)%nat then c (ix a b) else 0) * X ^ a) = 0).
  { intros X. apply (polynomial_0 (S k) (fun b => rsum (S k) (fun a => (if (a + b <=? k)%nat then c (ix a b) else 0) * X ^ a))).
    intros Y. transitivity (rsum (num2 k) (fun j => c j * mn j X Y)); [|apply H]. rewrite rsum_ab. unfold polynomial. apply rsum_ext. intros b _. rewrite <- rsum_scal_r. apply rsum_ext. intros a _.
    cbv beta. destruct (Nat.leb_spec (a + b) k); [|ring]. unfold mn. rewrite ea_ix, eb_ix. ring. }
  assert (HA := polynomial_0 (S k) (fun a => if (a + eb j <=? k)%nat then c (ix a (eb j)) else 0) (fun X => HB X (eb j) ltac:(lia)) (ea j) ltac:(lia)).
  cbv beta in HA. destruct (Nat.leb_spec (ea j + eb j) k); [auto|lia].
Qed.

Lemma mn_represent k f fx fy : poly2 k f fx fy -> exists c, forall X Y, f X Y = rsum (num2 k) (fun j => c j * mn j X Y).
Proof.
  intros P. induction P.
  - exists (fun j => if (j =? ix a b)%nat then 1 else 0). intros X Y. rewrite (rsum_single _ _ (ix a b)).
    + rewrite Nat.eqb_refl. unfold mn. rewrite ea_ix, eb_ix. ring.
    + apply ix_lt. auto.
    + intros j _ Hj. destruct (Nat.eqb_spec j (ix a b)); [congruence|ring].
  - destruct IHP1 as (c & C), IHP2 as (d & D). exists (fun j => c j + d j). intros X Y. rewrite C, D, <- rsum_plus. apply rsum_ext. intros; ring.
  - destruct IHP as (d & D). exists (fun j => c * d j). intros X Y. rewrite D, <- rsum_scal. apply rsum_ext. intros; ring.
  - destruct IHP as (d & D). exists d. intros X Y. rewrite <- H. apply D.
Qed.

Section Scaled.
Variables (cx cy h : R).
Hypothesis Hh : h <> 0.
Definition phi (j : nat) (x y : R) : R := mn j ((x - cx) / h) ((y - cy) / h).
Definition phix (j : nat) (x y : R) : R := INR (ea j) * ((x - cx) / h) ^ (ea j - 1) * ((y - cy) / h) ^ eb j / h.
Definition phiy (j : nat) (x y : R) : R := INR (eb j) * ((x - cx) / h) ^ ea j * ((y - cy) / h) ^ (eb j - 1) / h.

Lemma phi_poly2 j : poly2 (ea j + eb j) (phi j) (phix j) (phiy j).
Proof.
  eapply poly2_ext; [apply (poly2_comp _ _ _ _ (- cx / h) (/ h) 0 (- cy / h) 0 (/ h) (poly2_mono (ea j + eb j) (ea j) (eb j) (le_n _)))| | |]; intros x y; cbv beta;
    replace (- cx / h + / h * x + 0 * y) with ((x - cx) / h) by (field; auto); replace (- cy / h + 0 * x + / h * y) with ((y - cy) / h) by (field; auto);
    unfold phi, phix, phiy, mn; auto; unfold Rdiv; ring.
Qed.
Lemma phi_k k j : (j < num2 k)%nat -> poly2 k (phi j) (phix j) (phiy j).
Proof. intros H. apply ab_lt in H. apply (poly2_le (ea j + eb j)); auto. apply phi_poly2. Qed.

(** second derivatives *)
Definition phixx (j : nat) (x y : R) : R := INR (ea j) * INR (ea j - 1) * ((x - cx) / h) ^ (ea j - 2) * ((y - cy) / h) ^ eb j / (h * h).
Definition phixy (j : nat) (x y : R) : R := INR (ea j) * INR (eb j) * ((x - cx) / h) ^ (ea j - 1) * ((y - cy) / h) ^ (eb j - 1) / (h * h).
Definition phiyy (j : nat) (x y : R) : R := INR (eb j) * INR (eb j - 1) * ((x - cx) / h) ^ ea j * ((y - cy) / h) ^ (eb j - 2) / (h * h).

Lemma phix_eq j x y : phix j x y = if (ea j =? 0)%nat then 0 else INR (ea j) / h * phi (ix (ea j - 1) (eb j)) x y.
Proof. unfold phix, phi, mn. rewrite ea_ix, eb_ix. destruct (Nat.eqb_spec (ea j) 0) as [->|_]; cbn [INR]; unfold Rdiv; ring. Qed.
Lemma phiy_eq j x y : phiy j x y = if (eb j =? 0)%nat then 0 else INR (eb j) / h * phi (ix (ea j) (eb j - 1)) x y.
Proof. unfold phiy, phi, mn. rewrite ea_ix, eb_ix. destruct (Nat.eqb_spec (eb j) 0) as [->|_]; cbn [INR]; unfold Rdiv; ring. Qed.

Lemma phix_poly2 k j : (1 <= k)%nat -> (j < num2 k)%nat -> poly2 (k - 1) (phix j) (phixx j) (phixy j).
Proof.
  intros Hk H. apply ab_lt in H. destruct (Nat.eqb_spec (ea j) 0) as [E|E].
  - eapply poly2_ext; [apply (poly2_const (k - 1) 0)| | |]; intros x y; unfold phix, phixx, phixy; rewrite E; cbn [INR]; unfold Rdiv; ring.
  - assert (P := phi_k (k - 1) (ix (ea j - 1) (eb j)) ltac:(apply ix_lt; lia)).
    eapply poly2_ext; [apply (poly2_scal _ (INR (ea j) / h) _ _ _ P)| | |]; intros x y; cbv beta.
    + unfold phi, phix, mn. rewrite ea_ix, eb_ix. unfold Rdiv. ring.
    + unfold phixx, phix. rewrite ea_ix, eb_ix. replace (ea j - 1 - 1)%nat with (ea j - 2)%nat by lia. field. auto.
    + unfold phixy, phiy. rewrite ea_ix, eb_ix. field. auto.
Qed.
Lemma phiy_poly2 k j : (1 <= k)%nat -> (j < num2 k)%nat -> poly2 (k - 1) (phiy j) (phixy j) (phiyy j).
Proof.
  intros Hk H. apply ab_lt in H. destruct (Nat.eqb_spec (eb j) 0) as [E|E].
  - eapply poly2_ext; [apply (poly2_const (k - 1) 0)| | |]; intros x y; unfold phiy, phiyy, phixy; rewrite E; cbn [INR]; unfold Rdiv; ring.
  - assert (P := phi_k (k - 1) (ix (ea j) (eb j - 1)) ltac:(apply ix_lt; lia)).
    eapply poly2_ext; [apply (poly2_scal _ (INR (eb j) / h) _ _ _ P)| | |]; intros x y; cbv beta.
    + unfold phi, phiy, mn. rewrite ea_ix, eb_ix. unfold Rdiv. ring.
    + unfold phixy, phix. rewrite ea_ix, eb_ix. field. auto.
    + unfold phiyy, phiy. rewrite ea_ix, eb_ix. replace (eb j - 1 - 1)%nat with (eb j - 2)%nat by lia. field. auto.
Qed.

Lemma phi_independent k c : (forall x y, rsum (num2 k) (fun j => c j * phi j x y) = 0) -> forall j, (j < num2 k)%nat -> c j = 0.
Proof.
  intros H. apply mn_independent. intros X Y. rewrite <- (H (cx + h * X) (cy + h * Y)). apply rsum_ext. intros j _. f_equal. unfold phi.
  replace ((cx + h * X - cx) / h) with X by (field; auto). replace ((cy + h * Y - cy) / h) with Y by (field; auto). reflexivity.
Qed.

Lemma poly2_derivatives_unique n m f fx fy g gx gy : poly2 n f fx fy -> poly2 m g gx gy -> (forall x y, f x y = g x y) ->
  (forall x y, fx x y = gx x y) /\ (forall x y, fy x y = gy x y).
Proof.
  intros P Q E. split; intros x y; destruct (poly2_partials n f fx fy x y P) as (A & B), (poly2_partials m g gx gy x y Q) as (C & D).
  - apply (uniqueness_limite (fun t => f t y) x); auto. eapply derivable_pt_lim_ext; [|exact C]. intros; now rewrite E.
  - apply (uniqueness_limite (fun t => f x t) y); auto. eapply derivable_pt_lim_ext; [|exact D]. intros; now rewrite E.
Qed.

Lemma phi_represent k f fx fy : poly2 k f fx fy -> exists c,
  (forall x y, f x y = rsum (num2 k) (fun j => c j * phi j x y)) /\
  (forall x y, fx x y = rsum (num2 k) (fun j => c j * phix j x y)) /\
  (forall x y, fy x y = rsum (num2 k) (fun j => c j * phiy j x y)).
Proof.
  intros P. assert (P' := poly2_comp k f fx fy cx h 0 cy 0 h P). cbv zeta in P'.
  destruct (mn_represent _ _ _ _ P') as (c & C). exists c.
  assert (E : forall x y, f x y = rsum (num2 k) (fun j => c j * phi j x y)).
  { intros x y. unfold phi. rewrite <- C. f_equal; field; auto. }
  assert (PS : poly2 k (fun x y => rsum (num2 k) (fun j => c j * phi j x y)) (fun x y => rsum (num2 k) (fun j => c j * phix j x y)) (fun x y => rsum (num2 k) (fun j => c j * phiy j x y))).
  { apply (poly2_rsum k (num2 k) (fun j x y => c j * phi j x y) (fun j x y => c j * phix j x y) (fun j x y => c j * phiy j x y)). intros j Hj. apply poly2_scal. now apply phi_k. }
  destruct (poly2_derivatives_unique _ _ _ _ _ _ _ _ P PS E). auto.
Qed.
End Scaled.
