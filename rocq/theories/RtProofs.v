(** Unisolvence of the Raviart-Thomas element on the reference triangle. *)
From Coq Require Import List Arith Bool Lia ZArith Reals Lra.
From Verif Require Import Base RSum MatrixModel MonomialsModel MonomialsSpec MonomialsProofs MonomialsProofs2 MonomialsProofs3 MonomialsProofs4
  LagrangeSpec LagrangeProofs GBasisProofs VemQuadModel VemQuadSpec VemQuadProofs VemQuadProofs2 GreenSpec GreenProofs PolyProofs.
Import ListNotations.
Local Open Scope R_scope.

(** ** Derivatives, antiderivatives and factors of polynomials *)
Lemma poly2_dx n f fx fy : poly2 n f fx fy -> exists a b, poly2 (n - 1) fx a b.
Proof.
  intros P. induction P.
  - destruct a as [|a]; [exists (fun _ _ => 0), (fun _ _ => 0); eapply poly2_ext; [apply (poly2_const (n - 1) 0)| | |]; intros; cbn [INR]; ring|].
    eexists _, _. eapply poly2_ext; [apply (poly2_scal (n - 1) (INR (S a)) _ _ _ (poly2_mono (n - 1) a b ltac:(lia)))| | |]; intros x y; [replace (S a - 1)%nat with a by lia; ring|reflexivity|reflexivity].
  - destruct IHP1 as (a & b & Q1), IHP2 as (a' & b' & Q2). eexists _, _. apply (poly2_add _ _ _ _ _ _ _ Q1 Q2).
  - destruct IHP as (a & b & Q). eexists _, _. apply (poly2_scal _ c _ _ _ Q).
  - destruct IHP as (a & b & Q). exists a, b. eapply poly2_ext; [exact Q| | |]; auto.
Qed.
Lemma poly2_dy n f fx fy : poly2 n f fx fy -> exists a b, poly2 (n - 1) fy a b.
Proof.
  intros P. induction P.
  - destruct b as [|b]; [exists (fun _ _ => 0), (fun _ _ => 0); eapply poly2_ext; [apply (poly2_const (n - 1) 0)| | |]; intros; cbn [INR]; ring|].
    eexists _, _. eapply poly2_ext; [apply (poly2_scal (n - 1) (INR (S b)) _ _ _ (poly2_mono (n - 1) a b ltac:(lia)))| | |]; intros x y; [replace (S b - 1)%nat with b by lia; ring|reflexivity|reflexivity].
  - destruct IHP1 as (a & b & Q1), IHP2 as (a' & b' & Q2). eexists _, _. apply (poly2_add _ _ _ _ _ _ _ Q1 Q2).
  - destruct IHP as (a & b & Q). eexists _, _. apply (poly2_scal _ c _ _ _ Q).
  - destruct IHP as (a & b & Q). exists a, b. eapply poly2_ext; [exact Q| | |]; auto.
Qed.
Lemma poly2_0 n f fx fy : poly2 n f fx fy -> n = 0%nat -> (forall x y, f x y = f 0 0) /\ (forall x y, fx x y = 0) /\ (forall x y, fy x y = 0).
Proof.
  intros P E. induction P.
  - assert (a = 0%nat) by lia. assert (b = 0%nat) by lia. subst. cbn. repeat split; intros; ring.
  - destruct IHP1 as (A & B & C), IHP2 as (A' & B' & C'). repeat split; intros; rewrite ?B, ?C, ?B', ?C'; try ring. rewrite A, A'. reflexivity.
  - destruct IHP as (A & B & C). repeat split; intros; rewrite ?B, ?C; try ring. rewrite A. reflexivity.
  - destruct IHP as (A & B & C). repeat split; intros; rewrite <- ?H, <- ?H0, <- ?H1; auto.
Qed.
Lemma poly2_anti n f fx fy : poly2 n f fx fy -> exists F Fy, poly2 (S n) F f Fy.
Proof.
  intros P. induction P.
  - eexists _, _. eapply poly2_ext; [apply (poly2_scal (S n) (/ INR (S a)) _ _ _ (poly2_mono (S n) (S a) b ltac:(lia)))| | |]; intros x y; [reflexivity| |reflexivity].
    replace (S a - 1)%nat with a by lia. field. apply S_nz.
  - destruct IHP1 as (a & b & Q1), IHP2 as (a' & b' & Q2). eexists _, _. apply (poly2_add _ _ _ _ _ _ _ Q1 Q2).
  - destruct IHP as (a & b & Q). eexists _, _. apply (poly2_scal _ c _ _ _ Q).
  - destruct IHP as (a & b & Q). exists a, b. eapply poly2_ext; [exact Q| | |]; auto.
Qed.
(** f(x, y) = f(0, y) + x g(x, y) *)
Lemma poly2_factor_x n f fx fy : poly2 n f fx fy -> (1 <= n)%nat -> exists g gx gy, poly2 (n - 1) g gx gy /\ forall x y, f x y = f 0 y + x * g x y.
Proof.
  intros P Hn. induction P.
  - destruct a as [|a].
    + eexists _, _, _. split; [apply (poly2_const (n - 1) 0)|]. intros; cbn; ring.
    + eexists _, _, _. split; [apply (poly2_mono (n - 1) a b ltac:(lia))|]. intros; cbn [pow]; ring.
  - destruct IHP1 as (a & b & c & Q1 & E1), IHP2 as (a' & b' & c' & Q2 & E2). eexists _, _, _. split; [apply (poly2_add _ _ _ _ _ _ _ Q1 Q2)|]. intros. rewrite (E1 x y), (E2 x y). ring.
  - destruct IHP as (a & b & d & Q & E). eexists _, _, _. split; [apply (poly2_scal _ c _ _ _ Q)|]. intros. rewrite (E x y). ring.
  - destruct IHP as (a & b & d & Q & E). exists a, b, d. split; auto. intros. rewrite <- !H. auto.
Qed.
Lemma poly2_factor_y n f fx fy : poly2 n f fx fy -> (1 <= n)%nat -> exists g gx gy, poly2 (n - 1) g gx gy /\ forall x y, f x y = f x 0 + y * g x y.
Proof.
  intros P Hn. induction P.
  - destruct b as [|b].
    + eexists _, _, _. split; [apply (poly2_const (n - 1) 0)|]. intros; cbn; ring.
    + eexists _, _, _. split; [apply (poly2_mono (n - 1) a b ltac:(lia))|]. intros; cbn [pow]; ring.
  - destruct IHP1 as (a & b & c & Q1 & E1), IHP2 as (a' & b' & c' & Q2 & E2). eexists _, _, _. split; [apply (poly2_add _ _ _ _ _ _ _ Q1 Q2)|]. intros. rewrite (E1 x y), (E2 x y). ring.
  - destruct IHP as (a & b & d & Q & E). eexists _, _, _. split; [apply (poly2_scal _ c _ _ _ Q)|]. intros. rewrite (E x y). ring.
  - destruct IHP as (a & b & d & Q & E). exists a, b, d. split; auto. intros. rewrite <- !H. auto.
Qed.

(** polynomials of one variable as polynomials of two *)
Lemma is_poly_coef n g : is_poly n g -> exists a, forall t, g t = polynomial n a t.
Proof.
  revert g; induction n as [|n IH]; intros g P.
  - exists (fun _ => 0). intros t. rewrite P. reflexivity.
  - destruct P as (c & g0 & P0 & E). destruct (IH g0 P0) as (a & A). exists (fun i => match i with O => c | S i => a i end).
    intros t. rewrite E, A. unfold polynomial. rewrite rsum_S_l. cbn [pow]. rewrite <- rsum_scal, Rmult_1_r. f_equal. apply rsum_ext. intros; ring.
Qed.
Lemma is_poly_poly2 n g : is_poly (S n) g -> exists g', poly2 n (fun x _ => g x) (fun x _ => g' x) (fun _ _ => 0).
Proof.
  intros P. destruct (is_poly_coef _ _ P) as (a & E).
  exists (fun x => rsum (S n) (fun i => a i * (INR i * x ^ (i - 1)))).
  eapply poly2_ext.
  - apply (poly2_rsum n (S n) (fun i x _ => a i * (x ^ i * x ^ 0)) (fun i x _ => a i * (INR i * x ^ (i - 1))) (fun _ _ _ => 0)).
    intros i Hi. eapply poly2_ext; [apply (poly2_scal n (a i) _ _ _ (poly2_mono n i 0 ltac:(lia)))| | |]; intros; cbn; ring.
  - intros x y. cbv beta. rewrite E. unfold polynomial. apply rsum_ext. intros; cbn; ring.
  - reflexivity.
  - intros x y. apply rsum_0. auto.
Qed.

(** ** Rules on the segment *)
Section Segment.
Variables (points : Mat) (weights : Vec) (k : nat).
Notation ext0 := ((0, 0) : R * R).
Notation QQ := (Q ext0 points weights).
Hypothesis exact : exact_segment (2 * k) ext0 points weights.

Lemma Q_square g : is_poly (S k) g -> QQ (fun s => g s * g s) = 0 -> forall s, g s = 0.
Proof.
  intros P Z. destruct (is_poly_poly2 k g P) as (g' & P2). assert (P3 := poly2_mult k k _ _ _ _ _ _ P2 P2). cbv beta in P3.
  replace (k + k)%nat with (2 * k)%nat in P3 by lia. destruct (poly2_anti _ _ _ _ P3) as (F & Fy & PF).
  assert (I := Q_int ext0 points weights (2 * k) exact F _ Fy 0 PF). cbv beta in I. rewrite Z in I.
  assert (D : forall x, derivable_pt_lim (fun t => F t 0) x (g x * g x)) by (intros x; apply (poly2_partials _ _ _ _ x 0 PF)).
  assert (M : forall a b, a <= b -> F a 0 <= F b 0) by (intros a b Hab; apply (nondecreasing (fun t => F t 0) (fun x => g x * g x)); auto; intros; nra).
  assert (Z1 : forall s, 0 < s < 1 -> g s = 0).
  { intros s Hs. assert (g s * g s = 0); [|nra]. apply (derivative_0 (fun t => F t 0) (fun x => g x * g x) 0 1); auto. intros t Ht. pose proof (M 0 t). pose proof (M t 1). lra. }
  destruct (points_in (S k) 1 ltac:(lra)) as (z & Dz & Bz). apply (is_poly_roots (S k) g z P Dz). intros i Hi. auto.
Qed.

(** a polynomial as a combination of powers of s - 1/2 *)
Lemma is_poly_shift g c : is_poly (S k) g -> exists a, forall s, g s = rsum (S k) (fun i => a i * (s - c) ^ i).
Proof.
  intros P. destruct (is_poly_poly2 k g P) as (g' & P2). assert (P3 := poly2_comp k _ _ _ c 1 0 0 0 0 P2). cbv zeta beta in P3.
  destruct (is_poly_coef _ _ (poly2_x_is_poly _ _ _ _ 0 P3)) as (a & E). exists a. intros s. specialize (E (s - c)). cbv beta in E. unfold polynomial in E. rewrite <- E. f_equal. ring.
Qed.

Lemma edge_zero g : is_poly (S k) g -> (forall i, (i <= k)%nat -> QQ (fun s => g s * (s - 1 / 2) ^ i) = 0) -> forall s, g s = 0.
Proof.
  intros P Z. apply Q_square; auto. destruct (is_poly_shift g (1 / 2) P) as (a & E).
  rewrite (Q_ext ext0 points weights _ (fun s => rsum (S k) (fun i => a i * (g s * (s - 1 / 2) ^ i)))).
  2:{ intros s. rewrite (E s) at 2. rewrite <- rsum_scal. apply rsum_ext. intros; ring. }
  assert (S : forall n, (n <= S k)%nat -> QQ (fun s => rsum n (fun i => a i * (g s * (s - 1 / 2) ^ i))) = 0); [|apply S; lia].
  induction n as [|n IH]; intros Hn.
  - cbn [rsum]. rewrite (Q_ext ext0 points weights _ (fun _ => 0 * 1)) by (intros; ring). rewrite (Q_scal ext0 points weights 0 (fun _ => 1)). ring.
  - cbn [rsum]. rewrite (Q_plus ext0 points weights (fun s => rsum n (fun i => a i * (g s * (s - 1 / 2) ^ i))) (fun s => a n * (g s * (s - 1 / 2) ^ n))).
    rewrite IH by lia. rewrite (Q_scal ext0 points weights (a n) (fun s => g s * (s - 1 / 2) ^ n)), Z by lia. ring.
Qed.
End Segment.

(** ** Rules on the triangle *)
Lemma L_nonneg_in N q f fx fy : exact_triangle N q -> poly2 N f fx fy -> (forall x y, 0 < x -> 0 < y -> x + y < 1 -> 0 <= f x y) -> L q f = 0 ->
  forall x y, 0 < x -> 0 < y -> x + y < 1 -> f x y = 0.
Proof.
  intros EX P H0 HL x y Hx Hy Hxy. destruct (triangle_integral N q f fx fy EX P) as (F & H & D1 & F0 & D2 & E).
  assert (FM : forall x a b, 0 < x < 1 -> 0 <= a -> a <= b -> b <= 1 - x -> F x a <= F x b).
  { intros x' a b Hx' Ha Hab Hb. apply (nondecreasing (F x') (f x')); auto. intros z Hz. apply H0; lra. }
  assert (HM : forall a b, 0 <= a -> b <= 1 -> a <= b -> H a <= H b).
  { intros a b Ha Hb Hab. apply (nondecreasing H (fun x => F x (1 - x))); auto. intros z Hz. rewrite <- (F0 z). apply FM; lra. }
  assert (HC : forall t, 0 < t < 1 -> H t = H 0) by (intros t Ht; pose proof (HM 0 t); pose proof (HM t 1); lra).
  assert (Fx : F x (1 - x) = 0) by (apply (derivative_0 H (fun x => F x (1 - x)) 0 1); auto; lra).
  apply (derivative_0 (F x) (f x) 0 (1 - x)); auto; [|lra].
  intros t Ht. pose proof (FM x 0 t). pose proof (FM x t (1 - x)). rewrite F0 in *. lra.
Qed.

Lemma weighted_square a b : 0 < a -> a * (b * b) = 0 -> b = 0.
Proof. intros Ha E. apply Rmult_integral in E. destruct E as [E|E]; [lra|]. nra. Qed.

(** ** The Raviart-Thomas space *)
Section Space.
Variables (cx cy h : R) (k : nat).
Hypothesis Hh : h <> 0.
Notation ph := (PolyProofs.phi cx cy h).
Notation phx := (PolyProofs.phix cx cy h).
Notation phy := (PolyProofs.phiy cx cy h).
Definition low : nat := (num2 k - (k + 1))%nat.

Lemma num2_val j : (2 * num2 j = (j + 1) * (j + 2))%nat.
Proof. pose proof (proj1 (proj2 (class_num 2 M2 j (or_intror (or_introl (conj eq_refl eq_refl))))) eq_refl). unfold num2. lia. Qed.
Lemma low_add : (low + (k + 1) = num2 k)%nat.
Proof. unfold low. pose proof (num2_val k). nia. Qed.
Lemma low_num2 : (1 <= k)%nat -> low = num2 (k - 1).
Proof. intros H. unfold low. pose proof (num2_val k). pose proof (num2_val (k - 1)). replace (k - 1 + 1)%nat with k in * by lia. replace (k - 1 + 2)%nat with (k + 1)%nat in * by lia. nia. Qed.
Lemma low_deg i : (i < k + 1)%nat -> (ea (low + i) + eb (low + i) = k)%nat.
Proof.
  intros H. assert (A : (low + i < num2 k)%nat) by (pose proof low_add; lia). apply ab_lt in A.
  destruct (Nat.eq_dec k 0) as [->|K]; [lia|]. assert (B : ~ (low + i < num2 (k - 1))%nat) by (rewrite <- low_num2; lia).
  rewrite ab_lt in B. lia.
Qed.

(** fields of the space; c: coefficients of the two components, then of the homogeneous part *)
Definition vh (c : nat -> R) (x y : R) : R := rsum (k + 1) (fun i => c (2 * num2 k + i)%nat * ph (low + i) x y).
Definition vx (c : nat -> R) (x y : R) : R := rsum (num2 k) (fun j => c j * ph j x y) + (x - cx) / h * vh c x y.
Definition vy (c : nat -> R) (x y : R) : R := rsum (num2 k) (fun j => c (num2 k + j)%nat * ph j x y) + (y - cy) / h * vh c x y.
Definition vdiv (c : nat -> R) (x y : R) : R :=
  rsum (num2 k) (fun j => c j * phx j x y) + rsum (num2 k) (fun j => c (num2 k + j)%nat * phy j x y) + INR (k + 2) / h * vh c x y.

Lemma euler j x y : (x - cx) / h * phx j x y + (y - cy) / h * phy j x y = INR (ea j + eb j) / h * ph j x y.
Proof.
  unfold phix, phiy, PolyProofs.phi, mn. set (X := (x - cx) / h). set (Y := (y - cy) / h). rewrite plus_INR.
  assert (A : forall n Z, Z * (INR n * Z ^ (n - 1)) = INR n * Z ^ n).
  { intros n Z. destruct n as [|n]; [cbn; ring|]. replace (S n - 1)%nat with n by lia. cbn [pow]. ring. }
  transitivity ((X * (INR (ea j) * X ^ (ea j - 1)) * Y ^ eb j + Y * (INR (eb j) * Y ^ (eb j - 1)) * X ^ ea j) / h); [field; auto|].
  rewrite !A. field; auto.
Qed.

Definition vhx (c : nat -> R) (x y : R) : R := rsum (k + 1) (fun i => c (2 * num2 k + i)%nat * phx (low + i) x y).
Definition vhy (c : nat -> R) (x y : R) : R := rsum (k + 1) (fun i => c (2 * num2 k + i)%nat * phy (low + i) x y).
Lemma vh_poly c : poly2 k (vh c) (vhx c) (vhy c).
Proof.
  apply (poly2_rsum k (k + 1) (fun i x y => c (2 * num2 k + i)%nat * ph (low + i) x y) (fun i x y => c (2 * num2 k + i)%nat * phx (low + i) x y) (fun i x y => c (2 * num2 k + i)%nat * phy (low + i) x y)).
  intros i Hi. apply poly2_scal. apply phi_k; auto. pose proof low_add. lia.
Qed.
Lemma comp_poly (c : nat -> R) : poly2 k (fun x y => rsum (num2 k) (fun j => c j * ph j x y)) (fun x y => rsum (num2 k) (fun j => c j * phx j x y)) (fun x y => rsum (num2 k) (fun j => c j * phy j x y)).
Proof.
  apply (poly2_rsum k (num2 k) (fun j x y => c j * ph j x y) (fun j x y => c j * phx j x y) (fun j x y => c j * phy j x y)).
  intros j Hj. apply poly2_scal. apply phi_k; auto.
Qed.
Lemma X_poly : poly2 1 (fun x y => (x - cx) / h) (fun _ _ => / h) (fun _ _ => 0).
Proof. eapply poly2_ext; [apply (poly2_affine 1 (- cx / h) (/ h) 0 (le_n 1))| | |]; intros; cbv beta; try reflexivity. field; auto. Qed.
Lemma Y_poly : poly2 1 (fun x y => (y - cy) / h) (fun _ _ => 0) (fun _ _ => / h).
Proof. eapply poly2_ext; [apply (poly2_affine 1 (- cy / h) 0 (/ h) (le_n 1))| | |]; intros; cbv beta; try reflexivity. field; auto. Qed.

Definition vx_x (c : nat -> R) (x y : R) : R := rsum (num2 k) (fun j => c j * phx j x y) + (/ h * vh c x y + (x - cx) / h * vhx c x y).
Definition vx_y (c : nat -> R) (x y : R) : R := rsum (num2 k) (fun j => c j * phy j x y) + (0 * vh c x y + (x - cx) / h * vhy c x y).
Definition vy_x (c : nat -> R) (x y : R) : R := rsum (num2 k) (fun j => c (num2 k + j)%nat * phx j x y) + (0 * vh c x y + (y - cy) / h * vhx c x y).
Definition vy_y (c : nat -> R) (x y : R) : R := rsum (num2 k) (fun j => c (num2 k + j)%nat * phy j x y) + (/ h * vh c x y + (y - cy) / h * vhy c x y).
Lemma vx_poly c : poly2 (k + 1) (vx c) (vx_x c) (vx_y c).
Proof.
  apply (poly2_add (k + 1) _ _ _ _ _ _ (poly2_le k (k + 1) _ _ _ ltac:(lia) (comp_poly c))). rewrite Nat.add_1_r. apply (poly2_mult 1 k _ _ _ _ _ _ X_poly (vh_poly c)).
Qed.
Lemma vy_poly c : poly2 (k + 1) (vy c) (vy_x c) (vy_y c).
Proof.
  apply (poly2_add (k + 1) _ _ _ _ _ _ (poly2_le k (k + 1) _ _ _ ltac:(lia) (comp_poly (fun j => c (num2 k + j)%nat)))). rewrite Nat.add_1_r. apply (poly2_mult 1 k _ _ _ _ _ _ Y_poly (vh_poly c)).
Qed.
Lemma vdiv_eq c x y : vx_x c x y + vy_y c x y = vdiv c x y.
Proof.
  unfold vx_x, vy_y, vdiv.
  assert (A : (x - cx) / h * vhx c x y + (y - cy) / h * vhy c x y = INR k / h * vh c x y).
  { unfold vhx, vhy, vh. rewrite <- !rsum_scal, <- rsum_plus. apply rsum_ext. intros i Hi.
    transitivity (c (2 * num2 k + i)%nat * ((x - cx) / h * phx (low + i) x y + (y - cy) / h * phy (low + i) x y)); [ring|].
    rewrite euler, low_deg by auto. ring. }
  rewrite plus_INR. change (INR 2) with 2. replace ((INR k + 2) / h * vh c x y) with (INR k / h * vh c x y + 2 * / h * vh c x y) by (field; auto). rewrite <- A. ring.
Qed.
Lemma divp_poly c : exists a b, poly2 (k - 1) (fun x y => rsum (num2 k) (fun j => c j * phx j x y) + rsum (num2 k) (fun j => c (num2 k + j)%nat * phy j x y)) a b.
Proof.
  destruct (poly2_dx _ _ _ _ (comp_poly c)) as (a & b & P1), (poly2_dy _ _ _ _ (comp_poly (fun j => c (num2 k + j)%nat))) as (a' & b' & P2).
  eexists _, _. apply (poly2_add _ _ _ _ _ _ _ P1 P2).
Qed.
Lemma vdiv_poly c : exists a b, poly2 k (vdiv c) a b.
Proof.
  destruct (divp_poly c) as (a & b & P). eexists _, _.
  apply (poly2_add k _ _ _ _ _ _ (poly2_le (k - 1) k _ _ _ ltac:(lia) P) (poly2_scal k (INR (k + 2) / h) _ _ _ (vh_poly c))).
Qed.

(** a field with zero divergence has no homogeneous part *)
Lemma vdiv_0 c : (forall x y, vdiv c x y = 0) -> forall i, (i < k + 1)%nat -> c (2 * num2 k + i)%nat = 0.
Proof.
  intros Z. destruct (divp_poly c) as (a & b & P).
  assert (R : exists d, forall x y, rsum (num2 k) (fun j => c j * phx j x y) + rsum (num2 k) (fun j => c (num2 k + j)%nat * phy j x y) = rsum low (fun j => d j * ph j x y)).
  { destruct (Nat.eq_dec k 0) as [K|K].
    - exists (fun _ => 0). intros x y. rewrite (rsum_0 low) by (intros; ring).
      destruct (poly2_0 _ _ _ _ (comp_poly c) K) as (_ & A & _), (poly2_0 _ _ _ _ (comp_poly (fun j => c (num2 k + j)%nat)) K) as (_ & _ & B). rewrite A, B. ring.
    - destruct (phi_represent cx cy h Hh (k - 1) _ _ _ P) as (d & E & _). exists d. rewrite low_num2 by lia. exact E. }
  destruct R as (d & E).
  assert (I : forall j, (j < num2 k)%nat -> (if (j <? low)%nat then d j else INR (k + 2) / h * c (2 * num2 k + (j - low))%nat) = 0).
  { apply (phi_independent cx cy h Hh k). intros x y. rewrite <- low_add, rsum_add. specialize (Z x y). unfold vdiv in Z. rewrite E in Z.
    rewrite <- Z. f_equal.
    - apply rsum_ext. intros j Hj. destruct (Nat.ltb_spec j low); [auto|lia].
    - unfold vh. rewrite <- rsum_scal. apply rsum_ext. intros j Hj. destruct (Nat.ltb_spec (low + j) low); [lia|]. replace (low + j - low)%nat with j by lia. rewrite Rmult_assoc. do 3 f_equal. pose proof low_add. lia. }
  intros i Hi. specialize (I (low + i)%nat ltac:(pose proof low_add; lia)). destruct (Nat.ltb_spec (low + i) low); [lia|]. replace (low + i - low)%nat with i in I by lia.
  apply Rmult_integral in I. destruct I as [I|I]; auto. exfalso. assert (INR (k + 2) <> 0) by (apply not_0_INR; lia). unfold Rdiv in I. apply Rmult_integral in I. destruct I; auto. apply (Rinv_neq_0_compat h Hh); auto.
Qed.

Variables (points : Mat) (weights : Vec) (q : QuadratureData).
Notation ext0 := ((0, 0) : R * R).
Notation QQ := (Q ext0 points weights).
Notation LL := (L q).
Hypothesis exactS : exact_segment (2 * k + 1) ext0 points weights.
Hypothesis exactT : exact_triangle (2 * k) q.

(** the divergence theorem for the fields of the space *)
Lemma rt_green c w wx wy : poly2 k w wx wy ->
  LL (fun x y => vdiv c x y * w x y) + LL (fun x y => vx c x y * wx x y) + LL (fun x y => vy c x y * wy x y) =
  QQ (fun s => vx c (1 - s) s * w (1 - s) s) - QQ (fun s => vx c 0 s * w 0 s) + (QQ (fun s => vy c (1 - s) s * w (1 - s) s) - QQ (fun s => vy c s 0 * w s 0)).
Proof.
  intros P. assert (T : exact_triangle (2 * k + 1 - 1) q) by (replace (2 * k + 1 - 1)%nat with (2 * k)%nat by lia; auto).
  assert (P1 := poly2_mult (k + 1) k _ _ _ _ _ _ (vx_poly c) P). assert (P2 := poly2_mult (k + 1) k _ _ _ _ _ _ (vy_poly c) P).
  replace (k + 1 + k)%nat with (2 * k + 1)%nat in * by lia.
  assert (G1 := green_x ext0 points weights (2 * k + 1) exactS q T _ _ _ P1). assert (G2 := green_y ext0 points weights (2 * k + 1) exactS q T _ _ _ P2).
  cbv beta in G1, G2. rewrite <- G1, <- G2.
  rewrite (L_ext q (fun x y => vdiv c x y * w x y) (fun x y => vx_x c x y * w x y + vy_y c x y * w x y)) by (intros; rewrite <- vdiv_eq; ring).
  rewrite !L_plus. ring.
Qed.

(** unisolvence *)
Lemma rt_vanish c : (forall y, vx c 0 y = 0) -> (forall x, vy c x 0 = 0) -> (forall s, vx c (1 - s) s + vy c (1 - s) s = 0) ->
  ((1 <= k)%nat -> forall w wx wy, poly2 (k - 1) w wx wy -> LL (fun x y => vx c x y * w x y) = 0 /\ LL (fun x y => vy c x y * w x y) = 0) ->
  forall j, (j < 2 * num2 k + (k + 1))%nat -> c j = 0.
Proof.
  intros E0 E1 E2 I.
  assert (D : forall x y, vdiv c x y = 0).
  { destruct (vdiv_poly c) as (dx & dy & PD). apply (L_square (2 * k) k q _ _ _ exactT (le_n _) PD).
    assert (G := rt_green c _ _ _ PD).
    assert (Z : LL (fun x y => vx c x y * dx x y) = 0 /\ LL (fun x y => vy c x y * dy x y) = 0).
    { destruct (Nat.eq_dec k 0) as [K|K].
      - destruct (poly2_0 _ _ _ _ PD K) as (_ & A & B).
        rewrite (L_ext q (fun x y => vx c x y * dx x y) (fun x y => 0 * 1)), (L_ext q (fun x y => vy c x y * dy x y) (fun x y => 0 * 1)) by (intros; rewrite ?A, ?B; ring).
        rewrite (L_scal q 0 (fun _ _ => 1)). split; ring.
      - destruct (poly2_dx _ _ _ _ PD) as (a & b & P1), (poly2_dy _ _ _ _ PD) as (a' & b' & P2). split; [apply (I ltac:(lia) _ _ _ P1)|apply (I ltac:(lia) _ _ _ P2)]. }
    destruct Z as (Z1 & Z2). rewrite Z1, Z2 in G.
    rewrite (Q_ext ext0 points weights (fun s => vx c 0 s * vdiv c 0 s) (fun s => 0 * 1)), (Q_ext ext0 points weights (fun s => vy c s 0 * vdiv c s 0) (fun s => 0 * 1)) in G by (intros; rewrite ?E0, ?E1; ring).
    rewrite (Q_scal ext0 points weights 0 (fun _ => 1)) in G.
    assert (S : QQ (fun s => vx c (1 - s) s * vdiv c (1 - s) s) + QQ (fun s => vy c (1 - s) s * vdiv c (1 - s) s) = 0).
    { rewrite <- (Q_plus ext0 points weights (fun s => vx c (1 - s) s * vdiv c (1 - s) s)). rewrite (Q_ext ext0 points weights _ (fun s => 0 * 1)).
      - rewrite (Q_scal ext0 points weights 0 (fun _ => 1)). ring.
      - intros s. replace (vx c (1 - s) s * vdiv c (1 - s) s + vy c (1 - s) s * vdiv c (1 - s) s) with ((vx c (1 - s) s + vy c (1 - s) s) * vdiv c (1 - s) s) by ring. rewrite E2. ring. }
    lra. }
  assert (H0 : forall i, (i < k + 1)%nat -> c (2 * num2 k + i)%nat = 0) by (apply vdiv_0; auto).
  assert (VH : forall x y, vh c x y = 0) by (intros; apply rsum_0; intros; rewrite H0 by auto; ring).
  set (p1 := fun x y => rsum (num2 k) (fun j => c j * ph j x y)). set (p2 := fun x y => rsum (num2 k) (fun j => c (num2 k + j)%nat * ph j x y)).
  assert (V1 : forall x y, vx c x y = p1 x y) by (intros; unfold vx; rewrite VH; fold (p1 x y); ring).
  assert (V2 : forall x y, vy c x y = p2 x y) by (intros; unfold vy; rewrite VH; fold (p2 x y); ring).
  assert (P1 := comp_poly c). assert (P2 := comp_poly (fun j => c (num2 k + j)%nat)). match type of P1 with poly2 _ _ ?a ?b => change (poly2 k p1 a b) in P1 end. match type of P2 with poly2 _ _ ?a ?b => change (poly2 k p2 a b) in P2 end.
  assert (Z : (forall x y, p1 x y = 0) /\ (forall x y, p2 x y = 0)).
  { destruct (Nat.eq_dec k 0) as [K|K].
    - destruct (poly2_0 _ _ _ _ P1 K) as (A & _), (poly2_0 _ _ _ _ P2 K) as (B & _). split; intros x y; [rewrite A, <- V1|rewrite B, <- V2]; auto.
    - assert (K1 : (1 <= k)%nat) by lia. split.
      + destruct (poly2_factor_x _ _ _ _ P1 K1) as (g & gx & gy & PG & EG).
        assert (EG' : forall x y, p1 x y = x * g x y) by (intros; rewrite EG, <- V1, E0; ring).
        assert (PGG := poly2_x _ _ _ _ (poly2_mult _ _ _ _ _ _ _ _ PG PG)). assert (Hd : (S (k - 1 + (k - 1)) <= 2 * k)%nat) by lia. assert (PGG' := poly2_le _ _ _ _ _ Hd PGG). cbv beta in PGG'.
        assert (ZL : LL (fun x y => x * (g x y * g x y)) = 0).
        { rewrite <- (proj1 (I K1 _ _ _ PG)). apply L_ext. intros. rewrite V1, EG'. ring. }
        assert (ZG : forall x y, g x y = 0).
        { apply (poly2_vanish _ _ _ _ PG). intros x y Hx Hy Hxy. apply (weighted_square x _ Hx).
          apply (L_nonneg_in (2 * k) q _ _ _ exactT PGG' ltac:(intros; cbv beta; apply Rmult_le_pos; [lra|nra]) ZL x y); auto. }
        intros. rewrite EG', ZG. ring.
      + destruct (poly2_factor_y _ _ _ _ P2 K1) as (g & gx & gy & PG & EG).
        assert (EG' : forall x y, p2 x y = y * g x y) by (intros; rewrite EG, <- V2, E1; ring).
        assert (PGG := poly2_y _ _ _ _ (poly2_mult _ _ _ _ _ _ _ _ PG PG)). assert (Hd : (S (k - 1 + (k - 1)) <= 2 * k)%nat) by lia. assert (PGG' := poly2_le _ _ _ _ _ Hd PGG). cbv beta in PGG'.
        assert (ZL : LL (fun x y => y * (g x y * g x y)) = 0).
        { rewrite <- (proj2 (I K1 _ _ _ PG)). apply L_ext. intros. rewrite V2, EG'. ring. }
        assert (ZG : forall x y, g x y = 0).
        { apply (poly2_vanish _ _ _ _ PG). intros x y Hx Hy Hxy. apply (weighted_square y _ Hy).
          apply (L_nonneg_in (2 * k) q _ _ _ exactT PGG' ltac:(intros; cbv beta; apply Rmult_le_pos; [lra|nra]) ZL x y); auto. }
        intros. rewrite EG', ZG. ring. }
  destruct Z as (Z1 & Z2). intros j Hj.
  destruct (Nat.lt_ge_cases j (num2 k)) as [A|A]; [apply (phi_independent cx cy h Hh k c Z1); auto|].
  destruct (Nat.lt_ge_cases j (2 * num2 k)) as [B|B].
  - replace j with (num2 k + (j - num2 k))%nat by lia. apply (phi_independent cx cy h Hh k (fun j => c (num2 k + j)%nat) Z2). lia.
  - replace j with (2 * num2 k + (j - 2 * num2 k))%nat by lia. apply H0. lia.
Qed.
End Space.
