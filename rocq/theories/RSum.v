(** Finite sums of reals, over [0..n-1] and over lists. *)
From Coq Require Import List Arith Lia Reals Lra Permutation Bool.
Import ListNotations.
Open Scope R_scope.

Fixpoint rsum (n : nat) (f : nat -> R) : R :=
  match n with O => 0 | S m => rsum m f + f m end.

Fixpoint lsum {A} (f : A -> R) (l : list A) : R :=
  match l with [] => 0 | a :: t => f a + lsum f t end.

Lemma rsum_ext n f g : (forall i, (i < n)%nat -> f i = g i) -> rsum n f = rsum n g.
Proof.
  induction n; simpl; intros H; auto. rewrite IHn, H by auto. reflexivity.
Qed.

Lemma rsum_plus n f g : rsum n (fun i => f i + g i) = rsum n f + rsum n g.
Proof. induction n; simpl; [lra|]. rewrite IHn. lra. Qed.

Lemma rsum_minus n f g : rsum n (fun i => f i - g i) = rsum n f - rsum n g.
Proof. induction n; simpl; [lra|]. rewrite IHn. lra. Qed.

Lemma rsum_opp n f : rsum n (fun i => - f i) = - rsum n f.
Proof. induction n; simpl; [lra|]. rewrite IHn. lra. Qed.

Lemma rsum_scal n c f : rsum n (fun i => c * f i) = c * rsum n f.
Proof. induction n; simpl; [lra|]. rewrite IHn. lra. Qed.

Lemma rsum_scal_r n c f : rsum n (fun i => f i * c) = rsum n f * c.
Proof. induction n; simpl; [lra|]. rewrite IHn. lra. Qed.

Lemma rsum_0 n f : (forall i, (i < n)%nat -> f i = 0) -> rsum n f = 0.
Proof.
  induction n; simpl; intros H; auto. rewrite IHn, H by auto. lra.
Qed.

Lemma rsum_const n c : rsum n (fun _ => c) = INR n * c.
Proof. induction n; [simpl; lra|]. rewrite S_INR. cbn [rsum]. rewrite IHn. lra. Qed.

Lemma rsum_swap n m f : rsum n (fun i => rsum m (fun j => f i j)) = rsum m (fun j => rsum n (fun i => f i j)).
Proof.
  induction n; simpl.
  - symmetry. now apply rsum_0.
  - now rewrite IHn, rsum_plus.
Qed.

Lemma rsum_add n m f : rsum (n + m) f = rsum n f + rsum m (fun i => f (n + i)%nat).
Proof.
  induction m; simpl.
  - rewrite Nat.add_0_r. lra.
  - rewrite Nat.add_succ_r. simpl. rewrite IHm. lra.
Qed.

Lemma rsum_S_l n f : rsum (S n) f = f O + rsum n (fun i => f (S i)).
Proof.
  change (S n) with (1 + n)%nat. rewrite rsum_add. simpl. lra.
Qed.

(** a sum with a single non-zero term *)
Lemma rsum_single n f k :
  (k < n)%nat -> (forall i, (i < n)%nat -> i <> k -> f i = 0) -> rsum n f = f k.
Proof.
  induction n; intros Hk H; [lia|]. simpl.
  destruct (Nat.eq_dec k n) as [->|Hne].
  - rewrite rsum_0; [lra|]. intros i Hi. apply H; lia.
  - rewrite IHn; [|lia|intros i Hi; apply H; lia]. rewrite (H n); [lra|lia|lia].
Qed.

Lemma rsum_nonneg n f : (forall i, (i < n)%nat -> 0 <= f i) -> 0 <= rsum n f.
Proof.
  induction n; simpl; intros H; [lra|].
  assert (0 <= rsum n f) by (apply IHn; auto). assert (0 <= f n) by auto. lra.
Qed.

Lemma rsum_le n f g : (forall i, (i < n)%nat -> f i <= g i) -> rsum n f <= rsum n g.
Proof.
  induction n; simpl; intros H; [lra|].
  assert (rsum n f <= rsum n g) by (apply IHn; auto). assert (f n <= g n) by auto. lra.
Qed.

Lemma rsum_nonneg_0 n f :
  (forall i, (i < n)%nat -> 0 <= f i) -> rsum n f = 0 -> forall i, (i < n)%nat -> f i = 0.
Proof.
  induction n; intros H E i Hi; [lia|]. simpl in E.
  assert (0 <= rsum n f) by (apply rsum_nonneg; auto). assert (0 <= f n) by auto.
  destruct (Nat.eq_dec i n) as [->|Hne]; [lra|]. apply IHn; auto; [lra|lia].
Qed.

Lemma rsum_mult n m f g :
  rsum n f * rsum m g = rsum n (fun i => rsum m (fun j => f i * g j)).
Proof.
  rewrite <- rsum_scal_r. apply rsum_ext. intros i _. now rewrite rsum_scal.
Qed.

(** reflected index *)
Lemma rsum_rev n f : rsum n f = rsum n (fun i => f (n - 1 - i)%nat).
Proof.
  revert f; induction n; intros f; auto.
  rewrite rsum_S_l. cbn [rsum]. replace (S n - 1 - n)%nat with O by lia.
  rewrite (IHn (fun i => f (S i))), Rplus_comm. f_equal.
  apply rsum_ext. intros i Hi. f_equal. lia.
Qed.

(** ** Sums over lists *)

Lemma lsum_app {A} (f : A -> R) l1 l2 : lsum f (l1 ++ l2) = lsum f l1 + lsum f l2.
Proof. induction l1; simpl; [lra|]. rewrite IHl1. lra. Qed.

Lemma lsum_ext {A} (f g : A -> R) l : (forall x, In x l -> f x = g x) -> lsum f l = lsum g l.
Proof.
  induction l; simpl; intros H; auto. rewrite IHl, H by auto. reflexivity.
Qed.

Lemma lsum_0 {A} (f : A -> R) l : (forall x, In x l -> f x = 0) -> lsum f l = 0.
Proof. induction l; simpl; intros H; auto. rewrite IHl, H by auto. lra. Qed.

Lemma lsum_plus {A} (f g : A -> R) l : lsum (fun x => f x + g x) l = lsum f l + lsum g l.
Proof. induction l; simpl; [lra|]. rewrite IHl. lra. Qed.

Lemma lsum_scal {A} c (f : A -> R) l : lsum (fun x => c * f x) l = c * lsum f l.
Proof. induction l; simpl; [lra|]. rewrite IHl. lra. Qed.

Lemma lsum_scal_r {A} c (f : A -> R) l : lsum (fun x => f x * c) l = lsum f l * c.
Proof. induction l; simpl; [lra|]. rewrite IHl. lra. Qed.

Lemma lsum_opp {A} (f : A -> R) l : lsum (fun x => - f x) l = - lsum f l.
Proof. induction l; simpl; [lra|]. rewrite IHl. lra. Qed.

Lemma lsum_flat_map {A B} (f : B -> R) (g : A -> list B) l :
  lsum f (flat_map g l) = lsum (fun x => lsum f (g x)) l.
Proof. induction l; simpl; auto. rewrite lsum_app. congruence. Qed.

Lemma lsum_map {A B} (f : B -> R) (g : A -> B) l : lsum f (map g l) = lsum (fun x => f (g x)) l.
Proof. induction l; simpl; congruence. Qed.

Lemma lsum_swap {A B} (f : A -> B -> R) l1 l2 :
  lsum (fun x => lsum (fun y => f x y) l2) l1 = lsum (fun y => lsum (fun x => f x y) l1) l2.
Proof.
  induction l1; simpl.
  - symmetry. now apply lsum_0.
  - now rewrite IHl1, lsum_plus.
Qed.

Lemma lsum_seq_from f a n : lsum f (seq a n) = rsum n (fun i => f (a + i)%nat).
Proof.
  revert a; induction n; intros a; auto. rewrite rsum_S_l. simpl. rewrite IHn, Nat.add_0_r.
  f_equal. apply rsum_ext. intros i _. f_equal. lia.
Qed.

Lemma lsum_seq f n : lsum f (seq 0 n) = rsum n f.
Proof. rewrite lsum_seq_from. reflexivity. Qed.

Lemma lsum_perm {A} (f : A -> R) l1 l2 : Permutation l1 l2 -> lsum f l1 = lsum f l2.
Proof. induction 1; simpl; lra. Qed.

Lemma lsum_rsum_swap {A} (f : A -> nat -> R) l n :
  lsum (fun x => rsum n (f x)) l = rsum n (fun i => lsum (fun x => f x i) l).
Proof.
  induction l; simpl.
  - symmetry. now apply rsum_0.
  - now rewrite IHl, rsum_plus.
Qed.

Lemma lsum_nonneg {A} (f : A -> R) l : (forall x, In x l -> 0 <= f x) -> 0 <= lsum f l.
Proof.
  induction l; simpl; intros H; [lra|].
  assert (0 <= lsum f l) by (apply IHl; auto). assert (0 <= f a) by auto. lra.
Qed.

Lemma lsum_nth {A} (d : A) (f : A -> R) l : lsum f l = rsum (length l) (fun i => f (nth i l d)).
Proof.
  induction l; auto. cbn [length]. rewrite rsum_S_l. simpl. now rewrite IHl.
Qed.

(** a list sum with the only non-zero terms at [k] (which occurs once) *)
Lemma lsum_filter {A} (p : A -> bool) (f : A -> R) l :
  lsum (fun x => if p x then f x else 0) l = lsum f (filter p l).
Proof. induction l; simpl; auto. destruct (p a); simpl; rewrite IHl; lra. Qed.

(** sum over reals of an indicator *)
Lemma rsum_indicator n k (f : nat -> R) :
  (k < n)%nat -> rsum n (fun i => if (i =? k)%nat then f i else 0) = f k.
Proof.
  intros H. rewrite (rsum_single _ _ k); auto.
  - now rewrite Nat.eqb_refl.
  - intros i _ Hi. apply Nat.eqb_neq in Hi. now rewrite Hi.
Qed.
