(** Binomial coefficients with a real upper argument, and the Vandermonde convolution.  Used to sum shape functions. *)
From Coq Require Import List Arith Bool Lia Reals Lra.
From Verif Require Import Base RSum LagrangeModel LagrangeProofs.
Import ListNotations.
Local Open Scope R_scope.

Definition gb (Z : R) (k : nat) : R := rprod k (fun t => (Z - INR t) / (INR k - INR t)).

Lemma rprod_S_l n f : rprod (S n) f = f O * rprod n (fun t => f (S t)).
Proof. induction n as [|n IH]; [cbn; ring|]. cbn [rprod] in *. rewrite IH. ring. Qed.
Lemma rprod_add n m f : rprod (n + m) f = rprod n f * rprod m (fun t => f (n + t)%nat).
Proof. induction m as [|m IH]; [rewrite Nat.add_0_r; cbn; ring|]. rewrite Nat.add_succ_r. cbn [rprod]. rewrite IH. ring. Qed.
Lemma rprod_inv n f : rprod n (fun t => / f t) = / rprod n f.
Proof. induction n as [|n IH]; cbn [rprod]; [now rewrite Rinv_1|]. now rewrite IH, Rinv_mult. Qed.

Lemma fact_prod k : rprod k (fun t => INR k - INR t) = INR (fact k).
Proof.
  induction k as [|k IH]; [reflexivity|]. rewrite rprod_S_l. change (INR 0) with 0. rewrite Rminus_0_r.
  rewrite (rprod_ext k _ (fun t => INR k - INR t)) by (intros; rewrite !S_INR; lra). rewrite IH. cbn [fact].
  rewrite <- mult_INR. f_equal.
Qed.
Lemma gb_alt Z k : gb Z k = rprod k (fun t => Z - INR t) / INR (fact k).
Proof.
  unfold gb. unfold Rdiv. rewrite rprod_mult. rewrite rprod_inv, fact_prod. reflexivity.
Qed.
Lemma gb_O Z : gb Z 0 = 1. Proof. reflexivity. Qed.
Lemma gb_S Z k : INR (S k) * gb Z (S k) = (Z - INR k) * gb Z k.
Proof.
  rewrite !gb_alt. cbn [rprod fact]. change (fact k + k * fact k)%nat with (S k * fact k)%nat. rewrite mult_INR.
  pose proof (INR_fact_neq_0 k). pose proof (not_0_INR (S k) ltac:(lia)). field. auto.
Qed.
Lemma gb_lt j p : (j < p)%nat -> gb (INR j) p = 0.
Proof. intros H. unfold gb. apply (rprod_0 _ _ j); auto. unfold Rdiv. rewrite Rminus_diag_eq by auto. ring. Qed.
Lemma gb_diag k : gb (INR k) k = 1.
Proof. unfold gb. apply rprod_1. intros t Ht. apply lt_INR in Ht. field. lra. Qed.

(** C(j,p) C(X,j) = C(X,p) C(X-p,j-p) *)
Lemma gb_shift X p k : gb (INR (p + k)) p * gb X (p + k) = gb X p * gb (X - INR p) k.
Proof.
  rewrite !gb_alt. rewrite rprod_add.
  rewrite (rprod_ext k (fun t => X - INR (p + t)) (fun t => X - INR p - INR t)) by (intros; rewrite plus_INR; lra).
  assert (E : rprod p (fun t => INR (p + k) - INR t) * INR (fact k) = INR (fact (p + k))).
  { rewrite <- (fact_prod (p + k)), <- (fact_prod k), rprod_add. f_equal. apply rprod_ext. intros; rewrite !plus_INR; lra. }
  rewrite <- E. pose proof (INR_fact_neq_0 p). pose proof (INR_fact_neq_0 k). pose proof (INR_fact_neq_0 (p + k)). rewrite <- E in H1.
  field. repeat split; auto. intros Z. apply H1. rewrite Z. ring.
Qed.

(** Vandermonde *)
Lemma vandermonde x y n : rsum (S n) (fun k => gb x k * gb y (n - k)) = gb (x + y) n.
Proof.
  induction n as [|n IH]; [cbn [rsum Nat.sub]; rewrite !gb_O; ring|].
  apply (Rmult_eq_reg_l (INR (S n))); [|apply not_0_INR; lia]. rewrite gb_S, <- IH.
  rewrite <- !rsum_scal.
  rewrite (rsum_ext (S (S n)) _ (fun k => INR k * gb x k * gb y (S n - k) + gb x k * (INR (S n - k) * gb y (S n - k)))).
  2: { intros k Hk. rewrite (minus_INR (S n) k) by lia. ring. }
  rewrite rsum_plus.
  rewrite (rsum_S_l (S n) (fun k => INR k * gb x k * gb y (S n - k))). change (INR 0) with 0. rewrite !Rmult_0_l, Rplus_0_l.
  change (rsum (S (S n)) ?f) with (rsum (S n) f + f (S n)). cbv beta.
  rewrite Nat.sub_diag. change (INR 0) with 0. rewrite Rmult_0_l, Rmult_0_r, Rplus_0_r. rewrite <- rsum_plus.
  apply rsum_ext. intros k Hk. change (S n - S k)%nat with (n - k)%nat. rewrite gb_S.
  replace (S n - k)%nat with (S (n - k)) by lia. rewrite gb_S. rewrite minus_INR by lia. ring.
Qed.

(** with a binomial weight *)
Lemma vandermonde_shift x y p n : rsum (S n) (fun j => gb (INR j) p * (gb x j * gb y (n - j))) =
  if (p <=? n)%nat then gb x p * gb (x - INR p + y) (n - p) else 0.
Proof.
  destruct (Nat.leb_spec p n) as [H|H].
  - replace (S n) with (p + S (n - p))%nat by lia. rewrite rsum_add, (rsum_0 p).
    2: { intros j Hj. rewrite gb_lt by auto. ring. }
    rewrite Rplus_0_l, <- vandermonde, <- rsum_scal. apply rsum_ext. intros k Hk. rewrite <- Rmult_assoc, gb_shift.
    replace (n - (p + k))%nat with (n - p - k)%nat by lia. ring.
  - apply rsum_0. intros j Hj. rewrite gb_lt by lia. ring.
Qed.

(** powers in the binomial basis *)
Lemma pow_gb o p : (1 <= o)%nat -> exists c, forall x, x ^ p = rsum (S p) (fun k => c k * gb (INR o * x) k).
Proof.
  intros Ho. assert (Hn : INR o <> 0) by (apply not_0_INR; lia).
  induction p as [|p (c & IH)].
  - exists (fun _ => 1). intros x. cbn [rsum pow]. rewrite gb_O. ring.
  - exists (fun k => match k with O => 0 | S k' => INR k * c k' / INR o end + (if (k <=? p)%nat then INR k * c k / INR o else 0)).
    intros x. cbn [pow]. rewrite IH, <- rsum_scal.
    rewrite (rsum_ext (S (S p)) _ (fun k => (match k with O => 0 | S k' => INR k * c k' / INR o end) * gb (INR o * x) k + (if (k <=? p)%nat then INR k * c k / INR o else 0) * gb (INR o * x) k)) by (intros; ring).
    rewrite rsum_plus. rewrite (rsum_S_l (S p)). rewrite Rmult_0_l, Rplus_0_l.
    change (rsum (S (S p)) ?f) with (rsum (S p) f + f (S p)). cbv beta.
    destruct (Nat.leb_spec (S p) p); [lia|]. rewrite Rmult_0_l, Rplus_0_r, <- rsum_plus. apply rsum_ext. intros k Hk.
    destruct (Nat.leb_spec k p); [|lia].
    replace (INR (S k) * c k / INR o * gb (INR o * x) (S k)) with (c k / INR o * (INR (S k) * gb (INR o * x) (S k))) by (field; auto).
    rewrite gb_S. field. auto.
Qed.
