From Coq Require Import List Arith Bool Lia ZArith Reals Lra Permutation.
From Verif Require Import Base RSum MatrixModel MonomialsModel MonomialsSpec GBasisModel GBasisProofs LagrangeModel LagrangeSpec LagrangeProofs
  RBinom TriangleModel TriangleSpec TriangleProofs.
Import ListNotations.
Local Open Scope R_scope.

Lemma dpl_ext f g x l : (forall s, f s = g s) -> derivable_pt_lim f x l -> derivable_pt_lim g x l.
Proof. intros E H eps He. destruct (H eps He) as (d & Hd). exists d. intros k Hk Hk'. rewrite <- !E. auto. Qed.

Section Values.
Variable o : nat.
Hypothesis Ho : (1 <= o)%nat.
Let h := 1 / INR o.
Lemma INR_o : INR o <> 0. Proof. apply not_0_INR. lia. Qed.
Lemma INR_o_pos : 0 < INR o. Proof. apply lt_0_INR. lia. Qed.

(** products of factors z - t/o *)
Lemma gb_h z k : gb (INR o * z) k = rprod k (fun t => z - INR t * h) / rprod k (fun t => INR k * h - INR t * h).
Proof.
  unfold gb. unfold Rdiv. rewrite rprod_mult, rprod_inv.
  rewrite (rprod_ext k (fun t => INR o * z - INR t) (fun t => INR o * (z - INR t * h))).
  2: { intros. unfold h. field. apply INR_o. }
  rewrite (rprod_ext k (fun t => INR k - INR t) (fun t => INR o * (INR k * h - INR t * h))).
  2: { intros. unfold h. field. apply INR_o. }
  rewrite !rprod_scal.
  assert (rprod k (fun t => INR k * h - INR t * h) <> 0).
  { apply rprod_neq_0. intros t Ht. unfold h. apply lt_INR in Ht. pose proof INR_o_pos.
    replace (INR k * (1 / INR o) - INR t * (1 / INR o)) with ((INR k - INR t) / INR o) by (field; apply INR_o).
    apply Rmult_integral_contrapositive_currified; [lra|]. apply Rinv_neq_0_compat, INR_o. }
  pose proof (pow_nonzero (INR o) k INR_o). field. auto.
Qed.
Lemma den_neq_0 k : rprod k (fun t => INR k * h - INR t * h) <> 0.
Proof.
  apply rprod_neq_0. intros t Ht. unfold h. apply lt_INR in Ht. pose proof INR_o_pos.
  replace (INR k * (1 / INR o) - INR t * (1 / INR o)) with ((INR k - INR t) / INR o) by (field; apply INR_o).
  apply Rmult_integral_contrapositive_currified; [lra|]. apply Rinv_neq_0_compat, INR_o.
Qed.

(** the shape function of the lattice point (i, j) *)
Definition phi (p : nat * nat) (x y : R) : R :=
  gb (INR o * (1 - x - y)) (o - fst p - snd p) * gb (INR o * x) (snd p) * gb (INR o * y) (fst p).

Lemma tri_terms_ok n term den v : exists w, tri_terms (Z.of_nat n) term den v = Ok w /\
  forall q, w q = v q * rprod n (fun t => term t q / den t).
Proof.
  unfold tri_terms. rewrite Nat2Z.id.
  apply (flt (fun k w => forall q, w q = v q * rprod k (fun t => term t q / den t))).
  - intros q. cbn. ring.
  - intros t w Ht Hw. eexists. split; [reflexivity|]. intros q. cbn [rprod]. rewrite Hw. unfold Rdiv. ring.
Qed.

Lemma lattice_den i j : (i + j <= o)%nat -> 1 - INR j * h - INR i * h = INR (o - i - j) * h.
Proof. intros H. rewrite <- Nat.sub_add_distr, minus_INR, plus_INR by lia. unfold h. field. apply INR_o. Qed.

Lemma rprod_div k f g : rprod k (fun t => f t / g t) = rprod k f / rprod k g.
Proof. unfold Rdiv. now rewrite rprod_mult, rprod_inv. Qed.

Lemma tvalues_ok data points : tri_ok o data -> (2 <= m_rows points)%nat ->
  exists V, Tri_Values points data = Ok V /\ m_rows V = m_cols points /\ m_cols V = NN o /\
    forall q d p, nth_error (Lp o) d = Some p -> m_at V q d = phi p (m_at points 0 q) (m_at points 1 q).
Proof.
  intros (T1 & T2 & T3 & T4 & T5 & T6 & T7 & T8 & T9 & T10) HP. unfold Tri_Values. destruct (ft_Order data) as [|n] eqn:E; [lia|]. rewrite T1, T5. clear n E T1.
  fold h. unfold mrow. destruct (Nat.ltb_spec 0 (m_rows points)); [|lia]. destruct (Nat.ltb_spec 1 (m_rows points)); [|lia]. cbn [bind].
  match goal with |- context [for_loop (NN o) ?f ?s0] =>
    destruct (flt (fun k V => m_rows V = m_cols points /\ m_cols V = NN o /\ (forall q d, (k <= d)%nat -> m_at V q d = 1) /\
      forall q d p, (d < k)%nat -> nth_error (Lp o) d = Some p -> m_at V q d = phi p (m_at points 0 q) (m_at points 1 q)) f (NN o) s0) as (V & EV & V1 & V2 & V3 & V4) end.
  - cbn. repeat split; auto. intros; lia.
  - intros d V Hd (V1 & V2 & V3 & V4). unfold imcol, mcol. rewrite T9, T7, V2. destruct (Nat.ltb_spec d (NN o)); [|lia]. cbn [bind].
    destruct (nth_error_Some_ex (Lp o) (i:=d)) as (p & Ep); [rewrite Lp_length by auto; auto|].
    pose proof (T10 d p Ep) as A. destruct p as [i j]. destruct A as (A1 & A2 & A3 & A4 & A5 & A6). unfold TriangleProofs.h in A1, A2. fold h in A1, A2.
    assert (Hij : (i + j <= o)%nat). { apply nth_error_In in Ep. apply (Lp_In o Ho) in Ep. auto. }
    rewrite A4, A5, A6.
    match goal with |- context [tri_terms ?n ?a ?b ?v] => destruct (tri_terms_ok (o - i - j) a b v) as (w1 & E1 & W1) end. rewrite E1. cbn [bind].
    match goal with |- context [tri_terms ?n ?a ?b w1] => destruct (tri_terms_ok j a b w1) as (w2 & E2 & W2) end. rewrite E2. cbn [bind].
    match goal with |- context [tri_terms ?n ?a ?b w2] => destruct (tri_terms_ok i a b w2) as (w3 & E3 & W3) end. rewrite E3. cbn [bind].
    unfold mat_set_col. rewrite V2. destruct (Nat.ltb_spec d (NN o)); [|lia]. cbn [bind].
    match goal with |- exists z, Ok ?v = Ok z /\ _ => exists v end. split; auto. cbn [m_rows m_cols m_at]. repeat split; auto.
    + intros q d' Hd'. destruct (Nat.eqb_spec d' d); [lia|]. apply V3. lia.
    + intros q d' p' Hd' E'. destruct (Nat.eqb_spec d' d) as [->|].
      * rewrite Ep in E'. injection E' as <-. rewrite W3, W2, W1, V3 by lia. rewrite A1, A2. unfold phi. cbn [fst snd].
        rewrite !gb_h, !rprod_div.
        rewrite (rprod_ext (o - i - j) (fun t => 1 - INR j * h - INR i * h - INR t * h) (fun t => INR (o - i - j) * h - INR t * h)).
        2: { intros. rewrite lattice_den by auto. ring. }
        ring.
      * apply (V4 q d' p'); auto. lia.
  - exists V. rewrite EV. repeat split; auto. intros q d p Hp. apply V4; auto. apply nth_error_lt in Hp. rewrite Lp_length in Hp by auto. auto.
Qed.

(** *** nodality *)
Lemma phi_nodal i j i' j' : (i + j <= o)%nat -> (i' + j' <= o)%nat ->
  phi (i, j) (INR j' * h) (INR i' * h) = if (i =? i')%nat && (j =? j')%nat then 1 else 0.
Proof.
  intros H H'. unfold phi. cbn [fst snd]. rewrite lattice_den by auto.
  assert (X : forall k, INR o * (INR k * h) = INR k) by (intros k; unfold h; field; apply INR_o). rewrite !X.
  destruct (Nat.eqb_spec i i') as [->|Ni]; [destruct (Nat.eqb_spec j j') as [->|Nj]|]; cbn [andb].
  - rewrite !gb_diag. ring.
  - destruct (Nat.lt_ge_cases j' j); [rewrite (gb_lt j' j) by auto; ring|]. rewrite (gb_lt (o - i' - j')) by lia. ring.
  - destruct (Nat.lt_ge_cases i' i); [rewrite (gb_lt i' i) by auto; ring|]. destruct (Nat.lt_ge_cases j' j); [rewrite (gb_lt j' j) by auto; ring|].
    rewrite (gb_lt (o - i' - j')) by lia. ring.
Qed.

(** *** sums over the lattice *)
Lemma lsum_LAT f : lsum f (LAT o) = rsum (S o) (fun i => rsum (S (o - i)) (fun j => f (i, j))).
Proof.
  unfold LAT, PP. cbn [seq map]. rewrite app_nil_r, lsum_flat_map, lsum_seq. replace (o + 1)%nat with (S o) by lia. apply rsum_ext. intros i Hi. unfold row.
  rewrite lsum_map, lsum_seq. replace (S o - i)%nat with (S (o - i)) by lia. replace (o + 1 - i)%nat with (S (o - i)) by lia. reflexivity.
Qed.
Lemma rsum_Lp (f : nat -> R) (g : nat * nat -> R) : (forall d p, nth_error (Lp o) d = Some p -> f d = g p) ->
  rsum (NN o) f = rsum (S o) (fun i => rsum (S (o - i)) (fun j => g (i, j))).
Proof.
  intros H. rewrite <- lsum_LAT, <- (lsum_perm g _ _ (Lp_perm o Ho)), (lsum_nth (O, O)), Lp_length by auto.
  apply rsum_ext. intros d Hd. apply H. rewrite (nth_error_nth' _ (O, O)); auto. rewrite Lp_length; auto.
Qed.

(** the products of binomials are reproduced *)
Lemma reproduce_gb p q x y : (p + q <= o)%nat ->
  rsum (S o) (fun i => rsum (S (o - i)) (fun j => gb (INR j) p * gb (INR i) q * phi (i, j) x y)) = gb (INR o * x) p * gb (INR o * y) q.
Proof.
  intros H. set (X := INR o * x). set (Y := INR o * y). set (L := INR o * (1 - x - y)).
  rewrite (rsum_ext (S o) _ (fun i => gb (INR i) q * gb Y i * (if (p <=? o - i)%nat then gb X p * gb (X - INR p + L) (o - i - p) else 0))).
  2: { intros i Hi. rewrite <- vandermonde_shift, <- rsum_scal. apply rsum_ext. intros j Hj. unfold phi. cbn [fst snd]. fold X Y L. ring. }
  replace (S o) with (S (o - p) + p)%nat by lia. rewrite rsum_add.
  rewrite (rsum_0 p).
  2: { intros i Hi. destruct (Nat.leb_spec p (o - (S (o - p) + i))); [lia|]. ring. }
  rewrite Rplus_0_r.
  rewrite (rsum_ext _ _ (fun i => gb X p * (gb (INR i) q * (gb Y i * gb (X - INR p + L) (o - p - i))))).
  2: { intros i Hi. destruct (Nat.leb_spec p (o - i)); [|lia]. replace (o - i - p)%nat with (o - p - i)%nat by lia. ring. }
  rewrite rsum_scal, vandermonde_shift. destruct (Nat.leb_spec q (o - p)); [|lia].
  replace (Y - INR q + (X - INR p + L)) with (INR (o - p - q)).
  2: { rewrite !minus_INR by lia. unfold X, Y, L. ring. }
  rewrite gb_diag. ring.
Qed.

(** interpolation operator *)
Definition interp (f : R -> R -> R) (x y : R) : R := rsum (S o) (fun i => rsum (S (o - i)) (fun j => f (INR j * h) (INR i * h) * phi (i, j) x y)).
Lemma interp_ext f g x y : (forall a b, f a b = g a b) -> interp f x y = interp g x y.
Proof. intros E. unfold interp. apply rsum_ext. intros. apply rsum_ext. intros. now rewrite E. Qed.
Lemma interp_sum n c f x y : interp (fun a b => rsum n (fun k => c k * f k a b)) x y = rsum n (fun k => c k * interp (f k) x y).
Proof.
  unfold interp. rewrite (rsum_ext n _ (fun k => rsum (S o) (fun i => c k * rsum (S (o - i)) (fun j => f k (INR j * h) (INR i * h) * phi (i, j) x y)))).
  2: { intros. symmetry. apply rsum_scal. }
  rewrite rsum_swap. apply rsum_ext. intros i Hi.
  rewrite (rsum_ext n _ (fun k => rsum (S (o - i)) (fun j => c k * (f k (INR j * h) (INR i * h) * phi (i, j) x y)))).
  2: { intros. symmetry. apply rsum_scal. }
  rewrite rsum_swap. apply rsum_ext. intros j Hj. rewrite <- rsum_scal_r. apply rsum_ext. intros. ring.
Qed.
Lemma interp_gb p q x y : (p + q <= o)%nat -> interp (fun a b => gb (INR o * a) p * gb (INR o * b) q) x y = gb (INR o * x) p * gb (INR o * y) q.
Proof.
  intros H. rewrite <- (reproduce_gb p q x y H). unfold interp. apply rsum_ext. intros i Hi. apply rsum_ext. intros j Hj.
  assert (X : forall k, INR o * (INR k * h) = INR k) by (intros k; unfold h; field; apply INR_o). rewrite !X. ring.
Qed.
Lemma interp_pow a b x y : (a + b <= o)%nat -> interp (fun u v => u ^ a * v ^ b) x y = x ^ a * y ^ b.
Proof.
  intros H. destruct (pow_gb o a Ho) as (c & Hc). destruct (pow_gb o b Ho) as (e & He).
  rewrite (interp_ext _ (fun u v => rsum (S a) (fun k => c k * rsum (S b) (fun l => e l * (gb (INR o * u) k * gb (INR o * v) l))))).
  2: { intros u v. rewrite Hc, He, <- rsum_scal_r. apply rsum_ext. intros k Hk. rewrite Rmult_assoc, <- rsum_scal. f_equal. apply rsum_ext. intros; ring. }
  rewrite (interp_sum (S a) c (fun k u v => rsum (S b) (fun l => e l * (gb (INR o * u) k * gb (INR o * v) l)))).
  rewrite Hc, He, <- rsum_scal_r. apply rsum_ext. intros k Hk.
  rewrite (interp_sum (S b) e (fun l u v => gb (INR o * u) k * gb (INR o * v) l)). rewrite Rmult_assoc. f_equal. rewrite <- rsum_scal.
  apply rsum_ext. intros l Hl. rewrite interp_gb by lia. ring.
Qed.
Lemma interp_poly2 c x y : interp (poly2 o c) x y = poly2 o c x y.
Proof.
  unfold poly2 at 1.
  rewrite (interp_ext _ (fun u v => rsum (S o) (fun a => 1 * rsum (S (o - a)) (fun b => c a b * (u ^ a * v ^ b))))) by (intros; apply rsum_ext; intros; ring).
  rewrite (interp_sum (S o) (fun _ => 1) (fun a u v => rsum (S (o - a)) (fun b => c a b * (u ^ a * v ^ b)))).
  unfold poly2. apply rsum_ext. intros a Ha. rewrite Rmult_1_l. rewrite (interp_sum (S (o - a)) (c a) (fun b u v => u ^ a * v ^ b)).
  apply rsum_ext. intros b Hb. now rewrite interp_pow by lia.
Qed.

(** ** Derivatives *)
Definition fac (p : nat * nat) (t : nat) (x y : R) : R :=
  if (t <? o - fst p - snd p)%nat then 1 - x - y - INR t * h
  else if (t <? o - fst p)%nat then x - INR (t - (o - fst p - snd p)) * h else y - INR (t - (o - fst p)) * h.
Definition gfac (p : nat * nat) (t : nat) : R * R :=
  if (t <? o - fst p - snd p)%nat then (-1, -1) else if (t <? o - fst p)%nat then (1, 0) else (0, 1).
Definition dphi (pr : R * R -> R) (p : nat * nat) (x y : R) : R :=
  rsum o (fun t => pne o t (fun k => fac p k x y) * pr (gfac p t)) / rprod o (fun t => fac p t (INR (snd p) * h) (INR (fst p) * h)).

Lemma prod_fac i j x y : (i + j <= o)%nat -> rprod o (fun t => fac (i, j) t x y) =
  rprod (o - i - j) (fun t => 1 - x - y - INR t * h) * rprod j (fun t => x - INR t * h) * rprod i (fun t => y - INR t * h).
Proof.
  intros H. transitivity (rprod ((o - i - j) + j + i) (fun t => fac (i, j) t x y)); [f_equal; lia|]. rewrite !rprod_add. unfold fac. cbn [fst snd]. f_equal; [f_equal|]; apply rprod_ext; intros t Ht.
  - destruct (Nat.ltb_spec t (o - i - j)); [auto|lia].
  - destruct (Nat.ltb_spec (o - i - j + t) (o - i - j)); [lia|]. destruct (Nat.ltb_spec (o - i - j + t) (o - i)); [|lia]. do 3 f_equal. lia.
  - destruct (Nat.ltb_spec (o - i - j + j + t) (o - i - j)); [lia|]. destruct (Nat.ltb_spec (o - i - j + j + t) (o - i)); [lia|]. do 3 f_equal. lia.
Qed.
Lemma phi_fac i j x y : (i + j <= o)%nat -> phi (i, j) x y = rprod o (fun t => fac (i, j) t x y) / rprod o (fun t => fac (i, j) t (INR j * h) (INR i * h)).
Proof.
  intros H. rewrite !prod_fac by auto. unfold phi. cbn [fst snd]. rewrite !gb_h.
  rewrite (rprod_ext (o - i - j) (fun t => 1 - INR j * h - INR i * h - INR t * h) (fun t => INR (o - i - j) * h - INR t * h)).
  2: { intros. rewrite lattice_den by auto. ring. }
  field. repeat split; apply den_neq_0.
Qed.

(** directional derivative along an affine curve *)
Lemma dphi_line i j x u y v s : (i + j <= o)%nat ->
  derivable_pt_lim (fun s => phi (i, j) (x + s * u) (y + s * v)) s
    (u * dphi fst (i, j) (x + s * u) (y + s * v) + v * dphi snd (i, j) (x + s * u) (y + s * v)).
Proof.
  intros H.
  apply dpl_ext with (fun s => rprod o (fun t => fac (i, j) t (x + s * u) (y + s * v)) * / rprod o (fun t => fac (i, j) t (INR j * h) (INR i * h))).
  { intros s'. now rewrite phi_fac. }
  assert (A : forall (c d : R), derivable_pt_lim (fun s => c + s * d) s d).
  { intros c d eps He. exists (mkposreal 1 Rlt_0_1). intros k Hk _. replace ((c + (s + k) * d - (c + s * d)) / k - d) with 0 by (field; auto). now rewrite Rabs_R0. }
  assert (D : derivable_pt_lim (fun s => rprod o (fun t => fac (i, j) t (x + s * u) (y + s * v))) s
     (rsum o (fun t => (u * fst (gfac (i, j) t) + v * snd (gfac (i, j) t)) * pne o t (fun k => fac (i, j) k (x + s * u) (y + s * v))))).
  { apply (derivable_rprod o (fun t s => fac (i, j) t (x + s * u) (y + s * v)) (fun t _ => u * fst (gfac (i, j) t) + v * snd (gfac (i, j) t))).
    intros t Ht. unfold fac, gfac. cbn [fst snd]. destruct (t <? o - i - j)%nat; [|destruct (t <? o - i)%nat]; cbn [fst snd].
    - apply dpl_ext with (fun s => (1 - x - y - INR t * h) + s * (u * -1 + v * -1)); [intros; ring|apply A].
    - apply dpl_ext with (fun s => (x - INR (t - (o - i - j)) * h) + s * (u * 1 + v * 0)); [intros; ring|apply A].
    - apply dpl_ext with (fun s => (y - INR (t - (o - i)) * h) + s * (u * 0 + v * 1)); [intros; ring|apply A]. }
  pose proof (derivable_pt_lim_mult _ (fun _ => / rprod o (fun t => fac (i, j) t (INR j * h) (INR i * h))) _ _ _ D (derivable_pt_lim_const _ _)) as D'.
  match goal with |- derivable_pt_lim _ _ ?l => match type of D' with derivable_pt_lim _ _ ?l' => replace l with l' end end; [exact D'|].
  unfold dphi. cbn [fst snd]. unfold Rdiv. rewrite <- !Rmult_assoc, <- Rmult_plus_distr_r, Rmult_0_r, Rplus_0_r. f_equal. rewrite <- !rsum_scal, <- rsum_plus. apply rsum_ext. intros; ring.
Qed.

Lemma fill_ok n term g den P G D dt : length P = length G -> (dt + n <= length P)%nat ->
  exists P' G', tri_fill (Z.of_nat n) term g den (P, G, D, dt) = Ok (P', G', D * rprod n den, (dt + n)%nat) /\ length P' = length P /\ length G' = length G /\
    (forall t, (t < n)%nat -> nth_error P' (dt + t) = Some (fun q => term t q) /\ nth_error G' (dt + t) = Some g) /\
    (forall t, (t < dt)%nat -> nth_error P' t = nth_error P t /\ nth_error G' t = nth_error G t).
Proof.
  intros HL Hn. unfold tri_fill. rewrite Nat2Z.id.
  match goal with |- context [for_loop n ?f ?s0] =>
    destruct (flt (fun k s => exists P' G', s = (P', G', D * rprod k den, (dt + k)%nat) /\ length P' = length P /\ length G' = length G /\
      (forall t, (t < k)%nat -> nth_error P' (dt + t) = Some (fun q => term t q) /\ nth_error G' (dt + t) = Some g) /\
      (forall t, (t < dt)%nat -> nth_error P' t = nth_error P t /\ nth_error G' t = nth_error G t)) f n s0) as (s & E & P' & G' & -> & R) end.
  - exists P, G. cbn [rprod]. rewrite Rmult_1_r, Nat.add_0_r. repeat split; auto; intros; lia.
  - intros k s Hk (P1 & G1 & -> & L1 & L2 & A & B). rewrite !set_idx_Ok by lia. cbn [bind].
    match goal with |- exists z, Ok ?v = Ok z /\ _ => exists v end. split; auto.
    exists (replace P1 (dt + k) (fun q => term k q)), (replace G1 (dt + k) g). rewrite !replace_length. repeat split; auto.
    + cbn [rprod]. rewrite Nat.add_succ_r, Rmult_assoc. reflexivity.
    + destruct (Nat.eq_dec t k) as [->|]; [apply nth_error_replace_eq; lia|]. rewrite nth_error_replace_neq by lia. apply A. lia.
    + destruct (Nat.eq_dec t k) as [->|]; [apply nth_error_replace_eq; lia|]. rewrite nth_error_replace_neq by lia. apply A. lia.
    + rewrite nth_error_replace_neq by lia. now apply B.
    + rewrite nth_error_replace_neq by lia. now apply B.
  - exists P', G'. split; auto.
Qed.

Lemma grad_ok n P G D g0 g1 F gr : (forall t, (t < n)%nat -> exists f, nth_error P t = Some f /\ forall q : nat, f q = F t q) ->
  (forall t, (t < n)%nat -> nth_error G t = Some (gr t)) ->
  exists r0 r1, tri_grad n P G D g0 g1 = Ok (r0, r1) /\
    (forall q, r0 q = (g0 q + rsum n (fun t => pne n t (fun k => F k q) * fst (gr t))) / D) /\
    (forall q, r1 q = (g1 q + rsum n (fun t => pne n t (fun k => F k q) * snd (gr t))) / D).
Proof.
  intros HP HG. unfold tri_grad.
  match goal with |- context [for_loop n ?f (g0, g1)] =>
    destruct (flt (fun k s => (forall q : nat, fst s q = g0 q + rsum k (fun t => pne n t (fun k => F k q) * fst (gr t))) /\
      (forall q : nat, snd s q = g1 q + rsum k (fun t => pne n t (fun k => F k q) * snd (gr t)))) f n (g0, g1)) as ((r0 & r1) & E & R0 & R1) end.
  - cbn. split; intros; ring.
  - intros t (a0 & a1) Ht (A0 & A1). cbn [fst snd] in A0, A1.
    match goal with |- context [for_loop n ?f (fun _ => 1)] =>
      destruct (flt (fun k v => forall q : nat, v q = rprod k (fun j => if (j =? t)%nat then 1 else F j q)) f n (fun _ => 1)) as (w & Ew & W) end.
    + intros; reflexivity.
    + intros j v Hj Hv. destruct (Nat.eqb_spec t j) as [->|Hn]; cbn [negb].
      * exists v. split; auto. intros q. cbn [rprod]. rewrite Nat.eqb_refl, Hv. ring.
      * destruct (HP j Hj) as (f & Ef & Hf). rewrite (proj2 (idx_Ok P j f) Ef). cbn [bind]. eexists. split; [reflexivity|]. intros q. cbn [rprod].
        destruct (Nat.eqb_spec j t); [congruence|]. now rewrite Hv, Hf.
    + rewrite Ew. cbn [bind]. rewrite (proj2 (idx_Ok G t (gr t)) (HG t Ht)). cbn [bind]. eexists. split; [reflexivity|]. cbn [fst snd rsum]. split; intros q.
      * rewrite A0, W. unfold pne. ring.
      * rewrite A1, W. unfold pne. ring.
  - rewrite E. cbn [bind]. eexists _, _. split; [reflexivity|]. cbn [fst snd] in *. split; intros q; [rewrite R0|rewrite R1]; reflexivity.
Qed.

Lemma tderivatives_ok data points : tri_ok o data -> (2 <= m_rows points)%nat ->
  exists D0 D1, Tri_Derivatives points data = Ok [D0; D1] /\ m_rows D0 = m_cols points /\ m_cols D0 = NN o /\ m_rows D1 = m_cols points /\ m_cols D1 = NN o /\
    forall q d p, nth_error (Lp o) d = Some p ->
      m_at D0 q d = dphi fst p (m_at points 0 q) (m_at points 1 q) /\ m_at D1 q d = dphi snd p (m_at points 0 q) (m_at points 1 q).
Proof.
  intros (T1 & T2 & T3 & T4 & T5 & T6 & T7 & T8 & T9 & T10) HP. unfold Tri_Derivatives. destruct (ft_Order data) as [|n] eqn:E; [lia|]. rewrite T1, T5. clear n E T1.
  fold h. unfold mrow. destruct (Nat.ltb_spec 0 (m_rows points)); [|lia]. destruct (Nat.ltb_spec 1 (m_rows points)); [|lia]. cbn [bind].
  match goal with |- context [for_loop (NN o) ?f ?s0] =>
    destruct (flt (fun k s => (m_rows (fst s) = m_cols points /\ m_cols (fst s) = NN o /\ m_rows (snd s) = m_cols points /\ m_cols (snd s) = NN o) /\
      (forall q d, (k <= d)%nat -> m_at (fst s) q d = 0 /\ m_at (snd s) q d = 0) /\
      forall q d p, (d < k)%nat -> nth_error (Lp o) d = Some p -> m_at (fst s) q d = dphi fst p (m_at points 0 q) (m_at points 1 q) /\
         m_at (snd s) q d = dphi snd p (m_at points 0 q) (m_at points 1 q)) f (NN o) s0) as ((D0 & D1) & ED & (V1 & V2 & V3 & V4) & _ & V5) end.
  - cbn. repeat split; auto; intros; lia.
  - intros d (D0 & D1) Hd ((V1 & V2 & V3 & V4) & V5 & V6). cbn [fst snd] in *. unfold imcol, mcol. rewrite T9, T7, V2, V4. destruct (Nat.ltb_spec d (NN o)); [|lia]. cbn [bind].
    destruct (nth_error_Some_ex (Lp o) (i:=d)) as (p & Ep); [rewrite Lp_length by auto; auto|].
    pose proof (T10 d p Ep) as A. destruct p as [i j]. destruct A as (A1 & A2 & A3 & A4 & A5 & A6). unfold TriangleProofs.h in A1, A2. fold h in A1, A2.
    assert (Hij : (i + j <= o)%nat). { apply nth_error_In in Ep. apply (Lp_In o Ho) in Ep. auto. }
    rewrite A4, A5, A6. replace (Z.to_nat (Z.of_nat (o - i - j) + Z.of_nat j + Z.of_nat i)) with o by lia.
    match goal with |- context [tri_fill _ ?a ?b ?c (?u, ?v, ?w, ?z)] => destruct (fill_ok (o - i - j) a b c u v w z) as (P1 & G1 & E1 & L1 & L1' & F1 & _) end;
      [now rewrite !repeat_length|rewrite repeat_length; lia|]. rewrite repeat_length in L1, L1'. rewrite E1. cbn [bind].
    match goal with |- context [tri_fill _ ?a ?b ?c (?u, ?v, ?w, ?z)] => destruct (fill_ok j a b c u v w z) as (P2 & G2 & E2 & L2 & L2' & F2 & F2') end; [lia|lia|]. rewrite E2. cbn [bind].
    match goal with |- context [tri_fill _ ?a ?b ?c (?u, ?v, ?w, ?z)] => destruct (fill_ok i a b c u v w z) as (P3 & G3 & E3 & L3 & L3' & F3 & F3') end; [lia|lia|]. rewrite E3. cbn [bind].
    match goal with |- context [tri_grad _ _ _ ?D ?a ?b] => destruct (grad_ok o P3 G3 D a b (fun t q => fac (i, j) t (m_at points 0 q) (m_at points 1 q)) (gfac (i, j))) as (r0 & r1 & Er & R0 & R1) end.
    { intros t Ht. unfold fac. cbn [fst snd]. destruct (Nat.ltb_spec t (o - i - j)).
      - eexists. split; [rewrite (proj1 (F3' t ltac:(lia))), (proj1 (F2' t ltac:(lia))); apply (F1 t); auto|]. reflexivity.
      - destruct (Nat.ltb_spec t (o - i)).
        + eexists. split; [rewrite (proj1 (F3' t ltac:(lia))); replace t with (0 + (o - i - j) + (t - (o - i - j)))%nat at 1 by lia; apply F2; lia|]. reflexivity.
        + eexists. split; [replace t with (0 + (o - i - j) + j + (t - (o - i)))%nat at 1 by lia; apply F3; lia|]. reflexivity. }
    { intros t Ht. unfold gfac. cbn [fst snd]. destruct (Nat.ltb_spec t (o - i - j)).
      - rewrite (proj2 (F3' t ltac:(lia))), (proj2 (F2' t ltac:(lia))); apply (F1 t); auto.
      - destruct (Nat.ltb_spec t (o - i)).
        + rewrite (proj2 (F3' t ltac:(lia))); replace t with (0 + (o - i - j) + (t - (o - i - j)))%nat at 1 by lia; apply F2; lia.
        + replace t with (0 + (o - i - j) + j + (t - (o - i)))%nat at 1 by lia; apply F3; lia. }
    rewrite Er. cbn [bind]. unfold mat_set_col. rewrite V2, V4. destruct (Nat.ltb_spec d (NN o)); [|lia]. cbn [bind].
    match goal with |- exists z, Ok ?v = Ok z /\ _ => exists v end. split; auto. cbn [fst snd m_rows m_cols m_at]. split; [auto|]. split.
    + intros q d' Hd'. destruct (Nat.eqb_spec d' d); [lia|]. apply V5. lia.
    + intros q d' p' Hd' E'. destruct (Nat.eqb_spec d' d) as [->|].
      * rewrite Ep in E'. injection E' as <-. rewrite R0, R1. rewrite (proj1 (V5 q d (le_n _))), (proj2 (V5 q d (le_n _))), !Rplus_0_l.
        unfold dphi. cbn [fst snd]. rewrite prod_fac by auto.
        rewrite A1, A2. rewrite Rmult_1_l. split; reflexivity.
      * apply (V6 q d' p'); auto. lia.
  - exists D0, D1. rewrite ED. cbn [bind fst snd] in *. repeat split; auto; apply (V5 q d p); auto; apply nth_error_lt in H1; rewrite Lp_length in H1 by auto; auto.
Qed.
End Values.
