(** Proofs about ZFEM: weights, values, derivatives. *)
From Coq Require Import List Arith Bool Lia ZArith Reals Lra.
From Verif Require Import Base RSum MatrixModel MonomialsModel MonomialsSpec LagrangeModel LagrangeSpec TriangleModel TriangleSpec
  TriangleProofs TriangleProofs2 TriangleProofs3 TriangleProofs4 TriangleProofs5 TriangleProofs6 VemQuadModel VemQuadProofs VemModel VemSpec
  ZfemModel ZfemSpec ZfemProofs ZfemProofs2 ZfemProofs3 ZfemProofs4.
Import ListNotations.
Local Open Scope R_scope.

(** ** Weights *)
Section Weights.
Variables (llt : Solver) (D VV : Mat).
Hypothesis HC : m_cols D = m_cols VV.

Lemma weights_ok : exists W, MinimizerWeights llt D VV = Ok W /\ m_rows W = m_rows D /\ m_cols W = m_rows VV.
Proof.
  unfold MinimizerWeights, mmul at 1. cbn [mtrans m_rows m_cols]. rewrite Nat.eqb_refl. cbn [bind]. unfold msolve. cbn [m_rows m_cols mtrans]. rewrite HC, !Nat.eqb_refl. cbn [andb bind].
  unfold mmul. cbn [m_rows m_cols]. rewrite HC, Nat.eqb_refl. eexists. split; [reflexivity|]. cbn. auto.
Qed.

Hypothesis Hllt : exact_for positive_definite llt.
Hypothesis Hin : forall x : nat -> R, (forall i, (i < m_rows D)%nat -> rsum (m_cols D) (fun k => m_at D i k * x k) = 0) -> forall k, (k < m_cols D)%nat -> x k = 0.

Definition gram : Mat := {| m_rows := m_cols D; m_cols := m_cols D; m_at := fun i j => rsum (m_rows D) (fun l => m_at D l i * m_at D l j) |}.
Lemma gram_pd : positive_definite gram.
Proof.
  split; [reflexivity|]. split.
  - intros i j _ _. cbn. apply rsum_ext. intros; ring.
  - intros x (j & Hj & Hx). cbn [gram m_rows m_cols m_at] in *.
    assert (Q : rsum (m_cols D) (fun i => rsum (m_cols D) (fun j => x i * rsum (m_rows D) (fun l => m_at D l i * m_at D l j) * x j)) =
      rsum (m_rows D) (fun l => rsum (m_cols D) (fun k => m_at D l k * x k) * rsum (m_cols D) (fun k => m_at D l k * x k))).
    { transitivity (rsum (m_cols D) (fun i => rsum (m_rows D) (fun l => rsum (m_cols D) (fun j => (m_at D l i * x i) * (m_at D l j * x j))))).
      - apply rsum_ext. intros i Hi. rewrite rsum_swap. apply rsum_ext. intros j' Hj'. rewrite <- rsum_scal, <- rsum_scal_r. apply rsum_ext. intros; ring.
      - rewrite rsum_swap. apply rsum_ext. intros l Hl. rewrite rsum_mult. reflexivity. }
    rewrite Q. set (z := fun l => rsum (m_cols D) (fun k => m_at D l k * x k)).
    destruct (Rle_lt_or_eq_dec 0 (rsum (m_rows D) (fun l => z l * z l))) as [H|H]; auto.
    + apply rsum_nonneg. intros. apply Rle_0_sqr.
    + exfalso. apply Hx. apply Hin; auto. intros i Hi. symmetry in H.
      pose proof (rsum_nonneg_0 _ _ (fun i _ => Rle_0_sqr (z i)) H i Hi) as H0. cbv beta in H0. apply Rmult_integral in H0. destruct H0; auto.
Qed.

Variable W : Mat.
Hypothesis EW : MinimizerWeights llt D VV = Ok W.
Lemma weights_form : exists c : nat -> nat -> R, (forall i j, m_at W i j = rsum (m_cols D) (fun k => m_at D i k * c k j)) /\
  (forall k j, (k < m_cols D)%nat -> (j < m_rows VV)%nat -> rsum (m_cols D) (fun l => m_at gram k l * c l j) = m_at VV j k).
Proof.
  unfold MinimizerWeights, mmul at 1 in EW. cbn [mtrans m_rows m_cols] in EW. rewrite Nat.eqb_refl in EW. cbn [bind] in EW. unfold msolve in EW. cbn [m_rows m_cols mtrans] in EW. rewrite HC, !Nat.eqb_refl in EW. cbn [andb bind] in EW.
  unfold mmul in EW. cbn [m_rows m_cols] in EW. rewrite HC, Nat.eqb_refl in EW. injection EW as <-. cbn [m_at].
  match goal with |- context [llt ?A ?B] => exists (llt A B); split; [intros; rewrite HC; reflexivity|]; intros k j Hk Hj; pose proof (Hllt A B) as K end.
  cbn [m_rows m_cols] in K. specialize (K eq_refl eq_refl).
  rewrite <- HC in K. specialize (K gram_pd k j Hk Hj). cbn [m_at mtrans m_cols] in K. rewrite <- HC. exact K.
Qed.

(** the weights reproduce the columns of D *)
Lemma weights_exact k j : (k < m_cols D)%nat -> (j < m_rows VV)%nat -> rsum (m_rows D) (fun i => m_at D i k * m_at W i j) = m_at VV j k.
Proof.
  intros Hk Hj. destruct weights_form as (c & C1 & C2). rewrite <- C2 by auto. cbn [gram m_at].
  rewrite (rsum_ext (m_rows D) _ (fun i => rsum (m_cols D) (fun l => m_at D i k * m_at D i l * c l j))).
  2: { intros i Hi. rewrite C1, <- rsum_scal. apply rsum_ext. intros; ring. }
  rewrite rsum_swap. apply rsum_ext. intros l Hl. rewrite <- rsum_scal_r. apply rsum_ext. intros; ring.
Qed.

(** no other weights that do have a smaller sum of squares *)
Lemma weights_least j (w : nat -> R) : (j < m_rows VV)%nat -> (forall k, (k < m_cols D)%nat -> rsum (m_rows D) (fun i => m_at D i k * w i) = m_at VV j k) ->
  rsum (m_rows D) (fun i => m_at W i j * m_at W i j) <= rsum (m_rows D) (fun i => w i * w i) /\
  (rsum (m_rows D) (fun i => w i * w i) <= rsum (m_rows D) (fun i => m_at W i j * m_at W i j) -> forall i, (i < m_rows D)%nat -> w i = m_at W i j).
Proof.
  intros Hj Hw. destruct weights_form as (c & C1 & C2).
  assert (O : rsum (m_rows D) (fun i => m_at W i j * (w i - m_at W i j)) = 0).
  { rewrite (rsum_ext (m_rows D) _ (fun i => rsum (m_cols D) (fun k => c k j * (m_at D i k * (w i - m_at W i j))))).
    2: { intros i Hi. rewrite (C1 i j) at 1. rewrite <- rsum_scal_r. apply rsum_ext. intros; ring. }
    rewrite rsum_swap. apply rsum_0. intros k Hk. rewrite rsum_scal.
    rewrite (rsum_ext (m_rows D) _ (fun i => m_at D i k * w i - m_at D i k * m_at W i j)) by (intros; ring). rewrite rsum_minus, Hw, weights_exact by auto. ring. }
  assert (P : rsum (m_rows D) (fun i => w i * w i) = rsum (m_rows D) (fun i => m_at W i j * m_at W i j) + rsum (m_rows D) (fun i => (w i - m_at W i j) * (w i - m_at W i j))).
  { rewrite (rsum_ext (m_rows D) (fun i => w i * w i) (fun i => (m_at W i j * m_at W i j + (w i - m_at W i j) * (w i - m_at W i j)) + 2 * (m_at W i j * (w i - m_at W i j)))) by (intros; ring).
    rewrite rsum_plus, rsum_plus, rsum_scal, O. ring. }
  assert (N : 0 <= rsum (m_rows D) (fun i => (w i - m_at W i j) * (w i - m_at W i j))) by (apply rsum_nonneg; intros; apply Rle_0_sqr).
  split; [lra|]. intros H i Hi. assert (Z : rsum (m_rows D) (fun i => (w i - m_at W i j) * (w i - m_at W i j)) = 0) by lra.
  pose proof (rsum_nonneg_0 _ _ (fun i _ => Rle_0_sqr (w i - m_at W i j)) Z i Hi) as H0. cbv beta in H0. apply Rmult_integral in H0. destruct H0; lra.
Qed.
End Weights.

(** ** Scattering the values of a triangle *)
Section Scatter.
Variables (V N NB NV : nat) (M : NMat) (mm : nat -> nat -> nat).
Hypothesis HM : nm_rows M = V /\ nm_cols M = N.
Hypothesis Hmm : forall t l, (t < V)%nat -> (l < N)%nat -> nm_at M t l = mm t l.
Hypothesis Hinj : forall t l l', (t < V)%nat -> (l < N)%nat -> (l' < N)%nat -> mm t l = mm t l' -> l = l'.
Hypothesis Hlt : forall t l, (t < V)%nat -> (l < N)%nat -> (mm t l < NB + NV)%nat.

Definition spread_row (t n : nat) (b : nat -> R) (p : nat) : R := rsum p (fun l => if (n =? mm t l)%nat then b l else 0).

Lemma scatter_values_ok A t off B : (t < V)%nat -> m_cols B = N -> m_cols A = (NB + NV)%nat -> (off + m_rows B <= m_rows A)%nat ->
  (forall r n, (off <= r < off + m_rows B)%nat -> (n < NB + NV)%nat -> m_at A r n = 0) ->
  exists A', scatter_values A M t off B = Ok A' /\ m_rows A' = m_rows A /\ m_cols A' = m_cols A /\
    (forall q n, (q < m_rows B)%nat -> (n < NB + NV)%nat -> m_at A' (off + q) n = spread_row t n (fun l => m_at B q l) N) /\
    (forall r n, ~ (off <= r < off + m_rows B)%nat -> m_at A' r n = m_at A r n).
Proof.
  intros Ht HB HA Hr HZ. destruct HM as (M1 & M2). unfold scatter_values. rewrite M2.
  destruct (@for_loop_total _ (fun p A' => m_rows A' = m_rows A /\ m_cols A' = m_cols A /\
      (forall q n, (q < m_rows B)%nat -> (n < NB + NV)%nat -> m_at A' (off + q) n = spread_row t n (fun l => m_at B q l) p) /\
      (forall r n, ~ (off <= r < off + m_rows B)%nat -> m_at A' r n = m_at A r n))
    (fun p A => c <- nmat_get M t p ;; v <- mcol B p ;; mat_set_block A off c (m_rows B) 1 {| m_rows := m_rows B; m_cols := 1; m_at := fun q _ => v q |}) N A) as (A' & E' & H').
  - repeat split; auto. intros q n Hq Hn. apply HZ; lia.
  - intros p A' Hp (A1 & A2 & A3 & A4). unfold nmat_get. rewrite M1, M2, (ltb_true _ _ Ht), (ltb_true _ _ Hp). cbn [andb bind]. unfold mcol. rewrite HB, (ltb_true _ _ Hp). cbn [bind].
    rewrite Hmm by auto. pose proof (Hlt t p Ht Hp) as L.
    match goal with |- context [mat_set_block A' off ?c ?nr 1 ?X] => destruct (set_block_ok A' off c nr 1 X) as (A'' & E'' & B1 & B2 & B3 & B4); [lia|lia|reflexivity|reflexivity|] end.
    exists A''. split; auto. split; [congruence|]. split; [congruence|]. split.
    + intros q n Hq Hn. unfold spread_row. cbn [rsum]. destruct (Nat.eqb_spec n (mm t p)) as [->|Hne].
      * rewrite B3 by lia. cbn [m_at]. replace (off + q - off)%nat with q by lia. rewrite rsum_0; [ring|]. intros l Hl. destruct (Nat.eqb_spec (mm t p) (mm t l)) as [Eq|]; auto. apply Hinj in Eq; lia.
      * rewrite B4 by lia. rewrite A3 by auto. unfold spread_row. ring.
    + intros r n Hn. rewrite B4 by lia. apply A4; auto.
  - exists A'. split; auto.
Qed.

Variables (eval : Tri_Local -> Mat -> outcome Mat) (tris : list Tri_Local) (points : list Mat) (BB : nat -> Mat).
Hypothesis HP : (length points <= V)%nat.
Hypothesis HPr : forall P, In P points -> (0 < m_rows P)%nat.
Hypothesis Hev : forall t P, nth_error points t = Some P -> exists l, nth_error tris t = Some l /\ eval l P = Ok (BB t) /\ m_rows (BB t) = m_cols P /\ m_cols (BB t) = N.

Definition off (t : nat) : nat := total_cols (firstn t points).
Lemma total_S (l : list Mat) : forall t P, nth_error l t = Some P -> total_cols (firstn (S t) l) = (total_cols (firstn t l) + m_cols P)%nat.
Proof.
  clear. induction l as [|X l IH]; intros [|t] P H; cbn [nth_error] in H; try discriminate.
  - injection H as ->. cbn. lia.
  - change (total_cols (firstn (S (S t)) (X :: l))) with (m_cols X + total_cols (firstn (S t) l))%nat. change (total_cols (firstn (S t) (X :: l))) with (m_cols X + total_cols (firstn t l))%nat. rewrite (IH t P H). lia.
Qed.
Lemma off_S t P : nth_error points t = Some P -> off (S t) = (off t + m_cols P)%nat.
Proof. apply total_S. Qed.
Lemma total_mono (l : list Mat) : forall a b, (a <= b)%nat -> (total_cols (firstn a l) <= total_cols (firstn b l))%nat.
Proof.
  clear. induction l as [|X l IH]; intros [|a] [|b] H; try (cbn; lia).
  change (m_cols X + total_cols (firstn a l) <= m_cols X + total_cols (firstn b l))%nat. specialize (IH a b ltac:(lia)). lia.
Qed.
Lemma off_le t : (off t <= total_cols points)%nat.
Proof. unfold off. destruct (le_lt_dec t (length points)) as [H|H]; [rewrite <- (firstn_all points) at 2; apply total_mono; auto|rewrite firstn_all2 by lia; lia]. Qed.

Lemma fem_values_ok : exists A, Zfem_FEMValues eval NB NV tris M points = Ok A /\ m_rows A = total_cols points /\ m_cols A = (NB + NV)%nat /\
  forall t P q n, nth_error points t = Some P -> (q < m_cols P)%nat -> (n < NB + NV)%nat -> m_at A (off t + q) n = spread_row t n (fun l => m_at (BB t) q l) N.
Proof.
  unfold Zfem_FEMValues.
  match goal with |- context [for_loop (length points) ?f ?st] =>
  destruct (@for_loop_total _ (fun t (s : Mat * nat) => snd s = off t /\ m_rows (fst s) = total_cols points /\ m_cols (fst s) = (NB + NV)%nat /\
     (forall r n, (off t <= r)%nat -> m_at (fst s) r n = 0) /\
     (forall t' P q n, (t' < t)%nat -> nth_error points t' = Some P -> (q < m_cols P)%nat -> (n < NB + NV)%nat -> m_at (fst s) (off t' + q) n = spread_row t' n (fun l => m_at (BB t') q l) N))
    f (length points) st) as ((A & o) & EA & O1 & A1 & A2 & A3 & A4) end.
  - cbn. split; [reflexivity|]. split; [auto|]. split; [auto|]. split; [auto|]. intros; lia.
  - intros t (A & o) Ht (O1 & A1 & A2 & A3 & A4). cbn [fst snd] in *. subst o.
    destruct (nth_error points t) as [P|] eqn:EP; [|apply nth_error_None in EP; lia]. rewrite (proj2 (idx_Ok _ _ _) EP). cbn [bind].
    pose proof (off_S t P EP) as OS. pose proof (off_le (S t)) as OL.
    destruct (Hev t P EP) as (l & El & Eb & B1 & B2).
    assert (mono : forall t' P', (t' < t)%nat -> nth_error points t' = Some P' -> (off t' + m_cols P' <= off t)%nat).
    { intros t' P' Ht' EP'. rewrite <- (off_S t' P' EP'). assert (K : forall a b, (a <= b)%nat -> (off a <= off b)%nat).
      { intros a b Hab. apply total_mono; auto. }
      apply K. lia. }
    destruct (Nat.ltb_spec 0 (m_rows P * m_cols P)) as [L|L].
    + rewrite (proj2 (idx_Ok _ _ _) El). cbn [bind]. rewrite Eb. cbn [bind].
      destruct (scatter_values_ok A t (off t) (BB t)) as (A' & E' & R1 & R2 & R3 & R4); auto; try lia. { intros r n Hr Hn. apply A3. lia. }
      rewrite E'. cbn [bind]. eexists. split; [reflexivity|]. cbn [fst snd]. split; [auto|]. split; [congruence|]. split; [congruence|]. split.
      * intros r n Hr. rewrite R4 by lia. apply A3. lia.
      * intros t' P' q n Ht' EP' Hq Hn. destruct (Nat.eq_dec t' t) as [->|Hne].
        -- rewrite EP in EP'. injection EP' as <-. apply R3; lia.
        -- pose proof (mono t' P' ltac:(lia) EP'). rewrite R4 by lia. apply (A4 t' P'); auto. lia.
    + assert (Z : m_cols P = 0%nat). { pose proof (HPr P (nth_error_In _ _ EP)). nia. }
      eexists. split; [reflexivity|]. cbn [fst snd]. split; [lia|]. split; [auto|]. split; [auto|]. split.
      * intros r n Hr. apply A3. lia.
      * intros t' P' q n Ht' EP' Hq Hn. destruct (Nat.eq_dec t' t) as [->|Hne]; [rewrite EP in EP'; injection EP' as <-; lia|]. apply (A4 t' P'); auto. lia.
  - rewrite EA. cbn [bind]. cbn [fst snd] in *. exists A. split; auto. split; auto. split; auto. intros t P q n EP Hq Hn. apply (A4 t P); auto. apply nth_error_Some. congruence.
Qed.

(** values of the ZFEM basis functions *)
Lemma combine_ok W : m_rows W = NB -> m_cols W = NV -> exists Z, (F <- Zfem_FEMValues eval NB NV tris M points ;; Zfem_Combine NB NV F W) = Ok Z /\
  m_rows Z = total_cols points /\ m_cols Z = NB /\
  forall (g : nat -> R) t P q, nth_error points t = Some P -> (q < m_cols P)%nat -> (forall j, (j < NV)%nat -> rsum NB (fun i => g i * m_at W i j) = g (NB + j)%nat) ->
    rsum NB (fun i => g i * m_at Z (off t + q) i) = rsum N (fun l => g (mm t l) * m_at (BB t) q l).
Proof.
  intros W1 W2. destruct fem_values_ok as (A & EA & A1 & A2 & A3). rewrite EA. cbn [bind]. unfold Zfem_Combine, leftCols, rightCols.
  rewrite block_ok by lia. cbn [bind]. rewrite A2, leb_true by lia. rewrite block_ok by lia. cbn [bind]. unfold mmul. cbn [mtrans m_rows m_cols]. rewrite W2, Nat.eqb_refl. cbn [bind].
  unfold madd. cbn [m_rows m_cols]. rewrite W1, !Nat.eqb_refl. cbn [andb]. eexists. split; [reflexivity|]. cbn [m_rows m_cols m_at mtrans]. split; [auto|]. split; [auto|].
  intros g t P q EP Hq Hg. cbn [Nat.add]. set (r := (off t + q)%nat).
  transitivity (rsum (NB + NV) (fun n => g n * m_at A r n)).
  - rewrite rsum_add. rewrite (rsum_ext NB _ (fun i => g i * m_at A r i + rsum NV (fun j => g i * (m_at A r (NB + j)%nat * m_at W i j)))).
    2: { intros i Hi. rewrite rsum_scal. replace (NB + NV - NV)%nat with NB by lia. ring. }
    rewrite rsum_plus, rsum_swap. f_equal. apply rsum_ext. intros j Hj. rewrite <- Hg by auto. rewrite <- rsum_scal_r. apply rsum_ext. intros; ring.
  - rewrite (rsum_ext (NB + NV) _ (fun n => rsum N (fun l => if (n =? mm t l)%nat then g n * m_at (BB t) q l else 0))).
    2: { intros n Hn'. unfold r. rewrite (A3 t P) by auto. unfold spread_row. rewrite <- rsum_scal. apply rsum_ext. intros l Hl. destruct (n =? mm t l)%nat; ring. }
    rewrite rsum_swap. apply rsum_ext. intros l Hl.
    assert (Ht : (t < V)%nat) by (apply Nat.lt_le_trans with (length points); auto; apply nth_error_Some; congruence).
    rewrite (rsum_single _ _ (mm t l)); [now rewrite Nat.eqb_refl|auto|]. intros i _ Hi. apply Nat.eqb_neq in Hi. now rewrite Hi.
Qed.
End Scatter.
