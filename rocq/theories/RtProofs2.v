(** The matrices of the Raviart-Thomas element. *)
From Coq Require Import List Arith Bool Lia ZArith Reals Lra.
From Verif Require Import Base RSum MatrixModel MonomialsModel MonomialsSpec MonomialsProofs MonomialsProofs2 MonomialsProofs3 MonomialsProofs4 MonomialsProps
  LagrangeSpec LagrangeProofs GBasisProofs VemQuadModel VemQuadSpec VemQuadProofs VemQuadProofs2 GreenSpec GreenProofs PolyProofs VemModel VemSpec VemProofs VemProofs2
  RtModel RtSpec RtProofs.
Import ListNotations.
Local Open Scope R_scope.

(** ** Eigen *)
Lemma weighted_ok V w T : v_size w = m_rows V -> m_rows T = m_rows V ->
  weighted V w T = Ok {| m_rows := m_cols V; m_cols := m_cols T; m_at := fun i j => rsum (m_rows V) (fun q => m_at V q i * v_at w q * m_at T q j) |}.
Proof.
  intros H1 H2. unfold weighted, mdiag, mmul. cbn [mtrans m_rows m_cols m_at]. rewrite H1, Nat.eqb_refl. cbn [bind m_rows m_cols m_at]. rewrite H2, Nat.eqb_refl. reflexivity.
Qed.
Lemma vseg_ok v a n : (a + n <= v_size v)%nat -> vec_segment v a n = Ok {| v_size := n; v_at := fun i => v_at v (a + i)%nat |}.
Proof. intros H. unfold vec_segment. now rewrite (leb_true _ _ H). Qed.
Lemma rseg_ok A d a n : (d < m_rows A)%nat -> (a + n <= m_cols A)%nat -> row_segment A d a n = Ok {| v_size := n; v_at := fun q => m_at A d (a + q)%nat |}.
Proof. intros H1 H2. unfold row_segment. now rewrite (ltb_true _ _ H1), (leb_true _ _ H2). Qed.
Lemma vcwise_ok v w : v_size v = v_size w -> vcwise v w = Ok {| v_size := v_size v; v_at := fun i => v_at v i * v_at w i |}.
Proof. intros H. unfold vcwise. now rewrite H, Nat.eqb_refl. Qed.
Lemma vadd_ok v w : v_size v = v_size w -> vadd v w = Ok {| v_size := v_size v; v_at := fun i => v_at v i + v_at w i |}.
Proof. intros H. unfold vadd. now rewrite H, Nat.eqb_refl. Qed.
Lemma mmul_ok A B : m_cols A = m_rows B -> mmul A B = Ok {| m_rows := m_rows A; m_cols := m_cols B; m_at := fun i j => rsum (m_cols A) (fun k => m_at A i k * m_at B k j) |}.
Proof. intros H. unfold mmul. now rewrite H, Nat.eqb_refl. Qed.
Lemma madd_ok A B : m_rows A = m_rows B -> m_cols A = m_cols B -> madd A B = Ok {| m_rows := m_rows A; m_cols := m_cols A; m_at := fun i j => m_at A i j + m_at B i j |}.
Proof. intros H1 H2. unfold madd. now rewrite H1, H2, !Nat.eqb_refl. Qed.
Lemma row_diag_ok A d B C : (d < m_rows A)%nat -> m_cols A = m_rows B -> m_cols B = m_rows C ->
  row_diag A d B C = Ok {| m_rows := m_rows B; m_cols := m_cols C; m_at := fun i j => rsum (m_cols B) (fun l => m_at A d i * m_at B i l * m_at C l j) |}.
Proof. intros H1 H2 H3. unfold row_diag, mrow. rewrite (ltb_true _ _ H1). cbn [bind]. rewrite H2, Nat.eqb_refl, mmul_ok by (cbn; auto). reflexivity. Qed.

(** ** The right hand side *)
Lemma rt_B_ok n N dirs : length dirs = 3%nat -> (3 * n <= N)%nat -> exists B, rt_B n N dirs = Ok B /\ m_rows B = N /\ m_cols B = N /\
  forall i j, m_at B i j = if (i =? j)%nat then (if (i <? 3 * n)%nat then orient (nth (i / n) dirs true) else 1) else 0.
Proof.
  intros Hd HN. unfold rt_B.
  destruct (@for_loop_total Mat (fun e B => m_rows B = N /\ m_cols B = N /\
     forall i j, m_at B i j = if (i =? j)%nat then (if (i <? e * n)%nat then orient (nth (i / n) dirs true) else 1) else 0)
    (fun e B => dir <- idx_ dirs e ;; block_scale B (e * n) (e * n) n (if (dir : bool) then 1 else -1)) 3 (midentity N)) as (B & E & H); [| |exists B; split; auto].
  - split; [reflexivity|]. split; [reflexivity|]. intros i j. cbn. destruct (Nat.eqb_spec i j); auto.
  - intros e B He (B1 & B2 & B3). destruct (nth_error dirs e) as [dir|] eqn:ED; [|apply nth_error_None in ED; lia].
    rewrite (proj2 (idx_Ok dirs e dir) ED). cbn [bind]. unfold block_scale. rewrite block_ok by nia. cbn [bind].
    match goal with |- context [mat_set_block B ?r ?c n n ?X] => destruct (set_block_ok B r c n n X ltac:(nia) ltac:(nia) eq_refl eq_refl) as (B' & EB & C1 & C2 & C3 & C4) end.
    exists B'. split; auto. split; [congruence|]. split; [congruence|]. intros i j.
    destruct (Nat.lt_ge_cases i (e * n)) as [A1|A1]; [|destruct (Nat.lt_ge_cases i (e * n + n)) as [A2|A2]].
    + rewrite C4 by nia. rewrite B3. destruct (Nat.eqb_spec i j); auto. rewrite !ltb_true by nia. reflexivity.
    + assert (Q : (i / n = e)%nat) by (symmetry; apply (Nat.div_unique i n e (i - e * n)); nia).
      rewrite (ltb_true i (S e * n)) by nia. rewrite Q.
      destruct (Nat.lt_ge_cases j (e * n)) as [D1|D1]; [|destruct (Nat.lt_ge_cases j (e * n + n)) as [D2|D2]].
      * rewrite C4 by nia. rewrite B3. destruct (Nat.eqb_spec i j); auto. lia.
      * rewrite C3 by nia. cbn [mscal m_at]. replace (e * n + (i - e * n))%nat with i by lia. replace (e * n + (j - e * n))%nat with j by lia. rewrite B3.
        destruct (Nat.eqb_spec i j); [|ring]. rewrite (ltb_false i) by nia. rewrite (nth_nth_error _ _ _ true ED). unfold orient. destruct dir; ring.
      * rewrite C4 by nia. rewrite B3. destruct (Nat.eqb_spec i j); auto. lia.
    + rewrite C4 by nia. rewrite B3. destruct (Nat.eqb_spec i j); auto. rewrite !ltb_false by nia. reflexivity.
Qed.

(** ** The matrix of the degrees of freedom *)
Section Matrix.
Variables (k Nk Nkm1 : nat) (V1 : Mat) (WN0 WN1 : Vec) (V2 xy PV : Mat) (W : Vec).
Notation n := (k + 1)%nat.
Hypothesis HN : Nk = (Nkm1 + n)%nat.
Hypothesis HN1 : (k = 0 -> Nkm1 = 0)%nat.
Hypothesis HN2 : (0 < k -> 3 <= Nk)%nat.
Notation N := (3 * n + 2 * Nkm1)%nat.
Hypothesis HNN : N = (2 * Nk + n)%nat.
Hypothesis (V1r : m_rows V1 = n) (V1c : m_cols V1 = n) (W0s : v_size WN0 = (n * 3)%nat) (W1s : v_size WN1 = (n * 3)%nat)
  (V2r : m_rows V2 = (n * 3)%nat) (V2c : m_cols V2 = Nk) (xyr : m_rows xy = 3%nat) (xyc : m_cols xy = (n * 3)%nat)
  (PVr : m_rows PV = v_size W) (PVc : m_cols PV = Nk).
Hypothesis Z0 : forall q, (q < n)%nat -> v_at WN0 q = 0.
Hypothesis Z1 : forall q, (q < n)%nat -> v_at WN1 (2 * n + q)%nat = 0.

Definition gE (e i : nat) (a : nat -> R) (f : nat -> R) : R := rsum n (fun q => m_at V1 q i * a (n * e + q)%nat * f (n * e + q)%nat).
Definition gI (i : nat) (f : nat -> R) : R := rsum (v_size W) (fun q => m_at PV q i * v_at W q * f q).

Lemma rt_G_ok : exists G, rt_G k n N Nk Nkm1 V1 [WN0; WN1] V2 xy PV W = Ok G /\ m_rows G = N /\ m_cols G = N /\
  (forall e i j, (e < 3)%nat -> (i < n)%nat -> (j < Nk)%nat -> m_at G (n * e + i)%nat j = gE e i (v_at WN0) (fun q => m_at V2 q j) /\
     m_at G (n * e + i)%nat (Nk + j)%nat = gE e i (v_at WN1) (fun q => m_at V2 q j)) /\
  (forall e i j, (e < 3)%nat -> (i < n)%nat -> (j < n)%nat ->
     m_at G (n * e + i)%nat (2 * Nk + j)%nat = gE e i (fun q => v_at WN0 q * m_at xy 0 q + v_at WN1 q * m_at xy 1 q) (fun q => m_at V2 q (Nkm1 + j)%nat)) /\
  (forall i j, (i < Nkm1)%nat -> (j < Nk)%nat -> m_at G (3 * n + i)%nat j = gI i (fun q => m_at PV q j) /\ m_at G (3 * n + i)%nat (Nk + j)%nat = 0 /\
     m_at G (3 * n + Nkm1 + i)%nat j = 0 /\ m_at G (3 * n + Nkm1 + i)%nat (Nk + j)%nat = gI i (fun q => m_at PV q j)) /\
  (forall i j, (i < Nkm1)%nat -> (j < n)%nat -> m_at G (3 * n + i)%nat (2 * Nk + j)%nat = gI i (fun q => m_at PV q 1 * m_at PV q (Nkm1 + j)%nat) /\
     m_at G (3 * n + Nkm1 + i)%nat (2 * Nk + j)%nat = gI i (fun q => m_at PV q 2 * m_at PV q (Nkm1 + j)%nat)).
Proof.
  unfold rt_G. cbv zeta. cbn [idx_ nth_error bind].
  Ltac dims := cbn [m_rows m_cols mzero v_size]; lia.
  Ltac sb G R C I O := match goal with |- context [mat_set_block ?A ?r ?c ?a ?b ?X] => let E := fresh "E" in
      destruct (set_block_ok A r c a b X ltac:(dims) ltac:(dims) ltac:(dims) ltac:(dims)) as (G & E & R & C & I & O); rewrite E; clear E; cbn [bind]; cbn [mzero m_rows m_cols m_at] in R, C, I, O end.
  Ltac cong := repeat (match goal with |- @eq nat _ _ => lia | |- @eq R _ _ => f_equal end).
  Ltac wt := rewrite weighted_ok by dims; cbn [bind m_cols m_rows].
  rewrite (vseg_ok WN1 0 n) by lia. cbn [bind]. unfold topRows at 1. rewrite block_ok by lia. cbn [bind]. wt. sb G1 rr1 cc1 ii1 oo1.
  rewrite (rseg_ok xy 1 0 n) by lia. cbn [bind]. rewrite vcwise_ok by dims. cbn [bind v_size v_at]. unfold topRightCorner. rewrite leb_true by lia. rewrite block_ok by lia. cbn [bind]. wt. sb G2 rr2 cc2 ii2 oo2.
  rewrite (vseg_ok WN0 (1 * n) n) by lia. cbn [bind]. unfold middleRows. rewrite block_ok by lia. cbn [bind]. wt. sb G3 rr3 cc3 ii3 oo3.
  rewrite (vseg_ok WN1 (1 * n) n) by lia. cbn [bind]. wt. sb G4 rr4 cc4 ii4 oo4.
  rewrite (rseg_ok xy 0 (1 * n) n), (rseg_ok xy 1 (1 * n) n) by lia. cbn [bind]. rewrite !vcwise_ok by dims. cbn [bind v_size v_at]. rewrite vadd_ok by dims. cbn [bind v_size v_at].
  rewrite (ltb_false Nk n) by lia. rewrite block_ok by lia. cbn [bind]. wt. sb G5 rr5 cc5 ii5 oo5.
  rewrite (vseg_ok WN0 (2 * n) n) by lia. cbn [bind]. unfold bottomRows. rewrite leb_true by lia. rewrite block_ok by lia. cbn [bind]. wt. sb G6 rr6 cc6 ii6 oo6.
  rewrite (rseg_ok xy 0 (2 * n) n) by lia. cbn [bind]. rewrite vcwise_ok by dims. cbn [bind v_size v_at]. unfold bottomRightCorner. rewrite !leb_true by lia. cbn [andb]. rewrite block_ok by lia. cbn [bind]. wt. sb G7 rr7 cc7 ii7 oo7.
  assert (EE : forall e i j, (e < 3)%nat -> (i < n)%nat -> (j < Nk)%nat -> m_at G7 (n * e + i)%nat j = gE e i (v_at WN0) (fun q => m_at V2 q j) /\
     m_at G7 (n * e + i)%nat (Nk + j)%nat = gE e i (v_at WN1) (fun q => m_at V2 q j)).
  { intros e i j He Hi Hj. unfold gE. destruct e as [|[|[|e]]]; [| | |lia].
    - split.
      + rewrite oo7, oo6, oo5, oo4, oo3, oo2, oo1 by lia. symmetry. apply rsum_0. intros q Hq. rewrite Nat.mul_0_r, Nat.add_0_l, Z0 by auto. ring.
      + rewrite oo7, oo6, oo5, oo4, oo3, oo2, ii1 by lia. rewrite V1r. apply rsum_ext. intros q Hq. cbn [v_at m_at]. cong.
    - split.
      + rewrite oo7, oo6, oo5, oo4, ii3 by lia. rewrite V1r. apply rsum_ext. intros q Hq. cbn [v_at m_at]. cong.
      + rewrite oo7, oo6, oo5, ii4 by lia. rewrite V1r. apply rsum_ext. intros q Hq. cbn [v_at m_at]. cong.
    - split.
      + rewrite oo7, ii6 by lia. rewrite V1r. apply rsum_ext. intros q Hq. cbn [v_at m_at]. cong.
      + rewrite oo7, oo6, oo5, oo4, oo3, oo2, oo1 by lia. symmetry. apply rsum_0. intros q Hq. rewrite (Nat.mul_comm n 2), Z1 by auto. ring. }
  assert (EB : forall e i j, (e < 3)%nat -> (i < n)%nat -> (j < n)%nat ->
     m_at G7 (n * e + i)%nat (2 * Nk + j)%nat = gE e i (fun q => v_at WN0 q * m_at xy 0 q + v_at WN1 q * m_at xy 1 q) (fun q => m_at V2 q (Nkm1 + j)%nat)).
  { intros e i j He Hi Hj. unfold gE. destruct e as [|[|[|e]]]; [| | |lia].
    - rewrite oo7, oo6, oo5, oo4, oo3, ii2 by lia. rewrite V1r. apply rsum_ext. intros q Hq. cbn [v_at m_at]. rewrite !Nat.mul_0_r, !Nat.add_0_l, Z0 by auto.
      rewrite Rmult_0_l, Rplus_0_l. cong.
    - rewrite oo7, oo6, ii5 by lia. rewrite V1r. apply rsum_ext. intros q Hq. cbn [v_at m_at]. cong.
    - rewrite ii7 by lia. rewrite V1r. apply rsum_ext. intros q Hq. cbn [v_at m_at]. rewrite !(Nat.mul_comm n 2), Z1 by auto.
      rewrite Rmult_0_l, Rplus_0_r. cong. }
  assert (EZ : forall r j, (3 * n <= r)%nat -> m_at G7 r j = 0).
  { intros r j Hr. rewrite oo7, oo6, oo5, oo4, oo3, oo2, oo1 by lia. reflexivity. }
  destruct (Nat.eq_dec k 0) as [K|K].
  { rewrite (ltb_false 0 k) by lia. exists G7. split; auto. split; [congruence|]. split; [congruence|]. split; auto. split; auto. split; intros; lia. }
  rewrite (ltb_true 0 k) by lia. unfold leftCols. rewrite block_ok by lia. cbn [bind]. wt. sb G8 rr8 cc8 ii8 oo8. sb G9 rr9 cc9 ii9 oo9.
  unfold rightCols. rewrite leb_true by lia. rewrite block_ok by lia. cbn [bind]. unfold mcol. rewrite !ltb_true by lia. cbn [bind].
  rewrite !vcwise_ok by dims. cbn [bind v_size v_at]. wt. sb G10 rr10 cc10 ii10 oo10. wt.
  match goal with |- context [mat_set_block ?A ?r ?c ?a ?b ?X] => let E := fresh "E" in
      destruct (set_block_ok A r c a b X ltac:(dims) ltac:(dims) ltac:(dims) ltac:(dims)) as (G11 & E & rr11 & cc11 & ii11 & oo11); rewrite E; clear E end.
  cbn [mzero m_rows m_cols m_at] in rr11, cc11, ii11, oo11.
  exists G11. split; auto. split; [congruence|]. split; [congruence|].
  split; [|split; [|split]].
  - intros e i j He Hi Hj. assert (n * e + n <= 3 * n)%nat by nia. rewrite !oo11, !oo10, !oo9, !oo8 by lia. auto.
  - intros e i j He Hi Hj. assert (n * e + n <= 3 * n)%nat by nia. rewrite !oo11, !oo10, !oo9, !oo8 by lia. auto.
  - intros i j Hi Hj. unfold gI. repeat split.
    + rewrite oo11, oo10, oo9, ii8 by lia. rewrite PVr. apply rsum_ext. intros q Hq. cbn [v_at m_at]. cong.
    + rewrite oo11, oo10, oo9, oo8 by lia. apply EZ. lia.
    + rewrite oo11, oo10, oo9, oo8 by lia. apply EZ. lia.
    + rewrite oo11, oo10, ii9 by lia. rewrite PVr. apply rsum_ext. intros q Hq. cbn [v_at m_at]. cong.
  - intros i j Hi Hj. unfold gI. split.
    + rewrite oo11, ii10 by lia. rewrite PVr. apply rsum_ext. intros q Hq. cbn [v_at m_at].
      replace (0 + (3 * n + i - 3 * n))%nat with i by lia. replace (m_cols PV - n + (2 * Nk + j - 2 * Nk))%nat with (Nkm1 + j)%nat by lia. rewrite Nat.add_0_l. ring.
    + rewrite ii11 by lia. rewrite PVr. apply rsum_ext. intros q Hq. cbn [v_at m_at].
      replace (0 + (3 * n + Nkm1 + i - (3 * n + Nkm1)))%nat with i by lia. replace (m_cols PV - n + (2 * Nk + j - 2 * Nk))%nat with (Nkm1 + j)%nat by lia. rewrite Nat.add_0_l. ring.
Qed.
End Matrix.
