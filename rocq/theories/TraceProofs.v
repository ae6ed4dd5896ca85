(** Proofs about the trace of monomials on edges. *)
From Coq Require Import List Arith Bool Reals Lra Lia ZArith Binomial.
From Verif Require Import Base RSum MatrixModel MonomialsModel MonomialsSpec MonomialsProofs MonomialsProofs2 MonomialsProofs4 VemQuadModel PolyProofs TraceModel.
Import ListNotations.
Local Open Scope R_scope.

Definition rowpoly (C : Mat) (r : nat) (s : R) : R := rsum (m_cols C) (fun c => m_at C r c * s ^ c).

(** only row r changes *)
Definition only_row (r : nat) (C C' : Mat) : Prop :=
  m_rows C' = m_rows C /\ m_cols C' = m_cols C /\ forall i j, i <> r -> m_at C' i j = m_at C i j.

Lemma only_row_refl r C : only_row r C C.
Proof. repeat split. Qed.
Lemma only_row_trans r A B C : only_row r A B -> only_row r B C -> only_row r A C.
Proof. intros (a & b & c) (d & e & f). repeat split; try congruence. intros. rewrite f, c; auto. Qed.

Lemma add_entry_ok C r c x : (r < m_rows C)%nat -> (c < m_cols C)%nat ->
  exists C', add_entry C r c x = Ok C' /\ only_row r C C' /\ forall s, rowpoly C' r s = rowpoly C r s + x * s ^ c.
Proof.
  intros Hr Hc. unfold add_entry, mat_get, mat_set. apply Nat.ltb_lt in Hr as Hr'. apply Nat.ltb_lt in Hc as Hc'. rewrite Hr', Hc'. cbn [andb bind].
  eexists. split; [reflexivity|]. split.
  - repeat split. intros i j Hi. cbn [m_at]. destruct (Nat.eqb_spec i r); [congruence|]. reflexivity.
  - intros s. unfold rowpoly. cbn [m_cols m_at]. rewrite Nat.eqb_refl. cbn [andb].
    rewrite (rsum_ext _ _ (fun j => m_at C r j * s ^ j + (if (j =? c)%nat then x * s ^ j else 0))).
    + rewrite rsum_plus. f_equal. rewrite (rsum_single _ _ c); auto; [now rewrite Nat.eqb_refl|]. intros i _ Hi. destruct (Nat.eqb_spec i c); [congruence|reflexivity].
    + intros j Hj. destruct (Nat.eqb_spec j c) as [->|]; ring.
Qed.

Lemma add_loop n r (f : nat -> nat) (g : nat -> R) C : (r < m_rows C)%nat -> (forall i, (i < n)%nat -> (f i < m_cols C)%nat) ->
  exists C', for_loop n (fun i C => add_entry C r (f i) (g i)) C = Ok C' /\ only_row r C C' /\
    forall s, rowpoly C' r s = rowpoly C r s + rsum n (fun i => g i * s ^ f i).
Proof.
  intros Hr Hf. apply (for_loop_total (fun k C' => only_row r C C' /\ forall s, rowpoly C' r s = rowpoly C r s + rsum k (fun i => g i * s ^ f i))).
  - split; [apply only_row_refl|]. intros s. cbn. ring.
  - intros i C' Hi (O & P). destruct (add_entry_ok C' r (f i) (g i)) as (C2 & E & O2 & P2).
    + destruct O as (-> & _); auto.
    + destruct O as (_ & -> & _); auto.
    + exists C2. split; auto. split; [eapply only_row_trans; eauto|]. intros s. rewrite P2, P. cbn [rsum]. ring.
Qed.

Lemma scale_row_ok C r a b : (r < m_rows C)%nat -> exists C', scale_row C r (m_cols C) a b = Ok C' /\ only_row r C C' /\
  forall s, rowpoly C' r s = rowpoly C r s * (a * b).
Proof.
  intros Hr. unfold scale_row. apply Nat.ltb_lt in Hr as ->. rewrite Nat.leb_refl. cbn [andb]. eexists. split; [reflexivity|]. split.
  - repeat split. intros i j Hi. cbn [m_at]. destruct (Nat.eqb_spec i r); [congruence|reflexivity].
  - intros s. unfold rowpoly. cbn [m_cols m_at]. rewrite <- rsum_scal_r. apply rsum_ext. intros j Hj. apply Nat.ltb_lt in Hj as ->. rewrite Nat.eqb_refl. cbn [andb]. ring.
Qed.

Lemma sum_f_rsum f n : sum_f_R0 f n = rsum (S n) f.
Proof. induction n; simpl; [ring|]. rewrite IHn. simpl. ring. Qed.
Lemma binomial_1 n y : (1 + y) ^ n = rsum (S n) (fun i => Binomial.C n i * y ^ i).
Proof.
  rewrite Rplus_comm, binomial, sum_f_rsum. apply rsum_ext. intros i Hi. rewrite pow1. ring.
Qed.

(** index of the monomial with exponents a, b *)
Lemma ix_formula a b : (2 * ix a b = (a + b) * (a + b + 1) + 2 * b)%nat.
Proof.
  unfold ix, idx2. cbn [nth]. pose proof (tri2 (Z.of_nat a + Z.of_nat b) ltac:(lia)). pose proof (tri_nonneg (Z.of_nat a + Z.of_nat b) ltac:(lia)).
  apply Nat2Z.inj. rewrite Nat2Z.inj_mul, Z2Nat.id by lia. nia.
Qed.

Section Rows.
Variables (k : nat) (row : nat -> nat -> nat -> Mat -> outcome Mat) (X Y : R) (F G : R -> R).
(** [row] adds a polynomial which, multiplied by the powers, is F^(N - ay) G^ay *)
Hypothesis Hrow : forall off N ay C, (off < m_rows C)%nat -> m_cols C = (k + 2)%nat -> (ay <= N)%nat -> (N <= k + 1)%nat ->
  exists C' p, row off N ay C = Ok C' /\ only_row off C C' /\ (forall s, rowpoly C' off s = rowpoly C off s + p s) /\
    forall s, p s * (X ^ (N - ay) * Y ^ ay) = F s ^ (N - ay) * G s ^ ay.

Definition rows_done (off : nat) (C : Mat) : Prop :=
  m_rows C = num2 (k + 1) /\ m_cols C = (k + 2)%nat /\
  (forall r s, (r < off)%nat -> rowpoly C r s = F s ^ ea r * G s ^ eb r) /\
  (forall r s, (off <= r)%nat -> rowpoly C r s = 0).

Lemma rows_step off N ay C : (ay <= N)%nat -> (N <= k + 1)%nat -> off = ix (N - ay) ay -> rows_done off C ->
  exists C', (C1 <- row off N ay C ;; C2 <- scale_row C1 off (k + 2) (X ^ (N - ay)) (Y ^ ay) ;; Ok (C2, S off)) = Ok (C', S off) /\ rows_done (S off) C'.
Proof.
  intros Ha HN Ho (R1 & R2 & R3 & R4).
  assert (Hoff : (off < m_rows C)%nat) by (rewrite R1, Ho; apply ix_lt; lia).
  destruct (Hrow off N ay C Hoff R2 Ha HN) as (C1 & p & E1 & O1 & P1 & T1). rewrite E1. cbn [bind].
  assert (R2' : m_cols C1 = (k + 2)%nat) by (destruct O1 as (_ & -> & _); auto).
  destruct (scale_row_ok C1 off (X ^ (N - ay)) (Y ^ ay)) as (C2 & E2 & O2 & P2); [destruct O1 as (-> & _); auto|].
  rewrite R2' in E2. rewrite E2. cbn [bind]. exists C2. split; auto. pose proof (only_row_trans _ _ _ _ O1 O2) as (S1 & S2 & S3).
  assert (Sr : forall r s, r <> off -> rowpoly C2 r s = rowpoly C r s).
  { intros r s Hr. unfold rowpoly. rewrite S2. apply rsum_ext. intros c Hc. now rewrite S3. }
  split; [congruence|]. split; [congruence|]. split.
  - intros r s Hr. destruct (Nat.eq_dec r off) as [->|Hne].
    + rewrite P2, P1, R4 by lia. rewrite Rplus_0_l, T1. subst off. now rewrite ea_ix, eb_ix.
    + rewrite Sr by auto. apply R3. lia.
  - intros r s Hr. rewrite Sr by lia. apply R4. lia.
Qed.

Lemma trace_rows_ok : exists C, trace_rows k row X Y (mzero ((k + 2) * (k + 3) / 2) (k + 2)) = Ok C /\ m_rows C = num2 (k + 1) /\ m_cols C = (k + 2)%nat /\
  forall r s, (r < num2 (k + 1))%nat -> rowpoly C r s = F s ^ ea r * G s ^ eb r.
Proof.
  assert (NB : num2 (k + 1) = ((k + 2) * (k + 3) / 2)%nat).
  { apply Nat.div_unique_exact; [lia|]. pose proof (proj1 (proj2 (class_num 2 Monomials_2D (k + 1) ltac:(right; left; auto))) eq_refl) as Q. unfold num2. replace (k + 1 + 1)%nat with (k + 2)%nat in Q by lia. replace (k + 1 + 2)%nat with (k + 3)%nat in Q by lia. rewrite <- Q. reflexivity. }
  unfold trace_rows. rewrite <- NB. unfold mat_set at 1. cbn [m_rows m_cols mzero].
  pose proof (num2_pos (k + 1)) as NP. apply Nat.ltb_lt in NP. rewrite NP. replace (0 <? k + 2)%nat with true by (symmetry; apply Nat.ltb_lt; lia). cbn [andb bind].
  match goal with |- context [for_from 1 _ _ (?A, _)] => set (C1 := A) end.
  assert (D1 : rows_done 1 C1).
  { split; [reflexivity|]. split; [reflexivity|]. split.
    - intros r s Hr. assert (r = 0)%nat as -> by lia. unfold rowpoly, C1. cbn [m_cols m_at]. rewrite (rsum_single _ _ 0%nat); [|lia|intros i _ Hi; cbn; destruct (Nat.eqb_spec i 0); [congruence|ring]].
      cbn. change (ea 0) with 0%nat. change (eb 0) with 0%nat. cbn. ring.
    - intros r s Hr. unfold rowpoly, C1. cbn [m_cols m_at]. apply rsum_0. intros i _. destruct (Nat.eqb_spec r 0); [lia|]. cbn. ring. }
  destruct (@for_from_total _ (fun N s => snd s = ix N 0 /\ rows_done (snd s) (fst s))
    (fun N s => for_loop (S N) (fun ay s => let '(C, off) := s in C <- row off N ay C ;; C <- scale_row C off (k + 2) (X ^ (N - ay)) (Y ^ ay) ;; Ok (C, S off)) s) (k + 1)%nat 1%nat (C1, 1%nat)) as (s & E & Es & Ds).
  - split; [reflexivity|]. exact D1.
  - intros N [C off] (H1 & H2) (Eo & D). cbn [fst snd] in Eo, D.
    destruct (@for_loop_total _ (fun ay s => (2 * snd s = N * (N + 1) + 2 * ay)%nat /\ rows_done (snd s) (fst s)) (fun ay s => let '(C, off) := s in C <- row off N ay C ;; C <- scale_row C off (k + 2) (X ^ (N - ay)) (Y ^ ay) ;; Ok (C, S off)) (S N) (C, off)) as ([C' off'] & E & Eo' & D').
    + cbn [fst snd]. split; auto. rewrite Eo, ix_formula. lia.
    + intros ay [C' off'] Ha (Eo' & D'). cbn [fst snd] in Eo', D'.
      destruct (rows_step off' N ay C') as (C2 & E2 & D2); auto; try lia.
      * pose proof (ix_formula (N - ay) ay) as IF. replace (N - ay + ay)%nat with N in IF by lia. lia.
      * exists (C2, S off'). split; auto. cbn [fst snd]. split; [lia|auto].
    + exists (C', off'). split; [exact E|]. cbn [fst snd] in *. split; [|auto]. pose proof (ix_formula (S N) 0). nia.
  - rewrite E. cbn [bind]. destruct s as [C off]. cbn [fst snd] in *. exists C. split; auto. destruct Ds as (R1 & R2 & R3 & _). split; auto. split; auto.
    intros r s Hr. apply R3. rewrite Es. apply ab_lt in Hr. pose proof (ix_formula (1 + (k + 1)) 0) as I1. pose proof (ix_formula (ea r) (eb r)) as I2. rewrite ix_ab in I2. nia.
Qed.
End Rows.

(** the start of the edge as the code sees it: coordinates within the tolerance of the centroid are those of the centroid *)
Definition seen (start centroid : nat -> R) (d : nat) : R := if Rlt_dec (1 / 10 ^ 12) (Rabs (start d - centroid d)) then start d else centroid d.

Lemma tol_pos : 0 < 1 / 10 ^ 12.
Proof. apply Rdiv_lt_0_compat; [lra|apply pow_lt; lra]. Qed.

Lemma trace_edge_ok k start centroid tangent diam direction : diam <> 0 ->
  (Rabs (start 0%nat - centroid 0%nat) <= 1 / 10 ^ 12 /\ Rabs (start 1%nat - centroid 1%nat) <= 1 / 10 ^ 12 ->
    trace_edge Binomial.C k start centroid tangent diam direction = Throw) /\
  (~ (Rabs (start 0%nat - centroid 0%nat) <= 1 / 10 ^ 12 /\ Rabs (start 1%nat - centroid 1%nat) <= 1 / 10 ^ 12) ->
    exists C, trace_edge Binomial.C k start centroid tangent diam direction = Ok C /\ m_rows C = num2 (k + 1) /\ m_cols C = (k + 2)%nat /\
      forall r s, (r < num2 (k + 1))%nat -> rowpoly C r s =
        ((seen start centroid 0 + s * (direction * tangent 0%nat) - centroid 0%nat) / diam) ^ ea r *
        ((seen start centroid 1 + s * (direction * tangent 1%nat) - centroid 1%nat) / diam) ^ eb r).
Proof.
  intros Hd. pose proof tol_pos as TP. unfold trace_edge, seen.
  set (XA := start 0%nat - centroid 0%nat) in *. set (YA := start 1%nat - centroid 1%nat) in *.
  set (tx := direction * tangent 0%nat) in *. set (ty := direction * tangent 1%nat) in *.
  destruct (Rlt_dec (1 / 10 ^ 12) (Rabs XA)) as [LX|LX]; destruct (Rlt_dec (1 / 10 ^ 12) (Rabs YA)) as [LY|LY];
    (split; [intros (H1 & H2)|intros HN]); try lra; try reflexivity.
  - assert (NX : XA <> 0) by (intros Z; rewrite Z, Rabs_R0 in LX; lra). assert (NY : YA <> 0) by (intros Z; rewrite Z, Rabs_R0 in LY; lra).
    apply trace_rows_ok. intros off N ay C Hoff HC Ha HN'.
    pose (g := fun j s => rsum (S (N - ay)) (fun i => Binomial.C (N - ay) i * (tx / XA) ^ i * Binomial.C ay j * (ty / YA) ^ j * s ^ (j + i))).
    destruct (@for_loop_total _ (fun j C' => only_row off C C' /\ forall s, rowpoly C' off s = rowpoly C off s + rsum j (fun j => g j s))
      (fun j C => for_loop (S (N - ay)) (fun i C => add_entry C off (j + i) (Binomial.C (N - ay) i * (tx / XA) ^ i * Binomial.C ay j * (ty / YA) ^ j)) C) (S ay) C) as (C' & E & O & P).
    + split; [apply only_row_refl|]. intros s. cbn. ring.
    + intros j C1 Hj (O & P). destruct (add_loop (S (N - ay)) off (fun i => (j + i)%nat) (fun i => Binomial.C (N - ay) i * (tx / XA) ^ i * Binomial.C ay j * (ty / YA) ^ j) C1) as (C2 & E2 & O2 & P2).
      * destruct O as (-> & _); auto.
      * intros i Hi. destruct O as (_ & -> & _). lia.
      * exists C2. split; auto. split; [eapply only_row_trans; eauto|]. intros s. rewrite P2, P. cbn [rsum]. unfold g. cbn [rsum]. ring.
    + exists C', (fun s => rsum (S ay) (fun j => g j s)). split; auto. split; auto. split; auto.
      intros s. transitivity ((1 + tx / XA * s) ^ (N - ay) * (1 + ty / YA * s) ^ ay * ((XA * (1 / diam)) ^ (N - ay) * (YA * (1 / diam)) ^ ay)).
      * f_equal. rewrite !binomial_1, <- rsum_scal. apply rsum_ext. intros j Hj. unfold g. rewrite <- rsum_scal_r. apply rsum_ext. intros i Hi. rewrite !Rpow_mult_distr, pow_add. ring.
      * match goal with |- ?a * ?b * (?c * ?d) = _ => transitivity ((a * c) * (b * d)); [ring|] end. rewrite <- !Rpow_mult_distr. f_equal; f_equal; unfold XA, YA in *; field; auto.
  - assert (NX : XA <> 0) by (intros Z; rewrite Z, Rabs_R0 in LX; lra).
    apply trace_rows_ok. intros off N ay C Hoff HC Ha HN'.
    destruct (add_loop (S (N - ay)) off (fun i => (ay + i)%nat) (fun i => Binomial.C (N - ay) i * (tx / XA) ^ i) C) as (C2 & E2 & O2 & P2); auto.
    { intros i Hi. lia. }
    eexists C2, _. split; [exact E2|]. split; [exact O2|]. split; [exact P2|]. intros s.
    transitivity ((1 + tx / XA * s) ^ (N - ay) * s ^ ay * ((XA * (1 / diam)) ^ (N - ay) * (ty * (1 / diam)) ^ ay)).
    + f_equal. rewrite binomial_1, <- rsum_scal_r. apply rsum_ext. intros i Hi. rewrite Rpow_mult_distr, pow_add. ring.
    + match goal with |- ?a * ?b * (?c * ?d) = _ => transitivity ((a * c) * (b * d)); [ring|] end. rewrite <- !Rpow_mult_distr. f_equal; f_equal; unfold XA in *; field; auto.
  - assert (NY : YA <> 0) by (intros Z; rewrite Z, Rabs_R0 in LY; lra).
    apply trace_rows_ok. intros off N ay C Hoff HC Ha HN'.
    destruct (add_loop (S ay) off (fun j => (j + (N - ay))%nat) (fun j => Binomial.C ay j * (ty / YA) ^ j) C) as (C2 & E2 & O2 & P2); auto.
    { intros i Hi. lia. }
    eexists C2, _. split; [exact E2|]. split; [exact O2|]. split; [exact P2|]. intros s.
    transitivity (s ^ (N - ay) * (1 + ty / YA * s) ^ ay * ((tx * (1 / diam)) ^ (N - ay) * (YA * (1 / diam)) ^ ay)).
    + f_equal. rewrite binomial_1, <- rsum_scal. apply rsum_ext. intros i Hi. rewrite Rpow_mult_distr, pow_add. ring.
    + match goal with |- ?a * ?b * (?c * ?d) = _ => transitivity ((a * c) * (b * d)); [ring|] end. rewrite <- !Rpow_mult_distr. f_equal; f_equal; unfold YA in *; field; auto.
Qed.
