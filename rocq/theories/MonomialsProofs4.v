From Coq Require Import List Arith Bool Lia ZArith Reals Lra.
From Verif Require Import Base RSum MatrixModel MonomialsModel MonomialsSpec MonomialsProofs MonomialsProofs2 MonomialsProofs3.
Import ListNotations.
Local Open Scope R_scope.

(** the three classes of the library *)
Definition class_of (dim : nat) (M : MonomialsClass) : Prop :=
  (dim = 1%nat /\ M = Monomials_1D) \/ (dim = 2%nat /\ M = Monomials_2D) \/ (dim = 3%nat /\ M = Monomials_3D).

Lemma class_good dim M : class_of dim M -> exists idx, good M idx /\ mc_dim M = dim /\ (dim <= 3)%nat.
Proof.
  intros [(-> & ->)|[(-> & ->)|(-> & ->)]]; [exists idx1|exists idx2|exists idx3]; (split; [|split; [reflexivity|lia]]).
  - apply good_1D.
  - apply good_2D.
  - apply good_3D.
Qed.

Lemma class_num dim M k : class_of dim M ->
  (dim = 1%nat -> numM M k = (k + 1)%nat) /\
  (dim = 2%nat -> (2 * numM M k = (k + 1) * (k + 2))%nat) /\
  (dim = 3%nat -> (6 * numM M k = (k + 1) * (k + 2) * (k + 3))%nat).
Proof.
  intros [(-> & ->)|[(-> & ->)|(-> & ->)]]; repeat split; intros; try discriminate; unfold numM; cbn [mc_num Monomials_1D Monomials_2D Monomials_3D].
  - unfold num_1D. lia.
  - rewrite num_2D_tri. pose proof (tri2 (Z.of_nat k + 1) ltac:(lia)). pose proof (tri_nonneg (Z.of_nat k + 1) ltac:(lia)). nia.
  - rewrite num_3D_tet.
    assert (T : forall s, (0 <= s)%Z -> (6 * tet s = (s + 1) * (s + 2) * (s + 3))%Z).
    { apply tri_nat; [reflexivity|]. intros s Hs IH. rewrite tet_step by lia. replace (s + 1 - 1)%Z with s by lia.
      pose proof (tri2 (s + 1 + 1) ltac:(lia)). nia. }
    pose proof (T (Z.of_nat k) ltac:(lia)). pose proof (tet_mono (-1) (Z.of_nat k) ltac:(lia)). change (tet (-1)) with 0%Z in *.
    apply Nat2Z.inj. rewrite Nat2Z.inj_mul, Z2Nat.id by lia. change (Z.of_nat 6) with 6%Z. rewrite H0.
    rewrite !Nat2Z.inj_mul, !Nat2Z.inj_add. reflexivity.
Qed.

Lemma class_num1 dim M k : class_of dim M -> numM M k = 1%nat <-> k = 0%nat.
Proof.
  intros H. pose proof (class_num dim M k H) as (H1 & H2 & H3).
  destruct H as [(-> & ->)|[(-> & ->)|(-> & ->)]]; [specialize (H1 eq_refl)|specialize (H2 eq_refl)|specialize (H3 eq_refl)]; split; intros; subst; nia.
Qed.

Lemma C27_all dim M k : class_of dim M ->
  exists data, Compute M k = Ok data /\ length (Exponents data) = NumMonomials data /\ NoDup (Exponents data) /\
  (forall e, In e (Exponents data) <-> tuple dim e /\ (degree e <= Z.of_nat k)%Z) /\
  (forall i j, (i <= j < NumMonomials data)%nat -> (degree (expo (Exponents data) i) <= degree (expo (Exponents data) j))%Z) /\
  (dim = 1%nat -> NumMonomials data = (k + 1)%nat) /\
  (dim = 2%nat -> (2 * NumMonomials data = (k + 1) * (k + 2))%nat) /\
  (dim = 3%nat -> (6 * NumMonomials data = (k + 1) * (k + 2) * (k + 3))%nat).
Proof.
  intros H. pose proof (class_num dim M k H). destruct (class_good _ _ H) as (idx & G & Hd & _). rewrite <- Hd in *.
  destruct (Compute_ok M idx G k) as (data & E & _). exists data. split; auto.
  destruct (g_C27 M idx G k data E) as (H1 & H2 & H3 & H4 & H5). repeat (split; [assumption|]). rewrite H1. assumption.
Qed.

Lemma C28_all dim M k data : class_of dim M -> Compute M k = Ok data ->
  (forall i, (i < NumMonomials data)%nat -> mc_Index M (expo (Exponents data) i) = Ok (Z.of_nat i)) /\
  (forall e, tuple dim e -> (degree e <= Z.of_nat k)%Z ->
     exists i, mc_Index M e = Ok (Z.of_nat i) /\ (i < NumMonomials data)%nat /\ expo (Exponents data) i = e) /\
  (forall e, length e = dim -> (mc_Index M e = Ok (-1)%Z <-> Exists (fun a => (a < 0)%Z) e)).
Proof. intros H E. destruct (class_good _ _ H) as (idx & G & <- & _). apply (g_C28 M idx G k data E). Qed.

Lemma C29_all dim M k data i : class_of dim M -> Compute M k = Ok data -> (i < NumMonomials data)%nat ->
  let e := expo (Exponents data) i in
  exists l1 l2, DerivativeIndices M data i = Ok l1 /\ SecondDerivativeIndices M data i = Ok l2 /\
    length l1 = dim /\ length l2 = dim /\
    forall d, (d < dim)%nat ->
      ((0 < nth d e 0)%Z -> exists j, nth d l1 0%Z = Z.of_nat j /\ (j < NumMonomials data)%nat /\ expo (Exponents data) j = lower d 1 e) /\
      (~ (0 < nth d e 0)%Z -> nth d l1 0%Z = (-1)%Z) /\
      ((1 < nth d e 0)%Z -> exists j, nth d l2 0%Z = Z.of_nat j /\ (j < NumMonomials data)%nat /\ expo (Exponents data) j = lower d 2 e) /\
      (~ (1 < nth d e 0)%Z -> nth d l2 0%Z = (-1)%Z).
Proof. intros H E Hi. destruct (class_good _ _ H) as (idx & G & <- & _). exact (g_C29 M idx G k data E i Hi). Qed.

Lemma C30_all dim M k data : class_of dim M -> Compute M k = Ok data -> let n := NumMonomials data in
  length (DerivativeMatrices data) = dim /\
  (forall d, (d < dim)%nat -> exists D, nth_error (DerivativeMatrices data) d = Some D /\ m_rows D = n /\ m_cols D = n /\
     forall i x, (i < n)%nat -> is_partial (mono (expo (Exponents data) i)) d x
        (rsum n (fun j => m_at D i j * mono (expo (Exponents data) j) x))) /\
  m_rows (Laplacian data) = n /\ m_cols (Laplacian data) = n /\
  (forall i x, (i < n)%nat -> is_laplacian dim (mono (expo (Exponents data) i)) x
        (rsum n (fun j => m_at (Laplacian data) i j * mono (expo (Exponents data) j) x))).
Proof. intros H E. destruct (class_good _ _ H) as (idx & G & <- & _). exact (g_C30 M idx G k data E). Qed.

Lemma C31_all dim M k data junk points c h : class_of dim M -> Compute M k = Ok data -> m_rows points = 3%nat -> h <> 0 ->
  exists V, Vander dim junk data points c h = Ok V /\ m_rows V = m_cols points /\ m_cols V = NumMonomials data /\
    (forall q i, (i < NumMonomials data)%nat -> m_at V q i = mono (expo (Exponents data) i) (scaled c h (pt points q))) /\
    (forall q, m_at V q 0 = 1).
Proof.
  intros H E. pose proof (class_num1 dim M k H). destruct (class_good _ _ H) as (idx & G & <- & H3). now apply (g_C31 M idx G k data E).
Qed.

Lemma C32_all dim M k data junk junk' points c h V : class_of dim M -> Compute M k = Ok data -> m_rows points = 3%nat -> h <> 0 ->
  Vander dim junk data points c h = Ok V ->
  exists VD, VanderDerivatives M junk' data V h = Ok VD /\ length VD = dim /\
    forall d, (d < dim)%nat -> exists A, nth_error VD d = Some A /\ m_rows A = m_cols points /\ m_cols A = NumMonomials data /\
      forall q i, (i < NumMonomials data)%nat -> is_partial (fun x => mono (expo (Exponents data) i) (scaled c h x)) d (pt points q) (m_at A q i).
Proof.
  intros H E Hr Hh EV. destruct (C31_all dim M k data junk points c h H E Hr Hh) as (V' & EV' & V1 & V2 & V3 & _).
  rewrite EV in EV'. injection EV' as <-. destruct (class_good _ _ H) as (idx & G & <- & H3).
  exact (g_C32 M idx G k data E H3 (class_num1 _ M k H) junk' points c h V Hh V1 V2 V3).
Qed.

Lemma C33_all dim M k data junk junk' points c h V : class_of dim M -> Compute M k = Ok data -> m_rows points = 3%nat -> h <> 0 ->
  Vander dim junk data points c h = Ok V ->
  ((3 <= NumMonomials data)%nat ->
  exists A, VanderLaplacian M junk' data V h = Ok A /\ m_rows A = m_cols points /\ m_cols A = NumMonomials data /\
      (forall q i, (i < NumMonomials data)%nat -> ~ (dim = 1%nat /\ i = 2%nat) ->
        is_laplacian dim (fun x => mono (expo (Exponents data) i) (scaled c h x)) (pt points q) (m_at A q i)) /\
      (dim = 1%nat -> forall q L, is_laplacian dim (fun x => mono (expo (Exponents data) 2) (scaled c h x)) (pt points q) L ->
          m_at A q 2 <> L)) /\
  ((NumMonomials data < 3)%nat -> VanderLaplacian M junk' data V h = UB).
Proof.
  intros H E Hr Hh EV. destruct (C31_all dim M k data junk points c h H E Hr Hh) as (V' & EV' & V1 & V2 & V3 & _).
  rewrite EV in EV'. injection EV' as <-. pose proof (fun k => class_num dim M k H) as HN.
  assert (CL := H). destruct (class_good _ _ H) as (idx & G & Hdim & H3). rewrite <- Hdim in *.
  pose proof (num_data _ _ G _ _ E) as Nd. split.
  - intros N3. rewrite Nd in N3. destruct (g_C33_cols M idx G k data E H3 (class_num1 _ M k CL) junk' points c h V Hh V1 V2 N3 V3) as (A & EA & A1 & A2 & A3 & A4).
    exists A. split; auto. split; auto. split; auto. split.
    + intros q i Hi Hn. rewrite Nd in Hi. destruct (enum_ok _ _ G i) as (Ht & _).
      replace (m_at A q i) with (1 / (h * h) * rsum (mc_dim M) (fun d => mono_dd d (enum M i) (scaled c h (pt points q)))).
      * rewrite (expo_enum M idx G k data E) by auto. now apply laplacian_scaled.
      * destruct (Nat.lt_ge_cases i 3) as [L|L]; [|symmetry; apply A4; lia]. rewrite A3 by auto. rewrite rsum_0; [ring|].
        intros d Hd. apply (mono_dd_low M k H3 (class_num1 _ M k CL)); auto.
        apply (enum_lt _ _ G 1). destruct (HN 1%nat) as (W1 & W2 & W3).
        assert (HD : mc_dim M = 1%nat \/ mc_dim M = 2%nat \/ mc_dim M = 3%nat) by (destruct CL as [(? & _)|[(? & _)|(? & _)]]; auto).
        destruct HD as [HD|[HD|HD]]; [rewrite (W1 HD)|specialize (W2 HD)|specialize (W3 HD)]; lia.
    + intros HD q L HL. rewrite A3 by lia. intros E0. subst L.
      rewrite (expo_enum M idx G k data E) in HL by lia. destruct (enum_ok _ _ G 2) as (Ht & Hx).
      pose proof (laplacian_scaled (mc_dim M) (enum M 2) (pt points q) c h Hh Ht) as HL'.
      pose proof (laplacian_unique _ _ _ _ _ HL HL') as Q.
      destruct CL as [(D1 & ->)|[(D1 & _)|(D1 & _)]]; [|congruence|congruence].
      cbn -[Rdiv Rmult] in Q. unfold mono_dd in Q. cbn -[Rdiv Rmult Rplus] in Q.
      assert (P : 0 < / (h * h)) by (apply Rinv_0_lt_compat; nra). unfold Rdiv in Q. nra.
  - intros Nlt. rewrite Nd in Nlt. apply (g_C33_UB M idx G k data E); auto. apply (class_num1 _ M k CL).
Qed.
