(** Execution of the two dimensional mixed virtual element: entries of all the matrices. *)
From Coq Require Import List Arith Bool Lia ZArith Reals Lra.
From Verif Require Import Base RSum MatrixModel MonomialsModel LagrangeModel VemQuadModel VemQuadSpec VemQuadProofs VemModel VemProofs VemMccModel.
Import ListNotations.
Local Open Scope R_scope.

Ltac mfields := cbn [m_rows m_cols m_at v_size v_at mtrans mzero vzero mscal midentity diagonal_matrix vconst].
Ltac mtruth := symmetry; rewrite ?andb_true_iff, ?Nat.eqb_eq, ?Nat.leb_le, ?Nat.ltb_lt; repeat split; mfields; lia.
Ltac mchk := repeat (match goal with |- context [if ?c then _ else UB] => replace c with true by mtruth end; cbn [bind]; mfields).
Ltac munf := unfold weighted, set_leftCols, set_rightCols, set_topRows, set_bottomRows, set_topLeftCorner, set_topRightCorner, leftCols, topRows, bottomRows, topLeftCorner,
  rightCols, bottomLeftCorner, middleRows, beside, stacked, joined, diagm, mat_set_block, mat_block, msolve, mmul, mmulv, madd, mdiag, vcwise.

Lemma vsqrt_ok v : (forall i, (i < v_size v)%nat -> 0 <= v_at v i) -> vsqrt v = Ok {| v_size := v_size v; v_at := fun i => sqrt (v_at v i) |}.
Proof.
  intros H. unfold vsqrt. replace (forallb _ _) with true; auto. symmetry. apply forallb_forall. intros i Hi. apply in_seq in Hi.
  destruct (Rlt_dec (v_at v i) 0) as [L|]; auto. specialize (H i ltac:(lia)). lra.
Qed.

(** TkNabla *)
Lemma TkNabla_ok Nk NN diam m D0 D1 : DerivativeMatrices m = [D0; D1] -> m_rows D0 = S NN -> m_rows D1 = S NN -> (Nk <= m_cols D0)%nat -> (Nk <= m_cols D1)%nat ->
  exists T, mcc_TkNabla 2 Nk NN diam m = Ok T /\ m_rows T = NN /\ m_cols T = (2 * Nk)%nat /\
    (forall a c, (a < NN)%nat -> (c < Nk)%nat -> m_at T a c = 1 / diam * m_at D0 (S a) c) /\
    (forall a c, (a < NN)%nat -> (c < Nk)%nat -> m_at T a (Nk + c) = 1 / diam * m_at D1 (S a) c).
Proof.
  intros E r0 r1 c0 c1. unfold mcc_TkNabla. rewrite E. cbn [idx_ nth_error bind]. munf. mchk. eexists. split; [reflexivity|]. mfields. do 2 (split; [lia|]). split; intros a c Ha Hc.
  - rewrite ltb_true by lia. do 2 f_equal; lia.
  - rewrite ltb_false by lia. do 2 f_equal; lia.
Qed.

Lemma TkBigOPlus_ok svd Nk NN T : m_cols T = (2 * Nk)%nat -> (NN <= 2 * Nk)%nat ->
  exists B, mcc_TkBigOPlus svd 2 Nk NN T = Ok B /\ m_rows B = (2 * Nk - NN)%nat /\ m_cols B = (2 * Nk)%nat /\
    (forall r c, m_at B r c = svd T (NN + r)%nat c).
Proof.
  intros E H. unfold mcc_TkBigOPlus. rewrite (ltb_false (2 * Nk) NN) by lia. munf. mchk. eexists. split; [reflexivity|]. mfields. do 2 (split; [lia|]).
  intros r c. f_equal. lia.
Qed.

(** the values of the vector polynomials with coefficients T, gradients and others *)
Definition Tall (NN : nat) (TN TB : Mat) (a c : nat) : R := if (a <? NN)%nat then m_at TN a c else m_at TB (a - NN)%nat c.

Lemma GkVander_ok Nk NN n TN TB V : m_rows TN = NN -> m_cols TN = (2 * Nk)%nat -> m_rows TB = (2 * Nk - NN)%nat -> m_cols TB = (2 * Nk)%nat -> (NN <= 2 * Nk)%nat ->
  m_rows V = n -> m_cols V = Nk ->
  exists G, mcc_GkVander 2 Nk n TN TB V = Ok G /\ m_rows G = (2 * Nk)%nat /\ m_cols G = (2 * n)%nat /\
    (forall a q, (q < n)%nat -> m_at G a q = rsum Nk (fun c => Tall NN TN TB a c * m_at V q c)) /\
    (forall a q, (q < n)%nat -> m_at G a (n + q) = rsum Nk (fun c => Tall NN TN TB a (Nk + c) * m_at V q c)).
Proof.
  intros n1 n2 b1 b2 HN v1 v2. unfold mcc_GkVander, mcc_Vander2k. munf. mchk. eexists. split; [reflexivity|]. mfields. do 2 (split; [reflexivity|]). rewrite n1, n2, b2, v1, ?v2.
  assert (S1 : forall (x : nat -> R) q, (q < n)%nat -> rsum (2 * Nk) (fun c => x c * (if (c <? Nk)%nat then if (q <? n)%nat then m_at V q c else 0 else if (q <? n)%nat then 0 else m_at V (q - n) (c - Nk))) = rsum Nk (fun c => x c * m_at V q c)).
  { intros x q Hq. replace (2 * Nk)%nat with (Nk + Nk)%nat by lia. rewrite rsum_add. rewrite (rsum_0 Nk (fun i => x (Nk + i)%nat * _)), Rplus_0_r.
    - apply rsum_ext. intros c Hc. rewrite !ltb_true by lia. reflexivity.
    - intros c Hc. rewrite ltb_false, ltb_true by lia. ring. }
  assert (S2 : forall (x : nat -> R) q, (q < n)%nat -> rsum (2 * Nk) (fun c => x c * (if (c <? Nk)%nat then if (n + q <? n)%nat then m_at V (n + q) c else 0 else if (n + q <? n)%nat then 0 else m_at V (n + q - n) (c - Nk))) = rsum Nk (fun c => x (Nk + c)%nat * m_at V q c)).
  { intros x q Hq. replace (2 * Nk)%nat with (Nk + Nk)%nat by lia. rewrite rsum_add. rewrite (rsum_0 Nk), Rplus_0_l.
    - apply rsum_ext. intros c Hc. rewrite !ltb_false by lia. f_equal. f_equal; lia.
    - intros c Hc. rewrite ltb_true, ltb_false by lia. ring. }
  split; intros a q Hq; unfold Tall; destruct (a <? NN)%nat; rewrite ?S1, ?S2 by auto; reflexivity.
Qed.

(** Gram matrices *)
Lemma gram_ok w A : (forall q, (q < v_size w)%nat -> 0 <= v_at w q) -> m_rows A = v_size w ->
  exists G, mcc_gram {| v_size := v_size w; v_at := fun i => sqrt (v_at w i) |} A = Ok G /\ m_rows G = m_cols A /\ m_cols G = m_cols A /\
    forall i j, m_at G i j = rsum (v_size w) (fun q => v_at w q * (m_at A q i * m_at A q j)).
Proof.
  intros P E. unfold mcc_gram. munf. mchk. eexists. split; [reflexivity|]. mfields. do 2 (split; [reflexivity|]). intros i j. rewrite E. apply rsum_ext. intros q Hq.
  rewrite <- (sqrt_sqrt (v_at w q)) at 3 by auto. ring.
Qed.
Lemma gram2_ok w A : (forall q, (q < v_size w)%nat -> 0 <= v_at w q) -> m_rows A = (2 * v_size w)%nat ->
  exists r G, joined (2 * v_size w) {| v_size := v_size w; v_at := fun i => sqrt (v_at w i) |} {| v_size := v_size w; v_at := fun i => sqrt (v_at w i) |} = Ok r /\
    mcc_gram r A = Ok G /\ m_rows G = m_cols A /\ m_cols G = m_cols A /\
    forall i j, m_at G i j = rsum (v_size w) (fun q => v_at w q * (m_at A q i * m_at A q j + m_at A (v_size w + q) i * m_at A (v_size w + q) j)).
Proof.
  intros P E. unfold joined. mchk. eexists. unfold mcc_gram. munf. eexists. split; [reflexivity|]. mchk. split; [reflexivity|]. mfields. do 2 (split; [reflexivity|]). intros i j. rewrite E.
  replace (2 * v_size w)%nat with (v_size w + v_size w)%nat by lia. rewrite rsum_add, <- rsum_plus. apply rsum_ext. intros q Hq. rewrite (ltb_true q) by auto. rewrite (ltb_false (v_size w + q)) by lia.
  replace (v_size w + q - v_size w)%nat with q by lia. rewrite <- (sqrt_sqrt (v_at w q)) at 5 by auto. ring.
Qed.

(** the vectors of normals and signs *)
Definition sgn (dirs : list bool) (i : nat) : R := if nth i dirs true then 1 else -1.
Lemma edge_vectors_ok junk k nv vertices normals dirs : m_cols vertices = nv -> (2 <= m_rows normals)%nat -> m_cols normals = nv -> length dirs = nv ->
  exists n0 n1 s, mcc_edge_vectors junk k ((k + 1) * nv) vertices normals dirs = Ok (n0, n1, s) /\
    v_size n0 = ((k + 1) * nv)%nat /\ v_size n1 = ((k + 1) * nv)%nat /\ v_size s = ((k + 1) * nv)%nat /\
    forall j, (j < (k + 1) * nv)%nat -> v_at n0 j = m_at normals 0 (j / (k + 1)) * sgn dirs (j / (k + 1)) /\
      v_at n1 j = m_at normals 1 (j / (k + 1)) * sgn dirs (j / (k + 1)) /\ v_at s j = sgn dirs (j / (k + 1)).
Proof.
  intros Ev Hr Hc Hd. unfold mcc_edge_vectors. rewrite Ev. set (nb := ((k + 1) * nv)%nat).
  edestruct (for_loop_total (fun i (st : Vec * Vec * Vec * nat) => let '(n0, n1, s, o) := st in o = (i * (k + 1))%nat /\ v_size n0 = nb /\ v_size n1 = nb /\ v_size s = nb /\
    forall j, (j < i * (k + 1))%nat -> v_at n0 j = m_at normals 0 (j / (k + 1)) * sgn dirs (j / (k + 1)) /\
      v_at n1 j = m_at normals 1 (j / (k + 1)) * sgn dirs (j / (k + 1)) /\ v_at s j = sgn dirs (j / (k + 1)))) as ((((n0 & n1) & s) & o) & E & I).
  3:{ rewrite E. cbn [bind]. exists n0, n1, s. destruct I as (_ & J1 & J2 & J3 & J4). do 4 (split; [assumption||reflexivity|]). intros j Hj. apply J4. unfold nb in Hj. lia. }
  - cbn. repeat (split; [reflexivity|]). intros; lia.
  - intros i (((n0 & n1) & s) & o) Hi (-> & S0 & S1 & S2 & V). unfold normal_col. replace ((2 <=? m_rows normals) && (i <? m_cols normals))%nat with true by mtruth. cbn [bind].
    assert (exists d, nth_error dirs i = Some d) as (d & Hdi) by (apply nth_error_Some_ex; lia). rewrite (proj2 (idx_Ok dirs i d) Hdi). cbn [bind]. unfold vec_set_segment.
    assert (i * (k + 1) + (k + 1) <= nb)%nat by (unfold nb; nia). mchk. eexists. split; [reflexivity|]. cbn [v_size v_at vconst]. split; [lia|]. do 3 (split; [auto|]).
    assert (SG : sgn dirs i = if d then 1 else -1) by (unfold sgn; erewrite nth_error_nth by exact Hdi; reflexivity).
    intros j Hj. destruct (Nat.leb_spec (i * (k + 1)) j) as [L|L].
    + assert (Q : (j / (k + 1))%nat = i). { symmetry. apply (Nat.div_unique j (k + 1) i (j - i * (k + 1))); nia. } rewrite Q, SG. rewrite ltb_true by lia. cbn [andb]. auto.
    + cbn [andb]. apply V. lia.
Qed.

Lemma ValuesOnBoundary_ok junk k nv N Nk NN vertices normals dirs w VB VBp TN TB : let nb := ((k + 1) * nv)%nat in
  m_cols vertices = nv -> (2 <= m_rows normals)%nat -> m_cols normals = nv -> length dirs = nv -> v_size w = nb -> (nb <= N)%nat ->
  m_rows VB = nb -> m_cols VB = Nk -> m_rows VBp = nb -> m_cols VBp = S NN ->
  m_rows TN = NN -> m_cols TN = (2 * Nk)%nat -> m_rows TB = (2 * Nk - NN)%nat -> m_cols TB = (2 * Nk)%nat -> (NN <= 2 * Nk)%nat ->
  exists W2 B2 GB, mcc_ValuesOnBoundary junk 2 k nb N Nk NN vertices normals dirs w VB VBp TN TB = Ok (W2, B2, GB) /\
    m_rows W2 = Nk /\ m_cols W2 = N /\ m_rows B2 = NN /\ m_cols B2 = N /\ m_rows GB = nb /\ m_cols GB = (2 * Nk)%nat /\
    (forall i j, (i < Nk)%nat -> (j < N)%nat -> m_at W2 i j = if (j <? nb)%nat then m_at VB j i * (v_at w j * sgn dirs (j / (k + 1))) else 0) /\
    (forall a j, (a < NN)%nat -> (j < N)%nat -> m_at B2 a j = if (j <? nb)%nat then m_at VBp j (S a) * (v_at w j * sgn dirs (j / (k + 1))) else 0) /\
    (forall j a, (j < nb)%nat -> m_at GB j a = sgn dirs (j / (k + 1)) *
      (rsum Nk (fun c => Tall NN TN TB a c * m_at VB j c) * m_at normals 0 (j / (k + 1)) + rsum Nk (fun c => Tall NN TN TB a (Nk + c) * m_at VB j c) * m_at normals 1 (j / (k + 1)))).
Proof.
  intros nb Ev Hr Hc Hd Hw HN v1 v2 p1 p2 n1 n2 b1 b2 HNN. unfold mcc_ValuesOnBoundary.
  destruct (edge_vectors_ok junk k nv vertices normals dirs Ev Hr Hc Hd) as (m0 & m1 & s & E & s0 & s1 & s2 & V). fold nb in E, s0, s1, s2, V. rewrite E. cbn [bind].
  destruct (GkVander_ok Nk NN nb TN TB VB n1 n2 b1 b2 HNN v1 v2) as (G & EG & g1 & g2 & g3 & g4). rewrite Hw, EG. munf. mchk.
  eexists _, _, _. split; [reflexivity|]. mfields. do 4 (split; [reflexivity|]). split; [lia|]. split; [lia|].
  split; [|split].
  - intros i j Hi Hj. cbn [Nat.leb andb]. rewrite (ltb_true i) by lia. cbn [andb Nat.add]. destruct (Nat.ltb_spec j nb); auto. rewrite !Nat.sub_0_r. destruct (V j ltac:(auto)) as (_ & _ & ->). reflexivity.
  - intros a j Ha Hj. cbn [Nat.leb andb]. rewrite (ltb_true a) by lia. cbn [andb Nat.add]. destruct (Nat.ltb_spec j nb); auto. rewrite !Nat.sub_0_r. destruct (V j ltac:(auto)) as (_ & _ & ->). do 2 f_equal. lia.
  - intros j a Hj. rewrite g2. replace (2 * nb)%nat with (nb + nb)%nat by lia. rewrite rsum_add, s0.
    rewrite (rsum_single nb _ j Hj), (rsum_single nb (fun i => m_at G a (nb + i) * _) j Hj).
    + rewrite (ltb_true j), (ltb_false (nb + j)) by lia. replace (nb + j - nb)%nat with j by lia. rewrite Nat.eqb_refl, g3, g4 by auto. destruct (V j ltac:(auto)) as (-> & -> & _). ring.
    + intros i Hi Hn. rewrite (ltb_false (nb + i)) by lia. replace (nb + i - nb)%nat with i by lia. destruct (Nat.eqb_spec i j); [lia|ring].
    + intros i Hi Hn. rewrite (ltb_true i) by lia. destruct (Nat.eqb_spec i j); [lia|ring].
Qed.

Lemma Divergence_ok llt measure k Nk nb nn ni N W2 H : m_rows W2 = Nk -> m_cols W2 = N -> m_rows H = Nk -> m_cols H = Nk -> (1 <= Nk)%nat -> nn = (Nk - 1)%nat -> N = (nb + ni)%nat -> (nn <= ni)%nat ->
  (k = 0%nat -> nn = 0%nat) ->
  exists W V, mcc_Divergence llt measure k Nk nb nn N W2 H = Ok (W, V) /\ m_rows W = Nk /\ m_cols W = N /\ m_rows V = Nk /\ m_cols V = N /\
    (forall i j, m_at V i j = llt H W i j) /\
    (forall i j, m_at W i j = (if ((1 <=? i) && (i <? 1 + nn) && (j =? nb + (i - 1)))%nat then - measure else 0) + m_at W2 i j).
Proof.
  intros w1 w2 h1 h2 HN Hn EN Hni H0. unfold mcc_Divergence.
  destruct (Nat.ltb_spec 0 k) as [K|K].
  - munf. mchk. eexists _, _. split; [reflexivity|]. mfields. do 4 (split; [auto|]). split; [reflexivity|]. intros i j. f_equal.
    destruct (Nat.leb_spec 1 i), (Nat.ltb_spec i (1 + nn)); cbn [andb]; auto.
    destruct (Nat.leb_spec nb j), (Nat.ltb_spec j (nb + nn)), (Nat.eqb_spec j (nb + (i - 1))), (Nat.eqb_spec (i - 1) (j - nb)); cbn [andb]; try lia; ring.
  - cbn [bind]. munf. mchk. eexists _, _. split; [reflexivity|]. mfields. do 4 (split; [auto|]). split; [reflexivity|]. intros i j. f_equal. rewrite H0 by lia.
    destruct (Nat.leb_spec 1 i), (Nat.ltb_spec i (1 + 0)); cbn [andb]; auto. lia.
Qed.

Lemma L2Projectors_ok llt measure Nk NN no N w VI VIp V B2 G : m_rows VI = v_size w -> m_cols VI = Nk -> m_rows VIp = v_size w -> m_cols VIp = S NN -> m_rows V = Nk -> m_cols V = N ->
  m_rows B2 = NN -> m_cols B2 = N -> m_rows G = (2 * Nk)%nat -> m_cols G = (2 * Nk)%nat -> (NN + no = 2 * Nk)%nat -> (no <= N)%nat ->
  exists B P, mcc_L2Projectors llt measure 2 Nk NN no N w VI VIp V B2 G = Ok (B, P) /\ m_rows B = (2 * Nk)%nat /\ m_cols B = N /\ m_rows P = (2 * Nk)%nat /\ m_cols P = N /\
    (forall i j, m_at P i j = llt G B i j) /\
    (forall a j, (a < NN)%nat -> m_at B a j = - rsum Nk (fun c => rsum (v_size w) (fun q => v_at w q * (m_at VIp q (S a) * m_at VI q c)) * m_at V c j) + m_at B2 a j) /\
    (forall r j, (r < no)%nat -> (j < N)%nat -> m_at B (NN + r) j = if (j =? N - no + r)%nat then measure else 0).
Proof.
  intros v1 v2 p1 p2 a1 a2 b1 b2 g1 g2 E Hno. unfold mcc_L2Projectors. munf. mchk. eexists _, _. split; [reflexivity|]. mfields. do 2 (split; [reflexivity|]). split; [auto|]. split; [auto|]. split; [reflexivity|]. split.
  - intros a j Ha. rewrite p2, (ltb_true a) by lia. f_equal. rewrite v2, <- rsum_opp. apply rsum_ext. intros c Hc.
    rewrite p1. rewrite <- Ropp_mult_distr_l_reverse. f_equal. rewrite <- (rsum_opp (v_size w)), <- rsum_scal. apply rsum_ext. intros q Hq.
    replace (S NN - NN + a)%nat with (S a) by lia. cbn [Nat.add]. ring.
  - intros r j Hr Hj. rewrite p2, (ltb_false (NN + r)) by lia. replace (NN + r - NN)%nat with r by lia.
    cbn [Nat.leb andb]. rewrite (ltb_true r) by lia. cbn [andb].
    destruct (Nat.leb_spec (N - no) j), (Nat.ltb_spec j (N - no + no)), (Nat.eqb_spec j (N - no + r)), (Nat.eqb_spec (r - 0) (j - (N - no))); cbn [andb]; try lia; ring.
Qed.

Lemma PolynomialBasisDofs_ok measure k Nk nb nn no N GB G : m_rows GB = nb -> m_cols GB = (2 * Nk)%nat -> m_rows G = (2 * Nk)%nat -> m_cols G = (2 * Nk)%nat -> N = (nb + (nn + no))%nat ->
  (nn + no <= 2 * Nk)%nat -> (k = 0%nat -> nn + no = 0)%nat ->
  exists D, mcc_PolynomialBasisDofs 2 measure k Nk nb nn no N GB G = Ok D /\ m_rows D = N /\ m_cols D = (2 * Nk)%nat /\
    (forall j a, (j < nb)%nat -> (a < 2 * Nk)%nat -> m_at D j a = m_at GB j a) /\
    (forall c a, (c < nn)%nat -> (a < 2 * Nk)%nat -> m_at D (nb + c) a = 1 / measure * m_at G c a) /\
    (forall r a, (r < no)%nat -> (a < 2 * Nk)%nat -> m_at D (nb + nn + r) a = 1 / measure * m_at G (2 * Nk - no + r) a).
Proof.
  intros b1 b2 g1 g2 EN Hn H0. unfold mcc_PolynomialBasisDofs. munf. mchk.
  destruct (Nat.ltb_spec 0 k) as [K|K].
  - mchk. eexists. split; [reflexivity|]. mfields. do 2 (split; [auto|]). split; [|split].
    + intros j a Hj Ha. rewrite (leb_false (N - no) j) by lia. cbn [andb]. rewrite (leb_false nb j) by lia. cbn [andb Nat.leb]. rewrite (ltb_true j), (ltb_true a) by lia. cbn [andb]. do 2 rewrite Nat.sub_0_r. reflexivity.
    + intros c a Hc Ha. rewrite (leb_false (N - no)) by lia. cbn [andb]. rewrite (leb_true nb), (ltb_true (nb + c)), (ltb_true a) by lia. cbn [andb Nat.leb]. do 2 f_equal; lia.
    + intros r a Hr Ha. rewrite (leb_true (N - no)), (ltb_true (nb + nn + r)), (ltb_true a) by lia. cbn [andb Nat.leb]. rewrite g1. do 2 f_equal; lia.
  - eexists. split; [reflexivity|]. mfields. do 2 (split; [auto|]). split; [|split; intros; lia].
    intros j a Hj Ha. rewrite (ltb_true j), (ltb_true a) by lia. cbn [andb Nat.leb]. do 2 rewrite Nat.sub_0_r. reflexivity.
Qed.
