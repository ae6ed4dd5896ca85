(** Execution of the divergence free virtual element: the matrices applied to the dofs. *)
From Coq Require Import List Arith Bool Lia ZArith Reals Lra.
From Verif Require Import Base RSum MatrixModel MonomialsModel GBasisModel LagrangeModel LagrangeSpec LagrangeProofs VemQuadModel VemQuadSpec VemQuadProofs VemModel VemSpec VemProofs VemMccModel VemMccProofs DfModel.
Import ListNotations.
Local Open Scope R_scope.

(** a row of a matrix applied to a vector *)
Definition act (A : Mat) (u : nat -> R) (i : nat) : R := rsum (m_cols A) (fun j => m_at A i j * u j).

Ltac dunf := unfold middleCols, set_middleCols, row0, mrow, set_row0, mat_set_row; munf.

Lemma rsum_segment N c n (a g : nat -> R) : (c + n <= N)%nat -> (forall j, (c <= j < c + n)%nat -> a j = 0) ->
  rsum N (fun j => if ((c <=? j) && (j <? c + n))%nat then g (j - c)%nat else a j) = rsum N a + rsum n g.
Proof.
  intros H Z. replace N with (c + n + (N - c - n))%nat by lia. rewrite !rsum_add.
  rewrite (rsum_0 n (fun i => a (c + i)%nat)) by (intros i Hi; apply Z; lia).
  rewrite (rsum_ext c (fun j => if ((c <=? j) && (j <? c + n))%nat then g (j - c)%nat else a j) a) by (intros i Hi; rewrite leb_false by lia; reflexivity).
  rewrite (rsum_ext n _ g) by (intros i Hi; rewrite leb_true, ltb_true by lia; cbn [andb]; f_equal; lia).
  rewrite (rsum_ext (N - c - n) (fun i => if ((c <=? c + n + i) && (c + n + i <? c + n))%nat then g (c + n + i - c)%nat else a (c + n + i)%nat) (fun i => a (c + n + i)%nat)) by (intros i Hi; rewrite (ltb_false (c + n + i)) by lia; rewrite andb_false_r; reflexivity).
  lra.
Qed.

Lemma act_mul A B C u i : mmul A B = Ok C -> act C u i = rsum (m_cols A) (fun l => m_at A i l * act B u l).
Proof.
  unfold mmul. destruct (Nat.eqb_spec (m_cols A) (m_rows B)); [|discriminate]. intros [= <-]. unfold act. mfields.
  rewrite (rsum_ext (m_cols B) _ (fun j => rsum (m_cols A) (fun l => m_at A i l * m_at B l j * u j))) by (intros; now rewrite rsum_scal_r).
  rewrite rsum_swap. apply rsum_ext. intros l _. rewrite <- rsum_scal. apply rsum_ext. intros; ring.
Qed.
Lemma act_add A B C u i : madd A B = Ok C -> act C u i = act A u i + act B u i.
Proof.
  unfold madd. destruct ((m_rows A =? m_rows B)%nat && (m_cols A =? m_cols B)%nat)%bool eqn:E; [|discriminate]. intros [= <-]. unfold act. mfields.
  apply andb_prop in E. destruct E as (_ & E). apply Nat.eqb_eq in E. rewrite <- E, <- rsum_plus. apply rsum_ext. intros; ring.
Qed.
Lemma act_scal c A u i : act (mscal c A) u i = c * act A u i.
Proof. unfold act. cbn [mscal m_cols m_at]. rewrite <- rsum_scal. apply rsum_ext. intros; ring. Qed.
Lemma act_zero r c u i : act (mzero r c) u i = 0.
Proof. unfold act. apply rsum_0. intros; cbn; ring. Qed.
Lemma act_rsum A n (c : nat -> R) (f : nat -> nat -> R) i : act A (fun j => rsum n (fun m => c m * f m j)) i = rsum n (fun m => c m * act A (f m) i).
Proof.
  unfold act. rewrite (rsum_ext (m_cols A) _ (fun j => rsum n (fun m => c m * (m_at A i j * f m j)))) by (intros; rewrite <- rsum_scal; apply rsum_ext; intros; ring).
  rewrite rsum_swap. apply rsum_ext. intros m _. now rewrite <- rsum_scal.
Qed.
Lemma act_ext A u v i : (forall j, (j < m_cols A)%nat -> u j = v j) -> act A u i = act A v i.
Proof. intros H. apply rsum_ext. intros j Hj. now rewrite H. Qed.

Lemma set_cols_ok A c n B : (c + n <= m_cols A)%nat -> m_rows B = m_rows A -> m_cols B = n -> (forall i j, (i < m_rows A)%nat -> (c <= j < c + n)%nat -> m_at A i j = 0) ->
  exists A', set_middleCols A c n B = Ok A' /\ m_rows A' = m_rows A /\ m_cols A' = m_cols A /\
    (forall u i, (i < m_rows A)%nat -> act A' u i = act A u i + rsum n (fun j => m_at B i j * u (c + j)%nat)) /\
    (forall i j, (i < m_rows A)%nat -> (j < c \/ c + n <= j)%nat -> m_at A' i j = m_at A i j).
Proof.
  intros Hc Hr Hn Z. unfold set_middleCols, mat_set_block. mchk. eexists. split; [reflexivity|]. mfields. do 2 (split; [reflexivity|]). split.
  - intros u i Hi. unfold act. mfields. rewrite <- (rsum_segment (m_cols A) c n (fun j => m_at A i j * u j) (fun j => m_at B i j * u (c + j)%nat)) by (auto; intros j Hj; rewrite Z by auto; ring).
    apply rsum_ext. intros j Hj. rewrite (ltb_true i) by lia. cbn [Nat.leb andb]. destruct (Nat.leb_spec c j), (Nat.ltb_spec j (c + n)); cbn [andb]; auto.
    rewrite Nat.sub_0_r. do 2 f_equal. lia.
  - intros i j Hi Hj. destruct (Nat.leb_spec c j), (Nat.ltb_spec j (c + n)); rewrite ?andb_false_r; cbn [andb]; auto. lia.
Qed.
Lemma add_cols_ok A c n B : (c + n <= m_cols A)%nat -> m_rows B = m_rows A -> m_cols B = n ->
  exists A', add_middleCols A c n B = Ok A' /\ m_rows A' = m_rows A /\ m_cols A' = m_cols A /\
    (forall u i, (i < m_rows A)%nat -> act A' u i = act A u i + rsum n (fun j => m_at B i j * u (c + j)%nat)).
Proof.
  intros Hc Hr Hn. unfold add_middleCols, middleCols, set_middleCols, mat_set_block, mat_block, madd. mchk. eexists. split; [reflexivity|]. mfields. do 2 (split; [reflexivity|]).
  intros u i Hi. unfold act. mfields.
  rewrite (rsum_ext (m_cols A) _ (fun j => m_at A i j * u j + (if ((c <=? j) && (j <? c + n))%nat then m_at B i (j - c)%nat * u (c + (j - c))%nat else 0))).
  - rewrite rsum_plus. f_equal. rewrite (rsum_segment (m_cols A) c n (fun _ => 0) (fun j => m_at B i j * u (c + j)%nat)) by auto. rewrite (rsum_0 (m_cols A)) by auto. ring.
  - intros j Hj. rewrite (ltb_true i) by lia. cbn [Nat.leb andb]. destruct (Nat.leb_spec c j), (Nat.ltb_spec j (c + n)); cbn [andb]; try ring.
    rewrite Nat.sub_0_r. replace (c + (j - c))%nat with j by lia. cbn [Nat.add]. ring.
Qed.
Lemma add_rows_ok A n B : (n <= m_rows A)%nat -> m_rows B = n -> m_cols B = m_cols A ->
  exists A', add_bottomRows A n B = Ok A' /\ m_rows A' = m_rows A /\ m_cols A' = m_cols A /\
    (forall u i, (i < m_rows A - n)%nat -> act A' u i = act A u i) /\
    (forall u i, (m_rows A - n <= i < m_rows A)%nat -> act A' u i = act A u i + act B u (i - (m_rows A - n))).
Proof.
  intros Hn Hr Hc. unfold add_bottomRows, bottomRows, set_bottomRows, mat_set_block, mat_block, madd. mchk. eexists. split; [reflexivity|]. mfields. do 2 (split; [reflexivity|]). unfold act; mfields. split.
  - intros u i Hi. apply rsum_ext. intros j Hj. rewrite (leb_false (m_rows A - n) i) by lia. reflexivity.
  - intros u i Hi. rewrite Hc, <- rsum_plus. apply rsum_ext. intros j Hj. rewrite (leb_true (m_rows A - n) i), (ltb_true i), (ltb_true j) by lia. cbn [Nat.leb andb].
    rewrite Nat.sub_0_r. cbn [Nat.add]. replace (m_rows A - n + (i - (m_rows A - n)))%nat with i by lia. ring.
Qed.

Lemma boundary_moments_ok diam Gb VBm wN K n L : m_cols Gb = L -> m_cols VBm = L -> m_rows VBm = n -> v_size wN = n -> m_rows K = n ->
  exists A, df_boundary_moments diam Gb VBm wN K = Ok A /\ m_rows A = m_rows Gb /\ m_cols A = m_cols K /\
    forall i j, m_at A i j = rsum L (fun l => diam * m_at Gb i l * rsum n (fun q => m_at VBm q l * v_at wN q * m_at K q j)).
Proof.
  intros g v1 v2 w k. unfold df_boundary_moments. munf. mchk. eexists. split; [reflexivity|]. mfields. do 2 (split; [reflexivity|]). intros i j. rewrite g, v2.
  rewrite (rsum_ext n _ (fun q => rsum L (fun l => diam * m_at Gb i l * (m_at VBm q l * v_at wN q * m_at K q j)))).
  - rewrite rsum_swap. apply rsum_ext. intros l _. now rewrite <- rsum_scal.
  - intros q _. rewrite Rmult_assoc, <- rsum_scal_r. apply rsum_ext. intros; ring.
Qed.

Lemma Cmatrix_ok ncol diam ns nb nbig N NKp1 Nk Nkm3 nq Gr P VBp wN0 wN1 K Hp V :
  (1 <= NKp1)%nat -> (Nk <= m_rows Gr)%nat -> m_cols Gr = NKp1 -> (Nk <= m_rows P)%nat -> (Nkm3 <= m_cols P)%nat -> m_rows VBp = nq -> m_cols VBp = NKp1 -> v_size wN0 = nq -> v_size wN1 = nq ->
  m_rows K = nq -> m_cols K = ns -> m_rows Hp = NKp1 -> m_cols Hp = NKp1 -> (ncol <= NKp1)%nat -> m_rows V = ncol -> m_cols V = N -> nb = (2 * ns)%nat -> (nb + nbig <= N)%nat -> nbig = Nkm3 ->
  exists C, df_Cmatrix ncol diam ns nb nbig N NKp1 Nk Nkm3 Gr P VBp wN0 wN1 K Hp V = Ok C /\ m_rows C = Nk /\ m_cols C = N /\
    forall u i, (i < Nk)%nat -> act C u i =
      rsum (NKp1 - 1) (fun l => diam * m_at Gr i (1 + l) *
        (rsum nq (fun q => m_at VBp q (1 + l) * (v_at wN0 q * act K u q + v_at wN1 q * act K (fun j => u (ns + j)%nat) q))
         - rsum ncol (fun c => m_at Hp (1 + l) c * act V u c)))
      + rsum Nkm3 (fun c => m_at P i c * u (nb + c)%nat).
Proof.
  intros H1 g1 g2 p1 p2 b1 b2 w0 w1 k1 k2 h1 h2 hc v1 v2 Hnb HN Hbig. unfold df_Cmatrix.
  rewrite block_ok by lia. cbn [bind]. unfold middleCols at 1. rewrite block_ok by lia. cbn [bind].
  match goal with |- context [df_boundary_moments ?d ?G ?B ?w ?M] => destruct (boundary_moments_ok d G B w M nq (NKp1 - 1)) as (A0 & E0 & a1 & a2 & a3); mfields; try assumption; try reflexivity end. rewrite E0. cbn [bind]. cbn [m_rows m_cols] in a1, a2.
  destruct (set_cols_ok (mzero Nk N) 0 ns A0) as (C0 & F0 & c1 & c2 & c3 & c4); mfields; try lia; try congruence; try reflexivity. rewrite F0. cbn [bind m_rows m_cols mzero] in *.
  match goal with |- context [df_boundary_moments ?d ?G ?B ?w ?M] => destruct (boundary_moments_ok d G B w M nq (NKp1 - 1)) as (A1 & E1 & e1 & e2 & e3); mfields; try assumption; try reflexivity end. rewrite E1. cbn [bind]. cbn [m_rows m_cols] in e1, e2.
  destruct (set_cols_ok C0 ns ns A1) as (C1 & F1 & d1 & d2 & d3 & d4); mfields; try lia; try congruence; try reflexivity.
  { intros i j Hi Hj. rewrite c4 by lia. reflexivity. }
  rewrite F1. cbn [bind]. unfold topLeftCorner. rewrite block_ok by lia. cbn [bind].
  match goal with |- context [add_middleCols _ _ _ ?X] => destruct (add_cols_ok C1 nb nbig X) as (C2 & F2 & f1 & f2 & f3); mfields; try lia; try congruence; try reflexivity end. rewrite F2. cbn [bind].
  rewrite block_ok by lia. cbn [bind].
  destruct (mmul _ _) as [X| |] eqn:EX; [|exfalso; revert EX; unfold mmul; mfields; rewrite Nat.eqb_refl; discriminate|exfalso; revert EX; unfold mmul; mfields; rewrite Nat.eqb_refl; discriminate]. cbn [bind].
  assert (X1 : m_rows X = Nk /\ m_cols X = ncol) by (revert EX; unfold mmul; mfields; rewrite Nat.eqb_refl; intros [= <-]; mfields; auto).
  destruct (mmul X V) as [Y| |] eqn:EY; [|exfalso; revert EY; unfold mmul; rewrite (proj2 X1), v1, Nat.eqb_refl; discriminate|exfalso; revert EY; unfold mmul; rewrite (proj2 X1), v1, Nat.eqb_refl; discriminate]. cbn [bind].
  assert (Y1 : m_rows Y = Nk /\ m_cols Y = N) by (revert EY; unfold mmul; rewrite (proj2 X1), v1, Nat.eqb_refl; intros [= <-]; mfields; split; [apply X1|auto]).
  destruct (madd C2 Y) as [C| |] eqn:EC; [|exfalso; revert EC; unfold madd; rewrite (proj1 Y1), (proj2 Y1), f1, f2, d1, d2, c1, c2, !Nat.eqb_refl; discriminate|exfalso; revert EC; unfold madd; rewrite (proj1 Y1), (proj2 Y1), f1, f2, d1, d2, c1, c2, !Nat.eqb_refl; discriminate].
  exists C. split; [reflexivity|].
  assert (C1' : m_rows C = Nk /\ m_cols C = N) by (revert EC; unfold madd; rewrite (proj1 Y1), (proj2 Y1), f1, f2, d1, d2, c1, c2, !Nat.eqb_refl; intros [= <-]; mfields; split; congruence).
  split; [apply C1'|]. split; [apply C1'|]. intros u i Hi. rewrite (act_add _ _ _ u i EC), f3 by lia. rewrite d3 by lia. rewrite c3 by lia. rewrite act_zero.
  rewrite (act_mul _ _ _ u i EY), (proj2 X1).
  rewrite Hbig. mfields. cbn [Nat.add].
  assert (S1 : forall (A : Mat) (w : Vec) o, (forall i j, m_at A i j = rsum (NKp1 - 1) (fun l => diam * m_at Gr i (S l) * rsum nq (fun q => m_at VBp q (S l) * v_at w q * m_at K q j))) ->
    rsum ns (fun j => m_at A i j * u (o + j)%nat) = rsum (NKp1 - 1) (fun l => diam * m_at Gr i (S l) * rsum nq (fun q => m_at VBp q (S l) * (v_at w q * act K (fun j => u (o + j)%nat) q)))).
  { intros A w o HA. rewrite (rsum_ext ns _ (fun j => rsum (NKp1 - 1) (fun l => diam * m_at Gr i (S l) * rsum nq (fun q => m_at VBp q (S l) * v_at w q * m_at K q j) * u (o + j)%nat))) by (intros j _; rewrite HA, <- rsum_scal_r; reflexivity).
    rewrite rsum_swap. apply rsum_ext. intros l _.
    rewrite (rsum_ext ns _ (fun j => diam * m_at Gr i (S l) * rsum nq (fun q => m_at VBp q (S l) * v_at w q * (m_at K q j * u (o + j)%nat)))) by (intros j _; rewrite Rmult_assoc, <- rsum_scal_r; f_equal; apply rsum_ext; intros; ring).
    rewrite rsum_scal. f_equal. rewrite rsum_swap. apply rsum_ext. intros q _. unfold act. rewrite k2, rsum_scal. ring. }
  cbn [m_at] in a3, e3. pose proof (S1 A0 wN0 0%nat a3) as Z0. cbn [Nat.add] in Z0. change (fun j => u j) with u in Z0. rewrite Z0, (S1 A1 wN1 ns e3).
  rewrite (rsum_ext ncol _ (fun c => rsum (NKp1 - 1) (fun l => - (diam * m_at Gr i (S l)) * (m_at Hp (S l) c * act V u c)))).
  2:{ intros c Hc. revert EX. unfold mmul. mfields. rewrite Nat.eqb_refl. intros [= <-]. mfields. rewrite <- rsum_scal_r. apply rsum_ext. intros l _. cbn [Nat.add]. ring. }
  rewrite rsum_swap. rewrite Rplus_0_l.
  rewrite (rsum_ext (NKp1 - 1) (fun l => diam * m_at Gr i (S l) * (_ - _)) (fun l => diam * m_at Gr i (S l) * rsum nq (fun q => m_at VBp q (S l) * (v_at wN0 q * act K u q)) + diam * m_at Gr i (S l) * rsum nq (fun q => m_at VBp q (S l) * (v_at wN1 q * act K (fun j => u (ns + j)%nat) q)) + rsum ncol (fun c => - (diam * m_at Gr i (S l)) * (m_at Hp (S l) c * act V u c)))).
  2:{ intros l _. rewrite rsum_scal. rewrite (rsum_ext nq _ (fun q => m_at VBp q (S l) * (v_at wN0 q * act K u q) + m_at VBp q (S l) * (v_at wN1 q * act K (fun j => u (ns + j)%nat) q))) by (intros; ring). rewrite rsum_plus. ring. }
  rewrite !rsum_plus. ring.
Qed.

Lemma msolve_ok (C : Mat -> Prop) s A B : m_rows A = m_cols A -> m_rows A = m_rows B ->
  exists X, msolve s A B = Ok X /\ m_rows X = m_rows A /\ m_cols X = m_cols B /\
    (exact_for C s -> C A -> forall u i, (i < m_rows A)%nat -> rsum (m_cols A) (fun l => m_at A i l * act X u l) = act B u i).
Proof.
  intros H1 H2. unfold msolve. mchk. eexists. split; [reflexivity|]. mfields. split; [auto|]. split; [reflexivity|]. intros Ex HC u i Hi.
  specialize (Ex A B H1 H2 HC i). cbn [m_at] in Ex. unfold act. mfields.
  rewrite (rsum_ext (m_cols A) _ (fun l => rsum (m_cols B) (fun j => m_at A i l * s A B l j * u j))) by (intros l _; rewrite <- rsum_scal; apply rsum_ext; intros; ring).
  rewrite rsum_swap. apply rsum_ext. intros j Hj. rewrite rsum_scal_r, Ex by auto. reflexivity.
Qed.

Lemma mmul_ex A B : m_cols A = m_rows B -> exists C, mmul A B = Ok C /\ m_rows C = m_rows A /\ m_cols C = m_cols B /\
  forall u i, act C u i = rsum (m_cols A) (fun l => m_at A i l * act B u l).
Proof.
  intros H. destruct (mmul A B) as [C| |] eqn:E; [|exfalso; revert E; unfold mmul; rewrite H, Nat.eqb_refl; discriminate|exfalso; revert E; unfold mmul; rewrite H, Nat.eqb_refl; discriminate].
  exists C. split; [reflexivity|]. pose proof (fun u i => act_mul A B C u i E) as H'. revert E. unfold mmul. rewrite H, Nat.eqb_refl. rewrite <- H. intros [= <-]. mfields. auto.
Qed.
Lemma madd_ex A B : m_rows A = m_rows B -> m_cols A = m_cols B -> exists C, madd A B = Ok C /\ m_rows C = m_rows A /\ m_cols C = m_cols A /\
  forall u i, act C u i = act A u i + act B u i.
Proof.
  intros H H0. destruct (madd A B) as [C| |] eqn:E; [|exfalso; revert E; unfold madd; rewrite H, H0, !Nat.eqb_refl; discriminate|exfalso; revert E; unfold madd; rewrite H, H0, !Nat.eqb_refl; discriminate].
  exists C. split; [reflexivity|]. pose proof (fun u i => act_add A B C u i E) as H'. revert E. unfold madd. rewrite H, H0, !Nat.eqb_refl. cbn [andb]. intros [= <-]. mfields. auto.
Qed.
Lemma weighted_ok A w B : m_rows A = v_size w -> m_rows B = v_size w -> exists C, weighted A w B = Ok C /\ m_rows C = m_cols A /\ m_cols C = m_cols B /\
  forall i j, m_at C i j = rsum (v_size w) (fun q => m_at A q i * v_at w q * m_at B q j).
Proof. intros H1 H2. munf. mchk. eexists. split; [reflexivity|]. mfields. rewrite H1. auto. Qed.

Lemma Gmatrix_ok measure w VI VID0 VID1 n L : (1 <= L)%nat -> v_size w = n -> m_rows VI = n -> m_rows VID0 = n -> m_rows VID1 = n -> m_cols VI = L -> m_cols VID0 = L -> m_cols VID1 = L ->
  exists G, df_Gmatrix measure w VI VID0 VID1 = Ok G /\ m_rows G = L /\ m_cols G = L /\
    (forall j, m_at G 0 j = 1 / measure * rsum n (fun q => m_at VI q j * v_at w q)) /\
    (forall i j, (1 <= i < L)%nat -> m_at G i j = rsum n (fun q => m_at VID0 q i * v_at w q * m_at VID0 q j) + rsum n (fun q => m_at VID1 q i * v_at w q * m_at VID1 q j)).
Proof.
  intros HL Hw a b c d e f. unfold df_Gmatrix.
  destruct (weighted_ok VID0 w VID0) as (G0 & E0 & g1 & g2 & g3); try congruence. rewrite E0. cbn [bind].
  destruct (weighted_ok VID1 w VID1) as (G1 & E1 & h1 & h2 & h3); try congruence. rewrite E1. cbn [bind].
  unfold set_row0, mat_set_row. munf. mchk. 
  eexists. split; [reflexivity|]. mfields. split; [congruence|]. split; [congruence|]. split.
  - intros j. cbn [Nat.eqb]. rewrite a, <- rsum_scal. apply rsum_ext. intros; ring.
  - intros i j Hi. destruct (Nat.eqb_spec i 0); [lia|]. rewrite g3, h3, Hw. reflexivity.
Qed.

Lemma Bmatrix_ok measure diam ns N Nk Nkm2 d lap VBD0 VBD1 wN0 wN1 C : (1 <= Nk)%nat -> (1 <= Nkm2)%nat -> (Nk <= m_rows lap)%nat -> (Nkm2 <= m_cols lap)%nat -> m_rows VBD0 = ns -> m_rows VBD1 = ns -> m_cols VBD0 = Nk -> m_cols VBD1 = Nk ->
  v_size wN0 = ns -> v_size wN1 = ns -> m_rows C = Nkm2 -> m_cols C = N -> (d * ns + ns <= N)%nat ->
  exists B, df_Bmatrix measure diam ns N Nk Nkm2 d lap VBD0 VBD1 wN0 wN1 C = Ok B /\ m_rows B = Nk /\ m_cols B = N /\
    forall u i, (i < Nk)%nat -> act B u i = (if (i =? 0)%nat then 1 / measure * act C u 0 else 0)
      + rsum ns (fun q => (m_at VBD0 q i * v_at wN0 q + m_at VBD1 q i * v_at wN1 q) * u (d * ns + q)%nat)
      + -1 / (diam * diam) * rsum Nkm2 (fun c => m_at lap i c * act C u c).
Proof.
  intros H1 H2 l1 l2 a b c e w0 w1 c1 c2 HN. unfold df_Bmatrix, mdiag, row0, mrow, set_row0, mat_set_row, topLeftCorner, mat_block. mchk.
  match goal with |- context [madd ?X ?Y] => destruct (madd_ex X Y) as (BX & EX & x1 & x2 & x3); mfields; try congruence end. rewrite EX. cbn [bind]. cbn [m_rows m_cols mtrans] in x1, x2. mchk.
  cbn [vscal v_at v_size]. rewrite c2, Nat.eqb_refl. cbn [bind].
  match goal with |- context [add_middleCols ?X ?Y ?Z ?T] => destruct (add_cols_ok X Y Z T) as (B & EB & b1 & b2 & b3); mfields; try congruence end. rewrite EB. cbn [bind].
  match goal with |- context [mmul ?X ?Y] => destruct (mmul_ex X Y) as (A & EA & a1 & a2 & a3); mfields; try congruence end. rewrite EA. cbn [bind]. cbn [m_rows m_cols mscal] in *.
  destruct (madd_ex B A) as (Z & EZ & z1 & z2 & z3); try congruence. exists Z. split; [exact EZ|]. split; [congruence|]. split; [congruence|].
  intros u i Hi. rewrite z3, b3, a3 by auto. f_equal; [f_equal|].
  - unfold act at 1. mfields. destruct (Nat.eqb_spec i 0) as [->|]; [|apply rsum_0; intros; ring].
    unfold act. rewrite c2, <- rsum_scal. apply rsum_ext. intros; ring.
  - apply rsum_ext. intros q Hq. f_equal. revert EX. unfold madd. mfields. rewrite c, e, a, b, !Nat.eqb_refl. cbn [andb]. intros [= <-]. mfields. reflexivity.
  - rewrite <- rsum_scal. apply rsum_ext. intros l _. mfields. cbn [Nat.add]. ring.
Qed.

Lemma enhanced_ok N Nk Nkm1 Nkm3 w VI VG0 VG1 Pi0 Pi1 n : v_size w = n -> m_rows VI = n -> m_cols VI = Nk -> m_rows VG0 = n -> m_rows VG1 = n -> m_cols VG0 = m_cols VG1 -> (Nkm3 <= Nkm1)%nat -> (Nkm1 <= m_cols VG0)%nat ->
  m_rows Pi0 = Nk -> m_rows Pi1 = Nk -> m_cols Pi0 = N -> m_cols Pi1 = N ->
  exists E, df_enhanced N Nkm1 Nkm3 w VI VG0 VG1 Pi0 Pi1 = Ok E /\ m_rows E = (Nkm1 - Nkm3)%nat /\ m_cols E = N /\
    forall u i, act E u i = rsum Nk (fun l => rsum n (fun q => m_at VG0 q (Nkm3 + i) * v_at w q * m_at VI q l) * act Pi0 u l)
      + rsum Nk (fun l => rsum n (fun q => m_at VG1 q (Nkm3 + i) * v_at w q * m_at VI q l) * act Pi1 u l).
Proof.
  intros w1 v1 v2 g0 g1 gc H3 H1 p0 p1 q0 q1. unfold df_enhanced.
  destruct (weighted_ok VG0 w VI) as (A0 & E0 & a1 & a2 & a3); try congruence. rewrite E0. cbn [bind].
  destruct (mmul_ex A0 Pi0) as (A1 & E1 & b1 & b2 & b3); try congruence. rewrite E1. cbn [bind].
  destruct (madd_ex (mzero (m_cols VG0) N) A1) as (A2 & E2 & c1 & c2 & c3); mfields; try congruence. rewrite E2. cbn [bind].
  destruct (weighted_ok VG1 w VI) as (A3 & E3 & d1 & d2 & d3); try congruence. rewrite E3. cbn [bind].
  destruct (mmul_ex A3 Pi1) as (A4 & E4 & e1 & e2 & e3); try congruence. rewrite E4. cbn [bind]. cbn [m_rows m_cols mzero] in *.
  destruct (madd_ex A2 A4) as (A5 & E5 & f1 & f2 & f3); try congruence. rewrite E5. cbn [bind].
  rewrite ltb_false by lia. unfold middleRows. rewrite block_ok by lia. eexists. split; [reflexivity|]. mfields. split; [auto|]. split; [congruence|].
  intros u i. change (act _ u i) with (act A5 u (Nkm3 + i)). rewrite f3, c3, act_zero, b3, e3, a2, d2, v2, Rplus_0_l. f_equal; apply rsum_ext; intros l Hl; [rewrite a3|rewrite d3]; rewrite w1; reflexivity.
Qed.

Lemma enhance_C_ok N Nk Nkm1 Nkm2 Nkm3 P C E : (Nkm2 <= Nk)%nat -> (Nkm3 <= Nkm1)%nat -> (Nk <= m_rows P)%nat -> (Nkm1 <= m_cols P)%nat -> m_rows C = Nk -> m_cols C = N -> m_rows E = (Nkm1 - Nkm3)%nat -> m_cols E = N ->
  exists C', df_enhance_C Nk Nkm1 Nkm2 Nkm3 P C E = Ok C' /\ m_rows C' = Nk /\ m_cols C' = N /\
    (forall u i, (i < Nkm2)%nat -> act C' u i = act C u i) /\
    (forall u i, (Nkm2 <= i < Nk)%nat -> act C' u i = act C u i + rsum (Nkm1 - Nkm3) (fun c => m_at P i (Nkm3 + c) * act E u c)).
Proof.
  intros H1 H2 p1 p2 c1 c2 e1 e2. unfold df_enhance_C. rewrite !ltb_false by lia. cbn [orb]. rewrite block_ok by lia. cbn [bind].
  match goal with |- context [mmul ?X ?Y] => destruct (mmul_ex X Y) as (A & EA & a1 & a2 & a3); mfields; try congruence end. rewrite EA. cbn [bind]. cbn [m_rows m_cols] in *.
  destruct (add_rows_ok C (Nk - Nkm2) A) as (C' & EC & k1 & k2 & k3 & k4); try congruence; try lia. exists C'. split; [exact EC|]. split; [congruence|]. split; [congruence|]. rewrite c1 in *. split.
  - intros u i Hi. apply k3. lia.
  - intros u i Hi. rewrite k4 by lia. rewrite a3. f_equal. apply rsum_ext. intros c Hc. mfields. do 2 f_equal. lia.
Qed.

Lemma Ematrix_ok diam ns N Nkm1 Nkm2 d1 D VB wN C : (Nkm1 <= m_rows D)%nat -> (Nkm2 <= m_cols D)%nat -> m_rows VB = ns -> (Nkm1 <= m_cols VB)%nat -> v_size wN = ns -> m_rows C = Nkm2 -> m_cols C = N -> (d1 * ns + ns <= N)%nat ->
  exists E, df_Ematrix diam ns Nkm1 Nkm2 d1 D VB wN C = Ok E /\ m_rows E = Nkm1 /\ m_cols E = N /\
    forall u i, (i < Nkm1)%nat -> act E u i = - (1 / diam) * rsum Nkm2 (fun c => m_at D i c * act C u c) + rsum ns (fun q => m_at VB q i * v_at wN q * u (d1 * ns + q)%nat).
Proof.
  intros a b c d e f g HN. unfold df_Ematrix, topLeftCorner, leftCols. rewrite block_ok by lia. cbn [bind].
  match goal with |- context [mmul ?X ?Y] => destruct (mmul_ex X Y) as (A & EA & a1 & a2 & a3); mfields; try congruence end. rewrite EA. cbn [bind]. cbn [m_rows m_cols mscal] in *.
  rewrite block_ok by lia. cbn [bind]. unfold mdiag. mchk.
  match goal with |- context [add_middleCols ?X ?Y ?Z ?T] => destruct (add_cols_ok X Y Z T) as (B & EB & b1 & b2 & b3); mfields; try congruence end. exists B. split; [exact EB|]. split; [congruence|]. split; [congruence|].
  intros u i Hi. rewrite b3, a3 by congruence. f_equal.
  rewrite <- rsum_scal. apply rsum_ext. intros l _. mfields. cbn [Nat.add]. ring.
Qed.

Lemma Dmatrix_ok v ns nb nbig ndiv N Nk w VB VI VGd VIDd d n : nb = (2 * ns)%nat -> (d < 2)%nat -> N = (nb + (ndiv + nbig))%nat -> v_size w = n -> m_rows VB = ns -> m_cols VB = Nk -> m_rows VI = n -> m_cols VI = Nk ->
  m_rows VGd = n -> m_cols VGd = nbig -> m_rows VIDd = n -> m_cols VIDd = Nk -> match v with Full => (1 + ndiv <= Nk)%nat | Reduced => ndiv = 0%nat end ->
  exists D, df_Dmatrix v ns nb nbig ndiv N Nk w VB VI VGd VIDd d = Ok D /\ m_rows D = N /\ m_cols D = Nk /\
    (forall e q j, (e < 2)%nat -> (q < ns)%nat -> (j < Nk)%nat -> m_at D (e * ns + q) j = if (e =? d)%nat then m_at VB q j else 0) /\
    (forall c j, (c < nbig)%nat -> (j < Nk)%nat -> m_at D (nb + c) j = rsum n (fun q => m_at VGd q c * v_at w q * m_at VI q j)) /\
    (forall c j, (c < ndiv)%nat -> (j < Nk)%nat -> m_at D (nb + nbig + c) j = rsum n (fun q => m_at VI q (1 + c) * v_at w q * m_at VIDd q j)).
Proof.
  intros Hnb Hd HN Hw b1 b2 i1 i2 g1 g2 d1 d2 Hv. unfold df_Dmatrix.
  destruct (set_block_ok (mzero N Nk) (d * ns) 0 ns Nk VB) as (D0 & E0 & x1 & x2 & x3 & x4); mfields; try lia; auto.
  { destruct d as [|[|]]; nia. } rewrite E0. cbn [bind]. cbn [m_rows m_cols mzero] in *.
  destruct (weighted_ok VGd w VI) as (A & EA & a1 & a2 & a3); try congruence. rewrite EA. cbn [bind].
  destruct (set_block_ok D0 nb 0 nbig (m_cols D0) A) as (D & E & y1 & y2 & y3 & y4); mfields; try lia; try congruence. rewrite E. cbn [bind].
  assert (F : forall e q j, (e < 2)%nat -> (q < ns)%nat -> (j < Nk)%nat -> m_at D (e * ns + q) j = if (e =? d)%nat then m_at VB q j else 0).
  { intros e q j He Hq Hj. rewrite y4 by (intros [? ?]; destruct e as [|[|]]; nia). destruct (Nat.eqb_spec e d) as [->|Ne].
    - rewrite x3 by lia. f_equal; lia.
    - rewrite x4; [reflexivity|]. intros [? ?]. destruct d as [|[|]], e as [|[|]]; lia. }
  assert (G : forall c j, (c < nbig)%nat -> (j < Nk)%nat -> m_at D (nb + c) j = rsum n (fun q => m_at VGd q c * v_at w q * m_at VI q j)).
  { intros c j Hc Hj. rewrite y3, a3, Hw by lia. replace (nb + c - nb)%nat with c by lia. rewrite Nat.sub_0_r. reflexivity. }
  destruct v.
  - unfold middleCols. rewrite block_ok by lia. cbn [bind].
    match goal with |- context [weighted ?X ?Y ?Z] => destruct (weighted_ok X Y Z) as (A' & EA' & a1' & a2' & a3'); mfields; try congruence end. rewrite EA'. cbn [bind]. cbn [m_rows m_cols m_at] in a1', a2', a3'.
    unfold set_bottomRows. rewrite leb_true by lia.
    match goal with |- context [mat_set_block ?M ?r ?c ?nr ?nc ?B] => destruct (set_block_ok M r c nr nc B) as (D' & E' & z1 & z2 & z3 & z4); mfields; try lia; try congruence end.
    exists D'. split; [exact E'|]. split; [congruence|]. split; [congruence|]. split; [|split].
    + intros e q j He Hq Hj. rewrite z4; auto. intros [? ?]. destruct e as [|[|]]; nia.
    + intros c j Hc Hj. rewrite z4; auto. intros [? ?]. lia.
    + intros c j Hc Hj. rewrite z3, a3', Hw by lia. replace (nb + nbig + c - (m_rows D - ndiv))%nat with c by lia. rewrite Nat.sub_0_r. reflexivity.
  - exists D. split; [reflexivity|]. split; [congruence|]. split; [congruence|]. split; [auto|]. split; auto. intros; lia.
Qed.

Lemma Divergence_ok v llt measure ns nb nbig ndiv N Nkm1 wN0 wN1 H : nb = (2 * ns)%nat -> N = (nb + (ndiv + nbig))%nat -> v_size wN0 = ns -> v_size wN1 = ns -> (Nkm1 <= m_rows H)%nat -> (Nkm1 <= m_cols H)%nat ->
  match v with Full => Nkm1 = (1 + ndiv)%nat | Reduced => ndiv = 0%nat end ->
  exists W V, df_Divergence v llt measure ns nb nbig ndiv N Nkm1 wN0 wN1 H = Ok (W, V) /\ m_rows W = (1 + ndiv)%nat /\ m_cols W = N /\ m_rows V = (1 + ndiv)%nat /\ m_cols V = N /\
    (forall u, act W u 0 = rsum ns (fun q => v_at wN0 q * u q) + rsum ns (fun q => v_at wN1 q * u (ns + q)%nat)) /\
    (forall u c, (c < ndiv)%nat -> act W u (1 + c) = u (nb + nbig + c)%nat) /\
    match v with
    | Full => exact_for positive_definite llt -> positive_definite (corner H Nkm1) -> forall u i, (i < Nkm1)%nat -> rsum Nkm1 (fun l => m_at H i l * act V u l) = act W u i
    | Reduced => forall u i, act V u i = 1 / measure * act W u i
    end.
Proof.
  intros Hnb HN w0 w1 h1 h2 Hv. unfold df_Divergence.
  assert (X : forall W0, m_cols W0 = N -> (1 <= m_rows W0)%nat -> (forall j, (j < 2 * ns)%nat -> m_at W0 0 j = 0) -> exists W1 W2, mat_set_block W0 0 0 1 ns (as_row wN0) = Ok W1 /\ mat_set_block W1 0 ns 1 ns (as_row wN1) = Ok W2 /\ m_rows W2 = m_rows W0 /\ m_cols W2 = N /\
    (forall u, act W2 u 0 = act W0 u 0 + rsum ns (fun q => v_at wN0 q * u q) + rsum ns (fun q => v_at wN1 q * u (ns + q)%nat)) /\ (forall u i, (1 <= i)%nat -> act W2 u i = act W0 u i)).
  { intros W0 c r Z. destruct (set_block_ok W0 0 0 1 ns (as_row wN0)) as (W1 & E1 & a1 & a2 & a3 & a4); cbn [m_rows m_cols as_row]; try lia; auto.
    destruct (set_block_ok W1 0 ns 1 ns (as_row wN1)) as (W2 & E2 & b1 & b2 & b3 & b4); cbn [m_rows m_cols as_row]; try lia; auto.
    exists W1, W2. do 2 (split; [assumption|]). split; [congruence|]. split; [congruence|]. split.
    - intros u. unfold act. rewrite b2, a2, c.
      rewrite (rsum_ext N _ (fun j => if ((ns <=? j) && (j <? ns + ns))%nat then v_at wN1 (j - ns) * u (ns + (j - ns))%nat else (if ((0 <=? j) && (j <? 0 + ns))%nat then v_at wN0 (j - 0) * u (j - 0)%nat else m_at W0 0 j * u j))).
      + rewrite (rsum_segment N ns ns _ (fun j => v_at wN1 j * u (ns + j)%nat)). 2:{ lia. } 2:{ intros j Hj. rewrite (ltb_false j) by lia. rewrite andb_false_r. rewrite Z by lia. ring. }
        rewrite (rsum_segment N 0 ns _ (fun j => v_at wN0 j * u j)). 2:{ lia. } 2:{ intros j Hj. rewrite Z by lia. ring. } reflexivity.
      + intros j Hj. destruct (Nat.leb_spec ns j), (Nat.ltb_spec j (ns + ns)); cbn [andb].
        * rewrite b3 by lia. cbn [as_row m_at]. do 2 f_equal. lia.
        * rewrite b4 by lia. cbn [Nat.leb andb Nat.add]. rewrite (ltb_false j) by lia. now rewrite a4 by lia.
        * rewrite b4 by lia. cbn [Nat.leb andb Nat.add]. rewrite (ltb_true j) by lia. rewrite a3 by lia. cbn [as_row m_at]. now rewrite Nat.sub_0_r.
        * lia.
    - intros u i Hi. unfold act. rewrite b2, a2. apply rsum_ext. intros j _. rewrite b4, a4 by lia. reflexivity. }
  destruct v.
  - destruct (set_block_ok (mzero Nkm1 N) 1 (nb + nbig) ndiv ndiv (midentity ndiv)) as (W0 & E0 & a1 & a2 & a3 & a4); mfields; try lia; auto. rewrite E0. cbn [bind]. cbn [m_rows m_cols m_at mzero midentity] in *.
    destruct (X W0) as (W1 & W2 & E1 & E2 & r & c & z0 & zi); try lia. { intros j Hj. rewrite a4 by lia. reflexivity. }
    rewrite E1. cbn [bind]. rewrite E2. cbn [bind]. unfold topLeftCorner. rewrite block_ok by lia. cbn [bind].
    match goal with |- context [msolve llt ?A W2] => destruct (msolve_ok positive_definite llt A W2) as (V & EV & v1 & v2 & v3); mfields; try congruence end. rewrite EV. cbn [bind]. cbn [m_rows m_cols m_at] in v1, v3.
    exists W2, V. split; [reflexivity|]. do 4 (split; [congruence|]). split; [|split].
    + intros u. rewrite z0. replace (act W0 u 0) with 0; [ring|]. symmetry. apply rsum_0. intros j Hj. rewrite a4 by lia. ring.
    + intros u i Hi. rewrite zi by lia. unfold act. rewrite a2, (rsum_single N _ (nb + nbig + i)%nat); [|lia|].
      * rewrite a3 by lia. replace (1 + i - 1)%nat with i by lia. replace (nb + nbig + i - (nb + nbig))%nat with i by lia. rewrite Nat.eqb_refl. ring.
      * intros j Hj Ne. destruct (Nat.leb_spec (nb + nbig) j), (Nat.ltb_spec j (nb + nbig + ndiv)).
        -- rewrite a3 by lia. replace (1 + i - 1)%nat with i by lia. destruct (Nat.eqb_spec i (j - (nb + nbig))); [lia|ring].
        -- rewrite a4 by lia. ring.
        -- rewrite a4 by lia. ring.
        -- lia.
    + intros Ex PD u i Hi. apply v3; auto.
  - destruct (X (mzero 1 N)) as (W1 & W2 & E1 & E2 & r & c & z0 & zi); mfields; try lia; auto. rewrite E1. cbn [bind]. rewrite E2. cbn [bind]. cbn [m_rows m_cols mzero] in r.
    exists W2, (mscal (1 / measure) W2). mfields. split; [reflexivity|]. do 4 (split; [first [congruence | lia]|]). split; [|split].
    + intros u. rewrite z0, act_zero. ring.
    + intros; lia.
    + intros u i. apply act_scal.
Qed.

(** the boundary dof that is the i-th node of edge e *)
Definition first_end (nv : nat) (dirs : list bool) (e : nat) : nat := if nth e dirs true then e else following nv e.
Definition last_end (nv : nat) (dirs : list bool) (e : nat) : nat := if nth e dirs true then following nv e else e.
Definition edge_node (nv k : nat) (dirs : list bool) (e i : nat) : nat :=
  match i with 0%nat => first_end nv dirs e | 1%nat => last_end nv dirs e | S (S m) => (nv + e * (k - 1) + m)%nat end.

Lemma succ_mod nv e : (e < nv)%nat -> ((e + 1) mod nv = following nv e)%nat.
Proof.
  intros H. unfold following. destruct (Nat.eqb_spec e (nv - 1)) as [->|].
  - replace (nv - 1 + 1)%nat with nv by lia. apply Nat.mod_same. lia.
  - rewrite Nat.mod_small by lia. lia.
Qed.
Lemma following_lt nv e : (e < nv)%nat -> (following nv e < nv)%nat.
Proof. intros H. unfold following. destruct (Nat.eqb_spec e (nv - 1)); lia. Qed.
Lemma ends_differ nv dirs e : (2 <= nv)%nat -> (e < nv)%nat -> first_end nv dirs e <> last_end nv dirs e.
Proof. intros H He. unfold first_end, last_end, following. destruct (nth e dirs true), (Nat.eqb_spec e (nv - 1)); lia. Qed.
Lemma ends_lt nv dirs e : (e < nv)%nat -> (first_end nv dirs e < nv)%nat /\ (last_end nv dirs e < nv)%nat.
Proof. intros He. unfold first_end, last_end. pose proof (following_lt nv e He). destruct (nth e dirs true); lia. Qed.

Definition projection_entry (nv k : nat) (dirs : list bool) (EF : Mat) (e q j : nat) : R :=
  if (j =? first_end nv dirs e)%nat then m_at EF q 0 else if (j =? last_end nv dirs e)%nat then m_at EF q 1
  else if ((nv + e * (k - 1) <=? j) && (j <? nv + e * (k - 1) + (k - 1)))%nat then m_at EF q (2 + (j - (nv + e * (k - 1)))) else 0.

Lemma edge_projections_ok k nv dirs EF : (2 <= k)%nat -> (2 <= nv)%nat -> length dirs = nv -> m_rows EF = k -> m_cols EF = (k + 1)%nat ->
  exists K, df_edge_projections k ((k - 1) * nv) nv dirs k EF = Ok K /\ m_rows K = (nv + k * nv)%nat /\ m_cols K = (nv + (k - 1) * nv)%nat /\
    (forall u j, (j < nv)%nat -> act K u j = u j) /\
    (forall u e q, (e < nv)%nat -> (q < k)%nat -> act K u (nv + k * e + q) = rsum (k + 1) (fun i => m_at EF q i * u (edge_node nv k dirs e i))).
Proof.
  intros Hk Hnv Hd r c. unfold df_edge_projections.
  destruct (set_block_ok (mzero (nv + k * nv) (nv + (k - 1) * nv)) 0 0 nv nv (midentity nv)) as (K0 & E0 & a1 & a2 & a3 & a4); mfields; try nia; auto. rewrite E0. cbn [bind].
  cbn [m_rows m_cols m_at mzero midentity] in *.
  match goal with |- context [for_loop nv ?f ?st] => edestruct (for_loop_total (fun e (s : Mat * nat) => snd s = (nv + k * e)%nat /\ m_rows (fst s) = (nv + k * nv)%nat /\ m_cols (fst s) = (nv + (k - 1) * nv)%nat /\
    (forall i j, (i < nv)%nat -> m_at (fst s) i j = m_at K0 i j) /\
    (forall e' q j, (e' < e)%nat -> (q < k)%nat -> m_at (fst s) (nv + k * e' + q) j = projection_entry nv k dirs EF e' q j) /\
    (forall i j, (nv + k * e <= i)%nat -> m_at (fst s) i j = 0)) f) as ([K off] & E & H1 & H2 & H3 & H4 & H5 & H6) end; [| |rewrite E].
  { cbn [fst snd]. split; [lia|]. split; [auto|]. split; [auto|]. split; [auto|]. split; [intros; lia|]. intros i j Hi. rewrite a4 by lia. reflexivity. }
  { intros e [K off] He (H1 & H2 & H3 & H4 & H5 & H6). cbn [fst snd] in *. rewrite (idx_some dirs e (nth e dirs true)) by (apply nth_error_nth'; lia). cbn [bind]. rewrite succ_mod by auto.
    change (if nth e dirs true then e else following nv e) with (first_end nv dirs e). change (if nth e dirs true then following nv e else e) with (last_end nv dirs e).
    pose proof (ends_differ nv dirs e Hnv He) as Nd. destruct (ends_lt nv dirs e He) as (L0 & L1).
    pose proof (Nat.le_0_l (e * (k - 1))) as Z1. pose proof (Nat.le_0_l ((k - 1) * nv)) as Z2. assert (B1 : (k * e + k <= k * nv)%nat) by nia. assert (B2 : (e * (k - 1) + (k - 1) <= (k - 1) * nv)%nat) by nia.
    rewrite block_ok by lia. cbn [bind].
    match goal with |- context [mat_set_block ?M ?r ?c ?nr ?nc ?B] => destruct (set_block_ok M r c nr nc B) as (K1 & E1 & b1 & b2 & b3 & b4); mfields; try nia end. rewrite E1. cbn [bind].
    rewrite block_ok by lia. cbn [bind].
    match goal with |- context [mat_set_block ?M ?r ?c ?nr ?nc ?B] => destruct (set_block_ok M r c nr nc B) as (K2 & E2 & c1 & c2 & c3 & c4); mfields; try nia end. rewrite E2. cbn [bind].
    unfold rightCols. rewrite leb_true by lia. rewrite block_ok by lia. cbn [bind].
    match goal with |- context [mat_set_block ?M ?r ?c ?nr ?nc ?B] => destruct (set_block_ok M r c nr nc B) as (K3 & E3 & d1 & d2 & d3 & d4); mfields; try nia end. rewrite E3. cbn [bind].
    eexists. split; [reflexivity|]. cbn [fst snd m_at] in *. split; [lia|]. split; [lia|]. split; [lia|]. split; [|split].
    - intros i j Hi. rewrite d4, c4, b4 by lia. auto.
    - intros e' q j He' Hq. destruct (Nat.eq_dec e' e) as [->|Ne].
      + unfold projection_entry. destruct (Nat.leb_spec (nv + e * (k - 1)) j), (Nat.ltb_spec j (nv + e * (k - 1) + (k - 1))); cbn [andb].
        * rewrite d3 by lia. destruct (Nat.eqb_spec j (first_end nv dirs e)); [lia|]. destruct (Nat.eqb_spec j (last_end nv dirs e)); [lia|]. f_equal; lia.
        * rewrite d4 by lia. destruct (Nat.eqb_spec j (first_end nv dirs e)); [lia|]. destruct (Nat.eqb_spec j (last_end nv dirs e)); [lia|]. rewrite c4, b4 by lia. apply H6. lia.
        * rewrite d4 by lia. destruct (Nat.eqb_spec j (first_end nv dirs e)) as [->|]; [rewrite c4 by lia; rewrite b3 by lia; f_equal; lia|].
          destruct (Nat.eqb_spec j (last_end nv dirs e)) as [->|]; [rewrite c3 by lia; f_equal; lia|]. rewrite c4, b4 by lia. apply H6. lia.
        * lia.
      + assert (k * e' + k <= k * e)%nat by nia. rewrite d4, c4, b4 by lia. apply H5; lia.
    - intros i j Hi. rewrite d4, c4, b4 by nia. apply H6. nia. }
  cbn [fst snd] in *. cbn [bind]. exists K. split; [reflexivity|]. split; [auto|]. split; [auto|]. split.
  - intros u j Hj. pose proof (Nat.le_0_l ((k - 1) * nv)) as Z2. unfold act. rewrite H3, (rsum_single _ _ j); [|lia|].
    + rewrite H4, a3 by lia. rewrite !Nat.sub_0_r, Nat.eqb_refl. ring.
    + intros i Hi Ne. rewrite H4 by lia. destruct (Nat.ltb_spec i nv).
      * rewrite a3 by lia. rewrite !Nat.sub_0_r. destruct (Nat.eqb_spec j i); [lia|ring].
      * rewrite a4 by lia. ring.
  - intros u e q He Hq. pose proof (Nat.le_0_l (e * (k - 1))) as Z1. pose proof (Nat.le_0_l ((k - 1) * nv)) as Z2. pose proof (ends_differ nv dirs e Hnv He) as Nd. destruct (ends_lt nv dirs e He) as (L0 & L1).
    assert (B2 : (e * (k - 1) + (k - 1) <= (k - 1) * nv)%nat) by nia.
    unfold act. rewrite H3. replace (k + 1)%nat with (S (S (k - 1))) by lia. rewrite !rsum_S_l. cbn [edge_node].
    rewrite (rsum_ext _ _ (fun j => if ((nv + e * (k - 1) <=? j) && (j <? nv + e * (k - 1) + (k - 1)))%nat then m_at EF q (2 + (j - (nv + e * (k - 1)))) * u (nv + e * (k - 1) + (j - (nv + e * (k - 1))))%nat
      else ((if (j =? first_end nv dirs e)%nat then m_at EF q 0 * u j else 0) + (if (j =? last_end nv dirs e)%nat then m_at EF q 1 * u j else 0)))).
    + rewrite (rsum_segment _ (nv + e * (k - 1)) (k - 1) _ (fun m => m_at EF q (2 + m) * u (nv + e * (k - 1) + m)%nat)). 2:{ lia. }
      2:{ intros j Hj. destruct (Nat.eqb_spec j (first_end nv dirs e)), (Nat.eqb_spec j (last_end nv dirs e)); try lia. ring. }
      rewrite rsum_plus. rewrite !(rsum_indicator _ _) by lia. cbn [Nat.add]. ring.
    + intros j Hj. rewrite H5 by auto. unfold projection_entry. destruct (Nat.leb_spec (nv + e * (k - 1)) j), (Nat.ltb_spec j (nv + e * (k - 1) + (k - 1))); cbn [andb];
      destruct (Nat.eqb_spec j (first_end nv dirs e)), (Nat.eqb_spec j (last_end nv dirs e)); try lia; try ring.
      do 2 f_equal; lia.
Qed.
