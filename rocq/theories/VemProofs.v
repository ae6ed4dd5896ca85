(** Execution of the two dimensional virtual element: entries of all the matrices. *)
From Coq Require Import List Arith Bool Lia ZArith Reals Lra.
From Verif Require Import Base RSum MatrixModel MonomialsModel MonomialsSpec LagrangeModel VemQuadModel VemQuadSpec VemQuadProofs VemModel.
Import ListNotations.
Local Open Scope R_scope.

(** evaluates size checks *)
Ltac truth := symmetry; rewrite ?andb_true_iff, ?Nat.eqb_eq, ?Nat.leb_le, ?Nat.ltb_lt; repeat split; cbn [m_rows m_cols m_at v_size v_at mtrans mzero vzero mscal midentity sub_diagonal]; lia.
Ltac chk := repeat (match goal with |- context [if ?c then _ else UB] => replace c with true by truth end; cbn [bind]).
Ltac unf := unfold weighted, set_leftCols, set_rightCols, set_topRows, set_bottomRows, set_topLeftCorner, set_topRightCorner, leftCols, topRows, bottomRows, topLeftCorner,
  mat_set_block, mat_block, msolve, set_row0, mat_set_row, mat_set, mmul, mmulv, madd, mdiag.

Lemma idx_some {A} (l : list A) i a : nth_error l i = Some a -> idx_ l i = Ok a.
Proof. apply idx_Ok. Qed.

Lemma ComputePiNabla_ok lu order nb ni N Nk lap measure diam wI wB wN VI VID VB VBD VID0 VID1 VBD0 VBD1 wN0 wN1 :
  nth_error VID 0 = Some VID0 -> nth_error VID 1 = Some VID1 -> nth_error VBD 0 = Some VBD0 -> nth_error VBD 1 = Some VBD1 ->
  nth_error wN 0 = Some wN0 -> nth_error wN 1 = Some wN1 ->
  m_rows VI = v_size wI -> m_cols VI = Nk -> m_rows VID0 = v_size wI -> m_cols VID0 = Nk -> m_rows VID1 = v_size wI -> m_cols VID1 = Nk ->
  m_rows VB = nb -> m_cols VB = Nk -> m_rows VBD0 = nb -> m_cols VBD0 = Nk -> m_rows VBD1 = nb -> m_cols VBD1 = Nk ->
  v_size wB = nb -> v_size wN0 = nb -> v_size wN1 = nb -> m_rows lap = Nk -> m_cols lap = Nk -> (ni <= Nk)%nat -> N = (nb + ni)%nat -> (1 <= Nk)%nat ->
  (order = 1%nat /\ ni = 0%nat \/ (order <> 1%nat /\ 1 <= ni)%nat) ->
  exists G B Pi, ComputePiNabla lu order nb ni N Nk lap measure diam wI wB wN VI VID VB VBD = Ok (G, B, Pi) /\
    m_rows G = Nk /\ m_cols G = Nk /\ m_rows B = Nk /\ m_cols B = N /\ m_rows Pi = Nk /\ m_cols Pi = N /\
    (forall i j, m_at Pi i j = lu G B i j) /\
    (forall j, m_at G 0 j = if (order =? 1)%nat then rsum nb (fun q => m_at VB q j * v_at wB q) else rsum (v_size wI) (fun q => m_at VI q j * v_at wI q)) /\
    (forall i j, (0 < i)%nat -> m_at G i j = rsum (v_size wI) (fun q => m_at VID0 q i * v_at wI q * m_at VID0 q j) + rsum (v_size wI) (fun q => m_at VID1 q i * v_at wI q * m_at VID1 q j)) /\
    (forall j, (j < nb)%nat -> m_at B 0 j = if (order =? 1)%nat then v_at wB j else m_at VBD0 j 0 * v_at wN0 j + m_at VBD1 j 0 * v_at wN1 j) /\
    (forall i j, (0 < i < Nk)%nat -> (j < nb)%nat -> m_at B i j = m_at VBD0 j i * v_at wN0 j + m_at VBD1 j i * v_at wN1 j) /\
    (forall i l, (i < Nk)%nat -> (l < ni)%nat -> m_at B i (nb + l) = if ((i =? 0) && (l =? 0))%nat then measure else - measure / (diam * diam) * m_at lap i l).
Proof.
  intros V0 V1 B0 B1 N0 N1 a1 a2 a3 a4 a5 a6 a7 a8 a9 a10 a11 a12 a13 a14 a15 a16 a17 Hni HN HNk HO.
  unfold ComputePiNabla. rewrite (idx_some _ _ _ V0), (idx_some _ _ _ V1), (idx_some _ _ _ B0), (idx_some _ _ _ B1), (idx_some _ _ _ N0), (idx_some _ _ _ N1). cbn [bind].
  unf. chk. cbn [m_rows m_cols m_at v_size v_at mtrans mzero].
  destruct HO as [(HO & Hn0)|(HO & Hn1)].
  - rewrite HO. change (1 =? 1)%nat with true. cbv iota. chk. cbn [m_rows m_cols m_at v_size v_at mtrans mzero]. cbn [bind]. chk.
    eexists _, _, _. split; [reflexivity|]. cbn [m_rows m_cols m_at v_size v_at mtrans mzero].
    do 6 (split; [auto|]). split; [reflexivity|]. split; [intros j; cbn [Nat.eqb]; now rewrite a7|]. split.
    { intros i j Hi. destruct (Nat.eqb_spec i 0); [lia|]. rewrite a3, a5. reflexivity. }
    split; [intros j Hj; reflexivity|]. split; [|intros; lia].
    intros i j Hi Hj. destruct (Nat.eqb_spec i 0); [lia|]. rewrite (ltb_true i), (ltb_true j) by lia. cbn [andb Nat.leb].
    replace (j - 0)%nat with j by lia. replace (i - 0)%nat with i by lia. reflexivity.
  - destruct (Nat.eqb_spec order 1); [lia|]. chk. cbn [m_rows m_cols m_at v_size v_at mtrans mzero]. cbn [bind]. chk.
    eexists _, _, _. split; [reflexivity|]. cbn [m_rows m_cols m_at v_size v_at mtrans mzero mscal].
    do 6 (split; [auto|]). split; [reflexivity|]. split; [intros j; cbn [Nat.eqb]; now rewrite a1|]. split.
    { intros i j Hi. destruct (Nat.eqb_spec i 0); [lia|]. rewrite a3, a5. reflexivity. }
    assert (K : forall i j, (i < Nk)%nat -> (j < nb)%nat -> (if (i =? 0)%nat && (j =? nb)%nat then measure else
       if (0 <=? i)%nat && (i <? 0 + Nk)%nat && (N - ni <=? j)%nat && (j <? N - ni + ni)%nat then - measure / (diam * diam) * m_at lap (0 + (i - 0)) (0 + (j - (N - ni)))
       else if (0 <=? i)%nat && (i <? 0 + Nk)%nat && (0 <=? j)%nat && (j <? 0 + nb)%nat then m_at VBD0 (j - 0) (i - 0) * v_at wN0 (j - 0) + m_at VBD1 (j - 0) (i - 0) * v_at wN1 (j - 0) else 0)
       = m_at VBD0 j i * v_at wN0 j + m_at VBD1 j i * v_at wN1 j).
    { intros i j Hi Hj. destruct (Nat.eqb_spec j nb); [lia|]. rewrite andb_false_r. rewrite (leb_false (N - ni) j) by lia. rewrite !andb_false_r. cbn [andb].
      rewrite (ltb_true i), (ltb_true j) by lia. cbn [andb Nat.leb]. replace (j - 0)%nat with j by lia. replace (i - 0)%nat with i by lia. reflexivity. }
    split; [intros j Hj; apply (K 0%nat j); lia|]. split; [intros i j Hi Hj; apply K; lia|].
    intros i l Hi Hl. destruct (Nat.eqb_spec i 0) as [Ei|Ei]; destruct (Nat.eqb_spec l 0) as [El|El]; cbn [andb].
    + subst. now rewrite Nat.add_0_r, Nat.eqb_refl.
    + destruct (Nat.eqb_spec (nb + l) nb); [lia|]. rewrite (ltb_true i), (leb_true (N - ni)), (ltb_true (nb + l)) by lia. cbn [andb Nat.leb].
      replace (0 + (i - 0))%nat with i by lia. replace (0 + (nb + l - (N - ni)))%nat with l by lia. reflexivity.
    + rewrite (ltb_true i), (leb_true (N - ni)), (ltb_true (nb + l)) by lia. cbn [andb Nat.leb].
      replace (0 + (i - 0))%nat with i by lia. replace (0 + (nb + l - (N - ni)))%nat with l by lia. reflexivity.
    + rewrite (ltb_true i), (leb_true (N - ni)), (ltb_true (nb + l)) by lia. cbn [andb Nat.leb].
      replace (0 + (i - 0))%nat with i by lia. replace (0 + (nb + l - (N - ni)))%nat with l by lia. reflexivity.
Qed.

Lemma ComputeL2Projectors_ok llt measure order Nkm1 Nk nb ni N H Pi :
  m_rows H = Nk -> m_cols H = Nk -> m_rows Pi = Nk -> m_cols Pi = N -> (ni <= Nk)%nat -> (Nkm1 <= Nk)%nat -> N = (nb + ni)%nat ->
  (order = 1%nat /\ ni = 0%nat \/ (1 < order)%nat) ->
  exists C P1 P Hm Cm, ComputeL2Projectors llt measure order Nkm1 Nk ni N H Pi = Ok (C, P1, P) /\
    (forall i j, m_at P1 i j = llt Hm Cm i j) /\ (forall i j, m_at P i j = llt H C i j) /\
    m_rows C = Nk /\ m_cols C = N /\ m_rows P1 = Nkm1 /\ m_cols P1 = N /\ m_rows P = Nk /\ m_cols P = N /\
    m_rows Hm = Nkm1 /\ m_cols Hm = Nkm1 /\ (forall i j, m_at Hm i j = m_at H i j) /\ m_rows Cm = Nkm1 /\ m_cols Cm = N /\ (forall i j, m_at Cm i j = m_at C i j) /\
    (forall i j, (i < ni)%nat -> (j < N)%nat -> m_at C i j = if (j =? nb + i)%nat then measure else 0) /\
    (forall i j, (ni <= i < Nk)%nat -> (j < N)%nat -> m_at C i j = rsum Nk (fun l => m_at H i l * m_at Pi l j)).
Proof.
  intros h1 h2 p1 p2 Hni Hkm HN HO. unfold ComputeL2Projectors. rewrite (ltb_false Nk ni) by lia. unf. chk. cbn [m_rows m_cols m_at v_size v_at mtrans mzero].
  destruct HO as [(HO & H0)|HO].
  - rewrite HO. change (1 <? 1)%nat with false. cbv iota. cbn [bind]. chk. cbn [m_rows m_cols m_at v_size v_at mtrans mzero].
    eexists _, _, _, _, _. split; [reflexivity|]. cbn [m_rows m_cols m_at]. do 2 (split; [reflexivity|]). cbn [m_rows m_cols m_at]. do 8 (split; [auto|]). split; [auto|]. do 2 (split; [auto|]). split; [auto|].
    split; [intros; lia|]. intros i j Hi Hj. rewrite (leb_true (Nk - (Nk - ni)) i), (ltb_true i), (ltb_true j) by lia. cbn [andb Nat.leb]. rewrite h2. apply rsum_ext. intros l Hl.
    f_equal; f_equal; lia.
  - rewrite (ltb_true 1 order) by auto. rewrite (ltb_false N ni) by lia. chk. cbn [m_rows m_cols m_at v_size v_at mtrans mzero mscal midentity]. cbn [bind]. chk. cbn [m_rows m_cols m_at v_size v_at mtrans mzero mscal midentity].
    eexists _, _, _, _, _. split; [reflexivity|]. cbn [m_rows m_cols m_at]. do 2 (split; [reflexivity|]). cbn [m_rows m_cols m_at]. do 8 (split; [auto|]). split; [auto|]. do 2 (split; [auto|]). split; [auto|]. split.
    + intros i j Hi Hj. rewrite (ltb_true i (0 + ni)) by lia. cbn [andb Nat.leb].
      destruct (Nat.leb_spec (N - ni) j) as [Hj'|Hj'].
      * rewrite (ltb_true j) by lia. cbn [andb]. replace (i - 0 =? j - (N - ni))%nat with (j =? nb + i)%nat; [destruct (j =? nb + i)%nat; ring|].
        destruct (Nat.eqb_spec j (nb + i)), (Nat.eqb_spec (i - 0) (j - (N - ni))); auto; lia.
      * cbn [andb]. rewrite (ltb_true j) by lia. destruct (Nat.eqb_spec j (nb + i)); [lia|]. reflexivity.
    + intros i j Hi Hj. rewrite (ltb_false i (0 + ni)) by lia. rewrite !andb_false_r. cbn [andb]. rewrite (leb_true (Nk - (Nk - ni)) i), (ltb_true i), (ltb_true j) by lia. cbn [andb Nat.leb]. rewrite h2. apply rsum_ext. intros l Hl.
      f_equal; f_equal; lia.
Qed.

Lemma derivative_projector_ok llt measure diam order Nkm1 Nk nb ni N H VB D wN :
  m_rows H = Nk -> m_cols H = Nk -> m_rows VB = nb -> m_cols VB = Nk -> m_rows D = Nk -> m_cols D = Nk -> v_size wN = nb ->
  (ni <= Nk)%nat -> (Nkm1 <= Nk)%nat -> N = (nb + ni)%nat -> (order = 1%nat /\ ni = 0%nat \/ (1 < order)%nat) ->
  exists E P Hm, derivative_projector llt measure diam order Nkm1 nb ni N H VB D wN = Ok (E, P) /\
    (forall i j, m_at P i j = llt Hm E i j) /\
    m_rows E = Nkm1 /\ m_cols E = N /\ m_rows P = Nkm1 /\ m_cols P = N /\ m_rows Hm = Nkm1 /\ m_cols Hm = Nkm1 /\ (forall i j, m_at Hm i j = m_at H i j) /\
    (forall i j, (i < Nkm1)%nat -> (j < nb)%nat -> m_at E i j = m_at VB j i * v_at wN j) /\
    (forall i l, (i < Nkm1)%nat -> (l < ni)%nat -> m_at E i (nb + l) = - (measure / diam) * m_at D i l).
Proof.
  intros h1 h2 v1 v2 d1 d2 w Hni Hkm HN HO. unfold derivative_projector. unf. chk. cbn [m_rows m_cols m_at v_size v_at mtrans mzero].
  destruct HO as [(HO & H0)|HO].
  - rewrite HO. change (1 <? 1)%nat with false. cbv iota. cbn [bind]. chk. cbn [m_rows m_cols m_at v_size v_at mtrans mzero].
    eexists _, _, _. split; [reflexivity|]. cbn [m_rows m_cols m_at]. split; [reflexivity|]. cbn [m_rows m_cols m_at]. do 6 (split; [auto|]). split; [auto|].
    split; [|intros; lia]. intros i j Hi Hj. rewrite (ltb_true i), (ltb_true j) by lia. cbn [andb Nat.leb]. repeat f_equal; lia.
  - rewrite (ltb_true 1 order) by auto. chk. cbn [m_rows m_cols m_at v_size v_at mtrans mzero mscal]. cbn [bind]. chk. cbn [m_rows m_cols m_at v_size v_at mtrans mzero mscal].
    eexists _, _, _. split; [reflexivity|]. cbn [m_rows m_cols m_at mscal]. split; [reflexivity|]. cbn [m_rows m_cols m_at mscal]. do 6 (split; [auto|]). split; [auto|]. split.
    + intros i j Hi Hj. rewrite (leb_false (N - ni) j) by lia. rewrite andb_false_r. cbn [andb]. rewrite (ltb_true i), (ltb_true j) by lia. cbn [andb Nat.leb]. repeat f_equal; lia.
    + intros i l Hi Hl. rewrite (leb_true (N - ni)), (ltb_true i), (ltb_true (nb + l)) by lia. cbn [andb Nat.leb]. repeat f_equal; lia.
Qed.

Lemma ComputePolynomialsDofs_ok measure order nb ni N Nk VB H :
  m_rows H = Nk -> m_cols H = Nk -> m_rows VB = nb -> m_cols VB = Nk -> (ni <= Nk)%nat -> N = (nb + ni)%nat -> (order = 1%nat /\ ni = 0%nat \/ (1 < order)%nat) ->
  exists D, ComputePolynomialsDofs measure order nb ni N Nk VB H = Ok D /\ m_rows D = N /\ m_cols D = Nk /\
    (forall i j, (i < nb)%nat -> (j < Nk)%nat -> m_at D i j = m_at VB i j) /\
    (forall l j, (l < ni)%nat -> (j < Nk)%nat -> m_at D (nb + l) j = / measure * m_at H l j).
Proof.
  intros h1 h2 v1 v2 Hni HN HO. unfold ComputePolynomialsDofs. unf. chk. cbn [m_rows m_cols m_at v_size v_at mtrans mzero].
  destruct HO as [(HO & H0)|HO].
  - rewrite HO. change (1 <? 1)%nat with false. cbv iota. eexists. split; [reflexivity|]. cbn [m_rows m_cols m_at]. do 2 (split; [auto|]). split; [|intros; lia].
    intros i j Hi Hj. rewrite (ltb_true i), (ltb_true j) by lia. cbn [andb Nat.leb]. repeat f_equal; lia.
  - rewrite (ltb_true 1 order) by auto. chk. cbn [m_rows m_cols m_at v_size v_at mtrans mzero mscal]. cbn [bind]. chk. cbn [m_rows m_cols m_at v_size v_at mtrans mzero mscal].
    eexists. split; [reflexivity|]. cbn [m_rows m_cols m_at mscal]. do 2 (split; [auto|]). split.
    + intros i j Hi Hj. rewrite (leb_false (N - ni) i) by lia. cbn [andb]. rewrite (ltb_true i), (ltb_true j) by lia. cbn [andb Nat.leb]. repeat f_equal; lia.
    + intros l j Hl Hj. rewrite (leb_true (N - ni)), (ltb_true j), (ltb_true (nb + l)) by lia. cbn [andb Nat.leb]. repeat f_equal; lia.
Qed.
