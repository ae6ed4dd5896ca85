From Coq Require Import List Arith Bool Lia ZArith Reals Lra.
From Verif Require Import Base RSum MatrixModel MonomialsModel MonomialsSpec MonomialsProofs MonomialsProofs2 MonomialsProofs3 MonomialsProofs4 GBasisModel GBasisSpec GBasisProofs GBasisProofs2.
Import ListNotations.
Local Open Scope R_scope.

Lemma set_middle_ok A s B : (s + m_cols B <= m_cols A)%nat -> m_rows A = m_rows B ->
  set_middle_cols A s B = Ok {| m_rows := m_rows A; m_cols := m_cols A;
    m_at := fun q c => if ((s <=? c) && (c <? s + m_cols B))%nat then m_at B q (c - s) else m_at A q c |}.
Proof. intros H1 H2. unfold set_middle_cols. now rewrite (proj2 (Nat.leb_le _ _) H1), (proj2 (Nat.eqb_eq _ _) H2). Qed.

Definition side_by_side (d n : nat) (B1 B2 B3 : nat -> nat -> R) (q c : nat) : R :=
  if (c <? d)%nat then B1 q c else if (c <? d + n)%nat then B2 q (c - d)%nat else B3 q (c - d - n)%nat.

Lemma sum_side d n B1 B2 B3 exps q c x : d = length (without_x exps n) ->
  rsum (d + 2 * n) (fun l => side_by_side d n B1 B2 B3 q l * plus_field exps n l c x) =
  curl_field 0 c x * rsum d (fun l => B1 q l * mono (expo exps (nth l (without_x exps n) 0%nat)) x)
  + curl_field 1 c x * rsum n (fun l => B2 q l * mono (expo exps l) x)
  + curl_field 2 c x * rsum n (fun l => B3 q l * mono (expo exps l) x).
Proof.
  intros Hd. replace (d + 2 * n)%nat with (d + (n + n))%nat by lia. rewrite rsum_add, rsum_add, <- !rsum_scal, Rplus_assoc.
  unfold side_by_side, plus_field. rewrite <- Hd. f_equal; [|f_equal]; apply rsum_ext; intros l Hl.
  - rewrite (proj2 (Nat.ltb_lt l d) Hl). ring.
  - rewrite (proj2 (Nat.ltb_ge (d + l) d)), (proj2 (Nat.ltb_lt (d + l) (d + n))) by lia. replace (d + l - d)%nat with l by lia. ring.
  - rewrite (proj2 (Nat.ltb_ge (d + (n + l)) d)), (proj2 (Nat.ltb_ge (d + (n + l)) (d + n))) by lia. replace (d + (n + l) - d - n)%nat with l by lia. ring.
Qed.

Lemma C35_all k : exists data res, GBasis_3D_Compute k = Ok data /\ VectorDecomposition_3D data = Ok res /\
  Compute Monomials_3D (k + 1) = Ok (gb_monomials data) /\
  (6 * gb_Nk data = (k + 1) * (k + 2) * (k + 3) /\ 6 * gb_Nkp1 data = (k + 2) * (k + 3) * (k + 4) /\ 6 * gb_Nkm1 data = k * (k + 1) * (k + 2))%nat /\
  gb_DimFirstBasis data = length (without_x (Exponents (gb_monomials data)) (gb_Nkm1 data)) /\
  gb_SaveFirstGroup data = without_x (Exponents (gb_monomials data)) (gb_Nkm1 data) /\
  length res = 3%nat /\
  forall i, (i < 3)%nat -> exists Gr P, nth_error res i = Some [Gr; P] /\
    m_rows Gr = gb_Nk data /\ m_cols Gr = gb_Nkp1 data /\ m_rows P = gb_Nk data /\ m_cols P = (gb_DimFirstBasis data + 2 * gb_Nkm1 data)%nat /\
    forall j c x, (j < gb_Nk data)%nat -> (c < 3)%nat ->
      is_partial (comb (Exponents (gb_monomials data)) (gb_Nkp1 data) Gr j) c x
        (delta i c * mono (expo (Exponents (gb_monomials data)) j) x
         - rsum (m_cols P) (fun l => m_at P j l * plus_field (Exponents (gb_monomials data)) (gb_Nkm1 data) l c x)).
Proof.
  unfold GBasis_3D_Compute. destruct (Compute_ok Monomials_3D idx3 good_3D (k + 1)) as (m & Em & _). rewrite Em. cbn [bind].
  destruct (fill_MapExponents_ok k m Em) as (T & ET & TT). rewrite ET. cbn [bind].
  destruct (first_group_ok k m Em) as ((mp, sv) & EF & FG). rewrite EF. cbn [bind].
  destruct (decomposition_3D_ok k m Em T TT mp sv FG) as (VD & EV & TV). rewrite EV. cbn [bind].
  set (Nk := ((k + 1) * (k + 2) * (k + 3) / 6)%nat). set (Nkp1 := ((k + 2) * (k + 3) * (k + 4) / 6)%nat).
  set (Nkm1 := (k * (k + 1) * (k + 2) / 6)%nat). set (Dim1 := (Nkm1 - (k - 1) * k * (k + 1) / 6)%nat).
  match goal with |- exists dd rr, Ok ?v = Ok dd /\ _ => exists v end.
  unfold VectorDecomposition_3D. cbn [gb_monomials gb_Nk gb_Nkp1 gb_Nkm1 gb_VectorDecomposition gb_DimFirstBasis gb_SaveFirstGroup].
  pose proof (without_x_length k m Em : length (without_x (Exponents m) Nkm1) = Dim1) as HW.
  match goal with |- exists res, Ok ?dd = _ /\ for_loop 3 ?f ?s0 = _ /\ _ =>
    destruct (@for_loop_total _ (fun n res => length res = n /\ forall i, (i < n)%nat -> exists Gr P, nth_error res i = Some [Gr; P] /\
      m_rows Gr = Nk /\ m_cols Gr = Nkp1 /\ (forall q c, m_at Gr q c = if (q <? Nk)%nat then val3 mp i 0 (enum Monomials_3D q) c else 0) /\
      m_rows P = Nk /\ m_cols P = (Dim1 + 2 * Nkm1)%nat /\
      forall q c, (q < Nk)%nat -> (c < Dim1 + 2 * Nkm1)%nat -> m_at P q c = side_by_side Dim1 Nkm1 (fun q => val3 mp i 1 (enum Monomials_3D q)) (fun q => val3 mp i 2 (enum Monomials_3D q))
          (fun q => val3 mp i 3 (enum Monomials_3D q)) q c) f 3%nat s0) as (res & ER & LR & HR) end.
  - split; [reflexivity|]. intros; lia.
  - intros i res Hi (LR & HR). destruct TV as (LV & HV). destruct (HV i Hi) as (row & R1 & R2 & R3).
    rewrite (proj2 (idx_Ok _ _ _) R1). cbn [bind].
    destruct (R3 0%nat ltac:(lia)) as (A0 & A1 & A2 & A3 & A4). destruct (R3 1%nat ltac:(lia)) as (B0 & B1 & B2 & B3 & B4).
    destruct (R3 2%nat ltac:(lia)) as (C0 & C1 & C2 & C3 & C4). destruct (R3 3%nat ltac:(lia)) as (D0 & D1 & D2 & D3 & D4).
    cbn [cols3] in *. fold Nk Nkm1 Nkp1 Dim1 in A2, A3, B2, B3, C2, C3, D2, D3.
    change (m_cols A0 = Nkp1) in A3. change (m_cols B0 = Dim1) in B3. change (m_cols C0 = Nkm1) in C3. change (m_cols D0 = Nkm1) in D3.
    rewrite (proj2 (idx_Ok _ _ _) A1). cbn [bind]. rewrite (proj2 (idx_Ok _ _ _) B1). cbn [bind]. rewrite (proj2 (idx_Ok _ _ _) C1). cbn [bind].
    rewrite (proj2 (idx_Ok _ _ _) D1). cbn [bind].
    rewrite set_middle_ok by (cbn [mzero m_rows m_cols]; lia). cbn [bind].
    rewrite set_middle_ok by (cbn [mzero m_rows m_cols]; lia). cbn [bind].
    rewrite set_middle_ok by (cbn [mzero m_rows m_cols]; lia). cbn [bind].
    eexists. split; [reflexivity|]. rewrite app_length. cbn [length]. split; [lia|]. intros i' Hi'. destruct (Nat.eq_dec i' i) as [->|Ni].
    + eexists _, _. rewrite nth_error_app2 by lia. rewrite LR, Nat.sub_diag. split; [reflexivity|]. cbn [m_rows m_cols m_at mzero].
      split; [exact A2|]. split; [exact A3|]. split; [exact A4|]. split; [reflexivity|]. split; [lia|].
      intros q c Hq Hc. rewrite B3, C3, D3. unfold side_by_side.
      rewrite B4, C4, D4. fold Nk. rewrite (proj2 (Nat.ltb_lt q Nk) Hq).
      destruct (Nat.ltb_spec c Dim1).
      * rewrite (proj2 (Nat.leb_gt (Dim1 + Nkm1) c)), (proj2 (Nat.leb_gt Dim1 c)) by lia. cbn [andb Nat.leb].
        rewrite (proj2 (Nat.ltb_lt c (0 + Dim1))) by lia. now rewrite Nat.sub_0_r.
      * destruct (Nat.ltb_spec c (Dim1 + Nkm1)).
        -- rewrite (proj2 (Nat.leb_gt (Dim1 + Nkm1) c)), (proj2 (Nat.leb_le Dim1 c)) by lia. cbn [andb]. reflexivity.
        -- rewrite (proj2 (Nat.leb_le (Dim1 + Nkm1) c)), (proj2 (Nat.ltb_lt c (Dim1 + Nkm1 + Nkm1))) by lia. cbn [andb]. f_equal. lia.
    + destruct (HR i' ltac:(lia)) as (Gr & P & HH). exists Gr, P. rewrite nth_error_app1 by lia. exact HH.
  - exists res. split; [reflexivity|]. split; [exact ER|]. split; [reflexivity|]. split.
    { pose proof (Nk3_num k : Nk = _) as N1. pose proof (Nkp13_num k : Nkp1 = _) as N2. rewrite N1, N2.
      pose proof (proj2 (proj2 (class_num 3 Monomials_3D k class3)) eq_refl). pose proof (proj2 (proj2 (class_num 3 Monomials_3D (k + 1) class3)) eq_refl) as N4.
      split; [lia|]. split; [rewrite N4; f_equal; [f_equal|]; lia|].
      destruct k as [|k']; [reflexivity|]. pose proof (Nkm13_num (S k') ltac:(lia) : Nkm1 = _) as N3. rewrite N3.
      rewrite (proj2 (proj2 (class_num 3 Monomials_3D (S k' - 1) class3)) eq_refl). f_equal; [f_equal|]; lia. }
    split; [symmetry; exact HW|]. split; [exact (proj1 (proj2 FG))|]. split; [exact LR|].
    intros i Hi. destruct (HR i Hi) as (Gr & P & H1 & H2 & H3 & H4 & H5 & H6 & H7). exists Gr, P. split; auto. split; auto. split; auto. split; auto. split; auto.
    intros j c x Hj Hc. rewrite H6.
    pose proof (decomposition_3D_exact k m Em mp sv FG i j c x Hi Hj Hc) as Q. fold Nkp1 in Q.
    rewrite (rsum_ext (Dim1 + 2 * Nkm1) _ (fun l => side_by_side Dim1 Nkm1 (fun q => val3 mp i 1 (enum Monomials_3D q)) (fun q => val3 mp i 2 (enum Monomials_3D q))
          (fun q => val3 mp i 3 (enum Monomials_3D q)) j l * plus_field (Exponents m) Nkm1 l c x)) by (intros l Hl; now rewrite H7).
    rewrite sum_side by (symmetry; exact HW).
    eapply partial_ext; [|exact Q]. intros y. unfold comb. apply rsum_ext. intros l _. rewrite H4, (proj2 (Nat.ltb_lt j Nk) Hj). reflexivity.
Qed.

Lemma expo_enum_3D k data i : GBasis_3D_Compute k = Ok data -> (i < gb_Nkp1 data)%nat -> expo (Exponents (gb_monomials data)) i = enum Monomials_3D i.
Proof.
  intros E Hi. destruct (C35_all k) as (d' & res & E' & _ & Em & (N1 & N2 & N3) & _). rewrite E in E'. injection E' as <-.
  unfold expo. apply nth_error_nth. apply (u_exp _ _ _ _ _ (the_data Monomials_3D idx3 good_3D _ _ Em)).
  pose proof (proj2 (proj2 (class_num 3 Monomials_3D (k + 1) class3)) eq_refl). nia.
Qed.

Lemma C35_vander_all k data V (xi : nat -> point) : GBasis_3D_Compute k = Ok data ->
  let exps := Exponents (gb_monomials data) in
  (gb_Nkm1 data <= m_cols V <= gb_Nkp1 data)%nat -> (k = 0%nat \/ (4 <= m_cols V)%nat) ->
  (forall q i, (q < m_rows V)%nat -> (i < m_cols V)%nat -> m_at V q i = mono (expo exps i) (xi q)) ->
  exists B, VanderGBigOPlus_3D data V = Ok B /\ length B = 3%nat /\
   forall c, (c < 3)%nat -> exists A, nth_error B c = Some A /\ m_rows A = m_rows V /\ m_cols A = (gb_DimFirstBasis data + 2 * gb_Nkm1 data)%nat /\
   forall q l, (q < m_rows V)%nat -> (l < m_cols A)%nat -> m_at A q l = plus_field exps (gb_Nkm1 data) l c (xi q).
Proof.
  intros E exps (Hn & Hn2) H4 HV.
  destruct (C35_all k) as (d' & res & E' & _ & Em & (N1 & N2 & N3) & HD & HS & _). rewrite E in E'. injection E' as <-.
  fold exps in HD, HS. set (n := gb_Nkm1 data) in *. set (d := gb_DimFirstBasis data) in *.
  unfold VanderGBigOPlus_3D. fold n d. destruct (Nat.ltb_spec (m_cols V) 4) as [L|L].
  - assert (K0 : k = 0%nat) by lia. subst k. assert (n = 0%nat) by lia. assert (d = 0%nat) by (rewrite HD, H; reflexivity).
    eexists. split; [reflexivity|]. split; [reflexivity|]. intros c Hc. exists (mzero (m_rows V) (d + 2 * n)).
    split; [destruct c as [|[|[|c]]]; [| | |lia]; reflexivity|]. split; [reflexivity|]. split; [reflexivity|]. intros q l _. cbn [m_cols mzero]. lia.
  - unfold left_cols. rewrite (proj2 (Nat.leb_le _ _) Hn). cbn [bind]. unfold mcol at 1 2 3.
    rewrite (proj2 (Nat.ltb_lt 3 _)), (proj2 (Nat.ltb_lt 2 _)), (proj2 (Nat.ltb_lt 1 _)) by lia. cbn [bind].
    set (LV := {| m_rows := m_rows V; m_cols := n; m_at := m_at V |}). set (Z0 := mzero (m_rows V) (d + 2 * n)).
    assert (X1 : forall q, (q < m_rows V)%nat -> m_at V q 1 = xi q 0%nat).
    { intros q Hq. rewrite HV by lia. unfold exps. rewrite (expo_enum_3D k data 1 E) by lia. change (enum Monomials_3D 1) with [1; 0; 0]%Z. rewrite mono_3.
      change (Z.to_nat 1) with 1%nat. change (Z.to_nat 0) with 0%nat. ring. }
    assert (X2 : forall q, (q < m_rows V)%nat -> m_at V q 2 = xi q 1%nat).
    { intros q Hq. rewrite HV by lia. unfold exps. rewrite (expo_enum_3D k data 2 E) by lia. change (enum Monomials_3D 2) with [0; 1; 0]%Z. rewrite mono_3.
      change (Z.to_nat 1) with 1%nat. change (Z.to_nat 0) with 0%nat. ring. }
    assert (X3 : forall q, (q < m_rows V)%nat -> m_at V q 3 = xi q 2%nat).
    { intros q Hq. rewrite HV by lia. unfold exps. rewrite (expo_enum_3D k data 3 E) by lia. change (enum Monomials_3D 3) with [0; 0; 1]%Z. rewrite mono_3.
      change (Z.to_nat 1) with 1%nat. change (Z.to_nat 0) with 0%nat. ring. }
    set (fz := fun q => m_at V q 3). set (fy := fun q => m_at V q 2). set (fx := fun q => m_at V q 1).
    rewrite HS. set (W := without_x exps n) in *.
    assert (FL : forall l W1 B1 B2, W = W1 ++ l -> m_rows B1 = m_rows V -> m_cols B1 = (d + 2 * n)%nat -> m_rows B2 = m_rows V -> m_cols B2 = (d + 2 * n)%nat ->
       (forall q c, (c < length W1)%nat -> m_at B1 q c = m_at V q (nth c W 0%nat) * fz q /\ m_at B2 q c = - (m_at V q (nth c W 0%nat) * fy q)) ->
       exists R1 R2, foldM (fun '(count, B1, B2) i => zi <- mcol (colwise LV fz) i ;; B1' <- mat_set_col B1 count zi ;;
          yi <- mcol (colwise LV fy) i ;; B2' <- mat_set_col B2 count (fun q => (- yi q)%R) ;; Ok (S count, B1', B2')) l (length W1, B1, B2) = Ok (length W, R1, R2) /\
         m_rows R1 = m_rows V /\ m_cols R1 = (d + 2 * n)%nat /\ m_rows R2 = m_rows V /\ m_cols R2 = (d + 2 * n)%nat /\
         (forall q c, (c < d)%nat -> m_at R1 q c = m_at V q (nth c W 0%nat) * fz q /\ m_at R2 q c = - (m_at V q (nth c W 0%nat) * fy q))).
    { induction l as [|i l IH]; intros W1 B1 B2 EW Q1 Q2 Q3 Q4 Q5.
      - rewrite app_nil_r in EW. exists B1, B2. cbn [foldM]. rewrite EW at 1. split; [reflexivity|]. split; [exact Q1|]. split; [exact Q2|]. split; [exact Q3|]. split; [exact Q4|].
        intros q c Hc. apply Q5. rewrite <- EW, <- HD. exact Hc.
      - cbn [foldM]. assert (Hi : (i < n)%nat).
        { assert (Hin : In i W) by (rewrite EW; apply in_elt). unfold W, without_x in Hin. apply filter_In in Hin. destruct Hin as (Hin & _). apply in_seq in Hin. lia. }
        assert (Hlen : (length W1 < d)%nat) by (rewrite HD, EW, app_length; cbn [length]; lia).
        unfold mcol, colwise at 1 3. cbn [m_cols LV]. change (m_cols (colwise LV fz)) with n. change (m_cols (colwise LV fy)) with n.
        rewrite (proj2 (Nat.ltb_lt i n) Hi). cbn [bind]. unfold mat_set_col. rewrite Q2, Q4. rewrite (proj2 (Nat.ltb_lt (length W1) (d + 2 * n))) by lia. cbn [bind].
        match goal with |- context [foldM _ l (S (length W1), ?C1, ?C2)] => specialize (IH (W1 ++ [i]) C1 C2) end.
        rewrite app_length in IH. cbn [length] in IH. rewrite Nat.add_1_r in IH. apply IH; cbn [m_rows m_cols m_at]; auto.
        + rewrite <- app_assoc. exact EW.
        + intros q c Hc. destruct (Nat.eqb_spec c (length W1)) as [->|Nc].
          * rewrite EW, app_nth2, Nat.sub_diag by lia. cbn [nth]. split; reflexivity.
          * apply Q5. lia. }
    destruct (FL W [] Z0 Z0 eq_refl eq_refl eq_refl eq_refl eq_refl ltac:(intros q c Hc; cbn in Hc; lia)) as (R1 & R2 & EF & Q1 & Q2 & Q3 & Q4 & Q5).
    cbn [length] in EF. unfold mcol in EF. unfold mcol. rewrite EF. cbn [bind].
    rewrite (set_middle_ok Z0) by (cbn [m_rows m_cols mneg colwise LV Z0 mzero]; lia). cbn [bind].
    rewrite (set_middle_ok R1) by (cbn [m_rows m_cols mneg colwise LV Z0 mzero]; lia). cbn [bind].
    rewrite (set_middle_ok R2) by (cbn [m_rows m_cols mneg colwise LV Z0 mzero]; lia). cbn [bind].
    rewrite set_middle_ok by (cbn [m_rows m_cols mneg colwise LV Z0 mzero]; lia). cbn [bind].
    rewrite set_middle_ok by (cbn [m_rows m_cols mneg colwise LV Z0 mzero]; lia). cbn [bind].
    rewrite set_middle_ok by (cbn [m_rows m_cols mneg colwise LV Z0 mzero]; lia). cbn [bind].
    eexists. split; [reflexivity|]. split; [reflexivity|].
    assert (EW : forall q l, (q < m_rows V)%nat -> (l < d)%nat -> m_at V q (nth l W 0%nat) = mono (expo exps (nth l W 0%nat)) (xi q)).
    { intros q l Hq Hl. apply HV; auto. assert (Hin : In (nth l W 0%nat) W) by (apply nth_In; rewrite <- HD; auto).
      pose proof (proj1 (proj1 (filter_In _ _ _) Hin)) as Hin2. apply in_seq in Hin2. lia. }
    Ltac cols LV l d n := unfold LV; cbn [m_rows m_cols m_at mneg colwise mzero];
        destruct (Nat.ltb_spec l d);
        [rewrite ?(proj2 (Nat.leb_gt (d + n) l)), ?(proj2 (Nat.leb_gt d l)) by lia; cbn [andb]
        |destruct (Nat.ltb_spec l (d + n));
          [rewrite ?(proj2 (Nat.leb_gt (d + n) l)), ?(proj2 (Nat.leb_le d l)), ?(proj2 (Nat.ltb_lt l (d + n))) by lia; cbn [andb]
          |rewrite ?(proj2 (Nat.leb_le (d + n) l)), ?(proj2 (Nat.ltb_lt l (d + n + n))) by lia; cbn [andb]]].
    intros c Hc. destruct c as [|[|[|c]]]; [| | |lia]; (eexists; split; [reflexivity|]; cbn [m_rows m_cols Z0 mzero];
      split; [auto|]; split; [auto|]; intros q l Hq Hl; unfold plus_field; fold W; rewrite <- HD; rewrite ?Q2, ?Q4 in Hl).
    + cols LV l d n; cbn [curl_field LV m_at Z0 mzero].
      * ring.
      * rewrite HV by lia. unfold fz. rewrite X3 by auto. ring.
      * rewrite HV by lia. unfold fy. rewrite X2 by auto. replace (l - (d + n))%nat with (l - d - n)%nat by lia. ring.
    + cols LV l d n; cbn [curl_field LV m_at Z0 mzero].
      * rewrite (proj1 (Q5 q l H)). rewrite EW by auto. unfold fz. rewrite X3 by auto. ring.
      * ring.
      * rewrite HV by lia. unfold fx. rewrite X1 by auto. replace (l - (d + n))%nat with (l - d - n)%nat by lia. ring.
    + cols LV l d n; cbn [curl_field LV m_at Z0 mzero].
      * rewrite (proj2 (Q5 q l H)). rewrite EW by auto. unfold fy. rewrite X2 by auto. ring.
      * rewrite HV by lia. unfold fx. rewrite X1 by auto. ring.
      * ring.
Qed.
