From Coq Require Import List Arith Bool Lia ZArith Reals Lra.
From Verif Require Import Base RSum MatrixModel MonomialsModel MonomialsSpec MonomialsProofs MonomialsProofs2 MonomialsProofs3 MonomialsProofs4 GBasisModel GBasisSpec.
Import ListNotations.
Local Open Scope R_scope.

(** ** blocks of matrices *)
Definition VDshape (D G Nk : nat) (cols : nat -> nat) (VD : list (list Mat)) (f : nat -> nat -> nat -> nat -> R) : Prop :=
  length VD = D /\ forall i, (i < D)%nat -> exists row, nth_error VD i = Some row /\ length row = G /\
    forall g, (g < G)%nat -> exists A, nth_error row g = Some A /\ m_rows A = Nk /\ m_cols A = cols g /\
      forall r c, m_at A r c = f i g r c.

Lemma VDshape_ext D G Nk cols VD f f' : VDshape D G Nk cols VD f ->
  (forall i g r c, (i < D)%nat -> (g < G)%nat -> f i g r c = f' i g r c) -> VDshape D G Nk cols VD f'.
Proof.
  intros (L & H) E. split; auto. intros i Hi. destruct (H i Hi) as (row & R1 & R2 & R3). exists row. split; auto. split; auto.
  intros g Hg. destruct (R3 g Hg) as (A & A1 & A2 & A3 & A4). exists A. repeat (split; auto). intros r c. rewrite A4. auto.
Qed.

Definition upd4 (f : nat -> nat -> nat -> nat -> R) (b : bool) (i g j c : nat) (v : R) : nat -> nat -> nat -> nat -> R :=
  fun i' g' r' c' => if b && (i' =? i)%nat && (g' =? g)%nat && (r' =? j)%nat && (c' =? c)%nat then v else f i' g' r' c'.

Lemma set_idx_Ok {A} (l : list A) i v : (i < length l)%nat -> set_idx l i v = Ok (replace l i v).
Proof. intros H. unfold set_idx. now rewrite (proj2 (Nat.ltb_lt _ _) H). Qed.

Lemma put_ok D G Nk cols VD f i g j col v : VDshape D G Nk cols VD f -> (i < D)%nat -> (g < G)%nat -> (j < Nk)%nat ->
  (0 <= col)%Z -> (Z.to_nat col < cols g)%nat ->
  exists VD', put VD i g j col v = Ok VD' /\ VDshape D G Nk cols VD' (upd4 f true i g j (Z.to_nat col) v).
Proof.
  intros (L & H) Hi Hg Hj Hc Hcol. destruct (H i Hi) as (row & R1 & R2 & R3). destruct (R3 g Hg) as (A & A1 & A2 & A3 & A4).
  unfold put. rewrite (proj2 (idx_Ok _ _ _) R1). cbn [bind]. rewrite (proj2 (idx_Ok _ _ _) A1). cbn [bind].
  rewrite (proj2 (Z.leb_le 0 col) Hc). unfold mat_set. rewrite A2, A3.
  rewrite (proj2 (Nat.ltb_lt _ _) Hj), (proj2 (Nat.ltb_lt _ _) Hcol). cbn [andb bind].
  rewrite set_idx_Ok by (rewrite R2; auto). cbn [bind]. rewrite set_idx_Ok by lia.
  eexists. split; [reflexivity|]. split; [now rewrite replace_length|].
  intros i' Hi'. destruct (Nat.eq_dec i i') as [<-|Ni].
  - eexists. rewrite nth_error_replace_eq by lia. split; [reflexivity|]. rewrite replace_length. split; auto.
    intros g' Hg'. destruct (Nat.eq_dec g g') as [<-|Ng].
    + eexists. rewrite nth_error_replace_eq by lia. split; [reflexivity|]. cbn [m_rows m_cols m_at]. repeat (split; auto).
      intros r c. unfold upd4. rewrite !Nat.eqb_refl. cbn [andb]. now rewrite A4.
    + destruct (R3 g' Hg') as (A' & B1 & B2 & B3 & B4). exists A'. rewrite nth_error_replace_neq by auto. repeat (split; auto).
      intros r c. unfold upd4. destruct (Nat.eqb_spec g' g); [congruence|]. rewrite andb_false_r. cbn [andb]. auto.
  - destruct (H i' Hi') as (row' & Q1 & Q2 & Q3). exists row'. rewrite nth_error_replace_neq by auto. repeat (split; auto).
    intros g' Hg'. destruct (Q3 g' Hg') as (A' & B1 & B2 & B3 & B4). exists A'. repeat (split; auto). intros r c. unfold upd4.
    destruct (Nat.eqb_spec i' i); [congruence|]. cbn [andb]. auto.
Qed.

Lemma upd4_false f i g j c v : forall i' g' r' c', upd4 f false i g j c v i' g' r' c' = f i' g' r' c'.
Proof. intros. reflexivity. Qed.

(** ** sums with one term *)
Lemma rsum_pick n b k v (F : nat -> R) : (b = true -> (k < n)%nat) ->
  rsum n (fun l => (if b && (l =? k)%nat then v else 0) * F l) = if b then v * F k else 0.
Proof.
  intros H. destruct b; cbn [andb].
  - rewrite (rsum_single _ _ k).
    + now rewrite Nat.eqb_refl.
    + auto.
    + intros i Hi Hn. destruct (Nat.eqb_spec i k); [congruence|]. ring.
  - apply rsum_0. intros. ring.
Qed.

(** ** partial derivatives of explicit monomials *)
Lemma mono_2 a b x : mono [a; b] x = x 0%nat ^ Z.to_nat a * x 1%nat ^ Z.to_nat b.
Proof. unfold mono. cbn [mono_from]. ring. Qed.
Lemma mono_3 a b c x : mono [a; b; c] x = x 0%nat ^ Z.to_nat a * x 1%nat ^ Z.to_nat b * x 2%nat ^ Z.to_nat c.
Proof. unfold mono. cbn [mono_from]. ring. Qed.

Lemma pow_lower (t : R) (a : Z) : (0 < a)%Z -> t ^ Z.to_nat a = t * t ^ Z.to_nat (a - 1).
Proof. intros H. replace (Z.to_nat a) with (S (Z.to_nat (a - 1))) by lia. reflexivity. Qed.
Lemma pow_upper (t : R) (a : Z) : (0 <= a)%Z -> t ^ Z.to_nat (a + 1) = t * t ^ Z.to_nat a.
Proof. intros H. replace (Z.to_nat (a + 1)) with (S (Z.to_nat a)) by lia. reflexivity. Qed.

(** ** two dimensions *)
Section TwoD.
Context (k : nat).
Let M := Monomials_2D.
Let G := good_2D.
Let Nk := ((k + 1) * (k + 2) / 2)%nat.
Let Nkp1 := ((k + 2) * (k + 3) / 2)%nat.
Let Nkm1 := (k * (k + 1) / 2)%nat.

Lemma class2 : class_of 2 M.
Proof. right; left; auto. Qed.

Lemma half_num j : ((j + 1) * (j + 2) / 2 = numM M j)%nat.
Proof.
  pose proof (proj1 (proj2 (class_num 2 M j class2)) eq_refl) as H. rewrite <- H. rewrite Nat.mul_comm. apply Nat.div_mul. lia.
Qed.
Lemma Nk_num : Nk = numM M k.
Proof. apply half_num. Qed.
Lemma Nkp1_num : Nkp1 = numM M (k + 1).
Proof. rewrite <- half_num. unfold Nkp1. f_equal. lia. Qed.
Lemma Nkm1_num : (0 < k)%nat -> Nkm1 = numM M (k - 1).
Proof. intros H. rewrite <- half_num. unfold Nkm1. f_equal. f_equal; lia. Qed.
Lemma Nkm1_0 : k = 0%nat -> Nkm1 = 0%nat.
Proof. intros H. unfold Nkm1. now rewrite H. Qed.

Lemma idx2_lt j a b : (0 <= a)%Z -> (0 <= b)%Z -> (a + b <= Z.of_nat j)%Z -> (Z.to_nat (idx2 [a; b]) < numM M j)%nat.
Proof.
  intros Ha Hb H. apply (idx_lt M idx2 G); [apply tuple_2; eauto|]. unfold degree. cbn [fold_right]. lia.
Qed.
Lemma enum2 a b : (0 <= a)%Z -> (0 <= b)%Z -> enum M (Z.to_nat (idx2 [a; b])) = [a; b].
Proof. intros Ha Hb. apply (enum_idx M idx2 G). apply tuple_2; eauto. Qed.
Lemma idx2_pos a b : (0 <= a)%Z -> (0 <= b)%Z -> (0 <= idx2 [a; b])%Z.
Proof. intros Ha Hb. apply (g_pos _ _ G). apply tuple_2; eauto. Qed.

Lemma numM_gt j : (j < numM M j)%nat.
Proof. pose proof (proj1 (proj2 (class_num 2 M j class2)) eq_refl). nia. Qed.

Definition tab2 (i : nat) (A : IMat) : Prop := im_rows A = Nkp1 /\ im_cols A = Nkp1 /\
  forall l a b, (l < i)%nat -> enum M l = [a; b] -> im_at A (Z.to_nat a) (Z.to_nat b) = Z.of_nat l.

Lemma enum2_bound i : (i < Nkp1)%nat -> exists a b, enum M i = [a; b] /\ (0 <= a)%Z /\ (0 <= b)%Z /\
  (a < Z.of_nat Nkp1)%Z /\ (b < Z.of_nat Nkp1)%Z.
Proof.
  intros Hi. destruct (proj1 (tuple_2 _) (proj1 (enum_ok M idx2 G i))) as (a & b & E & Ha & Hb). exists a, b.
  rewrite Nkp1_num in *. pose proof (proj1 (enum_lt M idx2 G (k + 1) i) Hi) as Hd. rewrite E in Hd. unfold degree in Hd. cbn [fold_right] in Hd.
  pose proof (numM_gt (k + 1)). repeat (split; auto); lia.
Qed.

Lemma imat_set_ok A a b v : im_rows A = Nkp1 -> im_cols A = Nkp1 -> (0 <= a < Z.of_nat Nkp1)%Z -> (0 <= b < Z.of_nat Nkp1)%Z ->
  exists A', imat_set A a b v = Ok A' /\ im_rows A' = Nkp1 /\ im_cols A' = Nkp1 /\
  forall x y, im_at A' x y = if ((x =? Z.to_nat a) && (y =? Z.to_nat b))%nat then v else im_at A x y.
Proof.
  intros H1 H2 Ha Hb. unfold imat_set. rewrite H1, H2.
  rewrite (proj2 (Z.leb_le 0 a)), (proj2 (Z.leb_le 0 b)), (proj2 (Z.ltb_lt a _)), (proj2 (Z.ltb_lt b _)) by lia. cbn [andb].
  eexists. split; [reflexivity|]. cbn [im_rows im_cols im_at]. auto.
Qed.

Lemma tab2_set i A a b : tab2 i A -> (i < Nkp1)%nat -> enum M i = [a; b] -> exists A', imat_set A a b (Z.of_nat i) = Ok A' /\ tab2 (S i) A'.
Proof.
  intros (H1 & H2 & H3) Hi E. destruct (enum2_bound i Hi) as (a' & b' & E' & Ha & Hb & Ba & Bb). rewrite E in E'. injection E' as <- <-.
  destruct (imat_set_ok A a b (Z.of_nat i) H1 H2 ltac:(lia) ltac:(lia)) as (A' & EA & Q1 & Q2 & Q3).
  exists A'. split; auto. repeat (split; auto). intros l x y Hl El. rewrite Q3.
  destruct (proj1 (tuple_2 _) (proj1 (enum_ok M idx2 G l))) as (a2 & b2 & E2 & Ha2 & Hb2). rewrite El in E2. injection E2 as <- <-.
  destruct (Nat.eqb_spec (Z.to_nat x) (Z.to_nat a)) as [Ex|Nx], (Nat.eqb_spec (Z.to_nat y) (Z.to_nat b)) as [Ey|Ny]; cbn [andb].
  - f_equal. apply (enum_inj M idx2 G). rewrite E, El. f_equal; [|f_equal]; lia.
  - apply H3; auto. destruct (Nat.eq_dec l i) as [->|]; [|lia]. rewrite E in El. injection El as -> ->. congruence.
  - apply H3; auto. destruct (Nat.eq_dec l i) as [->|]; [|lia]. rewrite E in El. injection El as -> ->. congruence.
  - apply H3; auto. destruct (Nat.eq_dec l i) as [->|]; [|lia]. rewrite E in El. injection El as -> ->. congruence.
Qed.

Context (m : Monomials_Data) (Em : Compute M (k + 1) = Ok m).

Lemma exps2 i : (i < Nkp1)%nat -> nth_error (Exponents m) i = Some (enum M i).
Proof. intros H. apply (u_exp _ _ _ _ _ (the_data M idx2 G _ _ Em)). now rewrite <- Nkp1_num. Qed.

Lemma expo2 i : (i < Nkp1)%nat -> expo (Exponents m) i = enum M i.
Proof. intros H. unfold expo. apply nth_error_nth. now apply exps2. Qed.

Lemma Nkp1_pos : (0 < Nkp1)%nat.
Proof. rewrite Nkp1_num. apply (numM_pos M idx2 G). Qed.

Lemma fill_MatrixExponents_ok : exists A, fill_MatrixExponents (Exponents m) Nkp1 = Ok A /\ tab2 Nkp1 A.
Proof.
  unfold fill_MatrixExponents. pose proof Nkp1_pos as HN.
  destruct (tab2_set 0 {| im_rows := Nkp1; im_cols := Nkp1; im_at := fun _ _ => (-1)%Z |} 0%Z 0%Z) as (A0 & E0 & T0).
  { repeat split; auto. intros; lia. } { auto. } { reflexivity. }
  change (Z.of_nat 0) with 0%Z in E0. rewrite E0. cbn [bind].
  match goal with |- exists zz, for_from 1 ?n ?f ?s0 = _ /\ _ =>
    destruct (@for_from_total _ tab2 f n 1%nat s0) as (A & EA & TA) end.
  - exact T0.
  - intros i A Hi HT. rewrite (proj2 (idx_Ok _ _ _) (exps2 (i - 1) ltac:(lia))). cbn [bind].
    pose proof (enum_next M idx2 G (i - 1)) as En. replace (S (i - 1)) with i in En by lia.
    destruct (enum2_bound (i - 1) ltac:(lia)) as (a & b & E & _). rewrite E in *. cbn [idx_ nth_error bind].
    unfold M in En. cbn [mc_next Monomials_2D] in En. unfold next_2D in En. cbn [idx_ nth_error bind] in En.
    destruct (a =? 0)%Z; injection En as En; apply tab2_set; auto; lia.
  - exists A. split; auto. now replace (1 + (Nkp1 - 1))%nat with Nkp1 in TA by lia.
Qed.

Context (A : IMat) (TA : tab2 Nkp1 A).

Lemma tab2_get a b : (0 <= a)%Z -> (0 <= b)%Z -> (a + b <= Z.of_nat k + 1)%Z -> imat_get A a b = Ok (idx2 [a; b]).
Proof.
  intros Ha Hb H. destruct TA as (H1 & H2 & H3). unfold imat_get. rewrite H1, H2.
  pose proof (numM_gt (k + 1)) as HN. rewrite <- Nkp1_num in HN.
  rewrite (proj2 (Z.leb_le 0 a)), (proj2 (Z.leb_le 0 b)), (proj2 (Z.ltb_lt a _)), (proj2 (Z.ltb_lt b _)) by lia. cbn [andb].
  f_equal. rewrite (H3 (Z.to_nat (idx2 [a; b])) a b).
  - pose proof (idx2_pos a b Ha Hb). lia.
  - rewrite Nkp1_num. apply idx2_lt; auto; lia.
  - now apply enum2.
Qed.

Definition val2 (i g : nat) (e : list Z) (c : nat) : R :=
  let a := nth 0 e 0%Z in let b := nth 1 e 0%Z in let s := IZR (esum e + 1) in
  match i, g with
  | O, O => if true && (c =? Z.to_nat (idx2 [a + 1; b]%Z))%nat then 1 / s else 0
  | O, _ => if (0 <? b)%Z && (c =? Z.to_nat (idx2 [a; b - 1]%Z))%nat then IZR b / s else 0
  | _, O => if true && (c =? Z.to_nat (idx2 [a; b + 1]%Z))%nat then 1 / s else 0
  | _, _ => if (0 <? a)%Z && (c =? Z.to_nat (idx2 [a - 1; b]%Z))%nat then - IZR a / s else 0
  end.

Definition cols2 (g : nat) : nat := match g with O => Nkp1 | _ => Nkm1 end.
Definition shape2 (j : nat) (VD : list (list Mat)) : Prop :=
  VDshape 2 2 Nk cols2 VD (fun i g r c => if (r <? j)%nat then val2 i g (enum M r) c else 0).

Lemma enum_Nk j : (j < Nk)%nat -> exists a b, enum M j = [a; b] /\ (0 <= a)%Z /\ (0 <= b)%Z /\ (a + b <= Z.of_nat k)%Z.
Proof.
  intros Hi. destruct (proj1 (tuple_2 _) (proj1 (enum_ok M idx2 G j))) as (a & b & E & Ha & Hb). exists a, b.
  rewrite Nk_num in Hi. pose proof (proj1 (enum_lt M idx2 G k j) Hi) as Hd. rewrite E in Hd. unfold degree in Hd. cbn [fold_right] in Hd.
  repeat (split; auto); lia.
Qed.

Lemma Nk_le : (Nk <= Nkp1)%nat.
Proof. unfold Nk, Nkp1. apply Nat.div_le_mono; lia. Qed.

Lemma decompose_2D_ok j VD : (j < Nk)%nat -> shape2 j VD -> exists VD', decompose_2D (Exponents m) A j VD = Ok VD' /\ shape2 (S j) VD'.
Proof.
  intros Hj H. unfold decompose_2D. pose proof Nk_le as Hle.
  rewrite (proj2 (idx_Ok _ _ _) (exps2 j ltac:(lia))). cbn [bind].
  destruct (enum_Nk j Hj) as (a & b & E & Ha & Hb & Hab). rewrite E. unfold VectorDecompositionIndices_2D. cbn [idx_ nth_error bind].
  rewrite (tab2_get (a + 1) b) by lia. cbn [bind].
  assert (E1 : (if (0 <? b)%Z then imat_get A a (b - 1) else Ok (-1)%Z) = Ok (if (0 <? b)%Z then idx2 [a; b - 1]%Z else (-1)%Z)).
  { destruct (Z.ltb_spec 0 b); auto. apply tab2_get; lia. }
  rewrite E1. cbn [bind]. rewrite (tab2_get a (b + 1)) by lia. cbn [bind].
  assert (E2 : (if (0 <? a)%Z then imat_get A (a - 1) b else Ok (-1)%Z) = Ok (if (0 <? a)%Z then idx2 [a - 1; b]%Z else (-1)%Z)).
  { destruct (Z.ltb_spec 0 a); auto. apply tab2_get; lia. }
  rewrite E2. cbn [bind].
  set (s := IZR (esum [a; b] + 1)).
  destruct (put_ok _ _ _ _ VD _ 0 0 j (idx2 [a + 1; b]%Z) (1 / s) H ltac:(lia) ltac:(lia) Hj) as (VD1 & P1 & H1).
  { apply idx2_pos; lia. } { cbn [cols2]. rewrite Nkp1_num. apply idx2_lt; lia. }
  rewrite P1. cbn [bind].
  assert (S2 : exists VD2, (if (0 <? b)%Z then put VD1 0 1 j (if (0 <? b)%Z then idx2 [a; b - 1]%Z else (-1)%Z) (IZR b / s) else Ok VD1) = Ok VD2 /\
     VDshape 2 2 Nk cols2 VD2 (upd4 (upd4 (fun i g r c => if (r <? j)%nat then val2 i g (enum M r) c else 0) true 0 0 j (Z.to_nat (idx2 [a + 1; b]%Z)) (1 / s))
        (0 <? b)%Z 0 1 j (Z.to_nat (idx2 [a; b - 1]%Z)) (IZR b / s))).
  { destruct (Z.ltb_spec 0 b).
    - apply put_ok; auto; try lia; [apply idx2_pos; lia|]. cbn [cols2]. rewrite Nkm1_num by lia. apply idx2_lt; lia.
    - exists VD1. split; auto. }
  destruct S2 as (VD2 & P2 & H2). rewrite P2. cbn [bind].
  destruct (put_ok _ _ _ _ VD2 _ 1 0 j (idx2 [a; b + 1]%Z) (1 / s) H2 ltac:(lia) ltac:(lia) Hj) as (VD3 & P3 & H3).
  { apply idx2_pos; lia. } { cbn [cols2]. rewrite Nkp1_num. apply idx2_lt; lia. }
  rewrite P3. cbn [bind].
  match type of H3 with VDshape _ _ _ _ _ ?F =>
    assert (S4 : exists VD4, (if (0 <? a)%Z then put VD3 1 1 j (if (0 <? a)%Z then idx2 [a - 1; b]%Z else (-1)%Z) (- IZR a / s) else Ok VD3) = Ok VD4 /\
     VDshape 2 2 Nk cols2 VD4 (upd4 F (0 <? a)%Z 1 1 j (Z.to_nat (idx2 [a - 1; b]%Z)) (- IZR a / s))) end.
  { destruct (Z.ltb_spec 0 a).
    - apply put_ok; auto; try lia; [apply idx2_pos; lia|]. cbn [cols2]. rewrite Nkm1_num by lia. apply idx2_lt; lia.
    - exists VD3. split; auto. }
  destruct S4 as (VD4 & P4 & H4). exists VD4. split; auto.
  eapply VDshape_ext; [exact H4|]. intros i g r c Hi Hg. cbv beta.
  destruct (Nat.eq_dec r j) as [->|Nr].
  - rewrite (proj2 (Nat.ltb_lt j (S j))) by lia. rewrite E. unfold upd4, val2. cbn [nth]. rewrite Nat.eqb_refl, Nat.ltb_irrefl. fold s.
    destruct i as [|[|i]]; [| |lia]; (destruct g as [|[|g]]; [| |lia]); cbn [Nat.eqb andb]; rewrite ?andb_false_r, ?andb_true_r; cbn [andb]; try reflexivity.
  - replace (r <? S j)%nat with (r <? j)%nat.
    + unfold upd4. destruct (Nat.eqb_spec r j); [congruence|]. rewrite !andb_false_r. cbn [andb]. reflexivity.
    + apply Bool.eq_iff_eq_true. rewrite !Nat.ltb_lt. lia.
Qed.

Lemma decomposition_2D_ok : exists VD, for_loop Nk (decompose_2D (Exponents m) A) (repeat [mzero Nk Nkp1; mzero Nk Nkm1] 2) = Ok VD /\ shape2 Nk VD.
Proof.
  match goal with |- exists zz, for_loop ?n ?f ?s0 = _ /\ _ => destruct (@for_loop_total _ shape2 f n s0) as (VD & EV & TV) end.
  - split; [reflexivity|]. intros i Hi. exists [mzero Nk Nkp1; mzero Nk Nkm1].
    split; [now apply nth_error_repeat_lt|]. split; [reflexivity|]. intros g Hg. destruct g as [|[|g]]; [| |lia]; eexists; repeat split.
  - intros j VD Hj HV. now apply decompose_2D_ok.
  - eauto.
Qed.

(** a linear combination with one term *)
Lemma comb_pick n B j b e' v x : (forall c, (c < n)%nat -> m_at B j c = if b && (c =? Z.to_nat (idx2 e'))%nat then v else 0) -> (n <= Nkp1)%nat ->
  (b = true -> tuple 2 e' /\ (Z.to_nat (idx2 e') < n)%nat) ->
  comb (Exponents m) n B j x = if b then v * mono e' x else 0.
Proof.
  intros H Hn Hb. unfold comb.
  rewrite (rsum_ext n _ (fun l => (if b && (l =? Z.to_nat (idx2 e'))%nat then v else 0) * mono (expo (Exponents m) l) x)).
  - rewrite rsum_pick by (intros Hb'; now apply Hb). destruct b; auto. destruct (Hb eq_refl) as (Ht & Hl).
    rewrite expo2 by lia. now rewrite (enum_idx M idx2 G).
  - intros l Hl. now rewrite H.
Qed.

Lemma Nkm1_le : (Nkm1 <= Nkp1)%nat.
Proof. unfold Nkm1, Nkp1. apply Nat.div_le_mono; nia. Qed.

Lemma decomposition_2D_exact VD i : shape2 Nk VD -> (i < 2)%nat ->
  exists Gr P, nth_error VD i = Some [Gr; P] /\ m_rows Gr = Nk /\ m_cols Gr = Nkp1 /\ m_rows P = Nk /\ m_cols P = Nkm1 /\
  forall j c x, (j < Nk)%nat -> (c < 2)%nat ->
    is_partial (comb (Exponents m) Nkp1 Gr j) c x
      (delta i c * mono (expo (Exponents m) j) x - perp c x * comb (Exponents m) Nkm1 P j x).
Proof.
  intros (L & H) Hi. destruct (H i Hi) as (row & R1 & R2 & R3).
  destruct row as [|Gr [|P [|? ?]]]; try discriminate. clear R2.
  destruct (R3 0%nat ltac:(lia)) as (B & B1 & B2 & B3 & B4). cbn in B1. injection B1 as <-.
  destruct (R3 1%nat ltac:(lia)) as (B & B1 & C2 & C3 & C4). cbn in B1. injection B1 as <-.
  exists Gr, P. repeat (split; auto). intros j c x Hj Hc. pose proof Nk_le as Hle. pose proof Nkm1_le as Hle2.
  destruct (enum_Nk j Hj) as (a & b & E & Ha & Hb & Hab). rewrite (expo2 j) by lia. rewrite E.
  assert (T1 : forall n a' b', (0 <= a')%Z -> (0 <= b')%Z -> (a' + b' <= Z.of_nat n)%Z -> tuple 2 [a'; b'] /\ (Z.to_nat (idx2 [a'; b']) < numM M n)%nat).
  { intros n a' b' Ha' Hb' Hn. split; [apply tuple_2; eauto|]. apply idx2_lt; auto. }
  set (s := IZR (esum [a; b] + 1)). assert (Hs : s = IZR a + IZR b + 1) by (unfold s, esum; cbn [fold_right]; rewrite !plus_IZR; ring).
  assert (Hs0 : s <> 0). { apply IZR_le in Ha, Hb. lra. }
  assert (EJ : (j <? Nk)%nat = true) by (apply Nat.ltb_lt; auto).
  destruct i as [|[|i]]; [| |lia].
  - assert (EG : forall y, comb (Exponents m) Nkp1 Gr j y = 1 / s * mono [a + 1; b]%Z y).
    { intros y. rewrite (comb_pick Nkp1 Gr j true [a + 1; b]%Z (1 / s) y); auto.
      - intros c0 _. rewrite B4, EJ, E. reflexivity.
      - intros _. rewrite Nkp1_num. apply T1; lia. }
    assert (EP : comb (Exponents m) Nkm1 P j x = if (0 <? b)%Z then IZR b / s * mono [a; b - 1]%Z x else 0).
    { apply comb_pick; auto.
      - intros c0 _. rewrite C4, EJ, E. reflexivity.
      - intros Hb0%Z.ltb_lt. rewrite Nkm1_num by lia. apply T1; lia. }
    eapply partial_ext; [intros y; symmetry; apply EG|]. rewrite EP.
    assert (Q : is_partial (fun y => 1 / s * mono [a + 1; b]%Z y) c x (1 / s * mono_d c [a + 1; b]%Z x)).
    { apply partial_scal, partial_mono; [exact Hc|]. destruct c as [|[|c]]; cbn [nth]; lia. }
    match goal with |- is_partial _ _ _ ?v => replace v with (1 / s * mono_d c [a + 1; b]%Z x); [exact Q|] end.
    unfold mono_d. destruct c as [|[|c]]; [| |lia]; cbn [nth lower replace perp delta Nat.eqb].
    + rewrite (proj2 (Z.ltb_lt 0 (a + 1))) by lia. unfold lower. cbn [nth replace]. replace (a + 1 - 1)%Z with a by lia. rewrite !mono_2, plus_IZR.
      destruct (Z.ltb_spec 0 b).
      * unfold delta. cbn [Nat.eqb]. rewrite (pow_lower (x 1%nat) b) by lia. rewrite Hs. field. rewrite <- Hs; auto.
      * replace b with 0%Z in * by lia. unfold delta. cbn [Nat.eqb]. rewrite Hs. field. apply IZR_le in Ha. intro; lra.
    + unfold delta. cbn [Nat.eqb]. destruct (Z.ltb_spec 0 b); [|ring].
      unfold lower. cbn [nth replace]. rewrite !mono_2. rewrite (pow_upper _ a) by lia. field. auto.
  - assert (EG : forall y, comb (Exponents m) Nkp1 Gr j y = 1 / s * mono [a; b + 1]%Z y).
    { intros y. rewrite (comb_pick Nkp1 Gr j true [a; b + 1]%Z (1 / s) y); auto.
      - intros c0 _. rewrite B4, EJ, E. reflexivity.
      - intros _. rewrite Nkp1_num. apply T1; lia. }
    assert (EP : comb (Exponents m) Nkm1 P j x = if (0 <? a)%Z then - IZR a / s * mono [a - 1; b]%Z x else 0).
    { apply comb_pick; auto.
      - intros c0 _. rewrite C4, EJ, E. reflexivity.
      - intros Hb0%Z.ltb_lt. rewrite Nkm1_num by lia. apply T1; lia. }
    eapply partial_ext; [intros y; symmetry; apply EG|]. rewrite EP.
    assert (Q : is_partial (fun y => 1 / s * mono [a; b + 1]%Z y) c x (1 / s * mono_d c [a; b + 1]%Z x)).
    { apply partial_scal, partial_mono; [exact Hc|]. destruct c as [|[|c]]; cbn [nth]; lia. }
    match goal with |- is_partial _ _ _ ?v => replace v with (1 / s * mono_d c [a; b + 1]%Z x); [exact Q|] end.
    unfold mono_d. destruct c as [|[|c]]; [| |lia]; cbn [nth lower replace perp delta Nat.eqb].
    + unfold delta. cbn [Nat.eqb]. destruct (Z.ltb_spec 0 a); [|ring].
      unfold lower. cbn [nth replace]. rewrite !mono_2. rewrite (pow_upper _ b) by lia. field. auto.
    + rewrite (proj2 (Z.ltb_lt 0 (b + 1))) by lia. unfold lower. cbn [nth replace]. replace (b + 1 - 1)%Z with b by lia. rewrite !mono_2, plus_IZR.
      destruct (Z.ltb_spec 0 a).
      * unfold delta. cbn [Nat.eqb]. rewrite (pow_lower (x 0%nat) a) by lia. rewrite Hs. field. rewrite <- Hs; auto.
      * replace a with 0%Z in * by lia. unfold delta. cbn [Nat.eqb]. rewrite Hs. field. apply IZR_le in Hb. intro; lra.
Qed.
End TwoD.

Lemma C34_all k : exists data, GBasis_2D_Compute k = Ok data /\ Compute Monomials_2D (k + 1) = Ok (gb_monomials data) /\
  (2 * gb_Nk data = (k + 1) * (k + 2) /\ 2 * gb_Nkp1 data = (k + 2) * (k + 3) /\ 2 * gb_Nkm1 data = k * (k + 1))%nat /\
  length (gb_VectorDecomposition data) = 2%nat /\
  forall i, (i < 2)%nat -> exists Gr P, nth_error (gb_VectorDecomposition data) i = Some [Gr; P] /\
    m_rows Gr = gb_Nk data /\ m_cols Gr = gb_Nkp1 data /\ m_rows P = gb_Nk data /\ m_cols P = gb_Nkm1 data /\
    forall j c x, (j < gb_Nk data)%nat -> (c < 2)%nat ->
      is_partial (comb (Exponents (gb_monomials data)) (gb_Nkp1 data) Gr j) c x
        (delta i c * mono (expo (Exponents (gb_monomials data)) j) x
         - perp c x * comb (Exponents (gb_monomials data)) (gb_Nkm1 data) P j x).
Proof.
  unfold GBasis_2D_Compute. destruct (Compute_ok Monomials_2D idx2 good_2D (k + 1)) as (m & Em & _). rewrite Em. cbn [bind].
  destruct (fill_MatrixExponents_ok k m Em) as (A & EA & TA). rewrite EA. cbn [bind].
  destruct (decomposition_2D_ok k m Em A TA) as (VD & EV & TV). rewrite EV. cbn [bind].
  eexists. split; [reflexivity|]. cbn [gb_monomials gb_Nk gb_Nkp1 gb_Nkm1 gb_VectorDecomposition].
  split; [reflexivity|]. split.
  { rewrite Nk_num, Nkp1_num. pose proof (proj1 (proj2 (class_num 2 Monomials_2D k class2)) eq_refl).
    pose proof (proj1 (proj2 (class_num 2 Monomials_2D (k + 1) class2)) eq_refl). split; [lia|]. split; [lia|].
    destruct k as [|k']; [reflexivity|]. rewrite (Nkm1_num (S k')) by lia.
    pose proof (proj1 (proj2 (class_num 2 Monomials_2D (S k' - 1) class2)) eq_refl). replace (S k' - 1)%nat with k' in * by lia. lia. }
  split; [apply TV|]. intros i Hi. exact (decomposition_2D_exact k m Em VD i TV Hi).
Qed.

Lemma C34_vander_all k data V (xi : nat -> point) : GBasis_2D_Compute k = Ok data ->
  (3 <= m_cols V)%nat -> (gb_Nkm1 data <= m_cols V <= gb_Nkp1 data)%nat ->
  (forall q i, (q < m_rows V)%nat -> (i < m_cols V)%nat -> m_at V q i = mono (expo (Exponents (gb_monomials data)) i) (xi q)) ->
  exists A B, VanderGBigOPlus_2D data V = Ok [A; B] /\ m_rows A = m_rows V /\ m_cols A = gb_Nkm1 data /\ m_rows B = m_rows V /\ m_cols B = gb_Nkm1 data /\
   forall q l, (q < m_rows V)%nat -> (l < gb_Nkm1 data)%nat ->
     m_at A q l = perp 0 (xi q) * mono (expo (Exponents (gb_monomials data)) l) (xi q) /\
     m_at B q l = perp 1 (xi q) * mono (expo (Exponents (gb_monomials data)) l) (xi q).
Proof.
  intros E H3 (Hn & Hn2) HV. unfold VanderGBigOPlus_2D, left_cols, mcol. rewrite (proj2 (Nat.leb_le _ _) Hn). cbn [bind].
  rewrite (proj2 (Nat.ltb_lt 2 _)), (proj2 (Nat.ltb_lt 1 _)) by lia. cbn [bind].
  eexists _, _. split; [reflexivity|]. unfold colwise. cbn [m_rows m_cols m_at]. repeat (split; auto).
  - rewrite (HV q l), (HV q 2%nat) by lia. unfold perp.
    assert (E2 : expo (Exponents (gb_monomials data)) 2 = [0; 1]%Z).
    { destruct (C34_all k) as (d' & E' & Em & (N1 & N2 & N3) & _). rewrite E in E'. injection E' as <-.
      unfold expo. apply nth_error_nth. rewrite (u_exp _ _ _ _ _ (the_data Monomials_2D idx2 good_2D _ _ Em)); [reflexivity|].
      rewrite <- Nkp1_num. pose proof (Nkp1_num k) as HN. pose proof (proj1 (proj2 (class_num 2 Monomials_2D (k + 1) class2)) eq_refl). nia. }
    rewrite E2, mono_2. change (Z.to_nat 0) with 0%nat. change (Z.to_nat 1) with 1%nat. ring.
  - rewrite (HV q l), (HV q 1%nat) by lia. unfold perp.
    assert (E2 : expo (Exponents (gb_monomials data)) 1 = [1; 0]%Z).
    { destruct (C34_all k) as (d' & E' & Em & (N1 & N2 & N3) & _). rewrite E in E'. injection E' as <-.
      unfold expo. apply nth_error_nth. rewrite (u_exp _ _ _ _ _ (the_data Monomials_2D idx2 good_2D _ _ Em)); [reflexivity|].
      rewrite <- Nkp1_num. pose proof (Nkp1_num k) as HN. pose proof (proj1 (proj2 (class_num 2 Monomials_2D (k + 1) class2)) eq_refl). nia. }
    rewrite E2, mono_2. change (Z.to_nat 0) with 0%nat. change (Z.to_nat 1) with 1%nat. ring.
Qed.
