From Coq Require Import List Arith Bool Lia ZArith Reals Lra.
From Verif Require Import Base RSum MatrixModel MonomialsModel MonomialsSpec.
Import ListNotations.
Local Open Scope Z_scope.

Lemma esum_degree e : esum e = degree e.
Proof. reflexivity. Qed.

(** ** Triangular and tetrahedral numbers *)
Definition tri (s : Z) : Z := s * (s + 1) / 2.
Definition tet (s : Z) : Z := (s + 1) * (s + 2) * (s + 3) / 6.

Lemma tri_step s : tri (s + 1) = tri s + s + 1.
Proof.
  unfold tri. replace ((s + 1) * (s + 1 + 1)) with (s * (s + 1) + (s + 1) * 2) by ring.
  rewrite Z.div_add by lia. lia.
Qed.
Lemma tri_nat (P : Z -> Prop) : P 0 -> (forall s, 0 <= s -> P s -> P (s + 1)) -> forall s, 0 <= s -> P s.
Proof. intros H0 Hs s Hp. apply natlike_ind; auto. Qed.
Lemma tri2 s : 0 <= s -> 2 * tri s = s * (s + 1).
Proof.
  revert s. apply tri_nat.
  - reflexivity.
  - intros s Hs IH. rewrite tri_step. lia.
Qed.
Lemma tri_mono a b : 0 <= a <= b -> tri a <= tri b.
Proof. intros H. pose proof (tri2 a ltac:(lia)). pose proof (tri2 b ltac:(lia)). nia. Qed.
Lemma tri_lt a b : 0 <= a < b -> tri a + a < tri b.
Proof. intros H. pose proof (tri_step a). pose proof (tri_mono (a + 1) b ltac:(lia)). lia. Qed.
Lemma tri1 s : (s + 1) * (s + 2) / 2 = tri (s + 1).
Proof. unfold tri. f_equal. ring. Qed.
Lemma tet_step s : 0 <= s -> tet s = tet (s - 1) + tri (s + 1).
Proof.
  intros Hs. unfold tet.
  replace ((s + 1) * (s + 2) * (s + 3)) with ((s - 1 + 1) * (s - 1 + 2) * (s - 1 + 3) + tri (s + 1) * 6).
  - now rewrite Z.div_add by lia.
  - pose proof (tri2 (s + 1) ltac:(lia)). nia.
Qed.
Lemma tri_nonneg s : 0 <= s -> 0 <= tri s.
Proof. intros. pose proof (tri_mono 0 s ltac:(lia)). change (tri 0) with 0 in *. lia. Qed.
Lemma tet_mono a b : -1 <= a <= b -> tet a <= tet b.
Proof.
  intros H. replace b with (a + (b - a)) by lia. assert (Hd : 0 <= b - a) by lia. revert Hd.
  generalize (b - a). apply tri_nat.
  - replace (a + 0) with a by lia. lia.
  - intros s Hs IH. rewrite (tet_step (a + (s + 1))) by lia. replace (a + (s + 1) - 1) with (a + s) by lia.
    pose proof (tri_nonneg (a + (s + 1) + 1) ltac:(lia)). lia.
Qed.

(** ** What the three classes have in common *)
Record good (M : MonomialsClass) (idx : list Z -> Z) : Prop := {
  g_Index : forall e, tuple (mc_dim M) e -> mc_Index M e = Ok (idx e);
  g_pos : forall e, tuple (mc_dim M) e -> 0 <= idx e;
  g_zero : idx (repeat 0 (mc_dim M)) = 0;
  g_next : forall e, tuple (mc_dim M) e -> exists e', mc_next M e = Ok e' /\ tuple (mc_dim M) e' /\ idx e' = idx e + 1;
  g_inj : forall e e', tuple (mc_dim M) e -> tuple (mc_dim M) e' -> idx e = idx e' -> e = e';
  g_num : forall k e, tuple (mc_dim M) e -> (idx e < mc_num M k <-> degree e <= Z.of_nat k);
  g_numpos : forall k, 0 < mc_num M k;
  g_dim : (0 < mc_dim M)%nat;
  g_der : forall e, tuple (mc_dim M) e -> exists l, mc_der M e (idx e) = Ok l /\ length l = mc_dim M /\
     forall d, (d < mc_dim M)%nat -> nth d l 0 = if 0 <? nth d e 0 then idx (lower d 1 e) else -1;
  g_der2 : forall e, tuple (mc_dim M) e -> exists l, mc_der2 M e (idx e) = Ok l /\ length l = mc_dim M /\
     forall d, (d < mc_dim M)%nat -> nth d l 0 = if 1 <? nth d e 0 then idx (lower d 2 e) else -1;
  g_neg : forall e, length e = mc_dim M -> Exists (fun a => a < 0) e -> mc_Index M e = Ok (-1) }.

Definition idx1 (e : list Z) : Z := nth 0 e 0.
Definition idx2 (e : list Z) : Z := tri (nth 0 e 0 + nth 1 e 0) + nth 1 e 0.
Definition idx3 (e : list Z) : Z :=
  tet (nth 0 e 0 + nth 1 e 0 + nth 2 e 0) - tri (nth 0 e 0 + nth 1 e 0 + 1) + nth 1 e 0.

Lemma tuple_1 e : tuple 1 e <-> exists a, e = [a] /\ 0 <= a.
Proof.
  split.
  - intros (L & F). destruct e as [|a [|b e]]; try discriminate. inversion F; subst. eauto.
  - intros (a & -> & H). repeat split; repeat constructor; auto.
Qed.
Lemma tuple_2 e : tuple 2 e <-> exists a b, e = [a; b] /\ 0 <= a /\ 0 <= b.
Proof.
  split.
  - intros (L & F). destruct e as [|a [|b [|c e]]]; try discriminate.
    inversion F as [|? ? Ha F1]; subst. inversion F1; subst. eauto 6.
  - intros (a & b & -> & Ha & Hb). repeat split; repeat constructor; auto.
Qed.
Lemma tuple_3 e : tuple 3 e <-> exists a b c, e = [a; b; c] /\ 0 <= a /\ 0 <= b /\ 0 <= c.
Proof.
  split.
  - intros (L & F). destruct e as [|a [|b [|c [|? e]]]]; try discriminate.
    inversion F as [|? ? Ha F1]; subst. inversion F1 as [|? ? Hb F2]; subst. inversion F2; subst. exists a, b, c. auto.
  - intros (a & b & c & -> & Ha & Hb & Hc). repeat split; repeat constructor; auto.
Qed.

Ltac leb_true := repeat match goal with
  | |- context [?a <=? ?b] => rewrite (proj2 (Z.leb_le a b)) by lia
  end.

Lemma good_1D : good Monomials_1D idx1.
Proof.
  constructor; cbn [mc_dim mc_num mc_next mc_Index mc_der mc_der2 Monomials_1D]; try (intros; lia).
  - intros e (a & -> & H)%tuple_1. cbn. leb_true. unfold idx1. cbn. f_equal. lia.
  - intros e (a & -> & H)%tuple_1. cbn. auto.
  - reflexivity.
  - intros e (a & -> & H)%tuple_1. exists [a + 1]. repeat split; auto. constructor; auto. lia.
  - intros e e' (a & -> & H)%tuple_1 (a' & -> & H')%tuple_1 E. cbn in E. now subst.
  - intros k e (a & -> & H)%tuple_1. unfold num_1D, degree. cbn. lia.
  - intros k. unfold num_1D. lia.
  - intros e (a & -> & H)%tuple_1. eexists. split; [reflexivity|]. split; auto.
    intros [|d] Hd; [|lia]. cbn. reflexivity.
  - intros e (a & -> & H)%tuple_1. eexists. split; [reflexivity|]. split; auto.
    intros [|d] Hd; [|lia]. cbn. reflexivity.
  - intros e L F. destruct e as [|a [|b e]]; try discriminate. inversion F as [? ? H|? ? H]; subst; [|inversion H].
    cbn. rewrite (proj2 (Z.leb_gt 0 a)) by lia. reflexivity.
Qed.

Lemma num_2D_tri k : num_2D k = tri (Z.of_nat k + 1).
Proof. unfold num_2D, tri. f_equal. ring. Qed.

Lemma idx2_range a b : 0 <= a -> 0 <= b -> tri (a + b) <= idx2 [a; b] <= tri (a + b) + (a + b).
Proof. intros. unfold idx2. cbn. lia. Qed.

Lemma idx2_degree a b a' b' : 0 <= a -> 0 <= b -> 0 <= a' -> 0 <= b' -> a + b < a' + b' -> idx2 [a; b] < idx2 [a'; b'].
Proof.
  intros. pose proof (idx2_range a b). pose proof (idx2_range a' b'). pose proof (tri_lt (a + b) (a' + b') ltac:(lia)). lia.
Qed.

Lemma good_2D : good Monomials_2D idx2.
Proof.
  constructor; cbn [mc_dim mc_num mc_next mc_Index mc_der mc_der2 Monomials_2D]; try (intros; lia).
  - intros e (a & b & -> & Ha & Hb)%tuple_2. cbn. leb_true. unfold idx2, tri. cbn.
    replace (a + (b + 0)) with (a + b) by lia. reflexivity.
  - intros e (a & b & -> & Ha & Hb)%tuple_2. pose proof (idx2_range a b Ha Hb). pose proof (tri_nonneg (a + b) ltac:(lia)). lia.
  - reflexivity.
  - intros e (a & b & -> & Ha & Hb)%tuple_2. cbn. destruct (a =? 0) eqn:E.
    + apply Z.eqb_eq in E. subst a. eexists. split; [reflexivity|]. split.
      * apply tuple_2. exists (b + 1), 0. repeat split; lia.
      * unfold idx2. cbn [nth]. replace (b + 1 + 0) with (b + 1) by lia. rewrite tri_step. replace (0 + b) with b by lia. lia.
    + apply Z.eqb_neq in E. eexists. split; [reflexivity|]. split.
      * apply tuple_2. exists (a - 1), (b + 1). repeat split; lia.
      * unfold idx2. cbn [nth]. replace (a - 1 + (b + 1)) with (a + b) by lia. lia.
  - intros e e' (a & b & -> & Ha & Hb)%tuple_2 (a' & b' & -> & Ha' & Hb')%tuple_2 E.
    destruct (Z.lt_trichotomy (a + b) (a' + b')) as [L|[L|L]].
    + pose proof (idx2_degree a b a' b' Ha Hb Ha' Hb' L). lia.
    + unfold idx2 in E. cbn [nth] in E. rewrite L in E. assert (b = b') by lia. subst. assert (a = a') by lia. now subst.
    + pose proof (idx2_degree a' b' a b Ha' Hb' Ha Hb L). lia.
  - intros k e (a & b & -> & Ha & Hb)%tuple_2. rewrite num_2D_tri. unfold degree. cbn [fold_right].
    pose proof (idx2_range a b Ha Hb). split; intros H1.
    + destruct (Z_le_gt_dec (a + b) (Z.of_nat k)) as [|G]; [lia|].
      pose proof (tri_mono (Z.of_nat k + 1) (a + b) ltac:(lia)). lia.
    + pose proof (tri_lt (a + b) (Z.of_nat k + 1) ltac:(lia)). lia.
  - intros k. rewrite num_2D_tri. pose proof (tri_lt 0 (Z.of_nat k + 1) ltac:(lia)). change (tri 0) with 0 in *. lia.
  - intros e (a & b & -> & Ha & Hb)%tuple_2. eexists. split; [reflexivity|]. split; auto.
    intros [|[|d]] Hd; [| |lia]; cbn -[Z.sub].
    + destruct (0 <? a) eqn:E; auto. apply Z.ltb_lt in E. unfold idx2. cbn [nth].
      replace (a + b) with (a - 1 + b + 1) by lia. rewrite tri_step. lia.
    + destruct (0 <? b) eqn:E; auto. apply Z.ltb_lt in E. unfold idx2. cbn [nth].
      replace (a + b) with (a + (b - 1) + 1) by lia. rewrite tri_step. lia.
  - intros e (a & b & -> & Ha & Hb)%tuple_2. eexists. split; [reflexivity|]. split; auto.
    intros [|[|d]] Hd; [| |lia]; cbn -[Z.sub Z.mul].
    + destruct (1 <? a) eqn:E; auto. apply Z.ltb_lt in E. unfold idx2. cbn [nth].
      replace (a + b) with (a - 2 + b + 1 + 1) by lia. rewrite !tri_step. lia.
    + destruct (1 <? b) eqn:E; auto. apply Z.ltb_lt in E. unfold idx2. cbn [nth].
      replace (a + b) with (a + (b - 2) + 1 + 1) by lia. rewrite !tri_step. lia.
  - intros e L F. destruct e as [|a [|b [|c e]]]; try discriminate. cbn.
    destruct (0 <=? a) eqn:E1; cbn; auto. destruct (0 <=? b) eqn:E2; cbn; auto.
    apply Z.leb_le in E1, E2. inversion F as [? ? H|? ? H]; subst; [lia|]. inversion H as [? ? H'|? ? H']; subst; [lia|]. inversion H'.
Qed.

Lemma num_3D_tet k : num_3D k = tet (Z.of_nat k).
Proof. reflexivity. Qed.

Lemma idx3_range a b c : 0 <= a -> 0 <= b -> 0 <= c -> tet (a + b + c - 1) <= idx3 [a; b; c] < tet (a + b + c).
Proof.
  intros. unfold idx3. cbn [nth]. rewrite (tet_step (a + b + c)) by lia.
  pose proof (tri_mono (a + b + 1) (a + b + c + 1) ltac:(lia)).
  pose proof (tri_step (a + b)). pose proof (tri_nonneg (a + b) ltac:(lia)). lia.
Qed.
Lemma idx3_degree a b c a' b' c' : 0 <= a -> 0 <= b -> 0 <= c -> 0 <= a' -> 0 <= b' -> 0 <= c' ->
  a + b + c < a' + b' + c' -> idx3 [a; b; c] < idx3 [a'; b'; c'].
Proof.
  intros. pose proof (idx3_range a b c). pose proof (idx3_range a' b' c').
  pose proof (tet_mono (a + b + c) (a' + b' + c' - 1) ltac:(lia)). lia.
Qed.
Lemma idx3_same a b c a' b' c' : 0 <= a -> 0 <= b -> 0 <= c -> 0 <= a' -> 0 <= b' -> 0 <= c' ->
  a + b + c = a' + b' + c' -> a + b < a' + b' -> idx3 [a'; b'; c'] < idx3 [a; b; c].
Proof.
  intros. unfold idx3. cbn [nth]. rewrite H5. pose proof (tri_lt (a + b + 1) (a' + b' + 1) ltac:(lia)).
  pose proof (tri_step (a' + b')). pose proof (tri_mono (a + b + 1) (a' + b') ltac:(lia)). lia.
Qed.

Lemma good_3D : good Monomials_3D idx3.
Proof.
  constructor; cbn [mc_dim mc_num mc_next mc_Index mc_der mc_der2 Monomials_3D]; try (intros; lia).
  - intros e (a & b & c & -> & Ha & Hb & Hc)%tuple_3. unfold Index_3D. cbn [idx_ nth_error bind]. leb_true. cbn [andb].
    rewrite tri1. unfold idx3, tet. cbn [nth]. do 3 f_equal. unfold esum. cbn [fold_right].
    replace (a + (b + (c + 0))) with (a + b + c) by lia. reflexivity.
  - intros e (a & b & c & -> & Ha & Hb & Hc)%tuple_3. pose proof (idx3_range a b c Ha Hb Hc).
    pose proof (tet_mono (-1) (a + b + c - 1) ltac:(lia)). change (tet (-1)) with 0 in *. lia.
  - reflexivity.
  - intros e (a & b & c & -> & Ha & Hb & Hc)%tuple_3. unfold next_3D. cbn [idx_ nth_error bind]. destruct (a =? 0) eqn:E.
    + apply Z.eqb_eq in E. subst a. destruct (b =? 0) eqn:E.
      * apply Z.eqb_eq in E. subst b. eexists. split; [reflexivity|]. split.
        -- apply tuple_3. exists (c + 1), 0, 0. repeat split; lia.
        -- unfold idx3. cbn [nth]. replace (c + 1 + 0 + 0) with (c + 1) by lia. rewrite (tet_step (c + 1)) by lia.
           replace (c + 1 - 1) with c by lia. replace (0 + 0 + c) with c by lia. replace (c + 1 + 0 + 1) with (c + 1 + 1) by lia.
           change (tri (0 + 0 + 1)) with 1. lia.
      * apply Z.eqb_neq in E. eexists. split; [reflexivity|]. split.
        -- apply tuple_3. exists (0 + b - 1), 0, (c + 1). repeat split; lia.
        -- unfold idx3. cbn [nth]. replace (0 + b - 1 + 0 + (c + 1)) with (0 + b + c) by lia.
           replace (0 + b - 1 + 0 + 1) with b by lia. replace (0 + b + 1) with (b + 1) by lia. rewrite tri_step. lia.
    + apply Z.eqb_neq in E. eexists. split; [reflexivity|]. split.
      * apply tuple_3. exists (a - 1), (b + 1), c. repeat split; lia.
      * unfold idx3. cbn [nth]. replace (a - 1 + (b + 1)) with (a + b) by lia. lia.
  - intros e e' (a & b & c & -> & Ha & Hb & Hc)%tuple_3 (a' & b' & c' & -> & Ha' & Hb' & Hc')%tuple_3 E.
    destruct (Z.lt_trichotomy (a + b + c) (a' + b' + c')) as [L|[L|L]].
    + pose proof (idx3_degree a b c a' b' c' Ha Hb Hc Ha' Hb' Hc' L). lia.
    + destruct (Z.lt_trichotomy (a + b) (a' + b')) as [L'|[L'|L']].
      * pose proof (idx3_same a b c a' b' c' Ha Hb Hc Ha' Hb' Hc' L L'). lia.
      * unfold idx3 in E. cbn [nth] in E. rewrite L, L' in E. assert (b = b') by lia. subst. assert (a = a') by lia. subst.
        assert (c = c') by lia. now subst.
      * pose proof (idx3_same a' b' c' a b c Ha' Hb' Hc' Ha Hb Hc (eq_sym L) L'). lia.
    + pose proof (idx3_degree a' b' c' a b c Ha' Hb' Hc' Ha Hb Hc L). lia.
  - intros k e (a & b & c & -> & Ha & Hb & Hc)%tuple_3. rewrite num_3D_tet. unfold degree. cbn [fold_right].
    pose proof (idx3_range a b c Ha Hb Hc). split; intros H1.
    + destruct (Z_le_gt_dec (a + b + c) (Z.of_nat k)) as [|G]; [lia|].
      pose proof (tet_mono (Z.of_nat k) (a + b + c - 1) ltac:(lia)). lia.
    + pose proof (tet_mono (a + b + c) (Z.of_nat k) ltac:(lia)). lia.
  - intros k. rewrite num_3D_tet. pose proof (tet_mono 0 (Z.of_nat k) ltac:(lia)). change (tet 0) with 1 in *. lia.
  - intros e (a & b & c & -> & Ha & Hb & Hc)%tuple_3. unfold der_3D. cbn [idx_ nth_error bind]. rewrite tri1.
    eexists. split; [reflexivity|]. split; auto.
    intros [|[|[|d]]] Hd; [| | |lia]; cbn [nth lower replace].
    + destruct (0 <? a) eqn:E; auto. apply Z.ltb_lt in E. unfold idx3. cbn [nth].
      rewrite (tet_step (a + b + c)) by lia. replace (a - 1 + b + c) with (a + b + c - 1) by lia.
      replace (a + b + 1) with (a - 1 + b + 1 + 1) by lia. rewrite (tri_step (a - 1 + b + 1)). lia.
    + destruct (0 <? b) eqn:E; auto. apply Z.ltb_lt in E. unfold idx3. cbn [nth].
      rewrite (tet_step (a + b + c)) by lia. replace (a + (b - 1) + c) with (a + b + c - 1) by lia.
      replace (a + b + 1) with (a + (b - 1) + 1 + 1) by lia. rewrite (tri_step (a + (b - 1) + 1)). lia.
    + destruct (0 <? c) eqn:E; auto. apply Z.ltb_lt in E. unfold idx3. cbn [nth].
      rewrite (tet_step (a + b + c)) by lia. replace (a + b + (c - 1)) with (a + b + c - 1) by lia. lia.
  - intros e (a & b & c & -> & Ha & Hb & Hc)%tuple_3. unfold der2_3D. cbn [idx_ nth_error bind].
    eexists. split; [reflexivity|]. split; auto.
    assert (SQ : 1 <= a + b + c -> tet (a + b + c) = tet (a + b + c - 2) + (a + b + c + 1) * (a + b + c + 1)).
    { intros H1. rewrite (tet_step (a + b + c)) by lia. rewrite (tet_step (a + b + c - 1)) by lia.
      replace (a + b + c - 1 - 1) with (a + b + c - 2) by lia. replace (a + b + c - 1 + 1) with (a + b + c) by lia.
      pose proof (tri2 (a + b + c) ltac:(lia)). pose proof (tri2 (a + b + c + 1) ltac:(lia)). nia. }
    intros [|[|[|d]]] Hd; [| | |lia]; cbn [nth lower replace].
    + destruct (1 <? a) eqn:E; auto. apply Z.ltb_lt in E. unfold idx3. cbn [nth].
      rewrite SQ by lia. replace (a - 2 + b + c) with (a + b + c - 2) by lia.
      replace (a + b + 1) with (a - 2 + b + 1 + 1 + 1) by lia. rewrite !(tri_step (a - 2 + b + 1 + 1)), !(tri_step (a - 2 + b + 1)). lia.
    + destruct (1 <? b) eqn:E; auto. apply Z.ltb_lt in E. unfold idx3. cbn [nth].
      rewrite SQ by lia. replace (a + (b - 2) + c) with (a + b + c - 2) by lia.
      replace (a + b + 1) with (a + (b - 2) + 1 + 1 + 1) by lia. rewrite !(tri_step (a + (b - 2) + 1 + 1)), !(tri_step (a + (b - 2) + 1)). lia.
    + destruct (1 <? c) eqn:E; auto. apply Z.ltb_lt in E. unfold idx3. cbn [nth].
      rewrite SQ by lia. replace (a + b + (c - 2)) with (a + b + c - 2) by lia. lia.
  - intros e L F. destruct e as [|a [|b [|c [|? e]]]]; try discriminate. cbn.
    destruct (0 <=? a) eqn:E1; cbn; auto. destruct (0 <=? b) eqn:E2; cbn; auto. destruct (0 <=? c) eqn:E3; cbn; auto.
    apply Z.leb_le in E1, E2, E3. inversion F as [? ? H|? ? H]; subst; [lia|]. inversion H as [? ? H'|? ? H']; subst; [lia|].
    inversion H' as [? ? H2|? ? H2]; subst; [lia|]. inversion H2.
Qed.
