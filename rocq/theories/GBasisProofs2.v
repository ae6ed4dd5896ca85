From Coq Require Import List Arith Bool Lia ZArith Reals Lra Permutation.
From Verif Require Import Base RSum MatrixModel MonomialsModel MonomialsSpec MonomialsProofs MonomialsProofs2 MonomialsProofs3 MonomialsProofs4 GBasisModel GBasisSpec GBasisProofs.
Import ListNotations.
Local Open Scope R_scope.

Lemma put_if_ok D G Nk cols VD f cond i g j I col v : VDshape D G Nk cols VD f -> (i < D)%nat -> (g < G)%nat -> (j < Nk)%nat ->
  (cond = true -> exists row, nth_error I i = Some row /\ nth_error row g = Some col /\ (0 <= col)%Z /\ (Z.to_nat col < cols g)%nat) ->
  exists VD', put_if cond VD i g j I v = Ok VD' /\ VDshape D G Nk cols VD' (upd4 f cond i g j (Z.to_nat col) v).
Proof.
  intros H Hi Hg Hj Hc. unfold put_if. destruct cond.
  - destruct (Hc eq_refl) as (row & E1 & E2 & E3 & E4). rewrite (proj2 (idx_Ok _ _ _) E1). cbn [bind]. rewrite (proj2 (idx_Ok _ _ _) E2). cbn [bind].
    now apply put_ok.
  - exists VD. split; auto.
Qed.

Lemma put_first_if_ok D G Nk cols VD f cond mp i j I c col v : VDshape D G Nk cols VD f -> (i < D)%nat -> (1 < G)%nat -> (j < Nk)%nat ->
  (cond = true -> exists row, nth_error I i = Some row /\ nth_error row 1 = Some c /\ (0 <= c)%Z /\ nth_error mp (Z.to_nat c) = Some col /\
     (0 <= col)%Z /\ (Z.to_nat col < cols 1%nat)%nat) ->
  exists VD', put_first_if cond mp VD i j I v = Ok VD' /\ VDshape D G Nk cols VD' (upd4 f cond i 1 j (Z.to_nat col) v).
Proof.
  intros H Hi Hg Hj Hc. unfold put_first_if. destruct cond.
  - destruct (Hc eq_refl) as (row & E1 & E2 & E3 & E4 & E5 & E6). rewrite (proj2 (idx_Ok _ _ _) E1). cbn [bind]. rewrite (proj2 (idx_Ok _ _ _) E2). cbn [bind].
    unfold zidx. rewrite (proj2 (Z.leb_le 0 c) E3). rewrite (proj2 (idx_Ok _ _ _) E4). cbn [bind].
    now apply put_ok.
  - exists VD. split; auto.
Qed.

Lemma class3 : class_of 3 Monomials_3D.
Proof. right; right; auto. Qed.

Lemma without_x_S exps n : without_x exps (S n) = without_x exps n ++ (if (nth 0 (expo exps n) 0 =? 0)%Z then [n] else []).
Proof. unfold without_x. rewrite seq_snoc, filter_app. cbn [filter]. rewrite Nat.add_0_l. reflexivity. Qed.

Section ThreeD.
Context (k : nat).
Let M := Monomials_3D.
Let G := good_3D.
Let Nk := ((k + 1) * (k + 2) * (k + 3) / 6)%nat.
Let Nkp1 := ((k + 2) * (k + 3) * (k + 4) / 6)%nat.
Let Nkm1 := (k * (k + 1) * (k + 2) / 6)%nat.
Let Dim1 := (Nkm1 - (k - 1) * k * (k + 1) / 6)%nat.

Lemma sixth_num j : ((j + 1) * (j + 2) * (j + 3) / 6 = numM M j)%nat.
Proof.
  pose proof (proj2 (proj2 (class_num 3 M j class3)) eq_refl) as H. rewrite <- H. rewrite Nat.mul_comm. apply Nat.div_mul. lia.
Qed.
Lemma Nk3_num : Nk = numM M k.
Proof. apply sixth_num. Qed.
Lemma Nkp13_num : Nkp1 = numM M (k + 1).
Proof. rewrite <- sixth_num. unfold Nkp1. f_equal. f_equal; [f_equal|]; lia. Qed.
Lemma Nkm13_num : (0 < k)%nat -> Nkm1 = numM M (k - 1).
Proof. intros H. rewrite <- sixth_num. unfold Nkm1. f_equal. f_equal; [f_equal|]; lia. Qed.

Lemma tup3 a b c : (0 <= a)%Z -> (0 <= b)%Z -> (0 <= c)%Z -> tuple 3 [a; b; c].
Proof. intros. split; [reflexivity|]. repeat constructor; auto. Qed.
Lemma idx3_lt j a b c : (0 <= a)%Z -> (0 <= b)%Z -> (0 <= c)%Z -> (a + b + c <= Z.of_nat j)%Z -> (Z.to_nat (idx3 [a; b; c]) < numM M j)%nat.
Proof.
  intros Ha Hb Hc H. apply (idx_lt M idx3 G); [now apply tup3|]. unfold degree. cbn [fold_right]. lia.
Qed.
Lemma enum3 a b c : (0 <= a)%Z -> (0 <= b)%Z -> (0 <= c)%Z -> enum M (Z.to_nat (idx3 [a; b; c])) = [a; b; c].
Proof. intros Ha Hb Hc. apply (enum_idx M idx3 G). now apply tup3. Qed.
Lemma idx3_pos a b c : (0 <= a)%Z -> (0 <= b)%Z -> (0 <= c)%Z -> (0 <= idx3 [a; b; c])%Z.
Proof. intros Ha Hb Hc. apply (g_pos _ _ G). now apply tup3. Qed.
Lemma numM3_gt j : (j < numM M j)%nat.
Proof. pose proof (proj2 (proj2 (class_num 3 M j class3)) eq_refl). nia. Qed.
Lemma enum3_tuple i : exists a b c, enum M i = [a; b; c] /\ (0 <= a)%Z /\ (0 <= b)%Z /\ (0 <= c)%Z.
Proof.
  destruct (proj1 (enum_ok M idx3 G i)) as (L & F). destruct (enum M i) as [|a [|b [|c [|? ?]]]]; try discriminate.
  inversion F as [|? ? Ha F1]; subst. inversion F1 as [|? ? Hb F2]; subst. inversion F2; subst. eauto 8.
Qed.
Lemma enum3_deg j i : (i < numM M j)%nat -> exists a b c, enum M i = [a; b; c] /\ (0 <= a)%Z /\ (0 <= b)%Z /\ (0 <= c)%Z /\ (a + b + c <= Z.of_nat j)%Z.
Proof.
  intros Hi. destruct (enum3_tuple i) as (a & b & c & E & Ha & Hb & Hc). exists a, b, c.
  pose proof (proj1 (enum_lt M idx3 G j i) Hi) as Hd. rewrite E in Hd. unfold degree in Hd. cbn [fold_right] in Hd. repeat (split; auto); lia.
Qed.

Definition tab3 (i : nat) (T : Table3) : Prop := t_n T = Nkp1 /\
  t_at T 0 0 0 = 0%nat /\ forall l a b c, (l < i)%nat -> enum M l = [a; b; c] -> t_at T (Z.to_nat a) (Z.to_nat b) (Z.to_nat c) = l.

Lemma tab3_set i T a b c : tab3 i T -> (0 < i < Nkp1)%nat -> enum M i = [a; b; c] -> exists T', t_set T a b c i = Ok T' /\ tab3 (S i) T'.
Proof.
  intros (H1 & H2 & H3) Hi E. destruct (enum3_deg (k + 1) i) as (a' & b' & c' & E' & Ha & Hb & Hc & Hd); [rewrite <- Nkp13_num; lia|].
  rewrite E in E'. injection E' as <- <- <-. pose proof (numM3_gt (k + 1)) as HN. rewrite <- Nkp13_num in HN.
  unfold t_set, in_table. rewrite H1. repeat (rewrite (proj2 (Z.leb_le 0 _)) by lia). repeat (rewrite (proj2 (Z.ltb_lt _ (Z.of_nat Nkp1))) by lia). cbn [andb].
  eexists. split; [reflexivity|]. unfold tab3. cbn [t_n t_at]. split; auto. split.
  - destruct (Nat.eqb_spec 0 (Z.to_nat a)), (Nat.eqb_spec 0 (Z.to_nat b)), (Nat.eqb_spec 0 (Z.to_nat c)); cbn [andb]; auto.
    exfalso. assert (EE : enum M i = enum M 0) by (rewrite E; cbn; f_equal; [|f_equal; [|f_equal]]; lia).
    apply (enum_inj M idx3 G) in EE. lia.
  - intros l x y z Hl El.
    destruct (enum3_tuple l) as (a2 & b2 & c2 & E2 & Ha2 & Hb2 & Hc2). rewrite El in E2. injection E2 as <- <- <-.
    destruct (Nat.eqb_spec (Z.to_nat x) (Z.to_nat a)) as [Ex|Nx], (Nat.eqb_spec (Z.to_nat y) (Z.to_nat b)) as [Ey|Ny], (Nat.eqb_spec (Z.to_nat z) (Z.to_nat c)) as [Ez|Nz]; cbn [andb];
      try (apply H3; auto; destruct (Nat.eq_dec l i) as [->|]; [|lia]; rewrite E in El; injection El as -> -> ->; congruence).
    apply (enum_inj M idx3 G). rewrite E, El. f_equal; [|f_equal; [|f_equal]]; lia.
Qed.

Context (m : Monomials_Data) (Em : Compute M (k + 1) = Ok m).

Lemma exps3 i : (i < Nkp1)%nat -> nth_error (Exponents m) i = Some (enum M i).
Proof. intros H. apply (u_exp _ _ _ _ _ (the_data M idx3 G _ _ Em)). now rewrite <- Nkp13_num. Qed.
Lemma expo3 i : (i < Nkp1)%nat -> expo (Exponents m) i = enum M i.
Proof. intros H. unfold expo. apply nth_error_nth. now apply exps3. Qed.
Lemma Nkp13_pos : (0 < Nkp1)%nat.
Proof. rewrite Nkp13_num. apply (numM_pos M idx3 G). Qed.
Lemma Nk3_le : (Nk <= Nkp1)%nat.
Proof. unfold Nk, Nkp1. apply Nat.div_le_mono; nia. Qed.
Lemma Nkm13_le : (Nkm1 <= Nkp1)%nat.
Proof. unfold Nkm1, Nkp1. apply Nat.div_le_mono; nia. Qed.

Lemma fill_MapExponents_ok : exists T, fill_MapExponents (Exponents m) Nkp1 = Ok T /\ tab3 Nkp1 T.
Proof.
  unfold fill_MapExponents. pose proof Nkp13_pos as HN.
  match goal with |- exists zz, for_from 1 ?n ?f ?s0 = _ /\ _ =>
    destruct (@for_from_total _ tab3 f n 1%nat s0) as (T & ET & TT) end.
  - repeat split; auto. intros l a b c Hl E. assert (l = 0%nat) by lia. subst l. reflexivity.
  - intros i T Hi HT. rewrite (proj2 (idx_Ok _ _ _) (exps3 (i - 1) ltac:(lia))). cbn [bind].
    pose proof (enum_next M idx3 G (i - 1)) as En. replace (S (i - 1)) with i in En by lia.
    destruct (enum3_tuple (i - 1)) as (a & b & c & E & _). rewrite E in *. cbn [idx_ nth_error bind].
    unfold M in En. cbn [mc_next Monomials_3D] in En. unfold next_3D in En. cbn [idx_ nth_error bind] in En.
    destruct (a =? 0)%Z; [destruct (b =? 0)%Z|]; injection En as En; apply tab3_set; auto; lia.
  - exists T. split; auto. now replace (1 + (Nkp1 - 1))%nat with Nkp1 in TT by lia.
Qed.

(** the map of the first group *)
Definition fg (j : nat) (s : list Z * list nat) : Prop :=
  length (fst s) = Nkm1 /\ snd s = without_x (Exponents m) j /\
  forall i, (i < j)%nat -> nth 0 (enum M i) 0%Z = 0%Z -> exists p, nth_error (fst s) i = Some (Z.of_nat p) /\ nth_error (snd s) p = Some i.

Lemma first_group_ok : exists s, first_group (Exponents m) Nkm1 = Ok s /\ fg Nkm1 s.
Proof.
  unfold first_group. pose proof Nkm13_le as Hle.
  match goal with |- exists zz, for_loop ?n ?f ?s0 = _ /\ _ => destruct (@for_loop_total _ fg f n s0) as (s & E & F) end.
  - split; [apply repeat_length|]. split; [reflexivity|]. intros; lia.
  - intros j (mp, sv) Hj (F1 & F2 & F3). cbn [fst snd] in *.
    rewrite (proj2 (idx_Ok _ _ _) (exps3 j ltac:(lia))). cbn [bind].
    assert (E0 : idx_ (enum M j) 0 = Ok (nth 0 (enum M j) 0%Z)).
    { destruct (enum3_tuple j) as (a & b & c & E & _). now rewrite E. }
    rewrite E0. cbn [bind]. pose proof (without_x_S (Exponents m) j) as W. rewrite expo3 in W by lia.
    destruct (nth 0 (enum M j) 0 =? 0)%Z eqn:Ez.
    + rewrite set_idx_Ok by lia. cbn [bind]. eexists. split; [reflexivity|]. unfold fg. cbn [fst snd]. rewrite replace_length. split; auto.
      split; [now rewrite W, F2|]. intros i Hi Hi0. destruct (Nat.eq_dec i j) as [->|Ni].
      * exists (length sv). rewrite nth_error_replace_eq by lia. split; auto. rewrite nth_error_app2, Nat.sub_diag by lia. reflexivity.
      * destruct (F3 i ltac:(lia) Hi0) as (p & P1 & P2). exists p. rewrite nth_error_replace_neq by auto. split; auto.
        rewrite nth_error_app1; auto. apply nth_error_lt in P2. auto.
    + eexists. split; [reflexivity|]. unfold fg. cbn [fst snd]. split; auto. rewrite app_nil_r in W. split; [congruence|].
      intros i Hi Hi0. destruct (Nat.eq_dec i j) as [->|Ni]; [apply Z.eqb_neq in Ez; congruence|]. apply F3; auto. lia.
  - exists s. auto.
Qed.

(** its size *)
Lemma without_x_length : length (without_x (Exponents m) Nkm1) = Dim1.
Proof.
  pose proof Nkm13_le as Hle. unfold Dim1. destruct (Nat.eq_dec k 0) as [K0|K0].
  - assert (EN : Nkm1 = 0%nat) by (unfold Nkm1; now rewrite K0). rewrite EN. reflexivity.
  - destruct (Compute_ok Monomials_2D idx2 good_2D (k - 1)) as (m2 & E2 & _).
    set (l2 := map (fun i => 0%Z :: enum Monomials_2D i) (seq 0 (numM Monomials_2D (k - 1)))).
    set (l1 := map (enum M) (without_x (Exponents m) Nkm1)).
    assert (P : Permutation l1 l2).
    { apply NoDup_Permutation.
      - apply FinFun.Injective_map_NoDup; [intros i j; apply (enum_inj M idx3 G)|]. apply NoDup_filter, seq_NoDup.
      - apply FinFun.Injective_map_NoDup; [|apply seq_NoDup]. intros i j Hij. injection Hij as Hij. now apply (enum_inj Monomials_2D idx2 good_2D).
      - intros e. unfold l1, l2. rewrite !in_map_iff. split.
        + intros (i & <- & Hi). unfold without_x in Hi. apply filter_In in Hi. destruct Hi as (Hi & H0). apply in_seq in Hi.
          rewrite expo3 in H0 by lia. rewrite (Nkm13_num ltac:(lia)) in Hi.
          destruct (enum3_deg (k - 1) i ltac:(lia)) as (a & b & c & E & Ha & Hb & Hc & Hd). rewrite E in *. cbn [nth] in H0. apply Z.eqb_eq in H0. subst a.
          assert (T2 : tuple 2 [b; c]) by (apply tuple_2; eauto).
          exists (Z.to_nat (idx2 [b; c])). rewrite (enum_idx Monomials_2D idx2 good_2D) by auto. split; auto.
          apply in_seq. split; [lia|]. apply (idx_lt Monomials_2D idx2 good_2D); auto. unfold degree. cbn [fold_right]. lia.
        + intros (i & <- & Hi). apply in_seq in Hi.
          destruct (proj1 (tuple_2 _) (proj1 (enum_ok Monomials_2D idx2 good_2D i))) as (a & b & E & Ha & Hb). rewrite E.
          pose proof (proj1 (enum_lt Monomials_2D idx2 good_2D (k - 1) i) ltac:(lia)) as Hd. rewrite E in Hd. unfold degree in Hd. cbn [fold_right] in Hd.
          exists (Z.to_nat (idx3 [0; a; b]%Z)). rewrite enum3 by lia. split; auto. unfold without_x. apply filter_In. rewrite in_seq, Nat.add_0_l.
          assert (Hlt : (Z.to_nat (idx3 [0; a; b]%Z) < Nkm1)%nat) by (rewrite (Nkm13_num ltac:(lia)); apply idx3_lt; lia).
          split; [lia|]. rewrite expo3 by lia. rewrite enum3 by lia. reflexivity. }
    apply Permutation_length in P. unfold l1, l2 in P. rewrite !map_length, seq_length in P. rewrite P.
    pose proof (proj1 (proj2 (class_num 2 Monomials_2D (k - 1) class2)) eq_refl) as N2.
    pose proof (proj2 (proj2 (class_num 3 M (k - 1) class3)) eq_refl) as N3. rewrite (Nkm13_num ltac:(lia)).
    destruct (Nat.eq_dec k 1) as [K1|K1].
    + replace (k - 1)%nat with 0%nat in * by lia. change (0 * k * (k + 1))%nat with 0%nat. change (0 / 6)%nat with 0%nat. lia.
    + pose proof (sixth_num (k - 2)) as N4. replace ((k - 2 + 1) * (k - 2 + 2) * (k - 2 + 3))%nat with ((k - 1) * k * (k + 1))%nat in N4 by (f_equal; [f_equal|]; lia).
      rewrite N4. pose proof (proj2 (proj2 (class_num 3 M (k - 2) class3)) eq_refl) as N5.
      destruct k as [|[|k2]]; try lia. replace (S (S k2) - 1)%nat with (S k2) in * by lia. replace (S (S k2) - 2)%nat with k2 in * by lia. nia.
Qed.

Context (T : Table3) (TT : tab3 Nkp1 T) (mp : list Z) (sv : list nat) (FG : fg Nkm1 (mp, sv)).

Lemma tab3_get a b c : (0 <= a)%Z -> (0 <= b)%Z -> (0 <= c)%Z -> (a + b + c <= Z.of_nat k + 1)%Z -> t_get T a b c = Ok (idx3 [a; b; c]).
Proof.
  intros Ha Hb Hc H. destruct TT as (H1 & H2 & H3). unfold t_get, in_table. rewrite H1.
  pose proof (numM3_gt (k + 1)) as HN. rewrite <- Nkp13_num in HN.
  repeat (rewrite (proj2 (Z.leb_le 0 _)) by lia). repeat (rewrite (proj2 (Z.ltb_lt _ (Z.of_nat Nkp1))) by lia). cbn [andb].
  f_equal. rewrite (H3 (Z.to_nat (idx3 [a; b; c])) a b c).
  - pose proof (idx3_pos a b c Ha Hb Hc). lia.
  - rewrite Nkp13_num. apply idx3_lt; auto; lia.
  - now apply enum3.
Qed.
Lemma tab3_get_if (cond : bool) a b c : (cond = true -> (0 <= a)%Z /\ (0 <= b)%Z /\ (0 <= c)%Z /\ (a + b + c <= Z.of_nat k + 1)%Z) ->
  (if cond then t_get T a b c else Ok (-1)%Z) = Ok (if cond then idx3 [a; b; c] else (-1)%Z).
Proof. intros H. destruct cond; auto. destruct (H eq_refl) as (? & ? & ? & ?). now apply tab3_get. Qed.

(** column of the first group of a monomial *)
Definition pos1 (e : list Z) : Z := nth (Z.to_nat (idx3 e)) mp (-1)%Z.

Lemma pos1_ok b c : (0 <= b)%Z -> (0 <= c)%Z -> (b + c <= Z.of_nat k - 1)%Z ->
  nth_error mp (Z.to_nat (idx3 [0; b; c]%Z)) = Some (pos1 [0; b; c]%Z) /\ (0 <= pos1 [0; b; c]%Z)%Z /\
  nth_error (without_x (Exponents m) Nkm1) (Z.to_nat (pos1 [0; b; c]%Z)) = Some (Z.to_nat (idx3 [0; b; c]%Z)).
Proof.
  intros Hb Hc H. destruct FG as (F1 & F2 & F3). cbn [fst snd] in *.
  destruct (F3 (Z.to_nat (idx3 [0; b; c]%Z))) as (p & P1 & P2).
  - rewrite Nkm13_num by lia. apply idx3_lt; lia.
  - now rewrite enum3 by lia.
  - assert (EP : pos1 [0; b; c]%Z = Z.of_nat p) by (unfold pos1; now apply nth_error_nth). rewrite EP, Nat2Z.id. split; auto. split; [lia|].
    now rewrite <- F2.
Qed.

Lemma pos1_lt b c : (0 <= b)%Z -> (0 <= c)%Z -> (b + c <= Z.of_nat k - 1)%Z -> (Z.to_nat (pos1 [0; b; c]%Z) < Dim1)%nat.
Proof. intros Hb Hc H. destruct (pos1_ok b c Hb Hc H) as (_ & _ & P). apply nth_error_lt in P. now rewrite without_x_length in P. Qed.

Definition val3 (i g : nat) (e : list Z) (col : nat) : R :=
  let a := nth 0 e 0%Z in let b := nth 1 e 0%Z in let c := nth 2 e 0%Z in let inv := 1 / (IZR (esum e) + 1) in
  let one (cond : bool) (c0 : Z) (v : R) := if cond && (col =? Z.to_nat c0)%nat then v else 0 in
  match i, g with
  | 0%nat, 0%nat => one true (idx3 [a + 1; b; c]%Z) inv
  | 0%nat, 2%nat => one (0 <? c)%Z (idx3 [a; b; c - 1]%Z) (- IZR c * inv)
  | 0%nat, 3%nat => one (0 <? b)%Z (idx3 [a; b - 1; c]%Z) (IZR b * inv)
  | 1%nat, 0%nat => one true (idx3 [a; b + 1; c]%Z) inv
  | 1%nat, 1%nat => one ((0 <? c) && (a =? 0))%Z (pos1 [0; b; c - 1]%Z) (IZR c * inv)
  | 1%nat, 2%nat => one ((0 <? a) && (0 <? c))%Z (idx3 [a - 1; b + 1; c - 1]%Z) (- IZR c * inv)
  | 1%nat, 3%nat => one (0 <? a)%Z (idx3 [a - 1; b; c]%Z) (- IZR (a + c) * inv)
  | 2%nat, 0%nat => one true (idx3 [a; b; c + 1]%Z) inv
  | 2%nat, 1%nat => one ((0 <? b) && (a =? 0))%Z (pos1 [0; b - 1; c]%Z) (- IZR b * inv)
  | 2%nat, 2%nat => one (0 <? a)%Z (idx3 [a - 1; b; c]%Z) (IZR (a + b) * inv)
  | 2%nat, 3%nat => one ((0 <? a) && (0 <? b))%Z (idx3 [a - 1; b - 1; c + 1]%Z) (IZR b * inv)
  | _, _ => 0
  end.

Definition cols3 (g : nat) : nat := match g with 0%nat => Nkp1 | 1%nat => Dim1 | _ => Nkm1 end.
Definition shape3 (j : nat) (VD : list (list Mat)) : Prop :=
  VDshape 3 4 Nk cols3 VD (fun i g r c => if (r <? j)%nat then val3 i g (enum M r) c else 0).

Ltac cond_facts := repeat match goal with
  | H : (_ && _ = true)%bool |- _ => apply andb_prop in H; destruct H
  | H : (_ <? _)%Z = true |- _ => apply Z.ltb_lt in H
  | H : (_ =? _)%Z = true |- _ => apply Z.eqb_eq in H
  end.

Lemma decompose_3D_ok j VD : (j < Nk)%nat -> shape3 j VD -> exists VD', decompose_3D (Exponents m) T mp j VD = Ok VD' /\ shape3 (S j) VD'.
Proof.
  intros Hj H. unfold decompose_3D. pose proof Nk3_le as Hle.
  rewrite (proj2 (idx_Ok _ _ _) (exps3 j ltac:(lia))). cbn [bind].
  destruct (enum3_deg k j ltac:(rewrite <- Nk3_num; auto)) as (a & b & c & E & Ha & Hb & Hc & Hd). rewrite E.
  unfold VectorDecompositionIndices_3D. cbn [idx_ nth_error bind].
  rewrite (tab3_get (a + 1) b c) by lia. cbn [bind].
  rewrite (tab3_get_if (0 <? c)%Z) by (intros; cond_facts; lia). cbn [bind].
  rewrite (tab3_get_if (0 <? b)%Z) by (intros; cond_facts; lia). cbn [bind].
  rewrite (tab3_get a (b + 1) c) by lia. cbn [bind].
  rewrite (tab3_get_if ((a =? 0) && (0 <? c))%Z) by (intros; cond_facts; lia). cbn [bind].
  rewrite (tab3_get_if ((0 <? a) && (0 <? c))%Z) by (intros; cond_facts; lia). cbn [bind].
  rewrite (tab3_get_if (0 <? a)%Z) by (intros; cond_facts; lia). cbn [bind].
  rewrite (tab3_get a b (c + 1)) by lia. cbn [bind].
  rewrite (tab3_get_if ((a =? 0) && (0 <? b))%Z) by (intros; cond_facts; lia). cbn [bind].
  rewrite (tab3_get_if ((0 <? a) && (0 <? b))%Z) by (intros; cond_facts; lia). cbn [bind].
  set (I := [_; _; _]). set (inv := 1 / (IZR (esum [a; b; c]) + 1)).
  assert (Z1 : forall n a' b' c', (0 <= a')%Z -> (0 <= b')%Z -> (0 <= c')%Z -> (a' + b' + c' <= Z.of_nat n)%Z ->
      (0 <= idx3 [a'; b'; c'])%Z /\ (Z.to_nat (idx3 [a'; b'; c']) < numM M n)%nat).
  { intros. split; [now apply idx3_pos|now apply idx3_lt]. }
  Ltac side Z1 := intros; cond_facts; eexists; split; [reflexivity|]; cbn [nth_error]; split;
     [repeat match goal with |- context [(?x <? ?y)%Z] => rewrite (proj2 (Z.ltb_lt x y)) by lia | |- context [(?x =? ?y)%Z] => rewrite (proj2 (Z.eqb_eq x y)) by lia end; reflexivity|];
     cbn [cols3]; rewrite ?Nkp13_num; rewrite ?Nkm13_num by lia; apply Z1; lia.
  Ltac side1 b c := intros; cond_facts; eexists; split; [reflexivity|]; cbn [nth_error]; split;
     [repeat match goal with |- context [(?x <? ?y)%Z] => rewrite (proj2 (Z.ltb_lt x y)) by lia | |- context [(?x =? ?y)%Z] => rewrite (proj2 (Z.eqb_eq x y)) by lia end; cbn [andb]; repeat match goal with H0 : _ = 0%Z |- _ => rewrite H0 end; reflexivity|];
     split; [apply idx3_pos; lia|]; pose proof (pos1_ok b c ltac:(lia) ltac:(lia) ltac:(lia)) as (PA & PB & PC); split; [exact PA|]; split; [exact PB|];
     cbn [cols3]; apply pos1_lt; lia.
  destruct (put_if_ok _ _ _ _ _ _ true 0 0 j I (idx3 [a + 1; b; c]%Z) inv H ltac:(lia) ltac:(lia) Hj) as (V1 & P1 & H1); [side Z1|].
  rewrite P1. cbn [bind]. clear P1 H.
  destruct (put_if_ok _ _ _ _ _ _ (0 <? c)%Z 0 2 j I (idx3 [a; b; c - 1]%Z) (- IZR c * inv) H1 ltac:(lia) ltac:(lia) Hj) as (V2 & P2 & H2); [side Z1|].
  rewrite P2. cbn [bind]. clear P2 H1.
  destruct (put_if_ok _ _ _ _ _ _ (0 <? b)%Z 0 3 j I (idx3 [a; b - 1; c]%Z) (IZR b * inv) H2 ltac:(lia) ltac:(lia) Hj) as (V3 & P3 & H3); [side Z1|].
  rewrite P3. cbn [bind]. clear P3 H2.
  destruct (put_if_ok _ _ _ _ _ _ true 1 0 j I (idx3 [a; b + 1; c]%Z) inv H3 ltac:(lia) ltac:(lia) Hj) as (V4 & P4 & H4); [side Z1|].
  rewrite P4. cbn [bind]. clear P4 H3.
  destruct (put_first_if_ok _ _ _ _ _ _ ((0 <? c) && (a =? 0))%Z mp 1 j I (idx3 [0; b; c - 1]%Z) (pos1 [0; b; c - 1]%Z) (IZR c * inv) H4 ltac:(lia) ltac:(lia) Hj) as (V5 & P5 & H5); [side1 b (c - 1)%Z|].
  rewrite P5. cbn [bind]. clear P5 H4.
  destruct (put_if_ok _ _ _ _ _ _ ((0 <? a) && (0 <? c))%Z 1 2 j I (idx3 [a - 1; b + 1; c - 1]%Z) (- IZR c * inv) H5 ltac:(lia) ltac:(lia) Hj) as (V6 & P6 & H6); [side Z1|].
  rewrite P6. cbn [bind]. clear P6 H5.
  destruct (put_if_ok _ _ _ _ _ _ (0 <? a)%Z 1 3 j I (idx3 [a - 1; b; c]%Z) (- IZR (a + c) * inv) H6 ltac:(lia) ltac:(lia) Hj) as (V7 & P7 & H7); [side Z1|].
  rewrite P7. cbn [bind]. clear P7 H6.
  destruct (put_if_ok _ _ _ _ _ _ true 2 0 j I (idx3 [a; b; c + 1]%Z) inv H7 ltac:(lia) ltac:(lia) Hj) as (V8 & P8 & H8); [side Z1|].
  rewrite P8. cbn [bind]. clear P8 H7.
  destruct (put_first_if_ok _ _ _ _ _ _ ((0 <? b) && (a =? 0))%Z mp 2 j I (idx3 [0; b - 1; c]%Z) (pos1 [0; b - 1; c]%Z) (- IZR b * inv) H8 ltac:(lia) ltac:(lia) Hj) as (V9 & P9 & H9); [side1 (b - 1)%Z c|].
  rewrite P9. cbn [bind]. clear P9 H8.
  destruct (put_if_ok _ _ _ _ _ _ (0 <? a)%Z 2 2 j I (idx3 [a - 1; b; c]%Z) (IZR (a + b) * inv) H9 ltac:(lia) ltac:(lia) Hj) as (V10 & P10 & H10); [side Z1|].
  rewrite P10. cbn [bind]. clear P10 H9.
  destruct (put_if_ok _ _ _ _ _ _ ((0 <? a) && (0 <? b))%Z 2 3 j I (idx3 [a - 1; b - 1; c + 1]%Z) (IZR b * inv) H10 ltac:(lia) ltac:(lia) Hj) as (V11 & P11 & H11); [side Z1|].
  exists V11. split; auto. eapply VDshape_ext; [exact H11|]. clear H11 P11 H10. intros i g r cc Hi Hg. cbv beta.
  destruct (Nat.eq_dec r j) as [->|Nr].
  - rewrite (proj2 (Nat.ltb_lt j (S j))) by lia. rewrite E. unfold upd4, val3. cbn [nth]. rewrite Nat.eqb_refl, Nat.ltb_irrefl. fold inv.
    destruct i as [|[|[|i]]]; [| | |lia]; (destruct g as [|[|[|[|g]]]]; [| | | |lia]); cbn [Nat.eqb andb]; rewrite ?andb_false_r, ?andb_true_r; cbn [andb]; try reflexivity.
  - replace (r <? S j)%nat with (r <? j)%nat.
    + unfold upd4. destruct (Nat.eqb_spec r j); [congruence|]. rewrite !andb_false_r. cbn [andb]. reflexivity.
    + apply Bool.eq_iff_eq_true. rewrite !Nat.ltb_lt. lia.
Qed.

Lemma decomposition_3D_ok : exists VD, for_loop Nk (decompose_3D (Exponents m) T mp) (repeat [mzero Nk Nkp1; mzero Nk Dim1; mzero Nk Nkm1; mzero Nk Nkm1] 3) = Ok VD /\ shape3 Nk VD.
Proof.
  match goal with |- exists zz, for_loop ?n ?f ?s0 = _ /\ _ => destruct (@for_loop_total _ shape3 f n s0) as (VD & EV & TV) end.
  - split; [reflexivity|]. intros i Hi. eexists.
    split; [now apply nth_error_repeat_lt|]. split; [reflexivity|]. intros g Hg. destruct g as [|[|[|[|g]]]]; [| | | |lia]; eexists; repeat split.
  - intros j VD Hj HV. now apply decompose_3D_ok.
  - eauto.
Qed.

Lemma comb3_pick n (F : nat -> R) b e' v x : (forall c, (c < n)%nat -> F c = if b && (c =? Z.to_nat (idx3 e'))%nat then v else 0) -> (n <= Nkp1)%nat ->
  (b = true -> tuple 3 e' /\ (Z.to_nat (idx3 e') < n)%nat) ->
  rsum n (fun l => F l * mono (expo (Exponents m) l) x) = if b then v * mono e' x else 0.
Proof.
  intros H Hn Hb.
  rewrite (rsum_ext n _ (fun l => (if b && (l =? Z.to_nat (idx3 e'))%nat then v else 0) * mono (expo (Exponents m) l) x)).
  - rewrite rsum_pick by (intros Hb'; now apply Hb). destruct b; auto. destruct (Hb eq_refl) as (Ht & Hl).
    rewrite expo3 by lia. now rewrite (enum_idx M idx3 G).
  - intros l Hl. now rewrite H.
Qed.

Let W := without_x (Exponents m) Nkm1.

Lemma comb1_pick (F : nat -> R) cond b c v x : (forall l, (l < Dim1)%nat -> F l = if cond && (l =? Z.to_nat (pos1 [0; b; c]%Z))%nat then v else 0) ->
  (cond = true -> (0 <= b)%Z /\ (0 <= c)%Z /\ (b + c <= Z.of_nat k - 1)%Z) ->
  rsum Dim1 (fun l => F l * mono (expo (Exponents m) (nth l W 0%nat)) x) = if cond then v * mono [0; b; c]%Z x else 0.
Proof.
  intros H Hb. pose proof Nkm13_le as Hle.
  rewrite (rsum_ext Dim1 _ (fun l => (if cond && (l =? Z.to_nat (pos1 [0; b; c]%Z))%nat then v else 0) * mono (expo (Exponents m) (nth l W 0%nat)) x)).
  - rewrite rsum_pick by (intros Hb'; destruct (Hb Hb') as (? & ? & ?); now apply pos1_lt). destruct cond; auto.
    destruct (Hb eq_refl) as (Hb1 & Hc1 & Hd). destruct (pos1_ok b c Hb1 Hc1 Hd) as (_ & _ & P).
    unfold W. rewrite (nth_error_nth _ _ _ P). assert (Hlt : (Z.to_nat (idx3 [0; b; c]%Z) < Nkm1)%nat) by (rewrite (Nkm13_num ltac:(lia)); apply idx3_lt; lia).
    rewrite expo3 by lia. rewrite enum3 by lia. reflexivity.
  - intros l Hl. now rewrite H.
Qed.

(** the part that is not a gradient: the three groups *)
Definition rest (i j c : nat) (x : point) : R :=
  curl_field 0 c x * rsum Dim1 (fun l => val3 i 1 (enum M j) l * mono (expo (Exponents m) (nth l W 0%nat)) x)
  + curl_field 1 c x * rsum Nkm1 (fun l => val3 i 2 (enum M j) l * mono (expo (Exponents m) l) x)
  + curl_field 2 c x * rsum Nkm1 (fun l => val3 i 3 (enum M j) l * mono (expo (Exponents m) l) x).

Lemma rsum_zero_fun n (F H : nat -> R) : (forall l, F l = 0) -> rsum n (fun l => F l * H l) = 0.
Proof. intros E. apply rsum_0. intros l _. rewrite E. ring. Qed.

Lemma decomposition_3D_exact i j c x : (i < 3)%nat -> (j < Nk)%nat -> (c < 3)%nat ->
  is_partial (fun y => rsum Nkp1 (fun l => val3 i 0 (enum M j) l * mono (expo (Exponents m) l) y)) c x
   (delta i c * mono (expo (Exponents m) j) x - rest i j c x).
Proof.
  intros Hi Hj Hc. pose proof Nk3_le as Hle. pose proof Nkm13_le as Hle2.
  destruct (enum3_deg k j ltac:(rewrite <- Nk3_num; auto)) as (a & b & e & E & Ha & Hb & He & Hd). rewrite (expo3 j) by lia. unfold rest. rewrite E.
  assert (T1 : forall n a' b' c', (0 <= a')%Z -> (0 <= b')%Z -> (0 <= c')%Z -> (a' + b' + c' <= Z.of_nat n)%Z ->
     tuple 3 [a'; b'; c'] /\ (Z.to_nat (idx3 [a'; b'; c']) < numM M n)%nat).
  { intros n a' b' c' Ha' Hb' Hc' Hn. split; [now apply tup3|]. now apply idx3_lt. }
  set (s := IZR (esum [a; b; e]) + 1). assert (Hs : s = IZR a + IZR b + IZR e + 1) by (unfold s, esum; cbn [fold_right]; rewrite !plus_IZR; ring).
  assert (Hs0 : IZR a + IZR b + IZR e + 1 <> 0). { pose proof (IZR_le _ _ Ha). pose proof (IZR_le _ _ Hb). pose proof (IZR_le _ _ He). lra. }
  Ltac pick T1 := intros; cond_facts; rewrite ?Nkp13_num; rewrite ?Nkm13_num by lia; apply T1; lia.
  Ltac unf := intros; unfold val3; cbn [nth]; reflexivity.
  (* one goal per component of the field *)
  assert (FIN : forall (F : nat -> R) e' v0,
     (forall l, (l < Nkp1)%nat -> F l = if true && (l =? Z.to_nat (idx3 e'))%nat then 1 / s else 0) -> tuple 3 e' -> (Z.to_nat (idx3 e') < Nkp1)%nat ->
     1 / s * mono_d c e' x = v0 ->
     is_partial (fun y => rsum Nkp1 (fun l => F l * mono (expo (Exponents m) l) y)) c x v0).
  { intros F e' v0 HF Ht Hl Hv. eapply partial_ext; [intros y; symmetry; apply (comb3_pick Nkp1 F true e' (1 / s) y HF ltac:(lia) (fun _ => conj Ht Hl))|].
    cbv beta iota. rewrite <- Hv. apply partial_scal, partial_mono; [destruct Ht; lia|]. destruct Ht as (L & Fo). rewrite Forall_forall in Fo. apply Fo, nth_In. lia. }
  Ltac pos_up := repeat match goal with |- context [(0 <? ?p + 1)%Z] => rewrite (proj2 (Z.ltb_lt 0 (p + 1))) by lia end.
  Ltac pows := repeat match goal with
     | |- context [(?p + 1 - 1)%Z] => replace (p + 1 - 1)%Z with p by lia
     | |- context [(?p - 1 + 1)%Z] => replace (p - 1 + 1)%Z with p by lia end.
  Ltac zero v H := let E0 := fresh in assert (E0 : v = 0%Z) by lia; clear H; subst v.
  Ltac finish c Hs Hs0 a b e :=
    destruct c as [|[|[|c]]]; [| | |lia];
    unfold mono_d, lower, delta; cbn [nth replace Nat.eqb curl_field]; rewrite Hs; pos_up; pows; rewrite ?mono_3;
    let Ga := fresh in let Gb := fresh in let Ge := fresh in
    (destruct (Z.ltb_spec 0 a) as [Ga|Ga]; [destruct (Z.eqb_spec a 0); [lia|]|zero a Ga]);
    (destruct (Z.ltb_spec 0 b) as [Gb|Gb]; [|zero b Gb]);
    (destruct (Z.ltb_spec 0 e) as [Ge|Ge]; [|zero e Ge]);
    cbn [andb Z.eqb]; pos_up; rewrite ?plus_IZR in *;
    rewrite ?pow_upper by lia; rewrite ?(pow_lower _ a) by lia; rewrite ?(pow_lower _ b) by lia; rewrite ?(pow_lower _ e) by lia;
    change (Z.to_nat 0) with 0%nat; change (Z.to_nat (0 + 1)) with 1%nat; cbn [pow];
    try (field; intro; apply Hs0; lra).
  destruct i as [|[|[|i]]]; [| | |lia].
  - apply FIN with (e' := [a + 1; b; e]%Z); [unf|apply tup3; lia|rewrite Nkp13_num; apply idx3_lt; lia|].
    rewrite (rsum_zero_fun Dim1) by reflexivity.
    rewrite (comb3_pick Nkm1 _ (0 <? e)%Z [a; b; e - 1]%Z (- IZR e * (1 / s)) x); [|unf|lia|pick T1].
    rewrite (comb3_pick Nkm1 _ (0 <? b)%Z [a; b - 1; e]%Z (IZR b * (1 / s)) x); [|unf|lia|pick T1].
    finish c Hs Hs0 a b e.
  - apply FIN with (e' := [a; b + 1; e]%Z); [unf|apply tup3; lia|rewrite Nkp13_num; apply idx3_lt; lia|].
    rewrite (comb1_pick _ ((0 <? e) && (a =? 0))%Z b (e - 1)%Z (IZR e * (1 / s)) x); [|unf|intros; cond_facts; lia].
    rewrite (comb3_pick Nkm1 _ ((0 <? a) && (0 <? e))%Z [a - 1; b + 1; e - 1]%Z (- IZR e * (1 / s)) x); [|unf|lia|pick T1].
    rewrite (comb3_pick Nkm1 _ (0 <? a)%Z [a - 1; b; e]%Z (- IZR (a + e) * (1 / s)) x); [|unf|lia|pick T1].
    finish c Hs Hs0 a b e.
  - apply FIN with (e' := [a; b; e + 1]%Z); [unf|apply tup3; lia|rewrite Nkp13_num; apply idx3_lt; lia|].
    rewrite (comb1_pick _ ((0 <? b) && (a =? 0))%Z (b - 1)%Z e (- IZR b * (1 / s)) x); [|unf|intros; cond_facts; lia].
    rewrite (comb3_pick Nkm1 _ (0 <? a)%Z [a - 1; b; e]%Z (IZR (a + b) * (1 / s)) x); [|unf|lia|pick T1].
    rewrite (comb3_pick Nkm1 _ ((0 <? a) && (0 <? b))%Z [a - 1; b - 1; e + 1]%Z (IZR b * (1 / s)) x); [|unf|lia|pick T1].
    finish c Hs Hs0 a b e.
Qed.
End ThreeD.
