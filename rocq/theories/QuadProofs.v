From Coq Require Import List Arith Bool Lia ZArith Reals Lra Permutation.
From Verif Require Import Base RSum MatrixModel MonomialsModel MonomialsSpec GBasisModel GBasisProofs LagrangeModel LagrangeSpec LagrangeProofs LagrangeProofs2
  TriangleModel TriangleSpec QuadModel.
Import ListNotations.
Local Open Scope nat_scope.

(** ** Where the product of one dimensional functions i and j stands *)
Section Index.
Variable n1 : nat.
Definition qi (i j : nat) : nat :=
  match i, j with
  | 0, 0 => 0 | 1, 0 => 1 | 1, 1 => 2 | 0, 1 => 3
  | S (S a), 0 => 4 + a
  | 1, S (S b) => 4 + n1 + b
  | S (S a), 1 => 4 + 2 * n1 + a
  | 0, S (S b) => 4 + 3 * n1 + b
  | S (S a), S (S b) => 4 + 4 * n1 + b * n1 + a
  end.
Let n := n1 + 2.

Lemma qi_lt i j : i < n -> j < n -> qi i j < n * n.
Proof. unfold n. intros Hi Hj. destruct i as [|[|i]], j as [|[|j]]; cbn [qi]; try nia. Qed.
Lemma qi_inj i j i' j' : i < n -> j < n -> i' < n -> j' < n -> qi i j = qi i' j' -> i = i' /\ j = j'.
Proof.
  unfold n. intros Hi Hj Hi' Hj'. destruct i as [|[|i]], j as [|[|j]], i' as [|[|i']], j' as [|[|j']]; cbn [qi]; intros E; try (split; reflexivity); try (exfalso; nia); try (split; lia).
  assert (X : j * n1 + i = j' * n1 + i') by lia. 
  assert (j = j'). { destruct (Nat.lt_trichotomy j j') as [L|[?|L]]; auto; exfalso; nia. }
  subst. split; lia.
Qed.
Lemma qi_surj d : d < n * n -> exists i j, i < n /\ j < n /\ qi i j = d.
Proof.
  unfold n. intros H. destruct (Nat.lt_ge_cases d 4).
  { destruct d as [|[|[|[|d]]]]; [exists 0, 0|exists 1, 0|exists 1, 1|exists 0, 1|lia]; repeat split; lia. }
  destruct (Nat.lt_ge_cases d (4 + n1)). { exists (2 + (d - 4)), 0. cbn [qi Nat.add]. repeat split; lia. }
  destruct (Nat.lt_ge_cases d (4 + 2 * n1)). { exists 1, (2 + (d - 4 - n1)). cbn [qi Nat.add]. repeat split; lia. }
  destruct (Nat.lt_ge_cases d (4 + 3 * n1)). { exists (2 + (d - 4 - 2 * n1)), 1. cbn [qi Nat.add]. repeat split; lia. }
  destruct (Nat.lt_ge_cases d (4 + 4 * n1)). { exists 0, (2 + (d - 4 - 3 * n1)). cbn [qi Nat.add]. repeat split; lia. }
  set (m := d - 4 - 4 * n1). assert (Hm : m < n1 * n1) by (unfold m; nia). assert (n1 <> 0) by (intros ->; lia).
  pose proof (Nat.div_mod m n1 ltac:(auto)) as E. pose proof (Nat.mod_upper_bound m n1 ltac:(auto)) as E'. assert (m / n1 < n1) by (apply Nat.div_lt_upper_bound; auto).
  exists (2 + m mod n1), (2 + m / n1). cbn [qi Nat.add]. repeat split; unfold m in *; nia.
Qed.
End Index.

(** ** The construction *)
Section Create.
Variables (o : nat) (r : Vec).
Hypotheses (Ho : 1 <= o) (Hr : v_size r = o + 1).
Let n1 := o - 1.
Let n := n1 + 2.
Let N := (o + 1) * (o + 1).
Notation Q := (qi n1).

Definition good (P : Mat) (T : list (nat * nat)) (i j : nat) : Prop :=
  nth_error T (Q i j) = Some (i, j) /\ m_at P 0 (Q i j) = v_at r i /\ m_at P 1 (Q i j) = v_at r j.
Definition Inv (W : nat -> nat -> Prop) (s : Mat * list (nat * nat)) : Prop :=
  m_rows (fst s) = 3 /\ m_cols (fst s) = N /\ length (snd s) = N /\ (forall c, m_at (fst s) 2 c = 0%R) /\
  forall i j, i < n -> j < n -> W i j -> good (fst s) (snd s) i j.

Lemma Nn : N = n * n. Proof. unfold N, n, n1. replace (o - 1 + 2) with (o + 1) by lia. auto. Qed.
Lemma Inv_sub (W W' : nat -> nat -> Prop) s : (forall i j, i < n -> j < n -> W' i j -> W i j) -> Inv W s -> Inv W' s.
Proof. intros H (A & B & C & D & E). unfold Inv. do 4 (split; [auto|]). intros. apply E; auto. Qed.

Lemma vget i : i < o + 1 -> vec_get r i = Ok (v_at r i).
Proof. intros H. unfold vec_get. rewrite Hr. destruct (Nat.ltb_spec i (o + 1)); [auto|lia]. Qed.

Lemma put_ok (W : nat -> nat -> Prop) s i j d : Inv W s -> i < n -> j < n -> d = Q i j ->
  exists s', quad_put r d i j s = Ok s' /\ Inv (fun a b => W a b \/ (a, b) = (i, j)) s'.
Proof.
  intros (A & B & C & D & E) Hi Hj ->. destruct s as [P T]. cbn [fst snd] in *. unfold quad_put.
  assert (n = o + 1) by (unfold n, n1; lia). rewrite !vget by lia. cbn [bind].
  pose proof (qi_lt n1 i j Hi Hj) as L. fold n in L. rewrite <- Nn in L.
  unfold mat_set_col. rewrite B. destruct (Nat.ltb_spec (Q i j) N); [|lia]. cbn [bind].
  rewrite set_idx_Ok by lia. cbn [bind]. eexists. split; [reflexivity|]. unfold Inv. cbn [fst snd m_rows m_cols m_at]. rewrite replace_length.
  do 3 (split; [auto|]). split; [intros c; destruct (c =? Q i j)%nat; cbn; auto|].
  intros a b Ha Hb Hw. unfold good. cbn [m_at]. destruct (Nat.eqb_spec (Q a b) (Q i j)) as [X|X].
  - destruct (qi_inj n1 a b i j Ha Hb Hi Hj X) as (-> & ->). rewrite nth_error_replace_eq by lia. auto.
  - rewrite nth_error_replace_neq by auto. destruct Hw as [Hw|Hw]; [apply E; auto|]. injection Hw as -> ->. congruence.
Qed.

Lemma vertices_ok s : Inv (fun _ _ => False) s -> exists s', quad_vertices r s = Ok s' /\ Inv (fun i j => i < 2 /\ j < 2) s'.
Proof.
  intros I. unfold quad_vertices, for_loop. cbn [for_from Nat.eqb Nat.mul Nat.add].
  assert (2 <= n) by (unfold n; lia).
  destruct (put_ok _ s 0 0 0 I) as (s1 & E1 & I1); try lia; auto. rewrite E1. cbn [bind].
  destruct (put_ok _ s1 1 0 1 I1) as (s2 & E2 & I2); try lia; auto. rewrite E2. cbn [bind].
  destruct (put_ok _ s2 1 1 2 I2) as (s3 & E3 & I3); try lia; auto. rewrite E3. cbn [bind].
  destruct (put_ok _ s3 0 1 3 I3) as (s4 & E4 & I4); try lia; auto. rewrite E4. cbn [bind].
  exists s4. split; auto. eapply Inv_sub; [|exact I4]. intros i j _ _ (H1 & H2). destruct i as [|[|i]], j as [|[|j]]; try lia; tauto.
Qed.

(** the loop on the types of one edge *)
Lemma types_ok a (f : nat -> nat * nat) T : a + n1 <= N -> length T = N -> a + n1 <= N ->
  exists T', for_from 2 (o + 1 - 2) (fun d T => set_idx T (a + d - 2) (f d)) T = Ok T' /\ length T' = N /\
    (forall k, k < n1 -> nth_error T' (a + k) = Some (f (2 + k))) /\ (forall d, ~ (a <= d < a + n1) -> nth_error T' d = nth_error T d).
Proof.
  intros Ha HT _. replace (o + 1 - 2) with n1 by (unfold n1; lia).
  assert (G : forall m k T, k + m = 2 + n1 -> 2 <= k -> length T = N -> exists T', for_from k m (fun d T => set_idx T (a + d - 2) (f d)) T = Ok T' /\ length T' = N /\
    (forall d, k <= d -> d < k + m -> nth_error T' (a + d - 2) = Some (f d)) /\ (forall d, ~ (a + k - 2 <= d < a + n1) -> nth_error T' d = nth_error T d)).
  { induction m as [|m IH]; intros k T0 Hk H2 HL.
    - exists T0. repeat split; auto. intros; lia.
    - cbn [for_from]. rewrite set_idx_Ok by lia. cbn [bind]. destruct (IH (S k) (replace T0 (a + k - 2) (f k))) as (T' & E & L & A & B); try lia; [now rewrite replace_length|].
      exists T'. split; auto. split; auto. split.
      + intros d H1 H3. destruct (Nat.eq_dec d k) as [->|]; [|apply A; lia]. rewrite B by lia. rewrite nth_error_replace_eq by lia. auto.
      + intros d Hd. rewrite B by lia. rewrite nth_error_replace_neq by lia. auto. }
  destruct (G n1 2 T ltac:(lia) ltac:(lia) HT) as (T' & E & L & A & B). exists T'. split; auto. split; auto. split.
  - intros k Hk. specialize (A (2 + k) ltac:(lia) ltac:(lia)). replace (a + (2 + k) - 2) with (a + k) in A by lia. auto.
  - intros d Hd. apply B. lia.
Qed.

Lemma outside (edge : nat -> nat -> Prop) (W : nat -> nat -> Prop) a : 
  (forall k, k < n1 -> exists i j, i < n /\ j < n /\ edge i j /\ Q i j = a + k) ->
  forall i j, i < n -> j < n -> ~ edge i j -> ~ (a <= Q i j < a + n1).
Proof.
  intros H i j Hi Hj Ne (L1 & L2). destruct (H (Q i j - a) ltac:(lia)) as (i' & j' & Hi' & Hj' & He & E).
  destruct (qi_inj n1 i j i' j') as (-> & ->); auto. lia.
Qed.

(** one edge *)
Lemma edge_ok W P T a (v0 v1 : nat -> R) (f : nat -> nat * nat) (edge : nat -> nat -> Prop) :
  Inv W (P, T) -> a + n1 <= N ->
  (forall i j, i < n -> j < n -> edge i j \/ ~ edge i j) ->
  (forall i j, i < n -> j < n -> edge i j -> exists k, k < n1 /\ Q i j = a + k /\ f (2 + k) = (i, j) /\ v0 k = v_at r i /\ v1 k = v_at r j) ->
  (forall k, k < n1 -> exists i j, i < n /\ j < n /\ edge i j /\ Q i j = a + k) ->
  exists P1 P2 T', set_row_segment P 0 a n1 v0 = Ok P1 /\ set_row_segment P1 1 a n1 v1 = Ok P2 /\
    for_from 2 (o + 1 - 2) (fun d T => set_idx T (a + d - 2) (f d)) T = Ok T' /\ Inv (fun i j => W i j \/ edge i j) (P2, T').
Proof.
  intros (A & B & C & D & E) Ha Hdec H1 H2. cbn [fst snd] in *. unfold set_row_segment. rewrite A, B.
  destruct (Nat.leb_spec (a + n1) N); [|lia]. change (0 <? 3) with true; change (1 <? 3) with true; cbn [andb].
  eexists _, _. destruct (types_ok a f T Ha C Ha) as (T' & ET & L & T1 & T2). exists T'. split; [reflexivity|]. cbn [m_rows m_cols].
  destruct (Nat.leb_spec (a + n1) N); [|lia]. change (0 <? 3) with true; change (1 <? 3) with true; cbn [andb]. split; [reflexivity|]. split; [exact ET|].
  unfold Inv. cbn [fst snd m_rows m_cols m_at Nat.eqb andb]. do 4 (split; auto). intros i j Hi Hj Hw. unfold good. cbn [m_at Nat.eqb andb].
  destruct (Hdec i j Hi Hj) as [Hed|Hne].
  - destruct (H1 i j Hi Hj Hed) as (k & Hk & EQ & Ef & E0 & E1). rewrite EQ. destruct (Nat.leb_spec a (a + k)); [|lia]. destruct (Nat.ltb_spec (a + k) (a + n1)); [|lia]. cbn [andb].
    replace (a + k - a) with k by lia. rewrite T1, Ef by auto. auto.
  - destruct Hw as [Hw|Hw]; [|contradiction]. pose proof (outside edge W a H2 i j Hi Hj Hne) as HO.
    assert (X : ((a <=? Q i j) && (Q i j <? a + n1))%nat = false). { destruct (Nat.leb_spec a (Q i j)); auto. destruct (Nat.ltb_spec (Q i j) (a + n1)); auto. lia. }
    rewrite X, T2 by auto. destruct (E i j Hi Hj Hw) as (X1 & X2 & X3). auto.
Qed.

Lemma vseg : vsegment r 2 n1 = Ok (fun i => v_at r (2 + i)).
Proof. unfold vsegment. rewrite Hr. destruct (Nat.leb_spec (2 + n1) (o + 1)); [auto|unfold n1 in *; lia]. Qed.

Lemma edges_x_ok W s : Inv W s -> exists s', quad_edges_x r 1 n1 (o + 1) s = Ok s' /\ Inv (fun i j => W i j \/ (2 <= i /\ j < 2)) s'.
Proof.
  intros I. unfold quad_edges_x, for_loop. cbn [for_from Nat.mul Nat.add].
  assert (HN : 4 + 4 * n1 <= N) by (unfold N, n1; nia).
  destruct s as [P T].
  destruct (edge_ok W P T 4 (fun i => v_at r (2 + i)) (fun _ => 1 * v_at r 0)%R (fun d => (d, 0)) (fun i j => 2 <= i /\ j = 0) I ltac:(lia)) as (P1 & P2 & T' & E1 & E2 & E3 & I1).
  { intros; lia. }
  { intros i j Hi Hj (H2 & ->). exists (i - 2). unfold n in Hi. destruct i as [|[|i]]; try lia. cbn. repeat split; try lia; repeat f_equal; try lia. ring. }
  { intros k Hk. exists (2 + k), 0. unfold n. cbn. lia. }
  cbn [Nat.add] in *. rewrite vseg. cbn [bind Nat.add]. rewrite E1. cbn [bind]. rewrite vget by lia. cbn [bind]. rewrite E2. cbn [bind]. rewrite E3. cbn [bind].
  destruct (edge_ok _ P2 T' (4 + (n1 + (n1 + 0))) (fun i => v_at r (2 + i)) (fun _ => 1 * v_at r 1)%R (fun d => (d, 1)) (fun i j => 2 <= i /\ j = 1) I1 ltac:(lia)) as (P3 & P4 & T2 & F1 & F2 & F3 & I2).
  { intros; lia. }
  { intros i j Hi Hj (H2 & ->). exists (i - 2). unfold n in Hi. destruct i as [|[|i]]; try lia. cbn. repeat split; try lia; repeat f_equal; try lia. ring. }
  { intros k Hk. exists (2 + k), 1. unfold n. cbn. lia. }
  cbn [Nat.add] in *. rewrite F1. cbn [bind]. rewrite vget by lia. cbn [bind]. rewrite F2. cbn [bind]. rewrite F3. cbn [bind].
  eexists. split; [reflexivity|]. eapply Inv_sub; [|exact I2]. intros i j _ _ [H|(H1 & H2)]; auto. destruct j as [|[|j]]; auto. lia.
Qed.

Lemma edges_y_ok W s : Inv W s -> exists s', quad_edges_y r 1 n1 (o + 1) s = Ok s' /\ Inv (fun i j => W i j \/ (i < 2 /\ 2 <= j)) s'.
Proof.
  intros I. unfold quad_edges_y, for_loop. cbn [for_from Nat.mul Nat.add Nat.eqb].
  assert (HN : 4 + 4 * n1 <= N) by (unfold N, n1; nia).
  destruct s as [P T].
  destruct (edge_ok W P T (4 + (n1 + 0)) (fun _ => 1 * v_at r 1)%R (fun i => v_at r (2 + i)) (fun d => (1, d)) (fun i j => i = 1 /\ 2 <= j) I ltac:(lia)) as (P1 & P2 & T' & E1 & E2 & E3 & I1).
  { intros; lia. }
  { intros i j Hi Hj (-> & H2). exists (j - 2). unfold n in Hj. destruct j as [|[|j]]; try lia. cbn. repeat split; try lia; repeat f_equal; try lia. ring. }
  { intros k Hk. exists 1, (2 + k). unfold n. cbn. lia. }
  cbn [Nat.add] in *. rewrite vget by lia. cbn [bind]. rewrite E1. cbn [bind]. rewrite vseg. cbn [bind Nat.add]. rewrite E2. cbn [bind]. rewrite E3. cbn [bind].
  destruct (edge_ok _ P2 T' (4 + (n1 + (n1 + (n1 + 0)))) (fun _ => 1 * v_at r 0)%R (fun i => v_at r (2 + i)) (fun d => (0, d)) (fun i j => i = 0 /\ 2 <= j) I1 ltac:(lia)) as (P3 & P4 & T2 & F1 & F2 & F3 & I2).
  { intros; lia. }
  { intros i j Hi Hj (-> & H2). exists (j - 2). unfold n in Hj. destruct j as [|[|j]]; try lia. cbn. repeat split; try lia; repeat f_equal; try lia. ring. }
  { intros k Hk. exists 0, (2 + k). unfold n. cbn. lia. }
  cbn [Nat.add] in *. rewrite vget by lia. cbn [bind]. rewrite F1. cbn [bind]. rewrite F2. cbn [bind]. rewrite F3. cbn [bind].
  eexists. split; [reflexivity|]. eapply Inv_sub; [|exact I2]. intros i j _ _ [H|(H1 & H2)]; auto. destruct i as [|[|i]]; auto. lia.
Qed.

Lemma interior_ok W s : Inv W s -> exists s', quad_interior r n1 (o + 1) s = Ok s' /\ Inv (fun i j => W i j \/ (2 <= i /\ 2 <= j)) s'.
Proof.
  intros I. unfold quad_interior. replace (o + 1 - 2) with n1 by (unfold n1; lia).
  destruct (@for_from_total ((Mat * list (nat * nat)) * nat)
    (fun d1 sd => snd sd = 4 + 4 * n1 + (d1 - 2) * n1 /\ Inv (fun i j => W i j \/ (2 <= i /\ 2 <= j /\ j < d1)) (fst sd))
    (fun d1 sd => for_from 2 n1 (fun d2 sd => let '(s, dof) := sd in s <- quad_put r dof d2 d1 s ;; Ok (s, S dof)) sd) n1 2 (s, 4 + 4 * n1)) as ((s' & d') & E & _ & I').
  - cbn [fst snd]. split; [lia|]. eapply Inv_sub; [|exact I]. intros i j _ _ [H|(H1 & H2 & H3)]; auto. lia.
  - intros d1 (s1 & dof) H1 (Hd & I1). cbn [fst snd] in *.
    destruct (@for_from_total ((Mat * list (nat * nat)) * nat)
      (fun d2 sd => snd sd = 4 + 4 * n1 + (d1 - 2) * n1 + (d2 - 2) /\ Inv (fun i j => (W i j \/ (2 <= i /\ 2 <= j /\ j < d1)) \/ (2 <= i /\ i < d2 /\ j = d1)) (fst sd))
      (fun d2 sd => let '(s, dof) := sd in s <- quad_put r dof d2 d1 s ;; Ok (s, S dof)) n1 2 (s1, dof)) as ((s2 & d2) & E2 & Hd2 & I2).
    + cbn [fst snd]. split; [lia|]. eapply Inv_sub; [|exact I1]. intros i j _ _ [H|(X1 & X2 & X3)]; auto. lia.
    + intros d2 (s2 & dof2) L1 (Hd2 & I2). cbn [fst snd] in *.
      destruct (put_ok _ s2 d2 d1 dof2 I2) as (s3 & E3 & I3); [unfold n; lia|unfold n; lia| |].
      { destruct d1 as [|[|d1]]; try lia. destruct d2 as [|[|d2]]; try lia. rewrite Hd2. cbn [qi]. replace (S (S d1) - 2) with d1 by lia. replace (S (S d2) - 2) with d2 by lia. lia. }
      rewrite E3. cbn [bind]. eexists. split; [reflexivity|]. cbn [fst snd]. split; [lia|]. eapply Inv_sub; [|exact I3].
      intros i j _ _ [H|(X1 & X2 & ->)]; auto. destruct (Nat.eq_dec i d2) as [->|]; auto. left. right. lia.
    + rewrite E2. eexists. split; [reflexivity|]. cbn [fst snd] in *. split; [destruct d1 as [|[|d1]]; [lia|lia|]; replace (S (S (S d1)) - 2) with (S d1) by lia; replace (S (S d1) - 2) with d1 in Hd2 by lia; lia|].
      eapply Inv_sub; [|exact I2]. intros i j Hi _ [H|(X1 & X2 & X3)]; auto. destruct (Nat.eq_dec j d1) as [->|]; [right; unfold n in Hi; lia|left; right; lia].
  - rewrite E. cbn [bind]. cbn [fst snd] in *. exists s'. split; auto. eapply Inv_sub; [|exact I']. intros i j _ Hj [H|(X1 & X2)]; auto. right. unfold n in Hj. lia.
Qed.

Lemma all_ok : exists s, (s <- quad_vertices r (mzero 3 N, repeat (0, 0) N) ;;
    (if 1 <? o then s <- quad_edges_x r 1 n1 (o + 1) s ;; s <- quad_edges_y r 1 n1 (o + 1) s ;; quad_interior r n1 (o + 1) s else Ok s)) = Ok s /\ Inv (fun _ _ => True) s.
Proof.
  destruct (vertices_ok (mzero 3 N, repeat (0, 0) N)) as (s1 & E1 & I1).
  { unfold Inv. cbn [fst snd]. rewrite repeat_length. repeat split; auto; contradiction. }
  rewrite E1. cbn [bind]. destruct (Nat.ltb_spec 1 o).
  - destruct (edges_x_ok _ _ I1) as (s2 & E2 & I2). rewrite E2. cbn [bind]. destruct (edges_y_ok _ _ I2) as (s3 & E3 & I3). rewrite E3. cbn [bind].
    destruct (interior_ok _ _ I3) as (s4 & E4 & I4). exists s4. split; auto. eapply Inv_sub; [|exact I4]. intros i j _ _ _. cbv beta. lia.
  - exists s1. split; auto. eapply Inv_sub; [|exact I1]. unfold n, n1. intros. lia.
Qed.
End Create.
