(** Shared vocabulary of the model: outcomes of C++ calls, checked and
    unchecked container accesses, counted loops. *)
From Coq Require Import List Arith Lia Permutation Bool.
Import ListNotations.
Set Implicit Arguments.

(** A C++ call ends normally with a value ([Ok]), throws an exception
    ([Throw]: [throw std::runtime_error], [std::vector::at], [std::map::at]),
    or leaves the defined behaviour of the language ([UB]: [operator[]] out of
    range, an Eigen block out of range...). *)
Inductive outcome (A : Type) : Type :=
| Ok : A -> outcome A
| Throw : outcome A
| UB : outcome A.
Arguments Ok {A} _.
Arguments Throw {A}.
Arguments UB {A}.

Definition bind {A B} (x : outcome A) (f : A -> outcome B) : outcome B :=
  match x with Ok a => f a | Throw => Throw | UB => UB end.

Notation "x <- e ;; f" := (bind e (fun x => f))
  (at level 61, e at next level, right associativity).
Notation "' p <- e ;; f" := (bind e (fun p => f))
  (at level 61, p pattern, e at next level, right associativity).

(** [v.at(i)] : throws out of range. *)
Definition at_ {A} (l : list A) (i : nat) : outcome A :=
  match nth_error l i with Some a => Ok a | None => Throw end.

(** [v[i]] read : undefined out of range. *)
Definition idx_ {A} (l : list A) (i : nat) : outcome A :=
  match nth_error l i with Some a => Ok a | None => UB end.

(** replace position [i] (no effect out of range; guarded by the two users below). *)
Fixpoint replace {A} (l : list A) (i : nat) (v : A) : list A :=
  match l, i with
  | [], _ => []
  | _ :: t, 0 => v :: t
  | h :: t, S j => h :: replace t j v
  end.

(** [v[i] = x] : undefined out of range. *)
Definition set_idx {A} (l : list A) (i : nat) (v : A) : outcome (list A) :=
  if i <? length l then Ok (replace l i v) else UB.

(** [v.at(i) = x] : throws out of range. *)
Definition set_at {A} (l : list A) (i : nat) (v : A) : outcome (list A) :=
  if i <? length l then Ok (replace l i v) else Throw.

(** [v.resize(n, x)] : keeps the first elements, pads with [x]. *)
Definition resize {A} (l : list A) (n : nat) (x : A) : list A :=
  firstn n l ++ repeat x (n - length l).

(** [for (i = 0; i < n; i++) s = f(i, s)] *)
Fixpoint for_from {S} (start n : nat) (f : nat -> S -> outcome S) (s : S) : outcome S :=
  match n with
  | 0 => Ok s
  | Datatypes.S m => s' <- f start s ;; for_from (Datatypes.S start) m f s'
  end.
Definition for_loop {S} (n : nat) (f : nat -> S -> outcome S) (s : S) : outcome S :=
  for_from 0 n f s.

(** range-for over a container *)
Fixpoint foldM {A S} (f : S -> A -> outcome S) (l : list A) (s : S) : outcome S :=
  match l with
  | [] => Ok s
  | a :: t => s' <- f s a ;; foldM f t s'
  end.

(** ** Reasoning principles *)

Lemma bind_Ok {A B} (x : outcome A) (f : A -> outcome B) b :
  bind x f = Ok b -> exists a, x = Ok a /\ f a = Ok b.
Proof. destruct x; simpl; intros; try discriminate; eauto. Qed.

Lemma for_from_total {S} (I : nat -> S -> Prop) (f : nat -> S -> outcome S) n start s :
  I start s ->
  (forall i s, start <= i < start + n -> I i s ->
     exists s', f i s = Ok s' /\ I (Datatypes.S i) s') ->
  exists s', for_from start n f s = Ok s' /\ I (start + n) s'.
Proof.
  revert start s; induction n as [|n IH]; intros start s H0 Hs; simpl.
  - exists s. rewrite Nat.add_0_r. auto.
  - destruct (Hs start s) as (s1 & E1 & H1); [lia|auto|].
    rewrite E1; simpl.
    destruct (IH (Datatypes.S start) s1 H1) as (s2 & E2 & H2).
    { intros i t Hi Ht. apply Hs; auto. lia. }
    exists s2. split; auto. replace (start + Datatypes.S n) with (Datatypes.S start + n) by lia. auto.
Qed.

Lemma for_loop_total {S} (I : nat -> S -> Prop) (f : nat -> S -> outcome S) n s :
  I 0 s ->
  (forall i s, i < n -> I i s -> exists s', f i s = Ok s' /\ I (Datatypes.S i) s') ->
  exists s', for_loop n f s = Ok s' /\ I n s'.
Proof.
  intros H0 Hs. unfold for_loop.
  destruct (@for_from_total S I f n 0 s H0) as (s' & E & H).
  { intros i t Hi. apply Hs. lia. }
  eauto.
Qed.

Lemma for_from_inv {S} (I : nat -> S -> Prop) (f : nat -> S -> outcome S) n start s s' :
  for_from start n f s = Ok s' ->
  I start s ->
  (forall i s s', start <= i < start + n -> I i s -> f i s = Ok s' -> I (Datatypes.S i) s') ->
  I (start + n) s'.
Proof.
  revert start s; induction n as [|n IH]; intros start s E H0 Hs; simpl in *.
  - inversion E; subst. rewrite Nat.add_0_r. auto.
  - apply bind_Ok in E. destruct E as (s1 & E1 & E2).
    replace (start + Datatypes.S n) with (Datatypes.S start + n) by lia.
    eapply IH; eauto.
    + eapply Hs; eauto. lia.
    + intros i t t' Hi. apply Hs. lia.
Qed.

Lemma for_loop_inv {S} (I : nat -> S -> Prop) (f : nat -> S -> outcome S) n s s' :
  for_loop n f s = Ok s' ->
  I 0 s ->
  (forall i s s', i < n -> I i s -> f i s = Ok s' -> I (Datatypes.S i) s') ->
  I n s'.
Proof.
  intros E H0 Hs. unfold for_loop in E.
  apply (@for_from_inv S I f n 0 s s'); auto.
  intros i t t' Hi. apply Hs. lia.
Qed.

(** every iteration that is reached was successful *)
Lemma for_from_reach {S} (f : nat -> S -> outcome S) n start s s' :
  for_from start n f s = Ok s' ->
  forall i, start <= i < start + n -> exists t t', f i t = Ok t'.
Proof.
  revert start s; induction n as [|n IH]; intros start s E i Hi; simpl in *; [lia|].
  apply bind_Ok in E. destruct E as (s1 & E1 & E2).
  destruct (Nat.eq_dec i start) as [->|Hne]; [eauto|].
  eapply IH; eauto. lia.
Qed.

Lemma for_from_not_UB {S} (I : nat -> S -> Prop) (f : nat -> S -> outcome S) n start s :
  I start s ->
  (forall i s, start <= i < start + n -> I i s -> f i s <> UB) ->
  (forall i s s', start <= i < start + n -> I i s -> f i s = Ok s' -> I (Datatypes.S i) s') ->
  for_from start n f s <> UB.
Proof.
  revert start s; induction n as [|n IH]; intros start s H0 Hu Hs; simpl; [discriminate|].
  destruct (f start s) eqn:E; simpl; try discriminate.
  - apply IH.
    + eapply Hs; eauto. lia.
    + intros i t Hi. apply Hu. lia.
    + intros i t t' Hi. apply Hs. lia.
  - exfalso. apply (Hu start s); auto. lia.
Qed.

Lemma for_loop_not_UB {S} (I : nat -> S -> Prop) (f : nat -> S -> outcome S) n s :
  I 0 s ->
  (forall i s, i < n -> I i s -> f i s <> UB) ->
  (forall i s s', i < n -> I i s -> f i s = Ok s' -> I (Datatypes.S i) s') ->
  for_loop n f s <> UB.
Proof.
  intros H0 Hu Hs. apply (@for_from_not_UB S I); auto.
  - intros i t Hi. apply Hu. lia.
  - intros i t t' Hi. apply Hs. lia.
Qed.

(** ** Lists *)

Lemma replace_length {A} (l : list A) i v : length (replace l i v) = length l.
Proof. revert i; induction l; destruct i; simpl; auto. Qed.

Lemma nth_error_replace_eq {A} (l : list A) i v :
  i < length l -> nth_error (replace l i v) i = Some v.
Proof. revert i; induction l; destruct i; simpl; intros; try lia; auto. apply IHl; lia. Qed.

Lemma nth_error_replace_neq {A} (l : list A) i j v :
  i <> j -> nth_error (replace l i v) j = nth_error l j.
Proof.
  revert i j; induction l; destruct i, j; simpl; intros; try congruence; auto.
Qed.

Lemma replace_app_mid {A} (l1 : list A) x l2 v :
  replace (l1 ++ x :: l2) (length l1) v = l1 ++ v :: l2.
Proof. induction l1; simpl; congruence. Qed.

Lemma resize_nil {A} n (x : A) : resize [] n x = repeat x n.
Proof. unfold resize. rewrite firstn_nil. simpl. now rewrite Nat.sub_0_r. Qed.

Lemma resize_length {A} (l : list A) n x : length (resize l n x) = n.
Proof. unfold resize. rewrite app_length, firstn_length, repeat_length. lia. Qed.

Lemma at_Ok {A} (l : list A) i a : at_ l i = Ok a <-> nth_error l i = Some a.
Proof. unfold at_. destruct (nth_error l i); split; congruence. Qed.

Lemma idx_Ok {A} (l : list A) i a : idx_ l i = Ok a <-> nth_error l i = Some a.
Proof. unfold idx_. destruct (nth_error l i); split; congruence. Qed.

Lemma at_not_UB {A} (l : list A) i : at_ l i <> UB.
Proof. unfold at_. destruct (nth_error l i); congruence. Qed.

Lemma nth_error_Some_ex {A} (l : list A) i :
  i < length l -> exists a, nth_error l i = Some a.
Proof.
  intros H. destruct (nth_error l i) eqn:E; eauto.
  apply nth_error_None in E. lia.
Qed.

Lemma nth_error_lt {A} (l : list A) i a : nth_error l i = Some a -> i < length l.
Proof. intros H. apply nth_error_Some. congruence. Qed.

Lemma nth_error_repeat_lt {A} (x : A) n i : i < n -> nth_error (repeat x n) i = Some x.
Proof. revert i; induction n; destruct i; simpl; intros; try lia; auto. apply IHn; lia. Qed.

Lemma list_ext {A} (l1 l2 : list A) :
  (forall i, nth_error l1 i = nth_error l2 i) -> l1 = l2.
Proof.
  revert l2; induction l1 as [|a l1 IH]; destruct l2 as [|b l2]; intros H; auto.
  - specialize (H 0); discriminate.
  - specialize (H 0); discriminate.
  - f_equal.
    + specialize (H 0); simpl in H; congruence.
    + apply IH. intros i. apply (H (S i)).
Qed.

Lemma seq_snoc a n : seq a (S n) = seq a n ++ [a + n].
Proof. rewrite seq_S. reflexivity. Qed.

Lemma seq_app_split a n m : seq a (n + m) = seq a n ++ seq (a + n) m.
Proof. apply seq_app. Qed.

Lemma firstn_S_nth {A} (l : list A) i a :
  nth_error l i = Some a -> firstn (S i) l = firstn i l ++ [a].
Proof.
  revert i; induction l; destruct i; simpl; intros; try discriminate.
  - inversion H; auto.
  - f_equal. apply IHl; auto.
Qed.

Lemma concat_app_single {A} (l : list (list A)) x : concat (l ++ [x]) = concat l ++ x.
Proof. rewrite concat_app. simpl. now rewrite app_nil_r. Qed.

Lemma list_sum_app l1 l2 : list_sum (l1 ++ l2) = list_sum l1 + list_sum l2.
Proof. induction l1; simpl; lia. Qed.

Definition sumn (n : nat) (f : nat -> nat) : nat := list_sum (map f (seq 0 n)).

Lemma sumn_S n f : sumn (S n) f = sumn n f + f n.
Proof.
  unfold sumn. rewrite seq_S, map_app, list_sum_app. simpl. lia.
Qed.

Lemma skipn_skipn {A} (l : list A) a b : skipn a (skipn b l) = skipn (b + a) l.
Proof.
  revert l; induction b; intros l; simpl; auto.
  destruct l; simpl; auto. now rewrite skipn_nil.
Qed.

Lemma for_from_app {S} (f : nat -> S -> outcome S) n m start s :
  for_from start (n + m) f s = (s' <- for_from start n f s ;; for_from (start + n) m f s').
Proof.
  revert start s; induction n as [|n IH]; intros start s; simpl.
  - now rewrite Nat.add_0_r.
  - destruct (f start s); simpl; auto. rewrite IH.
    now rewrite <- Nat.add_succ_comm.
Qed.

(** the loop throws if some iteration does, after good ones *)
Lemma for_loop_throw {S} (I : nat -> S -> Prop) (f : nat -> S -> outcome S) n c s :
  c < n -> I 0 s ->
  (forall i s, i < c -> I i s -> exists s', f i s = Ok s' /\ I (Datatypes.S i) s') ->
  (forall s, I c s -> f c s = Throw) ->
  for_loop n f s = Throw.
Proof.
  intros Hc H0 Hs Ht. unfold for_loop.
  replace n with (c + Datatypes.S (n - c - 1)) by lia.
  rewrite for_from_app.
  destruct (@for_loop_total S I f c s H0 Hs) as (s' & E & H). unfold for_loop in E.
  rewrite E. simpl. now rewrite Ht.
Qed.

Lemma bounded_dec (P : nat -> Prop) (D : forall i, {P i} + {~ P i}) n :
  (forall i, i < n -> P i) \/ exists c, c < n /\ ~ P c /\ forall i, i < c -> P i.
Proof.
  induction n as [|n [IH|(c & Hc & Hn & Hb)]].
  - left. lia.
  - destruct (D n) as [H|H].
    + left. intros i Hi. destruct (Nat.eq_dec i n) as [->|]; auto. apply IH. lia.
    + right. exists n. auto.
  - right. exists c. auto with arith.
Qed.

Lemma nth_error_ext_len {A} (l1 l2 : list A) : length l1 = length l2 ->
  (forall i, i < length l1 -> nth_error l1 i = nth_error l2 i) -> l1 = l2.
Proof.
  revert l2; induction l1 as [|a l1 IH]; intros [|b l2] L H; simpl in *; try discriminate; auto.
  pose proof (H 0 ltac:(lia)) as H0. simpl in H0. injection H0 as <-. f_equal. apply IH; [lia|].
  intros i Hi. apply (H (S i)). lia.
Qed.

Lemma nth_error_seq_lt a n i : i < n -> nth_error (seq a n) i = Some (a + i).
Proof.
  revert a i; induction n as [|n IH]; intros a i H; [lia|]. destruct i as [|i]; simpl; [f_equal; lia|].
  rewrite IH by lia. f_equal. lia.
Qed.
