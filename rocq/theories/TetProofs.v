(** Numbering of the tetrahedron. *)
From Coq Require Import List Arith Bool Lia ZArith Reals Lra Permutation.
From Verif Require Import Base RSum MatrixModel MonomialsModel LagrangeModel LagrangeProofs TriangleModel TriangleProofs TriangleProofs6 VemQuadModel TetModel.
Import ListNotations.
Local Open Scope nat_scope.

(** ** Lists of lattice points *)
Definition pairs (m : nat) : list (nat * nat) := flat_map (fun a => map (pair a) (seq 0 (m - a))) (seq 0 m).
Definition triples (m : nat) : list (nat * nat * nat) := flat_map (fun c => map (fun p => (p, c)) (pairs (m - c))) (seq 0 m).

Lemma NoDup_app' {A} (l1 l2 : list A) : NoDup l1 -> NoDup l2 -> (forall x, In x l1 -> In x l2 -> False) -> NoDup (l1 ++ l2).
Proof.
  induction l1 as [|a l1 IH]; cbn; auto. intros H1 H2 D. inversion H1; subst. constructor.
  - rewrite in_app_iff. intros [H|H]; [auto|]. apply (D a); auto.
  - apply IH; auto. intros x X1 X2. apply (D x); auto.
Qed.
Lemma NoDup_flat_map' {A B} (f : A -> list B) (key : B -> A) l : NoDup l -> (forall a, In a l -> NoDup (f a)) -> (forall a b, In b (f a) -> key b = a) -> NoDup (flat_map f l).
Proof.
  induction l as [|a l IH]; cbn; intros H1 H2 K; [constructor|]. inversion H1; subst. apply NoDup_app'.
  - apply H2. auto.
  - apply IH; auto.
  - intros x X1 X2. apply in_flat_map in X2. destruct X2 as (a' & A1 & A2). apply K in X1. apply K in A2. congruence.
Qed.
Lemma pairs_In m a b : In (a, b) (pairs m) <-> a + b < m.
Proof.
  unfold pairs. rewrite in_flat_map. split.
  - intros (x & H1 & H2). apply in_seq in H1. apply in_map_iff in H2. destruct H2 as (y & E & H2). injection E as -> ->. apply in_seq in H2. lia.
  - intros H. exists a. split; [apply in_seq; lia|]. apply in_map_iff. exists b. split; auto. apply in_seq. lia.
Qed.
Lemma pairs_NoDup m : NoDup (pairs m).
Proof.
  apply (NoDup_flat_map' _ fst); [apply seq_NoDup| |].
  - intros a _. apply NoDup_map_inj; [|apply seq_NoDup]. intros x y _ _ E. now injection E.
  - intros a b H. apply in_map_iff in H. destruct H as (y & <- & _). reflexivity.
Qed.
Lemma triples_In m a b c : In (a, b, c) (triples m) <-> a + b + c < m.
Proof.
  unfold triples. rewrite in_flat_map. split.
  - intros (x & H1 & H2). apply in_seq in H1. apply in_map_iff in H2. destruct H2 as ((y, z) & E & H2). injection E as -> -> ->. apply pairs_In in H2. lia.
  - intros H. exists c. split; [apply in_seq; lia|]. apply in_map_iff. exists (a, b). split; auto. apply pairs_In. lia.
Qed.
Lemma triples_NoDup m : NoDup (triples m).
Proof.
  apply (NoDup_flat_map' _ snd); [apply seq_NoDup| |].
  - intros a _. apply NoDup_map_inj; [|apply pairs_NoDup]. intros x y _ _ E. now injection E.
  - intros a b H. apply in_map_iff in H. destruct H as (y & <- & _). reflexivity.
Qed.

Lemma length_flat_map_sum {A} (f : nat -> list A) n : length (flat_map f (seq 0 n)) = list_sum (map (fun k => length (f k)) (seq 0 n)).
Proof. induction (seq 0 n) as [|a l IH]; auto. cbn. now rewrite app_length, IH. Qed.
Lemma sum_down (g : nat -> nat) n : list_sum (map (fun k => g (n - k)) (seq 0 n)) = list_sum (map (fun k => g (S k)) (seq 0 n)).
Proof.
  induction n as [|n IH]; auto. transitivity (g (S n) + list_sum (map (fun k => g (n - k)) (seq 0 n))).
  - cbn [seq map]. rewrite <- seq_shift, map_map. reflexivity.
  - rewrite (seq_S n 0), map_app, list_sum_app, IH. cbn. lia.
Qed.
Lemma sum_double (g : nat -> nat) (P : nat -> nat) c n : P 0 = 0 -> (forall k, P (S k) = P k + c * g (S k)) -> c * list_sum (map (fun k => g (S k)) (seq 0 n)) = P n.
Proof.
  intros P0 PS. induction n as [|n IH]; [cbn; lia|]. rewrite (seq_S n 0), map_app, list_sum_app, Nat.mul_add_distr_l, IH. cbn. rewrite PS. lia.
Qed.
Lemma pairs_length m : 2 * length (pairs m) = m * (m + 1).
Proof.
  unfold pairs. rewrite length_flat_map_sum. rewrite (map_ext _ (fun k => m - k)) by (intros; now rewrite map_length, seq_length).
  rewrite (sum_down (fun x => x)). apply (sum_double (fun x => x) (fun k => k * (k + 1))); [lia|]. intros; lia.
Qed.
Lemma triples_length m : 6 * length (triples m) = m * (m + 1) * (m + 2).
Proof.
  unfold triples. rewrite length_flat_map_sum. rewrite (map_ext _ (fun k => length (pairs (m - k)))) by (intros; now rewrite map_length).
  rewrite (sum_down (fun k => length (pairs k))). apply (sum_double (fun k => length (pairs k)) (fun k => k * (k + 1) * (k + 2))); [lia|]. intros k.
  pose proof (pairs_length (S k)). nia.
Qed.

Section Numbering.
Variable o : nat.
Hypothesis Ho : 1 <= o.
Notation pt := (nat * nat * nat)%type.
Definition vchunk : list pt := [(0, 0, 0); (o, 0, 0); (0, o, 0); (0, 0, o)].
Definition e1 (e : nat) (d : nat) : pt :=
  match e with 0 => (d + 1, 0, 0) | 1 => (o - 1 - d, d + 1, 0) | 2 => (0, o - 1 - d, 0) | 3 => (0, 0, d + 1) | 4 => (d + 1, 0, o - 1 - d) | _ => (0, d + 1, o - 1 - d) end.
Definition echunk (e : nat) : list pt := map (e1 e) (seq 0 (o - 1)).
Definition f1 (f : nat) (p : nat * nat) : pt :=
  let a := fst p + 1 in let b := snd p + 1 in match f with 0 => (a, b, 0) | 1 => (a, 0, b) | 2 => (0, a, b) | _ => (a, b, o - a - b) end.
Definition fchunk (f : nat) : list pt := map (f1 f) (pairs (o - 2)).
Definition i1 (p : pt) : pt := let '(a, b, c) := p in (a + 1, b + 1, c + 1).
Definition ichunk : list pt := map i1 (triples (o - 3)).
Definition TL : list pt := vchunk ++ (echunk 0 ++ echunk 1 ++ echunk 2 ++ echunk 3 ++ echunk 4 ++ echunk 5) ++ (fchunk 0 ++ fchunk 1 ++ fchunk 2 ++ fchunk 3) ++ ichunk.

Definition n2 : nat := length (pairs (o - 2)).
Definition n3 : nat := length (triples (o - 3)).
Definition TN : nat := 4 * 1 + 6 * (o - 1) + 4 * n2 + n3.
Lemma n2_code : (if 2 <? o then (o - 2) * (o - 1) / 2 else 0) = n2.
Proof.
  unfold n2. pose proof (pairs_length (o - 2)) as H. destruct (Nat.ltb_spec 2 o).
  - replace ((o - 2) * (o - 1)) with (length (pairs (o - 2)) * 2) by (replace (o - 1) with (o - 2 + 1) by lia; lia). apply Nat.div_mul. lia.
  - replace (o - 2) with 0 by lia. reflexivity.
Qed.
Lemma n3_code : (if 3 <? o then (o - 3) * (o - 2) * (o - 1) / 6 else 0) = n3.
Proof.
  unfold n3. pose proof (triples_length (o - 3)) as H. destruct (Nat.ltb_spec 3 o).
  - replace ((o - 3) * (o - 2) * (o - 1)) with (length (triples (o - 3)) * 6). 2: { replace (o - 2) with (o - 3 + 1) by lia. replace (o - 1) with (o - 3 + 2) by lia. lia. } apply Nat.div_mul. lia.
  - replace (o - 3) with 0 by lia. reflexivity.
Qed.
Lemma TN_six : 6 * TN = (o + 1) * (o + 2) * (o + 3).
Proof.
  unfold TN, n2, n3. pose proof (pairs_length (o - 2)) as H2. pose proof (triples_length (o - 3)) as H3.
  destruct o as [|[|[|m]]]; [lia|cbn in *; lia|cbn in *; lia|]. cbn [Nat.sub] in *. rewrite Nat.sub_0_r in *. nia.
Qed.
Lemma echunk_length e : length (echunk e) = o - 1. Proof. unfold echunk. now rewrite map_length, seq_length. Qed.
Lemma fchunk_length f : length (fchunk f) = n2. Proof. unfold fchunk. now rewrite map_length. Qed.
Lemma ichunk_length : length ichunk = n3. Proof. unfold ichunk. now rewrite map_length. Qed.
Lemma TL_length : length TL = TN.
Proof. unfold TL, TN. rewrite !app_length, !echunk_length, !fchunk_length, ichunk_length. cbn [length vchunk]. lia. Qed.

Lemma echunk_In e p : In p (echunk e) <-> exists d, d < o - 1 /\ p = e1 e d.
Proof. unfold echunk. rewrite in_map_iff. split; [intros (d & <- & H); apply in_seq in H; exists d; split; auto; lia|intros (d & H & ->); exists d; split; auto; apply in_seq; lia]. Qed.
Lemma fchunk_In f p : In p (fchunk f) <-> exists a b, a + b < o - 2 /\ p = f1 f (a, b).
Proof. unfold fchunk. rewrite in_map_iff. split; [intros ((a, b) & <- & H); apply pairs_In in H; exists a, b; auto|intros (a & b & H & ->); exists (a, b); split; auto; now apply pairs_In]. Qed.
Lemma ichunk_In p : In p ichunk <-> exists a b c, a + b + c < o - 3 /\ p = (a + 1, b + 1, c + 1).
Proof. unfold ichunk. rewrite in_map_iff. split; [intros (((a, b), c) & <- & H); apply triples_In in H; exists a, b, c; auto|intros (a & b & c & H & ->); exists (a, b, c); split; auto; now apply triples_In]. Qed.

Lemma TL_In a b c : In (a, b, c) TL <-> a + b + c <= o.
Proof.
  unfold TL. rewrite !in_app_iff, !echunk_In, !fchunk_In, ichunk_In. unfold vchunk. cbn [In]. split.
  - intros H. repeat match goal with
      | H : _ \/ _ |- _ => destruct H
      | H : exists _, _ |- _ => destruct H
      | H : _ /\ _ |- _ => destruct H
      | H : (_, _, _) = _ |- _ => unfold e1, f1 in H; cbn [fst snd] in H; injection H as ? ? ?
      | H : False |- _ => destruct H end; subst; lia.
  - intros H. unfold e1, f1. cbn [fst snd].
    destruct (Nat.eq_dec a 0) as [A|A], (Nat.eq_dec b 0) as [B|B], (Nat.eq_dec c 0) as [C|C]; destruct (Nat.eq_dec (a + b + c) o) as [S|S]; subst; try lia.
    + left. left. reflexivity.
    + left. right. right. right. left. repeat f_equal; lia.
    + right. left. do 3 right. left. exists (c - 1). split; [lia|]. repeat f_equal; lia.
    + left. right. right. left. repeat f_equal; lia.
    + right. left. do 2 right. left. exists (o - 1 - b). split; [lia|]. repeat f_equal; lia.
    + right. left. do 5 right. exists (b - 1). split; [lia|]. repeat f_equal; lia.
    + right. right. left. do 2 right. left. exists (b - 1), (c - 1). split; [lia|]. repeat f_equal; lia.
    + left. right. left. repeat f_equal; lia.
    + right. left. left. exists (a - 1). split; [lia|]. repeat f_equal; lia.
    + right. left. do 4 right. left. exists (a - 1). split; [lia|]. repeat f_equal; lia.
    + right. right. left. right. left. exists (a - 1), (c - 1). split; [lia|]. repeat f_equal; lia.
    + right. left. right. left. exists (b - 1). split; [lia|]. repeat f_equal; lia.
    + right. right. left. left. exists (a - 1), (b - 1). split; [lia|]. repeat f_equal; lia.
    + right. right. left. do 3 right. exists (a - 1), (b - 1). split; [lia|]. repeat f_equal; lia.
    + right. right. right. exists (a - 1), (b - 1), (c - 1). split; [lia|]. repeat f_equal; lia.
Qed.
Lemma echunk_NoDup e : e < 6 -> NoDup (echunk e).
Proof.
  intros He. apply NoDup_map_inj; [|apply seq_NoDup]. intros x y Hx Hy E. apply in_seq in Hx, Hy.
  destruct e as [|[|[|[|[|[|e]]]]]]; try lia; cbn in E; injection E; lia.
Qed.
Lemma fchunk_NoDup f : f < 4 -> NoDup (fchunk f).
Proof.
  intros He. apply NoDup_map_inj; [|apply pairs_NoDup]. intros [x x'] [y y'] Hx Hy E. apply pairs_In in Hx, Hy.
  destruct f as [|[|[|[|f]]]]; try lia; cbn in E; injection E; intros; f_equal; lia.
Qed.
Lemma TL_NoDup : NoDup TL.
Proof.
  assert (D : forall l1 l2 : list pt, NoDup l1 -> NoDup l2 -> (forall a b c, In (a, b, c) l1 -> In (a, b, c) l2 -> False) -> NoDup (l1 ++ l2)).
  { intros l1 l2 A B C. apply NoDup_app'; auto. intros [[a b] c]. apply C. }
  unfold TL. repeat (apply D; [try (apply echunk_NoDup; lia); try (apply fchunk_NoDup; lia)| |]); try (apply echunk_NoDup; lia); try (apply fchunk_NoDup; lia);
  try (intros a b c; rewrite ?in_app_iff, ?echunk_In, ?fchunk_In, ?ichunk_In; unfold vchunk; cbn [In]; intros H1 H2;
    repeat match goal with
      | H : _ \/ _ |- _ => destruct H
      | H : exists _, _ |- _ => destruct H
      | H : _ /\ _ |- _ => destruct H
      | H : (_, _, _) = _ |- _ => unfold e1, f1 in H; cbn [fst snd] in H; injection H as ? ? ?
      | H : False |- _ => destruct H end; lia).
  - unfold vchunk. repeat constructor; cbn [In]; intros H; repeat destruct H as [H|H]; try (injection H; lia); auto.
  - unfold ichunk. apply NoDup_map_inj; [|apply triples_NoDup]. intros [[x y] z] [[x' y'] z'] _ _ E. cbn in E. injection E; intros. repeat f_equal; lia.
Qed.
End Numbering.
