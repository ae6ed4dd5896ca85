(** A solver of linear systems by elimination: a witness for the hypotheses on the Eigen solvers. Not a model of code in /repo. *)
From Coq Require Import List Arith Bool Lia Reals Lra.
From Verif Require Import Base RSum MatrixModel VemModel VemSpec.
Local Open Scope R_scope.

(** No code: a solver meeting the hypotheses put on Eigen. First row r < n with a nonzero coefficient *)
Fixpoint pivot (n : nat) (c : nat -> R) : option nat :=
  match n with O => None | S n => match pivot n c with Some r => Some r | None => if Req_EM_T (c n) 0 then None else Some n end end.
(** No code: the index i among those different from r *)
Definition skip (r i : nat) : nat := if (i <? r)%nat then i else S i.
(** No code: solution of a system of n equations *)
Fixpoint gauss (n : nat) (a : nat -> nat -> R) (b : nat -> R) : nat -> R :=
  match n with
  | O => fun _ => 0
  | S n =>
    match pivot (S n) (fun i => a i 0%nat) with
    | None => fun _ => 0
    | Some r =>
      let x := gauss n (fun i j => a (skip r i) (S j) - a (skip r i) 0%nat / a r 0%nat * a r (S j)) (fun i => b (skip r i) - a (skip r i) 0%nat / a r 0%nat * b r) in
      fun j => match j with O => (b r - rsum n (fun j => a r (S j) * x j)) / a r 0%nat | S j => x j end
    end
  end.
(** No code: the above as an Eigen solver, column by column *)
Definition gauss_solver : Solver := fun A B i j => gauss (m_cols A) (m_at A) (fun r => m_at B r j) i.

Lemma pivot_some n c r : pivot n c = Some r -> (r < n)%nat /\ c r <> 0.
Proof.
  induction n; cbn; [discriminate|]. destruct (pivot n c) as [s|].
  - intros [= ->]. destruct IHn; auto.
  - destruct (Req_EM_T (c n) 0); [discriminate|]. intros [= <-]. auto.
Qed.
Lemma pivot_none n c : pivot n c = None -> forall i, (i < n)%nat -> c i = 0.
Proof.
  induction n; cbn; intros H i Hi; [lia|]. destruct (pivot n c); [discriminate|]. destruct (Req_EM_T (c n) 0); [|discriminate].
  destruct (Nat.eq_dec i n) as [->|]; auto. apply IHn; auto. lia.
Qed.
Lemma skip_cases r i n : (r < S n)%nat -> (i < S n)%nat -> i = r \/ exists j, (j < n)%nat /\ i = skip r j.
Proof.
  intros Hr Hi. destruct (Nat.lt_trichotomy i r) as [H|[H|H]]; [right; exists i|now left|right; exists (i - 1)%nat]; split; try lia; unfold skip.
  - destruct (Nat.ltb_spec i r); lia.
  - destruct (Nat.ltb_spec (i - 1) r); lia.
Qed.

Lemma gauss_ok : forall n a b, (forall x : nat -> R, (forall i, (i < n)%nat -> rsum n (fun j => a i j * x j) = 0) -> forall j, (j < n)%nat -> x j = 0) ->
  forall i, (i < n)%nat -> rsum n (fun j => a i j * gauss n a b j) = b i.
Proof.
  induction n as [|n IH]; intros a b NS i Hi; [lia|]. cbn [gauss].
  destruct (pivot (S n) (fun i => a i 0%nat)) as [r|] eqn:EP.
  - apply pivot_some in EP. destruct EP as (Hr & Ha).
    set (a' := fun i j => a (skip r i) (S j) - a (skip r i) 0%nat / a r 0%nat * a r (S j)). set (b' := fun i => b (skip r i) - a (skip r i) 0%nat / a r 0%nat * b r).
    assert (X : forall i, (i < n)%nat -> rsum n (fun j => a' i j * gauss n a' b' j) = b' i).
    { intros q Hq. apply IH; auto. intros x Z. intros j Hj.
      set (y := fun j => match j with O => - rsum n (fun j => a r (S j) * x j) / a r 0%nat | S j => x j end).
      assert (Y : forall j, (j < S n)%nat -> y j = 0); [|apply (Y (S j)); lia]. apply NS. intros s Hs. rewrite rsum_S_l. cbn [y].
      assert (E : rsum n (fun j => a r (S j) * x j) = a r 0%nat * (rsum n (fun j => a r (S j) * x j) / a r 0%nat)) by (field; auto).
      destruct (skip_cases r s n Hr Hs) as [->|(t & Ht & ->)]; [field; auto|].
      specialize (Z t Ht). unfold a' in Z. rewrite (rsum_ext n _ (fun j => a (skip r t) (S j) * x j - a (skip r t) 0%nat / a r 0%nat * (a r (S j) * x j))) in Z by (intros; ring).
      rewrite rsum_minus, rsum_scal in Z. unfold Rdiv in *. lra. }
    set (x := gauss n a' b') in *. rewrite rsum_S_l. destruct (skip_cases r i n Hr Hi) as [->|(t & Ht & ->)]; [field; auto|].
    specialize (X t Ht). unfold a', b' in X. rewrite (rsum_ext n _ (fun j => a (skip r t) (S j) * x j - a (skip r t) 0%nat / a r 0%nat * (a r (S j) * x j))) in X by (intros; ring).
    rewrite rsum_minus, rsum_scal in X. unfold Rdiv in *. lra.
  - exfalso. pose proof (pivot_none _ _ EP) as Z. cbv beta in Z. assert (E : (fun j => if (j =? 0)%nat then 1 else 0) 0%nat = 0); [|cbn in E; lra].
    apply (NS (fun j => if (j =? 0)%nat then 1 else 0)); [|lia]. intros s Hs. rewrite rsum_S_l. rewrite rsum_0; [cbn [Nat.eqb]; rewrite Z by auto; ring|intros; cbn [Nat.eqb]; ring].
Qed.

Lemma gauss_nonsingular : exact_for nonsingular gauss_solver.
Proof.
  intros A B S _ (_ & NS) i j Hi Hj. cbn [m_at]. unfold gauss_solver. apply (gauss_ok (m_cols A) (m_at A) (fun r => m_at B r j)); [|lia]. intros x Z. apply NS. rewrite S. auto.
Qed.
Lemma gauss_positive : exact_for positive_definite gauss_solver.
Proof.
  intros A B S R (S' & _ & P). apply gauss_nonsingular; auto. split; auto. intros x Z j Hj. destruct (Req_dec (x j) 0) as [|Hx]; auto. exfalso. pose proof (P x (ex_intro _ j (conj Hj Hx))) as Q.
  rewrite (rsum_0 (m_rows A)) in Q; [lra|]. intros i Hi. rewrite (rsum_ext _ _ (fun j => x i * (m_at A i j * x j))) by (intros; ring). rewrite rsum_scal, Z by auto. ring.
Qed.
