(** The boundary terms of elasticity: each component is the scalar term. *)
From Coq Require Import List Arith Bool Reals Lia Lra.
From Verif Require Import Base RSum MatrixModel DofsModel DofsSpec DofsProofs DofsProofs2 AssemblerModel AssemblerSpec AssemblerProofs AssemblerProofs2
  VemQuadModel VemModel DriverModel DriverSpec DriverSpec2 DriverProofs DriverProofs2 DriverProofs3 DriverProofs6 ElasticBoundaryModel.
Import ListNotations.
Local Open Scope R_scope.

(** ** Two vectors in one *)
Section Pair.
Context {A : Type}.
(** F acts on the concatenation as f0 on the first part and f1 on the second *)
Definition splits (L : nat) (f0 f1 F : list A -> outcome (list A)) : Prop :=
  forall a b a' b', length a = L -> f0 a = Ok a' -> f1 b = Ok b' -> F (a ++ b) = Ok (a' ++ b') /\ length a' = L.
Lemma splits_ok L : splits L (fun s => Ok s) (fun s => Ok s) (fun s => Ok s).
Proof. intros a b a' b' La [= <-] [= <-]. auto. Qed.
Lemma splits_bind L f0 f1 F g0 g1 G : splits L f0 f1 F -> splits L g0 g1 G -> splits L (fun s => t <- f0 s ;; g0 t) (fun s => t <- f1 s ;; g1 t) (fun s => t <- F s ;; G t).
Proof.
  intros HF HG a b a' b' La E0 E1. apply bind_Ok in E0. destruct E0 as (x & Ex & E0). apply bind_Ok in E1. destruct E1 as (y & Ey & E1).
  destruct (HF a b x y La Ex Ey) as (E & Lx). rewrite E. cbn [bind]. apply HG; auto.
Qed.
Lemma splits_loop L n f0 f1 F : (forall i, splits L (f0 i) (f1 i) (F i)) -> splits L (for_loop n f0) (for_loop n f1) (for_loop n F).
Proof.
  intros H. unfold for_loop. generalize 0%nat as i. induction n as [|n IH]; intros i; [exact (splits_ok L)|]. cbn [for_from].
  apply (splits_bind L (f0 i) (f1 i) (F i)); [apply H|apply IH].
Qed.
Lemma splits_fold {B} L (l : list B) f0 f1 F : (forall x, splits L (fun s => f0 s x) (fun s => f1 s x) (fun s => F s x)) -> splits L (foldM f0 l) (foldM f1 l) (foldM F l).
Proof.
  intros H. induction l as [|x l IH]; [exact (splits_ok L)|]. cbn [foldM]. apply (splits_bind L (fun s => f0 s x) (fun s => f1 s x) (fun s => F s x)); [apply H|apply IH].
Qed.
(** an action on one part only *)
Lemma splits_two L f0 f1 G0 G1 : (forall a b a', length a = L -> f0 a = Ok a' -> G0 (a ++ b) = Ok (a' ++ b) /\ length a' = L) ->
  (forall a b b', length a = L -> f1 b = Ok b' -> G1 (a ++ b) = Ok (a ++ b')) -> splits L f0 f1 (fun s => t <- G0 s ;; G1 t).
Proof. intros H0 H1 a b a' b' La E0 E1. destruct (H0 a b a' La E0) as (E & La'). rewrite E. cbn [bind]. split; auto. Qed.

Lemma replace_left (a b : list A) i v : (i < length a)%nat -> replace (a ++ b) i v = replace a i v ++ b.
Proof. revert i. induction a as [|x a IH]; intros i H; cbn in H; [lia|]. destruct i; cbn; [auto|]. rewrite IH by lia. auto. Qed.
Lemma replace_right (a b : list A) i v : replace (a ++ b) (i + length a) v = a ++ replace b i v.
Proof. induction a as [|x a IH]; cbn; [now rewrite Nat.add_0_r|]. rewrite Nat.add_succ_r. cbn. now rewrite IH. Qed.
Lemma set_left (a b a' : list A) i v : set_idx a i v = Ok a' -> set_idx (a ++ b) (i + 0) v = Ok (a' ++ b) /\ length a' = length a.
Proof.
  unfold set_idx. rewrite Nat.add_0_r, app_length. destruct (Nat.ltb_spec i (length a)); [|discriminate]. intros [= <-].
  destruct (Nat.ltb_spec i (length a + length b)); [|lia]. rewrite replace_left by auto. split; auto. apply replace_length.
Qed.
Lemma set_right (a b b' : list A) i v : set_idx b i v = Ok b' -> set_idx (a ++ b) (i + length a) v = Ok (a ++ b').
Proof.
  unfold set_idx. rewrite app_length. destruct (Nat.ltb_spec i (length b)); [|discriminate]. intros [= <-].
  destruct (Nat.ltb_spec (i + length a) (length a + length b)); [|lia]. now rewrite replace_right.
Qed.
(** lifting to loops *)
Lemma left_loop (f G : nat -> list A -> outcome (list A)) n L b : (forall i a a', length a = L -> f i a = Ok a' -> G i (a ++ b) = Ok (a' ++ b) /\ length a' = L) ->
  forall a a', length a = L -> for_loop n f a = Ok a' -> for_loop n G (a ++ b) = Ok (a' ++ b) /\ length a' = L.
Proof.
  intros H. unfold for_loop. generalize 0%nat as i. induction n as [|n IH]; intros i a a' La E; cbn [for_from] in *; [inversion E; subst; auto|].
  apply bind_Ok in E. destruct E as (x & Ex & E). destruct (H i a x La Ex) as (Q & Lx). rewrite Q. cbn [bind]. apply IH; auto.
Qed.
Lemma right_loop (f G : nat -> list A -> outcome (list A)) n a : (forall i b b', f i b = Ok b' -> G i (a ++ b) = Ok (a ++ b')) ->
  forall b b', for_loop n f b = Ok b' -> for_loop n G (a ++ b) = Ok (a ++ b').
Proof.
  intros H. unfold for_loop. generalize 0%nat as i. induction n as [|n IH]; intros i b b' E; cbn [for_from] in *; [inversion E; subst; auto|].
  apply bind_Ok in E. destruct E as (x & Ex & E). rewrite (H i b x Ex). cbn [bind]. apply IH; auto.
Qed.
End Pair.

Lemma add_left a b a' i v : AddValue a i v = Ok a' -> AddValue (a ++ b) (i + 0) v = Ok (a' ++ b) /\ length a' = length a.
Proof.
  unfold AddValue. intros E. apply bind_Ok in E. destruct E as (y & Ey & E). destruct (set_left a b a' i _ E) as (S & L). split; auto.
  assert (Q : idx_ (a ++ b) (i + 0) = Ok y); [|rewrite Q; exact S]. rewrite Nat.add_0_r. unfold idx_ in *. destruct (nth_error a i) eqn:N; [|discriminate].
  rewrite nth_error_app1; [rewrite N; exact Ey|]. apply nth_error_Some. congruence.
Qed.
Lemma add_right a b b' i v : AddValue b i v = Ok b' -> AddValue (a ++ b) (i + length a) v = Ok (a ++ b').
Proof.
  unfold AddValue. intros E. apply bind_Ok in E. destruct E as (y & Ey & E).
  assert (Q : idx_ (a ++ b) (i + length a) = Ok y); [|rewrite Q; cbn [bind]; apply set_right; exact E]. unfold idx_ in *.
  rewrite nth_error_app2 by lia. now replace (i + length a - length a)%nat with i by lia.
Qed.

(** ** One row *)
Lemma strong_left row v L b a a' : length a = L -> set_strong_dofs row v a = Ok a' -> elastic_strong_dofs 0 row v (a ++ b) = Ok (a' ++ b) /\ length a' = L.
Proof.
  unfold set_strong_dofs, elastic_strong_dofs. apply left_loop. intros i s s' Ls E. apply bind_Ok in E. destruct E as (x & Ex & E). rewrite Ex. cbn [bind].
  destruct (dof_type x); [..]; try discriminate E; try (inversion E; subst; auto; fail).
  apply bind_Ok in E. destruct E as (w & Ew & E). rewrite Ew. cbn [bind]. destruct (set_left s b s' _ _ E) as (S & L1). split; [exact S|congruence].
Qed.
Lemma strong_right row v a b b' : set_strong_dofs row v b = Ok b' -> elastic_strong_dofs (length a) row v (a ++ b) = Ok (a ++ b').
Proof.
  unfold set_strong_dofs, elastic_strong_dofs. apply right_loop. intros i s s' E. apply bind_Ok in E. destruct E as (x & Ex & E). rewrite Ex. cbn [bind].
  destruct (dof_type x); [..]; try discriminate E; try (inversion E; subst; auto; fail).
  apply bind_Ok in E. destruct E as (w & Ew & E). rewrite Ew. cbn [bind]. apply set_right. exact E.
Qed.
Lemma weak_left row v p q L b a a' : length a = L -> add_weak row v p q a = Ok a' -> elastic_add_weak 0 row v p q (a ++ b) = Ok (a' ++ b) /\ length a' = L.
Proof.
  unfold add_weak, elastic_add_weak. apply left_loop. intros i s s' Ls E. apply bind_Ok in E. destruct E as (x & Ex & E). rewrite Ex. cbn [bind].
  destruct (dof_type x); [..]; try discriminate E; try (inversion E; subst; auto; fail).
  apply bind_Ok in E. destruct E as (w & Ew & E). rewrite Ew. cbn [bind]. destruct (add_left s b s' _ _ E) as (S & L1). split; [exact S|congruence].
Qed.
Lemma weak_right row v p q a b b' : add_weak row v p q b = Ok b' -> elastic_add_weak (length a) row v p q (a ++ b) = Ok (a ++ b').
Proof.
  unfold add_weak, elastic_add_weak. apply right_loop. intros i s s' E. apply bind_Ok in E. destruct E as (x & Ex & E). rewrite Ex. cbn [bind].
  destruct (dof_type x); [..]; try discriminate E; try (inversion E; subst; auto; fail).
  apply bind_Ok in E. destruct E as (w & Ew & E). rewrite Ew. cbn [bind]. apply add_right. exact E.
Qed.
