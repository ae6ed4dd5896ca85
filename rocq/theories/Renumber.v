(** Renumbering of the dofs of the edges that are seen backwards, for any number of vertices and edges. *)
From Coq Require Import List Arith Bool Lia ZArith.
From Verif Require Import Base GBasisModel GBasisProofs LagrangeProofs TriangleModel.
Import ListNotations.
Local Open Scope nat_scope.

(** ** Writing a list of positions in order *)
Section Fill.
Variables (N : nat) (sigma : nat -> nat).
Hypothesis HN : (Z.of_nat N <= UINT_MAX)%Z.

Definition FInv (k : nat) (s : list nat * nat) : Prop := snd s = k /\ length (fst s) = N /\ forall d, d < k -> nth_error (fst s) d = Some (sigma d).

Lemma fill_start : FInv 0 (repeat 0 N, 0).
Proof. unfold FInv. cbn [fst snd]. rewrite repeat_length. repeat split; auto. intros; lia. Qed.

Lemma fput_ok l k d : FInv k (l, k) -> k < N -> d = sigma k -> exists l', put_dof d (l, k) = Ok (l', S k) /\ FInv (S k) (l', S k).
Proof.
  intros (_ & HL & H) Hk ->. cbn [fst snd] in *. unfold put_dof. rewrite set_idx_Ok by lia. cbn [bind]. eexists. split; [reflexivity|].
  unfold FInv. cbn [fst snd]. rewrite replace_length. repeat split; auto. intros d Hd. destruct (Nat.eq_dec d k) as [->|].
  - apply nth_error_replace_eq. lia.
  - rewrite nth_error_replace_neq by lia. apply H. lia.
Qed.

Lemma fasc_ok a b s : a <= b -> b <= N -> (forall d, a <= d -> d < b -> sigma d = d) -> FInv a s -> exists s', ascending a b s = Ok s' /\ FInv b s'.
Proof.
  intros Hab HbN Hs HI. unfold ascending.
  assert (X : forall n k s, n <= N - k -> k + n <= b -> a <= k -> FInv k s -> exists s', for_from k n put_dof s = Ok s' /\ FInv (k + n) s').
  { induction n as [|n IH]; intros k s' H1 H2 H3 I.
    - exists s'. rewrite Nat.add_0_r. cbn. auto.
    - destruct s' as [l k']. destruct I as (E & I). cbn [snd] in E. subst k'. destruct (fput_ok l k k) as (l' & E & I'); [split; auto|lia|symmetry; apply Hs; lia|].
      cbn [for_from]. rewrite E. cbn [bind]. rewrite Nat.add_succ_r. apply (IH (S k)); auto; lia. }
  destruct (X (b - a) a s) as (s' & E & I); auto; try lia. exists s'. split; auto. replace (a + (b - a)) with b in I by lia. auto.
Qed.

Lemma fdesc_ok a : forall n k l fuel, n <= fuel -> a + n <= N -> k + n <= N -> FInv k (l, k) ->
  (forall t, t < n -> sigma (k + t) = a + n - 1 - t) ->
  exists l', descending fuel (decr (Z.of_nat (a + n))) (Z.of_nat a) (l, k) = Ok (l', k + n) /\ FInv (k + n) (l', k + n).
Proof.
  induction n as [|n IH]; intros k l fuel Hf Ha Hk HI Hs.
  - rewrite !Nat.add_0_r. exists l. split; auto.
    assert (C : ((decr (Z.of_nat a) <? UINT_MAX) && (Z.of_nat a <=? decr (Z.of_nat a)))%Z = false).
    { unfold decr. destruct (Z.eqb_spec (Z.of_nat a) 0); [reflexivity|]. destruct (Z.leb_spec (Z.of_nat a) (Z.of_nat a - 1)); [lia|]. apply andb_false_r. }
    destruct fuel; cbn [descending]; rewrite C; reflexivity.
  - assert (D : decr (Z.of_nat (a + S n)) = Z.of_nat (a + n)). { unfold decr. destruct (Z.eqb_spec (Z.of_nat (a + S n)) 0); lia. }
    rewrite D. destruct fuel as [|f]; [lia|]. cbn [descending].
    destruct (Z.ltb_spec (Z.of_nat (a + n)) UINT_MAX); [|lia]. destruct (Z.leb_spec (Z.of_nat a) (Z.of_nat (a + n))); [|lia]. cbn [andb].
    rewrite Nat2Z.id. destruct (fput_ok l k (a + n)) as (l' & E & I); auto; [lia| |].
    { specialize (Hs 0 ltac:(lia)). rewrite Nat.add_0_r in Hs. lia. }
    rewrite E. cbn [bind]. rewrite Nat.add_succ_r. apply (IH (S k)); auto; try lia.
    intros t Ht. specialize (Hs (S t) ltac:(lia)). replace (S k + t) with (k + S t) by lia. lia.
Qed.
End Fill.

(** ** The renumbering: [v0] dofs before the edges, [ne] edges of [n1] dofs each, those with [keep e = false] reversed *)
Section Sigma.
Variables (v0 ne n1 : nat) (keep : nat -> bool).
Definition ea (e : nat) : nat := v0 + e * n1.
Definition flip (e d : nat) : nat := if keep e then d else 2 * ea e + n1 - 1 - d.
Definition rsigma (d : nat) : nat := if (ea 0 <=? d) && (d <? ea ne) then flip ((d - v0) / n1) d else d.

Lemma rsigma_edge e d : e < ne -> ea e <= d -> d < ea (S e) -> rsigma d = flip e d.
Proof.
  intros He H1 H2. unfold rsigma. assert (ea 0 <= d /\ d < ea ne) as [A B] by (unfold ea in *; nia).
  destruct (Nat.leb_spec (ea 0) d); [|lia]. destruct (Nat.ltb_spec d (ea ne)); [|lia]. cbn [andb]. f_equal.
  unfold ea in *. symmetry. apply (Nat.div_unique _ _ _ (d - v0 - e * n1)); nia.
Qed.
Lemma rsigma_fix d : d < ea 0 \/ ea ne <= d -> rsigma d = d.
Proof. intros H. unfold rsigma. destruct (Nat.leb_spec (ea 0) d); auto. destruct (Nat.ltb_spec d (ea ne)); auto. lia. Qed.
Lemma redge_cases d : d < ea 0 \/ ea ne <= d \/ exists e, e < ne /\ ea e <= d /\ d < ea (S e).
Proof.
  destruct (Nat.lt_ge_cases d (ea 0)); auto. destruct (Nat.le_gt_cases (ea ne) d); auto. right; right.
  exists ((d - v0) / n1). unfold ea in *. assert (n1 <> 0) by (intros E; rewrite E in *; lia).
  pose proof (Nat.div_mod (d - v0) n1 ltac:(auto)) as E. pose proof (Nat.mod_upper_bound (d - v0) n1 ltac:(auto)).
  assert ((d - v0) / n1 < ne) by (apply Nat.div_lt_upper_bound; auto; lia). nia.
Qed.
Lemma ea_S e : ea (S e) = ea e + n1. Proof. unfold ea. lia. Qed.
Lemma flip_range e d : ea e <= d -> d < ea (S e) -> ea e <= flip e d < ea (S e).
Proof. rewrite ea_S. intros. unfold flip. destruct (keep e); lia. Qed.
Lemma rsigma_lt N d : ea ne <= N -> d < N -> rsigma d < N.
Proof.
  intros HN H. destruct (redge_cases d) as [H'|[H'|(e & He & H1 & H2)]]; try (rewrite rsigma_fix by auto; auto).
  rewrite (rsigma_edge e) by auto. pose proof (flip_range e d H1 H2). assert (ea (S e) <= ea ne); [|lia]. unfold ea. nia.
Qed.
Lemma rsigma_invol d : rsigma (rsigma d) = d.
Proof.
  destruct (redge_cases d) as [H'|[H'|(e & He & H1 & H2)]]; try (rewrite !rsigma_fix by (rewrite ?rsigma_fix by auto; auto); auto).
  rewrite (rsigma_edge e d) by auto. pose proof (flip_range e d H1 H2). rewrite (rsigma_edge e) by tauto. unfold flip in *. rewrite ea_S in *. destruct (keep e); lia.
Qed.
Lemma rsigma_at e k : e < ne -> k < n1 -> rsigma (ea e + k) = if keep e then ea e + k else ea e + (n1 - 1 - k).
Proof. intros He Hk. rewrite (rsigma_edge e) by (rewrite ?ea_S; lia). unfold flip. destruct (keep e); lia. Qed.

(** one edge of the loop *)
Lemma edge_step N e s : (Z.of_nat N <= UINT_MAX)%Z -> e < ne -> ea ne <= N -> FInv N rsigma (ea e) s ->
  exists s', (if keep e then ascending (ea e) (ea (S e)) s else descending (S N) (decr (Z.of_nat (ea (S e)))) (Z.of_nat (ea e)) s) = Ok s' /\ FInv N rsigma (ea (S e)) s'.
Proof.
  intros HZ He HN I. assert (B : ea (S e) <= N) by (unfold ea in *; nia). destruct (keep e) eqn:K.
  - apply fasc_ok; auto; [rewrite ea_S; lia|]. intros d H1 H2. rewrite (rsigma_edge e) by auto. unfold flip. now rewrite K.
  - destruct s as [l k]. pose proof I as (Ek & _). cbn [snd] in Ek. subst k. rewrite ea_S in *.
    destruct (fdesc_ok N rsigma HZ (ea e) n1 (ea e) l (S N)) as (l' & E & I'); auto; try lia.
    { intros t Ht. rewrite (rsigma_edge e) by (rewrite ?ea_S; lia). unfold flip. rewrite K. lia. }
    exists (l', ea e + n1). split; auto.
Qed.
End Sigma.
