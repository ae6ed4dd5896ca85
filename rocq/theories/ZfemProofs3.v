(** Proofs about the numbering of the nodes of a ZFEM polygon: one number for each node. *)
From Coq Require Import List Arith Bool Lia Permutation.
From Verif Require Import Base ZfemModel ZfemSpec ZfemProofs ZfemProofs2.
Import ListNotations.
Local Open Scope nat_scope.

(** blocks [f t, f (t + 1)) *)
Lemma block_mono (f : nat -> nat) V : (forall t, t < V -> f t <= f (S t)) -> forall a b, a <= b -> b <= V -> f a <= f b.
Proof. intros H a b Hab. induction Hab as [|b Hab IH]; intros Hb; [lia|]. specialize (H b ltac:(lia)). specialize (IH ltac:(lia)). lia. Qed.
Lemma block_uniq (f : nat -> nat) V x t t' : (forall t, t < V -> f t <= f (S t)) -> t < V -> t' < V -> f t <= x < f (S t) -> f t' <= x < f (S t') -> t = t'.
Proof.
  intros H Ht Ht' A B. destruct (Nat.lt_trichotomy t t') as [L|[L|L]]; auto; exfalso.
  - pose proof (block_mono f V H (S t) t'). lia.
  - pose proof (block_mono f V H (S t') t). lia.
Qed.
Lemma block_find (f : nat -> nat) V x : f 0 <= x < f V -> exists t, t < V /\ f t <= x < f (S t).
Proof.
  induction V as [|V IH]; intros H; [lia|]. destruct (le_lt_dec (f V) x).
  - exists V. lia.
  - destruct IH as (t & Ht & Q); [lia|]. exists t. split; [lia|auto].
Qed.

(** the rectangular blocks *)
Lemma rect_uniq n v q v' q' : q < n -> q' < n -> v * n + q = v' * n + q' -> v = v' /\ q = q'.
Proof. intros H H' E. assert (v = v') by nia. subst. lia. Qed.
Lemma rect_find n V x : x < V * n -> exists v q, v < V /\ q < n /\ x = v * n + q.
Proof.
  intros H. assert (n <> 0) by (intros ->; lia). exists (x / n), (x mod n). pose proof (Nat.div_mod x n). pose proof (Nat.mod_upper_bound x n).
  repeat split; try lia. apply Nat.div_lt_upper_bound; lia.
Qed.

Section Number.
Variables (V n1 n2 NB NT sp : nat) (I : nat -> nat -> nat).
Hypothesis HV : 1 <= V.
Hypothesis HNB : NB = V + V * n1 + n2.
Local Notation c0 := (V + V * n1).
Hypothesis Hsp : NB <= sp.
Hypothesis Hsp1 : c0 < sp.
Hypothesis Hsp2 : sp <= c0 + 1 \/ sp = NB.
Hypothesis Irange : forall t q, t < V -> q < n2 -> c0 + 1 <= I t q < NB \/ sp + V * n1 <= I t q < NT.
Hypothesis Iinj : forall t q t' q', t < V -> q < n2 -> t' < V -> q' < n2 -> I t q = I t' q' -> t = t' /\ q = q'.
Hypothesis Ionto : forall i, c0 + 1 <= i < NB \/ sp + V * n1 <= i < NT -> exists t q, t < V /\ q < n2 /\ I t q = i.
Hypothesis HNT : sp + V * n1 <= NT.

Definition number (x : node) : nat :=
  match x with Centre => c0 | Corner v => v | Side v q => V + v * n1 + q | Spoke v q => sp + v * n1 + q | Inner t q => I t q end.

Lemma side_lt v q : v < V -> q < n1 -> V + v * n1 + q < c0.
Proof. intros. nia. Qed.
Lemma spoke_lt v q : v < V -> q < n1 -> v * n1 + q < V * n1.
Proof. intros. nia. Qed.

Lemma number_inj x y : is_node V n1 n2 x -> is_node V n1 n2 y -> number x = number y -> x = y.
Proof.
  intros Hx Hy E. destruct x as [|v|v q|v q|t q], y as [|v'|v' q'|v' q'|t' q']; cbn [is_node number] in *;
    repeat match goal with H : _ /\ _ |- _ => destruct H end;
    repeat match goal with
    | H1 : ?v < V, H2 : ?q < n1 |- _ => lazymatch goal with H : V + v * n1 + q < c0 |- _ => fail | _ => pose proof (side_lt v q H1 H2); pose proof (spoke_lt v q H1 H2) end
    | H1 : ?t < V, H2 : ?q < n2 |- _ => lazymatch goal with H : c0 + 1 <= I t q < NB \/ _ |- _ => fail | _ => pose proof (Irange t q H1 H2) end
    end; try (exfalso; lia); auto.
  - assert (Q : v * n1 + q = v' * n1 + q') by lia. apply rect_uniq in Q as (-> & ->); auto.
  - assert (Q : v * n1 + q = v' * n1 + q') by lia. apply rect_uniq in Q as (-> & ->); auto.
  - apply Iinj in E as (-> & ->); auto.
Qed.

Lemma number_lt x : is_node V n1 n2 x -> number x < NT.
Proof.
  destruct x as [|v|v q|v q|t q]; cbn [is_node number]; intros H; repeat match goal with H : _ /\ _ |- _ => destruct H end.
  - lia.
  - lia.
  - pose proof (spoke_lt v q). lia.
  - pose proof (side_lt v q). lia.
  - pose proof (Irange t q). lia.
Qed.

Lemma number_onto i : i < NT -> exists x, is_node V n1 n2 x /\ number x = i.
Proof.
  intros H. destruct (le_lt_dec V i) as [H1|H1]; [|exists (Corner i); split; auto].
  destruct (le_lt_dec c0 i) as [H2|H2].
  2: { destruct (rect_find n1 V (i - V)) as (v & q & Hv & Hq & E); [lia|]. exists (Side v q). cbn. split; auto. lia. }
  destruct (Nat.eq_dec i c0) as [->|H3]; [exists Centre; split; cbn; auto|].
  destruct (le_lt_dec sp i) as [H4|H4].
  - destruct (le_lt_dec (sp + V * n1) i) as [H5|H5].
    + destruct (Ionto i) as (t & q & Ht & Hq & E); [lia|]. exists (Inner t q). cbn. auto.
    + destruct (rect_find n1 V (i - sp)) as (v & q & Hv & Hq & E); [lia|]. exists (Spoke v q). cbn. split; auto. lia.
  - destruct (Ionto i) as (t & q & Ht & Hq & E); [lia|]. exists (Inner t q). cbn. auto.
Qed.

Lemma number_interior x : is_node V n1 n2 x -> ~ on_boundary x -> c0 <= number x.
Proof.
  destruct x as [|v|v q|v q|t q]; cbn [is_node number on_boundary]; intros H Hb; repeat match goal with H : _ /\ _ |- _ => destruct H end; try tauto; try lia.
  pose proof (Irange t q). lia.
Qed.

(** the table read by node *)
Lemma table A t l : rows_ok V n1 n2 c0 sp V A -> (forall t q, t < V -> q < n2 -> nm_at A t (3 * (n1 + 1) + q) = I t q) ->
  t < V -> l < 3 * (1 + n1) + n2 -> nm_at A t l = number (node_of V n1 t l).
Proof.
  intros (D & R1 & R2) HI Ht Hl. destruct (R1 t Ht) as ((S1 & S2 & S3) & C). specialize (R2 t Ht).
  destruct l as [|[|[|r]]]; cbn [node_of number]; auto. replace (S (S (S r)) - 3) with r by lia.
  destruct (Nat.ltb_spec r n1); [apply (R2 r); auto|].
  destruct (Nat.ltb_spec r (2 * n1)). { cbn [number]. rewrite <- S3 by lia. f_equal. lia. }
  destruct (Nat.ltb_spec r (3 * n1)). { cbn [number]. replace (S (S (S r))) with (3 + 2 * n1 + (r - 2 * n1)) by lia. apply R2. lia. }
  cbn [number]. rewrite <- HI by lia. f_equal. lia.
Qed.
End Number.

Lemma node_of_ok V n1 n2 t l : 1 <= V -> t < V -> l < 3 * (1 + n1) + n2 -> is_node V n1 n2 (node_of V n1 t l).
Proof.
  intros HV Ht Hl. pose proof (Nat.mod_upper_bound (t + 1) V ltac:(lia)) as Hn. destruct l as [|[|[|r]]]; cbn [node_of is_node]; auto. replace (S (S (S r)) - 3) with r by lia.
  destruct (Nat.ltb_spec r n1); [split; auto|]. destruct (Nat.ltb_spec r (2 * n1)); [split; auto; lia|]. destruct (Nat.ltb_spec r (3 * n1)); split; auto; lia.
Qed.
Lemma node_of_all V n1 n2 x : 1 <= V -> is_node V n1 n2 x -> exists t l, t < V /\ l < 3 * (1 + n1) + n2 /\ node_of V n1 t l = x.
Proof.
  intros HV H. destruct x as [|v|v q|v q|t q]; cbn [is_node] in H.
  - exists 0, 0. repeat split; auto; lia.
  - exists v, 1. repeat split; auto; lia.
  - exists v, (3 + q). repeat split; try lia. cbn [node_of Nat.add]. replace (S (S (S q)) - 3) with q by lia. destruct (Nat.ltb_spec q n1); [auto|lia].
  - exists v, (3 + (n1 + q)). repeat split; try lia. cbn [node_of Nat.add]. replace (S (S (S (n1 + q))) - 3) with (n1 + q) by lia.
    destruct (Nat.ltb_spec (n1 + q) n1); [lia|]. destruct (Nat.ltb_spec (n1 + q) (2 * n1)); [|lia]. f_equal. lia.
  - exists t, (3 + (3 * n1 + q)). repeat split; try lia. cbn [node_of Nat.add]. replace (S (S (S (3 * n1 + q))) - 3) with (3 * n1 + q) by lia.
    destruct (Nat.ltb_spec (3 * n1 + q) n1); [lia|]. destruct (Nat.ltb_spec (3 * n1 + q) (2 * n1)); [lia|]. destruct (Nat.ltb_spec (3 * n1 + q) (3 * n1)); [lia|]. f_equal. lia.
Qed.

Lemma half_3 o : 3 <= o -> 2 * ((o - 1) * (o - 2) / 2) = (o - 1) * (o - 2).
Proof.
  intros H. assert (E : exists m, (o - 1) * (o - 2) = m * 2).
  { clear H. destruct (Nat.Even_or_Odd (o - 1)) as [(m & Hm)|(m & Hm)]; [exists (m * (o - 2)); nia|]. exists ((o - 1) * m). replace (o - 2) with (2 * m) by lia. ring. }
  destruct E as (m & ->). rewrite Nat.div_mul by lia. lia.
Qed.

Theorem numbering order V junk : 1 <= order -> 1 <= V ->
  let n1 := order - 1 in let n2 := (order - 1) * (order - 2) / 2 in
  let NB := V + V * n1 + n2 in let NT := V + V * n1 + 1 + V * (n1 + n2) in
  exists M num, CreateMaps junk order V n1 n2 NB = Ok M /\ nm_rows M = V /\ nm_cols M = 3 * (1 + n1) + n2 /\
    (forall t l, t < V -> l < 3 * (1 + n1) + n2 -> nm_at M t l = num (node_of V n1 t l)) /\
    (forall x y, is_node V n1 n2 x -> is_node V n1 n2 y -> num x = num y -> x = y) /\
    (forall x, is_node V n1 n2 x -> num x < NT) /\
    (forall i, i < NT -> exists x, is_node V n1 n2 x /\ num x = i) /\
    (forall v, v < V -> num (Corner v) = v) /\
    (forall v q, v < V -> q < n1 -> num (Side v q) = V + v * n1 + q) /\
    (forall x, is_node V n1 n2 x -> ~ on_boundary x -> V + V * n1 <= num x) /\
    (3 <= order -> num Centre < NB).
Proof.
  intros Ho HV n1 n2 NB NT. unfold CreateMaps.
  destruct (first_loop V n1 n2 NB HV eq_refl junk) as (A1 & E1 & D1 & S1). cbv zeta in E1 |- *. rewrite E1. cbn [bind].
  assert (fin : forall sp I M, rows_ok V n1 n2 (V + V * n1) sp V M -> (forall t q, t < V -> q < n2 -> nm_at M t (3 * (n1 + 1) + q) = I t q) ->
    NB <= sp -> V + V * n1 < sp -> (sp <= V + V * n1 + 1 \/ sp = NB) -> sp + V * n1 <= NT ->
    (forall t q, t < V -> q < n2 -> V + V * n1 + 1 <= I t q < NB \/ sp + V * n1 <= I t q < NT) ->
    (forall t q t' q', t < V -> q < n2 -> t' < V -> q' < n2 -> I t q = I t' q' -> t = t' /\ q = q') ->
    (forall i, V + V * n1 + 1 <= i < NB \/ sp + V * n1 <= i < NT -> exists t q, t < V /\ q < n2 /\ I t q = i) ->
    exists M0 num, Ok M = Ok M0 /\ nm_rows M0 = V /\ nm_cols M0 = 3 * (1 + n1) + n2 /\
    (forall t l, t < V -> l < 3 * (1 + n1) + n2 -> nm_at M0 t l = num (node_of V n1 t l)) /\
    (forall x y, is_node V n1 n2 x -> is_node V n1 n2 y -> num x = num y -> x = y) /\
    (forall x, is_node V n1 n2 x -> num x < NT) /\
    (forall i, i < NT -> exists x, is_node V n1 n2 x /\ num x = i) /\
    (forall v, v < V -> num (Corner v) = v) /\
    (forall v q, v < V -> q < n1 -> num (Side v q) = V + v * n1 + q) /\
    (forall x, is_node V n1 n2 x -> ~ on_boundary x -> V + V * n1 <= num x) /\
    (3 <= order -> num Centre < NB)).
  { intros sp I M R HI H1 H1' H2 H3 H4 H5 H6. exists M, (number V n1 sp I). split; auto. destruct R as (D & R'). pose proof D as (Da & Db). split; auto. split; auto.
    split; [intros; apply (table V n1 n2 NB NT sp I); auto; split; auto|].
    split; [intros x y; apply (number_inj V n1 n2 NB NT sp I); auto|].
    split; [apply (number_lt V n1 n2 NB NT sp I); auto|].
    split; [apply (number_onto V n1 n2 NB NT sp I); auto|].
    split; [reflexivity|]. split; [reflexivity|].
    split; [apply (number_interior V n1 n2 NB NT sp I); auto|].
    intros O3. cbn [number]. pose proof (half_3 order O3) as Hh. fold n2 in Hh. assert (1 <= n2) by nia. unfold NB. lia. }
  destruct (Nat.leb_spec order 2) as [O2|O2].
  - assert (N2 : n2 = 0) by (unfold n2; assert (order = 1 \/ order = 2) as [-> | ->] by lia; reflexivity).
    destruct (maps_low V n1 n2 NB HV eq_refl A1 D1 S1) as (M & E & R). cbv zeta in E |- *. rewrite E. apply (fin (NB + 1) (fun _ _ => 0)).
    + replace (V + V * n1) with NB by lia. auto.
    + intros; lia.
    + lia.
    + lia.
    + lia.
    + unfold NT, NB. rewrite N2. lia.
    + intros; lia.
    + intros; lia.
    + intros i [Hi|Hi]; [lia|]. exfalso. unfold NT, NB in Hi. rewrite N2 in Hi. lia.
  - destruct (Nat.eqb_spec order 3) as [O3|O3].
    + assert (N2 : n2 = 1) by (unfold n2; rewrite O3; reflexivity).
      destruct (maps_3 V n1 n2 NB HV eq_refl A1 N2 D1 S1) as (M & E & R & In). cbv zeta in E |- *. rewrite E. apply (fin NB (fun t _ => NB + V * n1 + t)).
      * replace (V + V * n1) with (NB - 1) by lia. auto.
      * intros t q Ht Hq. assert (q = 0) as -> by lia. rewrite <- In by auto. f_equal. lia.
      * lia.
      * lia.
      * lia.
      * unfold NT, NB. rewrite N2. lia.
      * intros t q Ht Hq. right. unfold NT, NB. rewrite N2. lia.
      * intros t q t' q' Ht Hq Ht' Hq' Eq. lia.
      * intros i [Hi|Hi]; [lia|]. exists (i - (NB + V * n1)), 0. unfold NT, NB in Hi. rewrite N2 in Hi. repeat split; lia.
    + pose proof (half_3 order ltac:(lia)) as Hh. fold n2 in Hh. assert (N2 : 2 <= n2) by nia.
      destruct (spread_ok V n2 HV N2) as (cnt & Es & Lc & Sc & Bc).
      destruct (maps_high V n1 n2 NB HV eq_refl cnt Lc Sc Bc A1 D1 S1) as (M & E & R & In).
      cbv zeta in E |- *. destruct (nmat_set_col0 A1 (NB - n2)) as [A2| |]; cbn [bind] in E |- *; try discriminate. rewrite Es. cbn [bind]. rewrite E.
      set (val := fun t p => if p <? nth t cnt 0 then NB - n2 + 1 + upto cnt t + p else NB + V * n1 + (t * n2 - upto cnt t) + (p - nth t cnt 0)).
      set (w := fun t => t * n2 - upto cnt t).
      assert (UM : forall t, t < V -> upto cnt t <= upto cnt (S t)) by (intros t Ht; rewrite (upto_S V cnt Lc t Ht); lia).
      assert (Uend : upto cnt V = n2 - 1) by (apply (upto_V V n2 cnt Lc Sc)).
      assert (U0 : upto cnt 0 = 0) by reflexivity.
      assert (WS : forall t, t < V -> w (S t) = w t + (n2 - nth t cnt 0)).
      { intros t Ht. unfold w. rewrite (upto_S V cnt Lc t Ht). pose proof (upto_le V n1 n2 NB HV eq_refl cnt Lc Sc Bc t ltac:(lia)). pose proof (Bc t Ht). lia. }
      assert (WM : forall t, t < V -> w t <= w (S t)) by (intros t Ht; rewrite WS; lia).
      assert (Wend : NB + V * n1 + w V = NT) by (unfold w, NT, NB; rewrite Uend; nia).
      assert (W0 : w 0 = 0) by reflexivity.
      assert (V1 : forall t p, t < V -> p < n2 -> p < nth t cnt 0 -> val t p = NB - n2 + 1 + (upto cnt t + p) /\ upto cnt t <= upto cnt t + p < upto cnt (S t)).
      { intros t p Ht Hp L. unfold val. apply Nat.ltb_lt in L as L'. rewrite L'. rewrite (upto_S V cnt Lc t Ht). lia. }
      assert (V2 : forall t p, t < V -> p < n2 -> nth t cnt 0 <= p -> val t p = NB + V * n1 + (w t + (p - nth t cnt 0)) /\ w t <= w t + (p - nth t cnt 0) < w (S t)).
      { intros t p Ht Hp L. unfold val. apply Nat.ltb_ge in L as L'. rewrite L'. rewrite (WS t Ht). unfold w. lia. }
      assert (Vinj : forall t p t' p', t < V -> p < n2 -> t' < V -> p' < n2 -> val t p = val t' p' -> t = t' /\ p = p').
      { intros t p t' p' Ht Hp Ht' Hp' Eq.
        pose proof (block_mono (upto cnt) V UM (S t) V ltac:(lia) ltac:(lia)). pose proof (block_mono (upto cnt) V UM (S t') V ltac:(lia) ltac:(lia)).
        destruct (le_lt_dec (nth t cnt 0) p) as [L|L], (le_lt_dec (nth t' cnt 0) p') as [L'|L'].
        - destruct (V2 t p Ht Hp L) as (Q1 & Q2). destruct (V2 t' p' Ht' Hp' L') as (Q3 & Q4). assert (E4 : w t + (p - nth t cnt 0) = w t' + (p' - nth t' cnt 0)) by lia.
          assert (t = t'). { apply (block_uniq w V (w t + (p - nth t cnt 0))); auto. rewrite E4. auto. } subst t'. lia.
        - destruct (V2 t p Ht Hp L) as (Q1 & Q2). destruct (V1 t' p' Ht' Hp' L') as (Q3 & Q4). lia.
        - destruct (V1 t p Ht Hp L) as (Q1 & Q2). destruct (V2 t' p' Ht' Hp' L') as (Q3 & Q4). lia.
        - destruct (V1 t p Ht Hp L) as (Q1 & Q2). destruct (V1 t' p' Ht' Hp' L') as (Q3 & Q4). assert (E4 : upto cnt t + p = upto cnt t' + p') by lia.
          assert (t = t'). { apply (block_uniq (upto cnt) V (upto cnt t + p)); auto. rewrite E4. auto. } subst t'. lia. }
      apply (fin NB (fun t q => nm_at M t (3 * (n1 + 1) + q))); auto.
      * replace (V + V * n1) with (NB - n2) by lia. auto.
      * lia.
      * unfold NT, NB. nia.
      * intros t q Ht Hq. destruct (In t Ht) as (pm & P & Q).
        assert (Iq : List.In q pm) by (apply (Permutation_in _ (Permutation_sym P)), in_seq; lia). destruct (In_nth _ _ 0 Iq) as (p & Hp & <-). rewrite (Permutation_length P), seq_length in Hp.
        rewrite Q by auto. fold (val t p).
        pose proof (block_mono (upto cnt) V UM (S t) V ltac:(lia) ltac:(lia)). pose proof (block_mono w V WM (S t) V ltac:(lia) ltac:(lia)).
        destruct (le_lt_dec (nth t cnt 0) p) as [L|L]; [right; destruct (V2 t p Ht Hp L); lia|left; destruct (V1 t p Ht Hp L); lia].
      * intros t q t' q' Ht Hq Ht' Hq' Eq. destruct (In t Ht) as (pm & P & Q). destruct (In t' Ht') as (pm' & P' & Q').
        assert (Iq : List.In q pm) by (apply (Permutation_in _ (Permutation_sym P)), in_seq; lia). destruct (In_nth _ _ 0 Iq) as (p & Hp & Ep). rewrite (Permutation_length P), seq_length in Hp.
        assert (Iq' : List.In q' pm') by (apply (Permutation_in _ (Permutation_sym P')), in_seq; lia). destruct (In_nth _ _ 0 Iq') as (p' & Hp' & Ep'). rewrite (Permutation_length P'), seq_length in Hp'.
        rewrite <- Ep, <- Ep', Q, Q' in Eq by auto. apply (Vinj t p t' p' Ht Hp Ht' Hp') in Eq as (-> & ->). split; auto.
        (* same triangle: use the table of t' only *)
        assert (Iq2 : List.In q pm') by (apply (Permutation_in _ (Permutation_sym P')), in_seq; lia). destruct (In_nth _ _ 0 Iq2) as (p2 & Hp2 & Ep2). rewrite (Permutation_length P'), seq_length in Hp2.
        assert (E5 : val t' p2 = val t' p'). { unfold val. rewrite <- (Q' p2 Hp2), <- (Q p' Hp'), Ep2, Ep. reflexivity. }
        apply (Vinj t' p2 t' p' Ht' Hp2 Ht' Hp') in E5 as (_ & ->). congruence.
      * intros i Hi. assert (Q : exists t p, t < V /\ p < n2 /\ val t p = i).
        { destruct Hi as [Hi|Hi].
          - destruct (block_find (upto cnt) V (i - (NB - n2 + 1))) as (t & Ht & Q); [lia|]. rewrite (upto_S V cnt Lc t Ht) in Q. pose proof (Bc t Ht).
            exists t, (i - (NB - n2 + 1) - upto cnt t). split; auto. split; [lia|]. destruct (V1 t (i - (NB - n2 + 1) - upto cnt t)) as (Q1 & _); auto; lia.
          - destruct (block_find w V (i - (NB + V * n1))) as (t & Ht & Q); [lia|]. rewrite (WS t Ht) in Q. pose proof (Bc t Ht).
            exists t, (nth t cnt 0 + (i - (NB + V * n1) - w t)). split; auto. split; [lia|]. destruct (V2 t (nth t cnt 0 + (i - (NB + V * n1) - w t))) as (Q1 & _); auto; lia. }
        destruct Q as (t & p & Ht & Hp & Ev). destruct (In t Ht) as (pm & P & Q). exists t, (nth p pm 0). split; auto. split.
        -- assert (J : List.In (nth p pm 0) (seq 0 n2)) by (apply (Permutation_in _ P), nth_In; rewrite (Permutation_length P), seq_length; auto). apply in_seq in J. lia.
        -- rewrite Q by auto. exact Ev.
Qed.
