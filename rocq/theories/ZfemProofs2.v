(** Proofs about the numbering of the nodes of a ZFEM polygon: the table. *)
From Coq Require Import List Arith Bool Lia Permutation.
From Verif Require Import Base ZfemModel ZfemSpec ZfemProofs.
Import ListNotations.
Local Open Scope nat_scope.

Ltac nb := repeat match goal with
  | |- context [?a =? ?b] => destruct (Nat.eqb_spec a b)
  | |- context [?a <=? ?b] => destruct (Nat.leb_spec a b)
  | |- context [?a <? ?b] => destruct (Nat.ltb_spec a b) end; cbn [andb]; try lia; auto.

Definition same (A B : NMat) : Prop := nm_rows B = nm_rows A /\ nm_cols B = nm_cols A.

Lemma nset_ok A i j x : i < nm_rows A -> j < nm_cols A -> exists B, nmat_set A i j x = Ok B /\ same A B /\
  forall a b, nm_at B a b = if (a =? i) && (b =? j) then x else nm_at A a b.
Proof. intros H1 H2. unfold nmat_set. apply Nat.ltb_lt in H1, H2. rewrite H1, H2. cbn [andb]. eexists. split; [reflexivity|]. repeat split. Qed.
Lemma nseg_ok A t s n c : t < nm_rows A -> s + n <= nm_cols A -> exists B, nmat_set_segment A t s n c = Ok B /\ same A B /\
  forall a b, nm_at B a b = if (a =? t) && (s <=? b) && (b <? s + n) then (b - s) + c else nm_at A a b.
Proof. intros H1 H2. unfold nmat_set_segment. apply Nat.ltb_lt in H1. apply Nat.leb_le in H2. rewrite H1, H2. cbn [andb]. eexists. split; [reflexivity|]. repeat split. Qed.
Lemma ncol_ok A c : 0 < nm_cols A -> exists B, nmat_set_col0 A c = Ok B /\ same A B /\ forall a b, nm_at B a b = if b =? 0 then c else nm_at A a b.
Proof. intros H1. unfold nmat_set_col0. apply Nat.ltb_lt in H1. rewrite H1. eexists. split; [reflexivity|]. repeat split. Qed.

Section Maps.
Variables (V n1 n2 NB : nat).
Hypothesis HV : 1 <= V.
Hypothesis HNB : NB = V + V * n1 + n2.
Local Notation cols := (3 * (1 + n1) + n2).
Local Notation next t := ((t + 1) mod V).
Local Notation K := (3 * (n1 + 1)).
Lemma next_lt t : next t < V.
Proof. apply Nat.mod_upper_bound. lia. Qed.

Definition dims (A : NMat) : Prop := nm_rows A = V /\ nm_cols A = cols.
Lemma dims_same A B : dims A -> same A B -> dims B.
Proof. intros (a & b) (c & d). split; congruence. Qed.

Definition side_row (A : NMat) (t : nat) : Prop :=
  nm_at A t 1 = t /\ nm_at A t 2 = next t /\ forall q, q < n1 -> nm_at A t (3 + n1 + q) = V + t * n1 + q.
Definition spoke_row (A : NMat) (sp t : nat) : Prop :=
  forall q, q < n1 -> nm_at A t (3 + q) = sp + t * n1 + q /\ nm_at A t (3 + 2 * n1 + q) = sp + next t * n1 + q.

Lemma first_loop junk : exists A, for_loop V (fun t A =>
    let next_t := (t + 1) mod V in
    A <- nmat_set A t 1 t ;; A <- nmat_set A t 2 next_t ;; nmat_set_segment A t (3 + n1) n1 (t * n1 + V)) {| nm_rows := V; nm_cols := cols; nm_at := junk |} = Ok A /\
  dims A /\ forall t, t < V -> side_row A t.
Proof.
  apply (@for_loop_total _ (fun i A => dims A /\ forall t, t < i -> side_row A t)).
  - split; [split; reflexivity|]. intros; lia.
  - intros i A Hi (D & S). cbv zeta. pose proof D as (D1 & D2).
    destruct (nset_ok A i 1 i) as (B & E1 & S1 & N1); [lia|lia|]. rewrite E1. cbn [bind]. pose proof (dims_same _ _ D S1) as DB. pose proof DB as (DB1 & DB2).
    destruct (nset_ok B i 2 (next i)) as (C & E2 & S2 & N2); [lia|lia|]. rewrite E2. cbn [bind]. pose proof (dims_same _ _ DB S2) as DC. pose proof DC as (DC1 & DC2).
    destruct (nseg_ok C i (3 + n1) n1 (i * n1 + V)) as (F & E3 & S3 & N3); [lia|lia|]. exists F. split; auto. split; [eapply dims_same; eauto|].
    intros t Ht. destruct (Nat.eq_dec t i) as [->|Hne].
    + unfold side_row. rewrite !N3, !N2, !N1. repeat split; [nb|nb|]. intros q Hq. rewrite N3. nb.
    + destruct (S t) as (Q1 & Q2 & Q3); [lia|]. unfold side_row. rewrite !N3, !N2, !N1. repeat split; [nb|nb|]. intros q Hq. rewrite N3, N2, N1. rewrite <- Q3 by auto. nb.
Qed.

(** the two segments towards the centre *)
Lemma spokes_step A sp t : dims A -> t < V -> exists B,
  (A1 <- nmat_set_segment A t 3 n1 (sp + t * n1) ;; nmat_set_segment A1 t (3 + 2 * n1) n1 (sp + next t * n1)) = Ok B /\ dims B /\
  spoke_row B sp t /\ (forall a b, a <> t \/ b < 3 \/ 3 + n1 <= b < 3 + 2 * n1 \/ 3 + 3 * n1 <= b -> nm_at B a b = nm_at A a b).
Proof.
  intros D Ht. pose proof D as (D1 & D2).
  destruct (nseg_ok A t 3 n1 (sp + t * n1)) as (B & E1 & S1 & N1); [lia|lia|]. rewrite E1. cbn [bind]. pose proof (dims_same _ _ D S1) as DB. pose proof DB as (DB1 & DB2).
  destruct (nseg_ok B t (3 + 2 * n1) n1 (sp + next t * n1)) as (C & E2 & S2 & N2); [lia|lia|]. exists C. split; auto. split; [eapply dims_same; eauto|]. split.
  - intros q Hq. rewrite !N2, !N1. split; nb.
  - intros a b H. rewrite N2, N1. nb.
Qed.

(** sides, spokes and centre of the rows before i, sides and centre of all *)
Definition rows_ok (c0 sp i : nat) (A : NMat) : Prop :=
  dims A /\ (forall t, t < V -> side_row A t /\ nm_at A t 0 = c0) /\ (forall t, t < i -> spoke_row A sp t).

Lemma rows_start c0 sp A : dims A -> (forall t, t < V -> side_row A t) -> exists B, nmat_set_col0 A c0 = Ok B /\ rows_ok c0 sp 0 B.
Proof.
  intros D S. destruct (ncol_ok A c0) as (B & E & S1 & N); [destruct D; lia|]. exists B. split; auto. split; [eapply dims_same; eauto|]. split; [|intros; lia].
  intros t Ht. destruct (S t Ht) as (Q1 & Q2 & Q3). unfold side_row. rewrite !N. cbn. repeat split; auto. intros q Hq. rewrite N. cbn. apply Q3; auto.
Qed.

Lemma rows_keep c0 sp i A B : rows_ok c0 sp i A -> i < V -> dims B -> spoke_row B sp i ->
  (forall a b, a <> i \/ b < 3 \/ 3 + n1 <= b < 3 + 2 * n1 -> nm_at B a b = nm_at A a b) -> rows_ok c0 sp (S i) B.
Proof.
  intros (D & R1 & R2) Hi DB SB N. split; auto. split.
  - intros t Ht. destruct (R1 t Ht) as ((Q1 & Q2 & Q3) & Q4). unfold side_row. rewrite !N by (right; lia). repeat split; auto. intros q Hq. rewrite N by lia. auto.
  - intros t Ht. destruct (Nat.eq_dec t i) as [->|]; auto. intros q Hq. rewrite !N by lia. apply R2; auto. lia.
Qed.

(** ** orders up to 2 *)
Lemma maps_low A : dims A -> (forall t, t < V -> side_row A t) -> exists B,
  (A <- nmat_set_col0 A NB ;; for_loop V (fun t A => let next_t := (t + 1) mod V in
      A <- nmat_set_segment A t 3 n1 (NB + 1 + t * n1) ;; nmat_set_segment A t (3 + 2 * n1) n1 (NB + 1 + next_t * n1)) A) = Ok B /\
  rows_ok NB (NB + 1) V B.
Proof.
  intros D S. destruct (rows_start NB (NB + 1) A D S) as (A0 & E0 & R0). rewrite E0. cbn [bind].
  apply (@for_loop_total _ (fun i A => rows_ok NB (NB + 1) i A)); auto.
  intros i A1 Hi R1. cbv zeta. destruct (spokes_step A1 (NB + 1) i) as (B & E & DB & SB & NBt); [apply R1|auto|]. exists B. split; auto.
  apply (rows_keep NB (NB + 1) i A1); auto. intros a b H. apply NBt. lia.
Qed.

(** ** order 3 *)
Lemma maps_3 A : n2 = 1 -> dims A -> (forall t, t < V -> side_row A t) -> exists B,
  (A <- nmat_set_col0 A (NB - 1) ;; for_loop V (fun t A => let next_t := (t + 1) mod V in
      A <- nmat_set_segment A t 3 n1 (NB + t * n1) ;; A <- nmat_set_segment A t (3 + 2 * n1) n1 (NB + next_t * n1) ;;
      nmat_set A t (3 + 3 * n1) (NB + V * n1 + t)) A) = Ok B /\
  rows_ok (NB - 1) NB V B /\ forall t, t < V -> nm_at B t (3 + 3 * n1) = NB + V * n1 + t.
Proof.
  intros H2 D S. destruct (rows_start (NB - 1) NB A D S) as (A0 & E0 & R0). rewrite E0. cbn [bind].
  apply (@for_loop_total _ (fun i A => rows_ok (NB - 1) NB i A /\ forall t, t < i -> nm_at A t (3 + 3 * n1) = NB + V * n1 + t)); [split; auto; intros; lia|].
  intros i A1 Hi (R1 & I1). cbv zeta. destruct (spokes_step A1 NB i) as (B & E & DB & SB & NBt); [apply R1|auto|].
  destruct (nmat_set_segment A1 i 3 n1 (NB + i * n1)) as [A2| |]; cbn [bind] in E |- *; try discriminate. rewrite E. cbn [bind].
  destruct (nset_ok B i (3 + 3 * n1) (NB + V * n1 + i)) as (C & E2 & S2 & N2); [destruct DB; lia|destruct DB; lia|]. exists C. split; auto. split.
  - apply (rows_keep (NB - 1) NB i A1); auto; [eapply dims_same; eauto| |].
    + intros q Hq. destruct (SB q Hq). rewrite !N2. split; nb.
    + intros a b H. rewrite N2. rewrite <- NBt by lia. nb.
  - intros t Ht. rewrite N2. destruct (Nat.eq_dec t i) as [->|]; [nb|]. transitivity (nm_at B t (3 + 3 * n1)); [nb|]. rewrite NBt by lia. apply I1; lia.
Qed.

(** ** orders from 4 *)
Lemma put_inner (pm : list nat) t m : Permutation pm (seq 0 n2) -> t < V -> forall a A o, a + m <= n2 -> dims A -> exists B,
  for_from a m (fun p s => let '(A, o) := s in m <- idx_ pm p ;; A <- nmat_set A t (K + m) o ;; Ok (A, o + 1)) (A, o) = Ok (B, o + m) /\ dims B /\
  (forall p, a <= p < a + m -> nm_at B t (K + nth p pm 0) = o + (p - a)) /\
  (forall r c, r <> t \/ c < K -> nm_at B r c = nm_at A r c) /\
  (forall p, p < n2 -> ~ a <= p < a + m -> nm_at B t (K + nth p pm 0) = nm_at A t (K + nth p pm 0)).
Proof.
  intros P Ht. assert (L : length pm = n2) by (rewrite (Permutation_length P); apply seq_length).
  assert (B : forall p, p < n2 -> nth p pm 0 < n2). { intros p Hp. assert (I : In (nth p pm 0) (seq 0 n2)) by (apply (Permutation_in _ P), nth_In; lia). apply in_seq in I. lia. }
  assert (Inj : forall p q, p < n2 -> q < n2 -> nth p pm 0 = nth q pm 0 -> p = q). { intros p q Hp Hq E. apply (proj1 (NoDup_nth pm 0) (Permutation_NoDup (Permutation_sym P) (seq_NoDup _ _))); auto; lia. }
  induction m as [|m IH]; intros a A o Ha D; cbn [for_from].
  - exists A. split; [f_equal; f_equal; lia|]. split; auto. split; [intros; lia|]. split; auto.
  - rewrite (proj2 (idx_Ok pm a _) (nth_error_nth' pm 0 (n := a) ltac:(lia))). cbn [bind]. specialize (B a ltac:(lia)) as Ba.
    destruct (nset_ok A t (K + nth a pm 0) o) as (A1 & E1 & S1 & N1); [destruct D; lia|destruct D; lia|]. rewrite E1. cbn [bind].
    destruct (IH (S a) A1 (o + 1)) as (C & E & DC & Q1 & Q2 & Q3); [lia|eapply dims_same; eauto|]. exists C. rewrite E. split; [f_equal; f_equal; lia|]. split; auto. split; [|split].
    + intros p Hp. destruct (Nat.eq_dec p a) as [->|].
      * rewrite Q3 by lia. rewrite N1, !Nat.eqb_refl. cbn [andb]. lia.
      * rewrite Q1 by lia. lia.
    + intros r c H. rewrite Q2, N1 by auto. nb.
    + intros p Hp Hn. rewrite Q3 by lia. rewrite N1. destruct (Nat.eqb_spec (K + nth p pm 0) (K + nth a pm 0)) as [E3|]; [|rewrite andb_false_r; auto].
      apply Nat.add_cancel_l, Inj in E3; lia.
Qed.

Variable cnt : list nat.
Hypothesis Hcnt : length cnt = V.
Hypothesis Hsum : list_sum cnt = n2 - 1.
Hypothesis Hlt : forall t, t < V -> nth t cnt 0 < n2.
Definition upto (t : nat) : nat := list_sum (firstn t cnt).
Lemma upto_S t : t < V -> upto (S t) = upto t + nth t cnt 0.
Proof.
  intros H. unfold upto. rewrite <- Hcnt in H. clear -H. revert t H. induction cnt as [|x l IH]; intros t H; [simpl in H; lia|]. destruct t; cbn [firstn list_sum fold_right nth]; [simpl; lia|].
  cbn [firstn list_sum fold_right] in IH. change (fold_right Nat.add 0) with list_sum in *. rewrite <- Nat.add_assoc. f_equal. apply IH. simpl in H. lia.
Qed.
Lemma upto_V : upto V = n2 - 1.
Proof. unfold upto. rewrite <- Hcnt, firstn_all. auto. Qed.
Lemma upto_le t : t <= V -> upto t <= t * n2.
Proof. induction t as [|t IH]; intros H; [unfold upto; simpl; lia|]. rewrite upto_S by lia. specialize (Hlt t ltac:(lia)). lia. Qed.

Local Notation D0 := (NB - n2 + 1).
Local Notation O0 := (NB + V * n1).
Definition inner_row (A : NMat) (t : nat) : Prop := exists pm, Permutation pm (seq 0 n2) /\ forall p, p < n2 ->
  nm_at A t (K + nth p pm 0) = if p <? nth t cnt 0 then D0 + upto t + p else O0 + (t * n2 - upto t) + (p - nth t cnt 0).

Lemma maps_high A : dims A -> (forall t, t < V -> side_row A t) -> exists B,
  (A <- nmat_set_col0 A (NB - n2) ;;
    ' (A, _, _, _) <- for_loop V (fun t s =>
      let '(A, off_int, off_dof, p_mod) := s in
      let next_t := (t + 1) mod V in
      A <- nmat_set_segment A t 3 n1 (NB + t * n1) ;;
      A <- nmat_set_segment A t (3 + 2 * n1) n1 (NB + next_t * n1) ;;
      npt <- idx_ cnt t ;;
      p_mod <- shuffle n2 t npt p_mod ;;
      ' (A, off_dof) <- for_loop npt (fun p s =>
        let '(A, o) := s in
        m <- idx_ p_mod p ;; A <- nmat_set A t (K + m) o ;; Ok (A, o + 1)) (A, off_dof) ;;
      ' (A, off_int) <- for_from npt (n2 - npt) (fun p s =>
        let '(A, o) := s in
        m <- idx_ p_mod p ;; A <- nmat_set A t (K + m) o ;; Ok (A, o + 1)) (A, off_int) ;;
      Ok (A, off_int, off_dof, p_mod)) (A, NB + V * n1, NB - n2 + 1, repeat 0 n2) ;;
    Ok A) = Ok B /\ rows_ok (NB - n2) NB V B /\ forall t, t < V -> inner_row B t.
Proof.
  intros D S. destruct (rows_start (NB - n2) NB A D S) as (A0 & E0 & R0). rewrite E0. cbn [bind].
  match goal with |- context [for_loop V ?f ?st] => destruct (@for_loop_total _ (fun i s => let '(A, oi, od, pm) := s in
    rows_ok (NB - n2) NB i A /\ (forall t, t < i -> inner_row A t) /\ oi = O0 + (i * n2 - upto i) /\ od = D0 + upto i /\ length pm = n2) f V st) as ([[[B oi] od] pm] & E & H) end.
  - split; auto. split; [intros; lia|]. unfold upto. simpl. rewrite repeat_length. repeat split; lia.
  - intros i [[[A1 oi] od] pm] Hi (R1 & I1 & Eo & Ed & Lp). cbv zeta. destruct (spokes_step A1 NB i) as (B & E & DB & SB & NBt); [apply R1|auto|].
    destruct (nmat_set_segment A1 i 3 n1 (NB + i * n1)) as [A2| |]; cbn [bind] in E |- *; try discriminate. rewrite E. cbn [bind].
    rewrite (proj2 (idx_Ok cnt i _) (nth_error_nth' cnt 0 (n := i) ltac:(lia))). cbn [bind]. set (npt := nth i cnt 0) in *.
    pose proof (Hlt i Hi) as Hn. fold npt in Hn.
    destruct (shuffle_ok n2 i npt pm Lp) as (pm' & Ep & Pp). rewrite Ep. cbn [bind].
    destruct (put_inner pm' i npt Pp Hi 0 B od) as (C & E1 & DC & Q1 & Q2 & Q3); [lia|auto|]. unfold for_loop at 1. rewrite E1. cbn [bind].
    destruct (put_inner pm' i (n2 - npt) Pp Hi npt C oi) as (F & E2 & DF & T1 & T2 & T3); [lia|auto|]. rewrite E2. cbn [bind].
    eexists. split; [reflexivity|]. cbv beta iota. split; [|split].
    + apply (rows_keep (NB - n2) NB i A1); auto.
      * intros q Hq. destruct (SB q Hq). rewrite !T2, !Q2 by lia. auto.
      * intros a b H. rewrite T2, Q2 by lia. apply NBt. lia.
    + intros t Ht. destruct (Nat.eq_dec t i) as [->|Hne].
      * exists pm'. split; auto. intros p Hp. fold npt. destruct (Nat.ltb_spec p npt).
        -- rewrite T3 by lia. rewrite Q1 by lia. lia.
        -- rewrite T1 by lia. lia.
      * destruct (I1 t) as (pt & Pt & Nt); [lia|]. exists pt. split; auto. intros p Hp. rewrite T2, Q2, NBt by lia. auto.
    + pose proof (upto_le i ltac:(lia)). rewrite (upto_S i Hi). fold npt. rewrite (Permutation_length Pp), seq_length. repeat split; try lia.
  - rewrite E. cbn [bind]. exists B. split; auto. destruct H as (H1 & H2 & _). auto.
Qed.
End Maps.
