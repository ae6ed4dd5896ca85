From Coq Require Import List Arith Bool Lia Reals Lra.
From Verif Require Import Base RSum DofsProofs SparseModel SparseSpec.
Import ListNotations.
Local Open Scope R_scope.

Lemma col_add_get r v col i :
  lsum (fun e => if (fst e =? i)%nat then snd e else 0) (col_add r v col) =
  lsum (fun e => if (fst e =? i)%nat then snd e else 0) col + (if (r =? i)%nat then v else 0).
Proof.
  induction col as [|(r', v') t IH]; cbn [col_add lsum fst snd]; [lra|].
  destruct (Nat.eqb_spec r r') as [->|Hne].
  - cbn [lsum fst snd]. destruct (r' =? i)%nat; lra.
  - destruct (r <? r')%nat; cbn [lsum fst snd]; [|rewrite IH]; lra.
Qed.

Lemma col_add_in r v col e : In e (col_add r v col) -> fst e = r \/ exists e', In e' col /\ fst e' = fst e.
Proof.
  induction col as [|(r', v') t IH]; cbn [col_add].
  - intros [<-|[]]; auto.
  - destruct (Nat.eqb_spec r r') as [->|Hne].
    + intros [<-|H]; [now left|]. right. exists e. split; auto. now right.
    + destruct (r <? r')%nat.
      * intros [<-|H]; [now left|]. right. exists e. auto.
      * intros [<-|H]; [right; exists (r', v'); split; [now left|auto]|].
        destruct (IH H) as [->|(e' & H1 & H2)]; auto. right. exists e'. split; auto. now right.
Qed.

Lemma nth_replace {A} (l : list A) i j v d : (i < length l)%nat ->
  nth j (replace l i v) d = if (j =? i)%nat then v else nth j l d.
Proof.
  revert i j; induction l as [|a l IH]; intros [|i] [|j] H; simpl in *; try lia; auto.
  apply IH. lia.
Qed.

Lemma in_replace {A} (l : list A) i v x : In x (replace l i v) -> x = v \/ In x l.
Proof.
  revert i; induction l as [|a l IH]; intros [|i]; simpl; auto.
  - intros [<-|H]; auto.
  - intros [<-|H]; auto. destruct (IH _ H); auto.
Qed.

Lemma add_triplet_ok M r c v : sp_valid M -> (r < sp_rows M)%nat -> (c < sp_cols M)%nat ->
  exists M', add_triplet M r c v = Ok M' /\ sp_valid M' /\ sp_rows M' = sp_rows M /\ sp_cols M' = sp_cols M /\
    forall i j, sp_get M' i j = sp_get M i j + if ((r =? i) && (c =? j))%nat then v else 0.
Proof.
  intros (Hl & Hv) Hr Hc. unfold add_triplet. rewrite (proj2 (Nat.ltb_lt _ _) Hr).
  destruct (nth_error_Some_ex (sp_columns M) (i := c)) as (col & Ec); [lia|].
  rewrite (proj2 (idx_Ok _ _ _) Ec). cbn [bind]. unfold set_idx.
  rewrite (proj2 (Nat.ltb_lt c (length (sp_columns M)))) by lia. cbn [bind].
  eexists. split; [reflexivity|]. unfold sp_valid, sp_get. cbn.
  split; [split|split; [auto|split; [auto|]]].
  - now rewrite replace_length.
  - intros col' e H1 H2. apply in_replace in H1. destruct H1 as [->|H1]; [|eauto].
    apply col_add_in in H2. destruct H2 as [->|(e' & H2 & <-)]; auto. eapply Hv; eauto. eapply nth_error_In; eauto.
  - intros i j. rewrite nth_replace by lia. rewrite (Nat.eqb_sym c j). destruct (Nat.eqb_spec j c) as [->|Hne].
    + rewrite col_add_get. rewrite (nth_error_nth _ _ _ Ec). now rewrite andb_true_r.
    + rewrite andb_false_r. lra.
Qed.

Lemma combine_nth_in rows cols t : length cols = length rows -> (t < length rows)%nat ->
  In (nth t rows 0%nat, nth t cols 0%nat) (combine rows cols).
Proof.
  intros Hl Ht. rewrite <- combine_nth by auto. apply nth_In. rewrite combine_length. lia.
Qed.

Lemma Create_from_ok nr nc rows cols values :
  length cols = length rows -> length values = length rows -> sd_inside nr nc rows cols ->
  exists M, Create_from nr nc rows cols values = Ok M /\ sp_valid M /\ sp_rows M = nr /\ sp_cols M = nc /\
    forall i j, sp_get M i j = rsum (length rows) (fun t =>
      if ((nth t rows 0 =? i) && (nth t cols 0 =? j))%nat then nth t values 0 else 0).
Proof.
  intros H1 H2 Hin. unfold Create_from.
  match goal with |- exists M, for_loop _ ?f ?s = _ /\ _ =>
    destruct (@for_loop_total _ (fun t M => sp_valid M /\ sp_rows M = nr /\ sp_cols M = nc /\
      forall i j, sp_get M i j = rsum t (fun t =>
      if ((nth t rows 0 =? i) && (nth t cols 0 =? j))%nat then nth t values 0 else 0)) f (length rows) s) as (M & E & H) end.
  - unfold sp_valid, sp_get. cbn. rewrite repeat_length. split; [split; auto|].
    + intros col e Hc He. apply repeat_spec in Hc. subst. destruct He.
    + split; auto. split; auto. intros i j. rewrite nth_repeat. reflexivity.
  - intros t M Ht (V & R & C & G).
    rewrite (proj2 (idx_Ok rows t _) (nth_error_nth' _ 0%nat Ht)). cbn [bind].
    rewrite (proj2 (idx_Ok cols t (nth t cols 0%nat))) by (apply nth_error_nth'; lia). cbn [bind].
    rewrite (proj2 (idx_Ok values t (nth t values 0))) by (apply nth_error_nth'; lia). cbn [bind].
    destruct (Hin _ _ (combine_nth_in rows cols t H1 Ht)) as (A & B).
    destruct (add_triplet_ok M (nth t rows 0%nat) (nth t cols 0%nat) (nth t values 0)) as (M' & E & V' & R' & C' & G'); auto; try lia.
    exists M'. split; auto. split; auto. split; [lia|]. split; [lia|]. intros i j. rewrite G', G. reflexivity.
  - exists M. auto.
Qed.

Lemma sp_valid_add M r c v M' : add_triplet M r c v = Ok M' -> (r < sp_rows M)%nat /\ (c < length (sp_columns M))%nat /\
   sp_rows M' = sp_rows M /\ length (sp_columns M') = length (sp_columns M).
Proof.
  unfold add_triplet. destruct (Nat.ltb_spec r (sp_rows M)); [|discriminate]. intros E.
  apply bind_Ok in E. destruct E as (col & Ec & E). apply bind_Ok in E. destruct E as (cs & Es & E). injection E as <-.
  unfold set_idx in Es. destruct (Nat.ltb_spec c (length (sp_columns M))); [|discriminate]. injection Es as <-. cbn.
  now rewrite replace_length.
Qed.

Lemma Create_from_inside nr nc rows cols values M :
  length cols = length rows ->
  Create_from nr nc rows cols values = Ok M -> sd_inside nr nc rows cols.
Proof.
  intros H1 E.
  assert (H : (sp_rows M = nr /\ length (sp_columns M) = nc) /\
    forall t, (t < length rows)%nat -> (nth t rows 0 < nr /\ nth t cols 0 < nc)%nat).
  { unfold Create_from in E.
    refine (@for_loop_inv _ (fun n M => (sp_rows M = nr /\ length (sp_columns M) = nc) /\
      forall t, (t < n)%nat -> (nth t rows 0 < nr /\ nth t cols 0 < nc)%nat) _ _ _ _ E _ _); clear E M.
    - cbn. rewrite repeat_length. split; auto. lia.
    - intros n M M' Hn ((R & C) & H) E.
      apply bind_Ok in E. destruct E as (r & Er & E). apply idx_Ok in Er. apply (nth_error_nth _ _ 0%nat) in Er.
      apply bind_Ok in E. destruct E as (c & Ec & E). apply idx_Ok in Ec. apply (nth_error_nth _ _ 0%nat) in Ec.
      apply bind_Ok in E. destruct E as (v & Ev & E). apply sp_valid_add in E. destruct E as (E1 & E2 & E3 & E4).
      split; [lia|]. intros t Ht. destruct (Nat.eq_dec t n) as [->|]; [lia|]. apply H. lia. }
  destruct H as (_ & H). intros r c Hin. apply (In_nth _ _ (0%nat, 0%nat)) in Hin.
  destruct Hin as (t & Ht & E'). rewrite combine_length in Ht. rewrite combine_nth in E' by auto. injection E' as <- <-.
  apply H. lia.
Qed.

(** to_triplets *)
Definition nz (j : nat) (e : nat * R) : list (nat * nat * R) :=
  if Req_EM_T (snd e) 0 then [] else [(fst e, j, snd e)].

Lemma to_triplets_ok M : sp_valid M ->
  to_triplets M = Ok (flat_map (fun j => flat_map (nz j) (nth j (sp_columns M) [])) (seq 0 (sp_cols M))).
Proof.
  intros (Hl & _). unfold to_triplets.
  match goal with |- for_loop _ ?f ?s = _ => destruct (@for_loop_total _ (fun n v =>
    v = flat_map (fun j => flat_map (nz j) (nth j (sp_columns M) [])) (seq 0 n)) f (sp_cols M) s) as (v & E & Hv) end.
  - reflexivity.
  - intros j v Hj ->. rewrite (proj2 (idx_Ok (sp_columns M) j (nth j (sp_columns M) []))) by (apply nth_error_nth'; lia). cbn [bind].
    eexists. split; [reflexivity|]. rewrite seq_S, flat_map_app'. cbn [flat_map]. now rewrite app_nil_r.
  - now rewrite E, Hv.
Qed.

Lemma data_of_triplets nr nc (ts : list (nat * nat * R)) :
  foldM (fun '(t, d) tr =>
      r <- set_idx (sd_rows d) t (fst (fst tr)) ;;
      c <- set_idx (sd_cols d) t (snd (fst tr)) ;;
      v <- set_idx (sd_values d) t (snd tr) ;;
      Ok (S t, {| sd_size := sd_size d; sd_rows := r; sd_cols := c; sd_values := v |}))
    ts (0%nat, {| sd_size := (nr, nc); sd_rows := repeat 0%nat (length ts); sd_cols := repeat 0%nat (length ts); sd_values := repeat 0 (length ts) |})
  = Ok (length ts, {| sd_size := (nr, nc); sd_rows := map (fun t => fst (fst t)) ts;
                      sd_cols := map (fun t => snd (fst t)) ts; sd_values := map snd ts |}).
Proof.
  cut (forall l1 l2, foldM (fun '(t, d) tr =>
      r <- set_idx (sd_rows d) t (fst (fst tr)) ;;
      c <- set_idx (sd_cols d) t (snd (fst tr)) ;;
      v <- set_idx (sd_values d) t (snd tr) ;;
      Ok (S t, {| sd_size := sd_size d; sd_rows := r; sd_cols := c; sd_values := v |}))
    l2 (length l1, {| sd_size := (nr, nc); sd_rows := map (fun t => fst (fst t)) l1 ++ repeat 0%nat (length l2);
                      sd_cols := map (fun t => snd (fst t)) l1 ++ repeat 0%nat (length l2);
                      sd_values := map snd l1 ++ repeat 0 (length l2) |})
  = Ok (length (l1 ++ l2), {| sd_size := (nr, nc); sd_rows := map (fun t => fst (fst t)) (l1 ++ l2);
                      sd_cols := map (fun t => snd (fst t)) (l1 ++ l2); sd_values := map snd (l1 ++ l2) |})).
  { intros H. exact (H [] ts). }
  intros l1 l2; revert l1. induction l2 as [|tr l2 IH]; intros l1.
  - cbn. now rewrite !app_nil_r.
  - cbn [foldM length repeat sd_rows sd_cols sd_values sd_size].
    rewrite set_idx_mid by now rewrite map_length. cbn [bind].
    rewrite set_idx_mid by now rewrite map_length. cbn [bind].
    rewrite set_idx_mid by now rewrite map_length. cbn [bind].
    specialize (IH (l1 ++ [tr])). rewrite <- app_assoc in IH. cbn [app] in IH. rewrite <- IH.
    rewrite !map_app, app_length, <- !app_assoc, Nat.add_1_r. reflexivity.
Qed.

Lemma to_data_ok M : sp_valid M ->
  exists d ts, to_Sparse_Matrix_Data M = Ok d /\ to_triplets M = Ok ts /\ sd_size d = (sp_rows M, sp_cols M) /\
    sd_rows d = map (fun t => fst (fst t)) ts /\ sd_cols d = map (fun t => snd (fst t)) ts /\ sd_values d = map snd ts.
Proof.
  intros V. unfold to_Sparse_Matrix_Data. rewrite (to_triplets_ok M V). cbn [bind].
  rewrite data_of_triplets. cbn [bind]. do 2 eexists. split; [reflexivity|]. split; [reflexivity|]. cbn. auto.
Qed.

Lemma triplets_get M i j : sp_valid M ->
  lsum (fun t : nat * nat * R => if ((fst (fst t) =? i) && (snd (fst t) =? j))%nat then snd t else 0)
    (flat_map (fun j => flat_map (nz j) (nth j (sp_columns M) [])) (seq 0 (sp_cols M))) = sp_get M i j.
Proof.
  intros (Hl & _). rewrite lsum_flat_map, lsum_seq.
  assert (C : forall j', lsum (fun t : nat * nat * R => if ((fst (fst t) =? i) && (snd (fst t) =? j))%nat then snd t else 0)
    (flat_map (nz j') (nth j' (sp_columns M) [])) = if (j' =? j)%nat then sp_get M i j else 0).
  { intros j'. rewrite lsum_flat_map. destruct (Nat.eqb_spec j' j) as [->|Hne].
    - unfold sp_get. apply lsum_ext. intros e _. unfold nz. destruct (Req_EM_T (snd e) 0) as [E|E]; cbn.
      + rewrite E. now destruct (_ =? _)%nat.
      + rewrite Nat.eqb_refl, andb_true_r. lra.
    - apply lsum_0. intros e _. unfold nz. destruct (Req_EM_T (snd e) 0); cbn; auto.
      rewrite (proj2 (Nat.eqb_neq j' j) Hne), andb_false_r. lra. }
  rewrite (rsum_ext _ _ (fun j' => if (j' =? j)%nat then sp_get M i j else 0)) by (intros; apply C).
  destruct (lt_dec j (sp_cols M)) as [H|H].
  - now rewrite (rsum_indicator _ j (fun _ => sp_get M i j)).
  - rewrite rsum_0.
    + unfold sp_get. rewrite nth_overflow by lia. reflexivity.
    + intros k Hk. destruct (Nat.eqb_spec k j); [lia|reflexivity].
Qed.

Lemma nth_map {A B} (f : A -> B) l t d d' : (t < length l)%nat -> nth t (map f l) d = f (nth t l d').
Proof. revert t; induction l; intros [|t] H; simpl in *; try lia; auto. apply IHl. lia. Qed.

Lemma sd_get_triplets d (ts : list (nat * nat * R)) i j :
  sd_rows d = map (fun t => fst (fst t)) ts -> sd_cols d = map (fun t => snd (fst t)) ts -> sd_values d = map snd ts ->
  sd_get d i j = lsum (fun t : nat * nat * R => if ((fst (fst t) =? i) && (snd (fst t) =? j))%nat then snd t else 0) ts.
Proof.
  intros E1 E2 E3. unfold sd_get. rewrite E1, E2, E3, map_length. rewrite (lsum_nth (0%nat, 0%nat, 0)).
  apply rsum_ext. intros t Ht.
  rewrite (nth_map (fun t => fst (fst t)) ts t _ (0%nat, 0%nat, 0)) by auto.
  rewrite (nth_map (fun t => snd (fst t)) ts t _ (0%nat, 0%nat, 0)) by auto.
  rewrite (nth_map snd ts t _ (0%nat, 0%nat, 0)) by auto. reflexivity.
Qed.

Lemma C19_round M : sp_valid M ->
  exists d M', to_Sparse_Matrix_Data M = Ok d /\ to_Eigen_SparseArray d = Ok M' /\
    sd_size d = (sp_rows M, sp_cols M) /\ sp_rows M' = sp_rows M /\ sp_cols M' = sp_cols M /\ sp_valid M' /\ sd_valid d /\
    Forall (fun v => v <> 0) (sd_values d) /\
    forall i j, sp_get M' i j = sp_get M i j /\ sd_get d i j = sp_get M i j.
Proof.
  intros V. destruct (to_data_ok M V) as (d & ts & E & Et & Es & E1 & E2 & E3).
  rewrite (to_triplets_ok M V) in Et. injection Et as Et.
  assert (Vd : sd_valid d) by (unfold sd_valid; rewrite E1, E2, E3, !map_length; auto).
  assert (G : forall i j, sd_get d i j = sp_get M i j).
  { intros. rewrite (sd_get_triplets d ts i j E1 E2 E3), <- Et. now apply triplets_get. }
  assert (Hin : forall t, In t ts -> (fst (fst t) < sp_rows M /\ snd (fst t) < sp_cols M)%nat /\ snd t <> 0).
  { rewrite <- Et. intros t Ht. apply in_flat_map in Ht. destruct Ht as (j & Hj & Ht). apply in_seq in Hj.
    apply in_flat_map in Ht. destruct Ht as (e & He & Ht). unfold nz in Ht. destruct (Req_EM_T (snd e) 0); [destruct Ht|].
    destruct Ht as [<-|[]]. cbn. split; [|auto]. split; [|lia]. destruct V as (V1 & V2). eapply V2; eauto.
    apply nth_In. lia. }
  destruct (Create_from_ok (fst (sd_size d)) (snd (sd_size d)) (sd_rows d) (sd_cols d) (sd_values d))
    as (M' & EM & VM & RM & CM & GM); try apply Vd.
  { intros r c H. rewrite Es. cbn. rewrite E1, E2 in H.
    replace (combine (map (fun t => fst (fst t)) ts) (map (fun t => snd (fst t)) ts)) with (map fst ts) in H.
    - apply in_map_iff in H. destruct H as (t & Ht & Hi). apply Hin in Hi. rewrite Ht in Hi. cbn in Hi. tauto.
    - clear. induction ts as [|((a, b), v) ts IH]; cbn; auto. now rewrite IH. }
  rewrite Es in RM, CM. cbn in RM, CM.
  exists d, M'. split; [auto|split; [exact EM|split; [auto|split; [auto|split; [auto|split; [auto|split; [auto|split]]]]]]].
  - rewrite E3. apply Forall_forall. intros v Hv. apply in_map_iff in Hv. destruct Hv as (t & <- & Ht). now apply Hin.
  - intros i j. split; [|auto]. rewrite <- G. rewrite GM. reflexivity.
Qed.

Lemma C19_sum A : sd_valid A ->
  (sd_inside (fst (sd_size A)) (snd (sd_size A)) (sd_rows A) (sd_cols A) ->
   exists M, to_Eigen_SparseArray A = Ok M /\ sp_rows M = fst (sd_size A) /\ sp_cols M = snd (sd_size A) /\
     forall i j, sp_get M i j = sd_get A i j) /\
  (forall M, to_Eigen_SparseArray A = Ok M -> sd_inside (fst (sd_size A)) (snd (sd_size A)) (sd_rows A) (sd_cols A)).
Proof.
  intros (V1 & V2). split.
  - intros H. destruct (Create_from_ok _ _ _ _ _ V1 V2 H) as (M & E & V & R & C & G). exists M. auto.
  - intros M E. eapply Create_from_inside; eauto.
Qed.

Lemma shift_loop A shifts : length (sd_cols A) = length (sd_rows A) ->
  for_loop (length (sd_rows A)) (fun t '(sr, sc) =>
      r <- at_ (sd_rows A) t ;; sr' <- set_at sr t (r + fst shifts)%nat ;;
      c <- at_ (sd_cols A) t ;; sc' <- set_at sc t (c + snd shifts)%nat ;;
      Ok (sr', sc')) (repeat 0%nat (length (sd_rows A)), repeat 0%nat (length (sd_cols A))) =
  Ok (map (fun r => r + fst shifts)%nat (sd_rows A), map (fun c => c + snd shifts)%nat (sd_cols A)).
Proof.
  intros Hl.
  match goal with |- for_loop _ ?f ?s = _ => destruct (@for_loop_total _ (fun n st =>
    st = (map (fun r => r + fst shifts)%nat (firstn n (sd_rows A)) ++ repeat 0%nat (length (sd_rows A) - n),
         map (fun c => c + snd shifts)%nat (firstn n (sd_cols A)) ++ repeat 0%nat (length (sd_cols A) - n))) f (length (sd_rows A)) s) as (v & E & Hv) end.
  - cbn. now rewrite !Nat.sub_0_r.
  - intros n s Hn ->.
    destruct (nth_error_Some_ex (sd_rows A) (i := n)) as (r & Er); [lia|].
    destruct (nth_error_Some_ex (sd_cols A) (i := n)) as (c & Ec); [lia|].
    rewrite (proj2 (at_Ok _ _ _) Er). cbn [bind].
    rewrite repeat_S_sub by lia. rewrite set_at_mid by (rewrite map_length, firstn_length; lia). cbn [bind].
    rewrite (proj2 (at_Ok _ _ _) Ec). cbn [bind].
    rewrite (repeat_S_sub _ (length (sd_cols A))) by lia. rewrite set_at_mid by (rewrite map_length, firstn_length; lia). cbn [bind].
    eexists. split; [reflexivity|]. rewrite (firstn_S_nth _ _ Er), (firstn_S_nth _ _ Ec), !map_app, <- !app_assoc. reflexivity.
  - rewrite E, Hv, Hl, Nat.sub_diag. cbn. rewrite !app_nil_r, firstn_all. rewrite <- Hl, firstn_all. reflexivity.
Qed.

Lemma nth_map_shift l k t : (t < length l)%nat -> nth t (map (fun r => r + k)%nat l) 0%nat = (nth t l 0 + k)%nat.
Proof.
  intros H. now rewrite (nth_map _ _ _ _ 0%nat H).
Qed.

Lemma combine_map_in {A B C D} (f : A -> C) (g : B -> D) l1 l2 r c :
  In (r, c) (combine (map f l1) (map g l2)) -> exists a b, In (a, b) (combine l1 l2) /\ r = f a /\ c = g b.
Proof.
  revert l2; induction l1 as [|a l1 IH]; intros [|b l2]; cbn; try tauto.
  intros [H|H].
  - injection H as <- <-. exists a, b. auto.
  - destruct (IH _ H) as (a' & b' & H1 & H2). exists a', b'. auto.
Qed.

Lemma combine_sym_in {A B} (l1 : list A) (l2 : list B) a b : In (a, b) (combine l1 l2) -> In (b, a) (combine l2 l1).
Proof.
  revert l2; induction l1 as [|x l1 IH]; intros [|y l2]; cbn; try tauto.
  intros [H|H]; [injection H as <- <-; auto|auto].
Qed.

Lemma C20_shift A new_size shifts tr : sd_valid A ->
  let place := fun i j => if tr : bool then (j + snd shifts, i + fst shifts)%nat else (i + fst shifts, j + snd shifts)%nat in
  (forall r c, In (r, c) (combine (sd_rows A) (sd_cols A)) ->
     (fst (place r c) < fst new_size /\ snd (place r c) < snd new_size)%nat) ->
  exists M, to_Eigen_SparseArray_shifted A new_size shifts tr = Ok M /\
    sp_rows M = fst new_size /\ sp_cols M = snd new_size /\
    (forall i j, sp_get M (fst (place i j)) (snd (place i j)) = sd_get A i j) /\
    (forall r c, (forall i j, place i j <> (r, c)) -> sp_get M r c = 0).
Proof.
  intros (V1 & V2) place Hin. unfold to_Eigen_SparseArray_shifted. rewrite (shift_loop A shifts V1). cbn [bind].
  destruct tr; cbn [negb].
  - destruct (Create_from_ok (fst new_size) (snd new_size) (map (fun c => c + snd shifts)%nat (sd_cols A))
      (map (fun r => r + fst shifts)%nat (sd_rows A)) (sd_values A)) as (M & E & V & R & C & G).
    + now rewrite !map_length.
    + now rewrite map_length, V1.
    + intros r c H. apply combine_map_in in H. destruct H as (a & b & H & -> & ->). apply combine_sym_in in H.
      exact (Hin _ _ H).
    + exists M. rewrite map_length, V1 in G. repeat split; auto.
      * intros i j. cbn. rewrite G. apply rsum_ext. intros t Ht. rewrite !nth_map_shift by lia.
        rewrite andb_comm.
        replace (nth t (sd_rows A) 0 + fst shifts =? i + fst shifts)%nat with (nth t (sd_rows A) 0 =? i)%nat.
        replace (nth t (sd_cols A) 0 + snd shifts =? j + snd shifts)%nat with (nth t (sd_cols A) 0 =? j)%nat. reflexivity.
        all: destruct (Nat.eqb_spec (nth t (sd_cols A) 0%nat) j), (Nat.eqb_spec (nth t (sd_rows A) 0%nat) i); symmetry;
             try (apply Nat.eqb_eq; lia); try (apply Nat.eqb_neq; lia).
      * intros r c Hn. rewrite G. apply rsum_0. intros t Ht. rewrite !nth_map_shift by lia.
        destruct (Nat.eqb_spec (nth t (sd_cols A) 0 + snd shifts)%nat r); cbn; auto.
        destruct (Nat.eqb_spec (nth t (sd_rows A) 0 + fst shifts)%nat c); cbn; auto.
        exfalso. apply (Hn (nth t (sd_rows A) 0%nat) (nth t (sd_cols A) 0%nat)). unfold place. f_equal; lia.
  - destruct (Create_from_ok (fst new_size) (snd new_size)
      (map (fun r => r + fst shifts)%nat (sd_rows A)) (map (fun c => c + snd shifts)%nat (sd_cols A)) (sd_values A)) as (M & E & V & R & C & G).
    + now rewrite !map_length.
    + now rewrite map_length.
    + intros r c H. apply combine_map_in in H. destruct H as (a & b & H & -> & ->).
      exact (Hin _ _ H).
    + exists M. rewrite map_length in G. repeat split; auto.
      * intros i j. cbn. rewrite G. apply rsum_ext. intros t Ht. rewrite !nth_map_shift by lia.
        replace (nth t (sd_rows A) 0 + fst shifts =? i + fst shifts)%nat with (nth t (sd_rows A) 0 =? i)%nat.
        replace (nth t (sd_cols A) 0 + snd shifts =? j + snd shifts)%nat with (nth t (sd_cols A) 0 =? j)%nat. reflexivity.
        all: destruct (Nat.eqb_spec (nth t (sd_cols A) 0%nat) j), (Nat.eqb_spec (nth t (sd_rows A) 0%nat) i); symmetry;
             try (apply Nat.eqb_eq; lia); try (apply Nat.eqb_neq; lia).
      * intros r c Hn. rewrite G. apply rsum_0. intros t Ht. rewrite !nth_map_shift by lia.
        destruct (Nat.eqb_spec (nth t (sd_rows A) 0 + fst shifts)%nat r); cbn; auto.
        destruct (Nat.eqb_spec (nth t (sd_cols A) 0 + snd shifts)%nat c); cbn; auto.
        exfalso. apply (Hn (nth t (sd_rows A) 0%nat) (nth t (sd_cols A) 0%nat)). unfold place. f_equal; lia.
Qed.
