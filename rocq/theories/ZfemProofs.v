(** Proofs about the numbering of the nodes of a ZFEM polygon. *)
From Coq Require Import List Arith Bool Lia Permutation.
From Verif Require Import Base ZfemModel ZfemSpec.
Import ListNotations.
Local Open Scope nat_scope.

(** ** lists *)
Lemma NoDup_flat {A B} (f : A -> list B) l : NoDup l -> (forall a, In a l -> NoDup (f a)) ->
  (forall a b x, In a l -> In b l -> In x (f a) -> In x (f b) -> a = b) -> NoDup (flat_map f l).
Proof.
  induction l as [|a l IH]; intros N F D; cbn [flat_map]; [constructor|]. inversion N as [|? ? N1 N2]; subst.
  assert (Q : forall (u v : list B), NoDup u -> NoDup v -> (forall x, In x u -> ~ In x v) -> NoDup (u ++ v)).
  { induction u as [|x u IHu]; intros v U W X; simpl; auto. inversion U; subst. constructor.
    - rewrite in_app_iff. intros [H|H]; auto. apply (X x); simpl; auto.
    - apply IHu; auto. intros y Hy. apply X. simpl; auto. }
  apply Q.
  - apply F. simpl; auto.
  - apply IH; auto. { intros; apply F; simpl; auto. } intros b c x Hb Hc. apply D; simpl; auto.
  - intros x Hx (b & Hb & Hb')%in_flat_map. apply N1. rewrite (D a b x); simpl; auto.
Qed.

Definition visits (r n : nat) : list nat := flat_map (fun i => map (fun j => i + j * r) (seq 0 n)) (seq 0 r).

Lemma visits_in r n x : In x (visits r n) <-> x < r * n.
Proof.
  unfold visits. rewrite in_flat_map. split.
  - intros (i & Hi & (j & <- & Hj)%in_map_iff). apply in_seq in Hi, Hj. nia.
  - intros H. assert (r <> 0) by (intros ->; lia). exists (x mod r). split.
    + apply in_seq. pose proof (Nat.mod_upper_bound x r). lia.
    + apply in_map_iff. exists (x / r). split.
      * pose proof (Nat.div_mod x r). lia.
      * apply in_seq. split; [lia|]. apply Nat.div_lt_upper_bound; lia.
Qed.
Lemma visits_NoDup r n : NoDup (visits r n).
Proof.
  unfold visits. apply NoDup_flat; [apply seq_NoDup| |].
  - intros i Hi. apply in_seq in Hi. apply FinFun.Injective_map_NoDup; [|apply seq_NoDup]. intros a b E. nia.
  - intros a b x Ha Hb (j & <- & Hj)%in_map_iff (j' & E & Hj')%in_map_iff. apply in_seq in Ha, Hb.
    assert (Q : (a + j * r) mod r = (b + j' * r) mod r) by (now rewrite E). rewrite !Nat.mod_add in Q by lia. rewrite !Nat.mod_small in Q by lia. auto.
Qed.

Definition kept (L r n : nat) : list nat := filter (fun x => x <? L) (visits r n).
Lemma kept_perm L r n : L <= r * n -> Permutation (kept L r n) (seq 0 L).
Proof.
  intros H. apply NoDup_Permutation; [apply NoDup_filter, visits_NoDup|apply seq_NoDup|].
  intros x. unfold kept. rewrite filter_In, visits_in, in_seq, Nat.ltb_lt. lia.
Qed.
Lemma kept_length L r n : L <= r * n -> length (kept L r n) = L.
Proof. intros H. rewrite (Permutation_length (kept_perm L r n H)). apply seq_length. Qed.

(** nested loops as one fold *)
Lemma foldM_app {A S} (f : S -> A -> outcome S) l1 l2 s : foldM f (l1 ++ l2) s = (s' <- foldM f l1 s ;; foldM f l2 s').
Proof. revert s; induction l1 as [|a l1 IH]; intros s; simpl; [reflexivity|]. destruct (f s a); simpl; auto. Qed.
Lemma foldM_map {A B S} (f : S -> B -> outcome S) (g : A -> B) l s : foldM f (map g l) s = foldM (fun s a => f s (g a)) l s.
Proof. revert s; induction l as [|a l IH]; intros s; simpl; auto. destruct (f s (g a)); simpl; auto. Qed.
Lemma for_from_fold {S} (f : nat -> S -> outcome S) a n s : for_from a n f s = foldM (fun s i => f i s) (seq a n) s.
Proof. revert a s; induction n as [|n IH]; intros a s; simpl; auto. destruct (f a s); simpl; auto. Qed.
Lemma for_loop_fold {S} (f : nat -> S -> outcome S) n s : for_loop n f s = foldM (fun s i => f i s) (seq 0 n) s.
Proof. apply for_from_fold. Qed.
Lemma foldM_ext {A S} (f g : S -> A -> outcome S) l s : (forall s a, f s a = g s a) -> foldM f l s = foldM g l s.
Proof. intros E. revert s; induction l as [|a l IH]; intros s; simpl; auto. rewrite E. destruct (g s a); simpl; auto. Qed.

Lemma nested_visits {S} (body : nat -> S -> outcome S) r n s :
  for_loop r (fun i s => for_loop n (fun j s => body (i + j * r) s) s) s = foldM (fun s x => body x s) (visits r n) s.
Proof.
  rewrite for_loop_fold. unfold visits. generalize (seq 0 r). intros l. revert s. induction l as [|i l IH]; intros s; cbn [foldM flat_map]; auto.
  rewrite foldM_app, foldM_map, for_loop_fold. destruct (foldM _ (seq 0 n) s); cbn [bind]; auto.
Qed.

(** guarded writes: the guard on the counter never bites *)
Lemma guarded {St} (upd : St -> nat -> nat -> outcome St) L xs l c : c + length (filter (fun x => x <? L) xs) <= L ->
  foldM (fun s x => let '(l, count) := s in if (x <? L) && (count <? L) then l' <- upd l x count ;; Ok (l', S count) else Ok (l, count)) xs (l, c) =
  foldM (fun s x => let '(l, count) := s in l' <- upd l x count ;; Ok (l', S count)) (filter (fun x => x <? L) xs) (l, c).
Proof.
  revert l c. induction xs as [|x xs IH]; intros l c H; cbn [foldM filter]; auto. cbn [filter] in H.
  destruct (x <? L) eqn:E; cbn [foldM andb].
  - cbn [length] in H. replace (c <? L) with true by (symmetry; apply Nat.ltb_lt; lia). destruct (upd l x c) as [l'| |]; cbn [bind]; auto. apply IH. lia.
  - apply IH. auto.
Qed.

Lemma set_idx_nth {A} (l : list A) i a : i < length l -> exists l', set_idx l i a = Ok l' /\ length l' = length l /\
  forall j d, nth j l' d = if j =? i then a else nth j l d.
Proof.
  intros H. unfold set_idx. apply Nat.ltb_lt in H as H'. rewrite H'. eexists. split; [reflexivity|]. revert i H H'. induction l as [|x l IH]; intros i H H'; [simpl in H; lia|].
  destruct i as [|i]; cbn [replace length].
  - split; auto. intros [|j] d; reflexivity.
  - destruct (IH i) as (L & N); [simpl in H; lia|apply Nat.ltb_lt; simpl in H; lia|]. split; [lia|]. intros [|j] d; cbn [nth Nat.eqb]; auto.
Qed.

(** writes g(count) at position y *)
Lemma scatter_list (g : nat -> nat) ys l c : NoDup ys -> (forall y, In y ys -> y < length l) ->
  exists l', foldM (fun s x => let '(l, count) := s in l' <- set_idx l x (g count) ;; Ok (l', S count)) ys (l, c) = Ok (l', c + length ys) /\
    length l' = length l /\ (forall k, k < length ys -> nth (nth k ys 0) l' 0 = g (c + k)) /\ (forall j, ~ In j ys -> nth j l' 0 = nth j l 0).
Proof.
  revert l c. induction ys as [|y ys IH]; intros l c N B; cbn [foldM length].
  - exists l. rewrite Nat.add_0_r. repeat split; auto. intros; lia.
  - inversion N; subst. destruct (set_idx_nth l y (g c)) as (l1 & E1 & L1 & N1); [apply B; simpl; auto|]. rewrite E1. cbn [bind].
    destruct (IH l1 (S c)) as (l2 & E2 & L2 & K2 & O2); auto. { intros z Hz. rewrite L1. apply B. simpl; auto. }
    exists l2. rewrite E2. split; [f_equal; f_equal; lia|]. split; [lia|]. split.
    + intros [|k] Hk; cbn [nth].
      * rewrite O2 by auto. rewrite N1, Nat.eqb_refl. f_equal. lia.
      * rewrite K2 by lia. f_equal. lia.
    + intros j Hj. rewrite O2 by (intros Q; apply Hj; simpl; auto). rewrite N1. destruct (Nat.eqb_spec j y) as [->|]; auto. exfalso. apply Hj. simpl; auto.
Qed.
(** writes h(y) at position count *)
Lemma append_list (h : nat -> nat) ys l c : c + length ys <= length l ->
  exists l', foldM (fun s x => let '(l, count) := s in l' <- set_idx l count (h x) ;; Ok (l', S count)) ys (l, c) = Ok (l', c + length ys) /\
    length l' = length l /\ (forall k, k < length ys -> nth (c + k) l' 0 = h (nth k ys 0)) /\ (forall j, j < c -> nth j l' 0 = nth j l 0).
Proof.
  revert l c. induction ys as [|y ys IH]; intros l c B; cbn [foldM length].
  - exists l. rewrite Nat.add_0_r. repeat split; auto. intros; lia.
  - cbn [length] in B. destruct (set_idx_nth l c (h y)) as (l1 & E1 & L1 & N1); [lia|]. rewrite E1. cbn [bind].
    destruct (IH l1 (S c)) as (l2 & E2 & L2 & K2 & O2); [lia|]. exists l2. rewrite E2. split; [f_equal; f_equal; lia|]. split; [lia|]. split.
    + intros [|k] Hk; cbn [nth].
      * rewrite Nat.add_0_r. rewrite O2 by lia. now rewrite N1, Nat.eqb_refl.
      * replace (c + S k) with (S c + k) by lia. apply K2. lia.
    + intros j Hj. rewrite O2 by lia. rewrite N1. destruct (Nat.eqb_spec j c); [lia|auto].
Qed.

Lemma perm_sum l l' : Permutation l l' -> list_sum l = list_sum l'.
Proof. induction 1; simpl; lia. Qed.
Lemma map_nth_seq (l : list nat) : map (fun i => nth i l 0) (seq 0 (length l)) = l.
Proof. apply nth_ext with 0 0; [now rewrite map_length, seq_length|]. intros i Hi. rewrite map_length, seq_length in Hi. rewrite (nth_indep _ 0 (nth 0 l 0)) by (now rewrite map_length, seq_length). rewrite (map_nth (fun i => nth i l 0)), seq_nth by auto. reflexivity. Qed.

Lemma ceil_div_ok a b : 0 < b -> exists r, ceil_div a b = Ok r /\ a <= r * b.
Proof.
  intros H. unfold ceil_div. destruct (Nat.eqb_spec b 0); [lia|]. eexists. split; [reflexivity|].
  pose proof (Nat.div_mod (a + b - 1) b ltac:(lia)). pose proof (Nat.mod_upper_bound (a + b - 1) b ltac:(lia)). nia.
Qed.

(** ** the internal dofs are spread over the triangles *)
Lemma list_sum_steps base other n : other <= n -> list_sum (map (fun k => base + (if k <? other then 1 else 0)) (seq 0 n)) = base * n + other.
Proof.
  intros H. assert (Q : forall m, list_sum (map (fun k => base + (if k <? other then 1 else 0)) (seq 0 m)) = base * m + Nat.min m other).
  { induction m as [|m IH]; [simpl; lia|]. rewrite seq_S, map_app, list_sum_app, IH. cbn [map list_sum fold_right plus]. destruct (Nat.ltb_spec m other); lia. }
  rewrite Q. lia.
Qed.

Lemma spread_ok V n2 : 1 <= V -> 2 <= n2 -> exists l, spread V n2 = Ok l /\ length l = V /\ list_sum l = n2 - 1 /\ forall t, t < V -> nth t l 0 < n2.
Proof.
  intros HV Hn. unfold spread. replace (V =? 0) with false by (symmetry; apply Nat.eqb_neq; lia). replace (n2 =? 0) with false by (symmetry; apply Nat.eqb_neq; lia). cbn [orb].
  destruct (ceil_div_ok V (n2 - 1)) as (r & Er & Hr); [lia|]. rewrite Er. cbn [bind].
  set (g := fun c => (n2 - 1) / V + (if c <? (n2 - 1) mod V then 1 else 0)).
  rewrite (nested_visits (fun x s => let '(l, count) := s in if (x <? V) && (count <? V) then l' <- set_idx l x (g count) ;; Ok (l', S count) else Ok (l, count))).
  fold (kept V r (n2 - 1)) in *.
  rewrite (guarded (fun l x c => set_idx l x (g c))) by (fold (kept V r (n2 - 1)); rewrite kept_length by auto; lia). fold (kept V r (n2 - 1)).
  pose proof (kept_perm V r (n2 - 1) Hr) as KP.
  destruct (scatter_list g (kept V r (n2 - 1)) (repeat 0 V) 0) as (l & E & L & K & _).
  - apply NoDup_filter, visits_NoDup.
  - intros y Hy. rewrite repeat_length. apply (Permutation_in _ KP) in Hy. apply in_seq in Hy. lia.
  - rewrite E. cbn [bind]. exists l. split; auto. rewrite repeat_length in L. split; auto.
    assert (Sum : list_sum l = n2 - 1).
    { rewrite <- (map_nth_seq l), L. rewrite <- (perm_sum _ _ (Permutation_map (fun i => nth i l 0) KP)).
      transitivity (list_sum (map g (seq 0 V))).
      - f_equal. apply nth_ext with 0 0; [rewrite !map_length, seq_length; apply kept_length; auto|]. intros k Hk. rewrite map_length, kept_length in Hk by auto.
        rewrite (nth_indep (map _ (kept _ _ _)) 0 (nth 0 l 0)) by (rewrite map_length, kept_length; auto). rewrite (map_nth (fun i => nth i l 0)).
        rewrite K by (rewrite kept_length; auto). rewrite (nth_indep _ 0 (g 0)) by (rewrite map_length, seq_length; auto). rewrite map_nth, seq_nth by auto. reflexivity.
      - unfold g. rewrite list_sum_steps by (pose proof (Nat.mod_upper_bound (n2 - 1) V); lia). pose proof (Nat.div_mod (n2 - 1) V). lia. }
    split; auto. intros t Ht. enough (nth t l 0 <= list_sum l) by lia. clear - Ht L. revert t V Ht L. induction l as [|x l IH]; intros t V Ht L; simpl in *; [lia|]. destruct t; [lia|].
    specialize (IH t (V - 1)). simpl. enough (nth t l 0 <= list_sum l) by lia. apply IH; lia.
Qed.

Lemma shuffle_ok n2 t npt pm : length pm = n2 -> exists l, shuffle n2 t npt pm = Ok l /\ Permutation l (seq 0 n2).
Proof.
  intros Hp. unfold shuffle. destruct ((1 <? n2) && (0 <? npt)) eqn:G; [|exists (seq 0 n2); auto].
  apply andb_true_iff in G as (G1 & G2). apply Nat.ltb_lt in G1, G2. destruct (ceil_div_ok n2 npt G2) as (r & Er & Hr). rewrite Er. cbn [bind].
  set (h := fun x => (x + t + 1) mod n2).
  rewrite (nested_visits (fun x s => let '(l, count) := s in if (x <? n2) && (count <? n2) then l' <- set_idx l count (h x) ;; Ok (l', S count) else Ok (l, count))).
  rewrite (guarded (fun l x c => set_idx l c (h x))) by (fold (kept n2 r npt); rewrite kept_length by auto; lia). fold (kept n2 r npt).
  destruct (append_list h (kept n2 r npt) pm 0) as (l & E & L & K & _); [rewrite kept_length; auto; lia|]. rewrite E. cbn [bind]. exists l. split; auto.
  assert (El : l = map h (kept n2 r npt)).
  { apply nth_ext with 0 0; [rewrite map_length, kept_length; auto; lia|]. intros k Hk. rewrite (nth_indep (map _ _) 0 (h 0)) by (rewrite map_length, kept_length; auto; lia).
    rewrite map_nth. apply (K k). rewrite kept_length; auto; lia. }
  rewrite El, (kept_perm n2 r npt Hr). apply NoDup_Permutation_bis.
  - assert (Hinj : forall a b, a < n2 -> b < n2 -> h a = h b -> a = b).
    { intros a b Ha Hb Q. unfold h in Q.
      pose proof (Nat.div_mod (a + t + 1) n2 ltac:(lia)) as D1. pose proof (Nat.div_mod (b + t + 1) n2 ltac:(lia)) as D2. rewrite Q in D1.
      set (x := (a + t + 1) / n2) in *. set (y := (b + t + 1) / n2) in *. set (z := (b + t + 1) mod n2) in *. assert (x = y) by nia. subst y. nia. }
    assert (Q : forall m, m <= n2 -> NoDup (map h (seq 0 m))).
    { induction m as [|m IH]; intros Hm; [constructor|]. rewrite seq_S, map_app. cbn [map plus]. apply (Permutation_NoDup (Permutation_cons_append _ _)). constructor.
      - intros (a & Ea & Ha)%in_map_iff. apply in_seq in Ha. apply Hinj in Ea; lia.
      - apply IH. lia. }
    apply Q. lia.
  - rewrite map_length. auto.
  - intros x (a & <- & Ha)%in_map_iff. apply in_seq. unfold h. pose proof (Nat.mod_upper_bound (a + t + 1) n2). lia.
Qed.
