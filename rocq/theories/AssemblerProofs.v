(** Proofs about AssemblerModel.v *)
From Coq Require Import List Arith Bool Lia Reals Lra Permutation.
From Verif Require Import Base RSum MatrixModel DofsModel DofsSpec DofsProofs DofsProofs2 AssemblerModel AssemblerSpec.
Import ListNotations.
Local Open Scope nat_scope.

(** ** Prefix sums *)

Definition pre {A} (f : A -> nat) (l : list A) (h : nat) : nat := list_sum (map f (firstn h l)).

Lemma pre_S {A} (f : A -> nat) l h a : nth_error l h = Some a -> pre f l (S h) = pre f l h + f a.
Proof.
  intros H. unfold pre. rewrite (firstn_S_nth _ _ H), map_app, list_sum_app. simpl. lia.
Qed.

Lemma pre_all {A} (f : A -> nat) l : pre f l (length l) = list_sum (map f l).
Proof. unfold pre. now rewrite firstn_all. Qed.

Lemma pre_le {A} (f : A -> nat) l h h' : h <= h' -> pre f l h <= pre f l h'.
Proof.
  intros H. unfold pre. replace (firstn h l) with (firstn h (firstn h' l)).
  - rewrite <- (firstn_skipn h (firstn h' l)) at 2. rewrite map_app, list_sum_app. lia.
  - rewrite firstn_firstn. f_equal. lia.
Qed.

Lemma idx_some {A} (l : list A) i a : nth_error l i = Some a -> idx_ l i = Ok a.
Proof. unfold idx_. now intros ->. Qed.

Lemma nth_error_partial_map_lt {A} (f : nat -> A) x n i j :
  j < i -> nth_error (partial_map f x n i) j = Some (f j).
Proof.
  intros H. unfold partial_map. rewrite nth_error_app1 by (rewrite map_length, seq_length; auto).
  now apply nth_error_map_seq.
Qed.

Definition count_inv (dd : list DOFsData) (i : nat) : count_dofs_data :=
  {| num_total_dofs := pre NumberDOFs dd i; num_total_strong := pre NumberStrongs dd i;
     num_total_boundary_dofs := pre NumberBoundaryDOFs dd i;
     offsets_DOFs := partial_map (pre NumberDOFs dd) 0 (length dd) i;
     offsets_Strongs := partial_map (pre NumberStrongs dd) 0 (length dd) i |}.

Lemma count_dofs_ok dd :
  dd <> [] -> count_dofs dd = Ok (count_inv dd (length dd)).
Proof.
  intros Hne. destruct dd as [|d0 dd']; [congruence|]. set (dd := d0 :: dd').
  assert (Hn : 0 < length dd) by (simpl; lia).
  unfold count_dofs. fold dd. rewrite resize_nil.
  change (idx_ dd 0) with (@Ok DOFsData d0). cbn [bind].
  assert (R0 : forall f : DOFsData -> nat, set_idx (repeat 0 (length dd)) 0 0 = Ok (partial_map (pre f dd) 0 (length dd) 1)).
  { intros f. rewrite <- (partial_map_0 (pre f dd)), <- (partial_map_set (pre f dd) 0 (length dd) 0) by auto. reflexivity. }
  rewrite (R0 NumberDOFs) at 1. cbn [bind]. rewrite (R0 NumberStrongs). cbn [bind].
  match goal with |- for_from 1 _ ?f ?s = _ =>
    destruct (@for_from_total _ (fun i st => st = count_inv dd i) f (length dd - 1) 1 s) as (s' & E & Hs)
  end.
  - unfold count_inv, pre. simpl. now rewrite !Nat.add_0_r.
  - intros i s Hi ->.
    destruct (nth_error_Some_ex dd (i := i)) as (di & Ei); [lia|].
    destruct (nth_error_Some_ex dd (i := i - 1)) as (dp & Ep); [lia|].
    rewrite (idx_some _ _ _ Ei). cbn [bind]. rewrite (idx_some _ _ _ Ep). cbn [bind].
    assert (P : forall f : DOFsData -> nat, pre f dd (i - 1) + f dp = pre f dd i).
    { intros f. rewrite <- (pre_S f dd _ _ Ep). f_equal. lia. }
    rewrite (idx_some _ _ (pre NumberDOFs dd (i - 1))) by (apply nth_error_partial_map_lt; lia). cbn [bind].
    rewrite P. change (offsets_DOFs (count_inv dd i)) with (partial_map (pre NumberDOFs dd) 0 (length dd) i). rewrite partial_map_set by lia. cbn [bind].
    rewrite (idx_some _ _ (pre NumberStrongs dd (i - 1))) by (apply nth_error_partial_map_lt; lia). cbn [bind].
    rewrite P. change (offsets_Strongs (count_inv dd i)) with (partial_map (pre NumberStrongs dd) 0 (length dd) i). rewrite partial_map_set by lia. cbn [bind].
    eexists. split; [reflexivity|]. unfold count_inv. simpl.
    now rewrite !(pre_S _ dd _ _ Ei).
  - replace (1 + (length dd - 1)) with (length dd) in Hs by lia. now rewrite E, Hs.
Qed.

Lemma partial_map_full_nth {A} (f : nat -> A) x n h d : h < n -> nth h (partial_map f x n n) d = f h.
Proof.
  intros H. apply nth_error_nth. now apply nth_error_partial_map_lt.
Qed.

(** consecutive blocks tile an interval *)
Lemma blocks_tile {A} (f : A -> nat) (l : list A) n :
  n <= length l ->
  flat_map (fun h => map (fun i => pre f l h + i) (seq 0 (nth h (map f l) 0))) (seq 0 n) = seq 0 (pre f l n).
Proof.
  induction n as [|n IH]; intros Hn; [reflexivity|].
  destruct (nth_error_Some_ex l (i := n)) as (a & Ea); [lia|].
  rewrite seq_S, flat_map_app', IH by lia. simpl. rewrite app_nil_r.
  rewrite (pre_S f l n a Ea), seq_app. f_equal. simpl.
  replace (nth n (map f l) 0) with (f a).
  - generalize (pre f l n) (f a). intros b m. revert b; induction m; intros b; simpl; auto.
    rewrite Nat.add_0_r. f_equal. rewrite <- (IHm (S b)), <- seq_shift, map_map. apply map_ext. intros; lia.
  - symmetry. apply nth_error_nth. now rewrite nth_error_map, Ea.
Qed.

Lemma C12_pack dd :
  dd <> [] ->
  exists cd, count_dofs dd = Ok cd /\
    num_total_dofs cd = list_sum (map NumberDOFs dd) /\
    num_total_strong cd = list_sum (map NumberStrongs dd) /\
    num_total_boundary_dofs cd = list_sum (map NumberBoundaryDOFs dd) /\
    length (offsets_DOFs cd) = length dd /\ length (offsets_Strongs cd) = length dd /\
    Permutation (flat_map (fun h => map (fun i => nth h (offsets_DOFs cd) 0 + i)
                                        (seq 0 (nth h (map NumberDOFs dd) 0))) (seq 0 (length dd)))
                (seq 0 (num_total_dofs cd)) /\
    Permutation (flat_map (fun h => map (fun i => nth h (offsets_Strongs cd) 0 + i)
                                        (seq 0 (nth h (map NumberStrongs dd) 0))) (seq 0 (length dd)))
                (seq 0 (num_total_strong cd)).
Proof.
  intros Hne. exists (count_inv dd (length dd)). split; [now apply count_dofs_ok|].
  unfold count_inv; simpl. rewrite !pre_all.
  assert (B : forall f : DOFsData -> nat,
    flat_map (fun h => map (fun i => nth h (partial_map (pre f dd) 0 (length dd) (length dd)) 0 + i)
       (seq 0 (nth h (map f dd) 0))) (seq 0 (length dd)) = seq 0 (list_sum (map f dd))).
  { intros f. rewrite <- pre_all, <- (blocks_tile f dd (length dd)) by auto.
    apply flat_map_ext_in. intros h Hh. apply in_seq in Hh. now rewrite partial_map_full_nth by lia. }
  rewrite !B. repeat split; auto.
  - rewrite partial_map_n. now rewrite map_length, seq_length.
  - rewrite partial_map_n. now rewrite map_length, seq_length.
Qed.

(** ** local_count_dofs *)

Definition lcount_inv (dim cell : nat) (dd : list DOFsData) (i : nat) : local_count_dofs_data :=
  {| l_num_total_dofs := pre (local_size dim cell) dd i;
     l_offsets_DOFs := partial_map (pre (local_size dim cell) dd) 0 (length dd) i |}.

Lemma at_closure dim cell data :
  cell_exists dim cell data -> exists gl, at_ (CellsGlobalDOFs data dim) cell = Ok gl /\
    nth_error (CellsGlobalDOFs data dim) cell = Some gl /\ length gl = local_size dim cell data.
Proof.
  intros H. destruct (nth_error_Some_ex _ H) as (gl & E). exists gl.
  unfold at_, local_size. rewrite E. auto.
Qed.

Lemma lcount_init dim cell d0 dd' :
  set_idx (repeat 0 (length (d0 :: dd'))) 0 0 =
  Ok (partial_map (pre (local_size dim cell) (d0 :: dd')) 0 (length (d0 :: dd')) 1).
Proof.
  set (dd := d0 :: dd').
  rewrite <- (partial_map_0 (pre (local_size dim cell) dd)).
  rewrite <- (partial_map_set (pre (local_size dim cell) dd) 0 (length dd) 0) by (simpl; lia). reflexivity.
Qed.

Lemma lcount_step dim cell dd i :
  1 <= i < length dd -> (forall j data, j <= i -> nth_error dd j = Some data -> cell_exists dim cell data) ->
  (di <- idx_ dd i ;;
    gi <- at_ (CellsGlobalDOFs di dim) cell ;;
    po <- idx_ (l_offsets_DOFs (lcount_inv dim cell dd i)) (i - 1) ;;
    dp <- idx_ dd (i - 1) ;;
    gp <- at_ (CellsGlobalDOFs dp dim) cell ;;
    o' <- set_idx (l_offsets_DOFs (lcount_inv dim cell dd i)) i (po + length gp) ;;
    Ok {| l_num_total_dofs := l_num_total_dofs (lcount_inv dim cell dd i) + length gi; l_offsets_DOFs := o' |})
  = Ok (lcount_inv dim cell dd (S i)).
Proof.
  intros Hi Hc.
  destruct (nth_error_Some_ex dd (i := i)) as (di & Ei); [lia|].
  destruct (nth_error_Some_ex dd (i := i - 1)) as (dp & Ep); [lia|].
  destruct (at_closure dim cell di) as (gi & Gi & _ & Li); [eapply (Hc i); eauto|].
  destruct (at_closure dim cell dp) as (gp & Gp & _ & Lp); [eapply (Hc (i - 1)); eauto; lia|].
  rewrite (idx_some _ _ _ Ei). cbn [bind]. rewrite Gi. cbn [bind].
  rewrite (idx_some _ _ (pre (local_size dim cell) dd (i - 1))) by (apply nth_error_partial_map_lt; lia). cbn [bind].
  rewrite (idx_some _ _ _ Ep). cbn [bind]. rewrite Gp. cbn [bind].
  rewrite Li, Lp, <- (pre_S _ dd _ _ Ep). replace (S (i - 1)) with i by lia.
  change (l_offsets_DOFs (lcount_inv dim cell dd i)) with (partial_map (pre (local_size dim cell) dd) 0 (length dd) i).
  rewrite partial_map_set by lia. cbn [bind]. unfold lcount_inv. now rewrite (pre_S _ dd _ _ Ei).
Qed.

Lemma local_count_ok dim cell dd :
  dd <> [] -> Forall (cell_exists dim cell) dd ->
  local_count_dofs dim cell dd = Ok (lcount_inv dim cell dd (length dd)).
Proof.
  intros Hne Hc. destruct dd as [|d0 dd']; [congruence|].
  assert (Hn : 0 < length (d0 :: dd')) by (simpl; lia).
  assert (Hc' : forall j data, nth_error (d0 :: dd') j = Some data -> cell_exists dim cell data).
  { intros j data Hj. rewrite Forall_forall in Hc. apply Hc. eapply nth_error_In; eauto. }
  unfold local_count_dofs. set (dd := d0 :: dd') in *.
  change (idx_ dd 0) with (@Ok DOFsData d0). cbn [bind].
  destruct (at_closure dim cell d0) as (g0 & G0 & _ & L0); [now apply (Hc' 0)|].
  rewrite G0. cbn [bind]. rewrite resize_nil. unfold dd at 1. rewrite (lcount_init dim cell). fold dd. cbn [bind].
  match goal with |- for_from 1 _ ?f ?s = _ =>
    destruct (@for_from_total _ (fun i st => st = lcount_inv dim cell dd i) f (length dd - 1) 1 s) as (s' & E & Hs)
  end.
  - unfold lcount_inv, pre. simpl. now rewrite Nat.add_0_r, L0.
  - intros i s Hi ->. eexists. split; [|reflexivity]. apply lcount_step; [lia|]. intros; eapply Hc'; eauto.
  - replace (1 + (length dd - 1)) with (length dd) in Hs by lia. now rewrite E, Hs.
Qed.

(** the general loop also throws at the first missing cell *)
Lemma for_from_throw {S} (I : nat -> S -> Prop) (f : nat -> S -> outcome S) start n c s :
  start <= c < start + n -> I start s ->
  (forall i s, start <= i < c -> I i s -> exists s', f i s = Ok s' /\ I (Datatypes.S i) s') ->
  (forall s, I c s -> f c s = Throw) ->
  for_from start n f s = Throw.
Proof.
  intros Hc H0 Hs Ht.
  replace n with ((c - start) + Datatypes.S (start + n - c - 1)) by lia.
  rewrite for_from_app.
  destruct (@for_from_total S I f (c - start) start s H0) as (s' & E & H).
  { intros i t Hi. apply Hs. lia. }
  rewrite E. simpl. replace (start + (c - start)) with c in * by lia. now rewrite Ht.
Qed.

Lemma local_count_throw dim cell dd :
  dd <> [] -> ~ Forall (cell_exists dim cell) dd -> local_count_dofs dim cell dd = Throw.
Proof.
  intros Hne Hc. destruct dd as [|d0 dd']; [congruence|].
  assert (Hn : 0 < length (d0 :: dd')) by (simpl; lia).
  set (dd := d0 :: dd') in *.
  assert (D : forall j, {match nth_error dd j with Some data => cell_exists dim cell data | None => True end} +
                        {~ match nth_error dd j with Some data => cell_exists dim cell data | None => True end}).
  { intros j. destruct (nth_error dd j); [apply lt_dec|left; exact I]. }
  destruct (bounded_dec _ D (length dd)) as [Hall|(c & Hlt & Hn1 & Hb)].
  { exfalso. apply Hc. apply Forall_forall. intros data Hin. apply In_nth_error in Hin.
    destruct Hin as (j & Hj). specialize (Hall j). rewrite Hj in Hall. apply Hall. eapply nth_error_lt; eauto. }
  destruct (nth_error_Some_ex dd Hlt) as (dc & Ec). rewrite Ec in Hn1.
  assert (Tc : at_ (CellsGlobalDOFs dc dim) cell = Throw).
  { unfold at_. unfold cell_exists in Hn1. rewrite (proj2 (nth_error_None _ _)) by lia. reflexivity. }
  unfold local_count_dofs.
  change (idx_ dd 0) with (@Ok DOFsData d0). cbn [bind].
  destruct c as [|c].
  - simpl in Ec. injection Ec as <-. now rewrite Tc.
  - assert (H0 : cell_exists dim cell d0) by (apply (Hb 0); lia).
    destruct (at_closure dim cell d0) as (g0 & G0 & _ & L0); [auto|].
    rewrite G0. cbn [bind]. rewrite resize_nil. unfold dd at 1. rewrite (lcount_init dim cell). fold dd. cbn [bind].
    apply (@for_from_throw _ (fun i s => s = lcount_inv dim cell dd i) _ _ _ (S c)); [lia| | |].
    + unfold lcount_inv, pre. simpl. now rewrite Nat.add_0_r, L0.
    + intros i s Hi ->. eexists. split; [|reflexivity]. apply lcount_step; [lia|].
      intros j data Hj Ej. specialize (Hb j). rewrite Ej in Hb. apply Hb. lia.
    + intros s ->. rewrite (idx_some _ _ _ Ec). cbn [bind]. now rewrite Tc.
Qed.

Lemma C13_pack dim cell dd :
  dd <> [] ->
  (Forall (cell_exists dim cell) dd ->
   exists lc, local_count_dofs dim cell dd = Ok lc /\
    l_num_total_dofs lc = list_sum (map (local_size dim cell) dd) /\
    length (l_offsets_DOFs lc) = length dd /\
    Permutation (flat_map (fun h => map (fun i => nth h (l_offsets_DOFs lc) 0 + i)
                                        (seq 0 (nth h (map (local_size dim cell) dd) 0))) (seq 0 (length dd)))
                (seq 0 (l_num_total_dofs lc))) /\
  (~ Forall (cell_exists dim cell) dd -> local_count_dofs dim cell dd = Throw).
Proof.
  intros Hne. split; [|now apply local_count_throw].
  intros Hc. exists (lcount_inv dim cell dd (length dd)). split; [now apply local_count_ok|].
  unfold lcount_inv; simpl. rewrite pre_all. split; [reflexivity|]. split.
  - rewrite partial_map_n. now rewrite map_length, seq_length.
  - rewrite <- pre_all. rewrite <- (blocks_tile (local_size dim cell) dd (length dd)) by auto.
    match goal with |- Permutation ?a ?b => replace a with b; [apply Permutation_refl|] end.
    apply flat_map_ext_in. intros h Hh. apply in_seq in Hh. now rewrite partial_map_full_nth by lia.
Qed.

(** ** Facts about packed data *)

Lemma local_count_inv_ok dim cell dd lc :
  local_count_dofs dim cell dd = Ok lc ->
  dd <> [] /\ Forall (cell_exists dim cell) dd /\ lc = lcount_inv dim cell dd (length dd).
Proof.
  intros E. assert (Hne : dd <> []).
  { intros ->. unfold local_count_dofs in E. discriminate. }
  split; auto.
  assert (D : forall data, {cell_exists dim cell data} + {~ cell_exists dim cell data}) by (intros; apply lt_dec).
  destruct (Forall_dec _ D dd) as [H|H].
  - split; auto. rewrite local_count_ok in E by auto. congruence.
  - rewrite local_count_throw in E by auto. discriminate.
Qed.

Lemma count_inv_ok dd cd : count_dofs dd = Ok cd -> cd = count_inv dd (length dd).
Proof.
  intros E. assert (Hne : dd <> []).
  { intros ->. unfold count_dofs in E. discriminate. }
  rewrite count_dofs_ok in E by auto. congruence.
Qed.

Lemma index_bound T k info mesh data g x d c gl : T <> TUnknown ->
  k <= 3 -> CreateDOFs k info mesh = Ok data -> d <= k ->
  nth_error (CellsGlobalDOFs data d) c = Some gl -> In g gl ->
  lookup data g = Some x -> dof_type x = T ->
  dof_index x < match T with TStrong => NumberStrongs data | _ => NumberDOFs data end.
Proof.
  intros HT Hk E Hd Hgl Hg Hx Ht.
  assert (Hin : In (dof_index x) (indices_of T k data)).
  { unfold indices_of. apply in_map. apply filter_In. split.
    - unfold all_dofs. apply in_flat_map.
      pose proof (C05_rows k info mesh data d Hk E Hd) as R1.
      assert (Hc : c < num_cells info d) by (rewrite <- R1; eapply nth_error_lt; eauto).
      destruct (CreateDOFs_stage _ _ _ _ Hk E) as (Hwf & Hst).
      rewrite (stage_closure info mesh k) in Hgl by auto. injection Hgl as <-.
      destruct (closure_lookup _ _ _ _ _ _ _ Hwf Hst Hd Hc Hg) as (A1 & _).
      exists (g_dim g). split; [apply in_seq; lia|].
      unfold lookup in Hx. destruct (nth_error (CellsDOFs data (g_dim g)) (g_cell g)) as [row|] eqn:Er; [|discriminate].
      apply in_concat. exists row. split; eapply nth_error_In; eauto.
    - unfold is_type. rewrite Ht. destruct T; auto. }
  destruct T; try congruence.
  - eapply Permutation_in in Hin; [|eapply C02_strong_numbering; eauto]. apply in_seq in Hin. lia.
  - eapply Permutation_in in Hin; [|eapply C01_free_numbering; eauto]. apply in_seq in Hin. lia.
Qed.

(** a slot of a created handler resolves, and its number is in range *)
Lemma created_slot dim data cell gl i g :
  created dim data -> nth_error (CellsGlobalDOFs data dim) cell = Some gl -> nth_error gl i = Some g ->
  exists x, lookup data g = Some x /\
    (dof_type x = TDOF /\ dof_index x < NumberDOFs data \/ dof_type x = TStrong /\ dof_index x < NumberStrongs data).
Proof.
  intros (Hk & info & mesh & E) Hgl Hg.
  pose proof (C05_rows dim info mesh data dim Hk E (le_n _)) as R1.
  assert (Hc : cell < num_cells info dim) by (rewrite <- R1; eapply nth_error_lt; eauto).
  destruct (CreateDOFs_stage _ _ _ _ Hk E) as (Hwf & Hst).
  pose proof Hgl as Hgl'.
  rewrite (stage_closure info mesh dim) in Hgl' by auto. injection Hgl' as <-.
  assert (Hin : In g (closure_dofs info mesh dim cell)) by (eapply nth_error_In; eauto).
  destruct (closure_lookup _ _ _ _ _ _ _ Hwf Hst (le_n _) Hc Hin) as (_ & _ & _ & A4).
  eexists. split; [exact A4|].
  pose proof (fun T HT => index_bound T dim info mesh data g _ dim cell _ HT Hk E (le_n _) Hgl Hin A4) as B.
  simpl in *. destruct (Tof (type_of info (g_dim g) (g_cell g))) eqn:ET.
  - destruct (type_of info (g_dim g) (g_cell g)); discriminate.
  - right. split; auto. apply (B TStrong); auto. discriminate.
  - left. split; auto. apply (B TDOF); auto. discriminate.
Qed.
