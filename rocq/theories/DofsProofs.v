(** Proofs about DofsModel.v: refinement of the imperative functions to a pure
    description, then the properties. *)
From Coq Require Import List Arith Bool Lia Permutation.
From Verif Require Import Base DofsModel DofsSpec.
Import ListNotations.

(** ** CreateCellDOFs *)

Definition freeN (t : BoundaryTypes) (n : nat) : nat :=
  match t with BStrong => 0 | _ => n end.
Definition strongN (t : BoundaryTypes) (n : nat) : nat :=
  match t with BStrong => n | _ => 0 end.
Definition internalN (t : BoundaryTypes) (n : nat) : nat :=
  match t with BNone => n | _ => 0 end.
Definition bndN (t : BoundaryTypes) (n : nat) : nat :=
  match t with BWeak | BRobin => n | _ => 0 end.
Definition isI (t : BoundaryTypes) : bool := match t with BNone => true | _ => false end.
Definition isB (t : BoundaryTypes) : bool := match t with BWeak | BRobin => true | _ => false end.

Definition mk_row (T : DOFType) (base n : nat) : list DOF :=
  map (fun i => {| dof_type := T; dof_index := base + i |}) (seq 0 n).

Definition cell_row (t : BoundaryTypes) (nD nS n : nat) : list DOF :=
  match t with BStrong => mk_row TStrong nS n | _ => mk_row TDOF nD n end.

Definition cells := list (nat * BoundaryTypes).

Definition tot (f : BoundaryTypes -> nat -> nat) (l : cells) : nat :=
  list_sum (map (fun x => f (snd x) (fst x)) l).

Fixpoint scan (l : cells) (nD nS : nat) : list (list DOF) :=
  match l with
  | [] => []
  | (n, t) :: r => cell_row t nD nS n :: scan r (nD + freeN t n) (nS + strongN t n)
  end.

Lemma tot_app f l1 l2 : tot f (l1 ++ l2) = tot f l1 + tot f l2.
Proof. unfold tot. now rewrite map_app, list_sum_app. Qed.

Lemma scan_app l1 l2 nD nS :
  scan (l1 ++ l2) nD nS = scan l1 nD nS ++ scan l2 (nD + tot freeN l1) (nS + tot strongN l1).
Proof.
  revert nD nS; induction l1 as [|[n t] l1 IH]; intros nD nS; simpl.
  - unfold tot; simpl. now rewrite !Nat.add_0_r.
  - f_equal. rewrite IH. unfold tot; simpl. now rewrite !Nat.add_assoc.
Qed.

Lemma scan_length l nD nS : length (scan l nD nS) = length l.
Proof. revert nD nS; induction l as [|[n t] l IH]; simpl; auto. Qed.

Lemma mk_row_length T b n : length (mk_row T b n) = n.
Proof. unfold mk_row. now rewrite map_length, seq_length. Qed.

Lemma cell_row_length t nD nS n : length (cell_row t nD nS n) = n.
Proof. destruct t; apply mk_row_length. Qed.

Lemma mk_row_S T b n :
  mk_row T b (S n) = mk_row T b n ++ [{| dof_type := T; dof_index := b + n |}].
Proof. unfold mk_row. rewrite seq_S, map_app. reflexivity. Qed.

Lemma skipn_cons_nth {A} (l : list A) i :
  i < length l -> exists a, nth_error l i = Some a /\ skipn i l = a :: skipn (S i) l.
Proof.
  revert i; induction l as [|x l IH]; intros i H; simpl in H; [lia|].
  destruct i; simpl; [eauto|].
  destruct (IH i) as (a & E1 & E2); [lia|]. eauto.
Qed.

Lemma at_mid {A} (l1 : list A) x l2 i : length l1 = i -> at_ (l1 ++ x :: l2) i = Ok x.
Proof.
  intros <-. unfold at_. rewrite nth_error_app2 by lia. now rewrite Nat.sub_diag.
Qed.

Lemma set_at_mid {A} (l1 : list A) x l2 i v :
  length l1 = i -> set_at (l1 ++ x :: l2) i v = Ok (l1 ++ v :: l2).
Proof.
  intros <-. unfold set_at. rewrite app_length; simpl.
  destruct (Nat.ltb_spec (length l1) (length l1 + S (length l2))); [|lia].
  now rewrite replace_app_mid.
Qed.

Lemma set_idx_mid {A} (l1 : list A) x l2 i v :
  length l1 = i -> set_idx (l1 ++ x :: l2) i v = Ok (l1 ++ v :: l2).
Proof.
  intros <-. unfold set_idx. rewrite app_length; simpl.
  destruct (Nat.ltb_spec (length l1) (length l1 + S (length l2))); [|lia].
  now rewrite replace_app_mid.
Qed.

Lemma fill_cell_ok T base n row :
  length row = n -> fill_cell T base n row = Ok (mk_row T base n).
Proof.
  intros Hlen. unfold fill_cell.
  destruct (@for_loop_total _
    (fun i r => r = mk_row T base i ++ skipn i row)
    (fun d row => set_at row d {| dof_type := T; dof_index := base + d |}) n row)
    as (s' & E & H).
  - reflexivity.
  - intros i s Hi ->.
    destruct (skipn_cons_nth row i) as (a & _ & Es); [lia|].
    exists (mk_row T base (S i) ++ skipn (S i) row). split; [|reflexivity].
    rewrite Es, set_at_mid by apply mk_row_length.
    now rewrite mk_row_S, <- app_assoc.
  - rewrite E, H. rewrite skipn_all2 by lia. now rewrite app_nil_r.
Qed.

(** the state after the first cells of [l] are processed, out of [n] *)
Definition state_after (s0 : cell_state) (n : nat) (l : cells) : cell_state :=
  {| cs_nD := cs_nD s0 + tot freeN l;
     cs_nI := cs_nI s0 + tot internalN l;
     cs_nB := cs_nB s0 + tot bndN l;
     cs_nS := cs_nS s0 + tot strongN l;
     cs_dofs := scan l (cs_nD s0) (cs_nS s0) ++ repeat [] (n - length l);
     cs_cnD := map (fun x => freeN (snd x) (fst x)) l ++ repeat 0 (n - length l);
     cs_cnS := map (fun x => strongN (snd x) (fst x)) l ++ repeat 0 (n - length l);
     cs_hasI := map (fun x => isI (snd x)) l ++ repeat false (n - length l);
     cs_hasB := map (fun x => isB (snd x)) l ++ repeat false (n - length l) |}.

Lemma repeat_S_sub {A} (x : A) n i : i < n -> repeat x (n - i) = x :: repeat x (n - S i).
Proof. intros H. replace (n - i) with (S (n - S i)) by lia. reflexivity. Qed.

Lemma step_ok num binfo s0 l n c t :
  length l = c -> c < n ->
  nth_error num c = Some (fst t) -> option_map bi_type (nth_error binfo c) = Some (snd t) ->
  snd t <> BUnknown ->
  CreateCellDOFs_step num binfo c (state_after s0 n l) = Ok (state_after s0 n (l ++ [t])).
Proof.
  intros Hl Hc Hn Hb Ht. destruct t as [m t]; simpl in *.
  destruct (nth_error binfo c) as [bi|] eqn:Eb; simpl in Hb; [|discriminate].
  injection Hb as Hb.
  unfold CreateCellDOFs_step.
  unfold at_ at 1. rewrite Hn. simpl bind.
  unfold at_ at 1. rewrite Eb. simpl bind.
  unfold state_after; simpl.
  rewrite !app_length; simpl length.
  rewrite Hl. rewrite !(@repeat_S_sub (list DOF)), !(@repeat_S_sub nat), !(@repeat_S_sub bool) by lia.
  rewrite at_mid by now rewrite scan_length.
  simpl bind. rewrite resize_nil.
  assert (Hn1 : n - (c + 1) = n - S c) by lia. rewrite !Hn1.
  rewrite Hb.
  assert (Hsc : forall nD nS, length (scan l nD nS) = c) by (intros; now rewrite scan_length).
  assert (Hm : forall B (f : nat * BoundaryTypes -> B), length (map f l) = c)
    by (intros; now rewrite map_length).
  destruct t; try congruence;
    rewrite fill_cell_ok by now rewrite repeat_length.
  all: unfold bind at 1; rewrite set_at_mid by auto; simpl bind.
  all: rewrite !at_mid by auto; simpl bind; rewrite !set_at_mid by auto; simpl bind.
  all: rewrite ?set_at_mid by auto; simpl bind.
  all: rewrite ?scan_app, ?map_app, !tot_app; cbn [map scan cell_row freeN strongN internalN bndN isI isB fst snd].
  all: rewrite <- !app_assoc; cbn [app].
  all: f_equal; f_equal; unfold tot; simpl; try lia; auto.
Qed.

Definition cells_of (info : MeshDOFsInfo) (d : nat) : cells :=
  combine (CellsNumDOFs info d) (map bi_type (CellsBoundaryInfo info d)).

(** every cell of dimension [d] has a known boundary type *)
Definition wf_types (info : MeshDOFsInfo) (d : nat) : Prop :=
  forall c, c < num_cells info d ->
    exists t, boundary_type info d c = Some t /\ t <> BUnknown.

Lemma nth_error_combine {A B} (l1 : list A) (l2 : list B) i :
  nth_error (combine l1 l2) i =
  match nth_error l1 i, nth_error l2 i with Some a, Some b => Some (a, b) | _, _ => None end.
Proof.
  revert l2 i; induction l1 as [|a l1 IH]; intros l2 i; simpl.
  - destruct i; reflexivity.
  - destruct l2 as [|b l2]; simpl.
    + destruct i; simpl; auto. destruct (nth_error l1 i); auto.
    + destruct i; simpl; auto.
Qed.

Lemma wf_cells_length info d : wf_types info d -> length (cells_of info d) = num_cells info d.
Proof.
  intros H. unfold cells_of. rewrite combine_length, map_length.
  destruct (Nat.le_gt_cases (num_cells info d) (length (CellsBoundaryInfo info d))).
  - unfold num_cells in *; lia.
  - destruct (H (length (CellsBoundaryInfo info d)) H0) as (t & E & _).
    unfold boundary_type in E.
    destruct (nth_error (CellsBoundaryInfo info d) (length (CellsBoundaryInfo info d))) eqn:E2;
      simpl in E; try discriminate.
    apply nth_error_lt in E2. lia.
Qed.

Lemma cells_of_nth info d c :
  wf_types info d -> c < num_cells info d ->
  exists n t, nth_error (CellsNumDOFs info d) c = Some n /\
    boundary_type info d c = Some t /\ t <> BUnknown /\
    nth_error (cells_of info d) c = Some (n, t).
Proof.
  intros H Hc. destruct (H c Hc) as (t & Et & Ht).
  destruct (nth_error_Some_ex (CellsNumDOFs info d) Hc) as (n & En).
  exists n, t. repeat split; auto.
  unfold cells_of. rewrite nth_error_combine, En, nth_error_map.
  unfold boundary_type in Et. now rewrite Et.
Qed.

Definition fresh_dim (dofs : DOFsData) (d : nat) : Prop :=
  CellsDOFs dofs d = [] /\ CellsNumberDOFs dofs d = [] /\ CellsNumberStrongs dofs d = [] /\
  CellsHasInternalDOFs dofs d = [] /\ CellsHasBoundaryDOFs dofs d = [] /\
  CellsGlobalDOFs dofs d = [] /\ CellsGlobalNumberDOFs dofs d = [] /\
  CellsGlobalNumberStrongs dofs d = [] /\
  CellsGlobalHasInternalDOFs dofs d = [] /\ CellsGlobalHasBoundaryDOFs dofs d = [].

(** the result of CreateCellDOFs on a fresh dimension *)
Definition after_cells (info : MeshDOFsInfo) (dofs : DOFsData) (d : nat) : DOFsData :=
  let l := cells_of info d in
  {| NumberDOFs := NumberDOFs dofs + tot freeN l;
     NumberInternalDOFs := NumberInternalDOFs dofs + tot internalN l;
     NumberBoundaryDOFs := NumberBoundaryDOFs dofs + tot bndN l;
     NumberStrongs := NumberStrongs dofs + tot strongN l;
     CellsDOFs := upd (CellsDOFs dofs) d (scan l (NumberDOFs dofs) (NumberStrongs dofs));
     CellsGlobalDOFs := CellsGlobalDOFs dofs;
     CellsNumberDOFs := upd (CellsNumberDOFs dofs) d (map (fun x => freeN (snd x) (fst x)) l);
     CellsHasInternalDOFs := upd (CellsHasInternalDOFs dofs) d (map (fun x => isI (snd x)) l);
     CellsHasBoundaryDOFs := upd (CellsHasBoundaryDOFs dofs) d (map (fun x => isB (snd x)) l);
     CellsNumberStrongs := upd (CellsNumberStrongs dofs) d (map (fun x => strongN (snd x) (fst x)) l);
     CellsGlobalNumberDOFs := CellsGlobalNumberDOFs dofs;
     CellsGlobalHasInternalDOFs := CellsGlobalHasInternalDOFs dofs;
     CellsGlobalHasBoundaryDOFs := CellsGlobalHasBoundaryDOFs dofs;
     CellsGlobalNumberStrongs := CellsGlobalNumberStrongs dofs |}.

Lemma CreateCellDOFs_ok info dofs d :
  fresh_dim dofs d -> wf_types info d ->
  CreateCellDOFs info dofs d = Ok (after_cells info dofs d).
Proof.
  intros Hf Hwf. unfold CreateCellDOFs.
  destruct Hf as (F1 & F2 & F3 & F4 & F5 & _). rewrite F1, F2, F3, F4, F5, !resize_nil.
  set (s0 := {| cs_nD := _; cs_nI := _; cs_nB := _; cs_nS := _; cs_dofs := _;
               cs_cnD := _; cs_cnS := _; cs_hasI := _; cs_hasB := _ |}).
  set (n := length (CellsNumDOFs info d)).
  pose proof (wf_cells_length _ _ Hwf) as Hlen.
  destruct (@for_loop_total _ (fun i s => s = state_after s0 n (firstn i (cells_of info d)))
     (CreateCellDOFs_step (CellsNumDOFs info d) (CellsBoundaryInfo info d)) n s0) as (s' & E & H).
  - simpl. unfold state_after, s0, tot; simpl. rewrite !Nat.add_0_r, Nat.sub_0_r. reflexivity.
  - intros i s Hi ->.
    destruct (cells_of_nth info d i Hwf Hi) as (m & t & E1 & E2 & E3 & E4).
    exists (state_after s0 n (firstn (S i) (cells_of info d))). split; [|reflexivity].
    rewrite (firstn_S_nth _ _ E4). apply step_ok; auto.
    rewrite firstn_length, Hlen. unfold num_cells. fold n. lia.
  - fold n. rewrite E. simpl bind. subst s'. rewrite firstn_all2 by (rewrite Hlen; unfold num_cells; fold n; lia).
    unfold state_after, after_cells; simpl. rewrite Hlen.
    unfold num_cells. fold n. rewrite Nat.sub_diag. simpl. rewrite !app_nil_r. reflexivity.
Qed.

Lemma CreateCellDOFs_wf info dofs d data :
  CreateCellDOFs info dofs d = Ok data -> wf_types info d.
Proof.
  unfold CreateCellDOFs. intros E. apply bind_Ok in E. destruct E as (s & E & _).
  intros c Hc. unfold for_loop in E.
  destruct (@for_from_reach _ _ _ _ _ _ E c) as (t & t' & Et); [unfold num_cells in Hc; lia|].
  unfold CreateCellDOFs_step in Et.
  apply bind_Ok in Et. destruct Et as (n & En & Et).
  apply bind_Ok in Et. destruct Et as (bi & Eb & Et).
  apply bind_Ok in Et. destruct Et as (row & Er & Et).
  exists (bi_type bi). unfold boundary_type.
  apply at_Ok in Eb. rewrite Eb. split; auto.
  intros Hc'. rewrite Hc' in Et. discriminate.
Qed.

Lemma set_at_not_UB {A} (l : list A) i v : set_at l i v <> UB.
Proof. unfold set_at. destruct (i <? length l); discriminate. Qed.

Lemma bind_not_UB {A B} (x : outcome A) (f : A -> outcome B) :
  x <> UB -> (forall a, x = Ok a -> f a <> UB) -> bind x f <> UB.
Proof. destruct x; simpl; intros; try congruence; auto. Qed.

Lemma fill_cell_not_UB T b n row : fill_cell T b n row <> UB.
Proof.
  unfold fill_cell. apply (@for_loop_not_UB _ (fun _ _ => True)); auto.
  intros. apply set_at_not_UB.
Qed.

Lemma CreateCellDOFs_not_UB info dofs d : CreateCellDOFs info dofs d <> UB.
Proof.
  unfold CreateCellDOFs. apply bind_not_UB; [|discriminate].
  apply (@for_loop_not_UB _ (fun _ _ => True)); auto.
  intros i s _ _. unfold CreateCellDOFs_step.
  repeat (apply bind_not_UB; [first [apply at_not_UB | apply set_at_not_UB]|intros ? _]).
  destruct (bi_type _); try discriminate;
  repeat (apply bind_not_UB; [first [apply at_not_UB | apply set_at_not_UB | apply fill_cell_not_UB]|intros ? _]);
  discriminate.
Qed.

(** ** Closure rows *)

Definition entries (d e n : nat) : list GlobalCell_DOF :=
  map (fun i => {| g_dim := d; g_cell := e; g_dof := i |}) (seq 0 n).

Lemma entries_length d e n : length (entries d e n) = n.
Proof. unfold entries. now rewrite map_length, seq_length. Qed.

Lemma Concatenate_ok d e local pre rest :
  length local <= length rest ->
  ConcatenateGlobalDOFs d e local (pre ++ rest, length pre) =
  Ok (pre ++ entries d e (length local) ++ skipn (length local) rest, length pre + length local).
Proof.
  intros H. unfold ConcatenateGlobalDOFs.
  match goal with |- for_loop ?n ?f ?s = _ =>
    destruct (@for_loop_total _ (fun i st =>
      st = (pre ++ entries d e i ++ skipn i rest, length pre + i)) f n s) as (s' & E & Hs)
  end.
  - simpl. now rewrite Nat.add_0_r.
  - intros i s Hi ->. simpl fst; simpl snd.
    destruct (skipn_cons_nth rest i) as (a & _ & Es); [lia|].
    eexists. split.
    + rewrite Es, app_assoc, set_idx_mid by (rewrite app_length, entries_length; lia).
      simpl bind. reflexivity.
    + f_equal; [|lia]. rewrite <- app_assoc. f_equal.
      unfold entries. rewrite seq_S, map_app, <- app_assoc. reflexivity.
  - rewrite E, Hs. reflexivity.
Qed.

(** lengths of the vectors of a dimension agree *)
Definition coherent (dofs : DOFsData) (d : nat) : Prop :=
  length (CellsNumberDOFs dofs d) = length (CellsDOFs dofs d) /\
  length (CellsNumberStrongs dofs d) = length (CellsDOFs dofs d) /\
  length (CellsHasInternalDOFs dofs d) = length (CellsDOFs dofs d) /\
  length (CellsHasBoundaryDOFs dofs d) = length (CellsDOFs dofs d).

Definition rowlen (dofs : DOFsData) (d e : nat) : nat := length (nth e (CellsDOFs dofs d) []).

Definition valid_ents (dofs : DOFsData) (d : nat) (l : list nat) : Prop :=
  forall e, In e l -> e < length (CellsDOFs dofs d).

Lemma at_nth {A} (l : list A) i d : i < length l -> at_ l i = Ok (nth i l d).
Proof.
  intros H. unfold at_. rewrite (nth_error_nth' l d H). reflexivity.
Qed.

Lemma at_throw {A} (l : list A) i : length l <= i -> at_ l i = Throw.
Proof. intros H. unfold at_. apply nth_error_None in H. now rewrite H. Qed.

Lemma size_loop_ok dofs d l acc :
  valid_ents dofs d l ->
  size_loop dofs d l acc = Ok (acc + list_sum (map (rowlen dofs d) l)).
Proof.
  unfold size_loop.
  revert acc; induction l as [|e l IH]; intros acc H; simpl.
  - now rewrite Nat.add_0_r.
  - rewrite (at_nth _ _ []) by (apply H; now left). simpl.
    rewrite IH by (intros x Hx; apply H; now right).
    f_equal. unfold rowlen at 2. lia.
Qed.

Lemma size_loop_inv dofs d l acc n :
  size_loop dofs d l acc = Ok n -> valid_ents dofs d l.
Proof.
  unfold size_loop.
  revert acc; induction l as [|e l IH]; intros acc H; simpl in *.
  - intros x [].
  - apply bind_Ok in H. destruct H as (a & Ha & H).
    apply bind_Ok in Ha. destruct Ha as (row & Hr & Ha).
    apply at_Ok in Hr. apply nth_error_lt in Hr.
    intros x [<-|Hx]; auto. eapply IH; eauto.
Qed.

Lemma size_loop_not_UB dofs d l acc : size_loop dofs d l acc <> UB.
Proof.
  unfold size_loop.
  revert acc; induction l as [|e l IH]; intros acc; simpl; [discriminate|].
  apply bind_not_UB; [|intros; apply IH].
  apply bind_not_UB; [apply at_not_UB|discriminate].
Qed.

Definition nD_of (dofs : DOFsData) (d e : nat) := nth e (CellsNumberDOFs dofs d) 0.
Definition nS_of (dofs : DOFsData) (d e : nat) := nth e (CellsNumberStrongs dofs d) 0.
Definition hI_of (dofs : DOFsData) (d e : nat) := nth e (CellsHasInternalDOFs dofs d) false.
Definition hB_of (dofs : DOFsData) (d e : nat) := nth e (CellsHasBoundaryDOFs dofs d) false.

Lemma add_counts_ok dofs d e r :
  coherent dofs d -> e < length (CellsDOFs dofs d) ->
  add_counts dofs d e r =
  Ok {| gr_buf := gr_buf r; gr_nD := gr_nD r + nD_of dofs d e; gr_nS := gr_nS r + nS_of dofs d e;
        gr_hasI := gr_hasI r; gr_hasB := gr_hasB r |}.
Proof.
  intros (C1 & C2 & _) He. unfold add_counts.
  rewrite (at_nth _ _ 0) by lia. simpl. rewrite (at_nth _ _ 0) by lia. reflexivity.
Qed.

Lemma or_flags_ok dofs d e r :
  coherent dofs d -> e < length (CellsDOFs dofs d) ->
  or_flags dofs d e r =
  Ok {| gr_buf := gr_buf r; gr_nD := gr_nD r; gr_nS := gr_nS r;
        gr_hasI := hI_of dofs d e || gr_hasI r; gr_hasB := hB_of dofs d e || gr_hasB r |}.
Proof.
  intros (_ & _ & C3 & C4) He. unfold or_flags.
  rewrite (at_nth _ _ false) by lia. simpl. rewrite (at_nth _ _ false) by lia. simpl.
  unfold hI_of, hB_of.
  destruct (nth e (CellsHasInternalDOFs dofs d) false), (nth e (CellsHasBoundaryDOFs dofs d) false); reflexivity.
Qed.

Lemma grow_eta r : r = {| gr_buf := gr_buf r; gr_nD := gr_nD r; gr_nS := gr_nS r;
                          gr_hasI := gr_hasI r; gr_hasB := gr_hasB r |}.
Proof. destruct r; reflexivity. Qed.

Lemma fill_loop_ok flags dofs d l r pre rest :
  coherent dofs d -> valid_ents dofs d l ->
  gr_buf r = pre ++ rest ->
  list_sum (map (rowlen dofs d) l) <= length rest ->
  exists r', fill_loop flags dofs d l (r, length pre) =
    Ok (r', length pre + list_sum (map (rowlen dofs d) l)) /\
    gr_buf r' = pre ++ flat_map (fun e => entries d e (rowlen dofs d e)) l
                ++ skipn (list_sum (map (rowlen dofs d) l)) rest /\
    gr_nD r' = gr_nD r + list_sum (map (nD_of dofs d) l) /\
    gr_nS r' = gr_nS r + list_sum (map (nS_of dofs d) l) /\
    gr_hasI r' = (if flags then existsb (hI_of dofs d) l || gr_hasI r else gr_hasI r) /\
    gr_hasB r' = (if flags then existsb (hB_of dofs d) l || gr_hasB r else gr_hasB r).
Proof.
  intros Hc. unfold fill_loop.
  revert r pre rest; induction l as [|e l IH]; intros r pre rest Hv Hb Hs; simpl.
  - exists r. simpl in Hs. rewrite !Nat.add_0_r. rewrite Hb. repeat split; auto; destruct flags; auto.
  - assert (He : e < length (CellsDOFs dofs d)) by (apply Hv; now left).
    rewrite (at_nth _ _ []) by auto. simpl bind.
    rewrite Hb. simpl in Hs.
    rewrite Concatenate_ok by (fold (rowlen dofs d e); lia).
    simpl bind. rewrite add_counts_ok by auto. simpl bind.
    set (r1 := {| gr_buf := _; gr_nD := _; gr_nS := _; gr_hasI := _; gr_hasB := _ |}).
    set (r2 := {| gr_buf := gr_buf r1; gr_nD := gr_nD r1; gr_nS := gr_nS r1;
                  gr_hasI := if flags then hI_of dofs d e || gr_hasI r1 else gr_hasI r1;
                  gr_hasB := if flags then hB_of dofs d e || gr_hasB r1 else gr_hasB r1 |}).
    assert (E : (if flags then or_flags dofs d e r1 else Ok r1) = Ok r2).
    { destruct flags; unfold r2; [now rewrite or_flags_ok by auto|now rewrite <- grow_eta]. }
    rewrite E. simpl bind.
    fold (rowlen dofs d e).
    specialize (IH r2 (pre ++ entries d e (rowlen dofs d e)) (skipn (rowlen dofs d e) rest)).
    rewrite app_length, entries_length in IH.
    destruct IH as (r' & E' & B1 & B2 & B3 & B4 & B5).
    + intros x Hx. apply Hv. now right.
    + simpl. fold (rowlen dofs d e). now rewrite <- app_assoc.
    + rewrite skipn_length. lia.
    + exists r'. rewrite E'. repeat split.
      * f_equal. f_equal. lia.
      * rewrite B1. rewrite <- !app_assoc. f_equal. f_equal. f_equal.
        now rewrite skipn_skipn.
      * rewrite B2. simpl. lia.
      * rewrite B3. simpl. lia.
      * rewrite B4. destruct flags; simpl; auto. destruct (hI_of dofs d e), (existsb (hI_of dofs d) l); auto.
      * rewrite B5. destruct flags; simpl; auto. destruct (hB_of dofs d e), (existsb (hB_of dofs d) l); auto.
Qed.

(** ** Rows of the four dimensions *)

Definition grow0 : grow := {| gr_buf := []; gr_nD := 0; gr_nS := 0; gr_hasI := false; gr_hasB := false |}.

(** the entities whose flags are looked at *)
Definition flag_entities (mesh : Mesh) (d c : nat) : list (nat * nat) :=
  match d with
  | 1 => map (pair 0) (firstn 2 (Cell1D_vertices mesh c))
  | 2 => map (pair 1) (Cell2D_edges mesh c)
  | 3 => map (pair 2) (Cell3D_faces mesh c)
  | _ => []
  end.

Definition row_spec (mesh : Mesh) (dofs : DOFsData) (d c : nat) : grow :=
  let E := closure_entities mesh d c in
  let F := flag_entities mesh d c in
  {| gr_buf := flat_map (fun e => entries (fst e) (snd e) (rowlen dofs (fst e) (snd e))) E;
     gr_nD := list_sum (map (fun e => nD_of dofs (fst e) (snd e)) E);
     gr_nS := list_sum (map (fun e => nS_of dofs (fst e) (snd e)) E);
     gr_hasI := existsb (fun e => hI_of dofs (fst e) (snd e)) F;
     gr_hasB := existsb (fun e => hB_of dofs (fst e) (snd e)) F |}.

Definition row_valid (mesh : Mesh) (dofs : DOFsData) (d c : nat) : Prop :=
  (d = 1 -> 2 <= length (Cell1D_vertices mesh c)) /\
  forall d' c', In (d', c') (closure_entities mesh d c) -> c' < length (CellsDOFs dofs d').

Definition cell_row_fun (mesh : Mesh) (d : nat) : DOFsData -> nat -> grow -> outcome grow :=
  match d with
  | 0 => cell0D_row
  | 1 => cell1D_row mesh
  | 2 => cell2D_row mesh
  | _ => cell3D_row mesh
  end.

Lemma flat_map_map {A B C} (f : A -> B) (g : B -> list C) l :
  flat_map g (map f l) = flat_map (fun x => g (f x)) l.
Proof. induction l; simpl; congruence. Qed.

Lemma flat_map_app' {A B} (f : A -> list B) l1 l2 :
  flat_map f (l1 ++ l2) = flat_map f l1 ++ flat_map f l2.
Proof. induction l1; simpl; auto. rewrite IHl1. now rewrite app_assoc. Qed.

Lemma existsb_map {A B} (f : A -> B) (g : B -> bool) l :
  existsb g (map f l) = existsb (fun x => g (f x)) l.
Proof. induction l; simpl; congruence. Qed.

Lemma flat_entries_length dofs d l :
  length (flat_map (fun e => entries d e (rowlen dofs d e)) l) = list_sum (map (rowlen dofs d) l).
Proof.
  induction l; simpl; auto. now rewrite app_length, entries_length, IHl.
Qed.

Lemma resize_nil_skip {A} (x : A) n : resize [] n x = repeat x n.
Proof. apply resize_nil. Qed.

Lemma skipn_repeat {A} (x : A) n m : skipn m (repeat x n) = repeat x (n - m).
Proof.
  revert m; induction n; intros m; simpl.
  - now rewrite skipn_nil.
  - destruct m; simpl; auto.
Qed.

Lemma row0_ok mesh dofs c :
  coherent dofs 0 -> row_valid mesh dofs 0 c ->
  cell0D_row dofs c grow0 = Ok (row_spec mesh dofs 0 c).
Proof.
  intros Hc (_ & Hv). unfold cell0D_row.
  assert (He : c < length (CellsDOFs dofs 0)) by (apply Hv; now left).
  rewrite (at_nth _ _ []) by auto. simpl bind. rewrite resize_nil.
  rewrite add_counts_ok by auto. simpl bind.
  fold (rowlen dofs 0 c).
  pose proof (Concatenate_ok 0 c (nth c (CellsDOFs dofs 0) []) [] (repeat gdof0 (rowlen dofs 0 c))) as H.
  simpl in H. rewrite H by (rewrite repeat_length; unfold rowlen; lia).
  simpl bind. unfold row_spec, set_gr_buf; simpl.
  fold (rowlen dofs 0 c). rewrite skipn_repeat, Nat.sub_diag. simpl.
  now rewrite !Nat.add_0_r.
Qed.

Lemma firstn2 {A} (l : list A) x y :
  nth_error l 0 = Some x -> nth_error l 1 = Some y -> firstn 2 l = [x; y].
Proof.
  destruct l as [|a [|b l]]; simpl; intros; try discriminate. congruence.
Qed.

Lemma row1_ok mesh dofs c :
  coherent dofs 0 -> coherent dofs 1 -> row_valid mesh dofs 1 c ->
  cell1D_row mesh dofs c grow0 = Ok (row_spec mesh dofs 1 c).
Proof.
  intros Hc0 Hc1 (Hl & Hv). specialize (Hl eq_refl). unfold cell1D_row.
  destruct (nth_error_Some_ex (Cell1D_vertices mesh c) (i := 0)) as (o & Eo); [lia|].
  destruct (nth_error_Some_ex (Cell1D_vertices mesh c) (i := 1)) as (e & Ee); [lia|].
  pose proof (firstn2 _ _ _ Eo Ee) as E2.
  simpl in Hv. change (match Cell1D_vertices mesh c with [] => [] | a :: l => a :: match l with [] => [] | b :: _ => [b] end end)
     with (firstn 2 (Cell1D_vertices mesh c)) in Hv. rewrite E2 in Hv. simpl in Hv.
  unfold at_ at 1. rewrite Eo. simpl bind. unfold at_ at 1. rewrite Ee. simpl bind.
  assert (Ho : o < length (CellsDOFs dofs 0)) by (apply (Hv 0 o); auto).
  assert (He : e < length (CellsDOFs dofs 0)) by (apply (Hv 0 e); auto).
  assert (Hcc : c < length (CellsDOFs dofs 1)) by (apply (Hv 1 c); auto).
  rewrite !(at_nth _ _ []) by auto. simpl bind.
  rewrite resize_nil.
  rewrite add_counts_ok by auto. simpl bind. rewrite or_flags_ok by auto. simpl bind.
  rewrite add_counts_ok by auto. simpl bind. rewrite or_flags_ok by auto. simpl bind.
  rewrite add_counts_ok by auto. simpl bind.
  fold (rowlen dofs 0 o) (rowlen dofs 0 e) (rowlen dofs 1 c).
  set (a := rowlen dofs 0 o); set (b := rowlen dofs 0 e); set (m := rowlen dofs 1 c).
  pose proof (Concatenate_ok 0 o (nth o (CellsDOFs dofs 0) []) [] (repeat gdof0 (a + b + m))) as H.
  simpl app in H. simpl length in H. fold (rowlen dofs 0 o) in H. fold a in H.
  rewrite H by (rewrite repeat_length; lia). simpl bind.
  rewrite skipn_repeat.
  pose proof (Concatenate_ok 0 e (nth e (CellsDOFs dofs 0) []) (entries 0 o a) (repeat gdof0 (a + b + m - a))) as H1.
  rewrite entries_length in H1. fold (rowlen dofs 0 e) in H1. fold b in H1.
  simpl Nat.add. rewrite H1 by (rewrite repeat_length; lia). simpl bind.
  rewrite skipn_repeat.
  pose proof (Concatenate_ok 1 c (nth c (CellsDOFs dofs 1) []) (entries 0 o a ++ entries 0 e b)
     (repeat gdof0 (a + b + m - a - b))) as H2.
  rewrite app_length, !entries_length in H2. fold (rowlen dofs 1 c) in H2. fold m in H2.
  rewrite <- app_assoc in H2. rewrite H2 by (rewrite repeat_length; lia). simpl bind.
  rewrite skipn_repeat. replace (a + b + m - a - b - m) with 0 by lia.
  unfold row_spec, set_gr_buf, closure_entities, flag_entities. rewrite E2. simpl.
  fold a b m. rewrite !app_nil_r, !orb_false_r, <- !app_assoc, !Nat.add_0_r, !Nat.add_assoc.
  do 2 f_equal; apply orb_comm.
Qed.

Lemma row2_ok mesh dofs c :
  coherent dofs 0 -> coherent dofs 1 -> coherent dofs 2 -> row_valid mesh dofs 2 c ->
  cell2D_row mesh dofs c grow0 = Ok (row_spec mesh dofs 2 c).
Proof.
  intros Hc0 Hc1 Hc2 (_ & Hv). unfold cell2D_row. simpl in Hv.
  assert (V0 : valid_ents dofs 0 (Cell2D_vertices mesh c)).
  { intros e He. apply (Hv 0 e). apply in_or_app. left. now apply in_map. }
  assert (V1 : valid_ents dofs 1 (Cell2D_edges mesh c)).
  { intros e He. apply (Hv 1 e). apply in_or_app. right. apply in_or_app. left. now apply in_map. }
  assert (V2 : valid_ents dofs 2 [c]).
  { intros e [<-|[]]. apply (Hv 2 c). apply in_or_app. right. apply in_or_app. right. now left. }
  rewrite (at_nth _ _ []) by (apply V2; now left). simpl bind.
  rewrite size_loop_ok by auto. simpl bind. rewrite size_loop_ok by auto. simpl bind.
  rewrite resize_nil. fold (rowlen dofs 2 c).
  set (a := list_sum (map (rowlen dofs 0) (Cell2D_vertices mesh c))).
  set (b := list_sum (map (rowlen dofs 1) (Cell2D_edges mesh c))).
  set (m := rowlen dofs 2 c).
  set (r0 := set_gr_buf _ _).
  destruct (fill_loop_ok false dofs 0 (Cell2D_vertices mesh c) r0 [] (repeat gdof0 (m + a + b)))
    as (r1 & E1 & B1 & D1 & S1 & I1 & J1); auto.
  { rewrite repeat_length. fold a. lia. }
  simpl length in E1. simpl Nat.add in E1. change (list_sum (map (rowlen dofs 0) _)) with a in B1, E1. rewrite E1. simpl bind.
  simpl app in B1. rewrite skipn_repeat in B1.
  destruct (fill_loop_ok true dofs 1 (Cell2D_edges mesh c) r1 _ _ Hc1 V1 B1)
    as (r2 & E2 & B2 & D2 & S2 & I2 & J2).
  { rewrite repeat_length. fold b. lia. }
  rewrite flat_entries_length in E2. fold a in E2. change (list_sum (map (rowlen dofs 1) _)) with b in B2, E2. rewrite E2. simpl bind.
  rewrite skipn_repeat, app_assoc in B2.
  destruct (fill_loop_ok false dofs 2 [c] r2 _ _ Hc2 V2 B2)
    as (r3 & E3 & B3 & D3 & S3 & I3 & J3).
  { rewrite repeat_length. simpl. fold m. lia. }
  rewrite app_length, !flat_entries_length in E3. fold a b in E3. rewrite E3. simpl bind.
  rewrite skipn_repeat in B3. simpl list_sum in B3. fold m in B3.
  replace (m + a + b - a - b - (m + 0)) with 0 in B3 by lia. simpl in B3.
  f_equal. rewrite (grow_eta r3). unfold row_spec, closure_entities, flag_entities.
  rewrite B3, D3, D2, D1, S3, S2, S1, I3, I2, I1, J3, J2, J1.
  rewrite !flat_map_app', !map_app, !list_sum_app, !flat_map_map, !map_map, !existsb_map.
  simpl. fold m. rewrite !app_nil_r, !orb_false_r, !Nat.add_0_r, <- !app_assoc, !Nat.add_assoc.
  reflexivity.
Qed.

Lemma row3_ok mesh dofs c :
  coherent dofs 0 -> coherent dofs 1 -> coherent dofs 2 -> coherent dofs 3 -> row_valid mesh dofs 3 c ->
  cell3D_row mesh dofs c grow0 = Ok (row_spec mesh dofs 3 c).
Proof.
  intros Hc0 Hc1 Hc2 Hc3 (_ & Hv). unfold cell3D_row. simpl in Hv.
  assert (V0 : valid_ents dofs 0 (Cell3D_vertices mesh c)).
  { intros e He. apply (Hv 0 e). apply in_or_app. left. now apply in_map. }
  assert (V1 : valid_ents dofs 1 (Cell3D_edges mesh c)).
  { intros e He. apply (Hv 1 e). apply in_or_app. right. apply in_or_app. left. now apply in_map. }
  assert (V2 : valid_ents dofs 2 (Cell3D_faces mesh c)).
  { intros e He. apply (Hv 2 e). apply in_or_app. right. apply in_or_app. right. apply in_or_app. left. now apply in_map. }
  assert (V3 : valid_ents dofs 3 [c]).
  { intros e [<-|[]]. apply (Hv 3 c). apply in_or_app. right. apply in_or_app. right. apply in_or_app. right. now left. }
  rewrite (at_nth _ _ []) by (apply V3; now left). simpl bind.
  rewrite size_loop_ok by auto. simpl bind. rewrite size_loop_ok by auto. simpl bind.
  rewrite size_loop_ok by auto. simpl bind.
  rewrite resize_nil. fold (rowlen dofs 3 c).
  set (a := list_sum (map (rowlen dofs 0) (Cell3D_vertices mesh c))).
  set (b := list_sum (map (rowlen dofs 1) (Cell3D_edges mesh c))).
  set (f := list_sum (map (rowlen dofs 2) (Cell3D_faces mesh c))).
  set (m := rowlen dofs 3 c).
  set (r0 := set_gr_buf _ _).
  destruct (fill_loop_ok false dofs 0 (Cell3D_vertices mesh c) r0 [] (repeat gdof0 (m + a + b + f)))
    as (r1 & E1 & B1 & D1 & S1 & I1 & J1); auto.
  { rewrite repeat_length. fold a. lia. }
  simpl length in E1. simpl Nat.add in E1. change (list_sum (map (rowlen dofs 0) _)) with a in B1, E1. rewrite E1. simpl bind.
  simpl app in B1. rewrite skipn_repeat in B1.
  destruct (fill_loop_ok false dofs 1 (Cell3D_edges mesh c) r1 _ _ Hc1 V1 B1)
    as (r2 & E2 & B2 & D2 & S2 & I2 & J2).
  { rewrite repeat_length. fold b. lia. }
  rewrite flat_entries_length in E2. fold a in E2. change (list_sum (map (rowlen dofs 1) _)) with b in B2, E2. rewrite E2. simpl bind.
  rewrite skipn_repeat, app_assoc in B2.
  destruct (fill_loop_ok true dofs 2 (Cell3D_faces mesh c) r2 _ _ Hc2 V2 B2)
    as (r3 & E3 & B3 & D3 & S3 & I3 & J3).
  { rewrite repeat_length. fold f. lia. }
  rewrite app_length, !flat_entries_length in E3. fold a b in E3. change (list_sum (map (rowlen dofs 2) _)) with f in B3, E3. rewrite E3. simpl bind.
  rewrite skipn_repeat, app_assoc in B3.
  destruct (fill_loop_ok false dofs 3 [c] r3 _ _ Hc3 V3 B3)
    as (r4 & E4 & B4 & D4 & S4 & I4 & J4).
  { rewrite repeat_length. simpl. fold m. lia. }
  rewrite !app_length, !flat_entries_length in E4. fold a b f in E4. rewrite E4. simpl bind.
  rewrite skipn_repeat in B4. simpl list_sum in B4. fold m in B4.
  replace (m + a + b + f - a - b - f - (m + 0)) with 0 in B4 by lia. simpl in B4.
  f_equal. rewrite (grow_eta r4). unfold row_spec, closure_entities, flag_entities.
  rewrite B4, D4, D3, D2, D1, S4, S3, S2, S1, I4, I3, I2, I1, J4, J3, J2, J1.
  rewrite !flat_map_app', !map_app, !list_sum_app, !flat_map_map, !map_map, !existsb_map.
  simpl. fold m. rewrite !app_nil_r, !orb_false_r, !Nat.add_0_r, <- !app_assoc, !Nat.add_assoc.
  reflexivity.
Qed.

(** all four at once *)
Lemma row_ok mesh dofs k c :
  k <= 3 -> (forall d, d <= k -> coherent dofs d) -> row_valid mesh dofs k c ->
  cell_row_fun mesh k dofs c grow0 = Ok (row_spec mesh dofs k c).
Proof.
  intros Hk Hc Hv. destruct k as [|[|[|[|k]]]]; [| | | |lia]; simpl.
  - apply row0_ok; auto.
  - apply row1_ok; auto.
  - apply row2_ok; auto.
  - apply row3_ok; auto.
Qed.

Lemma row_inv mesh dofs k c r r' :
  k <= 3 -> cell_row_fun mesh k dofs c r = Ok r' -> row_valid mesh dofs k c.
Proof.
  intros Hk H. destruct k as [|[|[|[|k]]]]; [| | | |lia]; simpl in H.
  - unfold cell0D_row in H. apply bind_Ok in H. destruct H as (o & Ho & _).
    apply at_Ok in Ho. apply nth_error_lt in Ho.
    split; [discriminate|]. intros d' c' [E|[]]. injection E as <- <-. auto.
  - unfold cell1D_row in H.
    apply bind_Ok in H. destruct H as (o & Ho & H).
    apply bind_Ok in H. destruct H as (e & He & H).
    apply bind_Ok in H. destruct H as (oD & HoD & H).
    apply bind_Ok in H. destruct H as (eD & HeD & H).
    apply bind_Ok in H. destruct H as (own & Hown & H).
    apply at_Ok in Ho. apply at_Ok in He. apply at_Ok in HoD. apply at_Ok in HeD. apply at_Ok in Hown.
    split.
    + intros _. apply nth_error_lt in He. lia.
    + unfold closure_entities. rewrite (firstn2 _ _ _ Ho He).
      intros d' c' Hin. simpl in Hin.
      apply nth_error_lt in HoD. apply nth_error_lt in HeD. apply nth_error_lt in Hown.
      destruct Hin as [E|[E|[E|[]]]]; injection E as <- <-; auto.
  - unfold cell2D_row in H.
    apply bind_Ok in H. destruct H as (own & Hown & H).
    apply bind_Ok in H. destruct H as (n1 & Hn1 & H).
    apply bind_Ok in H. destruct H as (n2 & Hn2 & H).
    apply at_Ok in Hown. apply nth_error_lt in Hown.
    apply size_loop_inv in Hn1. apply size_loop_inv in Hn2.
    split; [discriminate|]. simpl. intros d' c' Hin.
    repeat (apply in_app_or in Hin; destruct Hin as [Hin|Hin]).
    + apply in_map_iff in Hin. destruct Hin as (x & E & Hx). injection E as <- <-. auto.
    + apply in_map_iff in Hin. destruct Hin as (x & E & Hx). injection E as <- <-. auto.
    + destruct Hin as [E|[]]. injection E as <- <-. auto.
  - unfold cell3D_row in H.
    apply bind_Ok in H. destruct H as (own & Hown & H).
    apply bind_Ok in H. destruct H as (n1 & Hn1 & H).
    apply bind_Ok in H. destruct H as (n2 & Hn2 & H).
    apply bind_Ok in H. destruct H as (n3 & Hn3 & H).
    apply at_Ok in Hown. apply nth_error_lt in Hown.
    apply size_loop_inv in Hn1. apply size_loop_inv in Hn2. apply size_loop_inv in Hn3.
    split; [discriminate|]. simpl. intros d' c' Hin.
    repeat (apply in_app_or in Hin; destruct Hin as [Hin|Hin]).
    + apply in_map_iff in Hin. destruct Hin as (x & E & Hx). injection E as <- <-. auto.
    + apply in_map_iff in Hin. destruct Hin as (x & E & Hx). injection E as <- <-. auto.
    + apply in_map_iff in Hin. destruct Hin as (x & E & Hx). injection E as <- <-. auto.
    + destruct Hin as [E|[]]. injection E as <- <-. auto.
Qed.

Lemma row_valid_dec mesh dofs k c : {row_valid mesh dofs k c} + {~ row_valid mesh dofs k c}.
Proof.
  unfold row_valid.
  destruct (forallb (fun e => snd e <? length (CellsDOFs dofs (fst e))) (closure_entities mesh k c)) eqn:E.
  - assert (Hv : forall d' c', In (d', c') (closure_entities mesh k c) -> c' < length (CellsDOFs dofs d')).
    { intros d' c' Hin. rewrite forallb_forall in E. specialize (E _ Hin). simpl in E. now apply Nat.ltb_lt. }
    destruct (Nat.eq_dec k 1) as [->|Hk].
    + destruct (le_dec 2 (length (Cell1D_vertices mesh c))); [left; auto|right; tauto].
    + left. split; [congruence|auto].
  - right. intros (_ & Hv). assert (E' : forallb (fun e => snd e <? length (CellsDOFs dofs (fst e))) (closure_entities mesh k c) = true).
    { apply forallb_forall. intros [d' c'] Hin. apply Nat.ltb_lt. now apply Hv. }
    congruence.
Defined.

(** an invalid row throws: it is the sizing part that fails, before any unchecked write *)
Lemma row_throw mesh dofs k c :
  k <= 3 -> (forall d, d <= k -> coherent dofs d) -> ~ row_valid mesh dofs k c ->
  cell_row_fun mesh k dofs c grow0 = Throw.
Proof.
  intros Hk Hc Hv.
  destruct (cell_row_fun mesh k dofs c grow0) eqn:E; auto.
  - exfalso. apply Hv. eapply row_inv; eauto.
  - exfalso. destruct k as [|[|[|[|k]]]]; [| | | |lia]; simpl in E.
    + unfold cell0D_row in E. destruct (at_ (CellsDOFs dofs 0) c) eqn:E1; simpl in E; try discriminate.
      * apply Hv. apply at_Ok in E1. apply nth_error_lt in E1. split; [discriminate|].
        intros d' c' [H|[]]. injection H as <- <-. auto.
      * now apply at_not_UB in E1.
    + unfold cell1D_row in E.
      destruct (at_ (Cell1D_vertices mesh c) 0) as [o| |] eqn:Ho; simpl in E; try discriminate; [|now apply at_not_UB in Ho].
      destruct (at_ (Cell1D_vertices mesh c) 1) as [e| |] eqn:He; simpl in E; try discriminate; [|now apply at_not_UB in He].
      destruct (at_ (CellsDOFs dofs 0) o) as [oD| |] eqn:HoD; simpl in E; try discriminate; [|now apply at_not_UB in HoD].
      destruct (at_ (CellsDOFs dofs 0) e) as [eD| |] eqn:HeD; simpl in E; try discriminate; [|now apply at_not_UB in HeD].
      destruct (at_ (CellsDOFs dofs 1) c) as [own| |] eqn:Hown; simpl in E; try discriminate; [|now apply at_not_UB in Hown].
      apply Hv.
      apply at_Ok in Ho. apply at_Ok in He. apply at_Ok in HoD. apply at_Ok in HeD. apply at_Ok in Hown.
      split.
      * intros _. apply nth_error_lt in He. lia.
      * unfold closure_entities. rewrite (firstn2 _ _ _ Ho He).
        intros d' c' Hin. simpl in Hin.
        apply nth_error_lt in HoD. apply nth_error_lt in HeD. apply nth_error_lt in Hown.
        destruct Hin as [H|[H|[H|[]]]]; injection H as <- <-; auto.
    + unfold cell2D_row in E.
      destruct (at_ (CellsDOFs dofs 2) c) as [own| |] eqn:Hown; simpl in E; try discriminate; [|now apply at_not_UB in Hown].
      destruct (size_loop dofs 0 (Cell2D_vertices mesh c) (length own)) as [n1| |] eqn:Hn1; simpl in E; try discriminate;
        [|now apply size_loop_not_UB in Hn1].
      destruct (size_loop dofs 1 (Cell2D_edges mesh c) n1) as [n2| |] eqn:Hn2; simpl in E; try discriminate;
        [|now apply size_loop_not_UB in Hn2].
      apply Hv. apply at_Ok in Hown. apply nth_error_lt in Hown.
      apply size_loop_inv in Hn1. apply size_loop_inv in Hn2.
      split; [discriminate|]. simpl. intros d' c' Hin.
      repeat (apply in_app_or in Hin; destruct Hin as [Hin|Hin]).
      * apply in_map_iff in Hin. destruct Hin as (x & H & Hx). injection H as <- <-. auto.
      * apply in_map_iff in Hin. destruct Hin as (x & H & Hx). injection H as <- <-. auto.
      * destruct Hin as [H|[]]. injection H as <- <-. auto.
    + unfold cell3D_row in E.
      destruct (at_ (CellsDOFs dofs 3) c) as [own| |] eqn:Hown; simpl in E; try discriminate; [|now apply at_not_UB in Hown].
      destruct (size_loop dofs 0 (Cell3D_vertices mesh c) (length own)) as [n1| |] eqn:Hn1; simpl in E; try discriminate;
        [|now apply size_loop_not_UB in Hn1].
      destruct (size_loop dofs 1 (Cell3D_edges mesh c) n1) as [n2| |] eqn:Hn2; simpl in E; try discriminate;
        [|now apply size_loop_not_UB in Hn2].
      destruct (size_loop dofs 2 (Cell3D_faces mesh c) n2) as [n3| |] eqn:Hn3; simpl in E; try discriminate;
        [|now apply size_loop_not_UB in Hn3].
      apply Hv. apply at_Ok in Hown. apply nth_error_lt in Hown.
      apply size_loop_inv in Hn1. apply size_loop_inv in Hn2. apply size_loop_inv in Hn3.
      split; [discriminate|]. simpl. intros d' c' Hin.
      repeat (apply in_app_or in Hin; destruct Hin as [Hin|Hin]).
      * apply in_map_iff in Hin. destruct Hin as (x & H & Hx). injection H as <- <-. auto.
      * apply in_map_iff in Hin. destruct Hin as (x & H & Hx). injection H as <- <-. auto.
      * apply in_map_iff in Hin. destruct Hin as (x & H & Hx). injection H as <- <-. auto.
      * destruct Hin as [H|[]]. injection H as <- <-. auto.
Qed.

(** ** The closure loop *)

Definition hasflags (k : nat) : bool := match k with 0 => false | _ => true end.

Record same_core (a b : DOFsData) : Prop := {
  sc_nD : NumberDOFs b = NumberDOFs a;
  sc_nI : NumberInternalDOFs b = NumberInternalDOFs a;
  sc_nB : NumberBoundaryDOFs b = NumberBoundaryDOFs a;
  sc_nS : NumberStrongs b = NumberStrongs a;
  sc_dofs : CellsDOFs b = CellsDOFs a;
  sc_cnD : CellsNumberDOFs b = CellsNumberDOFs a;
  sc_cnS : CellsNumberStrongs b = CellsNumberStrongs a;
  sc_hI : CellsHasInternalDOFs b = CellsHasInternalDOFs a;
  sc_hB : CellsHasBoundaryDOFs b = CellsHasBoundaryDOFs a
}.

Lemma same_core_trans a b c : same_core a b -> same_core b c -> same_core a c.
Proof. intros [] []. constructor; congruence. Qed.

Definition same_globals (a b : DOFsData) (d : nat) : Prop :=
  CellsGlobalDOFs b d = CellsGlobalDOFs a d /\
  CellsGlobalNumberDOFs b d = CellsGlobalNumberDOFs a d /\
  CellsGlobalNumberStrongs b d = CellsGlobalNumberStrongs a d /\
  CellsGlobalHasInternalDOFs b d = CellsGlobalHasInternalDOFs a d /\
  CellsGlobalHasBoundaryDOFs b d = CellsGlobalHasBoundaryDOFs a d.

Definition partial_map {A} (f : nat -> A) (x : A) (n i : nat) : list A :=
  map f (seq 0 i) ++ repeat x (n - i).

Lemma partial_map_0 {A} (f : nat -> A) x n : partial_map f x n 0 = repeat x n.
Proof. unfold partial_map. simpl. now rewrite Nat.sub_0_r. Qed.

Lemma partial_map_n {A} (f : nat -> A) x n : partial_map f x n n = map f (seq 0 n).
Proof. unfold partial_map. rewrite Nat.sub_diag. simpl. now rewrite app_nil_r. Qed.

Lemma partial_map_idx {A} (f : nat -> A) x n i :
  i < n -> idx_ (partial_map f x n i) i = Ok x.
Proof.
  intros H. unfold partial_map, idx_.
  rewrite nth_error_app2; rewrite map_length, seq_length; [|lia].
  rewrite Nat.sub_diag, repeat_S_sub by auto. reflexivity.
Qed.

Lemma partial_map_set {A} (f : nat -> A) x n i :
  i < n -> set_idx (partial_map f x n i) i (f i) = Ok (partial_map f x n (S i)).
Proof.
  intros H. unfold partial_map. rewrite repeat_S_sub by auto.
  rewrite set_idx_mid by now rewrite map_length, seq_length.
  now rewrite seq_S, map_app, <- app_assoc.
Qed.

(** state of the loop before iteration [i] *)
Record closed_upto (mesh : Mesh) (dofs : DOFsData) (k n i : nat) (s : DOFsData) : Prop := {
  cu_core : same_core dofs s;
  cu_other : forall d, d <> k -> same_globals dofs s d;
  cu_g : CellsGlobalDOFs s k = partial_map (fun c => gr_buf (row_spec mesh dofs k c)) [] n i;
  cu_nD : CellsGlobalNumberDOFs s k = partial_map (fun c => gr_nD (row_spec mesh dofs k c)) 0 n i;
  cu_nS : CellsGlobalNumberStrongs s k = partial_map (fun c => gr_nS (row_spec mesh dofs k c)) 0 n i;
  cu_hI : CellsGlobalHasInternalDOFs s k =
    if hasflags k then partial_map (fun c => gr_hasI (row_spec mesh dofs k c)) false n i else [];
  cu_hB : CellsGlobalHasBoundaryDOFs s k =
    if hasflags k then partial_map (fun c => gr_hasB (row_spec mesh dofs k c)) false n i else []
}.

Definition fresh_globals (dofs : DOFsData) (d : nat) : Prop :=
  CellsGlobalDOFs dofs d = [] /\ CellsGlobalNumberDOFs dofs d = [] /\
  CellsGlobalNumberStrongs dofs d = [] /\
  CellsGlobalHasInternalDOFs dofs d = [] /\ CellsGlobalHasBoundaryDOFs dofs d = [].

Lemma upd_eq {A} (f : nat -> A) d x : upd f d x d = x.
Proof. unfold upd. now rewrite Nat.eqb_refl. Qed.

Lemma upd_neq {A} (f : nat -> A) d x d' : d' <> d -> upd f d x d' = f d'.
Proof. intros H. unfold upd. destruct (Nat.eqb_spec d' d); congruence. Qed.

Lemma closed_upto_0 mesh dofs k n :
  fresh_globals dofs k -> closed_upto mesh dofs k n 0 (resize_global (hasflags k) dofs k n).
Proof.
  intros (F1 & F2 & F3 & F4 & F5). constructor.
  - constructor; reflexivity.
  - intros d Hd. unfold same_globals, resize_global; simpl.
    destruct (hasflags k); rewrite !upd_neq by auto; auto.
  - simpl. now rewrite upd_eq, F1, resize_nil, partial_map_0.
  - simpl. now rewrite upd_eq, F2, resize_nil, partial_map_0.
  - simpl. now rewrite upd_eq, F3, resize_nil, partial_map_0.
  - simpl. destruct (hasflags k); auto. now rewrite upd_eq, F4, resize_nil, partial_map_0.
  - simpl. destruct (hasflags k); auto. now rewrite upd_eq, F5, resize_nil, partial_map_0.
Qed.

Lemma same_core_coherent a b d : same_core a b -> coherent a d -> coherent b d.
Proof.
  intros [] H. unfold coherent in *.
  rewrite sc_dofs0, sc_cnD0, sc_cnS0, sc_hI0, sc_hB0. auto.
Qed.

Lemma same_core_valid mesh a b k c : same_core a b -> row_valid mesh a k c <-> row_valid mesh b k c.
Proof. intros []. unfold row_valid. now rewrite sc_dofs0. Qed.

Lemma same_core_row_spec mesh a b k c : same_core a b -> row_spec mesh b k c = row_spec mesh a k c.
Proof.
  intros []. unfold row_spec, rowlen, nD_of, nS_of, hI_of, hB_of.
  now rewrite sc_dofs0, sc_cnD0, sc_cnS0, sc_hI0, sc_hB0.
Qed.

Lemma row_spec_noflags mesh dofs k c : hasflags k = false ->
  gr_hasI (row_spec mesh dofs k c) = false /\ gr_hasB (row_spec mesh dofs k c) = false.
Proof. destruct k; simpl; auto. discriminate. Qed.

Lemma get_grow_ok mesh dofs k n i s :
  i < n -> closed_upto mesh dofs k n i s -> get_grow (hasflags k) s k i = Ok grow0.
Proof.
  intros Hi []. unfold get_grow.
  rewrite cu_g0, cu_nD0, cu_nS0, cu_hI0, cu_hB0.
  rewrite !partial_map_idx by auto. simpl bind.
  destruct (hasflags k).
  - rewrite !partial_map_idx by auto. reflexivity.
  - reflexivity.
Qed.

Lemma put_grow_ok mesh dofs k n i s :
  i < n -> closed_upto mesh dofs k n i s ->
  exists s', put_grow (hasflags k) s k i (row_spec mesh dofs k i) = Ok s' /\
    closed_upto mesh dofs k n (S i) s'.
Proof.
  intros Hi H. pose proof H as []. unfold put_grow.
  rewrite cu_g0, cu_nD0, cu_nS0, cu_hI0, cu_hB0.
  rewrite !(partial_map_set (fun c => gr_buf (row_spec mesh dofs k c))),
          !(partial_map_set (fun c => gr_nD (row_spec mesh dofs k c))),
          !(partial_map_set (fun c => gr_nS (row_spec mesh dofs k c))) by auto.
  simpl bind. destruct (hasflags k) eqn:Hk.
  - rewrite !(partial_map_set (fun c => gr_hasI (row_spec mesh dofs k c))),
          !(partial_map_set (fun c => gr_hasB (row_spec mesh dofs k c))) by auto.
    simpl bind. eexists. split; [reflexivity|].
    constructor; simpl; rewrite ?upd_eq, ?Hk; auto.
    + destruct cu_core0. constructor; auto.
    + intros d Hd. specialize (cu_other0 d Hd). unfold same_globals in *; simpl.
      now rewrite !upd_neq by auto.
  - simpl bind. eexists. split; [reflexivity|].
    constructor; simpl; rewrite ?upd_eq, ?Hk; auto.
    + destruct cu_core0. constructor; auto.
    + intros d Hd. specialize (cu_other0 d Hd). unfold same_globals in *; simpl.
      now rewrite !upd_neq by auto.
Qed.

Lemma closure_iter_ok mesh dofs k n i s :
  k <= 3 -> (forall d, d <= k -> coherent dofs d) -> i < n -> row_valid mesh dofs k i ->
  closed_upto mesh dofs k n i s ->
  exists s', (r <- get_grow (hasflags k) s k i ;;
     r' <- cell_row_fun mesh k s i r ;; put_grow (hasflags k) s k i r') = Ok s' /\
    closed_upto mesh dofs k n (S i) s'.
Proof.
  intros Hk Hc Hi Hv H. rewrite (get_grow_ok _ _ _ _ _ _ Hi H). simpl bind.
  pose proof (cu_core _ _ _ _ _ _ H) as Hcore.
  rewrite row_ok; auto.
  - simpl bind. rewrite (same_core_row_spec _ _ _ _ _ Hcore). now apply put_grow_ok.
  - intros d Hd. eapply same_core_coherent; eauto.
  - now apply (same_core_valid _ _ _ _ _ Hcore).
Qed.

Lemma closure_loop_ok mesh dofs k n :
  k <= 3 -> (forall d, d <= k -> coherent dofs d) -> fresh_globals dofs k ->
  (forall c, c < n -> row_valid mesh dofs k c) ->
  exists s, closure_loop (hasflags k) k n (cell_row_fun mesh k) dofs = Ok s /\
    closed_upto mesh dofs k n n s.
Proof.
  intros Hk Hc Hf Hv. unfold closure_loop.
  apply (for_loop_total (closed_upto mesh dofs k n)).
  - now apply closed_upto_0.
  - intros i s Hi Hs. apply closure_iter_ok; auto.
Qed.

Lemma closure_loop_throw mesh dofs k n c :
  k <= 3 -> (forall d, d <= k -> coherent dofs d) -> fresh_globals dofs k ->
  c < n -> ~ row_valid mesh dofs k c -> (forall i, i < c -> row_valid mesh dofs k i) ->
  closure_loop (hasflags k) k n (cell_row_fun mesh k) dofs = Throw.
Proof.
  intros Hk Hc Hf Hcn Hnv Hv. unfold closure_loop.
  apply (@for_loop_throw _ (closed_upto mesh dofs k n) _ _ c); auto.
  - now apply closed_upto_0.
  - intros i s Hi Hs. apply closure_iter_ok; auto. lia.
  - intros s Hs. rewrite (get_grow_ok _ _ _ _ _ _ Hcn Hs). simpl bind.
    pose proof (cu_core _ _ _ _ _ _ Hs) as Hcore.
    rewrite row_throw; auto.
    + intros d Hd. eapply same_core_coherent; eauto.
    + intros H. apply Hnv. now apply (same_core_valid _ _ _ _ _ Hcore).
Qed.

(** ** All dimensions below [K] done *)

Definition below (f : BoundaryTypes -> nat -> nat) (info : MeshDOFsInfo) (K : nat) : nat :=
  list_sum (map (fun d => tot f (cells_of info d)) (seq 0 K)).

Lemma below_S f info K : below f info (S K) = below f info K + tot f (cells_of info K).
Proof.
  unfold below. rewrite seq_S, map_app, list_sum_app. simpl. lia.
Qed.

Record core_done (info : MeshDOFsInfo) (data : DOFsData) (d : nat) : Prop := {
  cd_dofs : CellsDOFs data d = scan (cells_of info d) (below freeN info d) (below strongN info d);
  cd_nD : CellsNumberDOFs data d = map (fun x => freeN (snd x) (fst x)) (cells_of info d);
  cd_nS : CellsNumberStrongs data d = map (fun x => strongN (snd x) (fst x)) (cells_of info d);
  cd_hI : CellsHasInternalDOFs data d = map (fun x => isI (snd x)) (cells_of info d);
  cd_hB : CellsHasBoundaryDOFs data d = map (fun x => isB (snd x)) (cells_of info d)
}.

(** the rows in terms of the inputs *)
Definition type_of (info : MeshDOFsInfo) (d c : nat) : BoundaryTypes :=
  match boundary_type info d c with Some t => t | None => BUnknown end.

Definition irow (info : MeshDOFsInfo) (mesh : Mesh) (d c : nat) : grow :=
  let E := closure_entities mesh d c in
  let F := flag_entities mesh d c in
  {| gr_buf := closure_dofs info mesh d c;
     gr_nD := list_sum (map (fun e => freeN (type_of info (fst e) (snd e)) (requested info (fst e) (snd e))) E);
     gr_nS := list_sum (map (fun e => strongN (type_of info (fst e) (snd e)) (requested info (fst e) (snd e))) E);
     gr_hasI := existsb (fun e => isI (type_of info (fst e) (snd e))) F;
     gr_hasB := existsb (fun e => isB (type_of info (fst e) (snd e))) F |}.

Record glob_done (info : MeshDOFsInfo) (mesh : Mesh) (data : DOFsData) (d : nat) : Prop := {
  gd_g : CellsGlobalDOFs data d = map (fun c => gr_buf (irow info mesh d c)) (seq 0 (num_cells info d));
  gd_nD : CellsGlobalNumberDOFs data d = map (fun c => gr_nD (irow info mesh d c)) (seq 0 (num_cells info d));
  gd_nS : CellsGlobalNumberStrongs data d = map (fun c => gr_nS (irow info mesh d c)) (seq 0 (num_cells info d));
  gd_hI : CellsGlobalHasInternalDOFs data d =
    if hasflags d then map (fun c => gr_hasI (irow info mesh d c)) (seq 0 (num_cells info d)) else [];
  gd_hB : CellsGlobalHasBoundaryDOFs data d =
    if hasflags d then map (fun c => gr_hasB (irow info mesh d c)) (seq 0 (num_cells info d)) else []
}.

Record stage (info : MeshDOFsInfo) (mesh : Mesh) (K : nat) (data : DOFsData) : Prop := {
  st_nD : NumberDOFs data = below freeN info K;
  st_nI : NumberInternalDOFs data = below internalN info K;
  st_nB : NumberBoundaryDOFs data = below bndN info K;
  st_nS : NumberStrongs data = below strongN info K;
  st_core : forall d, d < K -> core_done info data d;
  st_glob : forall d, d < K -> glob_done info mesh data d;
  st_types : forall d, d < K -> wf_types info d;
  st_fresh : forall d, K <= d -> fresh_dim data d
}.

Lemma stage_0 info mesh : stage info mesh 0 empty_dofs.
Proof.
  constructor; simpl; auto; try lia.
  intros d _. unfold fresh_dim; simpl. repeat split; reflexivity.
Qed.

Definition create_dim (info : MeshDOFsInfo) (mesh : Mesh) (k : nat) (dofs : DOFsData) : outcome DOFsData :=
  dofs1 <- CreateCellDOFs info dofs k ;;
  closure_loop (hasflags k) k (length (CellsNumDOFs info k)) (cell_row_fun mesh k) dofs1.

Lemma after_cells_core info mesh dofs k :
  stage info mesh k dofs -> wf_types info k ->
  forall d, d <= k -> core_done info (after_cells info dofs k) d.
Proof.
  intros H Hw d Hd. destruct H.
  destruct (Nat.eq_dec d k) as [->|Hne].
  - constructor; simpl; rewrite ?upd_eq; auto; now rewrite st_nD0, st_nS0.
  - destruct (st_core0 d) as []; [lia|].
    constructor; simpl; rewrite ?upd_neq by auto; auto.
Qed.

Lemma core_done_coherent info data d : core_done info data d -> coherent data d.
Proof.
  intros []. unfold coherent. rewrite cd_dofs0, cd_nD0, cd_nS0, cd_hI0, cd_hB0.
  now rewrite scan_length, !map_length.
Qed.

Lemma core_done_length info data d :
  wf_types info d -> core_done info data d -> length (CellsDOFs data d) = num_cells info d.
Proof. intros Hw []. now rewrite cd_dofs0, scan_length, wf_cells_length. Qed.

Lemma requested_cells info d c n t :
  nth_error (cells_of info d) c = Some (n, t) -> n = requested info d c /\ t = type_of info d c.
Proof.
  unfold cells_of. rewrite nth_error_combine, nth_error_map.
  unfold requested, type_of, boundary_type.
  destruct (nth_error (CellsNumDOFs info d) c) as [m|] eqn:E1; [|discriminate].
  destruct (nth_error (CellsBoundaryInfo info d) c) eqn:E2; simpl; [|discriminate].
  intros H; injection H as <- <-. split; auto.
  symmetry. now apply nth_error_nth.
Qed.

Lemma scan_nth l nD nS c :
  nth_error (scan l nD nS) c =
  match nth_error l c with
  | Some (n, t) => Some (cell_row t (nD + tot freeN (firstn c l)) (nS + tot strongN (firstn c l)) n)
  | None => None
  end.
Proof.
  revert nD nS c; induction l as [|[n t] l IH]; intros nD nS c; simpl.
  - destruct c; reflexivity.
  - destruct c as [|c]; simpl.
    + unfold tot; simpl. now rewrite !Nat.add_0_r.
    + rewrite IH. destruct (nth_error l c) as [[n' t']|]; auto.
      unfold tot; simpl. now rewrite !Nat.add_assoc.
Qed.

Lemma core_row info data d c :
  wf_types info d -> core_done info data d -> c < num_cells info d ->
  rowlen data d c = requested info d c /\
  nD_of data d c = freeN (type_of info d c) (requested info d c) /\
  nS_of data d c = strongN (type_of info d c) (requested info d c) /\
  hI_of data d c = isI (type_of info d c) /\
  hB_of data d c = isB (type_of info d c).
Proof.
  intros Hw [] Hc.
  destruct (cells_of_nth info d c Hw Hc) as (n & t & E1 & E2 & E3 & E4).
  destruct (requested_cells _ _ _ _ _ E4) as (<- & <-).
  unfold rowlen, nD_of, nS_of, hI_of, hB_of.
  rewrite cd_dofs0, cd_nD0, cd_nS0, cd_hI0, cd_hB0.
  repeat split.
  - erewrite nth_error_nth; [|rewrite scan_nth, E4; reflexivity]. apply cell_row_length.
  - erewrite nth_error_nth; [|rewrite nth_error_map, E4; reflexivity]. reflexivity.
  - erewrite nth_error_nth; [|rewrite nth_error_map, E4; reflexivity]. reflexivity.
  - erewrite nth_error_nth; [|rewrite nth_error_map, E4; reflexivity]. reflexivity.
  - erewrite nth_error_nth; [|rewrite nth_error_map, E4; reflexivity]. reflexivity.
Qed.

Lemma closure_dim mesh d c d' c' : In (d', c') (closure_entities mesh d c) -> d' <= d.
Proof.
  destruct d as [|[|[|[|d]]]]; simpl; intros H.
  - destruct H as [E|[]]. injection E as <- <-. auto.
  - apply in_app_or in H. destruct H as [H|[E|[]]].
    + apply in_map_iff in H. destruct H as (x & E & _). injection E as <- <-. lia.
    + injection E as <- <-. lia.
  - repeat (apply in_app_or in H; destruct H as [H|H]);
      try (apply in_map_iff in H; destruct H as (x & E & _); injection E as <- <-; lia).
    destruct H as [E|[]]. injection E as <- <-. lia.
  - repeat (apply in_app_or in H; destruct H as [H|H]);
      try (apply in_map_iff in H; destruct H as (x & E & _); injection E as <- <-; lia).
    destruct H as [E|[]]. injection E as <- <-. lia.
  - destruct H.
Qed.

Lemma flag_incl mesh d c e : In e (flag_entities mesh d c) -> In e (closure_entities mesh d c).
Proof.
  destruct d as [|[|[|[|d]]]]; simpl; intros H; try tauto; rewrite !in_app_iff; tauto.
Qed.

Lemma flat_map_ext_in {A B} (f g : A -> list B) l :
  (forall x, In x l -> f x = g x) -> flat_map f l = flat_map g l.
Proof.
  induction l; simpl; intros H; auto. rewrite H by now left. f_equal. apply IHl. auto.
Qed.

Lemma existsb_ext_in {A} (f g : A -> bool) l :
  (forall x, In x l -> f x = g x) -> existsb f l = existsb g l.
Proof.
  induction l; simpl; intros H; auto. rewrite H by now left. f_equal. apply IHl. auto.
Qed.

Definition conn_ok (info : MeshDOFsInfo) (mesh : Mesh) (d c : nat) : Prop :=
  (d = 1 -> 2 <= length (Cell1D_vertices mesh c)) /\
  (forall d' c', In (d', c') (closure_entities mesh d c) -> c' < num_cells info d').

Lemma row_valid_conn info mesh data k c :
  (forall d, d <= k -> wf_types info d) -> (forall d, d <= k -> core_done info data d) ->
  row_valid mesh data k c <-> conn_ok info mesh k c.
Proof.
  intros Hw Hc. unfold row_valid, conn_ok. split; intros (H1 & H2); split; auto; intros d' c' Hin.
  - pose proof (closure_dim _ _ _ _ _ Hin). rewrite <- (core_done_length info data) by auto. auto.
  - pose proof (closure_dim _ _ _ _ _ Hin). rewrite (core_done_length info data) by auto. auto.
Qed.

Lemma row_spec_irow info mesh data k c :
  (forall d, d <= k -> wf_types info d) -> (forall d, d <= k -> core_done info data d) ->
  conn_ok info mesh k c ->
  row_spec mesh data k c = irow info mesh k c.
Proof.
  intros Hw Hc (_ & Hv).
  assert (R : forall e, In e (closure_entities mesh k c) ->
    rowlen data (fst e) (snd e) = requested info (fst e) (snd e) /\
    nD_of data (fst e) (snd e) = freeN (type_of info (fst e) (snd e)) (requested info (fst e) (snd e)) /\
    nS_of data (fst e) (snd e) = strongN (type_of info (fst e) (snd e)) (requested info (fst e) (snd e)) /\
    hI_of data (fst e) (snd e) = isI (type_of info (fst e) (snd e)) /\
    hB_of data (fst e) (snd e) = isB (type_of info (fst e) (snd e))).
  { intros [d' c'] Hin. simpl. pose proof (closure_dim _ _ _ _ _ Hin). apply core_row; auto. }
  unfold row_spec, irow, closure_dofs. f_equal.
  - apply flat_map_ext_in. intros e He. unfold entries. destruct (R e He) as (-> & _). reflexivity.
  - f_equal. apply map_ext_in. intros e He. apply (R e He).
  - f_equal. apply map_ext_in. intros e He. apply (R e He).
  - apply existsb_ext_in. intros e He. apply (R e). now apply flag_incl.
  - apply existsb_ext_in. intros e He. apply (R e). now apply flag_incl.
Qed.

Lemma map_seq_ext {A} (f g : nat -> A) n :
  (forall i, i < n -> f i = g i) -> map f (seq 0 n) = map g (seq 0 n).
Proof. intros H. apply map_ext_in. intros i Hi. apply in_seq in Hi. apply H. lia. Qed.

Lemma create_dim_ok info mesh k dofs :
  k <= 3 -> stage info mesh k dofs -> wf_types info k ->
  (forall c, c < num_cells info k -> conn_ok info mesh k c) ->
  exists data, create_dim info mesh k dofs = Ok data /\ stage info mesh (S k) data.
Proof.
  intros Hk Hst Hw Hconn. unfold create_dim.
  rewrite CreateCellDOFs_ok; auto; [|apply (st_fresh _ _ _ _ Hst); auto].
  simpl bind. fold (num_cells info k).
  pose proof (after_cells_core _ _ _ _ Hst Hw) as Hcore.
  assert (Hws : forall d, d <= k -> wf_types info d).
  { intros d Hd. destruct (Nat.eq_dec d k) as [->|]; auto. apply (st_types _ _ _ _ Hst). lia. }
  destruct (closure_loop_ok mesh (after_cells info dofs k) k (num_cells info k)) as (s & E & Hs); auto.
  - intros d Hd. eapply core_done_coherent; eauto.
  - destruct (st_fresh _ _ _ _ Hst k) as (_ & _ & _ & _ & _ & F); auto.
  - intros c Hc. apply (row_valid_conn info); auto.
  - exists s. split; auto. destruct Hs. rewrite ?partial_map_n in *.
    destruct Hst. pose proof cu_core0 as []. constructor.
    + rewrite sc_nD0. simpl. now rewrite st_nD0, below_S.
    + rewrite sc_nI0. simpl. now rewrite st_nI0, below_S.
    + rewrite sc_nB0. simpl. now rewrite st_nB0, below_S.
    + rewrite sc_nS0. simpl. now rewrite st_nS0, below_S.
    + intros d Hd. destruct (Hcore d) as []; [lia|].
      constructor; congruence.
    + intros d Hd. destruct (Nat.eq_dec d k) as [->|Hne].
      * constructor.
        -- rewrite cu_g0. apply map_seq_ext. intros i Hi. now rewrite (row_spec_irow info) by auto.
        -- rewrite cu_nD0. apply map_seq_ext. intros i Hi. now rewrite (row_spec_irow info) by auto.
        -- rewrite cu_nS0. apply map_seq_ext. intros i Hi. now rewrite (row_spec_irow info) by auto.
        -- rewrite cu_hI0. destruct (hasflags k); auto. apply map_seq_ext. intros i Hi. now rewrite (row_spec_irow info) by auto.
        -- rewrite cu_hB0. destruct (hasflags k); auto. apply map_seq_ext. intros i Hi. now rewrite (row_spec_irow info) by auto.
      * destruct (cu_other0 d Hne) as (G1 & G2 & G3 & G4 & G5).
        destruct (st_glob0 d) as []; [lia|].
        constructor; rewrite ?G1, ?G2, ?G3, ?G4, ?G5; simpl; auto.
    + intros d Hd. apply Hws. lia.
    + intros d Hd. assert (Hne : d <> k) by lia.
      destruct (cu_other0 d Hne) as (G1 & G2 & G3 & G4 & G5).
      destruct (st_fresh0 d) as (F1 & F2 & F3 & F4 & F5 & F6 & F7 & F8 & F9 & F10); [lia|].
      unfold fresh_dim. rewrite sc_dofs0, sc_cnD0, sc_cnS0, sc_hI0, sc_hB0, G1, G2, G3, G4, G5.
      simpl. rewrite !upd_neq by auto. repeat split; auto.
Qed.

Lemma create_dim_cases info mesh k dofs :
  k <= 3 -> stage info mesh k dofs ->
  (wf_types info k /\ forall c, c < num_cells info k -> conn_ok info mesh k c) \/
  create_dim info mesh k dofs = Throw.
Proof.
  intros Hk Hst. unfold create_dim.
  destruct (CreateCellDOFs info dofs k) as [d1| |] eqn:E.
  - pose proof (CreateCellDOFs_wf _ _ _ _ E) as Hw.
    rewrite CreateCellDOFs_ok in E; auto; [|apply (st_fresh _ _ _ _ Hst); auto].
    injection E as <-.
    pose proof (after_cells_core _ _ _ _ Hst Hw) as Hcore.
    assert (Hws : forall d, d <= k -> wf_types info d).
    { intros d Hd. destruct (Nat.eq_dec d k) as [->|]; auto. apply (st_types _ _ _ _ Hst). lia. }
    destruct (bounded_dec _ (row_valid_dec mesh (after_cells info dofs k) k) (num_cells info k))
      as [Hv|(c & Hc & Hn & Hb)].
    + left. split; auto. intros c Hc. apply (row_valid_conn info mesh (after_cells info dofs k)); auto.
    + right. simpl bind. eapply closure_loop_throw; eauto.
      * intros d Hd. eapply core_done_coherent; eauto.
      * destruct (st_fresh _ _ _ _ Hst k) as (_ & _ & _ & _ & _ & F); auto.
  - right. reflexivity.
  - exfalso. now apply CreateCellDOFs_not_UB in E.
Qed.

Fixpoint create_upto (info : MeshDOFsInfo) (mesh : Mesh) (K : nat) : outcome DOFsData :=
  match K with
  | 0 => Ok empty_dofs
  | S k => dofs <- create_upto info mesh k ;; create_dim info mesh k dofs
  end.

Lemma CreateDOFs_upto k info mesh : k <= 3 -> CreateDOFs k info mesh = create_upto info mesh (S k).
Proof.
  intros Hk. destruct k as [|[|[|[|k]]]]; [| | | |lia]; simpl.
  - reflexivity.
  - reflexivity.
  - unfold CreateDOFs_2D.
    change (CreateCell0DDOFs info empty_dofs) with (create_dim info mesh 0 empty_dofs).
    destruct (create_dim info mesh 0 empty_dofs); reflexivity.
  - unfold CreateDOFs_3D.
    change (CreateCell0DDOFs info empty_dofs) with (create_dim info mesh 0 empty_dofs).
    destruct (create_dim info mesh 0 empty_dofs) as [d| |]; try reflexivity. simpl.
    change (CreateCell1DDOFs info mesh d) with (create_dim info mesh 1 d).
    destruct (create_dim info mesh 1 d); reflexivity.
Qed.

Definition wf_upto (K : nat) (info : MeshDOFsInfo) (mesh : Mesh) : Prop :=
  forall d, d < K -> wf_types info d /\ forall c, c < num_cells info d -> conn_ok info mesh d c.

Lemma wf_upto_iff k info mesh : wf_upto (S k) info mesh <-> well_formed k info mesh.
Proof.
  unfold wf_upto, well_formed, wf_types, conn_ok. split; intros H.
  - intros d c Hd Hc. destruct (H d) as (H1 & H2); [lia|]. split; auto.
  - intros d Hd. split; intros c Hc; destruct (H d c) as (H1 & H2); auto; lia.
Qed.

Lemma create_upto_ok info mesh K :
  K <= 4 -> wf_upto K info mesh ->
  exists data, create_upto info mesh K = Ok data /\ stage info mesh K data.
Proof.
  induction K as [|K IH]; intros HK Hw; simpl.
  - exists empty_dofs. split; auto. apply stage_0.
  - destruct IH as (data & E & Hst); [lia|intros d Hd; apply Hw; lia|].
    rewrite E. simpl bind. destruct (Hw K) as (H1 & H2); [lia|].
    apply create_dim_ok; auto. lia.
Qed.

Lemma create_upto_cases info mesh K :
  K <= 4 -> wf_upto K info mesh \/ create_upto info mesh K = Throw.
Proof.
  induction K as [|K IH]; intros HK; simpl.
  - left. intros d Hd. lia.
  - destruct IH as [Hw|E]; [lia| |right; now rewrite E].
    destruct (create_upto_ok info mesh K) as (data & E & Hst); [lia|auto|].
    rewrite E. simpl bind.
    destruct (create_dim_cases info mesh K data) as [[H1 H2]|Ht]; auto; [lia|].
    left. intros d Hd. destruct (Nat.eq_dec d K) as [->|]; auto. apply Hw. lia.
Qed.

Lemma CreateDOFs_stage k info mesh data :
  k <= 3 -> CreateDOFs k info mesh = Ok data ->
  well_formed k info mesh /\ stage info mesh (S k) data.
Proof.
  intros Hk E. rewrite CreateDOFs_upto in E by auto.
  destruct (create_upto_cases info mesh (S k)) as [Hw|Et]; [lia| |congruence].
  split; [now apply wf_upto_iff|].
  destruct (create_upto_ok info mesh (S k)) as (data' & E' & Hst); [lia|auto|].
  congruence.
Qed.
