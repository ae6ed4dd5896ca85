(** Proofs about AssemblerModel.v: local restriction, assembly (C14-C18) *)
From Coq Require Import List Arith Bool Lia Reals Lra Permutation.
From Verif Require Import Base RSum MatrixModel DofsModel DofsSpec DofsProofs DofsProofs2 AssemblerModel AssemblerSpec AssemblerProofs.
Import ListNotations.
Local Open Scope nat_scope.

Arguments pk_created {_ _ _ _ _} _.
Arguments pk_count {_ _ _ _ _} _.
Arguments pk_local {_ _ _ _ _} _.
Arguments pk_lo {_ _ _ _ _} _.
Arguments pk_gD {_ _ _ _ _} _.
Arguments pk_gS {_ _ _ _ _} _.

(** ** Slots *)

Definition slots_upto dim cell (dd : list DOFsData) (h : nat) : list (nat * nat) :=
  flat_map (fun h => match nth_error dd h with
                     | Some data => map (pair h) (seq 0 (local_size dim cell data))
                     | None => [] end) (seq 0 h).

Lemma slots_all dim cell dd : slots dim cell dd = slots_upto dim cell dd (length dd).
Proof. reflexivity. Qed.

Lemma slots_S dim cell dd h data : nth_error dd h = Some data ->
  slots_upto dim cell dd (S h) = slots_upto dim cell dd h ++ map (pair h) (seq 0 (local_size dim cell data)).
Proof.
  intros E. unfold slots_upto. rewrite seq_S, flat_map_app'. simpl. now rewrite E, app_nil_r.
Qed.

Lemma slots_length dim cell dd h : h <= length dd ->
  length (slots_upto dim cell dd h) = pre (local_size dim cell) dd h.
Proof.
  induction h; intros H; [reflexivity|].
  destruct (nth_error_Some_ex dd (i := h)) as (data & E); [lia|].
  rewrite (slots_S _ _ _ _ _ E), (pre_S _ _ _ _ E), app_length, map_length, seq_length, IHh by lia. reflexivity.
Qed.

Lemma in_slots dim cell dd h i :
  In (h, i) (slots dim cell dd) <-> exists data, nth_error dd h = Some data /\ i < local_size dim cell data.
Proof.
  unfold slots. rewrite in_flat_map. split.
  - intros (h' & Hh & Hin). destruct (nth_error dd h') as [data|] eqn:E; [|destruct Hin].
    apply in_map_iff in Hin. destruct Hin as (i' & Heq & Hi). injection Heq as -> ->. apply in_seq in Hi.
    exists data. split; auto. lia.
  - intros (data & E & Hi). exists h. split.
    + apply in_seq. apply nth_error_lt in E. lia.
    + rewrite E. apply in_map, in_seq. lia.
Qed.

(** positions of the slots of packed data tile the local vector *)
Lemma slots_positions dim cell lg cd lc : packed dim cell lg cd lc ->
  map (slot_pos lg) (slots dim cell (dofs_data lg)) = seq 0 (l_num_total_dofs lc).
Proof.
  intros P. destruct (local_count_inv_ok _ _ _ _ (pk_local P)) as (_ & _ & ->).
  set (dd := dofs_data lg) in *. simpl.
  rewrite <- (blocks_tile (local_size dim cell) dd (length dd)) by auto.
  unfold slots. rewrite map_flat_map. apply flat_map_ext_in. intros h Hh. apply in_seq in Hh.
  destruct (nth_error_Some_ex dd (i := h)) as (data & E); [lia|]. rewrite E.
  rewrite map_map. replace (nth h (map (local_size dim cell) dd) 0) with (local_size dim cell data).
  - apply map_ext. intros i. unfold slot_pos. simpl. rewrite (pk_lo P). simpl.
    rewrite partial_map_full_nth by lia. lia.
  - symmetry. apply nth_error_nth. now rewrite nth_error_map, E.
Qed.

Record slot_facts (dim cell : nat) (lg : local_matrix_to_global_matrix_dofs_data)
  (cd : count_dofs_data) (lc : local_count_dofs_data) (p : nat * nat) (data : DOFsData)
  (gl : list GlobalCell_DOF) (g : GlobalCell_DOF) (x : DOF) : Prop := {
  sf_data : nth_error (dofs_data lg) (fst p) = Some data;
  sf_gl : nth_error (CellsGlobalDOFs data dim) cell = Some gl;
  sf_g : nth_error gl (snd p) = Some g;
  sf_x : lookup data g = Some x;
  sf_dof : slot_dof dim cell (dofs_data lg) p = Some x;
  sf_lo : nth_error (local_offsets lg) (fst p) = Some (nth (fst p) (local_offsets lg) 0);
  sf_gD : nth_error (global_offsets_DOFs lg) (fst p) = Some (nth (fst p) (global_offsets_DOFs lg) 0);
  sf_gS : nth_error (global_offsets_Strongs lg) (fst p) = Some (nth (fst p) (global_offsets_Strongs lg) 0);
  sf_pos : slot_pos lg p < l_num_total_dofs lc;
  sf_num : dof_type x = TDOF /\ dof_index x + nth (fst p) (global_offsets_DOFs lg) 0 < num_total_dofs cd \/
           dof_type x = TStrong /\ dof_index x + nth (fst p) (global_offsets_Strongs lg) 0 < num_total_strong cd
}.

Arguments sf_data {_ _ _ _ _ _ _ _ _ _} _.
Arguments sf_gl {_ _ _ _ _ _ _ _ _ _} _.
Arguments sf_g {_ _ _ _ _ _ _ _ _ _} _.
Arguments sf_x {_ _ _ _ _ _ _ _ _ _} _.
Arguments sf_dof {_ _ _ _ _ _ _ _ _ _} _.
Arguments sf_lo {_ _ _ _ _ _ _ _ _ _} _.
Arguments sf_gD {_ _ _ _ _ _ _ _ _ _} _.
Arguments sf_gS {_ _ _ _ _ _ _ _ _ _} _.
Arguments sf_pos {_ _ _ _ _ _ _ _ _ _} _.
Arguments sf_num {_ _ _ _ _ _ _ _ _ _} _.

Lemma slot_ok dim cell lg cd lc p : packed dim cell lg cd lc ->
  In p (slots dim cell (dofs_data lg)) ->
  exists data gl g x, slot_facts dim cell lg cd lc p data gl g x.
Proof.
  intros P Hin.
  pose proof (slots_positions _ _ _ _ _ P) as Hpos.
  destruct (local_count_inv_ok _ _ _ _ (pk_local P)) as (Hne & Hall & Elc).
  pose proof (count_inv_ok _ _ (pk_count P)) as Ecd.
  assert (Hp : slot_pos lg p < l_num_total_dofs lc).
  { assert (Hm : In (slot_pos lg p) (seq 0 (l_num_total_dofs lc))) by (rewrite <- Hpos; now apply in_map).
    apply in_seq in Hm. lia. }
  destruct p as (h, i). apply in_slots in Hin. destruct Hin as (data & Ed & Hi).
  assert (Hc : cell_exists dim cell data).
  { rewrite Forall_forall in Hall. apply Hall. eapply nth_error_In; eauto. }
  destruct (at_closure _ _ _ Hc) as (gl & _ & Egl & Lgl).
  destruct (nth_error_Some_ex gl (i := i)) as (g & Eg); [lia|].
  assert (Hcr : created dim data).
  { pose proof (pk_created P) as Hall'. rewrite Forall_forall in Hall'. apply Hall'. eapply nth_error_In; eauto. }
  destruct (created_slot _ _ _ _ _ _ Hcr Egl Eg) as (x & Ex & Hx).
  assert (Hh : h < length (dofs_data lg)) by (eapply nth_error_lt; eauto).
  assert (L : forall (f : nat -> nat), nth_error (partial_map f 0 (length (dofs_data lg)) (length (dofs_data lg))) h
     = Some (nth h (partial_map f 0 (length (dofs_data lg)) (length (dofs_data lg))) 0)).
  { intros f. rewrite partial_map_full_nth by auto. now apply nth_error_partial_map_lt. }
  exists data, gl, g, x. constructor; simpl; auto.
  - unfold slot_dof. simpl. now rewrite Ed, Egl, Eg.
  - rewrite (pk_lo P), Elc. simpl. apply L.
  - rewrite (pk_gD P), Ecd. simpl. apply L.
  - rewrite (pk_gS P), Ecd. simpl. apply L.
  - assert (B : forall f : DOFsData -> nat, pre f (dofs_data lg) h + f data <= pre f (dofs_data lg) (length (dofs_data lg))).
    { intros f. rewrite <- (pre_S f _ _ _ Ed). apply pre_le. lia. }
    rewrite (pk_gD P), (pk_gS P), Ecd. simpl. rewrite !partial_map_full_nth by auto.
    pose proof (B NumberDOFs). pose proof (B NumberStrongs).
    destruct Hx as [(T & Hlt)|(T & Hlt)]; [left|right]; split; auto; lia.
Qed.

(** ** C14: restriction of a global solution to a cell *)

Lemma resolve_ok data g x : lookup data g = Some x -> resolve data g = Ok x.
Proof. apply resolve_lookup. Qed.

Definition slot_value dim cell lg (uD uS : list R) (p : nat * nat) : R :=
  match free_number dim cell lg p with
  | Some r => nth r uD 0%R
  | None => match strong_number dim cell lg p with Some r => nth r uS 0%R | None => 0%R end
  end.

Lemma slot_value_free dim cell lg cd lc p data gl g x uD uS :
  slot_facts dim cell lg cd lc p data gl g x -> length uD = num_total_dofs cd ->
  dof_type x = TDOF ->
  idx_ uD (dof_index x + nth (fst p) (global_offsets_DOFs lg) 0) = Ok (slot_value dim cell lg uD uS p).
Proof.
  intros F HD T. unfold slot_value, free_number. rewrite (sf_dof F), T.
  apply idx_Ok. apply nth_error_nth'. destruct (sf_num F) as [(_ & H)|(T' & _)]; [lia|congruence].
Qed.

Lemma slot_value_strong dim cell lg cd lc p data gl g x uD uS :
  slot_facts dim cell lg cd lc p data gl g x -> length uS = num_total_strong cd ->
  dof_type x = TStrong ->
  idx_ uS (dof_index x + nth (fst p) (global_offsets_Strongs lg) 0) = Ok (slot_value dim cell lg uD uS p).
Proof.
  intros F HD T. unfold slot_value, free_number, strong_number. rewrite (sf_dof F), T.
  apply idx_Ok. apply nth_error_nth'. destruct (sf_num F) as [(T' & _)|(_ & H)]; [congruence|lia].
Qed.

Lemma map_pair_snoc h i : map (pair h) (seq 0 (S i)) = map (pair h) (seq 0 i) ++ [(h, i) : nat * nat].
Proof. now rewrite seq_S, map_app. Qed.

Lemma restrict_ok dim cell lg cd lc uD uS : packed dim cell lg cd lc ->
  length uD = num_total_dofs cd -> length uS = num_total_strong cd ->
  global_solution_to_local_solution dim cell (dofs_data lg) (l_num_total_dofs lc) (local_offsets lg)
    (global_offsets_DOFs lg) (global_offsets_Strongs lg) uD uS =
  Ok (map (slot_value dim cell lg uD uS) (slots dim cell (dofs_data lg))).
Proof.
  intros P HD HS. unfold global_solution_to_local_solution.
  destruct (local_count_inv_ok _ _ _ _ (pk_local P)) as (Hne & Hall & Elc).
  set (dd := dofs_data lg) in *. set (val := slot_value dim cell lg uD uS).
  set (n := l_num_total_dofs lc).
  assert (Hn : n = pre (local_size dim cell) dd (length dd)) by (unfold n; now rewrite Elc).
  match goal with |- for_loop _ ?f ?s = _ =>
    destruct (@for_loop_total _ (fun h loc => loc = map val (slots_upto dim cell dd h) ++
       repeat 0%R (n - pre (local_size dim cell) dd h)) f (length dd) s) as (s' & E & Hs) end.
  - unfold pre. simpl. now rewrite Nat.sub_0_r.
  - intros h loc Hh ->.
    destruct (nth_error_Some_ex dd (i := h)) as (data & Ed); [lia|].
    assert (Hc : cell_exists dim cell data).
    { rewrite Forall_forall in Hall. apply Hall. eapply nth_error_In; eauto. }
    destruct (at_closure _ _ _ Hc) as (gl & Agl & Egl & Lgl).
    rewrite (idx_some _ _ _ Ed). cbn [bind]. rewrite Agl. cbn [bind].
    match goal with |- exists s', for_loop _ ?f ?s = _ /\ _ =>
      destruct (@for_loop_total _ (fun i loc => loc = map val (slots_upto dim cell dd h ++ map (pair h) (seq 0 i)) ++
         repeat 0%R (n - (pre (local_size dim cell) dd h + i))) f (length gl) s) as (s'' & E2 & Hs2) end.
    + simpl. now rewrite app_nil_r, Nat.add_0_r.
    + intros i loc Hi ->.
      destruct (slot_ok _ _ _ _ _ (h, i) P) as (data' & gl' & g & x & F).
      { apply in_slots. exists data. split; auto. lia. }
      pose proof (sf_data F) as E1. pose proof (sf_gl F) as E3. pose proof (sf_g F) as Fg.
      pose proof (sf_gD F) as FgD. pose proof (sf_gS F) as FgS. pose proof (sf_lo F) as Flo. simpl in E1, E3, Fg, FgD, FgS, Flo.
      fold dd in E1. rewrite Ed in E1. injection E1 as <-. rewrite Egl in E3. injection E3 as <-.
      rewrite (proj2 (at_Ok _ _ _) Fg). cbn [bind].
      rewrite (resolve_ok _ _ _ (sf_x F)). cbn [bind].
      assert (Hset : forall v, v = val (h, i) ->
        set_idx (map val (slots_upto dim cell dd h ++ map (pair h) (seq 0 i)) ++
                 repeat 0%R (n - (pre (local_size dim cell) dd h + i))) (i + nth h (local_offsets lg) 0) v
        = Ok (map val (slots_upto dim cell dd h ++ map (pair h) (seq 0 (S i))) ++
                 repeat 0%R (n - (pre (local_size dim cell) dd h + S i)))).
      { intros v ->. rewrite map_pair_snoc, app_assoc, map_app. simpl map.
        replace (i + nth h (local_offsets lg) 0) with (pre (local_size dim cell) dd h + i).
        - assert (Hlt : pre (local_size dim cell) dd h + i < n).
          { rewrite Hn. pose proof (pre_S (local_size dim cell) dd _ _ Ed).
            pose proof (pre_le (local_size dim cell) dd (S h) (length dd)). lia. }
          replace (n - (pre (local_size dim cell) dd h + i)) with (S (n - (pre (local_size dim cell) dd h + S i))) by lia.
          simpl repeat. rewrite set_idx_mid.
          + rewrite !map_app, <- !app_assoc. reflexivity.
          + rewrite app_length, !map_length, seq_length, slots_length by lia. reflexivity.
        - rewrite (pk_lo P), Elc. simpl. fold dd. rewrite partial_map_full_nth by lia. lia. }
      eexists. split; [|reflexivity].
      destruct (sf_num F) as [(T & _)|(T & _)]; rewrite T.
      * rewrite (idx_some _ _ _ FgD). cbn [bind].
        pose proof (slot_value_free _ _ _ _ _ _ _ _ _ _ uD uS F HD T) as V. simpl in V. rewrite V. cbn [bind].
        rewrite (idx_some _ _ _ Flo). cbn [bind]. now apply Hset.
      * rewrite (idx_some _ _ _ FgS). cbn [bind].
        pose proof (slot_value_strong _ _ _ _ _ _ _ _ _ _ uD uS F HS T) as V. simpl in V. rewrite V. cbn [bind].
        rewrite (idx_some _ _ _ Flo). cbn [bind]. now apply Hset.
    + exists s''. split; auto. rewrite Hs2, Lgl, (slots_S _ _ _ _ _ Ed), (pre_S _ _ _ _ Ed). reflexivity.
  - rewrite E, Hs. rewrite <- Hn, Nat.sub_diag. simpl. now rewrite app_nil_r.
Qed.

Lemma nth_error_map_pos {A} (f : nat * nat -> A) pos l n p :
  map pos l = seq 0 n -> In p l -> nth_error (map f l) (pos p) = Some (f p).
Proof.
  intros E Hin. apply In_nth_error in Hin. destruct Hin as (k & Hk).
  assert (Hkn : nth_error (map pos l) k = Some (pos p)) by now rewrite nth_error_map, Hk.
  rewrite E in Hkn. assert (Hlt : k < n). { apply nth_error_lt in Hkn. now rewrite seq_length in Hkn. }
  rewrite (nth_error_nth' _ 0) in Hkn by now rewrite seq_length.
  rewrite seq_nth in Hkn by auto. injection Hkn as <-. simpl. now rewrite nth_error_map, Hk.
Qed.

Lemma C14_restrict dim cell lg cd lc uD uS : packed dim cell lg cd lc ->
  length uD = num_total_dofs cd -> length uS = num_total_strong cd ->
  exists loc,
    global_solution_to_local_solution dim cell (dofs_data lg) (l_num_total_dofs lc) (local_offsets lg)
      (global_offsets_DOFs lg) (global_offsets_Strongs lg) uD uS = Ok loc /\
    length loc = l_num_total_dofs lc /\
    Permutation (map (slot_pos lg) (slots dim cell (dofs_data lg))) (seq 0 (length loc)) /\
    forall p, In p (slots dim cell (dofs_data lg)) ->
      (exists r, free_number dim cell lg p = Some r /\ r < length uD /\
                 nth_error loc (slot_pos lg p) = nth_error uD r) \/
      (exists r, strong_number dim cell lg p = Some r /\ r < length uS /\
                 nth_error loc (slot_pos lg p) = nth_error uS r).
Proof.
  intros P HD HS. pose proof (slots_positions _ _ _ _ _ P) as Hpos.
  assert (Hlen : length (slots dim cell (dofs_data lg)) = l_num_total_dofs lc).
  { rewrite <- (map_length (slot_pos lg)), Hpos. apply seq_length. }
  eexists. split; [now apply (restrict_ok _ _ _ cd lc)|].
  rewrite map_length, Hlen. split; auto. split.
  { rewrite Hpos. apply Permutation_refl. }
  intros p Hin. rewrite (nth_error_map_pos _ _ _ _ _ Hpos Hin).
  destruct (slot_ok _ _ _ _ _ _ P Hin) as (data & gl & g & x & F).
  destruct (sf_num F) as [(T & H)|(T & H)].
  - left. pose proof (slot_value_free _ _ _ _ _ _ _ _ _ _ uD uS F HD T) as V. apply idx_Ok in V.
    eexists. split; [|split; [|symmetry; exact V]].
    + unfold free_number. now rewrite (sf_dof F), T.
    + lia.
  - right. pose proof (slot_value_strong _ _ _ _ _ _ _ _ _ _ uD uS F HS T) as V. apply idx_Ok in V.
    eexists. split; [|split; [|symmetry; exact V]].
    + unfold strong_number. now rewrite (sf_dof F), T.
    + lia.
Qed.

(** ** C15: what assembly adds *)

Definition tD dim cell trial (A : Mat) gi iloc (q : nat * nat) : list triplet :=
  match free_number dim cell trial q with
  | Some s => [(gi, s, m_at A iloc (slot_pos trial q))] | None => [] end.
Definition tS dim cell trial (A : Mat) gi iloc (q : nat * nat) : list triplet :=
  match strong_number dim cell trial q with
  | Some s => [(gi, s, m_at A iloc (slot_pos trial q))] | None => [] end.

Lemma resolve_inv data g x : resolve data g = Ok x -> lookup data g = Some x.
Proof.
  unfold resolve, lookup. intros H. apply bind_Ok in H. destruct H as (row & H1 & H2).
  apply at_Ok in H1, H2. now rewrite H1.
Qed.

Lemma slot_dof_at dim cell dd h i data gl g x :
  nth_error dd h = Some data -> nth_error (CellsGlobalDOFs data dim) cell = Some gl ->
  nth_error gl i = Some g -> lookup data g = Some x -> slot_dof dim cell dd (h, i) = Some x.
Proof. intros A B C D. unfold slot_dof. simpl. now rewrite A, B, C. Qed.

Lemma local_size_at dim cell data gl :
  nth_error (CellsGlobalDOFs data dim) cell = Some gl -> local_size dim cell data = length gl.
Proof. intros E. unfold local_size. now rewrite E. Qed.

Lemma idx_nth (l : list nat) i a : idx_ l i = Ok a -> nth i l 0 = a.
Proof. intros H. apply idx_Ok in H. now apply nth_error_nth. Qed.

Lemma mat_get_ok A i j a : mat_get A i j = Ok a -> a = m_at A i j.
Proof. unfold mat_get. destruct (_ && _); congruence. Qed.

Lemma trial_loop_adds dim cell trial A gi iloc st st' :
  trial_loop dim cell trial A gi iloc st = Ok st' ->
  trip_DOFs st' = trip_DOFs st ++ flat_map (tD dim cell trial A gi iloc) (slots dim cell (dofs_data trial)) /\
  trip_Strongs st' = trip_Strongs st ++ flat_map (tS dim cell trial A gi iloc) (slots dim cell (dofs_data trial)) /\
  asm_rhs st' = asm_rhs st.
Proof.
  unfold trial_loop. set (dd := dofs_data trial). intros H.
  set (J := fun l (s : asm_state) =>
    trip_DOFs s = trip_DOFs st ++ flat_map (tD dim cell trial A gi iloc) l /\
    trip_Strongs s = trip_Strongs st ++ flat_map (tS dim cell trial A gi iloc) l /\
    asm_rhs s = asm_rhs st).
  cut (J (slots_upto dim cell dd (length dd)) st'); [tauto|].
  refine (@for_loop_inv _ (fun h s => J (slots_upto dim cell dd h) s) _ _ _ _ H _ _); clear H.
  { unfold J. simpl. rewrite !app_nil_r. auto. }
  intros h s s' Hh HJ H.
  apply bind_Ok in H. destruct H as (data & Ed & H). apply at_Ok in Ed.
  apply bind_Ok in H. destruct H as (gl & Egl & H). apply at_Ok in Egl.
  apply bind_Ok in H. destruct H as (oD & EoD & H). apply idx_nth in EoD.
  apply bind_Ok in H. destruct H as (lo & Elo & H). apply idx_nth in Elo.
  apply bind_Ok in H. destruct H as (oS & EoS & H). apply idx_nth in EoS.
  rewrite (slots_S _ _ _ _ _ Ed), (local_size_at _ _ _ _ Egl).
  refine (@for_loop_inv _ (fun i s => J (slots_upto dim cell dd h ++ map (pair h) (seq 0 i)) s) _ _ _ _ H _ _); clear H.
  { simpl. now rewrite app_nil_r. }
  clear s HJ s'. intros i s s' Hi (J1 & J2 & J3) H. unfold trial_dof in H.
  apply bind_Ok in H. destruct H as (g & Eg & H). apply at_Ok in Eg.
  apply bind_Ok in H. destruct H as (x & Ex & H). apply resolve_inv in Ex.
  apply bind_Ok in H. destruct H as (a & Ea & H). apply mat_get_ok in Ea.
  pose proof (slot_dof_at _ _ _ _ _ _ _ _ _ Ed Egl Eg Ex) as Esd.
  set (l := slots_upto dim cell dd h ++ map (pair h) (seq 0 i)) in *.
  assert (Hpos : slot_pos trial (h, i) = i + lo) by (unfold slot_pos; simpl; now rewrite Elo).
  rewrite map_pair_snoc, app_assoc. fold l. unfold J. rewrite !flat_map_app'.
  destruct (dof_type x) eqn:T; try discriminate; injection H as <-; cbn [trip_DOFs trip_Strongs asm_rhs flat_map].
  - assert (HD : tD dim cell trial A gi iloc (h, i) = []) by (unfold tD, free_number; fold dd; now rewrite Esd, T).
    assert (HS : tS dim cell trial A gi iloc (h, i) = [(gi, dof_index x + oS, a)]).
    { unfold tS, strong_number; fold dd; rewrite Esd, T, Hpos, Ea. cbn [fst]. now rewrite EoS. }
    rewrite HD, HS, J1, J2, J3, !app_nil_r, !app_assoc. auto.
  - assert (HS : tS dim cell trial A gi iloc (h, i) = []) by (unfold tS, strong_number; fold dd; now rewrite Esd, T).
    assert (HD : tD dim cell trial A gi iloc (h, i) = [(gi, dof_index x + oD, a)]).
    { unfold tD, free_number; fold dd; rewrite Esd, T, Hpos, Ea. cbn [fst]. now rewrite EoD. }
    rewrite HD, HS, J1, J2, J3, !app_nil_r, !app_assoc. auto.
Qed.

Definition cell_trips (pair_trips : nat -> nat -> nat * nat -> list triplet) dim cell test trial (p : nat * nat) : list triplet :=
  match free_number dim cell test p with
  | Some gi => flat_map (pair_trips gi (slot_pos test p)) (slots dim cell (dofs_data trial))
  | None => [] end.

Definition test_D dim cell test trial (lhs : option Mat) (p : nat * nat) :=
  match lhs with None => [] | Some A => cell_trips (tD dim cell trial A) dim cell test trial p end.
Definition test_S dim cell test trial (lhs : option Mat) (p : nat * nat) :=
  match lhs with None => [] | Some A => cell_trips (tS dim cell trial A) dim cell test trial p end.
Definition test_R dim cell test (rhs : option (list R)) (r : nat) (p : nat * nat) : R :=
  match rhs with None => 0%R | Some b =>
    if numbered (free_number dim cell test p) r then nth (slot_pos test p) b 0%R else 0%R end.

Lemma AddValue_ok v i x v' : AddValue v i x = Ok v' ->
  i < length v /\ length v' = length v /\
  forall r, nth r v' 0%R = (nth r v 0 + if i =? r then x else 0)%R.
Proof.
  unfold AddValue. intros H. apply bind_Ok in H. destruct H as (y & Hy & H). apply idx_Ok in Hy.
  unfold set_idx in H. destruct (i <? length v) eqn:Hi; [|discriminate]. injection H as <-.
  apply Nat.ltb_lt in Hi. split; auto. split; [apply replace_length|]. intros r.
  destruct (Nat.eqb_spec i r) as [<-|Hne].
  - rewrite (nth_error_nth _ _ _ (nth_error_replace_eq _ _ Hi)). now rewrite (nth_error_nth _ _ _ Hy).
  - pose proof (nth_error_replace_neq v (y + x)%R Hne) as E. rewrite Rplus_0_r.
    destruct (nth_error v r) as [z|] eqn:Ez.
    + rewrite (nth_error_nth _ _ _ E). symmetry. now apply nth_error_nth.
    + rewrite !nth_overflow; auto.
      * now apply nth_error_None.
      * rewrite replace_length. now apply nth_error_None.
Qed.

Lemma assemble_gen_adds dim cell test trial lhs rhs st st' :
  assemble_gen dim cell test trial lhs rhs st = Ok st' ->
  trip_DOFs st' = trip_DOFs st ++ flat_map (test_D dim cell test trial lhs) (slots dim cell (dofs_data test)) /\
  trip_Strongs st' = trip_Strongs st ++ flat_map (test_S dim cell test trial lhs) (slots dim cell (dofs_data test)) /\
  length (asm_rhs st') = length (asm_rhs st) /\
  forall r, nth r (asm_rhs st') 0%R =
    (nth r (asm_rhs st) 0 + lsum (test_R dim cell test rhs r) (slots dim cell (dofs_data test)))%R.
Proof.
  unfold assemble_gen. set (dd := dofs_data test). intros H.
  set (J := fun l (s : asm_state) =>
    trip_DOFs s = trip_DOFs st ++ flat_map (test_D dim cell test trial lhs) l /\
    trip_Strongs s = trip_Strongs st ++ flat_map (test_S dim cell test trial lhs) l /\
    length (asm_rhs s) = length (asm_rhs st) /\
    forall r, nth r (asm_rhs s) 0%R = (nth r (asm_rhs st) 0 + lsum (test_R dim cell test rhs r) l)%R).
  cut (J (slots_upto dim cell dd (length dd)) st'); [tauto|].
  refine (@for_loop_inv _ (fun h s => J (slots_upto dim cell dd h) s) _ _ _ _ H _ _); clear H.
  { unfold J. simpl. rewrite !app_nil_r. repeat split; auto. intros; lra. }
  intros h s s' Hh HJ H.
  apply bind_Ok in H. destruct H as (data & Ed & H). apply at_Ok in Ed.
  apply bind_Ok in H. destruct H as (gl & Egl & H). apply at_Ok in Egl.
  apply bind_Ok in H. destruct H as (oD & EoD & H). apply idx_nth in EoD.
  apply bind_Ok in H. destruct H as (lo & Elo & H). apply idx_nth in Elo.
  rewrite (slots_S _ _ _ _ _ Ed), (local_size_at _ _ _ _ Egl).
  refine (@for_loop_inv _ (fun i s => J (slots_upto dim cell dd h ++ map (pair h) (seq 0 i)) s) _ _ _ _ H _ _); clear H.
  { simpl. now rewrite app_nil_r. }
  clear s HJ s'. intros i s s' Hi (J1 & J2 & J3 & J4) H.
  apply bind_Ok in H. destruct H as (g & Eg & H). apply at_Ok in Eg.
  apply bind_Ok in H. destruct H as (x & Ex & H). apply resolve_inv in Ex.
  pose proof (slot_dof_at _ _ _ _ _ _ _ _ _ Ed Egl Eg Ex) as Esd. fold dd in Esd.
  set (l := slots_upto dim cell dd h ++ map (pair h) (seq 0 i)) in *.
  rewrite map_pair_snoc, app_assoc. fold l. unfold J. rewrite !flat_map_app'.
  assert (Hpos : slot_pos test (h, i) = i + lo) by (unfold slot_pos; simpl; now rewrite Elo).
  destruct (dof_type x) eqn:T; try discriminate.
  - injection H as <-.
    assert (Hf : free_number dim cell test (h, i) = None) by (unfold free_number; fold dd; now rewrite Esd, T).
    assert (HD : test_D dim cell test trial lhs (h, i) = []) by (unfold test_D, cell_trips; rewrite Hf; now destruct lhs).
    assert (HS : test_S dim cell test trial lhs (h, i) = []) by (unfold test_S, cell_trips; rewrite Hf; now destruct lhs).
    cbn [flat_map]. rewrite HD, HS, !app_nil_r. split; [auto|split; [auto|split; [auto|]]].
    intros r. rewrite lsum_app, J4. cbn [lsum]. unfold test_R at 3. rewrite Hf. cbn [numbered]. destruct rhs; lra.
  - apply bind_Ok in H. destruct H as (st1 & H1 & H).
    assert (Hf : free_number dim cell test (h, i) = Some (dof_index x + oD)).
    { unfold free_number; fold dd; rewrite Esd, T. cbn [fst]. now rewrite EoD. }
    assert (K : trip_DOFs st1 = trip_DOFs s /\ trip_Strongs st1 = trip_Strongs s /\
      length (asm_rhs st1) = length (asm_rhs s) /\
      forall r, nth r (asm_rhs st1) 0%R = (nth r (asm_rhs s) 0 + test_R dim cell test rhs r (h, i))%R).
    { unfold test_R. rewrite Hf, Hpos. destruct rhs as [b|].
      - apply bind_Ok in H1. destruct H1 as (v & Hv & H1). apply bind_Ok in H1. destruct H1 as (w & Hw & H1).
        injection H1 as <-. apply AddValue_ok in Hw. destruct Hw as (_ & W2 & W3). cbn.
        split; [auto|split; [auto|split; [auto|]]]. intros r. rewrite W3. apply idx_Ok in Hv.
        rewrite (nth_error_nth _ _ _ Hv). reflexivity.
      - injection H1 as <-. repeat split; auto. intros; lra. }
    destruct K as (K1 & K2 & K3 & K4).
    assert (G : trip_DOFs s' = trip_DOFs st1 ++ test_D dim cell test trial lhs (h, i) /\
                trip_Strongs s' = trip_Strongs st1 ++ test_S dim cell test trial lhs (h, i) /\
                asm_rhs s' = asm_rhs st1).
    { unfold test_D, test_S, cell_trips. rewrite Hf, Hpos. destruct lhs as [A|].
      - now apply trial_loop_adds.
      - injection H as <-. now rewrite !app_nil_r. }
    destruct G as (G1 & G2 & G3). cbn [flat_map]. rewrite !app_nil_r, !app_assoc, <- J1, <- J2, <- K1, <- K2.
    split; [auto|split; [auto|split; [congruence|]]].
    intros r. rewrite G3, K4, J4, lsum_app. cbn [lsum]. lra.
Qed.

Lemma assemble_all_adds dim ops st st' :
  assemble_all dim ops st = Ok st' ->
  trip_DOFs st' = trip_DOFs st ++ flat_map (fun o => flat_map (test_D dim (op_cell o) (op_test o) (op_trial o) (op_lhs o))
     (slots dim (op_cell o) (dofs_data (op_test o)))) ops /\
  trip_Strongs st' = trip_Strongs st ++ flat_map (fun o => flat_map (test_S dim (op_cell o) (op_test o) (op_trial o) (op_lhs o))
     (slots dim (op_cell o) (dofs_data (op_test o)))) ops /\
  length (asm_rhs st') = length (asm_rhs st) /\
  forall r, nth r (asm_rhs st') 0%R = (nth r (asm_rhs st) 0 + lsum (fun o =>
    lsum (test_R dim (op_cell o) (op_test o) (op_rhs o) r) (slots dim (op_cell o) (dofs_data (op_test o)))) ops)%R.
Proof.
  revert st; induction ops as [|o ops IH]; intros st H.
  - injection H as <-. simpl. rewrite !app_nil_r. repeat split; auto. intros; lra.
  - unfold assemble_all in H. cbn [foldM] in H. apply bind_Ok in H. destruct H as (s1 & H1 & H2).
    apply assemble_gen_adds in H1. destruct H1 as (A1 & A2 & A3 & A4).
    apply IH in H2. destruct H2 as (B1 & B2 & B3 & B4). cbn [flat_map lsum].
    rewrite B1, B2, B3, A1, A2, A3, !app_assoc. repeat split; auto. intros r. rewrite B4, A4. lra.
Qed.

Lemma entry_app a b r s : entry (a ++ b) r s = (entry a r s + entry b r s)%R.
Proof. apply lsum_app. Qed.
Lemma entry_flat {A} (f : A -> list triplet) l r s : entry (flat_map f l) r s = lsum (fun x => entry (f x) r s) l.
Proof. apply lsum_flat_map. Qed.

Lemma entry_tD dim cell trial A gi iloc q r s :
  entry (tD dim cell trial A gi iloc q) r s =
  if (gi =? r) && numbered (free_number dim cell trial q) s then m_at A iloc (slot_pos trial q) else 0%R.
Proof.
  unfold tD. destruct (free_number dim cell trial q); cbn; [lra|]. now rewrite andb_false_r.
Qed.
Lemma entry_tS dim cell trial A gi iloc q r s :
  entry (tS dim cell trial A gi iloc q) r s =
  if (gi =? r) && numbered (strong_number dim cell trial q) s then m_at A iloc (slot_pos trial q) else 0%R.
Proof.
  unfold tS. destruct (strong_number dim cell trial q); cbn; [lra|]. now rewrite andb_false_r.
Qed.

Lemma C15_sums dim ops n st :
  assemble_all dim ops (asm_init n) = Ok st ->
  length (asm_rhs st) = n /\
  (forall r s, entry (trip_DOFs st) r s = lhs_sum dim free_number ops r s) /\
  (forall r s, entry (trip_Strongs st) r s = lhs_sum dim strong_number ops r s) /\
  (forall r, nth r (asm_rhs st) 0%R = rhs_sum dim ops r).
Proof.
  intros H. apply assemble_all_adds in H. destruct H as (A1 & A2 & A3 & A4). cbn in A1, A2, A3, A4.
  rewrite repeat_length in A3. split; auto. split; [|split].
  - intros r s. rewrite A1, entry_flat. apply lsum_ext. intros o _. rewrite entry_flat.
    unfold test_D. destruct (op_lhs o) as [A|].
    + apply lsum_ext. intros p _. unfold cell_trips. destruct (free_number dim (op_cell o) (op_test o) p); cbn [numbered].
      * rewrite entry_flat. apply lsum_ext. intros q _. apply entry_tD.
      * symmetry. now apply lsum_0.
    + now apply lsum_0.
  - intros r s. rewrite A2, entry_flat. apply lsum_ext. intros o _. rewrite entry_flat.
    unfold test_S. destruct (op_lhs o) as [A|].
    + apply lsum_ext. intros p _. unfold cell_trips. destruct (free_number dim (op_cell o) (op_test o) p); cbn [numbered].
      * rewrite entry_flat. apply lsum_ext. intros q _. apply entry_tS.
      * symmetry. now apply lsum_0.
    + now apply lsum_0.
  - intros r. rewrite A4. rewrite nth_repeat, Rplus_0_l. apply lsum_ext. intros o _.
    unfold test_R. destruct (op_rhs o); auto. now apply lsum_0.
Qed.

(** ** Total correctness *)

Lemma mat_get_in A i j : i < m_rows A -> j < m_cols A -> mat_get A i j = Ok (m_at A i j).
Proof.
  intros Hi Hj. unfold mat_get. apply Nat.ltb_lt in Hi, Hj. now rewrite Hi, Hj.
Qed.

Lemma trial_loop_total dim cell trial cds lcs A gi iloc st :
  packed dim cell trial cds lcs -> iloc < m_rows A -> m_cols A = l_num_total_dofs lcs ->
  exists st', trial_loop dim cell trial A gi iloc st = Ok st'.
Proof.
  intros P Hi HA. unfold trial_loop.
  destruct (local_count_inv_ok _ _ _ _ (pk_local P)) as (Hne & Hall & Elc).
  match goal with |- exists st', for_loop ?n ?f ?s = _ =>
    destruct (@for_loop_total _ (fun _ _ => True) f n s) as (s' & E & _); [exact I| |eauto] end.
  intros h s Hh _.
  destruct (nth_error_Some_ex (dofs_data trial) (i := h)) as (data & Ed); [lia|].
  assert (Hc : cell_exists dim cell data).
  { rewrite Forall_forall in Hall. apply Hall. eapply nth_error_In; eauto. }
  destruct (at_closure _ _ _ Hc) as (gl & Agl & Egl & Lgl).
  assert (Hoff : exists a b c, idx_ (global_offsets_DOFs trial) h = Ok a /\ idx_ (local_offsets trial) h = Ok b /\
                               idx_ (global_offsets_Strongs trial) h = Ok c /\ b = nth h (local_offsets trial) 0).
  { pose proof (count_inv_ok _ _ (pk_count P)) as Ecd.
    rewrite (pk_gD P), (pk_gS P), (pk_lo P), Ecd, Elc. simpl.
    do 3 eexists. split; [|split; [|split]]; try (apply idx_some, nth_error_partial_map_lt; lia).
    now rewrite partial_map_full_nth by lia. }
  destruct Hoff as (a & b & c & Ha & Hb & Hcc & Eb).
  rewrite (proj2 (at_Ok _ _ _) Ed). cbn [bind]. rewrite Agl. cbn [bind].
  rewrite Ha. cbn [bind]. rewrite Hb. cbn [bind]. rewrite Hcc. cbn [bind].
  match goal with |- exists s', for_loop ?n ?f ?s = _ /\ _ =>
    destruct (@for_loop_total _ (fun _ _ => True) f n s) as (s' & E & _); [exact I| |eauto] end.
  intros j s2 Hj _.
  destruct (slot_ok _ _ _ _ _ (h, j) P) as (data' & gl' & g & x & F).
  { apply in_slots. exists data. split; auto. lia. }
  pose proof (sf_data F) as E1. pose proof (sf_gl F) as E3. pose proof (sf_g F) as Fg.
      pose proof (sf_gD F) as FgD. pose proof (sf_gS F) as FgS. pose proof (sf_lo F) as Flo. simpl in E1, E3, Fg, FgD, FgS, Flo.
  rewrite Ed in E1. injection E1 as <-. rewrite Egl in E3. injection E3 as <-.
  unfold trial_dof. rewrite (proj2 (at_Ok _ _ _) Fg). cbn [bind].
  rewrite (resolve_ok _ _ _ (sf_x F)). cbn [bind].
  pose proof (sf_pos F) as Hp. unfold slot_pos in Hp. simpl in Hp.
  rewrite mat_get_in by (rewrite ?Eb; lia). cbn [bind].
  destruct (sf_num F) as [(T & _)|(T & _)]; rewrite T; eauto.
Qed.

Lemma AddValue_in v i x : i < length v -> exists v', AddValue v i x = Ok v' /\ length v' = length v.
Proof.
  intros H. unfold AddValue. destruct (nth_error_Some_ex v H) as (y & Ey). rewrite (idx_some _ _ _ Ey). cbn [bind].
  unfold set_idx. rewrite (proj2 (Nat.ltb_lt _ _) H). eexists. split; eauto. apply replace_length.
Qed.

Lemma assemble_gen_total dim nD o st :
  op_fits dim nD o -> length (asm_rhs st) = nD ->
  exists st', assemble_gen dim (op_cell o) (op_test o) (op_trial o) (op_lhs o) (op_rhs o) st = Ok st' /\
    length (asm_rhs st') = nD.
Proof.
  intros (cdt & lct & cds & lcs & Pt & Ps & HnD & HA & Hb) Hlen.
  cut (exists st', assemble_gen dim (op_cell o) (op_test o) (op_trial o) (op_lhs o) (op_rhs o) st = Ok st').
  { intros (st' & E). exists st'. split; auto. apply assemble_gen_adds in E. destruct E as (_ & _ & E & _). congruence. }
  destruct (local_count_inv_ok _ _ _ _ (pk_local Pt)) as (Hne & Hall & Elc).
  unfold assemble_gen.
  match goal with |- exists st', for_loop ?n ?f ?s = _ =>
    destruct (@for_loop_total _ (fun _ s => length (asm_rhs s) = nD) f n s) as (s' & E & _); [exact Hlen| |eauto] end.
  intros h s Hh Hls.
  destruct (nth_error_Some_ex (dofs_data (op_test o)) (i := h)) as (data & Ed); [lia|].
  assert (Hc : cell_exists dim (op_cell o) data).
  { rewrite Forall_forall in Hall. apply Hall. eapply nth_error_In; eauto. }
  destruct (at_closure _ _ _ Hc) as (gl & Agl & Egl & Lgl).
  assert (Hoff : exists a b, idx_ (global_offsets_DOFs (op_test o)) h = Ok a /\ idx_ (local_offsets (op_test o)) h = Ok b /\
                 a = nth h (global_offsets_DOFs (op_test o)) 0 /\ b = nth h (local_offsets (op_test o)) 0).
  { pose proof (count_inv_ok _ _ (pk_count Pt)) as Ecd.
    rewrite (pk_gD Pt), (pk_lo Pt), Ecd, Elc. simpl.
    do 2 eexists. split; [|split; [|split]]; try (apply idx_some, nth_error_partial_map_lt; lia).
    - now rewrite partial_map_full_nth by lia.
    - now rewrite partial_map_full_nth by lia. }
  destruct Hoff as (a & b & Ha & Hbb & Ea & Eb).
  rewrite (proj2 (at_Ok _ _ _) Ed). cbn [bind]. rewrite Agl. cbn [bind].
  rewrite Ha. cbn [bind]. rewrite Hbb. cbn [bind].
  match goal with |- exists s', for_loop ?n ?f ?s = _ /\ _ =>
    destruct (@for_loop_total _ (fun _ s => length (asm_rhs s) = nD) f n s) as (s' & E & Hl'); [exact Hls| |eauto] end.
  intros i s2 Hi Hl2.
  destruct (slot_ok _ _ _ _ _ (h, i) Pt) as (data' & gl' & g & x & F).
  { apply in_slots. exists data. split; auto. lia. }
  pose proof (sf_data F) as E1. pose proof (sf_gl F) as E3. pose proof (sf_g F) as Fg.
      pose proof (sf_gD F) as FgD. pose proof (sf_gS F) as FgS. pose proof (sf_lo F) as Flo. simpl in E1, E3, Fg, FgD, FgS, Flo.
  rewrite Ed in E1. injection E1 as <-. rewrite Egl in E3. injection E3 as <-.
  rewrite (proj2 (at_Ok _ _ _) Fg). cbn [bind].
  rewrite (resolve_ok _ _ _ (sf_x F)). cbn [bind].
  pose proof (sf_pos F) as Hp. unfold slot_pos in Hp. simpl in Hp. rewrite <- Eb in Hp.
  pose proof (sf_num F) as Hnum. simpl in Hnum. rewrite <- Ea in Hnum.
  destruct Hnum as [(T & Hlt)|(T & _)]; rewrite T; [|eauto].
  assert (Hr : exists s3, match op_rhs o with
                 | None => Ok s2
                 | Some b0 => v <- idx_ b0 (i + b) ;; r <- AddValue (asm_rhs s2) (dof_index x + a) v ;;
                             Ok {| trip_DOFs := trip_DOFs s2; trip_Strongs := trip_Strongs s2; asm_rhs := r |}
                 end = Ok s3 /\ length (asm_rhs s3) = nD).
  { destruct (op_rhs o) as [b0|]; [|eauto]. specialize (Hb b0 eq_refl).
    destruct (nth_error_Some_ex b0 (i := i + b)) as (v & Ev); [lia|]. rewrite (idx_some _ _ _ Ev). cbn [bind].
    destruct (AddValue_in (asm_rhs s2) (dof_index x + a) v) as (w & Ew & Lw); [lia|]. rewrite Ew. cbn [bind].
    eexists. split; eauto. cbn. lia. }
  destruct Hr as (s3 & E3 & L3). rewrite E3. cbn [bind].
  destruct (op_lhs o) as [A|]; [|eauto]. destruct (HA A eq_refl) as (HA1 & HA2).
  destruct (trial_loop_total dim (op_cell o) (op_trial o) cds lcs A (dof_index x + a) (i + b) s3) as (s4 & E4); auto; [lia|].
  exists s4. split; auto. apply trial_loop_adds in E4. destruct E4 as (_ & _ & ->). auto.
Qed.

Lemma assemble_all_total dim nD ops st :
  Forall (op_fits dim nD) ops -> length (asm_rhs st) = nD ->
  exists st', assemble_all dim ops st = Ok st'.
Proof.
  intros H; revert st; induction H as [|o ops Ho _ IH]; intros st Hl; [eexists; reflexivity|].
  destruct (assemble_gen_total _ _ _ _ Ho Hl) as (s1 & E1 & L1).
  unfold assemble_all. cbn [foldM]. rewrite E1. cbn [bind]. now apply IH.
Qed.

Lemma free_lt dim cell lg cd lc p r : packed dim cell lg cd lc -> In p (slots dim cell (dofs_data lg)) ->
  free_number dim cell lg p = Some r -> r < num_total_dofs cd.
Proof.
  intros P Hin E. destruct (slot_ok _ _ _ _ _ _ P Hin) as (data & gl & g & x & F).
  unfold free_number in E. rewrite (sf_dof F) in E. destruct (sf_num F) as [(T & H)|(T & H)]; rewrite T in E; [|discriminate].
  injection E as <-. auto.
Qed.
Lemma strong_lt dim cell lg cd lc p r : packed dim cell lg cd lc -> In p (slots dim cell (dofs_data lg)) ->
  strong_number dim cell lg p = Some r -> r < num_total_strong cd.
Proof.
  intros P Hin E. destruct (slot_ok _ _ _ _ _ _ P Hin) as (data & gl & g & x & F).
  unfold strong_number in E. rewrite (sf_dof F) in E. destruct (sf_num F) as [(T & H)|(T & H)]; rewrite T in E; [discriminate|].
  injection E as <-. auto.
Qed.

Lemma triplets_in_range dim nD nT nTS ops st :
  Forall (op_fits dim nD) ops -> Forall (trial_total dim nT nTS) ops ->
  assemble_all dim ops (asm_init nD) = Ok st ->
  (forall r s v, In (r, s, v) (trip_DOFs st) -> r < nD /\ s < nT) /\
  (forall r s v, In (r, s, v) (trip_Strongs st) -> r < nD /\ s < nTS).
Proof.
  intros H1 H2 E. apply assemble_all_adds in E. destruct E as (A1 & A2 & _). cbn in A1, A2.
  rewrite Forall_forall in H1, H2.
  split; intros r s v Hin.
  - rewrite A1 in Hin. apply in_flat_map in Hin. destruct Hin as (o & Ho & Hin).
    apply in_flat_map in Hin. destruct Hin as (p & Hp & Hin).
    destruct (H1 _ Ho) as (cdt & lct & cds & lcs & Pt & _ & En & _).
    destruct (H2 _ Ho) as (cd & lc & Ps & ET & ES).
    unfold test_D in Hin. destruct (op_lhs o) as [A|]; [|destruct Hin].
    unfold cell_trips in Hin. destruct (free_number dim (op_cell o) (op_test o) p) as [gi|] eqn:Ef; [|destruct Hin].
    apply in_flat_map in Hin. destruct Hin as (q & Hq & Hin). unfold tD in Hin.
    destruct (free_number dim (op_cell o) (op_trial o) q) as [s'|] eqn:Eq; [|destruct Hin].
    destruct Hin as [Heq|[]]. injection Heq as -> -> _. split.
    + rewrite <- En. eapply free_lt; eauto.
    + rewrite <- ET. eapply free_lt; eauto.
  - rewrite A2 in Hin. apply in_flat_map in Hin. destruct Hin as (o & Ho & Hin).
    apply in_flat_map in Hin. destruct Hin as (p & Hp & Hin).
    destruct (H1 _ Ho) as (cdt & lct & cds & lcs & Pt & _ & En & _).
    destruct (H2 _ Ho) as (cd & lc & Ps & ET & ES).
    unfold test_S in Hin. destruct (op_lhs o) as [A|]; [|destruct Hin].
    unfold cell_trips in Hin. destruct (free_number dim (op_cell o) (op_test o) p) as [gi|] eqn:Ef; [|destruct Hin].
    apply in_flat_map in Hin. destruct Hin as (q & Hq & Hin). unfold tS in Hin.
    destruct (strong_number dim (op_cell o) (op_trial o) q) as [s'|] eqn:Eq; [|destruct Hin].
    destruct Hin as [Heq|[]]. injection Heq as -> -> _. split.
    + rewrite <- En. eapply free_lt; eauto.
    + rewrite <- ES. eapply strong_lt; eauto.
Qed.

Lemma C15_assembly dim nD nT nTS ops :
  Forall (op_fits dim nD) ops -> Forall (trial_total dim nT nTS) ops ->
  exists st, assemble_all dim ops (asm_init nD) = Ok st /\
  length (asm_rhs st) = nD /\
  (forall r s v, In (r, s, v) (trip_DOFs st) -> r < nD /\ s < nT) /\
  (forall r s v, In (r, s, v) (trip_Strongs st) -> r < nD /\ s < nTS) /\
  (forall r s, entry (trip_DOFs st) r s = lhs_sum dim free_number ops r s) /\
  (forall r s, entry (trip_Strongs st) r s = lhs_sum dim strong_number ops r s) /\
  (forall r, nth r (asm_rhs st) 0%R = rhs_sum dim ops r).
Proof.
  intros H1 H2. destruct (assemble_all_total _ _ _ (asm_init nD) H1) as (st & E); [apply repeat_length|].
  exists st. split; auto. destruct (C15_sums _ _ _ _ E) as (S1 & S2 & S3 & S4).
  destruct (triplets_in_range _ _ _ _ _ _ H1 H2 E) as (T1 & T2). auto 10.
Qed.

(** ** C16: the assembled operator acts as the sum of the local ones *)

Local Open Scope R_scope.

Lemma numbered_sum n (o : option nat) (u : list R) :
  n = length u ->
  rsum n (fun s => (if numbered o s then 1 else 0) * nth s u 0) = match o with Some s => nth s u 0 | None => 0 end.
Proof.
  intros ->. destruct o as [s|].
  - destruct (lt_dec s (length u)) as [H|H].
    + rewrite (rsum_single _ _ s); auto.
      * cbn. rewrite Nat.eqb_refl. lra.
      * intros i _ Hne. cbn. destruct (Nat.eqb_spec s i); [congruence|lra].
    + rewrite nth_overflow by lia. apply rsum_0. intros i Hi. cbn. destruct (Nat.eqb_spec s i); [lia|lra].
  - apply rsum_0. intros; cbn; lra.
Qed.

Lemma lhs_sum_apply dim tn ops r (u : list R) :
  rsum (length u) (fun s => lhs_sum dim tn ops r s * nth s u 0) =
  lsum (fun o => match op_lhs o with
    | None => 0
    | Some A => lsum (fun p => if numbered (free_number dim (op_cell o) (op_test o) p) r then
        lsum (fun q => m_at A (slot_pos (op_test o) p) (slot_pos (op_trial o) q) *
          match tn dim (op_cell o) (op_trial o) q with Some s => nth s u 0 | None => 0 end)
          (slots dim (op_cell o) (dofs_data (op_trial o))) else 0)
        (slots dim (op_cell o) (dofs_data (op_test o))) end) ops.
Proof.
  unfold lhs_sum.
  transitivity (rsum (length u) (fun s => lsum (fun o => match op_lhs o with
    | None => 0
    | Some A => lsum (fun p => if numbered (free_number dim (op_cell o) (op_test o) p) r then
        lsum (fun q => m_at A (slot_pos (op_test o) p) (slot_pos (op_trial o) q) *
          ((if numbered (tn dim (op_cell o) (op_trial o) q) s then 1 else 0) * nth s u 0))
          (slots dim (op_cell o) (dofs_data (op_trial o))) else 0)
        (slots dim (op_cell o) (dofs_data (op_test o))) end) ops)).
  - apply rsum_ext. intros s _. rewrite <- lsum_scal_r. apply lsum_ext. intros o _.
    destruct (op_lhs o) as [A|]; [|lra]. rewrite <- lsum_scal_r. apply lsum_ext. intros p _.
    destruct (numbered (free_number _ _ _ p) r); cbn [andb].
    + rewrite <- lsum_scal_r. apply lsum_ext. intros q _.
      destruct (numbered (tn _ _ _ q) s); lra.
    + rewrite lsum_0 by auto. lra.
  - rewrite <- lsum_rsum_swap. apply lsum_ext. intros o _. destruct (op_lhs o) as [A|].
    + rewrite <- lsum_rsum_swap. apply lsum_ext. intros p _.
      destruct (numbered (free_number _ _ _ p) r).
      * rewrite <- lsum_rsum_swap. apply lsum_ext. intros q _. rewrite rsum_scal. f_equal. now apply numbered_sum.
      * now apply rsum_0.
    + now apply rsum_0.
Qed.

Lemma lsum_positions (pos : nat * nat -> nat) l n (f : nat -> R) :
  map pos l = seq 0 n -> lsum (fun q => f (pos q)) l = rsum n f.
Proof. intros E. rewrite <- lsum_seq, <- E, lsum_map. reflexivity. Qed.

Lemma slot_value_split dim cell lg cd lc uD uS p : packed dim cell lg cd lc ->
  In p (slots dim cell (dofs_data lg)) ->
  match free_number dim cell lg p with Some s => nth s uD 0 | None => 0 end +
  match strong_number dim cell lg p with Some s => nth s uS 0 | None => 0 end =
  slot_value dim cell lg uD uS p.
Proof.
  intros P Hin. destruct (slot_ok _ _ _ _ _ _ P Hin) as (data & gl & g & x & F).
  unfold slot_value, free_number, strong_number. rewrite (sf_dof F).
  destruct (sf_num F) as [(T & _)|(T & _)]; rewrite T; lra.
Qed.

Lemma C16_operator dim nD ops st uD uS uloc :
  Forall (op_fits dim nD) ops -> Forall (trial_total dim (length uD) (length uS)) ops ->
  assemble_all dim ops (asm_init nD) = Ok st ->
  (forall o, In o ops -> exists num,
    global_solution_to_local_solution dim (op_cell o) (dofs_data (op_trial o)) num
      (local_offsets (op_trial o)) (global_offsets_DOFs (op_trial o)) (global_offsets_Strongs (op_trial o)) uD uS = Ok (uloc o) /\
    local_count_dofs dim (op_cell o) (dofs_data (op_trial o)) = Ok {| l_num_total_dofs := num; l_offsets_DOFs := local_offsets (op_trial o) |}) ->
  forall r,
  rsum (length uD) (fun s => entry (trip_DOFs st) r s * nth s uD 0) +
  rsum (length uS) (fun s => entry (trip_Strongs st) r s * nth s uS 0) =
  lsum (fun o => match op_lhs o with
    | None => 0
    | Some A => lsum (fun p => if numbered (free_number dim (op_cell o) (op_test o) p) r
        then rsum (m_cols A) (fun j => m_at A (slot_pos (op_test o) p) j * nth j (uloc o) 0) else 0)
        (slots dim (op_cell o) (dofs_data (op_test o))) end) ops.
Proof.
  intros H1 H2 E Hu r. destruct (C15_sums _ _ _ _ E) as (_ & S2 & S3 & _).
  rewrite (rsum_ext _ _ (fun s => lhs_sum dim free_number ops r s * nth s uD 0)) by (intros; now rewrite S2).
  rewrite (rsum_ext (length uS) _ (fun s => lhs_sum dim strong_number ops r s * nth s uS 0)) by (intros; now rewrite S3).
  rewrite !lhs_sum_apply, <- lsum_plus. apply lsum_ext. intros o Ho.
  rewrite Forall_forall in H1, H2.
  destruct (H1 _ Ho) as (cdt & lct & cds & lcs & Pt & Ps & En & HA & _).
  destruct (H2 _ Ho) as (cd & lc & Ps' & ET & ES).
  destruct (Hu _ Ho) as (num & Eu & El).
  assert (cds = cd) by (pose proof (pk_count Ps); pose proof (pk_count Ps'); congruence). subst cds.
  assert (lcs = lc) by (pose proof (pk_local Ps); pose proof (pk_local Ps'); congruence). subst lcs.
  assert (num = l_num_total_dofs lc) by (pose proof (pk_local Ps) as K; rewrite El in K; injection K as <-; reflexivity). subst num.
  rewrite (restrict_ok _ _ _ cd lc uD uS Ps) in Eu by auto. injection Eu as Eu.
  pose proof (slots_positions _ _ _ _ _ Ps) as Hpos.
  destruct (op_lhs o) as [A|]; [|lra]. destruct (HA A eq_refl) as (_ & HA2).
  rewrite <- lsum_plus. apply lsum_ext. intros p Hp.
  destruct (numbered (free_number _ _ (op_test o) p) r); [|lra].
  rewrite <- lsum_plus, HA2, <- (lsum_positions _ _ _ _ Hpos). apply lsum_ext. intros q Hq.
  rewrite <- Rmult_plus_distr_l. f_equal. rewrite (slot_value_split _ _ _ _ _ uD uS q Ps Hq).
  rewrite <- Eu. symmetry. apply nth_error_nth. now apply (nth_error_map_pos _ _ _ _ _ Hpos).
Qed.

(** ** C17 *)
Lemma C17_order dim nD ops ops' :
  Forall (op_fits dim nD) ops -> Permutation ops ops' ->
  exists st st', assemble_all dim ops (asm_init nD) = Ok st /\ assemble_all dim ops' (asm_init nD) = Ok st' /\
    (forall r s, entry (trip_DOFs st) r s = entry (trip_DOFs st') r s) /\
    (forall r s, entry (trip_Strongs st) r s = entry (trip_Strongs st') r s) /\
    asm_rhs st = asm_rhs st'.
Proof.
  intros H P.
  assert (H' : Forall (op_fits dim nD) ops') by now apply (Permutation_Forall P).
  destruct (assemble_all_total _ _ _ (asm_init nD) H) as (st & E); [apply repeat_length|].
  destruct (assemble_all_total _ _ _ (asm_init nD) H') as (st' & E'); [apply repeat_length|].
  exists st, st'. split; auto. split; auto.
  destruct (C15_sums _ _ _ _ E) as (S1 & S2 & S3 & S4). destruct (C15_sums _ _ _ _ E') as (S1' & S2' & S3' & S4').
  split; [|split].
  - intros. rewrite S2, S2'. now apply lsum_perm.
  - intros. rewrite S3, S3'. now apply lsum_perm.
  - apply (nth_ext _ _ 0 0); [congruence|]. intros n _. rewrite S4, S4'. now apply lsum_perm.
Qed.

(** ** C18 *)
Lemma C18_sym dim n ops st :
  assemble_all dim ops (asm_init n) = Ok st ->
  Forall (fun o => op_test o = op_trial o /\
    forall A, op_lhs o = Some A -> forall i j, m_at A i j = m_at A j i) ops ->
  forall r s, entry (trip_DOFs st) r s = entry (trip_DOFs st) s r.
Proof.
  intros E H r s. destruct (C15_sums _ _ _ _ E) as (_ & S2 & _). rewrite !S2. apply lsum_ext. intros o Ho.
  rewrite Forall_forall in H. destruct (H _ Ho) as (Et & HA). destruct (op_lhs o) as [A|]; auto.
  specialize (HA A eq_refl). rewrite Et. rewrite lsum_swap. apply lsum_ext. intros q _. apply lsum_ext. intros p _.
  rewrite (andb_comm (numbered _ s)). now rewrite HA.
Qed.

Lemma C18_psd_lemma dim nD ops st x :
  Forall (op_fits dim nD) ops ->
  Forall (fun o => op_test o = op_trial o /\
    forall A, op_lhs o = Some A -> psd (m_rows A) (m_at A)) ops ->
  assemble_all dim ops (asm_init nD) = Ok st -> length x = nD ->
  0 <= rsum nD (fun r => rsum nD (fun s => nth r x 0 * entry (trip_DOFs st) r s * nth s x 0)).
Proof.
  intros H1 H2 E Hx. destruct (C15_sums _ _ _ _ E) as (_ & S2 & _).
  set (xv := fun o p => match free_number dim (op_cell o) (op_trial o) p with Some s => nth s x 0 | None => 0 end).
  rewrite (rsum_ext _ _ (fun r => nth r x 0 * rsum (length x) (fun s => lhs_sum dim free_number ops r s * nth s x 0))).
  2:{ intros r _. rewrite <- rsum_scal, Hx. apply rsum_ext. intros s _. rewrite S2. lra. }
  rewrite Forall_forall in H1, H2.
  apply Rle_trans with (lsum (fun o => match op_lhs o with None => 0 | Some A =>
     lsum (fun p => lsum (fun q => xv o p * m_at A (slot_pos (op_trial o) p) (slot_pos (op_trial o) q) * xv o q)
       (slots dim (op_cell o) (dofs_data (op_trial o)))) (slots dim (op_cell o) (dofs_data (op_trial o))) end) ops).
  - apply lsum_nonneg. intros o Ho. destruct (op_lhs o) as [A|] eqn:EA; [|lra].
    destruct (H1 _ Ho) as (cdt & lct & cds & lcs & Pt & Ps & En & HA & _).
    destruct (H2 _ Ho) as (Et & HP). specialize (HP A EA). destruct (HA A EA) as (HA1 & HA2).
    pose proof (slots_positions _ _ _ _ _ Ps) as Hpos.
    assert (lct = lcs) by (pose proof (pk_local Pt) as K1; pose proof (pk_local Ps) as K2; rewrite Et in K1; congruence). subst lct.
    set (l := slots dim (op_cell o) (dofs_data (op_trial o))) in *.
    set (v := fun i => nth i (map (xv o) l) 0).
    assert (Hv : forall p, In p l -> xv o p = v (slot_pos (op_trial o) p)).
    { intros p Hp. symmetry. apply nth_error_nth. now apply (nth_error_map_pos _ _ _ _ _ Hpos). }
    specialize (HP v). rewrite HA1 in HP.
    rewrite <- (lsum_positions _ _ _ _ Hpos) in HP.
    eapply Rle_trans; [exact HP|]. apply Req_le, lsum_ext. intros p Hp. rewrite <- (lsum_positions _ _ _ _ Hpos).
    apply lsum_ext. intros q Hq. now rewrite (Hv p Hp), (Hv q Hq).
  - apply Req_le.
    transitivity (rsum nD (fun r => lsum (fun o => match op_lhs o with None => 0 | Some A =>
       lsum (fun p => ((if numbered (free_number dim (op_cell o) (op_trial o) p) r then 1 else 0) * nth r x 0) *
         lsum (fun q => m_at A (slot_pos (op_trial o) p) (slot_pos (op_trial o) q) * xv o q)
         (slots dim (op_cell o) (dofs_data (op_trial o)))) (slots dim (op_cell o) (dofs_data (op_trial o))) end) ops)).
    + rewrite <- lsum_rsum_swap. apply lsum_ext. intros o Ho. destruct (op_lhs o) as [A|] eqn:EA.
      * rewrite <- lsum_rsum_swap. apply lsum_ext. intros p _. rewrite rsum_scal_r, numbered_sum by auto.
        fold (xv o p). rewrite <- lsum_scal. apply lsum_ext. intros; lra.
      * symmetry. now apply rsum_0.
    + apply rsum_ext. intros r _. rewrite lhs_sum_apply, <- lsum_scal. apply lsum_ext. intros o Ho.
      destruct (H2 _ Ho) as (-> & _). destruct (op_lhs o) as [A|]; [|lra]. rewrite <- lsum_scal.
      apply lsum_ext. intros p _. fold (xv o). destruct (numbered _ r); unfold xv; lra.
Qed.
