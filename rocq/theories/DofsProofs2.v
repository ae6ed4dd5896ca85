(** Properties C01-C11 derived from the description of DofsProofs.v. *)
From Coq Require Import List Arith Bool Lia Permutation Sorted.
From Verif Require Import Base DofsModel DofsSpec DofsProofs.
Import ListNotations.

(** ** C01, C02 *)

Definition selN (T : DOFType) : BoundaryTypes -> nat -> nat :=
  match T with TStrong => strongN | _ => freeN end.

Lemma filter_all {A} (f : A -> bool) l : (forall x, In x l -> f x = true) -> filter f l = l.
Proof.
  induction l; simpl; intros H; auto. rewrite H by now left. f_equal. auto.
Qed.

Lemma filter_none {A} (f : A -> bool) l : (forall x, In x l -> f x = false) -> filter f l = [].
Proof.
  induction l; simpl; intros H; auto. rewrite H by now left. auto.
Qed.

Lemma mk_row_in T b n x : In x (mk_row T b n) -> dof_type x = T.
Proof.
  unfold mk_row. intros H. apply in_map_iff in H. destruct H as (i & <- & _). reflexivity.
Qed.

Lemma mk_row_indices T b n : map dof_index (mk_row T b n) = seq b n.
Proof.
  unfold mk_row. rewrite map_map. simpl. revert b; induction n; intros b; simpl; auto.
  rewrite Nat.add_0_r. f_equal. rewrite <- seq_shift, map_map, <- (IHn (S b)).
  apply map_ext. intros; lia.
Qed.

Lemma row_indices T t nD nS n : T <> TUnknown ->
  map dof_index (filter (is_type T) (cell_row t nD nS n)) =
  seq (match T with TStrong => nS | _ => nD end) (selN T t n).
Proof.
  intros HT.
  assert (Y : forall T' b, T' = T -> map dof_index (filter (is_type T) (mk_row T' b n)) = seq b n).
  { intros T' b ->. rewrite filter_all; [apply mk_row_indices|].
    intros x Hx. apply mk_row_in in Hx. unfold is_type. rewrite Hx. destruct T; auto. }
  assert (N : forall T' b, T' <> T -> T' <> TUnknown -> map dof_index (filter (is_type T) (mk_row T' b n)) = []).
  { intros T' b Hne HT'. rewrite filter_none; auto.
    intros x Hx. apply mk_row_in in Hx. unfold is_type. rewrite Hx. destruct T, T'; auto; congruence. }
  destruct T; try congruence; destruct t; simpl; try (rewrite Y by auto; reflexivity); rewrite N by discriminate; reflexivity.
Qed.

Lemma scan_indices T l nD nS : T <> TUnknown ->
  map dof_index (filter (is_type T) (concat (scan l nD nS))) =
  seq (match T with TStrong => nS | _ => nD end) (tot (selN T) l).
Proof.
  intros HT. revert nD nS; induction l as [|[n t] l IH]; intros nD nS; simpl; auto.
  rewrite filter_app, map_app, row_indices, IH by auto.
  unfold tot; simpl. rewrite seq_app. f_equal.
  destruct T; reflexivity.
Qed.

Lemma filter_flat_map {A B} (f : B -> bool) (g : A -> list B) l :
  filter f (flat_map g l) = flat_map (fun x => filter f (g x)) l.
Proof. induction l; simpl; auto. rewrite filter_app. congruence. Qed.

Lemma map_flat_map {A B C} (f : B -> C) (g : A -> list B) l :
  map f (flat_map g l) = flat_map (fun x => map f (g x)) l.
Proof. induction l; simpl; auto. rewrite map_app. congruence. Qed.

Lemma stage_indices info mesh k data T : T <> TUnknown ->
  stage info mesh (S k) data ->
  indices_of T k data = seq 0 (below (selN T) info (S k)).
Proof.
  intros HT Hst. unfold indices_of, all_dofs.
  rewrite filter_flat_map, map_flat_map.
  assert (H : forall K, K <= S k ->
    flat_map (fun d => map dof_index (filter (is_type T) (concat (CellsDOFs data d)))) (seq 0 K)
    = seq 0 (below (selN T) info K)).
  { induction K as [|K IH]; intros HK; [reflexivity|].
    rewrite seq_S, flat_map_app', IH, below_S, seq_app by lia. f_equal.
    simpl. rewrite app_nil_r.
    destruct (st_core _ _ _ _ Hst K) as []; [lia|]. rewrite cd_dofs, scan_indices by auto.
    f_equal. destruct T; reflexivity. }
  apply H. auto.
Qed.

Lemma C01_free_numbering k info mesh data :
  k <= 3 -> CreateDOFs k info mesh = Ok data ->
  Permutation (indices_of TDOF k data) (seq 0 (NumberDOFs data)).
Proof.
  intros Hk E. destruct (CreateDOFs_stage _ _ _ _ Hk E) as (_ & Hst).
  rewrite (stage_indices info mesh) by (auto; discriminate). simpl selN.
  rewrite (st_nD _ _ _ _ Hst). apply Permutation_refl.
Qed.

Lemma C02_strong_numbering k info mesh data :
  k <= 3 -> CreateDOFs k info mesh = Ok data ->
  Permutation (indices_of TStrong k data) (seq 0 (NumberStrongs data)).
Proof.
  intros Hk E. destruct (CreateDOFs_stage _ _ _ _ Hk E) as (_ & Hst).
  rewrite (stage_indices info mesh) by (auto; discriminate). simpl selN.
  rewrite (st_nS _ _ _ _ Hst). apply Permutation_refl.
Qed.

(** ** C03 *)

Definition counted (info : MeshDOFsInfo) (p : BoundaryTypes -> bool) (d c : nat) : nat :=
  match boundary_type info d c with Some t => if p t then requested info d c else 0 | None => 0 end.

Lemma list_sum_seq l n (f : nat -> nat) :
  length l = n -> (forall i, i < n -> nth_error l i = Some (f i)) -> list_sum l = sumn n f.
Proof.
  intros Hl H. subst n. induction l as [|a l IH] using rev_ind; simpl; auto.
  rewrite app_length. simpl. rewrite Nat.add_1_r. rewrite sumn_S, list_sum_app. simpl.
  rewrite IH.
  - assert (E : nth_error (l ++ [a]) (length l) = Some (f (length l))).
    { apply H. rewrite app_length; simpl; lia. }
    rewrite nth_error_app2, Nat.sub_diag in E by lia. simpl in E. injection E as ->. lia.
  - intros i Hi. rewrite <- H by (rewrite app_length; simpl; lia). now rewrite nth_error_app1.
Qed.

Lemma tot_sum f info d g :
  wf_types info d ->
  (forall c t, boundary_type info d c = Some t -> t <> BUnknown -> f t (requested info d c) = g c) ->
  tot f (cells_of info d) = sumn (num_cells info d) g.
Proof.
  intros Hw Hf. unfold tot. apply list_sum_seq.
  - rewrite map_length. now apply wf_cells_length.
  - intros i Hi. destruct (cells_of_nth info d i Hw Hi) as (n & t & E1 & E2 & E3 & E4).
    rewrite nth_error_map, E4. simpl. f_equal.
    destruct (requested_cells _ _ _ _ _ E4) as (-> & _). auto.
Qed.

Lemma below_sum f info k g :
  (forall d, d <= k -> wf_types info d) ->
  (forall d c t, boundary_type info d c = Some t -> t <> BUnknown -> f t (requested info d c) = g d c) ->
  below f info (S k) = sum_cells k info g.
Proof.
  intros Hw Hf. unfold below, sum_cells. f_equal. apply map_ext_in. intros d Hd.
  apply in_seq in Hd. apply tot_sum; [apply Hw; lia|auto].
Qed.

Lemma sumn_ext n f g : (forall i, i < n -> f i = g i) -> sumn n f = sumn n g.
Proof.
  induction n; intros H; auto. rewrite !sumn_S, IHn, H by auto. reflexivity.
Qed.

Lemma sum_cells_plus k info f g :
  sum_cells k info f + sum_cells k info g = sum_cells k info (fun d c => f d c + g d c).
Proof.
  unfold sum_cells. induction (seq 0 (S k)) as [|d l IH]; simpl; auto.
  assert (E : forall n a b, sumn n a + sumn n b = sumn n (fun c => a c + b c)).
  { induction n; intros a b; [reflexivity|]. rewrite !sumn_S, <- IHn. lia. }
  rewrite <- E. lia.
Qed.

Lemma sum_cells_ext k info f g :
  (forall d c, d <= k -> c < num_cells info d -> f d c = g d c) ->
  sum_cells k info f = sum_cells k info g.
Proof.
  intros H. unfold sum_cells. f_equal. apply map_ext_in. intros d Hd. apply in_seq in Hd.
  apply sumn_ext. intros c Hc. apply H; auto. lia.
Qed.

Lemma C03_counters k info mesh data :
  k <= 3 -> CreateDOFs k info mesh = Ok data ->
  let n_of (p : BoundaryTypes -> bool) := sum_cells k info (fun d c =>
    match boundary_type info d c with Some t => if p t then requested info d c else 0 | None => 0 end) in
  NumberDOFs data = NumberInternalDOFs data + NumberBoundaryDOFs data /\
  NumberDOFs data + NumberStrongs data = sum_cells k info (requested info) /\
  NumberInternalDOFs data = n_of (fun t => match t with BNone => true | _ => false end) /\
  NumberBoundaryDOFs data = n_of (fun t => match t with BWeak | BRobin => true | _ => false end) /\
  NumberStrongs data = n_of (fun t => match t with BStrong => true | _ => false end).
Proof.
  intros Hk E n_of. destruct (CreateDOFs_stage _ _ _ _ Hk E) as (Hwf & Hst).
  assert (Hw : forall d, d <= k -> wf_types info d).
  { intros d Hd. apply (st_types _ _ _ _ Hst). lia. }
  destruct Hst as [HD HI HB HS _ _ _ _]. rewrite HD, HI, HB, HS.
  rewrite !(below_sum internalN info k (fun d c =>
    match boundary_type info d c with Some t => if isI t then requested info d c else 0 | None => 0 end)).
  2: auto. 2: { intros d c t -> Ht. destruct t; simpl; auto. }
  rewrite !(below_sum bndN info k (fun d c =>
    match boundary_type info d c with Some t => if isB t then requested info d c else 0 | None => 0 end)).
  2: auto. 2: { intros d c t -> Ht. destruct t; simpl; auto. }
  rewrite !(below_sum strongN info k (fun d c =>
    match boundary_type info d c with Some t => if (match t with BStrong => true | _ => false end) then requested info d c else 0 | None => 0 end)).
  2: auto. 2: { intros d c t -> Ht. destruct t; simpl; auto. }
  rewrite !(below_sum freeN info k (fun d c =>
    match boundary_type info d c with Some t => freeN t (requested info d c) | None => 0 end)).
  2: auto. 2: { intros d c t -> Ht. destruct t; simpl; auto. }
  repeat split; auto.
  - rewrite sum_cells_plus. apply sum_cells_ext. intros d c Hd Hc.
    destruct (Hw d Hd c Hc) as (t & -> & Ht). destruct t; simpl; lia || congruence.
  - rewrite sum_cells_plus. apply sum_cells_ext. intros d c Hd Hc.
    destruct (Hw d Hd c Hc) as (t & -> & Ht). destruct t; simpl; lia || congruence.
Qed.

(** ** C04 *)

Definition Tof (t : BoundaryTypes) : DOFType := match t with BStrong => TStrong | _ => TDOF end.

Definition base_of (info : MeshDOFsInfo) (d c : nat) : nat :=
  let f := selN (Tof (type_of info d c)) in
  below f info d + tot f (firstn c (cells_of info d)).

Lemma cell_row_mk t nD nS n :
  cell_row t nD nS n = mk_row (Tof t) (match Tof t with TStrong => nS | _ => nD end) n.
Proof. destruct t; reflexivity. Qed.

Lemma core_row_eq info data d c :
  wf_types info d -> core_done info data d -> c < num_cells info d ->
  nth_error (CellsDOFs data d) c =
  Some (mk_row (Tof (type_of info d c)) (base_of info d c) (requested info d c)).
Proof.
  intros Hw [] Hc.
  destruct (cells_of_nth info d c Hw Hc) as (n & t & E1 & E2 & E3 & E4).
  destruct (requested_cells _ _ _ _ _ E4) as (<- & <-).
  rewrite cd_dofs, scan_nth, E4, cell_row_mk. unfold base_of.
  destruct (requested_cells _ _ _ _ _ E4) as (_ & <-).
  destruct t; reflexivity.
Qed.

Lemma stage_row info mesh k data d c :
  stage info mesh (S k) data -> d <= k -> c < num_cells info d ->
  nth_error (CellsDOFs data d) c =
  Some (mk_row (Tof (type_of info d c)) (base_of info d c) (requested info d c)).
Proof.
  intros [] Hd Hc. apply core_row_eq; auto. - apply st_types; lia. - apply st_core; lia.
Qed.

Lemma C04_cell_dofs k info mesh data d c :
  k <= 3 -> CreateDOFs k info mesh = Ok data -> d <= k -> c < num_cells info d ->
  exists t row,
    boundary_type info d c = Some t /\
    nth_error (CellsDOFs data d) c = Some row /\
    length row = requested info d c /\
    Forall (fun x => dof_type x = match t with BStrong => TStrong | _ => TDOF end) row /\
    nth_error (CellsNumberDOFs data d) c = Some (length (filter (is_type TDOF) row)) /\
    nth_error (CellsNumberStrongs data d) c = Some (length (filter (is_type TStrong) row)) /\
    nth_error (CellsHasInternalDOFs data d) c = Some (match t with BNone => true | _ => false end) /\
    nth_error (CellsHasBoundaryDOFs data d) c = Some (match t with BWeak | BRobin => true | _ => false end).
Proof.
  intros Hk E Hd Hc. destruct (CreateDOFs_stage _ _ _ _ Hk E) as (_ & Hst).
  pose proof (stage_row _ _ _ _ _ _ Hst Hd Hc) as Hrow.
  assert (Hw : wf_types info d) by (apply (st_types _ _ _ _ Hst); lia).
  destruct (st_core _ _ _ _ Hst d) as []; [lia|].
  destruct (cells_of_nth info d c Hw Hc) as (n & t & E1 & E2 & E3 & E4).
  destruct (requested_cells _ _ _ _ _ E4) as (En & Et).
  exists t, (mk_row (Tof t) (base_of info d c) n).
  assert (L : forall T, T <> TUnknown -> length (filter (is_type T) (mk_row (Tof t) (base_of info d c) n)) = selN T t n).
  { intros T HT. pose proof (row_indices T t (base_of info d c) (base_of info d c) n HT) as H.
    apply (f_equal (@length _)) in H. rewrite map_length, seq_length, cell_row_mk in H.
    rewrite <- H. f_equal. f_equal. destruct t; reflexivity. }
  repeat split; auto.
  - rewrite Hrow, <- En, <- Et. reflexivity.
  - now rewrite mk_row_length.
  - apply Forall_forall. intros x Hx. apply mk_row_in in Hx. exact Hx.
  - rewrite L by discriminate. rewrite cd_nD, nth_error_map, E4. reflexivity.
  - rewrite L by discriminate. rewrite cd_nS, nth_error_map, E4. reflexivity.
  - rewrite cd_hI, nth_error_map, E4. reflexivity.
  - rewrite cd_hB, nth_error_map, E4. reflexivity.
Qed.

(** ** C05 *)

Lemma stage_lookup info mesh k data d c i :
  stage info mesh (S k) data -> d <= k -> c < num_cells info d -> i < requested info d c ->
  lookup data {| g_dim := d; g_cell := c; g_dof := i |} =
  Some {| dof_type := Tof (type_of info d c); dof_index := base_of info d c + i |}.
Proof.
  intros Hst Hd Hc Hi. unfold lookup; simpl.
  rewrite (stage_row _ _ _ _ _ _ Hst Hd Hc). unfold mk_row.
  rewrite nth_error_map. rewrite (nth_error_nth' _ 0) by (rewrite seq_length; auto).
  rewrite seq_nth by auto. reflexivity.
Qed.

Lemma in_closure_dofs info mesh d c g :
  In g (closure_dofs info mesh d c) <->
  In (g_dim g, g_cell g) (closure_entities mesh d c) /\ g_dof g < requested info (g_dim g) (g_cell g).
Proof.
  unfold closure_dofs. rewrite in_flat_map. split.
  - intros ([d' c'] & Hin & H). simpl in H. apply in_map_iff in H. destruct H as (i & <- & Hi).
    simpl. apply in_seq in Hi. split; auto. lia.
  - intros (Hin & Hi). exists (g_dim g, g_cell g). split; auto. simpl.
    apply in_map_iff. exists (g_dof g). split; [destruct g; reflexivity|]. apply in_seq. lia.
Qed.

Lemma nth_error_map_seq {A} (f : nat -> A) n c :
  c < n -> nth_error (map f (seq 0 n)) c = Some (f c).
Proof.
  intros H. rewrite nth_error_map, (nth_error_nth' _ 0) by (rewrite seq_length; auto).
  rewrite seq_nth by auto. reflexivity.
Qed.

Lemma stage_closure info mesh k data d c :
  stage info mesh (S k) data -> d <= k -> c < num_cells info d ->
  nth_error (CellsGlobalDOFs data d) c = Some (closure_dofs info mesh d c).
Proof.
  intros [] Hd Hc. destruct (st_glob d) as []; [lia|].
  rewrite gd_g, nth_error_map_seq by auto. reflexivity.
Qed.

Lemma closure_lookup info mesh k data d c g :
  well_formed k info mesh -> stage info mesh (S k) data -> d <= k -> c < num_cells info d ->
  In g (closure_dofs info mesh d c) ->
  g_dim g <= k /\ g_cell g < num_cells info (g_dim g) /\ g_dof g < requested info (g_dim g) (g_cell g) /\
  lookup data g = Some {| dof_type := Tof (type_of info (g_dim g) (g_cell g));
                          dof_index := base_of info (g_dim g) (g_cell g) + g_dof g |}.
Proof.
  intros Hwf Hst Hd Hc Hin. apply in_closure_dofs in Hin. destruct Hin as (Hin & Hi).
  pose proof (closure_dim _ _ _ _ _ Hin) as Hd'.
  destruct (Hwf d c Hd Hc) as (_ & _ & H). specialize (H _ _ Hin).
  repeat split; auto; try lia.
  destruct g as [d' c' i]. simpl in *. eapply stage_lookup; eauto. lia.
Qed.

Lemma C05_closure k info mesh data d c :
  k <= 3 -> CreateDOFs k info mesh = Ok data -> d <= k -> c < num_cells info d ->
  nth_error (CellsGlobalDOFs data d) c = Some (closure_dofs info mesh d c) /\
  forall g, In g (closure_dofs info mesh d c) -> exists x, lookup data g = Some x.
Proof.
  intros Hk E Hd Hc. destruct (CreateDOFs_stage _ _ _ _ Hk E) as (Hwf & Hst).
  split; [now apply (stage_closure info mesh k)|].
  intros g Hg. destruct (closure_lookup _ _ _ _ _ _ _ Hwf Hst Hd Hc Hg) as (_ & _ & _ & H). eauto.
Qed.

Lemma C05_rows k info mesh data d :
  k <= 3 -> CreateDOFs k info mesh = Ok data -> d <= k ->
  length (CellsGlobalDOFs data d) = num_cells info d.
Proof.
  intros Hk E Hd. destruct (CreateDOFs_stage _ _ _ _ Hk E) as (Hwf & Hst).
  destruct Hst. destruct (st_glob d) as []; [lia|]. now rewrite gd_g, map_length, seq_length.
Qed.

(** ** C06 *)

Lemma below_le f info a b : a <= b -> below f info a <= below f info b.
Proof.
  induction 1; auto. rewrite below_S. lia.
Qed.

Lemma tot_firstn_le f l a b : a <= b -> tot f (firstn a l) <= tot f (firstn b l).
Proof.
  intros H. replace (firstn a l) with (firstn a (firstn b l)).
  - rewrite <- (firstn_skipn a (firstn b l)) at 2. rewrite tot_app. lia.
  - rewrite firstn_firstn. f_equal. lia.
Qed.

Lemma tot_firstn_S f l c n t : nth_error l c = Some (n, t) -> tot f (firstn (S c) l) = tot f (firstn c l) + f t n.
Proof.
  intros H. rewrite (firstn_S_nth _ _ H), tot_app. unfold tot at 2. simpl. lia.
Qed.

Lemma tot_firstn_all f l a : tot f (firstn a l) <= tot f l.
Proof. rewrite <- (firstn_skipn a l) at 2. rewrite tot_app. lia. Qed.

Definition sel_in info d c : nat := selN (Tof (type_of info d c)) (type_of info d c) (requested info d c).

Lemma sel_requested info d c : sel_in info d c = requested info d c.
Proof. unfold sel_in. destruct (type_of info d c); reflexivity. Qed.

Lemma base_lt info d1 c1 i1 d2 c2 i2 T :
  wf_types info d1 -> c1 < num_cells info d1 -> i1 < requested info d1 c1 ->
  Tof (type_of info d1 c1) = T -> Tof (type_of info d2 c2) = T ->
  (d1 < d2 \/ d1 = d2 /\ c1 < c2) ->
  base_of info d1 c1 + i1 < base_of info d2 c2 + i2.
Proof.
  intros Hw Hc Hi T1 T2 Hlt. unfold base_of. rewrite T1, T2.
  destruct (cells_of_nth info d1 c1 Hw Hc) as (n & t & E1 & E2 & E3 & E4).
  destruct (requested_cells _ _ _ _ _ E4) as (En & Et).
  pose proof (tot_firstn_S (selN T) _ _ _ _ E4) as HS.
  assert (Hsel : selN T t n = n).
  { subst T. rewrite <- Et. destruct t; reflexivity. }
  rewrite Hsel in HS.
  destruct Hlt as [Hlt|(<- & Hlt)].
  - assert (H1 : below (selN T) info (S d1) <= below (selN T) info d2) by (apply below_le; lia).
    rewrite below_S in H1. pose proof (tot_firstn_all (selN T) (cells_of info d1) (S c1)). lia.
  - pose proof (tot_firstn_le (selN T) (cells_of info d1) (S c1) c2). lia.
Qed.

Lemma Tof_inj_lookup info mesh k data g1 g2 d1 c1 d2 c2 :
  well_formed k info mesh -> stage info mesh (S k) data ->
  d1 <= k -> c1 < num_cells info d1 -> d2 <= k -> c2 < num_cells info d2 ->
  In g1 (closure_dofs info mesh d1 c1) -> In g2 (closure_dofs info mesh d2 c2) ->
  lookup data g1 = lookup data g2 -> g1 = g2.
Proof.
  intros Hwf Hst Hd1 Hc1 Hd2 Hc2 H1 H2 E.
  destruct (closure_lookup _ _ _ _ _ _ _ Hwf Hst Hd1 Hc1 H1) as (A1 & A2 & A3 & A4).
  destruct (closure_lookup _ _ _ _ _ _ _ Hwf Hst Hd2 Hc2 H2) as (B1 & B2 & B3 & B4).
  rewrite A4, B4 in E. injection E as ET EI.
  destruct g1 as [a b i], g2 as [a' b' i']; simpl in *.
  assert (W1 : wf_types info a) by (apply (st_types _ _ _ _ Hst); lia).
  assert (W2 : wf_types info a') by (apply (st_types _ _ _ _ Hst); lia).
  destruct (lt_eq_lt_dec a a') as [[Hlt|Heq]|Hgt].
  - pose proof (base_lt info a b i a' b' i' _ W1 A2 A3 ET eq_refl (or_introl Hlt)). lia.
  - subst a'. destruct (lt_eq_lt_dec b b') as [[Hlt|Heq]|Hgt].
    + pose proof (base_lt info a b i a b' i' _ W1 A2 A3 ET eq_refl (or_intror (conj eq_refl Hlt))). lia.
    + subst b'. f_equal. lia.
    + pose proof (base_lt info a b' i' a b i _ W1 B2 B3 eq_refl ET (or_intror (conj eq_refl Hgt))). lia.
  - pose proof (base_lt info a' b' i' a b i _ W2 B2 B3 eq_refl ET (or_introl Hgt)). lia.
Qed.

Lemma C06_conformity k info mesh data d1 c1 l1 g1 d2 c2 l2 g2 :
  k <= 3 -> CreateDOFs k info mesh = Ok data ->
  d1 <= k -> d2 <= k ->
  nth_error (CellsGlobalDOFs data d1) c1 = Some l1 -> In g1 l1 ->
  nth_error (CellsGlobalDOFs data d2) c2 = Some l2 -> In g2 l2 ->
  (exists x, lookup data g1 = Some x) /\
  (lookup data g1 = lookup data g2 <-> g1 = g2).
Proof.
  intros Hk E Hd1 Hd2 L1 G1 L2 G2.
  pose proof (C05_rows k info mesh data d1 Hk E Hd1) as R1.
  pose proof (C05_rows k info mesh data d2 Hk E Hd2) as R2.
  assert (c1 < num_cells info d1) by (rewrite <- R1; eapply nth_error_lt; eauto).
  assert (c2 < num_cells info d2) by (rewrite <- R2; eapply nth_error_lt; eauto).
  destruct (CreateDOFs_stage _ _ _ _ Hk E) as (Hwf & Hst).
  rewrite (stage_closure info mesh k) in L1, L2 by auto.
  injection L1 as <-. injection L2 as <-. split.
  - destruct (closure_lookup _ _ _ _ _ _ _ Hwf Hst Hd1 H G1) as (_ & _ & _ & A4). eauto.
  - split; [|congruence]. intros HE. apply (Tof_inj_lookup info mesh k data g1 g2 d1 c1 d2 c2); auto.
Qed.

(** a closure list names every unknown at most once when the entities are distinct *)
Lemma NoDup_flat_map {A B} (f : A -> list B) l :
  NoDup l -> (forall x, In x l -> NoDup (f x)) ->
  (forall x y z, In x l -> In y l -> In z (f x) -> In z (f y) -> x = y) ->
  NoDup (flat_map f l).
Proof.
  induction l as [|a l IH]; simpl; intros Hn Hf Hd; [constructor|].
  inversion Hn as [|? ? Ha Hl]; subst.
  assert (Hi : NoDup (flat_map f l)) by (apply IH; auto; intros; eapply Hd; eauto).
  assert (Hx : NoDup (f a)) by auto.
  assert (Hdisj : forall z, In z (f a) -> ~ In z (flat_map f l)).
  { intros z Hz Hz'. apply in_flat_map in Hz'. destruct Hz' as (y & Hy & Hz').
    apply Ha. rewrite (Hd a y z) by auto. auto. }
  revert Hdisj Hx. generalize (f a). intros la Hdisj Hx. induction la as [|z la IHla]; simpl; auto.
  inversion Hx; subst. constructor.
  - rewrite in_app_iff. intros [H|H]; auto. apply (Hdisj z); simpl; auto.
  - apply IHla; auto. intros w Hw. apply Hdisj. now right.
Qed.

Lemma closure_dofs_nodup info mesh d c :
  NoDup (closure_entities mesh d c) -> NoDup (closure_dofs info mesh d c).
Proof.
  intros H. unfold closure_dofs. apply NoDup_flat_map; auto.
  - intros [d' c'] _. apply FinFun.Injective_map_NoDup; [|apply seq_NoDup].
    intros i j E. now injection E.
  - intros [a b] [a' b'] z _ _ H1 H2. simpl in *.
    apply in_map_iff in H1. destruct H1 as (i & <- & _).
    apply in_map_iff in H2. destruct H2 as (j & E & _). injection E as <- <- _. reflexivity.
Qed.

(** ** C07 *)

Lemma count_type_flat T data f (l : list (nat * nat)) g :
  (forall e, In e l -> count_type T data (f e) = g e) ->
  count_type T data (flat_map f l) = list_sum (map g l).
Proof.
  unfold count_type. induction l as [|a l IH]; simpl; intros H; auto.
  rewrite filter_app, app_length, IH by auto. rewrite H by auto. reflexivity.
Qed.

Lemma count_type_entity info mesh k data d c T : T <> TUnknown ->
  stage info mesh (S k) data -> d <= k -> c < num_cells info d ->
  count_type T data (map (fun i => {| g_dim := d; g_cell := c; g_dof := i |}) (seq 0 (requested info d c)))
  = selN T (type_of info d c) (requested info d c).
Proof.
  intros HT Hst Hd Hc. unfold count_type.
  set (n := requested info d c).
  assert (Hl : forall i, In i (seq 0 n) -> lookup data {| g_dim := d; g_cell := c; g_dof := i |} =
    Some {| dof_type := Tof (type_of info d c); dof_index := base_of info d c + i |}).
  { intros i Hi. apply in_seq in Hi. eapply stage_lookup; eauto. unfold n in Hi. lia. }
  destruct (is_type T {| dof_type := Tof (type_of info d c); dof_index := 0 |}) eqn:Et.
  - rewrite filter_all.
    + rewrite map_length, seq_length. destruct T, (type_of info d c); simpl in *; congruence.
    + intros g Hg. apply in_map_iff in Hg. destruct Hg as (i & <- & Hi). rewrite Hl by auto. exact Et.
  - rewrite filter_none.
    + simpl. destruct T, (type_of info d c); simpl in *; congruence.
    + intros g Hg. apply in_map_iff in Hg. destruct Hg as (i & <- & Hi). rewrite Hl by auto. exact Et.
Qed.

Lemma stage_count info mesh k data d c T : T <> TUnknown ->
  well_formed k info mesh -> stage info mesh (S k) data -> d <= k -> c < num_cells info d ->
  count_type T data (closure_dofs info mesh d c) =
  list_sum (map (fun e => selN T (type_of info (fst e) (snd e)) (requested info (fst e) (snd e)))
                (closure_entities mesh d c)).
Proof.
  intros HT Hwf Hst Hd Hc. unfold closure_dofs. apply count_type_flat.
  intros [d' c'] Hin. simpl. pose proof (closure_dim _ _ _ _ _ Hin).
  destruct (Hwf d c Hd Hc) as (_ & _ & H'). apply (count_type_entity info mesh k); auto. lia.
Qed.

Lemma filter_split_length {A} (f g : A -> bool) l :
  (forall x, In x l -> xorb (f x) (g x) = true) ->
  length (filter f l) + length (filter g l) = length l.
Proof.
  induction l as [|a l IH]; simpl; intros H; auto.
  specialize (H a (or_introl eq_refl)) as Ha.
  rewrite <- IH by auto. destruct (f a), (g a); simpl in *; try discriminate; lia.
Qed.

Lemma C07_counts k info mesh data d c :
  k <= 3 -> CreateDOFs k info mesh = Ok data -> d <= k -> c < num_cells info d ->
  exists l,
    nth_error (CellsGlobalDOFs data d) c = Some l /\
    nth_error (CellsGlobalNumberDOFs data d) c = Some (count_type TDOF data l) /\
    nth_error (CellsGlobalNumberStrongs data d) c = Some (count_type TStrong data l) /\
    count_type TDOF data l + count_type TStrong data l = length l.
Proof.
  intros Hk E Hd Hc. destruct (CreateDOFs_stage _ _ _ _ Hk E) as (Hwf & Hst).
  exists (closure_dofs info mesh d c). split; [now apply (stage_closure info mesh k)|].
  pose proof Hst as []. destruct (st_glob d) as []; [lia|].
  rewrite gd_nD, gd_nS, !nth_error_map_seq by auto.
  rewrite !(stage_count info mesh k) by (auto; discriminate).
  repeat split.
  rewrite <- !(stage_count info mesh k data d c) by (auto; discriminate).
  unfold count_type. apply filter_split_length. intros g Hg.
  destruct (closure_lookup _ _ _ _ _ _ _ Hwf Hst Hd Hc Hg) as (_ & _ & _ & ->).
  unfold is_type; simpl. destruct (type_of info (g_dim g) (g_cell g)); reflexivity.
Qed.

(** ** C08 *)

Definition sel_pos (T : DOFType) (data : DOFsData) (gl : list GlobalCell_DOF) (p : nat) : bool :=
  match nth_error gl p with
  | Some g => match lookup data g with Some x => is_type T x | None => false end
  | None => false
  end.

Definition idx_at (data : DOFsData) (gl : list GlobalCell_DOF) (p : nat) : nat :=
  match nth_error gl p with
  | Some g => match lookup data g with Some x => dof_index x | None => 0 end
  | None => 0
  end.

Lemma resolve_lookup data g x : lookup data g = Some x -> resolve data g = Ok x.
Proof.
  unfold lookup, resolve, at_. destruct (nth_error (CellsDOFs data (g_dim g)) (g_cell g)); [|discriminate].
  simpl. intros ->. reflexivity.
Qed.

Definition indices_upto (data : DOFsData) (gl : list GlobalCell_DOF) (n : nat) : cell_indices :=
  {| ci_dofs_local := filter (sel_pos TDOF data gl) (seq 0 n);
     ci_strongs_local := filter (sel_pos TStrong data gl) (seq 0 n);
     ci_dofs_global := map (idx_at data gl) (filter (sel_pos TDOF data gl) (seq 0 n));
     ci_strongs_global := map (idx_at data gl) (filter (sel_pos TStrong data gl) (seq 0 n)) |}.

Lemma cell_indices_ok data gl :
  (forall g, In g gl -> exists x, lookup data g = Some x /\ dof_type x <> TUnknown) ->
  cell_indices_loop data gl = Ok (indices_upto data gl (length gl)).
Proof.
  intros H. unfold cell_indices_loop.
  match goal with |- for_loop ?n ?f ?s = _ =>
    destruct (@for_loop_total _ (fun i ci => ci = indices_upto data gl i) f n s) as (s' & E & Hs)
  end.
  - reflexivity.
  - intros i s Hi ->. destruct (nth_error_Some_ex gl Hi) as (g & Eg).
    destruct (H g) as (x & Ex & Hx); [eapply nth_error_In; eauto|].
    unfold at_. rewrite Eg. simpl bind. rewrite (resolve_lookup _ _ _ Ex). simpl bind.
    unfold indices_upto. rewrite seq_S, !filter_app, !map_app. simpl.
    assert (S1 : forall T, sel_pos T data gl i = is_type T x) by (intros T; unfold sel_pos; now rewrite Eg, Ex).
    assert (S2 : idx_at data gl i = dof_index x) by (unfold idx_at; now rewrite Eg, Ex).
    rewrite !S1. unfold is_type.
    destruct (dof_type x); try congruence; simpl; rewrite S2, !app_nil_r; eauto.
  - rewrite E, Hs. reflexivity.
Qed.

Lemma foldM_rows {A B} (f : A -> outcome B) (g : A -> B) l acc :
  (forall a, In a l -> f a = Ok (g a)) ->
  foldM (fun acc a => b <- f a ;; Ok (acc ++ [b])) l acc = Ok (acc ++ map g l).
Proof.
  revert acc; induction l as [|a l IH]; intros acc H; simpl.
  - now rewrite app_nil_r.
  - rewrite H by now left. simpl. rewrite IH by (intros; apply H; now right). now rewrite <- app_assoc.
Qed.

Lemma Sorted_filter_seq f a n : StronglySorted lt (filter f (seq a n)).
Proof.
  revert a; induction n; intros a; simpl; [constructor|].
  destruct (f a); [|apply IHn]. constructor; [apply IHn|].
  apply Forall_forall. intros x Hx. apply filter_In in Hx. destruct Hx as (Hx & _).
  apply in_seq in Hx. lia.
Qed.

Lemma filter_split_perm {A} (f g : A -> bool) l :
  (forall x, In x l -> xorb (f x) (g x) = true) ->
  Permutation (filter f l ++ filter g l) l.
Proof.
  induction l as [|a l IH]; simpl; intros H; auto.
  specialize (H a (or_introl eq_refl)) as Ha.
  destruct (f a), (g a); simpl in *; try discriminate.
  - constructor. apply IH. auto.
  - apply Permutation_sym. apply Permutation_cons_app. apply Permutation_sym. apply IH. auto.
Qed.

Lemma good_sel T data gl : T <> TUnknown ->
  good_indices T data gl (filter (sel_pos T data gl) (seq 0 (length gl)))
    (map (idx_at data gl) (filter (sel_pos T data gl) (seq 0 (length gl)))).
Proof.
  intros HT. split; [now rewrite map_length|]. split; [apply Sorted_filter_seq|].
  intros i p Hp. rewrite nth_error_map, Hp. apply nth_error_In in Hp.
  apply filter_In in Hp. destruct Hp as (_ & Hp). unfold sel_pos in Hp. unfold idx_at; simpl.
  destruct (nth_error gl p) as [g|]; [|discriminate].
  destruct (lookup data g) as [x|] eqn:Ex; [|discriminate].
  exists g, x. repeat split; auto. unfold is_type in Hp. destruct T, (dof_type x); congruence.
Qed.

Lemma C08_indices k info mesh data d :
  k <= 3 -> CreateDOFs k info mesh = Ok data -> d <= k ->
  exists rows, ComputeCellsDOFsIndices data d = Ok rows /\
    length rows = num_cells info d /\
    forall c ci gl, nth_error rows c = Some ci -> nth_error (CellsGlobalDOFs data d) c = Some gl ->
      Permutation (ci_dofs_local ci ++ ci_strongs_local ci) (seq 0 (length gl)) /\
      good_indices TDOF data gl (ci_dofs_local ci) (ci_dofs_global ci) /\
      good_indices TStrong data gl (ci_strongs_local ci) (ci_strongs_global ci).
Proof.
  intros Hk E Hd. pose proof (C05_rows k info mesh data d Hk E Hd) as R1.
  destruct (CreateDOFs_stage _ _ _ _ Hk E) as (Hwf & Hst).
  assert (Hl : forall gl, In gl (CellsGlobalDOFs data d) ->
    forall g, In g gl -> exists x, lookup data g = Some x /\ (dof_type x = TDOF \/ dof_type x = TStrong)).
  { intros gl Hgl g Hg. apply In_nth_error in Hgl. destruct Hgl as (c & Hgl).
    assert (Hc : c < num_cells info d) by (rewrite <- R1; eapply nth_error_lt; eauto).
    rewrite (stage_closure info mesh k) in Hgl by auto. injection Hgl as <-.
    destruct (closure_lookup _ _ _ _ _ _ _ Hwf Hst Hd Hc Hg) as (_ & _ & _ & A4).
    eexists. split; [exact A4|]. simpl. destruct (type_of info (g_dim g) (g_cell g)); simpl; auto. }
  exists (map (fun gl => indices_upto data gl (length gl)) (CellsGlobalDOFs data d)).
  split; [|split].
  - unfold ComputeCellsDOFsIndices. rewrite (foldM_rows _ (fun gl => indices_upto data gl (length gl))); auto.
    intros gl Hgl. apply cell_indices_ok. intros g Hg. destruct (Hl gl Hgl g Hg) as (x & Ex & Hx).
    exists x. split; auto. destruct Hx; congruence.
  - now rewrite map_length.
  - intros c ci gl Hci Hgl. rewrite nth_error_map, Hgl in Hci. simpl in Hci. injection Hci as <-. simpl.
    split; [|split; apply good_sel; discriminate].
    apply filter_split_perm. intros p Hp. apply in_seq in Hp. unfold sel_pos.
    destruct (nth_error_Some_ex gl (i := p)) as (g & Eg); [lia|]. rewrite Eg.
    destruct (Hl gl) with (g := g) as (x & Ex & Hx).
    { eapply nth_error_In. exact Hgl. } { eapply nth_error_In. exact Eg. }
    rewrite Ex. unfold is_type. destruct Hx as [-> | ->]; reflexivity.
Qed.

(** ** C09 *)

Lemma C09_fails_iff k info mesh :
  k <= 3 ->
  (well_formed k info mesh -> exists data, CreateDOFs k info mesh = Ok data) /\
  (~ well_formed k info mesh -> CreateDOFs k info mesh = Throw).
Proof.
  intros Hk. rewrite CreateDOFs_upto by auto. split; intros H.
  - destruct (create_upto_ok info mesh (S k)) as (data & E & _); [lia|now apply wf_upto_iff|eauto].
  - destruct (create_upto_cases info mesh (S k)) as [Hw|Et]; auto; [lia|].
    exfalso. apply H. now apply wf_upto_iff.
Qed.

Lemma C09_dichotomy k info mesh :
  k <= 3 ->
  (well_formed k info mesh /\ exists data, CreateDOFs k info mesh = Ok data) \/
  (~ well_formed k info mesh /\ CreateDOFs k info mesh = Throw).
Proof.
  intros Hk. destruct (C09_fails_iff k info mesh Hk) as (H1 & H2).
  destruct (CreateDOFs k info mesh) eqn:E.
  - left. split; [|eauto]. now destruct (CreateDOFs_stage _ _ _ _ Hk E).
  - right. split; auto. intros Hw. destruct (H1 Hw). discriminate.
  - exfalso. rewrite CreateDOFs_upto in E by auto.
    destruct (create_upto_cases info mesh (S k)) as [Hw|Et]; [lia| |congruence].
    destruct (create_upto_ok info mesh (S k)) as (data & E' & _); [lia|auto|congruence].
Qed.

(** ** C10 *)

Lemma existsb_iff {A} (f : A -> bool) l : existsb f l = true <-> exists x, In x l /\ f x = true.
Proof. apply existsb_exists. Qed.

Lemma stage_has info mesh k data d c :
  stage info mesh (S k) data -> d <= k -> c < num_cells info d ->
  nth_error (CellsHasInternalDOFs data d) c = Some (isI (type_of info d c)) /\
  nth_error (CellsHasBoundaryDOFs data d) c = Some (isB (type_of info d c)).
Proof.
  intros Hst Hd Hc.
  assert (Hw : wf_types info d) by (apply (st_types _ _ _ _ Hst); lia).
  destruct (st_core _ _ _ _ Hst d) as []; [lia|].
  destruct (cells_of_nth info d c Hw Hc) as (n & t & E1 & E2 & E3 & E4).
  destruct (requested_cells _ _ _ _ _ E4) as (En & ->).
  now rewrite cd_hI, cd_hB, !nth_error_map, E4.
Qed.

(** what the flags really describe: the cells of the closure one dimension down *)
Lemma C10_flags_facets k info mesh data d c :
  k <= 3 -> CreateDOFs k info mesh = Ok data -> 1 <= d -> d <= k -> c < num_cells info d ->
  exists bi bb,
    nth_error (CellsGlobalHasInternalDOFs data d) c = Some bi /\
    nth_error (CellsGlobalHasBoundaryDOFs data d) c = Some bb /\
    (bi = true <-> exists c', In (d - 1, c') (closure_entities mesh d c) /\
       nth_error (CellsHasInternalDOFs data (d - 1)) c' = Some true) /\
    (bb = true <-> exists c', In (d - 1, c') (closure_entities mesh d c) /\
       nth_error (CellsHasBoundaryDOFs data (d - 1)) c' = Some true).
Proof.
  intros Hk E H1 Hd Hc. destruct (CreateDOFs_stage _ _ _ _ Hk E) as (Hwf & Hst).
  pose proof Hst as []. destruct (st_glob d) as []; [lia|].
  assert (Hf : hasflags d = true) by (destruct d; [lia|reflexivity]).
  rewrite Hf in *. rewrite gd_hI, gd_hB, !nth_error_map_seq by auto.
  eexists. eexists. split; [reflexivity|]. split; [reflexivity|].
  assert (Hfe : forall e, In e (flag_entities mesh d c) <-> exists c', e = (d - 1, c') /\ In (d - 1, c') (closure_entities mesh d c)).
  { clear - H1 Hk Hd. intros [a b]. destruct d as [|[|[|[|d]]]]; try lia; simpl.
    - split.
      + intros H. apply in_map_iff in H. destruct H as (x & Ex & Hx). injection Ex as <- <-.
        exists x. split; auto. apply in_or_app. left. now apply in_map.
      + intros (c' & Ex & Hin). injection Ex as -> ->. apply in_app_or in Hin.
        destruct Hin as [Hin|[Hin|[]]]; [auto|discriminate].
    - split.
      + intros H. apply in_map_iff in H. destruct H as (x & Ex & Hx). injection Ex as <- <-.
        exists x. split; auto. apply in_or_app. right. apply in_or_app. left. now apply in_map.
      + intros (c' & Ex & Hin). injection Ex as -> ->. repeat (apply in_app_or in Hin; destruct Hin as [Hin|Hin]); auto.
        * apply in_map_iff in Hin. destruct Hin as (x & Ex & _). discriminate.
        * destruct Hin as [Hin|[]]; discriminate.
    - split.
      + intros H. apply in_map_iff in H. destruct H as (x & Ex & Hx). injection Ex as <- <-.
        exists x. split; auto. apply in_or_app. right. apply in_or_app. right. apply in_or_app. left. now apply in_map.
      + intros (c' & Ex & Hin). injection Ex as -> ->. repeat (apply in_app_or in Hin; destruct Hin as [Hin|Hin]); auto.
        * apply in_map_iff in Hin. destruct Hin as (x & Ex & _). discriminate.
        * apply in_map_iff in Hin. destruct Hin as (x & Ex & _). discriminate.
        * destruct Hin as [Hin|[]]; discriminate. }
  simpl. destruct (Hwf d c Hd Hc) as (_ & _ & Hv).
  split; rewrite existsb_iff; split.
  - intros (e & He & Hi). apply Hfe in He. destruct He as (c' & -> & Hin). exists c'. split; auto. simpl in Hi.
    destruct (stage_has info mesh k data (d - 1) c' Hst) as (-> & _); [lia|auto|]. now rewrite Hi.
  - intros (c' & Hin & Hi). exists (d - 1, c'). split; [apply Hfe; eauto|]. simpl.
    destruct (stage_has info mesh k data (d - 1) c' Hst) as (A & _); [lia|auto|]. congruence.
  - intros (e & He & Hi). apply Hfe in He. destruct He as (c' & -> & Hin). exists c'. split; auto. simpl in Hi.
    destruct (stage_has info mesh k data (d - 1) c' Hst) as (_ & ->); [lia|auto|]. now rewrite Hi.
  - intros (c' & Hin & Hi). exists (d - 1, c'). split; [apply Hfe; eauto|]. simpl.
    destruct (stage_has info mesh k data (d - 1) c' Hst) as (_ & A); [lia|auto|]. congruence.
Qed.

(** ** C11 *)

Definition marked (mesh : Mesh) (ci : ConstantDOFsInfo) (d : nat) : Prop :=
  forall c, c < mesh_cells mesh d -> BoundaryMap ci (mesh_marker mesh d c) <> None.

Lemma dim_case mesh ci info d :
  CellsNumDOFs info d = [] -> CellsBoundaryInfo info d = [] ->
  (marked mesh ci d /\ exists info', Create_Constant_DOFsInfo_dim d (mesh_cells mesh d) (mesh_marker mesh d) ci info = Ok info'
     /\ dim_done mesh ci info' d /\
     forall d', d' <> d -> CellsNumDOFs info' d' = CellsNumDOFs info d' /\ CellsBoundaryInfo info' d' = CellsBoundaryInfo info d') \/
  (~ marked mesh ci d /\ Create_Constant_DOFsInfo_dim d (mesh_cells mesh d) (mesh_marker mesh d) ci info = Throw).
Proof.
  intros F1 F2. unfold Create_Constant_DOFsInfo_dim. rewrite F1, F2, !resize_nil.
  set (n := mesh_cells mesh d). set (m := mesh_marker mesh d).
  set (bU := {| bi_type := BUnknown; bi_marker := 0 |}).
  set (val := fun c => match BoundaryMap ci (m c) with Some b => b | None => bU end).
  set (body := fun c b => v <- map_at (BoundaryMap ci) (m c) ;; set_idx b c v).
  assert (Hstep : forall i s, i < n -> BoundaryMap ci (m i) <> None -> s = partial_map val bU n i ->
            exists s', body i s = Ok s' /\ s' = partial_map val bU n (S i)).
  { intros i s Hi Hm ->. unfold body, map_at.
    destruct (BoundaryMap ci (m i)) as [b|] eqn:Eb; [|congruence]. simpl bind.
    exists (partial_map val bU n (S i)). split; [|].
    - assert (E : val i = b) by (unfold val; now rewrite Eb).
      rewrite <- E. now rewrite partial_map_set.
    - reflexivity. }
  assert (D : forall i, {BoundaryMap ci (m i) <> None} + {~ BoundaryMap ci (m i) <> None}).
  { intros i. destruct (BoundaryMap ci (m i)); [left; discriminate|right; congruence]. }
  destruct (bounded_dec _ D n) as [Hv|(c & Hc & Hn & Hb)].
  - left. split; [exact Hv|].
    destruct (@for_loop_total _ (fun i s => s = partial_map val bU n i) body n (repeat bU n)) as (s & E & Hs).
    + now rewrite partial_map_0.
    + intros i s Hi. apply Hstep; auto.
    + rewrite E. simpl bind. eexists. split; [reflexivity|].
      rewrite Hs, partial_map_n. split.
      * unfold dim_done; simpl. rewrite !upd_eq. fold n. split; [reflexivity|]. split.
        -- now rewrite map_length, seq_length.
        -- intros c Hc. exists (val c). rewrite nth_error_map_seq by auto. split; auto.
           unfold val. fold m. destruct (BoundaryMap ci (m c)) eqn:Eb; auto. now specialize (Hv c Hc).
      * intros d' Hd'. simpl. now rewrite !upd_neq by auto.
  - right. split.
    + intros H. apply Hn. now apply H.
    + rewrite (@for_loop_throw _ (fun i s => s = partial_map val bU n i) body n c); auto.
      * now rewrite partial_map_0.
      * intros i s Hi. apply Hstep; auto. lia.
      * intros s ->. unfold body, map_at. destruct (BoundaryMap ci (m c)); auto. exfalso. apply Hn. discriminate.
Qed.

Fixpoint const_upto (mesh : Mesh) (ci : ConstantDOFsInfo) (K : nat) : outcome MeshDOFsInfo :=
  match K with
  | 0 => Ok empty_info
  | S d => i <- const_upto mesh ci d ;;
           Create_Constant_DOFsInfo_dim d (mesh_cells mesh d) (mesh_marker mesh d) ci i
  end.

Lemma const_upto_eq k mesh ci : k <= 3 -> Create_Constant_DOFsInfo k mesh ci = const_upto mesh ci (S k).
Proof.
  intros Hk. destruct k as [|[|[|[|k]]]]; [| | | |lia]; try reflexivity.
  - simpl. unfold Create_Constant_DOFsInfo_2D.
    set (x := Create_Constant_DOFsInfo_dim 0 _ _ _ _). destruct x; reflexivity.
  - simpl. unfold Create_Constant_DOFsInfo_3D.
    set (x := Create_Constant_DOFsInfo_dim 0 _ _ _ _). destruct x as [i0| |]; try reflexivity. simpl.
    set (x := Create_Constant_DOFsInfo_dim 1 _ _ _ _). destruct x as [i1| |]; reflexivity.
Qed.

Lemma const_upto_cases mesh ci K :
  ((forall d, d < K -> marked mesh ci d) /\ exists info, const_upto mesh ci K = Ok info /\
     (forall d, d < K -> dim_done mesh ci info d) /\
     (forall d, K <= d -> CellsNumDOFs info d = [] /\ CellsBoundaryInfo info d = [])) \/
  (~ (forall d, d < K -> marked mesh ci d) /\ const_upto mesh ci K = Throw).
Proof.
  induction K as [|K [(Hm & info & E & Hd & Hf)|(Hn & E)]]; simpl.
  - left. split; [lia|]. exists empty_info. split; auto. split; [lia|]. intros d _. split; reflexivity.
  - rewrite E. simpl bind. destruct (Hf K) as (F1 & F2); auto.
    destruct (dim_case mesh ci info K F1 F2) as [(H1 & info' & E' & H2 & H3)|(H1 & E')].
    + left. split.
      * intros d Hlt. destruct (Nat.eq_dec d K) as [->|]; auto. apply Hm. lia.
      * exists info'. split; auto. split.
        -- intros d Hlt. destruct (Nat.eq_dec d K) as [->|Hne]; auto.
           destruct (H3 d Hne) as (G1 & G2). unfold dim_done. rewrite G1, G2. apply Hd. lia.
        -- intros d Hle. destruct (H3 d) as (G1 & G2); [lia|]. rewrite G1, G2. apply Hf. lia.
    + right. split; auto.
  - right. rewrite E. split; [|reflexivity]. intros H. apply Hn. intros d Hlt. apply H. lia.
Qed.

Lemma C11_constant k mesh ci :
  k <= 3 ->
  (forall info, Create_Constant_DOFsInfo k mesh ci = Ok info -> forall d, d <= k -> dim_done mesh ci info d) /\
  (Create_Constant_DOFsInfo k mesh ci = Throw <->
     exists d c, d <= k /\ c < mesh_cells mesh d /\ BoundaryMap ci (mesh_marker mesh d c) = None) /\
  Create_Constant_DOFsInfo k mesh ci <> UB.
Proof.
  intros Hk. rewrite const_upto_eq by auto.
  destruct (const_upto_cases mesh ci (S k)) as [(Hm & info & E & Hd & _)|(Hn & E)]; rewrite E;
    (split; [|split; [split|discriminate]]); try discriminate; try reflexivity.
  - intros info' H d Hle. injection H as <-. apply Hd. lia.
  - intros (d & c & Hle & Hc & Hb). exfalso. apply (Hm d) in Hb; auto; lia.
  - intros _.
    assert (D : forall d i, {BoundaryMap ci (mesh_marker mesh d i) <> None} + {~ BoundaryMap ci (mesh_marker mesh d i) <> None}).
    { intros d i. destruct (BoundaryMap ci (mesh_marker mesh d i)); [left; discriminate|right; congruence]. }
    assert (Dm : forall d, {marked mesh ci d} + {~ marked mesh ci d}).
    { intros d. unfold marked. induction (mesh_cells mesh d) as [|n IH]; [left; lia|].
      destruct IH as [IH|IH].
      - destruct (D d n) as [H|H].
        + left. intros c Hc. destruct (Nat.eq_dec c n) as [->|]; auto. apply IH. lia.
        + right. intros H'. apply H. apply H'. lia.
      - right. intros H'. apply IH. intros c Hc. apply H'. lia. }
    destruct (bounded_dec _ Dm (S k)) as [Hv|(d & Hlt & Hnd & _)]; [contradiction|].
    destruct (bounded_dec _ (D d) (mesh_cells mesh d)) as [Hv|(c & Hc & Hnc & _)]; [contradiction|].
    exists d, c. repeat split; auto; [lia|]. destruct (BoundaryMap ci (mesh_marker mesh d c)); auto.
    exfalso. apply Hnc. discriminate.
Qed.
