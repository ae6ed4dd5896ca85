(** The driver of the elliptic problem on networks of segments: the assembled system. *)
From Coq Require Import List Arith Bool Reals Lra Lia.
From Verif Require Import Base RSum MatrixModel DofsModel DofsSpec DofsProofs DofsProofs2 AssemblerModel AssemblerSpec AssemblerProofs AssemblerProofs2
  EquationModel EquationSpec EquationProofs VemQuadModel VemQuadSpec VemModel VemSpec DriverModel DriverSpec DriverSpec2 DriverProofs DriverProofs2 DriverProofs3 DriverProofs4
  DriverProofs5 DriverProofs6 DriverProofs7 LagrangeModel LagrangeSpec LagrangeProofs LagrangeProofs2 Mcc2dModel Mcc2dProofs3 ParabolicModel Elliptic1dModel Elliptic1dSpec Elliptic1dProofs.
Import ListNotations.
Local Open Scope R_scope.

Section Net.
Variables (m : Mesh2D) (info : MeshDOFsInfo) (data : DOFsData) (G : MeshGeometricData1D) (k : nat).
Hypothesis NW : network m info data G k.
Local Notation mesh := (md_mesh m).
Local Notation nc := (num_cells info 1).
Local Notation nv := (num_cells info 0).
Local Notation n := (k + 1)%nat.
Local Notation clo c := (closure_dofs info mesh 1 c).
Local Notation NF := (NumberDOFs data).
Local Notation NS := (NumberStrongs data).

Lemma nwC : CreateDOFs 1 info mesh = Ok data.
Proof using NW. apply (nw_dofs _ _ _ _ _ NW). Qed.
Lemma nwk : (1 <= k)%nat.
Proof using NW. apply (nw_order _ _ _ _ _ NW). Qed.
Lemma net_wf : well_formed 1 info mesh.
Proof using NW. destruct (C09_dichotomy 1 info mesh) as [(W & _)|(_ & E)]; auto. rewrite nwC in E. discriminate. Qed.
Lemma net_ends c : (c < nc)%nat -> exists l, Cell1D_vertices mesh c = end_of m c 0 :: end_of m c 1 :: l.
Proof using NW.
  intros Hc. destruct (net_wf 1%nat c) as (_ & H & _); auto. specialize (H eq_refl). unfold end_of. destruct (Cell1D_vertices mesh c) as [|a [|b l]]; simpl in *; try lia. exists l. reflexivity.
Qed.
Lemma net_end_range c i : (c < nc)%nat -> (i < 2)%nat -> (end_of m c i < nv)%nat.
Proof using NW.
  intros Hc Hi. destruct (net_wf 1%nat c) as (_ & _ & H); auto. apply (H 0%nat). destruct (net_ends c Hc) as (l & E). simpl. rewrite E. simpl.
  destruct i as [|[|i]]; [left|right; left|lia]; reflexivity.
Qed.

(** unknown number j of a cell *)
Definition cell_dof (c j : nat) : GlobalCell_DOF :=
  match j with O => entity_dof 0 (end_of m c 0) 0 | 1%nat => entity_dof 0 (end_of m c 1) 0 | S (S i) => entity_dof 1 c i end.
Lemma net_closure c : (c < nc)%nat -> clo c = map (cell_dof c) (seq 0 n).
Proof using NW.
  intros Hc. unfold closure_dofs. simpl closure_entities. destruct (net_ends c Hc) as (l & E). rewrite E. simpl firstn. simpl map at 2. simpl. rewrite app_nil_r.
  rewrite (nw_vertex_unknowns _ _ _ _ _ NW (end_of m c 0)), (nw_vertex_unknowns _ _ _ _ _ NW (end_of m c 1)), (nw_cell_unknowns _ _ _ _ _ NW c) by (auto; apply net_end_range; auto; lia).
  pose proof nwk. replace n with (2 + (k - 1))%nat by lia. rewrite seq_app, map_app. simpl. rewrite <- seq_shift, <- (seq_shift _ 0), !map_map. reflexivity.
Qed.
Lemma net_length c : (c < nc)%nat -> length (clo c) = n.
Proof using NW. intros Hc. rewrite net_closure by auto. now rewrite map_length, seq_length. Qed.
Lemma net_nth c j : (c < nc)%nat -> (j < n)%nat -> nth_error (clo c) j = Some (cell_dof c j).
Proof using NW. intros Hc Hj. rewrite net_closure by auto. rewrite nth_error_map, (nth_error_nth' _ 0%nat) by (rewrite seq_length; auto). rewrite seq_nth by auto. reflexivity. Qed.
Lemma net_valid c j : (c < nc)%nat -> (j < n)%nat -> valid 1 info (cell_dof c j).
Proof using NW.
  intros Hc Hj. destruct j as [|[|i]]; cbn [cell_dof].
  - repeat split; simpl; [lia|apply net_end_range; auto; lia|rewrite (nw_vertex_unknowns _ _ _ _ _ NW); [lia|apply net_end_range; auto; lia]].
  - repeat split; simpl; [lia|apply net_end_range; auto; lia|rewrite (nw_vertex_unknowns _ _ _ _ _ NW); [lia|apply net_end_range; auto; lia]].
  - repeat split; simpl; [lia|auto|rewrite (nw_cell_unknowns _ _ _ _ _ NW); [lia|auto]].
Qed.

Lemma net_packed c : (c < nc)%nat ->
  packed 1 c (single_handler data)
     {| num_total_boundary_dofs := NumberBoundaryDOFs data; num_total_dofs := NF; num_total_strong := NS; offsets_DOFs := [0%nat]; offsets_Strongs := [0%nat] |}
     {| l_num_total_dofs := n; l_offsets_DOFs := [0%nat] |} /\
  nth_error (CellsGlobalDOFs data 1) c = Some (clo c).
Proof using NW.
  intros Hc. destruct (C05_closure 1 info mesh data 1 c) as (Gl & HL); auto; try apply nwC; try lia. split; [|exact Gl].
  constructor; simpl; auto.
  - repeat constructor. exists info, mesh. apply nwC.
  - unfold local_count_dofs, idx_. simpl. unfold at_. rewrite Gl. cbn [bind]. simpl. rewrite net_length by auto. reflexivity.
Qed.

(** the value of an unknown *)
Definition vof (uD uS : list R) (h : GlobalCell_DOF) : R := match value_of data uD uS h with Some y => y | None => 0 end.
Lemma vof_some uD uS h : length uD = NF -> length uS = NS -> valid 1 info h -> value_of data uD uS h = Some (vof uD uS h).
Proof using NW.
  intros LD LS V. unfold vof. destruct (valid_lookup 1 info mesh data ltac:(lia) nwC h V) as (x & t & Hx & _ & B). unfold value_of. rewrite Hx.
  destruct B as [(_ & Ty & Lt)|(_ & Ty & Lt)]; rewrite Ty; rewrite (nth_error_nth' _ 0) by lia; reflexivity.
Qed.
Lemma segment_value_at uD uS c j : (c < nc)%nat -> (j < n)%nat -> segment_value m info data uD uS c j = vof uD uS (cell_dof c j).
Proof using NW. intros Hc Hj. unfold segment_value. rewrite net_nth by auto. reflexivity. Qed.

Lemma segment_solution_ok c uD uS : (c < nc)%nat -> length uD = NF -> length uS = NS ->
  exists loc, global_solution_to_local_solution 1 c [data] n [0%nat] [0%nat] [0%nat] uD uS = Ok loc /\ length loc = n /\
    segment_solution data uD uS c = Ok (vec_of_list loc) /\
    forall j, (j < n)%nat -> nth j loc 0 = segment_value m info data uD uS c j.
Proof using NW.
  intros Hc LD LS. destruct (net_packed c Hc) as (Pk & Gl).
  destruct (C14_restrict 1 c (single_handler data) _ _ uD uS Pk) as (loc & E & L & PM & HP); auto.
  simpl in E, L. exists loc. split; [exact E|]. split; [exact L|]. split.
  { unfold segment_solution. pose proof (pk_local Pk) as El. simpl dofs_data in El. rewrite El. cbn [bind l_num_total_dofs l_offsets_DOFs]. rewrite E. reflexivity. }
  intros j Hj. rewrite segment_value_at by auto.
  destruct (valid_lookup 1 info mesh data ltac:(lia) nwC _ (net_valid c j Hc Hj)) as (x & t & Hx & _ & B).
  assert (SD : slot_dof 1 c (dofs_data (single_handler data)) (0%nat, j) = Some x).
  { simpl dofs_data. unfold slot_dof. simpl. rewrite Gl, net_nth by auto. exact Hx. }
  destruct (HP (0%nat, j)) as [(r & Fr & Lr & En)|(r & Fr & Lr & En)].
  { apply in_slots. exists data. simpl. rewrite (local_size_at 1 c data _ Gl), net_length by auto. auto. }
  - unfold free_number in Fr. rewrite SD in Fr. unfold vof, value_of. rewrite Hx. destruct (dof_type x) eqn:Ty; try discriminate.
    inversion Fr; subst r. simpl in En. unfold slot_pos in En. simpl in En. rewrite ?Nat.add_0_r in En. rewrite ?Nat.add_0_r in Lr. rewrite <- En.
    rewrite (nth_error_nth' loc 0) by lia. reflexivity.
  - unfold strong_number in Fr. rewrite SD in Fr. unfold vof, value_of. rewrite Hx. destruct (dof_type x) eqn:Ty; try discriminate.
    inversion Fr; subst r. simpl in En. unfold slot_pos in En. simpl in En. rewrite ?Nat.add_0_r in En. rewrite ?Nat.add_0_r in Lr. rewrite <- En.
    rewrite (nth_error_nth' loc 0) by lia. reflexivity.
Qed.

(** sum of F over the places of the free unknown r in the cell *)
Definition places (c r : nat) (F : nat -> R) : R := rsum n (fun j => if free_is data (cell_dof c j) r then F j else 0).
Lemma net_slots c : (c < nc)%nat -> slots 1 c [data] = map (pair 0%nat) (seq 0 n).
Proof using NW. intros Hc. destruct (net_packed c Hc) as (_ & Gl). unfold slots. simpl. rewrite (local_size_at 1 c data _ Gl), net_length by auto. apply app_nil_r. Qed.
Lemma net_free c r F : (c < nc)%nat ->
  lsum (fun p => if numbered (free_number 1 c (single_handler data) p) r then F (slot_pos (single_handler data) p) else 0) (slots 1 c [data]) = places c r F.
Proof using NW.
  intros Hc. destruct (net_packed c Hc) as (_ & Gl). rewrite net_slots, lsum_map, lsum_seq by auto. unfold places. apply rsum_ext. intros j Hj.
  unfold free_number, slot_dof, slot_pos. simpl. rewrite Gl, net_nth by auto. unfold free_is. destruct (lookup data (cell_dof c j)) as [x|]; [|reflexivity].
  unfold is_type. destruct (dof_type x); simpl; try reflexivity. rewrite !Nat.add_0_r. reflexivity.
Qed.
Lemma places_pair c vD F : (c < nc)%nat -> length vD = NF ->
  rsum NF (fun r => nth r vD 0 * places c r F) = rsum n (fun j => segment_value m info data vD (repeat 0 NS) c j * F j).
Proof using NW.
  intros Hc LD. unfold places. rewrite (rsum_ext NF _ (fun r => rsum n (fun j => nth r vD 0 * (if free_is data (cell_dof c j) r then F j else 0)))) by (intros; symmetry; apply rsum_scal).
  rewrite rsum_swap. apply rsum_ext. intros j Hj. rewrite segment_value_at by auto.
  rewrite (rsum_ext NF _ (fun r => (if free_is data (cell_dof c j) r then nth r vD 0 else 0) * F j)) by (intros r Hr; destruct (free_is data (cell_dof c j) r); ring).
  rewrite rsum_scal_r. f_equal. rewrite <- LD. apply (rsum_free data (cell_dof c j) vD _ NS). apply vof_some; auto; [apply repeat_length|]. apply net_valid; auto.
Qed.

(** ** The weak term *)
Lemma add_weak1_ok d e row values off step : (d <= 1)%nat -> (e < num_cells info d)%nat -> nth_error (CellsDOFs data d) e = Some row ->
  (forall i, (i < requested info d e)%nat -> (off + step * i < v_size values)%nat) ->
  adds NF (add_weak row values off step)
    (fun r => rsum (requested info d e) (fun i => if free_is data (entity_dof d e i) r then v_at values (off + step * i) else 0)).
Proof using NW.
  intros Hd He Hr Hv. destruct (valid_row 1 info mesh data ltac:(lia) nwC d e Hd He) as (row' & Er & Lr & HL). rewrite Er in Hr. inversion Hr; subst row'.
  unfold add_weak. rewrite <- Lr. apply (adds_loop _ _ _ (fun i r => if free_is data (entity_dof d e i) r then v_at values (off + step * i) else 0)).
  intros i Hi s Ls.
  destruct (valid_lookup 1 info mesh data ltac:(lia) nwC (entity_dof d e i)) as (x & t & Hx & _ & Hcase).
  { split; [auto|]. split; [auto|]. simpl. lia. }
  unfold at_. rewrite <- HL, Hx. cbn [bind]. unfold free_is. rewrite Hx. destruct Hcase as [(_ & Ty & B)|(_ & Ty & B)].
  - rewrite Ty. unfold is_type. rewrite Ty. cbn [andb]. exists s. split; [auto|]. split; [auto|]. intros r. ring.
  - rewrite Ty. unfold is_type. rewrite Ty. cbn [andb]. rewrite vec_get_in by (apply Hv; lia). cbn [bind].
    destruct (AddValue_in s (dof_index x) (v_at values (off + step * i))) as (s' & E & L); [lia|]. exists s'. split; [auto|]. split; [lia|].
    intros r. destruct (AddValue_ok _ _ _ _ E) as (_ & _ & V). rewrite V. destruct (Nat.eqb_spec (dof_index x) r); [subst; ring|ring].
Qed.

Definition end_datum (P : EllipticProblem1D) (c i : nat) : R :=
  if weak_vertex info (end_of m c i) then end_sign i * at_point (ep_weak P (marker_of info 0 (end_of m c i))) (md_coords m (end_of m c i)) else 0.
Lemma net_info v : (v < nv)%nat -> exists b row, nth_error (CellsBoundaryInfo info 0) v = Some b /\ boundary_type info 0 v = Some (bi_type b) /\ marker_of info 0 v = bi_marker b /\
  nth_error (CellsDOFs data 0) v = Some row /\ length row = 1%nat /\ Forall (fun x => dof_type x = match bi_type b with BStrong => TStrong | _ => TDOF end) row.
Proof using NW.
  intros He. destruct (C04_cell_dofs 1 info mesh data 0 v) as (t & row & Ht & Hr & L & F & _); auto; try apply nwC; try lia.
  unfold boundary_type in Ht. unfold marker_of, boundary_type. destruct (nth_error (CellsBoundaryInfo info 0) v) as [b|]; [|discriminate].
  simpl in Ht. inversion Ht; subst t. exists b, row. rewrite (nw_vertex_unknowns _ _ _ _ _ NW) in L by auto. repeat split; auto.
Qed.
Lemma weak_ends_ok P c : (c < nc)%nat ->
  adds NF (weak_ends m info data (ep_weak P) c) (fun r => rsum 2 (fun i => if free_is data (cell_dof c i) r then end_datum P c i else 0)).
Proof using NW.
  intros Hc. unfold weak_ends. apply (adds_loop _ 2 _ (fun i r => if free_is data (cell_dof c i) r then end_datum P c i else 0)). intros i Hi.
  pose proof (net_end_range c i Hc Hi) as Rv. destruct (net_ends c Hc) as (l & El).
  assert (Ei : nth_error (Cell1D_vertices mesh c) i = Some (end_of m c i)) by (rewrite El; destruct i as [|[|i]]; [reflexivity|reflexivity|lia]).
  destruct (net_info (end_of m c i) Rv) as (b & row & Eb & Et & Em & Er & Lr & F).
  unfold weak_end, idx_, at_. rewrite Ei. cbn [bind]. rewrite Eb. cbn [bind]. unfold end_datum, weak_vertex. rewrite Eb.
  destruct (bi_type b) eqn:Ty; cbn [is_weak negb];
    try (eapply adds_ext; [intros s; reflexivity|intros r; destruct (free_is data (cell_dof c i) r); reflexivity|apply adds_none]).
  rewrite function_evaluation_ok by (right; simpl; lia). cbn [bind]. rewrite Er. cbn [bind].
  eapply adds_ext; [intros s; reflexivity| |apply (add_weak1_ok 0 (end_of m c i) row _ 0 1); auto; try lia].
  - intros r. rewrite (nw_vertex_unknowns _ _ _ _ _ NW) by auto. simpl. rewrite Em.
    replace (cell_dof c i) with (entity_dof 0 (end_of m c i) 0) by (destruct i as [|[|i]]; [reflexivity|reflexivity|lia]).
    unfold end_sign, at_point. destruct (free_is _ _ _); [|ring]. destruct (i =? 0)%nat; ring.
  - intros j Hj. rewrite (nw_vertex_unknowns _ _ _ _ _ NW) in Hj by auto. simpl. lia.
Qed.

(** ** The Strong values *)
Definition T1 (g : nat -> R -> R -> R -> R) (h : GlobalCell_DOF) : R := at_point (g (marker_of info 0 (g_cell h))) (md_coords m (g_cell h)).
Lemma strong_vertices_ok g : exists gS, strong_vertices m info data g (repeat 0 NS) = Ok gS /\ length gS = NS /\
  forall v uD, (v < nv)%nat -> strong_entity info 0 v -> value_of data uD gS (entity_dof 0 v 0) = Some (at_point (g (marker_of info 0 v)) (md_coords m v)).
Proof using NW.
  pose (W := fun D s => written 1 info data (T1 g) D (repeat 0 NF, s)).
  destruct (@for_loop_total _ (fun i s => W (fun h => (g_cell h < i)%nat /\ g_dim h = 0%nat /\ strong_entity info 0 (g_cell h)) s)
    (fun v s => strong_vertex m info data g s v) (Cell0Ds_number mesh) (repeat 0 NS)) as (gS & Eg & Wg).
  - eapply written_ext; [|apply written_init with (k := 1%nat) (mesh := mesh); [lia|apply nwC]]. intros h _. split; [tauto|]. intros (H & _). lia.
  - intros v s Hv Hw. rewrite (nw_vertices _ _ _ _ _ NW) in Hv. destruct (net_info v Hv) as (b & row & Eb & Et & Em & Er & Lr & F).
    unfold strong_vertex. unfold at_ at 1. rewrite Eb. cbn [bind].
    destruct (bi_type b) eqn:Ty; cbn [is_strong negb];
      try (exists s; split; auto; eapply written_ext; [|exact Hw]; intros h _; unfold strong_entity; split;
           [intros (A & B & C); split; [lia|auto]|intros (A & B & C); split; [|auto]; destruct (Nat.eq_dec (g_cell h) v) as [Z|Z]; [rewrite Z, Et in C; congruence|lia]]).
    rewrite function_evaluation_ok by (right; simpl; lia). cbn [bind]. unfold at_. rewrite Er. cbn [bind].
    destruct (written_step 1 info mesh data ltac:(lia) nwC (T1 g) (fun h => (g_cell h < v)%nat /\ g_dim h = 0%nat /\ strong_entity info 0 (g_cell h)) 0 v row {| v_size := m_cols (column3 (md_coords m v)); v_at := fun i => g (bi_marker b) (m_at (column3 (md_coords m v)) 0 i)
      (m_at (column3 (md_coords m v)) 1 i) (m_at (column3 (md_coords m v)) 2 i) |} 0 (repeat 0 NF, s) ltac:(lia) Hv Er) as (s' & E & W').
    + simpl. lia.
    + intros i Hi. unfold T1, at_point. simpl. now rewrite Em.
    + exact Hw.
    + rewrite set_strong_dofs_ok in E by auto. apply bind_Ok in E. destruct E as (u & E & Eu). inversion Eu; subst s'. exists u. split; [exact E|].
      eapply written_ext; [|exact W']. intros h _. cbv beta. unfold entity. split.
      * intros [(A & B & C)|(A & B)]; [split; [lia|auto]|]. rewrite B. split; [lia|]. split; [exact A|exact Et].
      * intros (A & B & C). destruct (Nat.eq_dec (g_cell h) v) as [Z|Z]; [right; auto|left; split; [lia|auto]].
  - exists gS. split; [exact Eg|]. destruct Wg as ((_ & Lg) & Wg). split; [exact Lg|]. intros v uD Hv Hs.
    assert (V : valid 1 info (entity_dof 0 v 0)) by (repeat split; simpl; auto; rewrite (nw_vertex_unknowns _ _ _ _ _ NW) by auto; lia).
    destruct (Wg _ V) as (W1 & _). rewrite (nw_vertices _ _ _ _ _ NW) in W1. specialize (W1 ltac:(simpl; auto)). unfold val in W1. simpl in W1.
    destruct (valid_lookup 1 info mesh data ltac:(lia) nwC _ V) as (x & t & Hx & Ht & B). unfold strong_entity in Hs. simpl in Ht. rewrite Hs in Ht. inversion Ht; subst t.
    destruct B as [(_ & Ty & _)|(Hne & _)]; [|congruence]. unfold value_of in *. rewrite Hx, Ty in *. exact W1.
Qed.
End Net.
