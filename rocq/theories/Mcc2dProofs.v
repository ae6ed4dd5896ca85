(** The driver of the mixed problem: handlers, local matrix, boundary terms. *)
From Coq Require Import List Arith Bool Reals Lra Lia.
From Verif Require Import Base RSum MatrixModel DofsModel DofsSpec DofsProofs DofsProofs2 AssemblerModel AssemblerSpec AssemblerProofs AssemblerProofs2
  EquationModel EquationSpec EquationProofs VemQuadModel VemModel VemSpec DriverModel DriverSpec DriverSpec2 DriverProofs DriverProofs2 DriverProofs3 DriverProofs4
  DriverProofs5 DriverProofs6 VemMccModel Mcc2dModel Mcc2dSpec.
Import ListNotations.
Local Open Scope R_scope.

(** ** Two handlers *)
Definition pair_count (d0 d1 : DOFsData) : count_dofs_data :=
  {| num_total_boundary_dofs := NumberBoundaryDOFs d0 + NumberBoundaryDOFs d1; num_total_dofs := NumberDOFs d0 + NumberDOFs d1;
     num_total_strong := NumberStrongs d0 + NumberStrongs d1; offsets_DOFs := [0; 0 + NumberDOFs d0]%nat; offsets_Strongs := [0; 0 + NumberStrongs d0]%nat |}.
Lemma pair_count_ok d0 d1 : count_dofs [d0; d1] = Ok (pair_count d0 d1).
Proof. reflexivity. Qed.

Section Pair.
Variables (m : Mesh2D) (info0 info1 : MeshDOFsInfo) (d0 d1 : DOFsData).
Local Notation mesh := (md_mesh m).
Hypothesis HC0 : CreateDOFs 2 info0 mesh = Ok d0.
Hypothesis HN0 : Cell2Ds_number mesh = num_cells info0 2.
Hypothesis HC1 : CreateDOFs 2 info1 mesh = Ok d1.
Hypothesis HN1 : Cell2Ds_number mesh = num_cells info1 2.
Local Notation cl0 c := (closure_dofs info0 mesh 2 c).
Local Notation cl1 c := (closure_dofs info1 mesh 2 c).

Definition pair_local (c : nat) : local_count_dofs_data :=
  {| l_num_total_dofs := length (cl0 c) + length (cl1 c); l_offsets_DOFs := [0; 0 + length (cl0 c)]%nat |}.
Definition pair_handlers (c : nat) : local_matrix_to_global_matrix_dofs_data := mixed_handlers d0 d1 (pair_count d0 d1) (pair_local c).

Lemma closure0 c : (c < Cell2Ds_number mesh)%nat -> nth_error (CellsGlobalDOFs d0 2) c = Some (cl0 c).
Proof using HC0 HN0. clear HC1 HN1. intros Hc. destruct (C05_closure 2 info0 mesh d0 2 c) as (G & _); auto; try lia. Qed.
Lemma closure1 c : (c < Cell2Ds_number mesh)%nat -> nth_error (CellsGlobalDOFs d1 2) c = Some (cl1 c).
Proof using HC1 HN1. clear HC0 HN0. intros Hc. destruct (C05_closure 2 info1 mesh d1 2 c) as (G & _); auto; try lia. Qed.
Lemma pair_local_ok c : (c < Cell2Ds_number mesh)%nat -> local_count_dofs 2 c [d0; d1] = Ok (pair_local c).
Proof using HC0 HN0 HC1 HN1.
  intros Hc. unfold local_count_dofs, idx_. simpl. unfold at_. rewrite (closure0 c Hc), (closure1 c Hc). reflexivity.
Qed.
Lemma pair_packed c : (c < Cell2Ds_number mesh)%nat -> packed 2 c (pair_handlers c) (pair_count d0 d1) (pair_local c).
Proof using HC0 HN0 HC1 HN1.
  intros Hc. constructor; auto.
  - repeat constructor; [exists info0, mesh|exists info1, mesh]; auto.
  - apply pair_local_ok. exact Hc.
Qed.
Lemma pair_slots c : (c < Cell2Ds_number mesh)%nat ->
  slots 2 c [d0; d1] = map (pair 0%nat) (seq 0 (length (cl0 c))) ++ map (pair 1%nat) (seq 0 (length (cl1 c))).
Proof using HC0 HN0 HC1 HN1.
  intros Hc. unfold slots. simpl. rewrite (local_size_at 2 c d0 _ (closure0 c Hc)), (local_size_at 2 c d1 _ (closure1 c Hc)). rewrite app_nil_r. reflexivity.
Qed.
Lemma free_bound info data h x : CreateDOFs 2 info mesh = Ok data -> Cell2Ds_number mesh = num_cells info 2 -> forall c, (c < Cell2Ds_number mesh)%nat ->
  In h (closure_dofs info mesh 2 c) -> lookup data h = Some x ->
  (dof_type x = TDOF /\ (dof_index x < NumberDOFs data)%nat) \/ (dof_type x = TStrong /\ (dof_index x < NumberStrongs data)%nat).
Proof using.
  clear HC0 HN0 HC1 HN1. intros HC HN c Hc Hh Hx. destruct (closure_valid m info data c h HC HN Hc Hh) as (V & _).
  destruct (valid_lookup 2 info mesh data ltac:(lia) HC h V) as (x' & t & Hx' & _ & B). rewrite Hx in Hx'. inversion Hx'; subst x'.
  destruct B as [(_ & T & L)|(_ & T & L)]; auto.
Qed.

Lemma pair_free_velocity c r (F : nat -> R) : (c < Cell2Ds_number mesh)%nat -> (r < NumberDOFs d0)%nat ->
  lsum (fun p => if numbered (free_number 2 c (pair_handlers c) p) r then F (slot_pos (pair_handlers c) p) else 0) (slots 2 c [d0; d1]) =
  free_places info0 mesh d0 c r F.
Proof using HC0 HN0 HC1 HN1.
  intros Hc Hr. rewrite (pair_slots c Hc), lsum_app, !lsum_map.
  rewrite (lsum_0 (fun x => if numbered (free_number 2 c (pair_handlers c) (1%nat, x)) r then _ else 0)).
  - rewrite Rplus_0_r. unfold free_places. apply lsum_ext. intros p Hp. unfold free_number, slot_dof, slot_pos. simpl. rewrite (closure0 c Hc).
    destruct (nth_error (cl0 c) p) as [h|]; [|reflexivity]. unfold free_is. destruct (lookup d0 h) as [x|]; [|reflexivity]. unfold is_type.
    destruct (dof_type x); simpl; try reflexivity. rewrite !Nat.add_0_r. reflexivity.
  - intros p _. unfold free_number, slot_dof. simpl. rewrite (closure1 c Hc). destruct (nth_error (cl1 c) p) as [h|]; [|reflexivity].
    destruct (lookup d1 h) as [x|]; [|reflexivity]. destruct (dof_type x); try reflexivity. simpl. destruct (Nat.eqb_spec (dof_index x + NumberDOFs d0) r); [lia|reflexivity].
Qed.
Lemma pair_free_pressure c r (F : nat -> R) : (c < Cell2Ds_number mesh)%nat ->
  lsum (fun p => if numbered (free_number 2 c (pair_handlers c) p) (NumberDOFs d0 + r)%nat then F (slot_pos (pair_handlers c) p) else 0) (slots 2 c [d0; d1]) =
  free_places info1 mesh d1 c r (fun p => F (length (cl0 c) + p)%nat).
Proof using HC0 HN0 HC1 HN1.
  intros Hc. rewrite (pair_slots c Hc), lsum_app, !lsum_map.
  rewrite (lsum_0 (fun x => if numbered (free_number 2 c (pair_handlers c) (0%nat, x)) _ then _ else 0)).
  - rewrite Rplus_0_l. unfold free_places. apply lsum_ext. intros p Hp. unfold free_number, slot_dof, slot_pos. simpl. rewrite (closure1 c Hc).
    destruct (nth_error (cl1 c) p) as [h|]; [|reflexivity]. unfold free_is. destruct (lookup d1 h) as [x|]; [|reflexivity]. unfold is_type.
    destruct (dof_type x); simpl; try reflexivity. rewrite (Nat.add_comm p).
    destruct (Nat.eqb_spec (dof_index x + NumberDOFs d0) (NumberDOFs d0 + r)), (Nat.eqb_spec (dof_index x) r); try lia; reflexivity.
  - intros p _. unfold free_number, slot_dof. simpl. rewrite (closure0 c Hc). destruct (nth_error (cl0 c) p) as [h|] eqn:Eh; [|reflexivity].
    destruct (lookup d0 h) as [x|] eqn:Ex; [|reflexivity].
    destruct (free_bound info0 d0 h x HC0 HN0 c Hc (nth_error_In _ _ Eh) Ex) as [(T & L)|(T & L)]; rewrite T; [|reflexivity].
    simpl. destruct (Nat.eqb_spec (dof_index x + 0) (NumberDOFs d0 + r)); [lia|reflexivity].
Qed.

Section Values.
Variables (vD pD gS hS : list R).
Hypothesis LvD : length vD = NumberDOFs d0.
Hypothesis LpD : length pD = NumberDOFs d1.
Hypothesis LgS : length gS = NumberStrongs d0.
Hypothesis LhS : length hS = NumberStrongs d1.
Lemma pair_value0 c p : (c < Cell2Ds_number mesh)%nat -> (p < length (cl0 c))%nat ->
  slot_value 2 c (pair_handlers c) (vD ++ pD) (gS ++ hS) (0%nat, p) = cell_value info0 mesh d0 vD gS c p.
Proof using HC0 HN0 LvD LgS LpD LhS.
  clear HC1 HN1. intros Hc Hp. unfold slot_value, cell_value, free_number, strong_number, slot_dof. simpl. rewrite (closure0 c Hc).
  destruct (nth_error (cl0 c) p) as [h|] eqn:Eh; [|reflexivity]. unfold value_of. destruct (lookup d0 h) as [x|] eqn:Ex; [|reflexivity].
  destruct (free_bound info0 d0 h x HC0 HN0 c Hc (nth_error_In _ _ Eh) Ex) as [(T & L)|(T & L)]; rewrite T; rewrite Nat.add_0_r, app_nth1 by lia;
    rewrite (nth_error_nth' _ 0) by lia; reflexivity.
Qed.
Lemma pair_value1 c p : (c < Cell2Ds_number mesh)%nat -> (p < length (cl1 c))%nat ->
  slot_value 2 c (pair_handlers c) (vD ++ pD) (gS ++ hS) (1%nat, p) = cell_value info1 mesh d1 pD hS c p.
Proof using HC1 HN1 LvD LpD LgS LhS.
  clear HC0 HN0. intros Hc Hp. unfold slot_value, cell_value, free_number, strong_number, slot_dof. simpl. rewrite (closure1 c Hc).
  destruct (nth_error (cl1 c) p) as [h|] eqn:Eh; [|reflexivity]. unfold value_of. destruct (lookup d1 h) as [x|] eqn:Ex; [|reflexivity].
  destruct (free_bound info1 d1 h x HC1 HN1 c Hc (nth_error_In _ _ Eh) Ex) as [(T & L)|(T & L)]; rewrite T; rewrite app_nth2 by lia.
  - rewrite LvD, Nat.add_sub. rewrite (nth_error_nth' _ 0) by lia. reflexivity.
  - rewrite LgS, Nat.add_sub. rewrite (nth_error_nth' _ 0) by lia. reflexivity.
Qed.
(** the unknowns of a cell *)
Lemma pair_solution c : (c < Cell2Ds_number mesh)%nat -> exists loc,
  global_solution_to_local_solution 2 c [d0; d1] (length (cl0 c) + length (cl1 c)) (l_offsets_DOFs (pair_local c)) (offsets_DOFs (pair_count d0 d1)) (offsets_Strongs (pair_count d0 d1))
    (vD ++ pD) (gS ++ hS) = Ok loc /\ length loc = (length (cl0 c) + length (cl1 c))%nat /\
  (forall p, (p < length (cl0 c))%nat -> nth p loc 0 = cell_value info0 mesh d0 vD gS c p) /\
  (forall p, (p < length (cl1 c))%nat -> nth (length (cl0 c) + p) loc 0 = cell_value info1 mesh d1 pD hS c p).
Proof using HC0 HN0 HC1 HN1 LvD LpD LgS LhS.
  intros Hc. eexists. split; [apply (restrict_ok 2 c (pair_handlers c) (pair_count d0 d1) (pair_local c) (vD ++ pD) (gS ++ hS) (pair_packed c Hc)); rewrite app_length; simpl; lia|].
  change (dofs_data (pair_handlers c)) with [d0; d1]. rewrite (pair_slots c Hc). rewrite map_app, !map_map. split; [rewrite app_length, !map_length, !seq_length; reflexivity|]. split.
  - intros p Hp. rewrite app_nth1 by (rewrite map_length, seq_length; auto). rewrite (nth_indep _ 0 (slot_value 2 c (pair_handlers c) (vD ++ pD) (gS ++ hS) (0%nat, 0%nat))) by (rewrite map_length, seq_length; auto).
    rewrite (map_nth (fun x => slot_value 2 c (pair_handlers c) (vD ++ pD) (gS ++ hS) (0%nat, x))), seq_nth by auto. apply pair_value0; auto.
  - intros p Hp. rewrite app_nth2 by (rewrite map_length, seq_length; lia). rewrite map_length, seq_length. replace (length (cl0 c) + p - length (cl0 c))%nat with p by lia.
    rewrite (nth_indep _ 0 (slot_value 2 c (pair_handlers c) (vD ++ pD) (gS ++ hS) (1%nat, 0%nat))) by (rewrite map_length, seq_length; auto).
    rewrite (map_nth (fun x => slot_value 2 c (pair_handlers c) (vD ++ pD) (gS ++ hS) (1%nat, x))), seq_nth by auto. apply pair_value1; auto.
Qed.
End Values.
End Pair.

(** ** The local matrix *)
Section Cell.
Variables (create : nat -> outcome MixedSpace) (edges : list nat) (nu : nat -> nat) (c n n' : nat) (E : MixedForms) (P : MixedProblem) (k : R).
Hypothesis HE : mixed_forms create edges nu c n n' E.
Hypothesis Hk : greatest_inverse E (mp_inverse_diffusion P) k.
Local Notation nq := (v_size (xf_weights E)).
Local Notation w := (v_at (xf_weights E)).
Definition entry_vv (p j : nat) : R :=
  rsum nq (fun q => w q * rsum 2 (fun i => rsum 2 (fun j' => at_x (mp_inverse_diffusion P) E q (i + 3 * j')%nat * m_at (xf_V E j') q j) * m_at (xf_V E i) q p)) + k * m_at (xf_S E) p j.
Definition entry_pv (p j : nat) : R := rsum nq (fun q => w q * (m_at (xf_D E) q j * m_at (xf_P E) q p)).
Definition entry_vp (p j : nat) : R := - rsum nq (fun q => w q * (m_at (xf_P E) q j * (m_at (xf_D E) q p + rsum 2 (fun i => at_x (mp_advection P) E q i * m_at (xf_V E i) q p)))).
Definition entry_pp (p j : nat) : R := rsum nq (fun q => w q * (at_x (mp_reaction P) E q * m_at (xf_P E) q j * m_at (xf_P E) q p)).
Definition entry_source (p : nat) : R := rsum nq (fun q => w q * (at_x (mp_source P) E q * m_at (xf_P E) q p)).

Lemma mixed_cell_ok : exists A b, mixed_cell (xf_space E) P (n + n') n' = Ok (A, b) /\ m_rows A = (n + n')%nat /\ m_cols A = (n + n')%nat /\ v_size b = (n + n')%nat /\
  (forall p j, (p < n)%nat -> (j < n)%nat -> m_at A p j = entry_vv p j) /\ (forall p j, (p < n)%nat -> m_at A p (n + j)%nat = entry_vp p j) /\
  (forall p j, (j < n)%nat -> m_at A (n + p)%nat j = entry_pv p j) /\ (forall p j, m_at A (n + p)%nat (n + j)%nat = entry_pp p j) /\
  (forall p, (p < n)%nat -> v_at b p = 0) /\ (forall p, v_at b (n + p)%nat = entry_source p).
Proof using HE Hk.
  destruct HE as [E1 (P1 & P2 & P3) (V1 & V2) (D1 & D2) (Q1 & Q2) (S1 & S2) _ _ _ _]. set (nq' := nq) in *.
  unfold mixed_cell. rewrite V1. cbn [bind]. rewrite D1. cbn [bind]. rewrite Q1. cbn [bind]. cbv zeta. fold (xf_points E). fold (xf_weights E).
  assert (HP : (m_cols (xf_points E) = 0 \/ 3 <= m_rows (xf_points E))%nat) by auto.
  rewrite (function_evaluation_ok _ (mp_reaction P)) by auto. cbn [bind].
  destruct (function_evaluation_array_ok 3 (xf_points E) (mp_advection P) HP) as (la & Ela & Lla & Fla & Vla). rewrite Ela. cbn [bind]. rewrite P1 in Fla.
  destruct (function_evaluation_array_ok 9 (xf_points E) (mp_inverse_diffusion P) HP) as (l & El & Ll & Fl & Vl). rewrite El. cbn [bind]. rewrite P1 in Fl.
  rewrite (function_evaluation_ok _ (mp_source P)) by auto. cbn [bind]. fold nq' in Fl, Fla.
  destruct (C21_tensor l [xf_V E 0; xf_V E 1] [xf_V E 0; xf_V E 1] (xf_weights E) nq' n n) as (A & EA & (A1 & A2 & A3)); auto; try discriminate; try (apply shaped_pair; auto; fail); try reflexivity; try (simpl; lia).
  rewrite EA. cbn [bind].
  destruct (k_max_ok nq' l P3 Fl) as (k' & Ek & Uk & (e0 & q0 & He0 & Hq0 & Ak)); [intros Z; rewrite Z in Ll; discriminate|].
  rewrite Ek. cbn [bind]. rewrite S1. cbn [bind]. destruct S2 as (SR & SC).
  assert (k' = k) as ->.
  { destruct Hk as (Uk' & (e1 & q1 & He1 & Hq1 & Ak')). rewrite Ll in *. apply Rle_antisym.
    - rewrite Ak, Vl by auto. apply Uk'; auto.
    - rewrite Ak'. specialize (Uk e1 q1 He1 Hq1). rewrite Vl in Uk by auto. exact Uk. }
  unfold madd at 1. cbn [m_rows m_cols mscal]. rewrite A1, A2, SR, SC, !Nat.eqb_refl. cbn [andb bind].
  destruct (C21_reaction {| v_size := m_cols (xf_points E); v_at := fun q => at_x (mp_reaction P) E q |} (xf_P E) (xf_P E) (xf_weights E) nq' n' n') as (M & EM & (M1 & M2 & M3)); auto; [reflexivity|].
  unfold at_x, at_col in EM. rewrite EM. cbn [bind].
  destruct (C21_advection la (xf_P E) [xf_V E 0; xf_V E 1] (xf_weights E) nq' n' n) as (T & ET & (T1 & T2 & T3)); auto; try discriminate; try (apply shaped_pair; auto; fail); try reflexivity; try (simpl; lia).
  rewrite ET. cbn [bind].
  destruct (twb_ok (xf_P E) (xf_weights E) (xf_D E) nq' n' n Q2 eq_refl D2) as (B & EB & (B1 & B2 & B3)). rewrite EB. cbn [bind].
  destruct (C21_forcing {| v_size := m_cols (xf_points E); v_at := fun q => at_x (mp_source P) E q |} (xf_P E) (xf_weights E) nq' n') as (f & Ef & (F1 & F2)); auto; [reflexivity|].
  unfold at_x, at_col in Ef. rewrite Ef. cbn [bind].
  unfold madd at 1. rewrite T1, T2, B1, B2, !Nat.eqb_refl. cbn [andb bind].
  unfold beside. cbn [m_rows m_cols mscal mtrans]. rewrite ?A1, ?A2, B1, B2, M1, M2, !Nat.eqb_refl. cbn [andb bind]. rewrite ?B1, ?B2.
  unfold stacked. cbn [m_rows m_cols]. rewrite !Nat.eqb_refl. cbn [andb bind].
  unfold joined. cbn [v_size vzero]. rewrite F1, Nat.add_sub, !Nat.eqb_refl. cbn [andb bind].
  eexists. eexists. split; [reflexivity|]. cbn [m_rows m_cols v_size m_at v_at]. split; [reflexivity|]. split; [reflexivity|]. split; [reflexivity|].
  assert (Hlt : forall x, (n + x <? n)%nat = false) by (intros x; apply Nat.ltb_ge; lia).
  assert (Hsub : forall x, (n + x - n)%nat = x) by (intros; lia).
  assert (Hl : forall x, (x < n)%nat -> (x <? n)%nat = true) by (intros x; apply Nat.ltb_lt).
  split; [|split; [|split; [|split; [|split]]]].
  - intros p j Hp Hj. rewrite (Hl p Hp), (Hl j Hj). cbn [m_at mscal]. unfold entry_vv. f_equal. rewrite A3. apply rsum_ext. intros q Hq. apply Rmult_eq_compat_l. simpl length. apply rsum_ext. intros i Hi. rewrite <- rsum_scal_r.
    apply rsum_ext. intros j' Hj'. rewrite !comp_pair by auto. rewrite Vl by lia. unfold at_x, at_col. ring.
  - intros p j Hp. rewrite (Hl p Hp), Hlt, Hsub. cbn [m_at mscal mtrans]. rewrite B3, T3. unfold entry_vp. rewrite <- rsum_plus, <- !rsum_opp, <- rsum_scal. apply rsum_ext. intros q Hq. simpl length.
    rewrite (rsum_ext 2 (fun d => vcomp la d q * comp [xf_V E 0; xf_V E 1] d q p) (fun i => at_x (mp_advection P) E q i * m_at (xf_V E i) q p)).
    + ring.
    + intros d Hd. rewrite comp_pair by auto. rewrite Vla by lia. reflexivity.
  - intros p j Hj. rewrite Hlt, Hsub, (Hl j Hj). rewrite B3. unfold entry_pv. apply rsum_ext. intros q Hq. ring.
  - intros p j. rewrite !Hlt, !Hsub. rewrite M3. unfold entry_pp. apply rsum_ext. intros q Hq. simpl. unfold at_x, at_col. ring.
  - intros p Hp. rewrite (Hl p Hp). reflexivity.
  - intros p. rewrite Hlt, Hsub, F2. unfold entry_source. apply rsum_ext. intros q Hq. simpl. unfold at_x, at_col. ring.
Qed.

Lemma velocity_entries u r p : rsum n (fun j => entry_vv p j * u j) + rsum n' (fun j => entry_vp p j * r j) = velocity_form E P k u r p.
Proof using HE.
  clear Hk. destruct HE as [E1 (P1 & P2 & P3) (V1 & V2) (D1 & D2) (Q1 & Q2) (S1 & S2) _ _ _ _].
  assert (C : forall d q, (d < 2)%nat -> combine (xf_V E d) u q = rsum n (fun j => m_at (xf_V E d) q j * u j)) by (intros d q Hd; unfold combine; destruct (V2 d Hd) as (_ & ->); reflexivity).
  assert (CP : forall q, combine (xf_P E) r q = rsum n' (fun j => m_at (xf_P E) q j * r j)) by (intros q; unfold combine; destruct Q2 as (_ & ->); reflexivity).
  assert (CS : combine (xf_S E) u p = rsum n (fun j => m_at (xf_S E) p j * u j)) by (unfold combine; destruct S2 as (_ & ->); reflexivity).
  unfold velocity_form. rewrite CS.
  rewrite (rsum_ext n _ (fun j => rsum nq (fun q => w q * rsum 2 (fun i => rsum 2 (fun j' => at_x (mp_inverse_diffusion P) E q (i + 3 * j')%nat * m_at (xf_V E j') q j) * m_at (xf_V E i) q p) * u j)
    + k * (m_at (xf_S E) p j * u j))).
  2:{ intros j Hj. unfold entry_vv. rewrite Rmult_plus_distr_r. f_equal; [symmetry; apply rsum_scal_r|ring]. }
  rewrite rsum_plus, rsum_scal.
  rewrite (rsum_ext n' _ (fun j => rsum nq (fun q => - (w q * (m_at (xf_P E) q j * (m_at (xf_D E) q p + rsum 2 (fun i => at_x (mp_advection P) E q i * m_at (xf_V E i) q p)))) * r j))).
  2:{ intros j Hj. unfold entry_vp. rewrite <- rsum_opp. symmetry. apply rsum_scal_r. }
  rewrite rsum_swap, (rsum_swap n'). 
  match goal with |- ?a + ?b + ?c = _ => replace (a + b + c) with ((a + c) + b) by ring end. f_equal. rewrite <- rsum_plus. apply rsum_ext. intros q Hq.
  rewrite !rsum2, !C by lia. rewrite CP.
  rewrite (rsum_ext n' _ (fun j => - (w q * (m_at (xf_D E) q p + rsum 2 (fun i => at_x (mp_advection P) E q i * m_at (xf_V E i) q p))) * (m_at (xf_P E) q j * r j))) by (intros; rewrite ?rsum2; ring).
  rewrite rsum_scal.
  rewrite (rsum_ext n _ (fun j => w q * (at_x (mp_inverse_diffusion P) E q (0 + 3 * 0)%nat * m_at (xf_V E 0) q p + at_x (mp_inverse_diffusion P) E q (1 + 3 * 0)%nat * m_at (xf_V E 1) q p) * (m_at (xf_V E 0) q j * u j)
     + w q * (at_x (mp_inverse_diffusion P) E q (0 + 3 * 1)%nat * m_at (xf_V E 0) q p + at_x (mp_inverse_diffusion P) E q (1 + 3 * 1)%nat * m_at (xf_V E 1) q p) * (m_at (xf_V E 1) q j * u j))) by (intros; rewrite !rsum2; ring).
  rewrite rsum_plus, !rsum_scal, !rsum2. ring.
Qed.
Lemma pressure_entries u r p : rsum n (fun j => entry_pv p j * u j) + rsum n' (fun j => entry_pp p j * r j) - entry_source p = pressure_form E P u r p.
Proof using HE.
  clear Hk. destruct HE as [E1 (P1 & P2 & P3) (V1 & V2) (D1 & D2) (Q1 & Q2) (S1 & S2) _ _ _ _].
  unfold pressure_form, entry_source.
  rewrite (rsum_ext n _ (fun j => rsum nq (fun q => w q * (m_at (xf_D E) q j * m_at (xf_P E) q p) * u j))) by (intros; unfold entry_pv; symmetry; apply rsum_scal_r).
  rewrite (rsum_ext n' _ (fun j => rsum nq (fun q => w q * (at_x (mp_reaction P) E q * m_at (xf_P E) q j * m_at (xf_P E) q p) * r j))) by (intros; unfold entry_pp; symmetry; apply rsum_scal_r).
  rewrite rsum_swap, (rsum_swap n'), <- rsum_plus, <- rsum_minus. apply rsum_ext. intros q Hq.
  rewrite (rsum_ext n _ (fun j => w q * m_at (xf_P E) q p * (m_at (xf_D E) q j * u j))) by (intros; ring).
  rewrite (rsum_ext n' _ (fun j => w q * m_at (xf_P E) q p * at_x (mp_reaction P) E q * (m_at (xf_P E) q j * r j))) by (intros; ring).
  rewrite !rsum_scal. unfold combine. destruct D2 as (_ & ->). destruct Q2 as (_ & ->). ring.
Qed.
End Cell.
