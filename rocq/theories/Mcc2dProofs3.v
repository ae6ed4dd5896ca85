(** The driver of the mixed problem: the assembled system. *)
From Coq Require Import List Arith Bool Reals Lra Lia.
From Verif Require Import Base RSum MatrixModel DofsModel DofsSpec DofsProofs DofsProofs2 AssemblerModel AssemblerSpec AssemblerProofs AssemblerProofs2
  EquationModel EquationSpec EquationProofs TriangleProofs VemQuadModel VemModel VemSpec DriverModel DriverSpec DriverSpec2 DriverProofs DriverProofs2 DriverProofs3 DriverProofs4
  DriverProofs5 DriverProofs6 VemMccModel Mcc2dModel Mcc2dSpec Mcc2dProofs Mcc2dProofs2.
Import ListNotations.
Local Open Scope R_scope.

Lemma triplets_row_entries ts v r : (forall i j a, In (i, j, a) ts -> (j < length v)%nat) -> triplets_row ts v r = rsum (length v) (fun j => entry ts r j * nth j v 0).
Proof.
  intros H. unfold triplets_row, entry. induction ts as [|t ts IH].
  - simpl. symmetry. apply rsum_0. intros; ring.
  - cbn [lsum]. rewrite (rsum_ext (length v) _ (fun j => (match t with (i, j', a) => if ((i =? r) && (j' =? j))%nat then a else 0 end) * nth j v 0 +
      lsum (fun t => match t with (i, j', a) => if ((i =? r) && (j' =? j))%nat then a else 0 end) ts * nth j v 0)) by (intros; ring).
    rewrite rsum_plus, <- IH by (intros i j a Hi; apply (H i j a); right; exact Hi). f_equal. destruct t as [[i j'] a].
    assert (Hj : (j' < length v)%nat) by (apply (H i j' a); left; reflexivity).
    destruct (i =? r)%nat; cbn [andb].
    + rewrite (rsum_single (length v) _ j') by (first [exact Hj|intros j Hj' Hne; destruct (Nat.eqb_spec j' j); [congruence|ring]]). rewrite Nat.eqb_refl. reflexivity.
    + symmetry. apply rsum_0. intros; ring.
Qed.

Lemma nth_map_seq {A} (f : nat -> A) n i d : (i < n)%nat -> nth i (map f (seq 0 n)) d = f i.
Proof. intros H. rewrite (nth_indep _ d (f 0%nat)) by (rewrite map_length, seq_length; exact H). rewrite map_nth, seq_nth by exact H. reflexivity. Qed.

Lemma lsum_less {A} (f g : A -> R) l : lsum (fun x => f x - g x) l = lsum f l - lsum g l.
Proof. induction l as [|x l IH]; cbn [lsum]; [ring|]. rewrite IH. ring. Qed.

Section Run.
Variables (m : Mesh2D) (info0 info1 : MeshDOFsInfo) (d0 d1 : DOFsData) (create : nat -> outcome MixedSpace) (P : MixedProblem) (E : nat -> MixedForms) (kk : nat -> R) (sv : nat -> nat -> R).
Local Notation mesh := (md_mesh m).
Hypothesis HC0 : CreateDOFs 2 info0 mesh = Ok d0.
Hypothesis HN0 : Cell2Ds_number mesh = num_cells info0 2.
Hypothesis HC1 : CreateDOFs 2 info1 mesh = Ok d1.
Hypothesis HN1 : Cell2Ds_number mesh = num_cells info1 2.
Local Notation n0 c := (length (closure_dofs info0 mesh 2 c)).
Local Notation n1 c := (length (closure_dofs info1 mesh 2 c)).
Hypothesis HE : forall c, (c < Cell2Ds_number mesh)%nat -> mixed_forms create (Cell2D_edges mesh c) (requested info0 1) c (n0 c) (n1 c) (E c).
Hypothesis Hk : forall c, (c < Cell2Ds_number mesh)%nat -> greatest_inverse (E c) (mp_inverse_diffusion P) (kk c).
Hypothesis HS : strong_agree m info0 E (mp_strong P) sv.

Definition cell_of (c : nat) : Mat * Vec := match mixed_cell (xf_space (E c)) P (n0 c + n1 c) (n1 c) with Ok Ab => Ab | _ => (mzero 0 0, vzero 0) end.
Lemma cell_of_ok c : (c < Cell2Ds_number mesh)%nat -> mixed_cell (xf_space (E c)) P (n0 c + n1 c) (n1 c) = Ok (cell_of c) /\
  m_rows (fst (cell_of c)) = (n0 c + n1 c)%nat /\ m_cols (fst (cell_of c)) = (n0 c + n1 c)%nat /\ v_size (snd (cell_of c)) = (n0 c + n1 c)%nat /\
  (forall p j, (p < n0 c)%nat -> (j < n0 c)%nat -> m_at (fst (cell_of c)) p j = entry_vv (E c) P (kk c) p j) /\
  (forall p j, (p < n0 c)%nat -> m_at (fst (cell_of c)) p (n0 c + j)%nat = entry_vp (E c) P p j) /\
  (forall p j, (j < n0 c)%nat -> m_at (fst (cell_of c)) (n0 c + p)%nat j = entry_pv (E c) p j) /\ (forall p j, m_at (fst (cell_of c)) (n0 c + p)%nat (n0 c + j)%nat = entry_pp (E c) P p j) /\
  (forall p, (p < n0 c)%nat -> v_at (snd (cell_of c)) p = 0) /\ (forall p, v_at (snd (cell_of c)) (n0 c + p)%nat = entry_source (E c) P p).
Proof using HE Hk.
  intros Hc. destruct (mixed_cell_ok create (Cell2D_edges mesh c) (requested info0 1) c (n0 c) (n1 c) (E c) P (kk c) (HE c Hc) (Hk c Hc)) as (A & b & EA & X).
  unfold cell_of. rewrite EA. split; [reflexivity|exact X].
Qed.
Definition op_at (c : nat) : cell_op :=
  {| op_cell := c; op_test := pair_handlers m info0 info1 d0 d1 c; op_trial := pair_handlers m info0 info1 d0 d1 c;
     op_lhs := Some (fst (cell_of c)); op_rhs := Some (list_of_vec (snd (cell_of c))) |}.
Local Notation cells := (seq 0 (Cell2Ds_number mesh)).
Local Notation N0 := (NumberDOFs d0).
Local Notation N1 := (NumberDOFs d1).
Local Notation S0 := (NumberStrongs d0).
Local Notation S1 := (NumberStrongs d1).

Lemma op_at_fits c : (c < Cell2Ds_number mesh)%nat -> op_fits 2 (N0 + N1) (op_at c) /\ trial_total 2 (N0 + N1) (S0 + S1) (op_at c).
Proof using HC0 HN0 HC1 HN1 HE Hk.
  intros Hc. pose proof (pair_packed m info0 info1 d0 d1 HC0 HN0 HC1 HN1 c Hc) as Pk. destruct (cell_of_ok c Hc) as (_ & L1 & L2 & L3 & _). split.
  - do 4 eexists. split; [exact Pk|]. split; [exact Pk|]. split; [reflexivity|]. split.
    + intros A EA. inversion EA; subst A. auto.
    + intros b Eb. inversion Eb; subst b. unfold list_of_vec. rewrite map_length, seq_length. exact L3.
  - do 2 eexists. split; [exact Pk|]. split; reflexivity.
Qed.
Lemma ops_fits : Forall (op_fits 2 (N0 + N1)) (map op_at cells) /\ Forall (trial_total 2 (N0 + N1) (S0 + S1)) (map op_at cells).
Proof using HC0 HN0 HC1 HN1 HE Hk.
  split; apply Forall_forall; intros o Ho; apply in_map_iff in Ho; destruct Ho as (c & <- & Hc); apply in_seq in Hc; apply op_at_fits; lia.
Qed.

Let T (h : GlobalCell_DOF) : R := sv (g_cell h) (g_dof h).
Definition mdone (k : nat) (h : GlobalCell_DOF) : Prop := strong_entity info0 1 (g_cell h) /\ g_dim h = 1%nat /\ exists c, (c < k)%nat /\ In (g_cell h) (Cell2D_edges mesh c).

Lemma mixed_run : exists st gS, for_loop (Cell2Ds_number mesh) (mixed_step m info0 d0 d1 (pair_count d0 d1) create P) (asm_init (N0 + N1), repeat 0 (S0 + S1)) = Ok (st, gS ++ repeat 0 S1) /\
  written 2 info0 d0 T (mdone (Cell2Ds_number mesh)) (repeat 0 N0, gS) /\ length (asm_rhs st) = (N0 + N1)%nat /\
  exists st0, assemble_all 2 (map op_at cells) (asm_init (N0 + N1)) = Ok st0 /\ trip_DOFs st = trip_DOFs st0 /\ trip_Strongs st = trip_Strongs st0 /\
    forall r, nth r (asm_rhs st) 0 = nth r (asm_rhs st0) 0 - cells_sum mesh (fun c => boundary_form info0 mesh d0 (E c) (mp_weak P) c r).
Proof using HC0 HN0 HC1 HN1 HE Hk HS.
  pose (Inv := fun k (s : asm_state * list R) =>
    (exists a, snd s = a ++ repeat 0 S1 /\ written 2 info0 d0 T (mdone k) (repeat 0 N0, a)) /\ length (asm_rhs (fst s)) = (N0 + N1)%nat /\
    exists st0, assemble_all 2 (map op_at (seq 0 k)) (asm_init (N0 + N1)) = Ok st0 /\ trip_DOFs (fst s) = trip_DOFs st0 /\ trip_Strongs (fst s) = trip_Strongs st0 /\
      length (asm_rhs st0) = (N0 + N1)%nat /\
      forall r, nth r (asm_rhs (fst s)) 0 = nth r (asm_rhs st0) 0 - lsum (fun c => boundary_form info0 mesh d0 (E c) (mp_weak P) c r) (seq 0 k)).
  destruct (@for_loop_total _ Inv (mixed_step m info0 d0 d1 (pair_count d0 d1) create P) (Cell2Ds_number mesh) (asm_init (N0 + N1), repeat 0 (S0 + S1))) as (s & Es & Is).
  - split; [|split].
    + exists (repeat 0 S0). split; [apply repeat_app|]. eapply written_ext; [|apply written_init with (k := 2%nat) (mesh := mesh); auto].
      intros h _. split; [tauto|]. intros (_ & _ & c & Hc & _). lia.
    + simpl. apply repeat_length.
    + exists (asm_init (N0 + N1)). simpl. split; [reflexivity|]. split; [reflexivity|]. split; [reflexivity|]. split; [apply repeat_length|]. intros r. ring.
  - intros c [st s] Hc ((a & Ea & Wa) & Lr & st0 & E0 & T1 & T2 & L0 & V0). simpl in Ea, Lr, T1, T2, V0.
    unfold mixed_step. rewrite (xe_space _ _ _ _ _ _ _ (HE c Hc)). cbn [bind]. rewrite (pair_local_ok m info0 info1 d0 d1 HC0 HN0 HC1 HN1 c Hc). cbn [bind].
    unfold at_. rewrite (closure1 m info1 d1 HC1 HN1 c Hc). cbn [bind]. cbn [l_num_total_dofs pair_local].
    destruct (cell_of_ok c Hc) as (Ecell & _). rewrite Ecell. cbn [bind]. cbn [fst snd].
    destruct (op_at_fits c Hc) as (Fc & _).
    destruct (assemble_gen_total 2 (N0 + N1) (op_at c) st Fc Lr) as (st1 & E1 & L1).
    destruct (assemble_gen_total 2 (N0 + N1) (op_at c) st0 Fc L0) as (st1' & E1' & L1').
    unfold assemble_lhs_rhs. change (mixed_handlers d0 d1 (pair_count d0 d1) (pair_local m info0 info1 c)) with (pair_handlers m info0 info1 d0 d1 c).
    cbn [op_at op_cell op_test op_trial op_lhs op_rhs] in E1. rewrite E1. cbn [bind].
    destruct (mixed_weak_ok m info0 d0 HC0 HN0 create P c (n0 c) (n1 c) (E c) Hc (HE c Hc) (N0 + N1) ltac:(lia) (asm_rhs st1) L1) as (w & Ew & Lw & Vw).
    rewrite Ew. cbn [bind].
    destruct (mixed_strong_ok m info0 d0 HC0 HN0 create P c (n0 c) (n1 c) (E c) Hc (HE c Hc) sv (fun ed e i => HS c ed e i Hc) (repeat 0 S1) (mdone c) s) as (g & Eg & (a' & Ea' & Wa')).
    { exists a. split; [exact Ea|exact Wa]. }
    rewrite Eg. cbn [bind]. eexists. split; [reflexivity|]. unfold Inv. cbn [fst snd asm_rhs trip_DOFs trip_Strongs]. split; [|split; [exact Lw|]].
    + exists a'. split; [exact Ea'|]. eapply written_ext; [|exact Wa']. intros h _. unfold mdone. split.
      * intros [(X & Y & c' & Hc' & Z)|(X & Y & Z)]; (split; [exact X|]; split; [exact Y|]); [exists c'; split; [lia|exact Z]|exists c; split; [lia|exact Z]].
      * intros (X & Y & c' & Hc' & Z). destruct (Nat.eq_dec c' c) as [->|Hne]; [right; auto|left]. split; [exact X|]. split; [exact Y|]. exists c'. split; [lia|exact Z].
    + exists st1'. split.
      * rewrite seq_S, map_app. unfold assemble_all in *. rewrite (foldM_app _ _ _ _). cbn [Nat.add]. rewrite E0. cbn [bind map foldM]. rewrite E1'. reflexivity.
      * apply assemble_gen_adds in E1. apply assemble_gen_adds in E1'. cbn [op_at op_cell op_test op_trial op_lhs op_rhs] in E1'.
        destruct E1 as (A1 & A2 & _ & A3). destruct E1' as (B1 & B2 & _ & B3). rewrite A1, A2, B1, B2, T1, T2. split; [reflexivity|]. split; [reflexivity|]. split; [exact L1'|].
        intros r. rewrite Vw, A3, B3, V0, seq_S, lsum_app. cbn [Nat.add lsum]. ring.
  - destruct s as [st s]. destruct Is as ((a & Ea & Wa) & Lr & st0 & E0 & T1 & T2 & L0 & V0). simpl in Ea, Lr, T1, T2, V0. subst s. exists st, a.
    split; [exact Es|]. split; [exact Wa|]. split; [exact Lr|]. exists st0. auto.
Qed.

Lemma boundary_form_beyond c r : (c < Cell2Ds_number mesh)%nat -> (N0 <= r)%nat -> boundary_form info0 mesh d0 (E c) (mp_weak P) c r = 0.
Proof using HC0 HN0.
  clear HN1. intros Hc Hr. unfold boundary_form. apply rsum_0. intros ed Hed. cbv zeta. destruct (weak_edge info0 _); [|reflexivity]. apply rsum_0. intros i Hi.
  set (e := nth ed (Cell2D_edges mesh c) 0%nat) in *.
  assert (He : In e (Cell2D_edges mesh c)) by (apply nth_In; exact Hed).
  pose proof (edge_range m info0 d0 HC0 HN0 c e Hc He) as Hre.
  destruct (valid_lookup 2 info0 mesh d0 ltac:(lia) HC0 (entity_dof 1 e i)) as (x & t & Hx & _ & B); [repeat split; simpl; auto; lia|].
  unfold free_is. rewrite Hx. destruct (is_type TDOF x) eqn:Ty; [|reflexivity]. destruct B as [(_ & Ty' & Lt)|(_ & Ty' & Lt)]; [unfold is_type in Ty; rewrite Ty' in Ty; discriminate|].
  destruct (Nat.eqb_spec (dof_index x) r); [lia|reflexivity].
Qed.

Lemma mixed_assemble_ok : exists D gS, mixed_assemble m info0 d0 d1 create P = Ok D /\ md_solutionNeumann D = gS ++ repeat 0 S1 /\ length gS = S0 /\
  length (md_rightHandSide D) = (N0 + N1)%nat /\
  (forall r j v, In (r, j, v) (md_globalMatrixA D) -> (r < N0 + N1)%nat /\ (j < N0 + N1)%nat) /\
  (forall c e i, (c < Cell2Ds_number mesh)%nat -> In e (Cell2D_edges mesh c) -> strong_entity info0 1 e -> (i < requested info0 1 e)%nat ->
     value_of d0 [] gS (entity_dof 1 e i) = Some (sv e i)) /\
  forall vD pD, length vD = N0 -> length pD = N1 ->
  (forall r, (r < N0)%nat -> mixed_residual D (vD ++ pD) r =
     cells_sum mesh (fun c => free_places info0 mesh d0 c r (velocity_form (E c) P (kk c) (cell_value info0 mesh d0 vD gS c) (cell_value info1 mesh d1 pD (repeat 0 S1) c))) +
     cells_sum mesh (fun c => boundary_form info0 mesh d0 (E c) (mp_weak P) c r)) /\
  (forall r, (r < N1)%nat -> mixed_residual D (vD ++ pD) (N0 + r) =
     cells_sum mesh (fun c => free_places info1 mesh d1 c r (pressure_form (E c) P (cell_value info0 mesh d0 vD gS c) (cell_value info1 mesh d1 pD (repeat 0 S1) c)))).
Proof using HC0 HN0 HC1 HN1 HE Hk HS.
  destruct mixed_run as (st & gS & Er & (Sz & Wr) & Lr & st0 & E0 & T1 & T2 & V0).
  destruct ops_fits as (F1 & F2).
  destruct (C15_assembly 2 (N0 + N1) (N0 + N1) (S0 + S1) (map op_at cells) F1 F2) as (st0' & E0' & L0 & G1 & G2 & _ & _ & G3).
  assert (st0' = st0) by congruence. subst st0'.
  unfold mixed_assemble. rewrite pair_count_ok. cbn [bind]. cbn [num_total_dofs num_total_strong pair_count]. rewrite Er. cbn [bind fst snd].
  eexists. exists gS. split; [reflexivity|]. cbn [md_solutionNeumann md_rightHandSide md_globalMatrixA]. split; [reflexivity|].
  destruct Sz as (_ & LgS). simpl in LgS. split; [exact LgS|]. split.
  { destruct (0 <? S0 + S1)%nat; [|exact Lr]. unfold SubtractionMultiplication. rewrite map_length, seq_length. exact Lr. }
  split; [rewrite T1; exact G1|]. split.
  { intros c e i Hc He Hs Hi. destruct (Wr (entity_dof 1 e i)) as (W1 & _).
    - pose proof (edge_range m info0 d0 HC0 HN0 c e Hc He). repeat split; simpl; auto; lia.
    - specialize (W1 ltac:(split; [exact Hs|]; split; [reflexivity|]; exists c; auto)). unfold val in W1. simpl in W1. unfold T in W1. simpl in W1. 
      pose proof (edge_range m info0 d0 HC0 HN0 c e Hc He).
      destruct (valid_lookup 2 info0 mesh d0 ltac:(lia) HC0 (entity_dof 1 e i)) as (x & t & Hx & Ht & B); [repeat split; simpl; auto; lia|].
      unfold strong_entity in Hs. simpl in Ht. rewrite Hs in Ht. inversion Ht; subst t. destruct B as [(_ & Ty & _)|(Hne & _)]; [|congruence].
      unfold value_of in *. rewrite Hx, Ty in *. exact W1. }
  intros vD pD LvD LpD.
  set (gg := gS ++ repeat 0 S1).
  assert (Rhs : forall r, (r < N0 + N1)%nat -> nth r (if (0 <? S0 + S1)%nat then SubtractionMultiplication (asm_rhs st) (trip_Strongs st) gg else asm_rhs st) 0 =
    nth r (asm_rhs st) 0 - rsum (length gg) (fun s => entry (trip_Strongs st) r s * nth s gg 0)).
  { intros r Hr. assert (Lg : length gg = (S0 + S1)%nat) by (unfold gg; rewrite app_length, repeat_length, LgS; reflexivity).
    destruct (Nat.ltb_spec 0 (S0 + S1)).
    - unfold SubtractionMultiplication. rewrite nth_map_seq by lia. f_equal. apply triplets_row_entries. intros i j a Hi. rewrite Lg. rewrite T2 in Hi. apply (G2 _ _ _ Hi).
    - rewrite Lg. replace (S0 + S1)%nat with 0%nat by lia. simpl. ring. }
  assert (LhS : length (repeat 0 S1) = S1) by apply repeat_length.
  pose (uloc := fun o : cell_op => match global_solution_to_local_solution 2 (op_cell o) [d0; d1] (n0 (op_cell o) + n1 (op_cell o)) (l_offsets_DOFs (pair_local m info0 info1 (op_cell o)))
     (offsets_DOFs (pair_count d0 d1)) (offsets_Strongs (pair_count d0 d1)) (vD ++ pD) gg with Ok l => l | _ => [] end).
  assert (Op : forall r, (r < N0 + N1)%nat -> mixed_residual {| md_globalMatrixA := trip_DOFs st; md_neumannMatrixA := trip_Strongs st;
        md_rightHandSide := if (0 <? S0 + S1)%nat then SubtractionMultiplication (asm_rhs st) (trip_Strongs st) gg else asm_rhs st; md_solutionNeumann := gg |} (vD ++ pD) r =
     cells_sum mesh (fun c => lsum (fun p => if numbered (free_number 2 c (pair_handlers m info0 info1 d0 d1 c) p) r
        then (fun i => rsum (n0 c + n1 c) (fun j => m_at (fst (cell_of c)) i j * nth j (uloc (op_at c)) 0) - v_at (snd (cell_of c)) i) (slot_pos (pair_handlers m info0 info1 d0 d1 c) p) else 0)
        (slots 2 c [d0; d1])) + cells_sum mesh (fun c => boundary_form info0 mesh d0 (E c) (mp_weak P) c r)).
  { intros r Hr. unfold mixed_residual, mixed_row. cbn [md_globalMatrixA md_rightHandSide]. rewrite Rhs by exact Hr. rewrite V0, T1, T2, G3.
    match goal with |- ?a - (?b - ?e - ?d) = _ => replace (a - (b - e - d)) with (a + d - b + e) by ring end. f_equal.
    rewrite (C16_operator 2 (N0 + N1) (map op_at cells) st0 (vD ++ pD) gg uloc).
    - unfold cells_sum, rhs_sum. rewrite !lsum_map.
      rewrite <- lsum_less.
      apply lsum_ext. intros c Hc. apply in_seq in Hc. cbn [op_at op_lhs op_rhs op_cell op_test dofs_data pair_handlers mixed_handlers].
      change (mixed_handlers d0 d1 (pair_count d0 d1) (pair_local m info0 info1 c)) with (pair_handlers m info0 info1 d0 d1 c).
      destruct (cell_of_ok c ltac:(lia)) as (_ & L1 & L2 & L3 & _). rewrite L2.
      assert (Sl : forall p, In p (slots 2 c [d0; d1]) -> (slot_pos (pair_handlers m info0 info1 d0 d1 c) p < n0 c + n1 c)%nat).
      { intros p Hp. rewrite (pair_slots m info0 info1 d0 d1 HC0 HN0 HC1 HN1 c ltac:(lia)) in Hp. apply in_app_or in Hp. destruct Hp as [Hp|Hp]; apply in_map_iff in Hp; destruct Hp as (i & <- & Hi);
          apply in_seq in Hi; unfold slot_pos; simpl; lia. }
      revert Sl. generalize (slots 2 c [d0; d1]). intros l Sl. induction l as [|p l IH]; cbn [lsum]; [ring|]. rewrite <- IH by (intros p' Hp'; apply Sl; right; exact Hp').
      destruct (numbered _ _); [|ring].
      assert (Hb : nth (slot_pos (pair_handlers m info0 info1 d0 d1 c) p) (list_of_vec (snd (cell_of c))) 0 = v_at (snd (cell_of c)) (slot_pos (pair_handlers m info0 info1 d0 d1 c) p)).
      { specialize (Sl p (or_introl eq_refl)). unfold list_of_vec. rewrite (nth_indep _ 0 (v_at (snd (cell_of c)) 0%nat)) by (rewrite map_length, seq_length; lia). rewrite map_nth, seq_nth by lia. reflexivity. }
      rewrite Hb. cbn [op_at op_cell]. ring.
    - exact F1.
    - unfold gg. rewrite !app_length, repeat_length, LvD, LpD, LgS. exact F2.
    - exact E0.
    - intros o Ho. apply in_map_iff in Ho. destruct Ho as (c & <- & Hc). apply in_seq in Hc. exists (n0 c + n1 c)%nat. split.
      + destruct (pair_solution m info0 info1 d0 d1 HC0 HN0 HC1 HN1 vD pD gS (repeat 0 S1) LvD LpD LgS LhS c ltac:(lia)) as (loc & El & _).
        unfold uloc. cbn [op_at op_cell op_trial dofs_data pair_handlers mixed_handlers local_offsets global_offsets_DOFs global_offsets_Strongs]. unfold gg. rewrite El. reflexivity.
      + cbn [op_at op_cell op_trial dofs_data pair_handlers mixed_handlers local_offsets]. rewrite (pair_local_ok m info0 info1 d0 d1 HC0 HN0 HC1 HN1 c ltac:(lia)). reflexivity. }
  assert (Row : forall c i, (c < Cell2Ds_number mesh)%nat -> rsum (n0 c + n1 c) (fun j => m_at (fst (cell_of c)) i j * nth j (uloc (op_at c)) 0) =
     rsum (n0 c) (fun j => m_at (fst (cell_of c)) i j * cell_value info0 mesh d0 vD gS c j) + rsum (n1 c) (fun j => m_at (fst (cell_of c)) i (n0 c + j)%nat * cell_value info1 mesh d1 pD (repeat 0 S1) c j)).
  { intros c i Hc. destruct (pair_solution m info0 info1 d0 d1 HC0 HN0 HC1 HN1 vD pD gS (repeat 0 S1) LvD LpD LgS LhS c Hc) as (loc & El & Ll & A0 & A1).
    replace (uloc (op_at c)) with loc by (unfold uloc; cbn [op_at op_cell]; unfold gg; rewrite El; reflexivity).
    rewrite rsum_add. f_equal; apply rsum_ext; intros j Hj; [rewrite A0 by exact Hj|rewrite A1 by exact Hj]; reflexivity. }
  split; intros r Hr.
  - rewrite Op by lia. f_equal. apply lsum_ext. intros c Hc. apply in_seq in Hc.
    rewrite (pair_free_velocity m info0 info1 d0 d1 HC0 HN0 HC1 HN1 c r (fun i => rsum (n0 c + n1 c) (fun j => m_at (fst (cell_of c)) i j * nth j (uloc (op_at c)) 0) - v_at (snd (cell_of c)) i)) by lia.
    unfold free_places. apply lsum_ext. intros p Hp. apply in_seq in Hp. destruct (nth_error _ p); [|reflexivity]. destruct (free_is _ _ _); [|reflexivity].
    rewrite Row by lia. destruct (cell_of_ok c ltac:(lia)) as (_ & _ & _ & _ & B1 & B2 & _ & _ & B5 & _). rewrite B5 by lia.
    rewrite <- (velocity_entries create (Cell2D_edges mesh c) (requested info0 1) c (n0 c) (n1 c) (E c) P (kk c) (HE c ltac:(lia))). rewrite Rminus_0_r.
    f_equal; apply rsum_ext; intros j Hj; [rewrite B1 by lia|rewrite B2 by lia]; reflexivity.
  - rewrite Op by lia. unfold cells_sum at 2. rewrite (lsum_0 (fun c => boundary_form info0 mesh d0 (E c) (mp_weak P) c (N0 + r)%nat)).
    2:{ intros c Hc. apply in_seq in Hc. apply boundary_form_beyond; lia. }
    rewrite Rplus_0_r. apply lsum_ext. intros c Hc. apply in_seq in Hc.
    rewrite (pair_free_pressure m info0 info1 d0 d1 HC0 HN0 HC1 HN1 c r (fun i => rsum (n0 c + n1 c) (fun j => m_at (fst (cell_of c)) i j * nth j (uloc (op_at c)) 0) - v_at (snd (cell_of c)) i)) by lia.
    unfold free_places. apply lsum_ext. intros p Hp. apply in_seq in Hp. destruct (nth_error _ p); [|reflexivity]. destruct (free_is _ _ _); [|reflexivity].
    rewrite Row by lia. destruct (cell_of_ok c ltac:(lia)) as (_ & _ & _ & _ & _ & _ & B3 & B4 & _ & B6). rewrite B6.
    rewrite <- (pressure_entries create (Cell2D_edges mesh c) (requested info0 1) c (n0 c) (n1 c) (E c) P (HE c ltac:(lia))).
    f_equal. f_equal; apply rsum_ext; intros j Hj; [rewrite B3 by lia|rewrite B4 by lia]; reflexivity.
Qed.
End Run.
