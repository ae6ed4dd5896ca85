(** The driver of the mixed problem: the run. *)
From Coq Require Import List Arith Bool Reals Lra Lia.
From Verif Require Import Base RSum MatrixModel DofsModel DofsSpec DofsProofs DofsProofs2 AssemblerModel AssemblerSpec AssemblerProofs AssemblerProofs2
  EquationModel EquationSpec EquationProofs VemQuadModel VemModel VemSpec DriverModel DriverSpec DriverSpec2 DriverProofs DriverProofs2 DriverProofs3 DriverProofs4
  DriverProofs5 DriverProofs6 VemMccModel Mcc2dModel Mcc2dSpec Mcc2dProofs.
Import ListNotations.
Local Open Scope R_scope.

(** writing a prefix *)
Lemma set_idx_app {A} (l l' : list A) i v t : set_idx l i v = Ok t -> set_idx (l ++ l') i v = Ok (t ++ l').
Proof.
  unfold set_idx. intros H. rewrite app_length. destruct (Nat.ltb_spec i (length l)); [|discriminate]. inversion H; subst t.
  assert (Hlt : (i <? length l + length l')%nat = true) by (apply Nat.ltb_lt; lia). rewrite Hlt. f_equal.
  clear Hlt H. revert i H0. induction l as [|a l IH]; intros i Hi; simpl in *; [lia|]. destruct i as [|i]; simpl; [reflexivity|]. f_equal. apply IH. lia.
Qed.
Lemma set_strong_dofs_app row values s t l : set_strong_dofs row values s = Ok t -> set_strong_dofs row values (s ++ l) = Ok (t ++ l).
Proof.
  unfold set_strong_dofs, for_loop. generalize 0%nat. generalize (length row). intros n. revert s. induction n as [|n IH]; intros s i; simpl.
  - intros H. inversion H. reflexivity.
  - intros H. apply bind_Ok in H. destruct H as (u & H1 & H2). apply bind_Ok in H1. destruct H1 as (x & Ex & H1). rewrite Ex. cbn [bind].
    destruct (dof_type x).
    + discriminate.
    + apply bind_Ok in H1. destruct H1 as (v & Ev & H1). rewrite Ev. cbn [bind]. rewrite (set_idx_app _ _ _ _ _ H1). cbn [bind]. apply IH. exact H2.
    + inversion H1; subst u. cbn [bind]. apply IH. exact H2.
Qed.

Section Edges.
Variables (m : Mesh2D) (info : MeshDOFsInfo) (data : DOFsData).
Local Notation mesh := (md_mesh m).
Hypothesis HC : CreateDOFs 2 info mesh = Ok data.
Hypothesis HN : Cell2Ds_number mesh = num_cells info 2.

Lemma add_weak_big N d e row values off step : (NumberDOFs data <= N)%nat -> (d <= 2)%nat -> (e < num_cells info d)%nat -> nth_error (CellsDOFs data d) e = Some row ->
  (forall i, (i < requested info d e)%nat -> (off + step * i < v_size values)%nat) ->
  adds N (add_weak row values off step)
    (fun r => rsum (requested info d e) (fun i => if free_is data (entity_dof d e i) r then v_at values (off + step * i) else 0)).
Proof using HC HN.
  intros HNb Hd He Hr Hv. destruct (valid_row 2 info mesh data ltac:(lia) HC d e Hd He) as (row' & Er & Lr & HL). rewrite Er in Hr. inversion Hr; subst row'.
  unfold add_weak. rewrite <- Lr. apply (adds_loop _ _ _ (fun i r => if free_is data (entity_dof d e i) r then v_at values (off + step * i) else 0)).
  intros i Hi s Ls.
  destruct (valid_lookup 2 info mesh data ltac:(lia) HC (entity_dof d e i)) as (x & t & Hx & _ & Hcase).
  { split; [auto|]. split; [auto|]. simpl. lia. }
  unfold at_. rewrite <- HL, Hx. cbn [bind]. unfold free_is. rewrite Hx. destruct Hcase as [(_ & Ty & B)|(_ & Ty & B)].
  - rewrite Ty. unfold is_type. rewrite Ty. cbn [andb]. exists s. split; [auto|]. split; [auto|]. intros r. ring.
  - rewrite Ty. unfold is_type. rewrite Ty. cbn [andb]. rewrite vec_get_in by (apply Hv; lia). cbn [bind].
    destruct (AddValue_in s (dof_index x) (v_at values (off + step * i))) as (s' & E & L); [lia|]. exists s'. split; [auto|]. split; [lia|].
    intros r. destruct (AddValue_ok _ _ _ _ E) as (_ & _ & V). rewrite V. destruct (Nat.eqb_spec (dof_index x) r); [subst; ring|ring].
Qed.

Section Cell.
Variables (create : nat -> outcome MixedSpace) (P : MixedProblem) (c n n' : nat) (E : MixedForms).
Hypothesis Hc : (c < Cell2Ds_number mesh)%nat.
Hypothesis HE : mixed_forms create (Cell2D_edges mesh c) (requested info 1) c n n' E.

Lemma mixed_weak_ok N : (NumberDOFs data <= N)%nat ->
  adds N (mixed_weak_term info data (Cell2D_edges mesh c) (xf_space E) (mp_weak P)) (fun r => - boundary_form info mesh data E (mp_weak P) c r).
Proof using HC HN Hc HE.
  intros HNb. unfold mixed_weak_term.
  eapply adds_ext; [intros s; reflexivity| |apply (adds_loop N (length (Cell2D_edges mesh c)) _ (fun ed r => - (let e := nth ed (Cell2D_edges mesh c) 0%nat in
    if weak_edge info e
    then rsum (requested info 1 e) (fun i => if free_is data (entity_dof 1 e i) r then edge_form E (mp_weak P (marker_of info 1 e)) ed i else 0)
    else 0)))].
  - intros r. cbv beta. rewrite rsum_opp. reflexivity.
  - intros ed Hed. cbv zeta. destruct (nth_error (Cell2D_edges mesh c) ed) as [e|] eqn:Ee; [|apply nth_error_None in Ee; lia].
    rewrite (nth_error_nth _ _ 0%nat Ee). unfold mixed_weak_edge, idx_. rewrite Ee. cbn [bind].
    pose proof (edge_range m info data HC HN c e Hc (nth_error_In _ _ Ee)) as Re.
    destruct (info_entry m info data HC 1 e) as (b & row & Eb & Et & Em & Er & L & F); auto.
    unfold at_. rewrite Eb. cbn [bind]. unfold weak_edge. rewrite Eb. destruct (bi_type b) eqn:Ty; cbn [is_weak negb];
      try (eapply adds_ext; [intros s; reflexivity|intros r; symmetry; apply Ropp_0|apply adds_none]).
    destruct HE as [E1 (P1 & P2 & P3) (V1 & V2) (D1 & D2) (Q1 & Q2) (S1 & S2) xQ xB _ _]. destruct (xQ ed e Ee) as (EQ & LQ & RQ). destruct (xB ed e Ee) as (EB & (B1 & B2)).
    rewrite EQ. cbn [bind]. rewrite function_evaluation_ok by auto. cbn [bind]. rewrite EB. cbn [bind].
    destruct (twv_ok (mscal (-1) (xf_B E ed)) (q_Weights (xf_Q E ed)) {| v_size := m_cols (q_Points (xf_Q E ed));
       v_at := fun i => mp_weak P (bi_marker b) (m_at (q_Points (xf_Q E ed)) 0 i) (m_at (q_Points (xf_Q E ed)) 1 i) (m_at (q_Points (xf_Q E ed)) 2 i) |}
       (v_size (q_Weights (xf_Q E ed))) (requested info 1 e)) as (d & Ed & (D3 & D4)).
    { split; simpl; auto. } { reflexivity. } { exact LQ. }
    rewrite Ed. cbn [bind]. rewrite Er. cbn [bind].
    eapply adds_ext; [intros s; reflexivity| |apply (add_weak_big N 1 e row d 0 1 HNb); auto; rewrite D3; intros; lia].
    intros r. cbv beta. rewrite <- rsum_opp. apply rsum_ext. intros i Hi. destruct (free_is data (entity_dof 1 e i) r); [|ring].
    rewrite D4. unfold edge_form. rewrite <- rsum_opp. apply rsum_ext. intros q Hq. cbn [v_at m_at mscal]. unfold at_col. rewrite Em. rewrite Nat.add_0_l, Nat.mul_1_l. ring.
Qed.

Variable sv : nat -> nat -> R.
Hypothesis HS : forall ed e i, nth_error (Cell2D_edges mesh c) ed = Some e -> strong_entity info 1 e -> (i < requested info 1 e)%nat ->
  boundary_value E (mp_strong P (marker_of info 1 e)) ed i = sv e i.
Variable l1 : list R.
Let T (h : GlobalCell_DOF) : R := sv (g_cell h) (g_dof h).
Let u0 := repeat 0 (NumberDOFs data).
Let W D s := exists a, s = a ++ l1 /\ written 2 info data T D (u0, a).

Lemma W_ext D D' s : (forall h, valid 2 info h -> (D h <-> D' h)) -> W D s -> W D' s.
Proof using. intros H (a & Ea & Wa). exists a. split; [exact Ea|]. eapply written_ext; [exact H|exact Wa]. Qed.

Lemma mixed_strong_edge_ok D ed s : (ed < length (Cell2D_edges mesh c))%nat -> W D s -> exists e s', nth_error (Cell2D_edges mesh c) ed = Some e /\
  mixed_strong_edge info data (Cell2D_edges mesh c) (xf_space E) (mp_strong P) ed s = Ok s' /\
  W (fun h => D h \/ (strong_entity info 1 e /\ entity 1 e h)) s'.
Proof using HC HN Hc HE HS.
  intros Hed (a & Ea & Wa). destruct (nth_error (Cell2D_edges mesh c) ed) as [e|] eqn:Ee; [|apply nth_error_None in Ee; lia].
  exists e. pose proof (edge_range m info data HC HN c e Hc (nth_error_In _ _ Ee)) as Re.
  destruct (info_entry m info data HC 1 e) as (b & row & Eb & Et & Em & Er & L & F); auto.
  unfold mixed_strong_edge, idx_, at_. rewrite Ee. cbn [bind]. rewrite Eb. cbn [bind]. rewrite Er. cbn [bind].
  destruct (bi_type b) eqn:Ty; cbn [is_strong negb orb];
    try (exists s; split; [auto|]; split; [auto|]; exists a; split; [exact Ea|]; eapply written_ext; [|exact Wa]; intros h _; unfold strong_entity; rewrite Et; split; [tauto|intros [?|[? ?]]; [auto|congruence]]).
  assert (SE : strong_entity info 1 e) by (unfold strong_entity; now rewrite Et).
  destruct (Nat.eqb_spec (length row) 0) as [E0|E0].
  - exists s. split; [auto|]. split; [auto|]. exists a. split; [exact Ea|]. eapply written_ext; [|exact Wa]. intros h (_ & _ & Vh). split; [tauto|].
    intros [?|(_ & Ed & Ec)]; auto. rewrite Ed, Ec in Vh. lia.
  - destruct HE as [_ _ _ _ _ _ _ _ xG xN]. destruct (xG ed e Ee) as (EG & RG). destruct (xN ed e Ee) as (CN & HNv).
    rewrite EG. cbn [bind]. rewrite function_evaluation_ok by auto. cbn [bind].
    match goal with |- context [mx_EdgeDofs _ _ _ ?v] => destruct (HNv v eq_refl) as (d & Ed & Sd & Vd) end. rewrite Ed. cbn [bind].
    destruct (written_step 2 info mesh data ltac:(lia) HC T D 1 e row d 0 (u0, a) ltac:(lia) Re Er) as (s' & Es & W').
    + lia.
    + intros i Hi. rewrite Nat.add_0_l. rewrite Vd by lia. unfold T. simpl. rewrite <- (HS ed e i Ee SE) by lia. unfold boundary_value. rewrite Em. reflexivity.
    + exact Wa.
    + rewrite set_strong_dofs_ok in Es by auto. apply bind_Ok in Es. destruct Es as (u & Es & Eu). inversion Eu; subst s'. subst s.
      exists (u ++ l1). split; [auto|]. split; [apply set_strong_dofs_app; exact Es|]. exists u. split; [reflexivity|].
      eapply written_ext; [|exact W']. intros h _. tauto.
Qed.

Lemma mixed_strong_ok D s : W D s -> exists s', mixed_strong_term info data (Cell2D_edges mesh c) (xf_space E) (mp_strong P) s = Ok s' /\
  W (fun h => D h \/ (strong_entity info 1 (g_cell h) /\ g_dim h = 1%nat /\ In (g_cell h) (Cell2D_edges mesh c))) s'.
Proof using HC HN Hc HE HS.
  intros Hw. unfold mixed_strong_term.
  pose (D2 := fun j h => D h \/ (strong_entity info 1 (g_cell h) /\ g_dim h = 1%nat /\ exists ed, (ed < j)%nat /\ nth_error (Cell2D_edges mesh c) ed = Some (g_cell h))).
  destruct (@for_loop_total _ (fun j s => W (D2 j) s) (mixed_strong_edge info data (Cell2D_edges mesh c) (xf_space E) (mp_strong P)) (length (Cell2D_edges mesh c)) s) as (s2 & E2 & W2).
  - eapply W_ext; [|exact Hw]. intros h _. unfold D2. split; [tauto|]. intros [?|(_ & _ & ed & Hd & _)]; [auto|lia].
  - intros ed t Hed Wt. destruct (mixed_strong_edge_ok (D2 ed) ed t Hed Wt) as (e & t' & Ee & Et & Wt').
    exists t'. split; auto. eapply W_ext; [|exact Wt']. intros h _. unfold D2, entity. split.
    + intros [[?|(S1 & Ed & j & Hj & Ej)]|(S1 & Ed & Ec)]; [tauto| |].
      * right. split; auto. split; auto. exists j. split; auto.
      * right. subst e. split; auto. split; auto. exists ed. split; auto.
    + intros [?|(S1 & Ed & j & Hj & Ej)]; [tauto|]. destruct (Nat.eq_dec j ed) as [->|Hne].
      * right. rewrite Ee in Ej. inversion Ej; subst e. auto.
      * left. right. split; auto. split; auto. exists j. split; [lia|auto].
  - exists s2. split; [exact E2|]. eapply W_ext; [|exact W2]. intros h _. unfold D2. split.
    + intros [?|(S1 & Ed & j & Hj & Ej)]; [tauto|]. right. split; auto. split; auto. eapply nth_error_In; eauto.
    + intros [?|(S1 & Ed & Hin)]; [tauto|]. right. split; auto. split; auto. apply In_nth_error in Hin. destruct Hin as (j & Ej). exists j. split; [|auto].
      apply nth_error_Some. rewrite Ej. discriminate.
Qed.
End Cell.
End Edges.
