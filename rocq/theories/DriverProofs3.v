(** Strong values (C26) and interpolation. *)
From Coq Require Import List Arith Bool Reals Lra Lia.
From Verif Require Import Base RSum MatrixModel DofsModel DofsSpec DofsProofs DofsProofs2 AssemblerModel AssemblerSpec AssemblerProofs AssemblerProofs2
  VemQuadModel VemModel VemSpec DriverModel DriverSpec DriverProofs DriverProofs2.
Import ListNotations.
Local Open Scope nat_scope.

Lemma function_evaluation_ok P f : (m_cols P = 0 \/ 3 <= m_rows P) ->
  function_evaluation P f = Ok {| v_size := m_cols P; v_at := fun i => f (m_at P 0 i) (m_at P 1 i) (m_at P 2 i) |}.
Proof.
  intros H. unfold function_evaluation. destruct H as [H|H].
  - rewrite H. reflexivity.
  - apply Nat.leb_le in H. rewrite H, orb_true_r. reflexivity.
Qed.

Section Run.
Variables (m : Mesh2D) (info : MeshDOFsInfo) (data : DOFsData).
Let mesh := md_mesh m.
Hypothesis HC : CreateDOFs 2 info mesh = Ok data.
Hypothesis HN : Cell2Ds_number mesh = num_cells info 2.

Lemma wf : well_formed 2 info mesh.
Proof. destruct (C09_dichotomy 2 info mesh) as [(W & _)|(_ & E)]; auto. congruence. Qed.

Lemma vertex_range c v : c < Cell2Ds_number mesh -> In v (Cell2D_vertices mesh c) -> v < num_cells info 0.
Proof.
  intros Hc Hv. destruct (wf 2 c) as (_ & _ & H); auto; [lia|]. apply (H 0 v). simpl. rewrite in_app_iff. left. now apply in_map.
Qed.
Lemma edge_range c e : c < Cell2Ds_number mesh -> In e (Cell2D_edges mesh c) -> e < num_cells info 1.
Proof.
  intros Hc He. destruct (wf 2 c) as (_ & _ & H); auto; [lia|]. apply (H 1 e). simpl. rewrite !in_app_iff. right. left. now apply in_map.
Qed.

Lemma info_entry d e : d <= 2 -> e < num_cells info d -> exists b row, nth_error (CellsBoundaryInfo info d) e = Some b /\
  boundary_type info d e = Some (bi_type b) /\ marker_of info d e = bi_marker b /\
  nth_error (CellsDOFs data d) e = Some row /\ length row = requested info d e /\
  Forall (fun x => dof_type x = match bi_type b with BStrong => TStrong | _ => TDOF end) row.
Proof.
  intros Hd He. destruct (C04_cell_dofs 2 info mesh data d e) as (t & row & Ht & Hr & L & F & _); auto.
  unfold boundary_type in Ht. unfold marker_of, boundary_type. destruct (nth_error (CellsBoundaryInfo info d) e) as [b|]; [|discriminate].
  simpl in Ht. inversion Ht; subst t. exists b, row. repeat split; auto.
Qed.

(** ** C26 *)
Section Strong.
Variables (order : nat) (create : nat -> outcome LocalSpace) (g : nat -> R -> R -> R -> R) (pt : nat -> nat -> nat -> R).
Hypothesis HV : forall c v, c < Cell2Ds_number mesh -> md_active2 m c = true -> In v (Cell2D_vertices mesh c) -> strong_entity info 0 v -> requested info 0 v <= 1.
Hypothesis HE : 1 < order -> edge_points_agree m info create (md_active2 m) (fun e => strong_entity info 1 e /\ 0 < requested info 1 e) pt.
Let T (h : GlobalCell_DOF) : R := strong_value m info pt g (g_dim h) (g_cell h) (g_dof h).
Let u0 := repeat 0%R (NumberDOFs data).
Let W D s := written 2 info data T D (u0, s).

Definition sdone (k : nat) (h : GlobalCell_DOF) : Prop := strong_entity info (g_dim h) (g_cell h) /\ exists c, c < k /\ md_active2 m c = true /\
  ((g_dim h = 0 /\ In (g_cell h) (Cell2D_vertices mesh c)) \/ (g_dim h = 1 /\ 1 < order /\ In (g_cell h) (Cell2D_edges mesh c))).

Lemma strong_write D d e row values s : d <= 2 -> e < num_cells info d -> nth_error (CellsDOFs data d) e = Some row ->
  Forall (fun x => dof_type x = TStrong) row ->
  length row <= v_size values -> (forall i, i < length row -> v_at values i = T (entity_dof d e i)) ->
  W D s -> exists s', set_strong_dofs row values s = Ok s' /\ W (fun h => D h \/ entity d e h) s'.
Proof.
  intros Hd He Hr F Hv Ht Hw.
  destruct (written_step 2 info mesh data ltac:(lia) HC T D d e row values 0 (u0, s) Hd He Hr Hv Ht Hw) as (s' & E & W').
  rewrite set_strong_dofs_ok in E by auto. apply bind_Ok in E. destruct E as (u & E & Eu). inversion Eu; subst s'. eauto.
Qed.

Lemma strong_vertex_ok D c v s : c < Cell2Ds_number mesh -> md_active2 m c = true -> In v (Cell2D_vertices mesh c) -> W D s ->
  exists s', strong_vertex m info data g s v = Ok s' /\ W (fun h => D h \/ (strong_entity info 0 v /\ entity 0 v h)) s'.
Proof.
  intros Hc Ha Hv Hw. pose proof (vertex_range c v Hc Hv) as Rv.
  destruct (info_entry 0 v) as (b & row & Eb & Et & Em & Er & L & F); auto; try lia.
  unfold strong_vertex. unfold at_ at 1. rewrite Eb. cbn [bind].
  destruct (bi_type b) eqn:Ty; cbn [is_strong negb];
    try (exists s; split; auto; eapply written_ext; [|exact Hw]; intros h _; unfold strong_entity; rewrite Et; split; [tauto|intros [?|[? ?]]; [auto|congruence]]).
  rewrite function_evaluation_ok by (right; simpl; lia). cbn [bind]. unfold at_. rewrite Er. cbn [bind].
  assert (SE : strong_entity info 0 v) by (unfold strong_entity; now rewrite Et).
  pose proof (HV c v Hc Ha Hv SE) as H1.
  destruct (strong_write D 0 v row {| v_size := m_cols (column3 (md_coords m v)); v_at := fun i => g (bi_marker b) (m_at (column3 (md_coords m v)) 0 i)
    (m_at (column3 (md_coords m v)) 1 i) (m_at (column3 (md_coords m v)) 2 i) |} s) as (s' & E & W'); auto; try lia.
  - simpl. lia.
  - intros i Hi. unfold T, strong_value, at_point. simpl. now rewrite Em.
  - exists s'. split; auto. eapply written_ext; [|exact W']. intros h _. simpl. tauto.
Qed.

Lemma strong_edge_ok D c sp ed s : c < Cell2Ds_number mesh -> md_active2 m c = true -> ed < length (Cell2D_edges mesh c) -> 1 < order ->
  create c = Ok sp -> W D s ->
  exists e s', nth_error (Cell2D_edges mesh c) ed = Some e /\ strong_edge info data (Cell2D_edges mesh c) sp g ed s = Ok s' /\
    W (fun h => D h \/ (strong_entity info 1 e /\ entity 1 e h)) s'.
Proof.
  intros Hc Ha Hed Ho Hsp Hw. destruct (nth_error (Cell2D_edges mesh c) ed) as [e|] eqn:Ee; [|apply nth_error_None in Ee; lia].
  exists e. pose proof (edge_range c e Hc (nth_error_In _ _ Ee)) as Re.
  destruct (info_entry 1 e) as (b & row & Eb & Et & Em & Er & L & F); auto.
  unfold strong_edge, idx_, at_. rewrite Ee. cbn [bind]. rewrite Eb. cbn [bind]. rewrite Er. cbn [bind].
  destruct (bi_type b) eqn:Ty; cbn [is_strong negb orb];
    try (exists s; split; auto; split; auto; eapply written_ext; [|exact Hw]; intros h _; unfold strong_entity; rewrite Et; split; [tauto|intros [?|[? ?]]; [auto|congruence]]).
  assert (SE : strong_entity info 1 e) by (unfold strong_entity; now rewrite Et).
  destruct (length row =? 0) eqn:E0.
  - apply Nat.eqb_eq in E0. exists s. split; auto. split; auto. eapply written_ext; [|exact Hw]. intros h (_ & _ & Vh). split; [tauto|].
    intros [?|(_ & Ed & Ec)]; auto. rewrite Ed, Ec in Vh. lia.
  - apply Nat.eqb_neq in E0. destruct (HE Ho c Hc Ha) as (sp' & Esp & HP). rewrite Hsp in Esp. inversion Esp; subst sp'; clear Esp.
    destruct (HP ed e Ee) as (P & EP & CP & RP & PP); [split; auto; lia|].
    rewrite EP. cbn [bind]. rewrite function_evaluation_ok by auto. cbn [bind].
    destruct (strong_write D 1 e row {| v_size := m_cols P; v_at := fun i => g (bi_marker b) (m_at P 0 i) (m_at P 1 i) (m_at P 2 i) |} s) as (s' & E & W'); auto.
    + simpl. lia.
    + intros i Hi. simpl. unfold T, strong_value, at_point. simpl. rewrite Em.
      assert (Hi' : i < m_cols P) by lia. now rewrite (PP i Hi' 0), (PP i Hi' 1), (PP i Hi' 2) by lia.
    + exists s'. split; auto. split; auto. eapply written_ext; [|exact W']. intros h _. simpl. tauto.
Qed.

Lemma strong_run : exists uS, assemble_strong_solution m info data order create g = Ok uS /\ W (sdone (Cell2Ds_number mesh)) uS.
Proof.
  unfold assemble_strong_solution. fold mesh.
  apply (for_loop_total (fun k s => W (sdone k) s)).
  - eapply written_ext; [|apply written_init with (k := 2) (mesh := mesh); auto].
    intros h _. split; [tauto|]. intros (_ & c & Hc & _). lia.
  - intros c s Hc Hw. destruct (md_active2 m c) eqn:Ha; cbn [negb].
    2:{ exists s. split; auto. eapply written_ext; [|exact Hw]. intros h _. unfold sdone. split; intros (S1 & c' & Hc' & A & B); (split; [auto|]).
        - exists c'. split; [lia|auto].
        - exists c'. split; [|auto]. destruct (Nat.eq_dec c' c); [congruence|lia]. }
    pose (D1 := fun pre h => sdone c h \/ (strong_entity info 0 (g_cell h) /\ g_dim h = 0 /\ In (g_cell h) pre)).
    destruct (foldM_total (fun pre s => W (D1 pre) s) (strong_vertex m info data g) (Cell2D_vertices mesh c) s) as (s1 & E1 & W1).
    { eapply written_ext; [|exact Hw]. intros h _. unfold D1. simpl. tauto. }
    { intros pre v post t Epp Wt. destruct (strong_vertex_ok (D1 pre) c v t) as (t' & Et & Wt'); auto.
      - fold mesh. rewrite Epp. rewrite in_app_iff. simpl. tauto.
      - exists t'. split; auto. eapply written_ext; [|exact Wt']. intros h _. unfold D1, entity. rewrite in_app_iff. simpl. split.
        + intros [[?|?]|(S1 & Ed & Ec)]; [tauto|tauto|]. subst v. tauto.
        + intros [?|(S1 & Ed & [?|[?|[]]])]; [tauto|tauto|]. subst v. tauto. }
    rewrite E1. cbn [bind]. destruct (1 <? order) eqn:Eo.
    + apply Nat.ltb_lt in Eo. destruct (HE Eo c Hc Ha) as (sp & Esp & _). rewrite Esp. cbn [bind].
      pose (D2 := fun j h => D1 (Cell2D_vertices mesh c) h \/
        (strong_entity info 1 (g_cell h) /\ g_dim h = 1 /\ exists ed, ed < j /\ nth_error (Cell2D_edges mesh c) ed = Some (g_cell h))).
      destruct (for_loop_total (fun j s => W (D2 j) s) (strong_edge info data (Cell2D_edges mesh c) sp g) s1 (n := length (Cell2D_edges mesh c))) as (s2 & E2 & W2).
      * eapply written_ext; [|exact W1]. intros h _. unfold D2. split; [tauto|]. intros [?|(_ & _ & ed & Hd & _)]; [auto|lia].
      * intros ed t Hed Wt. destruct (strong_edge_ok (D2 ed) c sp ed t) as (e & t' & Ee & Et & Wt'); auto.
        exists t'. split; auto. eapply written_ext; [|exact Wt']. intros h _. unfold D2, entity. split.
        -- intros [[?|(S1 & Ed & j & Hj & Ej)]|(S1 & Ed & Ec)]; [tauto| |].
           ++ right. split; auto. split; auto. exists j. split; auto.
           ++ right. subst e. split; auto. split; auto. exists ed. split; auto.
        -- intros [?|(S1 & Ed & j & Hj & Ej)]; [tauto|]. destruct (Nat.eq_dec j ed) as [->|Hne].
           ++ right. rewrite Ee in Ej. inversion Ej; subst e. auto.
           ++ left. right. split; auto. split; auto. exists j. split; [lia|auto].
      * exists s2. split; auto. eapply written_ext; [|exact W2]. intros h _. unfold D2, D1, sdone. split.
        -- intros [[(S1 & c' & Hc' & A & B)|(S1 & Ed & Hin)]|(S1 & Ed & j & Hj & Ej)].
           ++ split; auto. exists c'. split; [lia|auto].
           ++ split; [now rewrite Ed|]. exists c. split; [lia|]. split; auto.
           ++ split; [now rewrite Ed|]. exists c. split; [lia|]. split; auto. right. split; auto. split; auto. eapply nth_error_In; eauto.
        -- intros (S1 & c' & Hc' & A & B). destruct (Nat.eq_dec c' c) as [->|Hne].
           ++ destruct B as [(Ed & Hin)|(Ed & _ & Hin)].
              ** left. right. rewrite <- Ed. split; auto. 
              ** right. rewrite <- Ed at 1. split; auto. split; auto. apply In_nth_error in Hin. destruct Hin as (j & Ej). exists j. split; auto. apply nth_error_Some. congruence.
           ++ left. left. split; auto. exists c'. split; [lia|auto].
    + apply Nat.ltb_ge in Eo. exists s1. split; auto. eapply written_ext; [|exact W1]. intros h _. unfold D1, sdone. split.
      * intros [(S1 & c' & Hc' & A & B)|(S1 & Ed & Hin)].
        -- split; auto. exists c'. split; [lia|auto].
        -- split; [now rewrite Ed|]. exists c. split; [lia|]. split; auto.
      * intros (S1 & c' & Hc' & A & B). destruct (Nat.eq_dec c' c) as [->|Hne].
        -- destruct B as [(Ed & Hin)|(Ed & Ho & Hin)]; [|lia]. right. rewrite <- Ed. split; auto.
        -- left. split; auto. exists c'. split; [lia|auto].
Qed.

Lemma strong_result : exists uS, assemble_strong_solution m info data order create g = Ok uS /\ length uS = NumberStrongs data /\
  forall d e i, d <= 2 -> e < num_cells info d -> i < requested info d e -> strong_entity info d e ->
    exists x, lookup data (entity_dof d e i) = Some x /\ dof_type x = TStrong /\
      (receives_strong m info order d e -> nth_error uS (dof_index x) = Some (strong_value m info pt g d e i)) /\
      (~ receives_strong m info order d e -> nth_error uS (dof_index x) = Some 0%R).
Proof.
  destruct strong_run as (uS & E & (S1 & S2) & Hw). exists uS. split; auto. split; auto.
  intros d e i Hd He Hi HS. assert (V : valid 2 info (entity_dof d e i)) by (repeat split; auto).
  destruct (valid_lookup 2 info mesh data ltac:(lia) HC _ V) as (x & t & Hx & Ht & Hb).
  unfold strong_entity in HS. simpl in Ht. rewrite HS in Ht. inversion Ht; subst t.
  destruct Hb as [(_ & Ty & Lt)|(Q & _)]; [|congruence]. exists x. split; auto. split; auto.
  destruct (Hw _ V) as (W1 & W2). unfold val, value_of in W1, W2. rewrite Hx, Ty in W1, W2. simpl in W1, W2.
  unfold sdone in W1, W2. simpl in W1, W2. unfold receives_strong. fold mesh. split; intros Hr; [apply W1|apply W2]; auto.
Qed.
End Strong.

(** ** Interpolation *)
Section Interp.
Variables (order : nat) (create : nat -> outcome LocalSpace) (f : R -> R -> R -> R) (pt : nat -> nat -> nat -> R) (td : nat -> nat -> R).
Hypothesis HV : forall c v, c < Cell2Ds_number mesh -> In v (Cell2D_vertices mesh c) -> requested info 0 v = 1.
Hypothesis HE : 1 < order -> edge_points_agree m info create (fun _ => true) (fun _ => True) pt.
Hypothesis HI : 1 < order -> forall c sp, c < Cell2Ds_number mesh -> create c = Ok sp -> 0 < requested info 2 c ->
  exists dofs, internal_dofs sp f dofs /\ requested info 2 c <= v_size dofs /\ forall i, i < requested info 2 c -> v_at dofs i = td c i.
Let T (h : GlobalCell_DOF) : R := dof_value m pt td f h.
Let W D s := written 2 info data T D s.

Definition idone (k : nat) (h : GlobalCell_DOF) : Prop := exists c, c < k /\
  ((g_dim h = 0 /\ In (g_cell h) (Cell2D_vertices mesh c)) \/
   (1 < order /\ ((g_dim h = 1 /\ In (g_cell h) (Cell2D_edges mesh c)) \/ (g_dim h = 2 /\ g_cell h = c)))).

Lemma vertices_ok D c s : c < Cell2Ds_number mesh -> W D s -> exists s', evaluate_vertices m data f c s = Ok s' /\
  W (fun h => D h \/ (g_dim h = 0 /\ In (g_cell h) (Cell2D_vertices mesh c))) s'.
Proof.
  intros Hc Hw. unfold evaluate_vertices. rewrite function_evaluation_ok by (right; simpl; lia). cbn [bind]. fold mesh.
  set (values := {| v_size := m_cols (Cell2DVerticesCoordinates m c); v_at := _ |}).
  destruct (foldM_total (fun pre (t : nat * (list R * list R)) => fst t = length pre /\
      W (fun h => D h \/ (g_dim h = 0 /\ In (g_cell h) pre)) (snd t))
    (fun '(count, s0) v => row <- at_ (CellsDOFs data 0) v ;; s1 <- set_dofs row values count s0 ;; Ok ((count + length row)%nat, s1))
    (Cell2D_vertices mesh c) (O, s)) as (r & E & _ & Wr).
  - simpl. split; auto. eapply written_ext; [|exact Hw]. intros h _. tauto.
  - intros pre v post [cnt t] Epp (Ecnt & Wt). simpl in Ecnt, Wt. subst cnt.
    assert (Hin : In v (Cell2D_vertices mesh c)) by (rewrite Epp, in_app_iff; simpl; tauto).
    pose proof (vertex_range c v Hc Hin) as Rv. pose proof (HV c v Hc Hin) as H1.
    destruct (info_entry 0 v) as (b & row & _ & _ & _ & Er & L & _); auto; try lia.
    unfold at_. rewrite Er. cbn [bind].
    destruct (written_step 2 info mesh data ltac:(lia) HC T (fun h => D h \/ (g_dim h = 0 /\ In (g_cell h) pre)) 0 v row values (length pre) t) as (t' & Et & Wt'); auto; try lia.
    + unfold values. simpl. fold mesh. rewrite Epp, app_length. simpl. lia.
    + intros i Hi. assert (i = 0) as -> by lia. unfold values, T, dof_value, at_point. simpl. fold mesh. rewrite Nat.add_0_r, Epp.
      rewrite app_nth2, Nat.sub_diag by lia. reflexivity.
    + rewrite Et. cbn [bind]. eexists. split; [reflexivity|]. simpl. rewrite app_length. simpl. split; [lia|].
      eapply written_ext; [|exact Wt']. intros h _. unfold entity. simpl. rewrite in_app_iff. simpl. split.
      * intros [[?|?]|(Ed & Ec)]; [tauto|tauto|]. subst v. tauto.
      * intros [?|(Ed & [?|[?|[]]])]; [tauto|tauto|]. subst v. tauto.
  - rewrite E. cbn [bind]. exists (snd r). auto.
Qed.

Lemma edge_ok D c sp ed s : c < Cell2Ds_number mesh -> ed < length (Cell2D_edges mesh c) -> 1 < order -> create c = Ok sp -> W D s ->
  exists e s', nth_error (Cell2D_edges mesh c) ed = Some e /\ evaluate_edge data (Cell2D_edges mesh c) sp f ed s = Ok s' /\
    W (fun h => D h \/ entity 1 e h) s'.
Proof.
  intros Hc Hed Ho Hsp Hw. destruct (nth_error (Cell2D_edges mesh c) ed) as [e|] eqn:Ee; [|apply nth_error_None in Ee; lia].
  exists e. pose proof (edge_range c e Hc (nth_error_In _ _ Ee)) as Re.
  destruct (info_entry 1 e) as (b & row & Eb & Et & Em & Er & L & F); auto.
  destruct (HE Ho c Hc eq_refl) as (sp' & Esp & HP). rewrite Hsp in Esp. inversion Esp; subst sp'; clear Esp.
  destruct (HP ed e Ee I) as (P & EP & CP & RP & PP).
  unfold evaluate_edge, idx_, at_. rewrite Ee. cbn [bind]. rewrite Er. cbn [bind]. rewrite EP. cbn [bind].
  rewrite function_evaluation_ok by auto. cbn [bind].
  destruct (written_step 2 info mesh data ltac:(lia) HC T D 1 e row {| v_size := m_cols P; v_at := fun i => f (m_at P 0 i) (m_at P 1 i) (m_at P 2 i) |} 0 s) as (s' & E & W'); auto.
  - simpl. lia.
  - intros i Hi. simpl. unfold T, dof_value, at_point. simpl.
    assert (Hi' : i < m_cols P) by lia. now rewrite (PP i Hi' 0), (PP i Hi' 1), (PP i Hi' 2) by lia.
  - exists s'. auto.
Qed.

Lemma internal_ok D c sp s : c < Cell2Ds_number mesh -> 1 < order -> create c = Ok sp -> W D s ->
  exists s', evaluate_internal data sp f c s = Ok s' /\ W (fun h => D h \/ entity 2 c h) s'.
Proof.
  intros Hc Ho Hsp Hw. destruct (info_entry 2 c) as (b & row & Eb & Et & Em & Er & L & F); auto; try lia.
  unfold evaluate_internal, at_. rewrite Er. cbn [bind]. destruct (length row =? 0) eqn:E0.
  - apply Nat.eqb_eq in E0. exists s. split; auto. eapply written_ext; [|exact Hw]. intros h (_ & _ & Vh). split; [tauto|].
    intros [?|(Ed & Ec)]; auto. rewrite Ed, Ec in Vh. lia.
  - apply Nat.eqb_neq in E0. destruct (HI Ho c sp Hc Hsp) as (dofs & (Q & v & EQ & RQ & -> & Ed) & Sd & Vd); [lia|].
    rewrite EQ. cbn [bind]. rewrite function_evaluation_ok by auto. cbn [bind]. rewrite Ed. cbn [bind].
    destruct (written_step 2 info mesh data ltac:(lia) HC T D 2 c row dofs 0 s) as (s' & E & W'); auto; try lia.
    + intros i Hi. simpl. rewrite Vd by lia. reflexivity.
    + exists s'. auto.
Qed.

Lemma interp_run : exists s, evaluate_function_on_dofs m data order create f = Ok s /\ W (idone (Cell2Ds_number mesh)) s.
Proof.
  unfold evaluate_function_on_dofs. fold mesh.
  apply (for_loop_total (fun k s => W (idone k) s)).
  - eapply written_ext; [|apply written_init with (k := 2) (mesh := mesh); auto].
    intros h _. split; [tauto|]. intros (c & Hc & _). lia.
  - intros c s Hc Hw. destruct (vertices_ok (idone c) c s Hc Hw) as (s1 & E1 & W1). rewrite E1. cbn [bind].
    destruct (1 <? order) eqn:Eo.
    + apply Nat.ltb_lt in Eo. destruct (HE Eo c Hc eq_refl) as (sp & Esp & _). rewrite Esp. cbn [bind].
      set (D1 := fun h => idone c h \/ (g_dim h = 0 /\ In (g_cell h) (Cell2D_vertices mesh c))) in *.
      pose (D2 := fun j h => D1 h \/ (g_dim h = 1 /\ exists ed, ed < j /\ nth_error (Cell2D_edges mesh c) ed = Some (g_cell h))).
      destruct (for_loop_total (fun j s => W (D2 j) s) (evaluate_edge data (Cell2D_edges mesh c) sp f) s1 (n := length (Cell2D_edges mesh c))) as (s2 & E2 & W2).
      * eapply written_ext; [|exact W1]. intros h _. unfold D2. split; [tauto|]. intros [?|(_ & ed & Hd & _)]; [auto|lia].
      * intros ed t Hed Wt. destruct (edge_ok (D2 ed) c sp ed t) as (e & t' & Ee & Et & Wt'); auto.
        exists t'. split; auto. eapply written_ext; [|exact Wt']. intros h _. unfold D2, entity. split.
        -- intros [[?|(Ed & j & Hj & Ej)]|(Ed & Ec)]; [tauto| |].
           ++ right. split; auto. exists j. split; auto.
           ++ right. subst e. split; auto. exists ed. split; auto.
        -- intros [?|(Ed & j & Hj & Ej)]; [tauto|]. destruct (Nat.eq_dec j ed) as [->|Hne].
           ++ right. rewrite Ee in Ej. inversion Ej; subst e. auto.
           ++ left. right. split; auto. exists j. split; [lia|auto].
      * rewrite E2. cbn [bind]. destruct (internal_ok (D2 (length (Cell2D_edges mesh c))) c sp s2 Hc Eo Esp W2) as (s3 & E3 & W3).
        exists s3. split; auto. eapply written_ext; [|exact W3]. intros h _. unfold D2, D1, idone, entity. split.
        -- intros [[[(c' & Hc' & B)|(Ed & Hin)]|(Ed & j & Hj & Ej)]|(Ed & Ec)].
           ++ exists c'. split; [lia|auto].
           ++ exists c. split; [lia|]. auto.
           ++ exists c. split; [lia|]. right. split; auto. left. split; auto. eapply nth_error_In; eauto.
           ++ exists c. split; [lia|]. right. split; auto.
        -- intros (c' & Hc' & B). destruct (Nat.eq_dec c' c) as [->|Hne].
           ++ destruct B as [(Ed & Hin)|(_ & [(Ed & Hin)|(Ed & Ec)])].
              ** tauto.
              ** left. right. split; auto. apply In_nth_error in Hin. destruct Hin as (j & Ej). exists j. split; auto. apply nth_error_Some. congruence.
              ** tauto.
           ++ left. left. left. exists c'. split; [lia|auto].
    + apply Nat.ltb_ge in Eo. exists s1. split; auto. eapply written_ext; [|exact W1]. intros h _. unfold idone. split.
      * intros [(c' & Hc' & B)|(Ed & Hin)].
        -- exists c'. split; [lia|auto].
        -- exists c. split; [lia|]. auto.
      * intros (c' & Hc' & B). destruct (Nat.eq_dec c' c) as [->|Hne].
        -- destruct B as [(Ed & Hin)|(Ho & _)]; [|lia]. tauto.
        -- left. exists c'. split; [lia|auto].
Qed.

Lemma interp_result : exists uD uS, evaluate_function_on_dofs m data order create f = Ok (uD, uS) /\
  length uD = NumberDOFs data /\ length uS = NumberStrongs data /\
  forall c h, c < Cell2Ds_number mesh -> In h (closure_dofs info mesh 2 c) -> (1 < order \/ g_dim h = 0) ->
    value_of data uD uS h = Some (dof_value m pt td f h).
Proof.
  destruct interp_run as ([uD uS] & E & (S1 & S2) & Hw). exists uD, uS. split; auto. split; auto. split; auto.
  intros c h Hc Hin Ho. apply in_closure_dofs in Hin. destruct Hin as (He & Hi).
  destruct (wf 2 c) as (_ & _ & Hr); auto; [lia|]. specialize (Hr _ _ He).
  assert (D2 : g_dim h <= 2).
  { simpl in He. rewrite !in_app_iff, !in_map_iff in He. simpl in He.
    destruct He as [(? & Q & _)|[(? & Q & _)|[Q|[]]]]; inversion Q; lia. }
  assert (V : valid 2 info h) by (repeat split; auto).
  destruct (Hw h V) as (W1 & _). apply W1. exists c. split; auto. simpl in He. fold mesh.
  rewrite !in_app_iff, !in_map_iff in He. simpl in He. destruct He as [(v & Q & Hv)|[(e & Q & Hv)|[Q|[]]]]; inversion Q; subst.
  - left. auto.
  - right. split; [destruct Ho; [auto|congruence]|]. left. auto.
  - right. split; [destruct Ho; [auto|congruence]|]. right. auto.
Qed.
End Interp.

(** ** Restriction to a cell of a pair of vectors *)
Lemma local_solution_ok c uD uS : c < Cell2Ds_number mesh -> length uD = NumberDOFs data -> length uS = NumberStrongs data ->
  exists u, local_solution data uD uS c = Ok u /\ v_size u = length (closure_dofs info mesh 2 c) /\
    forall p h, nth_error (closure_dofs info mesh 2 c) p = Some h -> value_of data uD uS h = Some (v_at u p).
Proof.
  intros Hc LD LS. destruct (C05_closure 2 info mesh data 2 c) as (G & HL); auto; try lia.
  unfold local_solution, local_count_dofs. simpl idx_. unfold idx_. simpl nth_error. cbn [bind]. unfold at_ at 1. rewrite G. cbn [bind].
  simpl. set (gl := closure_dofs info mesh 2 c) in *.
  assert (Hp : packed 2 c (single_handler data)
     {| num_total_boundary_dofs := NumberBoundaryDOFs data; num_total_dofs := NumberDOFs data; num_total_strong := NumberStrongs data;
        offsets_DOFs := [0]; offsets_Strongs := [0] |} {| l_num_total_dofs := length gl; l_offsets_DOFs := [0] |}).
  { constructor; simpl; auto.
    - repeat constructor. exists info, mesh. auto.
    - unfold local_count_dofs, idx_. simpl. unfold at_. rewrite G. reflexivity. }
  destruct (C14_restrict 2 c (single_handler data) _ _ uD uS Hp) as (loc & E & L & PM & HP); auto.
  simpl in E, L. exists (vec_of_list loc). change (replace [0] 0 0) with [0]. rewrite E. cbn [bind]. split; auto. split; [simpl; auto|].
  intros p h Hh. assert (Hpl : p < length gl) by (apply nth_error_Some; congruence).
  destruct (HL h (nth_error_In _ _ Hh)) as (x & Hx).
  assert (SD : slot_dof 2 c (dofs_data (single_handler data)) (0, p) = Some x).
  { simpl dofs_data. unfold slot_dof. simpl. rewrite G. fold gl. rewrite Hh. exact Hx. }
  destruct (HP (0, p)) as [(r & Fr & Lr & En)|(r & Fr & Lr & En)].
  { apply in_slots. exists data. simpl. rewrite (local_size_at 2 c data gl) by auto. auto. }
  - unfold free_number in Fr. rewrite SD in Fr. unfold value_of. rewrite Hx. destruct (dof_type x) eqn:Ty; try discriminate.
    inversion Fr; subst r. simpl in En. unfold slot_pos in En. simpl in En. rewrite ?Nat.add_0_r in En. rewrite ?Nat.add_0_r in Lr. rewrite <- En. simpl.
    apply nth_error_nth'. lia.
  - unfold strong_number in Fr. rewrite SD in Fr. unfold value_of. rewrite Hx. destruct (dof_type x) eqn:Ty; try discriminate.
    inversion Fr; subst r. simpl in En. unfold slot_pos in En. simpl in En. rewrite ?Nat.add_0_r in En. rewrite ?Nat.add_0_r in Lr. rewrite <- En. simpl.
    apply nth_error_nth'. lia.
Qed.
End Run.
