(** Restrictions of the strong values and of the interpolant to the cells, and errors of reproduced functions. *)
From Coq Require Import List Arith Bool Reals Lra Lia.
From Verif Require Import Base RSum MatrixModel DofsModel DofsSpec DofsProofs DofsProofs2 AssemblerModel AssemblerSpec AssemblerProofs AssemblerProofs2
  VemQuadModel VemModel VemSpec DriverModel DriverSpec DriverProofs DriverProofs2 DriverProofs3.
Import ListNotations.
Local Open Scope nat_scope.

Lemma closure_valid m info data c h : CreateDOFs 2 info (md_mesh m) = Ok data -> Cell2Ds_number (md_mesh m) = num_cells info 2 -> c < Cell2Ds_number (md_mesh m) ->
  In h (closure_dofs info (md_mesh m) 2 c) -> valid 2 info h /\
  ((g_dim h = 0 /\ In (g_cell h) (Cell2D_vertices (md_mesh m) c)) \/ (g_dim h = 1 /\ In (g_cell h) (Cell2D_edges (md_mesh m) c)) \/ (g_dim h = 2 /\ g_cell h = c)).
Proof.
  intros HC HN Hc Hin. apply in_closure_dofs in Hin. destruct Hin as (He & Hi).
  destruct (wf m info data HC 2 c) as (_ & _ & Hr); auto; try lia. specialize (Hr _ _ He).
  simpl in He. rewrite !in_app_iff, !in_map_iff in He. simpl in He.
  destruct He as [(v & Q & Hv)|[(e & Q & Hv)|[Q|[]]]]; inversion Q as [[Q1 Q2]]; rewrite <- Q1, <- Q2 in *; (split; [repeat split; try (rewrite <- Q1; lia)|]).
  all: rewrite <- ?Q1, <- ?Q2; auto.
Qed.

Section Cells.
Variables (m : Mesh2D) (info : MeshDOFsInfo) (data : DOFsData).
Local Notation mesh := (md_mesh m).
Hypothesis HC : CreateDOFs 2 info mesh = Ok data.
Hypothesis HN : Cell2Ds_number mesh = num_cells info 2.

Lemma strong_restriction order create g pt :
  (forall c v, c < Cell2Ds_number mesh -> md_active2 m c = true -> In v (Cell2D_vertices mesh c) -> strong_entity info 0 v -> requested info 0 v <= 1) ->
  (1 < order -> edge_points_agree m info create (md_active2 m) (fun e => strong_entity info 1 e /\ 0 < requested info 1 e) pt) ->
  forall uS, assemble_strong_solution m info data order create g = Ok uS ->
  forall uD c, length uD = NumberDOFs data -> c < Cell2Ds_number mesh -> md_active2 m c = true ->
    exists u, local_solution data uD uS c = Ok u /\ v_size u = length (closure_dofs info mesh 2 c) /\
      forall p h, nth_error (closure_dofs info mesh 2 c) p = Some h -> strong_entity info (g_dim h) (g_cell h) ->
        (g_dim h = 0 \/ (g_dim h = 1 /\ 1 < order)) -> v_at u p = strong_value m info pt g (g_dim h) (g_cell h) (g_dof h).
Proof.
  intros HV HE uS E uD c LD Hc Ha.
  destruct (strong_result m info data HC HN order create g pt HV HE) as (uS' & E' & LS & HS). rewrite E in E'. inversion E'; subst uS'; clear E'.
  destruct (local_solution_ok m info data HC HN c uD uS Hc LD LS) as (u & Eu & Su & Hu).
  exists u. split; auto. split; auto. intros p h Hh St Hd.
  destruct (closure_valid m info data c h HC HN Hc (nth_error_In _ _ Hh)) as ((V1 & V2 & V3) & Hcl).
  destruct (HS (g_dim h) (g_cell h) (g_dof h)) as (x & Hx & Ty & R1 & _); auto.
  rewrite entity_eta in Hx. specialize (Hu p h Hh). unfold value_of in Hu. rewrite Hx, Ty in Hu. rewrite R1 in Hu; [congruence|].
  split; auto. exists c. split; auto. split; auto.
  destruct Hcl as [?|[(? & ?)|(? & ?)]]; [tauto| |lia]. destruct Hd as [?|(? & ?)]; [lia|tauto].
Qed.

Lemma interpolation order create f pt td :
  (forall c v, c < Cell2Ds_number mesh -> In v (Cell2D_vertices mesh c) -> requested info 0 v = 1) ->
  (1 < order -> edge_points_agree m info create (fun _ => true) (fun _ => True) pt) ->
  (1 < order -> forall c sp, c < Cell2Ds_number mesh -> create c = Ok sp -> 0 < requested info 2 c ->
    exists dofs, internal_dofs sp f dofs /\ requested info 2 c <= v_size dofs /\ forall i, i < requested info 2 c -> v_at dofs i = td c i) ->
  exists uD uS, evaluate_function_on_dofs m data order create f = Ok (uD, uS) /\ length uD = NumberDOFs data /\ length uS = NumberStrongs data /\
    forall c, c < Cell2Ds_number mesh -> exists u, local_solution data uD uS c = Ok u /\ v_size u = length (closure_dofs info mesh 2 c) /\
      forall p h, nth_error (closure_dofs info mesh 2 c) p = Some h -> (1 < order \/ g_dim h = 0) -> v_at u p = dof_value m pt td f h.
Proof.
  intros HV HE HI. destruct (interp_result m info data HC HN order create f pt td HV HE HI) as (uD & uS & E & LD & LS & H).
  exists uD, uS. split; auto. split; auto. split; auto. intros c Hc.
  destruct (local_solution_ok m info data HC HN c uD uS Hc LD LS) as (u & Eu & Su & Hu).
  exists u. split; auto. split; auto. intros p h Hh Ho. specialize (Hu p h Hh). rewrite (H c h Hc (nth_error_In _ _ Hh) Ho) in Hu. congruence.
Qed.

(** the functions reproduced by the local spaces have no error *)
Lemma reproduced_L2 create f uD uS val r :
  (forall c, c < Cell2Ds_number mesh -> exists u, local_solution data uD uS c = Ok u /\ v_size u = length (closure_dofs info mesh 2 c) /\
      forall p h, nth_error (closure_dofs info mesh 2 c) p = Some h -> v_at u p = val h) ->
  (forall c sp V, c < Cell2Ds_number mesh -> md_active2 m c = true -> create c = Ok sp -> ls_Values sp Pi0k_t = Ok V ->
     m_cols V = length (closure_dofs info mesh 2 c) /\
     forall u q, (forall p h, nth_error (closure_dofs info mesh 2 c) p = Some h -> u p = val h) ->
       q < v_size (q_Weights (ls_InternalQuadrature sp)) -> combine V u q = exact_at (Some f) (q_Points (ls_InternalQuadrature sp)) q) ->
  compute_error_L2 m data create uD uS (Some f) = Ok r -> pe_error r = 0%R.
Proof.
  intros HL HR E. eapply report_zero; [apply (L2_reports _ _ _ _ _ _ _ E)|].
  intros c w a b Hc (_ & Ha & sp & V & u & q & Ec & EV & Eu & Hq & T). inversion T; subst.
  destruct (HL c Hc) as (u' & Eu' & Su & Hu). rewrite Eu in Eu'. inversion Eu'; subst u'.
  destruct (HR c sp V Hc Ha Ec EV) as (_ & HR'). apply HR'; auto.
Qed.

Lemma reproduced_H1 create (f : R -> R -> R -> nat -> R) uD uS val r :
  (forall c, c < Cell2Ds_number mesh -> exists u, local_solution data uD uS c = Ok u /\ v_size u = length (closure_dofs info mesh 2 c) /\
      forall p h, nth_error (closure_dofs info mesh 2 c) p = Some h -> v_at u p = val h) ->
  (forall c sp D d Dd, c < Cell2Ds_number mesh -> md_active2 m c = true -> create c = Ok sp -> ls_DerivativeValues sp = Ok D -> d < 2 -> nth_error D d = Some Dd ->
     m_cols Dd = length (closure_dofs info mesh 2 c) /\
     forall u q, (forall p h, nth_error (closure_dofs info mesh 2 c) p = Some h -> u p = val h) ->
       q < v_size (q_Weights (ls_InternalQuadrature sp)) -> combine Dd u q = exact_gradient_at (Some f) (q_Points (ls_InternalQuadrature sp)) q d) ->
  compute_error_H1 m data create uD uS (Some f) = Ok r -> pe_error r = 0%R.
Proof.
  intros HL HR E. eapply report_zero; [apply (H1_reports _ _ _ _ _ _ _ E)|].
  intros c w a b Hc (_ & Ha & sp & D & u & q & d & Dd & Ec & ED & Eu & Hq & Hd & HDd & T). inversion T; subst.
  destruct (HL c Hc) as (u' & Eu' & Su & Hu). rewrite Eu in Eu'. inversion Eu'; subst u'.
  destruct (HR c sp D d Dd Hc Ha Ec ED Hd HDd) as (_ & HR'). apply HR'; auto.
Qed.
End Cells.
