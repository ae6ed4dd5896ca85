(** The whole assembly of elasticity (C149). *)
From Coq Require Import List Arith Bool Reals Lia Lra.
From Verif Require Import Base RSum MatrixModel DofsModel DofsSpec DofsProofs DofsProofs2 AssemblerModel AssemblerSpec AssemblerProofs AssemblerProofs2
  EquationModel EquationSpec EquationProofs TriangleProofs VemQuadModel VemQuadSpec GreenSpec VemModel VemSpec DriverModel DriverSpec DriverSpec2 DriverProofs DriverProofs2 DriverProofs3 DriverProofs6
  DriverProofs7 Pcc2dModel Pcc2dSpec Mcc2dModel Mcc2dSpec Mcc2dProofs Mcc2dProofs2 Mcc2dProofs3 ElasticModel ElasticSpec ElasticGlobalModel ElasticGlobalSpec ElasticGlobalProofs ElasticGlobalProofs2
  ElasticBoundaryModel ElasticBoundarySpec ElasticBoundaryProofs ElasticBoundaryProofs2 ElasticBoundaryProofs3.
Import ListNotations.
Local Open Scope R_scope.

(** f adds to a vector what does not depend on it *)
Definition shifts (f : list R -> outcome (list R)) : Prop := forall s s' t, length s' = length s -> f s = Ok t -> length t = length s /\
  exists t', f s' = Ok t' /\ length t' = length s /\ forall r, nth r t' 0 - nth r s' 0 = nth r t 0 - nth r s 0.
Lemma shifts_id : shifts (fun s => Ok s).
Proof. intros s s' t L [= <-]. split; auto. exists s'. split; auto. split; auto. intros; ring. Qed.
Lemma shifts_bind f g : shifts f -> shifts g -> shifts (fun s => t <- f s ;; g t).
Proof.
  intros F G s s' t L E. apply bind_Ok in E. destruct E as (x & Ex & E). destruct (F s s' x L Ex) as (Lx & x' & Ex' & Lx' & Hx).
  destruct (G x x' t ltac:(lia) E) as (Lt & t' & Et & Lt' & Ht). split; [lia|]. exists t'. rewrite Ex'. cbn [bind]. split; [exact Et|]. split; [lia|]. intros r. specialize (Hx r). specialize (Ht r). lra.
Qed.
Lemma shifts_loop n f : (forall i, shifts (f i)) -> shifts (for_loop n f).
Proof. intros H. unfold for_loop. generalize 0%nat as i. induction n as [|n IH]; intros i; [exact shifts_id|]. cbn [for_from]. apply (shifts_bind (f i)); auto. Qed.
Lemma shifts_const {A} (o : outcome A) f : (forall x, shifts (f x)) -> shifts (fun s => x <- o ;; f x s).
Proof. intros H s s' t L E. destruct o as [x| |]; cbn [bind] in *; try discriminate. apply (H x); auto. Qed.
Lemma shifts_add i x : shifts (fun s => AddValue s i x).
Proof.
  intros s s' t L E. destruct (AddValue_ok s i x t E) as (Li & Lt & Ht). split; [exact Lt|]. destruct (AddValue_in s' i x ltac:(lia)) as (t' & E' & Lt'). exists t'. split; [exact E'|]. split; [lia|].
  destruct (AddValue_ok s' i x t' E') as (_ & _ & Ht'). intros r. rewrite Ht, Ht'. ring.
Qed.
Lemma shifts_row off row v p q : shifts (elastic_add_weak off row v p q).
Proof.
  apply shifts_loop. intros i. apply (shifts_const (at_ row i)). intros x. destruct (dof_type x); [..]; try exact shifts_id; try (intros s s' t L E; discriminate).
  apply (shifts_const (vec_get v (p + q * i))). intros y. apply shifts_add.
Qed.
Lemma shifts_cell m info data cd P gauss g c sp : shifts (elastic_weak_cell m info data cd P gauss g c sp).
Proof.
  apply shifts_loop. intros ed. apply (shifts_const (idx_ (Cell2D_edges (md_mesh m) c) ed)). intros e. apply (shifts_const (at_ (CellsBoundaryInfo info 1) e)). intros bi.
  destruct (negb (is_weak (bi_type bi))); [exact shifts_id|]. apply shifts_loop. intros h. apply shifts_const. intros b. apply shifts_const. intros off. apply shifts_bind.
  - apply shifts_loop. intros p. apply shifts_const. intros v. apply shifts_const. intros row. apply shifts_row.
  - apply shifts_const. intros row. apply shifts_row.
Qed.

Local Open Scope R_scope.
Section Run.
Variables (m : Mesh2D) (info : MeshDOFsInfo) (data : DOFsData) (create : nat -> outcome LocalSpace) (P : ElasticProblem) (E : nat -> CellElement).
Variables (geometry : nat -> Polygon) (gauss : QuadratureData) (gS gW : nat -> R -> R -> R -> nat -> R).
Hypothesis HM : elastic_mesh m info data create E.
Local Notation HC := (em_dofs _ _ _ _ _ HM).
Local Notation HN := (em_number _ _ _ _ _ HM).
Local Notation N := (NumberDOFs data).
Local Notation NS := (NumberStrongs data).
Local Notation cd := (pair_count data data).
Local Notation hand c := (pair_handlers m info info data data c).

Lemma step_gen c st : (c < Cell2Ds_number (md_mesh m))%nat -> elastic_step data cd create P c st =
  assemble_gen 2 c (hand c) (hand c) (Some (fst (ecell P E c))) (Some (list_of_vec (snd (ecell P E c)))) st.
Proof using HM.
  intros Hc. unfold elastic_step. rewrite (proj1 (em_cells _ _ _ _ _ HM c Hc)). cbn [bind].
  rewrite (pair_local_ok m info info data data HC HN HC HN c Hc). cbn [bind]. rewrite (proj1 (ecell_ok m info data create P E HM c Hc)). cbn [bind]. reflexivity.
Qed.
Lemma step_shift c st st' st1 : (c < Cell2Ds_number (md_mesh m))%nat -> length (asm_rhs st) = (N + N)%nat -> length (asm_rhs st') = (N + N)%nat ->
  trip_DOFs st' = trip_DOFs st -> trip_Strongs st' = trip_Strongs st -> elastic_step data cd create P c st = Ok st1 ->
  length (asm_rhs st1) = (N + N)%nat /\ exists st1', elastic_step data cd create P c st' = Ok st1' /\ length (asm_rhs st1') = (N + N)%nat /\ trip_DOFs st1' = trip_DOFs st1 /\ trip_Strongs st1' = trip_Strongs st1 /\
  forall r, nth r (asm_rhs st1') 0 - nth r (asm_rhs st') 0 = nth r (asm_rhs st1) 0 - nth r (asm_rhs st) 0.
Proof using HM.
  intros Hc L L' T1 T2. rewrite !step_gen by auto. intros E1. destruct (assemble_gen_adds _ _ _ _ _ _ _ _ E1) as (A1 & A2 & A3 & A4). split; [lia|].
  destruct (eop_fits m info data create P E HM c Hc) as (Fc & _). destruct (assemble_gen_total 2 (N + N) (eop m info data P E c) st' Fc L') as (st1' & E1' & L1').
  cbn [eop op_cell op_test op_trial op_lhs op_rhs] in E1'. exists st1'. split; [exact E1'|]. split; [exact L1'|]. destruct (assemble_gen_adds _ _ _ _ _ _ _ _ E1') as (B1 & B2 & B3 & B4).
  split; [congruence|]. split; [congruence|]. intros r. rewrite A4, B4. ring.
Qed.

Lemma full_run n : forall i st st' uS w st1 uS1 w1, (i + n <= Cell2Ds_number (md_mesh m))%nat ->
  for_from i n (elastic_step data cd create P) st = Ok st1 ->
  for_from i n (fun c s => space <- create c ;; elastic_strong_cell m info data cd gS c space s) uS = Ok uS1 ->
  for_from i n (fun c s => space <- create c ;; elastic_weak_cell m info data cd (geometry c) gauss gW c space s) w = Ok w1 ->
  length (asm_rhs st) = (N + N)%nat -> length (asm_rhs st') = (N + N)%nat -> length w = (N + N)%nat -> trip_DOFs st' = trip_DOFs st -> trip_Strongs st' = trip_Strongs st ->
  (forall r, nth r (asm_rhs st') 0 = nth r (asm_rhs st) 0 + nth r w 0) ->
  exists st1', for_from i n (elastic_full_step m info data cd geometry gauss create P gS gW) (st', uS) = Ok (st1', uS1) /\ length (asm_rhs st1') = (N + N)%nat /\
    trip_DOFs st1' = trip_DOFs st1 /\ trip_Strongs st1' = trip_Strongs st1 /\ forall r, nth r (asm_rhs st1') 0 = nth r (asm_rhs st1) 0 + nth r w1 0.
Proof using HM.
  induction n as [|n IH]; intros i st st' uS w st1 uS1 w1 Hi E1 E2 E3 L L' Lw T1 T2 Hr; cbn [for_from] in *.
  - inversion E1; subst. inversion E2; subst. inversion E3; subst. exists st'. auto.
  - apply bind_Ok in E1. destruct E1 as (x & Ex & E1). apply bind_Ok in E2. destruct E2 as (y & Ey & E2). apply bind_Ok in E3. destruct E3 as (z & Ez & E3).
    destruct (step_shift i st st' x ltac:(lia) L L' T1 T2 Ex) as (Lx & x' & Ex' & Lx' & U1 & U2 & Hx). unfold elastic_full_step at 1. cbn [fst snd]. rewrite Ex'. cbn [bind].
    apply bind_Ok in Ey. destruct Ey as (sp & Esp & Ey). rewrite Esp in *. cbn [bind] in *. rewrite Ey. cbn [bind].
    destruct (shifts_cell m info data cd (geometry i) gauss gW i sp w (asm_rhs x') z ltac:(lia) Ez) as (Lz & z' & Ez' & Lz' & Hz). rewrite Ez'. cbn [bind].
    apply (IH (S i) x _ y z st1 uS1 w1); auto; cbn [asm_rhs trip_DOFs trip_Strongs]; try lia; auto.
    intros r. specialize (Hz r). specialize (Hx r). specialize (Hr r). lra.
Qed.

Lemma full_ok uS w : elastic_strong m info data create gS = Ok uS -> elastic_weak m info data geometry gauss create gW = Ok w ->
  exists st D, elastic_body m data create P = Ok st /\ elastic_assemble m info data geometry gauss create P gS gW = Ok D /\
  ed_globalMatrixA D = trip_DOFs st /\ ed_dirichletMatrixA D = trip_Strongs st /\ ed_solutionDirichlet D = uS /\ length (ed_rightHandSide D) = (N + N)%nat /\
  forall r, (r < N + N)%nat -> nth r (ed_rightHandSide D) 0 = nth r (asm_rhs st) 0 + nth r w 0 - (if (0 <? NS)%nat then triplets_row (trip_Strongs st) uS r else 0).
Proof using HM.
  intros ES EW. destruct (elastic_run m info data create P E HM) as (st & EB & _). exists st. unfold elastic_strong in ES. unfold elastic_weak in EW. pose proof EB as EB'. unfold elastic_body in EB'.
  rewrite pair_count_ok in *. cbn [bind] in *. cbn [num_total_dofs num_total_strong pair_count] in *.
  destruct (full_run (Cell2Ds_number (md_mesh m)) 0 (asm_init (N + N)) (asm_init (N + N)) (repeat 0 (NS + NS)) (repeat 0 (N + N)) st uS w) as (st' & EF & L' & T1 & T2 & Hr); auto;
    try (cbn; apply repeat_length).
  { intros r. cbn [asm_init asm_rhs]. rewrite !nth_repeat. ring. }
  eexists. split; [exact EB|]. unfold elastic_assemble. rewrite pair_count_ok. cbn [bind]. cbn [num_total_dofs num_total_strong pair_count]. unfold for_loop. rewrite EF. cbn [bind fst snd].
  split; [reflexivity|]. cbn [ed_globalMatrixA ed_dirichletMatrixA ed_solutionDirichlet ed_rightHandSide]. split; [exact T1|]. split; [exact T2|]. split; [reflexivity|].
  split. { destruct (0 <? NS)%nat; [|exact L']. unfold SubtractionMultiplication. rewrite map_length, seq_length. exact L'. }
  intros r Hr'. destruct (0 <? NS)%nat.
  - unfold SubtractionMultiplication. rewrite nth_map_seq by lia. rewrite Hr, T2. reflexivity.
  - rewrite Hr. ring.
Qed.
End Run.
