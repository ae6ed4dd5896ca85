(** The boundary terms of elasticity (C147, C148). *)
From Coq Require Import List Arith Bool Reals Lia Lra.
From Verif Require Import Base RSum MatrixModel DofsModel DofsSpec DofsProofs DofsProofs2 AssemblerModel AssemblerSpec AssemblerProofs AssemblerProofs2
  EquationModel VemQuadModel VemModel DriverModel DriverSpec DriverSpec2 DriverProofs DriverProofs2 DriverProofs3 DriverProofs6 Mcc2dSpec
  ElasticBoundaryModel ElasticBoundarySpec ElasticBoundaryProofs.
Import ListNotations.
Local Open Scope R_scope.

Section Run.
Variables (m : Mesh2D) (info : MeshDOFsInfo) (data : DOFsData).
Let N := NumberDOFs data.
Let NS := NumberStrongs data.
(** the mesh with all its cells active *)
Definition all_active : Mesh2D := {| md_mesh := md_mesh m; md_active0 := md_active0 m; md_active2 := fun _ => true; md_coords := md_coords m |}.

Lemma counted : exists cd, count_dofs [data; data] = Ok cd /\ offsets_DOFs cd = [0; N]%nat /\ offsets_Strongs cd = [0; NS]%nat /\
  num_total_dofs cd = (N + N)%nat /\ num_total_strong cd = (NS + NS)%nat.
Proof. eexists. split; [reflexivity|]. cbn. repeat split. Qed.

Lemma loop2 (f : nat -> list R -> outcome (list R)) s : for_loop 2 f s = (t <- f 0%nat s ;; f 1%nat t).
Proof. unfold for_loop. cbn. destruct (f 0%nat s) as [t| |]; cbn; auto. destruct (f 1%nat t); auto. Qed.

Section Strong.
Variables (create : nat -> outcome LocalSpace) (g : nat -> R -> R -> R -> nat -> R) (cd : count_dofs_data).
Hypothesis OS : offsets_Strongs cd = [0; NS]%nat.

Lemma row_splits P mk row : splits NS (fun s => v <- function_evaluation P (component g 0 mk) ;; set_strong_dofs row v s)
  (fun s => v <- function_evaluation P (component g 1 mk) ;; set_strong_dofs row v s)
  (for_loop 2 (fun h s => values <- function_evaluation P (fun x y z => g mk x y z h) ;; off <- idx_ (offsets_Strongs cd) h ;; elastic_strong_dofs off row values s)).
Proof.
  intros a b a' b' La E0 E1. apply bind_Ok in E0. destruct E0 as (v0 & V0 & E0). apply bind_Ok in E1. destruct E1 as (v1 & V1 & E1).
  unfold component in V0, V1. rewrite OS. unfold for_loop. cbn [for_from]. rewrite V0. cbn [bind idx_ nth_error]. destruct (strong_left row v0 NS b a a' La E0) as (Q & La'). rewrite Q. cbn [bind].
  rewrite V1. cbn [bind]. rewrite <- La' at 1. rewrite (strong_right row v1 a' b b' E1). auto.
Qed.
Lemma vertex_splits v : splits NS (fun s => strong_vertex all_active info data (component g 0) s v) (fun s => strong_vertex all_active info data (component g 1) s v)
  (fun s => elastic_strong_vertex m info data cd g s v).
Proof.
  intros a b a' b' La. unfold strong_vertex, elastic_strong_vertex. destruct (at_ (CellsBoundaryInfo info 0) v) as [bi| |]; cbn [bind]; try discriminate.
  destruct (is_strong (bi_type bi)); cbn [negb]; [|intros [= <-] [= <-]; auto]. intros E0 E1.
  apply bind_Ok in E0. destruct E0 as (v0 & V0 & E0). apply bind_Ok in E1. destruct E1 as (v1 & V1 & E1).
  destruct (at_ (CellsDOFs data 0) v) as [row| |]; cbn [bind] in *; try discriminate.
  apply (row_splits (column3 (md_coords m v)) (bi_marker bi) row); auto; cbn [md_coords all_active] in *; [rewrite V0|rewrite V1]; auto.
Qed.
Lemma edge_splits edges sp ed : splits NS (strong_edge info data edges sp (component g 0) ed) (strong_edge info data edges sp (component g 1) ed) (elastic_strong_edge info data cd edges sp g ed).
Proof.
  intros a b a' b' La. unfold strong_edge, elastic_strong_edge. destruct (idx_ edges ed) as [e| |]; cbn [bind]; try discriminate.
  destruct (at_ (CellsBoundaryInfo info 1) e) as [bi| |]; cbn [bind]; try discriminate. destruct (at_ (CellsDOFs data 1) e) as [row| |]; cbn [bind]; try discriminate.
  destruct (negb (is_strong (bi_type bi)) || (length row =? 0)%nat); [intros [= <-] [= <-]; auto|].
  destruct (ls_EdgeDofsCoordinates sp ed) as [P| |]; cbn [bind]; try discriminate. apply row_splits; auto.
Qed.
End Strong.

Lemma strong_refines create g u0 u1 : assemble_strong_solution all_active info data 2 create (component g 0) = Ok u0 -> assemble_strong_solution all_active info data 2 create (component g 1) = Ok u1 ->
  elastic_strong m info data create g = Ok (u0 ++ u1) /\ length u0 = NS.
Proof.
  destruct counted as (cd & EC & OD & OS & TD & TS). unfold elastic_strong, elastic_strong_cell. rewrite EC. cbn [bind]. rewrite TS, repeat_app. unfold assemble_strong_solution. intros E0 E1.
  revert E0 E1. cbn [md_mesh md_active2 all_active negb]. apply splits_loop; [|apply repeat_length]. intros c a b a' b' La E0 E1. revert E0 E1. cbn [Nat.ltb Nat.leb].
  destruct (create c) as [sp| |]; cbn [bind].
  - apply (splits_bind NS _ _ (foldM (elastic_strong_vertex m info data cd g) (Cell2D_vertices (md_mesh m) c)) _ _
      (for_loop (length (Cell2D_edges (md_mesh m) c)) (elastic_strong_edge info data cd (Cell2D_edges (md_mesh m) c) sp g))); [apply splits_fold; apply vertex_splits; auto| |exact La].
    apply splits_loop. apply edge_splits. auto.
  - intros E0. apply bind_Ok in E0. destruct E0 as (x & _ & E0). discriminate.
  - intros E0. apply bind_Ok in E0. destruct E0 as (x & _ & E0). discriminate.
Qed.

Section Weak.
Variables (g : nat -> R -> R -> R -> nat -> R) (cd : count_dofs_data).
Hypothesis OD : offsets_DOFs cd = [0; N]%nat.
(** the scalar edge *)
Let scalar (P : Polygon) gauss sp (h c ed : nat) (s : list R) : outcome (list R) :=
      e <- idx_ (Cell2D_edges (md_mesh m) c) ed ;;
      bi <- at_ (CellsBoundaryInfo info 1) e ;;
      if negb (is_weak (bi_type bi)) then Ok s else
      b <- weak_values gauss P sp (component g h (bi_marker bi)) ed ;;
      s <- for_loop 2 (fun p s =>
        v <- idx_ (Cell1D_vertices (md_mesh m) e) p ;;
        row <- at_ (CellsDOFs data 0) v ;;
        add_weak row b p 0 s) s ;;
      row <- at_ (CellsDOFs data 1) e ;;
      add_weak row b 2 1 s.
Lemma weak_splits P gauss sp c ed : splits N (scalar P gauss sp 0 c ed) (scalar P gauss sp 1 c ed) (elastic_weak_edge m info data cd P gauss sp g c ed).
Proof.
  intros a b a' b' La. unfold scalar, elastic_weak_edge. destruct (idx_ (Cell2D_edges (md_mesh m) c) ed) as [e| |]; cbn [bind]; try discriminate.
  destruct (at_ (CellsBoundaryInfo info 1) e) as [bi| |]; cbn [bind]; try discriminate. destruct (is_weak (bi_type bi)); cbn [negb]; [|intros [= <-] [= <-]; auto].
  intros E0 E1. apply bind_Ok in E0. destruct E0 as (v0 & V0 & E0). apply bind_Ok in E1. destruct E1 as (v1 & V1 & E1). unfold component in V0, V1.
  rewrite OD. rewrite loop2. rewrite V0. cbn [bind]. change (idx_ [0%nat; N] 0) with (Ok 0%nat). change (idx_ [0%nat; N] 1) with (Ok N). cbn [bind].
  apply bind_Ok in E0. destruct E0 as (x0 & X0 & E0). apply bind_Ok in E1. destruct E1 as (x1 & X1 & E1).
  assert (Q0 : for_loop 2 (fun p s => v <- idx_ (Cell1D_vertices (md_mesh m) e) p ;; row <- at_ (CellsDOFs data 0) v ;; elastic_add_weak 0 row v0 p 0 s) (a ++ b) = Ok (x0 ++ b) /\ length x0 = N).
  { revert X0. apply left_loop; [|exact La]. intros p s s' Ls E. destruct (idx_ (Cell1D_vertices (md_mesh m) e) p) as [v| |]; cbn [bind] in *; try discriminate.
    destruct (at_ (CellsDOFs data 0) v) as [row| |]; cbn [bind] in *; try discriminate. apply weak_left; auto. }
  destruct Q0 as (Q0 & L0). rewrite Q0. cbn [bind]. destruct (at_ (CellsDOFs data 1) e) as [row| |]; cbn [bind] in *; try discriminate.
  destruct (weak_left row v0 2 1 N b x0 a' L0 E0) as (R0 & L1). rewrite R0. cbn [bind]. rewrite V1. cbn [bind].
  assert (Q1 : for_loop 2 (fun p s => v <- idx_ (Cell1D_vertices (md_mesh m) e) p ;; row <- at_ (CellsDOFs data 0) v ;; elastic_add_weak N row v1 p 0 s) (a' ++ b) = Ok (a' ++ x1)).
  { revert X1. apply right_loop. intros p s s' E. destruct (idx_ (Cell1D_vertices (md_mesh m) e) p) as [v| |]; cbn [bind] in *; try discriminate.
    destruct (at_ (CellsDOFs data 0) v) as [row'| |]; cbn [bind] in *; try discriminate. rewrite <- L1. apply weak_right; auto. }
  rewrite Q1. cbn [bind]. rewrite <- L1 at 1. rewrite (weak_right row v1 2 1 a' x1 b' E1). auto.
Qed.
End Weak.

Lemma weak_refines geometry gauss create g w0 w1 : assemble_weak_term all_active info data geometry gauss create (component g 0) = Ok w0 ->
  assemble_weak_term all_active info data geometry gauss create (component g 1) = Ok w1 ->
  elastic_weak m info data geometry gauss create g = Ok (w0 ++ w1) /\ length w0 = N.
Proof.
  destruct counted as (cd & EC & OD & OS & TD & TS). unfold elastic_weak, elastic_weak_cell. rewrite EC. cbn [bind]. rewrite TD, repeat_app. unfold assemble_weak_term. intros E0 E1.
  revert E0 E1. cbn [md_mesh md_active2 all_active negb]. apply splits_loop; [|apply repeat_length]. intros c. destruct (create c) as [sp| |]; cbn [bind].
  - apply splits_loop. intros ed. exact (weak_splits g cd OD (geometry c) gauss sp c ed).
  - intros a b a' b' _ E. discriminate.
  - intros a b a' b' _ E. discriminate.
Qed.

Hypothesis HC : CreateDOFs 2 info (md_mesh m) = Ok data.
Hypothesis HN : Cell2Ds_number (md_mesh m) = num_cells info 2.

Lemma elastic_strong_ok create g pt :
  (forall c v, (c < Cell2Ds_number (md_mesh m))%nat -> In v (Cell2D_vertices (md_mesh m) c) -> strong_entity info 0 v -> (requested info 0 v <= 1)%nat) ->
  edge_points_agree m info create (fun _ => true) (fun e => strong_entity info 1 e /\ (0 < requested info 1 e)%nat) pt ->
  exists uS, elastic_strong m info data create g = Ok uS /\ length uS = (NS + NS)%nat /\
  forall h d e i, (h < 2)%nat -> (d <= 2)%nat -> (e < num_cells info d)%nat -> (i < requested info d e)%nat -> strong_entity info d e ->
    exists x, lookup data (entity_dof d e i) = Some x /\ dof_type x = TStrong /\ (dof_index x < NS)%nat /\
      (of_a_cell m d e -> nth_error uS (dof_index x + h * NS) = Some (strong_value m info pt (component g h) d e i)) /\
      (~ of_a_cell m d e -> nth_error uS (dof_index x + h * NS) = Some 0).
Proof.
  intros HV HE.
  assert (S : forall h, exists uS, assemble_strong_solution all_active info data 2 create (component g h) = Ok uS /\ length uS = NumberStrongs data /\
    forall d e i, (d <= 2)%nat -> (e < num_cells info d)%nat -> (i < requested info d e)%nat -> strong_entity info d e ->
      exists x, lookup data (entity_dof d e i) = Some x /\ dof_type x = TStrong /\
      (receives_strong all_active info 2 d e -> nth_error uS (dof_index x) = Some (strong_value all_active info pt (component g h) d e i)) /\
      (~ receives_strong all_active info 2 d e -> nth_error uS (dof_index x) = Some 0)).
  { intros h. apply (strong_result all_active info data HC HN 2 create (component g h) pt); [intros c v Hc _; apply HV; auto|]. intros _. exact HE. }
  destruct (S 0%nat) as (u0 & E0 & L0 & F0). destruct (S 1%nat) as (u1 & E1 & L1 & F1). destruct (strong_refines create g u0 u1 E0 E1) as (E & _).
  exists (u0 ++ u1). split; [exact E|]. split; [rewrite app_length, L0, L1; auto|]. intros h d e i Hh Hd He Hi SE.
  assert (RS : receives_strong all_active info 2 d e <-> of_a_cell m d e).
  { unfold receives_strong, of_a_cell. cbn. split; [intros (_ & c & Hc & _ & Q)|intros (c & Hc & Q); split; [exact SE|]]; exists c; repeat split; auto; destruct Q as [Q|Q]; try tauto.
    right. repeat split; try tauto. lia. }
  destruct (F0 d e i Hd He Hi SE) as (x & Lx & Tx & A0 & B0). exists x. split; [exact Lx|]. split; [exact Tx|].
  destruct (F1 d e i Hd He Hi SE) as (x' & Lx' & _ & A1 & B1). rewrite Lx in Lx'. injection Lx' as <-.
  assert (IX : (dof_index x < NS)%nat).
  { unfold NS. rewrite <- L0. apply nth_error_Some. destruct (Classical_Prop.classic (receives_strong all_active info 2 d e)) as [Q|Q]; [rewrite (A0 Q)|rewrite (B0 Q)]; discriminate. }
  split; [exact IX|]. fold NS in L0, L1.
  assert (SV : forall k, strong_value all_active info pt k d e i = strong_value m info pt k d e i) by (intros; unfold strong_value; destruct d; reflexivity).
  rewrite !SV in *. rewrite <- RS. destruct h as [|[|h]]; [| |lia].
  - cbn [Nat.mul]. rewrite Nat.add_0_r, nth_error_app1 by lia. auto.
  - rewrite Nat.mul_1_l, nth_error_app2 by lia. replace (dof_index x + NS - length u0)%nat with (dof_index x) by lia. auto.
Qed.

Lemma elastic_weak_ok geometry gauss create g sp B :
  (forall c, (c < Cell2Ds_number (md_mesh m))%nat -> weak_cell info info (md_mesh m) create gauss (geometry c) c (sp c) (B c)) ->
  m_cols (q_Points gauss) = v_size (q_Weights gauss) ->
  exists w, elastic_weak m info data geometry gauss create g = Ok w /\ length w = (N + N)%nat /\
  forall h r, (h < 2)%nat -> (r < N)%nat -> nth (r + h * N) w 0 =
    cells_sum (md_mesh m) (fun c => weak_form info info (md_mesh m) data (geometry c) gauss (B c) (component g h) c r).
Proof.
  intros HW HQ.
  assert (HB : forall e, (e < num_cells info 1)%nat -> exists b, nth_error (CellsBoundaryInfo info 1) e = Some b).
  { intros e He. destruct (info_entry m info data HC 1 e ltac:(lia) He) as (b & _ & Eb & _). eauto. }
  assert (S : forall h, exists b, assemble_weak_term all_active info data geometry gauss create (component g h) = Ok b /\ length b = NumberDOFs data /\
    forall r, nth r b 0 = active_sum all_active (fun c => weak_form info info (md_mesh m) data (geometry c) gauss (B c) (component g h) c r)).
  { intros h. apply (weak_term_ok all_active info info data HC HN HB geometry gauss create (component g h) sp B); [intros c Hc _; apply HW; auto|exact HQ]. }
  assert (AS : forall F, active_sum all_active F = cells_sum (md_mesh m) F).
  { intros F. unfold active_sum, cells_sum. cbn [md_active2 md_mesh all_active]. f_equal. generalize (seq 0 (Cell2Ds_number (md_mesh m))) as l. induction l as [|x l IH]; cbn; [auto|]. now rewrite IH. }
  destruct (S 0%nat) as (u0 & E0 & L0 & F0). destruct (S 1%nat) as (u1 & E1 & L1 & F1). destruct (weak_refines geometry gauss create g u0 u1 E0 E1) as (E & _).
  exists (u0 ++ u1). split; [exact E|]. split; [rewrite app_length, L0, L1; auto|]. fold N in L0, L1. intros h r Hh Hr. destruct h as [|[|h]]; [| |lia].
  - cbn [Nat.mul]. rewrite Nat.add_0_r, app_nth1 by lia. rewrite F0. apply AS.
  - rewrite Nat.mul_1_l, app_nth2 by lia. replace (r + N - length u0)%nat with r by lia. rewrite F1. apply AS.
Qed.
End Run.
