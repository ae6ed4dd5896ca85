(** The virtual element meets the hypotheses of C147 and C148. *)
From Coq Require Import List Arith Bool Reals Lia Lra.
From Verif Require Import Base RSum MatrixModel DofsModel DofsSpec AssemblerModel EquationModel VemQuadModel VemQuadSpec GreenSpec VemModel VemSpec
  DriverModel DriverSpec DriverSpec2 Pcc2dModel Pcc2dSpec Pcc2dProofs3 Pcc2dProofs6.
Import ListNotations.
Local Open Scope R_scope.

Section Vem.
Variables (gt lob : nat -> QuadratureData) (junk : nat -> nat -> R) (lu llt : Solver) (k : nat) (ref : VEM_2D_Reference) (m : Mesh2D) (info : MeshDOFsInfo) (geometry : nat -> Polygon).
Hypothesis VM : vem_mesh gt lob lu llt k ref m info geometry.

Lemma vem_strong_cells : exists pt, edge_points_agree m info (Create_VEM junk lu llt ref geometry) (fun _ => true) (fun e => strong_entity info 1 e /\ (0 < requested info 1 e)%nat) pt.
Proof.
  eexists. intros c Hc Ha. destruct (edges_agree gt lob junk lu llt k ref m info geometry VM c Hc Ha) as (sp & E & H). exists sp. split; [exact E|]. intros ed e He _. apply H; auto.
Qed.
Lemma vem_weak_cells gauss : m_cols (q_Points gauss) = v_size (q_Weights gauss) -> exists sp B, forall c, (c < Cell2Ds_number (md_mesh m))%nat ->
  weak_cell info info (md_mesh m) (Create_VEM junk lu llt ref geometry) gauss (geometry c) c (sp c) B.
Proof.
  intros SQ. destruct (edge_functions gt lob junk lu llt k ref m info geometry VM {| v_size := m_cols (q_Points gauss); v_at := fun q => m_at (q_Points gauss) 0%nat q |}) as (B & EB & RB & CB & HB). cbn [v_size v_at] in *.
  exists (fun c => VEM_space junk ref (geometry c) (loc junk lu llt ref geometry c)), B. intros c Hc.
  pose proof (vm_polygon _ _ _ _ _ _ _ _ _ VM c Hc) as GP. destruct (gp_edges _ GP) as [EV EL EDi [ET ET'] _]. pose proof (ne_mesh _ _ _ _ _ _ _ _ _ VM c Hc) as NE. pose proof (nv_mesh _ _ _ _ _ _ _ _ _ VM c Hc) as NV.
  split; auto.
  - apply (create_ok gt lob junk lu llt k ref m info geometry VM c Hc).
  - congruence.
  - split; [congruence|]. intros e He. rewrite (ED _ _ _ _ _ _ _ _ _ VM c Hc e He), CB. pose proof (vm_order _ _ _ _ _ _ _ _ _ VM). lia.
Qed.
End Vem.
