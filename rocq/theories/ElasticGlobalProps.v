(** The properties C145 and C146. *)
From Coq Require Import List Arith Bool Reals Lia Lra.
From Verif Require Import Base RSum MatrixModel DofsModel DofsSpec AssemblerModel AssemblerSpec EquationModel EquationSpec GreenSpec VemQuadModel VemQuadSpec VemModel VemSpec GaussModel
  DriverModel DriverSpec DriverSpec2 Pcc2dModel Pcc2dSpec Pcc2dProps Mcc2dSpec ElasticModel ElasticSpec ElasticGlobalModel ElasticGlobalSpec ElasticGlobalProofs ElasticGlobalProofs2.
Import ListNotations.
Local Open Scope R_scope.

(** C145: the assembled matrices and forces *)
Theorem C145_assembled : forall m info data create E P, elastic_mesh m info data create E -> let N := NumberDOFs data in let NS := NumberStrongs data in
  exists st k, elastic_body m data create P = Ok st /\ length (asm_rhs st) = (N + N)%nat /\
  (forall r s v, In (r, s, v) (trip_DOFs st) -> (r < N + N)%nat /\ (s < N + N)%nat) /\
  (forall r s v, In (r, s, v) (trip_Strongs st) -> (r < N + N)%nat /\ (s < NS + NS)%nat) /\
  (forall c, (c < Cell2Ds_number (md_mesh m))%nat -> largest (ec_Q (E c)) (el_mu P) (k c)) /\
  (forall u0 u1 g0 g1 v0 v1, length u0 = N -> length u1 = N -> length g0 = NS -> length g1 = NS -> length v0 = N -> length v1 = N ->
    rsum (N + N) (fun r => nth r (v0 ++ v1) 0 * (operator_row st (u0 ++ u1) (g0 ++ g1) r - nth r (asm_rhs st) 0)) =
    cells_sum (md_mesh m) (fun c => let V := cell_displacement m info data v0 v1 (repeat 0 NS) (repeat 0 NS) c in
      cell_energy m info E P k c (cell_displacement m info data u0 u1 g0 g1 c) V - cell_work m info E P c V)) /\
  (forall v0 v1, length v0 = N -> length v1 = N -> rsum (N + N) (fun r => nth r (v0 ++ v1) 0 * nth r (asm_rhs st) 0) =
    cells_sum (md_mesh m) (fun c => cell_work m info E P c (cell_displacement m info data v0 v1 (repeat 0 NS) (repeat 0 NS) c))) /\
  forall u0 u1 v0 v1, length u0 = N -> length u1 = N -> length v0 = N -> length v1 = N -> matrix_form (N + N) st (u0 ++ u1) (v0 ++ v1) =
    cells_sum (md_mesh m) (fun c => cell_energy m info E P k c (cell_displacement m info data u0 u1 (repeat 0 NS) (repeat 0 NS) c)
      (cell_displacement m info data v0 v1 (repeat 0 NS) (repeat 0 NS) c)).
Proof. intros m info data create E P. exact (elastic_system m info data create E P). Qed.

(** C146: with the virtual element the matrix is symmetric and positive definite when no cell can move rigidly, and each system has one solution *)
Theorem C146_definite : forall gauss_triangle lobatto junk lu llt k ref m info geometry data,
  vem_mesh gauss_triangle lobatto lu llt k ref m info geometry -> CreateDOFs 2 info (md_mesh m) = Ok data ->
  forall P, (forall x y z, 0 < el_mu P x y z /\ 0 <= el_lambda P x y z) -> positive_rules gauss_triangle k m geometry ->
  (forall c, (c < Cell2Ds_number (md_mesh m))%nat -> clamped m info c) -> covered info (md_mesh m) -> let N := NumberDOFs data in
  exists st, elastic_body m data (Create_VEM junk lu llt ref geometry) P = Ok st /\
  (forall u v, length u = (N + N)%nat -> length v = (N + N)%nat -> matrix_form (N + N) st u v = matrix_form (N + N) st v u) /\
  (forall u, length u = (N + N)%nat -> (exists r, nth r u 0 <> 0) -> 0 < matrix_form (N + N) st u u) /\
  forall b w uS, exists uD, solves_system st b w uD uS (N + N) /\ forall vD, solves_system st b w vD uS (N + N) -> vD = uD.
Proof.
  intros gt lob junk lu llt k ref m info geometry data VM HC P PC PR. exact (elastic_definite gt lob junk lu llt k ref m info geometry data VM HC P PC PR).
Qed.

Print Assumptions C145_assembled.
Print Assumptions C146_definite.

(** ** Examples: the two unit squares of Pcc2dProps, order 2, the left side Strong *)
Definition sq_material : ElasticProblem := {| el_mu := fun x _ _ => 1 + x * x; el_lambda := fun _ _ _ => 2; el_source := fun x y _ d => match d with 0%nat => y | _ => - 1 - x end |}.
Example sq_material_positive : forall x y z, 0 < el_mu sq_material x y z /\ 0 <= el_lambda sq_material x y z.
Proof. intros x y z. cbn. pose proof (Rle_0_sqr x) as Sx. unfold Rsqr in Sx. lra. Qed.
Example sq_clamped : forall c, (c < Cell2Ds_number (md_mesh sq_m))%nat -> clamped sq_m sq_info c.
Proof.
  intros c Hc. cbn in Hc. assert (A : clamped sq_m sq_info 0) by (apply (clamped_strong _ _ 0 0 3); [cbn; lia|cbn; auto|cbn; auto|right; cbn; lra|reflexivity|reflexivity]).
  destruct c as [|[|c]]; [exact A| |lia]. apply (clamped_next _ _ 0 1 1 4); [exact A|cbn; lia|cbn; auto|cbn; auto|cbn; auto|cbn; auto|right; cbn; lra].
Qed.
Example C145_case : forall junk, exists ref st E, elastic_mesh sq_m sq_info sq_data (Create_VEM junk gauss_solver gauss_solver ref sq_geometry) E /\
  elastic_body sq_m sq_data (Create_VEM junk gauss_solver gauss_solver ref sq_geometry) sq_material = Ok st /\ length (asm_rhs st) = 24%nat.
Proof.
  intros junk. destruct sq_reference as (ref & ER). exists ref.
  pose proof (vem_elastic_mesh _ _ junk _ _ 2 ref sq_m sq_info sq_geometry sq_data (sq_vem ref ER) sq_created) as EM.
  destruct (C145_assembled _ _ _ _ _ sq_material EM) as (st & k & E & L & _). destruct sq_numbers as [N _]. rewrite N in L. exists st. eexists. split; [exact EM|]. split; [exact E|exact L].
Qed.
Example C146_case : forall junk, exists ref st, elastic_body sq_m sq_data (Create_VEM junk gauss_solver gauss_solver ref sq_geometry) sq_material = Ok st /\
  forall u, length u = 24%nat -> (exists r, nth r u 0 <> 0) -> 0 < matrix_form 24 st u u.
Proof.
  intros junk. destruct sq_reference as (ref & ER). exists ref.
  destruct (C146_definite _ _ junk _ _ 2 ref sq_m sq_info sq_geometry sq_data (sq_vem ref ER) sq_created sq_material sq_material_positive sq_positive sq_clamped sq_covered) as (st & E & _ & H & _).
  destruct sq_numbers as [N _]. rewrite N in H. exists st. split; [exact E|exact H].
Qed.
