(** The assembled matrix of linear elasticity with the virtual element: symmetric, and positive definite when no cell can move rigidly. *)
From Coq Require Import List Arith Bool Reals Lra Lia.
From Verif Require Import Base RSum MatrixModel DofsModel DofsSpec DofsProofs DofsProofs2 AssemblerModel AssemblerSpec AssemblerProofs AssemblerProofs2
  EquationModel EquationSpec VemQuadModel VemQuadSpec GreenSpec VemModel VemSpec DriverModel DriverSpec DriverSpec2 DriverProofs DriverProofs2 DriverProofs3 DriverProofs4
  DriverProofs5 DriverProofs6 DriverProofs7 Pcc2dModel Pcc2dSpec Pcc2dProofs Pcc2dProofs2 Pcc2dProofs3 Pcc2dProofs4 Pcc2dProofs5 Pcc2dProofs6 Pcc2dProofs7 Pcc2dProofs8
  Mcc2dSpec ElasticModel ElasticSpec ElasticProofs ElasticProofs2 ElasticProofs3 ElasticProofs4 ElasticGlobalModel ElasticGlobalSpec ElasticGlobalProofs.
Import ListNotations.
Local Open Scope R_scope.

Section Mesh.
Variables (gt lob : nat -> QuadratureData) (junk : nat -> nat -> R) (lu llt : Solver) (k : nat) (ref : VEM_2D_Reference) (m : Mesh2D) (info : MeshDOFsInfo) (geometry : nat -> Polygon) (data : DOFsData).
Hypothesis VM : vem_mesh gt lob lu llt k ref m info geometry.
Hypothesis HC : CreateDOFs 2 info (md_mesh m) = Ok data.
Local Notation mesh := (md_mesh m).
Local Notation nc := (Cell2Ds_number mesh).
Local Notation loc := (Pcc2dProofs3.loc junk lu llt ref geometry).
Local Notation create := (Create_VEM junk lu llt ref geometry).
Local Notation CS c Hc := (cell_space gt lob junk lu llt k ref m info geometry VM c Hc).
Local Notation sp c := (VEM_space junk ref (geometry c) (loc c)).
Lemma sp_scalar c : vem_scalar (loc c) (sp c).
Proof. repeat split. Qed.
Lemma sp_size c : (c < nc)%nat -> cell_size info m c = lv_NumBasisFunctions (loc c).
Proof. intros Hc. apply (size_closure gt lob junk lu llt k ref m info geometry VM c Hc). Qed.

Definition at0 {A} (d : A) (o : outcome (list A)) (i : nat) : A := match o with Ok l => nth i l d | _ => d end.
Definition vem_cells (c : nat) : CellElement :=
  {| ec_space := sp c; ec_Q := lv_InternalQuadrature (loc c); ec_V := get (mzero 0 0) (ls_Values (sp c) Pi0k_t);
     ec_D0 := at0 (mzero 0 0) (ls_DerivativeValues (sp c)) 0; ec_D1 := at0 (mzero 0 0) (ls_DerivativeValues (sp c)) 1; ec_S := get (mzero 0 0) (ls_StabilizationMatrix (sp c)) |}.
Lemma vem_cells_ok c : (c < nc)%nat -> scalar_element (sp c) (cell_size info m c) (ec_Q (vem_cells c)) (ec_V (vem_cells c)) (ec_D0 (vem_cells c)) (ec_D1 (vem_cells c)) (ec_S (vem_cells c)) /\
  (forall i j, (i < cell_size info m c)%nat -> (j < cell_size info m c)%nat -> m_at (ec_S (vem_cells c)) i j = m_at (ec_S (vem_cells c)) j i).
Proof.
  intros Hc. rewrite (sp_size c Hc). destruct (vem_element gt lob junk lu llt k (geometry c) ref (loc c) (CS c Hc) (sp c) (sp_scalar c)) as (V & D0 & D1 & S & SE & S3 & _ & _).
  destruct SE as [A1 A2 (A3 & A3') (A4 & A4') (A5 & A5')]. unfold vem_cells. cbn [ec_Q ec_V ec_D0 ec_D1 ec_S]. unfold at0. rewrite A3, A4, A5. cbn [get nth].
  split; [|intros; apply S3]. constructor; auto.
Qed.
Lemma vem_elastic_mesh : elastic_mesh m info data create vem_cells.
Proof.
  constructor; [exact HC|exact (vm_cells _ _ _ _ _ _ _ _ _ VM)|]. intros c Hc. split; [exact (create_ok gt lob junk lu llt k ref m info geometry VM c Hc)|]. apply vem_cells_ok. exact Hc.
Qed.

Variable P : ElasticProblem.
Hypothesis PC : forall x y z, 0 < el_mu P x y z /\ 0 <= el_lambda P x y z.
Hypothesis PR : positive_rules gt k m geometry.
(** a displacement without energy on a cell is rigid *)
Lemma cell_rigid_only c kk u : (c < nc)%nat -> largest (ec_Q (vem_cells c)) (el_mu P) (kk c) ->
  0 <= cell_energy m info vem_cells P kk c u u /\
  (cell_energy m info vem_cells P kk c u u = 0 -> exists a b r, forall j, (j < 2 * cell_size info m c)%nat ->
    u j = rigid (cell_size info m c) (dofs_of ref (loc c) (fun _ _ => 1)) (dofs_of ref (loc c) (fun x _ => x)) (dofs_of ref (loc c) (fun _ y => y)) a b r j).
Proof.
  intros Hc Lk. destruct PR as (PW & PT).
  destruct (vem_kernel_all gt lob junk lu llt k (geometry c) ref (loc c) (CS c Hc) (sp c) (sp_scalar c) P PW (fun T => PT c T Hc) PC) as (A & b & E & NN & KK).
  destruct (vem_cells_ok c Hc) as (SE & _). destruct (cell_form _ _ _ _ _ _ _ SE P) as (A' & b' & k' & E' & _ & _ & L' & B & _).
  rewrite E in E'. injection E' as <- <-.
  assert (kk c = k') as Ek.
  { destruct Lk as (X1 & q1 & H1 & Y1). destruct L' as (X2 & q2 & H2 & Y2). pose proof (X1 q2 H2). pose proof (X2 q1 H1). lra. }

  unfold cell_energy. rewrite Ek, <- B. rewrite (sp_size c Hc). split; [apply NN|]. intros Z. apply KK. exact Z.
Qed.

(** two vertices at rest hold the whole cell *)
Lemma held c u a b r i i' : (c < nc)%nat -> (i < length (Cell2D_vertices mesh c))%nat -> (i' < length (Cell2D_vertices mesh c))%nat ->
  apart m (nth i (Cell2D_vertices mesh c) 0%nat) (nth i' (Cell2D_vertices mesh c) 0%nat) ->
  (forall j, (j < 2 * cell_size info m c)%nat ->
    u j = rigid (cell_size info m c) (dofs_of ref (loc c) (fun _ _ => 1)) (dofs_of ref (loc c) (fun x _ => x)) (dofs_of ref (loc c) (fun _ y => y)) a b r j) ->
  u i = 0 -> u i' = 0 -> u (cell_size info m c + i)%nat = 0 -> u (cell_size info m c + i')%nat = 0 -> forall j, (j < 2 * cell_size info m c)%nat -> u j = 0.
Proof using VM.
  intros Hc Hi Hi' AP RG Z0 Z0' Z1 Z1'.
  assert (NB : forall t, (t < length (Cell2D_vertices mesh c))%nat -> (t < lv_NumBoundaryBasisFunctions (loc c))%nat /\ (t < cell_size info m c)%nat).
  { intros t Ht. pose proof (nb_mesh gt lob junk lu llt k ref m info geometry VM c Hc) as X. pose proof (N_mesh gt lob junk lu llt k ref m info geometry VM c Hc) as Y.
    rewrite (sp_size c Hc). revert X Y. generalize ((k - 1) * length (Cell2D_edges mesh c))%nat. intros z X Y. split; [rewrite X|rewrite Y, X]; clear X Y; lia. }
  assert (DV : forall f t, (t < length (Cell2D_vertices mesh c))%nat -> dofs_of ref (loc c) f t =
    f (md_coords m (nth t (Cell2D_vertices mesh c) 0%nat) 0%nat) (md_coords m (nth t (Cell2D_vertices mesh c) 0%nat) 1%nat)).
  { intros f t Ht. unfold dofs_of. destruct (Nat.ltb_spec t (lv_NumBoundaryBasisFunctions (loc c))); [|destruct (NB t Ht); lia].
    assert (Hv : (t < m_cols (pg_Vertices (geometry c)))%nat) by (rewrite (nv_mesh gt lob lu llt k ref m info geometry VM c Hc); exact Ht).
    rewrite !(bp_vertex gt lob junk lu llt k (geometry c) ref (loc c) (CS c Hc)) by (exact Hv || lia).
    rewrite !(vertex_coords gt lob lu llt k ref m info geometry VM c t) by (exact Ht || exact Hc || lia). reflexivity. }
  assert (RV : forall t, (t < length (Cell2D_vertices mesh c))%nat -> u t = a - r * md_coords m (nth t (Cell2D_vertices mesh c) 0%nat) 1%nat /\
    u (cell_size info m c + t)%nat = b + r * md_coords m (nth t (Cell2D_vertices mesh c) 0%nat) 0%nat).
  { intros t Ht. destruct (NB t Ht) as (_ & B2). split; rewrite RG by lia; unfold rigid.
    - destruct (Nat.ltb_spec t (cell_size info m c)); [|lia]. rewrite !DV by exact Ht. ring.
    - destruct (Nat.ltb_spec (cell_size info m c + t) (cell_size info m c)); [lia|]. replace (cell_size info m c + t - cell_size info m c)%nat with t by lia. rewrite !DV by exact Ht. ring. }
  destruct (RV i Hi) as (X0 & X1). destruct (RV i' Hi') as (X0' & X1'). rewrite Z0 in X0. rewrite Z1 in X1. rewrite Z0' in X0'. rewrite Z1' in X1'.
  set (p0 := md_coords m (nth i (Cell2D_vertices mesh c) 0%nat) 0%nat) in *. set (p1 := md_coords m (nth i (Cell2D_vertices mesh c) 0%nat) 1%nat) in *.
  set (q0 := md_coords m (nth i' (Cell2D_vertices mesh c) 0%nat) 0%nat) in *. set (q1 := md_coords m (nth i' (Cell2D_vertices mesh c) 0%nat) 1%nat) in *.
  assert (r = 0) as R0'.
  { unfold apart in AP. fold p0 p1 q0 q1 in AP. destruct AP as [AP|AP].
    - assert (Y : r * (p0 - q0) = 0) by lra. apply Rmult_integral in Y. destruct Y as [Y|Y]; [exact Y|]. exfalso. apply AP. lra.
    - assert (Y : r * (p1 - q1) = 0) by lra. apply Rmult_integral in Y. destruct Y as [Y|Y]; [exact Y|]. exfalso. apply AP. lra. }
  rewrite R0' in *. assert (a = 0) as -> by lra. assert (b = 0) as -> by lra.
  intros j Hj. rewrite RG by exact Hj. unfold rigid. destruct (j <? _)%nat; ring.
Qed.

Section Zero.
Variables (u0 u1 : list R).
Hypothesis L0 : length u0 = NumberDOFs data.
Hypothesis L1 : length u1 = NumberDOFs data.
Local Notation zz := (repeat 0 (NumberStrongs data)).
Local Notation U c := (cell_displacement m info data u0 u1 zz zz c).
Hypothesis RIG : forall c, (c < nc)%nat -> exists a b r, forall j, (j < 2 * cell_size info m c)%nat ->
    U c j = rigid (cell_size info m c) (dofs_of ref (loc c) (fun _ _ => 1)) (dofs_of ref (loc c) (fun x _ => x)) (dofs_of ref (loc c) (fun _ y => y)) a b r j.
Lemma place c i : (c < nc)%nat -> (i < length (Cell2D_vertices mesh c))%nat ->
  nth_error (closure_dofs info mesh 2 c) i = Some (entity_dof 0 (nth i (Cell2D_vertices mesh c) 0%nat) 0).
Proof.
  intros Hc Hi. apply (place_vertex info mesh c (k - 1) (requested info 2 c)); auto.
  - intros v. apply (vm_vertex_dofs _ _ _ _ _ _ _ _ _ VM); auto.
  - intros e. apply (vm_edge_dofs _ _ _ _ _ _ _ _ _ VM); auto.
Qed.
Lemma U_place c p h : nth_error (closure_dofs info mesh 2 c) p = Some h -> (p < cell_size info m c)%nat /\
  U c p = match value_of data u0 zz h with Some x => x | None => 0 end /\ U c (cell_size info m c + p)%nat = match value_of data u1 zz h with Some x => x | None => 0 end.
Proof.
  intros Hp. assert (Lp : (p < cell_size info m c)%nat) by (unfold cell_size; apply nth_error_Some; rewrite Hp; discriminate). split; [exact Lp|].
  unfold cell_displacement. destruct (Nat.ltb_spec p (cell_size info m c)); [|lia]. destruct (Nat.ltb_spec (cell_size info m c + p) (cell_size info m c)); [lia|].
  replace (cell_size info m c + p - cell_size info m c)%nat with p by lia. unfold cell_value. rewrite Hp. split; reflexivity.
Qed.
Lemma strong_zero v uu : strong_entity info 0 v -> valid 2 info (entity_dof 0 v 0) -> match value_of data uu zz (entity_dof 0 v 0) with Some x => x | None => 0 end = 0.
Proof.
  intros Hs Vd. destruct (valid_lookup 2 info mesh data ltac:(lia) HC _ Vd) as (x & t & Lx & Bt & Cs). cbn [entity_dof g_dim g_cell] in Bt. unfold strong_entity in Hs. rewrite Hs in Bt. injection Bt as <-.
  destruct Cs as [(_ & Tx & Ix)|(Nx & _)]; [|congruence]. unfold value_of. rewrite Lx, Tx. rewrite nth_error_repeat by auto. reflexivity.
Qed.
Lemma clamped_zero c : clamped m info c -> (c < nc)%nat /\ forall j, (j < 2 * cell_size info m c)%nat -> U c j = 0.
Proof.
  induction 1 as [c v v' Hc Hv Hv' AP Hs Hs'|c c' v v' Ha [Hc IH] Hc' Hv Hv' Hw Hw' AP].
  - split; [exact Hc|]. destruct (RIG c Hc) as (a & b & r & RG).
    destruct (In_nth _ _ 0%nat Hv) as (i & Hi & Ei). destruct (In_nth _ _ 0%nat Hv') as (i' & Hi' & Ei').
    pose proof (place c i Hc Hi) as Pi. pose proof (place c i' Hc Hi') as Pi'. rewrite Ei in Pi. rewrite Ei' in Pi'.
    destruct (closure_valid m info data c _ HC (vm_cells _ _ _ _ _ _ _ _ _ VM) Hc (nth_error_In _ _ Pi)) as (Vd & _).
    destruct (closure_valid m info data c _ HC (vm_cells _ _ _ _ _ _ _ _ _ VM) Hc (nth_error_In _ _ Pi')) as (Vd' & _).
    destruct (U_place c i _ Pi) as (_ & A1 & A2). destruct (U_place c i' _ Pi') as (_ & B1 & B2).
    rewrite strong_zero in A1, A2, B1, B2 by assumption.
    apply (held c (U c) a b r i i' Hc Hi Hi'); [rewrite Ei, Ei'; exact AP|exact RG|exact A1|exact B1|exact A2|exact B2].
  - split; [exact Hc'|]. destruct (RIG c' Hc') as (a & b & r & RG).
    destruct (In_nth _ _ 0%nat Hv) as (i & Hi & Ei). destruct (In_nth _ _ 0%nat Hv') as (i' & Hi' & Ei').
    destruct (In_nth _ _ 0%nat Hw) as (j & Hj & Ej). destruct (In_nth _ _ 0%nat Hw') as (j' & Hj' & Ej').
    pose proof (place c i Hc Hi) as Pi. pose proof (place c i' Hc Hi') as Pi'. rewrite Ei in Pi. rewrite Ei' in Pi'.
    pose proof (place c' j Hc' Hj) as Pj. pose proof (place c' j' Hc' Hj') as Pj'. rewrite Ej in Pj. rewrite Ej' in Pj'.
    destruct (U_place c i _ Pi) as (Li & A1 & A2). destruct (U_place c i' _ Pi') as (Li' & B1 & B2).
    destruct (U_place c' j _ Pj) as (_ & C1 & C2). destruct (U_place c' j' _ Pj') as (_ & D1 & D2).
    rewrite <- A1, IH in C1 by lia. rewrite <- A2, IH in C2 by lia. rewrite <- B1, IH in D1 by lia. rewrite <- B2, IH in D2 by lia.
    apply (held c' (U c') a b r j j' Hc' Hj Hj'); [rewrite Ej, Ej'; exact AP|exact RG|exact C1|exact D1|exact C2|exact D2].
Qed.
Lemma rest : (forall c, (c < nc)%nat -> clamped m info c) -> covered info mesh -> (forall r, nth r u0 0 = 0) /\ forall r, nth r u1 0 = 0.
Proof.
  intros CL CO. assert (X : forall r, (r < NumberDOFs data)%nat -> nth r u0 0 = 0 /\ nth r u1 0 = 0).
  { intros r Hr. destruct (free_unknown info mesh data r HC Hr) as (g & x & Vg & Lx & Tx & Ix). destruct (covered_cell info mesh g (vm_cells _ _ _ _ _ _ _ _ _ VM) CO Vg) as (c & Hc & G).
    apply In_nth_error in G. destruct G as (p & Hp). destruct (U_place c p g Hp) as (Lp & A1 & A2). destruct (clamped_zero c (CL c Hc)) as (_ & Z).
    rewrite Z in A1, A2 by lia. unfold value_of in A1, A2. rewrite Lx, Tx, Ix in A1, A2.
    rewrite (nth_error_nth' u0 0) in A1 by lia. rewrite (nth_error_nth' u1 0) in A2 by lia. split; symmetry; assumption. }
  split; intros r; (destruct (Nat.lt_ge_cases r (NumberDOFs data)) as [Hr|Hr]; [apply X; exact Hr|apply nth_overflow; lia]).
Qed.
End Zero.

Lemma form_symmetric n Q D0 D1 S kk u v : (forall i j, (i < n)%nat -> (j < n)%nat -> m_at S i j = m_at S j i) -> elastic_form n Q D0 D1 S P kk u v = elastic_form n Q D0 D1 S P kk v u.
Proof using.
  intros Sy. unfold elastic_form. f_equal.
  - apply rsum_ext. intros q _. cbn [rsum]. ring.
  - f_equal. apply rsum_ext. intros d _. unfold bilinear. rewrite rsum_swap. apply rsum_ext. intros i Hi. apply rsum_ext. intros j Hj. rewrite (Sy j i) by assumption. ring.
Qed.

Theorem elastic_definite : (forall c, (c < nc)%nat -> clamped m info c) -> covered info mesh -> let N := NumberDOFs data in
  exists st, elastic_body m data create P = Ok st /\
  (forall u v, length u = (N + N)%nat -> length v = (N + N)%nat -> matrix_form (N + N) st u v = matrix_form (N + N) st v u) /\
  (forall u, length u = (N + N)%nat -> (exists r, nth r u 0 <> 0) -> 0 < matrix_form (N + N) st u u) /\
  forall b w uS, exists uD, solves_system st b w uD uS (N + N) /\ forall vD, solves_system st b w vD uS (N + N) -> vD = uD.
Proof using VM HC PC PR.
  intros CL CO N. destruct (elastic_system m info data create vem_cells P vem_elastic_mesh) as (st & kk & Eb & _ & _ & _ & Lk & _ & _ & MF).
  fold N in MF. exists st. split; [exact Eb|].
  assert (SPLIT : forall u : list R, length u = (N + N)%nat -> exists u0 u1, u = u0 ++ u1 /\ length u0 = N /\ length u1 = N).
  { intros u Lu. exists (firstn N u), (skipn N u). rewrite firstn_skipn, firstn_length, skipn_length. repeat split; lia. }
  assert (DEF : forall u, length u = (N + N)%nat -> 0 <= matrix_form (N + N) st u u /\ (matrix_form (N + N) st u u = 0 -> forall r, nth r u 0 = 0)).
  { intros u Lu. destruct (SPLIT u Lu) as (u0 & u1 & -> & L0 & L1). rewrite MF by assumption. unfold cells_sum. rewrite lsum_seq. split.
    - apply rsum_nonneg. intros c Hc. apply (cell_rigid_only c kk); [exact Hc|apply Lk; exact Hc].
    - intros Z.
      assert (ZC : forall c, (c < nc)%nat -> cell_energy m info vem_cells P kk c (cell_displacement m info data u0 u1 (repeat 0 (NumberStrongs data)) (repeat 0 (NumberStrongs data)) c)
        (cell_displacement m info data u0 u1 (repeat 0 (NumberStrongs data)) (repeat 0 (NumberStrongs data)) c) = 0).
      { apply (rsum_zero_each nc); [intros c Hc; apply (cell_rigid_only c kk); [exact Hc|apply Lk; exact Hc]|exact Z]. }
      destruct (rest u0 u1 L0 L1 (fun c Hc => proj2 (cell_rigid_only c kk _ Hc (Lk c Hc)) (ZC c Hc)) CL CO) as (Z0 & Z1).
      intros r. destruct (Nat.lt_ge_cases r (length u0)); [rewrite app_nth1 by lia; apply Z0|rewrite app_nth2 by lia; apply Z1]. }
  split; [|split].
  - intros u v Lu Lv. destruct (SPLIT u Lu) as (u0 & u1 & -> & L0 & L1). destruct (SPLIT v Lv) as (v0 & v1 & -> & M0 & M1). rewrite !MF by assumption.
    unfold cells_sum. apply lsum_ext. intros c Hc. apply in_seq in Hc. unfold cell_energy. apply form_symmetric. apply (vem_cells_ok c). lia.
  - intros u Lu (r & Hr). destruct (DEF u Lu) as [[H0|H0] H1]; [exact H0|]. exfalso. apply Hr. apply H1. symmetry. exact H0.
  - apply definite_solvable. intros uD LD Z. apply (DEF uD LD). exact Z.
Qed.
End Mesh.
