(** Properties C91 to C95: the assembled elliptic operator, the source and the weak term, the form of the operator, values at the vertices. *)
From Coq Require Import List Arith Bool Reals Lra Lia.
From Verif Require Import Base RSum MatrixModel DofsModel DofsSpec AssemblerModel AssemblerSpec EquationSpec VemQuadModel VemModel VemSpec DriverModel DriverSpec
  DriverSpec2 DriverProofs DriverProofs5 DriverProofs6 DriverProofs7 DofsProps DriverProps.
Import ListNotations.
Local Open Scope nat_scope.

(** C91: row r of the operator applied to the free and strong values is the sum over the active cells of the discrete form tested on unknown r *)
Theorem C91_operator : forall m info info' trial test ct cs E,
  CreateDOFs 2 info (md_mesh m) = Ok trial -> Cell2Ds_number (md_mesh m) = num_cells info 2 ->
  CreateDOFs 2 info' (md_mesh m) = Ok test -> Cell2Ds_number (md_mesh m) = num_cells info' 2 ->
  (forall c, c < Cell2Ds_number (md_mesh m) -> md_active2 m c = true ->
     cell_forms ct cs c (length (closure_dofs info (md_mesh m) 2 c)) (length (closure_dofs info' (md_mesh m) 2 c)) (E c)) ->
  forall dif adv rea kk,
  (forall c K, c < Cell2Ds_number (md_mesh m) -> md_active2 m c = true -> dif = Some K -> greatest_diffusion (E c) K (kk c)) ->
  exists s, assemble_elliptic_operator m trial test ct cs dif adv rea = Ok s /\
    (forall r j v, In (r, j, v) (trip_DOFs s) -> r < NumberDOFs test /\ j < NumberDOFs trial) /\
    (forall r j v, In (r, j, v) (trip_Strongs s) -> r < NumberDOFs test /\ j < NumberStrongs trial) /\
    forall uD uS, length uD = NumberDOFs trial -> length uS = NumberStrongs trial ->
    exists ul, (forall c, c < Cell2Ds_number (md_mesh m) -> local_solution trial uD uS c = Ok (ul c)) /\
    forall r, operator_row s uD uS r = active_sum m (fun c => free_places info' (md_mesh m) test c r (elliptic_form (E c) dif adv rea (kk c) (v_at (ul c)))).
Proof. exact operator_ok. Qed.

(** C92: the source term *)
Theorem C92_source : forall m info info' trial test ct cs E,
  CreateDOFs 2 info (md_mesh m) = Ok trial -> Cell2Ds_number (md_mesh m) = num_cells info 2 ->
  CreateDOFs 2 info' (md_mesh m) = Ok test -> Cell2Ds_number (md_mesh m) = num_cells info' 2 ->
  (forall c, c < Cell2Ds_number (md_mesh m) -> md_active2 m c = true ->
     cell_forms ct cs c (length (closure_dofs info (md_mesh m) 2 c)) (length (closure_dofs info' (md_mesh m) 2 c)) (E c)) ->
  forall f, exists b, assemble_source_term m test ct cs f = Ok b /\ length b = NumberDOFs test /\
    forall r, nth r b 0%R = active_sum m (fun c => free_places info' (md_mesh m) test c r (source_form (E c) f)).
Proof. exact source_ok. Qed.

(** C93: the operator against a test vector is the form on the pair of discrete functions, the test function with zero strong values *)
Theorem C93_pairs : forall m info info' trial test ct cs E,
  CreateDOFs 2 info (md_mesh m) = Ok trial -> Cell2Ds_number (md_mesh m) = num_cells info 2 ->
  CreateDOFs 2 info' (md_mesh m) = Ok test -> Cell2Ds_number (md_mesh m) = num_cells info' 2 ->
  (forall c, c < Cell2Ds_number (md_mesh m) -> md_active2 m c = true ->
     cell_forms ct cs c (length (closure_dofs info (md_mesh m) 2 c)) (length (closure_dofs info' (md_mesh m) 2 c)) (E c)) ->
  forall dif adv rea kk,
  (forall c K, c < Cell2Ds_number (md_mesh m) -> md_active2 m c = true -> dif = Some K -> greatest_diffusion (E c) K (kk c)) ->
  exists s, assemble_elliptic_operator m trial test ct cs dif adv rea = Ok s /\
  forall uD uS vD, length uD = NumberDOFs trial -> length uS = NumberStrongs trial -> length vD = NumberDOFs test ->
  exists ul vl, (forall c, c < Cell2Ds_number (md_mesh m) -> local_solution trial uD uS c = Ok (ul c)) /\
    (forall c, c < Cell2Ds_number (md_mesh m) -> local_solution test vD (repeat 0%R (NumberStrongs test)) c = Ok (vl c)) /\
    rsum (NumberDOFs test) (fun r => nth r vD 0 * operator_row s uD uS r)%R =
    active_sum m (fun c => pair_form (E c) dif adv rea (kk c) (v_at (ul c)) (v_at (vl c))).
Proof. exact pair_ok. Qed.

(** C93: symmetric data give a symmetric matrix *)
Theorem C93_symmetric : forall m info data ct cs E,
  CreateDOFs 2 info (md_mesh m) = Ok data -> Cell2Ds_number (md_mesh m) = num_cells info 2 ->
  (forall c, c < Cell2Ds_number (md_mesh m) -> md_active2 m c = true ->
     cell_forms ct cs c (length (closure_dofs info (md_mesh m) 2 c)) (length (closure_dofs info (md_mesh m) 2 c)) (E c)) ->
  forall dif rea kk,
  (forall c K, c < Cell2Ds_number (md_mesh m) -> md_active2 m c = true -> dif = Some K -> greatest_diffusion (E c) K (kk c)) ->
  (forall c, c < Cell2Ds_number (md_mesh m) -> md_active2 m c = true -> same_functions (E c) (match rea with Some _ => true | None => false end)) ->
  (forall c K, c < Cell2Ds_number (md_mesh m) -> md_active2 m c = true -> dif = Some K -> symmetric_diffusion (E c) K) ->
  exists s, assemble_elliptic_operator m data data ct cs dif None rea = Ok s /\
  forall r j, r < NumberDOFs data -> j < NumberDOFs data -> entry (trip_DOFs s) r j = entry (trip_DOFs s) j r.
Proof. exact operator_symmetric. Qed.

(** C93: the energy is nonnegative and vanishes only when gradients, values weighted by a positive reaction and stabilisation do *)
Theorem C93_energy : forall m info data ct cs E,
  CreateDOFs 2 info (md_mesh m) = Ok data -> Cell2Ds_number (md_mesh m) = num_cells info 2 ->
  (forall c, c < Cell2Ds_number (md_mesh m) -> md_active2 m c = true ->
     cell_forms ct cs c (length (closure_dofs info (md_mesh m) 2 c)) (length (closure_dofs info (md_mesh m) 2 c)) (E c)) ->
  forall dif rea kk,
  (forall c K, c < Cell2Ds_number (md_mesh m) -> md_active2 m c = true -> dif = Some K -> greatest_diffusion (E c) K (kk c)) ->
  (forall c, c < Cell2Ds_number (md_mesh m) -> md_active2 m c = true -> same_functions (E c) (match rea with Some _ => true | None => false end)) ->
  (forall c q, c < Cell2Ds_number (md_mesh m) -> md_active2 m c = true -> q < v_size (cf_weights (E c)) -> (0 < v_at (cf_weights (E c)) q)%R) ->
  (forall c K, c < Cell2Ds_number (md_mesh m) -> md_active2 m c = true -> dif = Some K -> nonnegative_diffusion (E c) K) ->
  (forall c f q, c < Cell2Ds_number (md_mesh m) -> md_active2 m c = true -> rea = Some f -> q < v_size (cf_weights (E c)) -> (0 <= at_q f (E c) q)%R) ->
  (forall c K, c < Cell2Ds_number (md_mesh m) -> md_active2 m c = true -> dif = Some K -> nonnegative_stabilisation (E c)) ->
  exists s, assemble_elliptic_operator m data data ct cs dif None rea = Ok s /\
  forall uD, length uD = NumberDOFs data ->
   (0 <= energy (NumberDOFs data) s uD)%R /\
   (energy (NumberDOFs data) s uD = 0%R ->
     exists ul, (forall c, c < Cell2Ds_number (md_mesh m) -> local_solution data uD (repeat 0%R (NumberStrongs data)) c = Ok (ul c)) /\
     forall c, c < Cell2Ds_number (md_mesh m) -> md_active2 m c = true ->
       (forall K, dif = Some K -> positive_diffusion (E c) K -> forall d q, d < 2 -> q < v_size (cf_weights (E c)) -> combine (cf_dU (E c) d) (v_at (ul c)) q = 0%R) /\
       (forall f, rea = Some f -> forall q, q < v_size (cf_weights (E c)) -> (0 < at_q f (E c) q)%R -> combine (cf_U (E c)) (v_at (ul c)) q = 0%R) /\
       (forall K, dif = Some K -> (kk c * rsum (ls_Size (cf_test (E c))) (fun p => v_at (ul c) p * combine (cf_S (E c)) (v_at (ul c)) p) = 0)%R)).
Proof. exact operator_energy. Qed.

(** C94: the weak term *)
Theorem C94_weak_term : forall m info info' data,
  CreateDOFs 2 info' (md_mesh m) = Ok data -> Cell2Ds_number (md_mesh m) = num_cells info' 2 ->
  (forall e, e < num_cells info' 1 -> exists b, nth_error (CellsBoundaryInfo info 1) e = Some b) ->
  forall geometry gauss create g sp B,
  (forall c, c < Cell2Ds_number (md_mesh m) -> md_active2 m c = true -> weak_cell info info' (md_mesh m) create gauss (geometry c) c (sp c) (B c)) ->
  m_cols (q_Points gauss) = v_size (q_Weights gauss) ->
  exists b, assemble_weak_term m info data geometry gauss create g = Ok b /\ length b = NumberDOFs data /\
    forall r, nth r b 0%R = active_sum m (fun c => weak_form info info' (md_mesh m) data (geometry c) gauss (B c) g c r).
Proof. exact weak_term_ok. Qed.

(** C94: whichever cell an edge is seen from, its points are those of the edge of the mesh *)
Theorem C94_edge_points : forall m c P ed t k, geometry_of m c P -> ed < m_cols (pg_Vertices P) -> k < 3 ->
  let e := nth ed (Cell2D_edges (md_mesh m) c) 0 in
  edge_point P ed t k = (md_coords m (nth 0 (Cell1D_vertices (md_mesh m) e) 0)%nat k +
    t * (md_coords m (nth 1 (Cell1D_vertices (md_mesh m) e) 0)%nat k - md_coords m (nth 0 (Cell1D_vertices (md_mesh m) e) 0)%nat k))%R.
Proof. exact edge_point_mesh. Qed.

(** C95: values at the vertices *)
Theorem C95_vertices : forall m info data uD uS exact,
  CreateDOFs 2 info (md_mesh m) = Ok data -> Cell0Ds_number (md_mesh m) = num_cells info 0 ->
  length uD = NumberDOFs data -> length uS = NumberStrongs data ->
  exists un ue, extract_solution_on_cell0Ds m data uD uS exact = Ok (un, ue) /\
    length un = Cell0Ds_number (md_mesh m) /\ length ue = Cell0Ds_number (md_mesh m) /\
    forall v, v < Cell0Ds_number (md_mesh m) ->
      (md_active0 m v = false -> nth v un 0%R = 0%R /\ nth v ue 0%R = 0%R) /\
      (md_active0 m v = true ->
         nth v ue 0%R = match exact with Some f => at_point f (md_coords m v) | None => 0%R end /\
         (requested info 0 v = 0 -> nth v un 0%R = 0%R) /\
         (0 < requested info 0 v -> value_of data uD uS (entity_dof 0 v (requested info 0 v - 1)) = Some (nth v un 0%R))).
Proof. exact extract_ok. Qed.

(** ** Examples: the two triangles of DriverProps with non-zero derivatives and stabilisation *)
Definition ex_id : Mat := {| m_rows := 10; m_cols := 10; m_at := fun i j => if i =? j then 1%R else 0%R |}.
Definition ex_edge_values : Mat := {| m_rows := 1; m_cols := 4; m_at := fun _ j => INR (S j) |}.
Definition ex_space2 (c : nat) : LocalSpace := {|
  ls_Size := 10; ls_InternalQuadrature := ex_quad c; ls_Values := fun _ => Ok (ex_row 0); ls_DerivativeValues := Ok [ex_row 1; ex_row 2];
  ls_ValuesAt := fun _ => Ok (ex_row 0); ls_DerivativeValuesAt := fun _ => Ok [ex_row 1; ex_row 2]; ls_StabilizationMatrix := Ok ex_id;
  ls_EdgeDofsCoordinates := fun _ => Ok (mzero 3 2); ls_InternalDofsCoordinates := Ok (ex_quad c); ls_InternalDofs := fun v _ => Ok v;
  ls_ValuesOnEdge := fun _ => Ok ex_edge_values |}.
Definition ex_create2 (c : nat) : outcome LocalSpace := Ok (ex_space2 c).
Definition ex_forms (c : nat) : CellForms := {| cf_trial := ex_space2 c; cf_test := ex_space2 c;
  cf_U := ex_row 0; cf_dU := fun d => ex_row (S d); cf_V := ex_row 0; cf_dV := fun d => ex_row (S d); cf_S := ex_id |}.
(** diffusion diag(2, 3), reaction 1 + x x *)
Definition ex_K (x y z : R) (d : nat) : R := nth d [2; 0; 0; 0; 3; 0; 0; 0; 1]%R 0%R.
Definition ex_reaction (x y z : R) : R := (1 + x * x)%R.

Lemma ex_cells : forall c, c < Cell2Ds_number (md_mesh ex_m) -> md_active2 ex_m c = true ->
  cell_forms ex_create2 ex_create2 c (length (closure_dofs ex_info (md_mesh ex_m) 2 c)) (length (closure_dofs ex_info (md_mesh ex_m) 2 c)) (ex_forms c).
Proof.
  intros c Hc _. assert (length (closure_dofs ex_info (md_mesh ex_m) 2 c) = 10) as -> by (simpl in Hc; destruct c as [|[|c]]; try lia; reflexivity).
  constructor; try reflexivity; try (repeat split; simpl; auto; fail).
Qed.
Lemma ex_greatest : forall c K, c < Cell2Ds_number (md_mesh ex_m) -> md_active2 ex_m c = true -> Some ex_K = Some K -> greatest_diffusion (ex_forms c) K 3%R.
Proof.
  intros c K _ _ [= <-]. split.
  - intros d q Hd _. unfold at_q, ex_K. do 9 (destruct d as [|d]; [cbn [nth]; try (rewrite Rabs_R0; lra); rewrite Rabs_right; lra|]). lia.
  - exists 4, 0. split; [lia|]. split; [simpl; lia|]. unfold at_q, ex_K. cbn [nth]. rewrite Rabs_right; lra.
Qed.
Example C91_case : exists s, assemble_elliptic_operator ex_m ex_data ex_data ex_create2 ex_create2 (Some ex_K) None (Some ex_reaction) = Ok s.
Proof.
  destruct (C91_operator ex_m ex_info ex_info ex_data ex_data ex_create2 ex_create2 ex_forms ex_created eq_refl ex_created eq_refl ex_cells (Some ex_K) None (Some ex_reaction)
    (fun _ => 3%R) ex_greatest) as (s & E & _). exists s. exact E.
Qed.
Example C92_case : forall f, exists b, assemble_source_term ex_m ex_data ex_create2 ex_create2 f = Ok b /\ length b = NumberDOFs ex_data.
Proof.
  intros f. destruct (C92_source ex_m ex_info ex_info ex_data ex_data ex_create2 ex_create2 ex_forms ex_created eq_refl ex_created eq_refl ex_cells f) as (b & E & L & _). exists b. auto.
Qed.
Lemma ex_same : forall c, c < Cell2Ds_number (md_mesh ex_m) -> md_active2 ex_m c = true -> same_functions (ex_forms c) true.
Proof.
  intros c _ _. split; [reflexivity|]. split; [reflexivity|]. split; [reflexivity|]. intros p p' _ _. simpl. rewrite Nat.eqb_sym. reflexivity.
Qed.
Example C93_case : exists s, assemble_elliptic_operator ex_m ex_data ex_data ex_create2 ex_create2 (Some ex_K) None (Some ex_reaction) = Ok s /\
  (forall r j, r < NumberDOFs ex_data -> j < NumberDOFs ex_data -> entry (trip_DOFs s) r j = entry (trip_DOFs s) j r) /\
  forall uD, length uD = NumberDOFs ex_data -> (0 <= energy (NumberDOFs ex_data) s uD)%R.
Proof.
  destruct (C93_symmetric ex_m ex_info ex_data ex_create2 ex_create2 ex_forms ex_created eq_refl ex_cells (Some ex_K) (Some ex_reaction) (fun _ => 3%R) ex_greatest ex_same)
    as (s & E & Hs).
  { intros c K _ _ [= <-] q i j _ Hi Hj. unfold at_q, ex_K. destruct i as [|[|i]]; destruct j as [|[|j]]; try lia; reflexivity. }
  destruct (C93_energy ex_m ex_info ex_data ex_create2 ex_create2 ex_forms ex_created eq_refl ex_cells (Some ex_K) (Some ex_reaction) (fun _ => 3%R) ex_greatest ex_same)
    as (s' & E' & He).
  - intros c q _ _ _. simpl. lra.
  - intros c K _ _ [= <-] q x _. rewrite !rsum2. unfold at_q, ex_K. cbn [Nat.add Nat.mul nth].
    pose proof (Rle_0_sqr (x 0)) as X. pose proof (Rle_0_sqr (x 1)) as Y. unfold Rsqr in *. lra.
  - intros c f q _ _ [= <-] _. unfold at_q, ex_reaction. match goal with |- (0 <= 1 + ?a * ?a)%R => pose proof (Rle_0_sqr a) as X end. unfold Rsqr in X. lra.
  - intros c K _ _ _ u. apply rsum_nonneg. intros p Hp. unfold combine. cbn [cf_S ex_forms ex_id m_cols m_at].
    rewrite (rsum_single 10 _ p).
    + rewrite Nat.eqb_refl. pose proof (Rle_0_sqr (u p)) as X. unfold Rsqr in X. lra.
    + exact Hp.
    + intros i Hi Ni. destruct (Nat.eqb_spec p i); [congruence|ring].
  - rewrite E in E'. injection E' as <-. exists s. split; [exact E|]. split; [exact Hs|]. intros uD L. apply He. exact L.
Qed.

(** the polygons of the two cells, edge 3 of the mesh declared Weak *)
Definition ex_vert (c i : nat) : nat := nth i (Cell2D_vertices ex_mesh c) 0.
Definition ex_geometry (c : nat) : Polygon := {|
  pg_Vertices := {| m_rows := 3; m_cols := 3; m_at := fun k i => ex_coords (ex_vert c i) k |};
  pg_Centroid := fun _ => 0%R; pg_Measure := 0%R; pg_Diameter := 1%R; pg_TriangulationVertices := [];
  pg_EdgesLength := {| v_size := 3; v_at := fun _ => 1%R |};
  pg_EdgesDirection := map (fun i => Nat.eqb (nth 0 (Cell1D_vertices ex_mesh (nth i (Cell2D_edges ex_mesh c) 0)) 0) (ex_vert c i)) [0; 1; 2];
  pg_EdgesTangent := {| m_rows := 3; m_cols := 3; m_at := fun k i => (ex_coords (ex_vert c ((i + 1) mod 3)) k - ex_coords (ex_vert c i) k)%R |};
  pg_EdgesNormal := mzero 3 3 |}.
Definition ex_gauss : QuadratureData := {| q_Points := {| m_rows := 3; m_cols := 1; m_at := fun i _ => if i =? 0 then (1 / 2)%R else 0%R |};
  q_Weights := {| v_size := 1; v_at := fun _ => 1%R |} |}.
Lemma ex_geometry_of : forall c, c < 2 -> geometry_of ex_m c (ex_geometry c).
Proof.
  intros c Hc. split; [destruct c as [|[|c]]; [reflexivity|reflexivity|lia]|]. split; [reflexivity|]. split; [reflexivity|].
  intros i Hi. simpl in Hi. destruct c as [|[|c]]; [| |lia]; destruct i as [|[|[|i]]]; try lia; split; reflexivity.
Qed.
Lemma ex_weak_cells : forall c, c < Cell2Ds_number (md_mesh ex_m) -> md_active2 ex_m c = true ->
  weak_cell ex_info ex_info (md_mesh ex_m) ex_create2 ex_gauss (ex_geometry c) c (ex_space2 c) ex_edge_values.
Proof.
  intros c Hc _. simpl in Hc. constructor; try reflexivity; try (split; reflexivity).
  - destruct c as [|[|c]]; [reflexivity|reflexivity|lia].
  - split; [reflexivity|]. intros e He. simpl in He. destruct c as [|[|c]]; [| |lia]; simpl in He; destruct He as [<-|[<-|[<-|[]]]]; vm_compute; lia.
Qed.
Example C94_case : forall g, exists b, assemble_weak_term ex_m ex_info ex_data ex_geometry ex_gauss ex_create2 g = Ok b /\ length b = NumberDOFs ex_data.
Proof.
  intros g. destruct (C94_weak_term ex_m ex_info ex_info ex_data ex_created eq_refl) with (geometry := ex_geometry) (gauss := ex_gauss) (create := ex_create2) (g := g)
    (sp := ex_space2) (B := fun _ : nat => ex_edge_values) as (b & E & L & _).
  - intros e He. simpl in He. do 5 (destruct e as [|e]; [eexists; reflexivity|]). vm_compute in He. lia.
  - exact ex_weak_cells.
  - reflexivity.
  - exists b. auto.
Qed.
(** the edge shared by the cells has a point of the same coordinates from both *)
Example C94_shared : forall t k, k < 3 -> edge_point (ex_geometry 0) 1 t k = edge_point (ex_geometry 1) 0 t k.
Proof.
  intros t k Hk. rewrite (C94_edge_points ex_m 0 (ex_geometry 0) 1 t k (ex_geometry_of 0 ltac:(lia)) ltac:(simpl; lia) Hk).
  rewrite (C94_edge_points ex_m 1 (ex_geometry 1) 0 t k (ex_geometry_of 1 ltac:(lia)) ltac:(simpl; lia) Hk). reflexivity.
Qed.
Example C95_case : forall uD uS f, length uD = NumberDOFs ex_data -> length uS = NumberStrongs ex_data ->
  exists un ue, extract_solution_on_cell0Ds ex_m ex_data uD uS (Some f) = Ok (un, ue) /\ nth 3 ue 0%R = f 3%R 3%R 0%R /\
    value_of ex_data uD uS (entity_dof 0 3 0) = Some (nth 3 un 0%R).
Proof.
  intros uD uS f LD LS. destruct (C95_vertices ex_m ex_info ex_data uD uS (Some f) ex_created eq_refl LD LS) as (un & ue & E & _ & _ & H). exists un, ue. split; [exact E|].
  destruct (H 3) as (_ & H3); [simpl; lia|]. destruct (H3 eq_refl) as (V & _ & W). split.
  - rewrite V. unfold at_point. simpl. unfold ex_coords. cbn [nth INR]. f_equal; lra.
  - apply W. vm_compute. lia.
Qed.
Print Assumptions C91_operator.
Print Assumptions C92_source.
Print Assumptions C93_pairs.
Print Assumptions C93_symmetric.
Print Assumptions C93_energy.
Print Assumptions C94_weak_term.
Print Assumptions C94_edge_points.
Print Assumptions C95_vertices.
