(** Properties C25, C26, C74: errors, strong values, interpolation. *)
From Coq Require Import List Arith Bool Reals Lra Lia.
From Verif Require Import Base RSum MatrixModel DofsModel DofsSpec AssemblerModel AssemblerSpec VemQuadModel VemModel VemSpec DriverModel DriverSpec
  DriverProofs DriverProofs2 DriverProofs3 DriverProofs4 DofsProps.
Import ListNotations.
Local Open Scope nat_scope.

(** C25: the cell values are weighted sums over the quadrature points of the cell of squared differences, discrete values, exact values *)
Theorem C25_L2_report : forall m data create uD uS exact r,
  compute_error_L2 m data create uD uS exact = Ok r ->
  reports (L2_point m data create uD uS exact) (Cell2Ds_number (md_mesh m)) r.
Proof. exact L2_reports. Qed.

Theorem C25_H1_report : forall m data create uD uS exact r,
  compute_error_H1 m data create uD uS exact = Ok r ->
  reports (H1_point m data create uD uS exact) (Cell2Ds_number (md_mesh m)) r.
Proof. exact H1_reports. Qed.

(** C25: global values squared are the sums of the cell values *)
Theorem C25_squares : forall Pt n r, reports Pt n r -> (forall c w a b, c < n -> Pt c (w, a, b) -> (0 <= w)%R) ->
  (pe_error r * pe_error r = rsum n (fun c => nth c (pe_cells_error r) 0) /\
   pe_numeric r * pe_numeric r = rsum n (fun c => nth c (pe_cells_numeric r) 0) /\
   pe_exact r * pe_exact r = rsum n (fun c => nth c (pe_cells_exact r) 0))%R.
Proof. exact report_squares. Qed.

(** C25: triangle inequalities *)
Theorem C25_triangle : forall Pt n r, reports Pt n r -> (forall c w a b, c < n -> Pt c (w, a, b) -> (0 <= w)%R) ->
  (pe_numeric r <= pe_exact r + pe_error r /\ pe_exact r <= pe_numeric r + pe_error r)%R.
Proof. exact report_triangle. Qed.

(** C25: the error is zero when the values agree at all points, and only then if the weights are positive *)
Theorem C25_zero : forall Pt n r, reports Pt n r -> (forall c w a b, c < n -> Pt c (w, a, b) -> a = b) -> pe_error r = 0%R.
Proof. exact report_zero. Qed.

Theorem C25_zero_only : forall Pt n r, reports Pt n r -> (forall c w a b, c < n -> Pt c (w, a, b) -> (0 <= w)%R) ->
  (forall c w a b, c < n -> Pt c (w, a, b) -> (0 < w)%R) -> pe_error r = 0%R -> forall c w a b, c < n -> Pt c (w, a, b) -> a = b.
Proof. exact report_zero_inv. Qed.

(** C26: every Strong unknown of a vertex or an edge of an active cell receives the boundary function of its marker at its own point *)
Theorem C26_strong_values : forall m info data, CreateDOFs 2 info (md_mesh m) = Ok data -> Cell2Ds_number (md_mesh m) = num_cells info 2 ->
  forall order create g pt,
  (forall c v, c < Cell2Ds_number (md_mesh m) -> md_active2 m c = true -> In v (Cell2D_vertices (md_mesh m) c) -> strong_entity info 0 v -> requested info 0 v <= 1) ->
  (1 < order -> edge_points_agree m info create (md_active2 m) (fun e => strong_entity info 1 e /\ 0 < requested info 1 e) pt) ->
  exists uS, assemble_strong_solution m info data order create g = Ok uS /\ length uS = NumberStrongs data /\
  forall d e i, d <= 2 -> e < num_cells info d -> i < requested info d e -> strong_entity info d e ->
    exists x, lookup data (entity_dof d e i) = Some x /\ dof_type x = TStrong /\
      (receives_strong m info order d e -> nth_error uS (dof_index x) = Some (strong_value m info pt g d e i)) /\
      (~ receives_strong m info order d e -> nth_error uS (dof_index x) = Some 0%R).
Proof. exact strong_result. Qed.

(** C26: hence every active cell sees these values *)
Theorem C26_cells : forall m info data, CreateDOFs 2 info (md_mesh m) = Ok data -> Cell2Ds_number (md_mesh m) = num_cells info 2 ->
  forall order create g pt,
  (forall c v, c < Cell2Ds_number (md_mesh m) -> md_active2 m c = true -> In v (Cell2D_vertices (md_mesh m) c) -> strong_entity info 0 v -> requested info 0 v <= 1) ->
  (1 < order -> edge_points_agree m info create (md_active2 m) (fun e => strong_entity info 1 e /\ 0 < requested info 1 e) pt) ->
  forall uS, assemble_strong_solution m info data order create g = Ok uS ->
  forall uD c, length uD = NumberDOFs data -> c < Cell2Ds_number (md_mesh m) -> md_active2 m c = true ->
    exists u, local_solution data uD uS c = Ok u /\ v_size u = length (closure_dofs info (md_mesh m) 2 c) /\
      forall p h, nth_error (closure_dofs info (md_mesh m) 2 c) p = Some h -> strong_entity info (g_dim h) (g_cell h) ->
        (g_dim h = 0 \/ (g_dim h = 1 /\ 1 < order)) -> v_at u p = strong_value m info pt g (g_dim h) (g_cell h) (g_dof h).
Proof. exact strong_restriction. Qed.

(** C74: the interpolant: on every cell the local unknowns are the degrees of freedom of the function *)
Theorem C74_interpolation : forall m info data, CreateDOFs 2 info (md_mesh m) = Ok data -> Cell2Ds_number (md_mesh m) = num_cells info 2 ->
  forall order create f pt td,
  (forall c v, c < Cell2Ds_number (md_mesh m) -> In v (Cell2D_vertices (md_mesh m) c) -> requested info 0 v = 1) ->
  (1 < order -> edge_points_agree m info create (fun _ => true) (fun _ => True) pt) ->
  (1 < order -> forall c sp, c < Cell2Ds_number (md_mesh m) -> create c = Ok sp -> 0 < requested info 2 c ->
    exists dofs, internal_dofs sp f dofs /\ requested info 2 c <= v_size dofs /\ forall i, i < requested info 2 c -> v_at dofs i = td c i) ->
  exists uD uS, evaluate_function_on_dofs m data order create f = Ok (uD, uS) /\ length uD = NumberDOFs data /\ length uS = NumberStrongs data /\
    forall c, c < Cell2Ds_number (md_mesh m) -> exists u, local_solution data uD uS c = Ok u /\ v_size u = length (closure_dofs info (md_mesh m) 2 c) /\
      forall p h, nth_error (closure_dofs info (md_mesh m) 2 c) p = Some h -> (1 < order \/ g_dim h = 0) -> v_at u p = dof_value m pt td f h.
Proof. exact interpolation. Qed.

(** C74: functions reproduced by the local spaces from their unknowns have zero error *)
Theorem C74_reproduced_L2 : forall m info data create f uD uS val r,
  (forall c, c < Cell2Ds_number (md_mesh m) -> exists u, local_solution data uD uS c = Ok u /\ v_size u = length (closure_dofs info (md_mesh m) 2 c) /\
      forall p h, nth_error (closure_dofs info (md_mesh m) 2 c) p = Some h -> v_at u p = val h) ->
  (forall c sp V, c < Cell2Ds_number (md_mesh m) -> md_active2 m c = true -> create c = Ok sp -> ls_Values sp Pi0k_t = Ok V ->
     m_cols V = length (closure_dofs info (md_mesh m) 2 c) /\
     forall u q, (forall p h, nth_error (closure_dofs info (md_mesh m) 2 c) p = Some h -> u p = val h) ->
       q < v_size (q_Weights (ls_InternalQuadrature sp)) -> combine V u q = exact_at (Some f) (q_Points (ls_InternalQuadrature sp)) q) ->
  compute_error_L2 m data create uD uS (Some f) = Ok r -> pe_error r = 0%R.
Proof. exact reproduced_L2. Qed.

Theorem C74_reproduced_H1 : forall m info data create (f : R -> R -> R -> nat -> R) uD uS val r,
  (forall c, c < Cell2Ds_number (md_mesh m) -> exists u, local_solution data uD uS c = Ok u /\ v_size u = length (closure_dofs info (md_mesh m) 2 c) /\
      forall p h, nth_error (closure_dofs info (md_mesh m) 2 c) p = Some h -> v_at u p = val h) ->
  (forall c sp D d Dd, c < Cell2Ds_number (md_mesh m) -> md_active2 m c = true -> create c = Ok sp -> ls_DerivativeValues sp = Ok D -> d < 2 -> nth_error D d = Some Dd ->
     m_cols Dd = length (closure_dofs info (md_mesh m) 2 c) /\
     forall u q, (forall p h, nth_error (closure_dofs info (md_mesh m) 2 c) p = Some h -> u p = val h) ->
       q < v_size (q_Weights (ls_InternalQuadrature sp)) -> combine Dd u q = exact_gradient_at (Some f) (q_Points (ls_InternalQuadrature sp)) q d) ->
  compute_error_H1 m data create uD uS (Some f) = Ok r -> pe_error r = 0%R.
Proof. exact reproduced_H1. Qed.

(** ** Examples: the two triangles of DofsProps with two points on each edge, one internal unknown; one quadrature point in the first vertex *)
Definition ex_coords (v k : nat) : R := INR (nth k (nth v [[0;0;0]; [3;0;0]; [0;3;0]; [3;3;0]] []) 0).
Definition ex_m : Mesh2D := {| md_mesh := ex_mesh; md_active0 := fun _ => true; md_active2 := fun _ => true; md_coords := ex_coords |}.
Definition ex_pt (e i k : nat) : R :=
  let v := nth e [[0;1]; [1;2]; [2;0]; [1;3]; [3;2]] [] in
  (ex_coords (hd O v) k + INR (S i) / 3 * (ex_coords (last v O) k - ex_coords (hd O v) k))%R.
Definition ex_quad (c : nat) : QuadratureData := {| q_Points := column3 (ex_coords (nth c [0; 2] 0)); q_Weights := {| v_size := 1; v_at := fun _ => 1%R |} |}.
Definition ex_row (j0 : nat) : Mat := {| m_rows := 1; m_cols := 10; m_at := fun _ j => if j =? j0 then 1%R else 0%R |}.
Definition ex_space (c : nat) : LocalSpace := {|
  ls_Size := 10; ls_InternalQuadrature := ex_quad c; ls_Values := fun _ => Ok (ex_row 0); ls_DerivativeValues := Ok [mzero 1 10; mzero 1 10];
  ls_ValuesAt := fun _ => Ok (ex_row 0); ls_DerivativeValuesAt := fun _ => Ok [mzero 1 10; mzero 1 10]; ls_StabilizationMatrix := Ok (mzero 10 10);
  ls_EdgeDofsCoordinates := fun ed => Ok {| m_rows := 3; m_cols := 2; m_at := fun k i => ex_pt (nth ed (nth c [[0;1;2]; [1;3;4]] []) 0) i k |};
  ls_InternalDofsCoordinates := Ok (ex_quad c); ls_InternalDofs := fun v _ => Ok v; ls_ValuesOnEdge := fun _ => Ok (mzero 0 0) |}.
Definition ex_create (c : nat) : outcome LocalSpace := Ok (ex_space c).

Lemma ex_edges : forall relevant, edge_points_agree ex_m ex_info ex_create (fun _ => true) relevant ex_pt.
Proof.
  intros relevant c Hc _. exists (ex_space c). split; [reflexivity|]. intros ed e He _. eexists. split; [reflexivity|].
  simpl in Hc, He. destruct c as [|[|c]]; try lia; simpl in He; destruct ed as [|[|[|ed]]]; simpl in He; inversion He; subst;
    try (destruct ed; discriminate); (split; [reflexivity|]); (split; [right; simpl; lia|]); intros i Hi k Hk; reflexivity.
Qed.

Example C26_case : forall g, exists uS, assemble_strong_solution ex_m ex_info ex_data 3 ex_create g = Ok uS /\ length uS = 5 /\
  nth_error uS 0 = Some (g 1 0%R 0%R 0%R) /\ exists x, lookup ex_data (entity_dof 1 2 1) = Some x /\ nth_error uS (dof_index x) = Some (at_point (g 1) (ex_pt 2 1)).
Proof.
  intros g. destruct (C26_strong_values ex_m ex_info ex_data ex_created eq_refl 3 ex_create g ex_pt) as (uS & E & L & H).
  - intros c v Hc _ Hv _. simpl in *. destruct c as [|[|c]]; try lia; simpl in Hv; destruct Hv as [<-|[<-|[<-|[]]]]; vm_compute; lia.
  - intros _ c Hc _. apply (ex_edges (fun e => strong_entity ex_info 1 e /\ 0 < requested ex_info 1 e) c Hc eq_refl).
  - exists uS. split; auto. split; auto. split.
    + destruct (H 0 0 0) as (x & Hx & _ & R1 & _); try (vm_compute; lia); try reflexivity.
      assert (dof_index x = 0) as E0. { vm_compute in Hx. inversion Hx. reflexivity. }
      rewrite E0 in R1. rewrite R1; [reflexivity|]. split; [reflexivity|]. exists 0. split; [simpl; lia|]. split; [reflexivity|]. left. simpl. auto.
    + destruct (H 1 2 1) as (x & Hx & _ & R1 & _); try (vm_compute; lia); try reflexivity.
      exists x. split; auto. rewrite R1; [reflexivity|]. split; [reflexivity|]. exists 0. split; [simpl; lia|]. split; [reflexivity|]. right. simpl. repeat split; auto.
Qed.

Example C74_case : forall f, exists uD uS r, evaluate_function_on_dofs ex_m ex_data 3 ex_create f = Ok (uD, uS) /\
  compute_error_L2 ex_m ex_data ex_create uD uS (Some f) = Ok r /\ pe_error r = 0%R.
Proof.
  intros f.
  assert (HV : forall c v, c < Cell2Ds_number ex_mesh -> In v (Cell2D_vertices ex_mesh c) -> requested ex_info 0 v = 1).
  { intros c v Hc Hv. simpl in *. destruct c as [|[|c]]; try lia; simpl in Hv; destruct Hv as [<-|[<-|[<-|[]]]]; reflexivity. }
  destruct (C74_interpolation ex_m ex_info ex_data ex_created eq_refl 3 ex_create f ex_pt (fun c _ => at_point f (ex_coords (nth c [0; 2] 0))) HV)
    as (uD & uS & E & LD & LS & H).
  - intros _. apply ex_edges.
  - intros _ c sp Hc Hs _. inversion Hs; subst sp. eexists. split; [|split].
    + exists (ex_quad c). eexists. split; [reflexivity|]. split; [right; simpl; lia|]. split; [reflexivity|]. reflexivity.
    + simpl in Hc. destruct c as [|[|c]]; try lia; vm_compute; lia.
    + intros i Hi. reflexivity.
  - exists uD, uS. destruct (H 0) as (u0 & E0 & S0 & H0); [simpl; lia|]. destruct (H 1) as (u1 & E1 & S1 & H1); [simpl; lia|].
    change (length (closure_dofs ex_info (md_mesh ex_m) 2 0)) with 10 in S0. change (length (closure_dofs ex_info (md_mesh ex_m) 2 1)) with 10 in S1.
    eexists. split; [exact E|]. match goal with |- ?A /\ ?B => assert (X : A) end.
    { unfold compute_error_L2, for_loop. simpl md_mesh. simpl Cell2Ds_number. cbn [for_from negb md_active2 ex_m bind ex_create].
      unfold error_L2_cell at 1. cbn [bind ls_Values ex_space exact_values ls_InternalQuadrature ex_quad q_Points q_Weights].
      rewrite function_evaluation_ok by (right; simpl; lia). cbn [bind]. rewrite E0. cbn [bind]. unfold mmulv. rewrite S0. cbn [m_cols ex_row Nat.eqb bind].
      unfold vsub. cbn [v_size m_rows m_cols column3 Nat.eqb bind]. unfold vdot. cbn [v_size vsquare Nat.eqb bind]. unfold set_cell at 1. cbn [repeat].
      unfold set_idx. cbn [length Nat.ltb Nat.leb bind replace firstn skipn app].
      unfold error_L2_cell. cbn [bind ls_Values ex_space exact_values ls_InternalQuadrature ex_quad q_Points q_Weights].
      rewrite function_evaluation_ok by (right; simpl; lia). cbn [bind]. rewrite E1. cbn [bind]. unfold mmulv. rewrite S1. cbn [m_cols ex_row Nat.eqb bind].
      unfold vsub. cbn [v_size m_rows m_cols column3 Nat.eqb bind]. unfold vdot. cbn [v_size vsquare Nat.eqb bind]. unfold set_cell at 1.
      reflexivity. }
    split; [exact X|]. revert X. apply (C74_reproduced_L2 ex_m ex_info ex_data ex_create f uD uS (dof_value ex_m ex_pt (fun c _ => at_point f (ex_coords (nth c [0; 2] 0))) f)).
    + intros c Hc. destruct (H c Hc) as (u & Eu & Su & Hu). exists u. split; [auto|]. split; [auto|]. intros p h Hh. apply Hu; auto.
    + intros c sp V Hc _ Hs HV'. inversion Hs; subst sp. inversion HV'; subst V. simpl in Hc. split.
      * destruct c as [|[|c]]; try lia; reflexivity.
      * intros u q Hu Hq. unfold combine. simpl. destruct c as [|[|c]]; try lia.
        -- rewrite (Hu 0 (entity_dof 0 0 0) eq_refl). unfold dof_value, at_point. simpl. ring.
        -- rewrite (Hu 0 (entity_dof 0 2 0) eq_refl). unfold dof_value, at_point. simpl. ring.
Qed.

(** the hypotheses of C25 on a report of that example *)
Example C25_case : forall f uD uS r, compute_error_L2 ex_m ex_data ex_create uD uS (Some f) = Ok r ->
  (pe_numeric r <= pe_exact r + pe_error r)%R.
Proof.
  intros f uD uS r E. apply (C25_triangle _ _ _ (C25_L2_report _ _ _ _ _ _ _ E)).
  intros c w a b _ (_ & _ & sp & V & u & q & Ec & _ & _ & Hq & T). inversion Ec; subst sp. inversion T; subst. simpl. lra.
Qed.
Print Assumptions C25_L2_report.
Print Assumptions C25_H1_report.
Print Assumptions C25_squares.
Print Assumptions C25_triangle.
Print Assumptions C25_zero.
Print Assumptions C25_zero_only.
Print Assumptions C26_strong_values.
Print Assumptions C26_cells.
Print Assumptions C74_interpolation.
Print Assumptions C74_reproduced_L2.
Print Assumptions C74_reproduced_H1.
