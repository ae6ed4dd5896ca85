(** Properties C49, C50, C68: quadratures of polygons. *)
From Coq Require Import List Arith Bool Lia Reals Lra Permutation.
From Verif Require Import Base RSum MatrixModel VemQuadModel VemQuadSpec VemQuadProofs VemQuadProofs2 GreenSpec GreenProofs.
Import ListNotations.
Local Open Scope R_scope.

(** C49: the internal rule is the sum over the triangles of the mapped reference rule *)
Theorem C49_internal_rule : forall data tris f, rule data -> triangles tris ->
  exists r, PolygonInternalQuadrature data tris = Ok r /\ rule r /\ m_cols (q_Points r) = (m_cols (q_Points data) * length tris)%nat /\
    apply_rule (q_Weights r) (fun j => f (m_at (q_Points r) 0 j) (m_at (q_Points r) 1 j)) =
    lsum (fun T => 2 * area T * apply_rule (q_Weights data) (fun q =>
        f (in_triangle T (m_at (q_Points data) 0 q) (m_at (q_Points data) 1 q) 0)
          (in_triangle T (m_at (q_Points data) 0 q) (m_at (q_Points data) 1 q) 1))) tris.
Proof. exact C49_internal_all. Qed.

(** C49: its weights sum to the area of the polygon, the sum of the areas of the triangles and the shoelace sum *)
Theorem C49_internal_area : forall data tris vertices, rule data -> apply_rule (q_Weights data) (fun _ => 1) = 1 / 2 -> triangulates tris vertices ->
  exists r, PolygonInternalQuadrature data tris = Ok r /\
    apply_rule (q_Weights r) (fun _ => 1) = lsum area tris /\
    apply_rule (q_Weights r) (fun _ => 1) = shoelace vertices.
Proof. exact C49_area_all. Qed.

Theorem C49_lobatto_perimeter : forall junk ref_points ref_weights ext vertices lengths dirs tangents normals,
  segment_rule ref_points ref_weights -> edge_data vertices lengths dirs tangents normals -> tangents_ok vertices tangents ->
  fst ext + snd ext + rsum (v_size ref_weights) (v_at ref_weights) = 1 ->
  exists r, PolygonEdgesLobattoQuadrature junk ref_points ref_weights ext vertices lengths dirs tangents normals = Ok r /\
    apply_rule (q_Weights (eq_Quadrature r)) (fun _ => 1) = rsum (m_cols vertices) (fun i => Rabs (v_at lengths i)) /\
    (forall d, (d < 2)%nat -> apply_rule (normal_weights r d) (fun _ => 1) = rsum (m_cols vertices) (fun i => m_at normals d i * Rabs (v_at lengths i))).
Proof. exact C49_lobatto_all. Qed.

Theorem C49_edges_perimeter : forall junk data vertices lengths dirs tangents normals, rule data ->
  edge_data vertices lengths dirs tangents normals -> tangents_ok vertices tangents ->
  apply_rule (q_Weights data) (fun _ => 1) = 1 ->
  exists r, PolygonEdgesQuadrature junk data vertices lengths dirs tangents normals = Ok r /\
    apply_rule (q_Weights (eq_Quadrature r)) (fun _ => 1) = rsum (m_cols vertices) (fun i => Rabs (v_at lengths i)) /\
    (forall d, (d < 2)%nat -> apply_rule (normal_weights r d) (fun _ => 1) = rsum (m_cols vertices) (fun i => m_at normals d i * Rabs (v_at lengths i))).
Proof. exact C49_edges_all. Qed.

(** C50: the vertices come first, each with the end weights of its two edges; then the points of the edges *)
Theorem C50_lobatto_points : forall junk ref_points ref_weights ext vertices lengths dirs tangents normals,
  segment_rule ref_points ref_weights -> edge_data vertices lengths dirs tangents normals -> tangents_ok vertices tangents ->
  let nv := m_cols vertices in let m := m_cols ref_points in
  exists r, PolygonEdgesLobattoQuadrature junk ref_points ref_weights ext vertices lengths dirs tangents normals = Ok r /\
    rule (eq_Quadrature r) /\ m_cols (q_Points (eq_Quadrature r)) = (nv + m * nv)%nat /\
    (forall j d, (j < nv)%nat -> (d < 3)%nat -> m_at (q_Points (eq_Quadrature r)) d j = m_at vertices d j) /\
    (forall j, (j < nv)%nat -> v_at (q_Weights (eq_Quadrature r)) j = fst ext * Rabs (v_at lengths j) + snd ext * Rabs (v_at lengths (preceding nv j))) /\
    (forall i q d, (i < nv)%nat -> (q < m)%nat -> (d < 3)%nat -> m_at (q_Points (eq_Quadrature r)) d (nv + m * i + q) =
        along vertices (edge_first vertices dirs i) (edge_last vertices dirs i) (m_at ref_points 0 q) d).
Proof. exact C50_lobatto_all. Qed.

Theorem C50_edges_points : forall junk data vertices lengths dirs tangents normals, rule data ->
  edge_data vertices lengths dirs tangents normals -> tangents_ok vertices tangents ->
  let nv := m_cols vertices in let m := m_cols (q_Points data) in
  exists r, PolygonEdgesQuadrature junk data vertices lengths dirs tangents normals = Ok r /\
    rule (eq_Quadrature r) /\ m_cols (q_Points (eq_Quadrature r)) = (m * nv)%nat /\
    (forall i q d, (i < nv)%nat -> (q < m)%nat -> (d < 3)%nat -> m_at (q_Points (eq_Quadrature r)) d (m * i + q) =
        along vertices (edge_first vertices dirs i) (edge_last vertices dirs i) (m_at (q_Points data) 0 q) d).
Proof. exact C50_edges_all. Qed.

(** C50: two polygons with the same edge (same ends for the orientation of the edge) have the same points on it *)
Theorem C50_shared_edge : forall junk junk' ref_points ref_weights ext vertices lengths dirs tangents normals vertices' lengths' dirs' tangents' normals' i i' r r',
  segment_rule ref_points ref_weights ->
  edge_data vertices lengths dirs tangents normals -> tangents_ok vertices tangents ->
  edge_data vertices' lengths' dirs' tangents' normals' -> tangents_ok vertices' tangents' ->
  (i < m_cols vertices)%nat -> (i' < m_cols vertices')%nat ->
  (forall d, (d < 3)%nat -> m_at vertices d (edge_first vertices dirs i) = m_at vertices' d (edge_first vertices' dirs' i') /\
                            m_at vertices d (edge_last vertices dirs i) = m_at vertices' d (edge_last vertices' dirs' i')) ->
  PolygonEdgesLobattoQuadrature junk ref_points ref_weights ext vertices lengths dirs tangents normals = Ok r ->
  PolygonEdgesLobattoQuadrature junk' ref_points ref_weights ext vertices' lengths' dirs' tangents' normals' = Ok r' ->
  let m := m_cols ref_points in
  forall q d, (q < m)%nat -> (d < 3)%nat ->
    m_at (q_Points (eq_Quadrature r)) d (m_cols vertices + m * i + q) = m_at (q_Points (eq_Quadrature r')) d (m_cols vertices' + m * i' + q).
Proof. exact C50_shared_all. Qed.

(** C68: the divergence theorem holds exactly between the internal and the boundary quadrature *)
Theorem C68_divergence_lobatto : forall n junk ext points weights data tris vertices lengths dirs tangents normals,
  segment_rule points weights -> exact_segment n ext points weights -> fst ext = snd ext ->
  rule data -> exact_triangle (n - 1) data ->
  edge_data vertices lengths dirs tangents normals -> tangents_ok vertices tangents -> normals_ok vertices lengths normals ->
  triangulates tris vertices ->
  exists I B, PolygonInternalQuadrature data tris = Ok I /\
    PolygonEdgesLobattoQuadrature junk points weights ext vertices lengths dirs tangents normals = Ok B /\
    forall F Fx Fy, poly2 n F Fx Fy ->
      apply_rule (q_Weights I) (fun j => Fx (m_at (q_Points I) 0 j) (m_at (q_Points I) 1 j)) =
      apply_rule (normal_weights B 0) (fun j => F (m_at (q_Points (eq_Quadrature B)) 0 j) (m_at (q_Points (eq_Quadrature B)) 1 j)) /\
      apply_rule (q_Weights I) (fun j => Fy (m_at (q_Points I) 0 j) (m_at (q_Points I) 1 j)) =
      apply_rule (normal_weights B 1) (fun j => F (m_at (q_Points (eq_Quadrature B)) 0 j) (m_at (q_Points (eq_Quadrature B)) 1 j)).
Proof. exact C68_lobatto_all. Qed.

Theorem C68_divergence_edges : forall n junk edge data tris vertices lengths dirs tangents normals,
  rule edge -> exact_segment n (0, 0) (q_Points edge) (q_Weights edge) ->
  rule data -> exact_triangle (n - 1) data ->
  edge_data vertices lengths dirs tangents normals -> tangents_ok vertices tangents -> normals_ok vertices lengths normals ->
  triangulates tris vertices ->
  exists I B, PolygonInternalQuadrature data tris = Ok I /\
    PolygonEdgesQuadrature junk edge vertices lengths dirs tangents normals = Ok B /\
    forall F Fx Fy, poly2 n F Fx Fy ->
      apply_rule (q_Weights I) (fun j => Fx (m_at (q_Points I) 0 j) (m_at (q_Points I) 1 j)) =
      apply_rule (normal_weights B 0) (fun j => F (m_at (q_Points (eq_Quadrature B)) 0 j) (m_at (q_Points (eq_Quadrature B)) 1 j)) /\
      apply_rule (q_Weights I) (fun j => Fy (m_at (q_Points I) 0 j) (m_at (q_Points I) 1 j)) =
      apply_rule (normal_weights B 1) (fun j => F (m_at (q_Points (eq_Quadrature B)) 0 j) (m_at (q_Points (eq_Quadrature B)) 1 j)).
Proof. exact C68_edges_all. Qed.
(** the vocabulary of C68: the second and third functions of [poly2] are the partial derivatives of the first *)
Theorem C68_vocabulary : forall n f fx fy x y, poly2 n f fx fy ->
  derivable_pt_lim (fun t => f t y) x (fx x y) /\ derivable_pt_lim (fun t => f x t) y (fy x y).
Proof. exact poly2_partials. Qed.

(** ** Examples: the trapezium (0,0), (6,0), (3,4), (0,4), the midpoint rule of degree 2, Simpson's rule *)
Definition trap_vertices : Mat := {| m_rows := 3; m_cols := 4; m_at := fun d j =>
  match d, j with 0%nat, 1%nat => 6 | 0%nat, 2%nat => 3 | 1%nat, 2%nat => 4 | 1%nat, 3%nat => 4 | _, _ => 0 end |}.
Definition trap_lengths : Vec := {| v_size := 4; v_at := fun j => match j with 0%nat => 6 | 1%nat => 5 | 2%nat => 3 | _ => 4 end |}.
Definition trap_dirs : list bool := [true; false; true; false].
Definition trap_tangents : Mat := {| m_rows := 3; m_cols := 4; m_at := fun d j =>
  match d, j with 0%nat, 0%nat => 6 | 0%nat, 1%nat => -3 | 1%nat, 1%nat => 4 | 0%nat, 2%nat => -3 | 1%nat, 3%nat => -4 | _, _ => 0 end |}.
Definition trap_normals : Mat := {| m_rows := 3; m_cols := 4; m_at := fun d j =>
  match d, j with 1%nat, 0%nat => -1 | 0%nat, 1%nat => 4/5 | 1%nat, 1%nat => 3/5 | 1%nat, 2%nat => 1 | 0%nat, 3%nat => -1 | _, _ => 0 end |}.
Definition trap_triangle (a b c : nat) : Mat := {| m_rows := 3; m_cols := 3; m_at := fun d j =>
  m_at trap_vertices d (match j with 0%nat => a | 1%nat => b | _ => c end) |}.
Definition trap_tris : list Mat := [trap_triangle 0 1 2; trap_triangle 0 2 3].
Definition midpoint_rule : QuadratureData := {|
  q_Points := {| m_rows := 3; m_cols := 3; m_at := fun d j => match d, j with 0%nat, 0%nat => 1/2 | 0%nat, 1%nat => 1/2 | 1%nat, 1%nat => 1/2 | 1%nat, 2%nat => 1/2 | _, _ => 0 end |};
  q_Weights := {| v_size := 3; v_at := fun _ => 1/6 |} |}.
Definition simpson_points : Mat := {| m_rows := 3; m_cols := 1; m_at := fun d _ => match d with 0%nat => 1/2 | _ => 0 end |}.
Definition simpson_weights : Vec := {| v_size := 1; v_at := fun _ => 2/3 |}.
(** a rule inside the edge, exact for degree 1 *)
Definition middle_rule : QuadratureData := {| q_Points := simpson_points; q_Weights := {| v_size := 1; v_at := fun _ => 1 |} |}.

Ltac four i := destruct i as [|[|[|[|i]]]]; try lia.
Example trap_edge_data : edge_data trap_vertices trap_lengths trap_dirs trap_tangents trap_normals.
Proof. constructor; cbn; repeat split; lia. Qed.
Example trap_tangents_ok : tangents_ok trap_vertices trap_tangents.
Proof. intros i d Hi Hd. cbn in Hi. four i; (destruct d as [|[|[|d]]]; [| | |lia]); cbn; lra. Qed.
Example trap_normals_ok : normals_ok trap_vertices trap_lengths trap_normals.
Proof. intros i Hi. cbn in Hi. four i; cbn; rewrite Rabs_right by lra; lra. Qed.
Example trap_triangulates : triangulates trap_tris trap_vertices.
Proof.
  split; [repeat constructor|]. split. { repeat constructor; unfold signed_area, cross; cbn; lra. }
  exists [(col2 trap_vertices 2, col2 trap_vertices 0)].
  unfold polygon_sides, trap_tris, sides, col2. cbn.
  set (a := (0, 0)). set (b := (6, 0)). set (c := (3, 4)). set (d := (0, 4)). unfold reverse_side. cbn [fst snd].
  apply perm_skip, perm_skip.
  apply perm_trans with [(c, a); (c, d); (a, c); (d, a)]; [apply perm_skip, perm_swap|].
  apply perm_trans with [(c, d); (c, a); (a, c); (d, a)]; [apply perm_swap|]. apply perm_skip.
  apply (Permutation_app_comm [(c, a); (a, c)] [(d, a)]).
Qed.
Example midpoint_exact : rule midpoint_rule /\ exact_triangle 2 midpoint_rule.
Proof.
  split; [split; reflexivity|]. intros a b H. destruct a as [|[|[|a]]]; try lia; destruct b as [|[|[|b]]]; try lia; unfold apply_rule; cbn; field.
Qed.
Example simpson_exact : segment_rule simpson_points simpson_weights /\ exact_segment 3 (1/6, 1/6) simpson_points simpson_weights.
Proof. split; [split; cbn; lia|]. intros a H. four a; unfold apply_rule; cbn; field. Qed.
Example middle_exact : rule middle_rule /\ exact_segment 1 (0, 0) (q_Points middle_rule) (q_Weights middle_rule).
Proof. split; [split; reflexivity|]. intros a H. destruct a as [|[|a]]; try lia; unfold apply_rule; cbn; field. Qed.

Example C49_case : exists r, PolygonInternalQuadrature midpoint_rule trap_tris = Ok r /\ apply_rule (q_Weights r) (fun _ => 1) = 18.
Proof.
  destruct (C49_internal_area midpoint_rule trap_tris trap_vertices (proj1 midpoint_exact) ltac:(unfold apply_rule; cbn; field) trap_triangulates) as (r & E & _ & A).
  exists r. split; auto. rewrite A. unfold shoelace. cbn. field.
Qed.
Example C49_perimeter_case : forall junk, exists r, PolygonEdgesLobattoQuadrature junk simpson_points simpson_weights (1/6, 1/6) trap_vertices trap_lengths trap_dirs trap_tangents trap_normals = Ok r /\
  apply_rule (q_Weights (eq_Quadrature r)) (fun _ => 1) = 18 /\ apply_rule (normal_weights r 0) (fun _ => 1) = 0.
Proof.
  intros junk. destruct (C49_lobatto_perimeter junk simpson_points simpson_weights (1/6, 1/6) trap_vertices trap_lengths trap_dirs trap_tangents trap_normals
    (proj1 simpson_exact) trap_edge_data trap_tangents_ok ltac:(cbn; field)) as (r & E & A & B).
  exists r. split; auto. rewrite A, B by lia. cbn. rewrite !Rabs_right by lra. split; field.
Qed.
(** edge 1 goes from (3,4) to (6,0) for its own orientation: its middle point is the second of the edge points *)
Example C50_case : forall junk, exists r, PolygonEdgesLobattoQuadrature junk simpson_points simpson_weights (1/6, 1/6) trap_vertices trap_lengths trap_dirs trap_tangents trap_normals = Ok r /\
  m_at (q_Points (eq_Quadrature r)) 0 5 = 9/2 /\ m_at (q_Points (eq_Quadrature r)) 1 5 = 2 /\ v_at (q_Weights (eq_Quadrature r)) 0 = 10/6.
Proof.
  intros junk. destruct (C50_lobatto_points junk simpson_points simpson_weights (1/6, 1/6) trap_vertices trap_lengths trap_dirs trap_tangents trap_normals
    (proj1 simpson_exact) trap_edge_data trap_tangents_ok) as (r & E & _ & _ & _ & W & P).
  exists r. split; auto. change 5%nat with (m_cols trap_vertices + m_cols simpson_points * 1 + 0)%nat. rewrite (P 1%nat 0%nat 0%nat), (P 1%nat 0%nat 1%nat), (W 0%nat) by (cbn; lia).
  unfold along. cbn. rewrite !Rabs_right by lra. repeat split; field.
Qed.
Example C50_edges_case : forall junk, exists r, PolygonEdgesQuadrature junk middle_rule trap_vertices trap_lengths trap_dirs trap_tangents trap_normals = Ok r /\
  m_at (q_Points (eq_Quadrature r)) 0 1 = 9/2.
Proof.
  intros junk. destruct (C50_edges_points junk middle_rule trap_vertices trap_lengths trap_dirs trap_tangents trap_normals
    (proj1 middle_exact) trap_edge_data trap_tangents_ok) as (r & E & _ & _ & P).
  exists r. split; auto. transitivity (along trap_vertices (edge_first trap_vertices trap_dirs 1) (edge_last trap_vertices trap_dirs 1) (m_at (q_Points middle_rule) 0 0) 0); [|unfold along; cbn; field].
  exact (P 1%nat 0%nat 0%nat ltac:(cbn; lia) ltac:(cbn; lia) ltac:(lia)).
Qed.
(** a polynomial of degree three on the trapezium: the hypotheses of C68 are met *)
Example C68_case : forall junk, exists I B, PolygonInternalQuadrature midpoint_rule trap_tris = Ok I /\
  PolygonEdgesLobattoQuadrature junk simpson_points simpson_weights (1/6, 1/6) trap_vertices trap_lengths trap_dirs trap_tangents trap_normals = Ok B /\
  apply_rule (q_Weights I) (fun j => INR 2 * m_at (q_Points I) 0 j ^ 1 * m_at (q_Points I) 1 j ^ 1) =
  apply_rule (normal_weights B 0) (fun j => m_at (q_Points (eq_Quadrature B)) 0 j ^ 2 * m_at (q_Points (eq_Quadrature B)) 1 j ^ 1).
Proof.
  intros junk. destruct (C68_divergence_lobatto 3 junk (1/6, 1/6) simpson_points simpson_weights midpoint_rule trap_tris trap_vertices trap_lengths trap_dirs trap_tangents trap_normals
    (proj1 simpson_exact) (proj2 simpson_exact) eq_refl (proj1 midpoint_exact) (proj2 midpoint_exact) trap_edge_data trap_tangents_ok trap_normals_ok trap_triangulates)
    as (I & B & E1 & E2 & G). exists I, B. split; auto. split; auto. apply (G _ _ _ (poly2_mono 3 2 1 ltac:(lia))).
Qed.
Example C68_edges_case : forall junk, exists I B, PolygonInternalQuadrature midpoint_rule trap_tris = Ok I /\
  PolygonEdgesQuadrature junk middle_rule trap_vertices trap_lengths trap_dirs trap_tangents trap_normals = Ok B /\
  apply_rule (q_Weights I) (fun j => 1) = apply_rule (normal_weights B 1) (fun j => m_at (q_Points (eq_Quadrature B)) 1 j).
Proof.
  intros junk. destruct (C68_divergence_edges 1 junk middle_rule midpoint_rule trap_tris trap_vertices trap_lengths trap_dirs trap_tangents trap_normals
    (proj1 middle_exact) (proj2 middle_exact) (proj1 midpoint_exact) ltac:(intros a b H; apply (proj2 midpoint_exact); lia) trap_edge_data trap_tangents_ok trap_normals_ok trap_triangulates)
    as (I & B & E1 & E2 & G). exists I, B. split; auto. split; auto.
  destruct (G _ _ _ (poly2_affine 1 0 0 1 (le_n 1))) as (_ & K). cbv beta in K. rewrite K. unfold apply_rule. apply rsum_ext. intros; ring.
Qed.

Print Assumptions C49_internal_rule.
Print Assumptions C49_internal_area.
Print Assumptions C49_lobatto_perimeter.
Print Assumptions C49_edges_perimeter.
Print Assumptions C50_lobatto_points.
Print Assumptions C50_edges_points.
Print Assumptions C50_shared_edge.
Print Assumptions C68_divergence_lobatto.
Print Assumptions C68_divergence_edges.
Print Assumptions C68_vocabulary.
