(** Proofs of C49, C50. *)
From Coq Require Import List Arith Bool Lia Reals Lra.
From Verif Require Import Base RSum MatrixModel LagrangeModel LagrangeProofs VemQuadModel VemQuadSpec VemQuadProofs.
Import ListNotations.
Local Open Scope R_scope.

Lemma following_mod n i : (i < n)%nat -> ((i + 1) mod n = following n i)%nat.
Proof.
  intros H. unfold following. destruct (Nat.eqb_spec i (n - 1)).
  - replace (i + 1)%nat with n by lia. apply Nat.mod_same. lia.
  - rewrite Nat.mod_small by lia. lia.
Qed.
Lemma following_lt n i : (i < n)%nat -> (following n i < n)%nat.
Proof. intros H. unfold following. destruct (Nat.eqb_spec i (n - 1)); lia. Qed.

Lemma tri_det_area T : Rabs (tri_det T) = 2 * area T.
Proof. unfold area, signed_area, tri_det, cross. unfold Rdiv. rewrite Rabs_mult, (Rabs_right (/ 2)) by lra. field. Qed.

Lemma tri_point_in T P d q : (d < 2)%nat -> tri_point T P d q = in_triangle T (m_at P 0 q) (m_at P 1 q) d.
Proof. intros H. unfold tri_point, in_triangle. destruct d as [|[|]]; [| |lia]; cbn [rsum mapTriangle_B]; ring. Qed.

Lemma C49_internal_all data tris f : rule data -> triangles tris ->
  exists r, PolygonInternalQuadrature data tris = Ok r /\ rule r /\ m_cols (q_Points r) = (m_cols (q_Points data) * length tris)%nat /\
    apply_rule (q_Weights r) (fun j => f (m_at (q_Points r) 0 j) (m_at (q_Points r) 1 j)) =
    lsum (fun T => 2 * area T * apply_rule (q_Weights data) (fun q =>
        f (in_triangle T (m_at (q_Points data) 0 q) (m_at (q_Points data) 1 q) 0)
          (in_triangle T (m_at (q_Points data) 0 q) (m_at (q_Points data) 1 q) 1))) tris.
Proof.
  intros (HP & HW) HT. destruct (internal_ok data tris HP HW HT) as (r & E & R1 & R2 & R3 & R4).
  exists r. split; auto. split; [split; congruence|]. split; auto.
  unfold apply_rule. rewrite R3, rsum_blocks, (lsum_nth (mzero 0 0)). apply rsum_ext. intros t Ht. rewrite HW.
  rewrite <- rsum_scal. apply rsum_ext. intros q Hq.
  destruct (R4 t q (nth t tris (mzero 0 0))) as (A & B); auto. { now apply nth_error_nth'. }
  rewrite B, !A by lia. rewrite tri_det_area, !tri_point_in by lia. ring.
Qed.

Section Sums.
Variables (ref_points : Mat) (ref_weights : Vec) (ext : R * R) (vertices : Mat).
Let nv := m_cols vertices.
Let m := m_cols ref_points.

Lemma vinv_sum c W f : vinv ref_points ref_weights ext vertices nv nv nv c W ->
  apply_rule W f = rsum nv (fun i => c i * (fst ext * f i + snd ext * f (following nv i) + rsum m (fun q => v_at ref_weights q * f (nv + m * i + q)%nat))).
Proof.
  intros (V1 & V2 & V3). unfold apply_rule. rewrite V1. fold nv m. rewrite rsum_add, rsum_blocks.
  rewrite (rsum_ext nv (fun i => v_at W i * f i) (fun j => rsum nv (fun i => share ext nv i j * c i * f j))).
  2:{ intros j Hj. rewrite V2 by auto. now rewrite <- rsum_scal_r. }
  rewrite rsum_swap.
  assert (E : forall i, (i < nv)%nat -> rsum nv (fun j => share ext nv i j * c i * f j) = c i * (fst ext * f i + snd ext * f (following nv i))).
  { intros i Hi. unfold share.
    rewrite (rsum_ext nv _ (fun j => (if (i =? j)%nat then c i * (fst ext * f j) else 0) + (if ((i + 1) mod nv =? j)%nat then c i * (snd ext * f j) else 0))).
    2:{ intros j _. destruct (i =? j)%nat, ((i + 1) mod nv =? j)%nat; ring. }
    rewrite rsum_plus. rewrite (following_mod nv i Hi).
    rewrite (rsum_ext nv (fun j => if (i =? j)%nat then _ else 0) (fun j => if (j =? i)%nat then c i * (fst ext * f j) else 0)) by (intros j _; now rewrite Nat.eqb_sym).
    rewrite (rsum_ext nv (fun j => if (following nv i =? j)%nat then _ else 0) (fun j => if (j =? following nv i)%nat then c i * (snd ext * f j) else 0)) by (intros j _; now rewrite Nat.eqb_sym).
    rewrite (rsum_indicator nv i (fun j => c i * (fst ext * f j)) Hi).
    rewrite (rsum_indicator nv (following nv i) (fun j => c i * (snd ext * f j)) (following_lt nv i Hi)). ring. }
  rewrite (rsum_ext _ _ _ E), <- rsum_plus. apply rsum_ext. intros i Hi.
  rewrite (rsum_ext m _ (fun q => c i * (v_at ref_weights q * f (nv + m * i + q)%nat))), rsum_scal; [ring|].
  intros q Hq. rewrite Nat.add_assoc, V3 by auto. ring.
Qed.

Lemma vinv_sum0 c W f : vinv ref_points ref_weights ext vertices 0 nv nv c W ->
  apply_rule W f = rsum nv (fun i => c i * rsum m (fun q => v_at ref_weights q * f (m * i + q)%nat)).
Proof.
  intros (V1 & V2 & V3). unfold apply_rule. rewrite V1. fold nv m. cbn [Nat.add]. rewrite rsum_blocks.
  apply rsum_ext. intros i Hi. rewrite <- rsum_scal. apply rsum_ext. intros q Hq.
  change (m * i + q)%nat with (0 + m * i + q)%nat. rewrite V3 by auto. ring.
Qed.

Lemma vinv_vertex c W j : (0 < nv)%nat -> (j < nv)%nat -> vinv ref_points ref_weights ext vertices nv nv nv c W ->
  v_at W j = fst ext * c j + snd ext * c (preceding nv j).
Proof.
  intros Hn Hj (V1 & V2 & V3). rewrite V2 by auto. unfold share. fold nv.
  rewrite (rsum_ext nv _ (fun i => (if (i =? j)%nat then fst ext * c i else 0) + (if (i =? preceding nv j)%nat then snd ext * c i else 0))).
  - rewrite rsum_plus. rewrite (rsum_indicator nv j (fun i => fst ext * c i) Hj).
    rewrite (rsum_indicator nv (preceding nv j) (fun i => snd ext * c i)); [ring|]. unfold preceding. destruct (Nat.eqb_spec j 0); lia.
  - intros i Hi. rewrite (following_mod nv i Hi). destruct (Nat.eqb_spec i j); subst.
    + destruct (Nat.eqb_spec (following nv j) j), (Nat.eqb_spec j (preceding nv j)); try ring; exfalso; unfold following, preceding in *;
        destruct (Nat.eqb_spec j (nv - 1)), (Nat.eqb_spec j 0); lia.
    + destruct (Nat.eqb_spec (following nv i) j), (Nat.eqb_spec i (preceding nv j)); try ring; exfalso; unfold following, preceding in *;
        destruct (Nat.eqb_spec i (nv - 1)), (Nat.eqb_spec j 0); lia.
Qed.
End Sums.

Lemma edge_point_along ref_points vertices dirs tangents i q d : tangents_ok vertices tangents -> (i < m_cols vertices)%nat -> (d < 3)%nat ->
  edge_point ref_points vertices dirs tangents i q d = along vertices (edge_first vertices dirs i) (edge_last vertices dirs i) (m_at ref_points 0 q) d.
Proof.
  intros Ht Hi Hd. unfold edge_point, along, edge_start, edge_sign, edge_first, edge_last. rewrite (Ht i d Hi Hd), (following_mod _ _ Hi).
  destruct (nth i dirs true); ring.
Qed.

Lemma inputs_of ref_points ref_weights vertices lengths dirs tangents normals : segment_rule ref_points ref_weights ->
  edge_data vertices lengths dirs tangents normals -> edge_inputs ref_points ref_weights vertices lengths dirs tangents normals.
Proof. intros (A & B) [C D E (F & G) (H & I)]. repeat split; auto. Qed.

Lemma apply_1 w : apply_rule w (fun _ => 1) = rsum (v_size w) (v_at w).
Proof. unfold apply_rule. apply rsum_ext. intros; ring. Qed.

(** everything the Lobatto quadrature of the edges returns *)
Lemma lobatto_full junk ref_points ref_weights ext vertices lengths dirs tangents normals :
  segment_rule ref_points ref_weights -> edge_data vertices lengths dirs tangents normals -> tangents_ok vertices tangents ->
  let nv := m_cols vertices in let m := m_cols ref_points in
  exists r, PolygonEdgesLobattoQuadrature junk ref_points ref_weights ext vertices lengths dirs tangents normals = Ok r /\
    rule (eq_Quadrature r) /\ m_cols (q_Points (eq_Quadrature r)) = (nv + m * nv)%nat /\
    length (eq_WeightsTimesNormal r) = 2%nat /\ (forall d, (d < 2)%nat -> v_size (normal_weights r d) = (nv + m * nv)%nat) /\
    (forall j d, (j < nv)%nat -> (d < 3)%nat -> m_at (q_Points (eq_Quadrature r)) d j = m_at vertices d j) /\
    (forall i q d, (i < nv)%nat -> (q < m)%nat -> (d < 3)%nat -> m_at (q_Points (eq_Quadrature r)) d (nv + m * i + q) =
        along vertices (edge_first vertices dirs i) (edge_last vertices dirs i) (m_at ref_points 0 q) d) /\
    (forall j, (j < nv)%nat -> v_at (q_Weights (eq_Quadrature r)) j = fst ext * Rabs (v_at lengths j) + snd ext * Rabs (v_at lengths (preceding nv j))) /\
    (forall f, apply_rule (q_Weights (eq_Quadrature r)) f = rsum nv (fun i => Rabs (v_at lengths i) *
        (fst ext * f i + snd ext * f (following nv i) + rsum m (fun q => v_at ref_weights q * f (nv + m * i + q)%nat)))) /\
    (forall d f, (d < 2)%nat -> apply_rule (normal_weights r d) f = rsum nv (fun i => m_at normals d i * Rabs (v_at lengths i) *
        (fst ext * f i + snd ext * f (following nv i) + rsum m (fun q => v_at ref_weights q * f (nv + m * i + q)%nat)))).
Proof.
  intros Hr He Ht nv m. destruct (lobatto_ok junk ref_points ref_weights ext vertices lengths dirs tangents normals (inputs_of _ _ _ _ _ _ _ Hr He))
    as (r & E & (P1 & P2 & P3 & P4) & RW & x & y & EN & RX & RY). exists r. split; auto.
  assert (SW := proj1 RW). split; [split; auto; rewrite P2; exact SW|]. split; [exact P2|].
  split; [rewrite EN; reflexivity|]. unfold normal_weights. rewrite EN. split.
  { intros d Hd. destruct d as [|[|]]; [apply RX|apply RY|lia]. }
  split; [intros; apply P3; auto|]. split; [intros i q d Hi Hq Hd; rewrite <- (edge_point_along ref_points vertices dirs tangents) by auto; apply P4; auto|].
  split; [intros j Hj; refine (vinv_vertex _ _ _ _ _ _ j _ Hj RW); fold nv; lia|].
  split; [intros f; apply (vinv_sum _ _ _ _ _ _ f RW)|].
  intros d f Hd. destruct d as [|[|]]; [apply (vinv_sum _ _ _ _ _ _ f RX)|apply (vinv_sum _ _ _ _ _ _ f RY)|lia].
Qed.

Lemma edges_full junk data vertices lengths dirs tangents normals : rule data ->
  edge_data vertices lengths dirs tangents normals -> tangents_ok vertices tangents ->
  let nv := m_cols vertices in let m := m_cols (q_Points data) in
  exists r, PolygonEdgesQuadrature junk data vertices lengths dirs tangents normals = Ok r /\
    rule (eq_Quadrature r) /\ m_cols (q_Points (eq_Quadrature r)) = (m * nv)%nat /\
    length (eq_WeightsTimesNormal r) = 2%nat /\ (forall d, (d < 2)%nat -> v_size (normal_weights r d) = (m * nv)%nat) /\
    (forall i q d, (i < nv)%nat -> (q < m)%nat -> (d < 3)%nat -> m_at (q_Points (eq_Quadrature r)) d (m * i + q) =
        along vertices (edge_first vertices dirs i) (edge_last vertices dirs i) (m_at (q_Points data) 0 q) d) /\
    (forall f, apply_rule (q_Weights (eq_Quadrature r)) f = rsum nv (fun i => Rabs (v_at lengths i) *
        rsum m (fun q => v_at (q_Weights data) q * f (m * i + q)%nat))) /\
    (forall d f, (d < 2)%nat -> apply_rule (normal_weights r d) f = rsum nv (fun i => m_at normals d i * Rabs (v_at lengths i) *
        rsum m (fun q => v_at (q_Weights data) q * f (m * i + q)%nat))).
Proof.
  intros (R1 & R2) He Ht nv m.
  assert (Hr : segment_rule (q_Points data) (q_Weights data)) by (split; auto; rewrite R1; lia).
  destruct (edges_ok junk data vertices lengths dirs tangents normals (inputs_of _ _ _ _ _ _ _ Hr He))
    as (r & E & (P1 & P2 & P3 & P4) & RW & x & y & EN & RX & RY). exists r. split; auto.
  assert (SW := proj1 RW). split; [split; auto; rewrite P2; exact SW|]. split; [exact P2|].
  split; [rewrite EN; reflexivity|]. unfold normal_weights. rewrite EN. split.
  { intros d Hd. destruct d as [|[|]]; [apply RX|apply RY|lia]. }
  split; [intros i q d Hi Hq Hd; rewrite <- (edge_point_along (q_Points data) vertices dirs tangents) by auto; apply (P4 i q d); auto|].
  split; [intros f; apply (vinv_sum0 _ _ _ _ _ _ f RW)|].
  intros d f Hd. destruct d as [|[|]]; [apply (vinv_sum0 _ _ _ _ _ _ f RX)|apply (vinv_sum0 _ _ _ _ _ _ f RY)|lia].
Qed.

Lemma C49_lobatto_all : forall junk ref_points ref_weights ext vertices lengths dirs tangents normals,
  segment_rule ref_points ref_weights -> edge_data vertices lengths dirs tangents normals -> tangents_ok vertices tangents ->
  fst ext + snd ext + rsum (v_size ref_weights) (v_at ref_weights) = 1 ->
  exists r, PolygonEdgesLobattoQuadrature junk ref_points ref_weights ext vertices lengths dirs tangents normals = Ok r /\
    apply_rule (q_Weights (eq_Quadrature r)) (fun _ => 1) = rsum (m_cols vertices) (fun i => Rabs (v_at lengths i)) /\
    (forall d, (d < 2)%nat -> apply_rule (normal_weights r d) (fun _ => 1) = rsum (m_cols vertices) (fun i => m_at normals d i * Rabs (v_at lengths i))).
Proof.
  intros junk rp rw ext V l dirs t n Hr He Ht Hs.
  destruct (lobatto_full junk rp rw ext V l dirs t n Hr He Ht) as (r & E & _ & _ & _ & _ & _ & _ & _ & A & B).
  exists r. split; auto. rewrite (proj1 Hr) in Hs.
  assert (S1 : rsum (m_cols rp) (fun q => v_at rw q * 1) = rsum (m_cols rp) (v_at rw)) by (apply rsum_ext; intros; ring).
  split; [rewrite A|intros d Hd; rewrite B by auto]; apply rsum_ext; intros i _; rewrite S1;
    replace (fst ext * 1 + snd ext * 1 + rsum (m_cols rp) (v_at rw)) with 1 by lra; ring.
Qed.

Lemma C49_edges_all : forall junk data vertices lengths dirs tangents normals, rule data ->
  edge_data vertices lengths dirs tangents normals -> tangents_ok vertices tangents ->
  apply_rule (q_Weights data) (fun _ => 1) = 1 ->
  exists r, PolygonEdgesQuadrature junk data vertices lengths dirs tangents normals = Ok r /\
    apply_rule (q_Weights (eq_Quadrature r)) (fun _ => 1) = rsum (m_cols vertices) (fun i => Rabs (v_at lengths i)) /\
    (forall d, (d < 2)%nat -> apply_rule (normal_weights r d) (fun _ => 1) = rsum (m_cols vertices) (fun i => m_at normals d i * Rabs (v_at lengths i))).
Proof.
  intros junk q V l dirs t n Hr He Ht Hs.
  destruct (edges_full junk q V l dirs t n Hr He Ht) as (r & E & _ & _ & _ & _ & _ & A & B).
  exists r. split; auto. unfold apply_rule at 1 in Hs. rewrite (proj2 Hr) in Hs.
  split; [rewrite A|intros d Hd; rewrite B by auto]; apply rsum_ext; intros i _; rewrite Hs; ring.
Qed.
