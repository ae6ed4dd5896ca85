(** Model of VEM/Quadrature/VEM_Quadrature_2D.cpp (all the functions used for two dimensional conforming VEM). *)
From Coq Require Import List Arith Bool Reals.
From Verif Require Import Base RSum MatrixModel LagrangeModel.
Import ListNotations.
Local Open Scope R_scope.

(** ** Eigen blocks (Eigen is not in /repo) *)

(** Eigen (not in /repo): A.block(r, c, nr, nc) *)
Definition mat_block (A : Mat) (r c nr nc : nat) : outcome Mat :=
  if ((r + nr <=? m_rows A) && (c + nc <=? m_cols A))%nat
  then Ok {| m_rows := nr; m_cols := nc; m_at := fun i j => m_at A (r + i)%nat (c + j)%nat |}
  else UB.
(** Eigen (not in /repo): A.block(r, c, nr, nc) = B, the sizes of B are those of the block *)
Definition mat_set_block (A : Mat) (r c nr nc : nat) (B : Mat) : outcome Mat :=
  if ((r + nr <=? m_rows A) && (c + nc <=? m_cols A) && (m_rows B =? nr) && (m_cols B =? nc))%nat
  then Ok {| m_rows := m_rows A; m_cols := m_cols A;
             m_at := fun i j => if ((r <=? i) && (i <? r + nr) && (c <=? j) && (j <? c + nc))%nat
                                then m_at B (i - r)%nat (j - c)%nat else m_at A i j |}
  else UB.
(** Eigen (not in /repo): v.segment(a, n) *)
Definition vec_segment (v : Vec) (a n : nat) : outcome Vec :=
  if (a + n <=? v_size v)%nat then Ok {| v_size := n; v_at := fun i => v_at v (a + i)%nat |} else UB.
(** Eigen (not in /repo): v.segment(a, n) = w, w of size n *)
Definition vec_set_segment (v : Vec) (a n : nat) (w : Vec) : outcome Vec :=
  if ((a + n <=? v_size v) && (v_size w =? n))%nat
  then Ok {| v_size := v_size v; v_at := fun i => if ((a <=? i) && (i <? a + n))%nat then v_at w (i - a)%nat else v_at v i |}
  else UB.
(** Eigen (not in /repo): v(i) += x *)
Definition vec_inc (v : Vec) (i : nat) (x : R) : outcome Vec := vi <- vec_get v i ;; vec_set v i (vi + x).
(** Eigen (not in /repo): c * v *)
Definition vscal (c : R) (v : Vec) : Vec := {| v_size := v_size v; v_at := fun i => c * v_at v i |}.
(** A.col(j), a vector of size n fixed by its type (Vector3d) *)
Definition mat_col (A : Mat) (n j : nat) : outcome (nat -> R) :=
  if ((m_rows A =? n) && (j <? m_cols A))%nat then Ok (fun i => m_at A i j) else UB.

(** Gedim::Quadrature::QuadratureData (not in /repo): points as columns, weights *)
Record QuadratureData := { q_Points : Mat; q_Weights : Vec }.

(** VEM_Quadrature_2D.hpp 24-37.  The Vector2d of the end weights is a pair. *)
Record VEM_QuadratureData_2D := {
  vq_ReferenceSegmentQuadrature : QuadratureData;
  vq_ReferenceEdgeDOFsQuadrature : QuadratureData;
  vq_ReferenceTriangleQuadrature : QuadratureData;
  vq_ReferenceEdgeDOFsInternalPoints : Mat;
  vq_ReferenceEdgeDOFsInternalWeights : Vec;
  vq_ReferenceEdgeDOFsExtremaWeights : R * R }.

(** VEM_Quadrature_2D.hpp 42-46 *)
Record Edges_QuadratureData := { eq_Quadrature : QuadratureData; eq_WeightsTimesNormal : list Vec }.

(** VEM_Quadrature_2D.hpp: a QuadratureData that has not been filled *)
Definition no_quadrature : QuadratureData := {| q_Points := mzero 0 0; q_Weights := vzero 0 |}.

(** VEM_Quadrature_2D.cpp 30-57; [gauss_triangle], [lobatto]: the rules FillPointsAndWeights of gedim returns for an order.
    For order 0 the argument 2 * order - 1 wraps around: the call to gedim is not modelled ([UB]). *)
Definition Compute_PCC_2D (gauss_triangle lobatto : nat -> QuadratureData) (order : nat) : outcome VEM_QuadratureData_2D :=
  if (order =? 0)%nat then UB else
  let edge := lobatto (2 * order - 1)%nat in
  if (order =? 1)%nat then
    Ok {| vq_ReferenceSegmentQuadrature := no_quadrature; vq_ReferenceEdgeDOFsQuadrature := edge;
          vq_ReferenceTriangleQuadrature := gauss_triangle (2 * order)%nat;
          vq_ReferenceEdgeDOFsInternalPoints := mzero 0 0; vq_ReferenceEdgeDOFsInternalWeights := vzero 0;
          vq_ReferenceEdgeDOFsExtremaWeights := (1 / 2, 1 / 2) |}
  else
    let n := m_cols (q_Points edge) in
    if (n <? 2)%nat then UB else
    P <- mat_block (q_Points edge) 0 1 3 (n - 2) ;;
    W <- vec_segment (q_Weights edge) 1 (n - 2) ;;
    w0 <- vec_get (q_Weights edge) 0 ;;
    w1 <- (if (v_size (q_Weights edge) =? 0)%nat then UB else vec_get (q_Weights edge) (v_size (q_Weights edge) - 1)) ;;
    Ok {| vq_ReferenceSegmentQuadrature := no_quadrature; vq_ReferenceEdgeDOFsQuadrature := edge;
          vq_ReferenceTriangleQuadrature := gauss_triangle (2 * order)%nat;
          vq_ReferenceEdgeDOFsInternalPoints := P; vq_ReferenceEdgeDOFsInternalWeights := W;
          vq_ReferenceEdgeDOFsExtremaWeights := (w0, w1) |}.

(** Gedim::MapTriangle (not in /repo), for a matrix of vertices T: B has columns v1 - v0, v2 - v0, e3 with zeros in the
    third row of the first two; F(x) = B x + v0; DetJ(x) = det B at every point *)
Definition mapTriangle_B (T : Mat) (i k : nat) : R :=
  match i, k with
  | 0%nat, 0%nat => m_at T 0 1 - m_at T 0 0 | 0%nat, 1%nat => m_at T 0 2 - m_at T 0 0
  | 1%nat, 0%nat => m_at T 1 1 - m_at T 1 0 | 1%nat, 1%nat => m_at T 1 2 - m_at T 1 0
  | 2%nat, 2%nat => 1
  | _, _ => 0
  end.
(** Gedim::MapTriangle::F (not in /repo) *)
Definition mapTriangle_F (T : Mat) (P : Mat) : outcome Mat :=
  if ((m_rows T =? 3) && (m_cols T =? 3) && (m_rows P =? 3))%nat
  then Ok {| m_rows := 3; m_cols := m_cols P; m_at := fun i q => rsum 3 (fun k => mapTriangle_B T i k * m_at P k q) + m_at T i 0 |}
  else UB.
(** Gedim::MapTriangle::DetJ (not in /repo) *)
Definition mapTriangle_DetJ (T : Mat) (P : Mat) : Vec :=
  {| v_size := m_cols P; v_at := fun _ =>
       mapTriangle_B T 0 0 * mapTriangle_B T 1 1 - mapTriangle_B T 0 1 * mapTriangle_B T 1 0 |}.

(** 139-166 *)
Definition PolygonInternalQuadrature (data : QuadratureData) (tris : list Mat) : outcome QuadratureData :=
  let nT := length tris in
  let nq := m_cols (q_Points data) in
  let n := (nT * nq)%nat in
  for_loop nT (fun t r =>
    T <- idx_ tris t ;;
    F <- mapTriangle_F T (q_Points data) ;;
    P <- mat_set_block (q_Points r) 0 (nq * t) 3 nq F ;;
    let det := mapTriangle_DetJ T (q_Points data) in
    w <- vcwise (q_Weights data) {| v_size := v_size det; v_at := fun q => Rabs (v_at det q) |} ;;
    W <- vec_set_segment (q_Weights r) (nq * t) nq w ;;
    Ok {| q_Points := P; q_Weights := W |}) {| q_Points := mzero 3 n; q_Weights := vzero n |}.

(** 190-193: polygonVertices has three rows *)
Definition copy_vertices (vertices : Mat) (P : Mat) : outcome Mat :=
  for_loop (m_cols vertices) (fun i P => v <- mat_col vertices 3 i ;; mat_set_col P i v) P.

(** 212-232 and 275-290: points, weights and weights times normal inside edge [i], written at [offset] *)
Definition edge_internal (ref_points : Mat) (ref_weights : Vec) (vertices : Mat) (dirs : list bool) (tangents : Mat)
  (abs_det : R) (normal : nat -> R) (i offset : nat) (r : Edges_QuadratureData) : outcome Edges_QuadratureData :=
  let nv := m_cols vertices in
  dir <- idx_ dirs i ;;
  start <- mat_col vertices 3 (if (dir : bool) then i else ((i + 1) mod nv)%nat) ;;
  tangent <- mat_col tangents 3 i ;;
  let direction := if (dir : bool) then 1 else -1 in
  let n := m_cols ref_points in
  (** the loop 218-221 reads row 0 of the reference points *)
  if ((0 <? n) && (m_rows ref_points =? 0))%nat then UB else
  let edge_points := {| m_rows := 3; m_cols := n; m_at := fun d q => start d + direction * m_at ref_points 0 q * tangent d |} in
  P <- mat_set_block (q_Points (eq_Quadrature r)) 0 offset 3 n edge_points ;;
  W <- vec_set_segment (q_Weights (eq_Quadrature r)) offset n (vscal abs_det ref_weights) ;;
  WN <- for_loop 2 (fun d WN =>
          v <- idx_ WN d ;;
          v <- vec_set_segment v offset n {| v_size := v_size ref_weights; v_at := fun q => v_at ref_weights q * (normal d * abs_det) |} ;;
          set_idx WN d v) (eq_WeightsTimesNormal r) ;;
  Ok {| eq_Quadrature := {| q_Points := P; q_Weights := W |}; eq_WeightsTimesNormal := WN |}.

(** 198-210: contributions of edge [i] to its two vertices *)
Definition edge_extrema (ext : R * R) (nv : nat) (abs_det : R) (normal : nat -> R) (i : nat) (r : Edges_QuadratureData)
  : outcome Edges_QuadratureData :=
  W <- vec_inc (q_Weights (eq_Quadrature r)) i (fst ext * abs_det) ;;
  W <- vec_inc W ((i + 1) mod nv) (snd ext * abs_det) ;;
  WN <- for_loop 2 (fun d WN =>
          v <- idx_ WN d ;;
          v <- vec_inc v i (normal d * abs_det * fst ext) ;;
          v <- vec_inc v ((i + 1) mod nv) (normal d * abs_det * snd ext) ;;
          set_idx WN d v) (eq_WeightsTimesNormal r) ;;
  Ok {| eq_Quadrature := {| q_Points := q_Points (eq_Quadrature r); q_Weights := W |}; eq_WeightsTimesNormal := WN |}.

(** edgeNormals.col(i) as a VectorXd; its coefficients 0 and 1 are read *)
Definition normal_col (normals : Mat) (i : nat) : outcome (nat -> R) :=
  if ((2 <=? m_rows normals) && (i <? m_cols normals))%nat then Ok (fun d => m_at normals d i) else UB.

(** 168-240; [junk]: contents of the points after resize *)
Definition PolygonEdgesLobattoQuadrature (junk : nat -> nat -> R) (ref_points : Mat) (ref_weights : Vec) (ext : R * R)
  (vertices : Mat) (lengths : Vec) (dirs : list bool) (tangents normals : Mat) : outcome Edges_QuadratureData :=
  let nv := m_cols vertices in
  let n := (nv + v_size ref_weights * nv)%nat in
  P <- copy_vertices vertices (mraw junk 3 n) ;;
  ' (r, _) <- for_loop nv (fun i s =>
    let '(r, offset) := s in
    len <- vec_get lengths i ;;
    let abs_det := Rabs len in
    normal <- normal_col normals i ;;
    r <- edge_extrema ext nv abs_det normal i r ;;
    if (0 <? v_size ref_weights)%nat then
      r <- edge_internal ref_points ref_weights vertices dirs tangents abs_det normal i offset r ;;
      Ok (r, (offset + m_cols ref_points)%nat)
    else Ok (r, offset))
    ({| eq_Quadrature := {| q_Points := P; q_Weights := vzero n |}; eq_WeightsTimesNormal := [vzero n; vzero n] |}, nv) ;;
  Ok r.

(** 242-295 *)
Definition PolygonEdgesQuadrature (junk : nat -> nat -> R) (data : QuadratureData)
  (vertices : Mat) (lengths : Vec) (dirs : list bool) (tangents normals : Mat) : outcome Edges_QuadratureData :=
  let nv := m_cols vertices in
  let n := (v_size (q_Weights data) * nv)%nat in
  ' (r, _) <- for_loop nv (fun i s =>
    let '(r, offset) := s in
    len <- vec_get lengths i ;;
    let abs_det := Rabs len in
    normal <- normal_col normals i ;;
    r <- edge_internal (q_Points data) (q_Weights data) vertices dirs tangents abs_det normal i offset r ;;
    Ok (r, (offset + m_cols (q_Points data))%nat))
    ({| eq_Quadrature := {| q_Points := mraw junk 3 n; q_Weights := vzero n |}; eq_WeightsTimesNormal := [vzero n; vzero n] |}, 0%nat) ;;
  Ok r.
