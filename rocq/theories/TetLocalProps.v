(** Theorems about the finite element on the tetrahedra of a mesh, C85 to C90. *)
From Coq Require Import List Arith Bool Lia ZArith Reals Lra Permutation.
From Verif Require Import Base RSum MatrixModel MonomialsSpec LagrangeModel LagrangeSpec TriangleModel TriangleSpec TriangleProofs4 VemQuadModel TetModel TetSpec TetProofs5 TetProps
  TetLocalModel TetLocalSpec TetLocalProofs5 TetLocalProofs6 TetLocalProofs7 TetLocalProofs8 TetLocalProofs9 TetLocalProofs10.
Import ListNotations.
Local Open Scope R_scope.

(** The hypotheses common to the theorems: the element is created, the cell is a tetrahedron, the comparison of points tells nodes
    apart, the number of functions fits an unsigned int. *)

(** C85: the space is created; its nodes are the images of the nodes of the reference element, each once. *)
Theorem C85_tetrahedron_cell_nodes : forall gt junk0 order data g V junk, (1 <= order)%nat -> (3 <= m_rows (q_Points (gt (2 * order)%nat)))%nat -> Tet_Create gt junk0 order = Ok data ->
  tetrahedron g V -> tells_nodes_apart g data -> (Z.of_nat (te_NumBasisFunctions data) <= UINT_MAX)%Z ->
  exists l, Tet_CreateLocalSpace junk data g = Ok l /\
  let N := te_NumBasisFunctions data in
  tl_NumberOfBasisFunctions l = N /\ m_rows (tl_Dofs l) = 3%nat /\ m_cols (tl_Dofs l) = N /\ Permutation (tl_DofsMeshOrder l) (seq 0 N) /\
  (forall d, (d < N)%nat -> same3 (col3 (tl_Dofs l) (nth d (tl_DofsMeshOrder l) 0%nat)) (affine (mt_B (tg_Map g)) (mt_b (tg_Map g)) (col3 (te_DofPositions data) d))) /\
  (forall p p', (p < N)%nat -> (p' < N)%nat -> same3 (col3 (tl_Dofs l) p) (col3 (tl_Dofs l) p') -> p = p').
Proof. exact C85_nodes_all. Qed.
Print Assumptions C85_tetrahedron_cell_nodes.

(** C85: where the unknowns of the vertices, edges, faces and of the interior lie; the orientation of the edges is that of the mesh. *)
Theorem C85_tetrahedron_cell_positions : forall gt junk0 order data g V junk l, (1 <= order)%nat -> (3 <= m_rows (q_Points (gt (2 * order)%nat)))%nat -> Tet_Create gt junk0 order = Ok data ->
  tetrahedron g V -> tells_nodes_apart g data -> (Z.of_nat (te_NumBasisFunctions data) <= UINT_MAX)%Z -> Tet_CreateLocalSpace junk data g = Ok l ->
  let n1 := (order - 1)%nat in let n2 := te_NumDofs2D data in let P := ft_DofPositions (te_Boundary data) in
  (forall v, (v < 4)%nat -> same3 (col3 (tl_Dofs l) v) (V v)) /\
  (forall e, (e < 6)%nat -> exists A, Tet_EdgeDOFs data l e = Ok A /\ m_cols A = n1 /\ forall k c, (k < n1)%nat -> (c < 3)%nat -> let s := INR (S k) / INR order in
     m_at A c k = m_at (tl_Dofs l) c (4 + e * n1 + k) /\ m_at A c k = (1 - s) * V (edge_start g e) c + s * V (edge_end g e) c) /\
  (forall f v0 v1 v2 e0 e1 e2, (f < 4)%nat -> face_of g f v0 v1 v2 e0 e1 e2 -> exists A, Tet_FaceDOFs data l f = Ok A /\ m_cols A = n2 /\ forall k c, (k < n2)%nat -> (c < 3)%nat ->
     let x := m_at P 0 (3 + 3 * n1 + k) in let y := m_at P 1 (3 + 3 * n1 + k) in
     m_at A c k = m_at (tl_Dofs l) c (4 + 6 * n1 + f * n2 + k) /\ m_at A c k = (1 - x - y) * V v0 c + x * V v1 c + y * V v2 c) /\
  (forall d, (4 + 6 * n1 + 4 * n2 <= d)%nat -> (d < te_NumBasisFunctions data)%nat -> same3 (col3 (tl_Dofs l) d) (affine (mt_B (tg_Map g)) (mt_b (tg_Map g)) (col3 (te_DofPositions data) d))).
Proof. exact C85_positions_all. Qed.
Print Assumptions C85_tetrahedron_cell_positions.

(** C86: shape function i is 1 at node i and 0 at the others. *)
Theorem C86_tetrahedron_cell_nodal : forall gt junk0 order data g V junk junk' l, (1 <= order)%nat -> (3 <= m_rows (q_Points (gt (2 * order)%nat)))%nat -> Tet_Create gt junk0 order = Ok data ->
  tetrahedron g V -> tells_nodes_apart g data -> (Z.of_nat (te_NumBasisFunctions data) <= UINT_MAX)%Z -> Tet_CreateLocalSpace junk data g = Ok l ->
  let N := te_NumBasisFunctions data in
  exists A, Tet_LocalValues junk' data l (tl_Dofs l) = Ok A /\ m_rows A = N /\ m_cols A = N /\
  forall i j, (i < N)%nat -> (j < N)%nat -> m_at A j i = if (i =? j)%nat then 1 else 0.
Proof. exact C86_nodal_all. Qed.
Print Assumptions C86_tetrahedron_cell_nodal.

(** C86: every polynomial of degree at most the order is the combination of the shape functions with its values at the nodes. *)
Theorem C86_tetrahedron_cell_reproduces : forall gt junk0 order data g V junk junk' l points cf, (1 <= order)%nat -> (3 <= m_rows (q_Points (gt (2 * order)%nat)))%nat -> Tet_Create gt junk0 order = Ok data ->
  tetrahedron g V -> tells_nodes_apart g data -> (Z.of_nat (te_NumBasisFunctions data) <= UINT_MAX)%Z -> Tet_CreateLocalSpace junk data g = Ok l ->
  let N := te_NumBasisFunctions data in
  exists A, Tet_LocalValues junk' data l points = Ok A /\ m_rows A = m_cols points /\ m_cols A = N /\
  forall q, rsum N (fun i => poly3 order cf (m_at (tl_Dofs l) 0 i) (m_at (tl_Dofs l) 1 i) (m_at (tl_Dofs l) 2 i) * m_at A q i) = poly3 order cf (m_at points 0 q) (m_at points 1 q) (m_at points 2 q).
Proof. exact C86_reproduces_all. Qed.
Print Assumptions C86_tetrahedron_cell_reproduces.

(** C87: two cells with a common face, listed by both from the same vertex in the same sense, and the same orientation of its edges:
    if the unknowns of the vertices, edges and interior of the face agree, the two functions agree on the face. *)
Theorem C87_tetrahedra_continuous : forall gt junk0 order data g1 V1 g2 V2 junk1 junk2 junk1' junk2' l1 l2 f1 f2 v0 v1 v2 e0 e1 e2 w0 w1 w2 d0 d1 d2 (u1 u2 : nat -> R) points1 q1 points2 q2 x y,
  (1 <= order)%nat -> (3 <= m_rows (q_Points (gt (2 * order)%nat)))%nat -> Tet_Create gt junk0 order = Ok data ->
  tetrahedron g1 V1 -> tells_nodes_apart g1 data -> tetrahedron g2 V2 -> tells_nodes_apart g2 data -> (Z.of_nat (te_NumBasisFunctions data) <= UINT_MAX)%Z ->
  Tet_CreateLocalSpace junk1 data g1 = Ok l1 -> Tet_CreateLocalSpace junk2 data g2 = Ok l2 ->
  (f1 < 4)%nat -> (f2 < 4)%nat -> face_of g1 f1 v0 v1 v2 e0 e1 e2 -> face_of g2 f2 w0 w1 w2 d0 d1 d2 ->
  same3 (V1 v0) (V2 w0) -> same3 (V1 v1) (V2 w1) -> same3 (V1 v2) (V2 w2) ->
  (edge_start g1 e0 = v0 <-> edge_start g2 d0 = w0) -> (edge_start g1 e1 = v1 <-> edge_start g2 d1 = w1) -> (edge_start g1 e2 = v2 <-> edge_start g2 d2 = w2) ->
  let n1 := (order - 1)%nat in let n2 := te_NumDofs2D data in
  u1 v0 = u2 w0 -> u1 v1 = u2 w1 -> u1 v2 = u2 w2 ->
  (forall k, (k < n1)%nat -> u1 (4 + e0 * n1 + k)%nat = u2 (4 + d0 * n1 + k)%nat /\ u1 (4 + e1 * n1 + k)%nat = u2 (4 + d1 * n1 + k)%nat /\ u1 (4 + e2 * n1 + k)%nat = u2 (4 + d2 * n1 + k)%nat) ->
  (forall k, (k < n2)%nat -> u1 (4 + 6 * n1 + f1 * n2 + k)%nat = u2 (4 + 6 * n1 + f2 * n2 + k)%nat) ->
  same3 (col3 points1 q1) (fun c => (1 - x - y) * V1 v0 c + x * V1 v1 c + y * V1 v2 c) -> same3 (col3 points2 q2) (col3 points1 q1) ->
  exists A B, Tet_LocalValues junk1' data l1 points1 = Ok A /\ Tet_LocalValues junk2' data l2 points2 = Ok B /\
    rsum (te_NumBasisFunctions data) (fun p => u1 p * m_at A q1 p) = rsum (te_NumBasisFunctions data) (fun p => u2 p * m_at B q2 p).
Proof. exact C87_all. Qed.
Print Assumptions C87_tetrahedra_continuous.

(** C88: the derivatives are the partial derivatives of the shape functions, except (from order 2 on) at points on a plane of the
    lattice of the cell below the node, where they are not numbers. *)
Theorem C88_tetrahedron_cell_derivatives : forall gt junk0 order data g V junk junk' fjunk l points, (1 <= order)%nat -> (3 <= m_rows (q_Points (gt (2 * order)%nat)))%nat -> Tet_Create gt junk0 order = Ok data ->
  tetrahedron g V -> tells_nodes_apart g data -> (Z.of_nat (te_NumBasisFunctions data) <= UINT_MAX)%Z -> Tet_CreateLocalSpace junk data g = Ok l ->
  exists D, Tet_LocalDerivatives fjunk data l points = Ok D /\ length D = 3%nat /\
  forall d, (d < 3)%nat -> exists A, nth_error D d = Some A /\ f_rows A = m_cols points /\ f_cols A = te_NumBasisFunctions data /\
    forall q p, (p < te_NumBasisFunctions data)%nat ->
      ((2 <= order)%nat -> lattice_plane_below order V (col3 (tl_Dofs l) p) (col3 points q) -> f_at A q p = None) /\
      (order = 1%nat \/ ~ lattice_plane_below order V (col3 (tl_Dofs l) p) (col3 points q) -> exists v, f_at A q p = Some v /\
        is_partial (fun x => match Tet_LocalValues junk' data l (space_point x) with Ok W => m_at W 0 p | _ => 0 end) d (col3 points q) v).
Proof. exact C88_all. Qed.
Print Assumptions C88_tetrahedron_cell_derivatives.

(** C89: the values given on a face, at points of the plane description of the face, are the values of the shape functions of the cell
    at the rotated points: those with a node on the face; the others vanish there. *)
Theorem C89_tetrahedron_face_values : forall gt junk0 order data g V junk junk' l f v0 v1 v2 e0 e1 e2 dir m rot trans points2D,
  (1 <= order)%nat -> (3 <= m_rows (q_Points (gt (2 * order)%nat)))%nat -> Tet_Create gt junk0 order = Ok data ->
  tetrahedron g V -> tells_nodes_apart g data -> (Z.of_nat (te_NumBasisFunctions data) <= UINT_MAX)%Z -> Tet_CreateLocalSpace junk data g = Ok l ->
  (f < 4)%nat -> face_of g f v0 v1 v2 e0 e1 e2 -> nth_error (tg_Faces_2D_Geometry g) f = Some (3%nat, dir, m) ->
  nth_error (tg_FacesRotationMatrix g) f = Some rot -> nth_error (tg_FacesTranslation g) f = Some trans -> inverse3 (mt_B m) (mt_BInv m) ->
  let N := te_NumBasisFunctions data in let M := ft_NumBasisFunctions (te_Boundary data) in
  exists ls T A, nth_error (tl_Boundary l) f = Some ls /\ Tet_FaceValues data l f points2D = Ok T /\ m_rows T = m_cols points2D /\ m_cols T = M /\
    Tet_LocalValues junk' data l (rotate rot trans points2D) = Ok A /\
    let node := fun t => affine rot trans (col3 (lt_Dofs ls) t) in
    (forall t, (t < M)%nat -> exists p, (p < N)%nat /\ same3 (node t) (col3 (tl_Dofs l) p)) /\
    forall q p, (p < N)%nat -> (exists x y, same3 (col3 points2D q) (affine (mt_B m) (mt_b m) (vec3 x y 0))) ->
      (forall t, (t < M)%nat -> same3 (node t) (col3 (tl_Dofs l) p) -> m_at A q p = m_at T q t) /\
      ((forall t, (t < M)%nat -> ~ same3 (node t) (col3 (tl_Dofs l) p)) -> m_at A q p = 0).
Proof. exact C89_all. Qed.
Print Assumptions C89_tetrahedron_face_values.

(** C90: the tables on the quadrature points are the values and the derivatives at the points of the quadrature of the cell; its
    weights are those of the reference rule times six times the volume of the cell. *)
Theorem C90_tetrahedron_cell_quadrature : forall gt junk0 order data g V junk junk1 junk2 fjunk1 fjunk2 l, (1 <= order)%nat -> (3 <= m_rows (q_Points (gt (2 * order)%nat)))%nat -> Tet_Create gt junk0 order = Ok data ->
  tetrahedron g V -> tells_nodes_apart g data -> (Z.of_nat (te_NumBasisFunctions data) <= UINT_MAX)%Z -> Tet_CreateLocalSpace junk data g = Ok l ->
  let rule := gt (2 * order)%nat in let X := q_Points (tl_Quadrature l) in let N := te_NumBasisFunctions data in
  m_cols X = m_cols (q_Points rule) /\ (forall q, same3 (col3 X q) (affine (mt_B (tg_Map g)) (mt_b (tg_Map g)) (col3 (q_Points rule) q))) /\
  v_size (q_Weights (tl_Quadrature l)) = v_size (q_Weights rule) /\
  (forall q, v_at (q_Weights (tl_Quadrature l)) q = v_at (q_Weights rule) q * Rabs (triple (fun c => V 1%nat c - V 0%nat c) (fun c => V 2%nat c - V 0%nat c) (fun c => V 3%nat c - V 0%nat c))) /\
  (exists A B, Tet_QuadratureValues junk1 data l = Ok A /\ Tet_LocalValues junk2 data l X = Ok B /\ m_rows A = m_cols X /\ m_cols A = N /\
     forall q p, (p < N)%nat -> m_at A q p = m_at B q p) /\
  (exists A B, Tet_QuadratureDerivatives fjunk1 data l = Ok A /\ Tet_LocalDerivatives fjunk2 data l X = Ok B /\ length A = 3%nat /\ length B = 3%nat /\
     forall d, (d < 3)%nat -> exists A' B', nth_error A d = Some A' /\ nth_error B d = Some B' /\ f_rows A' = m_cols X /\ f_cols A' = N /\ forall q p, (p < N)%nat -> f_at A' q p = f_at B' q p).
Proof. exact C90_all. Qed.
Print Assumptions C90_tetrahedron_cell_quadrature.

(** ** Cases *)
(** Exact comparison of points tells the nodes of any tetrahedron apart. *)
Example exact_comparison : forall gt junk0 order data g V, (1 <= order)%nat -> (3 <= m_rows (q_Points (gt (2 * order)%nat)))%nat -> Tet_Create gt junk0 order = Ok data ->
  tetrahedron g V -> tg_Same g = exact_same -> tells_nodes_apart g data.
Proof. exact exact_tells_apart. Qed.

(** a cell with vertices (1,0,0), (3,0,0), (1,1,0), (1,1,1) and its neighbour with vertices (1,0,-1), (1,1,0), (3,0,0), (1,0,0) *)
Definition cell1_map : MapTriangleData := {|
  mt_B := fun i => nth i [vec3 2 0 0; vec3 0 1 1; vec3 0 0 1] (fun _ => 0);
  mt_BInv := fun i => nth i [vec3 (1 / 2) 0 0; vec3 0 1 (-1); vec3 0 0 1] (fun _ => 0);
  mt_b := vec3 1 0 0 |}.
Definition cell2_map : MapTriangleData := {|
  mt_B := fun i => nth i [vec3 0 2 0; vec3 1 0 0; vec3 1 1 1] (fun _ => 0);
  mt_BInv := fun i => nth i [vec3 0 1 0; vec3 (1 / 2) 0 0; vec3 (- (1 / 2)) (-1) 1] (fun _ => 0);
  mt_b := vec3 1 0 (-1) |}.
Definition cell1 : Tet_Geometry := sample_cell cell1_map [true; false; true; false; true; false].
Definition cell2 : Tet_Geometry := sample_cell cell2_map [true; true; true; true; false; true].
Definition vertices (m : MapTriangleData) (w : nat) : point := affine (mt_B m) (mt_b m) (ref_vertex w).
Example cell1_ok : tetrahedron cell1 (vertices cell1_map).
Proof.
  apply sample_ok; [|cbn; lia]. intros i j Hi Hj. destruct i as [|[|[|i]]]; [| | |lia]; (destruct j as [|[|[|j]]]; [| | |lia]); cbn; split; lra.
Qed.
Example cell2_ok : tetrahedron cell2 (vertices cell2_map).
Proof.
  apply sample_ok; [|cbn; lia]. intros i j Hi Hj. destruct i as [|[|[|i]]]; [| | |lia]; (destruct j as [|[|[|j]]]; [| | |lia]); cbn; split; lra.
Qed.
(** face 0 of the first is face 3 of the second, with other numbers of vertices and edges *)
Example common_face : face_of cell1 0 2 1 0 1 0 2 /\ face_of cell2 3 1 2 3 1 5 4 /\
  same3 (vertices cell1_map 2) (vertices cell2_map 1) /\ same3 (vertices cell1_map 1) (vertices cell2_map 2) /\ same3 (vertices cell1_map 0) (vertices cell2_map 3) /\
  (edge_start cell1 1 = 2%nat <-> edge_start cell2 1 = 1%nat) /\ (edge_start cell1 0 = 1%nat <-> edge_start cell2 5 = 2%nat) /\ (edge_start cell1 2 = 0%nat <-> edge_start cell2 4 = 3%nat).
Proof.
  split; [unfold face_of, joins; cbn; repeat split; auto; lia|]. split; [unfold face_of, joins; cbn; repeat split; auto; lia|].
  do 3 (split; [intros c Hc; destruct c as [|[|[|c]]]; [| | |lia]; unfold vertices, affine, ref_vertex; cbn; lra|]). cbn. repeat split; auto; discriminate.
Qed.
(** the spaces of order 3 are created *)
Example cells_created : forall junk0 junk, exists data l1 l2, Tet_Create tet_rule junk0 3 = Ok data /\ Tet_CreateLocalSpace junk data cell1 = Ok l1 /\ Tet_CreateLocalSpace junk data cell2 = Ok l2 /\ tl_NumberOfBasisFunctions l1 = 20%nat.
Proof.
  intros junk0 junk. destruct (tet_created junk0) as (data & E & N). exists data. assert (Q : (3 <= m_rows (q_Points (tet_rule (2 * 3)%nat)))%nat) by (cbn; lia). assert (O3 : (1 <= 3)%nat) by lia.
  assert (U : (Z.of_nat (te_NumBasisFunctions data) <= UINT_MAX)%Z) by (rewrite N; vm_compute; discriminate).
  destruct (C85_tetrahedron_cell_nodes tet_rule junk0 3 data cell1 _ junk O3 Q E cell1_ok (exact_comparison _ _ _ _ _ _ O3 Q E cell1_ok eq_refl) U) as (l1 & E1 & N1 & _).
  destruct (C85_tetrahedron_cell_nodes tet_rule junk0 3 data cell2 _ junk O3 Q E cell2_ok (exact_comparison _ _ _ _ _ _ O3 Q E cell2_ok eq_refl) U) as (l2 & E2 & _).
  exists l1, l2. split; auto. split; auto. split; auto. rewrite N1. exact N.
Qed.
(** the plane description of the faces of the samples has an inverse *)
Example plane_ok : inverse3 (mt_B id_plane) (mt_BInv id_plane) /\ nth_error (tg_Faces_2D_Geometry cell1) 0 = Some (3%nat, [true; true; true], id_plane).
Proof. split; [|reflexivity]. intros i j Hi Hj. destruct i as [|[|[|i]]]; [| | |lia]; (destruct j as [|[|[|j]]]; [| | |lia]); cbn; split; lra. Qed.
