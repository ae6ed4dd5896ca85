(** Properties C41 to C46 and C61. *)
From Coq Require Import List Arith Bool Lia ZArith Reals Lra.
From Verif Require Import Base RSum MatrixModel MonomialsModel MonomialsSpec LagrangeModel LagrangeSpec TriangleModel TriangleSpec
  TriangleProofs TriangleProofs2 TriangleProofs3 TriangleProofs4 TriangleProofs5.
Import ListNotations.
Local Open Scope R_scope.

(** C41: the dofs are the lattice points of the reference triangle, each once, vertices then edges then interior. *)
Theorem C41_triangle_lattice : forall order, (1 <= order)%nat -> exists data, Tri_Create order = Ok data /\
  let N := ft_NumBasisFunctions data in let n1 := ft_NumDofs1D data in let P := ft_DofPositions data in
  ft_Order data = order /\ (2 * N = (order + 1) * (order + 2))%nat /\ ft_NumDofs0D data = 1%nat /\ n1 = (order - 1)%nat /\
  (3 * ft_NumDofs0D data + 3 * n1 + ft_NumDofs2D data = N)%nat /\ m_rows P = 3%nat /\ m_cols P = N /\
  (forall d, (d < N)%nat -> exists i j, (i + j <= order)%nat /\ at_point P d (INR j / INR order) (INR i / INR order)) /\
  (forall i j, (i + j <= order)%nat -> exists d, (d < N)%nat /\ at_point P d (INR j / INR order) (INR i / INR order) /\
     forall d', (d' < N)%nat -> at_point P d' (INR j / INR order) (INR i / INR order) -> d' = d) /\
  at_point P 0 0 0 /\ at_point P 1 1 0 /\ at_point P 2 0 1 /\
  (forall k, (k < n1)%nat -> let s := INR (S k) / INR order in
     at_point P (3 + k) s 0 /\ at_point P (3 + n1 + k) (1 - s) s /\ at_point P (3 + 2 * n1 + k) 0 (1 - s)) /\
  (forall d, (3 + 3 * n1 <= d)%nat -> (d < N)%nat -> 0 < m_at P 0 d /\ 0 < m_at P 1 d /\ m_at P 0 d + m_at P 1 d < 1).
Proof. exact C41_all. Qed.

(** C42: basis function i is 1 at dof i and 0 at the others. *)
Theorem C42_triangle_nodal : forall order data, (1 <= order)%nat -> Tri_Create order = Ok data ->
  let N := ft_NumBasisFunctions data in
  exists V, Tri_Values (ft_DofPositions data) data = Ok V /\ m_rows V = N /\ m_cols V = N /\
    forall i j, (i < N)%nat -> (j < N)%nat -> m_at V j i = kron i j.
Proof. exact C42_nodal_all. Qed.

(** C42: polynomials of degree at most the order are reproduced. *)
Theorem C42_triangle_reproduces : forall order data points c, (1 <= order)%nat -> Tri_Create order = Ok data -> (2 <= m_rows points)%nat ->
  let N := ft_NumBasisFunctions data in
  exists V, Tri_Values points data = Ok V /\ m_rows V = m_cols points /\ m_cols V = N /\
    forall q, (q < m_cols points)%nat ->
      rsum N (fun i => poly2 order c (m_at (ft_DofPositions data) 0 i) (m_at (ft_DofPositions data) 1 i) * m_at V q i) =
      poly2 order c (m_at points 0 q) (m_at points 1 q).
Proof. exact C42_reproduces_all. Qed.

(** C42: the basis functions sum to one. *)
Theorem C42_triangle_unity : forall order data points, Tri_Create order = Ok data -> (2 <= m_rows points)%nat ->
  exists V, Tri_Values points data = Ok V /\ m_rows V = m_cols points /\ m_cols V = ft_NumBasisFunctions data /\
    forall q, (q < m_cols points)%nat -> rsum (ft_NumBasisFunctions data) (fun i => m_at V q i) = 1.
Proof. exact C42_unity_all. Qed.

(** C43: on the reference triangle the derivatives are those of the values. *)
Theorem C43_triangle_derivatives : forall order data, Tri_Create order = Ok data -> exists V : point -> Mat,
  (forall p, Tri_Values (space_point p) data = Ok (V p)) /\
  forall points, (2 <= m_rows points)%nat -> exists D0 D1, Tri_Derivatives points data = Ok [D0; D1] /\
    m_rows D0 = m_cols points /\ m_cols D0 = ft_NumBasisFunctions data /\ m_rows D1 = m_cols points /\ m_cols D1 = ft_NumBasisFunctions data /\
    forall q i, (q < m_cols points)%nat -> (i < ft_NumBasisFunctions data)%nat ->
      is_partial (fun p => m_at (V p) 0 i) 0 (pt points q) (m_at D0 q i) /\ is_partial (fun p => m_at (V p) 0 i) 1 (pt points q) (m_at D1 q i).
Proof. exact C43_all. Qed.

(** C43: and so on the triangle of the mesh. *)
Theorem C43_triangle_local_derivatives : forall order data dir m l, (1 <= order)%nat -> Tri_Create order = Ok data -> (3 <= length dir)%nat ->
  (Z.of_nat (ft_NumBasisFunctions data) <= UINT_MAX)%Z -> Tri_CreateLocalSpace data 3 dir m = Ok l ->
  exists V : point -> Mat, (forall p, Tri_LocalValues data l (space_point p) = Ok (V p)) /\
  forall points, exists D0 D1, Tri_LocalDerivatives data l points = Ok [D0; D1] /\
    m_rows D0 = m_cols points /\ m_cols D0 = ft_NumBasisFunctions data /\ m_rows D1 = m_cols points /\ m_cols D1 = ft_NumBasisFunctions data /\
    forall q i, (q < m_cols points)%nat -> (i < ft_NumBasisFunctions data)%nat ->
      is_partial (fun p => m_at (V p) 0 i) 0 (pt points q) (m_at D0 q i) /\ is_partial (fun p => m_at (V p) 0 i) 1 (pt points q) (m_at D1 q i).
Proof. exact C43_local_all. Qed.

(** C44: up to order 3 the second derivatives are the derivatives of the first ones. *)
Theorem C44_triangle_second_derivatives : forall order data, (order <= 3)%nat -> Tri_Create order = Ok data -> exists D0 D1 : point -> Mat,
  (forall p, Tri_Derivatives (space_point p) data = Ok [D0 p; D1 p]) /\
  forall points, (2 <= m_rows points)%nat -> exists Sxx Sxy Syx Syy,
    Tri_SecondDerivatives points data = Ok [Sxx; Sxy; Syx; Syy] /\
    Forall (fun M => m_rows M = m_cols points /\ m_cols M = ft_NumBasisFunctions data) [Sxx; Sxy; Syx; Syy] /\
    forall q i, (q < m_cols points)%nat -> (i < ft_NumBasisFunctions data)%nat ->
      is_partial (fun p => m_at (D0 p) 0 i) 0 (pt points q) (m_at Sxx q i) /\ is_partial (fun p => m_at (D0 p) 0 i) 1 (pt points q) (m_at Sxy q i) /\
      is_partial (fun p => m_at (D1 p) 0 i) 0 (pt points q) (m_at Syx q i) /\ is_partial (fun p => m_at (D1 p) 0 i) 1 (pt points q) (m_at Syy q i).
Proof. exact C44_all. Qed.

(** C44: for every order above 3 they are not. *)
Theorem C44_triangle_second_derivatives_refuted : forall order data, (4 <= order)%nat -> Tri_Create order = Ok data -> exists (D0 : point -> Mat) (S : point -> list Mat),
  (forall p, exists D1, Tri_Derivatives (space_point p) data = Ok [D0 p; D1]) /\
  (forall p, Tri_SecondDerivatives (space_point p) data = Ok (S p)) /\
  ~ (forall p, is_partial (fun p => m_at (D0 p) 0 1) 0 p (m_at (nth 0 (S p) (mzero 0 0)) 0 1)).
Proof. exact C44_refuted. Qed.

(** C45: the renumbering is an involution that reverses exactly the edges seen backwards. *)
Theorem C45_edge_order : forall order data dir m, Tri_Create order = Ok data -> (3 <= length dir)%nat -> (Z.of_nat (ft_NumBasisFunctions data) <= UINT_MAX)%Z ->
  exists l, Tri_CreateLocalSpace data 3 dir m = Ok l /\
  let N := ft_NumBasisFunctions data in let n0 := ft_NumDofs0D data in let n1 := ft_NumDofs1D data in
  let s := fun d => nth d (lt_DofsMeshOrder l) 0%nat in
  length (lt_DofsMeshOrder l) = N /\
  (forall d, (d < N)%nat -> (s d < N)%nat /\ s (s d) = d) /\
  (forall d, (d < 3 * n0)%nat -> s d = d) /\
  (forall d, (3 * n0 + 3 * n1 <= d)%nat -> (d < N)%nat -> s d = d) /\
  (forall e k, (e < 3)%nat -> (k < n1)%nat -> s (3 * n0 + e * n1 + k)%nat = if nth e dir true then (3 * n0 + e * n1 + k)%nat else (3 * n0 + e * n1 + (n1 - 1 - k))%nat) /\
  m_cols (lt_Dofs l) = N /\
  (forall d c, (d < N)%nat -> m_at (lt_Dofs l) c d = affine (mt_B m) (mt_b m) (pt (ft_DofPositions data) (s d)) c).
Proof. exact C45_order_all. Qed.

(** C45: the dofs of an edge follow the orientation of the edge. *)
Theorem C45_edge_positions : forall order data dir m l, (1 <= order)%nat -> Tri_Create order = Ok data -> (3 <= length dir)%nat -> (Z.of_nat (ft_NumBasisFunctions data) <= UINT_MAX)%Z ->
  Tri_CreateLocalSpace data 3 dir m = Ok l ->
  forall e k c, (e < 3)%nat -> (k < ft_NumDofs1D data)%nat -> (c < 3)%nat ->
    let A := (if nth e dir true then e else (e + 1) mod 3)%nat in let Z := (if nth e dir true then (e + 1) mod 3 else e)%nat in
    let s := INR (S k) / INR order in
    m_at (lt_Dofs l) c (3 + e * ft_NumDofs1D data + k) = (1 - s) * m_at (lt_Dofs l) c A + s * m_at (lt_Dofs l) c Z.
Proof. exact C45_edges_all. Qed.

(** C45: the local basis is nodal at the local dofs. *)
Theorem C45_local_nodal : forall order data dir m l, (1 <= order)%nat -> Tri_Create order = Ok data -> (3 <= length dir)%nat -> (Z.of_nat (ft_NumBasisFunctions data) <= UINT_MAX)%Z ->
  inverse3 (mt_B m) (mt_BInv m) -> Tri_CreateLocalSpace data 3 dir m = Ok l ->
  exists V, Tri_LocalValues data l (lt_Dofs l) = Ok V /\ m_rows V = ft_NumBasisFunctions data /\ m_cols V = ft_NumBasisFunctions data /\
    forall i j, (i < ft_NumBasisFunctions data)%nat -> (j < ft_NumBasisFunctions data)%nat -> m_at V j i = kron i j.
Proof. exact C45_local_nodal_all. Qed.

(** C46: up to order 2, and at order 3 if no edge is seen backwards, the Laplacian values are right. *)
Theorem C46_laplacian : forall order data dir m l, (1 <= order <= 3)%nat -> Tri_Create order = Ok data -> (3 <= length dir)%nat ->
  mt_BInv m 0 2 = 0 -> mt_BInv m 1 2 = 0 -> Tri_CreateLocalSpace data 3 dir m = Ok l ->
  (order <= 2)%nat \/ (forall e, (e < 3)%nat -> nth e dir true = true) ->
  exists V, (forall p, Tri_LocalValues data l (space_point p) = Ok (V p)) /\
  forall points, exists L, Tri_LocalLaplacian data l points = Ok L /\ m_rows L = m_cols points /\ m_cols L = ft_NumBasisFunctions data /\
    forall q i, (q < m_cols points)%nat -> (i < ft_NumBasisFunctions data)%nat -> is_laplacian 2 (fun p => m_at (V p) 0 i) (pt points q) (m_at L q i).
Proof. exact C46_all. Qed.

(** C46: above order 3 the call throws. *)
Theorem C46_laplacian_high_order_throws : forall order data dir m l points, (4 <= order)%nat -> Tri_Create order = Ok data -> Tri_CreateLocalSpace data 3 dir m = Ok l ->
  Tri_LocalLaplacian data l points = Throw.
Proof. exact C46_throws_all. Qed.

(** C46: at order 3 with the first edge seen backwards they are wrong. *)
Theorem C46_laplacian_refuted : forall data dir, Tri_Create 3 = Ok data -> (3 <= length dir)%nat -> nth 0 dir true = false ->
  exists l V L, Tri_CreateLocalSpace data 3 dir id_map = Ok l /\ (forall p, Tri_LocalValues data l (space_point p) = Ok (V p)) /\
    Tri_LocalLaplacian data l (space_point (fun _ => 0)) = Ok L /\
    ~ is_laplacian 2 (fun p => m_at (V p) 0 3) (fun _ => 0) (m_at L 0 3).
Proof. exact C46_refuted. Qed.

(** C61: two neighbours that share the unknowns of an edge agree at every point of the edge. *)
Theorem C61_continuity_across_edge : forall order data dir1 dir2 m1 m2 l1 l2 e1 e2 u1 u2, (1 <= order)%nat -> Tri_Create order = Ok data -> (Z.of_nat (ft_NumBasisFunctions data) <= UINT_MAX)%Z ->
  (3 <= length dir1)%nat -> (3 <= length dir2)%nat -> inverse3 (mt_B m1) (mt_BInv m1) -> inverse3 (mt_B m2) (mt_BInv m2) ->
  Tri_CreateLocalSpace data 3 dir1 m1 = Ok l1 -> Tri_CreateLocalSpace data 3 dir2 m2 = Ok l2 -> (e1 < 3)%nat -> (e2 < 3)%nat ->
  let A1 := (if nth e1 dir1 true then e1 else (e1 + 1) mod 3)%nat in let Z1 := (if nth e1 dir1 true then (e1 + 1) mod 3 else e1)%nat in
  let A2 := (if nth e2 dir2 true then e2 else (e2 + 1) mod 3)%nat in let Z2 := (if nth e2 dir2 true then (e2 + 1) mod 3 else e2)%nat in
  (forall c, (c < 3)%nat -> m_at (lt_Dofs l1) c A1 = m_at (lt_Dofs l2) c A2 /\ m_at (lt_Dofs l1) c Z1 = m_at (lt_Dofs l2) c Z2) ->
  u1 A1 = u2 A2 -> u1 Z1 = u2 Z2 -> (forall k, (k < ft_NumDofs1D data)%nat -> u1 (3 + e1 * ft_NumDofs1D data + k)%nat = u2 (3 + e2 * ft_NumDofs1D data + k)%nat) ->
  forall (s : R) (p : point), (forall c, (c < 3)%nat -> p c = (1 - s) * m_at (lt_Dofs l1) c A1 + s * m_at (lt_Dofs l1) c Z1) ->
  exists V1 V2, Tri_LocalValues data l1 (space_point p) = Ok V1 /\ Tri_LocalValues data l2 (space_point p) = Ok V2 /\
    rsum (ft_NumBasisFunctions data) (fun d => u1 d * m_at V1 0 d) = rsum (ft_NumBasisFunctions data) (fun d => u2 d * m_at V2 0 d).
Proof. exact C61_all. Qed.

(** ** Concrete cases *)
Definition tri_mesh_view (order : nat) (dir : list bool) : list nat :=
  match Tri_Create order with Ok data => match Tri_CreateLocalSpace data 3 dir id_map with Ok l => lt_DofsMeshOrder l | _ => [] end | _ => [] end.
Example C45_case : tri_mesh_view 4 [true; false; false] = [0; 1; 2; 3; 4; 5; 8; 7; 6; 11; 10; 9; 12; 13; 14]%nat.
Proof. vm_compute. reflexivity. Qed.
Example C41_case : exists data, Tri_Create 2 = Ok data /\ ft_NumBasisFunctions data = 6%nat /\ at_point (ft_DofPositions data) 4 (1 - 1 / 2) (1 / 2).
Proof.
  destruct (C41_triangle_lattice 2 ltac:(lia)) as (data & E & _ & N & _ & n1 & _ & _ & _ & _ & _ & _ & _ & _ & H & _). exists data. split; [exact E|].
  split; [lia|]. destruct (H 0%nat ltac:(lia)) as (_ & H' & _). rewrite n1 in H'. exact H'.
Qed.
Example C42_case : exists data V, Tri_Create 1 = Ok data /\ Tri_Values (space_point (fun d => if (d =? 0)%nat then 1 / 4 else 1 / 2)) data = Ok V /\
  m_at V 0 0 = 1 / 4 /\ m_at V 0 1 = 1 / 4 /\ m_at V 0 2 = 1 / 2.
Proof.
  destruct (C41_triangle_lattice 1 ltac:(lia)) as (data & E & _).
  destruct (tvalues_ok 1 ltac:(lia) data (space_point (fun d => if (d =? 0)%nat then 1 / 4 else 1 / 2)) (created_ok 1 data ltac:(lia) E) ltac:(cbn; lia)) as (V & EV & _ & _ & H).
  exists data, V. split; [exact E|]. split; [exact EV|].
  rewrite (H 0%nat 0%nat (0, 0)%nat eq_refl), (H 0%nat 1%nat (0, 1)%nat eq_refl), (H 0%nat 2%nat (1, 0)%nat eq_refl). unfold phi. cbn. repeat split; lra.
Qed.

(** the triangle with vertices (1,1), (0,1), (1,0), neighbour of the reference triangle across the edge 1 of both *)
Definition turned_map : MapTriangleData :=
  {| mt_B := fun i j => if (i =? j)%nat then if (i <? 2)%nat then -1 else 1 else 0; mt_BInv := fun i j => if (i =? j)%nat then if (i <? 2)%nat then -1 else 1 else 0;
     mt_b := fun i => if (i <? 2)%nat then 1 else 0 |}.
Example C61_case : exists data l1 l2, Tri_Create 3 = Ok data /\ (Z.of_nat (ft_NumBasisFunctions data) <= UINT_MAX)%Z /\
  inverse3 (mt_B id_map) (mt_BInv id_map) /\ inverse3 (mt_B turned_map) (mt_BInv turned_map) /\ mt_BInv turned_map 0 2 = 0 /\ mt_BInv turned_map 1 2 = 0 /\
  Tri_CreateLocalSpace data 3 [true; true; true] id_map = Ok l1 /\ Tri_CreateLocalSpace data 3 [true; false; true] turned_map = Ok l2 /\
  forall c, (c < 3)%nat -> m_at (lt_Dofs l1) c 1 = m_at (lt_Dofs l2) c 2 /\ m_at (lt_Dofs l1) c 2 = m_at (lt_Dofs l2) c 1 /\ m_at (lt_Dofs l1) 0 1 <> m_at (lt_Dofs l1) 0 2.
Proof.
  destruct (C41_triangle_lattice 3 ltac:(lia)) as (data & E & _). pose proof (small_range 3 data ltac:(lia) E) as HR.
  destruct (C45_edge_order 3 data [true; true; true] id_map E ltac:(cbn; lia) HR) as (l1 & E1 & _).
  destruct (C45_edge_order 3 data [true; false; true] turned_map E ltac:(cbn; lia) HR) as (l2 & E2 & _).
  exists data, l1, l2. split; [exact E|]. split; [exact HR|].
  split. { intros i j Hi Hj. destruct i as [|[|[|i]]]; try lia; destruct j as [|[|[|j]]]; try lia; cbn; split; ring. }
  split. { intros i j Hi Hj. destruct i as [|[|[|i]]]; try lia; destruct j as [|[|[|j]]]; try lia; cbn; split; ring. }
  split; [reflexivity|]. split; [reflexivity|]. split; [exact E1|]. split; [exact E2|].
  intros c Hc. rewrite !(vertex_pos 3 data [true; true; true] id_map l1 ltac:(lia) E ltac:(cbn; lia) HR E1) by lia.
  rewrite !(vertex_pos 3 data [true; false; true] turned_map l2 ltac:(lia) E ltac:(cbn; lia) HR E2) by lia.
  unfold affine, vec3. destruct c as [|[|[|c]]]; try lia; cbn; repeat split; lra.
Qed.

Print Assumptions C41_triangle_lattice.
Print Assumptions C42_triangle_nodal.
Print Assumptions C42_triangle_reproduces.
Print Assumptions C42_triangle_unity.
Print Assumptions C43_triangle_derivatives.
Print Assumptions C43_triangle_local_derivatives.
Print Assumptions C44_triangle_second_derivatives.
Print Assumptions C44_triangle_second_derivatives_refuted.
Print Assumptions C45_edge_order.
Print Assumptions C45_edge_positions.
Print Assumptions C45_local_nodal.
Print Assumptions C46_laplacian.
Print Assumptions C46_laplacian_high_order_throws.
Print Assumptions C46_laplacian_refuted.
Print Assumptions C61_continuity_across_edge.
