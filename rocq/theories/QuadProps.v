(** Properties C62 to C65. *)
From Coq Require Import List Arith Bool Lia ZArith Reals Lra.
From Verif Require Import Base RSum MatrixModel MonomialsModel MonomialsSpec LagrangeModel LagrangeSpec TriangleModel TriangleSpec TriangleProofs2 TriangleProofs3 TriangleProofs4 TriangleProofs5 TriangleProps
  QuadModel QuadSpec QuadProofs2 QuadProofs3 QuadProofs4.
Import ListNotations.
Local Open Scope R_scope.

(** C62: the dofs are the lattice points of the reference square, each once, vertices then edges then interior. *)
Theorem C62_square_lattice : forall junk lobatto order, (1 <= order)%nat -> exists data, Quad_Create junk lobatto order = Ok data /\
  let N := fq_NumBasisFunctions data in let n1 := fq_NumDofs1D data in let P := fq_DofPositions data in
  fq_Order data = order /\ (N = (order + 1) * (order + 1))%nat /\ fq_NumDofs0D data = 1%nat /\ n1 = (order - 1)%nat /\
  (4 * fq_NumDofs0D data + 4 * n1 + fq_NumDofs2D data = N)%nat /\ m_rows P = 3%nat /\ m_cols P = N /\
  (forall d, (d < N)%nat -> exists i j, (i <= order)%nat /\ (j <= order)%nat /\ at_point P d (INR i / INR order) (INR j / INR order)) /\
  (forall i j, (i <= order)%nat -> (j <= order)%nat -> exists d, (d < N)%nat /\ at_point P d (INR i / INR order) (INR j / INR order) /\
     forall d', (d' < N)%nat -> at_point P d' (INR i / INR order) (INR j / INR order) -> d' = d) /\
  at_point P 0 0 0 /\ at_point P 1 1 0 /\ at_point P 2 1 1 /\ at_point P 3 0 1 /\
  (forall k, (k < n1)%nat -> let s := INR (S k) / INR order in
     at_point P (4 + k) s 0 /\ at_point P (4 + n1 + k) 1 s /\ at_point P (4 + 2 * n1 + k) s 1 /\ at_point P (4 + 3 * n1 + k) 0 s) /\
  (forall a b, (a < n1)%nat -> (b < n1)%nat -> at_point P (4 + 4 * n1 + b * n1 + a) (INR (S a) / INR order) (INR (S b) / INR order)).
Proof. exact C62_all. Qed.

(** C62: order 0 is refused. *)
Theorem C62_order_zero_throws : forall junk lobatto, Quad_Create junk lobatto 0 = Throw.
Proof. exact C62_order0. Qed.

(** C63: the basis is nodal. *)
Theorem C63_square_nodal : forall junk lobatto order data, (1 <= order)%nat -> Quad_Create junk lobatto order = Ok data ->
  let N := fq_NumBasisFunctions data in
  exists V, Quad_Values junk (fq_DofPositions data) data = Ok V /\ m_rows V = N /\ m_cols V = N /\
    forall i j, (i < N)%nat -> (j < N)%nat -> m_at V j i = kron i j.
Proof. exact C63_nodal_all. Qed.

(** C63: interpolation reproduces every polynomial of degree at most the order in each variable. *)
Theorem C63_square_reproduces : forall junk lobatto order data points c, (1 <= order)%nat -> Quad_Create junk lobatto order = Ok data -> (2 <= m_rows points)%nat ->
  let N := fq_NumBasisFunctions data in
  exists V, Quad_Values junk points data = Ok V /\ m_rows V = m_cols points /\ m_cols V = N /\
    forall q, (q < m_cols points)%nat ->
      rsum N (fun i => polyQ order c (m_at (fq_DofPositions data) 0 i) (m_at (fq_DofPositions data) 1 i) * m_at V q i) =
      polyQ order c (m_at points 0 q) (m_at points 1 q).
Proof. exact C63_reproduces_all. Qed.

(** C63: the derivatives are those of the values. *)
Theorem C63_square_derivatives : forall junk lobatto order data, (1 <= order)%nat -> Quad_Create junk lobatto order = Ok data -> exists V : point -> Mat,
  (forall p, Quad_Values junk (space_point p) data = Ok (V p)) /\
  forall points, (2 <= m_rows points)%nat -> exists D0 D1, Quad_Derivatives junk points data = Ok [D0; D1] /\
    m_rows D0 = m_cols points /\ m_cols D0 = fq_NumBasisFunctions data /\ m_rows D1 = m_cols points /\ m_cols D1 = fq_NumBasisFunctions data /\
    forall q i, (q < m_cols points)%nat -> (i < fq_NumBasisFunctions data)%nat ->
      is_partial (fun p => m_at (V p) 0 i) 0 (pt points q) (m_at D0 q i) /\ is_partial (fun p => m_at (V p) 0 i) 1 (pt points q) (m_at D1 q i).
Proof. exact C63_derivatives_all. Qed.

(** C64: the renumbering is an involution that reverses exactly the edges seen against the reference. *)
Theorem C64_edge_order : forall junk lobatto order data dir m, (1 <= order)%nat -> Quad_Create junk lobatto order = Ok data -> (4 <= length dir)%nat -> (Z.of_nat (fq_NumBasisFunctions data) <= UINT_MAX)%Z ->
  exists l, Quad_CreateLocalSpace data 4 dir m = Ok l /\
  let N := fq_NumBasisFunctions data in let n1 := fq_NumDofs1D data in
  let s := fun d => nth d (lq_DofsMeshOrder l) 0%nat in
  length (lq_DofsMeshOrder l) = N /\ lq_NumberOfBasisFunctions l = N /\
  (forall d, (d < N)%nat -> (s d < N)%nat /\ s (s d) = d) /\
  (forall d, (d < 4)%nat -> s d = d) /\
  (forall d, (4 + 4 * n1 <= d)%nat -> (d < N)%nat -> s d = d) /\
  (forall e k, (e < 4)%nat -> (k < n1)%nat -> s (4 + e * n1 + k)%nat = if Bool.eqb (nth e dir true) (e <? 2)%nat then (4 + e * n1 + k)%nat else (4 + e * n1 + (n1 - 1 - k))%nat).
Proof. exact C64_order_all. Qed.

(** C64: the dofs of an edge follow the orientation of the edge. *)
Theorem C64_edge_positions : forall junk lobatto order data dir m l, (1 <= order)%nat -> Quad_Create junk lobatto order = Ok data -> (4 <= length dir)%nat -> (Z.of_nat (fq_NumBasisFunctions data) <= UINT_MAX)%Z ->
  good_map m -> Quad_CreateLocalSpace data 4 dir m = Ok l ->
  forall e k c, (e < 4)%nat -> (k < fq_NumDofs1D data)%nat -> (c < 3)%nat ->
    let A := (if nth e dir true then e else (e + 1) mod 4)%nat in let Z := (if nth e dir true then (e + 1) mod 4 else e)%nat in
    let s := INR (S k) / INR order in
    m_at (lq_Dofs l) c (4 + e * fq_NumDofs1D data + k) = (1 - s) * m_at (lq_Dofs l) c A + s * m_at (lq_Dofs l) c Z.
Proof. exact C64_edges_all. Qed.

(** C64: the first four dofs are the vertices of the quadrilateral. *)
Theorem C64_vertices : forall junk lobatto order data dir g v l, (1 <= order)%nat -> Quad_Create junk lobatto order = Ok data -> (4 <= length dir)%nat -> (Z.of_nat (fq_NumBasisFunctions data) <= UINT_MAX)%Z ->
  maps_square (mq_F g) (mq_FInv g) v -> Quad_CreateLocalSpace data 4 dir (Generic g) = Ok l ->
  forall i c, (i < 4)%nat -> (c < 3)%nat -> m_at (lq_Dofs l) c i = v i c.
Proof. exact C64_vertices_all. Qed.

(** C64: the local basis is nodal at the local dofs. *)
Theorem C64_local_nodal : forall junk lobatto order data dir m l, (1 <= order)%nat -> Quad_Create junk lobatto order = Ok data -> (4 <= length dir)%nat ->
  (Z.of_nat (fq_NumBasisFunctions data) <= UINT_MAX)%Z -> good_map m -> Quad_CreateLocalSpace data 4 dir m = Ok l ->
  exists V, Quad_LocalValues junk data l (lq_Dofs l) = Ok V /\ m_rows V = fq_NumBasisFunctions data /\ m_cols V = fq_NumBasisFunctions data /\
    forall i j, (i < fq_NumBasisFunctions data)%nat -> (j < fq_NumBasisFunctions data)%nat -> m_at V j i = kron i j.
Proof. exact C64_nodal_all. Qed.

(** C64: the local derivatives are those of the local values, on parallelograms and on general quadrilaterals. *)
Theorem C64_local_derivatives : forall junk lobatto order data dir m l, (1 <= order)%nat -> Quad_Create junk lobatto order = Ok data -> (4 <= length dir)%nat ->
  (Z.of_nat (fq_NumBasisFunctions data) <= UINT_MAX)%Z -> Quad_CreateLocalSpace data 4 dir m = Ok l ->
  exists V : point -> Mat, (forall p, Quad_LocalValues junk data l (space_point p) = Ok (V p)) /\
  forall points, (forall g q, m = Generic g -> (q < m_cols points)%nat -> jacobian_at (mq_FInv g) (pt points q) (mq_JInv g (mq_FInv g (pt points q)))) ->
  exists D0 D1, Quad_LocalDerivatives junk data l points = Ok [D0; D1] /\
    m_rows D0 = m_cols points /\ m_cols D0 = fq_NumBasisFunctions data /\ m_rows D1 = m_cols points /\ m_cols D1 = fq_NumBasisFunctions data /\
    forall q i, (q < m_cols points)%nat -> (i < fq_NumBasisFunctions data)%nat ->
      is_partial (fun p => m_at (V p) 0 i) 0 (pt points q) (m_at D0 q i) /\ is_partial (fun p => m_at (V p) 0 i) 1 (pt points q) (m_at D1 q i).
Proof. exact C64_derivatives_all. Qed.

(** C64 (finding): Laplacian values are never available: at points the call throws, at the quadrature points it throws on a
    general quadrilateral and returns an empty matrix on a parallelogram. *)
Theorem C64_laplacian_unavailable : forall data l,
  (forall points, Quad_LocalLaplacian data l points = Throw) /\
  match lq_Map l with
  | Generic _ => Quad_LocalLaplacian_quadrature l = Throw
  | Parallelogram _ => exists L, Quad_LocalLaplacian_quadrature l = Ok L /\ m_rows L = 0%nat /\ m_cols L = 0%nat
  end.
Proof.
  intros data l. split; [reflexivity|]. unfold Quad_LocalLaplacian_quadrature, quad_MapLaplacian. destruct (lq_Map l); [|reflexivity]. eexists. repeat split.
Qed.

(** C65: two quadrilaterals that share the unknowns of an edge agree at every point of the edge. *)
Theorem C65_continuity_quadrilaterals : forall junk lobatto order data dir1 dir2 m1 m2 l1 l2 e1 e2 u1 u2, (1 <= order)%nat -> Quad_Create junk lobatto order = Ok data -> (Z.of_nat (fq_NumBasisFunctions data) <= UINT_MAX)%Z ->
  (4 <= length dir1)%nat -> (4 <= length dir2)%nat -> good_map m1 -> good_map m2 ->
  Quad_CreateLocalSpace data 4 dir1 m1 = Ok l1 -> Quad_CreateLocalSpace data 4 dir2 m2 = Ok l2 -> (e1 < 4)%nat -> (e2 < 4)%nat ->
  let A1 := (if nth e1 dir1 true then e1 else (e1 + 1) mod 4)%nat in let Z1 := (if nth e1 dir1 true then (e1 + 1) mod 4 else e1)%nat in
  let A2 := (if nth e2 dir2 true then e2 else (e2 + 1) mod 4)%nat in let Z2 := (if nth e2 dir2 true then (e2 + 1) mod 4 else e2)%nat in
  (forall c, (c < 3)%nat -> m_at (lq_Dofs l1) c A1 = m_at (lq_Dofs l2) c A2 /\ m_at (lq_Dofs l1) c Z1 = m_at (lq_Dofs l2) c Z2) ->
  u1 A1 = u2 A2 -> u1 Z1 = u2 Z2 -> (forall k, (k < fq_NumDofs1D data)%nat -> u1 (4 + e1 * fq_NumDofs1D data + k)%nat = u2 (4 + e2 * fq_NumDofs1D data + k)%nat) ->
  forall (s : R) (p : point), 0 <= s <= 1 -> (forall c, (c < 3)%nat -> p c = (1 - s) * m_at (lq_Dofs l1) c A1 + s * m_at (lq_Dofs l1) c Z1) ->
  exists V1 V2, Quad_LocalValues junk data l1 (space_point p) = Ok V1 /\ Quad_LocalValues junk data l2 (space_point p) = Ok V2 /\
    rsum (fq_NumBasisFunctions data) (fun d => u1 d * m_at V1 0 d) = rsum (fq_NumBasisFunctions data) (fun d => u2 d * m_at V2 0 d).
Proof. exact C65_quads_all. Qed.

(** C65: and so do a triangle and a quadrilateral of the same order. *)
Theorem C65_continuity_triangle_quadrilateral : forall junk lobatto order dataT dataQ dirT dirQ mT mQ lT lQ eT eQ uT uQ, (1 <= order)%nat -> Tri_Create order = Ok dataT -> Quad_Create junk lobatto order = Ok dataQ ->
  (Z.of_nat (fq_NumBasisFunctions dataQ) <= UINT_MAX)%Z ->
  (3 <= length dirT)%nat -> (4 <= length dirQ)%nat -> inverse3 (mt_B mT) (mt_BInv mT) -> good_map mQ ->
  Tri_CreateLocalSpace dataT 3 dirT mT = Ok lT -> Quad_CreateLocalSpace dataQ 4 dirQ mQ = Ok lQ -> (eT < 3)%nat -> (eQ < 4)%nat ->
  let AT := (if nth eT dirT true then eT else (eT + 1) mod 3)%nat in let ZT := (if nth eT dirT true then (eT + 1) mod 3 else eT)%nat in
  let AQ := (if nth eQ dirQ true then eQ else (eQ + 1) mod 4)%nat in let ZQ := (if nth eQ dirQ true then (eQ + 1) mod 4 else eQ)%nat in
  ft_NumDofs1D dataT = fq_NumDofs1D dataQ /\
  ((forall c, (c < 3)%nat -> m_at (lt_Dofs lT) c AT = m_at (lq_Dofs lQ) c AQ /\ m_at (lt_Dofs lT) c ZT = m_at (lq_Dofs lQ) c ZQ) ->
  uT AT = uQ AQ -> uT ZT = uQ ZQ -> (forall k, (k < ft_NumDofs1D dataT)%nat -> uT (3 + eT * ft_NumDofs1D dataT + k)%nat = uQ (4 + eQ * ft_NumDofs1D dataT + k)%nat) ->
  forall (s : R) (p : point), 0 <= s <= 1 -> (forall c, (c < 3)%nat -> p c = (1 - s) * m_at (lt_Dofs lT) c AT + s * m_at (lt_Dofs lT) c ZT) ->
  exists V1 V2, Tri_LocalValues dataT lT (space_point p) = Ok V1 /\ Quad_LocalValues junk dataQ lQ (space_point p) = Ok V2 /\
    rsum (ft_NumBasisFunctions dataT) (fun d => uT d * m_at V1 0 d) = rsum (fq_NumBasisFunctions dataQ) (fun d => uQ d * m_at V2 0 d)).
Proof. exact C65_triangle_all. Qed.

(** ** Concrete cases *)
Definition quad_mesh_view (order : nat) (dir : list bool) : list nat :=
  match quad_mesh_order ((order + 1) * (order + 1)) 1 (order - 1) ((order - 1) * (order - 1)) quad_edges_table dir with Ok l => l | _ => [] end.
Example C64_case : quad_mesh_view 3 [true; false; true; false] = [0; 1; 2; 3; 4; 5; 7; 6; 9; 8; 10; 11; 12; 13; 14; 15]%nat.
Proof. vm_compute. reflexivity. Qed.

(** the trapezium (0,0), (1,0), (2,1), (0,1) *)
Definition trapezium (v : nat) : point := match v with 0%nat => vec3 0 0 0 | 1%nat => vec3 1 0 0 | 2%nat => vec3 2 1 0 | _ => vec3 0 1 0 end.
Definition trapezium_map : MapQuadrilateral :=
  {| mq_F := bilinear trapezium; mq_FInv := fun p => vec3 (p 0%nat / (1 + p 1%nat)) (p 1%nat) 0;
     mq_JInv := fun x i j => match i, j with O, O => / (1 + x 1%nat) | O, S O => - x 0%nat / (1 + x 1%nat) | S O, S O => 1 | _, _ => 0 end |}.
Example C64_map_case : maps_square (mq_F trapezium_map) (mq_FInv trapezium_map) trapezium /\
  jacobian_at (mq_FInv trapezium_map) (vec3 1 (1 / 2) 0) (mq_JInv trapezium_map (mq_FInv trapezium_map (vec3 1 (1 / 2) 0))).
Proof.
  split.
  - split; [reflexivity|]. split.
    + intros x i (H0 & H1 & H2) Hi. cbn [mq_F mq_FInv trapezium_map]. unfold bilinear. destruct i as [|[|i]]; [| |lia]; cbn [trapezium vec3]; [field|ring]; lra.
    + intros x y H i. cbn [mq_FInv trapezium_map]. now rewrite !H by lia.
  - intros d Hd. cbn [mq_FInv mq_JInv trapezium_map]. unfold is_partial, setc. destruct d as [|[|d]]; [| |lia]; cbn [Nat.eqb vec3]; split.
    + replace (/ (1 + 1 / 2)) with (/ (1 + 1 / 2) * 1) by ring. apply (dpl_ext (fun s => / (1 + 1 / 2) * id s)); [intros s; unfold id, Rdiv; ring|]. apply (derivable_pt_lim_scal id). apply derivable_pt_lim_id.
    + apply derivable_pt_lim_const.
    + replace (- (1 / (1 + 1 / 2)) / (1 + 1 / 2)) with ((0 * (1 + 1 / 2) - (0 + 1) * 1) / Rsqr (1 + 1 / 2)) by (unfold Rsqr; field).
      apply (derivable_pt_lim_div (fun _ => 1) (fun s => 1 + s)); [apply derivable_pt_lim_const| |lra]. apply (derivable_pt_lim_plus (fun _ => 1) id); [apply derivable_pt_lim_const|apply derivable_pt_lim_id].
    + apply derivable_pt_lim_id.
Qed.
(** the neighbours of C65: the trapezium and the triangle that shares its edge 3 *)
Definition left_map : MapTriangleData :=
  {| mt_B := fun i j => if (i =? j)%nat then if (i =? 0)%nat then -1 else 1 else 0; mt_BInv := fun i j => if (i =? j)%nat then if (i =? 0)%nat then -1 else 1 else 0; mt_b := fun i => 0 |}.
Example C65_case : forall junk lobatto, exists dataT dataQ lT lQ, Tri_Create 3 = Ok dataT /\ Quad_Create junk lobatto 3 = Ok dataQ /\ (Z.of_nat (fq_NumBasisFunctions dataQ) <= UINT_MAX)%Z /\
  inverse3 (mt_B left_map) (mt_BInv left_map) /\ good_map (Generic trapezium_map) /\
  Tri_CreateLocalSpace dataT 3 [true; true; false] left_map = Ok lT /\ Quad_CreateLocalSpace dataQ 4 [true; true; true; false] (Generic trapezium_map) = Ok lQ /\
  forall c, (c < 3)%nat -> m_at (lt_Dofs lT) c 0 = m_at (lq_Dofs lQ) c 0 /\ m_at (lt_Dofs lT) c 2 = m_at (lq_Dofs lQ) c 3 /\ m_at (lt_Dofs lT) 1 0 <> m_at (lt_Dofs lT) 1 2.
Proof.
  intros junk lobatto. destruct (C41_triangle_lattice 3 ltac:(lia)) as (dataT & ET & _). pose proof (small_range 3 dataT ltac:(lia) ET) as HRT.
  destruct (C62_square_lattice junk lobatto 3 ltac:(lia)) as (dataQ & EQ & _ & NQ & _).
  assert (HRQ : (Z.of_nat (fq_NumBasisFunctions dataQ) <= UINT_MAX)%Z) by (rewrite NQ; unfold UINT_MAX; lia).
  destruct (C45_edge_order 3 dataT [true; true; false] left_map ET ltac:(cbn; lia) HRT) as (lT & ELT & _).
  destruct (C64_edge_order junk lobatto 3 dataQ [true; true; true; false] (Generic trapezium_map) ltac:(lia) EQ ltac:(cbn; lia) HRQ) as (lQ & ELQ & _).
  exists dataT, dataQ, lT, lQ. do 3 (split; [assumption|]).
  split. { intros i j Hi Hj. destruct i as [|[|[|i]]]; try lia; destruct j as [|[|[|j]]]; try lia; cbn; split; ring. }
  split. { exists trapezium. apply C64_map_case. } do 2 (split; [assumption|]).
  intros c Hc. rewrite !(vertex_pos 3 dataT [true; true; false] left_map lT ltac:(lia) ET ltac:(cbn; lia) HRT ELT) by lia.
  rewrite !(C64_vertices junk lobatto 3 dataQ [true; true; true; false] trapezium_map trapezium lQ ltac:(lia) EQ ltac:(cbn; lia) HRQ (proj1 C64_map_case) ELQ) by lia.
  unfold affine, vec3. destruct c as [|[|[|c]]]; try lia; cbn; repeat split; lra.
Qed.

Print Assumptions C62_square_lattice.
Print Assumptions C62_order_zero_throws.
Print Assumptions C63_square_nodal.
Print Assumptions C63_square_reproduces.
Print Assumptions C63_square_derivatives.
Print Assumptions C64_edge_order.
Print Assumptions C64_edge_positions.
Print Assumptions C64_vertices.
Print Assumptions C64_local_nodal.
Print Assumptions C64_local_derivatives.
Print Assumptions C64_laplacian_unavailable.
Print Assumptions C65_continuity_quadrilaterals.
Print Assumptions C65_continuity_triangle_quadrilateral.
