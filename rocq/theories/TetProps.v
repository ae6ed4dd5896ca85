(** Theorems about the finite element on the reference tetrahedron, C47 C48 C84. *)
From Coq Require Import List Arith Bool Lia Reals Lra.
From Verif Require Import Base RSum MatrixModel MonomialsSpec LagrangeSpec TriangleModel VemQuadModel TetModel TetProofs5 TetSpec.
Import ListNotations.
Local Open Scope R_scope.

Theorem C47_tetrahedron_nodes : forall gt junk order, (1 <= order)%nat -> (3 <= m_rows (q_Points (gt (2 * order)%nat)))%nat ->
  exists data, Tet_Create gt junk order = Ok data /\
  let N := te_NumBasisFunctions data in let P := te_DofPositions data in
  (6 * N = (order + 1) * (order + 2) * (order + 3))%nat /\ m_rows P = 3%nat /\ m_cols P = N /\
  (forall i, (i < N)%nat -> exists a b c, (a + b + c <= order)%nat /\ at_point3 P i (INR a / INR order) (INR b / INR order) (INR c / INR order)) /\
  (forall a b c, (a + b + c <= order)%nat -> exists! i, (i < N)%nat /\ at_point3 P i (INR a / INR order) (INR b / INR order) (INR c / INR order)).
Proof.
  intros gt junk order Ho HQ. destruct (create_ok order Ho gt junk HQ) as (data & E & D & _). exists data. split; auto. exact (lattice_nodes order Ho data D).
Qed.
Print Assumptions C47_tetrahedron_nodes.

Theorem C47_tetrahedron_nodal : forall gt junk order data, (1 <= order)%nat -> (3 <= m_rows (q_Points (gt (2 * order)%nat)))%nat -> Tet_Create gt junk order = Ok data ->
  exists V, Tet_Values (te_DofPositions data) data = Ok V /\ m_rows V = te_NumBasisFunctions data /\ m_cols V = te_NumBasisFunctions data /\
  forall i j, (i < te_NumBasisFunctions data)%nat -> (j < te_NumBasisFunctions data)%nat -> m_at V i j = if (i =? j)%nat then 1 else 0.
Proof. intros gt junk order data Ho HQ E. exact (nodal order Ho data (created order Ho gt junk data HQ E)). Qed.
Print Assumptions C47_tetrahedron_nodal.

Theorem C47_tetrahedron_sum_one : forall gt junk order data points, (1 <= order)%nat -> (3 <= m_rows (q_Points (gt (2 * order)%nat)))%nat -> Tet_Create gt junk order = Ok data ->
  (3 <= m_rows points)%nat ->
  exists V, Tet_Values points data = Ok V /\ m_rows V = m_cols points /\ m_cols V = te_NumBasisFunctions data /\ forall q, rsum (te_NumBasisFunctions data) (fun i => m_at V q i) = 1.
Proof. intros gt junk order data points Ho HQ E HP. exact (sum_one order Ho data points (created order Ho gt junk data HQ E) HP). Qed.
Print Assumptions C47_tetrahedron_sum_one.

(** order 0 is accepted by the code but the evaluation reads the first element of an empty vector *)
Theorem C47_tetrahedron_order_0 : forall gt junk, (3 <= m_rows (q_Points (gt 0%nat)))%nat -> Tet_Create gt junk 0 = UB.
Proof. exact create_0. Qed.
Print Assumptions C47_tetrahedron_order_0.

Theorem C48_tetrahedron_derivatives : forall gt junk order data points, (1 <= order)%nat -> (3 <= m_rows (q_Points (gt (2 * order)%nat)))%nat -> Tet_Create gt junk order = Ok data ->
  (3 <= m_rows points)%nat ->
  exists D, Tet_Derivatives points data = Ok D /\ length D = 3%nat /\
    forall d, (d < 3)%nat -> exists A, nth_error D d = Some A /\ f_rows A = m_cols points /\ f_cols A = te_NumBasisFunctions data /\
      forall q i, (i < te_NumBasisFunctions data)%nat ->
        ((2 <= order)%nat -> plane_below order (col3 (te_DofPositions data) i) (col3 points q) -> f_at A q i = None) /\
        (order = 1%nat \/ ~ plane_below order (col3 (te_DofPositions data) i) (col3 points q) -> exists v, f_at A q i = Some v /\
          is_partial (fun x => match Tet_Values (space_point x) data with Ok V => m_at V 0 i | _ => 0 end) d (col3 points q) v).
Proof. intros gt junk order data points Ho HQ E HP. exact (derivatives_spec order Ho data points (created order Ho gt junk data HQ E) HP). Qed.
Print Assumptions C48_tetrahedron_derivatives.

(** so from order 2 on the three derivatives of some shape function are no numbers at any point of the lattice of nodes *)
Theorem C48_tetrahedron_derivatives_refuted_at_nodes : forall gt junk order data points q a b c, (2 <= order)%nat -> (3 <= m_rows (q_Points (gt (2 * order)%nat)))%nat ->
  Tet_Create gt junk order = Ok data -> (3 <= m_rows points)%nat ->
  (a + b + c <= order)%nat -> at_point3 points q (INR a / INR order) (INR b / INR order) (INR c / INR order) ->
  exists D i, Tet_Derivatives points data = Ok D /\ (i < te_NumBasisFunctions data)%nat /\ forall d, (d < 3)%nat -> exists A, nth_error D d = Some A /\ f_at A q i = None.
Proof.
  intros gt junk order data points q a b c Ho HQ E HP S (A0 & A1 & A2). assert (H1 : (1 <= order)%nat) by lia. pose proof (created order H1 gt junk data HQ E) as TD.
  destruct (plane_below_node order H1 data (col3 points q) TD) as (i & Hi & PB); [exists a, b, c; auto|].
  destruct (derivatives_spec order H1 data points TD HP) as (D & ED & _ & H). exists D, i. split; auto. split; auto. intros d Hd. destruct (H d Hd) as (A & EA & _ & _ & HA). exists A. split; auto. now apply (HA q i Hi).
Qed.
Print Assumptions C48_tetrahedron_derivatives_refuted_at_nodes.

Theorem C84_tetrahedron_reproduces : forall gt junk order data points c, (1 <= order)%nat -> (3 <= m_rows (q_Points (gt (2 * order)%nat)))%nat -> Tet_Create gt junk order = Ok data ->
  (3 <= m_rows points)%nat ->
  exists V, Tet_Values points data = Ok V /\ m_rows V = m_cols points /\ m_cols V = te_NumBasisFunctions data /\
    let P := te_DofPositions data in
    forall q, rsum (te_NumBasisFunctions data) (fun i => poly3 order c (m_at P 0 i) (m_at P 1 i) (m_at P 2 i) * m_at V q i)
              = poly3 order c (m_at points 0 q) (m_at points 1 q) (m_at points 2 q).
Proof. intros gt junk order data points c Ho HQ E HP. exact (reproduce order Ho data points c (created order Ho gt junk data HQ E) HP). Qed.
Print Assumptions C84_tetrahedron_reproduces.

(** ** Cases *)
(** a rule with one point, the barycentre *)
Definition tet_rule (n : nat) : QuadratureData := {| q_Points := {| m_rows := 3; m_cols := 1; m_at := fun _ _ => 1 / 4 |}; q_Weights := {| v_size := 1; v_at := fun _ => 1 / 6 |} |}.
Example tet_created : forall junk, exists data, Tet_Create tet_rule junk 3 = Ok data /\ te_NumBasisFunctions data = 20%nat.
Proof.
  intros junk. destruct (C47_tetrahedron_nodes tet_rule junk 3 ltac:(lia) ltac:(cbn; lia)) as (data & E & H & _). exists data. split; auto. cbv zeta in H. cbn [Nat.add Nat.mul] in H. lia.
Qed.
(** order 2: at the barycentre no derivative is lost, at the middle of an edge some is *)
Example not_below : forall a b c, (a + b + c <= 2)%nat -> ~ plane_below 2 (vec3 (INR a / INR 2) (INR b / INR 2) (INR c / INR 2)) (fun _ => 1 / 4).
Proof.
  intros a b c _ (k & p & Hk & E & _). assert (B : bary (fun _ => 1 / 4) k = 1 / 4) by (unfold bary; destruct k; cbn; lra). rewrite B in E. cbn [INR] in E.
  assert (H : INR p = / 2) by lra. destruct p as [|p]; [cbn in H; lra|]. rewrite S_INR in H. pose proof (pos_INR p). lra.
Qed.
Example below : plane_below 2 (vec3 1 0 0) (vec3 (1 / 2) (1 / 2) 0).
Proof. exists 1%nat, 1%nat. cbn. repeat split; try lia; lra. Qed.
(** a cubic *)
Definition cubic (a b e : nat) : R := if ((a =? 1) && (b =? 1) && (e =? 1))%nat then 6 else if ((a =? 0) && (b =? 2) && (e =? 0))%nat then -1 else 0.
Example cubic_case : poly3 3 cubic 1 2 3 = 32.
Proof. unfold poly3, cubic. cbn. lra. Qed.
