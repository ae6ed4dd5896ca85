(** Theorems about the triangle element on a triangle of the mesh. *)
From Coq Require Import List Arith Bool Lia ZArith Reals Lra.
From Verif Require Import Base RSum MatrixModel GreenSpec TriangleModel TriangleSpec TriangleProofs4 TriangleProofs5 TriangleProofs6.
Import ListNotations.
Local Open Scope R_scope.
Local Notation poly2 := GreenSpec.poly2.

(** C78: on a triangle of the mesh, the polynomials of degree at most the order are the interpolants of their values at the
    dofs, and so are their gradients, whichever way the edges are seen. *)
Theorem C78_triangle_reproduces : forall order data dir m l, (1 <= order)%nat -> Tri_Create order = Ok data -> (3 <= length dir)%nat -> (Z.of_nat (ft_NumBasisFunctions data) <= UINT_MAX)%Z ->
  Tri_CreateLocalSpace data 3 dir m = Ok l -> inverse3 (mt_B m) (mt_BInv m) -> mt_B m 0 2 = 0 -> mt_B m 1 2 = 0 ->
  forall points f fx fy, poly2 order f fx fy -> exists V, Tri_LocalValues data l points = Ok V /\ m_rows V = m_cols points /\ m_cols V = ft_NumBasisFunctions data /\
    forall q, (q < m_cols points)%nat -> rsum (ft_NumBasisFunctions data) (fun i => f (m_at (lt_Dofs l) 0 i) (m_at (lt_Dofs l) 1 i) * m_at V q i) = f (m_at points 0 q) (m_at points 1 q).
Proof. exact local_reproduces. Qed.

Theorem C78_triangle_gradient : forall order data dir m l, (1 <= order)%nat -> Tri_Create order = Ok data -> (3 <= length dir)%nat -> (Z.of_nat (ft_NumBasisFunctions data) <= UINT_MAX)%Z ->
  Tri_CreateLocalSpace data 3 dir m = Ok l -> inverse3 (mt_B m) (mt_BInv m) -> mt_B m 0 2 = 0 -> mt_B m 1 2 = 0 ->
  forall points f fx fy, poly2 order f fx fy -> exists D0 D1, Tri_LocalDerivatives data l points = Ok [D0; D1] /\
    m_rows D0 = m_cols points /\ m_cols D0 = ft_NumBasisFunctions data /\ m_rows D1 = m_cols points /\ m_cols D1 = ft_NumBasisFunctions data /\
    forall q, (q < m_cols points)%nat ->
      rsum (ft_NumBasisFunctions data) (fun i => f (m_at (lt_Dofs l) 0 i) (m_at (lt_Dofs l) 1 i) * m_at D0 q i) = fx (m_at points 0 q) (m_at points 1 q) /\
      rsum (ft_NumBasisFunctions data) (fun i => f (m_at (lt_Dofs l) 0 i) (m_at (lt_Dofs l) 1 i) * m_at D1 q i) = fy (m_at points 0 q) (m_at points 1 q).
Proof. exact local_gradient_reproduces. Qed.

(** ** Example: the triangle (1,0), (3,0), (1,4) with order 2, the last edge seen backwards, the polynomial x y *)
Definition ex_map : MapTriangleData := {|
  mt_B := fun i j => match i, j with 0%nat, 0%nat => 2 | 1%nat, 1%nat => 4 | 2%nat, 2%nat => 1 | _, _ => 0 end;
  mt_BInv := fun i j => match i, j with 0%nat, 0%nat => 1/2 | 1%nat, 1%nat => 1/4 | 2%nat, 2%nat => 1 | _, _ => 0 end;
  mt_b := fun i => match i with 0%nat => 1 | _ => 0 end |}.
Example C78_case : forall data, Tri_Create 2 = Ok data -> exists l D0 D1, Tri_CreateLocalSpace data 3 [true; true; false] ex_map = Ok l /\
  let points := {| m_rows := 3; m_cols := 1; m_at := fun i _ => match i with 0%nat => 3/2 | 1%nat => 1 | _ => 0 end |} in
  Tri_LocalDerivatives data l points = Ok [D0; D1] /\ rsum (ft_NumBasisFunctions data) (fun i => m_at (lt_Dofs l) 0 i ^ 1 * m_at (lt_Dofs l) 1 i ^ 1 * m_at D1 0 i) = 3 / 2.
Proof.
  intros data E. pose proof (small_range 2 data ltac:(lia) E) as HR. destruct (local_ok 2 data [true; true; false] ex_map E ltac:(cbn; lia) HR) as (l & EL & _).
  exists l. destruct (C78_triangle_gradient 2 data [true; true; false] ex_map l ltac:(lia) E ltac:(cbn; lia) HR EL) with (points := {| m_rows := 3; m_cols := 1; m_at := fun i _ => match i with 0%nat => 3/2 | 1%nat => 1 | _ => 0 end |})
    (f := fun x y => x ^ 1 * y ^ 1) (fx := fun x y => INR 1 * x ^ (1 - 1) * y ^ 1) (fy := fun x y => INR 1 * x ^ 1 * y ^ (1 - 1)) as (D0 & D1 & ED & _ & _ & _ & _ & K); try reflexivity.
  - intros i j Hi Hj. destruct i as [|[|[|i]]]; try lia; destruct j as [|[|[|j]]]; try lia; cbn; lra.
  - apply (poly2_mono 2 1 1). lia.
  - exists D0, D1. split; auto. split; auto. refine (eq_trans (proj2 (K 0%nat ltac:(cbn; lia))) _). cbn. lra.
Qed.
Print Assumptions C78_triangle_reproduces.
Print Assumptions C78_triangle_gradient.
