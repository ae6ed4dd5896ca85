(** Properties C36, C37, C38, C40, C60. *)
From Coq Require Import List Arith Bool Lia Reals Lra.
From Verif Require Import Base RSum MatrixModel MonomialsModel LagrangeModel LagrangeSpec LagrangeProofs LagrangeProofs2.
Import ListNotations.
Local Open Scope R_scope.

(** C36: basis function i is 1 at point i and 0 at the others. *)
Theorem C36_lagrange_nodal : forall junk x, distinct (v_size x) (v_at x) -> exists c V,
  Lagrange_1D_coefficients junk x = Ok c /\ Lagrange_1D_values junk x c x = Ok V /\
  m_rows V = v_size x /\ m_cols V = v_size x /\
  forall i j, (i < v_size x)%nat -> (j < v_size x)%nat -> m_at V j i = kron i j.
Proof. exact C36_all. Qed.

(** C37: polynomials of degree < n are reproduced, and the basis sums to one. *)
Theorem C37_lagrange_reproduces : forall junk x y a, distinct (v_size x) (v_at x) -> exists c V,
  Lagrange_1D_coefficients junk x = Ok c /\ Lagrange_1D_values junk x c y = Ok V /\
  m_rows V = v_size y /\ m_cols V = v_size x /\
  forall q, (q < v_size y)%nat ->
    rsum (v_size x) (fun i => polynomial (v_size x) a (v_at x i) * m_at V q i) = polynomial (v_size x) a (v_at y q).
Proof. exact C37_all. Qed.
Theorem C37_partition_of_unity : forall junk x y, (0 < v_size x)%nat -> distinct (v_size x) (v_at x) -> exists c V,
  Lagrange_1D_coefficients junk x = Ok c /\ Lagrange_1D_values junk x c y = Ok V /\
  forall q, (q < v_size y)%nat -> rsum (v_size x) (fun i => m_at V q i) = 1.
Proof. exact C37_unity. Qed.

(** C38: the derivative values are the derivatives of the values. *)
Theorem C38_lagrange_derivatives : forall junk x c y, v_size c = v_size x -> exists D V,
  Lagrange_1D_derivative_values junk x c y = Ok D /\ m_rows D = v_size y /\ m_cols D = v_size x /\
  (forall t, Lagrange_1D_values junk x c (one_point t) = Ok (V t)) /\
  forall q i, (q < v_size y)%nat -> (i < v_size x)%nat -> derivable_pt_lim (fun t => m_at (V t) 0 i) (v_at y q) (m_at D q i).
Proof. exact C38_all. Qed.

(** C40: dofs of the one dimensional element ... *)
Theorem C40_dof_positions : forall junk lobatto order type, (1 <= order)%nat ->
  (type = GaussLobatto -> v_size (lobatto (2 * order - 1)%nat) = (order + 1)%nat /\ distinct (order + 1) (v_at (lobatto (2 * order - 1)%nat))) ->
  exists data, FEM_1D_Create junk lobatto order type = Ok data /\
    f1_NumBasisFunctions data = (order + 1)%nat /\ (2 * f1_NumDofs0D data + f1_NumDofs1D data = f1_NumBasisFunctions data)%nat /\
    f1_NumDofs0D data = 1%nat /\
    m_rows (f1_DofPositions data) = 3%nat /\ m_cols (f1_DofPositions data) = (order + 1)%nat /\
    let p := fun i => match type with Equispaced => INR i / INR order | GaussLobatto => v_at (lobatto (2 * order - 1)%nat) i end in
    m_at (f1_DofPositions data) 0 0 = p 0%nat /\
    m_at (f1_DofPositions data) 0 1 = p order /\
    (forall k, (k < order - 1)%nat -> m_at (f1_DofPositions data) 0 (2 + k) = p (1 + k)%nat) /\
    (forall k, (k < order + 1)%nat -> m_at (f1_DofPositions data) 1 k = 0 /\ m_at (f1_DofPositions data) 2 k = 0).
Proof. exact C40_dofs_all. Qed.

(** ... its basis is nodal at the dof positions and reproduces the polynomials of degree <= order ... *)
Theorem C40_nodal_basis : forall junk lobatto order type data, (1 <= order)%nat ->
  (type = GaussLobatto -> v_size (lobatto (2 * order - 1)%nat) = (order + 1)%nat /\ distinct (order + 1) (v_at (lobatto (2 * order - 1)%nat))) ->
  FEM_1D_Create junk lobatto order type = Ok data ->
  (exists V, FEM_1D_Values junk (f1_DofPositions data) data = Ok V /\ m_rows V = (order + 1)%nat /\ m_cols V = (order + 1)%nat /\
     forall i j, (i < order + 1)%nat -> (j < order + 1)%nat -> m_at V j i = kron i j) /\
  (forall points a, (0 < m_rows points)%nat -> exists V, FEM_1D_Values junk points data = Ok V /\ m_rows V = m_cols points /\ m_cols V = (order + 1)%nat /\
     forall q, (q < m_cols points)%nat ->
       rsum (order + 1) (fun i => polynomial (order + 1) a (m_at (f1_DofPositions data) 0 i) * m_at V q i) = polynomial (order + 1) a (m_at points 0 q)).
Proof. exact C40_basis_all. Qed.

(** ... and the element of order 0 is the constant function. *)
Theorem C40_order_zero : forall junk lobatto type, exists data, FEM_1D_Create junk lobatto 0 type = Ok data /\
  f1_NumBasisFunctions data = 1%nat /\ (2 * f1_NumDofs0D data + f1_NumDofs1D data = 1)%nat /\ m_at (f1_DofPositions data) 0 0 = 1 / 2 /\
  forall points, (0 < m_rows points)%nat -> exists V D, FEM_1D_Values junk points data = Ok V /\ FEM_1D_Derivatives junk points data = Ok [D] /\
    forall q, m_at V q 0 = 1 /\ m_at D q 0 = 0.
Proof. exact C40_order0_all. Qed.

(** C60: on a segment of R^3 the local space has its dofs on the segment, its basis is nodal there and its derivatives are the
    derivatives along the segment (per unit length) of the basis functions. *)
Theorem C60_segment_local_space : forall junk lobatto order type data s, (1 <= order)%nat ->
  (type = GaussLobatto -> v_size (lobatto (2 * order - 1)%nat) = (order + 1)%nat /\ distinct (order + 1) (v_at (lobatto (2 * order - 1)%nat))) ->
  FEM_1D_Create junk lobatto order type = Ok data ->
  sg_Length s <> 0 -> dot3 (sg_Tangent s) (sg_Tangent s) = sg_Length s * sg_Length s ->
  exists l, FEM_1D_CreateLocalSpace junk data s = Ok l /\
    m_rows (l1_Dofs l) = 3%nat /\ m_cols (l1_Dofs l) = (order + 1)%nat /\
    (forall d j, (j < order + 1)%nat -> m_at (l1_Dofs l) d j = sg_Origin s d + sg_Tangent s d * m_at (f1_DofPositions data) 0 j) /\
    (exists V, FEM_1D_LocalValues junk data l (l1_Dofs l) = Ok V /\ m_rows V = (order + 1)%nat /\ m_cols V = (order + 1)%nat /\
       forall i j, (i < order + 1)%nat -> (j < order + 1)%nat -> m_at V j i = kron i j) /\
    (exists V D, forall a, let p := fun d => sg_Origin s d + a / sg_Length s * sg_Tangent s d in
       FEM_1D_LocalValues junk data l (space_point p) = Ok (V a) /\
       FEM_1D_LocalDerivatives junk data l (space_point p) = Ok [D a] /\
       forall i, (i < order + 1)%nat -> derivable_pt_lim (fun b => m_at (V b) 0 i) a (m_at (D a) 0 i)).
Proof. exact C60_all. Qed.

(** ** Instances *)
Definition ex_nodes : Vec := {| v_size := 3; v_at := fun i => match i with O => 0 | S O => 1 | _ => 3 end |}.
Lemma ex_nodes_distinct : distinct (v_size ex_nodes) (v_at ex_nodes).
Proof. intros [|[|[|i]]] [|[|[|j]]]; cbn; intros; auto; try lia; lra. Qed.

(** the basis of the nodes 0, 1, 3 at t = 2 is (-1/3, 1, 1/3) *)
Example C36_case : exists c V, Lagrange_1D_coefficients (fun _ _ => 77) ex_nodes = Ok c /\
  Lagrange_1D_values (fun _ _ => 77) ex_nodes c (one_point 2) = Ok V /\ m_at V 0 0 = -1/3 /\ m_at V 0 1 = 1 /\ m_at V 0 2 = 1/3.
Proof.
  destruct (lagrange_ok (fun _ _ => 77) ex_nodes (one_point 2) ex_nodes_distinct) as (c & V & E1 & E2 & _ & _ & _ & H).
  exists c, V. repeat split; auto; rewrite H by (cbn; lia); unfold pne; cbn; field.
Qed.

(** the derivative at 2 of the first of them, (t-1)(t-3)/3, is 0; of the last, t(t-1)/6, is 1/2 *)
Example C38_case : exists c D, Lagrange_1D_coefficients (fun _ _ => 77) ex_nodes = Ok c /\
  Lagrange_1D_derivative_values (fun _ _ => 77) ex_nodes c (one_point 2) = Ok D /\ m_at D 0 0 = 0 /\ m_at D 0 2 = 1/2.
Proof.
  destruct (coefficients_ok (fun _ _ => 77) ex_nodes ex_nodes_distinct) as (c & E1 & C1 & C2).
  destruct (derivative_values_ok (fun _ _ => 77) ex_nodes c (one_point 2) (fun _ => C1)) as (D & E2 & _ & _ & H).
  exists c, D. repeat split; auto; rewrite H, C2 by (cbn; lia); unfold pne; cbn; field.
Qed.

(** a Gauss-Lobatto rule with the right number of distinct points: order 2, points 0, 1/2, 1 *)
Definition ex_lobatto (_ : nat) : Vec := {| v_size := 3; v_at := fun i => match i with O => 0 | S O => 1/2 | _ => 1 end |}.
Example C40_case : v_size (ex_lobatto (2 * 2 - 1)) = (2 + 1)%nat /\ distinct (2 + 1) (v_at (ex_lobatto (2 * 2 - 1))) /\
  exists data, FEM_1D_Create (fun _ _ => 77) ex_lobatto 2 GaussLobatto = Ok data /\ m_at (f1_DofPositions data) 0 1 = 1 /\ m_at (f1_DofPositions data) 0 2 = 1/2.
Proof.
  assert (D : distinct (2 + 1) (v_at (ex_lobatto (2 * 2 - 1)))).
  { intros [|[|[|i]]] [|[|[|j]]]; cbn; intros; auto; try lia; lra. }
  repeat split; auto.
  destruct (C40_dof_positions (fun _ _ => 77) ex_lobatto 2 GaussLobatto ltac:(lia) (fun _ => conj eq_refl D)) as (data & E & _ & _ & _ & _ & _ & _ & P1 & P2 & _).
  exists data. repeat split; auto. exact (P2 0%nat ltac:(lia)).
Qed.

(** a segment of length 5 in the plane *)
Definition ex_segment := {| sg_Origin := fun d => INR d; sg_Tangent := fun d => match d with O => 3 | S O => 4 | _ => 0 end; sg_Length := 5 |}.
Example C60_case : sg_Length ex_segment <> 0 /\ dot3 (sg_Tangent ex_segment) (sg_Tangent ex_segment) = sg_Length ex_segment * sg_Length ex_segment /\
  exists data l, FEM_1D_Create (fun _ _ => 77) ex_lobatto 3 Equispaced = Ok data /\ FEM_1D_CreateLocalSpace (fun _ _ => 77) data ex_segment = Ok l /\
    m_at (l1_Dofs l) 0 2 = 1 /\ m_at (l1_Dofs l) 1 2 = 1 + 4/3.
Proof.
  assert (A : sg_Length ex_segment <> 0) by (cbn; lra).
  assert (B : dot3 (sg_Tangent ex_segment) (sg_Tangent ex_segment) = sg_Length ex_segment * sg_Length ex_segment) by (unfold dot3; cbn; ring).
  split; auto. split; auto.
  destruct (C40_dof_positions (fun _ _ => 77) ex_lobatto 3 Equispaced ltac:(lia) ltac:(discriminate)) as (data & E & _ & _ & _ & _ & _ & _ & _ & P2 & _).
  destruct (C60_segment_local_space (fun _ _ => 77) ex_lobatto 3 Equispaced data ex_segment ltac:(lia) ltac:(discriminate) E A B) as (l & El & _ & _ & Hd & _).
  exists data, l. repeat split; auto; rewrite Hd by lia; change 2%nat with (2 + 0)%nat; rewrite P2 by lia; cbn; field.
Qed.

Print Assumptions C36_lagrange_nodal.
Print Assumptions C37_lagrange_reproduces.
Print Assumptions C37_partition_of_unity.
Print Assumptions C38_lagrange_derivatives.
Print Assumptions C40_dof_positions.
Print Assumptions C40_nodal_basis.
Print Assumptions C40_order_zero.
Print Assumptions C60_segment_local_space.
