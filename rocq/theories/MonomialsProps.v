(** Property theorems C27-C33: monomials (files Monomials of Utilities). *)
From Coq Require Import List Arith Bool Lia ZArith Reals Lra.
From Verif Require Import Base RSum MatrixModel MonomialsModel MonomialsSpec MonomialsProofs MonomialsProofs4.
Import ListNotations.
Local Open Scope R_scope.

Theorem C27_monomials_enumerated_once : forall dim M k, class_of dim M ->
  exists data, Compute M k = Ok data /\ length (Exponents data) = NumMonomials data /\ NoDup (Exponents data) /\
  (forall e, In e (Exponents data) <-> tuple dim e /\ (degree e <= Z.of_nat k)%Z) /\
  (forall i j, (i <= j < NumMonomials data)%nat -> (degree (expo (Exponents data) i) <= degree (expo (Exponents data) j))%Z) /\
  (dim = 1%nat -> NumMonomials data = (k + 1)%nat) /\
  (dim = 2%nat -> (2 * NumMonomials data = (k + 1) * (k + 2))%nat) /\
  (dim = 3%nat -> (6 * NumMonomials data = (k + 1) * (k + 2) * (k + 3))%nat).
Proof. exact C27_all. Qed.

Theorem C28_index_inverts_enumeration : forall dim M k data, class_of dim M -> Compute M k = Ok data ->
  (forall i, (i < NumMonomials data)%nat -> mc_Index M (expo (Exponents data) i) = Ok (Z.of_nat i)) /\
  (forall e, tuple dim e -> (degree e <= Z.of_nat k)%Z ->
     exists i, mc_Index M e = Ok (Z.of_nat i) /\ (i < NumMonomials data)%nat /\ expo (Exponents data) i = e) /\
  (forall e, length e = dim -> (mc_Index M e = Ok (-1)%Z <-> Exists (fun a => (a < 0)%Z) e)).
Proof. exact C28_all. Qed.

Theorem C29_derivative_indices : forall dim M k data i, class_of dim M -> Compute M k = Ok data -> (i < NumMonomials data)%nat ->
  let e := expo (Exponents data) i in
  exists l1 l2, DerivativeIndices M data i = Ok l1 /\ SecondDerivativeIndices M data i = Ok l2 /\
    length l1 = dim /\ length l2 = dim /\
    forall d, (d < dim)%nat ->
      ((0 < nth d e 0)%Z -> exists j, nth d l1 0%Z = Z.of_nat j /\ (j < NumMonomials data)%nat /\ expo (Exponents data) j = lower d 1 e) /\
      (~ (0 < nth d e 0)%Z -> nth d l1 0%Z = (-1)%Z) /\
      ((1 < nth d e 0)%Z -> exists j, nth d l2 0%Z = Z.of_nat j /\ (j < NumMonomials data)%nat /\ expo (Exponents data) j = lower d 2 e) /\
      (~ (1 < nth d e 0)%Z -> nth d l2 0%Z = (-1)%Z).
Proof. exact C29_all. Qed.

Theorem C30_matrices_differentiate : forall dim M k data, class_of dim M -> Compute M k = Ok data -> let n := NumMonomials data in
  length (DerivativeMatrices data) = dim /\
  (forall d, (d < dim)%nat -> exists D, nth_error (DerivativeMatrices data) d = Some D /\ m_rows D = n /\ m_cols D = n /\
     forall i x, (i < n)%nat -> is_partial (mono (expo (Exponents data) i)) d x
        (rsum n (fun j => m_at D i j * mono (expo (Exponents data) j) x))) /\
  m_rows (Laplacian data) = n /\ m_cols (Laplacian data) = n /\
  (forall i x, (i < n)%nat -> is_laplacian dim (mono (expo (Exponents data) i)) x
        (rsum n (fun j => m_at (Laplacian data) i j * mono (expo (Exponents data) j) x))).
Proof. exact C30_all. Qed.

Theorem C31_vander_evaluates : forall dim M k data junk points c h,
  class_of dim M -> Compute M k = Ok data -> m_rows points = 3%nat -> h <> 0 ->
  exists V, Vander dim junk data points c h = Ok V /\ m_rows V = m_cols points /\ m_cols V = NumMonomials data /\
    (forall q i, (i < NumMonomials data)%nat -> m_at V q i = mono (expo (Exponents data) i) (scaled c h (pt points q))) /\
    (forall q, m_at V q 0 = 1).
Proof. exact C31_all. Qed.

Theorem C32_vander_derivatives : forall dim M k data junk junk' points c h V,
  class_of dim M -> Compute M k = Ok data -> m_rows points = 3%nat -> h <> 0 ->
  Vander dim junk data points c h = Ok V ->
  exists VD, VanderDerivatives M junk' data V h = Ok VD /\ length VD = dim /\
    forall d, (d < dim)%nat -> exists A, nth_error VD d = Some A /\ m_rows A = m_cols points /\ m_cols A = NumMonomials data /\
      forall q i, (i < NumMonomials data)%nat ->
        is_partial (fun x => mono (expo (Exponents data) i) (scaled c h x)) d (pt points q) (m_at A q i).
Proof. exact C32_all. Qed.

(** Exact description of VanderLaplacian: in two and three dimensions it is the Laplacian as soon as
    the degree is at least one; the call is undefined when there are fewer than three monomials
    (degree 0; degree 1 in one dimension); in one dimension the column of x^2 is always wrong. *)
Theorem C33_vander_laplacian : forall dim M k data junk junk' points c h V,
  class_of dim M -> Compute M k = Ok data -> m_rows points = 3%nat -> h <> 0 ->
  Vander dim junk data points c h = Ok V ->
  ((3 <= NumMonomials data)%nat ->
  exists A, VanderLaplacian M junk' data V h = Ok A /\ m_rows A = m_cols points /\ m_cols A = NumMonomials data /\
      (forall q i, (i < NumMonomials data)%nat -> ~ (dim = 1%nat /\ i = 2%nat) ->
        is_laplacian dim (fun x => mono (expo (Exponents data) i) (scaled c h x)) (pt points q) (m_at A q i)) /\
      (dim = 1%nat -> forall q L, is_laplacian dim (fun x => mono (expo (Exponents data) 2) (scaled c h x)) (pt points q) L ->
          m_at A q 2 <> L)) /\
  ((NumMonomials data < 3)%nat -> VanderLaplacian M junk' data V h = UB).
Proof. exact C33_all. Qed.

(** ** Instances *)
Example ex_classes : class_of 1 Monomials_1D /\ class_of 2 Monomials_2D /\ class_of 3 Monomials_3D.
Proof. unfold class_of. intuition. Qed.

Example ex_2D_degree_2 : (d <- Compute Monomials_2D 2 ;; Ok (Exponents d)) = Ok
   [[0;0]; [1;0]; [0;1]; [2;0]; [1;1]; [0;2]]%Z.
Proof. vm_compute. reflexivity. Qed.
Example ex_3D_degree_2 : (d <- Compute Monomials_3D 2 ;; Ok (Exponents d)) = Ok
   [[0;0;0]; [1;0;0]; [0;1;0]; [0;0;1]; [2;0;0]; [1;1;0]; [0;2;0]; [1;0;1]; [0;1;1]; [0;0;2]]%Z.
Proof. vm_compute. reflexivity. Qed.
Example ex_1D_laplacian_UB : forall junk junk' points c h, m_rows points = 3%nat -> h <> 0 ->
  exists data V, Compute Monomials_1D 1 = Ok data /\ Vander 1 junk data points c h = Ok V /\ VanderLaplacian Monomials_1D junk' data V h = UB.
Proof.
  intros junk junk' points c h Hr Hh. assert (C : class_of 1 Monomials_1D) by apply ex_classes.
  destruct (C27_monomials_enumerated_once 1 _ 1 C) as (data & E & _ & _ & _ & _ & N & _).
  destruct (C31_vander_evaluates 1 _ 1 data junk points c h C E Hr Hh) as (V & EV & _).
  exists data, V. split; auto. split; auto. apply (C33_vander_laplacian 1 _ 1 data junk junk' points c h V C E Hr Hh EV). rewrite N; auto.
Qed.

Print Assumptions C27_monomials_enumerated_once.
Print Assumptions C28_index_inverts_enumeration.
Print Assumptions C29_derivative_indices.
Print Assumptions C30_matrices_differentiate.
Print Assumptions C31_vander_evaluates.
Print Assumptions C32_vander_derivatives.
Print Assumptions C33_vander_laplacian.
