(** Property theorems C21-C24: local matrices (EllipticEquation.hpp, Navier-Stokes convection). *)
From Coq Require Import List Arith Bool Lia Reals Lra.
From Verif Require Import Base RSum MatrixModel EquationModel EquationSpec EquationProofs.
Import ListNotations.
Open Scope R_scope.

(** ** C21 *)
Theorem C21_diffusion_scalar : forall k trial test w nq n m,
  test <> [] -> length trial = length test ->
  Forall (shaped nq n) test -> Forall (shaped nq m) trial -> sized nq k -> sized nq w ->
  exists A, ComputeCellDiffusionMatrix k trial test w = Ok A /\
    is_mat A n m (fun i j => rsum nq (fun q => v_at w q * v_at k q *
      rsum (length test) (fun d => comp test d q i * comp trial d q j))).
Proof. exact C21_diffusion. Qed.

Theorem C21_diffusion_tensor : forall K trial test w nq n m,
  trial <> [] -> length test = length trial -> (length trial <= 3)%nat -> length K = 9%nat ->
  Forall (shaped nq n) test -> Forall (shaped nq m) trial -> Forall (sized nq) K -> sized nq w ->
  exists A, ComputeCellDiffusionMatrix_tensor K trial test w = Ok A /\
    is_mat A n m (fun i j => rsum nq (fun q => v_at w q *
      rsum (length trial) (fun d1 => rsum (length trial) (fun d2 =>
        comp test d1 q i * vcomp K (d1 + 3 * d2) q * comp trial d2 q j)))).
Proof. exact C21_tensor. Qed.

Theorem C21_reaction_matrix : forall c trial test w nq n m,
  shaped nq n test -> shaped nq m trial -> sized nq c -> sized nq w ->
  exists A, ComputeCellReactionMatrix c trial test w = Ok A /\
    is_mat A n m (fun i j => rsum nq (fun q => v_at w q * v_at c q * (m_at test q i * m_at trial q j))).
Proof. exact C21_reaction. Qed.

Theorem C21_advection_matrix : forall b test trial w nq n m,
  trial <> [] -> (length trial <= length b)%nat ->
  shaped nq n test -> Forall (shaped nq m) trial -> Forall (sized nq) b -> sized nq w ->
  exists A, ComputeCellAdvectionMatrix b test trial w = Ok A /\
    is_mat A n m (fun i j => rsum nq (fun q => v_at w q *
      rsum (length trial) (fun d => vcomp b d q * comp trial d q j) * m_at test q i)).
Proof. exact C21_advection. Qed.

Theorem C21_forcing_scalar : forall f test w nq n,
  shaped nq n test -> sized nq f -> sized nq w ->
  exists b, ComputeCellForcingTerm f test w = Ok b /\
    is_vec b n (fun i => rsum nq (fun q => v_at w q * v_at f q * m_at test q i)).
Proof. exact C21_forcing. Qed.

Theorem C21_forcing_vectorial : forall f test w nq n,
  test <> [] -> (length test <= length f)%nat ->
  Forall (shaped nq n) test -> Forall (sized nq) f -> sized nq w ->
  exists b, ComputeCellForcingTerm_vector f test w = Ok b /\
    is_vec b n (fun i => rsum nq (fun q => v_at w q *
      rsum (length test) (fun d => vcomp f d q * comp test d q i))).
Proof. exact C21_forcing_vector. Qed.

(** ** C22 *)
Theorem C22_diffusion_spsd : forall k B w nq n A,
  B <> [] -> Forall (shaped nq n) B -> sized nq k -> sized nq w ->
  ComputeCellDiffusionMatrix k B B w = Ok A ->
  (forall i j, m_at A i j = m_at A j i) /\
  ((forall q, (q < nq)%nat -> 0 <= v_at w q * v_at k q) -> forall x, 0 <= quad_form n A x).
Proof. exact C22_diffusion. Qed.

Theorem C22_reaction_spsd : forall c B w nq n A,
  shaped nq n B -> sized nq c -> sized nq w ->
  ComputeCellReactionMatrix c B B w = Ok A ->
  (forall i j, m_at A i j = m_at A j i) /\
  ((forall q, (q < nq)%nat -> 0 <= v_at w q * v_at c q) -> forall x, 0 <= quad_form n A x).
Proof. exact C22_reaction. Qed.

Theorem C22_tensor_spsd : forall K B w nq n A,
  B <> [] -> (length B <= 3)%nat -> length K = 9%nat -> Forall (shaped nq n) B -> Forall (sized nq) K -> sized nq w ->
  ComputeCellDiffusionMatrix_tensor K B B w = Ok A ->
  ((forall q d1 d2, (q < nq)%nat -> (d1 < length B)%nat -> (d2 < length B)%nat ->
      vcomp K (d1 + 3 * d2) q = vcomp K (d2 + 3 * d1) q) ->
   forall i j, m_at A i j = m_at A j i) /\
  ((forall q, (q < nq)%nat -> 0 <= v_at w q) ->
   (forall q g, (q < nq)%nat -> 0 <= rsum (length B) (fun d1 => rsum (length B) (fun d2 =>
      g d1 * vcomp K (d1 + 3 * d2) q * g d2))) ->
   forall x, 0 <= quad_form n A x).
Proof. exact C22_tensor. Qed.

(** ** C23 *)
Theorem C23_diffusion_kernel : forall k trial test w nq n m A i,
  test <> [] -> length trial = length test ->
  Forall (shaped nq n) test -> Forall (shaped nq m) trial -> sized nq k -> sized nq w ->
  ComputeCellDiffusionMatrix k trial test w = Ok A ->
  (forall d q, (d < length trial)%nat -> (q < nq)%nat -> rsum m (fun j => comp trial d q j) = 0) ->
  rsum m (fun j => m_at A i j) = 0.
Proof. exact C23_diffusion. Qed.

Theorem C23_tensor_kernel : forall K trial test w nq n m A i,
  trial <> [] -> length test = length trial -> (length trial <= 3)%nat -> length K = 9%nat ->
  Forall (shaped nq n) test -> Forall (shaped nq m) trial -> Forall (sized nq) K -> sized nq w ->
  ComputeCellDiffusionMatrix_tensor K trial test w = Ok A ->
  (forall d q, (d < length trial)%nat -> (q < nq)%nat -> rsum m (fun j => comp trial d q j) = 0) ->
  rsum m (fun j => m_at A i j) = 0.
Proof. exact C23_tensor. Qed.

Theorem C23_advection_kernel : forall b test trial w nq n m A i,
  trial <> [] -> (length trial <= length b)%nat ->
  shaped nq n test -> Forall (shaped nq m) trial -> Forall (sized nq) b -> sized nq w ->
  ComputeCellAdvectionMatrix b test trial w = Ok A ->
  (forall d q, (d < length trial)%nat -> (q < nq)%nat -> rsum m (fun j => comp trial d q j) = 0) ->
  rsum m (fun j => m_at A i j) = 0.
Proof. exact C23_advection. Qed.

(** ** C24 *)

(** N(u) is the quadrature of ((u . grad) u) . v *)
Theorem C24_convective_residual : forall u du V w nq n,
  length u = 2%nat -> length du = 4%nat -> length V = 2%nat ->
  Forall (sized nq) u -> Forall (sized nq) du -> Forall (shaped nq n) V -> sized nq w ->
  exists b, compute_NS_convective_rhs u du V w = Ok b /\
    is_vec b n (fun i => rsum 2 (fun d1 => rsum 2 (fun d2 => rsum nq (fun q =>
      v_at w q * (vcomp u d2 q * vcomp du (2 * d1 + d2) q) * comp V d1 q i)))).
Proof. exact ns_rhs_ok. Qed.

Theorem C24_newton_linearisation : forall V D w u d nq n,
  length V = 2%nat -> length D = 4%nat -> Forall (shaped nq n) V -> Forall (shaped nq n) D ->
  sized nq w -> sized n u -> sized n d ->
  exists ud, vadd u d = Ok ud /\
  exists uv ug dv dg sv sg,
    velocity_values V u = Ok uv /\ velocity_values D u = Ok ug /\
    velocity_values V d = Ok dv /\ velocity_values D d = Ok dg /\
    velocity_values V ud = Ok sv /\ velocity_values D ud = Ok sg /\
  exists C Nu Nd Ns,
    compute_NS_convective_lhs uv ug V D w = Ok C /\
    compute_NS_convective_rhs uv ug V w = Ok Nu /\
    compute_NS_convective_rhs dv dg V w = Ok Nd /\
    compute_NS_convective_rhs sv sg V w = Ok Ns /\
    m_rows C = n /\ m_cols C = n /\ v_size Ns = n /\
    (forall i, v_at Ns i = v_at Nu i + rsum n (fun j => m_at C i j * v_at d j) + v_at Nd i) /\
    (forall i, rsum n (fun j => m_at C i j * v_at u j) = 2 * v_at Nu i).
Proof. exact C24_newton. Qed.

(** ** Instances: the three P1 functions of the reference triangle at two points. *)
Definition ex_mat (r c : nat) (l : list R) : Mat := {| m_rows := r; m_cols := c; m_at := fun i j => nth (i * c + j) l 0 |}.
Definition ex_vec (l : list R) : Vec := {| v_size := length l; v_at := fun i => nth i l 0 |}.
Definition ex_phi := ex_mat 2 3 [1/2; 1/4; 1/4;  1/4; 1/2; 1/4].
Definition ex_dphi := [ex_mat 2 3 [-1; 1; 0; -1; 1; 0]; ex_mat 2 3 [-1; 0; 1; -1; 0; 1]].
Definition ex_w := ex_vec [1/4; 1/4].

Example ex_shapes : shaped 2 3 ex_phi /\ Forall (shaped 2 3) ex_dphi /\ sized 2 ex_w /\ ex_dphi <> [].
Proof. repeat split; repeat constructor. discriminate. Qed.

Example ex_diffusion : exists A, ComputeCellDiffusionMatrix (ex_vec [2; 2]) ex_dphi ex_dphi ex_w = Ok A /\
  m_rows A = 3%nat /\ m_cols A = 3%nat /\ m_at A 0 0 = 2 /\ m_at A 0 1 = -1 /\ m_at A 1 2 = 0.
Proof.
  destruct ex_shapes as (H1 & H2 & H3 & H4).
  destruct (C21_diffusion_scalar (ex_vec [2; 2]) ex_dphi ex_dphi ex_w 2 3 3 H4 eq_refl H2 H2 eq_refl H3) as (A & E & I1 & I2 & I3).
  exists A. repeat split; auto; rewrite I3; unfold ex_dphi, ex_mat, ex_vec, ex_w, comp; cbn; lra.
Qed.

Example ex_kernel_hyp : forall d q, (d < length ex_dphi)%nat -> (q < 2)%nat -> rsum 3 (fun j => comp ex_dphi d q j) = 0.
Proof. intros [|[|d]] [|[|q]] Hd Hq; cbn in *; try lia; unfold comp; cbn; lra. Qed.

(** a non-diagonal positive semidefinite tensor [[2 1] [1 1]] *)
Definition ex_K := map (fun c => ex_vec [c; c]) [2; 1; 0; 1; 1; 0; 0; 0; 0].
Example ex_K_hyp : length ex_K = 9%nat /\ Forall (sized 2) ex_K /\
  (forall q g, (q < 2)%nat -> 0 <= rsum 2 (fun d1 => rsum 2 (fun d2 => g d1 * vcomp ex_K (d1 + 3 * d2) q * g d2))).
Proof.
  repeat split; [repeat constructor|].
  intros [|[|q]] g Hq; try lia; unfold vcomp, ex_K; cbn;
    (replace (0 + (0 + g 0%nat * 2 * g 0%nat + g 0%nat * 1 * g 1%nat) + (0 + g 1%nat * 1 * g 0%nat + g 1%nat * 1 * g 1%nat))
     with ((g 0%nat)^2 + (g 0%nat + g 1%nat)^2) by ring;
     apply Rplus_le_le_0_compat; apply pow2_ge_0).
Qed.

(** velocity basis of six functions: [phi|0], [0|phi] and their derivatives *)
Definition ex_V := [ex_mat 2 6 [1/2; 1/4; 1/4; 0; 0; 0; 1/4; 1/2; 1/4; 0; 0; 0];
                    ex_mat 2 6 [0; 0; 0; 1/2; 1/4; 1/4; 0; 0; 0; 1/4; 1/2; 1/4]].
Definition ex_D := [ex_mat 2 6 [-1; 1; 0; 0; 0; 0; -1; 1; 0; 0; 0; 0]; ex_mat 2 6 [-1; 0; 1; 0; 0; 0; -1; 0; 1; 0; 0; 0];
                    ex_mat 2 6 [0; 0; 0; -1; 1; 0; 0; 0; 0; -1; 1; 0]; ex_mat 2 6 [0; 0; 0; -1; 0; 1; 0; 0; 0; -1; 0; 1]].
Example ex_NS_shapes : length ex_V = 2%nat /\ length ex_D = 4%nat /\ Forall (shaped 2 6) ex_V /\ Forall (shaped 2 6) ex_D.
Proof. repeat split; repeat constructor. Qed.

Print Assumptions C21_diffusion_scalar.
Print Assumptions C21_diffusion_tensor.
Print Assumptions C21_reaction_matrix.
Print Assumptions C21_advection_matrix.
Print Assumptions C21_forcing_scalar.
Print Assumptions C21_forcing_vectorial.
Print Assumptions C22_diffusion_spsd.
Print Assumptions C22_reaction_spsd.
Print Assumptions C22_tensor_spsd.
Print Assumptions C23_diffusion_kernel.
Print Assumptions C23_tensor_kernel.
Print Assumptions C23_advection_kernel.
Print Assumptions C24_convective_residual.
Print Assumptions C24_newton_linearisation.
