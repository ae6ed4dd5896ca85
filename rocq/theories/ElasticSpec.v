(** Vocabulary of the statements about the cell of the elastic driver. *)
From Coq Require Import List Arith Bool Reals.
From Verif Require Import Base RSum MatrixModel EquationModel EquationSpec VemQuadModel VemModel DriverModel ElasticModel.
Import ListNotations.
Local Open Scope R_scope.

(** a scalar element of n functions: tables of values V and of derivatives D0, D1 at the points of the rule Q, stabilisation matrix S *)
Record scalar_element (sp : LocalSpace) (n : nat) (Q : QuadratureData) (V D0 D1 S : Mat) : Prop := {
  se_quadrature : ls_InternalQuadrature sp = Q;
  se_points : m_rows (q_Points Q) = 3%nat /\ m_cols (q_Points Q) = v_size (q_Weights Q) /\ (0 < v_size (q_Weights Q))%nat;
  se_values : ls_Values sp Pi0k_t = Ok V /\ shaped (v_size (q_Weights Q)) n V;
  se_derivatives : ls_DerivativeValues sp = Ok [D0; D1] /\ shaped (v_size (q_Weights Q)) n D0 /\ shaped (v_size (q_Weights Q)) n D1;
  se_stabilization : ls_StabilizationMatrix sp = Ok S /\ shaped n n S }.

(** local vectors have 2 n entries: those of the first component, then those of the second *)
(** component d at point number q *)
Definition displacement (n : nat) (V : Mat) (u : nat -> R) (d q : nat) : R := rsum n (fun j => m_at V q j * u (d * n + j)%nat).
(** derivative b of component a *)
Definition gradient (n : nat) (D0 D1 : Mat) (u : nat -> R) (a b q : nat) : R :=
  rsum n (fun j => m_at (match b with O => D0 | _ => D1 end) q j * u (a * n + j)%nat).
Definition strain (n : nat) (D0 D1 : Mat) (u : nat -> R) (a b q : nat) : R := (gradient n D0 D1 u a b q + gradient n D0 D1 u b a q) / 2.
Definition divergence (n : nat) (D0 D1 : Mat) (u : nat -> R) (q : nat) : R := gradient n D0 D1 u 0 0 q + gradient n D0 D1 u 1 1 q.
(** x^T S y *)
Definition bilinear (n : nat) (S : Mat) (x y : nat -> R) : R := rsum n (fun i => rsum n (fun j => x i * m_at S i j * y j)).
Definition half (n d : nat) (u : nat -> R) (j : nat) : R := u (d * n + j)%nat.
Definition at_quadrature (Q : QuadratureData) (f : R -> R -> R -> R) (q : nat) : R := f (m_at (q_Points Q) 0 q) (m_at (q_Points Q) 1 q) (m_at (q_Points Q) 2 q).
(** the largest |f| at the points of the rule *)
Definition largest (Q : QuadratureData) (f : R -> R -> R -> R) (k : R) : Prop :=
  (forall q, (q < v_size (q_Weights Q))%nat -> Rabs (at_quadrature Q f q) <= k) /\ exists q, (q < v_size (q_Weights Q))%nat /\ Rabs (at_quadrature Q f q) = k.
(** quadrature of 2 mu e(u) : e(v) + lambda div u div v, plus k times the stabilisation of each component *)
Definition elastic_form (n : nat) (Q : QuadratureData) (D0 D1 S : Mat) (P : ElasticProblem) (k : R) (u v : nat -> R) : R :=
  rsum (v_size (q_Weights Q)) (fun q => v_at (q_Weights Q) q *
    (2 * at_quadrature Q (el_mu P) q * rsum 2 (fun a => rsum 2 (fun b => strain n D0 D1 u a b q * strain n D0 D1 v a b q)) +
     at_quadrature Q (el_lambda P) q * (divergence n D0 D1 u q * divergence n D0 D1 v q))) +
  k * rsum 2 (fun d => bilinear n S (half n d v) (half n d u)).

(** one, x and y: the unknowns of the functions 1, x, y: their gradients are exact at the points and the stabilisation vanishes on them *)
Definition linear_functions (n : nat) (Q : QuadratureData) (D0 D1 S : Mat) (one x y : nat -> R) : Prop :=
  (forall q, (q < v_size (q_Weights Q))%nat ->
    rsum n (fun j => m_at D0 q j * one j) = 0 /\ rsum n (fun j => m_at D1 q j * one j) = 0 /\
    rsum n (fun j => m_at D0 q j * x j) = 1 /\ rsum n (fun j => m_at D1 q j * x j) = 0 /\
    rsum n (fun j => m_at D0 q j * y j) = 0 /\ rsum n (fun j => m_at D1 q j * y j) = 1) /\
  forall i, (i < n)%nat -> rsum n (fun j => m_at S i j * one j) = 0 /\ rsum n (fun j => m_at S i j * x j) = 0 /\ rsum n (fun j => m_at S i j * y j) = 0.
(** the translation (a, b) plus r times the rotation (- y, x) *)
Definition rigid (n : nat) (one x y : nat -> R) (a b r : R) (j : nat) : R :=
  if (j <? n)%nat then a * one j - r * y j else b * one (j - n)%nat + r * x (j - n)%nat.

(** the scalar space of the driver is a virtual element: local_space.hpp 79-98 choose the projections *)
Definition vem_scalar (l : VEM_2D_Local) (sp : LocalSpace) : Prop :=
  ls_InternalQuadrature sp = lv_InternalQuadrature l /\ ls_Values sp Pi0k_t = VEM_Values_quadrature l Pi0k_t /\
  ls_DerivativeValues sp = VEM_DerivativeValues_quadrature l Pi0km1Der_t /\ ls_StabilizationMatrix sp = VEM_DofiDofi l PiNabla_t.
