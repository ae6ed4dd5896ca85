(** Model of the cell of the driver of linear elasticity, examples/Elastic_PCC_2D: the vector space made of two copies of a scalar one, the local
    matrix and right-hand side, the errors of a cell.  The scalar local space (FEM, VEM) is the record of DriverModel; its dimension is 2.  Files
    without a path are in /repo/PolyDiM/examples/Elastic_PCC_2D/src. *)
From Coq Require Import List Arith Bool Reals.
From Verif Require Import Base RSum MatrixModel EquationModel VemQuadModel VemModel DriverModel.
Import ListNotations.
Local Open Scope R_scope.

(** local_space.cpp 149-150 and 233-235: M in the columns d n ... d n + n - 1 of a zero matrix of r rows and 2 n columns; another shape is undefined *)
Definition place_columns (r n d : nat) (M : Mat) : outcome Mat :=
  if negb ((m_rows M =? r) && (m_cols M =? n))%nat then UB else
  Ok {| m_rows := r; m_cols := 2 * n; m_at := fun q j => if ((d * n <=? j) && (j <? d * n + n))%nat then m_at M q (j - d * n) else 0 |}.

(** local_space.cpp 119-153, BasisFunctionsValues, default projection (local_space.hpp 80-83) *)
Definition displacement_values (sp : LocalSpace) : outcome (list Mat) :=
  V <- ls_Values sp Pi0k_t ;;
  for_loop 2 (fun d l => M <- place_columns (m_rows V) (m_cols V) d V ;; Ok (l ++ [M])) [].

(** local_space.cpp 199-239, BasisFunctionsDerivativeValues, default projection (local_space.hpp 90-93); entry 2 d1 + d2 *)
Definition displacement_derivatives (sp : LocalSpace) : outcome (list Mat) :=
  D <- ls_DerivativeValues sp ;;
  D0 <- at_ D 0 ;;
  for_loop 2 (fun d1 l => for_loop 2 (fun d2 l =>
    Dd <- idx_ D d2 ;; M <- place_columns (m_rows D0) (m_cols D0) d1 Dd ;; Ok (l ++ [M])) l) [].

(** local_space.cpp 276-304, StabilizationMatrix, default projection (local_space.hpp 95-97); for FEM the scalar matrix is zero *)
Definition displacement_stabilization (sp : LocalSpace) : outcome Mat :=
  S <- ls_StabilizationMatrix sp ;;
  let n := m_rows S in
  if negb (m_cols S =? n)%nat then UB else
  Ok {| m_rows := 2 * n; m_cols := 2 * n; m_at := fun i j =>
    if ((i <? n) && (j <? n))%nat then m_at S i j
    else if ((n <=? i) && (i <? 2 * n) && (n <=? j) && (j <? 2 * n))%nat then m_at S (i - n) (j - n) else 0 |}.

(** assembler.cpp 248-252: the symmetric gradient, entry 2 d1 + d2 *)
Definition symmetric_gradient (G : list Mat) : outcome (list Mat) :=
  for_loop 2 (fun d1 l => for_loop 2 (fun d2 l =>
    A <- idx_ G (2 * d1 + d2) ;; B <- idx_ G (2 * d2 + d1) ;; M <- madd A B ;; Ok (l ++ [mscal (1 / 2) M])) l) [].

(** test_definition.hpp 38-47, I_Test: functions of the point instead of functions of matrices of points; the boundary data are not modelled *)
Record ElasticProblem := { el_mu : R -> R -> R -> R; el_lambda : R -> R -> R -> R; el_source : R -> R -> R -> nat -> R }.

(** assembler.cpp 240-278 and 296: local_A + local_A_stab and local_rhs *)
Definition elastic_cell (sp : LocalSpace) (P : ElasticProblem) : outcome (Mat * Vec) :=
  let Q := ls_InternalQuadrature sp in
  V <- displacement_values sp ;;
  G <- displacement_derivatives sp ;;
  E <- symmetric_gradient G ;;
  mu <- function_evaluation (q_Points Q) (el_mu P) ;;
  la <- function_evaluation (q_Points Q) (el_lambda P) ;;
  f <- function_evaluation_array 3 (q_Points Q) (el_source P) ;;
  A1 <- ComputeCellDiffusionMatrix mu E E (q_Weights Q) ;;
  G0 <- idx_ G 0 ;; G3 <- idx_ G 3 ;;
  dv <- madd G0 G3 ;;
  A2 <- ComputeCellReactionMatrix la dv dv (q_Weights Q) ;;
  A <- madd (mscal 2 A1) A2 ;;
  b <- ComputeCellForcingTerm_vector f V (q_Weights Q) ;;
  k <- max_abs mu ;;
  S <- displacement_stabilization sp ;;
  A <- madd A (mscal k S) ;;
  Ok (A, b).

(** ** Errors *)

(** assembler.cpp 442-469 *)
Record ElasticErrors := { ee_error_L2 : R; ee_norm_L2 : R; ee_error_H1 : R; ee_norm_H1 : R }.

(** assembler.cpp 412-470: a cell with an exact solution (the branch catch, without one, is not modelled); [u]: the unknowns of the cell; the exact
    derivatives are an array of 9, entry 3 d1 + d2 *)
Definition elastic_errors (sp : LocalSpace) (exact : R -> R -> R -> nat -> R) (exact_d : R -> R -> R -> nat -> R) (u : Vec) : outcome ElasticErrors :=
  let Q := ls_InternalQuadrature sp in
  V <- displacement_values sp ;;
  G <- displacement_derivatives sp ;;
  x <- function_evaluation_array 3 (q_Points Q) exact ;;
  xd <- function_evaluation_array 9 (q_Points Q) exact_d ;;
  let z := vzero (m_cols (q_Points Q)) in
  s <- for_loop 2 (fun d1 s =>
    let '(el, nl, eh, nh) := s in
    Vd <- idx_ V d1 ;; n <- mmulv Vd u ;; xe <- idx_ x d1 ;; e <- vsub n xe ;;
    el <- vadd el (vsquare e) ;; nl <- vadd nl (vsquare n) ;;
    for_loop 2 (fun d2 s =>
      let '(el, nl, eh, nh) := s in
      Gd <- idx_ G (2 * d1 + d2) ;; n <- mmulv Gd u ;; xe <- idx_ xd (3 * d1 + d2) ;; e <- vsub n xe ;;
      eh <- vadd eh (vsquare e) ;; nh <- vadd nh (vsquare n) ;;
      Ok (el, nl, eh, nh)) (el, nl, eh, nh)) (z, z, z, z) ;;
  let '(el, nl, eh, nh) := s in
  el <- vdot (q_Weights Q) el ;; nl <- vdot (q_Weights Q) nl ;; eh <- vdot (q_Weights Q) eh ;; nh <- vdot (q_Weights Q) nh ;;
  Ok {| ee_error_L2 := el; ee_norm_L2 := nl; ee_error_H1 := eh; ee_norm_H1 := nh |}.

(** test_definition.hpp 360-367 (beam) and 447-454 (Cook's membrane): the coefficients mu and lambda computed from E and nu, there two constants *)
Definition lame_of (E nu : R) : R * R := (E * (2 * (1 + nu)), E * nu / ((1 + nu) * (1 - 2 * nu))).
