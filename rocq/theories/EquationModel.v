(** Model of PDETools/Equations/EllipticEquation.hpp and of the Navier-Stokes convective terms of
    PDETools/Assembler/assembler_PCC_2D_functions.cpp. *)
From Coq Require Import List Arith Bool Reals.
From Verif Require Import Base RSum MatrixModel.
Import ListNotations.

(** EllipticEquation.hpp 84, 93: A.transpose() * w.asDiagonal() * B *)
Definition twb (A : Mat) (w : Vec) (B : Mat) : outcome Mat :=
  AW <- mdiag (mtrans A) w ;; mmul AW B.
(** EllipticEquation.hpp 119: A.transpose() * w.asDiagonal() * v *)
Definition twv (A : Mat) (w : Vec) (v : Vec) : outcome Vec :=
  AW <- mdiag (mtrans A) w ;; mmulv AW v.

(** EllipticEquation.hpp 26-43 (the overload 45-50 passes trial = test) *)
Definition ComputeCellDiffusionMatrix (k : Vec) (trial test : list Mat) (w : Vec) : outcome Mat :=
  t0 <- at_ test 0 ;; wk <- vcwise w k ;; s0 <- at_ trial 0 ;;
  c0 <- twb t0 wk s0 ;;
  for_from 1 (length test - 1) (fun d c =>
    td <- at_ test d ;; wk <- vcwise w k ;; sd <- at_ trial d ;;
    cd <- twb td wk sd ;; madd c cd) c0.

(** EllipticEquation.hpp 52-72 (the overload 74-79 passes trial = test); K is the std::array of 9 *)
Definition ComputeCellDiffusionMatrix_tensor (K : list Vec) (trial test : list Mat) (w : Vec) : outcome Mat :=
  let dimension := length trial in
  t0 <- at_ test 0 ;; s0 <- at_ trial 0 ;;
  for_loop dimension (fun d1 c =>
    for_loop dimension (fun d2 c =>
      td <- at_ test d1 ;; Kd <- at_ K (d1 + 3 * d2) ;; wk <- vcwise w Kd ;; sd <- at_ trial d2 ;;
      cd <- twb td wk sd ;; madd c cd) c) (mzero (m_cols t0) (m_cols s0)).

(** EllipticEquation.hpp 88-95 (the overload 81-86 passes trial = test) *)
Definition ComputeCellReactionMatrix (c : Vec) (trial test : Mat) (w : Vec) : outcome Mat :=
  wc <- vcwise w c ;; twb test wc trial.

(** EllipticEquation.hpp 97-114; b is the std::array of 3; [b[0]] and [trial[0]] are unchecked *)
Definition ComputeCellAdvectionMatrix (b : list Vec) (test : Mat) (trial : list Mat) (w : Vec) : outcome Mat :=
  b0 <- idx_ b 0 ;; wb <- vcwise w b0 ;; s0 <- idx_ trial 0 ;;
  c0 <- twb test wb s0 ;;
  for_from 1 (length trial - 1) (fun d c =>
    bd <- at_ b d ;; wb <- vcwise w bd ;; sd <- at_ trial d ;;
    cd <- twb test wb sd ;; madd c cd) c0.

(** EllipticEquation.hpp 116-121 *)
Definition ComputeCellForcingTerm (f : Vec) (test : Mat) (w : Vec) : outcome Vec := twv test w f.

(** EllipticEquation.hpp 123-138; unchecked accesses *)
Definition ComputeCellForcingTerm_vector (f : list Vec) (test : list Mat) (w : Vec) : outcome Vec :=
  t0 <- idx_ test 0 ;; f0 <- idx_ f 0 ;; r0 <- twv t0 w f0 ;;
  for_from 1 (length test - 1) (fun d r =>
    td <- idx_ test d ;; fd <- idx_ f d ;; rd <- twv td w fd ;; vadd r rd) r0.

(** assembler_PCC_2D_functions.cpp 1370-1395 *)
Definition compute_NS_convective_lhs (u du : list Vec) (V D : list Mat) (w : Vec) : outcome Mat :=
  v0 <- idx_ V 0 ;;
  c1 <- for_loop 2 (fun d1 c => for_loop 2 (fun d2 c =>
      vd1 <- at_ V d1 ;; ud2 <- at_ u d2 ;; wu <- vcwise w ud2 ;; D12 <- at_ D (2 * d1 + d2) ;;
      m <- twb vd1 wu D12 ;; madd c m) c) (mzero (m_cols v0) (m_cols v0)) ;;
  for_loop 2 (fun d1 c => for_loop 2 (fun d2 c =>
      vd1 <- at_ V d1 ;; g <- at_ du (2 * d1 + d2) ;; wg <- vcwise w g ;; vd2 <- at_ V d2 ;;
      m <- twb vd1 wg vd2 ;; madd c m) c) c1.

(** assembler_PCC_2D_functions.cpp 1397-1412 *)
Definition compute_NS_convective_rhs (u du : list Vec) (V : list Mat) (w : Vec) : outcome Vec :=
  v0 <- idx_ V 0 ;;
  for_loop 2 (fun d1 c => for_loop 2 (fun d2 c =>
      vd1 <- at_ V d1 ;; ud2 <- at_ u d2 ;; g <- at_ du (2 * d1 + d2) ;; ug <- vcwise ud2 g ;;
      m <- twv vd1 w ug ;; vadd c m) c) (vzero (m_cols v0)).

(** assembler_PCC_2D_functions.cpp 1511-1520: the velocity and its gradient at the quadrature
    points from the local unknowns *)
Definition velocity_values (B : list Mat) (x : Vec) : outcome (list Vec) :=
  foldM (fun l M => v <- mmulv M x ;; Ok (l ++ [v])) B [].
