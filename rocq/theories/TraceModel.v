(** Model of MonomialTraceOnEdges, VEM/MCC/VEM_MCC_Utilities.hpp 69-224.  Gedim's BinomialCoefficient is an input;
    the vectors of powers vettX, vettY, vettDiffX, vettDiffY (137-147, 180-188, 217-225) are functions of the exponent. *)
From Coq Require Import List Arith Bool Reals.
From Verif Require Import Base RSum MatrixModel VemQuadModel.
Import ListNotations.
Local Open Scope R_scope.

(** Eigen (not in /repo): C(r, c) = C(r, c) + x *)
Definition add_entry (C : Mat) (r c : nat) (x : R) : outcome Mat := v <- mat_get C r c ;; mat_set C r c (v + x).
(** C.block(r, 0, 1, n) = C.block(r, 0, 1, n) * a * b *)
Definition scale_row (C : Mat) (r n : nat) (a b : R) : outcome Mat :=
  if ((r <? m_rows C) && (n <=? m_cols C))%nat
  then Ok {| m_rows := m_rows C; m_cols := m_cols C; m_at := fun i j => if ((i =? r) && (j <? n))%nat then m_at C i j * a * b else m_at C i j |}
  else UB.

(** VEM_MCC_Utilities.hpp 69-220, MonomialTraceOnEdges: the loops over N and alphay shared by the three branches; [row] adds the entries of one row *)
Definition trace_rows (k : nat) (row : nat -> nat -> nat -> Mat -> outcome Mat) (X Y : R) (C : Mat) : outcome Mat :=
  C <- mat_set C 0 0 1 ;;
  s <- for_from 1 (k + 1) (fun N s =>
    for_loop (S N) (fun ay s =>
      let '(C, off) := s in
      C <- row off N ay C ;;
      C <- scale_row C off (k + 2) (X ^ (N - ay)) (Y ^ ay) ;;
      Ok (C, S off)) s) (C, 1%nat) ;;
  Ok (fst s).

(** one edge: 107-224 *)
Definition trace_edge (binom : nat -> nat -> R) (k : nat) (start centroid tangent : nat -> R) (diam direction : R) : outcome Mat :=
  let C := mzero ((k + 2) * (k + 3) / 2) (k + 2) in
  let invDiameter := 1 / diam in
  let XA := start 0%nat - centroid 0%nat in
  let YA := start 1%nat - centroid 1%nat in
  let X := XA * invDiameter in
  let Y := YA * invDiameter in
  let diffX := direction * tangent 0%nat / XA in
  let diffY := direction * tangent 1%nat / YA in
  let tol := 1 / 10 ^ 12 in
  match Rlt_dec tol (Rabs XA), Rlt_dec tol (Rabs YA) with
  | left _, left _ =>
      trace_rows k (fun off N ay C =>
        for_loop (S ay) (fun j C =>
          for_loop (S (N - ay)) (fun i C =>
            add_entry C off (j + i) (binom (N - ay)%nat i * diffX ^ i * binom ay j * diffY ^ j)) C) C) X Y C
  | left _, right _ =>
      trace_rows k (fun off N ay C =>
        for_loop (S (N - ay)) (fun i C => add_entry C off (ay + i) (binom (N - ay)%nat i * diffX ^ i)) C)
        X (direction * tangent 1%nat * invDiameter) C
  | right _, left _ =>
      trace_rows k (fun off N ay C =>
        for_loop (S ay) (fun j C => add_entry C off (j + (N - ay)) (binom ay j * diffY ^ j)) C)
        (direction * tangent 0%nat * invDiameter) Y C
  | right _, right _ => Throw
  end.

(** 69-224: all the edges *)
Definition MonomialTraceOnEdges (binom : nat -> nat -> R) (k : nat) (vertices : Mat) (diam : R) (centroid : nat -> R)
  (directions : list bool) (tangents : Mat) : outcome (list Mat) :=
  let nv := m_cols vertices in
  for_loop nv (fun e l =>
    dir <- idx_ directions e ;;
    start <- mat_col vertices 3 (if dir : bool then e else (e + 1) mod nv) ;;
    tangent <- mat_col tangents 3 e ;;
    C <- trace_edge binom k start centroid tangent diam (if dir : bool then 1 else -1) ;;
    Ok (l ++ [C])) [].
