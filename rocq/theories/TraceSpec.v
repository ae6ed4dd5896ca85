(** Vocabulary of the statements about traces of monomials on edges: nothing here refers to the model's functions. *)
From Coq Require Import List Arith Bool Reals.
From Verif Require Import Base RSum MatrixModel MonomialsSpec.
Import ListNotations.
Local Open Scope R_scope.

(** first and last point of edge [e] of the polygon, along its direction *)
Definition edge_start (vertices : Mat) (dir : bool) (e : nat) : point :=
  pt vertices (if dir then e else (e + 1) mod m_cols vertices).
Definition edge_end (vertices : Mat) (dir : bool) (e : nat) : point :=
  pt vertices (if dir then (e + 1) mod m_cols vertices else e).

(** the point with parameter s of the segment from a to b *)
Definition on_segment (a b : point) (s : R) : point := fun d => a d + s * (b d - a d).

(** 10^-12 *)
Definition tiny : R := 1 / 10 ^ 12.
(** closer to c than the tolerance, in x and in y *)
Definition too_close (c a : point) : Prop := Rabs (a 0%nat - c 0%nat) <= tiny /\ Rabs (a 1%nat - c 1%nat) <= tiny.
(** each coordinate equal to that of c or further than the tolerance *)
Definition resolved (c a : point) : Prop := forall d, (d < 2)%nat -> a d = c d \/ tiny < Rabs (a d - c d).

(** tangents from each vertex to the next *)
Definition are_tangents (vertices tangents : Mat) : Prop :=
  m_rows tangents = 3%nat /\ m_cols tangents = m_cols vertices /\
  forall d e, (e < m_cols vertices)%nat -> m_at tangents d e = m_at vertices d ((e + 1) mod m_cols vertices) - m_at vertices d e.

(** area and area centroid of a polygon by the shoelace formulas *)
Definition cross_term (v : Mat) (e : nat) : R :=
  let e1 := ((e + 1) mod m_cols v)%nat in m_at v 0 e * m_at v 1 e1 - m_at v 0 e1 * m_at v 1 e.
Definition shoelace (v : Mat) : R := rsum (m_cols v) (cross_term v) / 2.
Definition is_area_centroid (v : Mat) (c : point) : Prop :=
  forall d, (d < 2)%nat ->
    c d * (6 * shoelace v) = rsum (m_cols v) (fun e => (m_at v d e + m_at v d ((e + 1) mod m_cols v)) * cross_term v e).
