(** Property theorem C54: traces of the 2D monomials on the edges of a polygon (VEM/MCC/VEM_MCC_Utilities.hpp). *)
From Coq Require Import List Arith Bool Reals Lra Lia ZArith Binomial.
From Verif Require Import Base RSum MatrixModel MonomialsModel MonomialsSpec VemQuadModel TraceModel TraceSpec TraceProofs TraceProofs2.
Import ListNotations.
Local Open Scope R_scope.

(** Starts of edges equal to the centroid in x (y) or further than the tolerance: the coefficients are those of the trace. *)
Theorem C54_trace_exact : forall k vertices diam centroid dirs tangents data,
  m_rows vertices = 3%nat -> length dirs = m_cols vertices -> are_tangents vertices tangents -> diam <> 0 ->
  Compute Monomials_2D (k + 1) = Ok data ->
  (forall e, (e < m_cols vertices)%nat -> ~ too_close centroid (edge_start vertices (nth e dirs true) e) /\
     resolved centroid (edge_start vertices (nth e dirs true) e)) ->
  exists l, MonomialTraceOnEdges Binomial.C k vertices diam centroid dirs tangents = Ok l /\ length l = m_cols vertices /\
    forall e, (e < m_cols vertices)%nat -> exists C, nth_error l e = Some C /\ m_rows C = NumMonomials data /\ m_cols C = (k + 2)%nat /\
      forall r s, (r < NumMonomials data)%nat -> rsum (k + 2) (fun c => m_at C r c * s ^ c) =
        mono (expo (Exponents data) r)
          (scaled centroid diam (on_segment (edge_start vertices (nth e dirs true) e) (edge_end vertices (nth e dirs true) e) s)).
Proof. intros. eapply traces_exact; eauto. Qed.

(** In general they are values of the monomials at a point no further than the tolerance in each coordinate. *)
Theorem C54_trace_near : forall k vertices diam centroid dirs tangents data,
  m_rows vertices = 3%nat -> length dirs = m_cols vertices -> are_tangents vertices tangents -> diam <> 0 ->
  Compute Monomials_2D (k + 1) = Ok data ->
  (forall e, (e < m_cols vertices)%nat -> ~ too_close centroid (edge_start vertices (nth e dirs true) e)) ->
  exists l, MonomialTraceOnEdges Binomial.C k vertices diam centroid dirs tangents = Ok l /\ length l = m_cols vertices /\
    forall e, (e < m_cols vertices)%nat -> exists C, nth_error l e = Some C /\ m_rows C = NumMonomials data /\ m_cols C = (k + 2)%nat /\
      forall s, exists x : point,
        (forall d, (d < 2)%nat -> Rabs (x d - on_segment (edge_start vertices (nth e dirs true) e) (edge_end vertices (nth e dirs true) e) s d) <= tiny) /\
        forall r, (r < NumMonomials data)%nat ->
          rsum (k + 2) (fun c => m_at C r c * s ^ c) = mono (expo (Exponents data) r) (scaled centroid diam x).
Proof. intros. eapply traces_near; eauto. Qed.

(** An edge starting at the centroid is refused, *)
Theorem C54_trace_throws : forall k vertices diam centroid dirs tangents data,
  m_rows vertices = 3%nat -> length dirs = m_cols vertices -> are_tangents vertices tangents -> diam <> 0 ->
  Compute Monomials_2D (k + 1) = Ok data ->
  (exists e, (e < m_cols vertices)%nat /\ too_close centroid (edge_start vertices (nth e dirs true) e)) ->
  MonomialTraceOnEdges Binomial.C k vertices diam centroid dirs tangents = Throw.
Proof. intros. eapply traces_throw; eauto. Qed.

(** so that not every polygon of positive area is accepted. *)
Theorem C54_accepted_refuted : exists vertices tangents centroid, m_rows vertices = 3%nat /\ are_tangents vertices tangents /\
  0 < shoelace vertices /\ is_area_centroid vertices centroid /\
  forall k diam, diam <> 0 -> MonomialTraceOnEdges Binomial.C k vertices diam centroid [true; true; true; true] tangents = Throw.
Proof.
  exists dart, dart_tangents, (fun _ => 0). destruct dart_facts as (S & A & T & N). split; [reflexivity|]. split; auto. split; [lra|]. split; auto.
  intros k diam Hd. destruct (MonomialsProofs2.Compute_ok Monomials_2D MonomialsProofs.idx2 MonomialsProofs.good_2D (k + 1)) as (data & E & _).
  eapply traces_throw; eauto. exists 0%nat. split; [cbn; lia|exact N].
Qed.

Print Assumptions C54_trace_exact.
Print Assumptions C54_trace_near.
Print Assumptions C54_trace_throws.
Print Assumptions C54_accepted_refuted.

(** the unit square, edges in both directions *)
Definition tr_sq : Mat := {| m_rows := 3; m_cols := 4; m_at := fun d e =>
  match d, e with 0%nat, 1%nat | 0%nat, 2%nat | 1%nat, 2%nat | 1%nat, 3%nat => 1 | _, _ => 0 end |}.
Definition tr_tan : Mat := {| m_rows := 3; m_cols := 4; m_at := fun d e => m_at tr_sq d ((e + 1) mod 4) - m_at tr_sq d e |}.
Example C54_case : are_tangents tr_sq tr_tan /\ forall e, (e < 4)%nat ->
  ~ too_close (fun _ => 1 / 2) (edge_start tr_sq (nth e [true; false; false; true] true) e) /\
  resolved (fun _ => 1 / 2) (edge_start tr_sq (nth e [true; false; false; true] true) e).
Proof.
  split; [repeat split|]. assert (T : tiny < 1 / 2).
  { unfold tiny. apply Rmult_lt_reg_r with (10 ^ 12); [apply pow_lt; lra|]. unfold Rdiv. rewrite Rmult_1_l, Rinv_l by (apply pow_nonzero; lra). simpl. lra. }
  assert (A : Rabs (0 - 1 / 2) = 1 / 2) by (rewrite Rabs_left; lra). assert (B : Rabs (1 - 1 / 2) = 1 / 2) by (rewrite Rabs_right; lra).
  assert (Q : forall e, (e < 4)%nat -> forall d, (d < 2)%nat -> Rabs (edge_start tr_sq (nth e [true; false; false; true] true) e d - 1 / 2) = 1 / 2).
  { intros e He d Hd. destruct d as [|[|d]]; [| |lia]; (destruct e as [|[|[|[|e]]]]; [| | | |lia]); exact A || exact B. }
  intros e He. split.
  - intros (C1 & _). rewrite (Q e He 0%nat) in C1 by lia. lra.
  - intros d Hd. right. rewrite Q by auto. exact T.
Qed.
