(** Proofs about the trace of monomials on all the edges. *)
From Coq Require Import List Arith Bool Reals Lra Lia ZArith Binomial.
From Verif Require Import Base RSum MatrixModel MonomialsModel MonomialsSpec MonomialsProofs MonomialsProofs2 MonomialsProofs3 VemQuadModel PolyProofs TraceModel TraceSpec TraceProofs.
Import ListNotations.
Local Open Scope R_scope.

Section Edges.
Variables (k : nat) (vertices : Mat) (diam : R) (centroid : point) (dirs : list bool) (tangents : Mat) (data : Monomials_Data).
Hypothesis HV : m_rows vertices = 3%nat.
Hypothesis HD : length dirs = m_cols vertices.
Hypothesis HT : are_tangents vertices tangents.
Hypothesis Hd : diam <> 0.
Hypothesis Hm : Compute Monomials_2D (k + 1) = Ok data.
Local Notation n := (m_cols vertices).
Local Notation dir e := (nth e dirs true).

Lemma num_data : NumMonomials data = num2 (k + 1).
Proof. destruct (Compute_ok M2 idx2 good_2D (k + 1)) as (d & E & U). rewrite Hm in E. injection E as <-. apply (u_num _ _ _ _ _ U). Qed.

Definition seen_point (e : nat) (s : R) : point := fun d =>
  (if Rlt_dec tiny (Rabs (edge_start vertices (dir e) e d - centroid d)) then edge_start vertices (dir e) e d else centroid d) +
  s * (edge_end vertices (dir e) e d - edge_start vertices (dir e) e d).

Definition good_edge (e : nat) (C : Mat) : Prop :=
  m_rows C = NumMonomials data /\ m_cols C = (k + 2)%nat /\
  forall r s, (r < NumMonomials data)%nat -> rsum (k + 2) (fun c => m_at C r c * s ^ c) = mono (expo (Exponents data) r) (scaled centroid diam (seen_point e s)).

Definition body (e : nat) (l : list Mat) : outcome (list Mat) :=
  d <- idx_ dirs e ;;
  start <- mat_col vertices 3 (if d : bool then e else (e + 1) mod n) ;;
  tangent <- mat_col tangents 3 e ;;
  C <- trace_edge Binomial.C k start centroid tangent diam (if d : bool then 1 else -1) ;;
  Ok (l ++ [C]).

Lemma body_eq e l : (e < n)%nat -> body e l =
  (C <- trace_edge Binomial.C k (edge_start vertices (dir e) e) centroid (fun i => m_at tangents i e) diam (if dir e then 1 else -1) ;; Ok (l ++ [C])).
Proof.
  intros He. unfold body. rewrite (proj2 (idx_Ok _ _ _) (nth_error_nth' dirs true (n := e) ltac:(lia))). cbn [bind].
  assert (Hi : ((if dir e then e else (e + 1) mod n) < n)%nat) by (destruct (dir e); [lia|apply Nat.mod_upper_bound; lia]).
  unfold mat_col. rewrite HV, Nat.eqb_refl. apply Nat.ltb_lt in Hi. rewrite Hi. cbn [andb bind].
  destruct HT as (T1 & T2 & _). rewrite T1, T2, Nat.eqb_refl. apply Nat.ltb_lt in He as He'. rewrite He'. cbn [andb bind]. reflexivity.
Qed.

Lemma body_throw e l : (e < n)%nat -> too_close centroid (edge_start vertices (dir e) e) -> body e l = Throw.
Proof.
  intros He (H1 & H2). rewrite body_eq by auto. destruct (trace_edge_ok k (edge_start vertices (dir e) e) centroid (fun i => m_at tangents i e) diam (if dir e then 1 else -1) Hd) as (T & _).
  rewrite T by (split; assumption). reflexivity.
Qed.

Lemma body_ok e l : (e < n)%nat -> ~ too_close centroid (edge_start vertices (dir e) e) -> exists C, body e l = Ok (l ++ [C]) /\ good_edge e C.
Proof.
  intros He H. rewrite body_eq by auto. destruct (trace_edge_ok k (edge_start vertices (dir e) e) centroid (fun i => m_at tangents i e) diam (if dir e then 1 else -1) Hd) as (_ & T).
  destruct (T H) as (C & E & R1 & R2 & P). rewrite E. cbn [bind]. exists C. split; auto.
  unfold good_edge. rewrite num_data. split; auto. split; auto. intros r s Hr. rewrite (expo_enum M2 idx2 good_2D _ _ Hm r Hr), enum_ab.
  specialize (P r s Hr). unfold rowpoly in P. rewrite R2 in P. rewrite P. unfold mono. cbn [mono_from]. rewrite !Nat2Z.id, Rmult_1_r.
  destruct HT as (_ & _ & T3). unfold seen, scaled, seen_point, tiny, edge_end, edge_start, pt in *. f_equal; f_equal; f_equal; rewrite T3 by auto; destruct (dir e); ring.
Qed.

Theorem traces_ok : (forall e, (e < n)%nat -> ~ too_close centroid (edge_start vertices (dir e) e)) ->
  exists l, MonomialTraceOnEdges Binomial.C k vertices diam centroid dirs tangents = Ok l /\ length l = n /\
    forall e, (e < n)%nat -> exists C, nth_error l e = Some C /\ good_edge e C.
Proof.
  intros H. unfold MonomialTraceOnEdges. apply (@for_loop_total _ (fun i l => length l = i /\ forall e, (e < i)%nat -> exists C, nth_error l e = Some C /\ good_edge e C) body).
  - split; auto. intros e He. lia.
  - intros i l Hi (L & G). destruct (body_ok i l Hi (H i Hi)) as (C & E & GC). exists (l ++ [C]). split; auto. split; [rewrite app_length; simpl; lia|].
    intros e He. destruct (Nat.eq_dec e i) as [->|].
    + exists C. rewrite nth_error_app2, L, Nat.sub_diag by lia. auto.
    + destruct (G e) as (C' & E' & G'); [lia|]. exists C'. rewrite nth_error_app1 by lia. auto.
Qed.

Theorem traces_throw : (exists e, (e < n)%nat /\ too_close centroid (edge_start vertices (dir e) e)) ->
  MonomialTraceOnEdges Binomial.C k vertices diam centroid dirs tangents = Throw.
Proof.
  intros (e & He & Hc). unfold MonomialTraceOnEdges. change (for_loop n body [] = Throw).
  assert (Q : forall m start l, (start + m = n)%nat -> (start <= e)%nat -> for_from start m body l = Throw).
  { induction m as [|m IH]; intros start l E1 E2; [lia|]. cbn [for_from].
    destruct (Rle_dec (Rabs (edge_start vertices (dir start) start 0%nat - centroid 0%nat)) tiny) as [C1|C1];
    [destruct (Rle_dec (Rabs (edge_start vertices (dir start) start 1%nat - centroid 1%nat)) tiny) as [C2|C2]|].
    - rewrite body_throw; [reflexivity|lia|split; auto].
    - destruct (body_ok start l) as (C & E & _); [lia|intros (Q1 & Q2); auto|]. rewrite E. cbn [bind]. apply IH; [lia|].
      destruct (Nat.eq_dec start e) as [->|]; [|lia]. destruct Hc. contradiction.
    - destruct (body_ok start l) as (C & E & _); [lia|intros (Q1 & Q2); auto|]. rewrite E. cbn [bind]. apply IH; [lia|].
      destruct (Nat.eq_dec start e) as [->|]; [|lia]. destruct Hc. contradiction. }
  apply Q; lia.
Qed.

Lemma seen_resolved e s d : (d < 2)%nat -> resolved centroid (edge_start vertices (dir e) e) ->
  seen_point e s d = on_segment (edge_start vertices (dir e) e) (edge_end vertices (dir e) e) s d.
Proof.
  intros Hd2 H. unfold seen_point, on_segment. destruct (Rlt_dec _ _) as [L|L]; auto. destruct (H d Hd2) as [<-|]; [reflexivity|contradiction].
Qed.

(** in general the point is off by no more than the tolerance *)
Lemma seen_near e s d : Rabs (seen_point e s d - on_segment (edge_start vertices (dir e) e) (edge_end vertices (dir e) e) s d) <= tiny.
Proof.
  unfold seen_point, on_segment. destruct (Rlt_dec _ _) as [L|L].
  - match goal with |- Rabs ?x <= _ => replace x with 0 by ring end. rewrite Rabs_R0. apply Rlt_le, tol_pos.
  - apply Rnot_lt_le in L. match goal with |- Rabs ?x <= _ => replace x with (- (edge_start vertices (dir e) e d - centroid d)) by ring end. now rewrite Rabs_Ropp.
Qed.

Lemma mono_2_ext r x y : (r < NumMonomials data)%nat -> x 0%nat = y 0%nat -> x 1%nat = y 1%nat -> mono (expo (Exponents data) r) x = mono (expo (Exponents data) r) y.
Proof.
  intros Hr E0 E1. rewrite num_data in Hr. rewrite (expo_enum M2 idx2 good_2D _ _ Hm r Hr), enum_ab. unfold mono. cbn [mono_from]. now rewrite E0, E1.
Qed.

Theorem traces_exact : (forall e, (e < n)%nat -> ~ too_close centroid (edge_start vertices (dir e) e) /\ resolved centroid (edge_start vertices (dir e) e)) ->
  exists l, MonomialTraceOnEdges Binomial.C k vertices diam centroid dirs tangents = Ok l /\ length l = n /\
    forall e, (e < n)%nat -> exists C, nth_error l e = Some C /\ m_rows C = NumMonomials data /\ m_cols C = (k + 2)%nat /\
      forall r s, (r < NumMonomials data)%nat -> rsum (k + 2) (fun c => m_at C r c * s ^ c) =
        mono (expo (Exponents data) r) (scaled centroid diam (on_segment (edge_start vertices (dir e) e) (edge_end vertices (dir e) e) s)).
Proof.
  intros H. destruct (traces_ok (fun e He => proj1 (H e He))) as (l & E & L & G). exists l. split; auto. split; auto.
  intros e He. destruct (G e He) as (C & EC & R1 & R2 & P). exists C. repeat split; auto. intros r s Hr. rewrite P by auto.
  destruct (H e He) as (_ & Hr2). apply mono_2_ext; auto; unfold scaled; rewrite seen_resolved; auto.
Qed.

Theorem traces_near : (forall e, (e < n)%nat -> ~ too_close centroid (edge_start vertices (dir e) e)) ->
  exists l, MonomialTraceOnEdges Binomial.C k vertices diam centroid dirs tangents = Ok l /\ length l = n /\
    forall e, (e < n)%nat -> exists C, nth_error l e = Some C /\ m_rows C = NumMonomials data /\ m_cols C = (k + 2)%nat /\
      forall s, exists x : point,
        (forall d, (d < 2)%nat -> Rabs (x d - on_segment (edge_start vertices (dir e) e) (edge_end vertices (dir e) e) s d) <= tiny) /\
        forall r, (r < NumMonomials data)%nat -> rsum (k + 2) (fun c => m_at C r c * s ^ c) = mono (expo (Exponents data) r) (scaled centroid diam x).
Proof.
  intros H. destruct (traces_ok H) as (l & E & L & G). exists l. split; auto. split; auto.
  intros e He. destruct (G e He) as (C & EC & R1 & R2 & P). exists C. repeat split; auto. intros s. exists (seen_point e s). split; [intros; apply seen_near|]. intros r Hr. apply P; auto.
Qed.
End Edges.

(** a dart whose inner corner is its centroid *)
Definition dart : Mat := {| m_rows := 3; m_cols := 4; m_at := fun d e =>
  match d, e with 0%nat, 1%nat => 1 | 0%nat, 3%nat => -1 | 1%nat, 1%nat => -1 | 1%nat, 2%nat => 1 | 1%nat, 3%nat => -1 | _, _ => 0 end |}.
Definition dart_tangents : Mat := {| m_rows := 3; m_cols := 4; m_at := fun d e => m_at dart d ((e + 1) mod 4) - m_at dart d e |}.
Lemma dart_facts : shoelace dart = 1 /\ is_area_centroid dart (fun _ => 0) /\ are_tangents dart dart_tangents /\
  too_close (fun _ => 0) (edge_start dart true 0).
Proof.
  assert (CT : cross_term dart 0 = 0 /\ cross_term dart 1 = 1 /\ cross_term dart 2 = 1 /\ cross_term dart 3 = 0).
  { unfold cross_term. cbn [m_cols m_at dart Nat.add Nat.modulo Nat.divmod Nat.sub snd]. repeat split; ring. }
  destruct CT as (T0 & T1 & T2 & T3).
  assert (SH : shoelace dart = 1) by (unfold shoelace; cbn [m_cols dart rsum]; rewrite T0, T1, T2, T3; field).
  split; auto. split.
  - intros d Hd. rewrite SH. change (m_cols dart) with 4%nat. cbn [rsum]. rewrite T0, T1, T2, T3.
    destruct d as [|[|d]]; [| |lia]; cbn [m_at dart Nat.add Nat.modulo Nat.divmod Nat.sub snd]; ring.
  - split; [repeat split|]. split; unfold edge_start, pt; cbn [m_at dart]; rewrite Rminus_0_r, Rabs_R0; apply Rlt_le, tol_pos.
Qed.
