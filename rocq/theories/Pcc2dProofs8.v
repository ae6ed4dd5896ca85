(** Proofs: definite systems have one solution; the drivers and ZFEM. *)
From Coq Require Import List Arith Bool Reals Lia Lra.
From Verif Require Import Base RSum MatrixModel DofsModel AssemblerModel AssemblerSpec EquationModel VemQuadModel VemModel VemSpec ZfemModel GaussModel DriverModel DriverSpec DriverSpec2 Pcc2dModel Pcc2dSpec.
Import ListNotations.
Local Open Scope R_scope.

Lemma list_of (n : nat) (x : nat -> R) : exists l, length l = n /\ forall j, (j < n)%nat -> nth j l 0 = x j.
Proof.
  exists (map x (seq 0 n)). split; [now rewrite map_length, seq_length|]. intros j Hj.
  rewrite (nth_indep _ 0 (x 0%nat)) by (now rewrite map_length, seq_length). now rewrite map_nth, seq_nth.
Qed.

Lemma definite_solvable n s : (forall uD, length uD = n -> energy n s uD = 0 -> forall r, nth r uD 0 = 0) ->
  forall b w uS, exists uD, solves_system s b w uD uS n /\ forall vD, solves_system s b w vD uS n -> vD = uD.
Proof.
  intros DEF b w uS.
  assert (NS : forall x : nat -> R, (forall i, (i < n)%nat -> rsum n (fun j => entry (trip_DOFs s) i j * x j) = 0) -> forall j, (j < n)%nat -> x j = 0).
  { intros x Hx j Hj. destruct (list_of n x) as (l & L & Hl). rewrite <- (Hl j Hj). apply (DEF l L). unfold energy. apply rsum_0. intros r Hr.
    rewrite (rsum_ext n _ (fun j => entry (trip_DOFs s) r j * x j)) by (intros i Hi; rewrite Hl by exact Hi; reflexivity). rewrite Hx by exact Hr. ring. }
  set (rhs := fun r => nth r b 0 + nth r w 0 - rsum (length uS) (fun j => entry (trip_Strongs s) r j * nth j uS 0)).
  destruct (list_of n (gauss n (fun i j => entry (trip_DOFs s) i j) rhs)) as (uD & LD & HD). exists uD.
  assert (SO : solves_system s b w uD uS n).
  { split; [exact LD|]. intros r Hr. unfold operator_row. rewrite LD.
    rewrite (rsum_ext n _ (fun j => entry (trip_DOFs s) r j * gauss n (fun i j => entry (trip_DOFs s) i j) rhs j)) by (intros i Hi; rewrite HD by exact Hi; reflexivity).
    rewrite (gauss_ok n (fun i j => entry (trip_DOFs s) i j) rhs NS r Hr). unfold rhs. ring. }
  split; [exact SO|]. intros vD [LV HV]. apply nth_ext with (d := 0) (d' := 0); [congruence|]. intros j Hj. rewrite LV in Hj. apply Rminus_diag_uniq.
  apply (NS (fun j => nth j vD 0 - nth j uD 0)); [|exact Hj]. intros r Hr. destruct SO as [_ SO]. pose proof (HV r Hr) as H1. pose proof (SO r Hr) as H2. unfold operator_row in H1, H2. rewrite LV in H1. rewrite LD in H2.
  rewrite (rsum_ext n _ (fun j => entry (trip_DOFs s) r j * nth j vD 0 - entry (trip_DOFs s) r j * nth j uD 0)) by (intros; ring). rewrite rsum_minus. lra.
Qed.

(** ** The drivers on the zipped element *)
Lemma zfem_elliptic m trial test ct cs c dif adv rea s : (c < Cell2Ds_number (md_mesh m))%nat -> md_active2 m c = true ->
  (forall sp, cs c = Ok sp -> exists ref p tangents l Q points edge_points on_edge, sp = ZFEM_space ref p tangents l Q points edge_points on_edge) ->
  assemble_elliptic_operator m trial test ct cs dif adv rea <> Ok s.
Proof.
  intros Hc Ha HZ E. unfold assemble_elliptic_operator, for_loop in E. destruct (@for_from_reach _ _ _ _ _ _ E c ltac:(lia)) as (t & t' & H). rewrite Ha in H. cbn [negb] in H.
  apply bind_Ok in H. destruct H as (x & _ & H). apply bind_Ok in H. destruct H as (y & E2 & H). apply bind_Ok in H. destruct H as (A & EA & _).
  destruct (HZ y E2) as (r & p & tg & l & Q & pts & ep & oe & ->). unfold elliptic_cell in EA. apply bind_Ok in EA. destruct EA as (? & _ & EA). apply bind_Ok in EA. destruct EA as (? & _ & EA).
  cbn [ZFEM_space ls_ValuesAt bind] in EA. discriminate.
Qed.
Lemma zfem_source m test ct cs c f b : (c < Cell2Ds_number (md_mesh m))%nat -> md_active2 m c = true ->
  (forall sp, cs c = Ok sp -> exists ref p tangents l Q points edge_points on_edge, sp = ZFEM_space ref p tangents l Q points edge_points on_edge) ->
  assemble_source_term m test ct cs f <> Ok b.
Proof.
  intros Hc Ha HZ E. unfold assemble_source_term, for_loop in E. apply bind_Ok in E. destruct E as (s & E & _). destruct (@for_from_reach _ _ _ _ _ _ E c ltac:(lia)) as (t & t' & H). rewrite Ha in H. cbn [negb] in H.
  apply bind_Ok in H. destruct H as (x & _ & H). apply bind_Ok in H. destruct H as (y & E2 & H). apply bind_Ok in H. destruct H as (A & EA & _).
  destruct (HZ y E2) as (r & p & tg & l & Q & pts & ep & oe & ->). cbn [source_cell ZFEM_space ls_ValuesAt bind] in EA. discriminate.
Qed.
