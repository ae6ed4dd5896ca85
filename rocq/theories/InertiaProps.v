(** Property C39: the inertia mapping. *)
From Coq Require Import List Arith Bool Reals Lra Lia.
From Verif Require Import Base RSum InertiaModel InertiaSpec InertiaProofs.
Import ListNotations.
Local Open Scope R_scope.

Theorem C39_inertia_2D : forall x vertices centroid diameter simplices H,
  inertia_inputs 2 x vertices centroid diameter simplices H ->
  exists D, InertiaMapping2D x vertices centroid diameter simplices = Ok D /\
  inverse 3 (Fmatrix D) (FmatrixInv D) /\ absDetFmatrix D = Rabs (det2 (Fmatrix D)) /\ 0 < absDetFmatrix D /\
  (forall i, (i < 2)%nat -> Fmatrix D i 2%nat = 0 /\ Fmatrix D 2%nat i = 0 /\ FmatrixInv D i 2%nat = 0 /\ FmatrixInv D 2%nat i = 0) /\
  (forall i, translation D i = centroid i) /\
  (signDetQ D = 1 -> 0 < det2 (Fmatrix D)) /\
  (signDetQ D = -1 -> det2 (Fmatrix D) <= (Fmatrix D 2%nat 2%nat) * (Fmatrix D 2%nat 2%nat) / 10 ^ 12) /\ (signDetQ D = 1 \/ signDetQ D = -1) /\
  (forall rule, (forall i j, (i < 2)%nat -> (j < 2)%nat -> H i j = second_moment (rescaled diameter rule) (fun i => centroid i / diameter) i j) ->
     exists c, 0 < c /\ forall i j, (i < 2)%nat -> (j < 2)%nat ->
       second_moment (map (fun wp => (fst wp, mapped 3 D (snd wp))) rule) (mapped 3 D centroid) i j = c * delta i j).
Proof. exact two_result. Qed.

Theorem C39_inertia_3D : forall x vertices centroid diameter simplices H arg,
  inertia_inputs 3 x vertices centroid diameter simplices H ->
  exists D, InertiaMapping3D x vertices centroid diameter simplices arg = Ok D /\
  inverse 3 (Fmatrix D) (FmatrixInv D) /\ absDetFmatrix D = Rabs (det3 (Fmatrix D)) /\ 0 < absDetFmatrix D /\
  (forall i, translation D i = centroid i) /\ signDetQ D = signDetQ arg /\
  (forall rule, (forall i j, (i < 3)%nat -> (j < 3)%nat -> H i j = second_moment (rescaled diameter rule) (fun i => centroid i / diameter) i j) ->
     exists c, 0 < c /\ forall i j, (i < 3)%nat -> (j < 3)%nat ->
       second_moment (map (fun wp => (fst wp, mapped 3 D (snd wp))) rule) (mapped 3 D centroid) i j = c * delta i j).
Proof. exact three_result. Qed.

Theorem C39_mapped_points : forall D p i, inverse 3 (Fmatrix D) (FmatrixInv D) -> (i < 3)%nat ->
  mapped_back 3 D (mapped 3 D p) i = p i /\ mapped 3 D (mapped_back 3 D p) i = p i.
Proof. exact mapped_inverse. Qed.

(** ** Examples: a rectangle with sides 4 and 2, second moments 4 and 1 (rule of the four corners) *)
Definition rect_H : nat -> nat -> R := fun i j => match i, j with 0%nat, 0%nat => 4 | 1%nat, 1%nat => 1 | _, _ => 0 end.
Definition rect_lambda : nat -> R := fun i => match i with 0%nat => 4 | _ => 1 end.
Definition rect_x : Inertia_Externals := {| Mass := fun _ _ => rect_H; DiameterOf := fun _ => 3; EigenSolver := fun _ => Some (rect_lambda, Identity) |}.
Definition pt2 (a b : R) : nat -> R := fun i => match i with 0%nat => a | 1%nat => b | _ => 0 end.
Definition rect_rule : list (R * (nat -> R)) := [(1/4, pt2 2 1); (1/4, pt2 (-2) 1); (1/4, pt2 (-2) (-1)); (1/4, pt2 2 (-1))].
Ltac two k := destruct k as [|[|k]]; [| |exfalso; lia].
Example rect_inputs : inertia_inputs 2 rect_x [pt2 2 1; pt2 (-2) 1; pt2 (-2) (-1); pt2 2 (-1)] (pt2 0 0) 1 [] rect_H.
Proof.
  constructor; cbn; intros; try lra; try reflexivity. exists rect_lambda, Identity. split; [reflexivity|].
  constructor; [intros i j Hi Hj; two i; two j|intros i j Hi Hj; two i; two j|intros i j Hi Hj; two i; two j|intros i Hi; two i];
    unfold delta, Identity, rect_H, rect_lambda; cbn; try lra.
Qed.
Example rect_moments : forall i j, (i < 2)%nat -> (j < 2)%nat -> rect_H i j = second_moment (rescaled 1 rect_rule) (fun i => pt2 0 0 i / 1) i j.
Proof. intros i j Hi Hj. destruct i as [|[|i]]; try lia; destruct j as [|[|j]]; try lia; unfold second_moment; cbn; field. Qed.

(** signDetQ is not the sign of the determinant when 0 < det <= 10^-12: a rectangle with sides in ratio 10^13 *)
Definition thin_lambda : nat -> R := fun i => match i with 0%nat => 1 | _ => (1 / 10 ^ 13) * (1 / 10 ^ 13) end.
Definition thin_H : nat -> nat -> R := fun i j => if (i =? j)%nat then thin_lambda i else 0.
Definition thin_x : Inertia_Externals := {| Mass := fun _ _ => thin_H; DiameterOf := fun _ => 3; EigenSolver := fun _ => Some (thin_lambda, Identity) |}.
Lemma thin_pos : 0 < 1 / 10 ^ 13.
Proof. apply Rdiv_lt_0_compat; [lra|apply pow_lt; lra]. Qed.
Lemma thin_small : 1 / 10 ^ 13 <= 1.
Proof. apply Rmult_le_reg_r with (10 ^ 13); [apply pow_lt; lra|]. unfold Rdiv. rewrite Rmult_assoc, Rinv_l by (apply Rgt_not_eq, pow_lt; lra). rewrite !Rmult_1_l. apply pow_R1_Rle. lra. Qed.
Lemma thin_less : 1 / 10 ^ 13 <= 1 / 10 ^ 12.
Proof. unfold Rdiv. rewrite !Rmult_1_l. apply Rinv_le_contravar; [apply pow_lt; lra|]. apply Rle_pow; [lra|lia]. Qed.
Theorem C39_sign_refuted : exists x vertices centroid simplices H D, inertia_inputs 2 x vertices centroid 1 simplices H /\
  InertiaMapping2D x vertices centroid 1 simplices = Ok D /\ signDetQ D = -1 /\ 0 < det2 (Fmatrix D).
Proof.
  assert (HI : inertia_inputs 2 thin_x [] (pt2 0 0) 1 [] thin_H).
  { pose proof thin_pos as TP. constructor; cbn -[pow]; intros; try lra; try reflexivity. exists thin_lambda, Identity. split; [reflexivity|].
    constructor; [intros i j Hi Hj; two i; two j|intros i j Hi Hj; two i; two j|intros i j Hi Hj; two i; two j|intros i Hi; two i];
      unfold delta, Identity, thin_H, thin_lambda; cbn -[pow]; try lra; try nra. }
  pose proof thin_pos as TP. pose proof thin_small as TS. pose proof thin_less as TL. 
  assert (BE : determinant2 (BmatrixInv_of 2 thin_lambda Identity) = 1 / 10 ^ 13).
  { unfold determinant2, BmatrixInv_of, scale, product, diagonal, maxCoeff, Identity, thin_lambda. cbn -[pow Rmax]. rewrite sqrt_1. rewrite sqrt_square by lra.
    rewrite Rmax_left by lra. field. }
  exists thin_x, [], (pt2 0 0), [], thin_H.
  unfold InertiaMapping2D. cbn [EigenSolver thin_x Mass DiameterOf map]. eexists. split; [exact HI|]. split; [reflexivity|]. cbn [signDetQ Fmatrix]. split.
  - rewrite BE. destruct (Rlt_dec (1 / 10 ^ 12) (1 / 10 ^ 13)); [lra|reflexivity].
  - replace (det2 _) with (3 * 3 * determinant2 (BmatrixInv_of 2 thin_lambda Identity)); [rewrite BE; lra|].
    unfold det2, determinant2, scale at 3 4 5 6, set_corner, product. unfold scale, Identity. cbn -[pow BmatrixInv_of]. ring.
Qed.
Print Assumptions C39_inertia_2D.
Print Assumptions C39_inertia_3D.
Print Assumptions C39_mapped_points.
Print Assumptions C39_sign_refuted.
