(** Proofs about the inertia mapping. *)
From Coq Require Import List Arith Bool Reals Lra Lia.
From Verif Require Import Base RSum InertiaModel InertiaSpec.
Import ListNotations.
Local Open Scope R_scope.

Lemma fold_max_ge (v : nat -> R) l : forall a, a <= fold_left (fun a i => Rmax a (v i)) l a.
Proof. induction l as [|i l IH]; simpl; intros a; [lra|]. eapply Rle_trans; [apply (Rmax_l a (v i))|apply IH]. Qed.

Lemma maxCoeff_pos n v : 0 < v 0%nat -> 0 < maxCoeff n v.
Proof. intros H. unfold maxCoeff. eapply Rlt_le_trans; [exact H|apply fold_max_ge]. Qed.

Lemma rsum_delta_l n f i : (i < n)%nat -> rsum n (fun k => delta i k * f k) = f i.
Proof.
  intros Hi. rewrite (rsum_single n _ i) by (auto; intros k Hk Hne; unfold delta; try (destruct (Nat.eqb_spec i k)); try (destruct (Nat.eqb_spec k j)); try lia; lra).
  unfold delta. rewrite Nat.eqb_refl. lra.
Qed.
Lemma rsum_delta_r n f j : (j < n)%nat -> rsum n (fun k => f k * delta k j) = f j.
Proof.
  intros Hi. rewrite (rsum_single n _ j) by (auto; intros k Hk Hne; unfold delta; try (destruct (Nat.eqb_spec i k)); try (destruct (Nat.eqb_spec k j)); try lia; lra).
  unfold delta. rewrite Nat.eqb_refl. lra.
Qed.

Section Maps.
Variables (n : nat) (H : nat -> nat -> R) (lambda : nat -> R) (Q : nat -> nat -> R).
Hypothesis Hn : (0 < n)%nat.
Hypothesis HE : eigen_pairs n H lambda Q.
Let s i := sqrt (lambda i).
Let M := maxCoeff n s.

Lemma s_pos i : (i < n)%nat -> 0 < s i.
Proof. intros Hi. apply sqrt_lt_R0. now apply (ep_positive _ _ _ _ HE). Qed.
Lemma M_pos : 0 < M.
Proof. apply maxCoeff_pos. now apply s_pos. Qed.

Lemma B_entry i j : (i < n)%nat -> Bmatrix_of n lambda Q i j = M * (/ s i * Q j i).
Proof.
  intros Hi. unfold Bmatrix_of, scale, product, diagonal, transpose. change (fun i0 => sqrt (lambda i0)) with s. fold M. f_equal.
  rewrite (rsum_single n _ i) by (auto; intros k Hk Hne; unfold delta; try (destruct (Nat.eqb_spec i k)); try (destruct (Nat.eqb_spec k j)); try lia; lra).
  now rewrite Nat.eqb_refl.
Qed.
Lemma BI_entry i j : (j < n)%nat -> BmatrixInv_of n lambda Q i j = / M * (Q i j * s j).
Proof.
  intros Hj. unfold BmatrixInv_of, scale, product, diagonal. change (fun i0 => sqrt (lambda i0)) with s. fold M. f_equal.
  rewrite (rsum_single n _ j) by (auto; intros k Hk Hne; unfold delta; try (destruct (Nat.eqb_spec i k)); try (destruct (Nat.eqb_spec k j)); try lia; lra).
  now rewrite Nat.eqb_refl.
Qed.

Lemma B_inverse : inverse n (BmatrixInv_of n lambda Q) (Bmatrix_of n lambda Q).
Proof.
  intros i j Hi Hj. pose proof M_pos. split.
  - rewrite <- (ep_rows _ _ _ _ HE i j Hi Hj). apply rsum_ext. intros k Hk. rewrite B_entry, BI_entry by auto. pose proof (s_pos k Hk). field. lra.
  - transitivity (/ s i * s j * rsum n (fun k => Q k i * Q k j)).
    + rewrite <- rsum_scal. apply rsum_ext. intros k Hk. rewrite B_entry, BI_entry by auto. pose proof (s_pos i Hi). field. lra.
    + rewrite (ep_columns _ _ _ _ HE i j Hi Hj). unfold delta. destruct (i =? j)%nat eqn:E; [|lra]. apply Nat.eqb_eq in E. subst j.
      pose proof (s_pos i Hi). field. lra.
Qed.

(** B H B^T = M^2 I *)
Lemma B_isotropic i j : (i < n)%nat -> (j < n)%nat ->
  rsum n (fun a => rsum n (fun b => Bmatrix_of n lambda Q i a * Bmatrix_of n lambda Q j b * H a b)) = M * M * delta i j.
Proof.
  intros Hi Hj. transitivity (M * M * / s i * / s j * lambda j * rsum n (fun a => Q a i * Q a j)).
  - rewrite <- rsum_scal. apply rsum_ext. intros a Ha.
    transitivity (M * M * / s i * / s j * Q a i * rsum n (fun b => H a b * Q b j)).
    + rewrite <- rsum_scal. apply rsum_ext. intros b Hb. rewrite !B_entry by auto. ring.
    + rewrite (ep_eigen _ _ _ _ HE a j Ha Hj). ring.
  - rewrite (ep_columns _ _ _ _ HE i j Hi Hj). unfold delta. destruct (i =? j)%nat eqn:E; [|ring]. apply Nat.eqb_eq in E. subst j.
    pose proof (s_pos i Hi). assert (SS : s i * s i = lambda i) by (apply sqrt_sqrt; apply Rlt_le; now apply (ep_positive _ _ _ _ HE)).
    rewrite <- SS. field. lra.
Qed.
End Maps.

Lemma inverse_scale n a A B : a <> 0 -> inverse n A B -> inverse n (scale a A) (scale (1 / a) B).
Proof.
  intros Ha HI i j Hi Hj. destruct (HI i j Hi Hj) as (E1 & E2). split; [rewrite <- E1|rewrite <- E2]; apply rsum_ext; intros k Hk; unfold scale; field; auto.
Qed.

Lemma inverse_product n a A B : a <> 0 -> inverse n A B -> inverse n (product n (scale a Identity) A) (product n B (scale (1 / a) Identity)).
Proof.
  intros Ha HI i j Hi Hj. destruct (HI i j Hi Hj) as (E1 & E2).
  assert (P1 : forall u v, (u < n)%nat -> product n (scale a Identity) A u v = a * A u v).
  { intros u v Hu. unfold product, scale. rewrite (rsum_ext n _ (fun k => delta u k * (a * A k v))) by (intros; unfold Identity, delta; ring). now rewrite rsum_delta_l. }
  assert (P2 : forall u v, (v < n)%nat -> product n B (scale (1 / a) Identity) u v = 1 / a * B u v).
  { intros u v Hu. unfold product, scale. rewrite (rsum_ext n _ (fun k => (1 / a * B u k) * delta k v)) by (intros; unfold Identity, delta; ring). now rewrite rsum_delta_r. }
  split; [rewrite <- E1|rewrite <- E2]; apply rsum_ext; intros k Hk; rewrite P1, P2 by auto; field; auto.
Qed.

Section Two.
Variables (x : Inertia_Externals) (vertices : list (nat -> R)) (centroid : nat -> R) (diameter : R) (simplices : list (list (nat -> R))) (H : nat -> nat -> R).

Lemma two_success : inertia_inputs 2 x vertices centroid diameter simplices H ->
  exists D lambda Q d2, InertiaMapping2D x vertices centroid diameter simplices = Ok D /\ 0 < d2 /\ eigen_pairs 2 H lambda Q /\
    d2 = DiameterOf x (map (fun p i => rsum 3 (fun k => set_corner (scale (1 / diameter) Identity) (product 2 (Bmatrix_of 2 lambda Q) (scale (1 / diameter) Identity)) i k * (p k - (0 + centroid k)))) vertices) /\
    D = {| Fmatrix := scale d2 (set_corner (scale diameter Identity) (product 2 (scale diameter Identity) (BmatrixInv_of 2 lambda Q)));
           FmatrixInv := scale (1 / d2) (set_corner (scale (1 / diameter) Identity) (product 2 (Bmatrix_of 2 lambda Q) (scale (1 / diameter) Identity)));
           translation := add (fun _ => 0) centroid;
           absDetFmatrix := 1 * (diameter * diameter) * Rabs (determinant2 (BmatrixInv_of 2 lambda Q)) * (d2 * d2);
           signDetQ := if Rlt_dec (1 / 10 ^ 12) (determinant2 (BmatrixInv_of 2 lambda Q)) then 1 else -1 |}.
Proof.
  intros [Hd H2 HM (lambda & Q & ES & EP)]. unfold InertiaMapping2D. 
  match goal with |- context [EigenSolver x ?A] => replace A with H end. rewrite ES.
  eexists _, lambda, Q, _. split; [reflexivity|]. split; [|split; [exact EP|split; reflexivity]].
  apply H2. apply map_length.
Qed.

Hypothesis HI : inertia_inputs 2 x vertices centroid diameter simplices H.

(** everything about the data returned *)
Lemma two_result : exists D, InertiaMapping2D x vertices centroid diameter simplices = Ok D /\
  inverse 3 (Fmatrix D) (FmatrixInv D) /\ absDetFmatrix D = Rabs (det2 (Fmatrix D)) /\ 0 < absDetFmatrix D /\
  (forall i, (i < 2)%nat -> Fmatrix D i 2%nat = 0 /\ Fmatrix D 2%nat i = 0 /\ FmatrixInv D i 2%nat = 0 /\ FmatrixInv D 2%nat i = 0) /\
  (forall i, translation D i = centroid i) /\
  (signDetQ D = 1 -> 0 < det2 (Fmatrix D)) /\
  (signDetQ D = -1 -> det2 (Fmatrix D) <= (Fmatrix D 2%nat 2%nat) * (Fmatrix D 2%nat 2%nat) / 10 ^ 12) /\ (signDetQ D = 1 \/ signDetQ D = -1) /\
  (forall rule, (forall i j, (i < 2)%nat -> (j < 2)%nat -> H i j = second_moment (rescaled diameter rule) (fun i => centroid i / diameter) i j) ->
     exists c, 0 < c /\ forall i j, (i < 2)%nat -> (j < 2)%nat ->
       second_moment (map (fun wp => (fst wp, mapped 3 D (snd wp))) rule) (mapped 3 D centroid) i j = c * delta i j).
Proof.
  destruct (two_success HI) as (D & lambda & Q & d2 & E & P2 & EP & _ & ED). exists D. split; auto. subst D.
  pose proof (ii_diameter _ _ _ _ _ _ _ HI) as Hd.
  pose proof (B_inverse 2 H lambda Q ltac:(lia) EP) as BI.
  set (B := Bmatrix_of 2 lambda Q) in *. set (BInv := BmatrixInv_of 2 lambda Q) in *.
  pose proof (inverse_product 2 diameter BInv B ltac:(lra) BI) as PI.
  assert (det2 (product 2 (scale diameter Identity) BInv) = diameter * diameter * determinant2 BInv) as DP.
  { unfold det2, determinant2, product, scale, Identity. cbn. ring. }
  assert (ND : determinant2 BInv <> 0).
  { intros Z. assert (I0 : determinant2 BInv * determinant2 B = 1).
    { transitivity (det2 (fun i j => rsum 2 (fun k => BInv i k * B k j))).
      - unfold det2, determinant2. cbn. ring.
      - unfold det2. rewrite (proj1 (BI 0%nat 0%nat ltac:(lia) ltac:(lia))), (proj1 (BI 1%nat 1%nat ltac:(lia) ltac:(lia))), (proj1 (BI 0%nat 1%nat ltac:(lia) ltac:(lia))), (proj1 (BI 1%nat 0%nat ltac:(lia) ltac:(lia))). unfold delta. cbn. ring. }
    rewrite Z in I0. lra. }
  cbn [Fmatrix FmatrixInv translation absDetFmatrix signDetQ].
  assert (DF : det2 (scale d2 (set_corner (scale diameter Identity) (product 2 (scale diameter Identity) BInv))) = d2 * d2 * (diameter * diameter * determinant2 BInv)).
  { unfold det2, determinant2, scale, set_corner, product, Identity. cbn. ring. }
  split; [|split; [|split; [|split; [|split; [|split; [|split; [|split]]]]]]].
  - apply inverse_scale; [lra|]. intros i j Hi Hj.
    assert (Z : forall A B, rsum 3 (fun k => set_corner (scale diameter Identity) A i k * set_corner (scale (1 / diameter) Identity) B k j) = 
      if ((i <? 2) && (j <? 2))%nat then rsum 2 (fun k => A i k * B k j) else delta i j).
    { intros A0 B0. unfold set_corner, scale, Identity, delta. destruct i as [|[|[|i]]]; try lia; destruct j as [|[|[|j]]]; try lia; cbn; field; lra. }
    assert (Z' : forall A B, rsum 3 (fun k => set_corner (scale (1 / diameter) Identity) A i k * set_corner (scale diameter Identity) B k j) = 
      if ((i <? 2) && (j <? 2))%nat then rsum 2 (fun k => A i k * B k j) else delta i j).
    { intros A0 B0. unfold set_corner, scale, Identity, delta. destruct i as [|[|[|i]]]; try lia; destruct j as [|[|[|j]]]; try lia; cbn; field; lra. }
    rewrite Z, Z'. destruct ((i <? 2) && (j <? 2))%nat eqn:C; [|auto]. apply andb_true_iff in C. destruct C as (C1 & C2). apply Nat.ltb_lt in C1, C2.
    exact (PI i j C1 C2).
  - rewrite DF, !Rabs_mult. rewrite (Rabs_right d2), (Rabs_right diameter) by lra. ring.
  - pose proof (Rabs_pos_lt _ ND). assert (0 < diameter * diameter) by nra. assert (0 < d2 * d2) by nra. assert (0 < diameter * diameter * Rabs (determinant2 BInv)) by nra. nra.
  - intros i Hi. unfold scale, set_corner, Identity. destruct i as [|[|i]]; try lia; cbn; repeat split; ring.
  - intros i. unfold add. ring.
  - rewrite DF. destruct (Rlt_dec (1 / 10 ^ 12) (determinant2 BInv)) as [L|L]; intros S1; [|lra].
    assert (0 < determinant2 BInv) by (eapply Rlt_trans; [|exact L]; apply Rdiv_lt_0_compat; [lra|apply pow_lt; lra]).
    assert (0 < diameter * diameter) by nra. assert (0 < d2 * d2) by nra. assert (0 < diameter * diameter * determinant2 BInv) by nra. nra.
  - rewrite DF. destruct (Rlt_dec (1 / 10 ^ 12) (determinant2 BInv)) as [L|L]; intros S1; [lra|].
    apply Rnot_lt_le in L. unfold scale, set_corner, Identity. cbn [Nat.ltb Nat.leb Nat.eqb andb].
    replace (d2 * (diameter * 1) * (d2 * (diameter * 1)) / 10 ^ 12) with (d2 * d2 * (diameter * diameter * (1 / 10 ^ 12))) by (field; apply Rgt_not_eq, pow_lt; lra).
    apply Rmult_le_compat_l; [nra|]. apply Rmult_le_compat_l; [nra|exact L].
  - destruct (Rlt_dec (1 / 10 ^ 12) (determinant2 BInv)); auto.
  - intros rule HR.
    pose proof (M_pos 2 H lambda Q ltac:(lia) EP) as MP. set (M := maxCoeff 2 (fun i => sqrt (lambda i))) in *.
    exists (M * M / (d2 * d2)). split.
    { apply Rdiv_lt_0_compat; nra. }
    intros i j Hi Hj.
    pose proof (B_isotropic 2 H lambda Q ltac:(lia) EP i j Hi Hj) as BB. change (maxCoeff 2 (fun i0 => sqrt (lambda i0))) with M in BB. fold B in BB.
    transitivity (1 / (d2 * d2) * rsum 2 (fun a => rsum 2 (fun b => B i a * B j b * H a b))).
    2:{ rewrite BB. field. lra. }
    rewrite (rsum_ext 2 _ (fun a => rsum 2 (fun b => B i a * B j b * second_moment (rescaled diameter rule) (fun i => centroid i / diameter) a b))).
    2:{ intros a Ha. apply rsum_ext. intros b Hb. now rewrite HR. }
    unfold second_moment, rescaled. rewrite lsum_map. cbn [fst snd]. 
    erewrite (rsum_ext 2 _ (fun a => rsum 2 (fun b => B i a * B j b * lsum (fun wp => fst wp * ((snd wp a / diameter - centroid a / diameter) * (snd wp b / diameter - centroid b / diameter))) rule))).
    2:{ intros a Ha. apply rsum_ext. intros b Hb. rewrite lsum_map. reflexivity. }
    clear BB HR. induction rule as [|[w p] rule IH]; [cbn; ring|].
    cbn [lsum fst snd]. rewrite IH. clear IH.
    unfold mapped. cbn [translation FmatrixInv]. unfold add, scale, set_corner, product, Identity.
    destruct i as [|[|i]]; try lia; destruct j as [|[|j]]; try lia; cbn; field; lra.
Qed.
End Two.

Section Three.
Variables (x : Inertia_Externals) (vertices : list (nat -> R)) (centroid : nat -> R) (diameter : R) (simplices : list (list (nat -> R))) (H : nat -> nat -> R) (arg : Inertia_Data).
Hypothesis HI : inertia_inputs 3 x vertices centroid diameter simplices H.

Lemma three_result : exists D, InertiaMapping3D x vertices centroid diameter simplices arg = Ok D /\
  inverse 3 (Fmatrix D) (FmatrixInv D) /\ absDetFmatrix D = Rabs (det3 (Fmatrix D)) /\ 0 < absDetFmatrix D /\
  (forall i, translation D i = centroid i) /\ signDetQ D = signDetQ arg /\
  (forall rule, (forall i j, (i < 3)%nat -> (j < 3)%nat -> H i j = second_moment (rescaled diameter rule) (fun i => centroid i / diameter) i j) ->
     exists c, 0 < c /\ forall i j, (i < 3)%nat -> (j < 3)%nat ->
       second_moment (map (fun wp => (fst wp, mapped 3 D (snd wp))) rule) (mapped 3 D centroid) i j = c * delta i j).
Proof.
  destruct HI as [Hd H2 HM (lambda & Q & ES & EP)]. unfold InertiaMapping3D.
  match goal with |- context [EigenSolver x ?A] => replace A with H end. rewrite ES.
  eexists. split; [reflexivity|]. cbn [Fmatrix FmatrixInv translation absDetFmatrix signDetQ].
  match goal with |- context [DiameterOf x ?l] => set (d2 := DiameterOf x l); assert (P2 : 0 < d2) by (apply H2, map_length) end. clearbody d2.
  pose proof (B_inverse 3 H lambda Q ltac:(lia) EP) as BI.
  set (B := Bmatrix_of 3 lambda Q) in *. set (BInv := BmatrixInv_of 3 lambda Q) in *.
  pose proof (inverse_product 3 diameter BInv B ltac:(lra) BI) as PI.
  assert (ND : determinant3 BInv <> 0).
  { intros Z. assert (I0 : determinant3 BInv * determinant3 B = 1).
    { transitivity (det3 (fun i j => rsum 3 (fun k => BInv i k * B k j))).
      - unfold det3, determinant3. cbn. ring.
      - unfold det3. rewrite (proj1 (BI 0%nat 0%nat ltac:(lia) ltac:(lia))), (proj1 (BI 1%nat 1%nat ltac:(lia) ltac:(lia))), (proj1 (BI 2%nat 2%nat ltac:(lia) ltac:(lia))), (proj1 (BI 0%nat 1%nat ltac:(lia) ltac:(lia))),
          (proj1 (BI 1%nat 0%nat ltac:(lia) ltac:(lia))), (proj1 (BI 0%nat 2%nat ltac:(lia) ltac:(lia))), (proj1 (BI 2%nat 0%nat ltac:(lia) ltac:(lia))), (proj1 (BI 1%nat 2%nat ltac:(lia) ltac:(lia))), (proj1 (BI 2%nat 1%nat ltac:(lia) ltac:(lia))).
        unfold delta. cbn. ring. }
    rewrite Z in I0. lra. }
  assert (DF : det3 (scale d2 (product 3 (scale diameter Identity) BInv)) = d2 * d2 * d2 * (diameter * diameter * diameter * determinant3 BInv)).
  { unfold det3, determinant3, product, scale, Identity. cbn. ring. }
  split; [|split; [|split; [|split; [|split]]]].
  - apply inverse_scale; [lra|]. exact PI.
  - rewrite DF, !Rabs_mult. rewrite (Rabs_right d2), (Rabs_right diameter) by lra. ring.
  - pose proof (Rabs_pos_lt _ ND). assert (0 < diameter * diameter) by nra. assert (0 < d2 * d2) by nra. assert (0 < diameter * diameter * diameter) by nra. assert (0 < d2 * d2 * d2) by nra.
    assert (0 < diameter * diameter * diameter * Rabs (determinant3 BInv)) by nra. nra.
  - intros i. unfold add. ring.
  - reflexivity.
  - intros rule HR.
    pose proof (M_pos 3 H lambda Q ltac:(lia) EP) as MP. set (M := maxCoeff 3 (fun i => sqrt (lambda i))) in *.
    exists (M * M / (d2 * d2)). split.
    { apply Rdiv_lt_0_compat; nra. }
    intros i j Hi Hj.
    pose proof (B_isotropic 3 H lambda Q ltac:(lia) EP i j Hi Hj) as BB. change (maxCoeff 3 (fun i0 => sqrt (lambda i0))) with M in BB. fold B in BB.
    transitivity (1 / (d2 * d2) * rsum 3 (fun a => rsum 3 (fun b => B i a * B j b * H a b))).
    2:{ rewrite BB. field. lra. }
    rewrite (rsum_ext 3 _ (fun a => rsum 3 (fun b => B i a * B j b * second_moment (rescaled diameter rule) (fun i => centroid i / diameter) a b))).
    2:{ intros a Ha. apply rsum_ext. intros b Hb. now rewrite HR. }
    unfold second_moment, rescaled. rewrite lsum_map. cbn [fst snd]. 
    erewrite (rsum_ext 3 _ (fun a => rsum 3 (fun b => B i a * B j b * lsum (fun wp => fst wp * ((snd wp a / diameter - centroid a / diameter) * (snd wp b / diameter - centroid b / diameter))) rule))).
    2:{ intros a Ha. apply rsum_ext. intros b Hb. rewrite lsum_map. reflexivity. }
    clear BB HR. induction rule as [|[w p] rule IH]; [cbn; ring|].
    cbn [lsum fst snd]. rewrite IH. clear IH.
    unfold mapped. cbn [translation FmatrixInv]. unfold add, scale, product, Identity. cbn. field. lra.
Qed.
End Three.

(** the map of the points and its inverse *)
Lemma mapped_inverse D p i : inverse 3 (Fmatrix D) (FmatrixInv D) -> (i < 3)%nat ->
  mapped_back 3 D (mapped 3 D p) i = p i /\ mapped 3 D (mapped_back 3 D p) i = p i.
Proof.
  intros HI Hi. unfold mapped_back, mapped. split.
  - rewrite (rsum_ext 3 _ (fun l => rsum 3 (fun k => Fmatrix D i l * FmatrixInv D l k * (p k - translation D k)))).
    + rewrite rsum_swap. rewrite (rsum_ext 3 _ (fun k => delta i k * (p k - translation D k))).
      * rewrite rsum_delta_l by auto. ring.
      * intros k Hk. rewrite rsum_scal_r. f_equal. exact (proj1 (HI i k Hi Hk)).
    + intros l Hl. rewrite <- rsum_scal. apply rsum_ext. intros; ring.
  - rewrite (rsum_ext 3 _ (fun k => rsum 3 (fun l => FmatrixInv D i k * Fmatrix D k l * p l))).
    + rewrite rsum_swap. rewrite (rsum_ext 3 _ (fun l => delta i l * p l)).
      * now apply rsum_delta_l.
      * intros k Hk. rewrite rsum_scal_r. f_equal. exact (proj2 (HI i k Hi Hk)).
    + intros k Hk. unfold Rminus. rewrite Rplus_assoc, Rplus_opp_r, Rplus_0_r, <- rsum_scal. apply rsum_ext. intros; ring.
Qed.
