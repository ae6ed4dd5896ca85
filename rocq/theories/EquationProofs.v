From Coq Require Import List Arith Bool Lia Reals Lra.
From Verif Require Import Base RSum DofsProofs MatrixModel EquationModel EquationSpec.
Import ListNotations.
Local Open Scope R_scope.

Lemma twb_ok A w B nq n m : shaped nq n A -> sized nq w -> shaped nq m B ->
  exists M, twb A w B = Ok M /\ is_mat M n m (fun i j => rsum nq (fun q => m_at A q i * v_at w q * m_at B q j)).
Proof.
  intros (A1 & A2) Hw (B1 & B2). unfold twb, mdiag, mtrans. cbn. unfold sized in Hw. rewrite A1, Hw, Nat.eqb_refl. cbn [bind].
  unfold mmul. cbn. rewrite B1, Nat.eqb_refl. eexists. split; [reflexivity|]. unfold is_mat. cbn. auto.
Qed.

Lemma twv_ok A w v nq n : shaped nq n A -> sized nq w -> sized nq v ->
  exists r, twv A w v = Ok r /\ is_vec r n (fun i => rsum nq (fun q => m_at A q i * v_at w q * v_at v q)).
Proof.
  intros (A1 & A2) Hw Hv. unfold sized in *. unfold twv, mdiag, mtrans. cbn. rewrite A1, Hw, Nat.eqb_refl. cbn [bind].
  unfold mmulv. cbn. rewrite Hv, Nat.eqb_refl. eexists. split; [reflexivity|]. unfold is_vec. cbn. auto.
Qed.

Lemma vcwise_ok v w n : sized n v -> sized n w ->
  exists r, vcwise v w = Ok r /\ is_vec r n (fun i => v_at v i * v_at w i).
Proof.
  intros H1 H2. unfold sized in *. unfold vcwise. rewrite H1, H2, Nat.eqb_refl. eexists. split; [reflexivity|].
  unfold is_vec. cbn. auto.
Qed.

Lemma madd_ok A B r c f g : is_mat A r c f -> is_mat B r c g ->
  exists M, madd A B = Ok M /\ is_mat M r c (fun i j => f i j + g i j).
Proof.
  intros (A1 & A2 & A3) (B1 & B2 & B3). unfold madd. rewrite A1, A2, B1, B2, !Nat.eqb_refl. cbn.
  eexists. split; [reflexivity|]. unfold is_mat. cbn. repeat split; auto. intros. now rewrite A3, B3.
Qed.

Lemma vadd_ok v w n f g : is_vec v n f -> is_vec w n g ->
  exists r, vadd v w = Ok r /\ is_vec r n (fun i => f i + g i).
Proof.
  intros (A1 & A2) (B1 & B2). unfold vadd. rewrite A1, B1, Nat.eqb_refl.
  eexists. split; [reflexivity|]. unfold is_vec. cbn. split; auto. intros. now rewrite A2, B2.
Qed.

Lemma is_mat_ext A r c f g : is_mat A r c f -> (forall i j, f i j = g i j) -> is_mat A r c g.
Proof. intros (H1 & H2 & H3) E. repeat split; auto. intros. now rewrite H3. Qed.
Lemma is_vec_ext v n f g : is_vec v n f -> (forall i, f i = g i) -> is_vec v n g.
Proof. intros (H1 & H2) E. repeat split; auto. intros. now rewrite H2. Qed.
Lemma is_vec_sized v n f : is_vec v n f -> sized n v.
Proof. intros (H & _). exact H. Qed.
Lemma is_mat_shaped A r c f : is_mat A r c f -> shaped r c A.
Proof. intros (H1 & H2 & _). split; auto. Qed.

Lemma at_comp l d nq n : Forall (shaped nq n) l -> (d < length l)%nat ->
  exists M, nth_error l d = Some M /\ shaped nq n M /\ forall q i, m_at M q i = comp l d q i.
Proof.
  intros H Hd. destruct (nth_error_Some_ex l Hd) as (M & E). exists M. split; auto. split.
  - rewrite Forall_forall in H. apply H. eapply nth_error_In; eauto.
  - intros. unfold comp. now rewrite (nth_error_nth _ _ _ E).
Qed.
Lemma at_vcomp l d n : Forall (sized n) l -> (d < length l)%nat ->
  exists M, nth_error l d = Some M /\ sized n M /\ forall q, v_at M q = vcomp l d q.
Proof.
  intros H Hd. destruct (nth_error_Some_ex l Hd) as (M & E). exists M. split; auto. split.
  - rewrite Forall_forall in H. apply H. eapply nth_error_In; eauto.
  - intros. unfold vcomp. now rewrite (nth_error_nth _ _ _ E).
Qed.

Ltac get_at l d H := destruct H as (?M & ?E & ?S & ?V).

(** one term of the sums below *)
Lemma term_ok A w c B nq n m (fA : nat -> nat -> R) (fc : nat -> R) (fB : nat -> nat -> R) :
  shaped nq n A -> sized nq w -> sized nq c -> shaped nq m B ->
  (forall q i, m_at A q i = fA q i) -> (forall q, v_at c q = fc q) -> (forall q j, m_at B q j = fB q j) ->
  exists wc M, vcwise w c = Ok wc /\ twb A wc B = Ok M /\
    is_mat M n m (fun i j => rsum nq (fun q => v_at w q * fc q * (fA q i * fB q j))).
Proof.
  intros HA Hw Hc HB EA Ec EB. destruct (vcwise_ok w c nq Hw Hc) as (wc & E1 & I1).
  destruct (twb_ok A wc B nq n m HA (is_vec_sized _ _ _ I1) HB) as (M & E2 & I2).
  exists wc, M. split; auto. split; auto. eapply is_mat_ext; [exact I2|].
  intros i j. cbv beta. apply rsum_ext. intros q _. destruct I1 as (_ & I1). rewrite I1, EA, Ec, EB. ring.
Qed.

Lemma C21_diffusion k trial test w nq n m :
  test <> [] -> length trial = length test ->
  Forall (shaped nq n) test -> Forall (shaped nq m) trial -> sized nq k -> sized nq w ->
  exists A, ComputeCellDiffusionMatrix k trial test w = Ok A /\
    is_mat A n m (fun i j => rsum nq (fun q => v_at w q * v_at k q *
      rsum (length test) (fun d => comp test d q i * comp trial d q j))).
Proof.
  intros Hne Hl HT HS Hk Hw.
  assert (Hpos : (0 < length test)%nat) by (destruct test; [congruence|simpl; lia]).
  unfold ComputeCellDiffusionMatrix.
  destruct (at_comp test 0 nq n HT) as (t0 & E1 & S1 & V1); auto.
  destruct (at_comp trial 0 nq m HS) as (s0 & E2 & S2 & V2); [lia|].
  rewrite (proj2 (at_Ok _ _ _) E1). cbn [bind].
  destruct (term_ok t0 w k s0 nq n m _ _ _ S1 Hw Hk S2 V1 (fun _ => eq_refl) V2) as (wk & c0 & Ew & Ec & Ic).
  rewrite Ew. cbn [bind]. rewrite (proj2 (at_Ok _ _ _) E2). cbn [bind]. rewrite Ec. cbn [bind].
  match goal with |- exists A, for_from 1 _ ?f ?s = _ /\ _ =>
    destruct (@for_from_total _ (fun D c => is_mat c n m (fun i j => rsum nq (fun q => v_at w q * v_at k q *
      rsum D (fun d => comp test d q i * comp trial d q j)))) f (length test - 1) 1 s) as (c & E & I) end.
  - eapply is_mat_ext; [exact Ic|]. intros i j. cbv beta. apply rsum_ext. intros q _. cbn [rsum]. ring.
  - intros d c Hd I.
    destruct (at_comp test d nq n HT) as (td & F1 & T1 & W1); [lia|].
    destruct (at_comp trial d nq m HS) as (sd & F2 & T2 & W2); [lia|].
    rewrite (proj2 (at_Ok _ _ _) F1). cbn [bind].
    destruct (term_ok td w k sd nq n m _ _ _ T1 Hw Hk T2 W1 (fun _ => eq_refl) W2) as (wk' & cd & Ew' & Ec' & Ic').
    assert (wk' = wk) by congruence. subst wk'. rewrite (proj2 (at_Ok _ _ _) F2). cbn [bind]. rewrite Ec'. cbn [bind].
    destruct (madd_ok _ _ _ _ _ _ I Ic') as (M & EM & IM). exists M. split; auto.
    eapply is_mat_ext; [exact IM|]. intros i j. cbv beta. rewrite <- rsum_plus. apply rsum_ext. intros q _. cbn [rsum]. ring.
  - exists c. split; auto. replace (1 + (length test - 1))%nat with (length test) in I by lia. exact I.
Qed.

Lemma C21_tensor K trial test w nq n m :
  trial <> [] -> length test = length trial -> (length trial <= 3)%nat -> length K = 9%nat ->
  Forall (shaped nq n) test -> Forall (shaped nq m) trial -> Forall (sized nq) K -> sized nq w ->
  exists A, ComputeCellDiffusionMatrix_tensor K trial test w = Ok A /\
    is_mat A n m (fun i j => rsum nq (fun q => v_at w q *
      rsum (length trial) (fun d1 => rsum (length trial) (fun d2 =>
        comp test d1 q i * vcomp K (d1 + 3 * d2) q * comp trial d2 q j)))).
Proof.
  intros Hne Hl H3 HK9 HT HS HK Hw.
  assert (Hpos : (0 < length trial)%nat) by (destruct trial; [congruence|simpl; lia]).
  unfold ComputeCellDiffusionMatrix_tensor.
  destruct (at_comp test 0 nq n HT) as (t0 & E1 & S1 & V1); [lia|].
  destruct (at_comp trial 0 nq m HS) as (s0 & E2 & S2 & V2); [lia|].
  rewrite (proj2 (at_Ok _ _ _) E1). cbn [bind]. rewrite (proj2 (at_Ok _ _ _) E2). cbn [bind].
  destruct S1 as (S1r & S1c), S2 as (S2r & S2c). rewrite S1c, S2c.
  set (T := fun d1 d2 q i j => comp test d1 q i * vcomp K (d1 + 3 * d2) q * comp trial d2 q j).
  match goal with |- exists A, for_loop _ ?f ?s = _ /\ _ =>
    destruct (@for_loop_total _ (fun D c => is_mat c n m (fun i j => rsum nq (fun q => v_at w q *
      rsum D (fun d1 => rsum (length trial) (fun d2 => T d1 d2 q i j))))) f (length trial) s) as (c & E & I) end.
  - repeat split. intros i j. cbn. symmetry. apply rsum_0. intros; ring.
  - intros d1 c Hd I.
    match goal with |- exists A, for_loop _ ?f ?s = _ /\ _ =>
      destruct (@for_loop_total _ (fun D2 c => is_mat c n m (fun i j => rsum nq (fun q => v_at w q *
       (rsum d1 (fun d1 => rsum (length trial) (fun d2 => T d1 d2 q i j)) + rsum D2 (fun d2 => T d1 d2 q i j))))) f (length trial) s) as (c' & E' & I') end.
    + eapply is_mat_ext; [exact I|]. intros i j. cbv beta. apply rsum_ext. intros q _. cbn [rsum]. ring.
    + intros d2 c2 Hd2 I2.
      destruct (at_comp test d1 nq n HT) as (td & F1 & T1 & W1); [lia|].
      destruct (at_comp trial d2 nq m HS) as (sd & F2 & T2 & W2); [lia|].
      destruct (at_vcomp K (d1 + 3 * d2) nq HK) as (kd & F3 & T3 & W3); [lia|].
      rewrite (proj2 (at_Ok _ _ _) F1). cbn [bind]. rewrite (proj2 (at_Ok _ _ _) F3). cbn [bind].
      destruct (term_ok td w kd sd nq n m _ _ _ T1 Hw T3 T2 W1 W3 W2) as (wk' & cd & Ew' & Ec' & Ic').
      rewrite Ew'. cbn [bind]. rewrite (proj2 (at_Ok _ _ _) F2). cbn [bind]. rewrite Ec'. cbn [bind].
      destruct (madd_ok _ _ _ _ _ _ I2 Ic') as (M & EM & IM). exists M. split; auto.
      eapply is_mat_ext; [exact IM|]. intros i j. cbv beta. rewrite <- rsum_plus. apply rsum_ext. intros q _. cbn [rsum].
      unfold T. ring.
    + exists c'. split; auto. 
  - exists c. split; auto.
Qed.

Lemma C21_reaction c trial test w nq n m :
  shaped nq n test -> shaped nq m trial -> sized nq c -> sized nq w ->
  exists A, ComputeCellReactionMatrix c trial test w = Ok A /\
    is_mat A n m (fun i j => rsum nq (fun q => v_at w q * v_at c q * (m_at test q i * m_at trial q j))).
Proof.
  intros HT HS Hc Hw. unfold ComputeCellReactionMatrix.
  destruct (term_ok test w c trial nq n m _ _ _ HT Hw Hc HS (fun _ _ => eq_refl) (fun _ => eq_refl) (fun _ _ => eq_refl)) as (wk & A & E1 & E2 & I).
  rewrite E1. cbn [bind]. eauto.
Qed.

Lemma C21_advection b test trial w nq n m :
  trial <> [] -> (length trial <= length b)%nat ->
  shaped nq n test -> Forall (shaped nq m) trial -> Forall (sized nq) b -> sized nq w ->
  exists A, ComputeCellAdvectionMatrix b test trial w = Ok A /\
    is_mat A n m (fun i j => rsum nq (fun q => v_at w q *
      rsum (length trial) (fun d => vcomp b d q * comp trial d q j) * m_at test q i)).
Proof.
  intros Hne Hl HT HS Hb Hw.
  assert (Hpos : (0 < length trial)%nat) by (destruct trial; [congruence|simpl; lia]).
  unfold ComputeCellAdvectionMatrix.
  destruct (at_vcomp b 0 nq Hb) as (b0 & E1 & S1 & V1); [lia|].
  destruct (at_comp trial 0 nq m HS) as (s0 & E2 & S2 & V2); [lia|].
  rewrite (proj2 (idx_Ok _ _ _) E1). cbn [bind].
  destruct (term_ok test w b0 s0 nq n m _ _ _ HT Hw S1 S2 (fun _ _ => eq_refl) V1 V2) as (wk & c0 & Ew & Ec & Ic).
  rewrite Ew. cbn [bind]. rewrite (proj2 (idx_Ok _ _ _) E2). cbn [bind]. rewrite Ec. cbn [bind].
  match goal with |- exists A, for_from 1 _ ?f ?s = _ /\ _ =>
    destruct (@for_from_total _ (fun D c => is_mat c n m (fun i j => rsum nq (fun q => v_at w q *
      rsum D (fun d => vcomp b d q * comp trial d q j) * m_at test q i))) f (length trial - 1) 1 s) as (c & E & I) end.
  - eapply is_mat_ext; [exact Ic|]. intros i j. cbv beta. apply rsum_ext. intros q _. cbn [rsum]. ring.
  - intros d c Hd I.
    destruct (at_vcomp b d nq Hb) as (td & F1 & T1 & W1); [lia|].
    destruct (at_comp trial d nq m HS) as (sd & F2 & T2 & W2); [lia|].
    rewrite (proj2 (at_Ok _ _ _) F1). cbn [bind].
    destruct (term_ok test w td sd nq n m _ _ _ HT Hw T1 T2 (fun _ _ => eq_refl) W1 W2) as (wk' & cd & Ew' & Ec' & Ic').
    rewrite Ew'. cbn [bind]. rewrite (proj2 (at_Ok _ _ _) F2). cbn [bind]. rewrite Ec'. cbn [bind].
    destruct (madd_ok _ _ _ _ _ _ I Ic') as (M & EM & IM). exists M. split; auto.
    eapply is_mat_ext; [exact IM|]. intros i j. cbv beta. rewrite <- rsum_plus. apply rsum_ext. intros q _. cbn [rsum]. ring.
  - exists c. split; auto. replace (1 + (length trial - 1))%nat with (length trial) in I by lia. exact I.
Qed.

Lemma C21_forcing f test w nq n :
  shaped nq n test -> sized nq f -> sized nq w ->
  exists b, ComputeCellForcingTerm f test w = Ok b /\
    is_vec b n (fun i => rsum nq (fun q => v_at w q * v_at f q * m_at test q i)).
Proof.
  intros HT Hf Hw. unfold ComputeCellForcingTerm. destruct (twv_ok test w f nq n HT Hw Hf) as (r & E & I).
  exists r. split; auto. eapply is_vec_ext; [exact I|]. intros i. cbv beta. apply rsum_ext. intros; ring.
Qed.

Lemma C21_forcing_vector f test w nq n :
  test <> [] -> (length test <= length f)%nat ->
  Forall (shaped nq n) test -> Forall (sized nq) f -> sized nq w ->
  exists b, ComputeCellForcingTerm_vector f test w = Ok b /\
    is_vec b n (fun i => rsum nq (fun q => v_at w q * rsum (length test) (fun d => vcomp f d q * comp test d q i))).
Proof.
  intros Hne Hl HT Hf Hw. unfold ComputeCellForcingTerm_vector.
  assert (Hpos : (0 < length test)%nat) by (destruct test; [congruence|simpl; lia]).
  destruct (at_comp test 0 nq n HT) as (t0 & E1 & S1 & V1); [lia|].
  destruct (at_vcomp f 0 nq Hf) as (f0 & E2 & S2 & V2); [lia|].
  rewrite (proj2 (idx_Ok _ _ _) E1). cbn [bind]. rewrite (proj2 (idx_Ok _ _ _) E2). cbn [bind].
  destruct (twv_ok t0 w f0 nq n S1 Hw S2) as (r0 & Er & Ir). rewrite Er. cbn [bind].
  match goal with |- exists A, for_from 1 _ ?g ?s = _ /\ _ =>
    destruct (@for_from_total _ (fun D c => is_vec c n (fun i => rsum nq (fun q => v_at w q *
      rsum D (fun d => vcomp f d q * comp test d q i)))) g (length test - 1) 1 s) as (c & E & I) end.
  - eapply is_vec_ext; [exact Ir|]. intros i. cbv beta. apply rsum_ext. intros q _. cbn [rsum]. rewrite V1, V2. ring.
  - intros d c Hd I.
    destruct (at_comp test d nq n HT) as (td & F1 & T1 & W1); [lia|].
    destruct (at_vcomp f d nq Hf) as (fd & F2 & T2 & W2); [lia|].
    rewrite (proj2 (idx_Ok _ _ _) F1). cbn [bind]. rewrite (proj2 (idx_Ok _ _ _) F2). cbn [bind].
    destruct (twv_ok td w fd nq n T1 Hw T2) as (rd & Ed & Id). rewrite Ed. cbn [bind].
    destruct (vadd_ok _ _ _ _ _ I Id) as (M & EM & IM). exists M. split; auto.
    eapply is_vec_ext; [exact IM|]. intros i. cbv beta. rewrite <- rsum_plus. apply rsum_ext. intros q _. cbn [rsum].
    rewrite W1, W2. ring.
  - exists c. split; auto. replace (1 + (length test - 1))%nat with (length test) in I by lia. exact I.
Qed.

(** ** C22 *)

Lemma rsum3_swap n nq (F : nat -> nat -> nat -> R) :
  rsum n (fun i => rsum n (fun j => rsum nq (fun q => F i j q))) =
  rsum nq (fun q => rsum n (fun i => rsum n (fun j => F i j q))).
Proof.
  rewrite (rsum_ext _ _ (fun i => rsum nq (fun q => rsum n (fun j => F i j q)))) by (intros; apply rsum_swap).
  apply rsum_swap.
Qed.

Lemma psd_of_squares n nq A (c : nat -> R) (K : nat) (g : nat -> nat -> nat -> R) x :
  (forall i j, m_at A i j = rsum nq (fun q => c q * rsum K (fun d => g d q i * g d q j))) ->
  quad_form n A x = rsum nq (fun q => c q * rsum K (fun d => Rsqr (rsum n (fun i => x i * g d q i)))).
Proof.
  intros EA. unfold quad_form.
  rewrite (rsum_ext _ _ (fun i => rsum n (fun j => rsum nq (fun q => c q * rsum K (fun d => (x i * g d q i) * (x j * g d q j)))))).
  2:{ intros i _. apply rsum_ext. intros j _. rewrite EA, <- rsum_scal, <- rsum_scal_r. apply rsum_ext. intros q _.
      replace (x i * (c q * rsum K (fun d => g d q i * g d q j)) * x j) with (c q * (x i * x j * rsum K (fun d => g d q i * g d q j))) by ring.
      f_equal. rewrite <- rsum_scal. apply rsum_ext. intros; ring. }
  rewrite rsum3_swap. apply rsum_ext. intros q _.
  rewrite (rsum_ext _ _ (fun i => c q * rsum n (fun j => rsum K (fun d => x i * g d q i * (x j * g d q j))))) by (intros; now rewrite <- rsum_scal).
  rewrite rsum_scal. f_equal.
  rewrite rsum3_swap. apply rsum_ext. intros d _. unfold Rsqr. now rewrite rsum_mult.
Qed.

Lemma psd_squares_nonneg nq (c : nat -> R) K (h : nat -> nat -> R) :
  (forall q, (q < nq)%nat -> 0 <= c q) -> 0 <= rsum nq (fun q => c q * rsum K (fun d => Rsqr (h d q))).
Proof.
  intros H. apply rsum_nonneg. intros q Hq. apply Rmult_le_pos; auto. apply rsum_nonneg. intros. apply Rle_0_sqr.
Qed.

Lemma C22_diffusion k B w nq n A :
  B <> [] -> Forall (shaped nq n) B -> sized nq k -> sized nq w ->
  ComputeCellDiffusionMatrix k B B w = Ok A ->
  (forall i j, m_at A i j = m_at A j i) /\
  ((forall q, (q < nq)%nat -> 0 <= v_at w q * v_at k q) -> forall x, 0 <= quad_form n A x).
Proof.
  intros Hne HB Hk Hw E. destruct (C21_diffusion k B B w nq n n Hne eq_refl HB HB Hk Hw) as (A' & E' & I).
  rewrite E in E'. injection E' as <-. destruct I as (_ & _ & I). split.
  - intros i j. rewrite !I. apply rsum_ext. intros q _. f_equal. apply rsum_ext. intros; ring.
  - intros H x. rewrite (psd_of_squares n nq A (fun q => v_at w q * v_at k q) (length B) (comp B) x) by exact I.
    now apply psd_squares_nonneg.
Qed.

Lemma C22_reaction c B w nq n A :
  shaped nq n B -> sized nq c -> sized nq w ->
  ComputeCellReactionMatrix c B B w = Ok A ->
  (forall i j, m_at A i j = m_at A j i) /\
  ((forall q, (q < nq)%nat -> 0 <= v_at w q * v_at c q) -> forall x, 0 <= quad_form n A x).
Proof.
  intros HB Hc Hw E. destruct (C21_reaction c B B w nq n n HB HB Hc Hw) as (A' & E' & I).
  rewrite E in E'. injection E' as <-. destruct I as (_ & _ & I). split.
  - intros i j. rewrite !I. apply rsum_ext. intros; ring.
  - intros H x. rewrite (psd_of_squares n nq A (fun q => v_at w q * v_at c q) 1 (fun _ q i => m_at B q i) x).
    + now apply psd_squares_nonneg.
    + intros i j. rewrite I. apply rsum_ext. intros q _. cbn [rsum]. ring.
Qed.

Lemma C22_tensor K B w nq n A :
  B <> [] -> (length B <= 3)%nat -> length K = 9%nat -> Forall (shaped nq n) B -> Forall (sized nq) K -> sized nq w ->
  ComputeCellDiffusionMatrix_tensor K B B w = Ok A ->
  ((forall q d1 d2, (q < nq)%nat -> (d1 < length B)%nat -> (d2 < length B)%nat ->
      vcomp K (d1 + 3 * d2) q = vcomp K (d2 + 3 * d1) q) ->
   forall i j, m_at A i j = m_at A j i) /\
  ((forall q, (q < nq)%nat -> 0 <= v_at w q) ->
   (forall q g, (q < nq)%nat -> 0 <= rsum (length B) (fun d1 => rsum (length B) (fun d2 => g d1 * vcomp K (d1 + 3 * d2) q * g d2))) ->
   forall x, 0 <= quad_form n A x).
Proof.
  intros Hne H3 HK9 HB HK Hw E. destruct (C21_tensor K B B w nq n n Hne eq_refl H3 HK9 HB HB HK Hw) as (A' & E' & I).
  rewrite E in E'. injection E' as <-. destruct I as (_ & _ & I). split.
  - intros Hs i j. rewrite !I. apply rsum_ext. intros q Hq. f_equal. rewrite rsum_swap.
    apply rsum_ext. intros d2 H2. apply rsum_ext. intros d1 H1. rewrite (Hs q d1 d2) by auto. ring.
  - intros Hwp Hp x. unfold quad_form.
    rewrite (rsum_ext _ _ (fun i => rsum n (fun j => rsum nq (fun q => v_at w q *
       rsum (length B) (fun d1 => rsum (length B) (fun d2 => (x i * comp B d1 q i) * vcomp K (d1 + 3 * d2) q * (x j * comp B d2 q j))))))).
    2:{ intros i _. apply rsum_ext. intros j _. rewrite I, <- rsum_scal, <- rsum_scal_r. apply rsum_ext. intros q _.
        match goal with |- x i * (v_at w q * ?s) * x j = _ => replace (x i * (v_at w q * s) * x j) with (v_at w q * (x i * x j * s)) by ring end.
        f_equal. rewrite <- rsum_scal. apply rsum_ext. intros d1 _. rewrite <- rsum_scal. apply rsum_ext. intros; ring. }
    rewrite rsum3_swap. apply rsum_nonneg. intros q Hq.
    rewrite (rsum_ext _ _ (fun i => v_at w q * rsum n (fun j => rsum (length B) (fun d1 => rsum (length B) (fun d2 =>
       (x i * comp B d1 q i) * vcomp K (d1 + 3 * d2) q * (x j * comp B d2 q j)))))) by (intros; now rewrite <- rsum_scal).
    rewrite rsum_scal. apply Rmult_le_pos; auto.
    specialize (Hp q (fun d => rsum n (fun i => x i * comp B d q i)) Hq).
    rewrite rsum3_swap. eapply Rle_trans; [exact Hp|]. apply Req_le. apply rsum_ext. intros d1 _.
    rewrite rsum3_swap. apply rsum_ext. intros d2 _.
    replace (rsum n (fun i => x i * comp B d1 q i) * vcomp K (d1 + 3 * d2) q * rsum n (fun i => x i * comp B d2 q i))
      with (vcomp K (d1 + 3 * d2) q * (rsum n (fun i => x i * comp B d1 q i) * rsum n (fun i => x i * comp B d2 q i))) by ring.
    rewrite rsum_mult, <- rsum_scal. apply rsum_ext. intros i _. rewrite <- rsum_scal. apply rsum_ext. intros; ring.
Qed.

(** ** C23 *)
Lemma C23_diffusion k trial test w nq n m A i :
  test <> [] -> length trial = length test ->
  Forall (shaped nq n) test -> Forall (shaped nq m) trial -> sized nq k -> sized nq w ->
  ComputeCellDiffusionMatrix k trial test w = Ok A ->
  (forall d q, (d < length trial)%nat -> (q < nq)%nat -> rsum m (fun j => comp trial d q j) = 0) ->
  rsum m (fun j => m_at A i j) = 0.
Proof.
  intros Hne Hl HT HS Hk Hw E H0. destruct (C21_diffusion k trial test w nq n m Hne Hl HT HS Hk Hw) as (A' & E' & I).
  rewrite E in E'. injection E' as <-. destruct I as (_ & _ & I).
  rewrite (rsum_ext _ _ _ (fun j _ => I i j)). rewrite rsum_swap. apply rsum_0. intros q Hq.
  rewrite rsum_scal. rewrite rsum_swap. rewrite rsum_0; [ring|]. intros d Hd. rewrite rsum_scal, H0 by lia. ring.
Qed.

Lemma C23_tensor K trial test w nq n m A i :
  trial <> [] -> length test = length trial -> (length trial <= 3)%nat -> length K = 9%nat ->
  Forall (shaped nq n) test -> Forall (shaped nq m) trial -> Forall (sized nq) K -> sized nq w ->
  ComputeCellDiffusionMatrix_tensor K trial test w = Ok A ->
  (forall d q, (d < length trial)%nat -> (q < nq)%nat -> rsum m (fun j => comp trial d q j) = 0) ->
  rsum m (fun j => m_at A i j) = 0.
Proof.
  intros Hne Hl H3 H9 HT HS Hk Hw E H0. destruct (C21_tensor K trial test w nq n m Hne Hl H3 H9 HT HS Hk Hw) as (A' & E' & I).
  rewrite E in E'. injection E' as <-. destruct I as (_ & _ & I).
  rewrite (rsum_ext _ _ _ (fun j _ => I i j)). rewrite rsum_swap. apply rsum_0. intros q Hq.
  rewrite rsum_scal. rewrite rsum_swap. rewrite rsum_0; [ring|]. intros d1 Hd1. rewrite rsum_swap. apply rsum_0.
  intros d2 Hd2. rewrite rsum_scal, H0 by lia. ring.
Qed.

Lemma C23_advection b test trial w nq n m A i :
  trial <> [] -> (length trial <= length b)%nat ->
  shaped nq n test -> Forall (shaped nq m) trial -> Forall (sized nq) b -> sized nq w ->
  ComputeCellAdvectionMatrix b test trial w = Ok A ->
  (forall d q, (d < length trial)%nat -> (q < nq)%nat -> rsum m (fun j => comp trial d q j) = 0) ->
  rsum m (fun j => m_at A i j) = 0.
Proof.
  intros Hne Hl HT HS Hb Hw E H0. destruct (C21_advection b test trial w nq n m Hne Hl HT HS Hb Hw) as (A' & E' & I).
  rewrite E in E'. injection E' as <-. destruct I as (_ & _ & I).
  rewrite (rsum_ext _ _ _ (fun j _ => I i j)). rewrite rsum_swap. apply rsum_0. intros q Hq.
  rewrite rsum_scal_r, rsum_scal, rsum_swap. rewrite (rsum_0 (length trial)); [ring|]. intros d Hd. rewrite rsum_scal, H0 by lia. ring.
Qed.

(** ** C24 *)
Lemma velocity_ok (B : list Mat) x nq n : Forall (shaped nq n) B -> sized n x ->
  exists l, velocity_values B x = Ok l /\ length l = length B /\ Forall (sized nq) l /\
    forall d q, (d < length B)%nat -> vcomp l d q = rsum n (fun j => comp B d q j * v_at x j).
Proof.
  intros HB Hx. unfold velocity_values.
  cut (forall acc, exists l, foldM (fun l M => v <- mmulv M x ;; Ok (l ++ [v])) B acc = Ok (acc ++ l) /\ length l = length B /\ Forall (sized nq) l /\
    forall d q, (d < length B)%nat -> vcomp l d q = rsum n (fun j => comp B d q j * v_at x j)).
  { intros H. destruct (H []) as (l & E). exists l. exact E. }
  induction HB as [|M B HM HB IH]; intros acc.
  - exists []. cbn. rewrite app_nil_r. repeat split; auto. intros; lia.
  - destruct HM as (M1 & M2). cbn [foldM]. unfold mmulv at 1. unfold sized in Hx. rewrite M2, Hx, Nat.eqb_refl. cbn [bind].
    match goal with |- context [foldM _ B (acc ++ [?v])] => destruct (IH (acc ++ [v])) as (l & E & Hl & Hs & Hv); exists (v :: l) end.
    rewrite E, <- app_assoc. cbn [app length]. split; auto. split; [lia|]. split.
    + constructor; auto.
    + intros [|d] q Hd; [unfold vcomp, comp; cbn; reflexivity|].
      change (vcomp l d q = rsum n (fun j => comp B d q j * v_at x j)). apply Hv. cbn in Hd. lia.
Qed.

Definition ns_lhs_entry nq (u du : nat -> nat -> R) (V D : nat -> nat -> nat -> R) (w : nat -> R) i j :=
  rsum 2 (fun d1 => rsum 2 (fun d2 => rsum nq (fun q => w q * (u d2 q * D (2 * d1 + d2)%nat q j + du (2 * d1 + d2)%nat q * V d2 q j) * V d1 q i))).
Definition ns_rhs_entry nq (u du : nat -> nat -> R) (V : nat -> nat -> nat -> R) (w : nat -> R) i :=
  rsum 2 (fun d1 => rsum 2 (fun d2 => rsum nq (fun q => w q * (u d2 q * du (2 * d1 + d2)%nat q) * V d1 q i))).

Lemma double_loop (Inv : nat -> nat -> Mat -> Prop) f s :
  Inv 0%nat 0%nat s ->
  (forall d1 d2 c, (d1 < 2)%nat -> (d2 < 2)%nat -> Inv d1 d2 c -> exists c', f d1 d2 c = Ok c' /\ Inv d1 (S d2) c') ->
  (forall d1 c, Inv d1 2%nat c -> Inv (S d1) 0%nat c) ->
  exists c, for_loop 2 (fun d1 c => for_loop 2 (fun d2 c => f d1 d2 c) c) s = Ok c /\ Inv 2%nat 0%nat c.
Proof.
  intros H0 Hs Hn.
  match goal with |- exists y, for_loop 2 ?g s = _ /\ _ =>
    destruct (@for_loop_total _ (fun d1 c => Inv d1 0%nat c) g 2 s) as (c & E & I); auto; [|exists c; auto] end.
  intros d1 c Hd I.
  match goal with |- exists y, for_loop 2 ?g c = _ /\ _ =>
    destruct (@for_loop_total _ (fun d2 c => Inv d1 d2 c) g 2%nat c) as (c' & E & I'); [exact I|intros; apply Hs; auto|] end.
  exists c'. auto.
Qed.
Lemma double_loop_v (Inv : nat -> nat -> Vec -> Prop) f s :
  Inv 0%nat 0%nat s ->
  (forall d1 d2 c, (d1 < 2)%nat -> (d2 < 2)%nat -> Inv d1 d2 c -> exists c', f d1 d2 c = Ok c' /\ Inv d1 (S d2) c') ->
  (forall d1 c, Inv d1 2%nat c -> Inv (S d1) 0%nat c) ->
  exists c, for_loop 2 (fun d1 c => for_loop 2 (fun d2 c => f d1 d2 c) c) s = Ok c /\ Inv 2%nat 0%nat c.
Proof.
  intros H0 Hs Hn.
  match goal with |- exists y, for_loop 2 ?g s = _ /\ _ =>
    destruct (@for_loop_total _ (fun d1 c => Inv d1 0%nat c) g 2 s) as (c & E & I); auto; [|exists c; auto] end.
  intros d1 c Hd I.
  match goal with |- exists y, for_loop 2 ?g c = _ /\ _ =>
    destruct (@for_loop_total _ (fun d2 c => Inv d1 d2 c) g 2%nat c) as (c' & E & I'); [exact I|intros; apply Hs; auto|] end.
  exists c'. auto.
Qed.

Lemma ns_lhs_ok u du V D w nq n :
  length u = 2%nat -> length du = 4%nat -> length V = 2%nat -> length D = 4%nat ->
  Forall (sized nq) u -> Forall (sized nq) du -> Forall (shaped nq n) V -> Forall (shaped nq n) D -> sized nq w ->
  exists A, compute_NS_convective_lhs u du V D w = Ok A /\
    is_mat A n n (ns_lhs_entry nq (vcomp u) (vcomp du) (comp V) (comp D) (v_at w)).
Proof.
  intros Lu Ldu LV LD Hu Hdu HV HD Hw. unfold compute_NS_convective_lhs.
  destruct (at_comp V 0 nq n HV) as (v0 & E0 & S0 & V0); [lia|].
  rewrite (proj2 (idx_Ok _ _ _) E0). cbn [bind]. destruct S0 as (_ & S0). rewrite S0.
  set (T1 := fun d1 d2 i j => rsum nq (fun q => v_at w q * vcomp u d2 q * (comp V d1 q i * comp D (2 * d1 + d2) q j))).
  set (T2 := fun d1 d2 i j => rsum nq (fun q => v_at w q * vcomp du (2 * d1 + d2) q * (comp V d1 q i * comp V d2 q j))).
  match goal with |- exists A, bind (for_loop 2 (fun d1 c => for_loop 2 (fun d2 y => @?f d1 d2 y) c) ?s) _ = _ /\ _ =>
    destruct (double_loop (fun d1 d2 c => is_mat c n n (fun i j => rsum d1 (fun a => rsum 2 (fun b => T1 a b i j)) + rsum d2 (fun b => T1 d1 b i j)))
      f s) as (c1 & E1 & I1) end.
  - repeat split. intros. cbn. ring.
  - intros d1 d2 c Hd1 Hd2 I.
    destruct (at_comp V d1 nq n HV) as (vd1 & F1 & X1 & W1); [lia|].
    destruct (at_vcomp u d2 nq Hu) as (ud2 & F2 & X2 & W2); [lia|].
    destruct (at_comp D (2 * d1 + d2) nq n HD) as (D12 & F3 & X3 & W3); [lia|].
    rewrite (proj2 (at_Ok _ _ _) F1). cbn [bind]. rewrite (proj2 (at_Ok _ _ _) F2). cbn [bind].
    destruct (term_ok vd1 w ud2 D12 nq n n _ _ _ X1 Hw X2 X3 W1 W2 W3) as (wk' & cd & Ew' & Ec' & Ic').
    rewrite Ew'. cbn [bind]. rewrite (proj2 (at_Ok _ _ _) F3). cbn [bind]. rewrite Ec'. cbn [bind].
    destruct (madd_ok _ _ _ _ _ _ I Ic') as (M & EM & IM). exists M. split; auto.
    eapply is_mat_ext; [exact IM|]. intros i j. cbv beta. cbn [rsum]. unfold T1. ring.
  - intros d1 c I. eapply is_mat_ext; [exact I|]. intros i j. cbv beta. cbn [rsum]. ring.
  - rewrite E1. cbn [bind].
    match goal with |- exists A, (for_loop 2 (fun d1 c => for_loop 2 (fun d2 y => @?f d1 d2 y) c) ?s) = _ /\ _ =>
      destruct (double_loop (fun d1 d2 c => is_mat c n n (fun i j => rsum 2 (fun a => rsum 2 (fun b => T1 a b i j)) +
         rsum d1 (fun a => rsum 2 (fun b => T2 a b i j)) + rsum d2 (fun b => T2 d1 b i j)))
        f s) as (c2 & E2 & I2) end.
    + eapply is_mat_ext; [exact I1|]. intros i j. cbv beta. cbn [rsum]. ring.
    + intros d1 d2 c Hd1 Hd2 I.
      destruct (at_comp V d1 nq n HV) as (vd1 & F1 & X1 & W1); [lia|].
      destruct (at_vcomp du (2 * d1 + d2) nq Hdu) as (g & F2 & X2 & W2); [lia|].
      destruct (at_comp V d2 nq n HV) as (vd2 & F3 & X3 & W3); [lia|].
      rewrite (proj2 (at_Ok _ _ _) F1). cbn [bind]. rewrite (proj2 (at_Ok _ _ _) F2). cbn [bind].
      destruct (term_ok vd1 w g vd2 nq n n _ _ _ X1 Hw X2 X3 W1 W2 W3) as (wk' & cd & Ew' & Ec' & Ic').
      rewrite Ew'. cbn [bind]. rewrite (proj2 (at_Ok _ _ _) F3). cbn [bind]. rewrite Ec'. cbn [bind].
      destruct (madd_ok _ _ _ _ _ _ I Ic') as (M & EM & IM). exists M. split; auto.
      eapply is_mat_ext; [exact IM|]. intros i j. cbv beta. cbn [rsum]. unfold T2. ring.
    + intros d1 c I. eapply is_mat_ext; [exact I|]. intros i j. cbv beta. cbn [rsum]. ring.
    + exists c2. split; auto. eapply is_mat_ext; [exact I2|]. intros i j. cbv beta. unfold ns_lhs_entry. cbn [rsum].
      assert (H : forall d1 d2, rsum nq (fun q => v_at w q * (vcomp u d2 q * comp D (2 * d1 + d2) q j + vcomp du (2 * d1 + d2) q * comp V d2 q j) * comp V d1 q i) = T1 d1 d2 i j + T2 d1 d2 i j).
      { intros d1 d2. unfold T1, T2. rewrite <- rsum_plus. apply rsum_ext. intros; ring. }
      rewrite !H. ring.
Qed.

Lemma ns_rhs_ok u du V w nq n :
  length u = 2%nat -> length du = 4%nat -> length V = 2%nat ->
  Forall (sized nq) u -> Forall (sized nq) du -> Forall (shaped nq n) V -> sized nq w ->
  exists b, compute_NS_convective_rhs u du V w = Ok b /\
    is_vec b n (ns_rhs_entry nq (vcomp u) (vcomp du) (comp V) (v_at w)).
Proof.
  intros Lu Ldu LV Hu Hdu HV Hw. unfold compute_NS_convective_rhs.
  destruct (at_comp V 0 nq n HV) as (v0 & E0 & S0 & V0); [lia|].
  rewrite (proj2 (idx_Ok _ _ _) E0). cbn [bind]. destruct S0 as (_ & S0). rewrite S0.
  set (T1 := fun d1 d2 i => rsum nq (fun q => v_at w q * (vcomp u d2 q * vcomp du (2 * d1 + d2) q) * comp V d1 q i)).
  match goal with |- exists A, (for_loop 2 (fun d1 c => for_loop 2 (fun d2 y => @?f d1 d2 y) c) ?s) = _ /\ _ =>
    destruct (double_loop_v (fun d1 d2 c => is_vec c n (fun i => rsum d1 (fun a => rsum 2 (fun b => T1 a b i)) + rsum d2 (fun b => T1 d1 b i)))
      f s) as (c1 & E1 & I1) end.
  - repeat split. intros. cbn. ring.
  - intros d1 d2 c Hd1 Hd2 I.
    destruct (at_comp V d1 nq n HV) as (vd1 & F1 & X1 & W1); [lia|].
    destruct (at_vcomp u d2 nq Hu) as (ud2 & F2 & X2 & W2); [lia|].
    destruct (at_vcomp du (2 * d1 + d2) nq Hdu) as (g & F3 & X3 & W3); [lia|].
    rewrite (proj2 (at_Ok _ _ _) F1). cbn [bind]. rewrite (proj2 (at_Ok _ _ _) F2). cbn [bind].
    rewrite (proj2 (at_Ok _ _ _) F3). cbn [bind].
    destruct (vcwise_ok ud2 g nq X2 X3) as (ug & Eu & Iu). rewrite Eu. cbn [bind].
    destruct (twv_ok vd1 w ug nq n X1 Hw (is_vec_sized _ _ _ Iu)) as (m & Em & Im). rewrite Em. cbn [bind].
    destruct (vadd_ok _ _ _ _ _ I Im) as (M & EM & IM). exists M. split; auto.
    eapply is_vec_ext; [exact IM|]. intros i. cbv beta. cbn [rsum].
    replace (rsum nq (fun q => m_at vd1 q i * v_at w q * v_at ug q)) with (T1 d1 d2 i); [ring|].
    apply rsum_ext. intros q _. destruct Iu as (_ & Iu). rewrite Iu, W1, W2, W3. ring.
  - intros d1 c I. eapply is_vec_ext; [exact I|]. intros i. cbv beta. cbn [rsum]. ring.
  - exists c1. split; auto. eapply is_vec_ext; [exact I1|]. intros i. cbv beta. unfold ns_rhs_entry. cbn [rsum]. fold (T1 0%nat 0%nat i). unfold T1. cbn [Nat.mul Nat.add]. ring.
Qed.

Lemma C24_newton V D w u d nq n :
  length V = 2%nat -> length D = 4%nat -> Forall (shaped nq n) V -> Forall (shaped nq n) D ->
  sized nq w -> sized n u -> sized n d ->
  exists ud, vadd u d = Ok ud /\
  exists uv ug dv dg sv sg,
    velocity_values V u = Ok uv /\ velocity_values D u = Ok ug /\
    velocity_values V d = Ok dv /\ velocity_values D d = Ok dg /\
    velocity_values V ud = Ok sv /\ velocity_values D ud = Ok sg /\
  exists C Nu Nd Ns,
    compute_NS_convective_lhs uv ug V D w = Ok C /\
    compute_NS_convective_rhs uv ug V w = Ok Nu /\
    compute_NS_convective_rhs dv dg V w = Ok Nd /\
    compute_NS_convective_rhs sv sg V w = Ok Ns /\
    m_rows C = n /\ m_cols C = n /\ v_size Ns = n /\
    (forall i, v_at Ns i = v_at Nu i + rsum n (fun j => m_at C i j * v_at d j) + v_at Nd i) /\
    (forall i, rsum n (fun j => m_at C i j * v_at u j) = 2 * v_at Nu i).
Proof.
  intros LV LD HV HD Hw Hu Hd.
  unfold sized in Hu, Hd. unfold vadd. rewrite Hu, Hd, Nat.eqb_refl. eexists. split; [reflexivity|].
  match goal with |- context [velocity_values V {| v_size := _; v_at := ?f |}] => set (s := {| v_size := n; v_at := f |}) end.
  destruct (velocity_ok V u nq n HV Hu) as (uv & E1 & L1 & S1 & V1).
  destruct (velocity_ok D u nq n HD Hu) as (ug & E2 & L2 & S2 & V2).
  destruct (velocity_ok V d nq n HV Hd) as (dv & E3 & L3 & S3 & V3).
  destruct (velocity_ok D d nq n HD Hd) as (dg & E4 & L4 & S4 & V4).
  destruct (velocity_ok V s nq n HV eq_refl) as (sv & E5 & L5 & S5 & V5).
  destruct (velocity_ok D s nq n HD eq_refl) as (sg & E6 & L6 & S6 & V6).
  exists uv, ug, dv, dg, sv, sg. repeat (split; [assumption|]).
  destruct (ns_lhs_ok uv ug V D w nq n) as (C & F1 & I1); try assumption; try lia.
  destruct (ns_rhs_ok uv ug V w nq n) as (Nu & F2 & I2); try assumption; try lia.
  destruct (ns_rhs_ok dv dg V w nq n) as (Nd & F3 & I3); try assumption; try lia.
  destruct (ns_rhs_ok sv sg V w nq n) as (Ns & F4 & I4); try assumption; try lia.
  exists C, Nu, Nd, Ns. repeat (split; [assumption|]).
  destruct I1 as (C1 & C2 & C3), I2 as (_ & I2), I3 as (_ & I3), I4 as (N4 & I4).
  repeat (split; [assumption|]).
  (* C(u) x for any x with its values *)
  assert (CX : forall x xv xg, sized n x ->
     (forall d q, (d < 2)%nat -> vcomp xv d q = rsum n (fun j => comp V d q j * v_at x j)) ->
     (forall d q, (d < 4)%nat -> vcomp xg d q = rsum n (fun j => comp D d q j * v_at x j)) ->
     forall i, rsum n (fun j => m_at C i j * v_at x j) =
       rsum 2 (fun d1 => rsum 2 (fun d2 => rsum nq (fun q => v_at w q *
         (vcomp uv d2 q * vcomp xg (2 * d1 + d2) q + vcomp ug (2 * d1 + d2) q * vcomp xv d2 q) * comp V d1 q i)))).
  { intros x xv xg _ Hxv Hxg i. rewrite (rsum_ext _ _ (fun j => ns_lhs_entry nq (vcomp uv) (vcomp ug) (comp V) (comp D) (v_at w) i j * v_at x j)) by (intros; now rewrite C3).
    unfold ns_lhs_entry.
    rewrite (rsum_ext n _ (fun j => rsum 2 (fun d1 => rsum 2 (fun d2 => rsum nq (fun q =>
       v_at w q * comp V d1 q i * (vcomp uv d2 q * (comp D (2 * d1 + d2) q j * v_at x j) + vcomp ug (2 * d1 + d2) q * (comp V d2 q j * v_at x j))))))).
    2:{ intros j _. rewrite <- rsum_scal_r. apply rsum_ext. intros d1 _. rewrite <- rsum_scal_r. apply rsum_ext. intros d2 _.
        rewrite <- rsum_scal_r. apply rsum_ext. intros q _. ring. }
    rewrite rsum_swap. apply rsum_ext. intros d1 Hd1. rewrite rsum_swap. apply rsum_ext. intros d2 Hd2.
    rewrite rsum_swap. apply rsum_ext. intros q _. rewrite rsum_scal, rsum_plus, !rsum_scal.
    rewrite <- Hxv, <- Hxg by lia. ring. }
  rewrite LV in V1, V3, V5. rewrite LD in V2, V4, V6.
  assert (SV : forall a q, (a < 2)%nat -> vcomp sv a q = vcomp uv a q + vcomp dv a q).
  { intros a q Ha. rewrite V1, V3, V5 by lia. rewrite <- rsum_plus. apply rsum_ext. intros; cbn; ring. }
  assert (SG : forall a q, (a < 4)%nat -> vcomp sg a q = vcomp ug a q + vcomp dg a q).
  { intros a q Ha. rewrite V2, V4, V6 by lia. rewrite <- rsum_plus. apply rsum_ext. intros; cbn; ring. }
  split; intros i.
  - rewrite (CX d dv dg Hd V3 V4), I4, I2, I3. unfold ns_rhs_entry.
    rewrite <- !rsum_plus. apply rsum_ext. intros d1 Hd1. rewrite <- !rsum_plus. apply rsum_ext. intros d2 Hd2.
    rewrite <- !rsum_plus. apply rsum_ext. intros q _. rewrite SV, SG by lia. ring.
  - rewrite (CX u uv ug Hu V1 V2), I2. unfold ns_rhs_entry. rewrite <- rsum_scal.
    apply rsum_ext. intros d1 Hd1. rewrite <- rsum_scal. apply rsum_ext. intros d2 Hd2.
    rewrite <- rsum_scal. apply rsum_ext. intros q _. ring.
Qed.
