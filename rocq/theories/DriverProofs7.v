(** The form of the assembled operator: pairs, symmetry, positivity. *)
From Coq Require Import List Arith Bool Reals Lra Lia.
From Verif Require Import Base RSum MatrixModel DofsModel DofsSpec DofsProofs DofsProofs2 AssemblerModel AssemblerSpec AssemblerProofs AssemblerProofs2
  EquationModel EquationSpec EquationProofs VemQuadModel VemModel VemSpec DriverModel DriverSpec DriverSpec2 DriverProofs DriverProofs2 DriverProofs3 DriverProofs4 DriverProofs5.
Import ListNotations.
Local Open Scope R_scope.

Lemma rsum_free (data : DOFsData) h vD y (N : nat) : value_of data vD (repeat 0 N) h = Some y ->
  rsum (length vD) (fun r => if free_is data h r then nth r vD 0 else 0) = y.
Proof.
  unfold value_of, free_is. destruct (lookup data h) as [x|]; [|discriminate]. unfold is_type. destruct (dof_type x); intros H; try discriminate.
  - cbn [andb]. rewrite rsum_0 by reflexivity. assert (L : (dof_index x < N)%nat). { rewrite <- (repeat_length 0 N). apply nth_error_Some. congruence. }
    rewrite nth_error_repeat in H by auto. congruence.
  - cbn [andb]. assert (L : (dof_index x < length vD)%nat) by (apply nth_error_Some; congruence).
    rewrite (rsum_single (length vD) _ (dof_index x)); [|lia|].
    + rewrite Nat.eqb_refl. apply nth_error_nth. exact H.
    + intros i Hi N'. destruct (Nat.eqb_spec (dof_index x) i); [congruence|reflexivity].
Qed.

Lemma free_places_pair m info data c vD v F : CreateDOFs 2 info (md_mesh m) = Ok data -> Cell2Ds_number (md_mesh m) = num_cells info 2 ->
  (c < Cell2Ds_number (md_mesh m))%nat -> length vD = NumberDOFs data -> local_solution data vD (repeat 0 (NumberStrongs data)) c = Ok v ->
  rsum (NumberDOFs data) (fun r => nth r vD 0 * free_places info (md_mesh m) data c r F) =
  rsum (length (closure_dofs info (md_mesh m) 2 c)) (fun p => v_at v p * F p).
Proof.
  intros HC HN Hc LD Ev. destruct (local_solution_ok m info data HC HN c vD (repeat 0 (NumberStrongs data)) Hc LD (repeat_length _ _)) as (v' & Ev' & Sv & Hv).
  rewrite Ev in Ev'. inversion Ev'; subst v'. rewrite <- LD. unfold free_places.
  rewrite (rsum_ext (length vD) _ (fun r => rsum (length (closure_dofs info (md_mesh m) 2 c)) (fun p => nth r vD 0 *
    match nth_error (closure_dofs info (md_mesh m) 2 c) p with Some h => if free_is data h r then F p else 0 | None => 0 end))).
  2:{ intros r Hr. rewrite lsum_seq, <- rsum_scal. reflexivity. }
  rewrite rsum_swap. apply rsum_ext. intros p Hp.
  destruct (nth_error (closure_dofs info (md_mesh m) 2 c) p) as [h|] eqn:Eh; [|apply nth_error_None in Eh; lia].
  rewrite (rsum_ext (length vD) _ (fun r => (if free_is data h r then nth r vD 0 else 0) * F p)).
  2:{ intros r Hr. destruct (free_is data h r); ring. }
  rewrite rsum_scal_r. rewrite (rsum_free data h vD (v_at v p) (NumberStrongs data)); [reflexivity|]. apply Hv. exact Eh.
Qed.

Lemma pair_of_form ct cs c n n' E dif adv rea k u v : cell_forms ct cs c n n' E ->
  rsum n' (fun p => v p * elliptic_form E dif adv rea k u p) = pair_form E dif adv rea k u v.
Proof.
  intros HE. destruct HE as [E1 E2 E3 E4 (P1 & P2 & P3) (U1 & U2) (dU1 & dU2) (V1 & V2) (dV1 & dV2) (S1 & S2)].
  unfold elliptic_form, pair_form. set (nq := v_size (cf_weights E)) in *.
  rewrite (rsum_ext n' _ (fun p => rsum nq (fun q => v p * (v_at (cf_weights E) q *
    (match dif with None => 0 | Some K => rsum 2 (fun i => rsum 2 (fun j => at_q K E q (i + 3 * j)%nat * combine (cf_dU E j) u q) * m_at (cf_dV E i) q p) end
   + match adv with None => 0 | Some b => rsum 2 (fun i => at_q b E q i * combine (cf_dU E i) u q) * m_at (cf_V E) q p end
   + match rea with None => 0 | Some c => at_q c E q * combine (cf_U E) u q * m_at (cf_V E) q p end))) +
    v p * match dif with Some _ => if (ls_Size (cf_test E) =? ls_Size (cf_trial E))%nat then k * combine (cf_S E) u p else 0 | None => 0 end)).
  2:{ intros p Hp. rewrite Rmult_plus_distr_l. f_equal. symmetry. apply rsum_scal. }
  rewrite rsum_plus. f_equal.
  - rewrite rsum_swap. apply rsum_ext. intros q Hq.
    rewrite (rsum_ext n' _ (fun p => v_at (cf_weights E) q * (v p *
      match dif with None => 0 | Some K => rsum 2 (fun i => rsum 2 (fun j => at_q K E q (i + 3 * j)%nat * combine (cf_dU E j) u q) * m_at (cf_dV E i) q p) end
     + v p * match adv with None => 0 | Some b => rsum 2 (fun i => at_q b E q i * combine (cf_dU E i) u q) * m_at (cf_V E) q p end
     + v p * match rea with None => 0 | Some c => at_q c E q * combine (cf_U E) u q * m_at (cf_V E) q p end))) by (intros; ring).
    rewrite rsum_scal, !rsum_plus.
    assert (CV : combine (cf_V E) v q = rsum n' (fun p => m_at (cf_V E) q p * v p)) by (unfold combine; destruct V2 as (_ & ->); reflexivity).
    f_equal. f_equal; [f_equal|].
    + destruct dif as [K|]; [|apply rsum_0; intros; ring]. rewrite !rsum2.
      assert (C : forall d, (d < 2)%nat -> combine (cf_dV E d) v q = rsum n' (fun p => m_at (cf_dV E d) q p * v p)) by (intros d Hd; unfold combine; destruct (dV2 d Hd) as (_ & ->); reflexivity).
      rewrite !C by lia. rewrite <- !rsum_scal, <- rsum_plus. apply rsum_ext. intros p Hp. rewrite !rsum2. ring.
    + destruct adv as [b|]; [|apply rsum_0; intros; ring]. rewrite CV, <- rsum_scal. apply rsum_ext. intros p Hp. ring.
    + destruct rea as [f|]; [|apply rsum_0; intros; ring]. rewrite CV, <- rsum_scal. apply rsum_ext. intros p Hp. ring.
  - destruct dif as [K|]; [|apply rsum_0; intros; ring]. rewrite E4.
    destruct (Nat.eqb n' (ls_Size (cf_trial E))); [|apply rsum_0; intros; ring]. rewrite <- rsum_scal. apply rsum_ext. intros p Hp. ring.
Qed.

Lemma lsum_rsum_swap {A} (l : list A) n (F : A -> nat -> R) : rsum n (fun i => lsum (fun a => F a i) l) = lsum (fun a => rsum n (F a)) l.
Proof.
  induction l as [|a l IH]; simpl.
  - apply rsum_0. reflexivity.
  - rewrite rsum_plus, IH. reflexivity.
Qed.

Section Pair.
Variables (m : Mesh2D) (info info' : MeshDOFsInfo) (trial test : DOFsData) (ct cs : nat -> outcome LocalSpace) (E : nat -> CellForms).
Local Notation mesh := (md_mesh m).
Hypothesis HC : CreateDOFs 2 info mesh = Ok trial.
Hypothesis HN : Cell2Ds_number mesh = num_cells info 2.
Hypothesis HC' : CreateDOFs 2 info' mesh = Ok test.
Hypothesis HN' : Cell2Ds_number mesh = num_cells info' 2.
Hypothesis HE : forall c, (c < Cell2Ds_number mesh)%nat -> md_active2 m c = true ->
  cell_forms ct cs c (length (closure_dofs info mesh 2 c)) (length (closure_dofs info' mesh 2 c)) (E c).

Lemma pair_ok dif adv rea kk : (forall c K, (c < Cell2Ds_number mesh)%nat -> md_active2 m c = true -> dif = Some K -> greatest_diffusion (E c) K (kk c)) ->
  exists s, assemble_elliptic_operator m trial test ct cs dif adv rea = Ok s /\
  forall uD uS vD, length uD = NumberDOFs trial -> length uS = NumberStrongs trial -> length vD = NumberDOFs test ->
  exists ul vl, (forall c, (c < Cell2Ds_number mesh)%nat -> local_solution trial uD uS c = Ok (ul c)) /\
    (forall c, (c < Cell2Ds_number mesh)%nat -> local_solution test vD (repeat 0 (NumberStrongs test)) c = Ok (vl c)) /\
    rsum (NumberDOFs test) (fun r => nth r vD 0 * operator_row s uD uS r) =
    active_sum m (fun c => pair_form (E c) dif adv rea (kk c) (v_at (ul c)) (v_at (vl c))).
Proof using HC HC' HN HN' HE.
  intros Hk. destruct (operator_ok m info info' trial test ct cs E HC HN HC' HN' HE dif adv rea kk Hk) as (s & Es & _ & _ & Hs).
  exists s. split; [exact Es|]. intros uD uS vD LD LS LV. destruct (Hs uD uS LD LS) as (ul & Hul & Hop).
  set (vl := fun c => match local_solution test vD (repeat 0 (NumberStrongs test)) c with Ok u => u | _ => vzero 0 end).
  assert (Hvl : forall c, (c < Cell2Ds_number mesh)%nat -> local_solution test vD (repeat 0 (NumberStrongs test)) c = Ok (vl c)).
  { intros c Hc. destruct (local_solution_ok m info' test HC' HN' c vD (repeat 0 (NumberStrongs test)) Hc LV (repeat_length _ _)) as (u & Eu & _). unfold vl. rewrite Eu. reflexivity. }
  exists ul, vl. split; [exact Hul|]. split; [exact Hvl|].
  rewrite (rsum_ext (NumberDOFs test) _ (fun r => lsum (fun c => nth r vD 0 * free_places info' mesh test c r (elliptic_form (E c) dif adv rea (kk c) (v_at (ul c))))
     (filter (md_active2 m) (seq 0 (Cell2Ds_number mesh))))).
  2:{ intros r Hr. rewrite Hop. unfold active_sum. rewrite <- lsum_scal. reflexivity. }
  rewrite (lsum_rsum_swap (filter (md_active2 m) (seq 0 (Cell2Ds_number mesh))) (NumberDOFs test)
    (fun c r => nth r vD 0 * free_places info' mesh test c r (elliptic_form (E c) dif adv rea (kk c) (v_at (ul c))))).
  unfold active_sum. apply lsum_ext. intros c Hc. apply (in_actives m) in Hc. destruct Hc as (Hc1 & Hc2). cbv beta.
  rewrite (free_places_pair m info' test c vD (vl c) _ HC' HN' Hc1 LV (Hvl c Hc1)).
  apply (pair_of_form ct cs c _ _ (E c) dif adv rea (kk c) _ _ (HE c Hc1 Hc2)).
Qed.
End Pair.

(** ** Symmetry and positivity *)
Lemma pair_form_symmetric ct cs c n E dif rea k u v : cell_forms ct cs c n n E -> same_functions E (match rea with Some _ => true | None => false end) ->
  (forall K, dif = Some K -> symmetric_diffusion E K) -> pair_form E dif None rea k u v = pair_form E dif None rea k v u.
Proof.
  intros HE (F1 & F2 & F3 & F4) HK. destruct HE as [E1 E2 E3 E4 (P1 & P2 & P3) (U1 & U2) (dU1 & dU2) (V1 & V2) (dV1 & dV2) (S1 & S2)].
  unfold pair_form. set (nq := v_size (cf_weights E)) in *.
  assert (CD : forall x d q, (d < 2)%nat -> (q < nq)%nat -> combine (cf_dV E d) x q = combine (cf_dU E d) x q).
  { intros x d q Hd Hq. unfold combine. destruct (dU2 d Hd) as (_ & ->). destruct (dV2 d Hd) as (_ & ->). apply rsum_ext. intros j Hj. rewrite F2 by (auto; congruence). reflexivity. }
  f_equal.
  - apply rsum_ext. intros q Hq. f_equal. f_equal; [f_equal|].
    + destruct dif as [K|]; [|reflexivity]. specialize (HK K eq_refl q). rewrite !rsum2, !CD by (auto; lia).
      pose proof (HK 0%nat 1%nat Hq ltac:(lia) ltac:(lia)) as S01. simpl Nat.mul in *. simpl Nat.add in *. rewrite S01. ring.
    + destruct rea as [f|]; [|reflexivity].
      assert (CV : forall x, combine (cf_V E) x q = combine (cf_U E) x q).
      { intros x. unfold combine. destruct U2 as (_ & ->). destruct V2 as (_ & ->). apply rsum_ext. intros j Hj. rewrite F3 by (auto; congruence). reflexivity. }
      rewrite !CV. ring.
  - destruct dif as [K|]; [|reflexivity]. destruct (Nat.eqb _ _); [|reflexivity]. f_equal. unfold combine. destruct S2 as (_ & SC). rewrite SC, E4.
    rewrite (rsum_ext n _ (fun p => rsum n (fun j => v p * (m_at (cf_S E) p j * u j)))) by (intros; symmetry; apply rsum_scal).
    rewrite rsum_swap. apply rsum_ext. intros p Hp. rewrite <- rsum_scal. apply rsum_ext. intros j Hj. rewrite (F4 j p) by congruence. ring.
Qed.

Lemma greatest_nonneg E K k : greatest_diffusion E K k -> 0 <= k.
Proof. intros (_ & d & q & _ & _ & ->). apply Rabs_pos. Qed.

(** the quadrature part of the energy *)
Definition energy_at (E : CellForms) (dif : option (R -> R -> R -> nat -> R)) (rea : option (R -> R -> R -> R)) (u : nat -> R) (q : nat) : R :=
  match dif with None => 0 | Some K => rsum 2 (fun i => rsum 2 (fun j => at_q K E q (i + 3 * j)%nat * combine (cf_dU E j) u q) * combine (cf_dU E i) u q) end
   + match rea with None => 0 | Some c => at_q c E q * (combine (cf_U E) u q * combine (cf_U E) u q) end.
Lemma pair_form_energy ct cs c n E dif rea k u : cell_forms ct cs c n n E -> same_functions E (match rea with Some _ => true | None => false end) ->
  pair_form E dif None rea k u u = rsum (v_size (cf_weights E)) (fun q => v_at (cf_weights E) q * energy_at E dif rea u q) +
    match dif with Some _ => k * rsum (ls_Size (cf_test E)) (fun p => u p * combine (cf_S E) u p) | None => 0 end.
Proof.
  intros HE (F1 & F2 & F3 & F4). destruct HE as [E1 E2 E3 E4 (P1 & P2 & P3) (U1 & U2) (dU1 & dU2) (V1 & V2) (dV1 & dV2) (S1 & S2)].
  unfold pair_form, energy_at. set (nq := v_size (cf_weights E)) in *.
  assert (CD : forall x d q, (d < 2)%nat -> (q < nq)%nat -> combine (cf_dV E d) x q = combine (cf_dU E d) x q).
  { intros x d q Hd Hq. unfold combine. destruct (dU2 d Hd) as (_ & ->). destruct (dV2 d Hd) as (_ & ->). apply rsum_ext. intros j Hj. rewrite F2 by (auto; congruence). reflexivity. }
  f_equal.
  - apply rsum_ext. intros q Hq. f_equal. rewrite Rplus_0_r. f_equal.
    + destruct dif as [K|]; [|reflexivity]. rewrite !rsum2, !CD by (auto; lia). reflexivity.
    + destruct rea as [f|]; [|reflexivity].
      assert (CV : forall x, combine (cf_V E) x q = combine (cf_U E) x q).
      { intros x. unfold combine. destruct U2 as (_ & ->). destruct V2 as (_ & ->). apply rsum_ext. intros j Hj. rewrite F3 by (auto; congruence). reflexivity. }
      rewrite !CV. ring.
  - rewrite F1, Nat.eqb_refl. reflexivity.
Qed.

Lemma energy_nonneg E dif rea u q : (q < v_size (cf_weights E))%nat -> (forall K, dif = Some K -> nonnegative_diffusion E K) ->
  (forall f, rea = Some f -> forall q, (q < v_size (cf_weights E))%nat -> 0 <= at_q f E q) -> 0 <= energy_at E dif rea u q.
Proof.
  intros Hq HK Hf. unfold energy_at. apply Rplus_le_le_0_compat.
  - destruct dif as [K|]; [|lra]. apply (HK K eq_refl q (fun j => combine (cf_dU E j) u q) Hq).
  - destruct rea as [f|]; [|lra]. apply Rmult_le_pos; [apply (Hf f eq_refl q Hq)|]. pose proof (Rle_0_sqr (combine (cf_U E) u q)) as X. unfold Rsqr in X. exact X.
Qed.

Lemma rsum_zero_each n (f : nat -> R) : (forall i, (i < n)%nat -> 0 <= f i) -> rsum n f <= 0 -> forall i, (i < n)%nat -> f i = 0.
Proof.
  induction n as [|n IH]; intros Hf Hs i Hi; [lia|]. cbn [rsum] in Hs. assert (0 <= rsum n f) by (apply rsum_nonneg; intros; apply Hf; lia).
  assert (0 <= f n) by (apply Hf; lia). destruct (Nat.eq_dec i n) as [->|Ni]; [lra|]. apply IH; try lia; [intros; apply Hf; lia|lra].
Qed.
Lemma lsum_nonneg' {A} (f : A -> R) l : (forall a, In a l -> 0 <= f a) -> 0 <= lsum f l.
Proof. induction l as [|a l IH]; intros H; simpl; [lra|]. apply Rplus_le_le_0_compat; [apply H; left; auto|apply IH; intros; apply H; right; auto]. Qed.
Lemma lsum_zero_each {A} (f : A -> R) l : (forall a, In a l -> 0 <= f a) -> lsum f l <= 0 -> forall a, In a l -> f a = 0.
Proof.
  induction l as [|b l IH]; intros Hf Hs a Ha; [destruct Ha|]. simpl in Hs. assert (0 <= lsum f l) by (apply lsum_nonneg'; intros; apply Hf; right; auto).
  assert (0 <= f b) by (apply Hf; left; auto). destruct Ha as [<-|Ha]; [lra|]. apply IH; auto; [intros; apply Hf; right; auto|lra].
Qed.

Section Energy.
Variables (m : Mesh2D) (info : MeshDOFsInfo) (data : DOFsData) (ct cs : nat -> outcome LocalSpace) (E : nat -> CellForms).
Local Notation mesh := (md_mesh m).
Hypothesis HC : CreateDOFs 2 info mesh = Ok data.
Hypothesis HN : Cell2Ds_number mesh = num_cells info 2.
Hypothesis HE : forall c, (c < Cell2Ds_number mesh)%nat -> md_active2 m c = true ->
  cell_forms ct cs c (length (closure_dofs info mesh 2 c)) (length (closure_dofs info mesh 2 c)) (E c).
Variables (dif : option (R -> R -> R -> nat -> R)) (rea : option (R -> R -> R -> R)) (kk : nat -> R).
Hypothesis Hk : forall c K, (c < Cell2Ds_number mesh)%nat -> md_active2 m c = true -> dif = Some K -> greatest_diffusion (E c) K (kk c).
Hypothesis HS : forall c, (c < Cell2Ds_number mesh)%nat -> md_active2 m c = true -> same_functions (E c) (match rea with Some _ => true | None => false end).

Definition unit (n j : nat) : list R := map (fun i => if (i =? j)%nat then 1 else 0) (seq 0 n).
Lemma nth_unit n j i : (i < n)%nat -> nth i (unit n j) 0 = if (i =? j)%nat then 1 else 0.
Proof using.
  clear. intros Hi. unfold unit. rewrite (nth_indep _ 0 ((fun i => if (i =? j)%nat then 1 else 0) 0%nat)) by (rewrite map_length, seq_length; auto).
  rewrite (map_nth (fun i => if (i =? j)%nat then 1 else 0)), seq_nth by auto. reflexivity.
Qed.
Lemma unit_entry s r j : (j < NumberDOFs data)%nat -> operator_row s (unit (NumberDOFs data) j) (repeat 0 (NumberStrongs data)) r = entry (trip_DOFs s) r j.
Proof using.
  clear. intros Hj. unfold operator_row. rewrite (rsum_0 (length (repeat 0 (NumberStrongs data)))) by (intros; rewrite nth_repeat; ring).
  unfold unit at 1. rewrite map_length, seq_length. rewrite (rsum_single (NumberDOFs data) _ j); [|exact Hj|].
  - rewrite nth_unit by auto. rewrite Nat.eqb_refl. ring.
  - intros i Hi Ni. rewrite nth_unit by auto. destruct (Nat.eqb_spec i j); [congruence|ring].
Qed.

Lemma operator_symmetric : (forall c K, (c < Cell2Ds_number mesh)%nat -> md_active2 m c = true -> dif = Some K -> symmetric_diffusion (E c) K) ->
  exists s, assemble_elliptic_operator m data data ct cs dif None rea = Ok s /\
  forall r j, (r < NumberDOFs data)%nat -> (j < NumberDOFs data)%nat -> entry (trip_DOFs s) r j = entry (trip_DOFs s) j r.
Proof using HC HN HE Hk HS.
  intros HK. destruct (pair_ok m info info data data ct cs E HC HN HC HN HE dif None rea kk Hk) as (s & Es & Hs). exists s. split; [exact Es|].
  assert (Hu : forall r j, (r < NumberDOFs data)%nat -> (j < NumberDOFs data)%nat -> entry (trip_DOFs s) r j =
    rsum (NumberDOFs data) (fun i => nth i (unit (NumberDOFs data) r) 0 * operator_row s (unit (NumberDOFs data) j) (repeat 0 (NumberStrongs data)) i)).
  { intros r j Hr Hj. rewrite (rsum_single (NumberDOFs data) _ r); [|exact Hr|].
    - rewrite nth_unit, Nat.eqb_refl, unit_entry by auto. ring.
    - intros i Hi Ni. rewrite nth_unit by auto. destruct (Nat.eqb_spec i r); [congruence|ring]. }
  intros r j Hr Hj. rewrite (Hu r j Hr Hj), (Hu j r Hj Hr).
  assert (Lu : forall j, length (unit (NumberDOFs data) j) = NumberDOFs data) by (intros; unfold unit; rewrite map_length, seq_length; reflexivity).
  destruct (Hs (unit (NumberDOFs data) j) (repeat 0 (NumberStrongs data)) (unit (NumberDOFs data) r) (Lu _) (repeat_length _ _) (Lu _)) as (u1 & v1 & A1 & B1 & ->).
  destruct (Hs (unit (NumberDOFs data) r) (repeat 0 (NumberStrongs data)) (unit (NumberDOFs data) j) (Lu _) (repeat_length _ _) (Lu _)) as (u2 & v2 & A2 & B2 & ->).
  unfold active_sum. apply lsum_ext. intros c Hc. apply (in_actives m) in Hc. destruct Hc as (Hc1 & Hc2).
  specialize (A1 c Hc1). specialize (B1 c Hc1). specialize (A2 c Hc1). specialize (B2 c Hc1).
  rewrite A1 in B2. rewrite A2 in B1. inversion B2 as [X]. inversion B1 as [Y]. rewrite X, Y.
  apply (pair_form_symmetric ct cs c (length (closure_dofs info mesh 2 c))); auto.
Qed.

Hypothesis Hw : forall c q, (c < Cell2Ds_number mesh)%nat -> md_active2 m c = true -> (q < v_size (cf_weights (E c)))%nat -> 0 < v_at (cf_weights (E c)) q.
Hypothesis HK : forall c K, (c < Cell2Ds_number mesh)%nat -> md_active2 m c = true -> dif = Some K -> nonnegative_diffusion (E c) K.
Hypothesis HR : forall c f q, (c < Cell2Ds_number mesh)%nat -> md_active2 m c = true -> rea = Some f -> (q < v_size (cf_weights (E c)))%nat -> 0 <= at_q f (E c) q.
Hypothesis HP : forall c K, (c < Cell2Ds_number mesh)%nat -> md_active2 m c = true -> dif = Some K -> nonnegative_stabilisation (E c).

Lemma operator_energy : exists s, assemble_elliptic_operator m data data ct cs dif None rea = Ok s /\
  forall uD, length uD = NumberDOFs data ->
   0 <= energy (NumberDOFs data) s uD /\
   (energy (NumberDOFs data) s uD = 0 -> exists ul, (forall c, (c < Cell2Ds_number mesh)%nat -> local_solution data uD (repeat 0 (NumberStrongs data)) c = Ok (ul c)) /\
     forall c, (c < Cell2Ds_number mesh)%nat -> md_active2 m c = true ->
       (forall K, dif = Some K -> positive_diffusion (E c) K -> forall d q, (d < 2)%nat -> (q < v_size (cf_weights (E c)))%nat -> combine (cf_dU (E c) d) (v_at (ul c)) q = 0) /\
       (forall f, rea = Some f -> forall q, (q < v_size (cf_weights (E c)))%nat -> 0 < at_q f (E c) q -> combine (cf_U (E c)) (v_at (ul c)) q = 0) /\
       (forall K, dif = Some K -> kk c * rsum (ls_Size (cf_test (E c))) (fun p => v_at (ul c) p * combine (cf_S (E c)) (v_at (ul c)) p) = 0)).
Proof using HC HN HE Hk HS Hw HK HR HP.
  destruct (pair_ok m info info data data ct cs E HC HN HC HN HE dif None rea kk Hk) as (s & Es & Hs). exists s. split; [exact Es|].
  intros uD LD. destruct (Hs uD (repeat 0 (NumberStrongs data)) uD LD (repeat_length _ _) LD) as (ul & vl & A & B & Hp).
  assert (Ee : energy (NumberDOFs data) s uD = active_sum m (fun c => pair_form (E c) dif None rea (kk c) (v_at (ul c)) (v_at (ul c)))).
  { unfold energy. transitivity (rsum (NumberDOFs data) (fun r => nth r uD 0 * operator_row s uD (repeat 0 (NumberStrongs data)) r)).
    - apply rsum_ext. intros r Hr. f_equal. unfold operator_row. rewrite (rsum_0 (length (repeat 0 (NumberStrongs data)))) by (intros; rewrite nth_repeat; ring).
      rewrite LD. ring.
    - rewrite Hp. unfold active_sum. apply lsum_ext. intros c Hc. apply (in_actives m) in Hc. destruct Hc as (Hc1 & Hc2). specialize (A c Hc1). specialize (B c Hc1).
      rewrite A in B. inversion B. reflexivity. }
  assert (En : forall c, In c (filter (md_active2 m) (seq 0 (Cell2Ds_number mesh))) ->
     pair_form (E c) dif None rea (kk c) (v_at (ul c)) (v_at (ul c)) =
       rsum (v_size (cf_weights (E c))) (fun q => v_at (cf_weights (E c)) q * energy_at (E c) dif rea (v_at (ul c)) q) +
       match dif with Some _ => kk c * rsum (ls_Size (cf_test (E c))) (fun p => v_at (ul c) p * combine (cf_S (E c)) (v_at (ul c)) p) | None => 0 end /\
     (forall q, (q < v_size (cf_weights (E c)))%nat -> 0 <= v_at (cf_weights (E c)) q * energy_at (E c) dif rea (v_at (ul c)) q) /\
     0 <= match dif with Some _ => kk c * rsum (ls_Size (cf_test (E c))) (fun p => v_at (ul c) p * combine (cf_S (E c)) (v_at (ul c)) p) | None => 0 end).
  { intros c Hc. apply (in_actives m) in Hc. destruct Hc as (Hc1 & Hc2). split; [|split].
    - apply (pair_form_energy ct cs c (length (closure_dofs info mesh 2 c))); auto.
    - intros q Hq. apply Rmult_le_pos; [left; apply Hw; auto|]. apply energy_nonneg; [exact Hq|intros K EK; apply (HK c K); auto|intros f Ef q' Hq'; apply (HR c f q'); auto].
    - destruct dif as [K|] eqn:ED; [|lra]. apply Rmult_le_pos; [apply (greatest_nonneg (E c) K); apply Hk; auto|]. apply (HP c K Hc1 Hc2 eq_refl). }
  assert (Hpos : forall c, In c (filter (md_active2 m) (seq 0 (Cell2Ds_number mesh))) -> 0 <= pair_form (E c) dif None rea (kk c) (v_at (ul c)) (v_at (ul c))).
  { intros c Hc. destruct (En c Hc) as (-> & X & Y). apply Rplus_le_le_0_compat; [apply rsum_nonneg; auto|auto]. }
  rewrite Ee. split; [unfold active_sum; apply lsum_nonneg'; exact Hpos|].
  intros Z. exists ul. split; [exact A|]. intros c Hc1 Hc2.
  assert (Hc : In c (filter (md_active2 m) (seq 0 (Cell2Ds_number mesh)))) by (apply filter_In; split; [apply in_seq; lia|auto]).
  pose proof (lsum_zero_each _ _ Hpos (Req_le _ _ Z) c Hc) as Zc. cbv beta in Zc. destruct (En c Hc) as (E1 & X & Y). rewrite E1 in Zc.
  assert (Z1 : rsum (v_size (cf_weights (E c))) (fun q => v_at (cf_weights (E c)) q * energy_at (E c) dif rea (v_at (ul c)) q) <= 0) by lra.
  assert (Zq : forall q, (q < v_size (cf_weights (E c)))%nat -> energy_at (E c) dif rea (v_at (ul c)) q = 0).
  { intros q Hq. pose proof (rsum_zero_each _ _ X Z1 q Hq) as W. cbv beta in W. apply Rmult_integral in W. destruct W as [W|W]; [|exact W]. specialize (Hw c q Hc1 Hc2 Hq). lra. }
  assert (Hd : forall q, (q < v_size (cf_weights (E c)))%nat -> 0 <= match dif with None => 0 | Some K => rsum 2 (fun i => rsum 2 (fun j => at_q K (E c) q (i + 3 * j)%nat * combine (cf_dU (E c) j) (v_at (ul c)) q) * combine (cf_dU (E c) i) (v_at (ul c)) q) end).
  { intros q Hq. destruct dif as [K|] eqn:ED; [|lra]. apply (HK c K Hc1 Hc2 eq_refl q (fun j => combine (cf_dU (E c) j) (v_at (ul c)) q) Hq). }
  assert (Hr : forall q, (q < v_size (cf_weights (E c)))%nat -> 0 <= match rea with None => 0 | Some f => at_q f (E c) q * (combine (cf_U (E c)) (v_at (ul c)) q * combine (cf_U (E c)) (v_at (ul c)) q) end).
  { intros q Hq. destruct rea as [f|] eqn:ED; [|lra]. apply Rmult_le_pos; [apply (HR c f q Hc1 Hc2 eq_refl Hq)|].
    pose proof (Rle_0_sqr (combine (cf_U (E c)) (v_at (ul c)) q)) as W. unfold Rsqr in W. exact W. }
  split; [|split].
  - intros K EK HPD d q Hd' Hq. specialize (Zq q Hq). specialize (Hd q Hq). specialize (Hr q Hq). unfold energy_at in Zq. rewrite EK in *.
    apply (HPD q (fun j => combine (cf_dU (E c) j) (v_at (ul c)) q) Hq); [|exact Hd']. lra.
  - intros f Ef q Hq Hfp. specialize (Zq q Hq). specialize (Hd q Hq). specialize (Hr q Hq). unfold energy_at in Zq. rewrite Ef in *.
    assert (W : at_q f (E c) q * (combine (cf_U (E c)) (v_at (ul c)) q * combine (cf_U (E c)) (v_at (ul c)) q) = 0) by lra.
    apply Rmult_integral in W. destruct W as [W|W]; [lra|]. apply Rmult_integral in W. destruct W; auto.
  - intros K EK. rewrite EK in Zc, Y. assert (0 <= rsum (v_size (cf_weights (E c))) (fun q => v_at (cf_weights (E c)) q * energy_at (E c) dif rea (v_at (ul c)) q)) by (apply rsum_nonneg; auto).
    rewrite EK in *. lra.
Qed.
End Energy.
