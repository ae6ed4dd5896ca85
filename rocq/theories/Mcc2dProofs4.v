(** Proofs: vectors of unknowns with given values, the forms of the mixed problem tested on fields, the action of the assembled matrix. *)
From Coq Require Import List Arith Bool Reals Lra Lia.
From Verif Require Import Base RSum MatrixModel DofsModel DofsSpec DofsProofs DofsProofs2 AssemblerModel AssemblerSpec AssemblerProofs AssemblerProofs2
  EquationModel EquationSpec EquationProofs TriangleProofs VemQuadModel VemModel VemSpec DriverModel DriverSpec DriverSpec2 Pcc2dSpec DriverProofs DriverProofs2 DriverProofs3 DriverProofs4
  DriverProofs5 DriverProofs6 Pcc2dProofs Pcc2dProofs4 Pcc2dProofs7 VemMccModel Mcc2dModel Mcc2dSpec Mcc2dProofs Mcc2dProofs2 Mcc2dProofs3.
Import ListNotations.
Local Open Scope R_scope.

(** ** Vectors with given values *)
Lemma finite_choice {A} (Q : nat -> A -> Prop) n : (forall c, (c < n)%nat -> exists x, Q c x) -> exists l, length l = n /\ forall c d, (c < n)%nat -> Q c (nth c l d).
Proof.
  induction n; intros H; [exists []; split; [reflexivity|intros; lia]|].
  destruct IHn as (l & L & Hl); [intros c Hc; apply H; lia|]. destruct (H n ltac:(lia)) as (x & Hx). exists (l ++ [x]). split; [rewrite app_length; simpl; lia|].
  intros c d Hc. destruct (Nat.eq_dec c n) as [->|Hn].
  - rewrite app_nth2, L, Nat.sub_diag by lia. exact Hx.
  - rewrite app_nth1 by lia. apply Hl. lia.
Qed.

Section Realise.
Variables (info : MeshDOFsInfo) (mesh : Mesh) (data : DOFsData).
Hypothesis HC : CreateDOFs 2 info mesh = Ok data.
Lemma realise (T : GlobalCell_DOF -> R) : exists uD uS, length uD = NumberDOFs data /\ length uS = NumberStrongs data /\ forall h, valid 2 info h -> value_of data uD uS h = Some (T h).
Proof using HC.
  assert (G : forall ty n, (ty <> TUnknown) -> (forall r, (r < n)%nat -> exists g x, valid 2 info g /\ lookup data g = Some x /\ dof_type x = ty /\ dof_index x = r) ->
     exists l, length l = n /\ forall h x, valid 2 info h -> lookup data h = Some x -> dof_type x = ty -> (dof_index x < n)%nat -> nth_error l (dof_index x) = Some (T h)).
  { intros ty n Hty H. destruct (finite_choice (fun r y => exists g x, valid 2 info g /\ lookup data g = Some x /\ dof_type x = ty /\ dof_index x = r /\ y = T g) n) as (l & L & Hl).
    - intros r Hr. destruct (H r Hr) as (g & x & H1 & H2 & H3 & H4). exists (T g), g, x. auto.
    - exists l. split; [exact L|]. intros h x Vh Lx Tx Ix. destruct (Hl (dof_index x) 0 Ix) as (g & x' & V & Lx' & Tx' & Ix' & Ey).
      rewrite (nth_error_nth' _ 0) by lia. f_equal. rewrite Ey. f_equal. apply (valid_inj 2 info mesh data ltac:(lia) HC); auto. rewrite Lx, Lx'. f_equal.
      destruct x, x'; simpl in *; congruence. }
  destruct (G TDOF (NumberDOFs data) ltac:(discriminate) (fun r Hr => free_unknown info mesh data r HC Hr)) as (uD & LD & HD).
  destruct (G TStrong (NumberStrongs data) ltac:(discriminate) (fun r Hr => strong_unknown info mesh data r HC Hr)) as (uS & LS & HS).
  exists uD, uS. split; [exact LD|]. split; [exact LS|]. intros h Vh. destruct (valid_lookup 2 info mesh data ltac:(lia) HC h Vh) as (x & t & Lx & _ & B).
  unfold value_of. rewrite Lx. destruct B as [(_ & Tx & Ix)|(_ & Tx & Ix)]; rewrite Tx; [apply HS|apply HD]; auto.
Qed.
End Realise.

(** ** Values of a cell *)
Section Values.
Variables (m : Mesh2D) (info : MeshDOFsInfo) (data : DOFsData).
Local Notation mesh := (md_mesh m).
Hypothesis HC : CreateDOFs 2 info mesh = Ok data.
Hypothesis HN : Cell2Ds_number mesh = num_cells info 2.
Local Notation N := (NumberDOFs data).
Local Notation S' := (NumberStrongs data).
Local Notation zero := (repeat 0 S').

(** the values are linear in the vectors *)
Lemma cell_value_linear a b uD uS vD vS wD wS c p : (c < Cell2Ds_number mesh)%nat -> length uD = N -> length uS = S' -> length vD = N -> length vS = S' -> length wD = N -> length wS = S' ->
  (forall r, (r < N)%nat -> nth r wD 0 = a * nth r uD 0 + b * nth r vD 0) -> (forall r, (r < S')%nat -> nth r wS 0 = a * nth r uS 0 + b * nth r vS 0) ->
  cell_value info mesh data wD wS c p = a * cell_value info mesh data uD uS c p + b * cell_value info mesh data vD vS c p.
Proof using HC HN.
  intros Hc L1 L2 L3 L4 L5 L6 HD HS. unfold cell_value. destruct (nth_error (closure_dofs info mesh 2 c) p) as [h|] eqn:Eh; [|ring].
  destruct (closure_valid m info data c h HC HN Hc (nth_error_In _ _ Eh)) as (V & _).
  destruct (valid_lookup 2 info mesh data ltac:(lia) HC h V) as (x & t & Lx & _ & B). unfold value_of. rewrite Lx.
  destruct B as [(_ & Tx & Ix)|(_ & Tx & Ix)]; rewrite Tx; rewrite !(nth_error_nth' _ 0) by lia; auto.
Qed.

(** sums over the free unknowns are sums over the places *)
Lemma tested_places y c F : (c < Cell2Ds_number mesh)%nat -> length y = N ->
  rsum N (fun r => nth r y 0 * free_places info mesh data c r F) = rsum (length (closure_dofs info mesh 2 c)) (fun p => cell_value info mesh data y zero c p * F p).
Proof using HC HN.
  intros Hc Ly. rewrite (rsum_ext N _ (fun r => rsum (length (closure_dofs info mesh 2 c)) (fun p => nth r y 0 * (at_places info mesh c (hat data r) p * F p)))) by (intros r Hr; rewrite free_places_sum, rsum_scal; reflexivity).
  rewrite rsum_swap. apply rsum_ext. intros p Hp. rewrite (rsum_ext N _ (fun r => nth r y 0 * at_places info mesh c (hat data r) p * F p)) by (intros; ring).
  rewrite rsum_scal_r. f_equal. unfold at_places, cell_value. destruct (nth_error (closure_dofs info mesh 2 c) p) as [h|] eqn:Eh; [|apply rsum_0; intros; ring].
  destruct (closure_valid m info data c h HC HN Hc (nth_error_In _ _ Eh)) as (V & _).
  destruct (valid_lookup 2 info mesh data ltac:(lia) HC h V) as (x & t & Lx & _ & B). unfold value_of, hat, free_is. rewrite Lx.
  destruct B as [(_ & Tx & Ix)|(_ & Tx & Ix)]; rewrite Tx; unfold is_type; rewrite Tx; cbn [andb].
  - rewrite nth_error_repeat by exact Ix. apply rsum_0. intros; ring.
  - rewrite (nth_error_nth' _ 0) by lia. rewrite (rsum_single N _ (dof_index x)); [rewrite Nat.eqb_refl; ring|exact Ix|]. intros r Hr Hne. destruct (Nat.eqb_spec (dof_index x) r); [congruence|ring].
Qed.

(** the function of free unknown r *)
Definition unit_vector (r : nat) : list R := map (fun s => if (s =? r)%nat then 1 else 0) (seq 0 N).
Lemma unit_places r c F : (c < Cell2Ds_number mesh)%nat -> (r < N)%nat ->
  free_places info mesh data c r F = rsum (length (closure_dofs info mesh 2 c)) (fun p => cell_value info mesh data (unit_vector r) zero c p * F p).
Proof using HC HN.
  intros Hc Hr. rewrite <- tested_places by (auto; unfold unit_vector; rewrite map_length, seq_length; reflexivity).
  rewrite (rsum_single N _ r); [unfold unit_vector; rewrite nth_map_seq by exact Hr; rewrite Nat.eqb_refl; ring|exact Hr|].
  intros s Hs Hne. unfold unit_vector. rewrite nth_map_seq by exact Hs. destruct (Nat.eqb_spec s r); [congruence|ring].
Qed.
Lemma value_strong y c p h : (c < Cell2Ds_number mesh)%nat -> nth_error (closure_dofs info mesh 2 c) p = Some h -> strong_entity info (g_dim h) (g_cell h) ->
  cell_value info mesh data y zero c p = 0.
Proof using HC HN.
  intros Hc Eh Hs. unfold cell_value. rewrite Eh. destruct (closure_valid m info data c h HC HN Hc (nth_error_In _ _ Eh)) as (V & _).
  destruct (valid_lookup 2 info mesh data ltac:(lia) HC h V) as (x & t & Lx & Bt & B). unfold strong_entity in Hs. rewrite Hs in Bt. injection Bt as <-.
  destruct B as [(_ & Tx & Ix)|(Ne & _)]; [|congruence]. unfold value_of. rewrite Lx, Tx, nth_error_repeat by exact Ix. reflexivity.
Qed.
Lemma value_unit r c p h x : (c < Cell2Ds_number mesh)%nat -> (r < N)%nat -> nth_error (closure_dofs info mesh 2 c) p = Some h -> lookup data h = Some x ->
  cell_value info mesh data (unit_vector r) zero c p = if is_type TDOF x && (dof_index x =? r)%nat then 1 else 0.
Proof using HC HN.
  intros Hc Hr Eh Lx. unfold cell_value. rewrite Eh. destruct (closure_valid m info data c h HC HN Hc (nth_error_In _ _ Eh)) as (V & _).
  destruct (valid_lookup 2 info mesh data ltac:(lia) HC h V) as (x' & t & Lx' & Bt & B). rewrite Lx in Lx'. injection Lx' as <-.
  unfold value_of, is_type. rewrite Lx. destruct B as [(_ & Tx & Ix)|(_ & Tx & Ix)]; rewrite Tx; cbn [andb].
  - rewrite nth_error_repeat by exact Ix. reflexivity.
  - unfold unit_vector. rewrite nth_error_map_seq by exact Ix. reflexivity.
Qed.
End Values.

(** ** The forms tested on fields *)
Definition field_V (E : MixedForms) (d : nat) (u : nat -> R) (q : nat) : R := combine (xf_V E d) u q.
Section Tested.
Variables (create : nat -> outcome MixedSpace) (edges : list nat) (nu : nat -> nat) (c n n' : nat) (E : MixedForms) (P : MixedProblem) (k : R).
Hypothesis HE : mixed_forms create edges nu c n n' E.
Local Notation nq := (v_size (xf_weights E)).
Local Notation w q := (v_at (xf_weights E) q).

Lemma combine_V d v q : (d < 2)%nat -> rsum n (fun p => v p * m_at (xf_V E d) q p) = combine (xf_V E d) v q.
Proof using HE. intros Hd. destruct (xe_V _ _ _ _ _ _ _ HE) as (_ & V2). destruct (V2 d Hd) as (_ & Hc). unfold combine. rewrite Hc. apply rsum_ext. intros; ring. Qed.
Lemma combine_D v q : rsum n (fun p => v p * m_at (xf_D E) q p) = combine (xf_D E) v q.
Proof using HE. destruct (xe_D _ _ _ _ _ _ _ HE) as (_ & _ & Hc). unfold combine. rewrite Hc. apply rsum_ext. intros; ring. Qed.
Lemma combine_P v q : rsum n' (fun p => v p * m_at (xf_P E) q p) = combine (xf_P E) v q.
Proof using HE. destruct (xe_P _ _ _ _ _ _ _ HE) as (_ & _ & Hc). unfold combine. rewrite Hc. apply rsum_ext. intros; ring. Qed.

Lemma velocity_tested u r v : rsum n (fun p => v p * velocity_form E P k u r p) =
  rsum nq (fun q => w q *
    (rsum 2 (fun i => rsum 2 (fun j => at_x (mp_inverse_diffusion P) E q (i + 3 * j)%nat * combine (xf_V E j) u q) * combine (xf_V E i) v q)
   - combine (xf_P E) r q * (combine (xf_D E) v q + rsum 2 (fun i => at_x (mp_advection P) E q i * combine (xf_V E i) v q))))
  + k * rsum n (fun p => v p * combine (xf_S E) u p).
Proof using HE.
  unfold velocity_form. rewrite (rsum_ext n _ (fun p => rsum nq (fun q => v p * (w q *
    (rsum 2 (fun i => rsum 2 (fun j => at_x (mp_inverse_diffusion P) E q (i + 3 * j)%nat * combine (xf_V E j) u q) * m_at (xf_V E i) q p)
   - combine (xf_P E) r q * (m_at (xf_D E) q p + rsum 2 (fun i => at_x (mp_advection P) E q i * m_at (xf_V E i) q p))))) + k * (v p * combine (xf_S E) u p))) by (intros; rewrite rsum_scal; ring).
  rewrite rsum_plus, rsum_scal, rsum_swap. f_equal. apply rsum_ext. intros q Hq.
  rewrite <- (combine_D v q). rewrite !rsum2.
  set (a0 := at_x (mp_inverse_diffusion P) E q (0 + 3 * 0)%nat * combine (xf_V E 0) u q + at_x (mp_inverse_diffusion P) E q (0 + 3 * 1)%nat * combine (xf_V E 1) u q).
  set (a1 := at_x (mp_inverse_diffusion P) E q (1 + 3 * 0)%nat * combine (xf_V E 0) u q + at_x (mp_inverse_diffusion P) E q (1 + 3 * 1)%nat * combine (xf_V E 1) u q).
  rewrite <- !(combine_V 0 v q), <- !(combine_V 1 v q) by lia.
  rewrite (rsum_ext n _ (fun p => w q * (a0 - combine (xf_P E) r q * at_x (mp_advection P) E q 0%nat) * (v p * m_at (xf_V E 0) q p) +
     w q * (a1 - combine (xf_P E) r q * at_x (mp_advection P) E q 1%nat) * (v p * m_at (xf_V E 1) q p) - w q * combine (xf_P E) r q * (v p * m_at (xf_D E) q p))).
  - rewrite rsum_minus, rsum_plus, !rsum_scal. ring.
  - intros p Hp. rewrite !rsum2. fold a0. fold a1. ring.
Qed.
Lemma pressure_tested u r s : rsum n' (fun p => s p * pressure_form E P u r p) =
  rsum nq (fun q => w q * ((combine (xf_D E) u q + at_x (mp_reaction P) E q * combine (xf_P E) r q - at_x (mp_source P) E q) * combine (xf_P E) s q)).
Proof using HE.
  unfold pressure_form. rewrite (rsum_ext n' _ (fun p => rsum nq (fun q => s p * (w q * ((combine (xf_D E) u q + at_x (mp_reaction P) E q * combine (xf_P E) r q - at_x (mp_source P) E q) * m_at (xf_P E) q p)))))
    by (intros; rewrite rsum_scal; reflexivity).
  rewrite rsum_swap. apply rsum_ext. intros q Hq. rewrite <- (combine_P s q).
  rewrite (rsum_ext n' _ (fun p => w q * (combine (xf_D E) u q + at_x (mp_reaction P) E q * combine (xf_P E) r q - at_x (mp_source P) E q) * (s p * m_at (xf_P E) q p))) by (intros; ring).
  rewrite rsum_scal. ring.
Qed.

Lemma combine_less A u v q : combine A (fun j => u j - v j) q = combine A u q - combine A v q.
Proof using. unfold combine. rewrite <- rsum_minus. apply rsum_ext. intros; ring. Qed.
Lemma combine_ext A u v q : (forall j, (j < m_cols A)%nat -> u j = v j) -> combine A u q = combine A v q.
Proof using. intros H. unfold combine. apply rsum_ext. intros j Hj. rewrite H by exact Hj. reflexivity. Qed.
Lemma velocity_less u r u' r' p : velocity_form E P k u r p - velocity_form E P k u' r' p = velocity_form E P k (fun j => u j - u' j) (fun j => r j - r' j) p.
Proof using.
  unfold velocity_form. rewrite combine_less. match goal with |- ?a + k * ?s - (?b + k * ?t) = ?d + _ => cut (a - b = d); [intros <-; ring|] end.
  rewrite <- rsum_minus. apply rsum_ext. intros q Hq. rewrite !rsum2, !combine_less. rewrite ?rsum2. ring.
Qed.
Lemma velocity_ext u r u' r' p : (forall j, (j < n)%nat -> u j = u' j) -> (forall j, (j < n')%nat -> r j = r' j) -> velocity_form E P k u r p = velocity_form E P k u' r' p.
Proof using HE.
  intros H H'. destruct HE as [_ _ (_ & V2) (_ & _ & D2) (_ & _ & Q2) (_ & _ & S2) _ _ _ _].
  assert (EV : forall d q, (d < 2)%nat -> combine (xf_V E d) u q = combine (xf_V E d) u' q) by (intros d q Hd; apply combine_ext; destruct (V2 d Hd) as (_ & ->); exact H).
  assert (EP : forall q, combine (xf_P E) r q = combine (xf_P E) r' q) by (intros q; apply combine_ext; rewrite Q2; exact H').
  unfold velocity_form. f_equal; [|f_equal; apply combine_ext; rewrite S2; exact H]. apply rsum_ext. intros q Hq. rewrite !rsum2, !EV by lia. rewrite !EP. reflexivity.
Qed.
Lemma pressure_ext u r u' r' p : (forall j, (j < n)%nat -> u j = u' j) -> (forall j, (j < n')%nat -> r j = r' j) -> pressure_form E P u r p = pressure_form E P u' r' p.
Proof using HE.
  intros H H'. destruct HE as [_ _ (_ & V2) (_ & _ & D2) (_ & _ & Q2) (_ & _ & S2) _ _ _ _]. unfold pressure_form. apply rsum_ext. intros q Hq.
  rewrite (combine_ext (xf_D E) u u' q) by (rewrite D2; exact H). rewrite (combine_ext (xf_P E) r r' q) by (rewrite Q2; exact H'). reflexivity.
Qed.
End Tested.

(** the problem without source *)
Definition unforced (P : MixedProblem) : MixedProblem := {| mp_inverse_diffusion := mp_inverse_diffusion P; mp_advection := mp_advection P; mp_reaction := mp_reaction P;
  mp_source := fun _ _ _ => 0; mp_strong := mp_strong P; mp_weak := mp_weak P |}.
Lemma pressure_less E P u r u' r' p : pressure_form E P u r p - pressure_form E P u' r' p = pressure_form E (unforced P) (fun j => u j - u' j) (fun j => r j - r' j) p.
Proof.
  unfold pressure_form. rewrite <- rsum_minus. apply rsum_ext. intros q Hq. rewrite !combine_less. unfold unforced, at_x, at_col. cbn [mp_source mp_reaction]. ring.
Qed.
