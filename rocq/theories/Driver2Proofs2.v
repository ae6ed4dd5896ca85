(** Navier-Stokes operators. *)
From Coq Require Import List Arith Bool Reals Lra Lia Permutation.
From Verif Require Import Base RSum MatrixModel DofsModel DofsSpec DofsProofs DofsProofs2 AssemblerModel AssemblerSpec AssemblerProofs AssemblerProofs2
  EquationModel EquationSpec EquationProofs VemQuadModel VemQuadProofs VemModel VemSpec DriverModel DriverSpec DriverSpec2 DriverProofs DriverProofs2 DriverProofs3 DriverProofs4
  DriverProofs5 DriverProofs7 Driver2Model Driver2Spec Driver2Proofs.
Import ListNotations.
Local Open Scope R_scope.

(** ** Local matrices *)
Lemma component_cols_ok rows n h M : (h < 2)%nat -> shaped rows n M ->
  exists A, component_cols rows n h M = Ok A /\ shaped rows (2 * n) A /\
    forall q a j, (q < rows)%nat -> (a < 2)%nat -> (j < n)%nat -> m_at A q (a * n + j) = if (a =? h)%nat then m_at M q j else 0.
Proof.
  intros Hh (M1 & M2). unfold component_cols.
  destruct (set_block_ok (mzero rows (2 * n)) 0 (h * n) rows n M) as (A & EA & A1 & A2 & A3 & A4); simpl m_rows; simpl m_cols; auto.
  { destruct h as [|[|h]]; lia. }
  exists A. split; [exact EA|]. split; [split; [exact A1|exact A2]|]. intros q a j Hq Ha Hj. destruct (Nat.eqb_spec a h) as [->|N].
  - rewrite A3 by lia. f_equal; lia.
  - rewrite A4; [reflexivity|]. intros (_ & X). destruct a as [|[|a]]; destruct h as [|[|h]]; lia.
Qed.

Lemma rsum_two n (F : nat -> R) : rsum (2 * n) F = rsum n F + rsum n (fun j => F (n + j)%nat).
Proof. replace (2 * n)%nat with (n + n)%nat by lia. apply rsum_add. Qed.

Definition ns_matrix (C : CompForms) (u : nat -> nat -> R) (h p a j : nat) : R :=
  rsum (v_size (cp_weights C)) (fun q => v_at (cp_weights C) q *
    ((if (a =? h)%nat then rsum 2 (fun d => combine (cp_U C) (u d) q * m_at (cp_dU C d) q j) else 0) + m_at (cp_U C) q j * combine (cp_dU C a) (u h) q) * m_at (cp_U C) q p).

Lemma NS_cell_ok create c n C x (u : nat -> nat -> R) : comp_forms Pi0km1_t create c n C -> v_size x = (2 * n)%nat ->
  (forall h j, (h < 2)%nat -> (j < n)%nat -> v_at x (h * n + j) = u h j) ->
  exists A b, NS_cell (cp_space C) x = Ok (A, b) /\ shaped (2 * n) (2 * n) A /\ v_size b = (2 * n)%nat /\
    (forall h p a j, (h < 2)%nat -> (p < n)%nat -> (a < 2)%nat -> (j < n)%nat -> m_at A (h * n + p) (a * n + j) = ns_matrix C u h p a j) /\
    (forall h p, (h < 2)%nat -> (p < n)%nat -> v_at b (h * n + p) = convective_form C u u h p).
Proof.
  intros [E1 E2 (P1 & P2) (U1 & U2) (D1 & D2)] Sx Hx. set (nq := v_size (cp_weights C)) in *.
  unfold NS_cell. rewrite U1. cbn [bind]. rewrite D1. cbn [bind]. rewrite E2. destruct U2 as (U2 & U3).
  assert (US : shaped nq n (cp_U C)) by (split; auto).
  destruct (D2 0%nat ltac:(lia)) as (R0' & C0'). destruct (D2 1%nat ltac:(lia)) as (R1' & C1').
  destruct (component_cols_ok nq n 0 (cp_U C) ltac:(lia) US) as (V0 & EV0 & SV0 & HV0).
  destruct (component_cols_ok nq n 1 (cp_U C) ltac:(lia) US) as (V1 & EV1 & SV1 & HV1).
  destruct (component_cols_ok nq n 0 (cp_dU C 0) ltac:(lia) ltac:(split; auto)) as (D00 & ED00 & SD00 & HD00).
  destruct (component_cols_ok nq n 0 (cp_dU C 1) ltac:(lia) ltac:(split; auto)) as (D01 & ED01 & SD01 & HD01).
  destruct (component_cols_ok nq n 1 (cp_dU C 0) ltac:(lia) ltac:(split; auto)) as (D10 & ED10 & SD10 & HD10).
  destruct (component_cols_ok nq n 1 (cp_dU C 1) ltac:(lia) ltac:(split; auto)) as (D11 & ED11 & SD11 & HD11).
  rewrite U2, EV0. cbn [bind]. rewrite EV1. cbn [bind]. unfold at_. cbn [nth_error bind]. rewrite R0', ED00. cbn [bind]. rewrite ED01. cbn [bind]. rewrite ED10. cbn [bind]. rewrite ED11. cbn [bind].
  assert (FV : Forall (shaped nq (2 * n)) [V0; V1]) by (repeat constructor; try apply SV0; apply SV1).
  assert (FD : Forall (shaped nq (2 * n)) [D00; D01; D10; D11]) by (repeat constructor; try apply SD00; try apply SD01; try apply SD10; apply SD11).
  destruct (velocity_ok [V0; V1] x nq (2 * n) FV Sx) as (uv & Euv & Luv & Fuv & Huv). rewrite Euv. cbn [bind].
  destruct (velocity_ok [D00; D01; D10; D11] x nq (2 * n) FD Sx) as (du & Edu & Ldu & Fdu & Hdu). rewrite Edu. cbn [bind].
  fold (cp_weights C).
  destruct (ns_lhs_ok uv du [V0; V1] [D00; D01; D10; D11] (cp_weights C) nq (2 * n)) as (A & EA & (A1 & A2 & A3)); auto; try reflexivity.
  destruct (ns_rhs_ok uv du [V0; V1] (cp_weights C) nq (2 * n)) as (b & Eb & (B1 & B2)); auto; try reflexivity.
  rewrite EA. cbn [bind]. rewrite Eb. cbn [bind]. exists A, b. split; [reflexivity|]. split; [split; auto|]. split; [exact B1|].
  (* entries *)
  assert (cV : forall d q a j, (d < 2)%nat -> (q < nq)%nat -> (a < 2)%nat -> (j < n)%nat -> comp [V0; V1] d q (a * n + j) = if (a =? d)%nat then m_at (cp_U C) q j else 0).
  { intros d q a j Hd Hq Ha Hj. unfold comp. destruct d as [|[|d]]; [apply HV0; auto|apply HV1; auto|lia]. }
  assert (cD : forall h d q a j, (h < 2)%nat -> (d < 2)%nat -> (q < nq)%nat -> (a < 2)%nat -> (j < n)%nat ->
     comp [D00; D01; D10; D11] (2 * h + d) q (a * n + j) = if (a =? h)%nat then m_at (cp_dU C d) q j else 0).
  { intros h d q a j Hh Hd Hq Ha Hj. unfold comp. destruct h as [|[|h]]; [| |lia]; (destruct d as [|[|d]]; [| |lia]); simpl nth; [apply HD00|apply HD01|apply HD10|apply HD11]; auto. }
  assert (vU : forall d q, (d < 2)%nat -> (q < nq)%nat -> vcomp uv d q = combine (cp_U C) (u d) q).
  { intros d q Hd Hq. rewrite Huv by exact Hd. rewrite rsum_two. unfold combine. rewrite U3.
    rewrite (rsum_ext n _ (fun j => (if (0 =? d)%nat then m_at (cp_U C) q j else 0) * u 0%nat j)).
    2:{ intros j Hj. pose proof (cV d q 0%nat j Hd Hq ltac:(lia) Hj) as X. pose proof (Hx 0%nat j ltac:(lia) Hj) as Y. cbn [Nat.mul Nat.add] in X, Y. rewrite X, Y. reflexivity. }
    rewrite (rsum_ext n (fun j => comp _ d q (n + j) * _) (fun j => (if (1 =? d)%nat then m_at (cp_U C) q j else 0) * u 1%nat j)).
    2:{ intros j Hj. pose proof (cV d q 1%nat j Hd Hq ltac:(lia) Hj) as X. pose proof (Hx 1%nat j ltac:(lia) Hj) as Y. rewrite Nat.mul_1_l in X, Y. rewrite X, Y. reflexivity. }
    destruct d as [|[|d]]; [| |lia]; cbn [Nat.eqb].
    - rewrite (rsum_0 n (fun j => 0 * _)) by (intros; ring). ring.
    - rewrite (rsum_0 n (fun j => 0 * _)) by (intros; ring). ring. }
  assert (vD : forall h d q, (h < 2)%nat -> (d < 2)%nat -> (q < nq)%nat -> vcomp du (2 * h + d) q = combine (cp_dU C d) (u h) q).
  { intros h d q Hh Hd Hq. rewrite Hdu by (simpl length; lia). rewrite rsum_two. unfold combine. destruct (D2 d Hd) as (_ & ->).
    rewrite (rsum_ext n _ (fun j => (if (0 =? h)%nat then m_at (cp_dU C d) q j else 0) * u 0%nat j)).
    2:{ intros j Hj. pose proof (cD h d q 0%nat j Hh Hd Hq ltac:(lia) Hj) as X. pose proof (Hx 0%nat j ltac:(lia) Hj) as Y. rewrite Nat.mul_0_l in X, Y. cbn [Nat.add] in X, Y. rewrite X, Y. reflexivity. }
    rewrite (rsum_ext n (fun j => comp _ _ q (n + j) * _) (fun j => (if (1 =? h)%nat then m_at (cp_dU C d) q j else 0) * u 1%nat j)).
    2:{ intros j Hj. pose proof (cD h d q 1%nat j Hh Hd Hq ltac:(lia) Hj) as X. pose proof (Hx 1%nat j ltac:(lia) Hj) as Y. rewrite Nat.mul_1_l in X, Y. rewrite X, Y. reflexivity. }
    destruct h as [|[|h]]; [| |lia]; cbn [Nat.eqb].
    - rewrite (rsum_0 n (fun j => 0 * _)) by (intros; ring). ring.
    - rewrite (rsum_0 n (fun j => 0 * _)) by (intros; ring). ring. }
  split.
  - intros h p a j Hh Hp Ha Hj. rewrite A3. unfold ns_lhs_entry, ns_matrix. fold nq.
    rewrite (rsum_ext 2 _ (fun d1 => rsum nq (fun q => rsum 2 (fun d2 =>
      v_at (cp_weights C) q * (vcomp uv d2 q * comp [D00; D01; D10; D11] (2 * d1 + d2) q (a * n + j) + vcomp du (2 * d1 + d2) q * comp [V0; V1] d2 q (a * n + j)) * comp [V0; V1] d1 q (h * n + p)))))
      by (intros; apply rsum_swap).
    rewrite rsum_swap. apply rsum_ext. intros q Hq. rewrite !rsum2.
    rewrite !cV by (auto; lia).
    pose proof (cD 0 0 q a j ltac:(lia) ltac:(lia) Hq Ha Hj)%nat as X00. pose proof (cD 0 1 q a j ltac:(lia) ltac:(lia) Hq Ha Hj)%nat as X01.
    pose proof (cD 1 0 q a j ltac:(lia) ltac:(lia) Hq Ha Hj)%nat as X10. pose proof (cD 1 1 q a j ltac:(lia) ltac:(lia) Hq Ha Hj)%nat as X11.
    pose proof (vD 0 0 q ltac:(lia) ltac:(lia) Hq)%nat as Y00. pose proof (vD 0 1 q ltac:(lia) ltac:(lia) Hq)%nat as Y01.
    pose proof (vD 1 0 q ltac:(lia) ltac:(lia) Hq)%nat as Y10. pose proof (vD 1 1 q ltac:(lia) ltac:(lia) Hq)%nat as Y11.
    rewrite X00, X01, X10, X11, Y00, Y01, Y10, Y11. rewrite !vU by (auto; lia). clear X00 X01 X10 X11 Y00 Y01 Y10 Y11.
    destruct h as [|[|h]]; [| |lia]; (destruct a as [|[|a]]; [| |lia]); cbn [Nat.eqb]; ring.
  - intros h p Hh Hp. rewrite B2. unfold ns_rhs_entry, convective_form, convect. fold nq.
    rewrite (rsum_ext 2 _ (fun d1 => rsum nq (fun q => rsum 2 (fun d2 => v_at (cp_weights C) q * (vcomp uv d2 q * vcomp du (2 * d1 + d2) q) * comp [V0; V1] d1 q (h * n + p)))))
      by (intros; apply rsum_swap).
    rewrite rsum_swap. apply rsum_ext. intros q Hq. rewrite !rsum2. rewrite !cV by (auto; lia).
    pose proof (vD 0 0 q ltac:(lia) ltac:(lia) Hq)%nat as Y00. pose proof (vD 0 1 q ltac:(lia) ltac:(lia) Hq)%nat as Y01.
    pose proof (vD 1 0 q ltac:(lia) ltac:(lia) Hq)%nat as Y10. pose proof (vD 1 1 q ltac:(lia) ltac:(lia) Hq)%nat as Y11.
    rewrite Y00, Y01, Y10, Y11. rewrite !vU by (auto; lia). clear Y00 Y01 Y10 Y11.
    destruct h as [|[|h]]; [| |lia]; cbn [Nat.eqb]; ring.
Qed.

Lemma ns_matrix_form create c n C (u d : nat -> nat -> R) h p : comp_forms Pi0km1_t create c n C -> (h < 2)%nat ->
  rsum n (fun j => ns_matrix C u h p 0 j * d 0%nat j) + rsum n (fun j => ns_matrix C u h p 1 j * d 1%nat j) = convective_form C u d h p + convective_form C d u h p.
Proof.
  intros [E1 E2 (P1 & P2) (U1 & (U2 & U3)) (D1 & D2)] Hh. set (nq := v_size (cp_weights C)) in *.
  assert (cU : forall v q, combine (cp_U C) v q = rsum n (fun j => m_at (cp_U C) q j * v j)) by (intros; unfold combine; rewrite U3; reflexivity).
  assert (cD : forall k v q, (k < 2)%nat -> combine (cp_dU C k) v q = rsum n (fun j => m_at (cp_dU C k) q j * v j)) by (intros k v q Hk; unfold combine; destruct (D2 k Hk) as (_ & ->); reflexivity).
  assert (X : forall a, (a < 2)%nat -> rsum n (fun j => ns_matrix C u h p a j * d a j) = rsum nq (fun q => v_at (cp_weights C) q *
     ((if (a =? h)%nat then rsum 2 (fun k => combine (cp_U C) (u k) q * combine (cp_dU C k) (d h) q) else 0) + combine (cp_U C) (d a) q * combine (cp_dU C a) (u h) q) * m_at (cp_U C) q p)).
  { intros a Ha. unfold ns_matrix. fold nq.
    rewrite (rsum_ext n _ (fun j => rsum nq (fun q => v_at (cp_weights C) q *
    ((if (a =? h)%nat then rsum 2 (fun d => combine (cp_U C) (u d) q * m_at (cp_dU C d) q j) else 0) + m_at (cp_U C) q j * combine (cp_dU C a) (u h) q) * m_at (cp_U C) q p * d a j))) by (intros; symmetry; apply rsum_scal_r).
    rewrite rsum_swap. apply rsum_ext. intros q Hq. rewrite (cU (d a)). destruct (Nat.eqb_spec a h) as [->|N].
    - rewrite !rsum2, (cD 0%nat (d h)), (cD 1%nat (d h)) by lia.
      rewrite (rsum_ext n _ (fun j => v_at (cp_weights C) q * m_at (cp_U C) q p * combine (cp_U C) (u 0%nat) q * (m_at (cp_dU C 0) q j * d h j)
         + v_at (cp_weights C) q * m_at (cp_U C) q p * combine (cp_U C) (u 1%nat) q * (m_at (cp_dU C 1) q j * d h j)
         + v_at (cp_weights C) q * m_at (cp_U C) q p * combine (cp_dU C h) (u h) q * (m_at (cp_U C) q j * d h j))) by (intros; rewrite rsum2; ring).
      rewrite !rsum_plus, !rsum_scal. ring.
    - rewrite (rsum_ext n _ (fun j => v_at (cp_weights C) q * m_at (cp_U C) q p * combine (cp_dU C a) (u h) q * (m_at (cp_U C) q j * d a j))) by (intros; ring).
      rewrite rsum_scal. ring. }
  rewrite (X 0%nat), (X 1%nat) by lia. unfold convective_form, convect. fold nq. rewrite <- !rsum_plus. apply rsum_ext. intros q Hq. rewrite !rsum2.
  destruct h as [|[|h]]; [| |lia]; cbn [Nat.eqb]; ring.
Qed.

(** ** Two copies of a handler *)
Definition pair_handler (data : DOFsData) (n : nat) : local_matrix_to_global_matrix_dofs_data :=
  {| dofs_data := [data; data]; local_offsets := [0%nat; n]; global_offsets_DOFs := [0%nat; NumberDOFs data]; global_offsets_Strongs := [0%nat; NumberStrongs data] |}.

Section Pair.
Variables (m : Mesh2D) (info : MeshDOFsInfo) (data : DOFsData).
Local Notation mesh := (md_mesh m).
Hypothesis HC : CreateDOFs 2 info mesh = Ok data.
Hypothesis HN : Cell2Ds_number mesh = num_cells info 2.
Local Notation cl c := (closure_dofs info mesh 2 c).
Local Notation nc c := (length (closure_dofs info mesh 2 c)).
Local Notation N := (NumberDOFs data).

Lemma pair_packed c : (c < Cell2Ds_number mesh)%nat ->
  packed 2 c (pair_handler data (nc c))
     {| num_total_boundary_dofs := NumberBoundaryDOFs data + NumberBoundaryDOFs data; num_total_dofs := N + N; num_total_strong := NumberStrongs data + NumberStrongs data;
        offsets_DOFs := [0%nat; N]; offsets_Strongs := [0%nat; NumberStrongs data] |}
     {| l_num_total_dofs := nc c + nc c; l_offsets_DOFs := [0%nat; nc c] |}.
Proof using HC HN.
  intros Hc. destruct (C05_closure 2 info mesh data 2 c) as (G & HL); auto; try lia. constructor; simpl; auto.
  - repeat constructor; exists info, mesh; auto.
  - unfold local_count_dofs, idx_. simpl. unfold at_. rewrite G. reflexivity.
Qed.

Lemma pair_slots c : (c < Cell2Ds_number mesh)%nat -> slots 2 c [data; data] = map (pair 0%nat) (seq 0 (nc c)) ++ map (pair 1%nat) (seq 0 (nc c)).
Proof using HC HN.
  intros Hc. destruct (C05_closure 2 info mesh data 2 c) as (G & HL); auto; try lia. unfold slots. simpl. rewrite (local_size_at 2 c data (cl c)) by auto. rewrite app_nil_r. reflexivity.
Qed.

Lemma free_places_out c r F : (c < Cell2Ds_number mesh)%nat -> (N <= r)%nat -> free_places info mesh data c r F = 0.
Proof using HC HN.
  intros Hc Hr. unfold free_places. apply lsum_0. intros p Hp. destruct (nth_error (cl c) p) as [h|] eqn:Eh; [|reflexivity].
  destruct (free_is data h r) eqn:Ef; [|reflexivity]. exfalso. unfold free_is in Ef. destruct (lookup data h) as [x|] eqn:El; [|discriminate].
  apply andb_true_iff in Ef. destruct Ef as (T & I). apply Nat.eqb_eq in I.
  destruct (local_solution_ok m info data HC HN c (repeat 0 N) (repeat 0 (NumberStrongs data)) Hc (repeat_length _ _) (repeat_length _ _)) as (u & _ & _ & V).
  specialize (V p h Eh). unfold value_of in V. rewrite El in V. unfold is_type in T. destruct (dof_type x); simpl in T; try discriminate.
  assert (dof_index x < N)%nat by (rewrite <- (repeat_length 0 N); apply nth_error_Some; congruence). lia.
Qed.

Lemma pair_free c h r (F : nat -> R) : (c < Cell2Ds_number mesh)%nat -> (h < 2)%nat -> (r < N)%nat ->
  lsum (fun p => if numbered (free_number 2 c (pair_handler data (nc c)) p) (h * N + r) then F (slot_pos (pair_handler data (nc c)) p) else 0) (slots 2 c [data; data]) =
  free_places info mesh data c r (fun p => F (h * nc c + p)%nat).
Proof using HC HN.
  intros Hc Hh Hr. rewrite (pair_slots c Hc), lsum_app, !lsum_map.
  destruct (C05_closure 2 info mesh data 2 c) as (G & HL); auto; try lia.
  assert (K : forall k, (k < 2)%nat -> lsum (fun p => if numbered (free_number 2 c (pair_handler data (nc c)) (k, p)) (h * N + r) then F (slot_pos (pair_handler data (nc c)) (k, p)) else 0) (seq 0 (nc c)) =
     if (k =? h)%nat then free_places info mesh data c r (fun p => F (h * nc c + p)%nat) else 0).
  { intros k Hk. destruct (Nat.eqb_spec k h) as [->|Nk].
    - unfold free_places. apply lsum_ext. intros p Hp. unfold free_number, slot_dof, slot_pos. cbn [dofs_data pair_handler fst snd local_offsets global_offsets_DOFs].
      replace (nth_error [data; data] h) with (Some data) by (destruct h as [|[|h]]; [reflexivity|reflexivity|lia]). rewrite G.
      destruct (nth_error (cl c) p) as [g|]; [|reflexivity]. unfold free_is. destruct (lookup data g) as [x|]; [|reflexivity].
      replace (nth h [0%nat; N] 0%nat) with (h * N)%nat by (destruct h as [|[|h]]; simpl; lia). replace (nth h [0%nat; nc c] 0%nat) with (h * nc c)%nat by (destruct h as [|[|h]]; simpl; lia).
      unfold is_type. destruct (dof_type x); simpl; try reflexivity.
      replace (dof_index x + h * N =? h * N + r)%nat with (dof_index x =? r)%nat by (apply eq_true_iff_eq; rewrite !Nat.eqb_eq; lia).
      destruct (_ =? _)%nat; [|reflexivity]. f_equal. lia.
    - apply lsum_0. intros p Hp. destruct (numbered _ _) eqn:En; [|reflexivity]. exfalso. unfold numbered, free_number, slot_dof in En. cbn [dofs_data pair_handler fst snd global_offsets_DOFs] in En.
      replace (nth_error [data; data] k) with (Some data) in En by (destruct k as [|[|k]]; [reflexivity|reflexivity|lia]). rewrite G in En.
      destruct (nth_error (cl c) p) as [g|] eqn:Eg; [|discriminate]. destruct (lookup data g) as [x|] eqn:El; [|discriminate]. destruct (dof_type x) eqn:Ty; try discriminate.
      apply Nat.eqb_eq in En.
      destruct (local_solution_ok m info data HC HN c (repeat 0 N) (repeat 0 (NumberStrongs data)) Hc (repeat_length _ _) (repeat_length _ _)) as (u & _ & _ & V).
      specialize (V p g Eg). unfold value_of in V. rewrite El, Ty in V.
      assert (dof_index x < N)%nat by (rewrite <- (repeat_length 0 N); apply nth_error_Some; congruence).
      destruct k as [|[|k]]; [| |lia]; (destruct h as [|[|h]]; [| |lia]); simpl in En; lia. }
  rewrite (K 0%nat), (K 1%nat) by lia. destruct h as [|[|h]]; [| |lia]; cbn [Nat.eqb]; ring.
Qed.

(** restriction of a pair of vectors *)
Lemma pair_restrict c ux uy uxS uyS vx vy : (c < Cell2Ds_number mesh)%nat ->
  length ux = N -> length uy = N -> length uxS = NumberStrongs data -> length uyS = NumberStrongs data ->
  local_solution data ux uxS c = Ok vx -> local_solution data uy uyS c = Ok vy ->
  exists l, global_solution_to_local_solution 2 c [data; data] (nc c + nc c) [0%nat; nc c] [0%nat; N] [0%nat; NumberStrongs data] (ux ++ uy) (uxS ++ uyS) = Ok l /\
    length l = (2 * nc c)%nat /\ forall h j, (h < 2)%nat -> (j < nc c)%nat -> nth (h * nc c + j) l 0 = v_at (pair2 vx vy h) j.
Proof using HC HN.
  intros Hc Lx Ly LxS LyS Ex Ey. destruct (C05_closure 2 info mesh data 2 c) as (G & HL); auto; try lia.
  destruct (C14_restrict 2 c (pair_handler data (nc c)) _ _ (ux ++ uy) (uxS ++ uyS) (pair_packed c Hc)) as (l & El & Ll & _ & HP).
  { rewrite app_length, Lx, Ly. reflexivity. } { rewrite app_length, LxS, LyS. reflexivity. }
  exists l. split; [exact El|]. split; [cbn [l_num_total_dofs] in Ll; lia|]. intros h j Hh Hj.
  destruct (nth_error (cl c) j) as [g|] eqn:Eg; [|apply nth_error_None in Eg; lia].
  destruct (HL g (nth_error_In _ _ Eg)) as (x & Hx).
  assert (V : value_of data (pair2 ux uy h) (pair2 uxS uyS h) g = Some (v_at (pair2 vx vy h) j)).
  { destruct h as [|[|h]]; [| |lia]; cbn [pair2].
    - destruct (local_solution_ok m info data HC HN c ux uxS Hc Lx LxS) as (v & Ev & _ & V). rewrite Ex in Ev. inversion Ev; subst v. apply V. exact Eg.
    - destruct (local_solution_ok m info data HC HN c uy uyS Hc Ly LyS) as (v & Ev & _ & V). rewrite Ey in Ev. inversion Ev; subst v. apply V. exact Eg. }
  assert (SD : slot_dof 2 c [data; data] (h, j) = Some x).
  { unfold slot_dof. cbn [fst snd]. replace (nth_error [data; data] h) with (Some data) by (destruct h as [|[|h]]; [reflexivity|reflexivity|lia]). rewrite G, Eg. exact Hx. }
  assert (PS : slot_pos (pair_handler data (nc c)) (h, j) = (h * nc c + j)%nat) by (unfold slot_pos; cbn [fst snd local_offsets pair_handler]; destruct h as [|[|h]]; simpl; lia).
  assert (In (h, j) (slots 2 c [data; data])).
  { rewrite (pair_slots c Hc). apply in_or_app. destruct h as [|[|h]]; [left|right|lia]; apply in_map; apply in_seq; lia. }
  assert (AP : forall (a b : list R) k i, length a = k -> (i < k)%nat -> nth_error (a ++ b) (i + nth h [0%nat; k] 0%nat) = nth_error (pair2 a b h) i).
  { intros a b k i La Hi. destruct h as [|[|h]]; [| |lia]; cbn [nth pair2].
    - rewrite Nat.add_0_r, nth_error_app1 by lia. reflexivity.
    - rewrite nth_error_app2 by lia. f_equal. lia. }
  assert (LP : forall (a b : list R) k, length a = k -> length b = k -> length (pair2 a b h) = k) by (intros a b k La Lb; destruct h; auto).
  unfold value_of in V. rewrite Hx in V.
  destruct (HP (h, j)) as [(r & Fr & Lr & En)|(r & Fr & Lr & En)]; [cbn [dofs_data pair_handler]; auto| |].
  - unfold free_number in Fr. cbn [dofs_data pair_handler] in Fr. rewrite SD in Fr. destruct (dof_type x) eqn:Ty; try discriminate. cbn [fst global_offsets_DOFs pair_handler] in Fr. assert (Er : r = (dof_index x + nth h [0%nat; N] 0%nat)%nat) by congruence. rewrite Er, PS in En.
    rewrite AP in En; [| exact Lx |rewrite <- (LP ux uy N) by auto; apply nth_error_Some; congruence]. rewrite V in En. apply nth_error_nth with (d := 0) in En. exact En.
  - unfold strong_number in Fr. cbn [dofs_data pair_handler] in Fr. rewrite SD in Fr. destruct (dof_type x) eqn:Ty; try discriminate. cbn [fst global_offsets_Strongs pair_handler] in Fr. assert (Er : r = (dof_index x + nth h [0%nat; NumberStrongs data] 0%nat)%nat) by congruence. rewrite Er, PS in En.
    rewrite AP in En; [| exact LxS |rewrite <- (LP uxS uyS (NumberStrongs data)) by auto; apply nth_error_Some; congruence]. rewrite V in En. apply nth_error_nth with (d := 0) in En. exact En.
Qed.

Lemma stack2_ok n x y : length x = n -> length y = n -> exists v, stack2 (n + n) n x y = Ok v /\ list_of_vec v = x ++ y.
Proof using.
  clear. intros Lx Ly. unfold stack2. destruct (set_segment_ok (vzero (n + n)) 0 n (vec_of_list x)) as (v & Ev & Sv & V1 & V2); [simpl; lia|exact Lx|]. rewrite Ev. cbn [bind].
  simpl in Sv. destruct (set_segment_ok v n n (vec_of_list y)) as (w & Ew & Sw & W1 & W2); [lia|exact Ly|]. exists w. split; [exact Ew|].
  unfold list_of_vec. rewrite Sw, Sv. apply nth_ext with (d := 0) (d' := 0); [rewrite map_length, seq_length, app_length; lia|]. rewrite map_length, seq_length. intros i Hi.
  rewrite (nth_indep _ 0 (v_at w 0%nat)) by (rewrite map_length, seq_length; lia). rewrite map_nth, seq_nth by lia. cbn [Nat.add].
  destruct (Nat.lt_ge_cases i n) as [H|H].
  - rewrite W2 by lia. rewrite app_nth1 by lia. apply (V1 i H).
  - rewrite app_nth2 by lia. replace i with (n + (i - n))%nat at 1 by lia. rewrite W1 by lia. cbn [v_at vec_of_list]. rewrite Lx. reflexivity.
Qed.
End Pair.

Section NS.
Variables (m : Mesh2D) (info : MeshDOFsInfo) (data : DOFsData) (create : nat -> outcome LocalSpace) (C : nat -> CompForms).
Local Notation mesh := (md_mesh m).
Hypothesis HC : CreateDOFs 2 info mesh = Ok data.
Hypothesis HN : Cell2Ds_number mesh = num_cells info 2.
Hypothesis HF : forall c, (c < Cell2Ds_number mesh)%nat -> md_active2 m c = true -> comp_forms Pi0km1_t create c (length (closure_dofs info mesh 2 c)) (C c).
Local Notation actives := (filter (md_active2 m) (seq 0 (Cell2Ds_number mesh))).
Local Notation nc c := (length (closure_dofs info mesh 2 c)).
Local Notation N := (NumberDOFs data).

Lemma foldM_two {A S} (f g : S -> A -> outcome S) l : forall s,
  foldM (fun s a => t <- f s a ;; g t a) l s = foldM (fun s (o : bool * A) => if fst o then f s (snd o) else g s (snd o)) (flat_map (fun a => [(true, a); (false, a)]) l) s.
Proof using. clear. induction l as [|a l IH]; intros s; simpl; [reflexivity|]. destruct (f s a) as [t| |]; cbn [bind]; try reflexivity. destruct (g t a); cbn [bind]; auto. Qed.

Lemma local_values uD uS : length uD = N -> length uS = NumberStrongs data ->
  exists ul, forall c, (c < Cell2Ds_number mesh)%nat -> local_solution data uD uS c = Ok (ul c).
Proof using HC HN.
  clear HF. intros LD LS. exists (fun c => match local_solution data uD uS c with Ok u => u | _ => vzero 0 end). intros c Hc.
  destruct (local_solution_ok m info data HC HN c uD uS Hc LD LS) as (u & Eu & _). rewrite Eu. reflexivity.
Qed.

Lemma NS_ok ux uy uxS uyS vx vy : length ux = N -> length uy = N -> length uxS = NumberStrongs data -> length uyS = NumberStrongs data ->
  (forall c, (c < Cell2Ds_number mesh)%nat -> local_solution data ux uxS c = Ok (vx c)) ->
  (forall c, (c < Cell2Ds_number mesh)%nat -> local_solution data uy uyS c = Ok (vy c)) ->
  exists s, assemble_NS_operators m data create ux uy uxS uyS = Ok s /\ length (asm_rhs s) = (2 * N)%nat /\
    (forall r j v, In (r, j, v) (trip_DOFs s) -> (r < 2 * N)%nat /\ (j < 2 * N)%nat) /\
    (forall r j v, In (r, j, v) (trip_Strongs s) -> (r < 2 * N)%nat /\ (j < 2 * NumberStrongs data)%nat) /\
    (forall h r, (h < 2)%nat -> (r < N)%nat -> nth (h * N + r) (asm_rhs s) 0 = active_sum m (fun c => free_places info mesh data c r (fun p =>
       convective_form (C c) (fun k => v_at (pair2 (vx c) (vy c) k)) (fun k => v_at (pair2 (vx c) (vy c) k)) h p))) /\
    forall dx dy dxS dyS ex ey, length dx = N -> length dy = N -> length dxS = NumberStrongs data -> length dyS = NumberStrongs data ->
      (forall c, (c < Cell2Ds_number mesh)%nat -> local_solution data dx dxS c = Ok (ex c)) ->
      (forall c, (c < Cell2Ds_number mesh)%nat -> local_solution data dy dyS c = Ok (ey c)) ->
      forall h r, (h < 2)%nat -> (r < N)%nat -> operator_row s (dx ++ dy) (dxS ++ dyS) (h * N + r) = active_sum m (fun c => free_places info mesh data c r (fun p =>
        convective_form (C c) (fun k => v_at (pair2 (vx c) (vy c) k)) (fun k => v_at (pair2 (ex c) (ey c) k)) h p +
        convective_form (C c) (fun k => v_at (pair2 (ex c) (ey c) k)) (fun k => v_at (pair2 (vx c) (vy c) k)) h p)).
Proof using HC HN HF.
  intros Lx Ly LxS LyS Hvx Hvy.
  set (u := fun c k => v_at (pair2 (vx c) (vy c) k)).
  set (xs := fun c => match global_solution_to_local_solution 2 c [data; data] (nc c + nc c) [0%nat; nc c] [0%nat; N] [0%nat; NumberStrongs data] (ux ++ uy) (uxS ++ uyS) with Ok l => l | _ => [] end).
  assert (Hxs : forall c, (c < Cell2Ds_number mesh)%nat ->
    global_solution_to_local_solution 2 c [data; data] (nc c + nc c) [0%nat; nc c] [0%nat; N] [0%nat; NumberStrongs data] (ux ++ uy) (uxS ++ uyS) = Ok (xs c) /\
    length (xs c) = (2 * nc c)%nat /\ forall h j, (h < 2)%nat -> (j < nc c)%nat -> nth (h * nc c + j) (xs c) 0 = u c h j).
  { intros c Hc. destruct (pair_restrict m info data HC HN c ux uy uxS uyS (vx c) (vy c) Hc Lx Ly LxS LyS (Hvx c Hc) (Hvy c Hc)) as (l & El & Ll & Vl). unfold xs. rewrite El. auto. }
  set (A := fun c => match NS_cell (cp_space (C c)) (vec_of_list (xs c)) with Ok (B, _) => B | _ => mzero 0 0 end).
  set (b := fun c => match NS_cell (cp_space (C c)) (vec_of_list (xs c)) with Ok (_, v) => v | _ => vzero 0 end).
  assert (HA : forall c, In c actives -> NS_cell (cp_space (C c)) (vec_of_list (xs c)) = Ok (A c, b c) /\ shaped (2 * nc c) (2 * nc c) (A c) /\ v_size (b c) = (2 * nc c)%nat /\
    (forall h p a j, (h < 2)%nat -> (p < nc c)%nat -> (a < 2)%nat -> (j < nc c)%nat -> m_at (A c) (h * nc c + p) (a * nc c + j) = ns_matrix (C c) (u c) h p a j) /\
    (forall h p, (h < 2)%nat -> (p < nc c)%nat -> v_at (b c) (h * nc c + p) = convective_form (C c) (u c) (u c) h p)).
  { intros c Hc. destruct (in_actives m c Hc) as (Hc1 & Hc2). destruct (Hxs c Hc1) as (_ & Lc & Vc).
    destruct (NS_cell_ok create c (nc c) (C c) (vec_of_list (xs c)) (u c) (HF c Hc1 Hc2) Lc Vc) as (B & v & EB & H1). unfold A, b. rewrite EB. auto. }
  set (op := fun o : bool * nat => {| op_cell := snd o; op_test := pair_handler data (nc (snd o)); op_trial := pair_handler data (nc (snd o));
     op_lhs := if fst o then Some (A (snd o)) else None; op_rhs := if fst o then None else Some (list_of_vec (b (snd o))) |}).
  set (cells := flat_map (fun c => [(true, c); (false, c)]) actives).
  assert (Hcells : forall o, In o cells -> In (snd o) actives).
  { intros o Ho. apply in_flat_map in Ho. destruct Ho as (c & Hc & [<-|[<-|[]]]); exact Hc. }
  assert (F1 : Forall (op_fits 2 (N + N)) (map op cells)).
  { apply Forall_forall. intros o Ho. apply in_map_iff in Ho. destruct Ho as (bc & <- & Hb). apply Hcells in Hb. destruct (in_actives m _ Hb) as (Hc1 & Hc2).
    destruct (HA _ Hb) as (_ & (S1 & S2) & S3 & _).
    do 4 eexists. split; [apply (pair_packed m info data HC HN _ Hc1)|]. split; [apply (pair_packed m info data HC HN _ Hc1)|]. split; [reflexivity|]. split.
    - intros B EB. cbn [op op_lhs] in EB. destruct (fst bc); inversion EB; subst B. cbn [l_num_total_dofs]. lia.
    - intros l El. cbn [op op_rhs] in El. destruct (fst bc); inversion El; subst l. cbn [l_num_total_dofs]. unfold list_of_vec. rewrite map_length, seq_length. lia. }
  assert (F2 : Forall (trial_total 2 (N + N) (NumberStrongs data + NumberStrongs data)) (map op cells)).
  { apply Forall_forall. intros o Ho. apply in_map_iff in Ho. destruct Ho as (bc & <- & Hb). apply Hcells in Hb. destruct (in_actives m _ Hb) as (Hc1 & Hc2).
    do 2 eexists. split; [apply (pair_packed m info data HC HN _ Hc1)|]. split; reflexivity. }
  destruct (C15_assembly 2 (N + N) (N + N) (NumberStrongs data + NumberStrongs data) (map op cells) F1 F2) as (s & Es & Ls & R1' & R2' & _ & _ & Hr).
  exists s. split; [|split; [lia|split; [intros r j v H; specialize (R1' r j v H); lia|split; [intros r j v H; specialize (R2' r j v H); lia|split]]]].
  - unfold assemble_NS_operators. assert (CD : count_dofs [data; data] = Ok {| num_total_boundary_dofs := NumberBoundaryDOFs data + NumberBoundaryDOFs data; num_total_dofs := N + N;
      num_total_strong := NumberStrongs data + NumberStrongs data; offsets_DOFs := [0%nat; N]; offsets_Strongs := [0%nat; NumberStrongs data] |}) by reflexivity.
    cbv zeta. rewrite CD. cbn [bind num_total_dofs num_total_strong offsets_DOFs offsets_Strongs].
    destruct (stack2_ok N ux uy Lx Ly) as (uD & EuD & LuD). rewrite EuD. cbn [bind]. destruct (stack2_ok (NumberStrongs data) uxS uyS LxS LyS) as (uS & EuS & LuS). rewrite EuS. cbn [bind].
    rewrite LuD, LuS. unfold for_loop. rewrite for_filter. rewrite <- Es. unfold assemble_all, cells. rewrite foldM_map.
    transitivity (foldM (fun s c => t <- assemble_lhs 2 c (pair_handler data (nc c)) (pair_handler data (nc c)) (A c) s ;; assemble_rhs 2 c (pair_handler data (nc c)) (list_of_vec (b c)) t) actives (asm_init (N + N))).
    + apply foldM_ext_in. intros c t Hc. destruct (in_actives m c Hc) as (Hc1 & Hc2). destruct (HF c Hc1 Hc2) as [E1 _ _ _ _]. rewrite E1. cbn [bind].
      destruct (pair_packed m info data HC HN c Hc1) as [_ _ P _ _ _]. cbn [dofs_data pair_handler] in P. rewrite P. cbn [bind l_num_total_dofs l_offsets_DOFs].
      destruct (Hxs c Hc1) as (-> & _). cbn [bind]. destruct (HA c Hc) as (-> & _). cbn [bind]. reflexivity.
    + rewrite foldM_two. apply foldM_ext_in. intros [[|] c] t _; reflexivity.
  - intros h r Hh Hr'. rewrite Hr. unfold rhs_sum, active_sum, cells. rewrite lsum_map, lsum_flat_map. apply lsum_ext. intros c Hc. destruct (in_actives m c Hc) as (Hc1 & Hc2).
    simpl lsum at 1. cbn [op op_rhs fst snd op_cell op_test]. rewrite Rplus_0_r, Rplus_0_l. cbn [dofs_data pair_handler].
    etransitivity; [apply (pair_free m info data HC HN c h r (fun i => nth i (list_of_vec (b c)) 0) Hc1 Hh Hr')|]. unfold free_places. apply lsum_ext. intros p Hp. apply in_seq in Hp. destruct (nth_error _ p); [|reflexivity]. destruct (free_is _ _ _); [|reflexivity].
    destruct (HA c Hc) as (_ & _ & Sb & _ & Vb). cbv beta. unfold list_of_vec. assert (h * nc c + p < 2 * nc c)%nat by (destruct h as [|[|h]]; lia).
    rewrite (nth_indep _ 0 (v_at (b c) 0%nat)) by (rewrite map_length, seq_length; lia). rewrite map_nth, seq_nth by lia. cbn [Nat.add]. apply Vb; auto. lia.
  - intros dx dy dxS dyS ex ey Ldx Ldy LdxS LdyS Hex Hey h r Hh Hr'.
    set (ys := fun c => match global_solution_to_local_solution 2 c [data; data] (nc c + nc c) [0%nat; nc c] [0%nat; N] [0%nat; NumberStrongs data] (dx ++ dy) (dxS ++ dyS) with Ok l => l | _ => [] end).
    assert (Hys : forall c, (c < Cell2Ds_number mesh)%nat ->
      global_solution_to_local_solution 2 c [data; data] (nc c + nc c) [0%nat; nc c] [0%nat; N] [0%nat; NumberStrongs data] (dx ++ dy) (dxS ++ dyS) = Ok (ys c) /\
      length (ys c) = (2 * nc c)%nat /\ forall h j, (h < 2)%nat -> (j < nc c)%nat -> nth (h * nc c + j) (ys c) 0 = v_at (pair2 (ex c) (ey c) h) j).
    { intros c Hc. destruct (pair_restrict m info data HC HN c dx dy dxS dyS (ex c) (ey c) Hc Ldx Ldy LdxS LdyS (Hex c Hc) (Hey c Hc)) as (l & El & Ll & Vl). unfold ys. rewrite El. auto. }
    unfold operator_row. rewrite (C16_operator 2 (N + N) (map op cells) s (dx ++ dy) (dxS ++ dyS) (fun o => ys (op_cell o))).
    + unfold active_sum, cells. rewrite lsum_map, lsum_flat_map. apply lsum_ext. intros c Hc. destruct (in_actives m c Hc) as (Hc1 & Hc2).
      simpl lsum at 1. cbn [op op_lhs fst snd op_cell op_test]. rewrite !Rplus_0_r. cbn [dofs_data pair_handler].
      etransitivity; [apply (pair_free m info data HC HN c h r (fun i => rsum (m_cols (A c)) (fun j => m_at (A c) i j * nth j (ys c) 0)) Hc1 Hh Hr')|]. unfold free_places. apply lsum_ext. intros p Hp. apply in_seq in Hp. destruct (nth_error _ p); [|reflexivity]. destruct (free_is _ _ _); [|reflexivity].
      destruct (HA c Hc) as (_ & (_ & CA) & _ & Va & _). cbv beta. rewrite CA, rsum_two. destruct (Hys c Hc1) as (_ & _ & Vy).
      change (fun k => v_at (pair2 (vx c) (vy c) k)) with (u c). rewrite <- (ns_matrix_form create c (nc c) (C c) (u c) (fun k => v_at (pair2 (ex c) (ey c) k)) h p (HF c Hc1 Hc2) Hh). f_equal.
      * apply rsum_ext. intros j Hj. pose proof (Va h p 0%nat j Hh ltac:(lia) ltac:(lia) Hj) as X. pose proof (Vy 0%nat j ltac:(lia) Hj) as Y. cbn [Nat.mul Nat.add] in X, Y. rewrite X, Y. reflexivity.
      * apply rsum_ext. intros j Hj. pose proof (Va h p 1%nat j Hh ltac:(lia) ltac:(lia) Hj) as X. pose proof (Vy 1%nat j ltac:(lia) Hj) as Y. rewrite Nat.mul_1_l in X, Y. rewrite X, Y. reflexivity.
    + exact F1.
    + rewrite !app_length, Ldx, Ldy, LdxS, LdyS. exact F2.
    + exact Es.
    + intros o Ho. apply in_map_iff in Ho. destruct Ho as (bc & <- & Hb). apply Hcells in Hb. destruct (in_actives m _ Hb) as (Hc1 & Hc2). cbn [op op_cell op_trial dofs_data local_offsets global_offsets_DOFs global_offsets_Strongs pair_handler].
      exists (nc (snd bc) + nc (snd bc))%nat. split; [apply (Hys _ Hc1)|]. destruct (pair_packed m info data HC HN _ Hc1) as [_ _ P _ _ _]. exact P.
Qed.

(** sums *)
Lemma add_lists_length a b : length (add_lists a b) = length a.
Proof using. clear. unfold add_lists. rewrite map_length, seq_length. reflexivity. Qed.
Lemma add_lists_nth a b i x y : nth_error a i = Some x -> nth_error b i = Some y -> nth_error (add_lists a b) i = Some (x + y).
Proof using.
  clear. intros Ha Hb. assert (i < length a)%nat by (apply nth_error_Some; congruence). unfold add_lists.
  erewrite map_nth_error; [|erewrite nth_error_nth' with (d := 0%nat); [|rewrite seq_length; auto]; reflexivity].
  rewrite seq_nth by auto. cbn [Nat.add]. f_equal. rewrite (nth_error_nth _ _ 0 Ha), (nth_error_nth _ _ 0 Hb). reflexivity.
Qed.
Lemma local_solution_add c uD uS dD dS u d : (c < Cell2Ds_number mesh)%nat -> length uD = N -> length uS = NumberStrongs data -> length dD = N -> length dS = NumberStrongs data ->
  local_solution data uD uS c = Ok u -> local_solution data dD dS c = Ok d ->
  exists w, local_solution data (add_lists uD dD) (add_lists uS dS) c = Ok w /\ v_size w = nc c /\ forall j, (j < nc c)%nat -> v_at w j = v_at u j + v_at d j.
Proof using HC HN.
  clear HF. intros Hc L1 L2 L3 L4 Eu Ed.
  destruct (local_solution_ok m info data HC HN c uD uS Hc L1 L2) as (u' & Eu' & _ & Vu). rewrite Eu in Eu'. inversion Eu'; subst u'.
  destruct (local_solution_ok m info data HC HN c dD dS Hc L3 L4) as (d' & Ed' & _ & Vd). rewrite Ed in Ed'. inversion Ed'; subst d'.
  destruct (local_solution_ok m info data HC HN c (add_lists uD dD) (add_lists uS dS) Hc) as (w & Ew & Sw & Vw); [rewrite add_lists_length; auto|rewrite add_lists_length; auto|].
  exists w. split; [exact Ew|]. split; [exact Sw|]. intros j Hj. destruct (nth_error (closure_dofs info mesh 2 c) j) as [h|] eqn:Eh; [|apply nth_error_None in Eh; lia].
  specialize (Vu j h Eh). specialize (Vd j h Eh). specialize (Vw j h Eh). unfold value_of in *. destruct (lookup data h) as [x|]; [|discriminate].
  destruct (dof_type x); try discriminate; rewrite (add_lists_nth _ _ _ _ _ Vu Vd) in Vw; inversion Vw; reflexivity.
Qed.

Lemma combine_add M n (x y z : nat -> R) q : m_cols M = n -> (forall j, (j < n)%nat -> z j = x j + y j) -> combine M z q = combine M x q + combine M y q.
Proof using. clear. intros HM Hz. unfold combine. rewrite HM, <- rsum_plus. apply rsum_ext. intros j Hj. rewrite Hz by auto. ring. Qed.

Lemma NS_newton ux uy uxS uyS dx dy dxS dyS : length ux = N -> length uy = N -> length uxS = NumberStrongs data -> length uyS = NumberStrongs data ->
  length dx = N -> length dy = N -> length dxS = NumberStrongs data -> length dyS = NumberStrongs data ->
  exists s t st, assemble_NS_operators m data create ux uy uxS uyS = Ok s /\ assemble_NS_operators m data create dx dy dxS dyS = Ok t /\
    assemble_NS_operators m data create (add_lists ux dx) (add_lists uy dy) (add_lists uxS dxS) (add_lists uyS dyS) = Ok st /\
    forall r, (r < 2 * N)%nat -> nth r (asm_rhs st) 0 = nth r (asm_rhs s) 0 + operator_row s (dx ++ dy) (dxS ++ dyS) r + nth r (asm_rhs t) 0.
Proof using HC HN HF.
  intros L1 L2 L3 L4 L5 L6 L7 L8.
  destruct (local_values ux uxS L1 L3) as (vx & Hvx). destruct (local_values uy uyS L2 L4) as (vy & Hvy).
  destruct (local_values dx dxS L5 L7) as (ex & Hex). destruct (local_values dy dyS L6 L8) as (ey & Hey).
  destruct (local_values (add_lists ux dx) (add_lists uxS dxS)) as (wx & Hwx); [rewrite add_lists_length; auto..|].
  destruct (local_values (add_lists uy dy) (add_lists uyS dyS)) as (wy & Hwy); [rewrite add_lists_length; auto..|].
  destruct (NS_ok ux uy uxS uyS vx vy L1 L2 L3 L4 Hvx Hvy) as (s & Es & _ & _ & _ & Rs & Os).
  destruct (NS_ok dx dy dxS dyS ex ey L5 L6 L7 L8 Hex Hey) as (t & Et & _ & _ & _ & Rt & _).
  destruct (NS_ok (add_lists ux dx) (add_lists uy dy) (add_lists uxS dxS) (add_lists uyS dyS) wx wy) as (st & Est & _ & _ & _ & Rst & _); try (rewrite add_lists_length; auto); auto.
  exists s, t, st. split; [exact Es|]. split; [exact Et|]. split; [exact Est|].
  assert (G : forall h r, (h < 2)%nat -> (r < N)%nat -> nth (h * N + r) (asm_rhs st) 0 = nth (h * N + r) (asm_rhs s) 0 + operator_row s (dx ++ dy) (dxS ++ dyS) (h * N + r) + nth (h * N + r) (asm_rhs t) 0).
  { intros h r Hh Hr. rewrite Rst, Rs, Rt by auto. rewrite (Os dx dy dxS dyS ex ey) by auto. unfold active_sum. rewrite <- !lsum_plus. apply lsum_ext. intros c Hc. destruct (in_actives m c Hc) as (Hc1 & Hc2).
    unfold free_places. rewrite <- !lsum_plus. apply lsum_ext. intros p Hp. destruct (nth_error _ p); [|ring]. destruct (free_is _ _ _); [|ring].
    destruct (HF c Hc1 Hc2) as [E1 E2 _ (_ & (_ & U3)) (_ & D2)].
    assert (S : forall k j, (k < 2)%nat -> (j < nc c)%nat -> v_at (pair2 (wx c) (wy c) k) j = v_at (pair2 (vx c) (vy c) k) j + v_at (pair2 (ex c) (ey c) k) j).
    { intros k j Hk Hj. destruct k as [|[|k]]; [| |lia]; cbn [pair2].
      - destruct (local_solution_add c ux uxS dx dxS (vx c) (ex c) Hc1 L1 L3 L5 L7 (Hvx c Hc1) (Hex c Hc1)) as (w & Ew & _ & V). rewrite Hwx in Ew by auto. inversion Ew; subst w. apply V. auto.
      - destruct (local_solution_add c uy uyS dy dyS (vy c) (ey c) Hc1 L2 L4 L6 L8 (Hvy c Hc1) (Hey c Hc1)) as (w & Ew & _ & V). rewrite Hwy in Ew by auto. inversion Ew; subst w. apply V. auto. }
    unfold convective_form. rewrite <- !rsum_plus. apply rsum_ext. intros q Hq. unfold convect. rewrite !rsum2.
    assert (X : forall k, (k < 2)%nat -> combine (cp_U (C c)) (v_at (pair2 (wx c) (wy c) k)) q = combine (cp_U (C c)) (v_at (pair2 (vx c) (vy c) k)) q + combine (cp_U (C c)) (v_at (pair2 (ex c) (ey c) k)) q)
      by (intros k Hk; apply (combine_add _ (nc c)); auto).
    assert (Y : forall d, (d < 2)%nat -> combine (cp_dU (C c) d) (v_at (pair2 (wx c) (wy c) h)) q = combine (cp_dU (C c) d) (v_at (pair2 (vx c) (vy c) h)) q + combine (cp_dU (C c) d) (v_at (pair2 (ex c) (ey c) h)) q)
      by (intros d Hd; apply (combine_add _ (nc c)); [apply (D2 d Hd)|auto]).
    rewrite (X 0%nat), (X 1%nat), (Y 0%nat), (Y 1%nat) by lia. ring. }
  intros r Hr. destruct (Nat.lt_ge_cases r N) as [H|H].
  - apply (G 0%nat r); [lia|exact H].
  - replace r with (1 * N + (r - N))%nat by lia. apply G; lia.
Qed.
End NS.
