From Coq Require Import List Arith Bool Lia ZArith Reals Lra Permutation.
From Verif Require Import Base RSum MatrixModel MonomialsModel MonomialsSpec GBasisModel GBasisProofs LagrangeModel LagrangeSpec LagrangeProofs
  RBinom TriangleModel TriangleSpec TriangleProofs TriangleProofs2.
Import ListNotations.
Local Open Scope R_scope.

Lemma created_ok order data : (1 <= order)%nat -> Tri_Create order = Ok data -> tri_ok order data.
Proof. intros H E. destruct (create_ok order H) as (d & E' & T). rewrite E in E'. injection E' as <-. auto. Qed.

Lemma nth_error_map_seq {A} (f : nat -> A) n k : (k < n)%nat -> nth_error (map f (seq 0 n)) k = Some (f k).
Proof. intros H. rewrite nth_error_map, nth_error_seq_lt by auto. reflexivity. Qed.

Section Positions.
Variable o : nat.
Hypothesis Ho : (1 <= o)%nat.
Lemma o_neq : INR o <> 0. Proof. apply not_0_INR. lia. Qed.

Lemma Lp_vertex : nth_error (Lp o) 0 = Some (0, 0)%nat /\ nth_error (Lp o) 1 = Some (0, o)%nat /\ nth_error (Lp o) 2 = Some (o, 0)%nat.
Proof. repeat split. Qed.
Lemma Lp_edge k : (k < o - 1)%nat -> nth_error (Lp o) (3 + k) = Some (0, S k)%nat /\ nth_error (Lp o) (3 + (o - 1) + k) = Some (S k, o - 1 - k)%nat /\
  nth_error (Lp o) (3 + 2 * (o - 1) + k) = Some (o - 1 - k, 0)%nat.
Proof.
  intros Hk. unfold Lp. destruct (parts o Ho) as (_ & -> & -> & -> & _).
  repeat split.
  - rewrite nth_error_app2 by (cbn; lia). cbn [length]. rewrite nth_error_app1 by (rewrite map_length, seq_length; lia).
    replace (3 + k - 3)%nat with k by lia. now rewrite nth_error_map_seq.
  - rewrite nth_error_app2 by (cbn; lia). cbn [length]. rewrite nth_error_app2 by (rewrite map_length, seq_length; lia). rewrite map_length, seq_length.
    rewrite nth_error_app1 by (rewrite map_length, seq_length; lia).
    replace (3 + (o - 1) + k - 3 - (o - 1))%nat with k by lia. now rewrite nth_error_map_seq.
  - rewrite nth_error_app2 by (cbn; lia). cbn [length]. rewrite nth_error_app2 by (rewrite map_length, seq_length; lia). rewrite map_length, seq_length.
    rewrite nth_error_app2 by (rewrite map_length, seq_length; lia). rewrite map_length, seq_length.
    rewrite nth_error_app1 by (rewrite map_length, seq_length; lia).
    replace (3 + 2 * (o - 1) + k - 3 - (o - 1) - (o - 1))%nat with k by lia. now rewrite nth_error_map_seq.
Qed.
Lemma Lp_interior d : (3 + 3 * (o - 1) <= d)%nat -> (d < NN o)%nat -> exists i j, nth_error (Lp o) d = Some (i, j) /\ (1 <= i /\ 1 <= j /\ i + j < o)%nat.
Proof.
  intros H1 H2. destruct (nth_error_Some_ex (Lp o) (i:=d)) as ((i & j) & E); [rewrite Lp_length by auto; auto|]. exists i, j. split; auto.
  unfold Lp in E. destruct (parts o Ho) as (_ & E0 & E1 & E2 & E3). rewrite E0, E1, E2, E3 in E.
  do 4 (rewrite nth_error_app2 in E by (rewrite ?map_length, ?seq_length; cbn [length]; lia); rewrite ?map_length, ?seq_length in E; cbn [length] in E).
  apply nth_error_In, in_flat_map in E. destruct E as (a & Ha & E). apply in_seq in Ha. apply in_map_iff in E. destruct E as (b & E & Hb). apply in_seq in Hb.
  injection E as <- <-. lia.
Qed.

Lemma at_lattice_point P T d i j : at_lattice o P T d (i, j) -> at_point P d (INR j / INR o) (INR i / INR o).
Proof. unfold at_lattice, at_point, TriangleProofs.h. intros (A & B & C & _). rewrite A, B, C. repeat split; field; apply o_neq. Qed.
Lemma ratio_inj a b : INR a / INR o = INR b / INR o -> a = b.
Proof. intros E. apply INR_eq. apply (Rmult_eq_reg_r (/ INR o)); [exact E|]. apply Rinv_neq_0_compat, o_neq. Qed.
End Positions.

Lemma C41_all : forall order, (1 <= order)%nat -> exists data, Tri_Create order = Ok data /\
  let N := ft_NumBasisFunctions data in let n1 := ft_NumDofs1D data in let P := ft_DofPositions data in
  ft_Order data = order /\ (2 * N = (order + 1) * (order + 2))%nat /\ ft_NumDofs0D data = 1%nat /\ n1 = (order - 1)%nat /\
  (3 * ft_NumDofs0D data + 3 * n1 + ft_NumDofs2D data = N)%nat /\ m_rows P = 3%nat /\ m_cols P = N /\
  (forall d, (d < N)%nat -> exists i j, (i + j <= order)%nat /\ at_point P d (INR j / INR order) (INR i / INR order)) /\
  (forall i j, (i + j <= order)%nat -> exists d, (d < N)%nat /\ at_point P d (INR j / INR order) (INR i / INR order) /\
     forall d', (d' < N)%nat -> at_point P d' (INR j / INR order) (INR i / INR order) -> d' = d) /\
  at_point P 0 0 0 /\ at_point P 1 1 0 /\ at_point P 2 0 1 /\
  (forall k, (k < n1)%nat -> let s := INR (S k) / INR order in
     at_point P (3 + k) s 0 /\ at_point P (3 + n1 + k) (1 - s) s /\ at_point P (3 + 2 * n1 + k) 0 (1 - s)) /\
  (forall d, (3 + 3 * n1 <= d)%nat -> (d < N)%nat -> 0 < m_at P 0 d /\ 0 < m_at P 1 d /\ m_at P 0 d + m_at P 1 d < 1).
Proof.
  intros o Ho. destruct (create_ok o Ho) as (data & E & T1 & T2 & T3 & T4 & T5 & T6 & T7 & T8 & T9 & T10). exists data. split; auto. cbv zeta.
  rewrite T1, T2, T3, T5. set (P := ft_DofPositions data) in *. set (T := ft_DofTypes data) in *.
  assert (A : forall d i j, nth_error (Lp o) d = Some (i, j) -> at_point P d (INR j / INR o) (INR i / INR o)).
  { intros d i j H. apply (at_lattice_point o Ho P T). apply (T10 d (i, j) H). }
  pose proof (o_neq o Ho) as On.
  assert (Z0 : INR 0 / INR o = 0) by (unfold Rdiv; cbn; ring).
  assert (Z1 : INR o / INR o = 1) by (field; auto).
  split; [reflexivity|].
  split; [apply NN_double; auto|]. split; [auto|]. split; [auto|]. split; [lia|]. split; [auto|]. split; [auto|].
  split; [|split; [|split; [|split; [|split; [|split]]]]].
  - intros d Hd. destruct (nth_error_Some_ex (Lp o) (i:=d)) as ((i & j) & Ep); [rewrite Lp_length by auto; auto|].
    exists i, j. split; [|apply A; auto]. apply nth_error_In in Ep. apply (Lp_In o Ho) in Ep. auto.
  - intros i j Hij. assert (Hin : In (i, j) (Lp o)) by (apply (Lp_In o Ho); auto). destruct (In_nth_error _ _ Hin) as (d & Ed).
    exists d. split; [apply nth_error_lt in Ed; rewrite Lp_length in Ed; auto|]. split; [apply A; auto|].
    intros d' Hd' (X & Y & _). destruct (nth_error_Some_ex (Lp o) (i:=d')) as ((i' & j') & Ep); [rewrite Lp_length by auto; auto|].
    destruct (A d' i' j' Ep) as (X' & Y' & _). rewrite X in X'. rewrite Y in Y'. apply ratio_inj in X', Y'; auto. subst i' j'.
    apply (NoDup_nth_error (Lp o)); [apply Lp_NoDup; auto|rewrite Lp_length; auto|]. now rewrite Ep, Ed.
  - destruct (Lp_vertex o) as (H & _). apply A in H. rewrite Z0 in H. auto.
  - destruct (Lp_vertex o) as (_ & H & _). apply A in H. rewrite Z0, Z1 in H. auto.
  - destruct (Lp_vertex o) as (_ & _ & H). apply A in H. rewrite Z0, Z1 in H. auto.
  - intros k Hk. destruct (Lp_edge o Ho k Hk) as (H1 & H2 & H3). apply A in H1, H2, H3. rewrite Z0 in *.
    assert (EQ : INR (o - 1 - k) / INR o = 1 - INR (S k) / INR o).
    { rewrite !minus_INR by lia. rewrite (S_INR k). change (INR 1) with 1. field. auto. }
    rewrite EQ in *. auto.
  - intros d H1 H2. destruct (Lp_interior o Ho d H1 H2) as (i & j & Ep & Hi & Hj & Hs). destruct (A d i j Ep) as (-> & -> & _).
    assert (0 < INR o) by (apply lt_0_INR; lia).
    assert (Q : 0 < / INR o) by (now apply Rinv_0_lt_compat).
    assert (0 < INR i) by (apply lt_0_INR; lia). assert (0 < INR j) by (apply lt_0_INR; lia). apply lt_INR in Hs. rewrite plus_INR in Hs.
    repeat split; try (unfold Rdiv; apply Rmult_lt_0_compat; auto).
    replace (INR j / INR o + INR i / INR o) with ((INR i + INR j) * / INR o) by (field; auto). replace 1 with (INR o * / INR o) by (field; auto).
    apply Rmult_lt_compat_r; auto.
Qed.

(** C42 *)
Lemma C42_nodal_all : forall order data, (1 <= order)%nat -> Tri_Create order = Ok data ->
  let N := ft_NumBasisFunctions data in
  exists V, Tri_Values (ft_DofPositions data) data = Ok V /\ m_rows V = N /\ m_cols V = N /\
    forall i j, (i < N)%nat -> (j < N)%nat -> m_at V j i = kron i j.
Proof.
  intros o data Ho E. pose proof (created_ok o data Ho E) as T. destruct (tvalues_ok o Ho data (ft_DofPositions data) T) as (V & EV & V1 & V2 & V3).
  { destruct T as (_ & _ & _ & _ & _ & -> & _). lia. }
  pose proof T as (T1 & T2 & T3 & T4 & T5 & T6 & T7 & T8 & T9 & T10). cbv zeta. rewrite T5.
  exists V. rewrite T7 in V1. repeat split; auto. intros a b Ha Hb.
  destruct (nth_error_Some_ex (Lp o) (i:=a)) as ((i & j) & Ea); [rewrite Lp_length by auto; auto|].
  destruct (nth_error_Some_ex (Lp o) (i:=b)) as ((i' & j') & Eb); [rewrite Lp_length by auto; auto|].
  rewrite (V3 b a _ Ea). destruct (T10 b _ Eb) as (X & Y & _). rewrite X, Y. unfold TriangleProofs.h.
  rewrite phi_nodal; auto.
  2: { apply nth_error_In in Ea. apply (Lp_In o Ho) in Ea. auto. }
  2: { apply nth_error_In in Eb. apply (Lp_In o Ho) in Eb. auto. }
  unfold kron. destruct (Nat.eqb_spec a b) as [->|Nab].
  - rewrite Ea in Eb. injection Eb as <- <-. now rewrite !Nat.eqb_refl.
  - destruct (Nat.eqb_spec i i') as [->|]; [destruct (Nat.eqb_spec j j') as [->|]|]; auto. exfalso. apply Nab.
    apply (NoDup_nth_error (Lp o)); [apply Lp_NoDup; auto|rewrite Lp_length; auto|]. now rewrite Ea, Eb.
Qed.

Lemma C42_reproduces_all : forall order data points c, (1 <= order)%nat -> Tri_Create order = Ok data -> (2 <= m_rows points)%nat ->
  let N := ft_NumBasisFunctions data in
  exists V, Tri_Values points data = Ok V /\ m_rows V = m_cols points /\ m_cols V = N /\
    forall q, (q < m_cols points)%nat ->
      rsum N (fun i => poly2 order c (m_at (ft_DofPositions data) 0 i) (m_at (ft_DofPositions data) 1 i) * m_at V q i) =
      poly2 order c (m_at points 0 q) (m_at points 1 q).
Proof.
  intros o data points c Ho E HP. pose proof (created_ok o data Ho E) as T. destruct (tvalues_ok o Ho data points T HP) as (V & EV & V1 & V2 & V3).
  pose proof T as (T1 & T2 & T3 & T4 & T5 & T6 & T7 & T8 & T9 & T10). cbv zeta. rewrite T5. exists V. repeat split; auto.
  intros q Hq. rewrite (rsum_Lp o Ho _ (fun p => poly2 o c (INR (snd p) * (1 / INR o)) (INR (fst p) * (1 / INR o)) * phi o p (m_at points 0 q) (m_at points 1 q))).
  - cbn [fst snd]. rewrite <- (interp_poly2 o Ho c (m_at points 0 q) (m_at points 1 q)). reflexivity.
  - intros d (i & j) Hp. rewrite (V3 q d _ Hp). destruct (T10 d _ Hp) as (-> & -> & _). reflexivity.
Qed.

Lemma poly2_const n x y : poly2 n (fun a b => match a, b with O, O => 1 | _, _ => 0 end) x y = 1.
Proof.
  unfold poly2. rewrite rsum_S_l, (rsum_0 n). 2: { intros. apply rsum_0. intros. ring. }
  rewrite rsum_S_l, rsum_0. 2: { intros. ring. } cbn. ring.
Qed.
Lemma C42_unity_all : forall order data points, Tri_Create order = Ok data -> (2 <= m_rows points)%nat ->
  exists V, Tri_Values points data = Ok V /\ m_rows V = m_cols points /\ m_cols V = ft_NumBasisFunctions data /\
    forall q, (q < m_cols points)%nat -> rsum (ft_NumBasisFunctions data) (fun i => m_at V q i) = 1.
Proof.
  intros [|o] data points E HP.
  - cbn in E. injection E as <-. cbn. eexists. split; [reflexivity|]. cbn. repeat split. intros. ring.
  - destruct (C42_reproduces_all (S o) data points (fun a b => match a, b with O, O => 1 | _, _ => 0 end) ltac:(lia) E HP) as (V & EV & V1 & V2 & V3).
    exists V. repeat split; auto. intros q Hq. specialize (V3 q Hq). rewrite poly2_const in V3. rewrite <- V3. apply rsum_ext. intros. rewrite poly2_const. ring.
Qed.

(** C43 *)
Definition valf (data : Tri_Data) (p : point) : Mat := match Tri_Values (space_point p) data with Ok V => V | _ => mzero 0 0 end.
Definition derf (data : Tri_Data) (k : nat) (p : point) : Mat := match Tri_Derivatives (space_point p) data with Ok D => nth k D (mzero 0 0) | _ => mzero 0 0 end.

Lemma valf_ok o data : (1 <= o)%nat -> tri_ok o data -> forall p, Tri_Values (space_point p) data = Ok (valf data p) /\
  forall d c, nth_error (Lp o) d = Some c -> m_at (valf data p) 0 d = phi o c (p 0%nat) (p 1%nat).
Proof.
  intros Ho T p. unfold valf. destruct (tvalues_ok o Ho data (space_point p) T ltac:(cbn; lia)) as (V & E & _ & _ & H). rewrite E. split; auto. intros d c Hc. now rewrite (H 0%nat d c Hc).
Qed.
Lemma derf_ok o data : (1 <= o)%nat -> tri_ok o data -> forall p, Tri_Derivatives (space_point p) data = Ok [derf data 0 p; derf data 1 p] /\
  forall d c, nth_error (Lp o) d = Some c -> m_at (derf data 0 p) 0 d = dphi o fst c (p 0%nat) (p 1%nat) /\ m_at (derf data 1 p) 0 d = dphi o snd c (p 0%nat) (p 1%nat).
Proof.
  intros Ho T p. unfold derf. destruct (tderivatives_ok o Ho data (space_point p) T ltac:(cbn; lia)) as (D0 & D1 & E & _ & _ & _ & _ & H). rewrite E. split; auto.
  intros d c Hc. cbn [nth]. destruct (H 0%nat d c Hc). auto.
Qed.

Lemma partial_phi o i j x : (1 <= o)%nat -> (i + j <= o)%nat ->
  is_partial (fun p => phi o (i, j) (p 0%nat) (p 1%nat)) 0 x (dphi o fst (i, j) (x 0%nat) (x 1%nat)) /\
  is_partial (fun p => phi o (i, j) (p 0%nat) (p 1%nat)) 1 x (dphi o snd (i, j) (x 0%nat) (x 1%nat)).
Proof.
  intros Ho H. split; unfold is_partial, setc; cbn [Nat.eqb].
  - pose proof (dphi_line o Ho i j 0 1 (x 1%nat) 0 (x 0%nat) H) as D.
    replace (0 + x 0%nat * 1) with (x 0%nat) in D by ring. replace (x 1%nat + x 0%nat * 0) with (x 1%nat) in D by ring.
    rewrite Rmult_1_l, Rmult_0_l, Rplus_0_r in D. eapply dpl_ext; [|exact D]. intros s. cbv beta. f_equal; ring.
  - pose proof (dphi_line o Ho i j (x 0%nat) 0 0 1 (x 1%nat) H) as D.
    replace (0 + x 1%nat * 1) with (x 1%nat) in D by ring. replace (x 0%nat + x 1%nat * 0) with (x 0%nat) in D by ring.
    rewrite Rmult_1_l, Rmult_0_l, Rplus_0_l in D. eapply dpl_ext; [|exact D]. intros s. cbv beta. f_equal; ring.
Qed.
Lemma is_partial_ext f g d x L : (forall p, f p = g p) -> is_partial f d x L -> is_partial g d x L.
Proof. intros E H. unfold is_partial in *. eapply dpl_ext; [|exact H]. intros; apply E. Qed.

Lemma C43_all : forall order data, Tri_Create order = Ok data -> exists V : point -> Mat,
  (forall p, Tri_Values (space_point p) data = Ok (V p)) /\
  forall points, (2 <= m_rows points)%nat -> exists D0 D1, Tri_Derivatives points data = Ok [D0; D1] /\
    m_rows D0 = m_cols points /\ m_cols D0 = ft_NumBasisFunctions data /\ m_rows D1 = m_cols points /\ m_cols D1 = ft_NumBasisFunctions data /\
    forall q i, (q < m_cols points)%nat -> (i < ft_NumBasisFunctions data)%nat ->
      is_partial (fun p => m_at (V p) 0 i) 0 (pt points q) (m_at D0 q i) /\ is_partial (fun p => m_at (V p) 0 i) 1 (pt points q) (m_at D1 q i).
Proof.
  intros [|o] data E.
  - cbn in E. injection E as <-. cbn. exists (fun _ => {| m_rows := 1; m_cols := 1; m_at := fun _ _ => 1 |}). split; auto. intros points HP.
    eexists _, _. split; [reflexivity|]. cbn. repeat split; unfold is_partial; apply derivable_pt_lim_const.
  - pose proof (created_ok (S o) data ltac:(lia) E) as T. set (o' := S o) in *. assert (Ho : (1 <= o')%nat) by lia. clearbody o'. clear o. rename o' into o.
    exists (valf data). split; [intros p; apply (valf_ok o); auto|].
    intros points HP. destruct (tderivatives_ok o Ho data points T HP) as (D0 & D1 & ED & R1 & R2 & R3 & R4 & H).
    pose proof T as (T1 & T2 & T3 & T4 & T5 & T6 & T7 & T8 & T9 & T10). rewrite T5.
    exists D0, D1. split; [auto|]. do 4 (split; [auto|]). intros q d Hq Hd. destruct (nth_error_Some_ex (Lp o) (i:=d)) as ((i & j) & Ep); [rewrite Lp_length by auto; auto|].
    destruct (H q d _ Ep) as (-> & ->).
    assert (Hij : (i + j <= o)%nat) by (apply nth_error_In in Ep; apply (Lp_In o Ho) in Ep; auto).
    destruct (partial_phi o i j (pt points q) Ho Hij) as (A & B).
    split; (eapply is_partial_ext; [|first [exact A|exact B]]); intros p; cbv beta; symmetry; apply (valf_ok o); auto.
Qed.

(** C44 *)
Lemma der_quad f s0 L : (forall s, f s = f s0 + L * (s - s0) + (f 1 + f (-1) - 2 * f 0) / 2 * ((s - s0) * (s - s0))) -> derivable_pt_lim f s0 L.
Proof.
  intros H. set (c := (f 1 + f (-1) - 2 * f 0) / 2) in H. intros eps He.
  assert (Hd : 0 < eps / (Rabs c + 1)). { apply Rdiv_lt_0_compat; auto. pose proof (Rabs_pos c). lra. }
  exists (mkposreal _ Hd). intros k Hk Hk'. cbn in Hk'. rewrite (H (s0 + k)).
  replace ((f s0 + L * (s0 + k - s0) + c * ((s0 + k - s0) * (s0 + k - s0)) - f s0) / k - L) with (c * k) by (field; auto).
  rewrite Rabs_mult. pose proof (Rabs_pos c). pose proof (Rabs_pos k).
  apply Rle_lt_trans with ((Rabs c + 1) * Rabs k); [nra|].
  replace eps with ((Rabs c + 1) * (eps / (Rabs c + 1))) by (field; lra). apply Rmult_lt_compat_l; lra.
Qed.

Definition second_ok (data : Tri_Data) : Prop := forall points, (2 <= m_rows points)%nat -> exists S0 S1 S2 S3,
  Tri_SecondDerivatives points data = Ok [S0; S1; S2; S3] /\
  Forall (fun M => m_rows M = m_cols points /\ m_cols M = ft_NumBasisFunctions data) [S0; S1; S2; S3] /\
  forall q i, (q < m_cols points)%nat -> (i < ft_NumBasisFunctions data)%nat ->
    is_partial (fun p => m_at (derf data 0 p) 0 i) 0 (pt points q) (m_at S0 q i) /\ is_partial (fun p => m_at (derf data 0 p) 0 i) 1 (pt points q) (m_at S1 q i) /\
    is_partial (fun p => m_at (derf data 1 p) 0 i) 0 (pt points q) (m_at S2 q i) /\ is_partial (fun p => m_at (derf data 1 p) 0 i) 1 (pt points q) (m_at S3 q i).

(** reduces to the functions dphi *)
Lemma second_dphi o data : (1 <= o)%nat -> tri_ok o data -> forall d c x (L0 L1 L2 L3 : R), nth_error (Lp o) d = Some c ->
  derivable_pt_lim (fun t => dphi o fst c t (x 1%nat)) (x 0%nat) L0 -> derivable_pt_lim (fun t => dphi o fst c (x 0%nat) t) (x 1%nat) L1 ->
  derivable_pt_lim (fun t => dphi o snd c t (x 1%nat)) (x 0%nat) L2 -> derivable_pt_lim (fun t => dphi o snd c (x 0%nat) t) (x 1%nat) L3 ->
    is_partial (fun p => m_at (derf data 0 p) 0 d) 0 x L0 /\ is_partial (fun p => m_at (derf data 0 p) 0 d) 1 x L1 /\
    is_partial (fun p => m_at (derf data 1 p) 0 d) 0 x L2 /\ is_partial (fun p => m_at (derf data 1 p) 0 d) 1 x L3.
Proof.
  intros Ho T d c x L0 L1 L2 L3 Hc A B C D. unfold is_partial.
  split; [|split; [|split]]; (eapply dpl_ext; [|first [exact A|exact B|exact C|exact D]]); intros s; cbv beta; symmetry;
    match goal with |- m_at (derf data ?k ?p) 0 d = _ => destruct (derf_ok o data Ho T p) as (_ & H); destruct (H d c Hc) as (H1 & H2) end; first [exact H1|exact H2].
Qed.

Ltac second_case := apply der_quad; intros s; unfold dphi, fac, gfac, pne; cbn -[Rdiv Rminus Rplus Rmult Ropp IZR]; field.

Lemma second_1 data : Tri_Create 1 = Ok data -> second_ok data.
Proof.
  intros E. pose proof (created_ok 1 data ltac:(lia) E) as T. pose proof T as (T1 & T2 & T3 & T4 & T5 & _).
  intros points HP. unfold Tri_SecondDerivatives. rewrite T1, T5. cbn [repeat]. eexists _, _, _, _. split; [reflexivity|]. split; [repeat constructor|].
  intros q d Hq Hd. destruct (nth_error_Some_ex (Lp 1) (i:=d)) as (c & Ep); [rewrite Lp_length by auto; auto|]. cbn [mzero m_at].
  change (NN 1) with 3%nat in Hd. destruct d as [|[|[|d]]]; [..|lia]; vm_compute in Ep; injection Ep as <-;
    (eapply (second_dphi 1 data); [lia|exact T|reflexivity|second_case..]).
Qed.
Lemma second_2 data : Tri_Create 2 = Ok data -> second_ok data.
Proof.
  intros E. pose proof (created_ok 2 data ltac:(lia) E) as T. pose proof T as (T1 & T2 & T3 & T4 & T5 & _).
  intros points HP. unfold Tri_SecondDerivatives. rewrite T1, T5. change (NN 2 <? 6)%nat with false. cbv iota. cbn [map seq]. eexists _, _, _, _. split; [reflexivity|]. split; [repeat constructor|].
  intros q d Hq Hd. destruct (nth_error_Some_ex (Lp 2) (i:=d)) as (c & Ep); [rewrite Lp_length by auto; auto|]. cbn [m_at].
  change (NN 2) with 6%nat in Hd. destruct d as [|[|[|[|[|[|d]]]]]]; [..|lia]; vm_compute in Ep; injection Ep as <-; unfold tri_table2; cbn [nth];
    (eapply (second_dphi 2 data); [lia|exact T|reflexivity|second_case..]).
Qed.
Lemma second_3 data : Tri_Create 3 = Ok data -> second_ok data.
Proof.
  intros E. pose proof (created_ok 3 data ltac:(lia) E) as T. pose proof T as (T1 & T2 & T3 & T4 & T5 & _).
  intros points HP. unfold Tri_SecondDerivatives. rewrite T1, T5. unfold mrow. destruct (Nat.ltb_spec 0 (m_rows points)); [|lia]. destruct (Nat.ltb_spec 1 (m_rows points)); [|lia]. cbn [bind].
  change (NN 3 <? 10)%nat with false. cbv iota. cbn [map seq]. eexists _, _, _, _. split; [reflexivity|]. split; [repeat constructor|].
  intros q d Hq Hd. destruct (nth_error_Some_ex (Lp 3) (i:=d)) as (c & Ep); [rewrite Lp_length by auto; auto|]. cbn [m_at].
  change (NN 3) with 10%nat in Hd. change (m_at points 0 q) with (pt points q 0%nat). change (m_at points 1 q) with (pt points q 1%nat).
  destruct d as [|[|[|[|[|[|[|[|[|[|d]]]]]]]]]]; [..|lia]; vm_compute in Ep; injection Ep as <-; unfold tri_table3; cbn [nth];
    (eapply (second_dphi 3 data); [lia|exact T|reflexivity|second_case..]).
Qed.

Lemma second_0 data : Tri_Create 0 = Ok data -> second_ok data.
Proof.
  intros E. cbn in E. injection E as <-. intros points HP. cbn. eexists _, _, _, _. split; [reflexivity|]. split; [repeat constructor|].
  intros q d Hq Hd. destruct d; [|lia]. unfold is_partial, derf. cbn. repeat split; apply derivable_pt_lim_const.
Qed.

Lemma C44_all : forall order data, (order <= 3)%nat -> Tri_Create order = Ok data -> exists D0 D1 : point -> Mat,
  (forall p, Tri_Derivatives (space_point p) data = Ok [D0 p; D1 p]) /\
  forall points, (2 <= m_rows points)%nat -> exists Sxx Sxy Syx Syy,
    Tri_SecondDerivatives points data = Ok [Sxx; Sxy; Syx; Syy] /\
    Forall (fun M => m_rows M = m_cols points /\ m_cols M = ft_NumBasisFunctions data) [Sxx; Sxy; Syx; Syy] /\
    forall q i, (q < m_cols points)%nat -> (i < ft_NumBasisFunctions data)%nat ->
      is_partial (fun p => m_at (D0 p) 0 i) 0 (pt points q) (m_at Sxx q i) /\ is_partial (fun p => m_at (D0 p) 0 i) 1 (pt points q) (m_at Sxy q i) /\
      is_partial (fun p => m_at (D1 p) 0 i) 0 (pt points q) (m_at Syx q i) /\ is_partial (fun p => m_at (D1 p) 0 i) 1 (pt points q) (m_at Syy q i).
Proof.
  intros o data Ho E. exists (derf data 0), (derf data 1). split.
  - intros p. destruct o as [|o]; [cbn in E; injection E as <-; reflexivity|]. apply (derf_ok (S o)); [lia|]. apply created_ok; [lia|auto].
  - destruct o as [|[|[|[|o]]]]; [now apply second_0|now apply second_1|now apply second_2|now apply second_3|lia].
Qed.

Lemma null_derivative f : (forall x, derivable_pt_lim f x 0) -> forall x y, f x = f y.
Proof.
  intros H. assert (pr : derivable f) by (intros x; exists 0; apply H).
  apply (null_derivative_1 f pr). intros x. apply derive_pt_eq_0, H.
Qed.

Lemma C44_refuted : forall order data, (4 <= order)%nat -> Tri_Create order = Ok data -> exists (D0 : point -> Mat) (S : point -> list Mat),
  (forall p, exists D1, Tri_Derivatives (space_point p) data = Ok [D0 p; D1]) /\
  (forall p, Tri_SecondDerivatives (space_point p) data = Ok (S p)) /\
  ~ (forall p, is_partial (fun p => m_at (D0 p) 0 1) 0 p (m_at (nth 0 (S p) (mzero 0 0)) 0 1)).
Proof.
  intros o data Ho E. assert (Ho1 : (1 <= o)%nat) by lia. pose proof (created_ok o data Ho1 E) as T. pose proof T as (T1 & T2 & T3 & T4 & T5 & _).
  exists (derf data 0), (fun p => repeat (mzero 1 (NN o)) 4). split; [|split].
  - intros p. exists (derf data 1 p). now apply (derf_ok o).
  - intros p. unfold Tri_SecondDerivatives. rewrite T1, T5. destruct o as [|[|[|[|o]]]]; try lia. reflexivity.
  - intros H. cbn [nth repeat mzero m_at] in H.
    destruct (Lp_vertex o) as (_ & Ep & _).
    assert (D : forall x y, dphi o fst (0, o)%nat x 0 = dphi o fst (0, o)%nat y 0).
    { apply null_derivative. intros x. specialize (H (fun d => if (d =? 0)%nat then x else 0)). unfold is_partial in H. cbn [Nat.eqb] in H.
      eapply dpl_ext; [|exact H]. intros s. cbv beta. destruct (derf_ok o data Ho1 T (setc (fun d => if (d =? 0)%nat then x else 0) 0 s)) as (_ & X). apply (X _ _ Ep). }
    set (c := dphi o fst (0, o)%nat 0 0) in *.
    assert (F : forall x y, phi o (0, o)%nat x 0 - c * x = phi o (0, o)%nat y 0 - c * y).
    { apply null_derivative. intros x. pose proof (partial_phi o 0 o (fun d => if (d =? 0)%nat then x else 0) Ho1 ltac:(lia)) as (P & _). unfold is_partial, setc in P. cbn [Nat.eqb] in P.
      rewrite (D x 0) in P. fold c in P.
      pose proof (derivable_pt_lim_minus _ _ _ _ _ P (derivable_pt_lim_scal _ c _ _ (derivable_pt_lim_id x))) as Q. unfold minus_fct, mult_real_fct, id in Q.
      replace (c - c * 1) with 0 in Q by ring. exact Q. }
    assert (On := o_neq o Ho1).
    assert (V : forall k, phi o (0, o)%nat (INR k / INR o) 0 = gb (INR k) o).
    { intros k. unfold phi. cbn [fst snd]. replace (o - 0 - o)%nat with 0%nat by lia. rewrite !gb_O. replace (INR o * (INR k / INR o)) with (INR k) by (field; auto). ring. }
    pose proof (F (INR 0 / INR o) (INR 1 / INR o)) as A. rewrite !V in A. rewrite !gb_lt in A by lia.
    assert (C0 : c = 0).
    { change (INR 0) with 0 in A. change (INR 1) with 1 in A. assert (X : c * (1 / INR o) = 0) by (replace (c * (1 / INR o)) with (0 - c * (0 / INR o) - (0 - c * (1 / INR o)) ) by (field; auto); lra).
      apply Rmult_integral in X. destruct X as [|X]; auto. exfalso. apply (Rinv_neq_0_compat _ On). lra. }
    pose proof (F (INR 0 / INR o) (INR o / INR o)) as B. rewrite !V, gb_diag, gb_lt, C0 in B by lia. lra.
Qed.
