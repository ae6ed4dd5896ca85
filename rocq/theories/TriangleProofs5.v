From Coq Require Import List Arith Bool Lia ZArith Reals Lra Permutation.
From Verif Require Import Base RSum MatrixModel MonomialsModel MonomialsSpec GBasisModel GBasisProofs LagrangeModel LagrangeSpec LagrangeProofs
  RBinom TriangleModel TriangleSpec TriangleProofs TriangleProofs2 TriangleProofs3 TriangleProofs4.
Import ListNotations.
Local Open Scope R_scope.

Lemma counts' o data : (1 <= o)%nat -> Tri_Create o = Ok data ->
  ft_NumDofs0D data = 1%nat /\ ft_NumDofs1D data = (o - 1)%nat /\ ft_NumBasisFunctions data = NN o /\ (3 + 3 * (o - 1) <= NN o)%nat.
Proof. intros Ho E. apply (counts o data [true; true; true] Ho E). cbn. lia. Qed.

(** C45: positions and shared edges *)
Lemma C45_edges_all : forall order data dir m l, (1 <= order)%nat -> Tri_Create order = Ok data -> (3 <= length dir)%nat -> in_range data ->
  Tri_CreateLocalSpace data 3 dir m = Ok l ->
  forall e k c, (e < 3)%nat -> (k < ft_NumDofs1D data)%nat -> (c < 3)%nat ->
    let A := (if nth e dir true then e else (e + 1) mod 3)%nat in let Z := (if nth e dir true then (e + 1) mod 3 else e)%nat in
    let s := INR (S k) / INR order in
    m_at (lt_Dofs l) c (3 + e * ft_NumDofs1D data + k) = (1 - s) * m_at (lt_Dofs l) c A + s * m_at (lt_Dofs l) c Z.
Proof.
  intros o data dir m l Ho E Hd HR EL e k c He Hk Hc. destruct (counts' o data Ho E) as (C0 & C1 & _). rewrite C1 in *. cbv zeta. apply (edge_dofs o data dir m l); auto.
Qed.

Lemma C45_local_nodal_all : forall order data dir m l, (1 <= order)%nat -> Tri_Create order = Ok data -> (3 <= length dir)%nat -> in_range data ->
  inverse3 (mt_B m) (mt_BInv m) -> Tri_CreateLocalSpace data 3 dir m = Ok l ->
  exists V, Tri_LocalValues data l (lt_Dofs l) = Ok V /\ m_rows V = ft_NumBasisFunctions data /\ m_cols V = ft_NumBasisFunctions data /\
    forall i j, (i < ft_NumBasisFunctions data)%nat -> (j < ft_NumBasisFunctions data)%nat -> m_at V j i = kron i j.
Proof.
  intros o data dir m l Ho E Hd HR HI EL. destruct (local_values_ok o data dir m l (lt_Dofs l) Ho E Hd HR EL) as (V & EV & V1 & V2 & V3).
  destruct (local_ok o data dir m E Hd HR) as (l' & EL' & M1 & M2 & M3 & M4 & M5 & M6 & M7 & M8 & M9). rewrite EL in EL'. injection EL' as <-.
  exists V. rewrite M8 in V1. repeat split; auto. intros i j Hi Hj.
  destruct (created_ok o data Ho E) as (T1 & T2 & T3 & T4 & T5 & T6 & T7 & T8 & T9 & T10).
  destruct (nth_error_Some_ex (Lp o) (i:=sig data dir i)) as ((a & b) & Ei). { rewrite Lp_length by auto. rewrite <- T5. apply M6; auto. }
  destruct (nth_error_Some_ex (Lp o) (i:=sig data dir j)) as ((a' & b') & Ej). { rewrite Lp_length by auto. rewrite <- T5. apply M6; auto. }
  rewrite (V3 j i _ Hi Ei).
  rewrite !(FInv_F m (pt (ft_DofPositions data) (sig data dir j)) (lt_Dofs l) j HI) by (auto; intros; apply M9; auto).
  unfold pt. destruct (T10 _ _ Ej) as (-> & -> & _). unfold TriangleProofs.h. rewrite phi_nodal; auto.
  2: { apply nth_error_In in Ei. apply (Lp_In o Ho) in Ei. auto. }
  2: { apply nth_error_In in Ej. apply (Lp_In o Ho) in Ej. auto. }
  unfold kron. destruct (Nat.eqb_spec i j) as [->|Nij].
  - rewrite Ei in Ej. injection Ej as <- <-. now rewrite !Nat.eqb_refl.
  - destruct (Nat.eqb_spec a a') as [->|]; [destruct (Nat.eqb_spec b b') as [->|]|]; auto. exfalso. apply Nij.
    assert (Q : sig data dir i = sig data dir j).
    { apply (NoDup_nth_error (Lp o)); [apply Lp_NoDup; auto|rewrite Lp_length, <- T5; auto; apply M6; auto|]. now rewrite Ei, Ej. }
    unfold sig in Q. rewrite <- (sigma_invol (ft_NumDofs0D data) (ft_NumDofs1D data) dir i), Q. apply sigma_invol.
Qed.

(** C61: continuity across an edge *)
Lemma C61_all : forall order data dir1 dir2 m1 m2 l1 l2 e1 e2 u1 u2, (1 <= order)%nat -> Tri_Create order = Ok data -> in_range data ->
  (3 <= length dir1)%nat -> (3 <= length dir2)%nat -> inverse3 (mt_B m1) (mt_BInv m1) -> inverse3 (mt_B m2) (mt_BInv m2) ->
  Tri_CreateLocalSpace data 3 dir1 m1 = Ok l1 -> Tri_CreateLocalSpace data 3 dir2 m2 = Ok l2 -> (e1 < 3)%nat -> (e2 < 3)%nat ->
  let A1 := (if nth e1 dir1 true then e1 else (e1 + 1) mod 3)%nat in let Z1 := (if nth e1 dir1 true then (e1 + 1) mod 3 else e1)%nat in
  let A2 := (if nth e2 dir2 true then e2 else (e2 + 1) mod 3)%nat in let Z2 := (if nth e2 dir2 true then (e2 + 1) mod 3 else e2)%nat in
  (forall c, (c < 3)%nat -> m_at (lt_Dofs l1) c A1 = m_at (lt_Dofs l2) c A2 /\ m_at (lt_Dofs l1) c Z1 = m_at (lt_Dofs l2) c Z2) ->
  u1 A1 = u2 A2 -> u1 Z1 = u2 Z2 -> (forall k, (k < ft_NumDofs1D data)%nat -> u1 (3 + e1 * ft_NumDofs1D data + k)%nat = u2 (3 + e2 * ft_NumDofs1D data + k)%nat) ->
  forall (s : R) (p : point), (forall c, (c < 3)%nat -> p c = (1 - s) * m_at (lt_Dofs l1) c A1 + s * m_at (lt_Dofs l1) c Z1) ->
  exists V1 V2, Tri_LocalValues data l1 (space_point p) = Ok V1 /\ Tri_LocalValues data l2 (space_point p) = Ok V2 /\
    rsum (ft_NumBasisFunctions data) (fun d => u1 d * m_at V1 0 d) = rsum (ft_NumBasisFunctions data) (fun d => u2 d * m_at V2 0 d).
Proof.
  intros o data dir1 dir2 m1 m2 l1 l2 e1 e2 u1 u2 Ho E HR Hd1 Hd2 HI1 HI2 EL1 EL2 He1 He2 A1 Z1 A2 Z2 HG HA HZ HK s p Hp.
  destruct (counts' o data Ho E) as (C0 & C1 & C2 & _). rewrite C1 in *.
  destruct (values_sum o data dir1 m1 l1 Ho E Hd1 HR EL1 HI1 e1 s u1 He1) as (V1 & EV1 & S1).
  destruct (values_sum o data dir2 m2 l2 Ho E Hd2 HR EL2 HI2 e2 s u2 He2) as (V2 & EV2 & S2).
  (* the model reads only the first three coordinates *)
  assert (X : forall l m q, lt_Map l = m -> (forall c, (c < 3)%nat -> p c = q c) -> forall V, Tri_LocalValues data l (space_point q) = Ok V -> exists V', Tri_LocalValues data l (space_point p) = Ok V' /\ forall d, (d < ft_NumBasisFunctions data)%nat -> m_at V' 0 d = m_at V 0 d).
  { intros l m q _ Hq V EV. unfold Tri_LocalValues in *. 
    destruct (created_ok o data Ho E) as (T1 & T2 & T3 & T4 & T5 & T6 & T7 & T8 & T9 & T10). set (data' := data) in *.
    pose proof (created_ok o data Ho E) as T.
    destruct (tvalues_ok o Ho data (mt_FInv (lt_Map l) (space_point q)) T ltac:(cbn; lia)) as (W & EW & W1 & W2 & W3). fold data' in EW. rewrite EW in EV. cbn [bind] in EV.
    destruct (tvalues_ok o Ho data (mt_FInv (lt_Map l) (space_point p)) T ltac:(cbn; lia)) as (W' & EW' & W1' & W2' & W3'). fold data' in EW'. rewrite EW'. cbn [bind].
    unfold gather in *. rewrite W2 in EV. rewrite W2'. destruct (forallb _ _) eqn:FB; [|discriminate]. injection EV as <-. eexists. split; [reflexivity|]. cbn [m_at].
    intros d Hd. set (t := nth d (lt_DofsMeshOrder l) 0%nat).
    assert (Ht : (t < NN o)%nat). { unfold t. destruct (Nat.lt_ge_cases d (length (lt_DofsMeshOrder l))). - rewrite forallb_forall in FB. apply Nat.ltb_lt, FB, nth_In. auto. - rewrite nth_overflow by auto. unfold data' in *. lia. }
    destruct (nth_error_Some_ex (Lp o) (i:=t)) as (c & Ec); [rewrite Lp_length by auto; auto|]. rewrite (W3 0%nat t c Ec), (W3' 0%nat t c Ec).
    assert (Y : forall i, m_at (mt_FInv (lt_Map l) (space_point p)) i 0 = m_at (mt_FInv (lt_Map l) (space_point q)) i 0).
    { intros i. cbn [mt_FInv m_at space_point]. apply rsum_ext. intros k Hk. now rewrite Hq. }
    now rewrite !Y. }
  destruct (X l1 _ _ eq_refl Hp V1 EV1) as (W1 & EW1 & H1).
  assert (Hp2 : forall c, (c < 3)%nat -> p c = (1 - s) * m_at (lt_Dofs l2) c (start dir2 e2) + s * m_at (lt_Dofs l2) c (stop dir2 e2)).
  { intros c Hc. rewrite Hp by auto. destruct (HG c Hc) as (-> & ->). reflexivity. }
  destruct (X l2 _ _ eq_refl Hp2 V2 EV2) as (W2 & EW2 & H2).
  exists W1, W2. split; [auto|]. split; [auto|].
  rewrite (rsum_ext _ _ (fun d => u1 d * m_at V1 0 d)) by (intros; rewrite H1 by auto; auto).
  rewrite (rsum_ext _ (fun d => u2 d * m_at W2 0 d) (fun d => u2 d * m_at V2 0 d)) by (intros; rewrite H2 by auto; auto).
  rewrite S1, S2. unfold start, stop. fold A1 Z1 A2 Z2. rewrite HA, HZ. f_equal. apply rsum_ext. intros k Hk. now rewrite HK.
Qed.

(** C43 on the physical triangle *)
Definition lvalf (data : Tri_Data) (l : Tri_Local) (p : point) : Mat := match Tri_LocalValues data l (space_point p) with Ok V => V | _ => mzero 0 0 end.
Definition RX (m : MapTriangleData) (i : nat) (p : point) : R := rsum 3 (fun k => mt_BInv m i k * (p k - mt_b m k)).

Section Local.
Variables (o : nat) (data : Tri_Data) (dir : list bool) (m : MapTriangleData) (l : Tri_Local).
Hypotheses (Ho : (1 <= o)%nat) (E : Tri_Create o = Ok data) (Hdir : (3 <= length dir)%nat) (HR : in_range data) (EL : Tri_CreateLocalSpace data 3 dir m = Ok l).

Lemma lvalf_ok p : Tri_LocalValues data l (space_point p) = Ok (lvalf data l p) /\
  forall d c, (d < ft_NumBasisFunctions data)%nat -> nth_error (Lp o) (sig data dir d) = Some c -> m_at (lvalf data l p) 0 d = phi o c (RX m 0 p) (RX m 1 p).
Proof.
  unfold lvalf. destruct (local_values_ok o data dir m l (space_point p) Ho E Hdir HR EL) as (V & EV & _ & _ & H). rewrite EV. split; auto.
  intros d c Hd Hc. rewrite (H 0%nat d c Hd Hc). reflexivity.
Qed.

Lemma RX_setc i x d t : (d < 3)%nat -> RX m i (setc x d t) = RX m i (setc x d 0) + t * mt_BInv m i d.
Proof. clear Ho E Hdir HR EL. intros H. unfold RX, setc. destruct d as [|[|[|d]]]; [| | |lia]; cbn [rsum Nat.eqb]; ring. Qed.
Lemma setc_self x d k : setc x d (x d) k = x k.
Proof. unfold setc. destruct (Nat.eqb_spec k d) as [->|]; auto. Qed.
Lemma RX_ext i x y : (forall k, x k = y k) -> RX m i x = RX m i y.
Proof. intros H. unfold RX. apply rsum_ext. intros. now rewrite H. Qed.

(** derivative of a function of the reference coordinates with known directional derivative *)
Lemma chain F (F0 F1 : R -> R -> R) d x : (d < 3)%nat ->
  (forall x u y v s, derivable_pt_lim (fun s => F (x + s * u) (y + s * v)) s (u * F0 (x + s * u) (y + s * v) + v * F1 (x + s * u) (y + s * v))) ->
  is_partial (fun p => F (RX m 0 p) (RX m 1 p)) d x (mt_BInv m 0 d * F0 (RX m 0 x) (RX m 1 x) + mt_BInv m 1 d * F1 (RX m 0 x) (RX m 1 x)).
Proof.
  clear Ho E Hdir HR EL. intros Hd H. unfold is_partial.
  specialize (H (RX m 0 (setc x d 0)) (mt_BInv m 0 d) (RX m 1 (setc x d 0)) (mt_BInv m 1 d) (x d)).
  rewrite <- !RX_setc in H by auto. rewrite !(RX_ext _ (setc x d (x d)) x) in H by (intros; apply setc_self).
  eapply dpl_ext; [|exact H]. intros s. cbv beta. now rewrite <- !RX_setc.
Qed.

Lemma local_partial i x d : (i < ft_NumBasisFunctions data)%nat -> (d < 3)%nat -> forall c, nth_error (Lp o) (sig data dir i) = Some c ->
  is_partial (fun p => m_at (lvalf data l p) 0 i) d x (mt_BInv m 0 d * dphi o fst c (RX m 0 x) (RX m 1 x) + mt_BInv m 1 d * dphi o snd c (RX m 0 x) (RX m 1 x)).
Proof.
  intros Hi Hd c Hc. eapply is_partial_ext; [intros p; symmetry; apply (proj2 (lvalf_ok p) i c Hi Hc)|].
  apply (chain (phi o c)); auto. intros. destruct c as [a b]. apply dphi_line; auto. apply nth_error_In in Hc. apply (Lp_In o Ho) in Hc. auto.
Qed.

Lemma local_derivatives_ok points : exists D0 D1, Tri_LocalDerivatives data l points = Ok [D0; D1] /\
  m_rows D0 = m_cols points /\ m_cols D0 = ft_NumBasisFunctions data /\ m_rows D1 = m_cols points /\ m_cols D1 = ft_NumBasisFunctions data /\
  forall q i c, (i < ft_NumBasisFunctions data)%nat -> nth_error (Lp o) (sig data dir i) = Some c ->
    m_at D0 q i = mt_BInv m 0 0 * dphi o fst c (RX m 0 (pt points q)) (RX m 1 (pt points q)) + mt_BInv m 1 0 * dphi o snd c (RX m 0 (pt points q)) (RX m 1 (pt points q)) /\
    m_at D1 q i = mt_BInv m 0 1 * dphi o fst c (RX m 0 (pt points q)) (RX m 1 (pt points q)) + mt_BInv m 1 1 * dphi o snd c (RX m 0 (pt points q)) (RX m 1 (pt points q)).
Proof.
  destruct (local_ok o data dir m E Hdir HR) as (l' & EL' & M1 & M2 & M3 & M4 & M5 & M6 & _). rewrite EL in EL'. injection EL' as <-.
  pose proof (created_ok o data Ho E) as T. pose proof T as (_ & _ & _ & _ & T5 & _).
  unfold Tri_LocalDerivatives. rewrite M1. destruct (tderivatives_ok o Ho data (mt_FInv m points) T ltac:(cbn; lia)) as (D0 & D1 & ED & R1 & R2 & R3 & R4 & H). rewrite ED. cbn [bind at_ nth_error].
  unfold madd. cbn [mscal m_rows m_cols]. rewrite R1, R2, R3, R4, !Nat.eqb_refl. cbn [andb bind].
  assert (G : forall d, (d < length (lt_DofsMeshOrder l))%nat -> (nth d (lt_DofsMeshOrder l) 0 < NN o)%nat).
  { intros d Hd. rewrite M3 in Hd. destruct (M6 d Hd) as (-> & H'). lia. }
  rewrite gather_ok by (cbn [m_cols]; auto). cbn [bind]. rewrite gather_ok by (cbn [m_cols]; auto). cbn [bind].
  eexists _, _. split; [reflexivity|]. cbn [m_rows m_cols m_at mscal]. do 4 (split; [auto|]). intros q i c Hi Hc. destruct (M6 i Hi) as (-> & _). destruct (H q _ c Hc) as (-> & ->). split; reflexivity.
Qed.

Lemma local_gradient : forall points, exists D0 D1, Tri_LocalDerivatives data l points = Ok [D0; D1] /\
    m_rows D0 = m_cols points /\ m_cols D0 = ft_NumBasisFunctions data /\ m_rows D1 = m_cols points /\ m_cols D1 = ft_NumBasisFunctions data /\
    forall q i, (q < m_cols points)%nat -> (i < ft_NumBasisFunctions data)%nat ->
      is_partial (fun p => m_at (lvalf data l p) 0 i) 0 (pt points q) (m_at D0 q i) /\ is_partial (fun p => m_at (lvalf data l p) 0 i) 1 (pt points q) (m_at D1 q i).
Proof.
  intros points. destruct (local_derivatives_ok points) as (D0 & D1 & ED & R1 & R2 & R3 & R4 & H). exists D0, D1. do 5 (split; [auto|]).
  intros q i Hq Hi. destruct (counts' o data Ho E) as (_ & _ & C2 & _).
  destruct (local_ok o data dir m E Hdir HR) as (l' & EL' & M1 & M2 & M3 & M4 & M5 & M6 & _).
  destruct (nth_error_Some_ex (Lp o) (i:=sig data dir i)) as (c & Ec). { rewrite Lp_length by auto. rewrite <- C2. apply M6; auto. }
  destruct (H q i c Hi Ec) as (-> & ->). split; apply local_partial; auto.
Qed.

(** ** Laplacian *)
Definition TT (k d : nat) (x y : R) : R :=
  match o with 2%nat => nth k (nth d tri_table2 []) 0 | 3%nat => nth k (nth d (tri_table3 x y) []) 0 | _ => 0 end.
End Local.

Ltac second_line_case := split; apply der_quad; intros s'; unfold dphi, fac, gfac, pne, TT, tri_table2, tri_table3; cbn -[Rdiv Rminus Rplus Rmult Ropp IZR]; field.
Lemma second_line o d c : (1 <= o <= 3)%nat -> nth_error (Lp o) d = Some c -> forall x u y v s,
  derivable_pt_lim (fun s => dphi o fst c (x + s * u) (y + s * v)) s (u * TT o 0 d (x + s * u) (y + s * v) + v * TT o 1 d (x + s * u) (y + s * v)) /\
  derivable_pt_lim (fun s => dphi o snd c (x + s * u) (y + s * v)) s (u * TT o 2 d (x + s * u) (y + s * v) + v * TT o 3 d (x + s * u) (y + s * v)).
Proof.
  intros Ho Ep x u y v s. destruct o as [|[|[|[|o]]]]; try lia.
  - destruct d as [|[|[|d]]]; [..|apply nth_error_lt in Ep; rewrite Lp_length in Ep by lia; change (NN 1) with 3%nat in Ep; lia]; vm_compute in Ep; injection Ep as <-; second_line_case.
  - destruct d as [|[|[|[|[|[|d]]]]]]; [..|apply nth_error_lt in Ep; rewrite Lp_length in Ep by lia; change (NN 2) with 6%nat in Ep; lia]; vm_compute in Ep; injection Ep as <-; second_line_case.
  - destruct d as [|[|[|[|[|[|[|[|[|[|d]]]]]]]]]]; [..|apply nth_error_lt in Ep; rewrite Lp_length in Ep by lia; change (NN 3) with 10%nat in Ep; lia]; vm_compute in Ep; injection Ep as <-; second_line_case.
Qed.

Section Local2.
Variables (o : nat) (data : Tri_Data) (dir : list bool) (m : MapTriangleData) (l : Tri_Local).
Hypotheses (Ho : (1 <= o <= 3)%nat) (E : Tri_Create o = Ok data) (Hdir : (3 <= length dir)%nat) (EL : Tri_CreateLocalSpace data 3 dir m = Ok l).
Hypotheses (P0 : mt_BInv m 0 2 = 0) (P1 : mt_BInv m 1 2 = 0).

Lemma small_range : in_range data.
Proof.
  clear P0 P1 EL Hdir. unfold in_range. destruct (counts' o data ltac:(lia) E) as (_ & _ & -> & _). destruct o as [|[|[|[|o']]]]; try lia; vm_compute; discriminate.
Qed.

Definition BB (a b : nat) : R := rsum 3 (fun k => mt_BInv m a k * mt_BInv m b k).
Definition lapval (d : nat) (x y : R) : R := BB 0 0 * TT o 0 d x y + BB 0 1 * TT o 1 d x y + BB 1 0 * TT o 2 d x y + BB 1 1 * TT o 3 d x y.

Lemma lap_ok i x : (i < ft_NumBasisFunctions data)%nat ->
  is_laplacian 2 (fun p => m_at (lvalf data l p) 0 i) x (lapval (sig data dir i) (RX m 0 x) (RX m 1 x)).
Proof.
  intros Hi. pose proof small_range as HR. destruct (counts' o data ltac:(lia) E) as (_ & _ & C2 & _).
  destruct (local_ok o data dir m E Hdir HR) as (l' & EL' & M1 & M2 & M3 & M4 & M5 & M6 & _).
  destruct (nth_error_Some_ex (Lp o) (i:=sig data dir i)) as (c & Ec). { rewrite Lp_length by lia. rewrite <- C2. apply M6; auto. }
  set (d := sig data dir i) in *.
  exists (fun k y => mt_BInv m 0 k * dphi o fst c (RX m 0 y) (RX m 1 y) + mt_BInv m 1 k * dphi o snd c (RX m 0 y) (RX m 1 y)).
  exists (fun k => mt_BInv m 0 k * (mt_BInv m 0 k * TT o 0 d (RX m 0 x) (RX m 1 x) + mt_BInv m 1 k * TT o 1 d (RX m 0 x) (RX m 1 x)) +
                   mt_BInv m 1 k * (mt_BInv m 0 k * TT o 2 d (RX m 0 x) (RX m 1 x) + mt_BInv m 1 k * TT o 3 d (RX m 0 x) (RX m 1 x))).
  split; [|split].
  - intros k y Hk. apply (local_partial o data dir m l); auto; lia.
  - intros k Hk.
    pose proof (chain m (dphi o fst c) (TT o 0 d) (TT o 1 d) k x ltac:(lia) (fun x u y v s => proj1 (second_line o d c Ho Ec x u y v s))) as A.
    pose proof (chain m (dphi o snd c) (TT o 2 d) (TT o 3 d) k x ltac:(lia) (fun x u y v s => proj2 (second_line o d c Ho Ec x u y v s))) as B.
    unfold is_partial in *. apply (derivable_pt_lim_plus (fun t => mt_BInv m 0 k * _) (fun t => mt_BInv m 1 k * _)).
    + apply (derivable_pt_lim_scal (fun t => dphi o fst c (RX m 0 (setc x k t)) (RX m 1 (setc x k t)))). exact A.
    + apply (derivable_pt_lim_scal (fun t => dphi o snd c (RX m 0 (setc x k t)) (RX m 1 (setc x k t)))). exact B.
  - unfold lapval, BB. cbn [rsum]. rewrite P0, P1. ring.
Qed.

Lemma laplacian_ok points : exists L, Tri_LocalLaplacian data l points = Ok L /\ m_rows L = m_cols points /\ m_cols L = ft_NumBasisFunctions data /\
  forall q i, m_at L q i = lapval i (RX m 0 (pt points q)) (RX m 1 (pt points q)).
Proof.
  pose proof small_range as HR. destruct (counts' o data ltac:(lia) E) as (_ & _ & C2 & _).
  destruct (local_ok o data dir m E Hdir HR) as (l' & EL' & M1 & M2 & M3 & M4 & M5 & M6 & _). rewrite EL in EL'. injection EL' as <-.
  destruct (created_counts o data E) as (_ & _ & C3 & _).
  unfold Tri_LocalLaplacian, Tri_SecondDerivatives. rewrite M1, M2, C3, C2. destruct (Nat.ltb_spec 3 o); [lia|].
  unfold lapval, TT. destruct o as [|[|[|[|o']]]]; try lia.
  - cbn. repeat (unfold madd; cbn; rewrite ?Nat.eqb_refl; cbn). eexists. split; [reflexivity|]. cbn. do 2 (split; [reflexivity|]). intros q i. rewrite !M5. unfold BB. cbn [rsum]. try (unfold RX, pt; cbn [rsum]); ring.
  - cbn. repeat (unfold madd; cbn; rewrite ?Nat.eqb_refl; cbn). eexists. split; [reflexivity|]. cbn. do 2 (split; [reflexivity|]). intros q i. rewrite !M5. unfold BB. cbn [rsum]. try (unfold RX, pt; cbn [rsum]); ring.
  - cbn. repeat (unfold madd; cbn; rewrite ?Nat.eqb_refl; cbn). eexists. split; [reflexivity|]. cbn. do 2 (split; [reflexivity|]). intros q i. rewrite !M5. unfold BB. cbn [rsum]. try (unfold RX, pt; cbn [rsum]); ring.
Qed.

Lemma sig_id i : (o <= 2)%nat \/ (forall e, (e < 3)%nat -> nth e dir true = true) -> sig data dir i = i.
Proof.
  clear P0 P1 EL. intros H. destruct (counts' o data ltac:(lia) E) as (C0 & C1 & _). unfold sig. rewrite C0, C1.
  destruct (edge_cases 1 (o - 1) i) as [X|[X|(e & He & H1 & H2)]]; try (apply sigma_fix; auto; fail).
  rewrite (sigma_edge _ _ _ e) by auto. unfold flip. destruct H as [H|H]; [|now rewrite H]. destruct (nth e dir true); auto. unfold ea in *. nia.
Qed.
End Local2.

Lemma C46_all : forall order data dir m l, (1 <= order <= 3)%nat -> Tri_Create order = Ok data -> (3 <= length dir)%nat ->
  mt_BInv m 0 2 = 0 -> mt_BInv m 1 2 = 0 -> Tri_CreateLocalSpace data 3 dir m = Ok l ->
  (order <= 2)%nat \/ (forall e, (e < 3)%nat -> nth e dir true = true) ->
  exists V, (forall p, Tri_LocalValues data l (space_point p) = Ok (V p)) /\
  forall points, exists L, Tri_LocalLaplacian data l points = Ok L /\ m_rows L = m_cols points /\ m_cols L = ft_NumBasisFunctions data /\
    forall q i, (q < m_cols points)%nat -> (i < ft_NumBasisFunctions data)%nat -> is_laplacian 2 (fun p => m_at (V p) 0 i) (pt points q) (m_at L q i).
Proof.
  intros o data dir m l Ho E Hd P0 P1 EL HS. exists (lvalf data l). pose proof (small_range o data Ho E) as HR.
  split; [intros p; apply (lvalf_ok o data dir m l); auto; lia|].
  intros points. destruct (laplacian_ok o data dir m l Ho E Hd EL points) as (L & EQ & L1 & L2 & L3). exists L. do 3 (split; [auto|]).
  intros q i Hq Hi. rewrite L3. pose proof (lap_ok o data dir m l Ho E Hd EL P0 P1 i (pt points q) Hi) as H. rewrite (sig_id o data dir Ho E Hd i HS) in H. exact H.
Qed.

Lemma C46_throws_all : forall order data dir m l points, (4 <= order)%nat -> Tri_Create order = Ok data -> Tri_CreateLocalSpace data 3 dir m = Ok l ->
  Tri_LocalLaplacian data l points = Throw.
Proof.
  intros o data dir m l points Ho E EL. unfold Tri_CreateLocalSpace in EL. cbn [Nat.eqb negb] in EL.
  destruct (tri_mesh_order _ _ _ _ _); cbn [bind] in EL; try discriminate. destruct (gather _ _); cbn [bind] in EL; try discriminate. injection EL as <-.
  unfold Tri_LocalLaplacian. cbn [lt_Order]. destruct (created_counts o data E) as (_ & _ & -> & _). destruct (Nat.ltb_spec 3 o); [reflexivity|lia].
Qed.

Lemma is_laplacian_unique dim f x L1 L2 : is_laplacian dim f x L1 -> is_laplacian dim f x L2 -> L1 = L2.
Proof.
  intros (g1 & h1 & A1 & B1 & ->) (g2 & h2 & A2 & B2 & ->). apply rsum_ext. intros d Hd.
  apply (uniqueness_limite (fun t => g1 d (setc x d t)) (x d)); [apply B1; auto|].
  eapply dpl_ext; [|apply (B2 d Hd)]. intros s. cbv beta.
  symmetry. eapply uniqueness_limite; [apply (A1 d (setc x d s) Hd)|apply (A2 d (setc x d s) Hd)].
Qed.

Definition id_map : MapTriangleData := {| mt_B := fun i j => if (i =? j)%nat then 1 else 0; mt_BInv := fun i j => if (i =? j)%nat then 1 else 0; mt_b := fun _ => 0 |}.

Lemma C46_refuted : forall data dir, Tri_Create 3 = Ok data -> (3 <= length dir)%nat -> nth 0 dir true = false ->
  exists l V L, Tri_CreateLocalSpace data 3 dir id_map = Ok l /\ (forall p, Tri_LocalValues data l (space_point p) = Ok (V p)) /\
    Tri_LocalLaplacian data l (space_point (fun _ => 0)) = Ok L /\
    ~ is_laplacian 2 (fun p => m_at (V p) 0 3) (fun _ => 0) (m_at L 0 3).
Proof.
  intros data dir E Hd H0. pose proof (small_range 3 data ltac:(lia) E) as HR.
  destruct (local_ok 3 data dir id_map E Hd HR) as (l & EL & _). 
  destruct (laplacian_ok 3 data dir id_map l ltac:(lia) E Hd EL (space_point (fun _ => 0))) as (L & EQ & _ & _ & L3).
  exists l, (lvalf data l), L. split; [auto|]. split; [intros p; apply (lvalf_ok 3 data dir id_map l); auto|]. split; [auto|].
  intros H. destruct (counts' 3 data ltac:(lia) E) as (C0 & C1 & C2 & C3). rewrite L3 in H.
  pose proof (lap_ok 3 data dir id_map l ltac:(lia) E Hd EL eq_refl eq_refl 3 (fun _ => 0) ltac:(rewrite C2; lia)) as H'.
  pose proof (is_laplacian_unique _ _ _ _ _ H H') as Q.
  assert (S : sig data dir 3 = 4%nat).
  { unfold sig. rewrite C0, C1. rewrite (sigma_edge _ _ _ 0) by (unfold ea; cbn; lia). unfold flip, ea. rewrite H0. reflexivity. }
  rewrite S in Q. unfold lapval, TT, BB, tri_table3 in Q. cbn in Q. unfold RX, id_map in Q. cbn in Q. lra.
Qed.

Lemma C43_local_all : forall order data dir m l, (1 <= order)%nat -> Tri_Create order = Ok data -> (3 <= length dir)%nat ->
  in_range data -> Tri_CreateLocalSpace data 3 dir m = Ok l ->
  exists V : point -> Mat, (forall p, Tri_LocalValues data l (space_point p) = Ok (V p)) /\
  forall points, exists D0 D1, Tri_LocalDerivatives data l points = Ok [D0; D1] /\
    m_rows D0 = m_cols points /\ m_cols D0 = ft_NumBasisFunctions data /\ m_rows D1 = m_cols points /\ m_cols D1 = ft_NumBasisFunctions data /\
    forall q i, (q < m_cols points)%nat -> (i < ft_NumBasisFunctions data)%nat ->
      is_partial (fun p => m_at (V p) 0 i) 0 (pt points q) (m_at D0 q i) /\ is_partial (fun p => m_at (V p) 0 i) 1 (pt points q) (m_at D1 q i).
Proof.
  intros o data dir m l Ho E Hd HR EL. exists (lvalf data l). split; [intros p; apply (lvalf_ok o data dir m l); auto|]. exact (local_gradient o data dir m l Ho E Hd HR EL).
Qed.
