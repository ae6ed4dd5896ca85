From Coq Require Import List Arith Bool Lia ZArith Reals Lra Permutation FunctionalExtensionality.
From Verif Require Import Base RSum MatrixModel MonomialsModel MonomialsSpec GBasisModel GBasisProofs LagrangeModel LagrangeSpec LagrangeProofs LagrangeProofs2
  RBinom TriangleModel TriangleSpec TriangleProofs2 TriangleProofs3 TriangleProofs4 TriangleProofs5 Renumber QuadModel QuadSpec QuadProofs QuadProofs2.
Import ListNotations.
Local Open Scope R_scope.

(** ** The renumbering *)
(** whether the reference dofs of edge [e] run from vertex e to vertex e + 1 *)
Definition rdir (e : nat) : bool := (e <? 2)%nat.
Definition qkeep (dir : list bool) (e : nat) : bool := Bool.eqb (nth e dir true) (rdir e).
Definition qsig (o : nat) (dir : list bool) : nat -> nat := rsigma 4 4 (o - 1) (qkeep dir).

Lemma table_edge e : (e < 4)%nat -> exists k, table_at quad_edges_table e ((e + 1) mod 4) = Ok (k, rdir e).
Proof. intros H. destruct e as [|[|[|[|e]]]]; [| | | |lia]; cbn; eexists; reflexivity. Qed.

Lemma quad_order_ok o dir : (1 <= o)%nat -> (4 <= length dir)%nat -> (Z.of_nat ((o + 1) * (o + 1)) <= UINT_MAX)%Z ->
  exists l, quad_mesh_order ((o + 1) * (o + 1)) 1 (o - 1) ((o - 1) * (o - 1)) quad_edges_table dir = Ok l /\ length l = ((o + 1) * (o + 1))%nat /\
    forall d, (d < (o + 1) * (o + 1))%nat -> nth_error l d = Some (qsig o dir d).
Proof.
  intros Ho Hd HR. set (N := ((o + 1) * (o + 1))%nat) in *. assert (EN : (4 + 4 * (o - 1) + (o - 1) * (o - 1) = N)%nat) by (unfold N; destruct o; [lia|]; rewrite Nat.sub_succ, Nat.sub_0_r; nia).
  assert (EA : (ea 4 (o - 1) 4 <= N)%nat) by (unfold ea; rewrite <- EN; apply Nat.le_add_r).
  unfold quad_mesh_order, qsig. clearbody N. generalize dependent (o - 1)%nat. intros n1 EN EA. remember (n1 * n1)%nat as n2 eqn:E2'. clear E2'. set (sg := rsigma 4 4 n1 (qkeep dir)).
  match goal with |- context [for_loop 4 ?f (repeat 0%nat N, 0%nat)] => destruct (flt (fun v s => FInv N sg v s) f 4 (repeat 0%nat N, 0%nat)) as (s1 & E1 & I1) end.
  - apply fill_start.
  - intros v s Hv I. rewrite ?Nat.mul_1_r. replace (S v) with (v + 1)%nat by lia. apply fasc_ok; [lia|lia| |exact I]. intros d H1 H2. apply rsigma_fix. left. unfold ea. lia.
  - rewrite E1. cbn [bind].
    match goal with |- context [for_loop 4 ?f s1] => destruct (flt (fun e s => FInv N sg (ea 4 n1 e) s) f 4 s1) as (s2 & E2 & I2) end.
    + unfold ea. rewrite Nat.mul_0_l, Nat.add_0_r. auto.
    + intros e s He I. destruct (table_edge e He) as (k & ->). cbn [bind snd]. unfold at_. destruct (nth_error_Some_ex dir (i:=e)) as (b & Eb); [lia|]. rewrite Eb. cbn [bind].
      pose proof (nth_error_nth dir e true Eb) as En. destruct (edge_step 4 4 n1 (qkeep dir) N e s HR He EA I) as (s' & E & I').
      exists s'. split; [|auto]. rewrite <- E. unfold qkeep. rewrite En. reflexivity.
    + rewrite E2. cbn [bind]. cbn [Nat.mul Nat.add]. rewrite !Nat.add_0_r.
      match goal with |- context [ascending ?a ?b s2] => destruct (fasc_ok N sg a b s2) as ((l & k) & E3 & I3 & I4 & I5) end; [lia|lia| | |].
      { intros d H1 H2. apply rsigma_fix. right. unfold ea. lia. }
      { match goal with |- FInv _ _ ?k _ => replace k with (ea 4 n1 4) by (unfold ea; lia) end. auto. }
      rewrite E3. cbn [bind]. exists l. split; auto. split; auto. intros d Hdn. apply I5. lia.
Qed.

(** ** The local space *)
Lemma qlocal_ok junk o data dir m : (1 <= o)%nat -> QOK junk o data -> (4 <= length dir)%nat -> (Z.of_nat (fq_NumBasisFunctions data) <= UINT_MAX)%Z ->
  let N := ((o + 1) * (o + 1))%nat in
  exists l, Quad_CreateLocalSpace data 4 dir m = Ok l /\ lq_Map l = m /\ lq_NumberOfBasisFunctions l = N /\ length (lq_DofsMeshOrder l) = N /\
    (forall d, (d < N)%nat -> nth d (lq_DofsMeshOrder l) 0%nat = qsig o dir d /\ (qsig o dir d < N)%nat) /\
    m_rows (lq_Dofs l) = 3%nat /\ m_cols (lq_Dofs l) = N /\
    (forall d c, (d < N)%nat -> m_at (lq_Dofs l) c d = m_at (quad_F m (fq_DofPositions data)) c (qsig o dir d)).
Proof.
  intros Ho (K1 & K2 & K3 & K4 & K5 & K6 & K7 & K8 & _) Hd HR N. unfold Quad_CreateLocalSpace. cbn [Nat.eqb negb]. rewrite K2 in HR. rewrite K2, K3, K4, K5, K6.
  destruct (quad_order_ok o dir Ho Hd HR) as (l & El & L1 & L2). rewrite El. cbn [bind]. fold N in L1, L2.
  assert (B : forall d, (d < N)%nat -> nth d l 0%nat = qsig o dir d /\ (qsig o dir d < N)%nat).
  { intros d Hdn. split; [apply nth_error_nth, L2; auto|]. apply rsigma_lt; auto. unfold ea, N. nia. }
  assert (C : m_cols (quad_F m (fq_DofPositions data)) = N) by (destruct m; exact K8).
  assert (C' : m_rows (quad_F m (fq_DofPositions data)) = 3%nat) by (destruct m; reflexivity).
  rewrite gather_ok. 2: { intros d H. rewrite L1 in H. rewrite C. destruct (B d H) as (-> & H'). auto. }
  cbn [bind]. eexists. split; [reflexivity|]. cbn [lq_Map lq_NumberOfBasisFunctions lq_DofsMeshOrder lq_Dofs m_rows m_cols m_at]. do 6 (split; [auto|]).
  intros d c Hdn. now destruct (B d Hdn) as (-> & _).
Qed.

(** the reference point of a point of the quadrilateral *)
Definition GI (m : QuadMap) (p : point) : point := match m with Parallelogram a => fun i => RX a i p | Generic g => mq_FInv g p end.
Definition GF (m : QuadMap) (p : point) : point := match m with Parallelogram a => affine (mt_B a) (mt_b a) p | Generic g => mq_F g p end.
Lemma quad_FInv_at m P i q : m_at (quad_FInv m P) i q = GI m (pt P q) i.
Proof. destruct m; reflexivity. Qed.
Lemma quad_F_at m P i q : m_at (quad_F m P) i q = GF m (pt P q) i.
Proof. destruct m; reflexivity. Qed.

Lemma qlocal_values junk o data dir m l points : (1 <= o)%nat -> QOK junk o data -> (4 <= length dir)%nat -> (Z.of_nat (fq_NumBasisFunctions data) <= UINT_MAX)%Z ->
  Quad_CreateLocalSpace data 4 dir m = Ok l ->
  exists V, Quad_LocalValues junk data l points = Ok V /\ m_rows V = m_cols points /\ m_cols V = fq_NumBasisFunctions data /\
    forall q i j, (q < m_cols points)%nat -> (i < o + 1)%nat -> (j < o + 1)%nat ->
      m_at V q (qsig o dir (qi (o - 1) i j)) = ph o i (GI m (pt points q) 0%nat) * ph o j (GI m (pt points q) 1%nat).
Proof.
  intros Ho K Hd HR EL. destruct (qlocal_ok junk o data dir m Ho K Hd HR) as (l' & EL' & M1 & M2 & M3 & M4 & M5 & M6 & M7). rewrite EL in EL'. injection EL' as <-.
  unfold Quad_LocalValues. rewrite M1. assert (Cn : m_cols (quad_FInv m points) = m_cols points) by (destruct m; reflexivity).
  destruct (qvalues_ok junk o data Ho K (quad_FInv m points)) as (V & EV & V1 & V2 & V3); [destruct m; cbn; lia|]. rewrite EV. cbn [bind].
  rewrite gather_ok. 2: { intros d H. rewrite M3 in H. rewrite V2. destruct (M4 d H) as (-> & H'). auto. }
  eexists. split; [reflexivity|]. cbn [m_rows m_cols m_at]. destruct K as (_ & K2 & _). rewrite K2, M3, <- Cn. do 2 (split; [auto|]).
  intros q i j Hq Hi Hj. pose proof (q_lt o i j Ho Hi Hj) as L. destruct (M4 _ L) as (_ & L'). destruct (M4 _ L') as (-> & _). unfold qsig. rewrite rsigma_invol.
  rewrite V3 by auto. now rewrite !quad_FInv_at.
Qed.

(** every dof of the mesh order is the image of a pair *)
Lemma qsig_index o dir d : (1 <= o)%nat -> (d < (o + 1) * (o + 1))%nat -> exists i j, (i < o + 1)%nat /\ (j < o + 1)%nat /\ d = qsig o dir (qi (o - 1) i j).
Proof.
  intros Ho Hd. assert (L : (qsig o dir d < (o + 1) * (o + 1))%nat) by (apply rsigma_lt; auto; unfold ea; nia).
  destruct (q_index o _ Ho L) as (i & j & Hi & Hj & E). exists i, j. do 2 (split; [auto|]). rewrite <- E. unfold qsig. now rewrite rsigma_invol.
Qed.
Lemma qsig_lt o dir d : (1 <= o)%nat -> (d < (o + 1) * (o + 1))%nat -> (qsig o dir d < (o + 1) * (o + 1))%nat.
Proof. intros Ho Hd. apply rsigma_lt; auto. unfold ea. nia. Qed.
Lemma qsig_inj o dir a b : qsig o dir a = qsig o dir b -> a = b.
Proof. intros H. unfold qsig in H. rewrite <- (rsigma_invol 4 4 (o - 1) (qkeep dir) a), H. apply rsigma_invol. Qed.

(** ** Well-behaved maps *)
Lemma GI_GF m x p : good_map m -> in_square x -> (forall c, (c < 3)%nat -> p c = GF m x c) -> forall c, (c < 2)%nat -> GI m p c = x c.
Proof.
  intros G Hx Hp c Hc. destruct m as [a|g]; cbn [GI GF] in *.
  - apply (FInv_F a x (space_point p) 0%nat G Hp). lia.
  - destruct G as (v & G1 & G2 & G3). rewrite (G3 p (mq_F g x)) by auto. apply G2; auto.
Qed.

Lemma nd_range o i : (1 <= o)%nat -> (i < o + 1)%nat -> 0 <= nd o i <= 1.
Proof.
  intros Ho Hi. unfold nd. pose proof (perm1_lt (o + 1) i ltac:(lia) Hi) as H. assert (0 < INR o) by (apply lt_0_INR; lia).
  assert (0 <= INR (perm1 (o + 1) i) <= INR o) by (split; [apply pos_INR|apply le_INR; lia]).
  split.
  - apply Rmult_le_pos; [lra|]. left. now apply Rinv_0_lt_compat.
  - apply (Rmult_le_reg_r (INR o)); auto. unfold Rdiv. rewrite Rmult_assoc, Rinv_l by lra. lra.
Qed.

(** C64: nodality on the mesh *)
Lemma C64_nodal_all : forall junk lobatto order data dir m l, (1 <= order)%nat -> Quad_Create junk lobatto order = Ok data -> (4 <= length dir)%nat ->
  (Z.of_nat (fq_NumBasisFunctions data) <= UINT_MAX)%Z -> good_map m -> Quad_CreateLocalSpace data 4 dir m = Ok l ->
  exists V, Quad_LocalValues junk data l (lq_Dofs l) = Ok V /\ m_rows V = fq_NumBasisFunctions data /\ m_cols V = fq_NumBasisFunctions data /\
    forall i j, (i < fq_NumBasisFunctions data)%nat -> (j < fq_NumBasisFunctions data)%nat -> m_at V j i = kron i j.
Proof.
  intros junk lobatto o data dir m l Ho E Hd HR G EL. pose proof (created_QOK _ _ _ _ Ho E) as K. pose proof K as (K1 & K2 & K3 & K4 & K5 & K6 & K7 & K8 & K9 & T & _).
  destruct (qlocal_ok junk o data dir m Ho K Hd HR) as (l' & EL' & M1 & M2 & M3 & M4 & M5 & M6 & M7). rewrite EL in EL'. injection EL' as <-.
  destruct (qlocal_values junk o data dir m l (lq_Dofs l) Ho K Hd HR EL) as (V & EV & V1 & V2 & V3). exists V. rewrite M6 in *. split; [auto|]. rewrite K2 in *. do 2 (split; [auto|]).
  intros i j Hi Hj. destruct (qsig_index o dir i Ho Hi) as (a & b & Ha & Hb & Ei). destruct (qsig_index o dir j Ho Hj) as (a' & b' & Ha' & Hb' & Ej).
  rewrite Ei, V3 by auto.
  assert (X : forall c, (c < 2)%nat -> GI m (pt (lq_Dofs l) j) c = pt (fq_DofPositions data) (qi (o - 1) a' b') c).
  { apply GI_GF; auto.
    - destruct (proj2 (T a' b' Ha' Hb')) as (X0 & X1 & X2). unfold in_square, pt. rewrite X0, X1, X2. split; [apply nd_range; auto|]. split; [apply nd_range; auto|auto].
    - intros c Hc. unfold pt at 1. rewrite M7 by auto. rewrite quad_F_at. f_equal. rewrite Ej. unfold qsig. now rewrite rsigma_invol. }
  rewrite !X by lia. unfold pt. destruct (proj2 (T a' b' Ha' Hb')) as (-> & -> & _). rewrite !ph_nodal by auto. unfold kron.
  destruct (Nat.eqb_spec (qsig o dir (qi (o - 1) a b)) j) as [Q|Q].
  - rewrite Ej in Q. apply qsig_inj in Q. destruct (q_inj o a b a' b') as (-> & ->); auto. rewrite !Nat.eqb_refl. ring.
  - destruct (Nat.eqb_spec a a') as [->|]; [|ring]. destruct (Nat.eqb_spec b b') as [->|]; [|ring]. congruence.
Qed.

(** ** Derivatives on the mesh *)
Definition map_jacobian (m : QuadMap) (x : point) : nat -> nat -> R := match m with Parallelogram a => mt_BInv a | Generic g => mq_JInv g (mq_FInv g x) end.

Lemma para_jacobian a x : jacobian_at (fun p i => RX a i p) x (mt_BInv a).
Proof.
  intros d Hd. assert (G : forall i, is_partial (fun p => RX a i p) d x (mt_BInv a i d)); [|auto].
  intros i. unfold is_partial. eapply dpl_ext; [intros s; symmetry; apply RX_setc; lia|]. generalize (mt_BInv a i d). intros w.
  match goal with |- derivable_pt_lim (fun s => ?c + _) _ _ => generalize c end. intros c.
  assert (Ew : w = 0 + (1 * w + id (x d) * 0)) by (unfold id; ring).
  match goal with |- derivable_pt_lim ?f ?y w => enough (Q : derivable_pt_lim f y (0 + (1 * w + id (x d) * 0))) by (rewrite <- Ew in Q; exact Q) end. clear Ew.
  apply (derivable_pt_lim_plus (fun _ => c) (fun s => s * w)); [apply derivable_pt_lim_const|].
  apply (derivable_pt_lim_mult id (fun _ => w)); [apply derivable_pt_lim_id|apply derivable_pt_lim_const].
Qed.

Lemma chain_product o i j (f : point -> point) x J d : (i < o + 1)%nat -> (j < o + 1)%nat -> (d < 2)%nat -> jacobian_at f x J ->
  is_partial (fun p => ph o i (f p 0%nat) * ph o j (f p 1%nat)) d x
    (J 0%nat d * (dph o i (f x 0%nat) * ph o j (f x 1%nat)) + J 1%nat d * (ph o i (f x 0%nat) * dph o j (f x 1%nat))).
Proof.
  intros Hi Hj Hd HJ. destruct (HJ d Hd) as (J0 & J1). unfold is_partial in *.
  assert (S : forall c, f (setc x d (x d)) c = f x c).
  { intros c. f_equal. apply functional_extensionality. intros k. apply setc_self. }
  pose proof (derivable_pt_lim_comp _ (ph o i) _ _ _ J0 (ph_derivative o i _ Hi)) as A.
  pose proof (derivable_pt_lim_comp _ (ph o j) _ _ _ J1 (ph_derivative o j _ Hj)) as B.
  pose proof (derivable_pt_lim_mult _ _ _ _ _ A B) as C. unfold comp, mult_fct in C. rewrite !S in C.
  match goal with |- derivable_pt_lim _ _ ?l => match type of C with derivable_pt_lim _ _ ?l' => replace l with l' by ring end end. exact C.
Qed.

Definition qlvalf (junk : nat -> nat -> R) (data : Quad_Data) (l : Quad_Local) (p : point) : Mat :=
  match Quad_LocalValues junk data l (space_point p) with Ok V => V | _ => mzero 0 0 end.

(** the second branch writes column d to column DofsMeshOrder[d] *)
Lemma scatter_ok junk n N A0 A1 order s : m_rows A0 = n -> m_cols A0 = N -> m_rows A1 = n -> m_cols A1 = N -> length order = N ->
  (forall d, (d < N)%nat -> nth d order 0%nat = s d /\ (s d < N)%nat /\ s (s d) = d) ->
  exists R0 R1, for_loop N (fun d st => let '(R0, R1) := st in
        o <- at_ order d ;; c0 <- mcol A0 d ;; R0 <- mat_set_col R0 o c0 ;; c1 <- mcol A1 d ;; R1 <- mat_set_col R1 o c1 ;; Ok (R0, R1)) (mraw junk n N, mraw junk n N) = Ok (R0, R1) /\
    m_rows R0 = n /\ m_cols R0 = N /\ m_rows R1 = n /\ m_cols R1 = N /\
    forall q d, (d < N)%nat -> m_at R0 q (s d) = m_at A0 q d /\ m_at R1 q (s d) = m_at A1 q d.
Proof.
  intros A01 A02 A11 A12 HL Hs.
  match goal with |- context [for_loop N ?f ?st] => destruct (flt (fun k (R : Mat * Mat) => m_rows (fst R) = n /\ m_cols (fst R) = N /\ m_rows (snd R) = n /\ m_cols (snd R) = N /\
    forall q d, (d < k)%nat -> m_at (fst R) q (s d) = m_at A0 q d /\ m_at (snd R) q (s d) = m_at A1 q d) f N st) as ((R0 & R1) & E & H) end.
  - cbn. do 4 (split; [auto|]). intros; lia.
  - intros d (R0 & R1) Hd (B1 & B2 & B3 & B4 & B5). cbn [fst snd] in *. unfold at_. destruct (nth_error_Some_ex order (i:=d)) as (x & Ex); [lia|]. rewrite Ex. cbn [bind].
    apply (nth_error_nth order d 0%nat) in Ex. destruct (Hs d Hd) as (Ed & Ld & Sd). rewrite Ed in Ex. subst x.
    unfold mcol, mat_set_col. rewrite A02, A12, B2, B4. destruct (Nat.ltb_spec d N); [|lia]. destruct (Nat.ltb_spec (s d) N); [|lia]. cbn [bind].
    eexists. split; [reflexivity|]. cbn [fst snd m_rows m_cols m_at]. do 4 (split; [auto|]). intros q k Hk.
    destruct (Nat.eqb_spec (s k) (s d)) as [Q|Q].
    + assert (k = d); [|subst; auto]. destruct (Hs k ltac:(lia)) as (_ & _ & Sk). rewrite <- Sk, Q. auto.
    + apply B5. destruct (Nat.eq_dec k d) as [->|]; [congruence|lia].
  - exists R0, R1. cbn [fst snd] in H. destruct H as (H1 & H2 & H3 & H4 & H5). auto 10.
Qed.

Lemma C64_derivatives_all : forall junk lobatto order data dir m l, (1 <= order)%nat -> Quad_Create junk lobatto order = Ok data -> (4 <= length dir)%nat ->
  (Z.of_nat (fq_NumBasisFunctions data) <= UINT_MAX)%Z -> Quad_CreateLocalSpace data 4 dir m = Ok l ->
  exists V : point -> Mat, (forall p, Quad_LocalValues junk data l (space_point p) = Ok (V p)) /\
  forall points, (forall g q, m = Generic g -> (q < m_cols points)%nat -> jacobian_at (mq_FInv g) (pt points q) (mq_JInv g (mq_FInv g (pt points q)))) ->
  exists D0 D1, Quad_LocalDerivatives junk data l points = Ok [D0; D1] /\
    m_rows D0 = m_cols points /\ m_cols D0 = fq_NumBasisFunctions data /\ m_rows D1 = m_cols points /\ m_cols D1 = fq_NumBasisFunctions data /\
    forall q i, (q < m_cols points)%nat -> (i < fq_NumBasisFunctions data)%nat ->
      is_partial (fun p => m_at (V p) 0 i) 0 (pt points q) (m_at D0 q i) /\ is_partial (fun p => m_at (V p) 0 i) 1 (pt points q) (m_at D1 q i).
Proof.
  intros junk lobatto o data dir m l Ho E Hd HR EL. pose proof (created_QOK _ _ _ _ Ho E) as K.
  exists (qlvalf junk data l).
  assert (VV : forall p, Quad_LocalValues junk data l (space_point p) = Ok (qlvalf junk data l p) /\
    forall i j, (i < o + 1)%nat -> (j < o + 1)%nat -> m_at (qlvalf junk data l p) 0 (qsig o dir (qi (o - 1) i j)) = ph o i (GI m p 0%nat) * ph o j (GI m p 1%nat)).
  { intros p. unfold qlvalf. destruct (qlocal_values junk o data dir m l (space_point p) Ho K Hd HR EL) as (V & EV & _ & _ & H). rewrite EV. split; auto.
    intros i j Hi Hj. rewrite H by (cbn; auto). reflexivity. }
  split; [apply VV|]. intros points HG.
  destruct (qlocal_ok junk o data dir m Ho K Hd HR) as (l' & EL' & M1 & M2 & M3 & M4 & M5 & M6 & M7). rewrite EL in EL'. injection EL' as <-.
  assert (EN : fq_NumBasisFunctions data = ((o + 1) * (o + 1))%nat) by (destruct K as (_ & HN & _); exact HN). rewrite EN.
  set (N := ((o + 1) * (o + 1))%nat) in *.
  assert (Cn : m_cols (quad_FInv m points) = m_cols points) by (destruct m; reflexivity).
  destruct (qderivs_ok junk o data Ho K (quad_FInv m points)) as (D0 & D1 & ED & R1 & R2 & R3 & R4 & H); [destruct m; cbn; lia|]. fold N in R2, R4.
  assert (HJ : forall q, (q < m_cols points)%nat -> jacobian_at (GI m) (pt points q) (map_jacobian m (pt points q))).
  { intros q Hq. destruct m as [a|g]; [apply para_jacobian|]. apply (HG g q eq_refl Hq). }
  assert (GOAL : exists A0 A1, Quad_LocalDerivatives junk data l points = Ok [A0; A1] /\ m_rows A0 = m_cols points /\ m_cols A0 = N /\ m_rows A1 = m_cols points /\ m_cols A1 = N /\
    forall q d, (q < m_cols points)%nat -> (d < N)%nat ->
      m_at A0 q (qsig o dir d) = map_jacobian m (pt points q) 0%nat 0%nat * m_at D0 q d + map_jacobian m (pt points q) 1%nat 0%nat * m_at D1 q d /\
      m_at A1 q (qsig o dir d) = map_jacobian m (pt points q) 0%nat 1%nat * m_at D0 q d + map_jacobian m (pt points q) 1%nat 1%nat * m_at D1 q d).
  { unfold Quad_LocalDerivatives. rewrite M1. rewrite ED. cbn [bind]. unfold quad_MapDerivatives. rewrite M1. destruct m as [a|g]; cbn [at_ idx_ nth_error bind].
    - unfold madd. cbn [mscal m_rows m_cols]. rewrite R1, R2, R3, R4, !Nat.eqb_refl. cbn [andb bind].
      assert (G : forall d, (d < length (lq_DofsMeshOrder l))%nat -> (nth d (lq_DofsMeshOrder l) 0 < N)%nat).
      { intros d Hdl. rewrite M3 in Hdl. destruct (M4 d Hdl) as (-> & H'). lia. }
      rewrite gather_ok by (cbn [m_cols]; auto). cbn [bind]. rewrite gather_ok by (cbn [m_cols]; auto). cbn [bind].
      eexists _, _. split; [reflexivity|]. cbn [m_rows m_cols m_at mscal]. do 4 (split; [auto|]). intros q d Hq Hdn. destruct (M4 d Hdn) as (_ & L). destruct (M4 _ L) as (-> & _).
      unfold qsig. rewrite rsigma_invol. split; reflexivity.
    - rewrite M2, R1, R2, R3, R4, Cn, !Nat.eqb_refl, Nat.leb_refl. cbn [andb negb].
      match goal with |- context [{| m_rows := m_cols points; m_cols := N; m_at := ?f0 |}] =>
        match goal with |- context [{| m_rows := m_cols points; m_cols := N; m_at := ?f1 |}] => 
          tryif constr_eq f0 f1 then fail else
          destruct (scatter_ok junk (m_cols points) N {| m_rows := m_cols points; m_cols := N; m_at := f0 |} {| m_rows := m_cols points; m_cols := N; m_at := f1 |}
            (lq_DofsMeshOrder l) (qsig o dir)) as (B0 & B1 & EB & B2 & B3 & B4 & B5 & B6) end end; auto.
      { intros d Hdn. destruct (M4 d Hdn) as (Q1 & Q2). split; [auto|]. split; [auto|]. apply rsigma_invol. }
      rewrite EB. cbn [bind]. exists B0, B1. do 5 (split; [auto|]). intros q d Hq Hdn. destruct (B6 q d Hdn) as (-> & ->). cbn [m_at].
      destruct (Nat.ltb_spec q (m_cols points)); [|lia]. cbn [map_jacobian].
      change (fun d0 => m_at (quad_FInv (Generic g) points) d0 q) with (mq_FInv g (pt points q)). split; ring. }
  destruct GOAL as (A0 & A1 & EA & A2 & A3 & A4 & A5 & A6). exists A0, A1. do 5 (split; [auto|]). intros q d Hq Hdn.
  destruct (qsig_index o dir d Ho Hdn) as (i & j & Hi & Hj & ->). destruct (A6 q _ Hq (q_lt o i j Ho Hi Hj)) as (-> & ->).
  destruct (H q i j ltac:(lia) Hi Hj) as (-> & ->). rewrite !quad_FInv_at.
  split; (eapply is_partial_ext; [intros p; symmetry; apply (proj2 (VV p)); auto|]); apply chain_product; auto.
Qed.
