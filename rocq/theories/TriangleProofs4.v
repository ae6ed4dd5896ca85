From Coq Require Import List Arith Bool Lia ZArith Reals Lra Permutation.
From Verif Require Import Base RSum MatrixModel MonomialsModel MonomialsSpec GBasisModel GBasisProofs LagrangeModel LagrangeSpec LagrangeProofs
  RBinom TriangleModel TriangleSpec TriangleProofs TriangleProofs2 TriangleProofs3.
Import ListNotations.
Local Open Scope nat_scope.

(** ** The renumbering *)
Section Order.
Variables (n0 n1 n2 : nat) (dir : list bool).
Let N := 3 * n0 + 3 * n1 + n2.
Hypothesis Hdir : 3 <= length dir.
Hypothesis HN : (Z.of_nat N <= UINT_MAX)%Z.

Definition ea (e : nat) : nat := 3 * n0 + e * n1.
Definition flip (e d : nat) : nat := if nth e dir true then d else 2 * ea e + n1 - 1 - d.
Definition sigma (d : nat) : nat :=
  if d <? ea 0 then d else if d <? ea 1 then flip 0 d else if d <? ea 2 then flip 1 d else if d <? ea 3 then flip 2 d else d.

Lemma sigma_edge e d : e < 3 -> ea e <= d -> d < ea (S e) -> sigma d = flip e d.
Proof. clear Hdir HN N.
  intros He H1 H2. unfold sigma. destruct e as [|[|[|e]]]; [| | |lia]; unfold ea in *;
  repeat match goal with |- context [?a <? ?b] => destruct (Nat.ltb_spec a b); try lia end; reflexivity.
Qed.
Lemma sigma_fix d : d < ea 0 \/ ea 3 <= d -> sigma d = d.
Proof. clear Hdir HN N.
  intros H. unfold sigma, ea in *. repeat match goal with |- context [?a <? ?b] => destruct (Nat.ltb_spec a b); try lia end; reflexivity.
Qed.
Lemma edge_cases d : d < ea 0 \/ ea 3 <= d \/ exists e, e < 3 /\ ea e <= d /\ d < ea (S e).
Proof. clear Hdir HN N.
  destruct (Nat.lt_ge_cases d (ea 0)); auto. destruct (Nat.le_gt_cases (ea 3) d); auto. right; right.
  destruct (Nat.lt_ge_cases d (ea 1)); [exists 0; lia|]. destruct (Nat.lt_ge_cases d (ea 2)); [exists 1; lia|]. exists 2. lia.
Qed.
Lemma ea_S e : ea (S e) = ea e + n1. Proof. clear Hdir HN N. unfold ea. lia. Qed.
Lemma flip_range e d : ea e <= d -> d < ea (S e) -> ea e <= flip e d < ea (S e).
Proof. clear Hdir HN N. rewrite ea_S. intros. unfold flip. destruct (nth e dir true); lia. Qed.
Lemma sigma_lt d : d < N -> sigma d < N.
Proof. clear Hdir HN.
  intros H. destruct (edge_cases d) as [H'|[H'|(e & He & H1 & H2)]]; try (rewrite sigma_fix by auto; auto).
  rewrite (sigma_edge e) by auto. pose proof (flip_range e d H1 H2). assert (ea (S e) <= N); [|lia]. unfold ea, N. nia.
Qed.
Lemma sigma_invol d : sigma (sigma d) = d.
Proof. clear Hdir HN N.
  destruct (edge_cases d) as [H'|[H'|(e & He & H1 & H2)]]; try (rewrite !sigma_fix by (rewrite ?sigma_fix by auto; auto); auto).
  rewrite (sigma_edge e d) by auto. pose proof (flip_range e d H1 H2). rewrite (sigma_edge e) by tauto. unfold flip in *. rewrite ea_S in *. destruct (nth e dir true); lia.
Qed.

Definition Inv (k : nat) (s : list nat * nat) : Prop := snd s = k /\ length (fst s) = N /\ forall d, d < k -> nth_error (fst s) d = Some (sigma d).

Lemma put_ok l k d : Inv k (l, k) -> k < N -> d = sigma k -> exists l', put_dof d (l, k) = Ok (l', S k) /\ Inv (S k) (l', S k).
Proof.
  intros (_ & HL & H) Hk ->. cbn [fst snd] in *. unfold put_dof. rewrite set_idx_Ok by lia. cbn [bind]. eexists. split; [reflexivity|].
  unfold Inv. cbn [fst snd]. rewrite replace_length. repeat split; auto. intros d Hd. destruct (Nat.eq_dec d k) as [->|].
  - apply nth_error_replace_eq. lia.
  - rewrite nth_error_replace_neq by lia. apply H. lia.
Qed.

Lemma asc_ok a b s : a <= b -> b <= N -> (forall d, a <= d -> d < b -> sigma d = d) -> Inv a s -> exists s', ascending a b s = Ok s' /\ Inv b s'.
Proof.
  intros Hab HbN Hs HI. unfold ascending.
  assert (X : forall n k s, n <= N - k -> k + n <= b -> a <= k -> Inv k s -> exists s', for_from k n put_dof s = Ok s' /\ Inv (k + n) s').
  { induction n as [|n IH]; intros k s' H1 H2 H3 I.
    - exists s'. rewrite Nat.add_0_r. cbn. auto.
    - destruct s' as [l k']. destruct I as (E & I). cbn [snd] in E. subst k'. destruct (put_ok l k k) as (l' & E & I'); [split; auto|lia|symmetry; apply Hs; lia|].
      cbn [for_from]. rewrite E. cbn [bind]. rewrite Nat.add_succ_r. apply (IH (S k)); auto; lia. }
  destruct (X (b - a) a s) as (s' & E & I); auto; try lia. exists s'. split; auto. replace (a + (b - a)) with b in I by lia. auto.
Qed.

Lemma desc_ok a : forall n k l fuel, n <= fuel -> a + n <= N -> k + n <= N -> Inv k (l, k) ->
  (forall t, t < n -> sigma (k + t) = a + n - 1 - t) ->
  exists l', descending fuel (decr (Z.of_nat (a + n))) (Z.of_nat a) (l, k) = Ok (l', k + n) /\ Inv (k + n) (l', k + n).
Proof.
  induction n as [|n IH]; intros k l fuel Hf Ha Hk HI Hs.
  - rewrite !Nat.add_0_r. exists l. split; auto.
    assert (C : ((decr (Z.of_nat a) <? UINT_MAX) && (Z.of_nat a <=? decr (Z.of_nat a)))%Z = false).
    { unfold decr. destruct (Z.eqb_spec (Z.of_nat a) 0); [reflexivity|]. destruct (Z.leb_spec (Z.of_nat a) (Z.of_nat a - 1)); [lia|]. apply andb_false_r. }
    destruct fuel; cbn [descending]; rewrite C; reflexivity.
  - assert (D : decr (Z.of_nat (a + S n)) = Z.of_nat (a + n)). { unfold decr. destruct (Z.eqb_spec (Z.of_nat (a + S n)) 0); lia. }
    rewrite D. destruct fuel as [|f]; [lia|]. cbn [descending].
    destruct (Z.ltb_spec (Z.of_nat (a + n)) UINT_MAX); [|unfold N in *; lia]. destruct (Z.leb_spec (Z.of_nat a) (Z.of_nat (a + n))); [|lia]. cbn [andb].
    rewrite Nat2Z.id. destruct (put_ok l k (a + n)) as (l' & E & I); auto; [lia| |].
    { specialize (Hs 0 ltac:(lia)). rewrite Nat.add_0_r in Hs. lia. }
    rewrite E. cbn [bind]. rewrite Nat.add_succ_r. apply (IH (S k)); auto; try lia.
    intros t Ht. specialize (Hs (S t) ltac:(lia)). replace (S k + t) with (k + S t) by lia. lia.
Qed.

Lemma mesh_order_ok : exists l, tri_mesh_order N n0 n1 n2 dir = Ok l /\ length l = N /\ forall d, d < N -> nth_error l d = Some (sigma d).
Proof.
  unfold tri_mesh_order.
  match goal with |- context [for_loop 3 ?f (repeat 0 N, 0)] => destruct (flt (fun v s => Inv (v * n0) s) f 3 (repeat 0 N, 0)) as (s1 & E1 & I1) end.
  - unfold Inv. cbn [fst snd]. rewrite repeat_length. repeat split; auto. intros; lia.
  - intros v s Hv I. apply asc_ok; auto; [lia|unfold N; nia|]. intros d H1 H2. apply sigma_fix. left. unfold ea. nia.
  - rewrite E1. cbn [bind].
    match goal with |- context [for_loop 3 ?f s1] => destruct (flt (fun e s => Inv (ea e) s) f 3 s1) as (s2 & E2 & I2) end.
    + replace (ea 0) with (3 * n0) by (unfold ea; lia). auto.
    + intros e s He I. unfold at_. destruct (nth_error_Some_ex dir (i:=e)) as (b & Eb); [lia|]. rewrite Eb. cbn [bind].
      pose proof (nth_error_nth dir e true Eb) as En.
      assert (B : ea (S e) <= N) by (unfold ea, N; nia).
      change (3 * n0 + e * n1) with (ea e). change (3 * n0 + S e * n1) with (ea (S e)).
      destruct b.
      * apply asc_ok; auto; [rewrite ea_S; lia|]. intros d H1 H2. rewrite (sigma_edge e) by auto. unfold flip. now rewrite En.
      * destruct s as [l k]. pose proof I as (Ek & _). cbn [snd] in Ek. subst k.
        destruct (desc_ok (ea e) n1 (ea e) l (S N)) as (l' & E & I'); auto; try (rewrite ea_S in B; lia).
        { intros t Ht. rewrite (sigma_edge e) by (rewrite ?ea_S; lia). unfold flip. rewrite En. lia. }
        exists (l', ea e + n1). rewrite ea_S. split; auto.
    + rewrite E2. cbn [bind]. destruct (asc_ok (3 * n0 + 3 * n1) (3 * n0 + 3 * n1 + n2) s2) as ((l & k) & E3 & I3 & I4 & I5); auto; [lia| |].
      { intros d H1 H2. apply sigma_fix. right. unfold ea. lia. }
      rewrite E3. cbn [bind]. exists l. auto.
Qed.
End Order.

Local Open Scope R_scope.

(** ** The local space *)
Definition in_range (data : Tri_Data) : Prop := (Z.of_nat (ft_NumBasisFunctions data) <= UINT_MAX)%Z.

Lemma created_counts order data : Tri_Create order = Ok data ->
  (3 * ft_NumDofs0D data + 3 * ft_NumDofs1D data + ft_NumDofs2D data = ft_NumBasisFunctions data)%nat /\
  m_cols (ft_DofPositions data) = ft_NumBasisFunctions data /\ ft_Order data = order /\ m_rows (ft_DofPositions data) = 3%nat.
Proof.
  intros E. destruct order as [|o]; [cbn in E; injection E as <-; cbn; auto|].
  destruct (created_ok (S o) data ltac:(lia) E) as (T1 & T2 & T3 & T4 & T5 & T6 & T7 & _). rewrite T2, T3, T5. repeat split; auto; lia.
Qed.

Definition sig (data : Tri_Data) (dir : list bool) : nat -> nat := sigma (ft_NumDofs0D data) (ft_NumDofs1D data) dir.

Lemma local_ok order data dir m : Tri_Create order = Ok data -> (3 <= length dir)%nat -> in_range data ->
  exists l, Tri_CreateLocalSpace data 3 dir m = Ok l /\ lt_Map l = m /\ lt_Order l = order /\ length (lt_DofsMeshOrder l) = ft_NumBasisFunctions data /\
    lt_NumberOfBasisFunctions l = ft_NumBasisFunctions data /\
    (forall i j, lt_B_lap l i j = rsum 3 (fun k => mt_BInv m i k * mt_BInv m j k)) /\
    (forall d, (d < ft_NumBasisFunctions data)%nat -> nth d (lt_DofsMeshOrder l) 0%nat = sig data dir d /\ (sig data dir d < ft_NumBasisFunctions data)%nat) /\
    m_rows (lt_Dofs l) = 3%nat /\ m_cols (lt_Dofs l) = ft_NumBasisFunctions data /\
    (forall d c, (d < ft_NumBasisFunctions data)%nat -> m_at (lt_Dofs l) c d = affine (mt_B m) (mt_b m) (pt (ft_DofPositions data) (sig data dir d)) c).
Proof.
  intros E Hd HR. destruct (created_counts order data E) as (C1 & C2 & C3 & C4). unfold in_range in HR. rewrite <- C1 in HR.
  unfold Tri_CreateLocalSpace. cbn [Nat.eqb negb]. rewrite <- C1. destruct (mesh_order_ok _ _ _ dir Hd HR) as (l & El & L1 & L2). rewrite El. cbn [bind]. rewrite C1 in *.
  assert (B : forall d, (d < ft_NumBasisFunctions data)%nat -> nth d l 0%nat = sig data dir d /\ (sig data dir d < ft_NumBasisFunctions data)%nat).
  { intros d Hdn. split; [apply nth_error_nth, L2; auto|]. pose proof (sigma_lt (ft_NumDofs0D data) (ft_NumDofs1D data) (ft_NumDofs2D data) dir d) as Q. unfold sig. lia. }
  unfold gather. cbn [mt_F m_cols]. rewrite C2.
  assert (F : forallb (fun k => (k <? ft_NumBasisFunctions data)%nat) l = true).
  { apply forallb_forall. intros x Hx. apply Nat.ltb_lt. destruct (In_nth_error _ _ Hx) as (d & Ed). assert (d < ft_NumBasisFunctions data)%nat by (apply nth_error_lt in Ed; lia).
    rewrite (L2 d) in Ed by auto. injection Ed as <-. now apply B. }
  rewrite F. cbn [bind]. eexists. split; [reflexivity|]. cbn. repeat split; auto; try (apply B; auto).
  intros d c Hdn. unfold affine, pt. destruct (B d Hdn) as (-> & _). reflexivity.
Qed.

(** identity of FInv on images of F *)
Lemma FInv_F m (x : point) (P : Mat) q : inverse3 (mt_B m) (mt_BInv m) -> (forall c, (c < 3)%nat -> m_at P c q = affine (mt_B m) (mt_b m) x c) ->
  forall c, (c < 3)%nat -> m_at (mt_FInv m P) c q = x c.
Proof.
  intros HI HP c Hc. cbn [mt_FInv m_at].
  rewrite (rsum_ext 3 _ (fun k => mt_BInv m c k * rsum 3 (fun j => mt_B m k j * x j))).
  2: { intros k Hk. rewrite HP by auto. unfold affine. ring. }
  rewrite (rsum_ext 3 _ (fun k => rsum 3 (fun j => mt_BInv m c k * mt_B m k j * x j))).
  2: { intros k Hk. rewrite <- rsum_scal. apply rsum_ext. intros; ring. }
  rewrite rsum_swap.
  rewrite (rsum_ext 3 _ (fun j => (if (c =? j)%nat then 1 else 0) * x j)).
  2: { intros j Hj. rewrite rsum_scal_r. f_equal. apply HI; auto. }
  destruct c as [|[|[|c]]]; [| | |lia]; cbn; ring.
Qed.

Lemma gather_ok A l : (forall d, (d < length l)%nat -> (nth d l 0 < m_cols A)%nat) -> gather A l = Ok {| m_rows := m_rows A; m_cols := length l; m_at := fun i j => m_at A i (nth j l 0%nat) |}.
Proof.
  intros H. unfold gather. assert (F : forallb (fun k => (k <? m_cols A)%nat) l = true); [|now rewrite F].
  apply forallb_forall. intros x Hx. apply Nat.ltb_lt. destruct (In_nth _ _ 0%nat Hx) as (d & Hd & <-). auto.
Qed.

Lemma local_values_ok o data dir m l points : (1 <= o)%nat -> Tri_Create o = Ok data -> (3 <= length dir)%nat -> in_range data -> Tri_CreateLocalSpace data 3 dir m = Ok l ->
  exists V, Tri_LocalValues data l points = Ok V /\ m_rows V = m_cols points /\ m_cols V = ft_NumBasisFunctions data /\
    forall q d c, (d < ft_NumBasisFunctions data)%nat -> nth_error (Lp o) (sig data dir d) = Some c -> m_at V q d = phi o c (m_at (mt_FInv m points) 0 q) (m_at (mt_FInv m points) 1 q).
Proof.
  intros Ho E Hd HR EL. destruct (local_ok o data dir m E Hd HR) as (l' & EL' & M1 & M2 & M3 & M4 & M5 & M6 & M7 & M8 & M9). rewrite EL in EL'. injection EL' as <-.
  pose proof (created_ok o data Ho E) as T. pose proof T as (_ & _ & _ & _ & T5 & _).
  unfold Tri_LocalValues. rewrite M1. destruct (tvalues_ok o Ho data (mt_FInv m points) T ltac:(cbn; lia)) as (V & EV & V1 & V2 & V3). rewrite EV. cbn [bind].
  rewrite gather_ok. 2: { intros d H. rewrite M3 in H. destruct (M6 d H) as (-> & H'). rewrite V2, <- T5. auto. }
  eexists. split; [reflexivity|]. cbn [m_rows m_cols m_at]. repeat split; auto. intros q d c Hdn Hc. destruct (M6 d Hdn) as (-> & _). now apply V3.
Qed.

(** C45 *)
Lemma C45_order_all : forall order data dir m, Tri_Create order = Ok data -> (3 <= length dir)%nat -> in_range data ->
  exists l, Tri_CreateLocalSpace data 3 dir m = Ok l /\
  let N := ft_NumBasisFunctions data in let n0 := ft_NumDofs0D data in let n1 := ft_NumDofs1D data in
  let s := fun d => nth d (lt_DofsMeshOrder l) 0%nat in
  length (lt_DofsMeshOrder l) = N /\
  (forall d, (d < N)%nat -> (s d < N)%nat /\ s (s d) = d) /\
  (forall d, (d < 3 * n0)%nat -> s d = d) /\
  (forall d, (3 * n0 + 3 * n1 <= d)%nat -> (d < N)%nat -> s d = d) /\
  (forall e k, (e < 3)%nat -> (k < n1)%nat -> s (3 * n0 + e * n1 + k)%nat = if nth e dir true then (3 * n0 + e * n1 + k)%nat else (3 * n0 + e * n1 + (n1 - 1 - k))%nat) /\
  m_cols (lt_Dofs l) = N /\
  (forall d c, (d < N)%nat -> m_at (lt_Dofs l) c d = affine (mt_B m) (mt_b m) (pt (ft_DofPositions data) (s d)) c).
Proof.
  intros order data dir m E Hd HR. destruct (local_ok order data dir m E Hd HR) as (l & EL & M1 & M2 & M3 & M4 & M5 & M6 & M7 & M8 & M9). exists l. split; auto. cbv zeta.
  destruct (created_counts order data E) as (C1 & _).
  set (N := ft_NumBasisFunctions data) in *. set (n0 := ft_NumDofs0D data) in *. set (n1 := ft_NumDofs1D data) in *.
  split; [auto|]. split; [|split; [|split; [|split; [|split; [auto|]]]]].
  - intros d H. destruct (M6 d H) as (-> & H'). split; auto. destruct (M6 _ H') as (-> & _). apply sigma_invol.
  - intros d H. assert (d < N)%nat by lia. destruct (M6 d H0) as (-> & _). apply sigma_fix. left. unfold ea. fold n0 n1. lia.
  - intros d H H'. destruct (M6 d H') as (-> & _). apply sigma_fix. right. unfold ea. fold n0 n1. lia.
  - intros e k He Hk. assert (3 * n0 + e * n1 + k < N)%nat by nia. destruct (M6 _ H) as (-> & _). unfold sig. fold n0 n1. rewrite (sigma_edge _ _ _ e) by (unfold ea; nia).
    unfold flip, ea. destruct (nth e dir true); lia.
  - intros d c H. rewrite M9 by auto. destruct (M6 d H) as (-> & _). reflexivity.
Qed.

(** lattice points along an edge *)
Definition ep (o e k : nat) : nat * nat := match e with O => (0, k) | S O => (k, o - k) | _ => (o - k, 0) end%nat.
Definition einx (o e k : nat) : nat := (if k =? 0 then e else if k =? o then (e + 1) mod 3 else 3 + e * (o - 1) + (k - 1))%nat.

Lemma Lp_ep o e k : (1 <= o)%nat -> (e < 3)%nat -> (k <= o)%nat -> nth_error (Lp o) (einx o e k) = Some (ep o e k).
Proof.
  intros Ho He Hk. unfold einx. destruct (Lp_vertex o) as (V0 & V1 & V2).
  destruct (Nat.eqb_spec k 0) as [->|K0].
  - destruct e as [|[|[|e]]]; [| | |lia]; cbn [ep]; rewrite ?Nat.sub_0_r; auto.
  - destruct (Nat.eqb_spec k o) as [->|K1].
    + destruct e as [|[|[|e]]]; [| | |lia]; cbn [ep]; rewrite ?Nat.sub_diag; auto.
    + destruct (Lp_edge o Ho (k - 1) ltac:(lia)) as (E0 & E1 & E2). replace (S (k - 1)) with k in * by lia. replace (o - 1 - (k - 1))%nat with (o - k)%nat in * by lia.
      destruct e as [|[|[|e]]]; [| | |lia]; cbn [ep].
      * rewrite Nat.mul_0_l, Nat.add_0_r. auto.
      * rewrite Nat.mul_1_l. auto.
      * auto.
Qed.
Lemma ep_le o e k : (k <= o)%nat -> (fst (ep o e k) + snd (ep o e k) <= o)%nat.
Proof. intros. destruct e as [|[|e]]; cbn; lia. Qed.

(** reference edge points *)
Definition vx (e : nat) : R := match e with S O => 1 | _ => 0 end.
Definition vy (e : nat) : R := match e with S (S O) => 1 | _ => 0 end.
Definition ex1 (e : nat) (r : R) : R := (1 - r) * vx e + r * vx ((e + 1) mod 3).
Definition ey1 (e : nat) (r : R) : R := (1 - r) * vy e + r * vy ((e + 1) mod 3).
Definition Lk (o k : nat) (s : R) : R := gb (INR o * s) k * gb (INR o * (1 - s)) (o - k).
Lemma gb_0 k : gb 0 k = if (k =? 0)%nat then 1 else 0.
Proof. destruct (Nat.eqb_spec k 0) as [->|]; [apply gb_O|]. change 0 with (INR 0) at 1. apply gb_lt. lia. Qed.

Lemma phi_on_edge o e i j r : (1 <= o)%nat -> (e < 3)%nat -> (i + j <= o)%nat ->
  (exists k, (k <= o)%nat /\ (i, j) = ep o e k /\ phi o (i, j) (ex1 e r) (ey1 e r) = Lk o k r) \/
  ((forall k, (k <= o)%nat -> (i, j) <> ep o e k) /\ phi o (i, j) (ex1 e r) (ey1 e r) = 0).
Proof.
  intros Ho He H. unfold phi, ex1, ey1, Lk. cbn [fst snd].
  destruct e as [|[|[|e]]]; [| | |lia]; cbn [Nat.add Nat.modulo Nat.divmod fst snd Nat.sub vx vy ep].
  - replace (INR o * ((1 - r) * 0 + r * 0)) with 0 by ring. rewrite gb_0. replace (1 - ((1 - r) * 0 + r * 1) - ((1 - r) * 0 + r * 0)) with (1 - r) by ring.
    replace (INR o * ((1 - r) * 0 + r * 1)) with (INR o * r) by ring.
    destruct (Nat.eqb_spec i 0) as [->|].
    + left. exists j. repeat split; [lia|]. replace (o - 0 - j)%nat with (o - j)%nat by lia. ring.
    + right. split; [intros k _ X; congruence|ring].
  - replace (1 - ((1 - r) * 1 + r * 0) - ((1 - r) * 0 + r * 1)) with 0 by ring. rewrite Rmult_0_r, gb_0.
    replace ((1 - r) * 1 + r * 0) with (1 - r) by ring. replace ((1 - r) * 0 + r * 1) with r by ring.
    destruct (Nat.eqb_spec (o - i - j) 0).
    + left. exists i. replace (o - i)%nat with j by lia. repeat split; [lia|]. ring.
    + right. split; [intros k Hk X; injection X as -> ->; lia|ring].
  - replace (INR o * ((1 - r) * 0 + r * 0)) with 0 by ring. rewrite gb_0. replace (1 - ((1 - r) * 0 + r * 0) - ((1 - r) * 1 + r * 0)) with r by ring.
    replace ((1 - r) * 1 + r * 0) with (1 - r) by ring.
    destruct (Nat.eqb_spec j 0) as [->|].
    + left. exists (o - i)%nat. replace (o - (o - i))%nat with i by lia. repeat split; [lia|]. replace (o - i - 0)%nat with (o - i)%nat by lia. ring.
    + right. split; [intros k _ X; congruence|ring].
Qed.
Lemma Lk_rev o k s : (k <= o)%nat -> Lk o (o - k) (1 - s) = Lk o k s.
Proof. intros. unfold Lk. replace (o - (o - k))%nat with k by lia. replace (1 - (1 - s)) with s by ring. ring. Qed.

(** vertex and edge unknowns after renumbering *)
Definition start (dir : list bool) (e : nat) : nat := (if nth e dir true then e else (e + 1) mod 3)%nat.
Definition stop (dir : list bool) (e : nat) : nat := (if nth e dir true then (e + 1) mod 3 else e)%nat.

Section Trace.
Variables (o : nat) (data : Tri_Data) (dir : list bool) (m : MapTriangleData) (l : Tri_Local).
Hypotheses (Ho : (1 <= o)%nat) (E : Tri_Create o = Ok data) (Hdir : (3 <= length dir)%nat) (HR : in_range data) (EL : Tri_CreateLocalSpace data 3 dir m = Ok l)
  (HI : inverse3 (mt_B m) (mt_BInv m)).

Lemma counts : ft_NumDofs0D data = 1%nat /\ ft_NumDofs1D data = (o - 1)%nat /\ ft_NumBasisFunctions data = NN o /\ (3 + 3 * (o - 1) <= NN o)%nat.
Proof. destruct (created_ok o data Ho E) as (T1 & T2 & T3 & T4 & T5 & _). repeat split; auto. lia. Qed.

(** index along the edge's own orientation *)
Lemma sig_edge e k : (e < 3)%nat -> (k < o - 1)%nat -> sig data dir (3 + e * (o - 1) + k) = einx o e (if nth e dir true then S k else (o - S k)%nat).
Proof.
  intros He Hk. destruct counts as (C0 & C1 & C2 & C3). unfold sig. rewrite C0, C1. rewrite (sigma_edge _ _ _ e) by (unfold ea; lia).
  unfold flip, ea, einx. destruct (nth e dir true).
  - destruct (Nat.eqb_spec (S k) 0); [lia|]. destruct (Nat.eqb_spec (S k) o); lia.
  - destruct (Nat.eqb_spec (o - S k) 0); [lia|]. destruct (Nat.eqb_spec (o - S k) o); lia.
Qed.
Lemma sig_vertex v : (v < 3)%nat -> sig data dir v = v.
Proof. intros H. destruct counts as (C0 & C1 & _). unfold sig. rewrite C0, C1. apply sigma_fix. left. unfold ea. lia. Qed.
Lemma mod3 e : (e < 3)%nat -> ((e + 1) mod 3 < 3)%nat. Proof. intros. apply Nat.mod_upper_bound. lia. Qed.
Lemma vertex_index e (b : bool) : (if b then e else (e + 1) mod 3)%nat = einx o e (if b then 0 else o)%nat.
Proof. unfold einx. destruct b; [reflexivity|]. destruct (Nat.eqb_spec o 0); [lia|]. now rewrite Nat.eqb_refl. Qed.

Lemma vertex_pos v c : (v < 3)%nat -> m_at (lt_Dofs l) c v = affine (mt_B m) (mt_b m) (vec3 (vx v) (vy v) 0) c.
Proof.
  intros Hv. destruct counts as (C0 & C1 & C2 & C3). destruct (local_ok o data dir m E Hdir HR) as (l' & EL' & _ & _ & _ & _ & _ & _ & _ & _ & M9). rewrite EL in EL'. injection EL' as <-.
  rewrite M9 by lia. rewrite sig_vertex by auto. unfold affine. f_equal. apply rsum_ext. intros k Hk. f_equal. unfold pt.
  destruct (C41_all o Ho) as (data' & E' & _ & _ & _ & _ & _ & _ & _ & _ & _ & P0 & P1 & P2 & _). rewrite E in E'. injection E' as <-.
  destruct P0 as (? & ? & ?), P1 as (? & ? & ?), P2 as (? & ? & ?).
  destruct v as [|[|[|v]]]; [| | |lia]; destruct k as [|[|[|k]]]; try lia; cbn [vx vy vec3]; auto.
Qed.

(** the reference point of a point of edge [e] *)
Lemma edge_point e s c : (e < 3)%nat ->
  (1 - s) * m_at (lt_Dofs l) c (start dir e) + s * m_at (lt_Dofs l) c (stop dir e) =
  affine (mt_B m) (mt_b m) (vec3 (ex1 e (if nth e dir true then s else 1 - s)) (ey1 e (if nth e dir true then s else 1 - s)) 0) c.
Proof.
  intros He. pose proof (mod3 e He). unfold start, stop, ex1, ey1. destruct (nth e dir true); rewrite !vertex_pos by auto; unfold affine; cbn [rsum vec3]; ring.
Qed.

Lemma trace e s : (e < 3)%nat -> exists V,
  Tri_LocalValues data l (space_point (fun c => (1 - s) * m_at (lt_Dofs l) c (start dir e) + s * m_at (lt_Dofs l) c (stop dir e))) = Ok V /\
  m_at V 0 (start dir e) = Lk o 0 s /\ m_at V 0 (stop dir e) = Lk o o s /\
  (forall k, (k < o - 1)%nat -> m_at V 0 (3 + e * (o - 1) + k) = Lk o (S k) s) /\
  (forall d, (d < ft_NumBasisFunctions data)%nat -> d <> start dir e -> d <> stop dir e -> ~ (3 + e * (o - 1) <= d < 3 + S e * (o - 1))%nat -> m_at V 0 d = 0).
Proof.
  intros He. destruct counts as (C0 & C1 & C2 & C3).
  match goal with |- context [space_point ?p] => destruct (local_values_ok o data dir m l (space_point p) Ho E Hdir HR EL) as (V & EV & _ & _ & VV); set (P := space_point p) in * end.
  exists V. split; [exact EV|].
  set (r := if nth e dir true then s else 1 - s).
  assert (X : forall c, (c < 3)%nat -> m_at (mt_FInv m P) c 0 = vec3 (ex1 e r) (ey1 e r) 0 c).
  { apply FInv_F; auto. intros c Hc. unfold P. cbn [space_point m_at]. now apply edge_point. }
  assert (VD : forall d i j, (d < ft_NumBasisFunctions data)%nat -> nth_error (Lp o) (sig data dir d) = Some (i, j) -> m_at V 0 d = phi o (i, j) (ex1 e r) (ey1 e r)).
  { intros d i j Hd Hp. rewrite (VV 0%nat d _ Hd Hp), !X by lia. reflexivity. }
  (* a dof at lattice position k of the edge *)
  assert (VE : forall d k, (d < ft_NumBasisFunctions data)%nat -> (k <= o)%nat -> sig data dir d = einx o e k -> m_at V 0 d = Lk o k r).
  { intros d k Hd Hk Hs. pose proof (Lp_ep o e k Ho He Hk) as Ep. rewrite <- Hs in Ep. destruct (ep o e k) as [i j] eqn:EE.
    assert (Hij : (i + j <= o)%nat) by (pose proof (ep_le o e k Hk) as Q; rewrite EE in Q; exact Q).
    rewrite (VD d i j Hd Ep). destruct (phi_on_edge o e i j r Ho He Hij) as [(k' & Hk' & Ek' & ->)|(Nk & _)].
    - f_equal. rewrite <- EE in Ek'. destruct e as [|[|e]]; cbn [ep] in Ek'; injection Ek'; lia.
    - exfalso. apply (Nk k Hk). auto. }
  assert (Hm := mod3 e He).
  assert (N3 : (3 <= ft_NumBasisFunctions data)%nat) by lia.
  split; [|split; [|split]].
  - rewrite (VE _ (if nth e dir true then 0 else o)%nat).
    + unfold r. destruct (nth e dir true); auto. rewrite <- (Lk_rev o 0 s) by lia. now rewrite Nat.sub_0_r.
    + unfold start. destruct (nth e dir true); lia.
    + destruct (nth e dir true); lia.
    + rewrite sig_vertex by (unfold start; destruct (nth e dir true); lia). unfold start. apply (vertex_index e (nth e dir true)).
  - rewrite (VE _ (if nth e dir true then o else 0)%nat).
    + unfold r. destruct (nth e dir true); auto. rewrite <- (Lk_rev o o s) by lia. now rewrite Nat.sub_diag.
    + unfold stop. destruct (nth e dir true); lia.
    + destruct (nth e dir true); lia.
    + rewrite sig_vertex by (unfold stop; destruct (nth e dir true); lia). unfold stop. pose proof (vertex_index e (negb (nth e dir true))). destruct (nth e dir true); auto.
  - intros k Hk. rewrite (VE _ (if nth e dir true then S k else o - S k)%nat).
    + unfold r. destruct (nth e dir true); auto. apply Lk_rev. lia.
    + nia.
    + destruct (nth e dir true); lia.
    + rewrite sig_edge by auto. destruct (nth e dir true); auto.
  - intros d Hd N1 N2 N4. destruct (local_ok o data dir m E Hdir HR) as (l' & EL' & _ & _ & _ & _ & _ & M6 & _). destruct (M6 d Hd) as (_ & Hs).
    destruct (nth_error_Some_ex (Lp o) (i:=sig data dir d)) as ((i & j) & Ep); [rewrite Lp_length by auto; lia|].
    rewrite (VD d i j Hd Ep).
    assert (Hij : (i + j <= o)%nat) by (pose proof (nth_error_In _ _ Ep) as Q; apply (Lp_In o Ho) in Q; auto).
    destruct (phi_on_edge o e i j r Ho He Hij) as [(k & Hk & Ek & _)|(_ & H)]; auto. exfalso.
    pose proof (Lp_ep o e k Ho He Hk) as Ep'. rewrite <- Ek in Ep'.
    assert (Q : sig data dir d = einx o e k).
    { apply (NoDup_nth_error (Lp o)); [apply Lp_NoDup; auto|rewrite Lp_length; lia|]. congruence. }
    assert (Q' : d = sig data dir (einx o e k)) by (rewrite <- Q; symmetry; apply sigma_invol).
    unfold einx in Q'. destruct (Nat.eqb_spec k 0) as [->|].
    + rewrite sig_vertex in Q' by auto. unfold start, stop in *. destruct (nth e dir true); congruence.
    + destruct (Nat.eqb_spec k o) as [->|].
      * rewrite sig_vertex in Q' by auto. unfold start, stop in *. destruct (nth e dir true); congruence.
      * rewrite sig_edge in Q' by lia. apply N4. rewrite Q'. unfold einx. destruct (nth e dir true).
        -- destruct (Nat.eqb_spec (S (k - 1)) 0); [lia|]. destruct (Nat.eqb_spec (S (k - 1)) o); lia.
        -- destruct (Nat.eqb_spec (o - S (k - 1)) 0); [lia|]. destruct (Nat.eqb_spec (o - S (k - 1)) o); lia.
Qed.

(** edge unknowns sit along the edge's own orientation *)
Lemma edge_dofs e k c : (e < 3)%nat -> (k < o - 1)%nat -> (c < 3)%nat -> let s := INR (S k) / INR o in
  m_at (lt_Dofs l) c (3 + e * (o - 1) + k) = (1 - s) * m_at (lt_Dofs l) c (start dir e) + s * m_at (lt_Dofs l) c (stop dir e).
Proof.
  intros He Hk Hc s. destruct counts as (C0 & C1 & C2 & C3). rewrite edge_point by auto.
  destruct (local_ok o data dir m E Hdir HR) as (l' & EL' & _ & _ & _ & _ & _ & _ & _ & _ & M9). rewrite EL in EL'. injection EL' as <-.
  rewrite M9 by nia. rewrite sig_edge by auto. unfold affine. f_equal. apply rsum_ext. intros x Hx. f_equal.
  set (k' := if nth e dir true then S k else (o - S k)%nat).
  assert (Hk' : (k' <= o)%nat) by (unfold k'; destruct (nth e dir true); lia).
  destruct (created_ok o data Ho E) as (_ & _ & _ & _ & _ & _ & _ & _ & _ & T10). pose proof (T10 _ _ (Lp_ep o e k' Ho He Hk')) as A.
  pose proof (o_neq o Ho) as On.
  assert (R : INR k' / INR o = if nth e dir true then s else 1 - s).
  { unfold k', s. destruct (nth e dir true); auto. rewrite minus_INR by lia. field. auto. }
  rewrite <- R. unfold pt. destruct e as [|[|[|e]]]; [| | |lia]; cbn [ep] in A; destruct A as (A0 & A1 & A2 & _); unfold TriangleProofs.h in *; unfold ex1, ey1;
    cbn [Nat.add Nat.modulo Nat.divmod fst snd Nat.sub vx vy]; destruct x as [|[|[|x]]]; try lia; cbn [vec3]; rewrite ?A0, ?A1, ?A2; rewrite ?minus_INR by lia; cbn [INR]; field; auto.
Qed.

Lemma values_sum e s u : (e < 3)%nat -> exists V,
  Tri_LocalValues data l (space_point (fun c => (1 - s) * m_at (lt_Dofs l) c (start dir e) + s * m_at (lt_Dofs l) c (stop dir e))) = Ok V /\
  rsum (ft_NumBasisFunctions data) (fun d => u d * m_at V 0 d) =
    u (start dir e) * Lk o 0 s + u (stop dir e) * Lk o o s + rsum (o - 1) (fun k => u (3 + e * (o - 1) + k)%nat * Lk o (S k) s).
Proof.
  intros He. destruct (trace e s He) as (V & EV & V1 & V2 & V3 & V4). exists V. split; auto. destruct counts as (C0 & C1 & C2 & C3).
  assert (X : rsum (NN o) (fun d => u d * m_at V 0 d) = rsum 3 (fun d => u d * m_at V 0 d) + (rsum (o - 1) (fun k => u (3 + e * (o - 1) + k)%nat * m_at V 0 (3 + e * (o - 1) + k)%nat))).
  { rewrite C2 in *. replace (NN o) with (3 + (e * (o - 1) + ((o - 1) + (NN o - 3 - S e * (o - 1)))))%nat by nia.
    rewrite rsum_add. f_equal. rewrite rsum_add, rsum_0. 2: { intros t Ht. rewrite V4; [ring|nia|..]; unfold start, stop; pose proof (mod3 e He); try (destruct (nth e dir true)); nia. }
    rewrite Rplus_0_l, rsum_add. rewrite (rsum_0 (NN o - 3 - S e * (o - 1))). 2: { intros t Ht. rewrite V4; [ring|nia|..]; unfold start, stop; pose proof (mod3 e He); try (destruct (nth e dir true)); nia. }
    rewrite Rplus_0_r. apply rsum_ext. intros k Hk. now rewrite Nat.add_assoc. }
  rewrite C2 in *. rewrite X. f_equal.
  - rewrite <- V1, <- V2. assert (Y : forall d, (d < 3)%nat -> d <> start dir e -> d <> stop dir e -> m_at V 0 d = 0) by (intros d Hd Q1 Q2; apply V4; auto; nia).
    unfold start, stop in *. destruct e as [|[|[|e]]]; [| | |lia]; cbn [rsum]; destruct (nth _ dir true);
      cbn [Nat.add Nat.modulo Nat.divmod fst snd Nat.sub] in *;
      first [rewrite (Y 2%nat) by lia; ring | rewrite (Y 1%nat) by lia; ring | rewrite (Y 0%nat) by lia; ring].
  - apply rsum_ext. intros k Hk. now rewrite V3.
Qed.
End Trace.
