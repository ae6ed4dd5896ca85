From Coq Require Import List Arith Bool Lia Reals Lra.
From Verif Require Import Base RSum MatrixModel MonomialsModel LagrangeModel LagrangeSpec LagrangeProofs.
Import ListNotations.
Local Open Scope R_scope.

(** ** FEM 1D reference element *)
Lemma classify_ok n : (2 <= n)%nat -> classify_1D n = Ok ([0; n - 1]%nat, seq 1 (n - 2), (1, 1)%nat, n).
Proof.
  intros Hn. unfold classify_1D.
  match goal with |- for_loop _ ?f ?s0 = _ => destruct (flt (fun i (s : list nat * list nat * (nat * nat) * nat) => s =
    ((if (i =? 0) then [] else if (i <? n) then [0] else [0; n - 1]), seq 1 (Nat.min (i - 1) (n - 2)),
     ((if (i =? 0) then 0 else 1), if (i <? n) then 0 else 1), i)%nat) f n s0) as (s & E & H) end.
  - cbn. destruct n; [lia|]. reflexivity.
  - intros i s Hi ->. match goal with |- exists z, Ok ?v = Ok z /\ _ => exists v end. split; auto.
    destruct (Nat.eqb_spec i 0) as [->|N].
    + destruct (Nat.ltb_spec 0 n); [|lia]. cbn [Nat.eqb]. destruct (Nat.ltb_spec 1 n); [|lia]. reflexivity.
    + destruct (Nat.ltb_spec i n); [|lia]. cbn [Nat.eqb]. destruct (Nat.eqb_spec i (n - 1)) as [->|N'].
      * destruct (Nat.ltb_spec (S (n - 1)) n); [lia|]. replace (S (n - 1) - 1)%nat with (n - 1)%nat by lia.
        replace (Nat.min (n - 1 - 1) (n - 2)) with (Nat.min (n - 1) (n - 2)) by lia. reflexivity.
      * destruct (Nat.ltb_spec (S i) n); [|lia]. replace (Nat.min (S i - 1) (n - 2)) with (S (Nat.min (i - 1) (n - 2))) by lia.
        rewrite seq_snoc. replace (1 + Nat.min (i - 1) (n - 2))%nat with i by lia. reflexivity.
  - rewrite E, H. destruct (Nat.eqb_spec n 0); [lia|]. rewrite Nat.ltb_irrefl. replace (Nat.min (n - 1) (n - 2)) with (n - 2)%nat by lia. reflexivity.
Qed.

(** where the k-th dof of the element stands among the [n] points *)
Definition perm1 (n k : nat) : nat := match k with O => 0%nat | 1%nat => (n - 1)%nat | _ => (k - 1)%nat end.
Lemma perm1_lt n k : (2 <= n)%nat -> (k < n)%nat -> (perm1 n k < n)%nat.
Proof. intros Hn Hk. destruct k as [|[|k]]; cbn; lia. Qed.
Lemma perm1_inj n i j : (2 <= n)%nat -> (i < n)%nat -> (j < n)%nat -> perm1 n i = perm1 n j -> i = j.
Proof. intros Hn Hi Hj. destruct i as [|[|i]], j as [|[|j]]; cbn; lia. Qed.

Definition pos_ok (n : nat) (p : nat -> R) (Q : Mat) (k0 : nat) : Prop :=
  m_rows Q = 3%nat /\ m_cols Q = n /\
  forall k, (k < k0)%nat -> m_at Q 0 k = p (perm1 n k) /\ m_at Q 1 k = 0 /\ m_at Q 2 k = 0.

Lemma copy_ok n p Q k P src : pos_ok n p Q k -> (k < n)%nat -> m_rows P = 3%nat -> m_cols P = n -> (src < n)%nat -> src = perm1 n k ->
  (forall a, m_at P 0 a = p a) -> (forall a, m_at P 1 a = 0) -> (forall a, m_at P 2 a = 0) ->
  exists Q', copy_col P src (Q, k) = Ok (Q', S k) /\ pos_ok n p Q' (S k).
Proof.
  intros (S1 & S2 & S3) Hk P1 P2 Hs -> H0 H1 H2. unfold copy_col, mcol. rewrite P2. destruct (Nat.ltb_spec (perm1 n k) n); [|lia]. cbn [bind].
  unfold mat_set_col. rewrite S2. destruct (Nat.ltb_spec k n); [|lia]. cbn [bind].
  match goal with |- exists z, Ok (?v, _) = _ /\ _ => exists v end. split; auto. split; [|split]; auto. cbn [m_at].
  intros a Ha. destruct (Nat.eqb_spec a k) as [->|]; auto. apply S3. lia.
Qed.

Definition row0 (lobatto : nat -> Vec) (order : nat) (type : FEM_PCC_1D_Types) : Vec :=
  match type with Equispaced => LinSpaced01 (order + 1) | GaussLobatto => lobatto (2 * order - 1)%nat end.

Definition posvec (Q : Mat) : Vec := {| v_size := m_cols Q; v_at := fun q => m_at Q 0 q |}.

Lemma create1_ok junk lobatto order type : (1 <= order)%nat -> v_size (row0 lobatto order type) = (order + 1)%nat ->
  distinct (order + 1) (v_at (row0 lobatto order type)) ->
  exists data, FEM_1D_Create junk lobatto order type = Ok data /\
    f1_Order data = order /\ f1_NumDofs0D data = 1%nat /\ f1_NumDofs1D data = (order - 1)%nat /\ f1_NumBasisFunctions data = (order + 1)%nat /\
    pos_ok (order + 1) (v_at (row0 lobatto order type)) (f1_DofPositions data) (order + 1) /\
    distinct (order + 1) (v_at (posvec (f1_DofPositions data))) /\
    Lagrange_1D_coefficients junk (posvec (f1_DofPositions data)) = Ok (f1_coefficients data).
Proof.
  intros Ho Hs HD. unfold FEM_1D_Create. destruct (Nat.eqb_spec order 0) as [|_]; [lia|]. fold (row0 lobatto order type).
  set (n := (order + 1)%nat) in *. rewrite Hs, Nat.eqb_refl. cbn [negb].
  set (p := v_at (row0 lobatto order type)) in *.
  cbn [mat_set_row mzero m_rows Nat.ltb Nat.leb bind m_cols m_at].
  match goal with |- context [copy_col ?p0 _ _] => set (P := p0) end.
  rewrite classify_ok by lia. cbn [bind].
  rewrite Nat.eqb_refl. cbn [negb orb length nth Nat.add Nat.eqb].
  assert (P1 : m_rows P = 3%nat) by reflexivity. assert (P2 : m_cols P = n) by reflexivity.
  assert (A0 : forall a, m_at P 0 a = p a) by reflexivity. assert (A1 : forall a, m_at P 1 a = 0) by reflexivity. assert (A2 : forall a, m_at P 2 a = 0) by reflexivity.
  assert (I0 : pos_ok n p (mraw junk 3 n) 0) by (repeat split; auto; intros; lia).
  destruct (copy_ok n p _ 0 P 0 I0 ltac:(lia) P1 P2 ltac:(lia) eq_refl A0 A1 A2) as (Q1 & E1 & I1).
  destruct (copy_ok n p _ 1 P (n - 1) I1 ltac:(lia) P1 P2 ltac:(lia) eq_refl A0 A1 A2) as (Q2 & E2 & I2).
  unfold for_loop at 1. cbn [for_from idx_ nth_error bind Nat.add Nat.sub]. rewrite E1. cbn [bind]. rewrite E2. cbn [bind].
  rewrite seq_length.
  destruct (flt (fun i (s : Mat * nat) => snd s = (i + 2)%nat /\ pos_ok n p (fst s) (i + 2))
    (fun i s => src <- idx_ (seq 1 (n - 2)) i ;; copy_col P src s) (n - 2) (Q2, 2%nat)) as ((Q & k) & E & Hk & IQ).
  - split; auto.
  - intros i (Q & k) Hi (Hk & IQ). cbn [fst snd] in Hk, IQ. subst k. unfold idx_. rewrite nth_error_seq_lt by lia. cbn [bind].
    destruct (copy_ok n p Q (i + 2) P (1 + i) IQ ltac:(lia) P1 P2 ltac:(lia)) as (Q' & E & IQ'); auto.
    + replace (i + 2)%nat with (S (S i)) by lia. cbn. lia.
    + exists (Q', S (i + 2)). split; auto.
  - rewrite E. cbn [bind]. cbn [fst snd] in IQ. replace (n - 2 + 2)%nat with n in IQ by lia.
    destruct IQ as (S1 & S2 & S3). unfold row_vec, mrow. rewrite S1. cbn [Nat.ltb Nat.leb bind]. fold (posvec Q).
    assert (DQ : distinct n (v_at (posvec Q))).
    { intros i j Hi Hj H. cbn [posvec v_at] in H. destruct (S3 i Hi) as (-> & _) in H. destruct (S3 j Hj) as (Ej & _). rewrite Ej in H.
      apply HD in H; try (apply perm1_lt; lia). apply perm1_inj in H; auto; lia. }
    destruct (coefficients_ok junk (posvec Q)) as (c & Ec & _). { cbn [posvec v_size]. rewrite S2. exact DQ. }
    rewrite Ec. cbn [bind]. match goal with |- exists z, Ok ?v = Ok z /\ _ => exists v end. split; auto.
    cbn [f1_Order f1_NumDofs0D f1_NumDofs1D f1_NumBasisFunctions f1_DofPositions f1_coefficients].
    split; [|split; [|split; [|split; [|split; [|split]]]]]; auto. split; auto.
Qed.

Lemma linspaced_distinct n : distinct n (v_at (LinSpaced01 n)).
Proof.
  intros i j Hi Hj H. cbn [LinSpaced01 v_at] in H. destruct (Nat.eqb_spec n 1); [lia|].
  apply INR_eq. apply (Rmult_eq_reg_r (/ INR (n - 1))); auto. apply Rinv_neq_0_compat. apply not_0_INR. lia.
Qed.

Lemma row_vec_ok A : (0 < m_rows A)%nat -> row_vec A 0 = Ok (posvec A).
Proof. intros H. unfold row_vec, mrow. destruct (Nat.ltb_spec 0 (m_rows A)); [reflexivity|lia]. Qed.

(** the values and derivatives of a created element *)
Definition phi1 (x : nat -> R) (n i : nat) (t : R) : R := pne n i (fun j => t - x j) / pne n i (fun j => x i - x j).

Lemma values1_ok junk n Q c pts : m_rows Q = 3%nat -> m_cols Q = n -> distinct n (v_at (posvec Q)) -> (0 < m_rows pts)%nat ->
  Lagrange_1D_coefficients junk (posvec Q) = Ok c ->
  forall data, f1_DofPositions data = Q -> f1_coefficients data = c ->
  exists V, FEM_1D_Values junk pts data = Ok V /\ m_rows V = m_cols pts /\ m_cols V = n /\
    forall q i, (q < m_cols pts)%nat -> (i < n)%nat -> m_at V q i = phi1 (fun k => m_at Q 0 k) n i (m_at pts 0 q).
Proof.
  intros S1 S2 D Hp Ec data EQ E. unfold FEM_1D_Values. rewrite EQ, E, !row_vec_ok by lia. cbn [bind].
  destruct (lagrange_ok junk (posvec Q) (posvec pts)) as (c' & V & Ec' & EV & _ & V1 & V2 & V3).
  { cbn [posvec v_size]. rewrite S2. auto. }
  rewrite Ec in Ec'. injection Ec' as <-. exists V. cbn [posvec v_size v_at] in V1, V2, V3. rewrite S2 in V2. repeat split; auto.
  intros q i Hq Hi. rewrite V3 by (rewrite ?S2; auto). rewrite S2. reflexivity.
Qed.

Definition dphi1 (x : nat -> R) (n i : nat) (t : R) : R :=
  rsum n (fun j => if (j =? i)%nat then 0 else rprod n (fun k => if ((k =? j) || (k =? i))%nat then 1 else t - x k)) / pne n i (fun j => x i - x j).

Lemma derivs1_ok junk n Q c pts : m_rows Q = 3%nat -> m_cols Q = n -> distinct n (v_at (posvec Q)) -> (0 < m_rows pts)%nat ->
  Lagrange_1D_coefficients junk (posvec Q) = Ok c ->
  forall data, f1_DofPositions data = Q -> f1_coefficients data = c ->
  exists V, FEM_1D_Derivatives junk pts data = Ok [V] /\ m_rows V = m_cols pts /\ m_cols V = n /\
    forall q i, (q < m_cols pts)%nat -> (i < n)%nat -> m_at V q i = dphi1 (fun k => m_at Q 0 k) n i (m_at pts 0 q).
Proof.
  intros S1 S2 D Hp Ec data EQ E. unfold FEM_1D_Derivatives. rewrite EQ, E, !row_vec_ok by lia. cbn [bind].
  destruct (coefficients_ok junk (posvec Q)) as (c' & Ec' & C1 & C2). { cbn [posvec v_size]. rewrite S2. auto. }
  rewrite Ec in Ec'. injection Ec' as <-.
  destruct (derivative_values_ok junk (posvec Q) c (posvec pts) (fun _ => C1)) as (V & EV & V1 & V2 & V3).
  rewrite EV. cbn [bind]. exists V. cbn [posvec v_size v_at] in V1, V2, V3, C2. rewrite S2 in *. repeat split; auto.
  intros q i Hq Hi. rewrite V3, C2 by auto. unfold dphi1.
  destruct (Nat.eqb_spec n 1) as [->|]; [|unfold Rdiv; ring]. assert (i = 0%nat) by lia. subst i. unfold pne. cbn. field.
Qed.

Lemma dphi1_derivative x n i t : (i < n)%nat -> derivable_pt_lim (phi1 x n i) t (dphi1 x n i t).
Proof.
  intros Hi. unfold phi1, dphi1. pose proof (derivable_pt_lim_scal _ (/ pne n i (fun j => x i - x j)) _ _ (derivable_pne n i x t Hi)) as H.
  eapply derivable_pt_lim_ext in H; [|intros s; unfold mult_real_fct; rewrite Rmult_comm; reflexivity].
  match goal with |- derivable_pt_lim _ _ ?l => match type of H with derivable_pt_lim _ _ ?l' => replace l with l' by (unfold Rdiv; ring) end end.
  exact H.
Qed.

Lemma phi1_nodal x n i j : distinct n x -> (i < n)%nat -> (j < n)%nat -> phi1 x n i (x j) = kron i j.
Proof.
  intros D Hi Hj. unfold phi1, kron. destruct (Nat.eqb_spec i j) as [->|N].
  - field. apply pne_neq_0; auto.
  - rewrite pne_other by auto. unfold Rdiv. ring.
Qed.

Lemma C40_dofs_all : forall junk lobatto order type, (1 <= order)%nat ->
  (type = GaussLobatto -> v_size (lobatto (2 * order - 1)%nat) = (order + 1)%nat /\ distinct (order + 1) (v_at (lobatto (2 * order - 1)%nat))) ->
  exists data, FEM_1D_Create junk lobatto order type = Ok data /\
    f1_NumBasisFunctions data = (order + 1)%nat /\ (2 * f1_NumDofs0D data + f1_NumDofs1D data = f1_NumBasisFunctions data)%nat /\
    f1_NumDofs0D data = 1%nat /\
    m_rows (f1_DofPositions data) = 3%nat /\ m_cols (f1_DofPositions data) = (order + 1)%nat /\
    let p := fun i => match type with Equispaced => INR i / INR order | GaussLobatto => v_at (lobatto (2 * order - 1)%nat) i end in
    m_at (f1_DofPositions data) 0 0 = p 0%nat /\
    m_at (f1_DofPositions data) 0 1 = p order /\
    (forall k, (k < order - 1)%nat -> m_at (f1_DofPositions data) 0 (2 + k) = p (1 + k)%nat) /\
    (forall k, (k < order + 1)%nat -> m_at (f1_DofPositions data) 1 k = 0 /\ m_at (f1_DofPositions data) 2 k = 0).
Proof.
  intros junk lobatto order type Ho HL.
  destruct (create1_ok junk lobatto order type Ho) as (data & E & _ & N0 & N1 & N2 & (S1 & S2 & S3) & _ & _).
  - destruct type; [reflexivity|exact (proj1 (HL eq_refl))].
  - destruct type; [apply linspaced_distinct|exact (proj2 (HL eq_refl))].
  - exists data. set (p := fun i => _). assert (Hp : forall i, v_at (row0 lobatto order type) i = p i).
    { intros i. unfold p, row0. destruct type; auto. cbn [LinSpaced01 v_at]. destruct (Nat.eqb_spec (order + 1) 1); [lia|]. now replace (order + 1 - 1)%nat with order by lia. }
    repeat split; auto; try lia.
    + rewrite <- Hp. apply (S3 0%nat). lia.
    + destruct (S3 1%nat ltac:(lia)) as (-> & _). rewrite Hp. cbn. f_equal. lia.
    + intros k Hk. destruct (S3 (2 + k)%nat ltac:(lia)) as (-> & _). rewrite Hp. reflexivity.
    + apply S3; auto.
    + apply S3; auto.
Qed.

Lemma C40_basis_all : forall junk lobatto order type data, (1 <= order)%nat ->
  (type = GaussLobatto -> v_size (lobatto (2 * order - 1)%nat) = (order + 1)%nat /\ distinct (order + 1) (v_at (lobatto (2 * order - 1)%nat))) ->
  FEM_1D_Create junk lobatto order type = Ok data ->
  (exists V, FEM_1D_Values junk (f1_DofPositions data) data = Ok V /\ m_rows V = (order + 1)%nat /\ m_cols V = (order + 1)%nat /\
     forall i j, (i < order + 1)%nat -> (j < order + 1)%nat -> m_at V j i = kron i j) /\
  (forall points a, (0 < m_rows points)%nat -> exists V, FEM_1D_Values junk points data = Ok V /\ m_rows V = m_cols points /\ m_cols V = (order + 1)%nat /\
     forall q, (q < m_cols points)%nat ->
       rsum (order + 1) (fun i => polynomial (order + 1) a (m_at (f1_DofPositions data) 0 i) * m_at V q i) = polynomial (order + 1) a (m_at points 0 q)).
Proof.
  intros junk lobatto order type data Ho HL E.
  destruct (create1_ok junk lobatto order type Ho) as (data' & E' & _ & N0 & N1 & N2 & (S1 & S2 & S3) & D & Ec).
  - destruct type; [reflexivity|exact (proj1 (HL eq_refl))].
  - destruct type; [apply linspaced_distinct|exact (proj2 (HL eq_refl))].
  - rewrite E in E'. injection E' as <-. split.
    + destruct (values1_ok junk _ _ _ (f1_DofPositions data) S1 S2 D ltac:(lia) Ec data eq_refl eq_refl) as (V & EV & V1 & V2 & V3).
      exists V. rewrite S2 in V1. repeat split; auto. intros i j Hi Hj. rewrite V3 by (rewrite ?S2; auto).
      apply (phi1_nodal (fun k => m_at (f1_DofPositions data) 0 k)); auto.
    + intros pts a Hp. destruct (values1_ok junk _ _ _ pts S1 S2 D Hp Ec data eq_refl eq_refl) as (V & EV & V1 & V2 & V3).
      exists V. repeat split; auto. intros q Hq.
      rewrite <- (lagrange_reproduces (order + 1) (fun k => m_at (f1_DofPositions data) 0 k) (polynomial (order + 1) a) (m_at pts 0 q) D (is_poly_coeffs _ _)).
      apply rsum_ext. intros i Hi. now rewrite V3.
Qed.

Lemma C40_order0_all : forall junk lobatto type, exists data, FEM_1D_Create junk lobatto 0 type = Ok data /\
  f1_NumBasisFunctions data = 1%nat /\ (2 * f1_NumDofs0D data + f1_NumDofs1D data = 1)%nat /\ m_at (f1_DofPositions data) 0 0 = 1 / 2 /\
  forall points, (0 < m_rows points)%nat -> exists V D, FEM_1D_Values junk points data = Ok V /\ FEM_1D_Derivatives junk points data = Ok [D] /\
    forall q, m_at V q 0 = 1 /\ m_at D q 0 = 0.
Proof.
  intros. eexists. split; [reflexivity|]. cbn [f1_NumBasisFunctions f1_NumDofs0D f1_NumDofs1D f1_DofPositions m_at]. repeat split.
  intros pts Hp. unfold FEM_1D_Values, FEM_1D_Derivatives. rewrite !row_vec_ok by (cbn; lia). cbn [bind posvec f1_DofPositions m_cols]. unfold Lagrange_1D_values, Lagrange_1D_derivative_values. cbn [v_size Nat.eqb bind].
  eexists. eexists. repeat split; reflexivity.
Qed.

(** ** the local space of a segment *)
Lemma push_range_ok n a b k l : (a <= b)%nat -> (k + (b - a) <= n)%nat -> length l = n -> k = a ->
  (forall i, (i < k)%nat -> nth_error l i = Some i) ->
  exists l', push_range a b (l, k) = Ok (l', b) /\ length l' = n /\ forall i, (i < b)%nat -> nth_error l' i = Some i.
Proof.
  intros Hab Hn Hl -> H. unfold push_range.
  destruct (@for_from_total (list nat * nat) (fun d s => snd s = d /\ length (fst s) = n /\ forall i, (i < d)%nat -> nth_error (fst s) i = Some i)
    (fun d s => let '(l, k) := s in l' <- set_idx l k d ;; Ok (l', S k)) (b - a) a (l, a)) as ((l' & k') & E & H1 & H2 & H3).
  - auto.
  - intros i (l0 & k0) Hi (H1 & H2 & H3). cbn [fst snd] in *. subst k0. unfold set_idx. rewrite H2. destruct (Nat.ltb_spec i n); [|lia]. cbn [bind].
    match goal with |- exists z, Ok ?v = Ok z /\ _ => exists v end. cbn [fst snd]. repeat split; auto.
    + now rewrite replace_length.
    + intros j Hj. destruct (Nat.eq_dec j i) as [->|]; [apply nth_error_replace_eq; lia|]. rewrite nth_error_replace_neq by lia. apply H3. lia.
  - cbn [fst snd] in *. replace (a + (b - a))%nat with b in * by lia. subst k'. eauto.
Qed.

Lemma map_values_ok junk n ref : (n <= m_cols ref)%nat ->
  exists A, seg_MapValues junk n (seq 0 n) ref = Ok A /\ m_rows A = m_rows ref /\ m_cols A = n /\
    forall q i, (i < n)%nat -> m_at A q i = m_at ref q i.
Proof.
  intros Hn. unfold seg_MapValues.
  destruct (flt (fun d A => m_rows A = m_rows ref /\ m_cols A = n /\ forall q i, (i < d)%nat -> m_at A q i = m_at ref q i)
    (fun d A => o <- at_ (seq 0 n) d ;; c <- mcol ref d ;; mat_set_col A o c) n (mraw junk (m_rows ref) n)) as (A & E & H).
  - repeat split; auto. intros; lia.
  - intros d A Hd (S1 & S2 & S3). unfold at_. rewrite nth_error_seq_lt by auto. cbn [bind plus]. unfold mcol. destruct (Nat.ltb_spec d (m_cols ref)); [|lia]. cbn [bind].
    unfold mat_set_col. rewrite S2. destruct (Nat.ltb_spec d n); [|lia].
    match goal with |- exists z, Ok ?v = Ok z /\ _ => exists v end. split; auto. cbn [m_rows m_cols m_at]. repeat split; auto.
    intros q i Hi. destruct (Nat.eqb_spec i d) as [->|]; auto. apply S3. lia.
  - eauto.
Qed.

Lemma seg_F_ok junk O T x : (0 < m_rows x)%nat -> exists P, seg_F junk O T x = Ok P /\ m_rows P = 3%nat /\ m_cols P = m_cols x /\
  forall d p, (p < m_cols x)%nat -> m_at P d p = O d + T d * m_at x 0 p.
Proof.
  intros Hx. unfold seg_F.
  destruct (flt (fun p0 P => m_rows P = 3%nat /\ m_cols P = m_cols x /\ forall d p, (p < p0)%nat -> m_at P d p = O d + T d * m_at x 0 p)
    (fun p P => s <- mat_get x 0 p ;; mat_set_col P p (fun d => O d + T d * s)) (m_cols x) (mraw junk 3 (m_cols x))) as (P & E & H).
  - repeat split; auto. intros; lia.
  - intros p P Hp (S1 & S2 & S3). unfold mat_get. destruct (Nat.ltb_spec 0 (m_rows x)); [|lia]. destruct (Nat.ltb_spec p (m_cols x)); [|lia]. cbn [andb bind].
    unfold mat_set_col. rewrite S2. destruct (Nat.ltb_spec p (m_cols x)); [|lia].
    match goal with |- exists z, Ok ?v = Ok z /\ _ => exists v end. split; auto. cbn [m_rows m_cols m_at]. repeat split; auto.
    intros d a Ha. destruct (Nat.eqb_spec a p) as [->|]; auto. apply S3. lia.
  - eauto.
Qed.

Lemma seg_FInv_ok junk O T sq x : m_rows x = 3%nat -> exists P, seg_FInv junk O T sq x = Ok P /\ m_rows P = 3%nat /\ m_cols P = m_cols x /\
  forall p, (p < m_cols x)%nat -> m_at P 0 p = rsum 3 (fun d => (m_at x d p - O d) * T d) / sq.
Proof.
  intros Hx. unfold seg_FInv. rewrite Hx. cbn [Nat.eqb negb].
  destruct (flt (fun p0 P => m_rows P = 3%nat /\ m_cols P = m_cols x /\ forall p, (p < p0)%nat -> m_at P 0 p = rsum 3 (fun d => (m_at x d p - O d) * T d) / sq)
    (fun p P => c <- mcol x p ;; mat_set P 0 p (rsum 3 (fun d => (c d - O d) * T d) / sq)) (m_cols x) (mraw junk 3 (m_cols x))) as (P & E & H).
  - repeat split; auto. intros; lia.
  - intros p P Hp (S1 & S2 & S3). unfold mcol. destruct (Nat.ltb_spec p (m_cols x)); [|lia]. cbn [bind].
    unfold mat_set. rewrite S1, S2. destruct (Nat.ltb_spec p (m_cols x)); [|lia]. cbn [Nat.ltb Nat.leb andb].
    match goal with |- exists z, Ok ?v = Ok z /\ _ => exists v end. split; auto. cbn [m_rows m_cols m_at]. repeat split; auto.
    intros a Ha. cbn [Nat.eqb andb]. destruct (Nat.eqb_spec a p) as [->|]; auto. apply S3. lia.
  - eauto.
Qed.

Lemma C60_all : forall junk lobatto order type data s, (1 <= order)%nat ->
  (type = GaussLobatto -> v_size (lobatto (2 * order - 1)%nat) = (order + 1)%nat /\ distinct (order + 1) (v_at (lobatto (2 * order - 1)%nat))) ->
  FEM_1D_Create junk lobatto order type = Ok data ->
  sg_Length s <> 0 -> dot3 (sg_Tangent s) (sg_Tangent s) = sg_Length s * sg_Length s ->
  exists l, FEM_1D_CreateLocalSpace junk data s = Ok l /\
    m_rows (l1_Dofs l) = 3%nat /\ m_cols (l1_Dofs l) = (order + 1)%nat /\
    (forall d j, (j < order + 1)%nat -> m_at (l1_Dofs l) d j = sg_Origin s d + sg_Tangent s d * m_at (f1_DofPositions data) 0 j) /\
    (exists V, FEM_1D_LocalValues junk data l (l1_Dofs l) = Ok V /\ m_rows V = (order + 1)%nat /\ m_cols V = (order + 1)%nat /\
       forall i j, (i < order + 1)%nat -> (j < order + 1)%nat -> m_at V j i = kron i j) /\
    (exists V D, forall a, let p := fun d => sg_Origin s d + a / sg_Length s * sg_Tangent s d in
       FEM_1D_LocalValues junk data l (space_point p) = Ok (V a) /\
       FEM_1D_LocalDerivatives junk data l (space_point p) = Ok [D a] /\
       forall i, (i < order + 1)%nat -> derivable_pt_lim (fun b => m_at (V b) 0 i) a (m_at (D a) 0 i)).
Proof.
  intros junk lobatto order type data s Ho HL E HLen HT.
  destruct (create1_ok junk lobatto order type Ho) as (data' & E' & _ & N0 & N1 & N2 & (S1 & S2 & S3) & DI & Ec).
  - destruct type; [reflexivity|exact (proj1 (HL eq_refl))].
  - destruct type; [apply linspaced_distinct|exact (proj2 (HL eq_refl))].
  - rewrite E in E'. injection E' as <-. clear E. set (n := (order + 1)%nat) in *.
    set (Q := f1_DofPositions data) in *. set (c := f1_coefficients data) in *. set (x := fun k => m_at Q 0 k).
    assert (HQ2 : rsum 3 (fun d => sg_Tangent s d * sg_Tangent s d) = sg_Length s * sg_Length s) by (rewrite <- HT; unfold dot3; cbn; ring).
    unfold FEM_1D_CreateLocalSpace. rewrite N0, N1, N2. cbn [Nat.add].
    destruct (push_range_ok n 0 1 0 (repeat 0%nat n)) as (l1 & E1 & L1 & H1); try lia; [apply repeat_length|]. rewrite E1. cbn [bind].
    destruct (push_range_ok n 1 2 1 l1) as (l2 & E2 & L2 & H2); try lia; auto. rewrite E2. cbn [bind].
    destruct (push_range_ok n 2 (2 + (order - 1)) 2 l2) as (l3 & E3 & L3 & H3); try lia; auto. cbn [Nat.add] in E3. rewrite E3. cbn [bind].
    assert (El : l3 = seq 0 n).
    { apply nth_error_ext_len; [now rewrite seq_length|]. intros i Hi. rewrite nth_error_seq_lt by lia. apply H3. lia. }
    rewrite El. fold Q.
    destruct (seg_F_ok junk (sg_Origin s) (sg_Tangent s) Q) as (P & EP & P1 & P2 & P3); [lia|]. rewrite EP. cbn [bind].
    destruct (map_values_ok junk n P) as (Dofs & ED & D1 & D2 & D3); [lia|]. rewrite ED. cbn [bind].
    match goal with |- exists z, Ok ?v = Ok z /\ _ => exists v end. split; auto.
    cbn [l1_Dofs]. rewrite D1, D2. split; auto. split; auto.
    assert (HDofs : forall d j, (j < n)%nat -> m_at Dofs d j = sg_Origin s d + sg_Tangent s d * m_at Q 0 j).
    { intros d j Hj. rewrite D3, P3 by lia. auto. }
    split; auto.
    unfold FEM_1D_LocalValues, FEM_1D_LocalDerivatives. cbn [l1_Origin l1_Tangent l1_SquaredLength l1_NumberOfBasisFunctions l1_DofsMeshOrder l1_Length].
    assert (VAL : forall pts, m_rows pts = 3%nat -> exists V, (rp <- seg_FInv junk (sg_Origin s) (sg_Tangent s) (sg_Length s * sg_Length s) pts ;;
        V <- FEM_1D_Values junk rp data ;; seg_MapValues junk n (seq 0 n) V) = Ok V /\ m_rows V = m_cols pts /\ m_cols V = n /\
        forall q i, (q < m_cols pts)%nat -> (i < n)%nat -> m_at V q i = phi1 x n i (rsum 3 (fun d => (m_at pts d q - sg_Origin s d) * sg_Tangent s d) / (sg_Length s * sg_Length s))).
    { intros pts Hp. destruct (seg_FInv_ok junk (sg_Origin s) (sg_Tangent s) (sg_Length s * sg_Length s) pts Hp) as (rp & Er & R1 & R2 & R3).
      rewrite Er. cbn [bind]. destruct (values1_ok junk n Q c rp S1 S2 DI ltac:(lia) Ec data eq_refl eq_refl) as (V & EV & V1 & V2 & V3).
      rewrite EV. cbn [bind]. destruct (map_values_ok junk n V) as (A & EA & A1 & A2 & A3); [lia|]. exists A. split; auto. split; [lia|]. split; auto.
      intros q i Hq Hi. rewrite A3, V3, R3 by lia. reflexivity. }
    split.
    + destruct (VAL Dofs) as (V & EV & V1 & V2 & V3); [lia|]. exists V. rewrite D2 in *. repeat split; auto.
      intros i j Hi Hj. rewrite V3 by auto.
      replace (rsum 3 (fun d => (m_at Dofs d j - sg_Origin s d) * sg_Tangent s d) / (sg_Length s * sg_Length s)) with (x j).
      * apply phi1_nodal; auto.
      * rewrite (rsum_ext 3 _ (fun d => x j * (sg_Tangent s d * sg_Tangent s d))).
        { rewrite rsum_scal, HQ2. field. auto. }
        intros d Hd. rewrite HDofs by auto. unfold x. ring.
    + set (pt := fun a d => sg_Origin s d + a / sg_Length s * sg_Tangent s d).
      assert (HX : forall a, rsum 3 (fun d => (m_at (space_point (pt a)) d 0 - sg_Origin s d) * sg_Tangent s d) / (sg_Length s * sg_Length s) = a / sg_Length s).
      { intros a. rewrite (rsum_ext 3 _ (fun d => a / sg_Length s * (sg_Tangent s d * sg_Tangent s d))).
        { rewrite rsum_scal, HQ2. field. auto. }
        intros d Hd. unfold pt. cbn. ring. }
      assert (DER : forall a, exists D, (rp <- seg_FInv junk (sg_Origin s) (sg_Tangent s) (sg_Length s * sg_Length s) (space_point (pt a)) ;;
        V <- FEM_1D_Derivatives junk rp data ;; seg_MapDerivatives junk n (seq 0 n) (sg_Length s) V) = Ok [D] /\
        forall i, (i < n)%nat -> m_at D 0 i = dphi1 x n i (a / sg_Length s) / sg_Length s).
      { intros a. destruct (seg_FInv_ok junk (sg_Origin s) (sg_Tangent s) (sg_Length s * sg_Length s) (space_point (pt a)) eq_refl) as (rp & Er & R1 & R2 & R3).
        rewrite Er. cbn [bind]. destruct (derivs1_ok junk n Q c rp S1 S2 DI ltac:(lia) Ec data eq_refl eq_refl) as (V & EV & V1 & V2 & V3).
        rewrite EV. cbn [bind]. unfold seg_MapDerivatives. cbn [idx_ nth_error bind].
        match goal with |- context [seg_MapValues junk n (seq 0 n) ?r] => destruct (map_values_ok junk n r) as (A & EA & A1 & A2 & A3) end; [cbn [m_cols]; lia|].
        rewrite EA. cbn [bind]. exists A. split; auto. intros i Hi. rewrite A3 by auto. cbn [m_at]. rewrite V3 by (rewrite ?R2; cbn; lia).
        rewrite R3 by (cbn; lia). rewrite HX. reflexivity. }
      set (Vf := fun a => match (rp <- seg_FInv junk (sg_Origin s) (sg_Tangent s) (sg_Length s * sg_Length s) (space_point (pt a)) ;;
        V <- FEM_1D_Values junk rp data ;; seg_MapValues junk n (seq 0 n) V) with Ok A => A | _ => mzero 0 0 end).
      set (Df := fun a => match (rp <- seg_FInv junk (sg_Origin s) (sg_Tangent s) (sg_Length s * sg_Length s) (space_point (pt a)) ;;
        V <- FEM_1D_Derivatives junk rp data ;; seg_MapDerivatives junk n (seq 0 n) (sg_Length s) V) with Ok [A] => A | _ => mzero 0 0 end).
      assert (HV : forall a i, (i < n)%nat -> m_at (Vf a) 0 i = phi1 x n i (a / sg_Length s)).
      { intros a i Hi. unfold Vf. destruct (VAL (space_point (pt a)) eq_refl) as (V & EV & V1 & V2 & V3). rewrite EV. rewrite V3 by (cbn; lia). now rewrite HX. }
      exists Vf, Df. intros a. cbv zeta. fold (pt a). split; [|split].
      * unfold Vf. destruct (VAL (space_point (pt a)) eq_refl) as (V & EV & _). now rewrite EV.
      * unfold Df. destruct (DER a) as (D & EDr & _). now rewrite EDr.
      * intros i Hi. replace (m_at (Df a) 0 i) with (dphi1 x n i (a / sg_Length s) * / sg_Length s).
        2: { unfold Df. destruct (DER a) as (D & EDr & HDr). rewrite EDr. now rewrite HDr. }
        eapply derivable_pt_lim_ext; [intros b; symmetry; apply HV; auto|].
        apply (derivable_pt_lim_comp (fun b => b / sg_Length s) (phi1 x n i)).
        -- pose proof (derivable_pt_lim_scal id (/ sg_Length s) a 1 (derivable_pt_lim_id a)) as H. rewrite Rmult_1_r in H.
           eapply derivable_pt_lim_ext; [|exact H]. intros b. unfold mult_real_fct, id, Rdiv. ring.
        -- now apply dphi1_derivative.
Qed.
