(** Reproduction of polynomials on a triangle of the mesh. *)
From Coq Require Import List Arith Bool Lia ZArith Reals Lra Permutation.
From Verif Require Import Base RSum MatrixModel MonomialsModel MonomialsSpec LagrangeModel LagrangeSpec GreenSpec GreenProofs TriangleModel TriangleSpec
  TriangleProofs TriangleProofs2 TriangleProofs3 TriangleProofs4 TriangleProofs5.
Import ListNotations.
Local Open Scope R_scope.

Lemma NoDup_map_inj {A B} (f : A -> B) l : (forall x y, In x l -> In y l -> f x = f y -> x = y) -> NoDup l -> NoDup (map f l).
Proof.
  intros H N. induction N as [|a l Ha N IH]; cbn; constructor.
  - rewrite in_map_iff. intros (y & Ey & Hy). apply H in Ey; cbn; auto. now subst.
  - apply IH. intros; apply H; cbn; auto.
Qed.
Lemma rsum_involution n (s : nat -> nat) (f : nat -> R) : (forall i, (i < n)%nat -> (s i < n)%nat /\ s (s i) = i) -> rsum n (fun i => f (s i)) = rsum n f.
Proof.
  intros H. rewrite <- !lsum_seq. rewrite <- (lsum_map f s). apply lsum_perm. apply NoDup_Permutation.
  - apply NoDup_map_inj; [|apply seq_NoDup]. intros x y Hx Hy Eq. apply in_seq in Hx, Hy.
    destruct (H x ltac:(lia)) as (_ & <-). destruct (H y ltac:(lia)) as (_ & <-). now rewrite Eq.
  - apply seq_NoDup.
  - intros x. rewrite in_map_iff. split.
    + intros (y & <- & Hy). apply in_seq in Hy. apply in_seq. destruct (H y ltac:(lia)). lia.
    + intros Hx. apply in_seq in Hx. destruct (H x ltac:(lia)) as (H1 & H2). exists (s x). split; auto. apply in_seq. lia.
Qed.

Lemma monomial_poly2 n a b x y : (a + b <= n)%nat -> TriangleSpec.poly2 n (fun i j => if ((i =? a) && (j =? b))%nat then 1 else 0) x y = x ^ a * y ^ b.
Proof.
  intros H. unfold TriangleSpec.poly2. rewrite (rsum_single _ _ a) by (try lia; intros i Hi Hn; apply rsum_0; intros j Hj; apply Nat.eqb_neq in Hn; rewrite Hn; cbn; ring).
  rewrite (rsum_single _ _ b) by (try lia; intros j Hj Hn; apply Nat.eqb_neq in Hn; rewrite Hn, andb_false_r; ring). rewrite !Nat.eqb_refl. cbn [andb]. ring.
Qed.

(** on the reference triangle *)
Lemma reference_reproduces order data points f fx fy : (1 <= order)%nat -> Tri_Create order = Ok data -> (2 <= m_rows points)%nat -> GreenSpec.poly2 order f fx fy ->
  exists V, Tri_Values points data = Ok V /\ m_rows V = m_cols points /\ m_cols V = ft_NumBasisFunctions data /\
    forall q, (q < m_cols points)%nat ->
      rsum (ft_NumBasisFunctions data) (fun i => f (m_at (ft_DofPositions data) 0 i) (m_at (ft_DofPositions data) 1 i) * m_at V q i) = f (m_at points 0 q) (m_at points 1 q).
Proof.
  intros Ho E Hr P. destruct (C42_reproduces_all order data points (fun _ _ => 0) Ho E Hr) as (V & EV & R1 & R2 & _). exists V. split; auto. split; auto. split; auto.
  intros q Hq. induction P.
  - destruct (C42_reproduces_all order data points (fun i j => if ((i =? a) && (j =? b))%nat then 1 else 0) Ho E Hr) as (V' & EV' & _ & _ & Q). rewrite EV in EV'. injection EV' as <-.
    specialize (Q q Hq). rewrite monomial_poly2 in Q by auto. rewrite <- Q. apply rsum_ext. intros i Hi. now rewrite monomial_poly2.
  - rewrite <- IHP1, <- IHP2, <- rsum_plus. apply rsum_ext. intros; ring.
  - rewrite <- IHP, <- rsum_scal. apply rsum_ext. intros; ring.
  - rewrite <- H, <- IHP. apply rsum_ext. intros. now rewrite H.
Qed.

Section Local.
Variables (o : nat) (data : Tri_Data) (dir : list bool) (m : MapTriangleData) (l : Tri_Local).
Hypotheses (Ho : (1 <= o)%nat) (E : Tri_Create o = Ok data) (Hdir : (3 <= length dir)%nat) (HR : in_range data) (EL : Tri_CreateLocalSpace data 3 dir m = Ok l).
Hypotheses (HI : inverse3 (mt_B m) (mt_BInv m)) (H02 : mt_B m 0 2 = 0) (H12 : mt_B m 1 2 = 0).

Lemma local_order : exists s : nat -> nat, (forall d, (d < ft_NumBasisFunctions data)%nat -> (s d < ft_NumBasisFunctions data)%nat /\ s (s d) = d) /\
  (forall d, (d < ft_NumBasisFunctions data)%nat -> nth d (lt_DofsMeshOrder l) 0%nat = s d) /\ length (lt_DofsMeshOrder l) = ft_NumBasisFunctions data /\
  (forall d c, (d < ft_NumBasisFunctions data)%nat -> m_at (lt_Dofs l) c d = affine (mt_B m) (mt_b m) (pt (ft_DofPositions data) (s d)) c).
Proof.
  destruct (C45_order_all o data dir m E Hdir HR) as (l' & EL' & L & S1 & _ & _ & _ & _ & S2). rewrite EL in EL'. injection EL' as <-.
  exists (fun d => nth d (lt_DofsMeshOrder l) 0%nat). repeat split; auto; apply S1; auto.
Qed.

Lemma ref_z d : (d < ft_NumBasisFunctions data)%nat -> m_at (ft_DofPositions data) 2 d = 0.
Proof.
  destruct (C41_all o Ho) as (data' & E' & _ & _ & _ & _ & _ & _ & _ & Q & _). rewrite E in E'. injection E' as <-.
  intros Hd. destruct (Q d Hd) as (i & j & _ & _ & _ & Z). exact Z.
Qed.

(** the plane map, in terms of two coordinates *)
Lemma F_FInv points q c : (c < 2)%nat -> mt_b m c + mt_B m c 0 * m_at (mt_FInv m points) 0 q + mt_B m c 1 * m_at (mt_FInv m points) 1 q = m_at points c q.
Proof.
  intros Hc. assert (Z : mt_B m c 2 = 0) by (destruct c as [|[|c]]; auto; lia).
  assert (Q : rsum 3 (fun k => mt_B m c k * m_at (mt_FInv m points) k q) = m_at points c q - mt_b m c).
  { cbn [mt_FInv m_at]. rewrite (rsum_ext 3 _ (fun k => rsum 3 (fun j => mt_B m c k * mt_BInv m k j * (m_at points j q - mt_b m j)))).
    2: { intros k Hk. rewrite <- rsum_scal. apply rsum_ext. intros; ring. }
    rewrite rsum_swap. rewrite (rsum_ext 3 _ (fun j => (if (c =? j)%nat then 1 else 0) * (m_at points j q - mt_b m j))).
    2: { intros j Hj. rewrite rsum_scal_r. f_equal. apply HI; lia. }
    destruct c as [|[|c]]; [| |lia]; cbn; ring. }
  cbn [rsum] in Q. rewrite Z in Q. lra.
Qed.

Lemma local_reproduces points f fx fy : GreenSpec.poly2 o f fx fy -> exists V, Tri_LocalValues data l points = Ok V /\ m_rows V = m_cols points /\ m_cols V = ft_NumBasisFunctions data /\
  forall q, (q < m_cols points)%nat -> rsum (ft_NumBasisFunctions data) (fun i => f (m_at (lt_Dofs l) 0 i) (m_at (lt_Dofs l) 1 i) * m_at V q i) = f (m_at points 0 q) (m_at points 1 q).
Proof.
  intros P. destruct local_order as (s & S1 & S2 & S3 & S4).
  destruct (reference_reproduces o data (mt_FInv m points) _ _ _ Ho E ltac:(cbn; lia) (poly2_comp o f fx fy (mt_b m 0%nat) (mt_B m 0%nat 0%nat) (mt_B m 0%nat 1%nat) (mt_b m 1%nat) (mt_B m 1%nat 0%nat) (mt_B m 1%nat 1%nat) P)) as (V & EV & R1 & R2 & Q).
  destruct (local_ok o data dir m E Hdir HR) as (l' & EL' & M1 & _). rewrite EL in EL'. injection EL' as <-.
  unfold Tri_LocalValues. rewrite M1, EV. cbn [bind]. rewrite gather_ok. 2: { intros d H. rewrite S3 in H. rewrite S2, R2 by auto. now apply S1. }
  eexists. split; [reflexivity|]. cbn [m_rows m_cols m_at]. split; [auto|]. split; [auto|]. intros q Hq. specialize (Q q Hq). cbv beta in Q. rewrite !F_FInv in Q by lia.
  rewrite <- Q. symmetry. rewrite <- (rsum_involution (ft_NumBasisFunctions data) s) by auto. apply rsum_ext. intros i Hi. rewrite !S4, S2 by auto. unfold affine, pt. cbn [rsum].
  rewrite H02, H12. f_equal. f_equal; ring.
Qed.

Lemma is_partial_sum n (u : nat -> R) (g : nat -> point -> R) (L : nat -> R) d x : (forall i, (i < n)%nat -> is_partial (g i) d x (L i)) ->
  is_partial (fun p => rsum n (fun i => u i * g i p)) d x (rsum n (fun i => u i * L i)).
Proof.
  clear. unfold is_partial. induction n as [|n IH]; intros H; cbn [rsum]; [apply derivable_pt_lim_const|].
  apply (derivable_pt_lim_plus (fun t => rsum n (fun i => u i * g i (setc x d t))) (fun t => u n * g n (setc x d t))); [apply IH; auto|].
  apply (derivable_pt_lim_scal (fun t => g n (setc x d t))). apply H. lia.
Qed.

Lemma local_gradient_reproduces points f fx fy : GreenSpec.poly2 o f fx fy -> exists D0 D1, Tri_LocalDerivatives data l points = Ok [D0; D1] /\
  m_rows D0 = m_cols points /\ m_cols D0 = ft_NumBasisFunctions data /\ m_rows D1 = m_cols points /\ m_cols D1 = ft_NumBasisFunctions data /\
  forall q, (q < m_cols points)%nat ->
    rsum (ft_NumBasisFunctions data) (fun i => f (m_at (lt_Dofs l) 0 i) (m_at (lt_Dofs l) 1 i) * m_at D0 q i) = fx (m_at points 0 q) (m_at points 1 q) /\
    rsum (ft_NumBasisFunctions data) (fun i => f (m_at (lt_Dofs l) 0 i) (m_at (lt_Dofs l) 1 i) * m_at D1 q i) = fy (m_at points 0 q) (m_at points 1 q).
Proof.
  intros P. destruct (local_gradient o data dir m l Ho E Hdir HR EL points) as (D0 & D1 & ED & R1 & R2 & R3 & R4 & H). exists D0, D1. do 5 (split; [auto|]).
  set (u := fun i => f (m_at (lt_Dofs l) 0 i) (m_at (lt_Dofs l) 1 i)).
  assert (K : forall p : point, rsum (ft_NumBasisFunctions data) (fun i => u i * m_at (lvalf data l p) 0 i) = f (p 0%nat) (p 1%nat)).
  { intros p. destruct (local_reproduces (space_point p) f fx fy P) as (V & EV & _ & _ & Q). unfold lvalf. rewrite EV. apply (Q 0%nat). cbn. lia. }
  intros q Hq. split.
  - pose proof (is_partial_sum (ft_NumBasisFunctions data) u (fun i p => m_at (lvalf data l p) 0 i) (fun i => m_at D0 q i) 0 (pt points q) (fun i Hi => proj1 (H q i Hq Hi))) as D.
    unfold is_partial in D. apply (uniqueness_limite (fun t => f t (m_at points 1 q)) (m_at points 0 q)).
    + eapply derivable_pt_lim_ext; [|exact D]. intros t. cbv beta. rewrite K. reflexivity.
    + apply (poly2_partials o f fx fy _ _ P).
  - pose proof (is_partial_sum (ft_NumBasisFunctions data) u (fun i p => m_at (lvalf data l p) 0 i) (fun i => m_at D1 q i) 1 (pt points q) (fun i Hi => proj2 (H q i Hq Hi))) as D.
    unfold is_partial in D. apply (uniqueness_limite (fun t => f (m_at points 0 q) t) (m_at points 1 q)).
    + eapply derivable_pt_lim_ext; [|exact D]. intros t. cbv beta. rewrite K. reflexivity.
    + apply (poly2_partials o f fx fy _ _ P).
Qed.
End Local.
