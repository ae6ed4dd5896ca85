(** The tetrahedra of a mesh: positions of the dofs, nodal basis, polynomials. *)
From Coq Require Import List Arith Bool Lia ZArith Reals Lra Permutation.
From Verif Require Import Base RSum MatrixModel MonomialsModel MonomialsSpec LagrangeModel LagrangeSpec LagrangeProofs RBinom TriangleModel TriangleSpec TriangleProofs TriangleProofs2 TriangleProofs3 TriangleProofs4 VemQuadModel VemQuadProofs TetModel TetSpec TetProofs TetProofs2 TetProofs3 TetProofs5 TetLocalModel TetLocalSpec TetLocalProofs TetLocalProofs2 TetLocalProofs3 TetLocalProofs4.
Import ListNotations.
Local Open Scope R_scope.

(** polynomials of degree at most [n] as combinations of monomials *)
Inductive pol (n : nat) : (R -> R -> R -> R) -> Prop :=
| pol_mono p q r : (p + q + r <= n)%nat -> pol n (fun x y z => x ^ p * y ^ q * z ^ r)
| pol_add f g : pol n f -> pol n g -> pol n (fun x y z => f x y z + g x y z)
| pol_scal k f : pol n f -> pol n (fun x y z => k * f x y z)
| pol_ext f g : (forall x y z, f x y z = g x y z) -> pol n f -> pol n g.
Lemma pol_const n k : pol n (fun _ _ _ => k).
Proof. apply (pol_ext n (fun x y z => k * (x ^ 0 * y ^ 0 * z ^ 0))); [intros; ring|]. apply pol_scal, pol_mono. lia. Qed.
Lemma pol_mono_le n m f : (n <= m)%nat -> pol n f -> pol m f.
Proof.
  intros L H. induction H as [p q r S|f g Hf IHf Hg IHg|k f Hf IHf|f g E Hf IHf].
  - apply pol_mono. lia.
  - now apply pol_add.
  - now apply pol_scal.
  - now apply (pol_ext m f).
Qed.
Lemma pol_affine n f a b c d : pol n f -> pol (S n) (fun x y z => (a * x + b * y + c * z + d) * f x y z).
Proof.
  intros H. induction H as [p q r S|f g Hf IHf Hg IHg|k f Hf IHf|f g E Hf IHf].
  - apply (pol_ext _ (fun x y z => (a * (x ^ Datatypes.S p * y ^ q * z ^ r) + b * (x ^ p * y ^ Datatypes.S q * z ^ r)) + (c * (x ^ p * y ^ q * z ^ Datatypes.S r) + d * (x ^ p * y ^ q * z ^ r)))).
    { intros. cbn [pow]. ring. }
    apply pol_add; apply pol_add; apply pol_scal; apply pol_mono; lia.
  - eapply pol_ext; [|apply (pol_add _ _ _ IHf IHg)]. intros. cbv beta. ring.
  - eapply pol_ext; [|apply (pol_scal _ k _ IHf)]. intros. cbv beta. ring.
  - eapply pol_ext; [|exact IHf]. intros. cbv beta. now rewrite E.
Qed.
Lemma pol_affine_pow k : forall n f a b c d, pol n f -> pol (k + n) (fun x y z => (a * x + b * y + c * z + d) ^ k * f x y z).
Proof.
  induction k as [|k IH]; intros n f a b c d H; [eapply pol_ext; [|exact H]; intros; cbv beta; ring|].
  eapply pol_ext; [|apply (pol_affine _ _ a b c d (IH n f a b c d H))]. intros. cbv beta. cbn [pow]. ring.
Qed.
Lemma pol_sum n m (f : nat -> R -> R -> R -> R) : (forall i, (i < m)%nat -> pol n (f i)) -> pol n (fun x y z => rsum m (fun i => f i x y z)).
Proof.
  induction m as [|m IH]; intros H; [exact (pol_const n 0)|]. apply (pol_ext n (fun x y z => rsum m (fun i => f i x y z) + f m x y z)); [reflexivity|]. apply pol_add; [apply IH; auto|apply H; auto].
Qed.
Lemma pol_poly3 n c (u v w : nat -> R) : pol n (fun x y z => poly3 n c (u 0%nat * x + u 1%nat * y + u 2%nat * z + u 3%nat) (v 0%nat * x + v 1%nat * y + v 2%nat * z + v 3%nat) (w 0%nat * x + w 1%nat * y + w 2%nat * z + w 3%nat)).
Proof.
  unfold poly3. apply pol_sum. intros a Ha. apply pol_sum. intros b Hb. apply pol_sum. intros e He. apply pol_scal.
  eapply pol_ext. 2: { apply (pol_mono_le (a + (b + (e + 0)))); [lia|]. exact (pol_affine_pow a _ _ (u 0%nat) (u 1%nat) (u 2%nat) (u 3%nat) (pol_affine_pow b _ _ (v 0%nat) (v 1%nat) (v 2%nat) (v 3%nat) (pol_affine_pow e _ _ (w 0%nat) (w 1%nat) (w 2%nat) (w 3%nat) (pol_const 0 1)))). }
  intros. cbv beta. ring.
Qed.
Lemma interp_pol o f x y z : (1 <= o)%nat -> pol o f -> interp3 o f x y z = f x y z.
Proof.
  intros Ho H. induction H as [p q r S|f g Hf IHf Hg IHg|k f Hf IHf|f g E Hf IHf].
  - now apply interp3_pow.
  - rewrite <- IHf, <- IHg. rewrite (interp3_ext o Ho _ (fun u v w => rsum 2 (fun i => 1 * (match i with O => f | _ => g end) u v w))) by (intros; cbn; ring).
    rewrite (interp3_sum o Ho 2 (fun _ => 1) (fun i => match i with O => f | _ => g end)). cbn. ring.
  - rewrite <- IHf. rewrite (interp3_ext o Ho _ (fun u v w => rsum 1 (fun i => k * f u v w))) by (intros; cbn; ring).
    rewrite (interp3_sum o Ho 1 (fun _ => k) (fun i => f)). cbn. ring.
  - rewrite <- E, <- IHf. apply (interp3_ext o Ho). auto.
Qed.

Section Local.
Variable o : nat.
Hypothesis Ho : (1 <= o)%nat.
Variable data : Tet_Data.
Hypothesis TD : tet_data o data.
Variable g : Tet_Geometry.
Variable V : nat -> point.
Hypothesis G : tetrahedron g V.
Hypothesis SA : tells_nodes_apart g data.
Hypothesis UI : (Z.of_nat (te_NumBasisFunctions data) <= UINT_MAX)%Z.
Notation n1 := (o - 1)%nat.
Notation m2 := (n2 o).
Notation m3 := (n3 o).
Notation N := (TN o).
Notation F := (affine (mt_B (tg_Map g)) (mt_b (tg_Map g))).
Notation order := (order o g).

Definition local_of (l : Tet_Local) : Prop :=
  tl_Map l = tg_Map g /\ tl_Order l = o /\ tl_NumberOfBasisFunctions l = N /\ tl_DofsMeshOrder l = order /\
  m_rows (tl_Dofs l) = 3%nat /\ m_cols (tl_Dofs l) = N /\ (forall d p c, nth_error order d = Some p -> m_at (tl_Dofs l) c p = F (fun c => m_at (te_DofPositions data) c d) c) /\
  tl_Dof1DsIndex l = map (fun e => 4 + e * n1)%nat (seq 0 7) /\ tl_Dof2DsIndex l = map (fun f => 4 + 6 * n1 + f * m2)%nat (seq 0 5) /\
  tl_Quadrature l = tl_InternalQuadrature (te_Quadrature data) (tg_Map g) /\ tl_boundary data g = Ok (tl_Boundary l).

Lemma local_created junk : exists l, Tet_CreateLocalSpace junk data g = Ok l /\ local_of l.
Proof using Ho TD G SA UI.
  pose proof TD as (D1 & D2 & D3 & D4 & D5 & D6 & (P1 & P2 & _) & _). unfold Tet_CreateLocalSpace.
  destruct (edges_ok g V G) as (es & Ees & _ & HE). rewrite Ees. cbn [bind].
  destruct (boundary_ok o Ho data TD g V G UI) as (bl & Ebl & _ & _). rewrite Ebl. cbn [bind].
  destruct (faces_ok g V G es HE) as (fs & Efs & _ & _). rewrite Efs. cbn [bind].
  rewrite (order_writes o Ho data TD g V G SA UI es fs bl Ees Efs Ebl). cbn [bind]. fold order. rewrite D2.
  destruct (map_values_ok junk N order (mt_F (tg_Map g) (te_DofPositions data))) as (A & EA & A1 & A2 & A3).
  - apply order_length; auto.
  - apply (order_NoDup o Ho g V G).
  - intros d p E. now apply (order_lt o Ho g V G) in E.
  - auto.
  - rewrite EA. cbn [bind]. cbv zeta. rewrite D3, D4, D5. eexists. split; [reflexivity|]. unfold local_of. cbn [tl_Map tl_Order tl_NumberOfBasisFunctions tl_DofsMeshOrder tl_Dofs tl_Dof1DsIndex tl_Dof2DsIndex tl_Quadrature tl_Boundary].
    do 6 (split; [auto|]). split; [|split; [|split; [|split]]].
    + intros d p c E. rewrite (A3 d p c E). reflexivity.
    + apply map_ext. intros e. reflexivity.
    + apply map_ext. intros f. reflexivity.
    + reflexivity.
    + exact Ebl.
Qed.
Lemma local_is junk l : Tet_CreateLocalSpace junk data g = Ok l -> local_of l.
Proof using Ho TD G SA UI. intros E. destruct (local_created junk) as (l' & E' & H). rewrite E in E'. injection E' as <-. auto. Qed.

Lemma pos_vertex l v c : local_of l -> (v < 4)%nat -> (c < 3)%nat -> m_at (tl_Dofs l) c v = V v c.
Proof using Ho TD G.
  intros (_ & _ & _ & _ & _ & _ & H & _) Hv Hc. assert (U : exists u, (u < 4)%nat /\ v <> u). { destruct (Nat.eq_dec v 0); [exists 1%nat|exists 0%nat]; lia. }
  destruct U as (u & Hu & Nu). destruct (order_vertex o Ho g V G v u Hv Hu Nu) as (d & E1 & E2). rewrite (H d v c E1). rewrite (F_tp2 o Ho data TD g V G d v u 0 c) by (auto; lia). change (INR 0) with 0. unfold Rdiv. ring.
Qed.
Lemma start_end e : (e < 6)%nat -> (edge_start g e < 4 /\ edge_end g e < 4 /\ edge_start g e <> edge_end g e)%nat.
Proof using G.
  intros He. destruct G as (_ & _ & GE & _). destruct (GE e He) as (a & b & E & Ha & Hb & Nab). unfold edge_start, edge_end. rewrite (nth_error_nth _ _ _ E). destruct (nth e (tg_EdgesDirection g) true); auto.
Qed.
Lemma pos_edge l e k c : local_of l -> (e < 6)%nat -> (k < n1)%nat -> (c < 3)%nat -> let s := INR (S k) / INR o in
  m_at (tl_Dofs l) c (4 + e * n1 + k) = (1 - s) * V (edge_start g e) c + s * V (edge_end g e) c.
Proof using Ho TD G.
  intros (_ & _ & _ & _ & _ & _ & H & _) He Hk Hc. cbv zeta. destruct (order_edges o Ho g V G e k He Hk) as (d & E1 & E2). rewrite (H d _ c E1).
  destruct (start_end e He) as (S1 & S2 & S3). apply (F_tp2 o Ho data TD g V G d); auto. lia.
Qed.
Lemma inner_pos k : (k < m2)%nat -> m_at (ft_DofPositions (te_Boundary data)) 0 (3 + 3 * n1 + k) = INR (snd (ij o k)) / INR o /\ m_at (ft_DofPositions (te_Boundary data)) 1 (3 + 3 * n1 + k) = INR (fst (ij o k)) / INR o.
Proof using Ho TD.
  intros Hk. pose proof TD as (_ & _ & _ & _ & _ & _ & _ & DT). pose proof (created_ok o _ Ho DT) as (_ & _ & _ & _ & _ & _ & _ & _ & _ & TA).
  destruct (ij_ok o Ho k Hk) as (E & _). destruct (ij o k) as (i, j). destruct (TA _ _ E) as (A0 & A1 & _). rewrite A0, A1. cbn [fst snd]. unfold h. unfold Rdiv. rewrite Rmult_1_l. auto.
Qed.
Lemma pos_face l f v0 v1 v2 e0 e1 e2 k c : local_of l -> (f < 4)%nat -> (k < m2)%nat -> (c < 3)%nat -> face_of g f v0 v1 v2 e0 e1 e2 ->
  let x := m_at (ft_DofPositions (te_Boundary data)) 0 (3 + 3 * n1 + k) in let y := m_at (ft_DofPositions (te_Boundary data)) 1 (3 + 3 * n1 + k) in
  m_at (tl_Dofs l) c (4 + 6 * n1 + f * m2 + k) = (1 - x - y) * V v0 c + x * V v1 c + y * V v2 c.
Proof using Ho TD G.
  intros (_ & _ & _ & _ & _ & _ & H & _) Hf Hk Hc FO. cbv zeta. destruct (inner_pos k Hk) as (-> & ->). destruct (order_faces o Ho g V G _ _ _ _ _ _ _ k Hf Hk FO) as (d & E1 & E2). rewrite (H d _ c E1).
  pose proof FO as (_ & (H0 & H1 & H2 & N1 & N2 & N3) & _). destruct (ij_ok o Ho k Hk) as (_ & I1 & I2 & I3). apply (F_tp o Ho data TD g V G d); auto. lia.
Qed.
Lemma pos_inner l d c : local_of l -> (4 + 6 * n1 + 4 * m2 <= d)%nat -> (d < N)%nat -> m_at (tl_Dofs l) c d = F (fun c => m_at (te_DofPositions data) c d) c.
Proof using Ho G. intros (_ & _ & _ & _ & _ & _ & H & _) H1 H2. apply H. now apply (order_inner o Ho g V G). Qed.

(** values *)
Lemma values_local junk l points : local_of l -> exists A, Tet_LocalValues junk data l points = Ok A /\ m_rows A = m_cols points /\ m_cols A = N /\
  forall q d p t, nth_error order d = Some p -> nth_error (TL o) d = Some t ->
    m_at A q p = phi3 o t (m_at (mt_FInv (tg_Map g) points) 0 q) (m_at (mt_FInv (tg_Map g) points) 1 q) (m_at (mt_FInv (tg_Map g) points) 2 q).
Proof using Ho TD G.
  intros (L1 & L2 & L3 & L4 & _). pose proof TD as (_ & D2 & _). unfold Tet_LocalValues. rewrite L1, L3, L4. destruct (values_spec o Ho data (mt_FInv (tg_Map g) points) TD ltac:(cbn; lia)) as (W & EW & W1 & W2 & W3). rewrite EW. cbn [bind].
  destruct (map_values_ok junk N order W) as (A & EA & A1 & A2 & A3).
  - apply order_length; auto.
  - apply (order_NoDup o Ho g V G).
  - intros d p E. now apply (order_lt o Ho g V G) in E.
  - congruence.
  - exists A. split; auto. split; [rewrite A1, W1; reflexivity|]. split; auto. intros q d p t E1 E2. rewrite (A3 d p q E1). now apply W3.
Qed.
Lemma TL_at d : (d < N)%nat -> exists a b c, nth_error (TL o) d = Some (a, b, c) /\ (a + b + c <= o)%nat.
Proof using Ho. intros H. now apply dof_ex. Qed.
Lemma finv_dof l d p c : local_of l -> nth_error order d = Some p -> (c < 3)%nat -> m_at (mt_FInv (tg_Map g) (tl_Dofs l)) c p = m_at (te_DofPositions data) c d.
Proof using G.
  intros (_ & _ & _ & _ & _ & _ & H & _) E Hc. destruct G as (_ & GI & _). rewrite (FInv_F (tg_Map g) (fun c => m_at (te_DofPositions data) c d) (tl_Dofs l) p GI); auto.
Qed.
Lemma local_nodal junk l : local_of l -> exists A, Tet_LocalValues junk data l (tl_Dofs l) = Ok A /\ m_rows A = N /\ m_cols A = N /\
  forall i j, (i < N)%nat -> (j < N)%nat -> m_at A j i = if (i =? j)%nat then 1 else 0.
Proof using Ho TD G.
  intros L. destruct (values_local junk l (tl_Dofs l) L) as (A & EA & A1 & A2 & A3). exists A. split; auto. pose proof L as (_ & _ & _ & _ & _ & L6 & _). split; [congruence|]. split; auto.
  intros i j Hi Hj. destruct (order_onto o Ho g V G i Hi) as (d & Ed). destruct (order_onto o Ho g V G j Hj) as (d' & Ed').
  destruct (order_lt o Ho g V G _ _ Ed) as (Hd & _). destruct (order_lt o Ho g V G _ _ Ed') as (Hd' & _).
  destruct (TL_at d Hd) as (a & b & c & E & S). destruct (TL_at d' Hd') as (a' & b' & c' & E' & S'). rewrite (A3 j d i _ Ed E). rewrite !(finv_dof l d' j _ L Ed') by lia.
  destruct (at_dof o Ho data d' _ _ _ TD E') as (B0 & B1 & B2). rewrite B0, B1, B2, (phi3_nodal o Ho) by auto.
  destruct (Nat.eqb_spec i j) as [->|NE].
  - assert (d = d') by (eapply (order_inj o Ho g V G); eauto). subst d'. rewrite E in E'. injection E' as <- <- <-. rewrite !Nat.eqb_refl. reflexivity.
  - destruct (Nat.eqb_spec a a') as [->|]; cbn [andb]; auto. destruct (Nat.eqb_spec b b') as [->|]; cbn [andb]; auto. destruct (Nat.eqb_spec c c') as [->|]; cbn [andb]; auto.
    exfalso. apply NE. assert (d = d'); [|congruence]. pose proof (TL_NoDup o Ho) as ND. rewrite NoDup_nth_error in ND. apply ND; [|congruence]. apply nth_error_lt in E. auto.
Qed.

(** sums over the local dofs are sums over the lattice *)
Lemma sum_order (h : nat -> R) (k : nat * nat * nat -> R) : (forall d p t, nth_error order d = Some p -> nth_error (TL o) d = Some t -> h p = k t) -> rsum N h = lsum k (TL o).
Proof using Ho G.
  intros H. rewrite <- lsum_seq, <- (lsum_perm h _ _ (order_perm o Ho g V G)), (lsum_nth 0%nat), (lsum_nth (O, O, O)), (order_length o Ho g), (TL_length o Ho).
  apply rsum_ext. intros d Hd. apply (H d); apply nth_error_nth'; rewrite ?(order_length o Ho g), ?(TL_length o Ho); auto.
Qed.
Lemma lsum_interp f x y z : lsum (fun t => let '(a, b, c) := t in f (INR a / INR o) (INR b / INR o) (INR c / INR o) * phi3 o t x y z) (TL o) = interp3 o f x y z.
Proof using Ho. rewrite (lsum_perm _ _ _ (TL_perm o Ho)), (lsum_FL o Ho). reflexivity. Qed.
Lemma F_FInv points q c : (c < 3)%nat -> F (fun c => m_at (mt_FInv (tg_Map g) points) c q) c = m_at points c q.
Proof using G.
  intros Hc. clear -G Hc. destruct G as (_ & GI & _). unfold affine. cbn [mt_FInv m_at].
  rewrite (rsum_ext 3 _ (fun k => rsum 3 (fun j => mt_B (tg_Map g) c k * mt_BInv (tg_Map g) k j * (m_at points j q - mt_b (tg_Map g) j)))).
  2: { intros k Hk. rewrite <- rsum_scal. apply rsum_ext. intros; ring. }
  rewrite rsum_swap. rewrite (rsum_ext 3 _ (fun j => (if (c =? j)%nat then 1 else 0) * (m_at points j q - mt_b (tg_Map g) j))).
  2: { intros j Hj. rewrite rsum_scal_r. f_equal. apply GI; auto. }
  destruct c as [|[|[|c]]]; [| | |lia]; cbn; ring.
Qed.
Lemma local_reproduces junk l points cf : local_of l -> exists A, Tet_LocalValues junk data l points = Ok A /\ m_rows A = m_cols points /\ m_cols A = N /\
  forall q, rsum N (fun i => poly3 o cf (m_at (tl_Dofs l) 0 i) (m_at (tl_Dofs l) 1 i) (m_at (tl_Dofs l) 2 i) * m_at A q i) = poly3 o cf (m_at points 0 q) (m_at points 1 q) (m_at points 2 q).
Proof using Ho TD G.
  intros L. destruct (values_local junk l points L) as (A & EA & A1 & A2 & A3). exists A. split; auto. split; auto. split; auto. intros q. pose proof L as (_ & _ & _ & _ & _ & _ & LD & _).
  pose (B := mt_B (tg_Map g)). pose (b := mt_b (tg_Map g)).
  pose (f := fun x y z => poly3 o cf (B 0%nat 0%nat * x + B 0%nat 1%nat * y + B 0%nat 2%nat * z + b 0%nat) (B 1%nat 0%nat * x + B 1%nat 1%nat * y + B 1%nat 2%nat * z + b 1%nat) (B 2%nat 0%nat * x + B 2%nat 1%nat * y + B 2%nat 2%nat * z + b 2%nat)).
  assert (FE : forall x : point, poly3 o cf (F x 0%nat) (F x 1%nat) (F x 2%nat) = f (x 0%nat) (x 1%nat) (x 2%nat)).
  { intros x. unfold f, B, b, affine. cbn [rsum]. f_equal; ring. }
  rewrite (sum_order _ (fun t => let '(a, b, c) := t in f (INR a / INR o) (INR b / INR o) (INR c / INR o) * phi3 o t (m_at (mt_FInv (tg_Map g) points) 0 q) (m_at (mt_FInv (tg_Map g) points) 1 q) (m_at (mt_FInv (tg_Map g) points) 2 q))).
  - rewrite lsum_interp. rewrite interp_pol; auto.
    + rewrite <- (FE (fun c => m_at (mt_FInv (tg_Map g) points) c q)). rewrite !F_FInv by lia. reflexivity.
    + apply (pol_poly3 o cf (fun k => match k with 3%nat => b 0%nat | _ => B 0%nat k end) (fun k => match k with 3%nat => b 1%nat | _ => B 1%nat k end) (fun k => match k with 3%nat => b 2%nat | _ => B 2%nat k end)).
  - intros d p ((a, b'), c) E1 E2. rewrite (A3 q d p _ E1 E2), !(LD d p _ E1). f_equal. rewrite FE. destruct (at_dof o Ho data d _ _ _ TD E2) as (B0 & B1 & B2). now rewrite B0, B1, B2.
Qed.
End Local.
