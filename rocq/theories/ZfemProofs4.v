(** Proofs about the nodes of a ZFEM polygon: positions. *)
From Coq Require Import List Arith Bool Lia ZArith Reals Lra.
From Verif Require Import Base RSum MatrixModel MonomialsModel MonomialsSpec LagrangeModel LagrangeSpec TriangleModel TriangleSpec
  TriangleProofs TriangleProofs2 TriangleProofs3 TriangleProofs4 TriangleProofs5 TriangleProofs6 VemQuadModel VemQuadProofs VemModel
  ZfemModel ZfemSpec ZfemProofs ZfemProofs2 ZfemProofs3.
Import ListNotations.
Local Open Scope R_scope.

Lemma map_inverse T : (m_at T 0 1 - m_at T 0 0) * (m_at T 1 2 - m_at T 1 0) <> (m_at T 0 2 - m_at T 0 0) * (m_at T 1 1 - m_at T 1 0) ->
  inverse3 (mt_B (triangle_map T)) (mt_BInv (triangle_map T)).
Proof.
  intros H. intros i j Hi Hj. cbn [triangle_map mt_B mt_BInv].
  set (a := m_at T 0 1 - m_at T 0 0) in *. set (b := m_at T 0 2 - m_at T 0 0) in *. set (c := m_at T 1 1 - m_at T 1 0) in *. set (d := m_at T 1 2 - m_at T 1 0) in *.
  assert (D : a * d - b * c <> 0) by lra.
  destruct i as [|[|[|i]]]; try lia; destruct j as [|[|[|j]]]; try lia; cbn [rsum mapTriangle_B Nat.eqb]; fold a b c d; split; field; auto.
Qed.

Section Poly.
Variables (order : nat) (data : Tri_Data) (vertices : Mat) (centre : nat -> R) (triangles : list Mat) (directions : list bool).
Hypotheses (Ho : (1 <= order)%nat) (E : Tri_Create order = Ok data) (HR : in_range data).
Hypothesis ST : star vertices centre triangles directions.
Let V := m_cols vertices.
Let n1 := ft_NumDofs1D data.
Let n2 := ft_NumDofs2D data.
Let N := ft_NumBasisFunctions data.
Definition inner_point (q : nat) : R * R := (m_at (ft_DofPositions data) 0 (3 + 3 * n1 + q), m_at (ft_DofPositions data) 1 (3 + 3 * n1 + q)).
Local Notation pos := (position order vertices centre directions inner_point).

Lemma zcounts : n1 = (order - 1)%nat /\ n2 = ((order - 1) * (order - 2) / 2)%nat /\ N = (3 * (1 + n1) + n2)%nat.
Proof.
  destruct (C41_all order Ho) as (d' & E' & _ & Q1 & Q2 & Q3 & Q4 & _). rewrite E in E'. injection E' as <-. fold N n1 n2 in Q1, Q3, Q4. rewrite Q2 in Q4.
  split; auto. assert (K : (3 * (1 + n1) + n2 = N)%nat) by lia. split; [|lia].
  assert (J : (2 * n2 = (order - 1) * (order - 2))%nat). { assert (2 * n2 = 2 * N - 6 * (1 + n1))%nat by lia. rewrite H, Q1, Q3. destruct order as [|[|o]]; cbn; nia. }
  rewrite <- J. rewrite Nat.mul_comm, Nat.div_mul; lia.
Qed.

Lemma V2 : (2 <= V)%nat.
Proof.
  destruct (Nat.eq_dec V 1) as [H|H]; [|pose proof (st_some _ _ _ _ ST); unfold V in *; lia]. exfalso.
  destruct (st_triangles _ _ _ _ ST 0%nat ltac:(fold V; lia)) as (T & _ & _ & C & D). fold V in C. rewrite H in C.
  destruct (C 0%nat ltac:(lia)) as (A0 & A1 & A2). destruct (C 1%nat ltac:(lia)) as (B0 & B1 & B2). cbn in A2, B2. apply D. rewrite A1, A2, B1, B2. ring.
Qed.

(** the local space of a triangle *)
Definition tri_at (v : nat) (l : Tri_Local) : Prop := exists T, nth_error triangles v = Some T /\
  Tri_CreateLocalSpace data 3 [true; nth v directions true; false] (triangle_map T) = Ok l /\ inverse3 (mt_B (triangle_map T)) (mt_BInv (triangle_map T)).

Lemma tri_position v l d c : (v < V)%nat -> tri_at v l -> (d < N)%nat -> (c < 3)%nat -> m_at (lt_Dofs l) c d = pos (node_of V n1 v d) c.
Proof.
  intros Hv (T & ET & EL & _) Hd Hc. destruct (st_triangles _ _ _ _ ST v Hv) as (T' & ET' & _ & C & _). rewrite ET in ET'. injection ET' as <-. fold V in C.
  destruct zcounts as (K1 & K2 & K3).
  assert (VP : forall k, (k < 3)%nat -> m_at (lt_Dofs l) c k = match k with O => centre c | S O => m_at vertices c v | _ => m_at vertices c ((v + 1) mod V) end).
  { intros k Hk. rewrite (vertex_pos order data [true; nth v directions true; false] (triangle_map T) l Ho E ltac:(cbn; lia) HR EL) by auto.
    destruct (st_plane _ _ _ _ ST) as (Z0 & Z). pose proof (Z v Hv) as Z1. pose proof (Z ((v + 1) mod V)%nat ltac:(apply Nat.mod_upper_bound; pose proof V2; fold V; lia)) as Z2.
    destruct (C 0%nat ltac:(lia)) as (A0 & A1 & A2). destruct (C 1%nat ltac:(lia)) as (B0 & B1 & B2). destruct (C 2%nat ltac:(lia)) as (D0 & D1 & D2).
    unfold affine. cbn [triangle_map mt_B mt_b]. destruct c as [|[|[|c]]]; try lia; destruct k as [|[|[|k]]]; try lia;
      cbn [rsum mapTriangle_B vec3 vx vy]; rewrite ?A0, ?A1, ?A2, ?B0, ?B1, ?B2, ?D0, ?Z0, ?Z1, ?Z2; ring. }
  assert (EP : forall e k, (e < 3)%nat -> (k < n1)%nat -> _) by exact (fun e k He Hk => C45_edges_all order data [true; nth v directions true; false] (triangle_map T) l Ho E ltac:(cbn; lia) HR EL e k c He Hk Hc).
  fold n1 in EP. destruct d as [|[|[|r]]]; [rewrite VP by lia; reflexivity..|]. cbn [node_of]. replace (S (S (S r)) - 3)%nat with r by lia.
  destruct (Nat.ltb_spec r n1) as [L1|L1].
  - specialize (EP 0%nat r ltac:(lia) L1). cbv zeta in EP. replace (3 + 0 * n1 + r)%nat with (S (S (S r))) in EP by lia. rewrite EP. cbn [nth Nat.add]. change (1 mod 3)%nat with 1%nat. rewrite !VP by lia. reflexivity.
  - destruct (Nat.ltb_spec r (2 * n1)) as [L2|L2].
    + specialize (EP 1%nat (r - n1)%nat ltac:(lia) ltac:(lia)). cbv zeta in EP. replace (3 + 1 * n1 + (r - n1))%nat with (S (S (S r))) in EP by lia. rewrite EP. cbn [nth]. change ((1 + 1) mod 3)%nat with 2%nat. cbn [position].
      fold V. destruct (nth v directions true); rewrite !VP by lia; reflexivity.
    + destruct (Nat.ltb_spec r (3 * n1)) as [L3|L3].
      * specialize (EP 2%nat (r - 2 * n1)%nat ltac:(lia) ltac:(lia)). cbv zeta in EP. replace (3 + 2 * n1 + (r - 2 * n1))%nat with (S (S (S r))) in EP by lia. rewrite EP. cbn [nth]. change ((2 + 1) mod 3)%nat with 0%nat. rewrite !VP by lia. reflexivity.
      * destruct (C45_order_all order data [true; nth v directions true; false] (triangle_map T) E ltac:(cbn; lia) HR) as (l' & EL' & _ & _ & _ & S1 & _ & _ & S2). rewrite EL in EL'. injection EL' as <-.
        destruct (C41_all order Ho) as (d' & E' & _ & _ & Q2 & _). rewrite E in E'. injection E' as <-.
        fold n1 N in S1. rewrite Q2 in S1. rewrite S2 by (fold N; lia). rewrite S1 by lia.
        cbn [position]. unfold inner_point. cbn [fst snd]. replace (3 + 3 * n1 + (r - 3 * n1))%nat with (S (S (S r))) by lia. fold V.
        assert (Z : m_at (ft_DofPositions data) 2 (S (S (S r))) = 0) by (apply (ref_z order data Ho E); auto).
        destruct (st_plane _ _ _ _ ST) as (Z0 & Zv). pose proof (Zv v Hv) as Z1. pose proof (Zv ((v + 1) mod V)%nat ltac:(apply Nat.mod_upper_bound; pose proof V2; fold V; lia)) as Z2.
        destruct (C 0%nat ltac:(lia)) as (A0 & A1 & A2). destruct (C 1%nat ltac:(lia)) as (B0 & B1 & B2). destruct (C 2%nat ltac:(lia)) as (D0 & D1 & D2).
        unfold affine, pt. cbn [triangle_map mt_B mt_b]. destruct c as [|[|[|c]]]; try lia; cbn [rsum mapTriangle_B]; rewrite Z, ?A0, ?A1, ?A2, ?B0, ?B1, ?B2, ?D0, ?Z0, ?Z1, ?Z2; ring.
Qed.

(** the local spaces of the triangles *)
Lemma tris_ok : exists tris, for_loop V (fun v l =>
    T <- idx_ triangles v ;;
    dir <- idx_ directions v ;;
    t <- Tri_CreateLocalSpace data (m_cols T) [true; dir; false] (triangle_map T) ;;
    Ok (l ++ [t])) [] = Ok tris /\ length tris = V /\ forall v, (v < V)%nat -> exists l, nth_error tris v = Some l /\ tri_at v l.
Proof.
  destruct (@for_loop_total _ (fun i (tris : list Tri_Local) => length tris = i /\ forall v, (v < i)%nat -> exists l, nth_error tris v = Some l /\ tri_at v l)
    (fun v l => T <- idx_ triangles v ;; dir <- idx_ directions v ;; t <- Tri_CreateLocalSpace data (m_cols T) [true; dir; false] (triangle_map T) ;; Ok (l ++ [t])) V []) as (tris & Et & L & H).
  - split; [reflexivity|]. intros v Hv. lia.
  - intros i tris Hi (L & H). destruct (st_triangles _ _ _ _ ST i Hi) as (T & ET & CT & _ & D). rewrite (proj2 (idx_Ok _ _ _) ET). cbn [bind].
    rewrite (proj2 (idx_Ok directions i _) (nth_error_nth' directions true (n := i) ltac:(rewrite (st_directions _ _ _ _ ST); exact Hi))). cbn [bind]. rewrite CT.
    destruct (local_ok order data [true; nth i directions true; false] (triangle_map T) E ltac:(cbn; lia) HR) as (l & EL & _). rewrite EL. cbn [bind]. eexists. split; [reflexivity|].
    split; [rewrite app_length; cbn; lia|]. intros v Hv. destruct (Nat.eq_dec v i) as [->|Hn].
    + exists l. split; [rewrite nth_error_app2, L, Nat.sub_diag by lia; reflexivity|]. exists T. repeat split; auto. now apply map_inverse. now apply map_inverse.
    + destruct (H v ltac:(lia)) as (l' & E1 & E2). exists l'. split; auto. rewrite nth_error_app1 by lia. auto.
  - exists tris. auto.
Qed.

(** columns of the table of nodes *)
Variables (M : NMat) (num : node -> nat) (NT : nat).
Hypothesis HM : nm_rows M = V /\ nm_cols M = N.
Hypothesis Hnum : forall t l, (t < V)%nat -> (l < N)%nat -> nm_at M t l = num (node_of V n1 t l).
Hypothesis Hinj : forall x y, is_node V n1 n2 x -> is_node V n1 n2 y -> num x = num y -> x = y.
Hypothesis Hlt : forall x, is_node V n1 n2 x -> (num x < NT)%nat.

Lemma node_valid t l : (t < V)%nat -> (l < N)%nat -> is_node V n1 n2 (node_of V n1 t l).
Proof. intros Ht Hl. apply node_of_ok; auto. pose proof V2; lia. destruct zcounts as (_ & _ & K). lia. Qed.

Definition placed (t k : nat) (F : Mat) : Prop := m_rows F = 3%nat /\ m_cols F = NT /\
  forall t' l c, ((t' < t)%nat /\ (l < N)%nat) \/ (t' = t /\ (t < V)%nat /\ (l < k)%nat /\ (k <= N)%nat) -> (t' < V)%nat -> (c < 3)%nat -> m_at F c (nm_at M t' l) = pos (node_of V n1 t' l) c.

Lemma scatter_ok t l F : (t < V)%nat -> tri_at t l -> placed t 0 F -> exists F', scatter_cols F M t (lt_Dofs l) = Ok F' /\ placed (S t) 0 F'.
Proof.
  intros Ht HT HF. destruct HM as (M1 & M2). unfold scatter_cols.
  assert (DL : m_rows (lt_Dofs l) = 3%nat /\ m_cols (lt_Dofs l) = N).
  { destruct HT as (T & _ & EL & _). destruct (local_ok order data [true; nth t directions true; false] (triangle_map T) E ltac:(cbn; lia) HR) as (l' & EL' & _ & _ & _ & _ & _ & _ & Q1 & Q2 & _). rewrite EL in EL'. injection EL' as <-. auto. }
  destruct DL as (DL1 & DL2). rewrite DL1, DL2, M2. pose proof HF as (F1 & F2 & _). rewrite F1, !Nat.eqb_refl. cbn [andb negb].
  destruct (@for_loop_total _ (fun k F => placed t k F) (fun k A => c <- nmat_get M t k ;; mat_set_col A c (fun i => m_at (lt_Dofs l) i k)) N F) as (F' & E' & HF').
  - exact HF.
  - intros k A Hk (A1 & A2 & A3). unfold nmat_get. rewrite M1, M2, (ltb_true _ _ Ht), (ltb_true _ _ Hk). cbn [andb bind]. unfold mat_set_col.
    assert (B : (nm_at M t k < m_cols A)%nat). { rewrite A2, Hnum by auto. apply Hlt, node_valid; auto. }
    rewrite (ltb_true _ _ B). eexists. split; [reflexivity|]. split; [exact A1|]. split; [exact A2|]. cbn [m_at]. intros t' j c Hj Ht' Hc.
    assert (Hjn : (j < N)%nat) by lia.
    destruct (Nat.eqb_spec (nm_at M t' j) (nm_at M t k)) as [Eq|Ne].
    + rewrite !Hnum in Eq by (auto; lia). apply Hinj in Eq; [|apply node_valid; auto..]. rewrite Eq. apply tri_position; auto.
    + apply A3; auto. destruct Hj as [Hj|Hj]; [left; auto|]. right. assert (j <> k) by (intros ->; destruct Hj as (-> & _); auto). lia.
  - exists F'. split; auto. destruct HF' as (G1 & G2 & G3). split; [auto|]. split; [auto|]. intros t' j c Hj Ht' Hc. apply G3; auto.
    destruct Hj as [(Hj1 & Hj2)|Hj]; [|lia]. destruct (Nat.eq_dec t' t) as [->|]; [right|left]; lia.
Qed.

Lemma nodes_ok tris : length tris = V -> (forall v, (v < V)%nat -> exists l, nth_error tris v = Some l /\ tri_at v l) -> exists F,
  for_loop V (fun t F => l <- idx_ tris t ;; scatter_cols F M t (lt_Dofs l)) (mzero 3 NT) = Ok F /\ m_rows F = 3%nat /\ m_cols F = NT /\
  forall x c, is_node V n1 n2 x -> (c < 3)%nat -> m_at F c (num x) = pos x c.
Proof.
  intros L H. destruct (@for_loop_total _ (fun t F => placed t 0 F) (fun t F => l <- idx_ tris t ;; scatter_cols F M t (lt_Dofs l)) V (mzero 3 NT)) as (F & EF & HF).
  - split; [reflexivity|]. split; [reflexivity|]. intros t' j c Hj. lia.
  - intros t F Ht HF. destruct (H t Ht) as (l & El & Hl). rewrite (proj2 (idx_Ok _ _ _) El). cbn [bind]. apply scatter_ok; auto.
  - exists F. split; auto. destruct HF as (F1 & F2 & F3). split; [auto|]. split; [auto|]. intros x c Hx Hc.
    destruct (node_of_all V n1 n2 x ltac:(pose proof V2; lia) Hx) as (t & l & Ht & Hl & <-). destruct zcounts as (_ & _ & K). rewrite <- Hnum by lia. apply F3; auto. left. lia.
Qed.
End Poly.
