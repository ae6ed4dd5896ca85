(** The tetrahedra of a mesh: traces on faces and continuity. *)
From Coq Require Import List Arith Bool Lia ZArith Reals Lra Permutation.
From Verif Require Import Base RSum MatrixModel MonomialsModel MonomialsSpec LagrangeModel LagrangeSpec LagrangeProofs RBinom TriangleModel TriangleSpec TriangleProofs TriangleProofs2 TriangleProofs3 TriangleProofs4 TriangleProofs6 VemQuadModel VemQuadProofs TetModel TetSpec TetProofs TetProofs2 TetProofs3 TetProofs5 TetLocalModel TetLocalSpec TetLocalProofs TetLocalProofs2 TetLocalProofs3 TetLocalProofs4 TetLocalProofs5.
Import ListNotations.
Local Open Scope R_scope.

Section Trace.
Variable o : nat.
Hypothesis Ho : (1 <= o)%nat.
Notation n1 := (o - 1)%nat.

Lemma phi3_lam a b c x y z : phi3 o (a, b, c) x y z =
  gb (INR o * lam x y z 0) (typ o (a, b, c) 0) * gb (INR o * lam x y z 1) (typ o (a, b, c) 1) * gb (INR o * lam x y z 2) (typ o (a, b, c) 2) * gb (INR o * lam x y z 3) (typ o (a, b, c) 3).
Proof using. reflexivity. Qed.

(** barycentric coordinates of the point of a face *)
Definition fw (v0 v1 v2 : nat) (x y : R) (w : nat) : R := if (w =? v0)%nat then 1 - x - y else if (w =? v1)%nat then x else if (w =? v2)%nat then y else 0.

Ltac faces v0 v1 v2 H0 H1 H2 N1 N2 N3 :=
  four v0 H0; four v1 H1; try (exfalso; apply N1; reflexivity); four v2 H2; try (exfalso; apply N2; reflexivity); try (exfalso; apply N3; reflexivity).

Lemma phi3_on_face v0 v1 v2 x y X Y Z i j : (v0 < 4)%nat -> (v1 < 4)%nat -> (v2 < 4)%nat -> v0 <> v1 -> v1 <> v2 -> v2 <> v0 ->
  (forall w, (w < 4)%nat -> lam X Y Z w = fw v0 v1 v2 x y w) -> (i + j <= o)%nat -> phi3 o (tp o v0 v1 v2 i j) X Y Z = phi o (i, j) x y.
Proof using Ho.
  intros H0 H1 H2 N1 N2 N3 L S. pose proof (tp_sum o Ho v0 v1 v2 i j H0 H1 H2 N1 N2 N3 S) as T. destruct (tp o v0 v1 v2 i j) as ((a, b), c). destruct T as (_ & T).
  rewrite phi3_lam, !T, !L by lia. clear T L. unfold phi. cbn [fst snd].
  faces v0 v1 v2 H0 H1 H2 N1 N2 N3; unfold wt, fw; cbn [Nat.eqb]; rewrite Rmult_0_r, gb_0; cbn [Nat.eqb]; ring.
Qed.
Lemma phi3_off_face v0 v1 v2 x y X Y Z a b c : (v0 < 4)%nat -> (v1 < 4)%nat -> (v2 < 4)%nat -> v0 <> v1 -> v1 <> v2 -> v2 <> v0 ->
  (forall w, (w < 4)%nat -> lam X Y Z w = fw v0 v1 v2 x y w) -> (a + b + c <= o)%nat ->
  (exists i j, (i + j <= o)%nat /\ (a, b, c) = tp o v0 v1 v2 i j) \/
  ((forall i j, (i + j <= o)%nat -> (a, b, c) <> tp o v0 v1 v2 i j) /\ phi3 o (a, b, c) X Y Z = 0).
Proof using Ho.
  intros H0 H1 H2 N1 N2 N3 L S.
  assert (W : exists w, (w < 4)%nat /\ w <> v0 /\ w <> v1 /\ w <> v2).
  { clear L. faces v0 v1 v2 H0 H1 H2 N1 N2 N3; first [exists 0%nat; lia|exists 1%nat; lia|exists 2%nat; lia|exists 3%nat; lia]. }
  destruct W as (w & Hw & W0 & W1 & W2). destruct (Nat.eq_dec (typ o (a, b, c) w) 0) as [E|E].
  - left. exists (typ o (a, b, c) v2), (typ o (a, b, c) v1). unfold typ in *.
    clear L. four w Hw; faces v0 v1 v2 H0 H1 H2 N1 N2 N3; try (exfalso; lia); unfold tp, wt; cbn [Nat.eqb vec4] in *; (split; [lia|apply f_equal2; [apply f_equal2|]; lia]).
  - right. split.
    + intros i j Sij EQ. pose proof (tp_sum o Ho v0 v1 v2 i j H0 H1 H2 N1 N2 N3 Sij) as T. rewrite <- EQ in T. destruct T as (_ & T). rewrite T in E by auto. apply E. unfold wt.
      destruct (Nat.eqb_spec w v0); [congruence|]. destruct (Nat.eqb_spec w v1); [congruence|]. destruct (Nat.eqb_spec w v2); [congruence|]. reflexivity.
    + assert (Z0 : gb (INR o * lam X Y Z w) (typ o (a, b, c) w) = 0).
      { rewrite L by auto. unfold fw. destruct (Nat.eqb_spec w v0); [congruence|]. destruct (Nat.eqb_spec w v1); [congruence|]. destruct (Nat.eqb_spec w v2); [congruence|].
        rewrite Rmult_0_r, gb_0. destruct (Nat.eqb_spec (typ o (a, b, c) w) 0); [congruence|reflexivity]. }
      rewrite phi3_lam. clear -Z0 Hw. four w Hw; rewrite Z0; ring.
Qed.

(** sum over the lattice of a function whose support is the face *)
Lemma lsum_face v0 v1 v2 (h : nat * nat * nat -> R) : (v0 < 4)%nat -> (v1 < 4)%nat -> (v2 < 4)%nat -> v0 <> v1 -> v1 <> v2 -> v2 <> v0 ->
  (forall t, In t (TL o) -> (forall i j, (i + j <= o)%nat -> t <> tp o v0 v1 v2 i j) -> h t = 0) ->
  lsum h (TL o) = lsum (fun p => h (tp o v0 v1 v2 (fst p) (snd p))) (pairs (S o)).
Proof using Ho.
  intros H0 H1 H2 N1 N2 N3 Z. pose (L := map (fun p => tp o v0 v1 v2 (fst p) (snd p)) (pairs (S o))).
  pose (inL := fun t => existsb (pt3_eqb t) L).
  assert (IN : forall t, inL t = true <-> In t L).
  { intros t. unfold inL. rewrite existsb_exists. split.
    - intros (x & Hx & E). destruct (pt3_eqb_spec t x); [subst; auto|discriminate].
    - intros Ht. exists t. split; auto. destruct (pt3_eqb_spec t t); congruence. }
  assert (INL : forall t, In t L <-> exists i j, (i + j <= o)%nat /\ t = tp o v0 v1 v2 i j).
  { intros t. unfold L. rewrite in_map_iff. split.
    - intros ((i, j) & <- & I). apply pairs_In in I. exists i, j. split; [lia|auto].
    - intros (i & j & S & ->). exists (i, j). split; auto. apply pairs_In. lia. }
  rewrite (lsum_ext h (fun t => if inL t then h t else 0)).
  2: { intros t It. destruct (inL t) eqn:E; auto. apply Z; auto. intros i j S EQ. assert (X : inL t = true) by (apply IN, INL; eauto). congruence. }
  rewrite lsum_filter. rewrite <- (lsum_map h (fun p => tp o v0 v1 v2 (fst p) (snd p))). fold L. apply lsum_perm. apply NoDup_Permutation.
  - apply NoDup_filter, (TL_NoDup o Ho).
  - unfold L. apply NoDup_map_inj; [|apply pairs_NoDup]. intros (i, j) (i', j') I I' E. apply pairs_In in I. apply pairs_In in I'. cbn [fst snd] in E.
    destruct (tp_inj o Ho v0 v1 v2 i j i' j' H0 H1 H2 N1 N2 N3 ltac:(lia) ltac:(lia) E). congruence.
  - intros t. rewrite filter_In, IN. split; [tauto|]. intros I. split; auto. apply INL in I. destruct I as (i & j & S & ->).
    pose proof (tp_sum o Ho v0 v1 v2 i j H0 H1 H2 N1 N2 N3 S) as T. destruct (tp o v0 v1 v2 i j) as ((a, b), c). apply (TL_In o Ho). tauto.
Qed.

(** points of the sides of a face *)
Lemma tp_side0 v0 v1 v2 j : (v0 < 4)%nat -> (v1 < 4)%nat -> (v2 < 4)%nat -> v0 <> v1 -> v1 <> v2 -> v2 <> v0 -> (j <= o)%nat -> tp o v0 v1 v2 0 j = tp o v0 v1 v0 0 j.
Proof using Ho. intros H0 H1 H2 N1 N2 N3 S. faces v0 v1 v2 H0 H1 H2 N1 N2 N3; unfold tp, wt; cbn [Nat.eqb]; reflexivity. Qed.
Lemma tp_side1 v0 v1 v2 i : (v0 < 4)%nat -> (v1 < 4)%nat -> (v2 < 4)%nat -> v0 <> v1 -> v1 <> v2 -> v2 <> v0 -> (i <= o)%nat -> tp o v0 v1 v2 i (o - i) = tp o v1 v2 v1 0 i.
Proof using Ho. intros H0 H1 H2 N1 N2 N3 S. faces v0 v1 v2 H0 H1 H2 N1 N2 N3; unfold tp, wt; cbn [Nat.eqb]; (apply f_equal2; [apply f_equal2|]; lia). Qed.
Lemma tp_side2 v0 v1 v2 i : (v0 < 4)%nat -> (v1 < 4)%nat -> (v2 < 4)%nat -> v0 <> v1 -> v1 <> v2 -> v2 <> v0 -> (i <= o)%nat -> tp o v0 v1 v2 i 0 = tp o v2 v0 v2 0 (o - i).
Proof using Ho. intros H0 H1 H2 N1 N2 N3 S. faces v0 v1 v2 H0 H1 H2 N1 N2 N3; unfold tp, wt; cbn [Nat.eqb]; (apply f_equal2; [apply f_equal2|]; lia). Qed.
Lemma tp_vertex a b : (a < 4)%nat -> (b < 4)%nat -> a <> b -> tp o a b a 0 o = tp o b a b 0 0.
Proof using Ho. intros Ha Hb Nab. rewrite (tp_swap o Ho) by auto. now rewrite Nat.sub_diag. Qed.
End Trace.

Section Cell.
Variable o : nat.
Hypothesis Ho : (1 <= o)%nat.
Variable data : Tet_Data.
Hypothesis TD : tet_data o data.
Variable g : Tet_Geometry.
Variable V : nat -> point.
Hypothesis G : tetrahedron g V.
Notation n1 := (o - 1)%nat.
Notation m2 := (n2 o).
Notation N := (TN o).
Notation F := (affine (mt_B (tg_Map g)) (mt_b (tg_Map g))).
Notation order := (order o g).

(** unknown of a lattice point *)
Definition unk (u : nat -> R) (t : nat * nat * nat) : R := u (nth (index t (TL o)) order 0%nat).
Lemma unk_at u d p t : nth_error order d = Some p -> nth_error (TL o) d = Some t -> unk u t = u p.
Proof using Ho.
  intros E1 E2. unfold unk. f_equal. apply nth_error_nth. rewrite <- E1. f_equal. pose proof (TL_NoDup o Ho) as ND. rewrite NoDup_nth_error in ND.
  assert (I : nth_error (TL o) (index t (TL o)) = Some t) by (apply index_ok; eapply nth_error_In; eauto). apply ND; [eapply nth_error_lt; eauto|congruence].
Qed.
Lemma bary_point points q v0 v1 v2 x y : (v0 < 4)%nat -> (v1 < 4)%nat -> (v2 < 4)%nat -> v0 <> v1 -> v1 <> v2 -> v2 <> v0 ->
  (forall c, (c < 3)%nat -> m_at points c q = (1 - x - y) * V v0 c + x * V v1 c + y * V v2 c) ->
  forall w, (w < 4)%nat -> lam (m_at (mt_FInv (tg_Map g) points) 0 q) (m_at (mt_FInv (tg_Map g) points) 1 q) (m_at (mt_FInv (tg_Map g) points) 2 q) w = fw v0 v1 v2 x y w.
Proof using Ho G.
  intros H0 H1 H2 N1 N2 N3 HP. destruct G as (GV & GI & _).
  pose (r := fun d => (1 - x - y) * ref_vertex v0 d + x * ref_vertex v1 d + y * ref_vertex v2 d).
  assert (FR : forall c, (c < 3)%nat -> m_at points c q = F r c).
  { intros c Hc. rewrite HP by auto. rewrite <- (GV v0), <- (GV v1), <- (GV v2) by auto. unfold affine, r. cbn [rsum]. ring. }
  pose proof (FInv_F (tg_Map g) r points q GI FR) as X. rewrite !X by lia. clear -H0 H1 H2 N1 N2 N3.
  intros w Hw. unfold r, ref_vertex, lam, fw.
  four v0 H0; four v1 H1; try (exfalso; apply N1; reflexivity); four v2 H2; try (exfalso; apply N2; reflexivity); try (exfalso; apply N3; reflexivity); four w Hw; cbn [Nat.eqb vec4]; ring.
Qed.

(** the function with the unknowns [u], on a face *)
Lemma trace_face junk l points q f v0 v1 v2 e0 e1 e2 x y u : local_of o data g l -> face_of g f v0 v1 v2 e0 e1 e2 ->
  (forall c, (c < 3)%nat -> m_at points c q = (1 - x - y) * V v0 c + x * V v1 c + y * V v2 c) ->
  exists A, Tet_LocalValues junk data l points = Ok A /\ rsum N (fun p => u p * m_at A q p) = lsum (fun p => unk u (tp o v0 v1 v2 (fst p) (snd p)) * phi o p x y) (pairs (S o)).
Proof using Ho TD G.
  intros L FO HP. pose proof FO as (_ & (H0 & H1 & H2 & N1 & N2 & N3) & _).
  destruct (values_local o Ho data TD g V G junk l points L) as (A & EA & _ & _ & A3). exists A. split; auto.
  pose proof (bary_point points q v0 v1 v2 x y H0 H1 H2 N1 N2 N3 HP) as B.
  set (X := m_at (mt_FInv (tg_Map g) points) 0 q) in *. set (Y := m_at (mt_FInv (tg_Map g) points) 1 q) in *. set (Z := m_at (mt_FInv (tg_Map g) points) 2 q) in *.
  rewrite (sum_order o Ho g V G _ (fun t => unk u t * phi3 o t X Y Z)) by (intros d p t E1 E2; now rewrite (A3 q d p t E1 E2), (unk_at u d p t E1 E2)).
  rewrite (lsum_face o Ho v0 v1 v2 _ H0 H1 H2 N1 N2 N3).
  2: { intros ((a, b), c) I NI. apply (TL_In o Ho) in I. destruct (phi3_off_face o Ho v0 v1 v2 x y X Y Z a b c H0 H1 H2 N1 N2 N3 B I) as [(i & j & S & E)|(_ & E)]; [destruct (NI i j S E)|rewrite E; ring]. }
  apply lsum_ext. intros (i, j) I. apply pairs_In in I. cbn [fst snd]. f_equal. apply phi3_on_face; auto. lia.
Qed.

(** the unknowns of a face *)
Lemma joins_ends e a b : joins g e a b -> (edge_start g e = a /\ edge_end g e = b) \/ (edge_start g e = b /\ edge_end g e = a).
Proof using. intros [J|J]; unfold edge_start, edge_end; rewrite (nth_error_nth _ _ _ J); destruct (nth e (tg_EdgesDirection g) true); auto. Qed.
Lemma unk_vertex u v b : (v < 4)%nat -> (b < 4)%nat -> v <> b -> unk u (tp o v b v 0 0) = u v.
Proof using Ho G. intros Hv Hb Nb. destruct (order_vertex o Ho g V G v b Hv Hb Nb) as (d & E1 & E2). apply (unk_at u d); auto. Qed.
(** unknown at the point at distance [k] of [o] from [a] on the edge joining [a] and [b] *)
Definition eidx (e a k : nat) : nat := (if Nat.eqb (edge_start g e) a then 4 + e * n1 + (k - 1) else 4 + e * n1 + (o - k - 1))%nat.
Lemma unk_edge u e a b k : (e < 6)%nat -> (a < 4)%nat -> (b < 4)%nat -> a <> b -> joins g e a b -> (0 < k)%nat -> (k < o)%nat -> unk u (tp o a b a 0 k) = u (eidx e a k).
Proof using Ho G.
  intros He Ha Hb Nab J K1 K2. unfold eidx. destruct (joins_ends e a b J) as [(S & E)|(S & E)]; rewrite S.
  - rewrite Nat.eqb_refl. destruct (order_edges o Ho g V G e (k - 1) He ltac:(lia)) as (d & E1 & E2). rewrite S, E in E2. replace (Datatypes.S (k - 1)) with k in E2 by lia. apply (unk_at u d); auto.
  - destruct (Nat.eqb_spec b a); [congruence|]. destruct (order_edges o Ho g V G e (o - k - 1) He ltac:(lia)) as (d & E1 & E2). rewrite S, E in E2. replace (Datatypes.S (o - k - 1)) with (o - k)%nat in E2 by lia.
    rewrite (tp_swap o Ho a b k) by (auto; lia). apply (unk_at u d); auto.
Qed.
Lemma unk_face u f v0 v1 v2 e0 e1 e2 i j : (f < 4)%nat -> face_of g f v0 v1 v2 e0 e1 e2 -> (i + j <= o)%nat ->
  unk u (tp o v0 v1 v2 i j) =
  if (i =? 0)%nat then (if (j =? 0)%nat then u v0 else if (j =? o)%nat then u v1 else u (eidx e0 v0 j))
  else if (i =? o)%nat then u v2
  else if (j =? 0)%nat then u (eidx e2 v2 (o - i))
  else if (i + j =? o)%nat then u (eidx e1 v1 i)
  else unk u (tp o v0 v1 v2 i j).
Proof using Ho G.
  intros Hf FO S. pose proof FO as (_ & (H0 & H1 & H2 & N1 & N2 & N3) & (He0 & He1 & He2) & J0 & J1 & J2).
  destruct (Nat.eqb_spec i 0) as [->|I0].
  - rewrite (tp_side0 o Ho) by (auto; lia). destruct (Nat.eqb_spec j 0) as [->|Nj0]; [now apply unk_vertex|].
    destruct (Nat.eqb_spec j o) as [->|Njo]; [rewrite (tp_vertex o Ho) by auto; now apply unk_vertex; auto|]. apply (unk_edge u e0 v0 v1); auto; lia.
  - destruct (Nat.eqb_spec i o) as [->|Io].
    + replace j with 0%nat by lia. rewrite (tp_side2 o Ho) by (auto; lia). rewrite Nat.sub_diag. now apply unk_vertex.
    + destruct (Nat.eqb_spec j 0) as [->|Nj0]; [rewrite (tp_side2 o Ho) by (auto; lia); apply (unk_edge u e2 v2 v0); auto; lia|].
      destruct (Nat.eqb_spec (i + j) o) as [E|E]; [|reflexivity]. replace j with (o - i)%nat by lia. rewrite (tp_side1 o Ho) by (auto; lia). apply (unk_edge u e1 v1 v2); auto; lia.
Qed.
Lemma unk_inner u f v0 v1 v2 e0 e1 e2 k : (f < 4)%nat -> face_of g f v0 v1 v2 e0 e1 e2 -> (k < m2)%nat -> unk u (tp o v0 v1 v2 (fst (ij o k)) (snd (ij o k))) = u (4 + 6 * n1 + f * m2 + k)%nat.
Proof using Ho G. intros Hf FO Hk. destruct (order_faces o Ho g V G _ _ _ _ _ _ _ k Hf Hk FO) as (d & E1 & E2). apply (unk_at u d); auto. Qed.
End Cell.

(** two cells with a common face *)
Lemma continuity o data junk1 junk2 g1 V1 g2 V2 l1 l2 f1 f2 v0 v1 v2 e0 e1 e2 w0 w1 w2 d0 d1 d2 (u1 u2 : nat -> R) points q1 points2 q2 x y :
  (1 <= o)%nat -> tet_data o data -> tetrahedron g1 V1 -> tetrahedron g2 V2 -> local_of o data g1 l1 -> local_of o data g2 l2 ->
  (f1 < 4)%nat -> (f2 < 4)%nat -> face_of g1 f1 v0 v1 v2 e0 e1 e2 -> face_of g2 f2 w0 w1 w2 d0 d1 d2 ->
  (edge_start g1 e0 = v0 <-> edge_start g2 d0 = w0) -> (edge_start g1 e1 = v1 <-> edge_start g2 d1 = w1) -> (edge_start g1 e2 = v2 <-> edge_start g2 d2 = w2) ->
  u1 v0 = u2 w0 -> u1 v1 = u2 w1 -> u1 v2 = u2 w2 ->
  (forall k, (k < o - 1)%nat -> u1 (4 + e0 * (o - 1) + k)%nat = u2 (4 + d0 * (o - 1) + k)%nat /\ u1 (4 + e1 * (o - 1) + k)%nat = u2 (4 + d1 * (o - 1) + k)%nat /\ u1 (4 + e2 * (o - 1) + k)%nat = u2 (4 + d2 * (o - 1) + k)%nat) ->
  (forall k, (k < n2 o)%nat -> u1 (4 + 6 * (o - 1) + f1 * n2 o + k)%nat = u2 (4 + 6 * (o - 1) + f2 * n2 o + k)%nat) ->
  (forall c, (c < 3)%nat -> m_at points c q1 = (1 - x - y) * V1 v0 c + x * V1 v1 c + y * V1 v2 c) ->
  (forall c, (c < 3)%nat -> m_at points2 c q2 = (1 - x - y) * V2 w0 c + x * V2 w1 c + y * V2 w2 c) ->
  exists A B, Tet_LocalValues junk1 data l1 points = Ok A /\ Tet_LocalValues junk2 data l2 points2 = Ok B /\
    rsum (TN o) (fun p => u1 p * m_at A q1 p) = rsum (TN o) (fun p => u2 p * m_at B q2 p).
Proof.
  intros Ho TD G1 G2 L1 L2 Hf1 Hf2 F1 F2 S0 S1 S2 U0 U1 U2 UE UF P1 P2.
  destruct (trace_face o Ho data TD g1 V1 G1 junk1 l1 points q1 f1 v0 v1 v2 e0 e1 e2 x y u1 L1 F1 P1) as (A & EA & XA).
  destruct (trace_face o Ho data TD g2 V2 G2 junk2 l2 points2 q2 f2 w0 w1 w2 d0 d1 d2 x y u2 L2 F2 P2) as (B & EB & XB).
  exists A, B. split; auto. split; auto. rewrite XA, XB. apply lsum_ext. intros (i, j) I. apply pairs_In in I. cbn [fst snd]. f_equal.
  assert (EI : forall e d a b, (edge_start g1 e = a <-> edge_start g2 d = b) -> (forall k, (k < o - 1)%nat -> u1 (4 + e * (o - 1) + k)%nat = u2 (4 + d * (o - 1) + k)%nat) -> forall k, (0 < k < o)%nat -> u1 (eidx o g1 e a k) = u2 (eidx o g2 d b k)).
  { intros e d a b S U k K. unfold eidx. destruct (Nat.eqb_spec (edge_start g1 e) a) as [X|X], (Nat.eqb_spec (edge_start g2 d) b) as [Y|Y]; try tauto; apply U; lia. }
  rewrite (unk_face o Ho g1 V1 G1 u1 f1 v0 v1 v2 e0 e1 e2 i j Hf1 F1 ltac:(lia)). rewrite (unk_face o Ho g2 V2 G2 u2 f2 w0 w1 w2 d0 d1 d2 i j Hf2 F2 ltac:(lia)).
  destruct (Nat.eqb_spec i 0); [destruct (Nat.eqb_spec j 0); [auto|destruct (Nat.eqb_spec j o); [auto|apply EI; [auto|intros; now apply UE|lia]]]|].
  destruct (Nat.eqb_spec i o); [auto|]. destruct (Nat.eqb_spec j 0); [apply EI; [auto|intros; now apply UE|lia]|]. destruct (Nat.eqb_spec (i + j) o); [apply EI; [auto|intros; now apply UE|lia]|].
  destruct (ij_ex o Ho i j ltac:(lia) ltac:(lia) ltac:(lia)) as (k & Hk & Ek).
  pose proof (unk_inner o Ho g1 V1 G1 u1 f1 v0 v1 v2 e0 e1 e2 k Hf1 F1 Hk) as Q1. pose proof (unk_inner o Ho g2 V2 G2 u2 f2 w0 w1 w2 d0 d1 d2 k Hf2 F2 Hk) as Q2. rewrite Ek in *. cbn [fst snd] in *. rewrite Q1, Q2. now apply UF.
Qed.
