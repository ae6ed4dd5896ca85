(** Proofs about ZFEM: the basis functions are nodal, and continuous across the sides of the polygons. *)
From Coq Require Import List Arith Bool Lia ZArith Reals Lra.
From Verif Require Import Base RSum MatrixModel LagrangeModel LagrangeSpec GreenSpec TriangleModel TriangleSpec
  TriangleProofs TriangleProofs2 TriangleProofs3 TriangleProofs4 TriangleProofs5 TriangleProofs6 VemQuadModel VemQuadProofs VemModel
  ZfemModel ZfemSpec ZfemProofs ZfemProofs2 ZfemProofs3 ZfemProofs4 ZfemProofs5 ZfemProofs6.
Import ListNotations.
Local Open Scope R_scope.

(** the values at a point do not depend on the other points *)
Lemma values_point o data dir m l P q : (1 <= o)%nat -> Tri_Create o = Ok data -> (3 <= length dir)%nat -> in_range data -> Tri_CreateLocalSpace data 3 dir m = Ok l ->
  forall P' q' V V', (forall c, (c < 3)%nat -> m_at P c q = m_at P' c q') -> Tri_LocalValues data l P = Ok V -> Tri_LocalValues data l P' = Ok V' ->
  forall d, (d < ft_NumBasisFunctions data)%nat -> m_at V q d = m_at V' q' d.
Proof.
  intros Ho E Hd HR EL P' q' V V' HP EV EV' d Hdn.
  destruct (local_values_ok o data dir m l P Ho E Hd HR EL) as (X & EX & _ & _ & H). rewrite EV in EX. injection EX as <-.
  destruct (local_values_ok o data dir m l P' Ho E Hd HR EL) as (X' & EX' & _ & _ & H'). rewrite EV' in EX'. injection EX' as <-.
  destruct (local_ok o data dir m E Hd HR) as (l' & EL' & _ & _ & _ & _ & _ & M6 & _). destruct (M6 d Hdn) as (_ & Hs).
  pose proof (created_ok o data Ho E) as T. pose proof T as (_ & _ & _ & _ & T5 & _).
  destruct (nth_error (Lp o) (sig data dir d)) as [c|] eqn:Ec.
  - rewrite (H q d c Hdn Ec), (H' q' d c Hdn Ec). f_equal; unfold mt_FInv; cbn [m_at]; apply rsum_ext; intros k Hk; now rewrite HP.
  - exfalso. apply nth_error_None in Ec. rewrite Lp_length in Ec by auto. rewrite T5 in Hs. lia.
Qed.

Section One.
Variables (order : nat) (ref : Zfem_Reference) (p : Zfem_Polygon) (llt : Solver) (l : Zfem_Local) (num : node -> nat).
Hypothesis Ho : (1 <= order)%nat.
Hypothesis ER : Zfem_Create order = Ok ref.
Hypothesis HR : in_range (zr_Tri ref).
Hypothesis ST : star (zp_Vertices p) (zp_Center p) (zp_Triangles p) (zp_EdgesDirection p).
Hypothesis FA : facts order ref p llt l num.
Let V := m_cols (zp_Vertices p).
Let n1 := (order - 1)%nat.
Let n2 := ((order - 1) * (order - 2) / 2)%nat.
Let NB := (V + V * n1 + n2)%nat.
Let N := (3 * (1 + n1) + n2)%nat.

(** the values of a function at all the nodes *)
Definition extend (u : nat -> R) (n : nat) : R := if (n <? NB)%nat then u n else rsum NB (fun i => u i * m_at (zl_Weights l) i (n - NB)).

Variable points : list Mat.
Hypothesis HP : (length points <= V)%nat.
Hypothesis HPr : forall P, In P points -> (0 < m_rows P)%nat.

Lemma function_values : exists Z, Zfem_Values ref l points = Ok Z /\ m_rows Z = total_cols points /\ m_cols Z = NB /\
  forall u t P q, nth_error points t = Some P -> (q < m_cols P)%nat -> exists tl B, (t < V)%nat /\ nth_error (zl_Tris l) t = Some tl /\ tri_at (zr_Tri ref) (zp_Triangles p) (zp_EdgesDirection p) t tl /\
    Tri_LocalValues (zr_Tri ref) tl P = Ok B /\
    rsum NB (fun i => u i * m_at Z (total_cols (firstn t points) + q) i) = rsum N (fun d => extend u (num (node_of V n1 t d)) * m_at B q d).
Proof.
  destruct (ref_fields order ref Ho ER HR) as (E1 & _ & _ & _ & _ & _ & R5 & R6 & R7). destruct (zf_counts _ _ _ _ _ _ FA) as (C1 & _ & C3). pose proof (V2 order (zr_Tri ref) _ _ _ _ Ho ST) as HV. fold V in HV.
  assert (He : forall t P, nth_error points t = Some P -> (t < V)%nat /\ exists tl B, nth_error (zl_Tris l) t = Some tl /\ tri_at (zr_Tri ref) (zp_Triangles p) (zp_EdgesDirection p) t tl /\ Tri_LocalValues (zr_Tri ref) tl P = Ok B /\ m_rows B = m_cols P /\ m_cols B = N).
  { intros t P EP. assert (Ht : (t < V)%nat) by (apply Nat.lt_le_trans with (length points); auto; apply nth_error_Some; congruence). split; auto.
    destruct (zf_tris _ _ _ _ _ _ FA) as (_ & T). destruct (T t Ht) as (tl & Et & A). exists tl. pose proof A as (TT & _ & A1 & _).
    destruct (local_values_ok order (zr_Tri ref) [true; nth t (zp_EdgesDirection p) true; false] _ tl P Ho E1 ltac:(cbn; lia) HR A1) as (B & EB & B1 & B2 & _). exists B. rewrite R7 in B2. repeat split; auto. }
  set (BB := fun t => match nth_error points t with Some P => match nth_error (zl_Tris l) t with Some tl => match Tri_LocalValues (zr_Tri ref) tl P with Ok B => B | _ => mzero 0 0 end | None => mzero 0 0 end | None => mzero 0 0 end).
  destruct (zf_W _ _ _ _ _ _ FA) as (_ & W1 & W2). unfold Zfem_Values. rewrite C1.
  destruct (combine_ok V N NB (zl_NumVirtual l) (zl_Map l) (fun t i => num (node_of V n1 t i))) with (eval := fun t P => Tri_LocalValues (zr_Tri ref) t P) (tris := zl_Tris l) (points := points) (BB := BB) (W := zl_Weights l) as (Z & EZ & Z1 & Z2 & Z3); auto.
  - apply (zf_map _ _ _ _ _ _ FA).
  - apply (zf_num _ _ _ _ _ _ FA).
  - intros t i i' Ht Hi Hi' Eq. apply (zf_inj _ _ _ _ _ _ FA) in Eq; [|apply node_of_ok; auto; lia..]. apply (node_of_inj V n1 n2 t); auto.
  - intros t i Ht Hi. unfold NB, V, n1, n2. rewrite C3. apply (zf_lt _ _ _ _ _ _ FA), node_of_ok; auto; lia.
  - intros t P EP. destruct (He t P EP) as (_ & tl & B & Et & _ & EB & B1 & B2). exists tl. split; auto. unfold BB. rewrite EP, Et, EB. auto.
  - exists Z. split; auto. split; auto. split; auto. intros u t P q EP Hq. destruct (He t P EP) as (Ht & tl & B & Et & A & EB & B1 & B2). exists tl, B. repeat split; auto.
    specialize (Z3 (extend u) t P q EP Hq). unfold off, BB in Z3. rewrite EP, Et, EB in Z3. rewrite <- Z3.
    + apply rsum_ext. intros i Hi. unfold extend. now rewrite ltb_true.
    + intros j Hj. unfold extend at 2. rewrite ltb_false by lia. replace (NB + j - NB)%nat with j by lia. apply rsum_ext. intros i Hi. unfold extend. now rewrite ltb_true.
Qed.

(** C77 *)
Lemma nodal : exists Z, Zfem_Values ref l points = Ok Z /\ m_rows Z = total_cols points /\ m_cols Z = NB /\
  forall t d P q, nth_error points t = Some P -> (q < m_cols P)%nat -> (d < N)%nat -> (forall c, (c < 3)%nat -> m_at P c q = m_at (zl_Finer l) c (nm_at (zl_Map l) t d)) ->
    forall i, (i < NB)%nat -> m_at Z (total_cols (firstn t points) + q) i = (if (nm_at (zl_Map l) t d <? NB)%nat then kron i (nm_at (zl_Map l) t d) else m_at (zl_Weights l) i (nm_at (zl_Map l) t d - NB)).
Proof.
  destruct (ref_fields order ref Ho ER HR) as (E1 & _ & _ & _ & _ & _ & R5 & R6 & R7). pose proof (V2 order (zr_Tri ref) _ _ _ _ Ho ST) as HV. fold V in HV.
  destruct function_values as (Z & EZ & Z1 & Z2 & Z3). exists Z. repeat split; auto. intros t d P q EP Hq Hd Hpos i Hi.
  destruct (Z3 (fun k => kron i k) t P q EP Hq) as (tl & B & Ht & Et & A & EB & S).
  rewrite (rsum_single NB _ i) in S; auto. 2: { intros k _ Hk. unfold kron. destruct (Nat.eqb_spec i k); [lia|ring]. }
  unfold kron at 1 in S. rewrite Nat.eqb_refl, Rmult_1_l in S. rewrite S. clear S.
  pose proof A as (TT & _ & A1 & A2).
  destruct (C45_local_nodal_all order (zr_Tri ref) [true; nth t (zp_EdgesDirection p) true; false] _ tl Ho E1 ltac:(cbn; lia) HR A2 A1) as (X & EX & X1 & X2 & X3). rewrite R7 in X3.
  rewrite (zf_num _ _ _ _ _ _ FA) in Hpos |- * by auto. fold V n1 in Hpos |- *.
  rewrite (rsum_ext N _ (fun d' => extend (fun k => kron i k) (num (node_of V n1 t d')) * kron d' d)).
  2: { intros d' Hd'. f_equal. rewrite <- X3 by auto.
    apply (values_point order (zr_Tri ref) [true; nth t (zp_EdgesDirection p) true; false] _ tl P q Ho E1 ltac:(cbn; lia) HR A1 (lt_Dofs tl) d B X); auto; [|now rewrite R7].
    intros c Hc. rewrite Hpos by auto. destruct (zf_finer _ _ _ _ _ _ FA) as (_ & _ & F3). rewrite F3 by (auto; apply node_of_ok; auto; lia). symmetry. rewrite (tri_position order (zr_Tri ref) _ _ _ _ Ho E1 HR ST t tl) by (auto; rewrite ?R7; auto). rewrite R5. reflexivity. }
  rewrite (rsum_single N _ d); auto. 2: { intros k _ Hk. unfold kron. destruct (Nat.eqb_spec k d); [lia|ring]. }
  unfold kron at 2. rewrite Nat.eqb_refl, Rmult_1_r. unfold extend. destruct (num (node_of V n1 t d) <? NB)%nat; auto.
  rewrite (rsum_single NB _ i); auto. 2: { intros k _ Hk. unfold kron. destruct (Nat.eqb_spec i k); [lia|ring]. } unfold kron. rewrite Nat.eqb_refl. ring.
Qed.
End One.

(** C76: two polygons with a common side *)
Lemma continuous order ref p1 p2 llt1 llt2 l1 l2 num1 num2 v1 v2 (u1 u2 : nat -> R) points1 points2 P1 P2 q1 q2 s :
  (1 <= order)%nat -> Zfem_Create order = Ok ref -> in_range (zr_Tri ref) ->
  star (zp_Vertices p1) (zp_Center p1) (zp_Triangles p1) (zp_EdgesDirection p1) -> star (zp_Vertices p2) (zp_Center p2) (zp_Triangles p2) (zp_EdgesDirection p2) ->
  facts order ref p1 llt1 l1 num1 -> facts order ref p2 llt2 l2 num2 ->
  let V1 := m_cols (zp_Vertices p1) in let V2 := m_cols (zp_Vertices p2) in let n1 := (order - 1)%nat in
  let start p v := if nth v (zp_EdgesDirection p) true then v else ((v + 1) mod m_cols (zp_Vertices p))%nat in
  let stop p v := if nth v (zp_EdgesDirection p) true then ((v + 1) mod m_cols (zp_Vertices p))%nat else v in
  (v1 < V1)%nat -> (v2 < V2)%nat ->
  (forall c, (c < 3)%nat -> m_at (zp_Vertices p1) c (start p1 v1) = m_at (zp_Vertices p2) c (start p2 v2) /\ m_at (zp_Vertices p1) c (stop p1 v1) = m_at (zp_Vertices p2) c (stop p2 v2)) ->
  u1 (start p1 v1) = u2 (start p2 v2) -> u1 (stop p1 v1) = u2 (stop p2 v2) -> (forall k, (k < n1)%nat -> u1 (V1 + v1 * n1 + k)%nat = u2 (V2 + v2 * n1 + k)%nat) ->
  (length points1 <= V1)%nat -> (length points2 <= V2)%nat -> (forall P, In P points1 \/ In P points2 -> (0 < m_rows P)%nat) ->
  nth_error points1 v1 = Some P1 -> nth_error points2 v2 = Some P2 -> (q1 < m_cols P1)%nat -> (q2 < m_cols P2)%nat ->
  (forall c, (c < 3)%nat -> m_at P1 c q1 = (1 - s) * m_at (zp_Vertices p1) c (start p1 v1) + s * m_at (zp_Vertices p1) c (stop p1 v1) /\ m_at P2 c q2 = m_at P1 c q1) ->
  exists Z1 Z2, Zfem_Values ref l1 points1 = Ok Z1 /\ Zfem_Values ref l2 points2 = Ok Z2 /\
    rsum (zl_NumBasis l1) (fun i => u1 i * m_at Z1 (total_cols (firstn v1 points1) + q1) i) = rsum (zl_NumBasis l2) (fun i => u2 i * m_at Z2 (total_cols (firstn v2 points2) + q2) i).
Proof.
  intros Ho ER HR ST1 ST2 FA1 FA2 V1 V2' n1 start stop Hv1 Hv2 HVx HA HZ HS HL1 HL2 HPr EP1 EP2 Hq1 Hq2 Hpt.
  destruct (ref_fields order ref Ho ER HR) as (E1 & _ & _ & _ & _ & _ & R5 & R6 & R7).
  destruct (zf_counts _ _ _ _ _ _ FA1) as (-> & _ & _). destruct (zf_counts _ _ _ _ _ _ FA2) as (-> & _ & _).
  destruct (function_values order ref p1 llt1 l1 num1 Ho ER HR ST1 FA1 points1 HL1 (fun P H => HPr P (or_introl H))) as (Z1 & EZ1 & _ & _ & S1).
  destruct (function_values order ref p2 llt2 l2 num2 Ho ER HR ST2 FA2 points2 HL2 (fun P H => HPr P (or_intror H))) as (Z2 & EZ2 & _ & _ & S2).
  exists Z1, Z2. split; auto. split; auto.
  destruct (S1 u1 v1 P1 q1 EP1 Hq1) as (t1 & B1 & _ & Et1 & A1 & EB1 & ->). destruct (S2 u2 v2 P2 q2 EP2 Hq2) as (t2 & B2 & _ & Et2 & A2 & EB2 & ->).
  pose proof A1 as (T1 & _ & A11 & A12). pose proof A2 as (T2 & _ & A21 & A22).
  pose proof (V2 order (zr_Tri ref) _ _ _ _ Ho ST1) as HV1. fold V1 in HV1. pose proof (V2 order (zr_Tri ref) _ _ _ _ Ho ST2) as HV2. fold V2' in HV2.
  assert (NX : forall V v, (2 <= V)%nat -> ((v + 1) mod V < V)%nat) by (intros; apply Nat.mod_upper_bound; lia).
  assert (D1 : forall c, (c < 3)%nat -> m_at (lt_Dofs t1) c 1 = m_at (zp_Vertices p1) c v1 /\ m_at (lt_Dofs t1) c 2 = m_at (zp_Vertices p1) c ((v1 + 1) mod V1)).
  { intros c Hc. rewrite !(tri_position order (zr_Tri ref) _ _ _ _ Ho E1 HR ST1 v1 t1) by (auto; rewrite R7; lia). auto. }
  assert (D2 : forall c, (c < 3)%nat -> m_at (lt_Dofs t2) c 1 = m_at (zp_Vertices p2) c v2 /\ m_at (lt_Dofs t2) c 2 = m_at (zp_Vertices p2) c ((v2 + 1) mod V2')).
  { intros c Hc. rewrite !(tri_position order (zr_Tri ref) _ _ _ _ Ho E1 HR ST2 v2 t2) by (auto; rewrite R7; lia). auto. }
  set (w1 := fun d => extend order p1 l1 u1 (num1 (node_of V1 n1 v1 d))). set (w2 := fun d => extend order p2 l2 u2 (num2 (node_of V2' n1 v2 d))).
  assert (U1 : w1 1%nat = u1 v1 /\ w1 2%nat = u1 ((v1 + 1) mod V1)%nat /\ forall k, (k < n1)%nat -> w1 (3 + 1 * n1 + k)%nat = u1 (V1 + v1 * n1 + k)%nat).
  { unfold w1. cbn [node_of]. rewrite !(zf_corner _ _ _ _ _ _ FA1) by (auto; now apply NX). unfold extend. fold V1 n1. pose proof (NX V1 v1 HV1). rewrite !ltb_true by lia. repeat split; auto. intros k Hk.
    replace (node_of V1 n1 v1 (3 + 1 * n1 + k)) with (Side v1 k). 2: { cbn [Nat.add node_of]. replace (S (S (S (1 * n1 + k))) - 3)%nat with (n1 + k)%nat by lia. rewrite ltb_false, ltb_true by lia. f_equal. lia. }
    rewrite (zf_side _ _ _ _ _ _ FA1) by auto. fold V1 n1. now rewrite ltb_true by nia. }
  assert (U2 : w2 1%nat = u2 v2 /\ w2 2%nat = u2 ((v2 + 1) mod V2')%nat /\ forall k, (k < n1)%nat -> w2 (3 + 1 * n1 + k)%nat = u2 (V2' + v2 * n1 + k)%nat).
  { unfold w2. cbn [node_of]. rewrite !(zf_corner _ _ _ _ _ _ FA2) by (auto; now apply NX). unfold extend. fold V2' n1. pose proof (NX V2' v2 HV2). rewrite !ltb_true by lia. repeat split; auto. intros k Hk.
    replace (node_of V2' n1 v2 (3 + 1 * n1 + k)) with (Side v2 k). 2: { cbn [Nat.add node_of]. replace (S (S (S (1 * n1 + k))) - 3)%nat with (n1 + k)%nat by lia. rewrite ltb_false, ltb_true by lia. f_equal. lia. }
    rewrite (zf_side _ _ _ _ _ _ FA2) by auto. fold V2' n1. now rewrite ltb_true by nia. }
  destruct U1 as (U11 & U12 & U13), U2 as (U21 & U22 & U23).
  set (d1 := [true; nth v1 (zp_EdgesDirection p1) true; false]) in *. set (d2 := [true; nth v2 (zp_EdgesDirection p2) true; false]) in *.
  pose proof (C61_all order (zr_Tri ref) d1 d2 _ _ t1 t2 1%nat 1%nat w1 w2 Ho E1 HR ltac:(cbn; lia) ltac:(cbn; lia) A12 A22 A11 A21 ltac:(lia) ltac:(lia)) as C. cbv zeta in C.
  change (nth 1 d1 true) with (nth v1 (zp_EdgesDirection p1) true) in C. change (nth 1 d2 true) with (nth v2 (zp_EdgesDirection p2) true) in C. change ((1 + 1) mod 3)%nat with 2%nat in C.
  unfold start, stop in HVx, HA, HZ, Hpt. fold V1 V2' in HVx, HA, HZ, Hpt. rewrite R5, R7 in C.
  specialize (C) with (s := s) (p := fun c => m_at P1 c q1).
  destruct C as (X1 & X2 & EX1 & EX2 & EX).
  - intros c Hc. destruct (D1 c Hc) as (K1 & K2). destruct (D2 c Hc) as (K3 & K4). specialize (HVx c Hc). destruct (nth v1 _ true), (nth v2 _ true); rewrite ?K1, ?K2, ?K3, ?K4; exact HVx.
  - destruct (nth v1 _ true), (nth v2 _ true); congruence.
  - destruct (nth v1 _ true), (nth v2 _ true); congruence.
  - intros k Hk. rewrite U13, U23 by auto. auto.
  - intros c Hc. destruct (D1 c Hc) as (K1 & K2). destruct (Hpt c Hc) as (K3 & _). destruct (nth v1 _ true); rewrite ?K1, ?K2; exact K3.
  - transitivity (rsum (3 * (1 + n1) + (order - 1) * (order - 2) / 2) (fun d => w1 d * m_at X1 0 d)).
    + apply rsum_ext. intros d Hd. unfold w1. f_equal. apply (values_point order (zr_Tri ref) d1 _ t1 P1 q1 Ho E1 ltac:(cbn; lia) HR A11 (space_point (fun c => m_at P1 c q1)) 0%nat B1 X1); auto. now rewrite R7.
    + refine (eq_trans EX _). symmetry. apply rsum_ext. intros d Hd. unfold w2. f_equal. apply (values_point order (zr_Tri ref) d2 _ t2 P2 q2 Ho E1 ltac:(cbn; lia) HR A21 (space_point (fun c => m_at P1 c q1)) 0%nat B2 X2); auto; [|now rewrite R7].
      intros c Hc. cbn. apply Hpt. auto.
Qed.
