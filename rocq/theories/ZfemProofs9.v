(** Statements about the ZFEM space of a polygon, in the form of ZfemProps. *)
From Coq Require Import List Arith Bool Lia ZArith Reals Lra.
From Verif Require Import Base RSum MatrixModel MonomialsModel MonomialsSpec MonomialsProofs2 LagrangeModel LagrangeSpec GreenSpec TriangleModel TriangleSpec TriangleProofs TriangleProofs2 TriangleProofs3 TriangleProofs4 TriangleProofs5 VemModel VemSpec
  ZfemModel ZfemSpec ZfemProofs3 ZfemProofs4 ZfemProofs6 ZfemProofs7 ZfemProofs8.
Import ListNotations.
Local Open Scope R_scope.
Local Notation poly2 := GreenSpec.poly2.

(** What the statements assume about a polygon: the order is positive and the numbers of the nodes fit an unsigned; the
    triangles of the polygon join its centre to its sides and are not flat; the diameter is not zero; [l] is the local space. *)
Record zfem_space (junk : nat -> nat -> R) (njunk : nat -> nat -> nat) (llt : Solver) (order : nat) (p : Zfem_Polygon) (ref : Zfem_Reference) (l : Zfem_Local) : Prop := {
  zs_order : (1 <= order)%nat;
  zs_ref : Zfem_Create order = Ok ref;
  zs_range : (Z.of_nat (ft_NumBasisFunctions (zr_Tri ref)) <= UINT_MAX)%Z;
  zs_star : star (zp_Vertices p) (zp_Center p) (zp_Triangles p) (zp_EdgesDirection p);
  zs_diameter : zp_Diameter p <> 0;
  zs_space : Zfem_CreateLocalSpace junk njunk llt ref p = Ok l }.

Lemma create_exists order : (1 <= order)%nat -> exists ref, Zfem_Create order = Ok ref.
Proof.
  intros Ho. destruct (create_ok order Ho) as (d & E & _). destruct (Compute_ok Monomials_2D MonomialsProofs.idx2 MonomialsProofs.good_2D order) as (m & Em & _).
  unfold Zfem_Create. rewrite E. cbn [bind].  rewrite Em. cbn [bind]. eauto.
Qed.

Lemma small_orders order ref : (1 <= order <= 3)%nat -> Zfem_Create order = Ok ref -> (Z.of_nat (ft_NumBasisFunctions (zr_Tri ref)) <= UINT_MAX)%Z.
Proof.
  intros Ho ER. unfold Zfem_Create in ER. destruct (Tri_Create order) as [d| |] eqn:E; cbn [bind] in ER; try discriminate. destruct (Compute _ _); cbn [bind] in ER; try discriminate.
  injection ER as <-. cbn [zr_Tri]. apply (small_range order d Ho E).
Qed.

Lemma space_facts junk njunk llt order p ref l : zfem_space junk njunk llt order p ref l -> exists num, facts order ref p llt l num.
Proof.
  intros [Ho ER HR ST Hd EL]. destruct (local_exists order ref p llt Ho ER HR ST Hd junk njunk) as (l' & num & EL' & FA). rewrite EL in EL'. injection EL' as <-. eauto.
Qed.

Lemma space_exists junk njunk llt order p ref : (1 <= order)%nat -> Zfem_Create order = Ok ref -> (Z.of_nat (ft_NumBasisFunctions (zr_Tri ref)) <= UINT_MAX)%Z ->
  star (zp_Vertices p) (zp_Center p) (zp_Triangles p) (zp_EdgesDirection p) -> zp_Diameter p <> 0 -> exists l, zfem_space junk njunk llt order p ref l.
Proof. intros Ho ER HR ST Hd. destruct (local_exists order ref p llt Ho ER HR ST Hd junk njunk) as (l & num & EL & FA). exists l. constructor; auto. Qed.

(** C57 *)
Lemma C57_nodes_all junk njunk llt order p ref l : zfem_space junk njunk llt order p ref l ->
  let V := m_cols (zp_Vertices p) in let n1 := (order - 1)%nat in let n2 := ((order - 1) * (order - 2) / 2)%nat in
  zl_NumBasis l = (V + V * n1 + n2)%nat /\ zl_NumTotal l = (V + V * n1 + 1 + V * (n1 + n2))%nat /\ (zl_NumBasis l + zl_NumVirtual l = zl_NumTotal l)%nat /\
  exists num : node -> nat,
    (forall x y, is_node V n1 n2 x -> is_node V n1 n2 y -> num x = num y -> x = y) /\
    (forall x, is_node V n1 n2 x -> (num x < zl_NumTotal l)%nat) /\
    (forall i, (i < zl_NumTotal l)%nat -> exists x, is_node V n1 n2 x /\ num x = i) /\
    (forall v, (v < V)%nat -> num (Corner v) = v) /\ (forall v q, (v < V)%nat -> (q < n1)%nat -> num (Side v q) = (V + v * n1 + q)%nat) /\
    (forall t i, (t < V)%nat -> (i < ft_NumBasisFunctions (zr_Tri ref))%nat -> nm_at (zl_Map l) t i = num (node_of V n1 t i)) /\
    (exists inner, forall x c, is_node V n1 n2 x -> (c < 3)%nat ->
       let here := position order (zp_Vertices p) (zp_Center p) (zp_EdgesDirection p) inner x c in
       m_at (zl_Finer l) c (num x) = here /\ ((num x < zl_NumBasis l)%nat -> m_at (zl_Nodes l) c (num x) = here) /\
       ((zl_NumBasis l <= num x)%nat -> m_at (zl_VirtualNodes l) c (num x - zl_NumBasis l) = here)) /\
    (forall t tl i c, nth_error (zl_Tris l) t = Some tl -> (i < ft_NumBasisFunctions (zr_Tri ref))%nat -> (c < 3)%nat -> m_at (lt_Dofs tl) c i = m_at (zl_Finer l) c (nm_at (zl_Map l) t i)).
Proof.
  intros ZS V n1 n2. destruct (space_facts _ _ _ _ _ _ _ ZS) as (num & FA). destruct ZS as [Ho ER HR ST Hd EL]. destruct (zf_counts _ _ _ _ _ _ FA) as (C1 & C2 & C3). fold V n1 n2 in C1, C2, C3.
  destruct (ref_fields order ref Ho ER HR) as (E1 & _ & _ & _ & _ & _ & R5 & R6 & R7). pose proof (V2 order (zr_Tri ref) _ _ _ _ Ho ST) as HV. fold V in HV.
  split; [exact C1|]. split; [exact C2|]. split; [rewrite C1, C2; exact C3|]. exists num.
  split; [apply (zf_inj _ _ _ _ _ _ FA)|]. split; [rewrite C2; apply (zf_lt _ _ _ _ _ _ FA)|]. split; [rewrite C2; apply (zf_onto _ _ _ _ _ _ FA)|].
  split; [apply (zf_corner _ _ _ _ _ _ FA)|]. split; [apply (zf_side _ _ _ _ _ _ FA)|]. split; [rewrite R7; apply (zf_num _ _ _ _ _ _ FA)|].
  destruct (zf_finer _ _ _ _ _ _ FA) as (F1 & F2 & F3). destruct (zf_nodes _ _ _ _ _ _ FA) as (_ & _ & N3). destruct (zf_virtual _ _ _ _ _ _ FA) as (_ & _ & W3).
  split.
  - exists (inner_point (zr_Tri ref)). intros x c Hx Hc. cbv zeta. split; [apply F3; auto|]. split; [intros _; rewrite N3; apply F3; auto|].
    intros Hi. rewrite W3. fold V n1 n2. rewrite C1 in Hi |- *. rewrite <- (F3 x c Hx Hc). f_equal. rewrite Nat.add_comm. apply Nat.sub_add. exact Hi.
  - intros t tl i c Et Hi Hc. destruct (zf_tris _ _ _ _ _ _ FA) as (TL & TT). assert (Ht : (t < V)%nat) by (unfold V; rewrite <- TL; apply nth_error_Some; congruence).
    destruct (TT t Ht) as (tl' & Et' & A). rewrite Et in Et'. injection Et' as <-. rewrite (tri_position order (zr_Tri ref) _ _ _ _ Ho E1 HR ST t tl) by auto. rewrite R7 in Hi.
    rewrite (zf_num _ _ _ _ _ _ FA) by auto. rewrite F3 by (auto; apply node_of_ok; auto; lia). rewrite R5. reflexivity.
Qed.

(** C58 *)
Lemma C58_all junk njunk llt order p ref l : zfem_space junk njunk llt order p ref l -> exact_for positive_definite llt -> unisolvent order (zl_Nodes l) ->
  let NB := zl_NumBasis l in let node i := (m_at (zl_Nodes l) 0 i, m_at (zl_Nodes l) 1 i) in
  let reproduces j w := forall f fx fy, poly2 order f fx fy -> rsum NB (fun i => f (fst (node i)) (snd (node i)) * w i) = f (m_at (zl_VirtualNodes l) 0 j) (m_at (zl_VirtualNodes l) 1 j) in
  forall j, (j < zl_NumVirtual l)%nat -> let W i := m_at (zl_Weights l) i j in
    reproduces j W /\ (forall w, reproduces j w -> rsum NB (fun i => W i * W i) <= rsum NB (fun i => w i * w i)) /\
    (forall w, reproduces j w -> rsum NB (fun i => w i * w i) <= rsum NB (fun i => W i * W i) -> forall i, (i < NB)%nat -> w i = W i).
Proof.
  intros ZS Hl HU NB node reproduces j Hj W. destruct (space_facts _ _ _ _ _ _ _ ZS) as (num & FA). destruct ZS as [Ho ER HR ST Hd EL]. destruct (zf_counts _ _ _ _ _ _ FA) as (C1 & _).
  assert (reproduces j W). { intros f fx fy P. unfold NB. rewrite C1. apply (weights_reproduce order ref p llt Hd l num FA Hl HU f fx fy j P Hj). }
  split; auto. unfold NB. rewrite C1. split; intros w Hw; (destruct (weights_minimal order ref p llt Hd l num FA Hl HU j w Hj) as (A & B); [intros f fx fy P; rewrite <- C1; apply (Hw f fx fy P)|]); auto.
Qed.

Lemma C58_unisolvent_all junk njunk llt order p ref l : zfem_space junk njunk llt order p ref l ->
  lines (zp_Vertices p) (order + 1) \/ ((3 <= order)%nat /\ lines (zp_Vertices p) order) -> unisolvent order (zl_Nodes l).
Proof. intros ZS. destruct (space_facts _ _ _ _ _ _ _ ZS) as (num & FA). destruct ZS as [Ho ER HR ST Hd EL]. apply (nodes_unisolvent order ref p llt l num Ho ST FA). Qed.

(** C75 *)
Lemma C75_all junk njunk llt order p ref l : zfem_space junk njunk llt order p ref l -> exact_for positive_definite llt -> unisolvent order (zl_Nodes l) ->
  forall points, (length points <= m_cols (zp_Vertices p))%nat -> (forall P, In P points -> (0 < m_rows P)%nat) ->
  exists Z D0 D1, Zfem_Values ref l points = Ok Z /\ Zfem_Derivatives ref l 0 points = Ok D0 /\ Zfem_Derivatives ref l 1 points = Ok D1 /\
    Forall (fun M => m_rows M = total_cols points /\ m_cols M = zl_NumBasis l) [Z; D0; D1] /\
    forall f fx fy, poly2 order f fx fy -> forall t P q, nth_error points t = Some P -> (q < m_cols P)%nat ->
      let r := (total_cols (firstn t points) + q)%nat in let u i := f (m_at (zl_Nodes l) 0 i) (m_at (zl_Nodes l) 1 i) in
      rsum (zl_NumBasis l) (fun i => u i * m_at Z r i) = f (m_at P 0 q) (m_at P 1 q) /\
      rsum (zl_NumBasis l) (fun i => u i * m_at D0 r i) = fx (m_at P 0 q) (m_at P 1 q) /\
      rsum (zl_NumBasis l) (fun i => u i * m_at D1 r i) = fy (m_at P 0 q) (m_at P 1 q).
Proof.
  intros ZS Hl HU points HP HPr. destruct (space_facts _ _ _ _ _ _ _ ZS) as (num & FA). destruct ZS as [Ho ER HR ST Hd EL]. destruct (zf_counts _ _ _ _ _ _ FA) as (C1 & _).
  assert (P0 : poly2 order (fun x y => 0 * (x ^ 0 * y ^ 0)) (fun x y => 0 * (INR 0 * x ^ (0 - 1) * y ^ 0)) (fun x y => 0 * (INR 0 * x ^ 0 * y ^ (0 - 1)))) by (apply poly2_scal, (poly2_mono order 0 0); lia).
  destruct (values_reproduce order ref p llt Ho ER HR ST Hd l num FA Hl HU _ _ _ P0 points HP HPr) as (Z & EZ & Z1 & Z2 & _).
  destruct (derivatives_reproduce order ref p llt Ho ER HR ST Hd l num FA Hl HU _ _ _ P0 points HP HPr 0 ltac:(lia)) as (D0 & ED0 & D01 & D02 & _).
  destruct (derivatives_reproduce order ref p llt Ho ER HR ST Hd l num FA Hl HU _ _ _ P0 points HP HPr 1 ltac:(lia)) as (D1 & ED1 & D11 & D12 & _).
  exists Z, D0, D1. rewrite C1. do 3 (split; [auto|]). split; [repeat constructor; auto|].
  intros f fx fy P t Q q EQ Hq. cbv zeta.
  destruct (values_reproduce order ref p llt Ho ER HR ST Hd l num FA Hl HU f fx fy P points HP HPr) as (Z' & EZ' & _ & _ & K). rewrite EZ in EZ'. injection EZ' as <-.
  destruct (derivatives_reproduce order ref p llt Ho ER HR ST Hd l num FA Hl HU f fx fy P points HP HPr 0 ltac:(lia)) as (D0' & ED0' & _ & _ & K0). rewrite ED0 in ED0'. injection ED0' as <-.
  destruct (derivatives_reproduce order ref p llt Ho ER HR ST Hd l num FA Hl HU f fx fy P points HP HPr 1 ltac:(lia)) as (D1' & ED1' & _ & _ & K1). rewrite ED1 in ED1'. injection ED1' as <-.
  split; [apply (K t Q q EQ Hq)|]. split; [apply (K0 t Q q EQ Hq)|apply (K1 t Q q EQ Hq)].
Qed.

(** C76 *)
Lemma C76_all junk1 njunk1 llt1 junk2 njunk2 llt2 order ref p1 p2 l1 l2 v1 v2 (u1 u2 : nat -> R) points1 points2 P1 P2 q1 q2 s :
  zfem_space junk1 njunk1 llt1 order p1 ref l1 -> zfem_space junk2 njunk2 llt2 order p2 ref l2 ->
  let V1 := m_cols (zp_Vertices p1) in let V2 := m_cols (zp_Vertices p2) in let n1 := (order - 1)%nat in
  let start p v := if nth v (zp_EdgesDirection p) true then v else ((v + 1) mod m_cols (zp_Vertices p))%nat in
  let stop p v := if nth v (zp_EdgesDirection p) true then ((v + 1) mod m_cols (zp_Vertices p))%nat else v in
  (v1 < V1)%nat -> (v2 < V2)%nat ->
  (forall c, (c < 3)%nat -> m_at (zp_Vertices p1) c (start p1 v1) = m_at (zp_Vertices p2) c (start p2 v2) /\ m_at (zp_Vertices p1) c (stop p1 v1) = m_at (zp_Vertices p2) c (stop p2 v2)) ->
  u1 (start p1 v1) = u2 (start p2 v2) -> u1 (stop p1 v1) = u2 (stop p2 v2) -> (forall k, (k < n1)%nat -> u1 (V1 + v1 * n1 + k)%nat = u2 (V2 + v2 * n1 + k)%nat) ->
  (length points1 <= V1)%nat -> (length points2 <= V2)%nat -> (forall P, In P points1 \/ In P points2 -> (0 < m_rows P)%nat) ->
  nth_error points1 v1 = Some P1 -> nth_error points2 v2 = Some P2 -> (q1 < m_cols P1)%nat -> (q2 < m_cols P2)%nat ->
  (forall c, (c < 3)%nat -> m_at P1 c q1 = (1 - s) * m_at (zp_Vertices p1) c (start p1 v1) + s * m_at (zp_Vertices p1) c (stop p1 v1) /\ m_at P2 c q2 = m_at P1 c q1) ->
  exists Z1 Z2, Zfem_Values ref l1 points1 = Ok Z1 /\ Zfem_Values ref l2 points2 = Ok Z2 /\
    rsum (zl_NumBasis l1) (fun i => u1 i * m_at Z1 (total_cols (firstn v1 points1) + q1) i) = rsum (zl_NumBasis l2) (fun i => u2 i * m_at Z2 (total_cols (firstn v2 points2) + q2) i).
Proof.
  intros ZS1 ZS2. destruct (space_facts _ _ _ _ _ _ _ ZS1) as (num1 & FA1). destruct (space_facts _ _ _ _ _ _ _ ZS2) as (num2 & FA2).
  destruct ZS1 as [Ho ER HR ST1 Hd1 EL1], ZS2 as [_ _ _ ST2 Hd2 EL2]. apply (continuous order ref p1 p2 llt1 llt2 l1 l2 num1 num2); auto.
Qed.

(** C77 *)
Lemma C77_all junk njunk llt order p ref l points : zfem_space junk njunk llt order p ref l -> (length points <= m_cols (zp_Vertices p))%nat -> (forall P, In P points -> (0 < m_rows P)%nat) ->
  exists Z, Zfem_Values ref l points = Ok Z /\ m_rows Z = total_cols points /\ m_cols Z = zl_NumBasis l /\
  forall t d P q, nth_error points t = Some P -> (q < m_cols P)%nat -> (d < ft_NumBasisFunctions (zr_Tri ref))%nat -> let n := nm_at (zl_Map l) t d in
    (forall c, (c < 3)%nat -> m_at P c q = m_at (zl_Finer l) c n) ->
    forall i, (i < zl_NumBasis l)%nat -> m_at Z (total_cols (firstn t points) + q) i =
      (if (n <? zl_NumBasis l)%nat then kron i n else m_at (zl_Weights l) i (n - zl_NumBasis l)).
Proof.
  intros ZS HP HPr. destruct (space_facts _ _ _ _ _ _ _ ZS) as (num & FA). destruct ZS as [Ho ER HR ST Hd EL]. destruct (zf_counts _ _ _ _ _ _ FA) as (C1 & _).
  destruct (ref_fields order ref Ho ER HR) as (E1 & _ & _ & _ & _ & _ & R5 & R6 & R7).
  destruct (nodal order ref p llt l num Ho ER HR ST FA points HP HPr) as (Z & EZ & Z1 & Z2 & Z3). exists Z. rewrite C1, R7. auto.
Qed.
