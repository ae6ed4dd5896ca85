(** Proofs about ZFEM: the local space. *)
From Coq Require Import List Arith Bool Lia ZArith Reals Lra.
From Verif Require Import Base RSum MatrixModel MonomialsModel MonomialsSpec MonomialsProofs MonomialsProofs2 LagrangeModel LagrangeSpec GreenSpec GreenProofs PolyProofs TriangleModel TriangleSpec
  TriangleProofs TriangleProofs2 TriangleProofs3 TriangleProofs4 TriangleProofs5 TriangleProofs6 VemQuadModel VemQuadProofs VemModel VemSpec VemProofs2
  ZfemModel ZfemSpec ZfemProofs ZfemProofs2 ZfemProofs3 ZfemProofs4 ZfemProofs5.
Import ListNotations.
Local Open Scope R_scope.
Local Notation poly2 := GreenSpec.poly2.
Local Notation phi := PolyProofs.phi.
Local Notation phix := PolyProofs.phix.
Local Notation phiy := PolyProofs.phiy.

Lemma node_of_inj V n1 n2 t l l' : (2 <= V)%nat -> (t < V)%nat -> (l < 3 * (1 + n1) + n2)%nat -> (l' < 3 * (1 + n1) + n2)%nat -> node_of V n1 t l = node_of V n1 t l' -> l = l'.
Proof.
  intros HV Ht. assert (K : ((t + 1) mod V <> t)%nat).
  { destruct (Nat.eq_dec (t + 1) V) as [e|]; [rewrite e, Nat.mod_same by lia; lia|rewrite Nat.mod_small by lia; lia]. }
  set (nx := ((t + 1) mod V)%nat) in *.
  destruct l as [|[|[|r]]], l' as [|[|[|r']]]; cbn [node_of]; fold nx; intros H H' Eq; repeat match goal with |- context [(S (S (S ?x)) - 3)%nat] => replace (S (S (S x)) - 3)%nat with x by lia end; auto; try (injection Eq; intros; lia).
  all: try replace (S (S (S r)) - 3)%nat with r in Eq by lia; try replace (S (S (S r')) - 3)%nat with r' in Eq by lia.
  all: repeat match type of Eq with context [(?a <? ?b)%nat] => destruct (Nat.ltb_spec a b) end; try discriminate; injection Eq; intros; lia.
Qed.

Section Facts.
Variables (order : nat) (ref : Zfem_Reference) (p : Zfem_Polygon) (llt : Solver).
Hypothesis Ho : (1 <= order)%nat.
Hypothesis ER : Zfem_Create order = Ok ref.
Hypothesis HR : in_range (zr_Tri ref).
Hypothesis ST : star (zp_Vertices p) (zp_Center p) (zp_Triangles p) (zp_EdgesDirection p).
Hypothesis Hd : zp_Diameter p <> 0.
Let V := m_cols (zp_Vertices p).
Let n1 := (order - 1)%nat.
Let n2 := ((order - 1) * (order - 2) / 2)%nat.
Let NB := (V + V * n1 + n2)%nat.
Let NT := (V + V * n1 + 1 + V * (n1 + n2))%nat.
Let N := (3 * (1 + n1) + n2)%nat.
Let cx := zp_Center p 0%nat.
Let cy := zp_Center p 1%nat.
Let h := zp_Diameter p.
Local Notation pos := (position order (zp_Vertices p) (zp_Center p) (zp_EdgesDirection p) (inner_point (zr_Tri ref))).

Record facts (l : Zfem_Local) (num : node -> nat) : Prop := {
  zf_counts : zl_NumBasis l = NB /\ zl_NumTotal l = NT /\ (NB + zl_NumVirtual l = NT)%nat;
  zf_map : nm_rows (zl_Map l) = V /\ nm_cols (zl_Map l) = N;
  zf_num : forall t i, (t < V)%nat -> (i < N)%nat -> nm_at (zl_Map l) t i = num (node_of V n1 t i);
  zf_inj : forall x y, is_node V n1 n2 x -> is_node V n1 n2 y -> num x = num y -> x = y;
  zf_lt : forall x, is_node V n1 n2 x -> (num x < NT)%nat;
  zf_onto : forall i, (i < NT)%nat -> exists x, is_node V n1 n2 x /\ num x = i;
  zf_corner : forall v, (v < V)%nat -> num (Corner v) = v;
  zf_side : forall v q, (v < V)%nat -> (q < n1)%nat -> num (Side v q) = (V + v * n1 + q)%nat;
  zf_interior : forall x, is_node V n1 n2 x -> ~ on_boundary x -> (V + V * n1 <= num x)%nat;
  zf_centre : (3 <= order)%nat -> (num Centre < NB)%nat;
  zf_tris : length (zl_Tris l) = V /\ forall v, (v < V)%nat -> exists t, nth_error (zl_Tris l) v = Some t /\ tri_at (zr_Tri ref) (zp_Triangles p) (zp_EdgesDirection p) v t;
  zf_finer : m_rows (zl_Finer l) = 3%nat /\ m_cols (zl_Finer l) = NT /\ forall x c, is_node V n1 n2 x -> (c < 3)%nat -> m_at (zl_Finer l) c (num x) = pos x c;
  zf_nodes : m_rows (zl_Nodes l) = 3%nat /\ m_cols (zl_Nodes l) = NB /\ forall c i, m_at (zl_Nodes l) c i = m_at (zl_Finer l) c i;
  zf_virtual : m_rows (zl_VirtualNodes l) = 3%nat /\ m_cols (zl_VirtualNodes l) = zl_NumVirtual l /\ forall c j, m_at (zl_VirtualNodes l) c j = m_at (zl_Finer l) c (NB + j);
  zf_D : m_rows (zl_D l) = NB /\ m_cols (zl_D l) = num2 order /\ forall i k, (k < num2 order)%nat -> m_at (zl_D l) i k = phi cx cy h k (m_at (zl_Nodes l) 0 i) (m_at (zl_Nodes l) 1 i);
  zf_VV : m_rows (zl_VanderVirtuals l) = zl_NumVirtual l /\ m_cols (zl_VanderVirtuals l) = num2 order /\
    forall j k, (k < num2 order)%nat -> m_at (zl_VanderVirtuals l) j k = phi cx cy h k (m_at (zl_VirtualNodes l) 0 j) (m_at (zl_VirtualNodes l) 1 j);
  zf_W : MinimizerWeights llt (zl_D l) (zl_VanderVirtuals l) = Ok (zl_Weights l) /\ m_rows (zl_Weights l) = NB /\ m_cols (zl_Weights l) = zl_NumVirtual l }.

Lemma ref_fields : Tri_Create order = Ok (zr_Tri ref) /\ Compute M2 order = Ok (zr_Monomials ref) /\ zr_Order ref = order /\ zr_NumDofs0D ref = 1%nat /\ zr_NumDofs1D ref = n1 /\ zr_NumDofs2D ref = n2 /\
  ft_NumDofs1D (zr_Tri ref) = n1 /\ ft_NumDofs2D (zr_Tri ref) = n2 /\ ft_NumBasisFunctions (zr_Tri ref) = N.
Proof.
  unfold Zfem_Create in ER. destruct (Tri_Create order) as [d| |] eqn:E1; try discriminate. cbn [bind] in ER. change Monomials_2D with M2 in ER.
  destruct (Compute M2 order) as [m| |] eqn:E2; try discriminate. cbn [bind] in ER. injection ER as <-. cbn.
  destruct (zcounts order d (mzero 0 0) Ho E1) as (C1 & C2 & C3). rewrite C3, C1, C2. repeat split; reflexivity.
Qed.

Lemma local_exists junk njunk : exists l num, Zfem_CreateLocalSpace junk njunk llt ref p = Ok l /\ facts l num.
Proof.
  destruct ref_fields as (E1 & E2 & R1 & R2 & R3 & R4 & R5 & R6 & R7).
  unfold Zfem_CreateLocalSpace. cbv zeta. rewrite R1, R2, R3, R4, R5, R6. fold V.
  destruct (tris_ok order (zr_Tri ref) _ _ _ _ Ho E1 HR ST) as (tris & Et & T1 & T2). fold V in Et. rewrite Et. cbn [bind].
  replace (V * 1 + V * n1 + n2)%nat with NB by (unfold NB; lia). replace (V * 1 + V * n1 + 1 + V * (n1 + n2))%nat with NT by (unfold NT; lia).
  pose proof (V2 order (zr_Tri ref) _ _ _ _ Ho ST) as HV. fold V in HV.
  destruct (numbering order V njunk Ho ltac:(lia)) as (M & num & EM & M1 & M2' & M3 & M4 & M5 & M6 & M7 & M8 & M9 & M10). fold n2 in EM, M2', M4, M5, M6, M9, M10; fold n1 in EM, M2', M3, M4, M5, M6, M8, M9. fold NB in EM, M10. fold NT in M5, M6.
  rewrite EM. cbn [bind]. unfold PolygonFineNodes.
  destruct (nodes_ok order (zr_Tri ref) _ _ _ _ Ho E1 HR ST M num NT) with (tris := tris) as (F & EF & F1 & F2 & F3); rewrite ?R5, ?R6, ?R7; auto.
  fold V in EF, F3. rewrite R5, R6 in F3. rewrite EF. cbn [bind].
  assert (L : (NB <= NT)%nat) by (unfold NB, NT; nia).
  unfold leftCols, rightCols. rewrite block_ok by lia. cbn [bind]. rewrite F2, leb_true by lia. rewrite block_ok by lia. cbn [bind].
  match goal with |- context [Vander 2 junk _ ?P _ _] => destruct (vander_m order (zr_Monomials ref) E2 junk P (zp_Center p) (zp_Diameter p) F1 Hd) as (D & ED & D1 & D2 & D3) end. rewrite ED. cbn [bind].
  match goal with |- context [Vander 2 junk _ ?P _ _] => destruct (vander_m order (zr_Monomials ref) E2 junk P (zp_Center p) (zp_Diameter p) F1 Hd) as (VV & EVV & VV1 & VV2 & VV3) end. rewrite EVV. cbn [bind].
  cbn [m_rows m_cols m_at] in *.
  destruct (weights_ok llt D VV ltac:(congruence)) as (W & EW & W1 & W2). rewrite EW. cbn [bind].
  eexists. exists num. split; [reflexivity|]. split; cbn [zl_NumBasis zl_NumTotal zl_NumVirtual zl_Tris zl_Map zl_Nodes zl_VirtualNodes zl_Finer zl_D zl_VanderVirtuals zl_Weights m_rows m_cols m_at]; auto; try (fold V; auto; fail).
  - repeat split; lia.
  - repeat split; auto. intros c j. f_equal. lia.
  - repeat split; auto; congruence.
Qed.

Section Use.
Variables (l : Zfem_Local) (num : node -> nat).
Hypothesis FA : facts l num.
Hypothesis Hllt : exact_for positive_definite llt.
Hypothesis HU : unisolvent order (zl_Nodes l).

Lemma D_injective (x : nat -> R) : (forall i, (i < m_rows (zl_D l))%nat -> rsum (m_cols (zl_D l)) (fun k => m_at (zl_D l) i k * x k) = 0) -> forall k, (k < m_cols (zl_D l))%nat -> x k = 0.
Proof.
  destruct (zf_D _ _ FA) as (D1 & D2 & D3). destruct (zf_nodes _ _ FA) as (_ & N2 & _). rewrite D1, D2. intros H. apply (phi_independent cx cy h Hd order). 
  apply (HU (fun a b => rsum (num2 order) (fun j => x j * phi cx cy h j a b)) (fun a b => rsum (num2 order) (fun j => x j * phix cx cy h j a b)) (fun a b => rsum (num2 order) (fun j => x j * phiy cx cy h j a b))).
  - apply (poly2_rsum order (num2 order) (fun j a b => x j * phi cx cy h j a b) (fun j a b => x j * phix cx cy h j a b) (fun j a b => x j * phiy cx cy h j a b)). intros j Hj. apply poly2_scal. apply phi_k; auto.
  - intros i Hi. rewrite N2 in Hi. rewrite <- (H i Hi). apply rsum_ext. intros k Hk. rewrite D3 by auto. ring.
Qed.

Lemma weights_reproduce f fx fy j : poly2 order f fx fy -> (j < zl_NumVirtual l)%nat ->
  rsum NB (fun i => f (m_at (zl_Nodes l) 0 i) (m_at (zl_Nodes l) 1 i) * m_at (zl_Weights l) i j) = f (m_at (zl_VirtualNodes l) 0 j) (m_at (zl_VirtualNodes l) 1 j).
Proof.
  intros P Hj. destruct (phi_represent cx cy h Hd order f fx fy P) as (c & C & _).
  destruct (zf_D _ _ FA) as (D1 & D2 & D3). destruct (zf_VV _ _ FA) as (V1 & V2 & V3). destruct (zf_W _ _ FA) as (W1 & _).
  rewrite C. rewrite (rsum_ext NB _ (fun i => rsum (num2 order) (fun k => c k * (m_at (zl_D l) i k * m_at (zl_Weights l) i j)))).
  2: { intros i Hi. rewrite C, <- rsum_scal_r. apply rsum_ext. intros k Hk. rewrite D3 by auto. ring. }
  rewrite rsum_swap. apply rsum_ext. intros k Hk. rewrite rsum_scal. f_equal. rewrite <- V3 by auto. rewrite <- D1.
  apply (weights_exact llt (zl_D l) (zl_VanderVirtuals l) ltac:(congruence) Hllt D_injective); auto; try congruence.
Qed.

Lemma weights_minimal j (w : nat -> R) : (j < zl_NumVirtual l)%nat ->
  (forall f fx fy, poly2 order f fx fy -> rsum NB (fun i => f (m_at (zl_Nodes l) 0 i) (m_at (zl_Nodes l) 1 i) * w i) = f (m_at (zl_VirtualNodes l) 0 j) (m_at (zl_VirtualNodes l) 1 j)) ->
  rsum NB (fun i => m_at (zl_Weights l) i j * m_at (zl_Weights l) i j) <= rsum NB (fun i => w i * w i) /\
  (rsum NB (fun i => w i * w i) <= rsum NB (fun i => m_at (zl_Weights l) i j * m_at (zl_Weights l) i j) -> forall i, (i < NB)%nat -> w i = m_at (zl_Weights l) i j).
Proof.
  intros Hj Hw. destruct (zf_D _ _ FA) as (D1 & D2 & D3). destruct (zf_VV _ _ FA) as (V1 & V2 & V3). destruct (zf_W _ _ FA) as (W1 & _). rewrite <- D1.
  apply (weights_least llt (zl_D l) (zl_VanderVirtuals l) ltac:(congruence) Hllt D_injective); auto; try congruence.
  intros k Hk. rewrite D2 in Hk. rewrite V3 by auto. rewrite <- (Hw _ _ _ (phi_k cx cy h Hd order k Hk)). rewrite D1. apply rsum_ext. intros i Hi. now rewrite D3.
Qed.

(** values of the nodes of a triangle *)
Variables (f fx fy : R -> R -> R).
Hypothesis Pf : poly2 order f fx fy.
Definition node_value (n : nat) : R := f (m_at (zl_Finer l) 0 n) (m_at (zl_Finer l) 1 n).

Lemma virtual_value j : (j < zl_NumVirtual l)%nat -> rsum NB (fun i => node_value i * m_at (zl_Weights l) i j) = node_value (NB + j).
Proof.
  intros Hj. unfold node_value.
  destruct (zf_virtual _ _ FA) as (_ & _ & E2). rewrite <- !E2. rewrite <- (weights_reproduce f fx fy j Pf Hj).
  destruct (zf_nodes _ _ FA) as (_ & _ & E3). apply rsum_ext. intros i Hi. now rewrite !E3.
Qed.

Lemma triangle_values t tl i : nth_error (zl_Tris l) t = Some tl -> (t < V)%nat -> (i < N)%nat -> node_value (nm_at (zl_Map l) t i) = f (m_at (lt_Dofs tl) 0 i) (m_at (lt_Dofs tl) 1 i).
Proof.
  intros Et Ht Hi. destruct ref_fields as (E1 & _ & _ & _ & _ & _ & R5 & R6 & R7). destruct (zf_tris _ _ FA) as (_ & T). destruct (T t Ht) as (tl' & Et' & A). rewrite Et in Et'. injection Et' as <-.
  pose proof (V2 order (zr_Tri ref) _ _ _ _ Ho ST) as HV. fold V in HV.
  rewrite !(tri_position order (zr_Tri ref) _ _ _ _ Ho E1 HR ST t tl) by (auto; rewrite ?R7; auto; lia). fold V. rewrite R5.
  unfold node_value. rewrite (zf_num _ _ FA) by auto. destruct (zf_finer _ _ FA) as (_ & _ & F3). rewrite !F3 by (try lia; apply node_of_ok; auto; lia). reflexivity.
Qed.

Variable points : list Mat.
Hypothesis HP : (length points <= V)%nat.
Hypothesis HPr : forall P, In P points -> (0 < m_rows P)%nat.

Lemma tri_use t P : nth_error points t = Some P -> (t < V)%nat /\ exists tl T, nth_error (zl_Tris l) t = Some tl /\
  Tri_CreateLocalSpace (zr_Tri ref) 3 [true; nth t (zp_EdgesDirection p) true; false] (triangle_map T) = Ok tl /\ inverse3 (mt_B (triangle_map T)) (mt_BInv (triangle_map T)).
Proof.
  intros EP. assert (Ht : (t < V)%nat) by (apply Nat.lt_le_trans with (length points); auto; apply nth_error_Some; congruence). split; auto.
  destruct (zf_tris _ _ FA) as (_ & T). destruct (T t Ht) as (tl & Et & TT & _ & A & B). exists tl, TT. auto.
Qed.

Lemma combined (eval : Tri_Local -> Mat -> outcome Mat) (g : R -> R -> R) :
  (forall t P tl T, nth_error points t = Some P -> nth_error (zl_Tris l) t = Some tl -> Tri_CreateLocalSpace (zr_Tri ref) 3 [true; nth t (zp_EdgesDirection p) true; false] (triangle_map T) = Ok tl ->
     inverse3 (mt_B (triangle_map T)) (mt_BInv (triangle_map T)) -> exists B, eval tl P = Ok B /\ m_rows B = m_cols P /\ m_cols B = N /\
     forall q, (q < m_cols P)%nat -> rsum N (fun i => f (m_at (lt_Dofs tl) 0 i) (m_at (lt_Dofs tl) 1 i) * m_at B q i) = g (m_at P 0 q) (m_at P 1 q)) ->
  exists Z, (F <- Zfem_FEMValues eval (zl_NumBasis l) (zl_NumVirtual l) (zl_Tris l) (zl_Map l) points ;; Zfem_Combine (zl_NumBasis l) (zl_NumVirtual l) F (zl_Weights l)) = Ok Z /\
    m_rows Z = total_cols points /\ m_cols Z = NB /\
    forall t P q, nth_error points t = Some P -> (q < m_cols P)%nat ->
      rsum NB (fun i => f (m_at (zl_Nodes l) 0 i) (m_at (zl_Nodes l) 1 i) * m_at Z (total_cols (firstn t points) + q) i) = g (m_at P 0 q) (m_at P 1 q).
Proof.
  intros He. destruct (zf_counts _ _ FA) as (C1 & _ & C3). rewrite C1. pose proof (V2 order (zr_Tri ref) _ _ _ _ Ho ST) as HV. fold V in HV.
  set (BB := fun t => match nth_error points t with Some P => match nth_error (zl_Tris l) t with Some tl => match eval tl P with Ok B => B | _ => mzero 0 0 end | None => mzero 0 0 end | None => mzero 0 0 end).
  destruct (zf_W _ _ FA) as (_ & W1 & W2).
  destruct (combine_ok V N NB (zl_NumVirtual l) (zl_Map l) (fun t i => num (node_of V n1 t i))) with (eval := eval) (tris := zl_Tris l) (points := points) (BB := BB) (W := zl_Weights l) as (Z & EZ & Z1 & Z2 & Z3); auto.
  - apply (zf_map _ _ FA).
  - apply (zf_num _ _ FA).
  - intros t i i' Ht Hi Hi' Eq. apply (zf_inj _ _ FA) in Eq; [|apply node_of_ok; auto; lia..]. apply (node_of_inj V n1 n2 t); auto.
  - intros t i Ht Hi. rewrite C3. apply (zf_lt _ _ FA), node_of_ok; auto; lia.
  - intros t P EP. destruct (tri_use t P EP) as (Ht & tl & T & Et & A & B). destruct (He t P tl T EP Et A B) as (B' & EB & B1 & B2 & _). exists tl. split; auto. unfold BB. rewrite EP, Et, EB. auto.
  - exists Z. split; auto. split; auto. split; auto. intros t P q EP Hq.
    destruct (tri_use t P EP) as (Ht & tl & T & Et & A & B). destruct (He t P tl T EP Et A B) as (B' & EB & B1 & B2 & B3). rewrite <- B3 by auto.
    specialize (Z3 node_value t P q EP Hq virtual_value). unfold off in Z3. unfold BB in Z3. rewrite EP, Et, EB in Z3.
    rewrite (rsum_ext N _ (fun i => node_value (num (node_of V n1 t i)) * m_at B' q i)).
    2: { intros i Hi. rewrite <- (zf_num _ _ FA) by auto. now rewrite (triangle_values t tl i). }
    rewrite <- Z3. destruct (zf_nodes _ _ FA) as (_ & _ & E3). apply rsum_ext. intros i Hi. rewrite !E3. reflexivity.
Qed.

Lemma values_reproduce : exists Z, Zfem_Values ref l points = Ok Z /\ m_rows Z = total_cols points /\ m_cols Z = NB /\
    forall t P q, nth_error points t = Some P -> (q < m_cols P)%nat ->
      rsum NB (fun i => f (m_at (zl_Nodes l) 0 i) (m_at (zl_Nodes l) 1 i) * m_at Z (total_cols (firstn t points) + q) i) = f (m_at P 0 q) (m_at P 1 q).
Proof.
  destruct ref_fields as (E1 & _ & _ & _ & _ & _ & R5 & R6 & R7). unfold Zfem_Values. apply combined. intros t P tl T EP Et A B.
  destruct (local_reproduces order (zr_Tri ref) [true; nth t (zp_EdgesDirection p) true; false] _ tl Ho E1 ltac:(cbn; lia) HR A B eq_refl eq_refl P f fx fy Pf) as (X & EX & X1 & X2 & X3). exists X. rewrite R7 in *. auto.
Qed.
Lemma derivatives_reproduce d : (d < 2)%nat -> exists Z, Zfem_Derivatives ref l d points = Ok Z /\ m_rows Z = total_cols points /\ m_cols Z = NB /\
    forall t P q, nth_error points t = Some P -> (q < m_cols P)%nat ->
      rsum NB (fun i => f (m_at (zl_Nodes l) 0 i) (m_at (zl_Nodes l) 1 i) * m_at Z (total_cols (firstn t points) + q) i) = (if (d =? 0)%nat then fx else fy) (m_at P 0 q) (m_at P 1 q).
Proof.
  intros Hd2. destruct ref_fields as (E1 & _ & _ & _ & _ & _ & R5 & R6 & R7). unfold Zfem_Derivatives. apply combined. intros t P tl T EP Et A B.
  destruct (local_gradient_reproduces order (zr_Tri ref) [true; nth t (zp_EdgesDirection p) true; false] _ tl Ho E1 ltac:(cbn; lia) HR A B eq_refl eq_refl P f fx fy Pf) as (D0 & D1 & ED & X1 & X2 & X3 & X4 & X5). rewrite ED. cbn [bind]. rewrite R7 in *.
  destruct d as [|[|d]]; [exists D0|exists D1|lia]; cbn [idx_ nth_error]; repeat split; auto; intros q Hq; apply (X5 q Hq).
Qed.
End Use.
End Facts.
