(** The tetrahedra of a mesh: quadrature points, blocks of nodes. *)
From Coq Require Import List Arith Bool Lia ZArith Reals Lra Permutation Classical_Prop.
From Verif Require Import Base RSum MatrixModel MonomialsModel MonomialsSpec LagrangeModel LagrangeSpec LagrangeProofs RBinom TriangleModel TriangleSpec TriangleProofs TriangleProofs2 TriangleProofs3 TriangleProofs4 TriangleProofs6 VemQuadModel VemQuadProofs TetModel TetSpec TetProofs TetProofs2 TetProofs3 TetProofs4 TetProofs5 TetLocalModel TetLocalSpec TetLocalProofs TetLocalProofs2 TetLocalProofs3 TetLocalProofs4 TetLocalProofs5 TetLocalProofs6 TetLocalProofs7.
Import ListNotations.
Local Open Scope R_scope.

Section Local.
Variable o : nat.
Hypothesis Ho : (1 <= o)%nat.
Variable data : Tet_Data.
Hypothesis TD : tet_data o data.
Variable g : Tet_Geometry.
Variable V : nat -> point.
Hypothesis G : tetrahedron g V.
Notation N := (TN o).
Notation n1 := (o - 1)%nat.
Notation m2 := (n2 o).
Notation FI := (mt_FInv (tg_Map g)).
Notation order := (order o g).
Notation qp := (q_Points (te_Quadrature data)).

Lemma FI_quad q c l : local_of o data g l -> (c < 3)%nat -> m_at (FI (q_Points (tl_Quadrature l))) c q = m_at qp c q.
Proof using G.
  intros (_ & _ & _ & _ & _ & _ & _ & _ & _ & LQ & _) Hc. rewrite LQ. destruct G as (_ & GI & _). apply (FInv_F (tg_Map g) (fun c => m_at qp c q) _ q GI); [|exact Hc]. intros k Hk. reflexivity.
Qed.
Lemma quad_values junk junk' l : local_of o data g l -> (3 <= m_rows qp)%nat -> Tet_Values qp data = Ok (te_Values data) ->
  exists A B, Tet_QuadratureValues junk data l = Ok A /\ Tet_LocalValues junk' data l (q_Points (tl_Quadrature l)) = Ok B /\ m_rows A = m_cols qp /\ m_cols A = N /\ m_rows B = m_cols qp /\ m_cols B = N /\
    forall q p, (p < N)%nat -> m_at A q p = m_at B q p.
Proof using Ho TD G.
  intros L HR EV. pose proof L as (L1 & L2 & L3 & L4 & _ & _ & _ & _ & _ & LQ & _).
  destruct (values_spec o Ho data qp TD HR) as (W & EW & W1 & W2 & W3). rewrite EV in EW. injection EW as <-. pose proof TD as (_ & D2 & _).
  destruct (map_values_ok junk N order (te_Values data)) as (A & EA & A1 & A2 & A3).
  - apply order_length; auto.
  - apply (order_NoDup o Ho g V G).
  - intros d p E. now apply (order_lt o Ho g V G) in E.
  - congruence.
  - destruct (values_local o Ho data TD g V G junk' l (q_Points (tl_Quadrature l)) L) as (B & EB & B1 & B2 & B3). exists A, B.
    split; [unfold Tet_QuadratureValues; now rewrite L3, L4|]. split; [auto|]. split; [congruence|]. split; [auto|]. split; [rewrite B1, LQ; reflexivity|]. split; [auto|].
    intros q p Hp. destruct (order_onto o Ho g V G p Hp) as (d & Ep). destruct (order_lt o Ho g V G _ _ Ep) as (Hd & _). destruct (TL_at o Ho d Hd) as (a & b & c & Ed & _).
    rewrite (A3 d p q Ep), (W3 q d _ Ed), (B3 q d p _ Ep Ed). now rewrite !(FI_quad q _ l L) by lia.
Qed.
Lemma quad_derivatives junk junk' l : local_of o data g l -> (3 <= m_rows qp)%nat -> Tet_Derivatives qp data = Ok (te_Derivatives data) ->
  exists A0 A1 A2 B0 B1 B2, Tet_QuadratureDerivatives junk data l = Ok [A0; A1; A2] /\ Tet_LocalDerivatives junk' data l (q_Points (tl_Quadrature l)) = Ok [B0; B1; B2] /\
    forall d, (d < 3)%nat -> let A := nth d [A0; A1; A2] A0 in let B := nth d [B0; B1; B2] B0 in f_rows A = m_cols qp /\ f_cols A = N /\ f_rows B = m_cols qp /\ f_cols B = N /\
      forall q p, (p < N)%nat -> f_at A q p = f_at B q p.
Proof using Ho TD G.
  intros L HR EV. pose proof L as (L1 & L2 & L3 & L4 & _ & _ & _ & _ & _ & LQ & _).
  destruct (entries o Ho data qp TD HR) as (X0 & X1 & X2 & EX & HX). rewrite EV in EX. injection EX as EX.
  destruct (entries o Ho data (FI (q_Points (tl_Quadrature l))) TD ltac:(cbn; lia)) as (Y0 & Y1 & Y2 & EY & HY).
  assert (CQ : m_cols (FI (q_Points (tl_Quadrature l))) = m_cols qp) by (rewrite LQ; reflexivity).
  assert (RX : forall d, (d < 3)%nat -> f_rows (nth d [X0; X1; X2] X0) = m_cols qp /\ f_cols (nth d [X0; X1; X2] X0) = N) by (intros d Hd; destruct (HX d Hd) as (P & Q & _); auto).
  assert (RY : forall d, (d < 3)%nat -> f_rows (nth d [Y0; Y1; Y2] Y0) = m_cols qp /\ f_cols (nth d [Y0; Y1; Y2] Y0) = N) by (intros d Hd; destruct (HY d Hd) as (P & Q & _); split; [congruence|auto]).
  assert (OK : length order = N /\ NoDup order /\ forall d p, nth_error order d = Some p -> (p < N)%nat).
  { split; [apply order_length; auto|]. split; [apply (order_NoDup o Ho g V G)|]. intros d p E. now apply (order_lt o Ho g V G) in E. }
  destruct OK as (O1 & O2 & O3).
  destruct (map_derivatives_ok junk (mt_BInv (tg_Map g)) N order X0 X1 X2 (m_cols qp) O1 O2 O3 RX) as (P0 & P1 & P2 & A0 & A1 & A2 & EP & EA & HA).
  destruct (map_derivatives_ok junk' (mt_BInv (tg_Map g)) N order Y0 Y1 Y2 (m_cols qp) O1 O2 O3 RY) as (S0 & S1 & S2 & B0 & B1 & B2 & ES & EB & HB).
  destruct (physical_ok (mt_BInv (tg_Map g)) X0 X1 X2 (m_cols qp) N RX) as (P0' & P1' & P2' & EP' & HP). rewrite EP in EP'. injection EP' as <- <- <-.
  destruct (physical_ok (mt_BInv (tg_Map g)) Y0 Y1 Y2 (m_cols qp) N RY) as (S0' & S1' & S2' & ES' & HS). rewrite ES in ES'. injection ES' as <- <- <-.
  exists A0, A1, A2, B0, B1, B2. split; [unfold Tet_QuadratureDerivatives; rewrite L1, L3, L4, EX; exact EA|]. split; [unfold Tet_LocalDerivatives; rewrite L1, L3, L4, EY; exact EB|].
  intros d Hd. set (A := nth d [A0; A1; A2] A0). set (B := nth d [B0; B1; B2] B0). cbv zeta. destruct (HA d Hd) as (a1 & a2 & a3). destruct (HB d Hd) as (b1 & b2 & b3). fold A in a1, a2, a3. fold B in b1, b2, b3.
  do 4 (split; [auto|]). intros q p Hp. destruct (order_onto o Ho g V G p Hp) as (i & Ep). destruct (order_lt o Ho g V G _ _ Ep) as (Hi & _). destruct (TL_at o Ho i Hi) as (a & b & c & Et & _). set (t := (a, b, c)) in *.
  rewrite (a3 i p q Ep), (b3 i p q Ep). destruct (HP d Hd) as (_ & _ & HPd). destruct (HS d Hd) as (_ & _ & HSd). destruct (HPd q i) as (PN & PS). destruct (HSd q i) as (SN & SS).
  destruct (HX 0%nat ltac:(lia)) as (_ & _ & x0). destruct (HX 1%nat ltac:(lia)) as (_ & _ & x1). destruct (HX 2%nat ltac:(lia)) as (_ & _ & x2).
  destruct (HY 0%nat ltac:(lia)) as (_ & _ & y0). destruct (HY 1%nat ltac:(lia)) as (_ & _ & y1). destruct (HY 2%nat ltac:(lia)) as (_ & _ & y2). cbn [nth] in *.
  specialize (x0 q i t Et). specialize (x1 q i t Et). specialize (x2 q i t Et). specialize (y0 q i t Et). specialize (y1 q i t Et). specialize (y2 q i t Et). cbv zeta in *.
  rewrite !(FI_quad q _ l L) in y0, y1, y2 by lia.
  destruct (classic ((2 <= o)%nat /\ hit o (typ o t) (lam (m_at qp 0 q) (m_at qp 1 q) (m_at qp 2 q)))) as [(O & HH)|NH].
  - rewrite PN, SN; auto; left; [apply y0|apply x0]; auto.
  - assert (CC : o = 1%nat \/ ~ hit o (typ o t) (lam (m_at qp 0 q) (m_at qp 1 q) (m_at qp 2 q))). { destruct (Nat.eq_dec o 1); [auto|]. right. intros H. apply NH. split; [lia|auto]. }
    rewrite (PS _ _ _ (proj2 x0 CC) (proj2 x1 CC) (proj2 x2 CC)), (SS _ _ _ (proj2 y0 CC) (proj2 y1 CC) (proj2 y2 CC)). reflexivity.
Qed.
(** the weights *)
Lemma quad_weights l q : local_of o data g l -> v_at (q_Weights (tl_Quadrature l)) q =
  v_at (q_Weights (te_Quadrature data)) q * Rabs (det3 (fun i j => V (S j) i - V 0%nat i)).
Proof using Ho G.
  intros (_ & _ & _ & _ & _ & _ & _ & _ & _ & LQ & _). rewrite LQ. cbn [tl_InternalQuadrature q_Weights v_at]. do 2 f_equal.
  assert (B : forall i j, (i < 3)%nat -> (j < 3)%nat -> V (S j) i - V 0%nat i = mt_B (tg_Map g) i j).
  { intros i j Hi Hj. destruct G as (GV & _). rewrite <- (GV (S j)), <- (GV 0%nat) by (auto; lia). unfold affine, ref_vertex. destruct j as [|[|[|j]]]; [| | |lia]; cbn; ring. }
  unfold det3. rewrite !B by lia. reflexivity.
Qed.

(** blocks *)
Lemma edge_block l e : local_of o data g l -> (e < 6)%nat -> exists A, Tet_EdgeDOFs data l e = Ok A /\ m_cols A = n1 /\
  forall k c, (k < n1)%nat -> (c < 3)%nat -> m_at A c k = m_at (tl_Dofs l) c (4 + e * n1 + k).
Proof using Ho TD G.
  intros L He. pose proof L as (_ & _ & _ & _ & LR & LC & _ & L1 & _). pose proof TD as (_ & _ & _ & D4 & _). unfold Tet_EdgeDOFs, at_. rewrite L1, nth_error_map_seq by lia. cbn [bind]. rewrite D4.
  destruct (Nat.eqb_spec n1 0) as [Z|Z].
  - eexists. split; [reflexivity|]. split; [cbn; lia|]. intros; lia.
  - assert (BN : (4 + e * n1 + n1 <= N)%nat). { pose proof (Nat.mul_le_mono_r (S e) 6 n1 ltac:(lia)). unfold TN. lia. }
    rewrite block_ok by lia. eexists. split; [reflexivity|]. split; [reflexivity|]. intros k c Hk Hc. reflexivity.
Qed.
Lemma face_block l f : local_of o data g l -> (f < 4)%nat -> exists A, Tet_FaceDOFs data l f = Ok A /\ m_cols A = m2 /\
  forall k c, (k < m2)%nat -> (c < 3)%nat -> m_at A c k = m_at (tl_Dofs l) c (4 + 6 * n1 + f * m2 + k).
Proof using Ho TD G.
  intros L Hf. pose proof L as (_ & _ & _ & _ & LR & LC & _ & _ & L2 & _). pose proof TD as (_ & _ & _ & _ & D5 & _). unfold Tet_FaceDOFs, at_. rewrite L2, nth_error_map_seq by lia. cbn [bind]. rewrite D5.
  destruct (Nat.eqb_spec m2 0) as [Z|Z].
  - eexists. split; [reflexivity|]. split; [cbn; lia|]. intros; lia.
  - assert (BN : (4 + 6 * n1 + f * m2 + m2 <= N)%nat). { pose proof (Nat.mul_le_mono_r (S f) 4 m2 ltac:(lia)) as Q. cbn [Nat.mul] in Q. unfold TN. lia. }
    rewrite block_ok by lia. eexists. split; [reflexivity|]. split; [reflexivity|]. intros k c Hk Hc. reflexivity.
Qed.
End Local.
