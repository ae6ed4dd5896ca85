(** The reference tetrahedron: statements about the element created. *)
From Coq Require Import List Arith Bool Lia ZArith Reals Lra Permutation.
From Verif Require Import Base RSum MatrixModel MonomialsModel MonomialsSpec GBasisProofs LagrangeModel LagrangeSpec LagrangeProofs RBinom TriangleModel TriangleProofs TriangleProofs2 TriangleProofs3 VemQuadModel TetModel TetProofs TetProofs2 TetProofs3 TetProofs4 TetSpec.
Import ListNotations.
Local Open Scope R_scope.

Section Created.
Variable o : nat.
Hypothesis Ho : (1 <= o)%nat.
Let NZ : INR o <> 0 := o_neq o Ho.

Definition tet_data (data : Tet_Data) : Prop :=
  te_Order data = o /\ te_NumBasisFunctions data = TN o /\ te_NumDofs0D data = 1%nat /\ te_NumDofs1D data = (o - 1)%nat /\ te_NumDofs2D data = n2 o /\ te_NumDofs3D data = n3 o /\
  tet_ok o (te_DofPositions data) (te_DofTypes data) /\ Tri_Create o = Ok (te_Boundary data).

Lemma derivs_Ok P T points : tet_ok o P T -> (3 <= m_rows points)%nat -> exists D, tet_derivatives o (TN o) P T points = Ok D.
Proof using Ho.
  intros TO HP. destruct (Nat.eq_dec o 1) as [E|E].
  - unfold tet_derivatives. rewrite E. cbn [Nat.eqb]. eauto.
  - destruct (derivatives_ok o Ho P T points TO HP ltac:(lia)) as (D & E' & _). eauto.
Qed.
Lemma create_ok gt junk : (3 <= m_rows (q_Points (gt (2 * o)%nat)))%nat -> exists data, Tet_Create gt junk o = Ok data /\ tet_data data /\ te_Quadrature data = gt (2 * o)%nat /\
  Tet_Values (q_Points (gt (2 * o)%nat)) data = Ok (te_Values data) /\ Tet_Derivatives (q_Points (gt (2 * o)%nat)) data = Ok (te_Derivatives data).
Proof using Ho.
  intros HQ. unfold Tet_Create. destruct (TriangleProofs.create_ok o Ho) as (tri & ET & _). rewrite ET. cbn [bind]. cbv zeta. destruct (Nat.eqb_spec o 0); [lia|].
  rewrite (n2_code o Ho), (n3_code o Ho). change (4 * 1 + 6 * (o - 1) + 4 * n2 o + n3 o)%nat with (TN o).
  destruct (numbering_ok o Ho junk) as (P & T & EN & H). assert (TO : tet_ok o P T) by exact H. rewrite EN. cbn [bind].
  destruct (values_ok o Ho P T _ TO HQ) as (V & EV & _). rewrite EV. cbn [bind].
  destruct (derivs_Ok P T _ TO HQ) as (D & ED). rewrite ED. cbn [bind]. eexists. split; [reflexivity|]. split; [unfold tet_data; cbn; repeat (split; auto)|]. split; [reflexivity|]. split; [exact EV|exact ED].
Qed.
Lemma created gt junk data : (3 <= m_rows (q_Points (gt (2 * o)%nat)))%nat -> Tet_Create gt junk o = Ok data -> tet_data data.
Proof using Ho. intros HQ E. destruct (create_ok gt junk HQ) as (d & E' & H & _). rewrite E in E'. injection E' as <-. auto. Qed.

Lemma lattice_eq a b : INR a / INR o = INR b / INR o -> a = b.
Proof using Ho. intros E. apply INR_eq. apply (Rmult_eq_reg_r (/ INR o)); [exact E|]. now apply Rinv_neq_0_compat. Qed.
Lemma at_dof data i a b c : tet_data data -> nth_error (TL o) i = Some (a, b, c) -> at_point3 (te_DofPositions data) i (INR a / INR o) (INR b / INR o) (INR c / INR o).
Proof using Ho.
  intros (_ & _ & _ & _ & _ & _ & (_ & _ & _ & H) & _) E. destruct (H i _ E) as (A & _). unfold at_point3. rewrite (A 0%nat), (A 1%nat), (A 2%nat) by lia. cbn. auto.
Qed.
Lemma dof_ex i : (i < TN o)%nat -> exists a b c, nth_error (TL o) i = Some (a, b, c) /\ (a + b + c <= o)%nat.
Proof using Ho.
  intros Hi. destruct (nth_error_Some_ex (TL o) (i:=i)) as (((a, b), c) & E); [rewrite (TL_length o Ho); auto|]. exists a, b, c. split; auto. now apply (TL_sum o Ho) in E.
Qed.
Lemma dof_unique data i a b c : tet_data data -> (i < TN o)%nat -> at_point3 (te_DofPositions data) i (INR a / INR o) (INR b / INR o) (INR c / INR o) -> nth_error (TL o) i = Some (a, b, c).
Proof using Ho.
  intros D Hi (A0 & A1 & A2). destruct (dof_ex i Hi) as (a' & b' & c' & E & _). destruct (at_dof data i _ _ _ D E) as (B0 & B1 & B2). rewrite A0 in B0. rewrite A1 in B1. rewrite A2 in B2.
  apply lattice_eq in B0. apply lattice_eq in B1. apply lattice_eq in B2. now subst.
Qed.

Lemma lattice_nodes data : tet_data data ->
  (6 * te_NumBasisFunctions data = (o + 1) * (o + 2) * (o + 3))%nat /\
  m_rows (te_DofPositions data) = 3%nat /\ m_cols (te_DofPositions data) = te_NumBasisFunctions data /\
  (forall i, (i < te_NumBasisFunctions data)%nat -> exists a b c, (a + b + c <= o)%nat /\ at_point3 (te_DofPositions data) i (INR a / INR o) (INR b / INR o) (INR c / INR o)) /\
  (forall a b c, (a + b + c <= o)%nat -> exists! i, (i < te_NumBasisFunctions data)%nat /\ at_point3 (te_DofPositions data) i (INR a / INR o) (INR b / INR o) (INR c / INR o)).
Proof using Ho.
  intros D. pose proof D as (D1 & D2 & D3 & D4 & D5 & D6 & (T1 & T2 & T3 & T4) & _). rewrite D2. split; [apply (TN_six o Ho)|]. do 2 (split; auto). split.
  - intros i Hi. destruct (dof_ex i Hi) as (a & b & c & E & S). exists a, b, c. split; auto. now apply at_dof.
  - intros a b c S. assert (I : In (a, b, c) (TL o)) by (now apply (TL_In o Ho)). apply In_nth_error in I. destruct I as (i & E). exists i. split.
    + split; [|now apply at_dof]. apply nth_error_lt in E. now rewrite (TL_length o Ho) in E.
    + intros j (Hj & Aj). apply (dof_unique data j a b c D Hj) in Aj. pose proof (TL_NoDup o Ho) as ND. rewrite NoDup_nth_error in ND. apply ND; [|congruence]. apply nth_error_lt in E. auto.
Qed.

Lemma values_spec data points : tet_data data -> (3 <= m_rows points)%nat ->
  exists V, Tet_Values points data = Ok V /\ m_rows V = m_cols points /\ m_cols V = te_NumBasisFunctions data /\
    forall q d p, nth_error (TL o) d = Some p -> m_at V q d = phi3 o p (m_at points 0 q) (m_at points 1 q) (m_at points 2 q).
Proof using Ho. intros (D1 & D2 & D3 & D4 & D5 & D6 & TO & _) HP. unfold Tet_Values. rewrite D1, D2. now apply values_ok. Qed.

Lemma nodal data : tet_data data -> exists V, Tet_Values (te_DofPositions data) data = Ok V /\ m_rows V = te_NumBasisFunctions data /\ m_cols V = te_NumBasisFunctions data /\
  forall i j, (i < te_NumBasisFunctions data)%nat -> (j < te_NumBasisFunctions data)%nat -> m_at V i j = if (i =? j)%nat then 1 else 0.
Proof using Ho.
  intros D. pose proof D as (D1 & D2 & D3 & D4 & D5 & D6 & (T1 & T2 & T3 & T4) & _). destruct (values_spec data (te_DofPositions data) D ltac:(lia)) as (V & EV & V1 & V2 & V3).
  exists V. split; auto. split; [congruence|]. split; auto. rewrite D2. intros i j Hi Hj.
  destruct (dof_ex i Hi) as (a & b & c & E & S). destruct (dof_ex j Hj) as (a' & b' & c' & E' & S'). destruct (at_dof data i _ _ _ D E) as (A0 & A1 & A2).
  rewrite (V3 i j _ E'), A0, A1, A2, (phi3_nodal o Ho) by auto. destruct (Nat.eqb_spec i j) as [->|NE].
  - rewrite E in E'. injection E' as <- <- <-. rewrite !Nat.eqb_refl. reflexivity.
  - destruct (Nat.eqb_spec a' a) as [->|]; cbn [andb]; auto. destruct (Nat.eqb_spec b' b) as [->|]; cbn [andb]; auto. destruct (Nat.eqb_spec c' c) as [->|]; cbn [andb]; auto.
    exfalso. apply NE. pose proof (TL_NoDup o Ho) as ND. rewrite NoDup_nth_error in ND. apply ND; [|congruence]. apply nth_error_lt in E. auto.
Qed.

Lemma interp3_poly cf x y z : interp3 o (poly3 o cf) x y z = poly3 o cf x y z.
Proof using Ho.
  unfold poly3. rewrite (interp3_ext o Ho _ (fun u v w => rsum (S o) (fun a => 1 * (rsum (S (o - a)) (fun b => rsum (S (o - a - b)) (fun e => cf a b e * (u ^ a * v ^ b * w ^ e))))))) by (intros; apply rsum_ext; intros; ring).
  rewrite (interp3_sum o Ho (S o) (fun _ => 1) (fun a u v w => rsum (S (o - a)) (fun b => rsum (S (o - a - b)) (fun e => cf a b e * (u ^ a * v ^ b * w ^ e))))).
  apply rsum_ext. intros a Ha. rewrite Rmult_1_l.
  rewrite (interp3_ext o Ho _ (fun u v w => rsum (S (o - a)) (fun b => 1 * (rsum (S (o - a - b)) (fun e => cf a b e * (u ^ a * v ^ b * w ^ e)))))) by (intros; apply rsum_ext; intros; ring).
  rewrite (interp3_sum o Ho (S (o - a)) (fun _ => 1) (fun b u v w => rsum (S (o - a - b)) (fun e => cf a b e * (u ^ a * v ^ b * w ^ e)))).
  apply rsum_ext. intros b Hb. rewrite Rmult_1_l.
  rewrite (interp3_sum o Ho (S (o - a - b)) (cf a b) (fun e u v w => u ^ a * v ^ b * w ^ e)).
  apply rsum_ext. intros e He. f_equal. apply (interp3_pow o Ho). lia.
Qed.
Lemma reproduce data points cf : tet_data data -> (3 <= m_rows points)%nat ->
  exists V, Tet_Values points data = Ok V /\ m_rows V = m_cols points /\ m_cols V = te_NumBasisFunctions data /\
    forall q, rsum (te_NumBasisFunctions data) (fun i => poly3 o cf (m_at (te_DofPositions data) 0 i) (m_at (te_DofPositions data) 1 i) (m_at (te_DofPositions data) 2 i) * m_at V q i)
              = poly3 o cf (m_at points 0 q) (m_at points 1 q) (m_at points 2 q).
Proof using Ho.
  intros D HP. destruct (values_spec data points D HP) as (V & EV & V1 & V2 & V3). exists V. split; auto. split; auto. split; auto. intros q.
  pose proof D as (_ & D2 & _). rewrite D2. rewrite (rsum_TL o Ho _ (fun p => let '(a, b, c) := p in poly3 o cf (INR a / INR o) (INR b / INR o) (INR c / INR o) * phi3 o (a, b, c) (m_at points 0 q) (m_at points 1 q) (m_at points 2 q))).
  - apply interp3_poly.
  - intros d ((a, b), c) E. destruct (at_dof data d _ _ _ D E) as (A0 & A1 & A2). rewrite A0, A1, A2, (V3 q d _ E). reflexivity.
Qed.
Lemma sum_one data points : tet_data data -> (3 <= m_rows points)%nat ->
  exists V, Tet_Values points data = Ok V /\ m_rows V = m_cols points /\ m_cols V = te_NumBasisFunctions data /\ forall q, rsum (te_NumBasisFunctions data) (fun i => m_at V q i) = 1.
Proof using Ho.
  intros D HP. destruct (reproduce data points (fun a b e => if ((a =? 0) && (b =? 0) && (e =? 0))%nat then 1 else 0) D HP) as (V & EV & V1 & V2 & V3). exists V. split; auto. split; auto. split; auto. intros q.
  assert (U : forall x y z, poly3 o (fun a b e => if ((a =? 0) && (b =? 0) && (e =? 0))%nat then 1 else 0) x y z = 1).
  { intros x y z. unfold poly3. rewrite (rsum_single (S o) _ 0); [|lia|].
    - rewrite (rsum_single _ _ 0); [|lia|].
      + rewrite (rsum_single _ _ 0); [|lia|].
        * cbn. ring.
        * intros e _ He. destruct (Nat.eqb_spec e 0); [lia|]. cbn. ring.
      + intros b _ Hb. apply rsum_0. intros e _. destruct (Nat.eqb_spec b 0); [lia|]. cbn. ring.
    - intros a _ Ha. apply rsum_0. intros b _. apply rsum_0. intros e _. destruct (Nat.eqb_spec a 0); [lia|]. cbn. ring. }
  specialize (V3 q). rewrite U in V3. rewrite <- V3. apply rsum_ext. intros i Hi. rewrite U. ring.
Qed.

(** derivatives *)
Lemma bary_lam x k : (k < 4)%nat -> bary x k = lam (x 0%nat) (x 1%nat) (x 2%nat) k.
Proof using Ho. intros Hk. destruct k as [|[|[|[|k]]]]; try lia; reflexivity. Qed.
Lemma below_hit data i a b c x : tet_data data -> nth_error (TL o) i = Some (a, b, c) ->
  (plane_below o (col3 (te_DofPositions data) i) x <-> hit o (typ o (a, b, c)) (lam (x 0%nat) (x 1%nat) (x 2%nat))).
Proof using Ho.
  intros D E. destruct (at_dof data i _ _ _ D E) as (A0 & A1 & A2). assert (S := TL_sum o Ho _ _ _ _ E).
  assert (BN : forall k, (k < 4)%nat -> bary (col3 (te_DofPositions data) i) k = INR (typ o (a, b, c) k) / INR o).
  { intros k Hk. rewrite bary_lam by auto. unfold col3. rewrite A0, A1, A2. apply (lam_posn o Ho); auto. }
  assert (PO : 0 < INR o) by (apply lt_0_INR; lia).
  assert (LT : forall p t, INR p / INR o < INR t / INR o <-> (p < t)%nat).
  { intros p t. split; intros H.
    - apply INR_lt. apply (Rmult_lt_reg_r (/ INR o)); auto using Rinv_0_lt_compat.
    - unfold Rdiv. apply Rmult_lt_compat_r; auto using Rinv_0_lt_compat, lt_INR. }
  split.
  - intros (k & p & Hk & E1 & L). rewrite BN in L by auto. apply LT in L. exists k, p. split; auto. split; auto. rewrite <- bary_lam by auto. lra.
  - intros (k & p & Hk & L & E1). exists k, p. split; auto. rewrite bary_lam, BN by auto. split; [lra|]. now apply LT.
Qed.
Lemma derivatives_spec data points : tet_data data -> (3 <= m_rows points)%nat ->
  exists D, Tet_Derivatives points data = Ok D /\ length D = 3%nat /\
    forall d, (d < 3)%nat -> exists A, nth_error D d = Some A /\ f_rows A = m_cols points /\ f_cols A = te_NumBasisFunctions data /\
      forall q i, (i < te_NumBasisFunctions data)%nat ->
        ((2 <= o)%nat -> plane_below o (col3 (te_DofPositions data) i) (col3 points q) -> f_at A q i = None) /\
        (o = 1%nat \/ ~ plane_below o (col3 (te_DofPositions data) i) (col3 points q) -> exists v, f_at A q i = Some v /\
          is_partial (fun x => match Tet_Values (space_point x) data with Ok V => m_at V 0 i | _ => 0 end) d (col3 points q) v).
Proof using Ho.
  intros TD HP. pose proof TD as (D1 & D2 & D3 & D4 & D5 & D6 & TO & _).
  assert (VAL : forall i p, nth_error (TL o) i = Some p -> forall x, phi3 o p (x 0%nat) (x 1%nat) (x 2%nat) = match Tet_Values (space_point x) data with Ok V => m_at V 0 i | _ => 0 end).
  { intros i p E x. destruct (values_spec data (space_point x) TD ltac:(cbn; lia)) as (V & EV & _ & _ & V3). rewrite EV, (V3 0%nat i p E). reflexivity. }
  unfold Tet_Derivatives. rewrite D1, D2. destruct (Nat.eq_dec o 1) as [E1|N1].
  - unfold tet_derivatives. rewrite E1. cbn [Nat.eqb]. eexists. split; [reflexivity|]. split; [reflexivity|]. intros d Hd.
    assert (TN1 : TN 1 = 4%nat) by reflexivity.
    exists (of_mat {| m_rows := m_cols points; m_cols := 4; m_at := fun _ => gl d |}). split; [destruct d as [|[|[|d]]]; try lia; reflexivity|]. do 2 (split; auto).
    intros q i Hi. split; [lia|]. intros _. exists (gl d i). split; [reflexivity|]. rewrite E1 in *.
    destruct (nth_error_Some_ex (TL 1) (i:=i)) as (p & Ep); [rewrite (TL_length 1 Ho); auto|].
    eapply is_partial_ext; [intros x; apply (VAL i p Ep)|]. rewrite TN1 in Hi.
    unfold is_partial. set (l := lam (col3 points q 0%nat) (col3 points q 1%nat) (col3 points q 2%nat) i).
    assert (EX : forall s, phi3 1 p (setc (col3 points q) d s 0%nat) (setc (col3 points q) d s 1%nat) (setc (col3 points q) d s 2%nat) = l + (s - col3 points q d) * gl d i).
    { intros s. rewrite (phi3_1 1 Ho i p _ _ _ eq_refl Ep). now rewrite (lam_line 1 Ho). }
    apply (dpl_ext (fun s => l + (s - col3 points q d) * gl d i)); [intros s; symmetry; apply EX|].
    intros eps He. exists (mkposreal 1 Rlt_0_1). intros k Hk _.
    match goal with |- Rabs ?e < _ => replace e with 0 by (field; auto) end. now rewrite Rabs_R0.
  - destruct (derivatives_ok o Ho _ _ points TO HP ltac:(lia)) as (D & ED & DL & DA). exists D. split; auto. split; auto. intros d Hd. destruct (DA d Hd) as (A & EA & A1 & A2 & A3).
    exists A. split; auto. do 2 (split; auto). intros q i Hi. destruct (dof_ex i Hi) as (a & b & c & E & S). destruct (A3 q i _ E) as (H1 & H2).
    split.
    + intros _ PB. apply H1. apply (below_hit data i a b c (col3 points q) TD E). exact PB.
    + intros [?|NB]; [lia|]. assert (NH : ~ hit o (typ o (a, b, c)) (lq points q)) by (intros HH; apply NB; now apply (below_hit data i a b c (col3 points q) TD E)).
      eexists. split; [apply H2; exact NH|]. eapply is_partial_ext; [intros x; apply (VAL i _ E)|]. apply (phi3_partial o Ho a b c d (col3 points q) S Hd NH).
Qed.
(** at every lattice point some entry is not a number *)
Lemma plane_below_node data x : tet_data data -> (exists a b c, (a + b + c <= o)%nat /\ x 0%nat = INR a / INR o /\ x 1%nat = INR b / INR o /\ x 2%nat = INR c / INR o) ->
  exists i, (i < te_NumBasisFunctions data)%nat /\ plane_below o (col3 (te_DofPositions data) i) x.
Proof using Ho.
  intros TD (a & b & c & S & X0 & X1 & X2). pose proof TD as (_ & D2 & _). rewrite D2.
  assert (V : forall a' b' c', (a' + b' + c' <= o)%nat -> hit o (typ o (a', b', c')) (lam (x 0%nat) (x 1%nat) (x 2%nat)) -> exists i, (i < TN o)%nat /\ plane_below o (col3 (te_DofPositions data) i) x).
  { intros a' b' c' S' HH. assert (I : In (a', b', c') (TL o)) by (now apply (TL_In o Ho)). apply In_nth_error in I. destruct I as (i & E). exists i.
    split; [apply nth_error_lt in E; now rewrite (TL_length o Ho) in E|]. now apply (below_hit data i a' b' c' x TD E). }
  assert (LP : forall k, (k < 4)%nat -> lam (x 0%nat) (x 1%nat) (x 2%nat) k = INR (typ o (a, b, c) k) / INR o) by (intros k Hk; rewrite X0, X1, X2; now apply (lam_posn o Ho)).
  destruct (Nat.eq_dec a o) as [Ea|Na].
  - apply (V 0%nat 0%nat o); [lia|]. exists 3%nat, 0%nat. split; [lia|]. cbn [typ vec4]. split; [lia|]. rewrite LP by lia. cbn [typ vec4]. assert (c = 0)%nat as -> by lia. lra.
  - apply (V o 0%nat 0%nat); [lia|]. exists 1%nat, a. split; [lia|]. cbn [typ vec4]. split; [lia|]. rewrite LP by lia. cbn [typ vec4]. lra.
Qed.
End Created.

Lemma create_0 gt junk : (3 <= m_rows (q_Points (gt 0%nat)))%nat -> Tet_Create gt junk 0 = UB.
Proof.
  intros HQ. unfold Tet_Create. unfold Tri_Create. cbn [Nat.eqb]. unfold mat_set_col. cbn [mzero m_cols Nat.ltb Nat.leb bind]. cbv zeta. change (2 * 0)%nat with 0%nat. generalize dependent (gt 0%nat). intros [P W] HQ. cbn [q_Points] in *.
  unfold tet_values, Tet_Lambda, mrow. destruct (Nat.ltb_spec 0 (m_rows P)); [|lia]. destruct (Nat.ltb_spec 1 (m_rows P)); [|lia]. destruct (Nat.ltb_spec 2 (m_rows P)); [|lia]. reflexivity.
Qed.
