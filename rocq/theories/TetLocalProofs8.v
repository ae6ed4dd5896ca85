(** The tetrahedra of a mesh: the values on a face. *)
From Coq Require Import List Arith Bool Lia ZArith Reals Lra Permutation.
From Verif Require Import Base RSum MatrixModel MonomialsModel MonomialsSpec LagrangeModel LagrangeSpec LagrangeProofs RBinom TriangleModel TriangleSpec TriangleProofs TriangleProofs2 TriangleProofs3 TriangleProofs4 TriangleProofs6 VemQuadModel VemQuadProofs TetModel TetSpec TetProofs TetProofs2 TetProofs3 TetProofs5 TetLocalModel TetLocalSpec TetLocalProofs TetLocalProofs2 TetLocalProofs3 TetLocalProofs4 TetLocalProofs5 TetLocalProofs6.
Import ListNotations.
Local Open Scope R_scope.

Section Local.
Variable o : nat.
Hypothesis Ho : (1 <= o)%nat.
Variable data : Tet_Data.
Hypothesis TD : tet_data o data.
Variable g : Tet_Geometry.
Variable V : nat -> point.
Hypothesis G : tetrahedron g V.
Hypothesis UI : (Z.of_nat (te_NumBasisFunctions data) <= UINT_MAX)%Z.
Notation N := (TN o).
Notation FI := (mt_FInv (tg_Map g)).
Notation F := (affine (mt_B (tg_Map g)) (mt_b (tg_Map g))).
Notation order := (order o g).
Notation tri := (te_Boundary data).

Lemma same_dof l p p' : local_of o data g l -> (p < N)%nat -> (p' < N)%nat -> same3 (col3 (tl_Dofs l) p) (col3 (tl_Dofs l) p') -> p = p'.
Proof using Ho TD G.
  intros L Hp Hp' S. destruct (order_onto o Ho g V G p Hp) as (d & E). destruct (order_onto o Ho g V G p' Hp') as (d' & E').
  destruct (order_lt o Ho g V G _ _ E) as (Hd & _). destruct (order_lt o Ho g V G _ _ E') as (Hd' & _).
  destruct (TL_at o Ho d Hd) as (a & b & c & T & _). destruct (TL_at o Ho d' Hd') as (a' & b' & c' & T' & _).
  assert (Q : forall k, (k < 3)%nat -> m_at (te_DofPositions data) k d = m_at (te_DofPositions data) k d').
  { intros k Hk. rewrite <- (finv_dof o data g V G l d p k L E Hk), <- (finv_dof o data g V G l d' p' k L E' Hk). cbn [mt_FInv m_at]. apply rsum_ext. intros j Hj. pose proof (S j Hj) as SJ. unfold col3 in SJ. now rewrite SJ. }
  destruct (at_dof o Ho data d _ _ _ TD T) as (A0 & A1 & A2). assert (d' = d); [|congruence].
  assert (T2 : nth_error (TL o) d' = Some (a, b, c)). { apply (dof_unique o Ho data d' a b c TD Hd'). unfold at_point3. rewrite <- !Q by lia. auto. }
  pose proof (TL_NoDup o Ho) as ND. rewrite NoDup_nth_error in ND. apply ND; [rewrite (TL_length o Ho); auto|congruence].
Qed.

Section Face.
Variables (l : Tet_Local) (f v0 v1 v2 e0 e1 e2 : nat) (dir : list bool) (m : MapTriangleData) (rot : nat -> nat -> R) (trans : nat -> R).
Hypotheses (L : local_of o data g l) (Hf : (f < 4)%nat) (FO : face_of g f v0 v1 v2 e0 e1 e2) (E2 : nth_error (tg_Faces_2D_Geometry g) f = Some (3%nat, dir, m))
  (ER : nth_error (tg_FacesRotationMatrix g) f = Some rot) (ET : nth_error (tg_FacesTranslation g) f = Some trans) (MI : inverse3 (mt_B m) (mt_BInv m)).

Lemma face_geometry : (3 <= length dir)%nat /\ forall k, (k < 3)%nat -> same3 (affine rot trans (affine (mt_B m) (mt_b m) (ref_vertex k))) (V (nth k [v0; v1; v2] 0%nat)).
Proof using Hf FO E2 ER ET G.
  destruct G as (_ & _ & _ & _ & _ & _ & _ & GF). destruct (GF f v0 v1 v2 e0 e1 e2 Hf FO) as (dir' & m' & rot' & trans' & A & B & C & D & H). rewrite E2 in A. injection A as <- <-. rewrite ER in C. injection C as <-. rewrite ET in D. injection D as <-. auto.
Qed.
Lemma face_tri : exists ls, nth_error (tl_Boundary l) f = Some ls /\ Tri_CreateLocalSpace tri 3 dir m = Ok ls.
Proof using L Hf E2 Ho TD G UI.
  destruct (boundary_ok o Ho data TD g V G UI) as (bl & Ebl & _ & H). destruct L as (_ & _ & _ & _ & _ & _ & _ & _ & _ & _ & LB). rewrite Ebl in LB. injection LB as ->.
  destruct (H f _ _ _ Hf E2) as (ls & A & _ & _ & B). eauto.
Qed.
(** a node of the triangle *)
Lemma tri_node ls t : Tri_CreateLocalSpace tri 3 dir m = Ok ls -> (t < ft_NumBasisFunctions tri)%nat ->
  exists i j, nth_error (Lp o) (sig tri dir t) = Some (i, j) /\ (i + j <= o)%nat /\ forall c, (c < 3)%nat -> m_at (rotate rot trans (lt_Dofs ls)) c t = (1 - INR j / INR o - INR i / INR o) * V v0 c + INR j / INR o * V v1 c + INR i / INR o * V v2 c.
Proof using Hf FO E2 ER ET Ho TD G UI.
  intros El Ht. destruct face_geometry as (Ld & GV). destruct (in_range_tri o Ho data TD UI) as (IR & T & T2). pose proof TD as (_ & _ & _ & _ & _ & _ & _ & DT).
  destruct (local_ok o _ dir m DT Ld IR) as (l' & El' & _ & _ & L3 & _ & _ & L6 & L7 & L8 & L9). rewrite El in El'. injection El' as <-. destruct (L6 t Ht) as (_ & Hs).
  pose proof T as (_ & _ & _ & _ & T5 & _ & _ & _ & _ & TA). destruct (nth_error_Some_ex (Lp o) (i:=sig tri dir t)) as ((i, j) & EL); [rewrite (Lp_length o Ho), <- T5; auto|]. exists i, j. split; auto.
  split; [apply nth_error_In in EL; now apply (Lp_In o Ho) in EL|]. intros c Hc. destruct (TA _ _ EL) as (A0 & A1 & A2 & _).
  change (m_at (rotate rot trans (lt_Dofs ls)) c t) with (affine rot trans (fun c => m_at (lt_Dofs ls) c t) c).
  rewrite (affine_ext rot trans _ (affine (mt_B m) (mt_b m) (pt (ft_DofPositions tri) (sig tri dir t)))) by (intros c' Hc'; now rewrite L9).
  rewrite affine2_bary by exact A2. unfold pt. rewrite A0, A1. rewrite (GV 0%nat), (GV 1%nat), (GV 2%nat) by (auto; lia). cbn [nth]. unfold h. assert (NZ : INR o <> 0) by (apply not_0_INR; lia). field. auto.
Qed.
(** the node of the tetrahedron at a lattice point of the face *)
Lemma face_node i j : (i + j <= o)%nat -> exists d p, nth_error (TL o) d = Some (tp o v0 v1 v2 i j) /\ nth_error order d = Some p /\ (p < N)%nat /\
  forall c, (c < 3)%nat -> m_at (tl_Dofs l) c p = (1 - INR j / INR o - INR i / INR o) * V v0 c + INR j / INR o * V v1 c + INR i / INR o * V v2 c.
Proof using L FO Ho TD G.
  intros S. pose proof FO as (_ & (H0 & H1 & H2 & N1 & N2 & N3) & _). pose proof (tp_sum o Ho v0 v1 v2 i j H0 H1 H2 N1 N2 N3 S) as T.
  assert (I : In (tp o v0 v1 v2 i j) (TL o)). { destruct (tp o v0 v1 v2 i j) as ((a, b), c). apply (TL_In o Ho). tauto. }
  destruct (In_nth_error _ _ I) as (d & E). exists d. assert (Hd : (d < N)%nat) by (apply nth_error_lt in E; now rewrite (TL_length o Ho) in E).
  destruct (nth_error_Some_ex order (i:=d)) as (p & Ep); [rewrite (order_length o Ho); auto|]. exists p. split; auto. split; auto. split; [now apply (order_lt o Ho g V G) in Ep|].
  intros c Hc. destruct L as (_ & _ & _ & _ & _ & _ & H & _). rewrite (H d p c Ep). now apply (F_tp o Ho data TD g V G d).
Qed.

Lemma face_values junk points2D : exists ls T A, nth_error (tl_Boundary l) f = Some ls /\
  Tet_FaceValues data l f points2D = Ok T /\ m_rows T = m_cols points2D /\ m_cols T = ft_NumBasisFunctions tri /\ m_cols (lt_Dofs ls) = ft_NumBasisFunctions tri /\
  Tet_LocalValues junk data l (rotate rot trans points2D) = Ok A /\
  (forall t, (t < ft_NumBasisFunctions tri)%nat -> exists p, (p < N)%nat /\ same3 (col3 (rotate rot trans (lt_Dofs ls)) t) (col3 (tl_Dofs l) p)) /\
  forall q p, (p < N)%nat -> (exists x y, forall c, (c < 3)%nat -> m_at points2D c q = affine (mt_B m) (mt_b m) (fun k => match k with 0%nat => x | 1%nat => y | _ => 0 end) c) ->
    (forall t, (t < ft_NumBasisFunctions tri)%nat -> same3 (col3 (rotate rot trans (lt_Dofs ls)) t) (col3 (tl_Dofs l) p) -> m_at A q p = m_at T q t) /\
    ((forall t, (t < ft_NumBasisFunctions tri)%nat -> ~ same3 (col3 (rotate rot trans (lt_Dofs ls)) t) (col3 (tl_Dofs l) p)) -> m_at A q p = 0).
Proof using Hf FO E2 ER ET MI L Ho TD G UI.
  destruct face_tri as (ls & EB & El). exists ls. destruct face_geometry as (Ld & GV). destruct (in_range_tri o Ho data TD UI) as (IR & TO & T2). pose proof TD as (_ & _ & _ & _ & _ & _ & _ & DT).
  destruct (local_values_ok o tri dir m ls points2D Ho DT Ld IR El) as (T & ETv & T3 & T4 & T5). exists T.
  destruct (values_local o Ho data TD g V G junk l (rotate rot trans points2D) L) as (A & EA & A1 & A2 & A3). exists A. split; auto.
  split; [unfold Tet_FaceValues, idx_; rewrite EB; exact ETv|]. split; auto. split; auto.
  destruct (local_ok o _ dir m DT Ld IR) as (l' & El' & _ & _ & L3 & _ & _ & L6 & L7 & L8 & L9). rewrite El in El'. injection El' as <-. split; auto. split; auto.
  split.
  { intros t Ht. destruct (tri_node ls t El Ht) as (i & j & _ & S & P). destruct (face_node i j S) as (d & p & _ & _ & Hp & P'). exists p. split; auto. intros c Hc. unfold col3. now rewrite P, P'. }
  intros q p Hp (x & y & PQ). pose proof FO as (_ & (H0 & H1 & H2 & N1 & N2 & N3) & _).
  assert (XY : m_at (mt_FInv m points2D) 0 q = x /\ m_at (mt_FInv m points2D) 1 q = y) by (split; apply (FInv_F m _ points2D q MI PQ); lia).
  assert (B : forall w, (w < 4)%nat -> lam (m_at (FI (rotate rot trans points2D)) 0 q) (m_at (FI (rotate rot trans points2D)) 1 q) (m_at (FI (rotate rot trans points2D)) 2 q) w = fw v0 v1 v2 x y w).
  { apply (bary_point o Ho g V G); auto. intros c Hc. change (m_at (rotate rot trans points2D) c q) with (affine rot trans (fun c => m_at points2D c q) c).
    rewrite (affine_ext rot trans _ (affine (mt_B m) (mt_b m) (fun k => match k with 0%nat => x | 1%nat => y | _ => 0 end))) by exact PQ.
    rewrite affine2_bary by reflexivity. rewrite (GV 0%nat), (GV 1%nat), (GV 2%nat) by (auto; lia). reflexivity. }
  destruct XY as (X0 & Y0). split.
  - intros t Ht S. destruct (tri_node ls t El Ht) as (i & j & ELp & Sij & P). destruct (face_node i j Sij) as (d & p' & Ed & Ep & Hp' & P').
    assert (p = p'). { apply (same_dof l p p' L Hp Hp'). intros c Hc. rewrite <- (S c Hc). unfold col3. now rewrite P, P'. } subst p'.
    rewrite (A3 q d p _ Ep Ed), (T5 q t _ Ht ELp), X0, Y0. now apply phi3_on_face.
  - intros NS. destruct (order_onto o Ho g V G p Hp) as (d & Ep). destruct (order_lt o Ho g V G _ _ Ep) as (Hd & _). destruct (TL_at o Ho d Hd) as (a & b & c & Ed & Sabc). rewrite (A3 q d p _ Ep Ed).
    destruct (phi3_off_face o Ho v0 v1 v2 x y _ _ _ a b c H0 H1 H2 N1 N2 N3 B Sabc) as [(i & j & S & E)|(_ & E)]; [|exact E]. exfalso.
    assert (I : In (i, j) (Lp o)) by (apply (Lp_In o Ho); auto). destruct (In_nth_error _ _ I) as (s & Es). pose proof TO as (_ & _ & _ & _ & TN5 & _).
    assert (Hs : (s < ft_NumBasisFunctions tri)%nat) by (rewrite TN5, <- (Lp_length o Ho); eapply nth_error_lt; eauto). destruct (L6 s Hs) as (_ & Hss).
    apply (NS (sig tri dir s) Hss). destruct (tri_node ls _ El Hss) as (i' & j' & E' & _ & P). unfold sig in E'. rewrite (sigma_invol (ft_NumDofs0D tri) (ft_NumDofs1D tri) dir s) in E'. rewrite Es in E'. injection E' as <- <-.
    intros k Hk. unfold col3. rewrite P by auto. destruct L as (_ & _ & _ & _ & _ & _ & H & _). rewrite (H d p k Ep). symmetry. apply (F_tp o Ho data TD g V G d); auto. now rewrite <- E.
Qed.
End Face.
End Local.
