(** The statements about the tetrahedra of a mesh for created elements, and sample cells. *)
From Coq Require Import List Arith Bool Lia ZArith Reals Lra Permutation.
From Verif Require Import Base RSum MatrixModel MonomialsModel MonomialsSpec LagrangeModel LagrangeSpec LagrangeProofs TriangleModel TriangleSpec TriangleProofs TriangleProofs2 TriangleProofs3 TriangleProofs4 VemQuadModel VemQuadProofs TetModel TetSpec TetProofs TetProofs5 TetLocalModel TetLocalSpec TetLocalProofs TetLocalProofs2 TetLocalProofs3 TetLocalProofs4 TetLocalProofs5 TetLocalProofs6 TetLocalProofs7 TetLocalProofs8 TetLocalProofs9.
Import ListNotations.
Local Open Scope R_scope.

Section All.
Variables (gt : nat -> QuadratureData) (junk0 : nat -> nat -> R) (o : nat) (data : Tet_Data).
Hypotheses (Ho : (1 <= o)%nat) (HQ : (3 <= m_rows (q_Points (gt (2 * o)%nat)))%nat) (EC : Tet_Create gt junk0 o = Ok data).

Lemma TD : tet_data o data.
Proof using Ho HQ EC. exact (created o Ho gt junk0 data HQ EC). Qed.
Lemma NB : te_NumBasisFunctions data = TN o /\ te_NumDofs2D data = n2 o.
Proof using Ho HQ EC. pose proof TD as (_ & -> & _ & _ & -> & _). auto. Qed.
End All.

Lemma C85_nodes_all : forall gt junk0 order data g V junk, (1 <= order)%nat -> (3 <= m_rows (q_Points (gt (2 * order)%nat)))%nat -> Tet_Create gt junk0 order = Ok data ->
  tetrahedron g V -> tells_nodes_apart g data -> (Z.of_nat (te_NumBasisFunctions data) <= UINT_MAX)%Z ->
  exists l, Tet_CreateLocalSpace junk data g = Ok l /\
  let N := te_NumBasisFunctions data in
  tl_NumberOfBasisFunctions l = N /\ m_rows (tl_Dofs l) = 3%nat /\ m_cols (tl_Dofs l) = N /\ Permutation (tl_DofsMeshOrder l) (seq 0 N) /\
  (forall d, (d < N)%nat -> same3 (col3 (tl_Dofs l) (nth d (tl_DofsMeshOrder l) 0%nat)) (affine (mt_B (tg_Map g)) (mt_b (tg_Map g)) (col3 (te_DofPositions data) d))) /\
  (forall p p', (p < N)%nat -> (p' < N)%nat -> same3 (col3 (tl_Dofs l) p) (col3 (tl_Dofs l) p') -> p = p').
Proof.
  intros gt junk0 o data g V junk Ho HQ EC G SA UI. pose proof (TD _ _ _ _ Ho HQ EC) as D. destruct (local_created o Ho data D g V G SA UI junk) as (l & E & L). exists l. split; auto.
  cbv zeta. destruct (NB _ _ _ _ Ho HQ EC) as (-> & _). pose proof L as (L1 & L2 & L3 & L4 & L5 & L6 & L7 & _). rewrite L4. do 3 (split; auto). split; [apply (order_perm o Ho g V G)|]. split.
  - intros d Hd c Hc. unfold col3 at 1. rewrite (L7 d); [reflexivity|]. apply nth_error_nth'. rewrite (order_length o Ho); auto.
  - intros p p' Hp Hp' S. exact (same_dof o Ho data D g V G l p p' L Hp Hp' S).
Qed.

Lemma C85_positions_all : forall gt junk0 order data g V junk l, (1 <= order)%nat -> (3 <= m_rows (q_Points (gt (2 * order)%nat)))%nat -> Tet_Create gt junk0 order = Ok data ->
  tetrahedron g V -> tells_nodes_apart g data -> (Z.of_nat (te_NumBasisFunctions data) <= UINT_MAX)%Z -> Tet_CreateLocalSpace junk data g = Ok l ->
  let n1 := (order - 1)%nat in let n2 := te_NumDofs2D data in let P := ft_DofPositions (te_Boundary data) in
  (forall v, (v < 4)%nat -> same3 (col3 (tl_Dofs l) v) (V v)) /\
  (forall e, (e < 6)%nat -> exists A, Tet_EdgeDOFs data l e = Ok A /\ m_cols A = n1 /\ forall k c, (k < n1)%nat -> (c < 3)%nat -> let s := INR (S k) / INR order in
     m_at A c k = m_at (tl_Dofs l) c (4 + e * n1 + k) /\ m_at A c k = (1 - s) * V (edge_start g e) c + s * V (edge_end g e) c) /\
  (forall f v0 v1 v2 e0 e1 e2, (f < 4)%nat -> face_of g f v0 v1 v2 e0 e1 e2 -> exists A, Tet_FaceDOFs data l f = Ok A /\ m_cols A = n2 /\ forall k c, (k < n2)%nat -> (c < 3)%nat ->
     let x := m_at P 0 (3 + 3 * n1 + k) in let y := m_at P 1 (3 + 3 * n1 + k) in
     m_at A c k = m_at (tl_Dofs l) c (4 + 6 * n1 + f * n2 + k) /\ m_at A c k = (1 - x - y) * V v0 c + x * V v1 c + y * V v2 c) /\
  (forall d, (4 + 6 * n1 + 4 * n2 <= d)%nat -> (d < te_NumBasisFunctions data)%nat -> same3 (col3 (tl_Dofs l) d) (affine (mt_B (tg_Map g)) (mt_b (tg_Map g)) (col3 (te_DofPositions data) d))).
Proof.
  intros gt junk0 o data g V junk l Ho HQ EC G SA UI EL. pose proof (TD _ _ _ _ Ho HQ EC) as D. pose proof (local_is o Ho data D g V G SA UI junk l EL) as L.
  cbv zeta. destruct (NB _ _ _ _ Ho HQ EC) as (N1 & N2). rewrite N1, N2. split; [|split; [|split]].
  - intros v Hv c Hc. exact (pos_vertex o Ho data D g V G l v c L Hv Hc).
  - intros e He. destruct (edge_block o Ho data D g V G l e L He) as (A & EA & CA & HA). exists A. split; auto. split; auto. intros k c Hk Hc. split; [auto|]. rewrite HA by auto. exact (pos_edge o Ho data D g V G l e k c L He Hk Hc).
  - intros f v0 v1 v2 e0 e1 e2 Hf FO. destruct (face_block o Ho data D g V G l f L Hf) as (A & EA & CA & HA). exists A. split; auto. split; auto. intros k c Hk Hc. split; [auto|]. rewrite HA by auto.
    exact (pos_face o Ho data D g V G l f v0 v1 v2 e0 e1 e2 k c L Hf Hk Hc FO).
  - intros d H1 H2 c Hc. exact (pos_inner o Ho data g V G l d c L H1 H2).
Qed.

Lemma C86_nodal_all : forall gt junk0 order data g V junk junk' l, (1 <= order)%nat -> (3 <= m_rows (q_Points (gt (2 * order)%nat)))%nat -> Tet_Create gt junk0 order = Ok data ->
  tetrahedron g V -> tells_nodes_apart g data -> (Z.of_nat (te_NumBasisFunctions data) <= UINT_MAX)%Z -> Tet_CreateLocalSpace junk data g = Ok l ->
  let N := te_NumBasisFunctions data in
  exists A, Tet_LocalValues junk' data l (tl_Dofs l) = Ok A /\ m_rows A = N /\ m_cols A = N /\
  forall i j, (i < N)%nat -> (j < N)%nat -> m_at A j i = if (i =? j)%nat then 1 else 0.
Proof.
  intros gt junk0 o data g V junk junk' l Ho HQ EC G SA UI EL. pose proof (TD _ _ _ _ Ho HQ EC) as D. pose proof (local_is o Ho data D g V G SA UI junk l EL) as L.
  cbv zeta. destruct (NB _ _ _ _ Ho HQ EC) as (-> & _). exact (local_nodal o Ho data D g V G junk' l L).
Qed.
Lemma C86_reproduces_all : forall gt junk0 order data g V junk junk' l points cf, (1 <= order)%nat -> (3 <= m_rows (q_Points (gt (2 * order)%nat)))%nat -> Tet_Create gt junk0 order = Ok data ->
  tetrahedron g V -> tells_nodes_apart g data -> (Z.of_nat (te_NumBasisFunctions data) <= UINT_MAX)%Z -> Tet_CreateLocalSpace junk data g = Ok l ->
  let N := te_NumBasisFunctions data in
  exists A, Tet_LocalValues junk' data l points = Ok A /\ m_rows A = m_cols points /\ m_cols A = N /\
  forall q, rsum N (fun i => poly3 order cf (m_at (tl_Dofs l) 0 i) (m_at (tl_Dofs l) 1 i) (m_at (tl_Dofs l) 2 i) * m_at A q i) = poly3 order cf (m_at points 0 q) (m_at points 1 q) (m_at points 2 q).
Proof.
  intros gt junk0 o data g V junk junk' l points cf Ho HQ EC G SA UI EL. pose proof (TD _ _ _ _ Ho HQ EC) as D. pose proof (local_is o Ho data D g V G SA UI junk l EL) as L.
  cbv zeta. destruct (NB _ _ _ _ Ho HQ EC) as (-> & _). exact (local_reproduces o Ho data D g V G junk' l points cf L).
Qed.

Lemma C87_all : forall gt junk0 order data g1 V1 g2 V2 junk1 junk2 junk1' junk2' l1 l2 f1 f2 v0 v1 v2 e0 e1 e2 w0 w1 w2 d0 d1 d2 (u1 u2 : nat -> R) points1 q1 points2 q2 x y,
  (1 <= order)%nat -> (3 <= m_rows (q_Points (gt (2 * order)%nat)))%nat -> Tet_Create gt junk0 order = Ok data ->
  tetrahedron g1 V1 -> tells_nodes_apart g1 data -> tetrahedron g2 V2 -> tells_nodes_apart g2 data -> (Z.of_nat (te_NumBasisFunctions data) <= UINT_MAX)%Z ->
  Tet_CreateLocalSpace junk1 data g1 = Ok l1 -> Tet_CreateLocalSpace junk2 data g2 = Ok l2 ->
  (f1 < 4)%nat -> (f2 < 4)%nat -> face_of g1 f1 v0 v1 v2 e0 e1 e2 -> face_of g2 f2 w0 w1 w2 d0 d1 d2 ->
  same3 (V1 v0) (V2 w0) -> same3 (V1 v1) (V2 w1) -> same3 (V1 v2) (V2 w2) ->
  (edge_start g1 e0 = v0 <-> edge_start g2 d0 = w0) -> (edge_start g1 e1 = v1 <-> edge_start g2 d1 = w1) -> (edge_start g1 e2 = v2 <-> edge_start g2 d2 = w2) ->
  let n1 := (order - 1)%nat in let n2 := te_NumDofs2D data in
  u1 v0 = u2 w0 -> u1 v1 = u2 w1 -> u1 v2 = u2 w2 ->
  (forall k, (k < n1)%nat -> u1 (4 + e0 * n1 + k)%nat = u2 (4 + d0 * n1 + k)%nat /\ u1 (4 + e1 * n1 + k)%nat = u2 (4 + d1 * n1 + k)%nat /\ u1 (4 + e2 * n1 + k)%nat = u2 (4 + d2 * n1 + k)%nat) ->
  (forall k, (k < n2)%nat -> u1 (4 + 6 * n1 + f1 * n2 + k)%nat = u2 (4 + 6 * n1 + f2 * n2 + k)%nat) ->
  same3 (col3 points1 q1) (fun c => (1 - x - y) * V1 v0 c + x * V1 v1 c + y * V1 v2 c) -> same3 (col3 points2 q2) (col3 points1 q1) ->
  exists A B, Tet_LocalValues junk1' data l1 points1 = Ok A /\ Tet_LocalValues junk2' data l2 points2 = Ok B /\
    rsum (te_NumBasisFunctions data) (fun p => u1 p * m_at A q1 p) = rsum (te_NumBasisFunctions data) (fun p => u2 p * m_at B q2 p).
Proof.
  intros gt junk0 o data g1 V1 g2 V2 junk1 junk2 junk1' junk2' l1 l2 f1 f2 v0 v1 v2 e0 e1 e2 w0 w1 w2 d0 d1 d2 u1 u2 points1 q1 points2 q2 x y Ho HQ EC G1 SA1 G2 SA2 UI EL1 EL2 Hf1 Hf2 F1 F2 X0 X1 X2 S0 S1 S2.
  pose proof (TD _ _ _ _ Ho HQ EC) as D. pose proof (local_is o Ho data D g1 V1 G1 SA1 UI junk1 l1 EL1) as L1. pose proof (local_is o Ho data D g2 V2 G2 SA2 UI junk2 l2 EL2) as L2.
  cbv zeta. destruct (NB _ _ _ _ Ho HQ EC) as (N1 & N2). rewrite N1, N2. intros U0 U1 U2 UE UF P1 P2.
  apply (continuity o data junk1' junk2' g1 V1 g2 V2 l1 l2 f1 f2 v0 v1 v2 e0 e1 e2 w0 w1 w2 d0 d1 d2 u1 u2 points1 q1 points2 q2 x y); auto.
  intros c Hc. rewrite <- (X0 c Hc), <- (X1 c Hc), <- (X2 c Hc). exact (eq_trans (P2 c Hc) (P1 c Hc)).
Qed.

Lemma C88_all : forall gt junk0 order data g V junk junk' fjunk l points, (1 <= order)%nat -> (3 <= m_rows (q_Points (gt (2 * order)%nat)))%nat -> Tet_Create gt junk0 order = Ok data ->
  tetrahedron g V -> tells_nodes_apart g data -> (Z.of_nat (te_NumBasisFunctions data) <= UINT_MAX)%Z -> Tet_CreateLocalSpace junk data g = Ok l ->
  exists D, Tet_LocalDerivatives fjunk data l points = Ok D /\ length D = 3%nat /\
  forall d, (d < 3)%nat -> exists A, nth_error D d = Some A /\ f_rows A = m_cols points /\ f_cols A = te_NumBasisFunctions data /\
    forall q p, (p < te_NumBasisFunctions data)%nat ->
      ((2 <= order)%nat -> lattice_plane_below order V (col3 (tl_Dofs l) p) (col3 points q) -> f_at A q p = None) /\
      (order = 1%nat \/ ~ lattice_plane_below order V (col3 (tl_Dofs l) p) (col3 points q) -> exists v, f_at A q p = Some v /\
        is_partial (fun x => match Tet_LocalValues junk' data l (space_point x) with Ok W => m_at W 0 p | _ => 0 end) d (col3 points q) v).
Proof.
  intros gt junk0 o data g V junk junk' fjunk l points Ho HQ EC G SA UI EL. pose proof (TD _ _ _ _ Ho HQ EC) as D. pose proof (local_is o Ho data D g V G SA UI junk l EL) as L.
  destruct (NB _ _ _ _ Ho HQ EC) as (-> & _). destruct (local_gradients o Ho data D g V G junk' fjunk l points L) as (D0 & D1 & D2 & ED & HD). exists [D0; D1; D2]. split; auto. split; auto.
  intros d Hd. exists (nth d [D0; D1; D2] D0). split; [apply nth_error_nth'; cbn; lia|]. exact (HD d Hd).
Qed.

Lemma C89_all : forall gt junk0 order data g V junk junk' l f v0 v1 v2 e0 e1 e2 dir m rot trans points2D,
  (1 <= order)%nat -> (3 <= m_rows (q_Points (gt (2 * order)%nat)))%nat -> Tet_Create gt junk0 order = Ok data ->
  tetrahedron g V -> tells_nodes_apart g data -> (Z.of_nat (te_NumBasisFunctions data) <= UINT_MAX)%Z -> Tet_CreateLocalSpace junk data g = Ok l ->
  (f < 4)%nat -> face_of g f v0 v1 v2 e0 e1 e2 -> nth_error (tg_Faces_2D_Geometry g) f = Some (3%nat, dir, m) ->
  nth_error (tg_FacesRotationMatrix g) f = Some rot -> nth_error (tg_FacesTranslation g) f = Some trans -> inverse3 (mt_B m) (mt_BInv m) ->
  let N := te_NumBasisFunctions data in let M := ft_NumBasisFunctions (te_Boundary data) in
  exists ls T A, nth_error (tl_Boundary l) f = Some ls /\ Tet_FaceValues data l f points2D = Ok T /\ m_rows T = m_cols points2D /\ m_cols T = M /\
    Tet_LocalValues junk' data l (rotate rot trans points2D) = Ok A /\
    let node := fun t => affine rot trans (col3 (lt_Dofs ls) t) in
    (forall t, (t < M)%nat -> exists p, (p < N)%nat /\ same3 (node t) (col3 (tl_Dofs l) p)) /\
    forall q p, (p < N)%nat -> (exists x y, same3 (col3 points2D q) (affine (mt_B m) (mt_b m) (vec3 x y 0))) ->
      (forall t, (t < M)%nat -> same3 (node t) (col3 (tl_Dofs l) p) -> m_at A q p = m_at T q t) /\
      ((forall t, (t < M)%nat -> ~ same3 (node t) (col3 (tl_Dofs l) p)) -> m_at A q p = 0).
Proof.
  intros gt junk0 o data g V junk junk' l f v0 v1 v2 e0 e1 e2 dir m rot trans points2D Ho HQ EC G SA UI EL Hf FO E2 ER ET MI. pose proof (TD _ _ _ _ Ho HQ EC) as D. pose proof (local_is o Ho data D g V G SA UI junk l EL) as L.
  cbv zeta. destruct (NB _ _ _ _ Ho HQ EC) as (-> & _).
  destruct (face_values o Ho data D g V G UI l f v0 v1 v2 e0 e1 e2 dir m rot trans L Hf FO E2 ER ET MI junk' points2D) as (ls & T & A & H1 & H2 & H3 & H4 & _ & H5 & H6 & H7). exists ls, T, A. do 5 (split; [auto|]). split; [exact H6|].
  intros q p Hp (x & y & S). apply (H7 q p Hp). exists x, y. exact S.
Qed.

Lemma C90_all : forall gt junk0 order data g V junk junk1 junk2 fjunk1 fjunk2 l, (1 <= order)%nat -> (3 <= m_rows (q_Points (gt (2 * order)%nat)))%nat -> Tet_Create gt junk0 order = Ok data ->
  tetrahedron g V -> tells_nodes_apart g data -> (Z.of_nat (te_NumBasisFunctions data) <= UINT_MAX)%Z -> Tet_CreateLocalSpace junk data g = Ok l ->
  let rule := gt (2 * order)%nat in let X := q_Points (tl_Quadrature l) in let N := te_NumBasisFunctions data in
  m_cols X = m_cols (q_Points rule) /\ (forall q, same3 (col3 X q) (affine (mt_B (tg_Map g)) (mt_b (tg_Map g)) (col3 (q_Points rule) q))) /\
  v_size (q_Weights (tl_Quadrature l)) = v_size (q_Weights rule) /\
  (forall q, v_at (q_Weights (tl_Quadrature l)) q = v_at (q_Weights rule) q * Rabs (triple (fun c => V 1%nat c - V 0%nat c) (fun c => V 2%nat c - V 0%nat c) (fun c => V 3%nat c - V 0%nat c))) /\
  (exists A B, Tet_QuadratureValues junk1 data l = Ok A /\ Tet_LocalValues junk2 data l X = Ok B /\ m_rows A = m_cols X /\ m_cols A = N /\
     forall q p, (p < N)%nat -> m_at A q p = m_at B q p) /\
  (exists A B, Tet_QuadratureDerivatives fjunk1 data l = Ok A /\ Tet_LocalDerivatives fjunk2 data l X = Ok B /\ length A = 3%nat /\ length B = 3%nat /\
     forall d, (d < 3)%nat -> exists A' B', nth_error A d = Some A' /\ nth_error B d = Some B' /\ f_rows A' = m_cols X /\ f_cols A' = N /\ forall q p, (p < N)%nat -> f_at A' q p = f_at B' q p).
Proof.
  intros gt junk0 o data g V junk junk1 junk2 fjunk1 fjunk2 l Ho HQ EC G SA UI EL. pose proof (TD _ _ _ _ Ho HQ EC) as D. pose proof (local_is o Ho data D g V G SA UI junk l EL) as L.
  cbv zeta. destruct (NB _ _ _ _ Ho HQ EC) as (-> & _). destruct (create_ok o Ho gt junk0 HQ) as (data' & EC' & _ & QD & VD & DD). rewrite EC in EC'. injection EC' as <-. rewrite <- QD in *.
  pose proof L as (_ & _ & _ & _ & _ & _ & _ & _ & _ & LQ & _).
  split; [now rewrite LQ|]. split; [intros q c Hc; rewrite LQ; reflexivity|]. split; [now rewrite LQ|]. split.
  { intros q. rewrite (quad_weights o Ho data g V G l q L). do 2 f_equal. unfold det3, triple. ring. }
  split.
  - destruct (quad_values o Ho data D g V G junk1 junk2 l L HQ VD) as (A & B & EA & EB & A1 & A2 & B1 & B2 & H). exists A, B. split; auto. split; auto. split; [rewrite A1, LQ; reflexivity|]. auto.
  - destruct (quad_derivatives o Ho data D g V G fjunk1 fjunk2 l L HQ DD) as (A0 & A1 & A2 & B0 & B1 & B2 & EA & EB & H). exists [A0; A1; A2], [B0; B1; B2]. split; auto. split; auto. split; auto. split; auto.
    intros d Hd. destruct (H d Hd) as (H1 & H2 & _ & _ & H5). exists (nth d [A0; A1; A2] A0), (nth d [B0; B1; B2] B0). split; [apply nth_error_nth'; cbn; lia|]. split; [apply nth_error_nth'; cbn; lia|]. split; [rewrite H1, LQ; reflexivity|]. auto.
Qed.

(** exact comparison *)
Definition exact_same (x y : point) : bool := forallb (fun c => if Req_EM_T (x c) (y c) then true else false) [0; 1; 2]%nat.
Lemma exact_tells_apart : forall gt junk0 order data g V, (1 <= order)%nat -> (3 <= m_rows (q_Points (gt (2 * order)%nat)))%nat -> Tet_Create gt junk0 order = Ok data ->
  tetrahedron g V -> tg_Same g = exact_same -> tells_nodes_apart g data.
Proof.
  intros gt junk0 o data g V Ho HQ EC G ES. pose proof (TD _ _ _ _ Ho HQ EC) as D. pose proof D as (_ & D2 & _).
  assert (SP : forall x y, exact_same x y = true <-> same3 x y).
  { intros x y. unfold exact_same. rewrite forallb_forall. split.
    - intros H c Hc. assert (I : In c [0; 1; 2]%nat) by (destruct c as [|[|[|c]]]; cbn; auto; lia). specialize (H c I). cbv beta in H. destruct (Req_EM_T (x c) (y c)); [auto|discriminate].
    - intros H c I. destruct (Req_EM_T (x c) (y c)) as [|N]; auto. destruct N. apply H. cbn in I. lia. }
  split; rewrite ES; [intros x y; apply SP|]. rewrite D2. intros d d' x y Hd Hd' ND X Y. destruct (exact_same x y) eqn:E; auto. exfalso. apply SP in E. apply ND.
  destruct G as (_ & GI & _). pose (M := {| m_rows := 3; m_cols := 1; m_at := fun c _ => x c |}).
  assert (Q : forall c, (c < 3)%nat -> m_at (te_DofPositions data) c d = m_at (te_DofPositions data) c d').
  { intros c Hc. transitivity (m_at (mt_FInv (tg_Map g) M) c 0); [symmetry|].
    - apply (FInv_F (tg_Map g) (fun c => m_at (te_DofPositions data) c d) M 0 GI); auto.
    - apply (FInv_F (tg_Map g) (fun c => m_at (te_DofPositions data) c d') M 0 GI); auto. intros k Hk. cbn [M m_at]. rewrite (E k Hk). now apply Y. }
  destruct (dof_ex o Ho d Hd) as (a & b & c & T & _). destruct (at_dof o Ho data d _ _ _ D T) as (A0 & A1 & A2).
  assert (T' : nth_error (TL o) d' = Some (a, b, c)). { apply (dof_unique o Ho data d' a b c D Hd'). unfold at_point3. rewrite <- !Q by lia. auto. }
  pose proof (TL_NoDup o Ho) as NDp. rewrite NoDup_nth_error in NDp. apply NDp; [rewrite (TL_length o Ho); auto|congruence].
Qed.

(** sample cells: edges and faces in an unusual order, the plane description of a face is the unit triangle *)
Definition id_plane : MapTriangleData := {| mt_B := fun i j => if (i =? j)%nat then 1 else 0; mt_BInv := fun i j => if (i =? j)%nat then 1 else 0; mt_b := fun _ => 0 |}.
Definition sample_faces : list (list nat * list nat) := [([2; 1; 0], [1; 0; 2]); ([0; 3; 1], [3; 4; 0]); ([3; 2; 0], [5; 2; 3]); ([1; 2; 3], [1; 5; 4])]%nat.
Definition sample_cell (m : MapTriangleData) (dir : list bool) : Tet_Geometry :=
  let V := fun w => affine (mt_B m) (mt_b m) (ref_vertex w) in
  {| tg_Map := m; tg_Edges := [(1, 0); (2, 1); (0, 2); (3, 0); (1, 3); (2, 3)]%nat; tg_Faces := sample_faces; tg_EdgesDirection := dir;
     tg_FacesRotationMatrix := map (fun F c k => match k with 0%nat => V (nth 1 (fst F) 0%nat) c - V (nth 0 (fst F) 0%nat) c | 1%nat => V (nth 2 (fst F) 0%nat) c - V (nth 0 (fst F) 0%nat) c | _ => 0 end) sample_faces;
     tg_FacesTranslation := map (fun F => V (nth 0 (fst F) 0%nat)) sample_faces;
     tg_Faces_2D_Geometry := repeat (3%nat, [true; true; true], id_plane) 4; tg_Same := exact_same |}.
Lemma sample_ok m dir : inverse3 (mt_B m) (mt_BInv m) -> (6 <= length dir)%nat -> tetrahedron (sample_cell m dir) (fun w => affine (mt_B m) (mt_b m) (ref_vertex w)).
Proof.
  intros I LD. split; [intros w Hw c Hc; reflexivity|]. split; [exact I|]. split; [|split; [|split; [exact LD|split; [|split]]]].
  - intros e He. do 6 (destruct e as [|e]; [eexists _, _; split; [reflexivity|]; lia|]). lia.
  - intros a b Ha Hb Nab. unfold joins. cbn [sample_cell tg_Edges].
    four a Ha; four b Hb; try (exfalso; apply Nab; reflexivity);
      first [exists 0%nat; split; [lia|]; (left + right); reflexivity|exists 1%nat; split; [lia|]; (left + right); reflexivity|exists 2%nat; split; [lia|]; (left + right); reflexivity|exists 3%nat; split; [lia|]; (left + right); reflexivity|exists 4%nat; split; [lia|]; (left + right); reflexivity|exists 5%nat; split; [lia|]; (left + right); reflexivity].
  - intros f Hf. destruct f as [|[|[|[|f]]]]; [| | | |lia]; eexists _, _, _, _, _, _; (split; [reflexivity|]; split; [lia|]; split; [lia|]; unfold joins; cbn; auto).
  - intros w Hw. assert (FF : forall f v0 v1 v2 e0 e1 e2, (f < 4)%nat -> nth_error sample_faces f = Some ([v0; v1; v2], [e0; e1; e2]) -> face_of (sample_cell m dir) f v0 v1 v2 e0 e1 e2).
    { intros f v0 v1 v2 e0 e1 e2 Hf E. split; [exact E|]. destruct f as [|[|[|[|f]]]]; [| | | |lia]; injection E as <- <- <- <- <- <-; (split; [lia|]; split; [lia|]; unfold joins; cbn; auto). }
    four w Hw.
    + exists 3%nat. eexists _, _, _, _, _, _. split; [lia|]. split; [apply FF; [lia|reflexivity]|lia].
    + exists 2%nat. eexists _, _, _, _, _, _. split; [lia|]. split; [apply FF; [lia|reflexivity]|lia].
    + exists 1%nat. eexists _, _, _, _, _, _. split; [lia|]. split; [apply FF; [lia|reflexivity]|lia].
    + exists 0%nat. eexists _, _, _, _, _, _. split; [lia|]. split; [apply FF; [lia|reflexivity]|lia].
  - intros f v0 v1 v2 e0 e1 e2 Hf (E & _). cbn [sample_cell tg_Faces] in E.
    destruct f as [|[|[|[|f]]]]; [| | | |lia]; injection E as <- <- <- <- <- <-; eexists _, _, _, _; (split; [reflexivity|]; split; [cbn; lia|]; split; [reflexivity|]; split; [reflexivity|]);
      (intros k Hk c Hc; cbn [nth fst]; unfold affine at 1; cbn [rsum]; destruct k as [|[|[|k]]]; [| | |lia]; cbn [nth]; unfold affine at 3; unfold id_plane, ref_vertex at 1; cbn [mt_B mt_b rsum Nat.eqb]);
      unfold affine, id_plane, ref_vertex; cbn [mt_B mt_b rsum Nat.eqb]; ring.
Qed.
