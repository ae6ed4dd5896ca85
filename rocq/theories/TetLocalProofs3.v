(** The tetrahedra of a mesh: the order of the dofs is computed by writes at the expected positions. *)
From Coq Require Import List Arith Bool Lia ZArith Reals Lra Permutation.
From Verif Require Import Base RSum MatrixModel MonomialsModel MonomialsSpec LagrangeModel LagrangeSpec LagrangeProofs TriangleModel TriangleSpec TriangleProofs TriangleProofs3 TriangleProofs4 VemQuadModel VemQuadProofs TetModel TetSpec TetProofs TetProofs2 TetProofs3 TetProofs5 TetLocalModel TetLocalSpec TetLocalProofs TetLocalProofs2.
Import ListNotations.
Local Open Scope nat_scope.

Lemma filter_single (f : nat -> bool) n s : s < n -> f s = true -> (forall s', s' < n -> s' <> s -> f s' = false) -> filter f (seq 0 n) = [s].
Proof.
  intros Hs Ht Hf. assert (E : seq 0 n = seq 0 s ++ s :: seq (S s) (n - S s)).
  { replace n with (s + (1 + (n - S s))) at 1 by lia. rewrite !seq_app. cbn [Nat.add seq app]. rewrite Nat.add_1_r. reflexivity. }
  rewrite E, filter_app. cbn [filter]. rewrite Ht.
  assert (Z : forall l, (forall x, In x l -> f x = false) -> filter f l = []). { induction l as [|a l IH]; intros H; [reflexivity|]. cbn. rewrite H by (left; auto). apply IH. intros; apply H; right; auto. }
  rewrite !Z; [reflexivity| |]; intros x Hx; apply in_seq in Hx; apply Hf; lia.
Qed.
Lemma flat_map_single_map {A B} (f : A -> B) l : flat_map (fun a => [f a]) l = map f l.
Proof. induction l; cbn; congruence. Qed.

(** affine maps by their values at the vertices *)
Lemma affine_bary B b x c : affine B b x c = ((1 - x 0%nat - x 1%nat - x 2%nat) * affine B b (ref_vertex 0%nat%nat) c + x 0%nat * affine B b (ref_vertex 1%nat%nat) c + x 1%nat * affine B b (ref_vertex 2%nat%nat) c + x 2%nat * affine B b (ref_vertex 3%nat) c)%R.
Proof. unfold affine, ref_vertex. cbn. ring. Qed.
Lemma affine_ext B b x y c : same3 x y -> affine B b x c = affine B b y c.
Proof. intros H. unfold affine. f_equal. apply rsum_ext. intros k Hk. now rewrite H. Qed.
Lemma affine2_bary B b B' b' x c : x 2 = 0%R -> affine B b (affine B' b' x) c =
  ((1 - x 0%nat - x 1%nat) * affine B b (affine B' b' (ref_vertex 0%nat%nat)) c + x 0%nat * affine B b (affine B' b' (ref_vertex 1%nat%nat)) c + x 1%nat * affine B b (affine B' b' (ref_vertex 2%nat%nat)) c)%R.
Proof. intros H. unfold affine, ref_vertex. cbn. rewrite H. ring. Qed.

Section Inner.
Variable o : nat.
Hypothesis Ho : 1 <= o.
Notation n1 := (o - 1).
Definition pre3 : list (nat * nat) := [(0, 0); (0, o); (o, 0)] ++ part o 0 (LAT o) ++ part o 1 (LAT o) ++ rev (part o 2 (LAT o)).
Lemma Lp_pre : Lp o = pre3 ++ part o 3 (LAT o) /\ length pre3 = 3 + 3 * n1.
Proof using Ho.
  split.
  - unfold Lp, pre3. now rewrite <- !app_assoc.
  - unfold pre3. rewrite !app_length. destruct (parts o Ho) as (_ & -> & -> & -> & _). rewrite !map_length, !seq_length. cbn [length]. lia.
Qed.
Lemma inner_length : length (part o 3 (LAT o)) = n2 o.
Proof using Ho.
  destruct Lp_pre as (E & L). pose proof (Lp_length o Ho) as Q. rewrite E, app_length, L in Q. pose proof (NN_double o Ho) as Q1.
  pose proof (pairs_length (o - 2)) as P. unfold n2. clear -Q Q1 P Ho. generalize dependent (length (part o 3 (LAT o))). intros z Q. destruct o as [|[|k]]; [lia|cbn in *; lia|]. replace (S (S k) - 2) with k in * by lia. replace (S (S k) - 1) with (S k) in * by lia. nia.
Qed.
Lemma inner_In i j : In (i, j) (part o 3 (LAT o)) <-> 1 <= i /\ 1 <= j /\ i + j < o.
Proof using Ho.
  destruct (parts o Ho) as (_ & _ & _ & _ & ->). rewrite in_flat_map. split.
  - intros (a & Ha & H). apply in_map_iff in H. destruct H as (b & E & Hb). injection E as <- <-. apply in_seq in Ha. apply in_seq in Hb. lia.
  - intros (H1 & H2 & H3). exists i. split; [apply in_seq; lia|]. apply in_map_iff. exists j. split; auto. apply in_seq. lia.
Qed.
Definition ij (k : nat) : nat * nat := nth (3 + 3 * n1 + k) (Lp o) (0, 0).
Lemma ij_ok k : k < n2 o -> nth_error (Lp o) (3 + 3 * n1 + k) = Some (ij k) /\ 1 <= fst (ij k) /\ 1 <= snd (ij k) /\ fst (ij k) + snd (ij k) < o.
Proof using Ho.
  intros Hk. destruct Lp_pre as (E & L). assert (X : nth_error (Lp o) (3 + 3 * n1 + k) = nth_error (part o 3 (LAT o)) k).
  { rewrite E, nth_error_app2 by lia. f_equal. lia. }
  destruct (nth_error_Some_ex (part o 3 (LAT o)) (i:=k)) as ((i & j) & Y); [now rewrite inner_length|].
  assert (Z : ij k = (i, j)). { unfold ij. apply nth_error_nth. congruence. }
  rewrite Z. split; [congruence|]. apply inner_In. eapply nth_error_In; eauto.
Qed.
Lemma ij_ex i j : 1 <= i -> 1 <= j -> i + j < o -> exists k, k < n2 o /\ ij k = (i, j).
Proof using Ho.
  intros H1 H2 H3. assert (I : In (i, j) (part o 3 (LAT o))) by (apply inner_In; auto). apply In_nth_error in I. destruct I as (k & Ek). exists k.
  assert (Hk : k < n2 o) by (rewrite <- inner_length; apply nth_error_lt in Ek; auto). split; auto.
  destruct Lp_pre as (E & L). unfold ij. apply nth_error_nth. rewrite E, nth_error_app2 by lia. rewrite L. replace (3 + 3 * n1 + k - (3 + 3 * n1)) with k by lia. auto.
Qed.
End Inner.

Section Local.
Variable o : nat.
Hypothesis Ho : 1 <= o.
Variable data : Tet_Data.
Hypothesis TD : tet_data o data.
Variable g : Tet_Geometry.
Variable V : nat -> point.
Hypothesis G : tetrahedron g V.
Notation n1 := (o - 1).
Notation m2 := (n2 o).
Notation m3 := (n3 o).
Notation N := (TN o).
Notation F := (affine (mt_B (tg_Map g)) (mt_b (tg_Map g))).
Notation node := (fun d c => m_at (te_DofPositions data) c d).

Lemma F_typ d p c : c < 3 -> nth_error (TL o) d = Some p -> (F (fun c => m_at (te_DofPositions data) c d) c =
  (INR (typ o p 0) * V 0 c + INR (typ o p 1) * V 1 c + INR (typ o p 2) * V 2 c + INR (typ o p 3) * V 3 c) / INR o)%R.
Proof using Ho TD G.
  intros Hc E. destruct p as ((a, b), e). destruct (at_dof o Ho data d _ _ _ TD E) as (A0 & A1 & A2). rewrite affine_bary, A0, A1, A2. destruct G as (GV & _).
  rewrite !(GV _) by (auto; lia). pose proof (TL_sum o Ho _ _ _ _ E) as S. unfold typ. cbn [vec4]. rewrite !minus_INR by lia. field. now apply not_0_INR; lia.
Qed.
Lemma F_tp d v0 v1 v2 i j c : c < 3 -> v0 < 4 -> v1 < 4 -> v2 < 4 -> v0 <> v1 -> v1 <> v2 -> v2 <> v0 -> i + j <= o -> nth_error (TL o) d = Some (tp o v0 v1 v2 i j) ->
  (F (fun c => m_at (te_DofPositions data) c d) c = (1 - INR j / INR o - INR i / INR o) * V v0 c + INR j / INR o * V v1 c + INR i / INR o * V v2 c)%R.
Proof using Ho TD G.
  intros Hc H0 H1 H2 N1 N2 N3 S E. rewrite (F_typ d _ c Hc E). pose proof (tp_sum o Ho v0 v1 v2 i j H0 H1 H2 N1 N2 N3 S) as T.
  destruct (tp o v0 v1 v2 i j) as ((x, y), z). destruct T as (_ & T). rewrite !T by lia. clear T E. assert (NZ : INR o <> 0%R) by (apply not_0_INR; lia).
  assert (W : INR (o - i - j) = (INR o - INR j - INR i)%R) by (rewrite !minus_INR by lia; ring).
  four v0 H0; four v1 H1; try (exfalso; apply N1; reflexivity); four v2 H2; try (exfalso; apply N2; reflexivity); try (exfalso; apply N3; reflexivity);
  unfold wt; cbn [Nat.eqb]; rewrite W; change (INR 0) with 0%R; field; auto.
Qed.
Lemma F_tp2 d a b k c : c < 3 -> a < 4 -> b < 4 -> a <> b -> k <= o -> nth_error (TL o) d = Some (tp o a b a 0 k) ->
  (F (fun c => m_at (te_DofPositions data) c d) c = (1 - INR k / INR o) * V a c + INR k / INR o * V b c)%R.
Proof using Ho TD G.
  intros Hc H0 H1 N1 S E. rewrite (F_typ d _ c Hc E). pose proof (tp_sum2 o Ho a b k H0 H1 N1 S) as T.
  destruct (tp o a b a 0 k) as ((x, y), z). destruct T as (_ & T). rewrite !T by lia. clear T E. assert (NZ : INR o <> 0%R) by (apply not_0_INR; lia).
  assert (W : INR (o - 0 - k) = (INR o - INR k)%R) by (rewrite !minus_INR by lia; change (INR 0) with 0%R; ring).
  four a H0; four b H1; try (exfalso; apply N1; reflexivity);
  unfold wt; cbn [Nat.eqb]; rewrite W; change (INR 0) with 0%R; field; auto.
Qed.

(** the point of the k-th inner dof of the triangle of a face *)
Lemma face_point f v0 v1 v2 e0 e1 e2 dir m rot trans l k c : f < 4 -> c < 3 -> k < m2 -> (Z.of_nat (te_NumBasisFunctions data) <= UINT_MAX)%Z -> face_of g f v0 v1 v2 e0 e1 e2 ->
  3 <= length dir -> (forall k, (k < 3)%nat -> same3 (affine rot trans (affine (mt_B m) (mt_b m) (ref_vertex k))) (V (nth k [v0; v1; v2] 0%nat))) ->
  Tri_CreateLocalSpace (te_Boundary data) 3 dir m = Ok l ->
  m_rows (lt_Dofs l) = 3 /\ 3 + 3 * n1 + m2 <= m_cols (lt_Dofs l) /\
  (affine rot trans (fun c => m_at (lt_Dofs l) c (3 + 3 * n1 + k)) c = (1 - INR (snd (ij o k)) / INR o - INR (fst (ij o k)) / INR o) * V v0 c + INR (snd (ij o k)) / INR o * V v1 c + INR (fst (ij o k)) / INR o * V v2 c)%R.
Proof using Ho TD.
  intros Hf Hc Hk UI FO Ld GV El. destruct (in_range_tri o Ho data TD UI) as (IR & T & T2). pose proof TD as (_ & _ & _ & _ & _ & _ & _ & DT).
  destruct (local_ok o _ dir m DT Ld IR) as (l' & El' & _ & _ & L3 & _ & _ & L6 & L7 & L8 & L9). rewrite El in El'. injection El' as <-.
  pose proof T as (_ & T1 & T3 & T4 & T5 & _ & _ & _ & _ & TA). rewrite T2 in T4.
  split; auto. split; [rewrite L8, T5; lia|].
  assert (S : sig (te_Boundary data) dir (3 + 3 * n1 + k) = 3 + 3 * n1 + k). { unfold sig. rewrite T1, T3. apply sigma_fix. right. unfold ea. lia. }
  destruct (ij_ok o Ho k Hk) as (EL & I1 & I2 & I3). destruct (ij o k) as (i, j). cbn [fst snd] in *. destruct (TA _ _ EL) as (A0 & A1 & A2 & _).
  rewrite (affine_ext rot trans _ (affine (mt_B m) (mt_b m) (pt (ft_DofPositions (te_Boundary data)) (3 + 3 * n1 + k)))).
  2: { intros c' Hc'. rewrite L9 by lia. now rewrite S. }
  rewrite affine2_bary by exact A2. unfold pt. rewrite A0, A1. rewrite (GV 0), (GV 1), (GV 2) by (auto; lia). cbn [nth]. unfold h. assert (NZ : INR o <> 0%R) by (apply not_0_INR; lia). field. auto.
Qed.

Hypothesis SA : tells_nodes_apart g data.
Hypothesis UI : (Z.of_nat (te_NumBasisFunctions data) <= UINT_MAX)%Z.

Definition We (e : nat) : list (nat * nat) := let '(a, b) := nth e (tg_Edges g) (0, 0) in
  if Bool.eqb (nth e (tg_EdgesDirection g) true) (ed a b) then up (4 + n1 * er a b) (4 + e * n1) n1 else down (4 + n1 * er a b) (4 + e * n1) n1.
Definition fv (f k : nat) : nat := nth k (fst (nth f (tg_Faces g) ([], []))) 0.
Definition sh (v0 v1 v2 k : nat) : nat := index (tp o v0 v1 v2 (fst (ij o k)) (snd (ij o k))) (fchunk o (fr v0 v1 v2)).
Definition Wf (f : nat) : list (nat * nat) :=
  map (fun k => (4 + 6 * n1 + m2 * fr (fv f 0) (fv f 1) (fv f 2) + sh (fv f 0) (fv f 1) (fv f 2) k, 4 + 6 * n1 + f * m2 + k)) (seq 0 m2).
Definition Wall : list (nat * nat) :=
  flat_map (fun v => up v v 1) (seq 0 4) ++ flat_map We (seq 0 6) ++ flat_map Wf (seq 0 4) ++ up (4 + 6 * n1 + 4 * m2) (4 + 6 * n1 + 4 * m2) m3.

Lemma order_edge es e l : (forall e a b, e < 6 -> nth_error (tg_Edges g) e = Some (a, b) -> nth_error es e = Some (er a b, ed a b)) -> e < 6 -> length l = N ->
  tl_order_edge N 1 n1 es g e l = Ok (wr (We e) l).
Proof using Ho TD G UI.
  intros HE He Hl. pose proof TD as (_ & D2 & _). rewrite D2 in UI. destruct G as (_ & _ & GE & _ & GD & _). destruct (GE e He) as (a & b & E & Ha & Hb & Nab).
  unfold tl_order_edge. pose proof (HE _ _ _ He E) as X. unfold idx_ at 1. rewrite X. cbn [bind].
  destruct (nth_error_Some_ex (tg_EdgesDirection g) (i:=e)) as (dr & Edr); [lia|]. unfold at_. rewrite Edr. cbn [bind fst snd].
  unfold We. rewrite (nth_error_nth _ _ _ E), (nth_error_nth _ _ true Edr). destruct (edge_table a b Ha Hb Nab) as (_ & Hr & _).
  replace (1 * 4 + n1 * er a b) with (4 + n1 * er a b) by lia. replace (4 * 1 + e * n1) with (4 + e * n1) by lia. replace (4 * 1 + S e * n1) with (4 + e * n1 + n1) by lia.
  pose proof (Nat.mul_le_mono_l (er a b) 5 n1 ltac:(lia)) as Q1. pose proof (Nat.mul_le_mono_r e 5 n1 ltac:(lia)) as Q2. assert (NL : 4 + 6 * n1 <= N) by (unfold TN; lia).
  generalize dependent (n1 * er a b). generalize dependent (e * n1). intros z Z2 y Y2.
  destruct (Bool.eqb dr (ed a b)).
  - rewrite asc_wr by lia. reflexivity.
  - rewrite desc_wr by lia. reflexivity.
Qed.

Lemma sh_ok v0 v1 v2 k : v0 < 4 -> v1 < 4 -> v2 < 4 -> v0 <> v1 -> v1 <> v2 -> v2 <> v0 -> k < m2 ->
  sh v0 v1 v2 k < m2 /\ nth_error (fchunk o (fr v0 v1 v2)) (sh v0 v1 v2 k) = Some (tp o v0 v1 v2 (fst (ij o k)) (snd (ij o k))).
Proof using Ho.
  clear UI SA. intros H0 H1 H2 N1 N2 N3 Hk. destruct (ij_ok o Ho k Hk) as (_ & I1 & I2 & I3). pose proof (face_in o Ho v0 v1 v2 _ _ H0 H1 H2 N1 N2 N3 I1 I2 I3) as I. unfold sh. split.
  - rewrite <- (fchunk_length o (fr v0 v1 v2)). now apply index_lt.
  - now apply index_ok.
Qed.
Lemma ref_face_dof f s p : f < 4 -> s < m2 -> nth_error (fchunk o f) s = Some p -> nth_error (TL o) (4 + 6 * n1 + m2 * f + s) = Some p.
Proof using Ho. clear UI SA. intros Hf Hs E. rewrite (Nat.mul_comm m2 f), (TL_face o Ho) by auto. auto. Qed.

Lemma order_face es fs bl f l : tl_edges g = Ok es -> tl_faces g es = Ok fs -> tl_boundary data g = Ok bl -> f < 4 -> length l = N ->
  tl_order_face data g fs bl f l = Ok (wr (Wf f) l).
Proof using Ho TD G UI SA.
  intros Ees Efs Ebl Hf Hl. destruct (edges_ok g V G) as (es' & Ees' & _ & HE). rewrite Ees in Ees'. injection Ees' as <-.
  destruct (faces_ok g V G es HE) as (fs' & Efs' & _ & HF). rewrite Efs in Efs'. injection Efs' as <-.
  destruct (boundary_ok o Ho data TD g V G UI) as (bl' & Ebl' & _ & HB). rewrite Ebl in Ebl'. injection Ebl' as <-.
  pose proof G as (_ & _ & _ & _ & _ & GF & _ & G2). destruct (GF f Hf) as (v0 & v1 & v2 & e0 & e1 & e2 & FO). destruct (HF f _ _ _ _ _ _ Hf FO) as (s & dd & Ef).
  destruct (G2 _ _ _ _ _ _ _ Hf FO) as (dir & m & rot & trans & E2 & Ld & Er & Et & GV). destruct (HB f _ _ _ Hf E2) as (tl & Etl & _ & _ & Ctl).
  pose proof TD as (_ & D2 & D3 & D4 & D5 & D6 & (P1 & P2 & _) & _). pose proof FO as (FE & (H0 & H1 & H2 & N1 & N2 & N3) & _).
  destruct (face_table v0 v1 v2 H0 H1 H2 N1 N2 N3) as (_ & _ & HR & _).
  assert (V0 : fv f 0 = v0) by (unfold fv; now rewrite (nth_error_nth _ _ _ FE)). assert (V1 : fv f 1 = v1) by (unfold fv; now rewrite (nth_error_nth _ _ _ FE)). assert (V2 : fv f 2 = v2) by (unfold fv; now rewrite (nth_error_nth _ _ _ FE)).
  unfold tl_order_face, Wf. rewrite D3, D4, D5, V0, V1, V2. unfold idx_ at 1. rewrite Ef. cbn [bind].
  destruct (Nat.ltb_spec 0 m2) as [M|M]; [|replace m2 with 0 by lia; reflexivity].
  unfold idx_. rewrite Etl. cbn [bind].
  destruct (face_point f v0 v1 v2 e0 e1 e2 dir m rot trans tl 0 0 Hf ltac:(lia) M UI FO Ld GV Ctl) as (R1 & R2 & _).
  assert (B1 : mat_block (lt_Dofs tl) 0 (3 * 1 + 3 * n1) 3 m2 = Ok {| m_rows := 3; m_cols := m2; m_at := fun i j => m_at (lt_Dofs tl) (0 + i) (3 * 1 + 3 * n1 + j) |}).
  { apply block_ok; lia. }
  rewrite B1. cbn [bind]. unfold at_. rewrite Er, Et. cbn [bind].
  replace (1 * 4 + n1 * 6 + m2 * fr v0 v1 v2) with (4 + 6 * n1 + m2 * fr v0 v1 v2) by lia.
  assert (NL : 4 + 6 * n1 + m2 * fr v0 v1 v2 + m2 <= N). { pose proof (Nat.mul_le_mono_l (fr v0 v1 v2) 3 m2 ltac:(lia)) as Q. unfold TN. lia. }
  assert (B2 : mat_block (te_DofPositions data) 0 (4 + 6 * n1 + m2 * fr v0 v1 v2) 3 m2 = Ok {| m_rows := 3; m_cols := m2; m_at := fun i j => m_at (te_DofPositions data) (0 + i) (4 + 6 * n1 + m2 * fr v0 v1 v2 + j) |}).
  { apply block_ok; lia. }
  rewrite B2. cbn [bind].
  match goal with |- for_loop m2 ?h l = _ => rewrite (for_loop_wr h (fun k => [(4 + 6 * n1 + m2 * fr v0 v1 v2 + sh v0 v1 v2 k, 4 + 6 * n1 + f * m2 + k)]) N m2 l Hl) end.
  - rewrite flat_map_single_map. reflexivity.
  - intros k l' Hk Hl'. unfold mcol. cbn [rotate m_cols m_at]. destruct (Nat.ltb_spec k m2); [|lia]. cbn [bind].
    destruct (sh_ok v0 v1 v2 k H0 H1 H2 N1 N2 N3 Hk) as (S1 & S2). destruct (ij_ok o Ho k Hk) as (_ & I1 & I2 & I3).
    pose proof (ref_face_dof _ _ _ HR S1 S2) as TLs.
    assert (PE : same3 (fun i => rsum 3 (fun k0 => rot i k0 * m_at (lt_Dofs tl) (0 + k0) (3 * 1 + 3 * n1 + k)) + trans i)%R
                       (F (fun c => m_at (te_DofPositions data) c (4 + 6 * n1 + m2 * fr v0 v1 v2 + sh v0 v1 v2 k)))).
    { intros c Hc. rewrite (F_tp _ v0 v1 v2 _ _ c Hc H0 H1 H2 N1 N2 N3 (Nat.lt_le_incl _ _ I3) TLs).
      destruct (face_point f v0 v1 v2 e0 e1 e2 dir m rot trans tl k c Hf Hc Hk UI FO Ld GV Ctl) as (_ & _ & <-). reflexivity. }
    destruct SA as (SA1 & SA2).
    unfold find_point. rewrite (filter_single _ _ (sh v0 v1 v2 k)).
    + rewrite set_idx_wr by (rewrite Hl'; revert NL; generalize (m2 * fr v0 v1 v2); intros; lia). do 4 f_equal.
    + cbn [mt_F m_cols]. auto.
    + apply SA1. intros c Hc. rewrite (PE c Hc). cbn [mt_F m_at]. unfold affine. f_equal. 
    + cbn [mt_F m_cols m_at]. intros s' Hs' Ns. apply (SA2 (4 + 6 * n1 + m2 * fr v0 v1 v2 + s') (4 + 6 * n1 + m2 * fr v0 v1 v2 + sh v0 v1 v2 k)); [rewrite D2; revert NL; generalize (m2 * fr v0 v1 v2); intros; lia|rewrite D2; revert NL; generalize (m2 * fr v0 v1 v2); intros; lia|generalize (m2 * fr v0 v1 v2); intros; lia| |exact PE].
      intros c Hc. unfold affine. f_equal.
Qed.

Lemma order_writes es fs bl : tl_edges g = Ok es -> tl_faces g es = Ok fs -> tl_boundary data g = Ok bl -> tl_order data g es fs bl = Ok (wr Wall (repeat 0 N)).
Proof using Ho TD G UI SA.
  intros Ees Efs Ebl. pose proof TD as (_ & D2 & D3 & D4 & D5 & D6 & _). unfold tl_order. rewrite D2, D3, D4, D5, D6.
  assert (NL : 4 + 6 * n1 + 4 * m2 + m3 = N) by (unfold TN; lia).
  rewrite (for_loop_wr _ (fun v => up v v 1) N); [|apply repeat_length|].
  - cbn [bind]. destruct (edges_ok g V G) as (es' & Ees' & _ & HE). rewrite Ees in Ees'. injection Ees' as <-.
    rewrite (for_loop_wr _ We N); [|rewrite wr_length; apply repeat_length|intros e l He Hl; now apply order_edge]. cbn [bind].
    rewrite (for_loop_wr _ Wf N); [|rewrite !wr_length; apply repeat_length|intros f l Hf Hl; now apply (order_face es)]. cbn [bind].
    replace (4 * 1 + 6 * n1 + 4 * m2) with (4 + 6 * n1 + 4 * m2) by lia. replace (1 * 4 + n1 * 6 + m2 * 4) with (4 + 6 * n1 + 4 * m2) by lia.
    rewrite asc_wr by (rewrite !wr_length, repeat_length; lia). cbn [bind fst]. unfold Wall. rewrite !wr_app. reflexivity.
  - intros v l Hv Hl. replace (v * 1) with v by lia. replace (S v * 1) with (v + 1) by lia. replace (1 * v) with v by lia. rewrite asc_wr by lia. reflexivity.
Qed.
End Local.
