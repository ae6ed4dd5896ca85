(** The tetrahedra of a mesh: the order of the dofs. *)
From Coq Require Import List Arith Bool Lia ZArith Reals Lra Permutation.
From Verif Require Import Base RSum MatrixModel MonomialsModel MonomialsSpec LagrangeModel LagrangeSpec LagrangeProofs TriangleModel TriangleSpec TriangleProofs TriangleProofs3 TriangleProofs4 VemQuadModel VemQuadProofs TetModel TetSpec TetProofs TetProofs2 TetProofs3 TetProofs5 TetLocalModel TetLocalSpec TetLocalProofs TetLocalProofs2 TetLocalProofs3.
Import ListNotations.
Local Open Scope nat_scope.

Lemma up_In k a n i v : In (i, v) (up k a n) <-> exists t, t < n /\ i = k + t /\ v = a + t.
Proof.
  unfold up. rewrite in_map_iff. split.
  - intros (t & E & H). injection E as <- <-. apply in_seq in H. exists t. split; [lia|auto].
  - intros (t & H & -> & ->). exists t. split; auto. apply in_seq. lia.
Qed.
Lemma down_In k a n i v : In (i, v) (down k a n) <-> exists t, t < n /\ i = k + t /\ v = a + (n - 1 - t).
Proof.
  unfold down. rewrite in_map_iff. split.
  - intros (t & E & H). injection E as <- <-. apply in_seq in H. exists t. split; [lia|auto].
  - intros (t & H & -> & ->). exists t. split; auto. apply in_seq. lia.
Qed.
Lemma up_length k a n : length (up k a n) = n. Proof. unfold up. now rewrite map_length, seq_length. Qed.
Lemma down_length k a n : length (down k a n) = n. Proof. unfold down. now rewrite map_length, seq_length. Qed.
Lemma divide i n : n <> 0 -> i = i / n * n + i mod n /\ i mod n < n.
Proof. intros H. pose proof (Nat.div_mod i n H). pose proof (Nat.mod_upper_bound i n H). split; auto. rewrite Nat.mul_comm. auto. Qed.
Lemma block_index i n m : i < m * n -> exists r d, r < m /\ d < n /\ i = r * n + d.
Proof.
  intros H. destruct (Nat.eq_dec n 0) as [->|Hn]; [rewrite Nat.mul_0_r in H; lia|]. exists (i / n), (i mod n). destruct (divide i n Hn) as (E & L). split; [|split; auto].
  apply Nat.div_lt_upper_bound; auto. now rewrite Nat.mul_comm.
Qed.

Section Local.
Variable o : nat.
Hypothesis Ho : 1 <= o.
Variable g : Tet_Geometry.
Variable V : nat -> point.
Hypothesis G : tetrahedron g V.
Notation n1 := (o - 1).
Notation m2 := (n2 o).
Notation m3 := (n3 o).
Notation N := (TN o).
Notation Wall := (Wall o g).
Notation We := (We o g).
Notation Wf := (Wf o g).

Lemma We_length e : length (We e) = n1.
Proof using Ho. unfold TetLocalProofs3.We. destruct (nth e (tg_Edges g) (0, 0)) as (a, b). destruct (Bool.eqb _ _); [apply up_length|apply down_length]. Qed.
Lemma Wf_length f : length (Wf f) = m2.
Proof using Ho. unfold TetLocalProofs3.Wf. now rewrite map_length, seq_length. Qed.
Lemma Wall_length : length Wall = N.
Proof using Ho.
  unfold TetLocalProofs3.Wall. rewrite !app_length. rewrite (flat_length _ 1) by (intros; apply up_length). rewrite (flat_length _ n1) by apply We_length. rewrite (flat_length _ m2) by apply Wf_length. rewrite up_length. unfold TN. lia.
Qed.
Lemma in_block {A} (f : nat -> list A) m e x : e < m -> In x (f e) -> In x (flat_map f (seq 0 m)).
Proof using Ho. intros H I. apply in_flat_map. exists e. split; auto. apply in_seq. lia. Qed.
Lemma face_fv f v0 v1 v2 e0 e1 e2 : face_of g f v0 v1 v2 e0 e1 e2 -> fv g f 0 = v0 /\ fv g f 1 = v1 /\ fv g f 2 = v2.
Proof using Ho. intros (FE & _). unfold fv. rewrite (nth_error_nth _ _ _ FE). auto. Qed.

(** what is written *)
Lemma in_vertex v : v < 4 -> In (v, v) Wall.
Proof using Ho. intros H. unfold TetLocalProofs3.Wall. apply in_or_app. left. apply (in_block _ _ v); auto. apply up_In. exists 0. lia. Qed.
Lemma in_inner k : k < m3 -> In (4 + 6 * n1 + 4 * m2 + k, 4 + 6 * n1 + 4 * m2 + k) Wall.
Proof using Ho. intros H. unfold TetLocalProofs3.Wall. do 3 (apply in_or_app; right). apply up_In. exists k. auto. Qed.
Lemma in_edge e k : e < 6 -> k < n1 -> exists d, In (d, 4 + e * n1 + k) Wall /\ nth_error (TL o) d = Some (tp o (edge_start g e) (edge_end g e) (edge_start g e) 0 (S k)).
Proof using Ho G.
  intros He Hk. destruct G as (_ & _ & GE & _). destruct (GE e He) as (a & b & E & Ha & Hb & Nab). destruct (edge_table a b Ha Hb Nab) as (_ & Hr & _ & HD).
  assert (X : forall d, In (d, 4 + e * n1 + k) (We e) -> In (d, 4 + e * n1 + k) Wall).
  { intros d I. unfold TetLocalProofs3.Wall. apply in_or_app; right. apply in_or_app; left. now apply (in_block _ _ e). }
  unfold edge_start, edge_end. rewrite (nth_error_nth _ _ _ E). unfold TetLocalProofs3.We in X. rewrite (nth_error_nth _ _ _ E) in X.
  destruct (ref_edge_ok _ Hr) as (R1 & R2 & R3 & _).
  assert (Y : forall d, d < n1 -> nth_error (TL o) (4 + n1 * er a b + d) = Some (tp o (rA (er a b)) (rZ (er a b)) (rA (er a b)) 0 (S d))).
  { intros d Hd. rewrite (Nat.mul_comm n1 (er a b)). now apply TL_edge. }
  assert (Y' : nth_error (TL o) (4 + n1 * er a b + (n1 - 1 - k)) = Some (tp o (rZ (er a b)) (rA (er a b)) (rZ (er a b)) 0 (S k))).
  { rewrite Y by lia. rewrite (tp_swap o Ho) by (auto; lia). do 2 f_equal. lia. }
  destruct (ed a b), (nth e (tg_EdgesDirection g) true); cbn [Bool.eqb] in X; destruct HD as (EA & EZ); rewrite EA, EZ in *.
  - exists (4 + n1 * er a b + k). split; [|auto]. apply X. apply up_In. exists k. auto.
  - exists (4 + n1 * er a b + (n1 - 1 - k)). split; [|auto]. apply X. apply down_In. exists (n1 - 1 - k). split; [lia|]. split; auto. lia.
  - exists (4 + n1 * er a b + (n1 - 1 - k)). split; [|auto]. apply X. apply down_In. exists (n1 - 1 - k). split; [lia|]. split; auto. lia.
  - exists (4 + n1 * er a b + k). split; [|auto]. apply X. apply up_In. exists k. auto.
Qed.
Lemma in_face f v0 v1 v2 e0 e1 e2 k : f < 4 -> k < m2 -> face_of g f v0 v1 v2 e0 e1 e2 ->
  exists d, In (d, 4 + 6 * n1 + f * m2 + k) Wall /\ nth_error (TL o) d = Some (tp o v0 v1 v2 (fst (ij o k)) (snd (ij o k))).
Proof using Ho.
  intros Hf Hk FO. destruct (face_fv _ _ _ _ _ _ _ FO) as (E0 & E1 & E2). pose proof FO as (_ & (H0 & H1 & H2 & N1 & N2 & N3) & _).
  destruct (face_table v0 v1 v2 H0 H1 H2 N1 N2 N3) as (_ & _ & HR & _). destruct (sh_ok o Ho v0 v1 v2 k H0 H1 H2 N1 N2 N3 Hk) as (S1 & S2).
  exists (4 + 6 * n1 + m2 * fr v0 v1 v2 + sh o v0 v1 v2 k). split; [|now apply ref_face_dof].
  unfold TetLocalProofs3.Wall. do 2 (apply in_or_app; right). apply in_or_app; left. apply (in_block _ _ f); auto. unfold TetLocalProofs3.Wf. rewrite E0, E1, E2. apply in_map_iff. exists k. split; auto. apply in_seq. lia.
Qed.

(** every position is written *)
Lemma Wall_onto i : i < N -> In i (map fst Wall).
Proof using Ho G.
  intros Hi. assert (X : forall v, In (i, v) Wall -> In i (map fst Wall)) by (intros v H; apply (in_map fst) in H; auto).
  destruct (lt_dec i 4) as [L|L]; [apply (X i); now apply in_vertex|].
  destruct (lt_dec i (4 + 6 * n1)) as [L1|L1].
  - destruct (block_index (i - 4) n1 6) as (r & d & Hr & Hd & E); [lia|]. destruct (ref_edge_ok r Hr) as (R1 & R2 & R3 & R4).
    pose proof G as (_ & _ & GE & GA & _). destruct (GA (rA r) (rZ r) R1 R2 R3) as (e & He & J).
    destruct (GE e He) as (a & b & EE & Ha & Hb & Nab).
    assert (ER : er a b = r). { destruct J as [J|J]; rewrite EE in J; injection J as -> ->; auto. destruct (edge_table (rA r) (rZ r) R1 R2 R3) as (_ & _ & <- & _) in R4. auto. }
    assert (Y : exists v, In (i, v) (We e)).
    { unfold TetLocalProofs3.We. rewrite (nth_error_nth _ _ _ EE), ER. rewrite (Nat.mul_comm n1 r). destruct (Bool.eqb _ _).
      - eexists. apply up_In. exists d. split; auto. split; [revert E; generalize (r * n1); intros; lia|reflexivity].
      - eexists. apply down_In. exists d. split; auto. split; [revert E; generalize (r * n1); intros; lia|reflexivity]. }
    destruct Y as (v & Y). apply (X v). unfold TetLocalProofs3.Wall. apply in_or_app; right. apply in_or_app; left. now apply (in_block _ _ e).
  - destruct (lt_dec i (4 + 6 * n1 + 4 * m2)) as [L2|L2].
    + destruct (block_index (i - (4 + 6 * n1)) m2 4) as (r & s & Hr & Hs & E); [lia|].
      pose proof G as (_ & _ & _ & _ & _ & _ & GW & _). destruct (GW (3 - r) ltac:(lia)) as (f & v0 & v1 & v2 & e0 & e1 & e2 & Hf & FO & M0 & M1 & M2).
      destruct (face_fv _ _ _ _ _ _ _ FO) as (E0 & E1 & E2). pose proof FO as (_ & (H0 & H1 & H2 & N1 & N2 & N3) & _).
      destruct (face_table v0 v1 v2 H0 H1 H2 N1 N2 N3) as (_ & _ & _ & HR). assert (FR : fr v0 v1 v2 = r) by (rewrite (HR (3 - r)) by (auto; lia); lia).
      destruct (nth_error_Some_ex (fchunk o r) (i:=s)) as (p & Ep); [now rewrite fchunk_length|].
      assert (Ip : In p (fchunk o (fr v0 v1 v2))) by (rewrite FR; eapply nth_error_In; eauto).
      destruct (face_out o Ho v0 v1 v2 p H0 H1 H2 N1 N2 N3 Ip) as (a & b & A1 & A2 & A3 & ->). destruct (ij_ex o Ho a b A1 A2 A3) as (k & Hk & Ek).
      assert (SH : sh o v0 v1 v2 k = s).
      { destruct (sh_ok o Ho v0 v1 v2 k H0 H1 H2 N1 N2 N3 Hk) as (S1 & S2). rewrite Ek, FR in S2. cbn [fst snd] in S2. pose proof (fchunk_NoDup o Ho r Hr) as ND. rewrite NoDup_nth_error in ND. apply ND; [rewrite fchunk_length; auto|congruence]. }
      apply (X (4 + 6 * n1 + f * m2 + k)). unfold TetLocalProofs3.Wall. do 2 (apply in_or_app; right). apply in_or_app; left. apply (in_block _ _ f); auto.
      unfold TetLocalProofs3.Wf. rewrite E0, E1, E2. apply in_map_iff. exists k. split; [|apply in_seq; lia]. rewrite SH, FR. f_equal. rewrite (Nat.mul_comm m2 r). revert E. generalize (r * m2). intros; lia.
    + apply (X i). replace i with (4 + 6 * n1 + 4 * m2 + (i - (4 + 6 * n1 + 4 * m2))) by lia. apply in_inner. unfold TN in Hi. lia.
Qed.
Lemma Wall_NoDup : NoDup (map fst Wall).
Proof using Ho G.
  apply (NoDup_incl_NoDup (l:=seq 0 N)); [apply seq_NoDup|rewrite map_length, seq_length, Wall_length; lia|]. intros i I. apply in_seq in I. apply Wall_onto. lia.
Qed.
Definition order : list nat := wr Wall (repeat 0 N).
Lemma order_length : length order = N.
Proof using Ho. unfold order. now rewrite wr_length, repeat_length. Qed.
Lemma Wall_lt d v : In (d, v) Wall -> d < N.
Proof using Ho G.
  intros I. assert (IN : In d (seq 0 N)); [|apply in_seq in IN; lia].
  apply (NoDup_length_incl (l:=seq 0 N) (l':=map fst Wall)).
  - apply seq_NoDup.
  - rewrite map_length, seq_length, Wall_length. lia.
  - intros i J. apply in_seq in J. apply Wall_onto. lia.
  - apply (in_map fst) in I. auto.
Qed.
Lemma order_get d v : In (d, v) Wall -> nth_error order d = Some v.
Proof using Ho G. intros I. unfold order. apply (wr_get _ _ (d, v)); [apply Wall_NoDup|auto|]. cbn [fst]. rewrite repeat_length. eapply Wall_lt; eauto. Qed.

Lemma order_vertex v u : v < 4 -> u < 4 -> v <> u -> exists d, nth_error order d = Some v /\ nth_error (TL o) d = Some (tp o v u v 0 0).
Proof using Ho G. intros H U E. exists v. split; [apply order_get, in_vertex; auto|now apply TL_vertex]. Qed.
Lemma order_edges e k : e < 6 -> k < n1 -> exists d, nth_error order d = Some (4 + e * n1 + k) /\ nth_error (TL o) d = Some (tp o (edge_start g e) (edge_end g e) (edge_start g e) 0 (S k)).
Proof using Ho G. intros He Hk. destruct (in_edge e k He Hk) as (d & I & E). exists d. split; auto. now apply order_get. Qed.
Lemma order_faces f v0 v1 v2 e0 e1 e2 k : f < 4 -> k < m2 -> face_of g f v0 v1 v2 e0 e1 e2 ->
  exists d, nth_error order d = Some (4 + 6 * n1 + f * m2 + k) /\ nth_error (TL o) d = Some (tp o v0 v1 v2 (fst (ij o k)) (snd (ij o k))).
Proof using Ho G. intros Hf Hk FO. destruct (in_face _ _ _ _ _ _ _ k Hf Hk FO) as (d & I & E). exists d. split; auto. now apply order_get. Qed.
Lemma order_inner d : 4 + 6 * n1 + 4 * m2 <= d -> d < N -> nth_error order d = Some d.
Proof using Ho G. intros H1 H2. apply order_get. replace d with (4 + 6 * n1 + 4 * m2 + (d - (4 + 6 * n1 + 4 * m2))) by lia. apply in_inner. unfold TN in H2. lia. Qed.

Lemma order_onto p : p < N -> exists d, nth_error order d = Some p.
Proof using Ho G.
  intros Hp. destruct (lt_dec p 4) as [L|L]; [exists p; apply order_get, in_vertex; auto|].
  destruct (lt_dec p (4 + 6 * n1)) as [L1|L1].
  - destruct (block_index (p - 4) n1 6) as (e & k & He & Hk & E); [lia|]. destruct (order_edges e k He Hk) as (d & Hd & _). exists d. rewrite Hd. f_equal. revert E. generalize (e * n1). intros; lia.
  - destruct (lt_dec p (4 + 6 * n1 + 4 * m2)) as [L2|L2].
    + destruct (block_index (p - (4 + 6 * n1)) m2 4) as (f & k & Hf & Hk & E); [lia|]. pose proof G as (_ & _ & _ & _ & _ & GF & _). destruct (GF f Hf) as (v0 & v1 & v2 & e0 & e1 & e2 & FO).
      destruct (order_faces _ _ _ _ _ _ _ k Hf Hk FO) as (d & Hd & _). exists d. rewrite Hd. f_equal. revert E. generalize (f * m2). intros; lia.
    + exists p. apply order_inner; lia.
Qed.
Lemma order_incl : incl (seq 0 N) order.
Proof using Ho G. intros p I. apply in_seq in I. destruct (order_onto p ltac:(lia)) as (d & E). eapply nth_error_In; eauto. Qed.
Lemma order_NoDup : NoDup order.
Proof using Ho G. apply (NoDup_incl_NoDup (l:=seq 0 N)); [apply seq_NoDup|rewrite order_length, seq_length; lia|apply order_incl]. Qed.
Lemma order_perm : Permutation order (seq 0 N).
Proof using Ho G. symmetry. apply NoDup_Permutation_bis; [apply seq_NoDup|rewrite order_length, seq_length; lia|apply order_incl]. Qed.
Lemma order_lt d p : nth_error order d = Some p -> d < N /\ p < N.
Proof using Ho G. intros E. split; [rewrite <- order_length; eapply nth_error_lt; eauto|]. apply nth_error_In in E. apply (Permutation_in _ order_perm) in E. apply in_seq in E. lia. Qed.
Lemma order_inj d d' p : nth_error order d = Some p -> nth_error order d' = Some p -> d = d'.
Proof using Ho G. intros E E'. pose proof order_NoDup as ND. rewrite NoDup_nth_error in ND. apply ND; [rewrite order_length; now apply order_lt in E|congruence]. Qed.
End Local.

(** scattering columns *)
Lemma map_values_ok junk N order ref : length order = N -> NoDup order -> (forall d p, nth_error order d = Some p -> p < N) -> m_cols ref = N ->
  exists A, tl_MapValues junk N order ref = Ok A /\ m_rows A = m_rows ref /\ m_cols A = N /\ forall d p i, nth_error order d = Some p -> m_at A i p = m_at ref i d.
Proof.
  intros L ND LT C. unfold tl_MapValues.
  match goal with |- context [for_loop N ?f ?s] => destruct (flt (fun k A => m_rows A = m_rows ref /\ m_cols A = N /\ forall d p i, d < k -> nth_error order d = Some p -> m_at A i p = m_at ref i d) f N s) as (A & E & A1 & A2 & A3) end.
  - split; [reflexivity|]. split; [reflexivity|]. intros; lia.
  - intros k A Hk (A1 & A2 & A3). destruct (nth_error_Some_ex order (i:=k)) as (p & Ep); [lia|]. unfold at_. rewrite Ep. cbn [bind]. unfold mcol. destruct (Nat.ltb_spec k (m_cols ref)); [|lia]. cbn [bind].
    unfold mat_set_col. rewrite A2. destruct (Nat.ltb_spec p N) as [|X]; [|apply LT in Ep; lia]. eexists. split; [reflexivity|]. cbn [m_rows m_cols m_at]. split; auto. split; auto.
    intros d q i Hd Eq. destruct (Nat.eqb_spec q p) as [->|Nq].
    + assert (d = k); [|congruence]. rewrite NoDup_nth_error in ND. apply ND; [eapply nth_error_lt; eauto|congruence].
    + apply A3; auto. assert (d <> k) by congruence. lia.
  - exists A. split; auto. split; auto. split; auto. intros d p i Ed. apply A3; auto. rewrite <- L. eapply nth_error_lt; eauto.
Qed.
