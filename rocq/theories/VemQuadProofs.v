(** Proofs about the polygon quadratures. *)
From Coq Require Import List Arith Bool Lia Reals Lra.
From Verif Require Import Base RSum MatrixModel LagrangeModel LagrangeProofs GBasisProofs VemQuadModel.
Import ListNotations.
Local Open Scope R_scope.

Lemma rsum_blocks m n f : rsum (m * n) f = rsum n (fun i => rsum m (fun q => f (m * i + q)%nat)).
Proof.
  induction n; [rewrite Nat.mul_0_r; reflexivity|].
  replace (m * S n)%nat with (m * n + m)%nat by lia. rewrite rsum_add, IHn. reflexivity.
Qed.

Lemma leb_true a b : (a <= b)%nat -> (a <=? b)%nat = true. Proof. intros; now apply Nat.leb_le. Qed.
Lemma leb_false a b : (b < a)%nat -> (a <=? b)%nat = false. Proof. intros; now apply Nat.leb_gt. Qed.
Lemma ltb_true a b : (a < b)%nat -> (a <? b)%nat = true. Proof. intros; now apply Nat.ltb_lt. Qed.
Lemma ltb_false a b : (b <= a)%nat -> (a <? b)%nat = false. Proof. intros; now apply Nat.ltb_ge. Qed.

(** loop invariant followed by its use *)
Lemma fltp {S} (I : nat -> S -> Prop) (Q : S -> Prop) (f : nat -> S -> outcome S) (n : nat) (s : S) :
  I 0%nat s -> (forall i s, (i < n)%nat -> I i s -> exists s', f i s = Ok s' /\ I (Datatypes.S i) s') -> (forall s, I n s -> Q s) ->
  exists s', for_loop n f s = Ok s' /\ Q s'.
Proof. intros H0 Hs HQ. destruct (flt I f n s H0 Hs) as (s' & E & H). eauto. Qed.

(** ** Blocks *)
Lemma set_block_ok A r c nr nc B : (r + nr <= m_rows A)%nat -> (c + nc <= m_cols A)%nat -> m_rows B = nr -> m_cols B = nc ->
  exists A', mat_set_block A r c nr nc B = Ok A' /\ m_rows A' = m_rows A /\ m_cols A' = m_cols A /\
    (forall i j, (r <= i < r + nr)%nat -> (c <= j < c + nc)%nat -> m_at A' i j = m_at B (i - r) (j - c)) /\
    (forall i j, ~ ((r <= i < r + nr)%nat /\ (c <= j < c + nc)%nat) -> m_at A' i j = m_at A i j).
Proof.
  intros Hr Hc Br Bc. unfold mat_set_block.
  rewrite (leb_true _ _ Hr), (leb_true _ _ Hc), Br, Bc, !Nat.eqb_refl. cbn [andb].
  eexists. split; [reflexivity|]. cbn [m_rows m_cols m_at]. split; auto. split; auto. split.
  - intros i j Hi Hj. rewrite (leb_true r i), (ltb_true i), (leb_true c j), (ltb_true j) by lia. reflexivity.
  - intros i j N. destruct (Nat.leb_spec r i), (Nat.ltb_spec i (r + nr)), (Nat.leb_spec c j), (Nat.ltb_spec j (c + nc)); cbn [andb]; auto.
    exfalso. apply N. lia.
Qed.

Lemma block_ok A r c nr nc : (r + nr <= m_rows A)%nat -> (c + nc <= m_cols A)%nat ->
  mat_block A r c nr nc = Ok {| m_rows := nr; m_cols := nc; m_at := fun i j => m_at A (r + i)%nat (c + j)%nat |}.
Proof. intros Hr Hc. unfold mat_block. now rewrite (leb_true _ _ Hr), (leb_true _ _ Hc). Qed.

Lemma set_segment_ok v a n w : (a + n <= v_size v)%nat -> v_size w = n ->
  exists v', vec_set_segment v a n w = Ok v' /\ v_size v' = v_size v /\
    (forall i, (i < n)%nat -> v_at v' (a + i) = v_at w i) /\ (forall i, ~ (a <= i < a + n)%nat -> v_at v' i = v_at v i).
Proof.
  intros Ha Hw. unfold vec_set_segment. rewrite (leb_true _ _ Ha), Hw, Nat.eqb_refl. cbn [andb].
  eexists. split; [reflexivity|]. cbn [v_size v_at]. split; auto. split.
  - intros i Hi. rewrite (leb_true a), (ltb_true (a + i)) by lia. cbn [andb]. f_equal. lia.
  - intros i N. destruct (Nat.leb_spec a i), (Nat.ltb_spec i (a + n)); cbn [andb]; auto. exfalso. apply N. lia.
Qed.

Lemma vec_inc_ok v i x : (i < v_size v)%nat -> exists v', vec_inc v i x = Ok v' /\ v_size v' = v_size v /\
  (forall j, v_at v' j = v_at v j + (if (i =? j)%nat then x else 0)).
Proof.
  intros Hi. unfold vec_inc, vec_get, vec_set. rewrite (ltb_true _ _ Hi). cbn [bind]. eexists. split; [reflexivity|].
  cbn [v_size v_at]. split; auto. intros j. rewrite (Nat.eqb_sym i j). destruct (Nat.eqb_spec j i); subst; lra.
Qed.

Lemma loop2 {A} (f : nat -> A -> outcome A) a b :
  for_loop 2 (fun d l => v <- idx_ l d ;; v <- f d v ;; set_idx l d v) [a; b] = (a' <- f 0%nat a ;; b' <- f 1%nat b ;; Ok [a'; b']).
Proof. unfold for_loop. cbn. destruct (f 0%nat a); cbn; auto. destruct (f 1%nat b); cbn; auto. Qed.

(** ** Interior of the polygon *)
Definition tri_det (T : Mat) : R :=
  (m_at T 0 1 - m_at T 0 0) * (m_at T 1 2 - m_at T 1 0) - (m_at T 0 2 - m_at T 0 0) * (m_at T 1 1 - m_at T 1 0).

Definition tri_point (T : Mat) (P : Mat) (d q : nat) : R := rsum 3 (fun k => mapTriangle_B T d k * m_at P k q) + m_at T d 0.

Lemma internal_ok data tris : let nq := m_cols (q_Points data) in
  m_rows (q_Points data) = 3%nat -> v_size (q_Weights data) = nq -> Forall (fun T => m_rows T = 3%nat /\ m_cols T = 3%nat) tris ->
  exists r, PolygonInternalQuadrature data tris = Ok r /\ m_rows (q_Points r) = 3%nat /\
    m_cols (q_Points r) = (nq * length tris)%nat /\ v_size (q_Weights r) = (nq * length tris)%nat /\
    forall t q T, nth_error tris t = Some T -> (q < nq)%nat ->
      (forall d, (d < 3)%nat -> m_at (q_Points r) d (nq * t + q) = tri_point T (q_Points data) d q) /\
      v_at (q_Weights r) (nq * t + q) = v_at (q_Weights data) q * Rabs (tri_det T).
Proof.
  intros nq HP HW HT. unfold PolygonInternalQuadrature. fold nq.
  apply (fltp (fun k r => m_rows (q_Points r) = 3%nat /\
    m_cols (q_Points r) = (nq * length tris)%nat /\ v_size (q_Weights r) = (nq * length tris)%nat /\
    forall t q T, (t < k)%nat -> nth_error tris t = Some T -> (q < nq)%nat ->
      (forall d, (d < 3)%nat -> m_at (q_Points r) d (nq * t + q) = tri_point T (q_Points data) d q) /\
      v_at (q_Weights r) (nq * t + q) = v_at (q_Weights data) q * Rabs (tri_det T))).
  - cbn. repeat split; try lia.
  - intros k r Hk (R1 & R2 & R3 & R4). destruct (nth_error_Some_ex tris (i:=k) Hk) as (T & ET).
    unfold idx_. rewrite ET. cbn [bind].
    rewrite Forall_forall in HT. destruct (HT T) as (T1 & T2); [eapply nth_error_In; eauto|].
    unfold mapTriangle_F. rewrite T1, T2, HP. cbn [Nat.eqb andb bind].
    destruct (set_block_ok (q_Points r) 0 (nq * k) 3 nq {| m_rows := 3; m_cols := m_cols (q_Points data); m_at := fun i q => rsum 3 (fun k0 => mapTriangle_B T i k0 * m_at (q_Points data) k0 q) + m_at T i 0 |})
      as (P & EP & P1 & P2 & P3 & P4); cbn [m_rows m_cols]; try lia; try nia; try reflexivity.
    rewrite EP. cbn [bind]. unfold vcwise. cbn [v_size v_at mapTriangle_DetJ]. fold nq. rewrite HW, Nat.eqb_refl. cbn [bind].
    match goal with |- context [vec_set_segment (q_Weights r) (nq * k) nq ?w] =>
      destruct (set_segment_ok (q_Weights r) (nq * k) nq w) as (W & EW & W1 & W2 & W3); [nia|reflexivity|] end.
    rewrite EW. cbn [bind]. eexists. split; [reflexivity|]. cbn [q_Points q_Weights].
    split; [congruence|]. split; [congruence|]. split; [congruence|].
    intros t q T' Ht E' Hq. destruct (Nat.eq_dec t k) as [->|Hne].
    + rewrite ET in E'. injection E' as <-. split.
      * intros d Hd. rewrite P3 by (simpl; lia). cbn [m_at]. unfold tri_point. rewrite Nat.sub_0_r. replace (nq * k + q - nq * k)%nat with q by lia. reflexivity.
      * rewrite W2 by auto. cbn [v_at]. reflexivity.
    + destruct (R4 t q T') as (A & B); auto; [lia|]. split.
      * intros d Hd. rewrite P4, A; auto. nia.
      * rewrite W3, B; auto. nia.
  - intros r (R1 & R2 & R3 & R4). repeat split; auto.
    + intros d Hd. apply (R4 t q T); auto. eapply nth_error_lt; eauto.
    + apply (R4 t q T); auto. eapply nth_error_lt; eauto.
Qed.

(** ** Edges *)

(** what edge [i] gives to vertex [j] *)
Definition share (ext : R * R) (nv i j : nat) : R :=
  (if (i =? j)%nat then fst ext else 0) + (if ((i + 1) mod nv =? j)%nat then snd ext else 0).

Definition edge_start (vertices : Mat) (dirs : list bool) (i : nat) : nat := if nth i dirs true then i else ((i + 1) mod m_cols vertices)%nat.
Definition edge_sign (dirs : list bool) (i : nat) : R := if nth i dirs true then 1 else -1.
Definition edge_point (ref_points vertices : Mat) (dirs : list bool) (tangents : Mat) (i q d : nat) : R :=
  m_at vertices d (edge_start vertices dirs i) + edge_sign dirs i * m_at ref_points 0 q * m_at tangents d i.

Section Edges.
Variables (ref_points : Mat) (ref_weights : Vec) (ext : R * R) (vertices : Mat) (lengths : Vec) (dirs : list bool) (tangents normals : Mat) (base : nat).
Let nv := m_cols vertices.
Let m := m_cols ref_points.
Let n := (base + m * nv)%nat.
Hypothesis Hw : v_size ref_weights = m.
Hypothesis Hr : (0 < m)%nat -> (0 < m_rows ref_points)%nat.
Hypothesis Hv : m_rows vertices = 3%nat.
Hypothesis Hl : v_size lengths = nv.
Hypothesis Hd : length dirs = nv.
Hypothesis Ht : m_rows tangents = 3%nat /\ m_cols tangents = nv.
Hypothesis Hn : (2 <= m_rows normals)%nat /\ m_cols normals = nv.

(** a vector whose first [base] entries have received [a] edges and whose other entries are set for [b] edges *)
Definition vinv (a b : nat) (c : nat -> R) (W : Vec) : Prop :=
  v_size W = n /\ (forall j, (j < base)%nat -> v_at W j = rsum a (fun i => share ext nv i j * c i)) /\
  (forall i q, (i < b)%nat -> (q < m)%nat -> v_at W (base + m * i + q) = v_at ref_weights q * c i).

Definition pinv (b : nat) (P : Mat) : Prop :=
  m_rows P = 3%nat /\ m_cols P = n /\ (forall j d, (j < base)%nat -> (d < 3)%nat -> m_at P d j = m_at vertices d j) /\
  (forall i q d, (i < b)%nat -> (q < m)%nat -> (d < 3)%nat -> m_at P d (base + m * i + q) = edge_point ref_points vertices dirs tangents i q d).

Definition len (i : nat) : R := Rabs (v_at lengths i).
Definition rinv (a b : nat) (r : Edges_QuadratureData) : Prop :=
  pinv b (q_Points (eq_Quadrature r)) /\ vinv a b len (q_Weights (eq_Quadrature r)) /\
  exists x y, eq_WeightsTimesNormal r = [x; y] /\ vinv a b (fun i => m_at normals 0 i * len i) x /\ vinv a b (fun i => m_at normals 1 i * len i) y.

Lemma vinv_inc k c W x0 x1 : base = nv -> (k < nv)%nat -> vinv k k c W -> x0 = fst ext * c k -> x1 = snd ext * c k ->
  exists W', (W <- vec_inc W k x0 ;; vec_inc W ((k + 1) mod nv) x1) = Ok W' /\ vinv (S k) k c W'.
Proof.
  clear Hw Hr Hv Hl Hd Ht Hn. intros Hb Hk (W1 & W2 & W3) -> ->.
  assert (Hm : ((k + 1) mod nv < nv)%nat) by (apply Nat.mod_upper_bound; lia).
  destruct (vec_inc_ok W k (fst ext * c k)) as (A & EA & A1 & A2); [unfold n in W1; lia|]. rewrite EA. cbn [bind].
  destruct (vec_inc_ok A ((k + 1) mod nv) (snd ext * c k)) as (B & EB & B1 & B2); [unfold n in W1; lia|]. rewrite EB.
  exists B. split; auto. split; [congruence|]. split.
  - intros j Hj. rewrite B2, A2, W2 by auto. cbn [rsum]. unfold share at 3.
    destruct (k =? j)%nat, ((k + 1) mod nv =? j)%nat; lra.
  - intros i q Hi Hq. rewrite B2, A2, W3 by auto.
    destruct (Nat.eqb_spec k (base + m * i + q)); [lia|]. destruct (Nat.eqb_spec ((k + 1) mod nv) (base + m * i + q)); [lia|]. lra.
Qed.

Lemma vinv_seg a k c W w : (k < nv)%nat -> vinv a k c W -> v_size w = m -> (forall q, (q < m)%nat -> v_at w q = v_at ref_weights q * c k) ->
  exists W', vec_set_segment W (base + m * k) m w = Ok W' /\ vinv a (S k) c W'.
Proof.
  clear Hw Hr Hv Hl Hd Ht Hn. intros Hk (W1 & W2 & W3) Hs Hx.
  destruct (set_segment_ok W (base + m * k) m w) as (A & EA & A1 & A2 & A3); auto; [rewrite W1; unfold n; nia|].
  exists A. split; auto. split; [congruence|]. split.
  - intros j Hj. rewrite A3 by lia. auto.
  - intros i q Hi Hq. destruct (Nat.eq_dec i k) as [->|Hne].
    + rewrite A2, Hx; auto.
    + rewrite A3 by nia. apply W3; auto. lia.
Qed.

Lemma nth_nth_error {A} (l : list A) i a d : nth_error l i = Some a -> nth i l d = a.
Proof. clear Hw Hr Hv Hl Hd Ht Hn. apply nth_error_nth. Qed.

Lemma internal_step a k r : (k < nv)%nat -> rinv a k r ->
  exists r', edge_internal ref_points ref_weights vertices dirs tangents (len k) (fun d => m_at normals d k) k (base + m * k) r = Ok r' /\ rinv a (S k) r'.
Proof.
  clear Hl Hn. intros Hk ((P1 & P2 & P3 & P4) & RW & x & y & EN & RX & RY). unfold edge_internal.
  destruct (nth_error_Some_ex dirs (i:=k)) as (dir & ED); [lia|]. unfold idx_ at 1. rewrite ED. cbn [bind].
  assert (Hmod : ((k + 1) mod nv < nv)%nat) by (apply Nat.mod_upper_bound; lia).
  assert (Es : (if dir then k else ((k + 1) mod m_cols vertices)%nat) = edge_start vertices dirs k).
  { unfold edge_start. rewrite (nth_nth_error _ _ _ true ED). reflexivity. }
  assert (Ed : (if dir then 1 else -1) = edge_sign dirs k).
  { unfold edge_sign. rewrite (nth_nth_error _ _ _ true ED). reflexivity. }
  rewrite Es, Ed. assert (Hs : (edge_start vertices dirs k < m_cols vertices)%nat).
  { unfold edge_start. destruct (nth k dirs true); auto. }
  unfold mat_col at 1. rewrite Hv, Nat.eqb_refl, (ltb_true _ _ Hs). cbn [andb bind].
  unfold mat_col. destruct Ht as (T1 & T2). rewrite T1, T2, Nat.eqb_refl, (ltb_true _ _ Hk). cbn [andb bind]. fold m.
  replace ((0 <? m)%nat && (m_rows ref_points =? 0)%nat) with false.
  2:{ destruct (Nat.ltb_spec 0 m); cbn [andb]; auto. symmetry. apply Nat.eqb_neq. specialize (Hr H). lia. }
  match goal with |- context [mat_set_block ?A 0 ?c 3 m ?B] =>
    destruct (set_block_ok A 0 c 3 m B) as (P' & EP & Q1 & Q2 & Q3 & Q4); [lia|rewrite P2; unfold n; nia|reflexivity|reflexivity|] end.
  rewrite EP. cbn [bind].
  destruct (vinv_seg a k len (q_Weights (eq_Quadrature r)) (vscal (len k) ref_weights) Hk RW) as (W' & EW & RW'); [exact Hw|intros; cbn; lra|].
  rewrite EW. cbn [bind]. rewrite EN, (loop2 (fun d v => vec_set_segment v (base + m * k) m {| v_size := v_size ref_weights; v_at := fun q => v_at ref_weights q * (m_at normals d k * len k) |})).
  destruct (vinv_seg a k (fun i => m_at normals 0 i * len i) x {| v_size := v_size ref_weights; v_at := fun q => v_at ref_weights q * (m_at normals 0 k * len k) |} Hk RX) as (x' & EX & RX'); [exact Hw|intros; cbn; lra|].
  destruct (vinv_seg a k (fun i => m_at normals 1 i * len i) y {| v_size := v_size ref_weights; v_at := fun q => v_at ref_weights q * (m_at normals 1 k * len k) |} Hk RY) as (y' & EY & RY'); [exact Hw|intros; cbn; lra|].
  rewrite EX. cbn [bind]. rewrite EY. cbn [bind]. eexists. split; [reflexivity|]. split; [|split; [exact RW'|exists x', y'; auto]].
  cbn [eq_Quadrature q_Points]. split; [congruence|]. split; [congruence|]. split.
  - intros j d Hj Hd3. rewrite Q4, P3 by (auto; lia). reflexivity.
  - intros i q d Hi Hq Hd3. destruct (Nat.eq_dec i k) as [->|Hne].
    + rewrite Q3 by lia. cbn [m_at]. unfold edge_point. rewrite Nat.sub_0_r. replace (base + m * k + q - (base + m * k))%nat with q by lia. reflexivity.
    + rewrite Q4 by nia. apply P4; auto. lia.
Qed.

Lemma extrema_step k r : base = nv -> (k < nv)%nat -> rinv k k r ->
  exists r', edge_extrema ext nv (len k) (fun d => m_at normals d k) k r = Ok r' /\ rinv (S k) k r'.
Proof.
  clear Hw Hr Hv Hl Hd Ht Hn. intros Hb Hk (RP & RW & x & y & EN & RX & RY). unfold edge_extrema.
  destruct (vinv_inc k len (q_Weights (eq_Quadrature r)) (fst ext * len k) (snd ext * len k) Hb Hk RW) as (W' & EW & RW'); auto.
  destruct (vec_inc (q_Weights (eq_Quadrature r)) k (fst ext * len k)) as [W0| |]; try discriminate EW. cbn [bind] in EW |- *. rewrite EW. cbn [bind].
  rewrite EN.
  destruct (vinv_inc k (fun i => m_at normals 0 i * len i) x (m_at normals 0 k * len k * fst ext) (m_at normals 0 k * len k * snd ext) Hb Hk RX) as (x' & EX & RX'); [ring|ring|].
  destruct (vinv_inc k (fun i => m_at normals 1 i * len i) y (m_at normals 1 k * len k * fst ext) (m_at normals 1 k * len k * snd ext) Hb Hk RY) as (y' & EY & RY'); [ring|ring|].
  assert (EL : for_loop 2 (fun d WN => v <- idx_ WN d ;; v <- vec_inc v k (m_at normals d k * len k * fst ext) ;;
                v <- vec_inc v ((k + 1) mod nv) (m_at normals d k * len k * snd ext) ;; set_idx WN d v) [x; y] = Ok [x'; y']).
  { unfold for_loop. cbn.
    destruct (vec_inc x k (m_at normals 0 k * len k * fst ext)) as [x0| |]; try discriminate EX. cbn [bind] in EX |- *. rewrite EX. cbn.
    destruct (vec_inc y k (m_at normals 1 k * len k * fst ext)) as [y0| |]; try discriminate EY. cbn [bind] in EY |- *. rewrite EY. reflexivity. }
  rewrite EL. cbn [bind]. eexists. split; [reflexivity|]. split; [exact RP|]. split; [exact RW'|]. exists x', y'. auto.
Qed.
End Edges.

Lemma normal_col_ok normals i : (2 <= m_rows normals)%nat -> (i < m_cols normals)%nat -> normal_col normals i = Ok (fun d => m_at normals d i).
Proof. intros A B. unfold normal_col. now rewrite (leb_true _ _ A), (ltb_true _ _ B). Qed.

Lemma copy_vertices_ok vertices P : m_rows vertices = 3%nat -> (m_cols vertices <= m_cols P)%nat ->
  exists P', copy_vertices vertices P = Ok P' /\ m_rows P' = m_rows P /\ m_cols P' = m_cols P /\
    forall j d, (j < m_cols vertices)%nat -> m_at P' d j = m_at vertices d j.
Proof.
  intros Hv Hc. unfold copy_vertices.
  apply (fltp (fun k P' => m_rows P' = m_rows P /\ m_cols P' = m_cols P /\ forall j d, (j < k)%nat -> m_at P' d j = m_at vertices d j)).
  - repeat split; lia.
  - intros k Q Hk (Q1 & Q2 & Q3). unfold mat_col. rewrite Hv, Nat.eqb_refl, (ltb_true _ _ Hk). cbn [andb bind].
    unfold mat_set_col. rewrite (ltb_true k) by lia. eexists. split; [reflexivity|]. cbn [m_rows m_cols m_at]. repeat split; auto.
    intros j d Hj. destruct (Nat.eqb_spec j k); subst; auto. apply Q3. lia.
  - auto.
Qed.

(** sizes of the arguments *)
Definition edge_inputs (ref_points : Mat) (ref_weights : Vec) (vertices : Mat) (lengths : Vec) (dirs : list bool) (tangents normals : Mat) : Prop :=
  v_size ref_weights = m_cols ref_points /\ ((0 < m_cols ref_points)%nat -> (0 < m_rows ref_points)%nat) /\
  m_rows vertices = 3%nat /\ v_size lengths = m_cols vertices /\ length dirs = m_cols vertices /\
  m_rows tangents = 3%nat /\ m_cols tangents = m_cols vertices /\ (2 <= m_rows normals)%nat /\ m_cols normals = m_cols vertices.

Lemma lobatto_ok junk ref_points ref_weights ext vertices lengths dirs tangents normals :
  edge_inputs ref_points ref_weights vertices lengths dirs tangents normals ->
  exists r, PolygonEdgesLobattoQuadrature junk ref_points ref_weights ext vertices lengths dirs tangents normals = Ok r /\
    rinv ref_points ref_weights ext vertices lengths dirs tangents normals (m_cols vertices) (m_cols vertices) (m_cols vertices) r.
Proof.
  intros (Hw & Hr & Hv & Hl & Hd & Ht1 & Ht2 & Hn1 & Hn2). unfold PolygonEdgesLobattoQuadrature.
  set (nv := m_cols vertices) in *. set (m := m_cols ref_points) in *. rewrite Hw. set (n := (nv + m * nv)%nat).
  destruct (copy_vertices_ok vertices (mraw junk 3 n)) as (P & EP & P1 & P2 & P3); auto; [cbn; fold nv; unfold n; lia|].
  rewrite EP. cbn [bind].
  match goal with |- context [for_loop nv ?f ?s0] =>
    destruct (flt (fun k s => rinv ref_points ref_weights ext vertices lengths dirs tangents normals nv k k (fst s) /\ snd s = (nv + m * k)%nat) f nv s0) as ([r o] & E & R & _) end.
  - cbn [fst snd]. split; [|lia]. split.
    { cbn [eq_Quadrature q_Points]. split; [rewrite P1; reflexivity|]. split; [rewrite P2; reflexivity|]. split; [intros; apply P3; auto|intros; lia]. }
    assert (Z : forall c, vinv ref_points ref_weights ext vertices nv 0 0 c (vzero n)).
    { intros c. split; [reflexivity|]. split; [intros; reflexivity|intros; lia]. }
    split; [apply Z|]. exists (vzero n), (vzero n). split; [reflexivity|]. split; apply Z.
  - intros k [r o] Hk (R & O). cbn [fst snd] in R, O. unfold vec_get. rewrite (ltb_true k) by (rewrite Hl; auto). cbn [bind].
    rewrite normal_col_ok by (auto; rewrite Hn2; auto). cbn [bind]. cbv zeta.
    destruct (extrema_step ref_points ref_weights ext vertices lengths dirs tangents normals nv k r) as (r1 & E1 & R1); auto.
    unfold len in E1. fold nv in E1. rewrite E1. cbn [bind].
    destruct (Nat.ltb_spec 0 m) as [Hm|Hm].
    + destruct (internal_step ref_points ref_weights ext vertices lengths dirs tangents normals nv Hw Hr Hv Hd (conj Ht1 Ht2) (S k) k r1) as (r2 & E2 & R2); auto.
      unfold len in E2. fold m in E2. rewrite O, E2. cbn [bind]. eexists. split; [reflexivity|]. cbn [fst snd]. split; auto. lia.
    + eexists. split; [reflexivity|]. cbn [fst snd]. split; [|nia].
      destruct R1 as ((A1 & A2 & A3 & A4) & (B1 & B2 & B3) & x & y & EN & (X1 & X2 & X3) & (Y1 & Y2 & Y3)).
      fold m in A4, B3, X3, Y3.
      split; [split; [exact A1|]; split; [exact A2|]; split; [exact A3|]; intros; unfold m in Hm; lia|].
      split; [split; [exact B1|]; split; [exact B2|]; intros; unfold m in Hm; lia|].
      exists x, y. split; auto.
      split; [split; [exact X1|]; split; [exact X2|]; intros; unfold m in Hm; lia|].
      split; [exact Y1|]; split; [exact Y2|]; intros; unfold m in Hm; lia.
  - rewrite E. cbn [bind]. exists r. auto.
Qed.

Lemma edges_ok junk data vertices lengths dirs tangents normals :
  edge_inputs (q_Points data) (q_Weights data) vertices lengths dirs tangents normals ->
  exists r, PolygonEdgesQuadrature junk data vertices lengths dirs tangents normals = Ok r /\
    rinv (q_Points data) (q_Weights data) (0, 0) vertices lengths dirs tangents normals 0 (m_cols vertices) (m_cols vertices) r.
Proof.
  intros (Hw & Hr & Hv & Hl & Hd & Ht1 & Ht2 & Hn1 & Hn2). unfold PolygonEdgesQuadrature.
  set (nv := m_cols vertices) in *. set (ref_points := q_Points data) in *. set (ref_weights := q_Weights data) in *.
  set (m := m_cols ref_points) in *. rewrite Hw. set (n := (m * nv)%nat).
  match goal with |- context [for_loop nv ?f ?s0] =>
    destruct (flt (fun k s => rinv ref_points ref_weights (0, 0) vertices lengths dirs tangents normals 0 k k (fst s) /\ snd s = (0 + m * k)%nat) f nv s0) as ([r o] & E & R & _) end.
  - cbn [fst snd]. split; [|lia]. split.
    { cbn [eq_Quadrature q_Points]. split; [reflexivity|]. split; [reflexivity|]. split; intros; lia. }
    assert (Z : forall c, vinv ref_points ref_weights (0, 0) vertices 0 0 0 c (vzero n)).
    { intros c. split; [reflexivity|]. split; [intros; reflexivity|intros; lia]. }
    split; [apply Z|]. exists (vzero n), (vzero n). split; [reflexivity|]. split; apply Z.
  - intros k [r o] Hk (R & O). cbn [fst snd] in R, O. unfold vec_get. rewrite (ltb_true k) by (rewrite Hl; auto). cbn [bind].
    rewrite normal_col_ok by (auto; rewrite Hn2; auto). cbn [bind]. cbv zeta.
    destruct (internal_step ref_points ref_weights (0, 0) vertices lengths dirs tangents normals 0 Hw Hr Hv Hd (conj Ht1 Ht2) k k r) as (r2 & E2 & R2); auto.
    unfold len in E2. fold m in E2. rewrite O, E2. cbn [bind]. eexists. split; [reflexivity|]. cbn [fst snd]. split; [|lia].
    destruct R2 as (A & (B1 & _ & B3) & x & y & EN & (X1 & _ & X3) & (Y1 & _ & Y3)).
    split; auto. split; [split; [exact B1|split; [intros; lia|exact B3]]|]. exists x, y. split; auto.
    split; [split; [exact X1|split; [intros; lia|exact X3]]|]. split; [exact Y1|split; [intros; lia|exact Y3]].
  - rewrite E. cbn [bind]. exists r. auto.
Qed.
