From Coq Require Import List Arith Bool Lia ZArith Reals Lra Permutation.
From Verif Require Import Base RSum MatrixModel MonomialsModel MonomialsSpec GBasisModel GBasisProofs LagrangeModel LagrangeSpec LagrangeProofs LagrangeProofs2
  TriangleModel TriangleSpec TriangleProofs2 TriangleProofs3 QuadModel QuadSpec QuadProofs.
Import ListNotations.
Local Open Scope R_scope.

(** coordinate of the one dimensional node [i] *)
Definition nd (o i : nat) : R := INR (perm1 (o + 1) i) / INR o.

Lemma nd_distinct o : (1 <= o)%nat -> distinct (o + 1) (nd o).
Proof.
  intros Ho i j Hi Hj H. unfold nd in H. assert (INR o <> 0) by (apply not_0_INR; lia).
  apply (perm1_inj (o + 1)); auto; try lia. apply INR_eq. apply (Rmult_eq_reg_r (/ INR o)); auto. now apply Rinv_neq_0_compat.
Qed.
Lemma nd_0 o : nd o 0 = 0. Proof. unfold nd. cbn. unfold Rdiv. ring. Qed.
Lemma nd_1 o : (1 <= o)%nat -> nd o 1 = 1.
Proof. intros. unfold nd. cbn [perm1]. replace (o + 1 - 1)%nat with o by lia. field. apply not_0_INR. lia. Qed.
Lemma nd_SS o k : nd o (2 + k) = INR (S k) / INR o. Proof. reflexivity. Qed.

Lemma pne_ext n i f g : (forall j, (j < n)%nat -> f j = g j) -> pne n i f = pne n i g.
Proof. intros H. unfold pne. apply rprod_ext. intros j Hj. destruct (j =? i)%nat; auto. Qed.
Lemma phi1_ext x y n i t : (i < n)%nat -> (forall k, (k < n)%nat -> x k = y k) -> phi1 x n i t = phi1 y n i t.
Proof.
  intros Hi H. unfold phi1. rewrite (pne_ext n i (fun j => t - x j) (fun j => t - y j)), (pne_ext n i (fun j => x i - x j) (fun j => y i - y j)); auto; intros j Hj; rewrite !H; auto.
Qed.
Lemma dphi1_ext x y n i t : (i < n)%nat -> (forall k, (k < n)%nat -> x k = y k) -> dphi1 x n i t = dphi1 y n i t.
Proof.
  intros Hi H. unfold dphi1. rewrite (pne_ext n i (fun j => x i - x j) (fun j => y i - y j)) by (intros j Hj; rewrite !H; auto). apply (f_equal (fun z => z / _)).
  apply rsum_ext. intros j Hj. destruct (j =? i)%nat; auto. apply rprod_ext. intros k Hk. destruct (_ || _); auto. now rewrite H.
Qed.

(** what Create builds *)
Definition QOK (junk : nat -> nat -> R) (o : nat) (data : Quad_Data) : Prop :=
  fq_Order data = o /\ fq_NumBasisFunctions data = ((o + 1) * (o + 1))%nat /\ fq_NumDofs0D data = 1%nat /\ fq_NumDofs1D data = (o - 1)%nat /\
  fq_NumDofs2D data = ((o - 1) * (o - 1))%nat /\ fq_Edges_by_vertices data = quad_edges_table /\
  m_rows (fq_DofPositions data) = 3%nat /\ m_cols (fq_DofPositions data) = ((o + 1) * (o + 1))%nat /\ length (fq_DofTypes data) = ((o + 1) * (o + 1))%nat /\
  (forall i j, (i < o + 1)%nat -> (j < o + 1)%nat -> nth_error (fq_DofTypes data) (qi (o - 1) i j) = Some (i, j) /\ at_point (fq_DofPositions data) (qi (o - 1) i j) (nd o i) (nd o j)) /\
  let b := fq_Boundary data in
  m_rows (f1_DofPositions b) = 3%nat /\ m_cols (f1_DofPositions b) = (o + 1)%nat /\ (forall k, (k < o + 1)%nat -> m_at (f1_DofPositions b) 0 k = nd o k) /\
  distinct (o + 1) (v_at (posvec (f1_DofPositions b))) /\ Lagrange_1D_coefficients junk (posvec (f1_DofPositions b)) = Ok (f1_coefficients b).

Lemma qcreate_ok junk lobatto o : (1 <= o)%nat -> exists data, Quad_Create junk lobatto o = Ok data /\ QOK junk o data.
Proof.
  intros Ho. unfold Quad_Create. destruct (Nat.eqb_spec o 0); [lia|].
  destruct (create1_ok junk lobatto o Equispaced Ho) as (b & Eb & _ & _ & _ & B2 & (S1 & S2 & S3) & D & Ec).
  { reflexivity. } { apply linspaced_distinct. }
  rewrite Eb. cbn [bind]. rewrite row_vec_ok by lia. cbn [bind]. rewrite B2.
  destruct (all_ok o (posvec (f1_DofPositions b)) Ho ltac:(cbn; lia)) as (s & Es & I1 & I2 & I3 & I4 & I5).
  destruct (quad_vertices (posvec (f1_DofPositions b)) (mzero 3 ((o + 1) * (o + 1)), repeat (0, 0)%nat ((o + 1) * (o + 1)))) as [s1| |]; cbn [bind] in Es |- *; try discriminate.
  assert (X : forall k, (k < o + 1)%nat -> m_at (f1_DofPositions b) 0 k = nd o k).
  { intros k Hk. destruct (S3 k Hk) as (-> & _). cbn [row0 LinSpaced01 v_at]. destruct (Nat.eqb_spec (o + 1) 1); [lia|]. unfold nd. now replace (o + 1 - 1)%nat with o by lia. }
  rewrite Es. cbn [bind]. eexists. split; [reflexivity|]. unfold QOK. cbn [fq_Order fq_NumBasisFunctions fq_NumDofs0D fq_NumDofs1D fq_NumDofs2D fq_Edges_by_vertices fq_DofPositions fq_DofTypes fq_Boundary].
  do 9 (split; [auto|]). split; [|cbv zeta; auto].
  intros i j Hi Hj. destruct (I5 i j ltac:(lia) ltac:(lia) I) as (A & B & C). split; [exact A|]. cbn [posvec v_at] in *. unfold at_point. rewrite B, C, !X by auto. auto.
Qed.

Lemma created_QOK junk lobatto o data : (1 <= o)%nat -> Quad_Create junk lobatto o = Ok data -> QOK junk o data.
Proof. intros Ho E. destruct (qcreate_ok junk lobatto o Ho) as (d & E' & H). rewrite E in E'. injection E' as <-. auto. Qed.

(** ** Sums over the dofs *)
Lemma q_sum o F : (1 <= o)%nat -> rsum ((o + 1) * (o + 1)) F = rsum (o + 1) (fun i => rsum (o + 1) (fun j => F (qi (o - 1) i j))).
Proof.
  intros Ho. rewrite <- lsum_seq. transitivity (lsum F (flat_map (fun i => map (qi (o - 1) i) (seq 0 (o + 1))) (seq 0 (o + 1)))).
  - apply lsum_perm. apply NoDup_Permutation_bis.
    + apply seq_NoDup.
    + rewrite seq_length. assert (G : forall l, length (flat_map (fun i => map (qi (o - 1) i) (seq 0 (o + 1))) l) = (length l * (o + 1))%nat).
      { induction l as [|x l IH]; cbn [flat_map length]; auto. rewrite app_length, map_length, seq_length, IH. lia. }
      rewrite G, seq_length. lia.
    + intros d Hd. apply in_seq in Hd. destruct (qi_surj (o - 1) d) as (i & j & Hi & Hj & <-); [replace (o - 1 + 2)%nat with (o + 1)%nat by lia; lia|].
      apply in_flat_map. exists i. split; [apply in_seq; lia|]. apply in_map_iff. exists j. split; auto. apply in_seq. lia.
  - rewrite lsum_flat_map, lsum_seq. apply rsum_ext. intros i Hi. now rewrite lsum_map, lsum_seq.
Qed.

Lemma q_index o d : (1 <= o)%nat -> (d < (o + 1) * (o + 1))%nat -> exists i j, (i < o + 1)%nat /\ (j < o + 1)%nat /\ d = qi (o - 1) i j.
Proof.
  intros Ho Hd. destruct (qi_surj (o - 1) d) as (i & j & Hi & Hj & <-); [replace (o - 1 + 2)%nat with (o + 1)%nat by lia; lia|].
  exists i, j. repeat split; lia.
Qed.
Lemma q_lt o i j : (1 <= o)%nat -> (i < o + 1)%nat -> (j < o + 1)%nat -> (qi (o - 1) i j < (o + 1) * (o + 1))%nat.
Proof. intros Ho Hi Hj. pose proof (qi_lt (o - 1) i j). replace (o - 1 + 2)%nat with (o + 1)%nat in H by lia. auto. Qed.
Lemma q_inj o i j i' j' : (1 <= o)%nat -> (i < o + 1)%nat -> (j < o + 1)%nat -> (i' < o + 1)%nat -> (j' < o + 1)%nat -> qi (o - 1) i j = qi (o - 1) i' j' -> i = i' /\ j = j'.
Proof. intros. apply (qi_inj (o - 1)); auto; lia. Qed.

(** ** Values and derivatives *)
Definition ph (o i : nat) (t : R) : R := phi1 (nd o) (o + 1) i t.
Definition dph (o i : nat) (t : R) : R := dphi1 (nd o) (o + 1) i t.

Section Eval.
Variables (junk : nat -> nat -> R) (o : nat) (data : Quad_Data).
Hypotheses (Ho : (1 <= o)%nat) (K : QOK junk o data).

Lemma axis_values v n : exists V, FEM_1D_Values junk (on_axis v n) (fq_Boundary data) = Ok V /\ m_rows V = n /\ m_cols V = (o + 1)%nat /\
  forall q i, (q < n)%nat -> (i < o + 1)%nat -> m_at V q i = ph o i (v q).
Proof.
  destruct K as (_ & _ & _ & _ & _ & _ & _ & _ & _ & _ & S1 & S2 & S3 & D & Ec).
  destruct (values1_ok junk _ _ _ (on_axis v n) S1 S2 D ltac:(cbn; lia) Ec (fq_Boundary data) eq_refl eq_refl) as (V & EV & V1 & V2 & V3).
  exists V. do 3 (split; [auto|]). intros q i Hq Hi. rewrite V3 by auto. unfold ph. apply phi1_ext; auto.
Qed.
Lemma axis_derivatives v n : exists V, FEM_1D_Derivatives junk (on_axis v n) (fq_Boundary data) = Ok [V] /\ m_rows V = n /\ m_cols V = (o + 1)%nat /\
  forall q i, (q < n)%nat -> (i < o + 1)%nat -> m_at V q i = dph o i (v q).
Proof.
  destruct K as (_ & _ & _ & _ & _ & _ & _ & _ & _ & _ & S1 & S2 & S3 & D & Ec).
  destruct (derivs1_ok junk _ _ _ (on_axis v n) S1 S2 D ltac:(cbn; lia) Ec (fq_Boundary data) eq_refl eq_refl) as (V & EV & V1 & V2 & V3).
  exists V. do 3 (split; [auto|]). intros q i Hq Hi. rewrite V3 by auto. unfold dph. apply dphi1_ext; auto.
Qed.

Let N := ((o + 1) * (o + 1))%nat.

Lemma product_ok n A B C d i j : m_rows A = n -> m_cols A = N -> m_cols B = (o + 1)%nat -> m_cols C = (o + 1)%nat -> (d < N)%nat -> (i < o + 1)%nat -> (j < o + 1)%nat ->
  exists A', set_col_product A d B i C j = Ok A' /\ m_rows A' = n /\ m_cols A' = N /\
    (forall q, m_at A' q d = m_at B q i * m_at C q j) /\ (forall q d', d' <> d -> m_at A' q d' = m_at A q d').
Proof.
  clear K. intros A1 A2 B2 C2 Hd Hi Hj. unfold set_col_product, mcol, mat_set_col. rewrite B2, C2, A2.
  destruct (Nat.ltb_spec i (o + 1)); [|lia]. cbn [bind]. destruct (Nat.ltb_spec j (o + 1)); [|lia]. cbn [bind]. destruct (Nat.ltb_spec d N); [|lia].
  eexists. split; [reflexivity|]. cbn [m_rows m_cols m_at]. repeat split; auto.
  - intros q. now rewrite Nat.eqb_refl.
  - intros q d' Hd'. destruct (Nat.eqb_spec d' d); [contradiction|auto].
Qed.

Lemma type_ok d : (d < N)%nat -> exists i j, (i < o + 1)%nat /\ (j < o + 1)%nat /\ d = qi (o - 1) i j /\ idx_ (fq_DofTypes data) d = Ok (i, j).
Proof.
  intros Hd. destruct (q_index o d Ho Hd) as (i & j & Hi & Hj & ->). exists i, j. do 3 (split; [auto|]).
  destruct K as (_ & _ & _ & _ & _ & _ & _ & _ & _ & T & _). unfold idx_. now rewrite (proj1 (T i j Hi Hj)).
Qed.

Lemma qvalues_ok points : (2 <= m_rows points)%nat -> exists V, Quad_Values junk points data = Ok V /\ m_rows V = m_cols points /\ m_cols V = N /\
  forall q i j, (q < m_cols points)%nat -> (i < o + 1)%nat -> (j < o + 1)%nat -> m_at V q (qi (o - 1) i j) = ph o i (m_at points 0 q) * ph o j (m_at points 1 q).
Proof.
  intros Hp. unfold Quad_Values, mrow. destruct (Nat.ltb_spec 0 (m_rows points)); [|lia]. destruct (Nat.ltb_spec 1 (m_rows points)); [|lia]. cbn [bind].
  destruct (axis_values (fun c => m_at points 0 c) (m_cols points)) as (X & EX & X1 & X2 & X3). rewrite EX. cbn [bind].
  destruct (axis_values (fun c => m_at points 1 c) (m_cols points)) as (Y & EY & Y1 & Y2 & Y3). rewrite EY. cbn [bind].
  assert (EN : fq_NumBasisFunctions data = N) by (destruct K as (_ & HN & _); exact HN). rewrite EN.
  match goal with |- context [for_loop N ?f ?s] => destruct (flt (fun d V => m_rows V = m_cols points /\ m_cols V = N /\
    forall q i j, (q < m_cols points)%nat -> (i < o + 1)%nat -> (j < o + 1)%nat -> (qi (o - 1) i j < d)%nat -> m_at V q (qi (o - 1) i j) = ph o i (m_at points 0 q) * ph o j (m_at points 1 q)) f N s) as (V & EV & V1 & V2 & V3) end.
  - cbn. repeat split; auto. intros; lia.
  - intros d V Hd (V1 & V2 & V3). destruct (type_ok d Hd) as (i & j & Hi & Hj & Ed & Et). rewrite Et. cbn [bind fst snd].
    destruct (product_ok (m_cols points) V X Y d i j V1 V2 X2 Y2 Hd Hi Hj) as (V' & EV' & W1 & W2 & W3 & W4). exists V'. do 3 (split; [auto|]).
    intros q a b Hq Ha Hb Hab. destruct (Nat.eq_dec (qi (o - 1) a b) d) as [E|E].
    + rewrite Ed in E. destruct (q_inj o a b i j Ho Ha Hb Hi Hj E) as (-> & ->). rewrite <- Ed, W3, X3, Y3 by auto. auto.
    + rewrite W4 by auto. apply V3; auto; lia.
  - exists V. do 3 (split; [auto|]). intros q i j Hq Hi Hj. apply V3; auto. apply q_lt; auto.
Qed.

Lemma qderivs_ok points : (2 <= m_rows points)%nat -> exists D0 D1, Quad_Derivatives junk points data = Ok [D0; D1] /\
  m_rows D0 = m_cols points /\ m_cols D0 = N /\ m_rows D1 = m_cols points /\ m_cols D1 = N /\
  forall q i j, (q < m_cols points)%nat -> (i < o + 1)%nat -> (j < o + 1)%nat ->
    m_at D0 q (qi (o - 1) i j) = dph o i (m_at points 0 q) * ph o j (m_at points 1 q) /\ m_at D1 q (qi (o - 1) i j) = ph o i (m_at points 0 q) * dph o j (m_at points 1 q).
Proof.
  intros Hp. unfold Quad_Derivatives, mrow. destruct (Nat.ltb_spec 0 (m_rows points)); [|lia]. destruct (Nat.ltb_spec 1 (m_rows points)); [|lia]. cbn [bind].
  destruct (axis_values (fun c => m_at points 0 c) (m_cols points)) as (X & EX & X1 & X2 & X3). rewrite EX. cbn [bind].
  destruct (axis_derivatives (fun c => m_at points 0 c) (m_cols points)) as (X' & EX' & X1' & X2' & X3'). rewrite EX'. cbn [bind].
  destruct (axis_values (fun c => m_at points 1 c) (m_cols points)) as (Y & EY & Y1 & Y2 & Y3). rewrite EY. cbn [bind].
  destruct (axis_derivatives (fun c => m_at points 1 c) (m_cols points)) as (Y' & EY' & Y1' & Y2' & Y3'). rewrite EY'. cbn [bind].
  assert (EN : fq_NumBasisFunctions data = N) by (destruct K as (_ & HN & _); exact HN). rewrite EN.
  match goal with |- context [for_loop N ?f ?s] => destruct (flt (fun d (V : Mat * Mat) => m_rows (fst V) = m_cols points /\ m_cols (fst V) = N /\ m_rows (snd V) = m_cols points /\ m_cols (snd V) = N /\
    forall q i j, (q < m_cols points)%nat -> (i < o + 1)%nat -> (j < o + 1)%nat -> (qi (o - 1) i j < d)%nat ->
      m_at (fst V) q (qi (o - 1) i j) = dph o i (m_at points 0 q) * ph o j (m_at points 1 q) /\ m_at (snd V) q (qi (o - 1) i j) = ph o i (m_at points 0 q) * dph o j (m_at points 1 q)) f N s)
    as ((D0 & D1) & EV & V1 & V2 & V1' & V2' & V3) end.
  - cbn. do 4 (split; [auto|]). intros; lia.
  - intros d (G0 & G1) Hd (V1 & V2 & V1' & V2' & V3). cbn [fst snd] in *. destruct (type_ok d Hd) as (i & j & Hi & Hj & Ed & Et). rewrite Et. cbn [bind fst snd idx_ nth_error].
    destruct (product_ok (m_cols points) G0 X' Y d i j V1 V2 X2' Y2 Hd Hi Hj) as (A & EA & W1 & W2 & W3 & W4). rewrite EA. cbn [bind].
    destruct (product_ok (m_cols points) G1 X Y' d i j V1' V2' X2 Y2' Hd Hi Hj) as (B & EB & U1 & U2 & U3 & U4). rewrite EB. cbn [bind].
    eexists. split; [reflexivity|]. cbn [fst snd]. do 4 (split; [auto|]).
    intros q a b Hq Ha Hb Hab. destruct (Nat.eq_dec (qi (o - 1) a b) d) as [E|E].
    + rewrite Ed in E. destruct (q_inj o a b i j Ho Ha Hb Hi Hj E) as (-> & ->). rewrite <- Ed, W3, U3, X3, Y3, X3', Y3' by auto. auto.
    + rewrite W4, U4 by auto. apply V3; auto; lia.
  - rewrite EV. cbn [bind]. exists D0, D1. cbn [fst snd] in *. do 5 (split; [auto|]). intros q i j Hq Hi Hj. apply V3; auto. apply q_lt; auto.
Qed.
End Eval.

Lemma ph_nodal o i j : (1 <= o)%nat -> (i < o + 1)%nat -> (j < o + 1)%nat -> ph o i (nd o j) = kron i j.
Proof. intros Ho Hi Hj. apply phi1_nodal; auto. now apply nd_distinct. Qed.
Lemma ph_sum o f t : (1 <= o)%nat -> is_poly (o + 1) f -> rsum (o + 1) (fun i => f (nd o i) * ph o i t) = f t.
Proof. intros Ho Hf. apply (lagrange_reproduces (o + 1) (nd o) f t); auto. now apply nd_distinct. Qed.

Lemma polyQ_x n c y : is_poly (S n) (fun x => polyQ n c x y).
Proof.
  unfold polyQ. apply (is_poly_ext _ (polynomial (S n) (fun a => rsum (S n) (fun b => c a b * y ^ b)))); [|apply is_poly_coeffs].
  intros x. unfold polynomial. apply rsum_ext. intros a Ha. rewrite <- rsum_scal_r. apply rsum_ext. intros; ring.
Qed.
Lemma polyQ_y n c x : is_poly (S n) (fun y => polyQ n c x y).
Proof.
  unfold polyQ. apply (is_poly_ext _ (polynomial (S n) (fun b => rsum (S n) (fun a => c a b * x ^ a)))); [|apply is_poly_coeffs].
  intros y. rewrite rsum_swap. unfold polynomial. apply rsum_ext. intros a Ha. rewrite <- rsum_scal_r. apply rsum_ext. intros; ring.
Qed.

(** the value of a combination of the basis functions that interpolates a polynomial of the space *)
Lemma q_reproduces o c x y : (1 <= o)%nat -> rsum (o + 1) (fun i => rsum (o + 1) (fun j => polyQ o c (nd o i) (nd o j) * (ph o i x * ph o j y))) = polyQ o c x y.
Proof.
  intros Ho. rewrite (rsum_ext (o + 1) _ (fun i => polyQ o c (nd o i) y * ph o i x)).
  - apply (ph_sum o (fun x => polyQ o c x y)); auto. replace (o + 1)%nat with (S o) by lia. apply polyQ_x.
  - intros i Hi. rewrite <- (ph_sum o (fun y => polyQ o c (nd o i) y) y Ho). 2: replace (o + 1)%nat with (S o) by lia; apply polyQ_y.
    rewrite <- rsum_scal_r. apply rsum_ext. intros; ring.
Qed.

(** C62 *)
Lemma C62_all : forall junk lobatto order, (1 <= order)%nat -> exists data, Quad_Create junk lobatto order = Ok data /\
  let N := fq_NumBasisFunctions data in let n1 := fq_NumDofs1D data in let P := fq_DofPositions data in
  fq_Order data = order /\ (N = (order + 1) * (order + 1))%nat /\ fq_NumDofs0D data = 1%nat /\ n1 = (order - 1)%nat /\
  (4 * fq_NumDofs0D data + 4 * n1 + fq_NumDofs2D data = N)%nat /\ m_rows P = 3%nat /\ m_cols P = N /\
  (forall d, (d < N)%nat -> exists i j, (i <= order)%nat /\ (j <= order)%nat /\ at_point P d (INR i / INR order) (INR j / INR order)) /\
  (forall i j, (i <= order)%nat -> (j <= order)%nat -> exists d, (d < N)%nat /\ at_point P d (INR i / INR order) (INR j / INR order) /\
     forall d', (d' < N)%nat -> at_point P d' (INR i / INR order) (INR j / INR order) -> d' = d) /\
  at_point P 0 0 0 /\ at_point P 1 1 0 /\ at_point P 2 1 1 /\ at_point P 3 0 1 /\
  (forall k, (k < n1)%nat -> let s := INR (S k) / INR order in
     at_point P (4 + k) s 0 /\ at_point P (4 + n1 + k) 1 s /\ at_point P (4 + 2 * n1 + k) s 1 /\ at_point P (4 + 3 * n1 + k) 0 s) /\
  (forall a b, (a < n1)%nat -> (b < n1)%nat -> at_point P (4 + 4 * n1 + b * n1 + a) (INR (S a) / INR order) (INR (S b) / INR order)).
Proof.
  intros junk lobatto o Ho. destruct (qcreate_ok junk lobatto o Ho) as (data & E & K1 & K2 & K3 & K4 & K5 & K6 & K7 & K8 & K9 & T & _). exists data. split; [auto|]. cbv zeta.
  rewrite K2, K3, K4, K5. do 4 (split; [auto|]). split; [nia|]. do 2 (split; [auto|]).
  assert (A : forall i j, (i < o + 1)%nat -> (j < o + 1)%nat -> at_point (fq_DofPositions data) (qi (o - 1) i j) (nd o i) (nd o j)) by (intros; apply T; auto).
  assert (P : forall i, (i <= o)%nat -> exists k, (k < o + 1)%nat /\ nd o k = INR i / INR o).
  { intros i Hi. destruct (Nat.eq_dec i 0) as [->|]; [exists 0%nat; split; [lia|reflexivity]|]. destruct (Nat.eq_dec i o) as [->|].
    - exists 1%nat. split; [lia|]. unfold nd. cbn [perm1]. now replace (o + 1 - 1)%nat with o by lia.
    - exists (2 + (i - 1))%nat. split; [lia|]. rewrite nd_SS. now replace (S (i - 1)) with i by lia. }
  split; [|split].
  - intros d Hd. destruct (q_index o d Ho Hd) as (i & j & Hi & Hj & ->). exists (perm1 (o + 1) i), (perm1 (o + 1) j).
    pose proof (perm1_lt (o + 1) i ltac:(lia) Hi). pose proof (perm1_lt (o + 1) j ltac:(lia) Hj). do 2 (split; [lia|]). apply (A i j); auto.
  - intros i j Hi Hj. destruct (P i Hi) as (a & Ha & Ea), (P j Hj) as (b & Hb & Eb). exists (qi (o - 1) a b). split; [apply q_lt; auto|]. split; [rewrite <- Ea, <- Eb; auto|].
    intros d Hd H. destruct (q_index o d Ho Hd) as (a' & b' & Ha' & Hb' & ->). destruct (A a' b' Ha' Hb') as (X & Y & _), H as (X' & Y' & _).
    rewrite X, <- Ea in X'. rewrite Y, <- Eb in Y'. apply nd_distinct in X', Y'; auto.
  - pose proof (A 0 0 ltac:(lia) ltac:(lia))%nat as A00. pose proof (A 1 0 ltac:(lia) ltac:(lia))%nat as A10. pose proof (A 1 1 ltac:(lia) ltac:(lia))%nat as A11. pose proof (A 0 1 ltac:(lia) ltac:(lia))%nat as A01.
    rewrite ?nd_0, ?nd_1 in * by auto. do 4 (split; [assumption|]). split.
    + intros k Hk. cbv zeta. rewrite <- nd_SS. pose proof (A (2 + k) 0 ltac:(lia) ltac:(lia))%nat as B0. pose proof (A 1 (2 + k) ltac:(lia) ltac:(lia))%nat as B1.
      pose proof (A (2 + k) 1 ltac:(lia) ltac:(lia))%nat as B2. pose proof (A 0 (2 + k) ltac:(lia) ltac:(lia))%nat as B3. rewrite ?nd_0, ?nd_1 in * by auto. repeat split; first [apply B0|apply B1|apply B2|apply B3].
    + intros a b Ha Hb. rewrite <- !nd_SS. apply (A (2 + a) (2 + b))%nat; lia.
Qed.

Lemma C62_order0 : forall junk lobatto, Quad_Create junk lobatto 0 = Throw.
Proof. reflexivity. Qed.

(** C63 *)
Lemma C63_nodal_all : forall junk lobatto order data, (1 <= order)%nat -> Quad_Create junk lobatto order = Ok data ->
  let N := fq_NumBasisFunctions data in
  exists V, Quad_Values junk (fq_DofPositions data) data = Ok V /\ m_rows V = N /\ m_cols V = N /\
    forall i j, (i < N)%nat -> (j < N)%nat -> m_at V j i = kron i j.
Proof.
  intros junk lobatto o data Ho E. pose proof (created_QOK _ _ _ _ Ho E) as K. pose proof K as (K1 & K2 & K3 & K4 & K5 & K6 & K7 & K8 & K9 & T & _).
  destruct (qvalues_ok junk o data Ho K (fq_DofPositions data) ltac:(lia)) as (V & EV & V1 & V2 & V3). cbv zeta. rewrite K2. exists V. rewrite K8 in *. do 3 (split; [auto|]).
  intros i j Hi Hj. destruct (q_index o i Ho Hi) as (a & b & Ha & Hb & ->), (q_index o j Ho Hj) as (a' & b' & Ha' & Hb' & ->).
  rewrite V3 by auto. destruct (proj2 (T a' b' Ha' Hb')) as (-> & -> & _). rewrite !ph_nodal by auto. unfold kron.
  destruct (Nat.eqb_spec a a') as [->|Na]; [destruct (Nat.eqb_spec b b') as [->|Nb]|].
  - rewrite Nat.eqb_refl. ring.
  - destruct (Nat.eqb_spec (qi (o - 1) a' b) (qi (o - 1) a' b')) as [X|X]; [|ring]. destruct (q_inj o a' b a' b') as (_ & ?); auto. contradiction.
  - destruct (Nat.eqb_spec (qi (o - 1) a b) (qi (o - 1) a' b')) as [X|X]; [|ring]. destruct (q_inj o a b a' b') as (? & _); auto. contradiction.
Qed.

Lemma C63_reproduces_all : forall junk lobatto order data points c, (1 <= order)%nat -> Quad_Create junk lobatto order = Ok data -> (2 <= m_rows points)%nat ->
  let N := fq_NumBasisFunctions data in
  exists V, Quad_Values junk points data = Ok V /\ m_rows V = m_cols points /\ m_cols V = N /\
    forall q, (q < m_cols points)%nat ->
      rsum N (fun i => polyQ order c (m_at (fq_DofPositions data) 0 i) (m_at (fq_DofPositions data) 1 i) * m_at V q i) =
      polyQ order c (m_at points 0 q) (m_at points 1 q).
Proof.
  intros junk lobatto o data points c Ho E Hp. pose proof (created_QOK _ _ _ _ Ho E) as K. pose proof K as (K1 & K2 & K3 & K4 & K5 & K6 & K7 & K8 & K9 & T & _).
  destruct (qvalues_ok junk o data Ho K points Hp) as (V & EV & V1 & V2 & V3). cbv zeta. rewrite K2. exists V. do 3 (split; [auto|]).
  intros q Hq. rewrite q_sum by auto. rewrite <- q_reproduces by auto. apply rsum_ext. intros i Hi. apply rsum_ext. intros j Hj.
  rewrite V3 by auto. now destruct (proj2 (T i j Hi Hj)) as (-> & -> & _).
Qed.

Definition qvalf (junk : nat -> nat -> R) (data : Quad_Data) (p : point) : Mat := match Quad_Values junk (space_point p) data with Ok V => V | _ => mzero 0 0 end.

Lemma qvalf_ok junk o data p : (1 <= o)%nat -> QOK junk o data -> Quad_Values junk (space_point p) data = Ok (qvalf junk data p) /\
  forall i j, (i < o + 1)%nat -> (j < o + 1)%nat -> m_at (qvalf junk data p) 0 (qi (o - 1) i j) = ph o i (p 0%nat) * ph o j (p 1%nat).
Proof.
  intros Ho K. unfold qvalf. destruct (qvalues_ok junk o data Ho K (space_point p) ltac:(cbn; lia)) as (V & EV & V1 & V2 & V3). rewrite EV. split; auto.
  intros i j Hi Hj. rewrite V3 by (cbn; auto). reflexivity.
Qed.

Lemma ph_derivative o i t : (i < o + 1)%nat -> derivable_pt_lim (ph o i) t (dph o i t).
Proof. intros Hi. now apply dphi1_derivative. Qed.

Lemma C63_derivatives_all : forall junk lobatto order data, (1 <= order)%nat -> Quad_Create junk lobatto order = Ok data -> exists V : point -> Mat,
  (forall p, Quad_Values junk (space_point p) data = Ok (V p)) /\
  forall points, (2 <= m_rows points)%nat -> exists D0 D1, Quad_Derivatives junk points data = Ok [D0; D1] /\
    m_rows D0 = m_cols points /\ m_cols D0 = fq_NumBasisFunctions data /\ m_rows D1 = m_cols points /\ m_cols D1 = fq_NumBasisFunctions data /\
    forall q i, (q < m_cols points)%nat -> (i < fq_NumBasisFunctions data)%nat ->
      is_partial (fun p => m_at (V p) 0 i) 0 (pt points q) (m_at D0 q i) /\ is_partial (fun p => m_at (V p) 0 i) 1 (pt points q) (m_at D1 q i).
Proof.
  intros junk lobatto o data Ho E. pose proof (created_QOK _ _ _ _ Ho E) as K. exists (qvalf junk data). split; [intros p; now apply (qvalf_ok junk o)|].
  intros points Hp. destruct (qderivs_ok junk o data Ho K points Hp) as (D0 & D1 & ED & R1 & R2 & R3 & R4 & H). assert (EN : fq_NumBasisFunctions data = ((o + 1) * (o + 1))%nat) by (destruct K as (_ & HN & _); exact HN). rewrite EN.
  exists D0, D1. do 5 (split; [auto|]). intros q d Hq Hd. destruct (q_index o d Ho Hd) as (i & j & Hi & Hj & ->). destruct (H q i j Hq Hi Hj) as (-> & ->).
  split; (eapply is_partial_ext; [intros p; symmetry; apply (proj2 (qvalf_ok junk o data p Ho K)); auto|]); unfold is_partial, setc, pt; cbn [Nat.eqb].
  - eapply dpl_ext. { intros s. apply Rmult_comm. } rewrite (Rmult_comm (dph _ _ _)). apply (derivable_pt_lim_scal (ph o i)). now apply ph_derivative.
  - apply (derivable_pt_lim_scal (ph o j)). now apply ph_derivative.
Qed.
