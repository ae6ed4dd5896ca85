(** Degrees of freedom of the Raviart-Thomas element: the matrix is nonsingular, the basis is dual to the degrees of freedom. *)
From Coq Require Import List Arith Bool Lia ZArith Reals Lra.
From Verif Require Import Base RSum MatrixModel MonomialsModel MonomialsSpec MonomialsProofs MonomialsProofs2 MonomialsProofs3 MonomialsProofs4 MonomialsProps
  LagrangeSpec LagrangeProofs GBasisProofs VemQuadModel VemQuadSpec VemQuadProofs VemQuadProofs2 GreenSpec GreenProofs PolyProofs VemModel VemSpec VemProofs VemProofs2
  RtModel RtSpec RtProofs RtProofs2.
Import ListNotations.
Local Open Scope R_scope.

Lemma expo_1 k m i : Compute Monomials_1D k = Ok m -> (i < k + 1)%nat -> expo (Exponents m) i = [Z.of_nat i].
Proof.
  intros E Hi. destruct (C27_monomials_enumerated_once 1 Monomials_1D k (or_introl (conj eq_refl eq_refl))) as (m' & E' & _ & _ & _ & _ & N & _).
  rewrite E in E'. injection E' as <-. specialize (N eq_refl).
  destruct (C28_index_inverts_enumeration 1 Monomials_1D k m (or_introl (conj eq_refl eq_refl)) E) as (_ & A & _).
  destruct (A [Z.of_nat i]) as (i' & I & L & X).
  - split; [reflexivity|]. constructor; [lia|constructor].
  - cbn. lia.
  - cbn [mc_Index Monomials_1D Index_1D idx_ nth_error bind] in I. unfold Index_1D in I. cbn [idx_ nth_error bind] in I. rewrite (proj2 (Z.leb_le 0 (Z.of_nat i))) in I by lia.
    injection I as I. unfold esum in I. cbn in I. assert (i' = i) by lia. subst. auto.
Qed.

Lemma vander_1 k m junk points c : Compute Monomials_1D k = Ok m -> m_rows points = 3%nat ->
  exists V, Vander 1 junk m points c 1 = Ok V /\ m_rows V = m_cols points /\ m_cols V = (k + 1)%nat /\
    forall q i, (i < k + 1)%nat -> m_at V q i = (m_at points 0 q - c 0%nat) ^ i.
Proof.
  intros E Hr. assert (CL : class_of 1 Monomials_1D) by (left; auto).
  destruct (C27_monomials_enumerated_once 1 Monomials_1D k CL) as (m' & E' & _ & _ & _ & _ & N & _). rewrite E in E'. injection E' as <-. specialize (N eq_refl).
  destruct (C31_vander_evaluates 1 Monomials_1D k m junk points c 1 CL E Hr R1_neq_R0) as (V & EV & VR & VC & A & _).
  exists V. rewrite N in *. repeat (split; auto). intros q i Hi. rewrite A, (expo_1 k m i E Hi) by auto. unfold scaled, pt, mono. cbn. rewrite ?Nat2Z.id. replace ((m_at points 0 q - c 0%nat) / 1) with (m_at points 0 q - c 0%nat) by field. ring.
Qed.

Lemma sqrt2_nz : sqrt 2 <> 0. Proof. apply Rgt_not_eq. apply sqrt_lt_R0. lra. Qed.

(** ** The edges of the reference triangle *)
Record edge_facts (segment : QuadratureData) (n : nat) (dirs : list bool) (BQ : Edges_QuadratureData) (x y : Vec) : Prop := {
  ef_rows : m_rows (q_Points (eq_Quadrature BQ)) = 3%nat; ef_cols : m_cols (q_Points (eq_Quadrature BQ)) = (n * 3)%nat;
  ef_normal : eq_WeightsTimesNormal BQ = [x; y]; ef_x : v_size x = (n * 3)%nat; ef_y : v_size y = (n * 3)%nat;
  ef_points : forall e q, (e < 3)%nat -> (q < n)%nat ->
    m_at (q_Points (eq_Quadrature BQ)) 0 (n * e + q)%nat = edge_x (nth e dirs true) e (m_at (q_Points segment) 0 q) /\
    m_at (q_Points (eq_Quadrature BQ)) 1 (n * e + q)%nat = edge_y (nth e dirs true) e (m_at (q_Points segment) 0 q);
  ef_weights : forall e q, (e < 3)%nat -> (q < n)%nat ->
    v_at x (n * e + q)%nat = v_at (q_Weights segment) q * out_x e /\ v_at y (n * e + q)%nat = v_at (q_Weights segment) q * out_y e }.

Lemma edges_of segment junk n dirs : rule segment -> m_cols (q_Points segment) = n -> length dirs = 3%nat ->
  exists BQ x y, PolygonEdgesQuadrature junk segment TriangleVertices EdgeLengths dirs EdgeTangents EdgeNormals = Ok BQ /\ edge_facts segment n dirs BQ x y.
Proof.
  intros (Hr1 & Hr2) Hn Hd.
  assert (IN : edge_inputs (q_Points segment) (q_Weights segment) TriangleVertices EdgeLengths dirs EdgeTangents EdgeNormals).
  { repeat split; auto; try (cbn; lia). }
  destruct (edges_ok junk segment TriangleVertices EdgeLengths dirs EdgeTangents EdgeNormals IN) as (BQ & E & (P1 & P2 & _ & P3) & _ & x & y & EN & (X1 & _ & X2) & (Y1 & _ & Y2)).
  exists BQ, x, y. split; auto.
  assert (TO : tangents_ok TriangleVertices EdgeTangents).
  { intros i d Hi Hdd. cbn [m_cols TriangleVertices] in *. destruct i as [|[|[|]]], d as [|[|[|]]]; try lia; cbn; ring. }
  change (m_cols TriangleVertices) with 3%nat in *. cbn [Nat.add] in *. rewrite Hn in *.
  constructor; auto.
  - intros e q He Hq. rewrite !P3 by lia. rewrite !(edge_point_along _ _ _ _ _ _ _ TO) by (cbn; lia).
    unfold along, edge_first, edge_last, edge_x, edge_y. destruct e as [|[|[|]]]; try lia; destruct (nth _ dirs true); cbn; split; ring.
  - intros e q He Hq. rewrite X2, Y2 by lia. unfold len. destruct e as [|[|[|]]]; try lia; cbn; rewrite ?Rabs_R1; try (split; ring).
    rewrite Rabs_right by (apply Rle_ge, sqrt_pos). split; (field; apply sqrt2_nz).
Qed.

Section Element.
Variables (gt gs : nat -> QuadratureData) (k : nat).
Hypothesis RR : rt_rules gt gs k.
Notation seg := (gs (2 * k + 1)%nat).
Notation tri := (gt (2 * (k + 1))%nat).
Notation n := (k + 1)%nat.
Notation N := (3 * n + 2 * low k)%nat.
Notation ph := (PolyProofs.phi (1 / 3) (1 / 3) 1).
Notation VX := (vx (1 / 3) (1 / 3) 1 k).
Notation VY := (vy (1 / 3) (1 / 3) 1 k).
Notation VD := (vdiv (1 / 3) (1 / 3) 1 k).
Notation QQ := (Q ((0, 0) : R * R) (q_Points seg) (q_Weights seg)).
Notation LL := (L tri).

Lemma half_num2 : ((k + 1) * (k + 2) / 2 = num2 k)%nat.
Proof. pose proof (num2_val k). symmetry. apply (Nat.div_unique _ 2 _ 0); lia. Qed.
Lemma half_low : (k * (k + 1) / 2 = low k)%nat.
Proof. pose proof (num2_val k). pose proof (low_add k). symmetry. apply (Nat.div_unique _ 2 _ 0); nia. Qed.
Lemma N_val : N = (2 * num2 k + n)%nat.
Proof. pose proof (low_add k). lia. Qed.
Lemma N_dim : N = ((k + 1) * (k + 3))%nat.
Proof. pose proof (num2_val k). rewrite N_val. nia. Qed.

Record rt_base (ref : RT_Reference) : Prop := {
  rx_Order : rt_Order ref = k; rx_Nk : rt_Nk ref = num2 k; rx_Nkm1 : rt_Nkm1 ref = low k;
  rx_Quadrature : rt_Quadrature ref = Compute_MCC_2D gt gs k;
  rx_mono : Compute Monomials_2D k = Ok (rt_monomials_2D ref);
  rx_c0 : rt_center_2D ref 0%nat = 1 / 3; rx_c1 : rt_center_2D ref 1%nat = 1 / 3; rx_scale : rt_scale_2D ref = 1;
  rx_V1r : m_rows (rt_VanderBoundary1D ref) = n; rx_V1c : m_cols (rt_VanderBoundary1D ref) = n;
  rx_V1 : forall q i, (i < n)%nat -> m_at (rt_VanderBoundary1D ref) q i = (m_at (q_Points seg) 0 q - 1 / 2) ^ i;
  rx_n1 : rt_v_NumDofs1D ref = n; rx_n0 : rt_v_NumDofs0D ref = 0%nat; rx_n2 : rt_v_NumDofs2D ref = (2 * low k)%nat; rx_N : rt_v_NumBasisFunctions ref = N;
  rx_p : rt_p_NumBasisFunctions ref = num2 k; rx_p2 : rt_p_NumDofs2D ref = num2 k;
  rx_PVr : m_rows (rt_p_ReferenceBasisFunctionValues ref) = m_cols (q_Points tri); rx_PVc : m_cols (rt_p_ReferenceBasisFunctionValues ref) = num2 k;
  rx_PV : forall q j, (j < num2 k)%nat -> m_at (rt_p_ReferenceBasisFunctionValues ref) q j = ph j (m_at (q_Points tri) 0 q) (m_at (q_Points tri) 1 q) }.

Lemma base_maps ref bq bf : rt_base ref -> rt_base (rt_set_maps ref bq bf).
Proof. intros []. now constructor. Qed.

(** normal component with the outward normal on edge e, in the direction of the edge *)
Definition trace (dir : bool) (e : nat) (c : nat -> R) (t : R) : R :=
  out_x e * VX c (edge_x dir e t) (edge_y dir e t) + out_y e * VY c (edge_x dir e t) (edge_y dir e t).

Lemma trace_poly dir e c : (e < 3)%nat -> is_poly (S k) (trace dir e c).
Proof.
  intros He.
  assert (A : forall f fx fy, poly2 k f fx fy -> is_poly (S k) (fun t => f (edge_x dir e t) (edge_y dir e t))).
  { intros f fx fy P.
    assert (P' := poly2_comp k f fx fy (corner_x (from3 dir e)) (corner_x (to3 dir e) - corner_x (from3 dir e)) 0 (corner_y (from3 dir e)) (corner_y (to3 dir e) - corner_y (from3 dir e)) 0 P). cbv zeta in P'.
    apply poly2_x_is_poly with (y := 0) in P'. eapply is_poly_ext; [|exact P']. intros t. cbv beta. unfold edge_x, edge_y. f_equal; ring. }
  set (K := match e with 1%nat => 1 / 3 | _ => 1 / 3 end).
  apply (is_poly_ext _ (fun t => (out_x e * rsum (num2 k) (fun j => c j * ph j (edge_x dir e t) (edge_y dir e t)) + out_y e * rsum (num2 k) (fun j => c (num2 k + j)%nat * ph j (edge_x dir e t) (edge_y dir e t)))
     + K * vh (1 / 3) (1 / 3) 1 k c (edge_x dir e t) (edge_y dir e t))).
  - intros t. unfold trace, vx, vy.
    transitivity (out_x e * rsum (num2 k) (fun j => c j * ph j (edge_x dir e t) (edge_y dir e t)) + out_y e * rsum (num2 k) (fun j => c (num2 k + j)%nat * ph j (edge_x dir e t) (edge_y dir e t))
     + (out_x e * ((edge_x dir e t - 1 / 3) / 1) + out_y e * ((edge_y dir e t - 1 / 3) / 1)) * vh (1 / 3) (1 / 3) 1 k c (edge_x dir e t) (edge_y dir e t)); [|ring].
    assert (E : out_x e * ((edge_x dir e t - 1 / 3) / 1) + out_y e * ((edge_y dir e t - 1 / 3) / 1) = K); [|now rewrite E].
    unfold K, edge_x, edge_y. destruct e as [|[|[|]]]; [| | |lia]; destruct dir; cbn; field.
  - apply is_poly_plus; [apply is_poly_plus|]; apply is_poly_scal; [apply (A _ _ _ (comp_poly (1/3) (1/3) 1 k R1_neq_R0 c))|apply (A _ _ _ (comp_poly (1/3) (1/3) 1 k R1_neq_R0 (fun j => c (num2 k + j)%nat)))|apply (A _ _ _ (vh_poly (1/3) (1/3) 1 k R1_neq_R0 c))].
Qed.

Lemma exact_2k : exact_segment (2 * k) (0, 0) (q_Points seg) (q_Weights seg).
Proof. intros a Ha. apply (rr_segment_exact _ _ _ RR). lia. Qed.
Lemma exact_tri j : (j <= 2 * (k + 1))%nat -> exact_triangle j tri.
Proof. intros Hj a b Hab. apply (rr_triangle_exact _ _ _ RR). lia. Qed.

(** rows of the matrix applied to coefficients *)
Definition row (dirs : list bool) (r : nat) (c : nat -> R) : R :=
  if (r <? 3 * n)%nat then QQ (fun t => (t - 1 / 2) ^ (r mod n) * trace (nth (r / n) dirs true) (r / n) c t)
  else if (r <? 3 * n + low k)%nat then LL (fun x y => ph (r - 3 * n) x y * VX c x y)
  else LL (fun x y => ph (r - 3 * n - low k) x y * VY c x y).

Lemma rows_vanish dirs c : (forall r, (r < N)%nat -> row dirs r c = 0) -> forall j, (j < N)%nat -> c j = 0.
Proof.
  intros Z.
  assert (T : forall e, (e < 3)%nat -> forall t, trace (nth e dirs true) e c t = 0).
  { intros e He. apply (edge_zero (q_Points seg) (q_Weights seg) k exact_2k); [now apply trace_poly|].
    intros i Hi. assert (U := Z (n * e + i)%nat ltac:(nia)). unfold row in U. rewrite ltb_true in U by nia.
    replace ((n * e + i) mod n)%nat with i in U by (apply (Nat.mod_unique _ _ e); lia).
    replace ((n * e + i) / n)%nat with e in U by (apply (Nat.div_unique _ _ _ i); lia).
    transitivity (QQ (fun t => (t - 1 / 2) ^ i * trace (nth e dirs true) e c t)); [|exact U]. apply Q_ext. intros; ring. }
  intros j Hj. rewrite N_val in Hj. revert j Hj. apply (rt_vanish (1 / 3) (1 / 3) 1 k R1_neq_R0 (q_Points seg) (q_Weights seg) tri); [apply RR|apply exact_tri; lia| | | |].
  - intros y. generalize (T 2%nat ltac:(lia) (if nth 2 dirs true then 1 - y else y)). unfold trace, edge_x, edge_y.
    destruct (nth 2 dirs true); cbn; intros U;
      match type of U with context [VX c ?a ?b] => replace a with 0 in U by ring; replace b with y in U by ring end; lra.
  - intros x. generalize (T 0%nat ltac:(lia) (if nth 0 dirs true then x else 1 - x)). unfold trace, edge_x, edge_y.
    destruct (nth 0 dirs true); cbn; intros U;
      match type of U with context [VX c ?a ?b] => replace a with x in U by ring; replace b with 0 in U by ring end; lra.
  - intros s. generalize (T 1%nat ltac:(lia) (if nth 1 dirs true then s else 1 - s)). unfold trace, edge_x, edge_y.
    destruct (nth 1 dirs true); cbn; intros U;
      match type of U with context [VX c ?a ?b] => replace a with (1 - s) in U by ring; replace b with s in U by ring end; lra.
  - intros Hk w wx wy P. destruct (phi_represent (1 / 3) (1 / 3) 1 R1_neq_R0 _ _ _ _ P) as (d & D & _). rewrite <- low_num2 in D by auto.
    assert (S : forall f, (forall i, (i < low k)%nat -> LL (fun x y => ph i x y * f x y) = 0) -> LL (fun x y => f x y * w x y) = 0).
    { intros f F. rewrite (L_ext tri _ (fun x y => rsum (low k) (fun i => d i * (ph i x y * f x y)))).
      2:{ intros x y. rewrite D, <- rsum_scal. apply rsum_ext. intros; ring. }
      assert (X : forall m, (m <= low k)%nat -> LL (fun x y => rsum m (fun i => d i * (ph i x y * f x y))) = 0); [|apply X; lia].
      induction m as [|m IH]; intros Hm.
      - transitivity (LL (fun x y => 0 * 0)); [apply L_ext; intros; cbn; ring|]. rewrite L_scal. ring.
      - cbn [rsum]. rewrite L_plus, IH by lia. rewrite (L_scal tri (d m) (fun x y => ph m x y * f x y)), F by lia. ring. }
    split; apply S; intros i Hi.
    + assert (U := Z (3 * n + i)%nat ltac:(lia)). unfold row in U. rewrite ltb_false, ltb_true in U by lia. replace (3 * n + i - 3 * n)%nat with i in U by lia. exact U.
    + assert (U := Z (3 * n + low k + i)%nat ltac:(lia)). unfold row in U. rewrite !ltb_false in U by lia. replace (3 * n + low k + i - 3 * n - low k)%nat with i in U by lia. exact U.
Qed.

Lemma rt_monomial_phi ref i x y : rt_base ref -> (i < num2 k)%nat -> rt_monomial ref i x y = ph i x y.
Proof.
  intros B Hi. unfold rt_monomial. rewrite (expo_m k _ (rx_mono _ B) i Hi). rewrite mono_2, !Nat2Z.id. unfold PolyProofs.phi, mn.
  replace ((x - 1 / 3) / 1) with (x - 1 / 3) by field. replace ((y - 1 / 3) / 1) with (y - 1 / 3) by field. reflexivity.
Qed.

Definition signed (dirs : list bool) (r : nat) : R := if (r <? 3 * n)%nat then orient (nth (r / n) dirs true) else 1.
Lemma signed_square dirs r : signed dirs r * signed dirs r = 1.
Proof. unfold signed, orient. destruct (_ <? _)%nat; [destruct (nth _ _ _)|]; ring. Qed.

Lemma dof_row ref dirs r c : rt_base ref -> (r < N)%nat -> rt_dof seg tri k ref dirs r (VX c, VY c) = signed dirs r * row dirs r c.
Proof.
  intros B Hr. pose proof (low_add k). unfold rt_dof, row, signed, below. rewrite half_low. destruct (Nat.ltb_spec r (3 * n)) as [A|A]; [|destruct (Nat.ltb_spec r (3 * n + low k)) as [A'|A']].
  - unfold edge_dof, Q. cbn [fst snd]. rewrite !Rmult_0_l, !Rplus_0_l. rewrite <- apply_scal. apply apply_ext. intros q Hq. cbv zeta. unfold normal_part, trace. cbn [fst snd]. ring.
  - rewrite Rmult_1_l. unfold inner_dof, L. apply apply_ext. intros q Hq. cbv zeta. cbn [fst snd]. rewrite (rt_monomial_phi ref) by (auto; lia). reflexivity.
  - rewrite Rmult_1_l. unfold inner_dof, L. apply apply_ext. intros q Hq. cbv zeta. cbn [fst snd]. rewrite (rt_monomial_phi ref) by (auto; lia). reflexivity.
Qed.

Lemma split3 (f : nat -> R) : rsum N f = rsum (num2 k) f + rsum (num2 k) (fun j => f (num2 k + j)%nat) + rsum n (fun j => f (2 * num2 k + j)%nat).
Proof.
  rewrite N_val. replace (2 * num2 k)%nat with (num2 k + num2 k)%nat by lia. rewrite !rsum_add. reflexivity.
Qed.

Lemma gE_comb V1 m e i a (F : nat -> nat -> R) c : rsum m (fun j => gE k V1 e i a (fun q => F q j) * c j) =
  rsum n (fun q => m_at V1 q i * a (n * e + q)%nat * rsum m (fun j => c j * F (n * e + q)%nat j)).
Proof.
  unfold gE. rewrite (rsum_ext n _ (fun q => rsum m (fun j => m_at V1 q i * a (n * e + q)%nat * F (n * e + q)%nat j * c j))).
  - rewrite rsum_swap. apply rsum_ext. intros j Hj. symmetry. apply rsum_scal_r.
  - intros q Hq. rewrite <- rsum_scal. apply rsum_ext. intros; ring.
Qed.
Lemma gI_comb PV W m i (F : nat -> nat -> R) c : rsum m (fun j => gI PV W i (fun q => F q j) * c j) =
  rsum (v_size W) (fun q => m_at PV q i * v_at W q * rsum m (fun j => c j * F q j)).
Proof.
  unfold gI. rewrite (rsum_ext (v_size W) _ (fun q => rsum m (fun j => m_at PV q i * v_at W q * F q j * c j))).
  - rewrite rsum_swap. apply rsum_ext. intros j Hj. symmetry. apply rsum_scal_r.
  - intros q Hq. rewrite <- rsum_scal. apply rsum_ext. intros; ring.
Qed.

Lemma coefficients junk lu ref dirs BQ x y : exact_for nonsingular lu -> rt_base ref -> length dirs = 3%nat ->
  map_at (rt_BoundaryQuadrature ref) dirs = Ok BQ -> edge_facts seg n dirs BQ x y ->
  exists C, rt_MonomialsCoefficients junk lu dirs ref = Ok C /\ m_rows C = N /\ m_cols C = N /\
    forall r j, (r < N)%nat -> (j < N)%nat -> row dirs r (fun l => m_at C l j) = if (r =? j)%nat then signed dirs r else 0.
Proof.
  intros LU B Hd EM EF. unfold rt_MonomialsCoefficients. rewrite EM. cbn [bind]. rewrite (rx_n1 _ B), (rx_N _ B).
  destruct (rt_B_ok n N dirs Hd ltac:(lia)) as (Bm & EB & BR & BC & BA). rewrite EB. cbn [bind]. rewrite (rx_scale _ B).
  destruct (vander_m k _ (rx_mono _ B) junk (q_Points (eq_Quadrature BQ)) (rt_center_2D ref) 1 (ef_rows _ _ _ _ _ _ EF) R1_neq_R0) as (V2 & EV2 & V2R & V2C & V2A).
  rewrite EV2. cbn [bind]. unfold centered. rewrite (ef_rows _ _ _ _ _ _ EF), Nat.eqb_refl. cbn [bind]. rewrite (rx_Order _ B), (rx_Nk _ B), (rx_Nkm1 _ B), (ef_normal _ _ _ _ _ _ EF).
  rewrite (rx_Quadrature _ B). cbn [Compute_MCC_2D vq_ReferenceTriangleQuadrature].
  pose proof (low_add k) as LA. pose proof (num2_val k) as NV. destruct (rr_triangle _ _ _ RR) as (TR1 & TR2).
  assert (EC := ef_cols _ _ _ _ _ _ EF). assert (WT := ef_weights _ _ _ _ _ _ EF).
  match goal with |- context [rt_G k n N _ _ ?V1 _ _ ?XY ?PV ?W] => set (xy := XY);
    destruct (rt_G_ok k (num2 k) (low k) V1 x y V2 xy PV W) as (G & EG & GR & GC & G1 & G2 & G3 & G4) end; try (first [lia | apply B | apply EF]).
  - reflexivity.
  - rewrite (rx_PVr _ B). lia.
  - intros q Hq. destruct (WT 0%nat q ltac:(lia) Hq) as (W0 & _). rewrite Nat.mul_0_r, Nat.add_0_l in W0. rewrite W0. cbn. ring.
  - intros q Hq. destruct (WT 2%nat q ltac:(lia) Hq) as (_ & W1). rewrite (Nat.mul_comm 2). rewrite W1. cbn. ring.
  - rewrite EG. cbn [bind]. unfold msolve. rewrite GR, GC, BR, !Nat.eqb_refl. cbn [andb].
    assert (GA : forall r c, (r < N)%nat -> rsum N (fun l => m_at G r l * c l) = row dirs r c).
    { intros r c Hr. rewrite split3. unfold row. destruct (Nat.ltb_spec r (3 * n)) as [A|A]; [|destruct (Nat.ltb_spec r (3 * n + low k)) as [A'|A']].
      - set (e := (r / n)%nat). set (i := (r mod n)%nat).
        assert (He : (e < 3)%nat) by (apply Nat.div_lt_upper_bound; lia). assert (Hi : (i < n)%nat) by (apply Nat.mod_upper_bound; lia).
        assert (Er : r = (n * e + i)%nat) by (apply Nat.div_mod; lia). rewrite Er.
        rewrite (rsum_ext (num2 k) _ (fun j => gE k (rt_VanderBoundary1D ref) e i (v_at x) (fun q => m_at V2 q j) * c j)) by (intros j Hj; now rewrite (proj1 (G1 e i j He Hi Hj))).
        rewrite (rsum_ext (num2 k) (fun j => m_at G _ _ * _) (fun j => gE k (rt_VanderBoundary1D ref) e i (v_at y) (fun q => m_at V2 q j) * c (num2 k + j)%nat)) by (intros j Hj; now rewrite (proj2 (G1 e i j He Hi Hj))).
        rewrite (rsum_ext n (fun j => m_at G _ _ * _) (fun j => gE k (rt_VanderBoundary1D ref) e i (fun q => v_at x q * m_at xy 0 q + v_at y q * m_at xy 1 q) (fun q => m_at V2 q (low k + j)%nat) * c (2 * num2 k + j)%nat)) by (intros j Hj; now rewrite (G2 e i j He Hi Hj)).
        rewrite (gE_comb _ (num2 k) e i (v_at x) (fun q j => m_at V2 q j) c), (gE_comb _ (num2 k) e i (v_at y) (fun q j => m_at V2 q j) (fun j => c (num2 k + j)%nat)).
        rewrite (gE_comb _ n e i (fun q => v_at x q * m_at xy 0 q + v_at y q * m_at xy 1 q) (fun q j => m_at V2 q (low k + j)%nat) (fun j => c (2 * num2 k + j)%nat)).
        unfold Q. cbn [fst snd]. rewrite !Rmult_0_l, !Rplus_0_l. unfold apply_rule. rewrite <- !rsum_plus.
        destruct (rr_segment _ _ _ RR) as (_ & SW). rewrite SW, (rr_segment_points _ _ _ RR).
        apply rsum_ext. intros q Hq. destruct (WT e q He Hq) as (W0 & W1). destruct (ef_points _ _ _ _ _ _ EF e q He Hq) as (P0 & P1).
        unfold trace, vx, vy, vh. rewrite (rx_V1 _ B) by auto. subst xy. cbn [m_at]. rewrite W0, W1, P0, P1, (rx_c0 _ B), (rx_c1 _ B).
        set (X := edge_x _ e _). set (Y := edge_y _ e _). set (t := m_at (q_Points seg) 0 q). set (w := v_at (q_Weights seg) q).
        rewrite (rsum_ext (num2 k) (fun j => c j * m_at V2 _ j) (fun j => c j * ph j X Y)).
        2:{ intros j Hj. rewrite V2A by auto. rewrite P0, P1, (rx_c0 _ B), (rx_c1 _ B). reflexivity. }
        rewrite (rsum_ext (num2 k) (fun j => c (num2 k + j)%nat * m_at V2 _ j) (fun j => c (num2 k + j)%nat * ph j X Y)).
        2:{ intros j Hj. rewrite V2A by auto. rewrite P0, P1, (rx_c0 _ B), (rx_c1 _ B). reflexivity. }
        rewrite (rsum_ext n (fun j => c (2 * num2 k + j)%nat * m_at V2 _ _) (fun j => c (2 * num2 k + j)%nat * ph (low k + j) X Y)).
        2:{ intros j Hj. rewrite V2A by lia. rewrite P0, P1, (rx_c0 _ B), (rx_c1 _ B). reflexivity. }
        field.
      - set (i := (r - 3 * n)%nat). assert (Hi : (i < low k)%nat) by lia. assert (Er : r = (3 * n + i)%nat) by lia. rewrite Er.
        assert (K : (0 < k)%nat) by (destruct k as [|k']; [exfalso; cbn in LA, NV, Hi; lia|lia]).
        assert (N3 : (3 <= num2 k)%nat) by nia.
        rewrite (rsum_ext (num2 k) _ (fun j => gI (rt_p_ReferenceBasisFunctionValues ref) (q_Weights tri) i (fun q => m_at (rt_p_ReferenceBasisFunctionValues ref) q j) * c j)) by (intros j Hj; now rewrite (proj1 (G3 i j Hi Hj))).
        rewrite (rsum_0 (num2 k) (fun j => m_at G _ _ * _)) by (intros j Hj; rewrite (proj1 (proj2 (G3 i j Hi Hj))); ring).
        rewrite (rsum_ext n (fun j => m_at G _ _ * _) (fun j => gI (rt_p_ReferenceBasisFunctionValues ref) (q_Weights tri) i (fun q => m_at (rt_p_ReferenceBasisFunctionValues ref) q 1 * m_at (rt_p_ReferenceBasisFunctionValues ref) q (low k + j)%nat) * c (2 * num2 k + j)%nat)) by (intros j Hj; now rewrite (proj1 (G4 i j Hi Hj))).
        rewrite (gI_comb (rt_p_ReferenceBasisFunctionValues ref) (q_Weights tri) (num2 k) i (fun q j => m_at (rt_p_ReferenceBasisFunctionValues ref) q j) c), (gI_comb (rt_p_ReferenceBasisFunctionValues ref) (q_Weights tri) n i (fun q j => m_at (rt_p_ReferenceBasisFunctionValues ref) q 1 * m_at (rt_p_ReferenceBasisFunctionValues ref) q (low k + j)%nat) (fun j => c (2 * num2 k + j)%nat)).
        unfold L, apply_rule. rewrite Rplus_0_r. rewrite <- !rsum_plus.
        apply rsum_ext. intros q Hq. unfold vx, vh. rewrite (rx_PV _ B q i) by lia. set (X := m_at _ 0 q). set (Y := m_at _ 1 q). set (w := v_at _ q).
        rewrite (rsum_ext (num2 k) (fun j => c j * m_at (rt_p_ReferenceBasisFunctionValues ref) q j) (fun j => c j * ph j X Y)) by (intros j Hj; now rewrite (rx_PV _ B) by auto).
        rewrite (rsum_ext n (fun j => c (2 * num2 k + j)%nat * (m_at (rt_p_ReferenceBasisFunctionValues ref) q 1 * m_at (rt_p_ReferenceBasisFunctionValues ref) q (low k + j)%nat)) (fun j => ph 1 X Y * (c (2 * num2 k + j)%nat * ph (low k + j) X Y))) by (intros j Hj; rewrite !(rx_PV _ B) by lia; fold X Y; ring).
        rewrite rsum_scal. assert (EA : ea 1 = 1%nat) by (vm_compute; reflexivity). assert (EB' : eb 1 = 0%nat) by (vm_compute; reflexivity). assert (E1 : ph 1 X Y = (X - 1 / 3) / 1) by (unfold PolyProofs.phi, mn; rewrite EA, EB'; cbn [pow]; ring). rewrite E1. ring.
      - set (i := (r - 3 * n - low k)%nat). assert (Hi : (i < low k)%nat) by lia. assert (Er : r = (3 * n + low k + i)%nat) by lia. rewrite Er.
        assert (K : (0 < k)%nat) by (destruct k as [|k']; [exfalso; cbn in LA, NV, Hi; lia|lia]).
        assert (N3 : (3 <= num2 k)%nat) by nia.
        rewrite (rsum_0 (num2 k) (fun j => m_at G _ j * _)) by (intros j Hj; rewrite (proj1 (proj2 (proj2 (G3 i j Hi Hj)))); ring).
        rewrite (rsum_ext (num2 k) (fun j => m_at G _ _ * _) (fun j => gI (rt_p_ReferenceBasisFunctionValues ref) (q_Weights tri) i (fun q => m_at (rt_p_ReferenceBasisFunctionValues ref) q j) * c (num2 k + j)%nat)) by (intros j Hj; now rewrite (proj2 (proj2 (proj2 (G3 i j Hi Hj))))).
        rewrite (rsum_ext n (fun j => m_at G _ _ * _) (fun j => gI (rt_p_ReferenceBasisFunctionValues ref) (q_Weights tri) i (fun q => m_at (rt_p_ReferenceBasisFunctionValues ref) q 2 * m_at (rt_p_ReferenceBasisFunctionValues ref) q (low k + j)%nat) * c (2 * num2 k + j)%nat)) by (intros j Hj; now rewrite (proj2 (G4 i j Hi Hj))).
        rewrite (gI_comb (rt_p_ReferenceBasisFunctionValues ref) (q_Weights tri) (num2 k) i (fun q j => m_at (rt_p_ReferenceBasisFunctionValues ref) q j) (fun j => c (num2 k + j)%nat)), (gI_comb (rt_p_ReferenceBasisFunctionValues ref) (q_Weights tri) n i (fun q j => m_at (rt_p_ReferenceBasisFunctionValues ref) q 2 * m_at (rt_p_ReferenceBasisFunctionValues ref) q (low k + j)%nat) (fun j => c (2 * num2 k + j)%nat)).
        unfold L, apply_rule. rewrite Rplus_0_l. rewrite <- !rsum_plus.
        apply rsum_ext. intros q Hq. unfold vy, vh. rewrite (rx_PV _ B q i) by lia. set (X := m_at _ 0 q). set (Y := m_at _ 1 q). set (w := v_at _ q).
        rewrite (rsum_ext (num2 k) (fun j => c (num2 k + j)%nat * m_at (rt_p_ReferenceBasisFunctionValues ref) q j) (fun j => c (num2 k + j)%nat * ph j X Y)) by (intros j Hj; now rewrite (rx_PV _ B) by auto).
        rewrite (rsum_ext n (fun j => c (2 * num2 k + j)%nat * (m_at (rt_p_ReferenceBasisFunctionValues ref) q 2 * m_at (rt_p_ReferenceBasisFunctionValues ref) q (low k + j)%nat)) (fun j => ph 2 X Y * (c (2 * num2 k + j)%nat * ph (low k + j) X Y))) by (intros j Hj; rewrite !(rx_PV _ B) by lia; fold X Y; ring).
        rewrite rsum_scal. assert (EA : ea 2 = 0%nat) by (vm_compute; reflexivity). assert (EB' : eb 2 = 1%nat) by (vm_compute; reflexivity). assert (E1 : ph 2 X Y = (Y - 1 / 3) / 1) by (unfold PolyProofs.phi, mn; rewrite EA, EB'; cbn [pow]; ring). rewrite E1. ring. }
    eexists. split; [reflexivity|]. cbn [m_rows m_cols m_at]. split; auto. split; auto.
    assert (NS : nonsingular G).
    { split; [congruence|]. rewrite GR, GC. intros z Z. apply (rows_vanish dirs). intros r Hr. rewrite <- GA by auto. apply Z; auto. }
    assert (SO := LU G Bm ltac:(congruence) ltac:(congruence) NS). unfold solves in SO. rewrite GR, GC, BC in SO. cbn [m_at] in SO.
    intros r j Hr Hj. rewrite <- GA by auto. rewrite SO by auto. rewrite BA. unfold signed. destruct (Nat.eqb_spec r j); auto.
Qed.
End Element.
