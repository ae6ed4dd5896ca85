(** The virtual element of order k as the scalar element. *)
From Coq Require Import List Arith Bool Reals Lia Lra.
From Verif Require Import Base RSum MatrixModel EquationModel EquationSpec GreenSpec VemQuadModel VemQuadSpec VemModel VemSpec VemProofs VemProofs2 VemProofs3 VemProofs4 VemProofs5 GreenProofs DriverModel ElasticModel ElasticSpec ElasticProofs ElasticProofs2.
Import ListNotations.
Local Open Scope R_scope.

Section Vem.
Variables (gt lob : nat -> QuadratureData) (junk : nat -> nat -> R) (lu llt : Solver) (k : nat) (p : Polygon) (ref : VEM_2D_Reference) (l : VEM_2D_Local).
Hypothesis VS : vem_space gt lob junk lu llt k p ref l.

Lemma vem_points : rule (lv_InternalQuadrature l) /\ (0 < v_size (q_Weights (lv_InternalQuadrature l)))%nat.
Proof.
  pose proof (LF gt lob junk lu llt k p ref l VS) as F. split; [exact (lf_IQ _ _ _ _ _ _ F)|].
  pose proof (lf_area _ _ _ _ _ _ F) as Ar. pose proof (vs_polygon _ _ _ _ _ _ _ _ _ VS) as GP.
  destruct (v_size (q_Weights (lv_InternalQuadrature l))) as [|m] eqn:Em; [|lia]. exfalso. unfold fI, apply_rule in Ar. rewrite Em in Ar. cbn [rsum] in Ar.
  pose proof (gp_area _ GP) as H. lra.
Qed.
Lemma vem_linear (f fx fy : R -> R -> R) : poly2 1 f fx fy -> poly2 k f fx fy.
Proof. pose proof (vs_order _ _ _ _ _ _ _ _ _ VS) as Hk. intros H. apply (poly2_le 1 k); auto. Qed.

(** the scalar space given to the driver: local_space.hpp 79-98 of the example *)
Variable sp : LocalSpace.
Hypothesis U : vem_scalar l sp.
Local Notation N := (lv_NumBasisFunctions l). Local Notation Q := (lv_InternalQuadrature l).
Lemma vem_element : exists V D0 D1 S, scalar_element sp N Q V D0 D1 S /\ (forall i j, m_at S i j = m_at S j i) /\ (forall x, 0 <= bilinear N S x x) /\
  forall f fx fy, poly2 k f fx fy ->
    (forall q, rsum N (fun j => m_at V q j * dofs_of ref l f j) = f (m_at (q_Points Q) 0 q) (m_at (q_Points Q) 1 q) /\
    rsum N (fun j => m_at D0 q j * dofs_of ref l f j) = fx (m_at (q_Points Q) 0 q) (m_at (q_Points Q) 1 q) /\
    rsum N (fun j => m_at D1 q j * dofs_of ref l f j) = fy (m_at (q_Points Q) 0 q) (m_at (q_Points Q) 1 q)) /\
    forall i, rsum N (fun j => m_at S i j * dofs_of ref l f j) = 0.
Proof.
  destruct U as (U1 & U2 & U3 & U4). destruct vem_points as ([R1' R2'] & R3').
  destruct (quadrature_values_all gt lob junk lu llt k p ref l VS) as ((V & EV & V1 & V2 & V3) & _ & _ & (P0 & P1 & D0 & D1 & EP & ED & D01 & D02 & D11 & D12 & D3)).
  destruct (stabilization_all gt lob junk lu llt k p ref l VS PiNabla_t (or_introl eq_refl)) as (S & ES & S1 & S2 & S3 & S4 & S5).
  exists V, D0, D1, S. split; [|split; [exact S3|split]].
  - constructor.
    + exact U1.
    + rewrite <- R2'. auto.
    + rewrite U2. split; auto. split; congruence.
    + rewrite U3. split; auto. split; split; congruence.
    + rewrite U4. split; auto. split; congruence.
  - intros x. specialize (S5 x). rewrite S1, S2 in S5. unfold bilinear. rewrite S5. rewrite Rmult_1_l. apply rsum_nonneg. intros q _. apply pow2_ge_0.
  - intros f fx fy Pf. split.
    + intros q. destruct (reproduce_all gt lob junk lu llt k p ref l VS f fx fy Pf (m_at (q_Points Q) 0 q) (m_at (q_Points Q) 1 q)) as (_ & T1 & _ & (P0' & P1' & EP' & T2 & T3)).
      rewrite EP in EP'. injection EP' as <- <-. specialize (V3 (dofs_of ref l f) q). destruct (D3 (dofs_of ref l f) q) as (D4 & D5).
      unfold combine in V3, D4, D5. rewrite V2 in V3. rewrite D02 in D4. rewrite D12 in D5. rewrite V3, D4, D5. auto.
    + intros i. specialize (S4 f fx fy Pf i). unfold combine in S4. rewrite S2 in S4. exact S4.
Qed.

Local Notation d1 := (dofs_of ref l (fun _ _ => 1)). Local Notation dx := (dofs_of ref l (fun x _ => x)). Local Notation dy := (dofs_of ref l (fun _ y => y)).
Lemma p_one : poly2 k (fun _ _ => 1) (fun _ _ => 0) (fun _ _ => 0).
Proof. apply poly2_const. Qed.
Lemma p_x : poly2 k (fun x _ => x) (fun _ _ => 1) (fun _ _ => 0).
Proof. apply (poly2_ext k (fun x y => 0 + 1 * x + 0 * y) (fun _ _ => 1) (fun _ _ => 0)); [apply poly2_affine; exact (vs_order _ _ _ _ _ _ _ _ _ VS)|..]; intros; ring. Qed.
Lemma p_y : poly2 k (fun _ y => y) (fun _ _ => 0) (fun _ _ => 1).
Proof. apply (poly2_ext k (fun x y => 0 + 0 * x + 1 * y) (fun _ _ => 0) (fun _ _ => 1)); [apply poly2_affine; exact (vs_order _ _ _ _ _ _ _ _ _ VS)|..]; intros; ring. Qed.

Lemma vem_elastic P : exists V D0 D1 S A b, scalar_element sp N Q V D0 D1 S /\ elastic_cell sp P = Ok (A, b) /\ linear_functions N Q D0 D1 S d1 dx dy /\
  (forall i j, (i < 2 * N)%nat -> (j < 2 * N)%nat -> m_at A i j = m_at A j i) /\
  forall a c r i, (i < 2 * N)%nat -> rsum (2 * N) (fun j => m_at A i j * rigid N d1 dx dy a c r j) = 0.
Proof.
  destruct vem_element as (V & D0 & D1 & S & SE & S3 & S4 & F). destruct (cell_form sp N Q V D0 D1 S SE P) as (A & b & kk & E & _).
  assert (LFn : linear_functions N Q D0 D1 S d1 dx dy).
  { destruct (F _ _ _ p_one) as (F1 & F2). destruct (F _ _ _ p_x) as (F3 & F4). destruct (F _ _ _ p_y) as (F5 & F6). split.
    - intros q _. destruct (F1 q) as (_ & -> & ->). destruct (F3 q) as (_ & -> & ->). destruct (F5 q) as (_ & -> & ->). repeat split; reflexivity.
    - intros i _. auto. }
  exists V, D0, D1, S, A, b. split; [exact SE|]. split; [exact E|]. split; [exact LFn|]. split.
  - apply (cell_symmetric sp N Q V D0 D1 S P A b SE E). intros; apply S3.
  - intros a c r i Hi. exact (cell_rigid sp N Q V D0 D1 S P A b SE E d1 dx dy LFn a c r i Hi).
Qed.

(** polynomial displacements of degree k have no error *)
Lemma vem_exact f1 f1x f1y f2 f2x f2y u : poly2 k f1 f1x f1y -> poly2 k f2 f2x f2y -> sized (2 * N) u ->
  (forall j, (j < N)%nat -> v_at u j = dofs_of ref l f1 j /\ v_at u (N + j) = dofs_of ref l f2 j) ->
  exists r, elastic_errors sp (fun x y _ d => match d with 0%nat => f1 x y | 1%nat => f2 x y | _ => 0 end)
    (fun x y _ d => match d with 0%nat => f1x x y | 1%nat => f1y x y | 3%nat => f2x x y | 4%nat => f2y x y | _ => 0 end) u = Ok r /\ ee_error_L2 r = 0 /\ ee_error_H1 r = 0.
Proof.
  intros H1 H2 Su Hu. destruct vem_element as (V & D0 & D1 & S & SE & _ & _ & F).
  destruct (cell_errors sp N Q V D0 D1 S SE (fun x y _ d => match d with 0%nat => f1 x y | 1%nat => f2 x y | _ => 0 end)
    (fun x y _ d => match d with 0%nat => f1x x y | 1%nat => f1y x y | 3%nat => f2x x y | 4%nat => f2y x y | _ => 0 end) u Su) as (r & E & E1 & _ & E3 & _).
  exists r. split; [exact E|]. destruct (F _ _ _ H1) as (F1 & _). destruct (F _ _ _ H2) as (F2 & _).
  assert (T : forall (M : Mat) q, rsum N (fun j => m_at M q j * v_at u (0 * N + j)%nat) = rsum N (fun j => m_at M q j * dofs_of ref l f1 j) /\
    rsum N (fun j => m_at M q j * v_at u (1 * N + j)%nat) = rsum N (fun j => m_at M q j * dofs_of ref l f2 j)).
  { intros M q. split; apply rsum_ext; intros j Hj; destruct (Hu j Hj) as (Q1 & Q2).
    - replace (0 * N + j)%nat with j by lia. rewrite Q1. reflexivity.
    - replace (1 * N + j)%nat with (N + j)%nat by lia. rewrite Q2. reflexivity. }
  split; [rewrite E1|rewrite E3]; apply rsum_0; intros q _; destruct (F1 q) as (A1 & A2 & A3); destruct (F2 q) as (B1 & B2 & B3);
    unfold displacement, gradient; cbn [rsum]; rewrite !(proj1 (T _ q)), !(proj2 (T _ q)); unfold at_quadrature; cbn [Nat.mul Nat.add].
  - rewrite A1, B1. ring.
  - rewrite A2, A3, B2, B3. ring.
Qed.
End Vem.
