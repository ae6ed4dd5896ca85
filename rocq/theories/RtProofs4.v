(** Values and divergence of the basis functions, creation of the reference element. *)
From Coq Require Import List Arith Bool Lia ZArith Reals Lra.
From Verif Require Import Base RSum MatrixModel MonomialsModel MonomialsSpec MonomialsProofs MonomialsProofs2 MonomialsProofs3 MonomialsProofs4 MonomialsProps
  LagrangeSpec LagrangeProofs GBasisProofs VemQuadModel VemQuadSpec VemQuadProofs VemQuadProofs2 GreenSpec GreenProofs PolyProofs VemModel VemSpec VemProofs VemProofs2
  RtModel RtSpec RtProofs RtProofs2 RtProofs3.
Import ListNotations.
Local Open Scope R_scope.

(** ** Maps *)
Lemma bools_eqb_spec a b : bools_eqb a b = true <-> a = b.
Proof.
  revert b. induction a as [|x a IH]; intros [|y b]; cbn; split; try congruence.
  - intros (A & B)%andb_prop. apply eqb_prop in A. apply IH in B. congruence.
  - intros E. injection E as -> ->. rewrite eqb_reflx. cbn. now apply IH.
Qed.
Lemma map_app {A} (m : key_map A) k a k' : map_at (m ++ [(k, a)]) k' = match map_at m k' with Ok b => Ok b | _ => if bools_eqb k k' then Ok a else Throw end.
Proof. induction m as [|(k0 & a0) m IH]; cbn; [reflexivity|]. destruct (bools_eqb k0 k'); auto. Qed.
Lemma map_new {A} (m : key_map A) k a : map_at m k = Throw -> map_at (map_insert m k a) k = Ok a.
Proof. intros H. unfold map_insert. rewrite H, map_app, H. now rewrite (proj2 (bools_eqb_spec k k) eq_refl). Qed.
Lemma map_never_UB {A} (m : key_map A) k : map_at m k <> UB.
Proof. induction m as [|(k0 & a0) m IH]; cbn; [discriminate|]. destruct (bools_eqb k0 k); [discriminate|auto]. Qed.
Lemma map_other {A} (m : key_map A) k a k' : k' <> k -> map_at (map_insert m k a) k' = map_at m k'.
Proof.
  intros H. unfold map_insert. destruct (map_at m k); auto; rewrite map_app; pose proof (map_never_UB m k'); destruct (map_at m k') eqn:E; auto; try congruence;
    destruct (bools_eqb k k') eqn:E'; auto; apply bools_eqb_spec in E'; congruence.
Qed.

Lemma directions_all dirs : length dirs = 3%nat -> exists e, (e < 8)%nat /\ nth_error rt_directions e = Some dirs.
Proof.
  intros H. destruct dirs as [|a [|b [|c [|]]]]; try discriminate.
  destruct a, b, c; [exists 0%nat|exists 1%nat|exists 3%nat|exists 6%nat|exists 2%nat|exists 5%nat|exists 4%nat|exists 7%nat]; split; (lia || reflexivity).
Qed.
Lemma directions_nodup e e' d : nth_error rt_directions e = Some d -> nth_error rt_directions e' = Some d -> e = e'.
Proof.
  intros H H'. assert (e < 8)%nat by (apply (nth_error_Some rt_directions e); congruence). assert (e' < 8)%nat by (apply (nth_error_Some rt_directions e'); congruence).
  do 8 (destruct e as [|e]; [do 8 (destruct e' as [|e']; [reflexivity || (cbn in H, H'; congruence)|]); lia|]). lia.
Qed.

Section Element.
Variables (gt gs : nat -> QuadratureData) (k : nat).
Hypothesis RR : rt_rules gt gs k.
Notation seg := (gs (2 * k + 1)%nat).
Notation tri := (gt (2 * (k + 1))%nat).
Notation n := (k + 1)%nat.
Notation N := (3 * n + 2 * low k)%nat.
Notation ph := (PolyProofs.phi (1 / 3) (1 / 3) 1).
Notation VX := (vx (1 / 3) (1 / 3) 1 k).
Notation VY := (vy (1 / 3) (1 / 3) 1 k).
Notation VD := (vdiv (1 / 3) (1 / 3) 1 k).
Notation base := (rt_base gt gs k).
Definition column (C : Mat) (j : nat) (l : nat) : R := m_at C l j.
Definition fld (C : Mat) (j : nat) : field := (VX (column C j), VY (column C j)).

Ltac dims := cbn [m_rows m_cols mzero v_size mscal]; lia.

Lemma values_of ref C : base ref -> m_rows C = N -> velocity_fields ref C (fld C).
Proof using.
  intros B HC junk points Hp. pose proof (low_add k) as LA. unfold EvaluateVelocityBasisFunctions, centered. rewrite Hp, Nat.eqb_refl. cbn [bind]. rewrite (rx_scale _ _ _ _ B).
  destruct (vander_m k _ (rx_mono _ _ _ _ B) junk points (rt_center_2D ref) 1 Hp R1_neq_R0) as (V & EV & VR & VC & VA). rewrite EV. cbn [bind].
  rewrite (rx_Order _ _ _ _ B), (rx_Nk _ _ _ _ B). unfold rightCols. rewrite leb_true by lia. rewrite block_ok by lia. cbn [bind].
  unfold topRows, middleRows, bottomRows. rewrite !block_ok by lia. rewrite leb_true by lia. cbn [bind].
  rewrite !mmul_ok by dims. cbn [bind]. rewrite !row_diag_ok by dims. cbn [bind]. rewrite !madd_ok by dims. cbn [bind m_rows m_cols m_at].
  eexists _, _. split; [reflexivity|]. cbn [m_rows m_cols m_at]. do 4 (split; auto). intros q j Hq Hj. rewrite VC.
  assert (EB : forall d, rsum n (fun l => 1 / 1 * (m_at points d q - rt_center_2D ref d) * m_at V (0 + q)%nat (num2 k - n + l)%nat * m_at C (m_rows C - n + l)%nat (0 + j)%nat)
     = (m_at points d q - rt_center_2D ref d) / 1 * vh (1 / 3) (1 / 3) 1 k (column C j) (m_at points 0 q) (m_at points 1 q)).
  { intros d. unfold vh. rewrite <- rsum_scal. apply rsum_ext. intros l Hl. rewrite !Nat.add_0_l. rewrite VA by lia.
    rewrite (rx_c0 _ _ _ _ B), (rx_c1 _ _ _ _ B). unfold column. replace (num2 k - n + l)%nat with (low k + l)%nat by (unfold low; lia). replace (m_rows C - n + l)%nat with (2 * num2 k + l)%nat by lia. field. }
  rewrite !EB. rewrite (rx_c0 _ _ _ _ B), (rx_c1 _ _ _ _ B). cbn [fld fst snd]. unfold vx, vy. split; f_equal; apply rsum_ext; intros l Hl; rewrite VA by auto;
    rewrite (rx_c0 _ _ _ _ B), (rx_c1 _ _ _ _ B); unfold column; rewrite ?Nat.add_0_l; ring.
Qed.

Lemma divergence_of ref C : base ref -> m_rows C = N -> divergence_fields ref C (fun j => VD (column C j)).
Proof using.
  intros B HC junk points Hp. pose proof (low_add k) as LA. unfold EvaluateVelocityBasisFunctionsDivergence, centered. rewrite Hp, Nat.eqb_refl. cbn [bind]. rewrite (rx_scale _ _ _ _ B).
  destruct (vander_m k _ (rx_mono _ _ _ _ B) junk points (rt_center_2D ref) 1 Hp R1_neq_R0) as (V & EV & VR & VC & VA). rewrite EV. cbn [bind].
  destruct (vander_der_m k _ (rx_mono _ _ _ _ B) junk junk points (rt_center_2D ref) 1 V Hp R1_neq_R0 EV) as (VDs & V0 & V1 & EVD & -> & R0' & C0' & R1' & C1' & A0 & A1).
  rewrite EVD. cbn [bind idx_ nth_error]. rewrite (rx_Order _ _ _ _ B), (rx_Nk _ _ _ _ B).
  unfold topRows, middleRows, bottomRows. rewrite !block_ok by lia. rewrite leb_true by lia. cbn [bind].
  rewrite !mmul_ok by dims. cbn [bind]. rewrite !madd_ok by dims. cbn [bind m_rows m_cols m_at].
  unfold rightCols. rewrite !leb_true by lia. rewrite !block_ok by lia. cbn [bind].
  rewrite !mmul_ok by dims. cbn [bind m_rows m_cols m_at mscal]. rewrite !madd_ok by dims. cbn [bind m_rows m_cols m_at].
  rewrite !row_diag_ok by dims. cbn [bind m_rows m_cols m_at]. rewrite !madd_ok by dims. cbn [bind m_rows m_cols m_at]. rewrite !madd_ok by dims.
  eexists. split; [reflexivity|]. cbn [m_rows m_cols m_at]. do 2 (split; auto). intros q j Hq Hj. rewrite C0', C1', VC.
  rewrite <- vdiv_eq by apply R1_neq_R0. unfold vx_x, vy_y.
  set (X := m_at points 0 q). set (Y := m_at points 1 q).
  assert (CL : forall l, (num2 k - n + l = low k + l)%nat) by (intros; unfold low; lia).
  assert (CB : forall l, (m_rows C - n + l = 2 * num2 k + l)%nat) by (intros; lia).
  rewrite (rsum_ext (num2 k) (fun l => m_at V0 q l * _) (fun l => column C j l * PolyProofs.phix (1 / 3) (1 / 3) 1 l X Y)).
  2:{ intros l Hl. rewrite A0 by auto. rewrite (rx_c0 _ _ _ _ B), (rx_c1 _ _ _ _ B). unfold column. rewrite ?Nat.add_0_l. fold X Y. ring. }
  rewrite (rsum_ext (num2 k) (fun l => m_at V1 q l * _) (fun l => column C j (num2 k + l)%nat * PolyProofs.phiy (1 / 3) (1 / 3) 1 l X Y)).
  2:{ intros l Hl. rewrite A1 by auto. rewrite (rx_c0 _ _ _ _ B), (rx_c1 _ _ _ _ B). unfold column. rewrite ?Nat.add_0_l. fold X Y. ring. }
  rewrite (rsum_ext n (fun l => 2 * (1 / 1) * m_at V _ _ * _) (fun l => 2 * (column C j (2 * num2 k + l)%nat * ph (low k + l) X Y))).
  2:{ intros l Hl. rewrite CL, CB, ?Nat.add_0_l, VA by lia. rewrite (rx_c0 _ _ _ _ B), (rx_c1 _ _ _ _ B). unfold column. fold X Y. field. }
  rewrite (rsum_ext n (fun l => _ * m_at V0 _ _ * _) (fun l => (X - 1 / 3) / 1 * (column C j (2 * num2 k + l)%nat * PolyProofs.phix (1 / 3) (1 / 3) 1 (low k + l) X Y))).
  2:{ intros l Hl. rewrite CL, CB, ?Nat.add_0_l, A0 by lia. rewrite (rx_c0 _ _ _ _ B), (rx_c1 _ _ _ _ B). unfold column. fold X Y. field. }
  rewrite (rsum_ext n (fun l => _ * m_at V1 _ _ * _) (fun l => (Y - 1 / 3) / 1 * (column C j (2 * num2 k + l)%nat * PolyProofs.phiy (1 / 3) (1 / 3) 1 (low k + l) X Y))).
  2:{ intros l Hl. rewrite CL, CB, ?Nat.add_0_l, A1 by lia. rewrite (rx_c0 _ _ _ _ B), (rx_c1 _ _ _ _ B). unfold column. fold X Y. field. }
  rewrite !rsum_scal. unfold vh, vhx, vhy. field.
Qed.

Lemma divergence_is c : is_divergence (VX c, VY c) (VD c).
Proof using.
  intros x y. destruct (poly2_partials _ _ _ _ x y (vx_poly (1 / 3) (1 / 3) 1 k R1_neq_R0 c)) as (A & _).
  destruct (poly2_partials _ _ _ _ x y (vy_poly (1 / 3) (1 / 3) 1 k R1_neq_R0 c)) as (_ & B).
  eexists _, _. split; [exact A|]. split; [exact B|]. symmetry. apply vdiv_eq. apply R1_neq_R0.
Qed.

(** ** The fields are those of the Raviart-Thomas space *)
Lemma fld_space c : rt_field k (VX c, VY c).
Proof using.
  set (g := vh (1 / 3) (1 / 3) 1 k c). pose proof (vh_poly (1 / 3) (1 / 3) 1 k R1_neq_R0 c) as PH.
  exists (fun x y => rsum (num2 k) (fun j => c j * ph j x y) + - (1 / 3) * g x y), (fun x y => rsum (num2 k) (fun j => c j * PolyProofs.phix (1 / 3) (1 / 3) 1 j x y) + - (1 / 3) * vhx (1 / 3) (1 / 3) 1 k c x y),
    (fun x y => rsum (num2 k) (fun j => c j * PolyProofs.phiy (1 / 3) (1 / 3) 1 j x y) + - (1 / 3) * vhy (1 / 3) (1 / 3) 1 k c x y).
  exists (fun x y => rsum (num2 k) (fun j => c (num2 k + j)%nat * ph j x y) + - (1 / 3) * g x y), (fun x y => rsum (num2 k) (fun j => c (num2 k + j)%nat * PolyProofs.phix (1 / 3) (1 / 3) 1 j x y) + - (1 / 3) * vhx (1 / 3) (1 / 3) 1 k c x y),
    (fun x y => rsum (num2 k) (fun j => c (num2 k + j)%nat * PolyProofs.phiy (1 / 3) (1 / 3) 1 j x y) + - (1 / 3) * vhy (1 / 3) (1 / 3) 1 k c x y).
  exists g, (vhx (1 / 3) (1 / 3) 1 k c), (vhy (1 / 3) (1 / 3) 1 k c).
  split; [|split; [|split]].
  - apply (poly2_add k _ _ _ _ _ _ (comp_poly (1 / 3) (1 / 3) 1 k R1_neq_R0 c) (poly2_scal k (- (1 / 3)) _ _ _ PH)).
  - apply (poly2_add k _ _ _ _ _ _ (comp_poly (1 / 3) (1 / 3) 1 k R1_neq_R0 (fun j => c (num2 k + j)%nat)) (poly2_scal k (- (1 / 3)) _ _ _ PH)).
  - exact PH.
  - intros x y. cbn [fst snd]. unfold vx, vy. fold g. split; field.
Qed.

Lemma space_fld v : rt_field k v -> exists c, forall x y, fst v x y = VX c x y /\ snd v x y = VY c x y.
Proof using.
  intros (p1 & p1x & p1y & p2 & p2x & p2y & q & qx & qy & P1 & P2 & PQ & E). pose proof (low_add k) as LA.
  destruct (phi_represent (1 / 3) (1 / 3) 1 R1_neq_R0 _ _ _ _ PQ) as (d & D & Dx & Dy).
  set (g := fun x y => rsum n (fun i => d (low k + i)%nat * ph (low k + i) x y)).
  set (gx := fun x y => rsum n (fun i => d (low k + i)%nat * PolyProofs.phix (1 / 3) (1 / 3) 1 (low k + i) x y)).
  set (gy := fun x y => rsum n (fun i => d (low k + i)%nat * PolyProofs.phiy (1 / 3) (1 / 3) 1 (low k + i) x y)).
  assert (PG : poly2 k g gx gy).
  { apply (poly2_rsum k n (fun i x y => d (low k + i)%nat * ph (low k + i) x y) (fun i x y => d (low k + i)%nat * PolyProofs.phix (1 / 3) (1 / 3) 1 (low k + i) x y) (fun i x y => d (low k + i)%nat * PolyProofs.phiy (1 / 3) (1 / 3) 1 (low k + i) x y)).
    intros i Hi. apply poly2_scal. apply phi_k; [apply R1_neq_R0|lia]. }
  set (f := fun x y => rsum (low k) (fun i => d i * ph i x y)).
  assert (SP : forall x y, q x y = f x y + g x y).
  { intros x y. rewrite D, <- LA, rsum_add. reflexivity. }
  assert (LOW : exists a ax ay b bx by_, poly2 k a ax ay /\ poly2 k b bx by_ /\ (forall x y, a x y = x * f x y) /\ forall x y, b x y = y * f x y).
  { destruct (Nat.eq_dec k 0) as [K|K].
    - assert (L0 : low k = 0%nat) by (rewrite K; vm_compute; reflexivity).
      pose proof (poly2_scal k 0 _ _ _ PG) as PZ. do 3 eexists. do 3 eexists. split; [exact PZ|]. split; [exact PZ|]. unfold f. rewrite L0. split; intros; cbn; ring.
    - assert (PF : exists fx fy, poly2 (k - 1) f fx fy).
      { exists (fun x y => rsum (low k) (fun i => d i * PolyProofs.phix (1 / 3) (1 / 3) 1 i x y)), (fun x y => rsum (low k) (fun i => d i * PolyProofs.phiy (1 / 3) (1 / 3) 1 i x y)).
        apply (poly2_rsum (k - 1) (low k) (fun i x y => d i * ph i x y) (fun i x y => d i * PolyProofs.phix (1 / 3) (1 / 3) 1 i x y) (fun i x y => d i * PolyProofs.phiy (1 / 3) (1 / 3) 1 i x y)).
        intros i Hi. apply poly2_scal. apply phi_k; [apply R1_neq_R0|]. rewrite <- low_num2; lia. }
      destruct PF as (fx & fy & PF). assert (PX := poly2_x _ _ _ _ PF). assert (PY := poly2_y _ _ _ _ PF). replace (S (k - 1)) with k in PX, PY by lia.
      do 6 eexists. split; [exact PX|]. split; [exact PY|]. split; reflexivity. }
  destruct LOW as (a & ax & ay & b & bx & by_ & PA & PB & EA & EB).
  assert (Q1 := poly2_add _ _ _ _ _ _ _ P1 (poly2_add _ _ _ _ _ _ _ PA (poly2_scal k (1 / 3) _ _ _ PG))).
  assert (Q2 := poly2_add _ _ _ _ _ _ _ P2 (poly2_add _ _ _ _ _ _ _ PB (poly2_scal k (1 / 3) _ _ _ PG))).
  destruct (phi_represent (1 / 3) (1 / 3) 1 R1_neq_R0 _ _ _ _ Q1) as (c1 & C1 & _). destruct (phi_represent (1 / 3) (1 / 3) 1 R1_neq_R0 _ _ _ _ Q2) as (c2 & C2 & _).
  exists (fun j => if (j <? num2 k)%nat then c1 j else if (j <? 2 * num2 k)%nat then c2 (j - num2 k)%nat else d (low k + (j - 2 * num2 k))%nat).
  intros x y. destruct (E x y) as (-> & ->). unfold vx, vy.
  assert (G : vh (1 / 3) (1 / 3) 1 k (fun j => if (j <? num2 k)%nat then c1 j else if (j <? 2 * num2 k)%nat then c2 (j - num2 k)%nat else d (low k + (j - 2 * num2 k))%nat) x y = g x y).
  { apply rsum_ext. intros i Hi. rewrite !ltb_false by lia. replace (2 * num2 k + i - 2 * num2 k)%nat with i by lia. reflexivity. }
  rewrite G.
  rewrite (rsum_ext (num2 k) (fun j => (if (j <? num2 k)%nat then c1 j else _) * _) (fun j => c1 j * ph j x y)) by (intros j Hj; now rewrite ltb_true by auto).
  rewrite (rsum_ext (num2 k) (fun j => (if (num2 k + j <? num2 k)%nat then _ else _) * _) (fun j => c2 j * ph j x y)) by (intros j Hj; rewrite ltb_false, ltb_true by lia; now replace (num2 k + j - num2 k)%nat with j by lia).
  rewrite <- C1, <- C2, EA, EB, SP. split; field.
Qed.

(** ** Creation *)
Record rt_dirs (junk : nat -> nat -> R) (ref : RT_Reference) (dirs : list bool) (BQ : Edges_QuadratureData) (b : RT_BasisFunctions) : Prop := {
  rd_BQ : map_at (rt_BoundaryQuadrature ref) dirs = Ok BQ;
  rd_edges : exists x y, edge_facts seg n dirs BQ x y;
  rd_b : map_at (rt_basis_functions ref) dirs = Ok b;
  rd_rows : m_rows (rb_MonomialsCoefficients b) = N; rd_cols : m_cols (rb_MonomialsCoefficients b) = N;
  rd_dual : forall r j, (r < N)%nat -> (j < N)%nat -> row gt gs k dirs r (column (rb_MonomialsCoefficients b) j) = if (r =? j)%nat then signed k dirs r else 0;
  rd_values : EvaluateVelocityBasisFunctions junk (q_Points tri) (rb_MonomialsCoefficients b) ref = Ok (rb_ReferenceBasisFunctionValues b);
  rd_div : EvaluateVelocityBasisFunctionsDivergence junk (q_Points tri) (rb_MonomialsCoefficients b) ref = Ok (rb_ReferenceBasisFunctionDivergenceValues b) }.

Definition inv (junk : nat -> nat -> R) (e : nat) (ref : RT_Reference) : Prop :=
  base ref /\
  (forall e' d, nth_error rt_directions e' = Some d -> (e' < e)%nat -> exists BQ b, rt_dirs junk ref d BQ b) /\
  (forall e' d, nth_error rt_directions e' = Some d -> (e <= e')%nat -> map_at (rt_BoundaryQuadrature ref) d = Throw /\ map_at (rt_basis_functions ref) d = Throw).

Lemma direction_ok junk lu e ref : exact_for nonsingular lu -> (e < 8)%nat -> inv junk e ref -> exists ref', rt_direction_step junk lu e ref = Ok ref' /\ inv junk (S e) ref'.
Proof using RR.
  intros LU He (B & I1 & I2). unfold rt_direction_step. destruct (nth_error rt_directions e) as [dirs|] eqn:ED; [|apply nth_error_None in ED; cbn in ED; lia].
  rewrite (proj2 (idx_Ok _ _ _) ED). cbn [bind].
  assert (Hd : length dirs = 3%nat). { do 8 (destruct e as [|e]; [cbn in ED; injection ED as <-; reflexivity|]). lia. }
  rewrite (rx_Quadrature _ _ _ _ B). cbn [Compute_MCC_2D vq_ReferenceSegmentQuadrature].
  destruct (edges_of seg junk n dirs (rr_segment _ _ _ RR) (rr_segment_points _ _ _ RR) Hd) as (BQ & x & y & EQ & EF). rewrite EQ. cbn [bind].
  destruct (I2 e dirs ED (le_n e)) as (T1 & T2).
  set (ref1 := rt_set_maps ref (map_insert (rt_BoundaryQuadrature ref) dirs BQ) (rt_basis_functions ref)).
  assert (B1 : base ref1) by now apply base_maps.
  destruct (coefficients gt gs k RR junk lu ref1 dirs BQ x y LU B1 Hd (map_new _ _ _ T1) EF) as (C & EC & CR & CC & CD). rewrite EC. cbn [bind].
  change (rt_Quadrature ref1) with (rt_Quadrature ref). rewrite (rx_Quadrature _ _ _ _ B). cbn [Compute_MCC_2D vq_ReferenceTriangleQuadrature].
  destruct (values_of ref1 C B1 CR junk (q_Points tri) (proj1 (rr_triangle _ _ _ RR))) as (V0 & V1 & EV & _). rewrite EV. cbn [bind].
  destruct (divergence_of ref1 C B1 CR junk (q_Points tri) (proj1 (rr_triangle _ _ _ RR))) as (D & EDv & _). rewrite EDv. cbn [bind].
  eexists. split; [reflexivity|]. split; [now apply base_maps|].
  assert (NE : forall e' d, nth_error rt_directions e' = Some d -> e' <> e -> d <> dirs).
  { intros e' d Hd' Hne ->. apply Hne. apply (directions_nodup e' e dirs); auto. }
  split.
  - intros e' d Hd' He'. destruct (Nat.eq_dec e' e) as [->|Hne].
    + rewrite ED in Hd'. injection Hd' as <-. exists BQ, {| rb_MonomialsCoefficients := C; rb_ReferenceBasisFunctionValues := [V0; V1]; rb_ReferenceBasisFunctionDivergenceValues := D |}.
      constructor; auto.
      * cbn. now apply map_new.
      * exists x, y. auto.
      * cbn. now apply map_new.
    + destruct (I1 e' d Hd' ltac:(lia)) as (BQ' & b' & [F1 F2 F3 F4 F5 F6 F7 F8]). exists BQ', b'. constructor; auto; cbn; rewrite map_other by (eapply NE; eauto); auto.
  - intros e' d Hd' He'. destruct (I2 e' d Hd' ltac:(lia)) as (U1 & U2). cbn. rewrite !map_other by (eapply NE; eauto; lia). auto.
Qed.

Lemma create_ok junk lu : exact_for nonsingular lu -> exists ref, RT_Create gt gs junk lu k = Ok ref /\ base ref /\ forall dirs, length dirs = 3%nat -> exists BQ b, rt_dirs junk ref dirs BQ b.
Proof using RR.
  intros LU. unfold RT_Create. destruct (C27_monomials_enumerated_once 2 M2 k class2) as (m2 & E2 & _). rewrite E2. cbn [bind].
  destruct (C27_monomials_enumerated_once 1 Monomials_1D k (or_introl (conj eq_refl eq_refl))) as (m1 & E1 & _). rewrite E1. cbn [bind].
  cbn [Compute_MCC_2D vq_ReferenceTriangleQuadrature vq_ReferenceSegmentQuadrature].
  set (c2 := fun d : nat => match d with 0%nat => 1 / 3 | 1%nat => 1 / 3 | _ => 0 end). set (c1 := fun d : nat => match d with 0%nat => 1 / 2 | _ => 0 end).
  destruct (vander_m k _ E2 junk (q_Points tri) c2 1 (proj1 (rr_triangle _ _ _ RR)) R1_neq_R0) as (PV & EP & PR & PC & PA). rewrite EP. cbn [bind].
  destruct (vander_1 k _ junk (q_Points seg) c1 E1 (proj1 (rr_segment _ _ _ RR))) as (V1 & EV & VR & VC & VA). rewrite EV. cbn [bind].
  match goal with |- context [for_loop _ _ ?S] => set (s0 := S) end.
  destruct (@for_loop_total _ (inv junk) (rt_direction_step junk lu) (length rt_directions) s0) as (ref & EL & (B & I & _)).
  - split; [|split].
    + assert (H2 : (2 * k * (k + 1) / 2 = 2 * low k)%nat). { pose proof (num2_val k). pose proof (low_add k). symmetry. apply (Nat.div_unique _ 2 _ 0); nia. }
      constructor; cbn [s0 rt_Order rt_Nk rt_Nkm1 rt_Quadrature rt_monomials_2D rt_center_2D rt_scale_2D rt_VanderBoundary1D rt_v_NumDofs1D rt_v_NumDofs0D rt_v_NumDofs2D rt_v_NumBasisFunctions rt_p_NumBasisFunctions rt_p_NumDofs2D rt_p_ReferenceBasisFunctionValues]; auto.
      all: first [apply half_num2 | apply half_low | (rewrite VR; apply RR) | (rewrite H2; lia)].
    + intros; lia.
    + intros; cbn; auto.
  - intros e ref He Hi. apply direction_ok; auto.
  - exists ref. split; [exact EL|]. split; auto. intros dirs Hd. destruct (directions_all dirs Hd) as (e & He & E). apply (I e dirs E). exact He.
Qed.

Lemma element_facts junk lu ref : rt_element gt gs junk lu k ref -> base ref /\ forall dirs, length dirs = 3%nat -> exists BQ b, rt_dirs junk ref dirs BQ b.
Proof using RR. intros [_ LU E]. destruct (create_ok junk lu LU) as (ref' & E' & H). rewrite E in E'. injection E' as <-. exact H. Qed.

(** ** Duality and reproduction *)
Lemma dual ref junk dirs BQ b r j : base ref -> rt_dirs junk ref dirs BQ b -> (r < N)%nat -> (j < N)%nat ->
  rt_dof seg tri k ref dirs r (fld (rb_MonomialsCoefficients b) j) = delta r j.
Proof using.
  intros B D Hr Hj. unfold fld. rewrite (dof_row gt gs k ref dirs r _ B Hr), (rd_dual _ _ _ _ _ D r j Hr Hj). unfold delta. destruct (Nat.eqb_spec r j); [apply signed_square|ring].
Qed.
End Element.
