From Coq Require Import List Arith Bool Reals Lia Lra.
From Verif Require Import Base RSum MatrixModel EquationModel EquationSpec EquationProofs VemQuadModel VemModel DriverModel DriverProofs3 DriverProofs5 ElasticModel ElasticSpec.
Import ListNotations.
Local Open Scope R_scope.

Definition placed (r n d : nat) (M : Mat) : Mat :=
  {| m_rows := r; m_cols := 2 * n; m_at := fun q j => if ((d * n <=? j) && (j <? d * n + n))%nat then m_at M q (j - d * n) else 0 |}.
Lemma place_ok r n d M : shaped r n M -> place_columns r n d M = Ok (placed r n d M).
Proof. intros [E1 E2]. unfold place_columns. rewrite E1, E2, !Nat.eqb_refl. reflexivity. Qed.
Lemma placed_sum r n d M u q : (d < 2)%nat ->
  rsum (2 * n) (fun j => m_at (placed r n d M) q j * u j) = rsum n (fun j => m_at M q j * u (d * n + j)%nat).
Proof.
  intros Hd. replace (2 * n)%nat with (n + n)%nat by lia. rewrite rsum_add. cbn [placed m_at].
  assert (Z : forall k (f : nat -> R), (forall i, (i < k)%nat -> f i = 0) -> rsum k f = 0) by (intros k f H; apply rsum_0; exact H).
  destruct d as [|[|d]]; [| |lia].
  - rewrite (Z n (fun i => (if ((0 * n <=? n + i) && (n + i <? 0 * n + n))%nat then _ else 0) * _)), Rplus_0_r.
    + apply rsum_ext. intros i Hi. replace ((0 * n <=? i) && (i <? 0 * n + n))%nat with true.
      * replace (i - 0 * n)%nat with i by lia. reflexivity.
      * symmetry. apply andb_true_intro. split; [apply Nat.leb_le|apply Nat.ltb_lt]; lia.
    + intros i Hi. replace (n + i <? 0 * n + n)%nat with false by (symmetry; apply Nat.ltb_ge; lia). rewrite andb_false_r. ring.
  - rewrite (Z n (fun i => (if ((1 * n <=? i) && (i <? 1 * n + n))%nat then _ else 0) * _)), Rplus_0_l.
    + apply rsum_ext. intros i Hi. replace ((1 * n <=? n + i) && (n + i <? 1 * n + n))%nat with true.
      * replace (n + i - 1 * n)%nat with i by lia. replace (1 * n + i)%nat with (n + i)%nat by lia. reflexivity.
      * symmetry. apply andb_true_intro. split; [apply Nat.leb_le|apply Nat.ltb_lt]; lia.
    + intros i Hi. replace (1 * n <=? i)%nat with false by (symmetry; apply Nat.leb_gt; lia). cbn [andb]. ring.
Qed.

(** the bilinear form of a quadrature of products of two tables *)
Lemma form_table N nq (c : nat -> R) (A B : nat -> nat -> R) (x y : nat -> R) :
  rsum N (fun i => rsum N (fun j => x i * rsum nq (fun q => c q * (A q i * B q j)) * y j)) =
  rsum nq (fun q => c q * (rsum N (fun i => A q i * x i) * rsum N (fun j => B q j * y j))).
Proof.
  transitivity (rsum N (fun i => rsum nq (fun q => c q * (A q i * x i * rsum N (fun j => B q j * y j))))).
  - apply rsum_ext. intros i _.
    transitivity (rsum N (fun j => rsum nq (fun q => x i * (c q * (A q i * B q j)) * y j))).
    + apply rsum_ext. intros j _. rewrite <- rsum_scal, <- rsum_scal_r. apply rsum_ext. intros; ring.
    + rewrite rsum_swap. apply rsum_ext. intros q _. rewrite <- rsum_scal, <- rsum_scal. apply rsum_ext. intros; ring.
  - rewrite rsum_swap. apply rsum_ext. intros q _. rewrite <- rsum_scal_r, <- rsum_scal. apply rsum_ext. intros; ring.
Qed.
Lemma form_plus N (A B : nat -> nat -> R) (x y : nat -> R) :
  rsum N (fun i => rsum N (fun j => x i * (A i j + B i j) * y j)) =
  rsum N (fun i => rsum N (fun j => x i * A i j * y j)) + rsum N (fun i => rsum N (fun j => x i * B i j * y j)).
Proof. rewrite <- rsum_plus. apply rsum_ext. intros i _. rewrite <- rsum_plus. apply rsum_ext. intros; ring. Qed.
Lemma form_scal N c (A : nat -> nat -> R) (x y : nat -> R) :
  rsum N (fun i => rsum N (fun j => x i * (c * A i j) * y j)) = c * rsum N (fun i => rsum N (fun j => x i * A i j * y j)).
Proof. rewrite <- rsum_scal. apply rsum_ext. intros i _. rewrite <- rsum_scal. apply rsum_ext. intros; ring. Qed.

Definition two_blocks (n : nat) (S : Mat) : Mat :=
  {| m_rows := 2 * n; m_cols := 2 * n; m_at := fun i j =>
    if ((i <? n) && (j <? n))%nat then m_at S i j
    else if ((n <=? i) && (i <? 2 * n) && (n <=? j) && (j <? 2 * n))%nat then m_at S (i - n) (j - n) else 0 |}.
Lemma two_blocks_form n S x y : bilinear (2 * n) (two_blocks n S) x y = rsum 2 (fun d => bilinear n S (half n d x) (half n d y)).
Proof.
  unfold bilinear. replace (2 * n)%nat with (n + n)%nat by lia. rewrite rsum_add. cbn [rsum]. rewrite Rplus_0_l. f_equal.
  - apply rsum_ext. intros i Hi. rewrite rsum_add.
    transitivity (rsum n (fun j => half n 0 x i * m_at S i j * half n 0 y j) + 0); [|ring]. f_equal.
    + apply rsum_ext. intros j Hj. cbn [two_blocks m_at]. rewrite (proj2 (Nat.ltb_lt i n) Hi), (proj2 (Nat.ltb_lt j n) Hj). reflexivity.
    + apply rsum_0. intros j Hj. cbn [two_blocks m_at].
      replace (n + j <? n)%nat with false by (symmetry; apply Nat.ltb_ge; lia).
      replace (n <=? i)%nat with false by (symmetry; apply Nat.leb_gt; lia). rewrite andb_false_r. cbn [andb]. ring.
  - apply rsum_ext. intros i Hi. rewrite rsum_add.
    transitivity (0 + rsum n (fun j => half n 1 x i * m_at S i j * half n 1 y j)); [|ring]. f_equal.
    + apply rsum_0. intros j Hj. cbn [two_blocks m_at].
      replace (n + i <? n)%nat with false by (symmetry; apply Nat.ltb_ge; lia).
      replace (n <=? j)%nat with false by (symmetry; apply Nat.leb_gt; lia). rewrite !andb_false_r. cbn [andb]. ring.
    + apply rsum_ext. intros j Hj. cbn [two_blocks m_at]. unfold half.
      replace (n + i <? n)%nat with false by (symmetry; apply Nat.ltb_ge; lia).
      replace (n <=? n + i)%nat with true by (symmetry; apply Nat.leb_le; lia). replace (n <=? n + j)%nat with true by (symmetry; apply Nat.leb_le; lia).
      replace (n + i <? 2 * n)%nat with true by (symmetry; apply Nat.ltb_lt; lia). replace (n + j <? 2 * n)%nat with true by (symmetry; apply Nat.ltb_lt; lia).
      cbn [andb]. replace (n + i - n)%nat with i by lia. replace (n + j - n)%nat with j by lia.
      replace (1 * n + i)%nat with (n + i)%nat by lia. replace (1 * n + j)%nat with (n + j)%nat by lia. reflexivity.
Qed.

Section Cell.
Variables (sp : LocalSpace) (n : nat) (Q : QuadratureData) (V D0 D1 S : Mat).
Hypothesis SE : scalar_element sp n Q V D0 D1 S.
Local Notation nq := (v_size (q_Weights Q)).

Lemma values_ok : displacement_values sp = Ok [placed nq n 0 V; placed nq n 1 V].
Proof.
  destruct (se_values _ _ _ _ _ _ _ SE) as [E [S1 S2]]. unfold displacement_values. rewrite E. cbn [bind]. rewrite S1, S2.
  unfold for_loop. cbn [for_from]. rewrite !place_ok by (split; auto). reflexivity.
Qed.
Lemma derivatives_ok : displacement_derivatives sp = Ok [placed nq n 0 D0; placed nq n 0 D1; placed nq n 1 D0; placed nq n 1 D1].
Proof.
  destruct (se_derivatives _ _ _ _ _ _ _ SE) as (E & [S1 S2] & [S3 S4]). unfold displacement_derivatives. rewrite E. cbn [bind at_ nth_error]. rewrite S1, S2.
  unfold for_loop. cbn [for_from bind idx_ nth_error]. rewrite !place_ok by (split; auto). reflexivity.
Qed.
Lemma stabilization_ok : displacement_stabilization sp = Ok (two_blocks n S).
Proof.
  destruct (se_stabilization _ _ _ _ _ _ _ SE) as [E [S1 S2]]. unfold displacement_stabilization. rewrite E. cbn [bind]. rewrite S1, S2, Nat.eqb_refl. reflexivity.
Qed.
Definition sym_of (A B : Mat) : Mat := {| m_rows := nq; m_cols := 2 * n; m_at := fun i j => 1 / 2 * (m_at A i j + m_at B i j) |}.
Local Notation G0 := (placed nq n 0 D0). Local Notation G1 := (placed nq n 0 D1).
Local Notation G2 := (placed nq n 1 D0). Local Notation G3 := (placed nq n 1 D1).
Lemma sym_ok : symmetric_gradient [G0; G1; G2; G3] = Ok [sym_of G0 G0; sym_of G1 G2; sym_of G2 G1; sym_of G3 G3].
Proof.
  unfold symmetric_gradient, for_loop. cbn [for_from bind idx_ nth_error Nat.add Nat.mul]. unfold madd. cbn [placed m_rows m_cols].
  rewrite !Nat.eqb_refl. cbn [andb bind app]. reflexivity.
Qed.
Lemma grad_sum u a b q : (a < 2)%nat -> (b < 2)%nat ->
  rsum (2 * n) (fun j => m_at (placed nq n a (match b with O => D0 | _ => D1 end)) q j * u j) = gradient n D0 D1 u a b q.
Proof. intros Ha Hb. rewrite placed_sum by auto. reflexivity. Qed.
Lemma sym_sum u A B q : rsum (2 * n) (fun j => m_at (sym_of A B) q j * u j) =
  (rsum (2 * n) (fun j => m_at A q j * u j) + rsum (2 * n) (fun j => m_at B q j * u j)) / 2.
Proof.
  unfold Rdiv. rewrite <- rsum_plus, <- rsum_scal_r. apply rsum_ext. intros j _. cbn [sym_of m_at]. field.
Qed.

Variable P : ElasticProblem.
Lemma evaluation_ok f : function_evaluation (q_Points Q) f = Ok {| v_size := nq; v_at := at_quadrature Q f |}.
Proof.
  destruct (se_points _ _ _ _ _ _ _ SE) as (R1' & R2' & _). rewrite function_evaluation_ok by (right; lia). rewrite R2'. reflexivity.
Qed.

Lemma cell_form : exists A b k, elastic_cell sp P = Ok (A, b) /\ shaped (2 * n) (2 * n) A /\ sized (2 * n) b /\ largest Q (el_mu P) k /\
  (forall u v, bilinear (2 * n) A v u = elastic_form n Q D0 D1 S P k u v) /\
  forall v, rsum (2 * n) (fun i => v i * v_at b i) =
    rsum nq (fun q => v_at (q_Weights Q) q * rsum 2 (fun d => at_quadrature Q (fun x y z => el_source P x y z d) q * displacement n V v d q)).
Proof.
  destruct (se_points _ _ _ _ _ _ _ SE) as (R1' & R2' & R3').
  unfold elastic_cell. rewrite (se_quadrature _ _ _ _ _ _ _ SE), values_ok. cbn [bind]. rewrite derivatives_ok. cbn [bind]. rewrite sym_ok. cbn [bind].
  rewrite !evaluation_ok. cbn [bind].
  unfold function_evaluation_array, for_loop. cbn [for_from]. rewrite !evaluation_ok. cbn [bind app].
  set (E := [sym_of G0 G0; sym_of G1 G2; sym_of G2 G1; sym_of G3 G3]).
  set (mu := {| v_size := nq; v_at := at_quadrature Q (el_mu P) |}). set (la := {| v_size := nq; v_at := at_quadrature Q (el_lambda P) |}).
  assert (FE : Forall (shaped nq (2 * n)) E) by (unfold E; repeat constructor).
  destruct (C21_diffusion mu E E (q_Weights Q) nq (2 * n) (2 * n)) as (A1 & -> & R1 & C1 & I1'); try exact FE; try reflexivity; [unfold E; discriminate|].
  cbn [bind idx_ nth_error]. unfold madd at 1. cbn [placed m_rows m_cols]. rewrite !Nat.eqb_refl. cbn [andb bind].
  set (dv := {| m_rows := nq; m_cols := 2 * n; m_at := _ |}).
  destruct (C21_reaction la dv dv (q_Weights Q) nq (2 * n) (2 * n)) as (A2 & -> & R2 & C2 & I2'); try (split; reflexivity); try reflexivity.
  cbn [bind]. unfold madd at 1. cbn [mscal m_rows m_cols]. rewrite R1, R2, C1, C2, !Nat.eqb_refl. cbn [andb bind].
  match goal with |- context [ComputeCellForcingTerm_vector ?ff ?tt ?ww] =>
    destruct (C21_forcing_vector ff tt ww nq (2 * n)) as (b & -> & Sb & Ib); [discriminate|simpl; lia|repeat constructor|repeat constructor|reflexivity|] end.
  cbn [bind]. destruct (max_abs_ok mu) as (k & -> & Uk & (qk & Hqk & Ak)); [exact R3'|]. cbn [bind]. rewrite stabilization_ok. cbn [bind].
  unfold madd. cbn [mscal two_blocks m_rows m_cols]. rewrite !Nat.eqb_refl. cbn [andb bind].
  eexists _, b, k. split; [reflexivity|]. split; [split; reflexivity|]. split; [exact Sb|]. split.
  { split; [exact Uk|]. exists qk. split; [exact Hqk|]. symmetry. exact Ak. }
  split.
  - intros u v. unfold bilinear at 1. cbn [m_at].
    rewrite (form_plus (2 * n) (fun i j => 2 * m_at A1 i j + m_at A2 i j) (fun i j => k * m_at (two_blocks n S) i j)).
    rewrite (form_plus (2 * n) (fun i j => 2 * m_at A1 i j) (fun i j => m_at A2 i j)), !form_scal.
    change (rsum (2 * n) (fun i => rsum (2 * n) (fun j => v i * m_at (two_blocks n S) i j * u j))) with (bilinear (2 * n) (two_blocks n S) v u).
    rewrite two_blocks_form. unfold elastic_form. f_equal.
    set (EE := fun a b w q => rsum (2 * n) (fun j => m_at (sym_of (placed nq n a (match b with O => D0 | _ => D1 end)) (placed nq n b (match a with O => D0 | _ => D1 end))) q j * w j)).
    assert (EEs : forall a b w q, (a < 2)%nat -> (b < 2)%nat -> EE a b w q = strain n D0 D1 w a b q).
    { intros a c w q Ha Hc. unfold EE. rewrite sym_sum, !grad_sum by auto. reflexivity. }
    assert (T1 : rsum (2 * n) (fun i => rsum (2 * n) (fun j => v i * m_at A1 i j * u j)) =
      rsum nq (fun q => v_at (q_Weights Q) q * at_quadrature Q (el_mu P) q * rsum 2 (fun a => rsum 2 (fun c => strain n D0 D1 u a c q * strain n D0 D1 v a c q)))).
    { transitivity (rsum 4 (fun d => rsum (2 * n) (fun i => rsum (2 * n) (fun j =>
        v i * rsum nq (fun q => (v_at (q_Weights Q) q * at_quadrature Q (el_mu P) q) * (comp E d q i * comp E d q j)) * u j)))).
      - change (rsum 4 ?f) with (0 + f 0%nat + f 1%nat + f 2%nat + f 3%nat). cbv beta. rewrite Rplus_0_l, <- !form_plus.
        apply rsum_ext. intros i _. apply rsum_ext. intros j _. rewrite I1'. f_equal. f_equal. rewrite <- !rsum_plus. apply rsum_ext. intros q _.
        change (length E) with 4%nat. change (v_at mu q) with (at_quadrature Q (el_mu P) q). cbn [rsum]. ring.
      - change (rsum 4 ?f) with (0 + f 0%nat + f 1%nat + f 2%nat + f 3%nat). cbv beta. rewrite Rplus_0_l, !form_table, <- !rsum_plus.
        apply rsum_ext. intros q _.
        change (rsum (2 * n) (fun i => comp E 0 q i * ?w i)) with (EE 0%nat 0%nat w q).
        change (fun i => comp E 0 q i * v i) with (fun i => m_at (sym_of G0 G0) q i * v i). 
        change (fun i => comp E 0 q i * u i) with (fun i => m_at (sym_of G0 G0) q i * u i). 
        change (fun i => comp E 1 q i * v i) with (fun i => m_at (sym_of G1 G2) q i * v i). 
        change (fun i => comp E 1 q i * u i) with (fun i => m_at (sym_of G1 G2) q i * u i). 
        change (fun i => comp E 2 q i * v i) with (fun i => m_at (sym_of G2 G1) q i * v i). 
        change (fun i => comp E 2 q i * u i) with (fun i => m_at (sym_of G2 G1) q i * u i). 
        change (fun i => comp E 3 q i * v i) with (fun i => m_at (sym_of G3 G3) q i * v i). 
        change (fun i => comp E 3 q i * u i) with (fun i => m_at (sym_of G3 G3) q i * u i).
        cbn [rsum]. rewrite <- !EEs by lia. unfold EE. ring. }
    assert (Hdv : forall w q, rsum (2 * n) (fun j => m_at dv q j * w j) = divergence n D0 D1 w q).
    { intros w q. unfold divergence. rewrite <- !grad_sum by lia. rewrite <- rsum_plus. apply rsum_ext. intros j _. unfold dv. cbn [m_at]. ring. }
    assert (T2 : rsum (2 * n) (fun i => rsum (2 * n) (fun j => v i * m_at A2 i j * u j)) =
      rsum nq (fun q => v_at (q_Weights Q) q * at_quadrature Q (el_lambda P) q * (divergence n D0 D1 v q * divergence n D0 D1 u q))).
    { transitivity (rsum (2 * n) (fun i => rsum (2 * n) (fun j =>
        v i * rsum nq (fun q => (v_at (q_Weights Q) q * at_quadrature Q (el_lambda P) q) * (m_at dv q i * m_at dv q j)) * u j))).
      - apply rsum_ext. intros i _. apply rsum_ext. intros j _. rewrite I2'. reflexivity.
      - rewrite form_table. apply rsum_ext. intros q _. rewrite !Hdv. reflexivity. }
    rewrite T1, T2, <- rsum_scal, <- rsum_plus. apply rsum_ext. intros q _. ring.
  - intros v. transitivity (rsum (2 * n) (fun i => rsum nq (fun q => v_at (q_Weights Q) q * rsum 2 (fun d => at_quadrature Q (fun x y z => el_source P x y z d) q * (m_at (placed nq n d V) q i * v i))))).
    + apply rsum_ext. intros i _. rewrite Ib, <- rsum_scal. apply rsum_ext. intros q _. unfold comp, vcomp. cbn [length nth v_at rsum]. ring.
    + rewrite rsum_swap. apply rsum_ext. intros q _. rewrite rsum_scal. f_equal. rewrite rsum_swap. apply rsum_ext. intros d Hd.
      rewrite rsum_scal. f_equal. rewrite placed_sum by lia. reflexivity.
Qed.
End Cell.
