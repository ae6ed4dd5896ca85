(** The statements about the mixed virtual element. *)
From Coq Require Import List Arith Bool Lia ZArith Reals Lra.
From Verif Require Import Base RSum MatrixModel MonomialsModel MonomialsSpec MonomialsProofs MonomialsProofs2 MonomialsProofs3 MonomialsProofs4 MonomialsProps
  LagrangeModel GBasisProofs VemQuadModel VemQuadSpec VemQuadProofs VemQuadProofs2 GreenSpec GreenProofs PolyProofs VemModel VemSpec VemProofs VemProofs2 VemProofs3 VemProofs4 VemProofs5 GaussModel VemMccModel VemMccSpec VemMccProofs VemMccProofs2 VemMccProofs3.
Import ListNotations.
Local Open Scope R_scope.

(** ** Orthonormal completion of the rows of a matrix *)
Lemma underdetermined : forall n m (a : nat -> nat -> R), (n < m)%nat -> exists x, (exists j, (j < m)%nat /\ x j <> 0) /\ forall i, (i < n)%nat -> rsum m (fun j => a i j * x j) = 0.
Proof.
  induction n as [|n IH]; intros m a H.
  - exists (fun _ => 1). split; [exists 0%nat; split; [lia|lra]|intros; lia].
  - destruct m as [|m]; [lia|]. destruct (pivot (S n) (fun i => a i 0%nat)) as [r|] eqn:EP.
    + apply pivot_some in EP. destruct EP as (Hr & Ha).
      destruct (IH m (fun i j => a (skip r i) (S j) - a (skip r i) 0%nat / a r 0%nat * a r (S j)) ltac:(lia)) as (x & (j & Hj & Hx) & Z).
      exists (fun j => match j with O => - rsum m (fun j => a r (S j) * x j) / a r 0%nat | S j => x j end). split; [exists (S j); split; [lia|auto]|].
      intros s Hs. rewrite rsum_S_l.
      assert (E : rsum m (fun j => a r (S j) * x j) = a r 0%nat * (rsum m (fun j => a r (S j) * x j) / a r 0%nat)) by (field; auto).
      destruct (skip_cases r s n Hr Hs) as [->|(t & Ht & ->)]; [field; auto|].
      specialize (Z t Ht). rewrite (rsum_ext m _ (fun j => a (skip r t) (S j) * x j - a (skip r t) 0%nat / a r 0%nat * (a r (S j) * x j))) in Z by (intros; ring).
      rewrite rsum_minus, rsum_scal in Z. unfold Rdiv in *. lra.
    + pose proof (pivot_none _ _ EP) as Z. cbv beta in Z. exists (fun j => if (j =? 0)%nat then 1 else 0). split; [exists 0%nat; split; [lia|cbn; lra]|].
      intros i Hi. rewrite rsum_S_l, rsum_0; [cbn [Nat.eqb]; rewrite Z by auto; ring|intros; cbn [Nat.eqb]; ring].
Qed.
Lemma square_pos m (x : nat -> R) : (exists j, (j < m)%nat /\ x j <> 0) -> 0 < rsum m (fun j => x j * x j).
Proof.
  intros (j & Hj & Hx). assert (Z : forall i, (i < m)%nat -> 0 <= x i * x i) by (intros; apply Rle_0_sqr).
  destruct (rsum_nonneg m (fun j => x j * x j) Z) as [|E]; auto. exfalso. apply Hx. pose proof (rsum_nonneg_0 m (fun j => x j * x j) Z (eq_sym E) j Hj) as Q. cbv beta in Q. apply Rmult_integral in Q. tauto.
Qed.
Lemma completion T : (m_rows T <= m_cols T)%nat -> exists B : nat -> nat -> R, completes (fun _ => B) T.
Proof.
  intros H. set (n := m_rows T) in *. set (m := m_cols T) in *.
  assert (K : forall s, (n + s <= m)%nat -> exists B : nat -> nat -> R, (forall r t, (n <= r < n + s)%nat -> (n <= t < n + s)%nat -> rsum m (fun c => B r c * B t c) = delta r t) /\
    (forall a r, (a < n)%nat -> (n <= r < n + s)%nat -> rsum m (fun c => m_at T a c * B r c) = 0)).
  { induction s as [|s IH]; intros Hs; [exists (fun _ _ => 0); split; intros; lia|]. destruct (IH ltac:(lia)) as (B & B1 & B2).
    destruct (underdetermined (n + s) m (fun i c => if (i <? n)%nat then m_at T i c else B i c) ltac:(lia)) as (x & NZ & X). pose proof (square_pos m x NZ) as SP. set (e := sqrt (rsum m (fun j => x j * x j))).
    assert (E2 : e * e = rsum m (fun j => x j * x j)) by (apply sqrt_sqrt; lra). assert (E0 : e <> 0) by (intros Q; rewrite Q in E2; lra).
    assert (XB : forall r, (n <= r < n + s)%nat -> rsum m (fun c => B r c * (x c / e)) = 0).
    { intros r Hr. specialize (X r ltac:(lia)). rewrite (ltb_false r n) in X by lia. rewrite (rsum_ext _ _ (fun c => B r c * x c * / e)) by (intros; unfold Rdiv; ring). rewrite rsum_scal_r, X. ring. }
    exists (fun r c => if (r =? n + s)%nat then x c / e else B r c). split.
    - intros r t Hr Ht. destruct (Nat.eqb_spec r (n + s)) as [->|Er], (Nat.eqb_spec t (n + s)) as [->|Et].
      + unfold delta. rewrite Nat.eqb_refl. rewrite (rsum_ext _ _ (fun c => x c * x c * (/ e * / e))) by (intros; unfold Rdiv; ring). rewrite rsum_scal_r, <- E2. field. auto.
      + unfold delta. replace (n + s =? t)%nat with false by (symmetry; apply Nat.eqb_neq; auto). rewrite <- (XB t) by lia. apply rsum_ext. intros; ring.
      + unfold delta. replace (r =? n + s)%nat with false by (symmetry; apply Nat.eqb_neq; auto). apply XB. lia.
      + apply B1; lia.
    - intros a r Ha Hr. destruct (Nat.eqb_spec r (n + s)) as [->|Er]; [|apply B2; lia].
      specialize (X a ltac:(lia)). rewrite (ltb_true a n) in X by lia. rewrite (rsum_ext _ _ (fun c => m_at T a c * x c * / e)) by (intros; unfold Rdiv; ring). rewrite rsum_scal_r, X. ring. }
  destruct (K (m - n)%nat ltac:(lia)) as (B & B1 & B2). exists B. split; fold n m; [intros; apply B1|intros; apply B2]; lia.
Qed.

(** ** Existence *)
Lemma C110_exists_all : forall gt gs junk llt svd k p, good_mixed_rules gt gs k -> good_polygon p ->
  exists ref l, MCC_Velocity_Create gt gs k = Ok ref /\ MCC_CreateLocalSpace junk llt svd ref p = Ok l /\
    lm_NumBoundaryBasisFunctions l = ((k + 1) * m_cols (pg_Vertices p))%nat /\ (2 * lm_Nk l = (k + 1) * (k + 2))%nat /\ (lm_NumNablaInternalBasisFunctions l = lm_Nk l - 1)%nat /\
    (2 * lm_NumBigOPlusInternalBasisFunctions l = k * (k + 1))%nat /\ lm_NumInternalBasisFunctions l = (lm_NumNablaInternalBasisFunctions l + lm_NumBigOPlusInternalBasisFunctions l)%nat /\
    lm_NumBasisFunctions l = (lm_NumBoundaryBasisFunctions l + lm_NumInternalBasisFunctions l)%nat /\
    m_cols (lm_Pi0k l) = lm_NumBasisFunctions l /\ m_cols (lm_Vmatrix l) = lm_NumBasisFunctions l /\ m_rows (lm_Dmatrix l) = lm_NumBasisFunctions l /\ m_cols (mcc_boundary_points l) = lm_NumBoundaryBasisFunctions l.
Proof.
  intros gt gs junk llt svd k p GR GP. destruct (mcc_reference gt gs k) as (ref & ER & _). destruct (mcc_local_ok gt gs k ref p GR GP junk llt svd ER) as (l & EL & LF). exists ref, l. do 2 (split; [auto|]).
  rewrite (mf_nb _ _ _ _ _ _ _ LF), (mf_nn _ _ _ _ _ _ _ LF), (mf_no _ _ _ _ _ _ _ LF), (mf_ni _ _ _ _ _ _ _ LF), (mf_N _ _ _ _ _ _ _ LF), (mf_Nk _ _ _ _ _ _ _ LF).
  pose proof (num2_k k). pose proof (num2_ge k). do 3 (split; [auto|]). split; [nia|]. do 2 (split; [auto|]).
  split; [apply (mf_P _ _ _ _ _ _ _ LF)|]. split; [apply (mf_V _ _ _ _ _ _ _ LF)|]. split; [apply (mf_D _ _ _ _ _ _ _ LF)|]. apply (mf_BQn _ _ _ _ _ _ _ LF).
Qed.
Lemma completes_ext svd T T' : m_rows T = m_rows T' -> m_cols T = m_cols T' -> (forall a c, (a < m_rows T)%nat -> (c < m_cols T)%nat -> m_at T a c = m_at T' a c) -> (forall r c, svd T r c = svd T' r c) -> completes svd T -> completes svd T'.
Proof.
  intros R C E Es (A & B). unfold completes. rewrite <- R, <- C. split.
  - intros r s Hr Hs. rewrite <- (A r s Hr Hs). apply rsum_ext. intros; now rewrite !Es.
  - intros a r Ha Hr. rewrite <- (B a r Ha Hr). apply rsum_ext. intros. now rewrite E, Es.
Qed.
Lemma C110_space_all : forall gt gs junk k p, good_mixed_rules gt gs k -> good_polygon p -> exists llt svd ref l, mcc_space gt gs junk llt svd k p ref l.
Proof.
  intros gt gs junk k p GR GP. destruct (mcc_reference gt gs k) as (ref & ER & _). destruct (mcc_local_ok gt gs k ref p GR GP junk gauss_solver (fun _ _ _ => 0) ER) as (l0 & EL0 & LF0).
  destruct (mf_TN _ _ _ _ _ _ _ LF0) as (a1 & a2 & a3 & a4).
  destruct (completion (lm_TkNabla l0)) as (B & HB). { rewrite a1, a2. pose proof (num2_ge k). lia. }
  destruct (mcc_local_ok gt gs k ref p GR GP junk gauss_solver (fun _ => B) ER) as (l & EL & LF). destruct (mf_TN _ _ _ _ _ _ _ LF) as (b1 & b2 & b3 & b4).
  exists gauss_solver, (fun _ => B), ref, l. constructor; auto using gauss_positive. apply (completes_ext _ (lm_TkNabla l0)); try congruence; auto.
  rewrite a1, a2. intros a c Ha Hc. destruct (Nat.ltb_spec c (num2 k)).
  - rewrite a3, b3 by auto. reflexivity.
  - replace c with (num2 k + (c - num2 k))%nat by lia. rewrite a4, b4 by (auto; lia). reflexivity.
Qed.

(** ** Values *)
Lemma values_loop A n c : m_rows A = (2 * n)%nat -> for_loop 2 (fun d r => X <- middleRows A (n * d) n ;; set_idx r d X) (repeat (mzero 2 c) 2) =
  Ok [{| m_rows := n; m_cols := m_cols A; m_at := fun i j => m_at A (n * 0 + i) (0 + j) |}; {| m_rows := n; m_cols := m_cols A; m_at := fun i j => m_at A (n * 1 + i) (0 + j) |}].
Proof.
  intros H. unfold for_loop. cbn [for_from]. unfold middleRows, mat_block. rewrite (leb_true (n * 0 + n) (m_rows A)) by lia. rewrite (leb_true (n * 1 + n) (m_rows A)) by lia. rewrite (leb_true (0 + m_cols A) (m_cols A)) by lia.
  cbn [andb bind repeat set_idx length Nat.ltb Nat.leb replace]. reflexivity.
Qed.

Section All.
Variables (gt gs : nat -> QuadratureData) (junk : nat -> nat -> R) (llt : Solver) (svd : Svd) (k : nat) (p : Polygon) (ref : MCC_2D_Reference) (l : MCC_Local).
Hypothesis MS : mcc_space gt gs junk llt svd k p ref l.
Let GR : good_mixed_rules gt gs k. Proof. apply (ms_rules _ _ _ _ _ _ _ _ _ MS). Qed.
Let GP : good_polygon p. Proof. apply (ms_polygon _ _ _ _ _ _ _ _ _ MS). Qed.
Let Ellt : exact_for positive_definite llt. Proof. apply (ms_llt _ _ _ _ _ _ _ _ _ MS). Qed.
Let SV : completes svd (lm_TkNabla l). Proof. apply (ms_svd _ _ _ _ _ _ _ _ _ MS). Qed.
Let RF : MCC_Velocity_Create gt gs k = Ok ref. Proof. apply (ms_reference _ _ _ _ _ _ _ _ _ MS). Qed.
Lemma LF : mcc_facts gt gs k p llt svd l.
Proof. destruct (mcc_local_ok gt gs k ref p GR GP junk llt svd RF) as (l' & E & F). rewrite (ms_local _ _ _ _ _ _ _ _ _ MS) in E. injection E as <-. exact F. Qed.
Let cx := pg_Centroid p 0%nat.
Let cy := pg_Centroid p 1%nat.
Let h := pg_Diameter p.
Let Nk := num2 k.
Let NN := (num2 k + (k + 1))%nat.
Let nn := (num2 k - 1)%nat.
Let no := (num2 k - (k + 1))%nat.
Let nv := m_cols (pg_Vertices p).
Let nb := ((k + 1) * nv)%nat.
Let N := (nb + (nn + no))%nat.
Let ms := pg_Measure p.
Notation I := (mcc_inside l).
Notation ph := (phi cx cy h).
Notation phx := (phix cx cy h).
Notation phy := (phiy cx cy h).
Notation g := (vp k p l).
Notation comb := (VemMccProofs3.comb p).
Notation combx := (VemMccProofs3.combx p).
Notation comby := (VemMccProofs3.comby p).
Notation out := (VemMccProofs3.outflow k p l).
Notation dv := (VemMccProofs3.div k p l).
Notation pr := (VemMccProofs3.proj k p l).
Notation dofs := (VemMccProofs3.dofs k p l).
Notation coef := (VemMccProofs3.coef k p).
Let Hh : h <> 0. Proof. apply gp_diameter; auto. Qed.
Let Hm : ms <> 0. Proof. apply gp_measure; auto. Qed.
Let HS : num2 (k + 1) = S NN. Proof. apply num2_S. Qed.
Let HNN : (NN + no = 2 * Nk)%nat. Proof. exact (NN_no k p). Qed.
Let Hpos : (0 < Nk)%nat. Proof. apply num2_pos. Qed.
Let RM : Compute M2 (k + 1) = Ok (rm_Monomials ref). Proof. apply (rf_all gt gs k ref p RF). Qed.
Let fNk : lm_Nk l = Nk. Proof. apply (mf_Nk _ _ _ _ _ _ _ LF). Qed.
Let fN : lm_NumBasisFunctions l = N. Proof. apply (mf_N _ _ _ _ _ _ _ LF). Qed.
Let fNN : lm_NkNabla l = NN. Proof. apply (mf_NN _ _ _ _ _ _ _ LF). Qed.

Lemma mono_ph i x y : (i < num2 (k + 1))%nat -> mcc_monomial ref l i x y = ph i x y.
Proof. intros Hi. unfold mcc_monomial. rewrite (mf_centroid _ _ _ _ _ _ _ LF), (mf_diam _ _ _ _ _ _ _ LF), (mono_phi (k + 1) _ RM) by auto. reflexivity. Qed.
Lemma poly_comb n a x y : (n <= num2 (k + 1))%nat -> mcc_polynomial ref l n a x y = comb n a x y.
Proof. intros Hn. apply rsum_ext. intros i Hi. rewrite mono_ph by lia. reflexivity. Qed.
Lemma vector_nabla a d x y : (a < NN)%nat -> mcc_vector ref l (lm_TkNabla l) a d x y = g d a x y.
Proof. intros Ha. unfold mcc_vector. rewrite fNk, poly_comb by (unfold NN, Nk in *; lia). apply rsum_ext. intros c Hc. unfold Tall. rewrite ltb_true by auto. reflexivity. Qed.
Lemma vector_big r d x y : mcc_vector ref l (lm_TkBigOPlus l) r d x y = g d (NN + r) x y.
Proof. unfold mcc_vector. rewrite fNk, poly_comb by (unfold NN, Nk in *; lia). apply rsum_ext. intros c Hc. unfold Tall. rewrite ltb_false by (unfold NN; lia). replace (NN + r - (num2 k + (k + 1)))%nat with r by (unfold NN; lia). reflexivity. Qed.
Lemma basis_g d a x y : mcc_basis ref l d a x y = g d a x y.
Proof. unfold mcc_basis. rewrite fNN. destruct (Nat.ltb_spec a NN); [now apply vector_nabla|]. rewrite vector_big. f_equal. lia. Qed.
Lemma gradients_ph gx gy i x y : mcc_gradients ref l gx gy -> (i < num2 (k + 1))%nat -> gx i x y = phx i x y /\ gy i x y = phy i x y.
Proof.
  intros G Hi. destruct (G i x y) as (A & B). destruct (poly2_partials _ _ _ _ x y (phi_k cx cy h Hh (k + 1) i Hi)) as (A' & B'). split.
  - apply (uniqueness_limite (fun t => mcc_monomial ref l i t y) x); auto. eapply derivable_pt_lim_ext; [|exact A']. intros; now rewrite mono_ph.
  - apply (uniqueness_limite (fun t => mcc_monomial ref l i x t) y); auto. eapply derivable_pt_lim_ext; [|exact B']. intros; now rewrite mono_ph.
Qed.
Lemma sign_sg j : mcc_sign l p j = sg k p j.
Proof. unfold mcc_sign. rewrite (mf_order _ _ _ _ _ _ _ LF). reflexivity. Qed.
Lemma dof_dofs gx gy f0 f1 j : mcc_gradients ref l gx gy -> (j < N)%nat -> mcc_dof ref l p gx gy f0 f1 j = dofs f0 f1 j.
Proof.
  intros G Hj. unfold mcc_dof, VemMccProofs3.dofs. rewrite (mf_nb _ _ _ _ _ _ _ LF), (mf_nn _ _ _ _ _ _ _ LF), (mf_order _ _ _ _ _ _ _ LF), (mf_measure _ _ _ _ _ _ _ LF). fold nv nb nn ms.
  destruct (Nat.ltb_spec j nb) as [H|H]; [|destruct (Nat.ltb_spec j (nb + nn)) as [H'|H']].
  - rewrite sign_sg. reflexivity.
  - f_equal. apply I_ext. intros x y. destruct (gradients_ph gx gy (j - nb + 1) x y G ltac:(unfold nn, NN, Nk in *; lia)) as (-> & ->). replace (j - nb + 1)%nat with (S (j - nb)) by lia. reflexivity.
  - f_equal. apply I_ext. intros x y. rewrite !vector_big. reflexivity.
Qed.
Lemma outflow_out f u : mcc_outflow l p f u = out f u.
Proof.
  unfold mcc_outflow, apply_rule. destruct (mf_BQ _ _ _ _ _ _ _ LF) as (_ & V). fold (mcc_boundary_points l) in V. rewrite (mf_BQn _ _ _ _ _ _ _ LF) in V. rewrite V. apply rsum_ext. intros j Hj. rewrite sign_sg. reflexivity.
Qed.
Lemma edges_out u : rsum nv (fun i => mcc_edge_outflow ref l p i u) = out (fun _ _ => 1) u.
Proof.
  rewrite <- outflow_out. unfold mcc_outflow. rewrite (mf_sum _ _ _ _ _ _ _ LF). fold nv. apply rsum_ext. intros i Hi. unfold mcc_edge_outflow, apply_rule. destruct (rf_all gt gs k ref p RF) as (_ & _ & _ & _ & _ & _ & ->). f_equal.
  rewrite (proj2 (gm_segment _ _ _ GR)), (gm_segment_points _ _ _ GR), (mf_order _ _ _ _ _ _ _ LF). apply rsum_ext. intros q Hq. f_equal. rewrite Rmult_1_l. f_equal. rewrite sign_sg. unfold sg, sgn.
  assert (Q : (((k + 1) * i + q) / (k + 1))%nat = i). { symmetry. apply (Nat.div_unique _ (k + 1) i q); lia. } now rewrite Q.
Qed.

(** values at quadrature points and at any points *)
Lemma project_value (G : Mat) (u : nat -> R) d n q (x y : R) : m_rows G = (2 * Nk)%nat -> (forall a, m_at G a (n * d + q) = g d a x y) ->
  rsum N (fun j => rsum (2 * Nk) (fun a => m_at G a (n * d + q)%nat * m_at (lm_Pi0k l) a j) * u j) = pr u d x y.
Proof.
  intros RG E. unfold VemMccProofs3.proj, VemMccProofs3.field, VemMccProofs3.coef. fold nv nb nn no N Nk.
  rewrite (rsum_ext _ _ (fun j => rsum (2 * Nk) (fun a => m_at (lm_Pi0k l) a j * u j * g d a x y))) by (intros j Hj; rewrite <- rsum_scal_r; apply rsum_ext; intros a Ha; rewrite E; ring).
  rewrite rsum_swap. apply rsum_ext. intros a Ha. rewrite rsum_scal_r. reflexivity.
Qed.
Lemma values_quadrature : exists V0 V1, MCC_Values_quadrature l = Ok [V0; V1] /\ (forall V, In V [V0; V1] -> m_rows V = m_cols (mcc_points l) /\ m_cols V = N) /\
  forall u q, (q < m_cols (mcc_points l))%nat -> combine V0 u q = pr u 0 (m_at (mcc_points l) 0 q) (m_at (mcc_points l) 1 q) /\ combine V1 u q = pr u 1 (m_at (mcc_points l) 0 q) (m_at (mcc_points l) 1 q).
Proof.
  destruct (mf_GI _ _ _ _ _ _ _ LF) as (g1 & g2 & g3). destruct (mf_P _ _ _ _ _ _ _ LF) as (p1 & p2 & _). fold nv in p2. fold Nk in g1, p1. change (m_cols (lm_Pi0k l) = N) in p2.
  unfold MCC_Values_quadrature, mcc_utilities_Values. rewrite (mf_dim _ _ _ _ _ _ _ LF). cbn [Nat.eqb]. set (n := m_cols (mcc_points l)) in *. rewrite g2.
  replace (2 * n / 2)%nat with n by (rewrite Nat.mul_comm, Nat.div_mul; lia). unfold mmul. cbn [mtrans m_cols m_rows m_at]. rewrite g1, p1, Nat.eqb_refl. cbn [bind]. rewrite values_loop by (cbn [m_rows]; auto). cbn [m_cols m_at].
  eexists _, _. split; [reflexivity|]. split.
  - intros V [<-|[<-|[]]]; cbn [m_rows m_cols]; auto.
  - intros u q Hq. unfold combine. cbn [m_cols m_at Nat.add]. rewrite p2. split; (apply project_value; [auto|]); intros a; now rewrite g3 by lia.
Qed.
Lemma values_points points : m_rows points = 3%nat -> exists V0 V1, MCC_Values junk ref l points = Ok [V0; V1] /\ (forall V, In V [V0; V1] -> m_rows V = m_cols points /\ m_cols V = N) /\
  forall u q, (q < m_cols points)%nat -> combine V0 u q = pr u 0 (m_at points 0 q) (m_at points 1 q) /\ combine V1 u q = pr u 1 (m_at points 0 q) (m_at points 1 q).
Proof.
  intros HP. unfold MCC_Values. rewrite (mf_dim _ _ _ _ _ _ _ LF), (mf_centroid _ _ _ _ _ _ _ LF), (mf_diam _ _ _ _ _ _ _ LF), fNk.
  destruct (mf_P _ _ _ _ _ _ _ LF) as (p1 & p2 & _). fold Nk in p1. change (m_cols (lm_Pi0k l) = N) in p2.
  destruct (vander_m (k + 1) _ RM junk points (pg_Centroid p) h HP Hh) as (Vp & EV & V1 & V2 & V3). fold h. rewrite EV. cbn [bind].
  unfold leftCols, mat_block. rewrite (leb_true (0 + m_rows Vp) (m_rows Vp)) by lia. rewrite (leb_true (0 + Nk) (m_cols Vp)) by (unfold NN, Nk in *; lia). cbn [andb bind]. set (V := {| m_rows := m_rows Vp; m_cols := Nk; m_at := _ |}).
  destruct (mf_TN _ _ _ _ _ _ _ LF) as (t1 & t2 & _). destruct (mf_TB _ _ _ _ _ _ _ LF) as (u1 & u2 & _). fold Nk in t2, u2. change (m_rows (lm_TkNabla l) = NN) in t1. change (m_rows (lm_TkBigOPlus l) = no) in u1.
  destruct (GkVander_ok Nk NN (m_cols points) (lm_TkNabla l) (lm_TkBigOPlus l) V t1 t2 ltac:(lia) u2 ltac:(lia) V1 eq_refl) as (G & EG & g1 & g2 & g3 & g4). rewrite EG. cbn [bind].
  unfold mmul. cbn [mtrans m_cols m_rows m_at]. rewrite g1, p1, Nat.eqb_refl. cbn [bind]. rewrite values_loop by (cbn [m_rows]; auto). cbn [m_cols m_at].
  eexists _, _. split; [reflexivity|]. split.
  - intros W [<-|[<-|[]]]; cbn [m_rows m_cols]; auto.
  - intros u q Hq. unfold combine. cbn [m_cols m_at]. rewrite p2. split; (apply project_value; [auto|]); intros a.
    + rewrite Nat.mul_0_r. cbn [Nat.add]. rewrite g3 by auto. unfold vp. apply rsum_ext. intros c Hc. rewrite Nat.mul_0_r. cbn [V m_at Nat.add]. rewrite V3 by (unfold NN, Nk in *; lia). reflexivity.
    + rewrite Nat.mul_1_r. rewrite g4 by auto. unfold vp. apply rsum_ext. intros c Hc. rewrite Nat.mul_1_r. cbn [V m_at Nat.add]. rewrite V3 by (unfold NN, Nk in *; lia). reflexivity.
Qed.
Lemma values_div : exists V, MCC_DivergenceValues l = Ok V /\ m_rows V = m_cols (mcc_points l) /\ m_cols V = N /\
  forall u q, combine V u q = dv u (m_at (mcc_points l) 0 q) (m_at (mcc_points l) 1 q).
Proof.
  destruct (mf_VI _ _ _ _ _ _ _ LF) as (g1 & g2 & g3). destruct (mf_V _ _ _ _ _ _ _ LF) as (p1 & p2 & _). fold Nk in g2, g3, p1. change (m_cols (lm_Vmatrix l) = N) in p2.
  unfold MCC_DivergenceValues, mmul. rewrite g2, p1, Nat.eqb_refl. eexists. split; [reflexivity|]. cbn [m_rows m_cols]. do 2 (split; [auto|]). intros u q. unfold combine. cbn [m_cols m_at]. rewrite p2.
  unfold VemMccProofs3.div, VemMccProofs3.comb, VemMccProofs3.coef. fold Nk.
  rewrite (rsum_ext _ _ (fun j => rsum Nk (fun c => m_at (lm_Vmatrix l) c j * u j * ph c (m_at (mcc_points l) 0 q) (m_at (mcc_points l) 1 q)))) by (intros j Hj; rewrite <- rsum_scal_r; apply rsum_ext; intros c Hc; rewrite g3 by auto; fold cx cy h; ring).
  rewrite rsum_swap. apply rsum_ext. intros c Hc. rewrite rsum_scal_r. reflexivity.
Qed.

(** ** Statements *)
Lemma C110_vectors_all :
  (forall gx gy a x y, mcc_gradients ref l gx gy -> (a < lm_NkNabla l)%nat -> mcc_basis ref l 0 a x y = gx (a + 1)%nat x y /\ mcc_basis ref l 1 a x y = gy (a + 1)%nat x y) /\
  (forall f0 f0x f0y f1 f1x f1y, poly2 k f0 f0x f0y -> poly2 k f1 f1x f1y -> exists c,
    (forall x y, f0 x y = rsum (2 * lm_Nk l) (fun a => c a * mcc_basis ref l 0 a x y) /\ f1 x y = rsum (2 * lm_Nk l) (fun a => c a * mcc_basis ref l 1 a x y)) /\
    forall c', (forall x y, f0 x y = rsum (2 * lm_Nk l) (fun a => c' a * mcc_basis ref l 0 a x y) /\ f1 x y = rsum (2 * lm_Nk l) (fun a => c' a * mcc_basis ref l 1 a x y)) ->
      forall a, (a < 2 * lm_Nk l)%nat -> c' a = c a).
Proof.
  rewrite fNk, fNN. split.
  - intros gx gy a x y G Ha. rewrite !basis_g. destruct (gradients_ph gx gy (a + 1) x y G ltac:(lia)) as (-> & ->). replace (a + 1)%nat with (S a) by lia. apply (g_grad gt gs k p llt svd l GP LF a x y Ha).
  - intros f0 f0x f0y f1 f1x f1y P0 P1. destruct (field_span gt gs k p llt svd l GP LF SV _ _ _ _ _ _ P0 P1) as (c & C). exists c. split.
    + intros x y. destruct (C x y) as (-> & ->). split; apply rsum_ext; intros a Ha; now rewrite basis_g.
    + intros c' C' a Ha. cut (c' a - c a = 0); [lra|]. apply (field_independent gt gs k p llt svd l GP LF SV (fun a => c' a - c a)); auto. intros d x y Hd. unfold VemMccProofs3.field. fold Nk.
      rewrite (rsum_ext _ _ (fun i => c' i * g d i x y - c i * g d i x y)) by (intros; ring). rewrite rsum_minus. destruct (C x y) as (E0 & E1), (C' x y) as (E0' & E1'). unfold VemMccProofs3.field in E0, E1. fold Nk in E0, E1.
      destruct d as [|[|]]; [rewrite <- E0|rewrite <- E1|lia]; [rewrite E0'|rewrite E1']; apply Rminus_diag_eq; apply rsum_ext; intros; now rewrite basis_g.
Qed.

Lemma proj_poly2 u d : exists fx fy, poly2 k (pr u d) fx fy.
Proof. eexists _, _. apply (field_poly2 k p l GP). Qed.
Lemma div_poly2 u : exists fx fy, poly2 k (dv u) fx fy.
Proof. eexists _, _. apply (VemMccProofs3.comb_poly2 p GP k). Qed.

Lemma comb_of_poly2 n m mx my : poly2 n m mx my -> exists c, (forall x y, m x y = comb (num2 n) c x y) /\ (forall x y, mx x y = combx (num2 n) c x y) /\ (forall x y, my x y = comby (num2 n) c x y).
Proof. apply (phi_represent cx cy h Hh n). Qed.
Lemma parts m mx my u : poly2 (k + 1) m mx my -> I (fun x y => mx x y * pr u 0 x y + my x y * pr u 1 x y) = out m u - I (fun x y => m x y * dv u x y).
Proof.
  intros P. destruct (comb_of_poly2 _ _ _ _ P) as (c & C & CX & CY).
  rewrite (I_ext l _ (fun x y => combx (num2 (k + 1)) c x y * pr u 0 x y + comby (num2 (k + 1)) c x y * pr u 1 x y)) by (intros; now rewrite CX, CY).
  rewrite (proj_parts gt gs k p llt svd l GR GP LF Ellt SV).
  rewrite (outflow_ext k p l m (comb (num2 (k + 1)) c)) by auto. rewrite (I_ext l (fun x y => m x y * dv u x y) (fun x y => comb (num2 (k + 1)) c x y * dv u x y)) by (intros; now rewrite C). reflexivity.
Qed.

Lemma C111_projection_all : forall u, exists P0 P0x P0y P1 P1x P1y D Dx Dy, poly2 k P0 P0x P0y /\ poly2 k P1 P1x P1y /\ poly2 k D Dx Dy /\
  (exists V0 V1, MCC_Values_quadrature l = Ok [V0; V1] /\ forall q, (q < m_cols (mcc_points l))%nat ->
    combine V0 u q = P0 (m_at (mcc_points l) 0 q) (m_at (mcc_points l) 1 q) /\ combine V1 u q = P1 (m_at (mcc_points l) 0 q) (m_at (mcc_points l) 1 q)) /\
  (forall points, m_rows points = 3%nat -> exists V0 V1, MCC_Values junk ref l points = Ok [V0; V1] /\ forall q, (q < m_cols points)%nat ->
    combine V0 u q = P0 (m_at points 0 q) (m_at points 1 q) /\ combine V1 u q = P1 (m_at points 0 q) (m_at points 1 q)) /\
  (exists V, MCC_DivergenceValues l = Ok V /\ forall q, combine V u q = D (m_at (mcc_points l) 0 q) (m_at (mcc_points l) 1 q)) /\
  (forall m mx my, poly2 (k + 1) m mx my -> mcc_inside l (fun x y => P0 x y * mx x y + P1 x y * my x y) = mcc_outflow l p m u - mcc_inside l (fun x y => m x y * D x y)) /\
  (forall r, (r < lm_NumBigOPlusInternalBasisFunctions l)%nat ->
    mcc_inside l (fun x y => P0 x y * mcc_vector ref l (lm_TkBigOPlus l) r 0 x y + P1 x y * mcc_vector ref l (lm_TkBigOPlus l) r 1 x y) = lm_Measure l * u (lm_NumBoundaryBasisFunctions l + lm_NumNablaInternalBasisFunctions l + r)%nat) /\
  (forall a, mcc_inside l (fun x y => mcc_polynomial ref l (lm_Nk l) a x y * D x y) =
    mcc_outflow l p (mcc_polynomial ref l (lm_Nk l) a) u - lm_Measure l * rsum (lm_NumNablaInternalBasisFunctions l) (fun c => a (c + 1)%nat * u (lm_NumBoundaryBasisFunctions l + c)%nat)).
Proof.
  intros u. destruct (proj_poly2 u 0) as (P0x & P0y & P0). destruct (proj_poly2 u 1) as (P1x & P1y & P1). destruct (div_poly2 u) as (Dx & Dy & PD). exists (pr u 0), P0x, P0y, (pr u 1), P1x, P1y, (dv u), Dx, Dy.
  do 3 (split; [auto|]). split; [|split; [|split; [|split; [|split]]]].
  - destruct values_quadrature as (V0 & V1 & E & _ & A). exists V0, V1. split; auto.
  - intros points HP. destruct (values_points points HP) as (V0 & V1 & E & _ & A). exists V0, V1. split; auto.
  - destruct values_div as (V & E & _ & _ & A). exists V. split; auto.
  - intros m mx my PM. rewrite outflow_out, <- (parts m mx my u PM). apply I_ext. intros; ring.
  - rewrite (mf_no _ _ _ _ _ _ _ LF), (mf_nn _ _ _ _ _ _ _ LF), (mf_nb _ _ _ _ _ _ _ LF), (mf_measure _ _ _ _ _ _ _ LF). intros r Hr.
    etransitivity; [|apply (proj_big gt gs k p llt svd l GR GP LF Ellt SV r u Hr)]. apply I_ext. intros x y. rewrite !vector_big. change (num2 k + (k + 1))%nat with NN. ring.
  - intros a. rewrite (mf_nn _ _ _ _ _ _ _ LF), (mf_nb _ _ _ _ _ _ _ LF), (mf_measure _ _ _ _ _ _ _ LF), fNk, outflow_out.
    rewrite (I_ext l _ (fun x y => comb Nk a x y * dv u x y)) by (intros; now rewrite poly_comb by (unfold NN, Nk in *; lia)).
    rewrite (outflow_ext k p l (mcc_polynomial ref l Nk a) (comb Nk a)) by (intros; now rewrite poly_comb by (unfold NN, Nk in *; lia)).
    rewrite (div_parts gt gs k p llt svd l GR GP LF Ellt). f_equal. f_equal. apply rsum_ext. intros c Hc. replace (c + 1)%nat with (S c) by lia. reflexivity.
Qed.

Lemma C111_reproduces_all : forall gx gy f0 f0x f0y f1 f1x f1y, mcc_gradients ref l gx gy -> poly2 k f0 f0x f0y -> poly2 k f1 f1x f1y ->
  (exists V0 V1, MCC_Values_quadrature l = Ok [V0; V1] /\ forall q, (q < m_cols (mcc_points l))%nat ->
    combine V0 (mcc_dof ref l p gx gy f0 f1) q = f0 (m_at (mcc_points l) 0 q) (m_at (mcc_points l) 1 q) /\ combine V1 (mcc_dof ref l p gx gy f0 f1) q = f1 (m_at (mcc_points l) 0 q) (m_at (mcc_points l) 1 q)) /\
  (forall points, m_rows points = 3%nat -> exists V0 V1, MCC_Values junk ref l points = Ok [V0; V1] /\ forall q, (q < m_cols points)%nat ->
    combine V0 (mcc_dof ref l p gx gy f0 f1) q = f0 (m_at points 0 q) (m_at points 1 q) /\ combine V1 (mcc_dof ref l p gx gy f0 f1) q = f1 (m_at points 0 q) (m_at points 1 q)).
Proof.
  intros gx gy f0 f0x f0y f1 f1x f1y G P0 P1.
  assert (EX : forall x y, pr (mcc_dof ref l p gx gy f0 f1) 0 x y = f0 x y /\ pr (mcc_dof ref l p gx gy f0 f1) 1 x y = f1 x y).
  { intros x y. destruct (proj_exact gt gs k p llt svd l GR GP LF Ellt SV f0 f0x f0y f1 f1x f1y P0 P1 x y) as (E0 & E1). rewrite <- E0, <- E1. unfold VemMccProofs3.proj, VemMccProofs3.field.
    split; apply rsum_ext; intros i Hi; f_equal; apply coef_ext; intros j Hj; now apply dof_dofs. }
  split.
  - destruct values_quadrature as (V0 & V1 & E & _ & A). exists V0, V1. split; auto. intros q Hq. destruct (A (mcc_dof ref l p gx gy f0 f1) q Hq) as (-> & ->). apply EX.
  - intros points HP. destruct (values_points points HP) as (V0 & V1 & E & _ & A). exists V0, V1. split; auto. intros q Hq. destruct (A (mcc_dof ref l p gx gy f0 f1) q Hq) as (-> & ->). apply EX.
Qed.

Lemma C112_divergence_all : forall gx gy f0 f0x f0y f1 f1x f1y, mcc_gradients ref l gx gy -> poly2 (k + 1) f0 f0x f0y -> poly2 (k + 1) f1 f1x f1y ->
  exists V, MCC_DivergenceValues l = Ok V /\ m_rows V = m_cols (mcc_points l) /\ m_cols V = lm_NumBasisFunctions l /\
    forall q, combine V (mcc_dof ref l p gx gy f0 f1) q = f0x (m_at (mcc_points l) 0 q) (m_at (mcc_points l) 1 q) + f1y (m_at (mcc_points l) 0 q) (m_at (mcc_points l) 1 q).
Proof.
  intros gx gy f0 f0x f0y f1 f1x f1y G P0 P1. destruct values_div as (V & E & r & c & A). exists V. rewrite fN. do 3 (split; [auto|]). intros q. rewrite A.
  rewrite <- (div_exact gt gs k p llt svd l GR GP LF Ellt f0 f0x f0y f1 f1x f1y P0 P1). unfold VemMccProofs3.div, VemMccProofs3.comb. apply rsum_ext. intros i Hi. f_equal. apply coef_ext. intros j Hj. now apply dof_dofs.
Qed.
Lemma C112_conservation_all : exists V, MCC_DivergenceValues l = Ok V /\
  forall u, apply_rule (q_Weights (lm_InternalQuadrature l)) (combine V u) = rsum (m_cols (pg_Vertices p)) (fun i => mcc_edge_outflow ref l p i u).
Proof.
  destruct values_div as (V & E & r & c & A). exists V. split; auto. intros u. fold nv. rewrite edges_out, <- (conservation gt gs k p llt svd l GR GP LF Ellt u). apply apply_ext. intros q Hq. apply A.
Qed.
Lemma edge_points i q d : (i < nv)%nat -> (q < k + 1)%nat -> (d < 3)%nat -> m_at (mcc_boundary_points l) d ((k + 1) * i + q) =
    along (pg_Vertices p) (edge_first (pg_Vertices p) (pg_EdgesDirection p) i) (edge_last (pg_Vertices p) (pg_EdgesDirection p) i) (m_at (q_Points (vq_ReferenceSegmentQuadrature (rm_Quadrature ref))) 0 q) d.
Proof. destruct (rf_all gt gs k ref p RF) as (_ & _ & _ & _ & _ & _ & ->). apply (mf_points _ _ _ _ _ _ _ LF). Qed.

Lemma C113_stabilisation_all : forall gx gy, mcc_gradients ref l gx gy -> exists S, MCC_DofiDofi l = Ok S /\ m_rows S = lm_NumBasisFunctions l /\ m_cols S = lm_NumBasisFunctions l /\
  (forall i j, m_at S i j = m_at S j i) /\
  (forall u, exists P0 P0x P0y P1 P1x P1y, poly2 k P0 P0x P0y /\ poly2 k P1 P1x P1y /\
    (exists V0 V1, MCC_Values_quadrature l = Ok [V0; V1] /\ forall q, (q < m_cols (mcc_points l))%nat ->
      combine V0 u q = P0 (m_at (mcc_points l) 0 q) (m_at (mcc_points l) 1 q) /\ combine V1 u q = P1 (m_at (mcc_points l) 0 q) (m_at (mcc_points l) 1 q)) /\
    (forall j, (lm_NumBoundaryBasisFunctions l <= j < lm_NumBasisFunctions l)%nat -> mcc_dof ref l p gx gy P0 P1 j = u j) /\
    rsum (m_rows S) (fun i => rsum (m_cols S) (fun j => u i * m_at S i j * u j)) = lm_Measure l * rsum (lm_NumBoundaryBasisFunctions l) (fun j => (mcc_dof ref l p gx gy P0 P1 j - u j) ^ 2)) /\
  (forall f0 f0x f0y f1 f1x f1y, poly2 k f0 f0x f0y -> poly2 k f1 f1x f1y -> forall i, combine S (mcc_dof ref l p gx gy f0 f1) i = 0).
Proof.
  intros gx gy G. destruct (mf_D _ _ _ _ _ _ _ LF) as (d1 & d2 & _). destruct (mf_P _ _ _ _ _ _ _ LF) as (p1 & p2 & _). fold Nk in d2, p1. change (m_rows (lm_Dmatrix l) = N) in d1. change (m_cols (lm_Pi0k l) = N) in p2.
  unfold MCC_DofiDofi. destruct (C51_dofi_all (lm_Pi0k l) (lm_Measure l) (lm_Dmatrix l)) as (S & E & RS & CS & SY & _ & SQ & SD); [congruence|congruence|]. rewrite d1 in RS, CS, SQ. rewrite d2, p2 in SQ. rewrite RS, CS in SQ.
  exists S. rewrite fN, RS, CS. do 3 (split; [auto|]). split; [auto|]. split.
  - intros u. destruct (proj_poly2 u 0) as (P0x & P0y & P0). destruct (proj_poly2 u 1) as (P1x & P1y & P1). exists (pr u 0), P0x, P0y, (pr u 1), P1x, P1y. do 2 (split; [auto|]). split.
    { destruct values_quadrature as (V0 & V1 & EV & _ & A). exists V0, V1. split; auto. }
    rewrite (mf_nb _ _ _ _ _ _ _ LF). fold nv nb.
    assert (INT : forall j, (nb <= j < N)%nat -> mcc_dof ref l p gx gy (pr u 0) (pr u 1) j = u j).
    { intros j Hj. rewrite dof_dofs by (auto; lia). replace j with (nb + (j - nb))%nat by lia. apply (proj_internal gt gs k p llt svd l GR GP LF Ellt SV u (j - nb)). fold nn no. unfold N in Hj. lia. }
    split; [exact INT|]. rewrite SQ. f_equal. transitivity (rsum N (fun q => (mcc_dof ref l p gx gy (pr u 0) (pr u 1) q - u q) ^ 2)).
    + apply rsum_ext. intros q Hq. f_equal. f_equal. rewrite dof_dofs by auto. apply (D_dofs gt gs k p llt svd l GP LF (coef (lm_Pi0k l) u) q Hq).
    + unfold N at 1. rewrite rsum_add. rewrite (rsum_0 (nn + no)); [ring|]. intros c Hc. rewrite INT by (unfold N; lia). ring.
  - intros f0 f0x f0y f1 f1x f1y P0 P1 i. destruct (field_span gt gs k p llt svd l GP LF SV _ _ _ _ _ _ P0 P1) as (c & C). unfold combine. rewrite CS.
    rewrite (rsum_ext _ _ (fun j => rsum (2 * Nk) (fun a => m_at S i j * m_at (lm_Dmatrix l) j a * c a))).
    + rewrite rsum_swap. apply rsum_0. intros a Ha. rewrite rsum_scal_r. assert (Z : product S (lm_Dmatrix l) i a = 0); [|unfold product in Z; rewrite CS in Z; rewrite Z; ring].
      apply SD; [|congruence]. intros i' j' Hi' Hj'. unfold product. rewrite p1, p2 in *.
      rewrite <- (proj_coef gt gs k p llt svd l GR GP LF Ellt SV (fun a => delta a j') i' Hi'). unfold VemMccProofs3.coef. apply rsum_ext. intros q Hq. f_equal.
      rewrite <- (D_dofs gt gs k p llt svd l GP LF (fun a => delta a j') q Hq). symmetry. apply (rsum_delta (2 * Nk) j' (fun a => m_at (lm_Dmatrix l) q a) Hj').
    + intros j Hj. rewrite dof_dofs by auto. rewrite (dofs_ext k p l f0 f1 (field k p l 0 c) (field k p l 1 c) j C). rewrite <- (D_dofs gt gs k p llt svd l GP LF c j Hj). rewrite <- rsum_scal. apply rsum_ext. intros; ring.
Qed.
End All.
