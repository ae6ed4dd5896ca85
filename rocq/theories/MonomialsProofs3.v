From Coq Require Import List Arith Bool Lia ZArith Reals Lra.
From Verif Require Import Base RSum MatrixModel MonomialsModel MonomialsSpec MonomialsProofs MonomialsProofs2.
Import ListNotations.
Local Open Scope R_scope.

(** ** Calculus of monomials *)
Lemma mono_from_ext s e x y : (forall d, (s <= d)%nat -> x d = y d) -> mono_from s e x = mono_from s e y.
Proof.
  revert s; induction e as [|a e IH]; intros s H; cbn; auto. rewrite H by lia. f_equal. apply IH. intros; apply H; lia.
Qed.
Lemma mono_ext e x y : (forall d, x d = y d) -> mono e x = mono e y.
Proof. intros H. apply mono_from_ext. auto. Qed.
Lemma setc_same x d : forall i, setc x d (x d) i = x i.
Proof. intros i. unfold setc. destruct (Nat.eqb_spec i d); subst; auto. Qed.

Lemma mono_from_split s e d x : (d < length e)%nat ->
  exists C, forall c t, mono_from s (lower d c e) (setc x (s + d) t) = C * t ^ Z.to_nat (nth d e 0%Z - c).
Proof.
  revert s d; induction e as [|a e IH]; intros s d H; cbn in H; [lia|]. destruct d as [|d].
  - exists (mono_from (S s) e x). intros c t. unfold lower. cbn [replace nth mono_from].
    replace (setc x (s + 0) t s) with t by (unfold setc; rewrite Nat.add_0_r, Nat.eqb_refl; auto).
    rewrite (mono_from_ext (S s) e (setc x (s + 0) t) x); [ring|].
    intros i Hi. unfold setc. destruct (Nat.eqb_spec i (s + 0)); [lia|auto].
  - destruct (IH (S s) d ltac:(lia)) as (C & HC). exists (x s ^ Z.to_nat a * C). intros c t.
    unfold lower in *. cbn [replace nth mono_from].
    replace (setc x (s + S d) t s) with (x s) by (unfold setc; destruct (Nat.eqb_spec s (s + S d)); [lia|auto]).
    specialize (HC c t). replace (S s + d)%nat with (s + S d)%nat in HC by lia. rewrite HC. ring.
Qed.

Lemma lower_0 d e : lower d 0 e = e.
Proof.
  unfold lower. rewrite Z.sub_0_r. revert d; induction e as [|a e IH]; intros [|d]; cbn; auto. now rewrite IH.
Qed.

Lemma derivable_pt_lim_mono C (n : nat) u : derivable_pt_lim (fun t => C * t ^ n) u (C * (INR n * u ^ Nat.pred n)).
Proof. apply (derivable_pt_lim_scal (fun t => t ^ n) C u). apply derivable_pt_lim_pow. Qed.

Definition mono_d (d : nat) (e : list Z) (x : point) : R :=
  if (0 <? nth d e 0)%Z then IZR (nth d e 0%Z) * mono (lower d 1 e) x else 0.

Lemma partial_mono e d x : (d < length e)%nat -> (0 <= nth d e 0)%Z -> is_partial (mono e) d x (mono_d d e x).
Proof.
  intros H Hp. unfold is_partial, mono. destruct (mono_from_split 0 e d x H) as (C & HC).
  apply (derivable_pt_lim_ext (fun t => C * t ^ Z.to_nat (nth d e 0%Z))).
  { intros t. specialize (HC 0%Z t). rewrite lower_0, Z.sub_0_r in HC. cbn [plus] in HC. now rewrite HC. }
  replace (mono_d d e x) with (C * (INR (Z.to_nat (nth d e 0%Z)) * x d ^ Nat.pred (Z.to_nat (nth d e 0%Z)))); [apply derivable_pt_lim_mono|].
  unfold mono_d. destruct (Z.ltb_spec 0 (nth d e 0%Z)) as [L|L].
  - unfold mono. rewrite (mono_from_ext 0 (lower d 1 e) x (setc x d (x d))) by (intros; now rewrite setc_same).
    change d with (0 + d)%nat at 6. rewrite HC. replace (Nat.pred (Z.to_nat (nth d e 0%Z))) with (Z.to_nat (nth d e 0%Z - 1)) by lia.
    rewrite INR_IZR_INZ, Z2Nat.id by lia. ring.
  - replace (nth d e 0%Z) with 0%Z by lia. cbn. ring.
Qed.

(** rule for the scaled coordinates *)
Lemma partial_scaled f d x c h L : h <> 0 -> (forall y z, (forall i, y i = z i) -> f y = f z) ->
  is_partial f d (scaled c h x) L -> is_partial (fun y => f (scaled c h y)) d x (L * (1 / h)).
Proof.
  intros Hh Hf HL. unfold is_partial in *.
  apply (derivable_pt_lim_ext (Ranalysis1.comp (fun t => f (setc (scaled c h x) d t)) (fun t => (t - c d) / h))).
  { intros t. unfold Ranalysis1.comp. apply Hf. intros i. unfold setc, scaled. destruct (Nat.eqb_spec i d); subst; auto. }
  apply derivable_pt_lim_comp; auto.
  apply (derivable_pt_lim_ext (fun t => (1 / h) * (t - c d))).
  { intros t. field. auto. }
  assert (D : derivable_pt_lim (fun t => (1 / h) * (t - c d)) (x d) ((1 / h) * (1 - 0))).
  { apply (derivable_pt_lim_scal (fun t => t - c d)).
    apply (derivable_pt_lim_minus id (fct_cte (c d))); [apply derivable_pt_lim_id|apply derivable_pt_lim_const]. }
  replace ((1 / h) * (1 - 0)) with (1 / h) in D by (field; auto). exact D.
Qed.

Lemma partial_scal f d x a L : is_partial f d x L -> is_partial (fun y => a * f y) d x (a * L).
Proof. intros H. apply (derivable_pt_lim_scal (fun t => f (setc x d t)) a). exact H. Qed.

Lemma partial_const d x a : is_partial (fun _ => a) d x 0.
Proof. apply (derivable_pt_lim_const a). Qed.

Lemma partial_ext f g d x L : (forall y, f y = g y) -> is_partial f d x L -> is_partial g d x L.
Proof. intros H. apply derivable_pt_lim_ext. intros t. apply H. Qed.

Lemma partial_unique f d x L1 L2 : is_partial f d x L1 -> is_partial f d x L2 -> L1 = L2.
Proof. apply uniqueness_limite. Qed.

Lemma laplacian_unique dim f x L1 L2 : is_laplacian dim f x L1 -> is_laplacian dim f x L2 -> L1 = L2.
Proof.
  intros (g1 & h1 & A1 & B1 & ->) (g2 & h2 & A2 & B2 & ->). apply rsum_ext. intros d Hd.
  apply (partial_unique (g1 d) d x); auto. eapply partial_ext; [|apply B2; auto].
  intros y. apply (partial_unique f d y); auto.
Qed.

Definition mono_dd (d : nat) (e : list Z) (x : point) : R :=
  if (1 <? nth d e 0)%Z then IZR (nth d e 0%Z * (nth d e 0%Z - 1)) * mono (lower d 2 e) x else 0.

Lemma lower_lower d e : (d < length e)%nat -> lower d 1 (lower d 1 e) = lower d 2 e.
Proof.
  intros H. unfold lower. rewrite nth_replace, Nat.eqb_refl. rewrite (proj2 (Nat.ltb_lt d _)) by auto. cbn [andb].
  replace (nth d e 0 - 1 - 1)%Z with (nth d e 0 - 2)%Z by lia.
  revert d H; induction e as [|a e IH]; intros [|d] H; cbn in *; try lia; auto. rewrite IH by lia. reflexivity.
Qed.

Lemma partial_mono_d e d x : (d < length e)%nat -> (0 <= nth d e 0)%Z -> is_partial (mono_d d e) d x (mono_dd d e x).
Proof.
  intros H Hp. unfold mono_d, mono_dd. destruct (Z.ltb_spec 0 (nth d e 0%Z)) as [L|L].
  - assert (HL : (d < length (lower d 1 e))%nat) by (unfold lower; now rewrite replace_length).
    assert (Hn : nth d (lower d 1 e) 0%Z = (nth d e 0 - 1)%Z) by (rewrite nth_lower by auto; now rewrite Nat.eqb_refl).
    pose proof (partial_mono (lower d 1 e) d x HL) as P. rewrite Hn in P. specialize (P ltac:(lia)).
    unfold mono_d in P. rewrite Hn in P.
    replace (if (1 <? nth d e 0)%Z then IZR (nth d e 0%Z * (nth d e 0%Z - 1)) * mono (lower d 2 e) x else 0)
      with (IZR (nth d e 0%Z) * (if (0 <? nth d e 0 - 1)%Z then IZR (nth d e 0%Z - 1) * mono (lower d 1 (lower d 1 e)) x else 0)).
    + now apply partial_scal.
    + destruct (Z.ltb_spec 0 (nth d e 0 - 1)%Z), (Z.ltb_spec 1 (nth d e 0)%Z); try lia.
      * rewrite lower_lower, mult_IZR by auto. ring.
      * ring.
  - destruct (Z.ltb_spec 1 (nth d e 0)%Z); try lia. apply partial_const.
Qed.

Lemma mono_d_ext d e x y : (forall i, x i = y i) -> mono_d d e x = mono_d d e y.
Proof. intros H. unfold mono_d. destruct (0 <? nth d e 0)%Z; auto. f_equal. now apply mono_ext. Qed.

Lemma laplacian_mono dim e x : tuple dim e -> is_laplacian dim (mono e) x (rsum dim (fun d => mono_dd d e x)).
Proof.
  intros (L & F). exists (fun d => mono_d d e), (fun d => mono_dd d e x).
  assert (P : forall d, (d < dim)%nat -> (0 <= nth d e 0)%Z) by (intros d Hd; rewrite Forall_forall in F; apply F, nth_In; lia).
  repeat split; auto.
  - intros d y Hd. apply partial_mono; auto. lia.
  - intros d Hd. apply partial_mono_d; auto. lia.
Qed.

Lemma laplacian_scaled dim e x c h : h <> 0 -> tuple dim e ->
  is_laplacian dim (fun y => mono e (scaled c h y)) x (1 / (h * h) * rsum dim (fun d => mono_dd d e (scaled c h x))).
Proof.
  intros Hh (L & F). exists (fun d y => mono_d d e (scaled c h y) * (1 / h)), (fun d => (1 / h) * (mono_dd d e (scaled c h x) * (1 / h))).
  assert (P : forall d, (d < dim)%nat -> (0 <= nth d e 0)%Z) by (intros d Hd; rewrite Forall_forall in F; apply F, nth_In; lia).
  split; [|split].
  - intros d y Hd. apply (partial_scaled (mono e)); auto; [apply mono_ext|]. apply partial_mono; auto; lia.
  - intros d Hd. apply (partial_ext (fun y => (1 / h) * mono_d d e (scaled c h y))); [intros; ring|].
    apply partial_scal. apply (partial_scaled (mono_d d e)); auto; [apply mono_d_ext|]. apply partial_mono_d; auto; lia.
  - rewrite <- rsum_scal. apply rsum_ext. intros d _. field. auto.
Qed.

(** ** Results about a computed table *)
Section Generic.
Context (M : MonomialsClass) (idx : list Z -> Z) (G : good M idx).
Let dim := mc_dim M.
Context (k : nat) (data : Monomials_Data) (E : Compute M k = Ok data).

Let U := the_data M idx G k data E.
Let N := numM M k.

Lemma expo_enum i : (i < N)%nat -> expo (Exponents data) i = enum M i.
Proof. intros H. unfold expo. apply nth_error_nth. now apply (u_exp _ _ _ _ _ U). Qed.

Lemma g_C27 : NumMonomials data = N /\ length (Exponents data) = NumMonomials data /\ NoDup (Exponents data) /\
  (forall e, In e (Exponents data) <-> tuple dim e /\ (degree e <= Z.of_nat k)%Z) /\
  (forall i j, (i <= j < NumMonomials data)%nat -> (degree (expo (Exponents data) i) <= degree (expo (Exponents data) j))%Z).
Proof.
  rewrite (num_data _ _ G _ _ E). fold N. split; auto. split; [apply (u_len _ _ _ _ _ U)|].
  rewrite (exps_enum _ _ G _ _ E). fold N. split; [|split].
  - apply FinFun.Injective_map_NoDup; [|apply seq_NoDup]. intros i j. apply (enum_inj _ _ G).
  - intros e. rewrite in_map_iff. split.
    + intros (i & <- & Hi%in_seq). split; [apply (enum_ok _ _ G)|]. apply (enum_lt _ _ G). unfold N in Hi. lia.
    + intros (H1 & H2). exists (Z.to_nat (idx e)). split; [now apply (enum_idx _ _ G)|]. apply in_seq.
      pose proof (idx_lt _ _ G k e H1 H2). unfold N. lia.
  - intros i j H. unfold N in *. rewrite <- (exps_enum _ _ G _ _ E). rewrite !expo_enum by lia.
    pose proof (proj1 (enum_ok _ _ G j)) as (_ & Hp).
    assert (0 <= degree (enum M j))%Z by (clear - Hp; induction Hp; cbn in *; unfold degree in *; lia).
    pose proof (proj2 (enum_lt _ _ G (Z.to_nat (degree (enum M j))) j) ltac:(lia)).
    pose proof (proj1 (enum_lt _ _ G (Z.to_nat (degree (enum M j))) i) ltac:(lia)). lia.
Qed.

Lemma g_C28 :
  (forall i, (i < NumMonomials data)%nat -> mc_Index M (expo (Exponents data) i) = Ok (Z.of_nat i)) /\
  (forall e, tuple dim e -> (degree e <= Z.of_nat k)%Z ->
     exists i, mc_Index M e = Ok (Z.of_nat i) /\ (i < NumMonomials data)%nat /\ expo (Exponents data) i = e) /\
  (forall e, length e = dim -> (mc_Index M e = Ok (-1)%Z <-> Exists (fun a => (a < 0)%Z) e)).
Proof.
  rewrite (num_data _ _ G _ _ E). fold N. split; [|split].
  - intros i Hi. rewrite expo_enum by auto. rewrite (g_Index _ _ G) by apply (enum_ok _ _ G). now rewrite (proj2 (enum_ok _ _ G i)).
  - intros e H1 H2. exists (Z.to_nat (idx e)). pose proof (idx_lt _ _ G k e H1 H2). split; [|split]; auto.
    + rewrite (g_Index _ _ G) by auto. pose proof (g_pos _ _ G e H1). now rewrite Z2Nat.id.
    + rewrite expo_enum by auto. now apply (enum_idx _ _ G).
  - intros e L. split; [|now apply (g_neg _ _ G)]. intros H.
    destruct (Exists_dec (fun a => (a < 0)%Z) e) as [|NE]; auto. { intros a. destruct (Z_lt_dec a 0); auto. }
    exfalso. assert (T : tuple dim e). { split; auto. apply Forall_Exists_neg in NE. eapply Forall_impl; [|exact NE]. cbn. intros; lia. }
    rewrite (g_Index _ _ G) in H by auto. pose proof (g_pos _ _ G e T). injection H. lia.
Qed.

Lemma g_C29 i : (i < NumMonomials data)%nat ->
  let e := expo (Exponents data) i in
  exists l1 l2, DerivativeIndices M data i = Ok l1 /\ SecondDerivativeIndices M data i = Ok l2 /\
    length l1 = dim /\ length l2 = dim /\
    forall d, (d < dim)%nat ->
      ((0 < nth d e 0)%Z -> exists j, nth d l1 0%Z = Z.of_nat j /\ (j < NumMonomials data)%nat /\ expo (Exponents data) j = lower d 1 e) /\
      (~ (0 < nth d e 0)%Z -> nth d l1 0%Z = (-1)%Z) /\
      ((1 < nth d e 0)%Z -> exists j, nth d l2 0%Z = Z.of_nat j /\ (j < NumMonomials data)%nat /\ expo (Exponents data) j = lower d 2 e) /\
      (~ (1 < nth d e 0)%Z -> nth d l2 0%Z = (-1)%Z).
Proof.
  rewrite (num_data _ _ G _ _ E). fold N. intros Hi. cbn zeta. rewrite expo_enum by auto.
  destruct (enum_ok _ _ G i) as (Ht & Hx).
  destruct (g_der _ _ G _ Ht) as (l1 & E1 & L1 & V1). destruct (g_der2 _ _ G _ Ht) as (l2 & E2 & L2 & V2).
  exists l1, l2. unfold DerivativeIndices, SecondDerivativeIndices.
  rewrite (proj2 (idx_Ok _ _ _) (u_exp _ _ _ _ _ U i Hi)). cbn [bind]. rewrite Hx in E1, E2.
  split; auto. split; auto. split; auto. split; auto. intros d Hd. rewrite (V1 d Hd), (V2 d Hd).
  assert (K : forall c, (0 < c)%Z -> (c <= nth d (enum M i) 0)%Z ->
    exists j, idx (lower d c (enum M i)) = Z.of_nat j /\ (j < N)%nat /\ expo (Exponents data) j = lower d c (enum M i)).
  { intros c Hc Hc'. assert (Ht' : tuple dim (lower d c (enum M i))) by (apply tuple_lower; auto).
    exists (Z.to_nat (idx (lower d c (enum M i)))). pose proof (g_pos _ _ G _ Ht').
    assert (HN : (Z.to_nat (idx (lower d c (enum M i))) < N)%nat).
    { apply (idx_lt _ _ G); auto. rewrite degree_lower by (rewrite (enum_length _ _ G); auto).
      pose proof (proj1 (enum_lt _ _ G k i) Hi). lia. }
    split; [lia|]. split; auto. rewrite expo_enum by auto. now apply (enum_idx _ _ G). }
  split; [|split; [|split]].
  - intros H. rewrite (proj2 (Z.ltb_lt _ _) H). apply K; lia.
  - intros H. destruct (Z.ltb_spec 0 (nth d (enum M i) 0%Z)); [lia|auto].
  - intros H. rewrite (proj2 (Z.ltb_lt _ _) H). apply K; lia.
  - intros H. destruct (Z.ltb_spec 1 (nth d (enum M i) 0%Z)); [lia|auto].
Qed.

(** sums against the rows of the matrices *)
Lemma row_pick d c i (x : point) a : (0 < c)%Z -> (i < N)%nat -> (d < dim)%nat -> (c <= nth d (enum M i) 0)%Z ->
  rsum N (fun j => (if (j =? Z.to_nat (idx (lower d c (enum M i))))%nat then a else 0) * mono (enum M j) x) = a * mono (lower d c (enum M i)) x.
Proof.
  intros Hc Hi Hd Hn. destruct (enum_ok _ _ G i) as (Ht & _).
  assert (Ht' : tuple dim (lower d c (enum M i))) by (apply tuple_lower; auto).
  rewrite (rsum_single N _ (Z.to_nat (idx (lower d c (enum M i))))).
  - rewrite Nat.eqb_refl. now rewrite (enum_idx _ _ G) by auto.
  - apply (idx_lt _ _ G); auto. rewrite degree_lower by (rewrite (enum_length _ _ G); auto).
    pose proof (proj1 (enum_lt _ _ G k i) Hi). lia.
  - intros j Hj Hne. destruct (Nat.eqb_spec j (Z.to_nat (idx (lower d c (enum M i))))); [congruence|ring].
Qed.

Lemma row_D d i x : (i < N)%nat -> (d < dim)%nat -> rsum N (fun j => dval idx (enum M i) d j * mono (enum M j) x) = mono_d d (enum M i) x.
Proof.
  intros Hi Hd. unfold mono_d. destruct (Z.ltb_spec 0 (nth d (enum M i) 0%Z)) as [L|L].
  - rewrite <- (row_pick d 1 i x (IZR (nth d (enum M i) 0%Z))) by (auto; lia). apply rsum_ext. intros j _. unfold dval.
    rewrite (proj2 (Z.ltb_lt _ _) L). reflexivity.
  - apply rsum_0. intros j _. unfold dval. rewrite (proj2 (Z.ltb_ge _ _) L). cbn [andb]. ring.
Qed.
Lemma row_L i x : (i < N)%nat -> rsum N (fun j => rsum dim (fun d => lval idx (enum M i) d j) * mono (enum M j) x) = rsum dim (fun d => mono_dd d (enum M i) x).
Proof.
  intros Hi. rewrite (rsum_ext N _ (fun j => rsum dim (fun d => lval idx (enum M i) d j * mono (enum M j) x))) by (intros; now rewrite rsum_scal_r).
  rewrite rsum_swap. apply rsum_ext. intros d Hd. unfold mono_dd. destruct (Z.ltb_spec 1 (nth d (enum M i) 0%Z)) as [L|L].
  - rewrite <- (row_pick d 2 i x (IZR (nth d (enum M i) 0%Z * (nth d (enum M i) 0%Z - 1)))) by (auto; lia). apply rsum_ext. intros j _. unfold lval.
    rewrite (proj2 (Z.ltb_lt _ _) L). reflexivity.
  - apply rsum_0. intros j _. unfold lval. rewrite (proj2 (Z.ltb_ge _ _) L). cbn [andb]. ring.
Qed.

Lemma tuple_nth e d : tuple dim e -> (d < dim)%nat -> (0 <= nth d e 0)%Z.
Proof. intros (L & F) Hd. rewrite Forall_forall in F. apply F, nth_In. lia. Qed.

Lemma g_C30 : let n := NumMonomials data in
  length (DerivativeMatrices data) = dim /\
  (forall d, (d < dim)%nat -> exists D, nth_error (DerivativeMatrices data) d = Some D /\ m_rows D = n /\ m_cols D = n /\
     forall i x, (i < n)%nat -> is_partial (mono (expo (Exponents data) i)) d x
        (rsum n (fun j => m_at D i j * mono (expo (Exponents data) j) x))) /\
  m_rows (Laplacian data) = n /\ m_cols (Laplacian data) = n /\
  (forall i x, (i < n)%nat -> is_laplacian dim (mono (expo (Exponents data) i)) x
        (rsum n (fun j => m_at (Laplacian data) i j * mono (expo (Exponents data) j) x))).
Proof.
  cbn zeta. rewrite (num_data _ _ G _ _ E). fold N. destruct (u_D _ _ _ _ _ U) as (D1 & D2). destruct (u_L _ _ _ _ _ U) as (L1 & L2 & L3).
  split; auto. split; [|split; [auto|split; auto]].
  - intros d Hd. destruct (D2 d Hd) as (A & A1 & A2 & A3 & A4). exists A. split; auto. split; auto. split; auto. intros i x Hi.
    rewrite expo_enum by auto.
    rewrite (rsum_ext N _ (fun j => dval idx (enum M i) d j * mono (enum M j) x)).
    2:{ intros j Hj. rewrite A4, expo_enum by auto. rewrite (proj2 (Nat.ltb_lt i _)) by auto. reflexivity. }
    rewrite row_D by auto. apply partial_mono; [rewrite (enum_length _ _ G); auto|]. apply tuple_nth; auto. apply (enum_ok _ _ G).
  - intros i x Hi. rewrite expo_enum by auto.
    rewrite (rsum_ext N _ (fun j => rsum dim (fun d => lval idx (enum M i) d j) * mono (enum M j) x)).
    2:{ intros j Hj. rewrite L3, expo_enum by auto. rewrite (proj2 (Nat.ltb_lt i _)) by auto. reflexivity. }
    rewrite row_L by auto. apply laplacian_mono. apply (enum_ok _ _ G).
Qed.

(** ** Vander *)
Context (Hdim : (dim <= 3)%nat) (HN1 : (N = 1)%nat <-> k = 0%nat).

Definition vp_ok (points : Mat) (c : point) (h : R) (i : nat) (A : Mat) : Prop :=
  (dim <= m_rows A)%nat /\ (i <> 0%nat -> m_rows A = 3%nat) /\ m_cols A = m_cols points /\
  forall d q, (d < 3)%nat -> m_at A d q = scaled c h (pt points q) d ^ i.

Lemma vander_partial_ok points c h : m_rows points = 3%nat -> (1 <= k)%nat -> h <> 0 ->
  exists VP, vander_partial dim k points c h = Ok VP /\ length VP = S k /\
    forall i, (i <= k)%nat -> exists A, nth_error VP i = Some A /\ vp_ok points c h i A.
Proof.
  intros Hr Hk Hh. unfold vander_partial. rewrite Hr, Nat.eqb_refl. cbn [bind].
  match goal with |- exists zz, for_from 2 ?n ?f ?s = _ /\ _ =>
    destruct (@for_from_total _ (fun i VP => length VP = i /\ forall j, (j < i)%nat -> exists A, nth_error VP j = Some A /\ vp_ok points c h j A)
       f n 2%nat s) as (VP & EV & L & HV) end.
  - split; auto. intros [|[|j]] Hj; [| |lia]; eexists; (split; [reflexivity|]); unfold vp_ok; cbn [m_rows m_cols m_at].
    + split; [unfold dim; lia|]. split; [congruence|]. split; auto.
    + split; auto. split; auto. split; auto. intros d q _. unfold scaled, pt. field. auto.
  - intros i VP Hi (L & HV). destruct (HV (i - 1)%nat ltac:(lia)) as (A & EA & A1 & A2 & A3 & A4).
    destruct (HV 1%nat ltac:(lia)) as (B & EB & B1 & B2 & B3 & B4).
    rewrite (proj2 (idx_Ok _ _ _) EA). cbn [bind]. rewrite (proj2 (idx_Ok _ _ _) EB). cbn [bind].
    rewrite A2, B2, A3, B3, !Nat.eqb_refl by lia. cbn [andb bind]. eexists. split; [reflexivity|].
    split; [rewrite app_length; cbn; lia|]. intros j Hj. destruct (Nat.eq_dec j i) as [->|Hne].
    + eexists. split; [rewrite nth_error_app2 by lia; rewrite L, Nat.sub_diag; reflexivity|]. unfold vp_ok. cbn [m_rows m_cols m_at].
      split; auto. split; auto. split; auto. intros d q Hd. rewrite A4, B4 by auto. replace i with (S (i - 1)) at 2 by lia. cbn. ring.
    + destruct (HV j ltac:(lia)) as (C & EC & HC). exists C. split; auto. rewrite nth_error_app1 by lia. auto.
  - exists VP. split; auto. replace (2 + (k - 1))%nat with (S k) in * by lia. split; auto.
    intros i Hi. apply HV. lia.
Qed.

Lemma enum_le i d : (i < N)%nat -> (d < dim)%nat -> (0 <= nth d (enum M i) 0 <= Z.of_nat k)%Z.
Proof.
  intros Hi Hd. pose proof (proj1 (enum_lt _ _ G k i) Hi) as Hk. destruct (enum_ok _ _ G i) as (Ht & _).
  assert (H0 := tuple_nth _ d Ht Hd). split; auto.
  assert (Ht' : tuple dim (lower d (nth d (enum M i) 0%Z) (enum M i))) by (apply tuple_lower; auto; lia).
  assert (Hs : (0 <= degree (lower d (nth d (enum M i) 0%Z) (enum M i)))%Z).
  { destruct Ht' as (_ & F). clear - F. induction F; cbn in *; unfold degree in *; lia. }
  rewrite degree_lower in Hs by (rewrite (enum_length _ _ G); auto). lia.
Qed.

Lemma mono_unfold e x : tuple dim e -> mono e x =
  x 0%nat ^ Z.to_nat (nth 0 e 0%Z) * (if (1 <? dim)%nat then x 1%nat ^ Z.to_nat (nth 1 e 0%Z) else 1) *
  (if (2 <? dim)%nat then x 2%nat ^ Z.to_nat (nth 2 e 0%Z) else 1).
Proof.
  intros (L & _). pose proof (g_dim _ _ G) as Hd0. fold dim in Hd0. unfold mono. destruct e as [|a [|b [|c [|? ?]]]]; cbn in L; try lia; rewrite <- L; cbn; ring.
Qed.

Lemma g_C31 junk points c h : m_rows points = 3%nat -> h <> 0 ->
  exists V, Vander dim junk data points c h = Ok V /\ m_rows V = m_cols points /\ m_cols V = NumMonomials data /\
    (forall q i, (i < NumMonomials data)%nat -> m_at V q i = mono (expo (Exponents data) i) (scaled c h (pt points q))) /\
    (forall q, m_at V q 0 = 1).
Proof.
  intros Hr Hh. unfold Vander. rewrite (num_data _ _ G _ _ E), (u_deg _ _ _ _ _ U). fold N.
  assert (M0 : forall y, mono (enum M 0) y = 1).
  { intros y. cbn [enum]. unfold mono. generalize 0%nat. clear. induction (mc_dim M) as [|n IH]; intros s; cbn [repeat mono_from]; auto. rewrite IH. cbn. ring. }
  pose proof (numM_pos _ _ G k) as HNp. fold N in HNp.
  destruct (Nat.ltb_spec 1 N) as [H1|H1].
  - assert (Hk : (1 <= k)%nat). { destruct k; [|lia]. assert (N = 1)%nat by (apply HN1; auto). lia. }
    destruct (vander_partial_ok points c h Hr Hk Hh) as (VP & EV & LV & HV). rewrite EV. cbn [bind].
    unfold mat_set_col at 1. cbn [m_cols mraw]. rewrite (proj2 (Nat.ltb_lt 0 N)) by lia. cbn [bind].
    match goal with |- exists zz, for_from 1 ?n ?f ?s = _ /\ _ =>
      destruct (@for_from_total _ (fun i V => m_rows V = m_cols points /\ m_cols V = N /\
         (forall q j, (j < i)%nat -> m_at V q j = mono (enum M j) (scaled c h (pt points q)))) f n 1%nat s) as (V & EE & V1 & V2 & V3) end.
    + cbn [m_rows m_cols m_at mraw]. repeat split; auto. intros q j Hj. assert (j = 0)%nat as -> by lia. cbn [Nat.eqb]. now rewrite M0.
    + intros i V Hi (V1 & V2 & V3).
      assert (HiN : (i < N)%nat) by lia.
      rewrite (proj2 (idx_Ok _ _ _) (u_exp _ _ _ _ _ U i HiN)). cbn [bind].
      assert (ROW : forall d, (d < dim)%nat -> exists e A r, idx_ (enum M i) d = Ok e /\ zidx VP e = Ok A /\ mrow A d = Ok r /\
         forall q, r q = scaled c h (pt points q) d ^ Z.to_nat (nth d (enum M i) 0%Z)).
      { intros d Hd. pose proof (enum_le i d HiN Hd) as Hle. exists (nth d (enum M i) 0%Z).
        destruct (HV (Z.to_nat (nth d (enum M i) 0%Z)) ltac:(lia)) as (A & EA & A1 & A2 & A3 & A4). exists A.
        exists (fun q => m_at A d q). split; [apply idx_Ok, nth_error_nth'; rewrite (enum_length _ _ G); auto|].
        split; [|split].
        - unfold zidx. rewrite (proj2 (Z.leb_le 0 _)) by lia. now apply idx_Ok.
        - unfold mrow. rewrite (proj2 (Nat.ltb_lt d _)) by lia. reflexivity.
        - intros q. apply A4. lia. }
      pose proof (g_dim _ _ G) as Hd0. fold dim in Hd0.
      destruct (ROW 0%nat Hd0) as (e0 & A0 & r0 & X1 & X2 & X3 & X4). rewrite X1. cbn [bind]. rewrite X2. cbn [bind]. rewrite X3. cbn [bind].
      unfold mat_set_col at 1. rewrite V2. rewrite (proj2 (Nat.ltb_lt i N)) by lia. cbn [bind].
      match goal with |- context [bind (if (1 <? dim)%nat then ?X else Ok ?W) _] =>
       assert (Q1 : exists W1, (if (1 <? dim)%nat then X else Ok W) = Ok W1 /\ m_rows W1 = m_cols points /\ m_cols W1 = N /\
         (forall q j, (j < i)%nat -> m_at W1 q j = m_at V q j) /\ (forall q, m_at W1 q i = scaled c h (pt points q) 0%nat ^ Z.to_nat (nth 0 (enum M i) 0%Z) *
             (if (1 <? dim)%nat then scaled c h (pt points q) 1%nat ^ Z.to_nat (nth 1 (enum M i) 0%Z) else 1))) end.
      { destruct (Nat.ltb_spec 1 dim) as [D1|D1].
        - destruct (ROW 1%nat D1) as (e1 & A1 & r1 & Y1 & Y2 & Y3 & Y4). rewrite Y1. cbn [bind]. rewrite Y2. cbn [bind]. rewrite Y3. cbn [bind].
          unfold mat_set_col. cbn [m_cols m_rows m_at]. rewrite (proj2 (Nat.ltb_lt i N)) by lia.
          eexists. split; [reflexivity|]. cbn [m_cols m_rows m_at]. repeat split; auto.
          + intros q j Hj. destruct (Nat.eqb_spec j i); [lia|auto].
          + intros q. rewrite Nat.eqb_refl, X4, Y4. reflexivity.
        - eexists. split; [reflexivity|]. cbn [m_cols m_rows m_at]. repeat split; auto.
          + intros q j Hj. destruct (Nat.eqb_spec j i); [lia|auto].
          + intros q. rewrite Nat.eqb_refl, X4. ring. }
      destruct Q1 as (W1 & EW & W1r & W1c & W1o & W1v). rewrite EW. cbn [bind].
      destruct (Nat.ltb_spec 2 dim) as [D2|D2].
      * destruct (ROW 2%nat D2) as (e2 & A2 & r2 & Y1 & Y2 & Y3 & Y4). rewrite Y1. cbn [bind]. rewrite Y2. cbn [bind]. rewrite Y3. cbn [bind].
        unfold mat_set_col. rewrite W1c. rewrite (proj2 (Nat.ltb_lt i N)) by lia. eexists. split; [reflexivity|]. cbn [m_cols m_rows m_at].
        repeat split; auto. intros q j Hj. destruct (Nat.eqb_spec j i) as [->|].
        -- rewrite W1v, Y4, (mono_unfold (enum M i)) by apply (enum_ok _ _ G). rewrite (proj2 (Nat.ltb_lt 2 dim)) by auto. reflexivity.
        -- rewrite W1o by lia. apply V3. lia.
      * exists W1. repeat split; auto. intros q j Hj. destruct (Nat.eq_dec j i) as [->|].
        -- rewrite W1v, (mono_unfold (enum M i)) by apply (enum_ok _ _ G). destruct (Nat.ltb_spec 2 dim); [lia|]. ring.
        -- rewrite W1o by lia. apply V3. lia.
    + replace (1 + (N - 1))%nat with N in * by lia. exists V. repeat split; auto.
      * intros q i Hi. rewrite expo_enum by auto. auto.
      * intros q. rewrite V3 by lia. apply M0.
  - eexists. split; [reflexivity|]. cbn [m_rows m_cols m_at]. repeat split; auto; [lia|].
    intros q i Hi. assert (i = 0)%nat as -> by lia. rewrite expo_enum by lia. now rewrite M0.
Qed.

(** ** VanderDerivatives *)
Lemma g_C32 junk points c h V : h <> 0 -> m_rows V = m_cols points -> m_cols V = NumMonomials data ->
  (forall q i, (i < NumMonomials data)%nat -> m_at V q i = mono (expo (Exponents data) i) (scaled c h (pt points q))) ->
  exists VD, VanderDerivatives M junk data V h = Ok VD /\ length VD = dim /\
    forall d, (d < dim)%nat -> exists A, nth_error VD d = Some A /\ m_rows A = m_cols points /\ m_cols A = NumMonomials data /\
      forall q i, (i < NumMonomials data)%nat -> is_partial (fun x => mono (expo (Exponents data) i) (scaled c h x)) d (pt points q) (m_at A q i).
Proof.
  intros Hh VR VC VV. unfold VanderDerivatives. rewrite (num_data _ _ G _ _ E) in *. change (numM M k) with N in VC, VV |- *. fold dim.
  pose proof (numM_pos _ _ G k) as HNp. fold N in HNp.
  set (ok := fun i VD => length VD = dim /\ forall d, (d < dim)%nat -> exists A, nth_error VD d = Some A /\ m_rows A = m_cols points /\ m_cols A = N /\
      forall q j, (j < i)%nat -> m_at A q j = mono_d d (enum M j) (scaled c h (pt points q)) * (1 / h)).
  assert (FIN : forall VD, ok N VD -> length VD = dim /\ forall d, (d < dim)%nat -> exists A, nth_error VD d = Some A /\ m_rows A = m_cols points /\ m_cols A = N /\
      forall q i, (i < N)%nat -> is_partial (fun x => mono (expo (Exponents data) i) (scaled c h x)) d (pt points q) (m_at A q i)).
  { intros VD (L & H). split; auto. intros d Hd. destruct (H d Hd) as (A & E1 & E2 & E3 & E4). exists A. repeat split; auto.
    intros q i Hi. rewrite E4 by auto. rewrite expo_enum by auto. apply (partial_scaled (mono (enum M i))); auto; [apply mono_ext|].
    apply partial_mono; [rewrite (enum_length _ _ G); auto|]. apply tuple_nth; auto. apply (enum_ok _ _ G). }
  assert (INIT : exists VD, for_loop dim (fun _ VD => z <- mat_set_col (mraw junk (m_rows V) (m_cols V)) 0 (fun _ => 0) ;; Ok (VD ++ [z])) [] = Ok VD /\ ok 1%nat VD).
  { match goal with |- exists zz, for_loop ?n ?f ?s = _ /\ _ =>
      destruct (@for_loop_total _ (fun i VD => length VD = i /\ forall d, (d < i)%nat -> exists A, nth_error VD d = Some A /\ m_rows A = m_cols points /\ m_cols A = N /\
        forall q, m_at A q 0 = 0) f n s) as (VD & EE & L & H) end.
    - split; auto. intros; lia.
    - intros i VD Hi (L & H). unfold mat_set_col. cbn [m_cols m_rows mraw]. rewrite VC. rewrite (proj2 (Nat.ltb_lt 0 N)) by lia. cbn [bind].
      eexists. split; [reflexivity|]. split; [rewrite app_length; cbn; lia|]. intros d Hd. destruct (Nat.eq_dec d i) as [->|].
      + eexists. split; [rewrite nth_error_app2 by lia; rewrite L, Nat.sub_diag; reflexivity|]. cbn. auto.
      + destruct (H d ltac:(lia)) as (A & HA). exists A. now rewrite nth_error_app1 by lia.
    - exists VD. split; auto. split; auto. intros d Hd. destruct (H d Hd) as (A & E1 & E2 & E3 & E4). exists A. repeat split; auto.
      intros q j Hj. assert (j = 0)%nat as -> by lia. rewrite E4. unfold mono_d. cbn [enum]. rewrite nth_repeat. cbn. ring. }
  destruct INIT as (VD0 & EI & OK0). rewrite EI. cbn [bind]. destruct (Nat.ltb_spec 1 N) as [H1|H1].
  - match goal with |- exists zz, for_from 1 ?n ?f ?s = _ /\ _ =>
      destruct (@for_from_total _ ok f n 1%nat s OK0) as (VD & EE & OKN) end.
    + intros i VD Hi OKi. assert (HiN : (i < N)%nat) by lia. destruct (enum_ok _ _ G i) as (Ht & Hx).
      unfold DerivativeIndices at 1. rewrite (proj2 (idx_Ok _ _ _) (u_exp _ _ _ _ _ U i HiN)). cbn [bind].
      destruct (g_der _ _ G _ Ht) as (der & Ed & Ld & Vd). rewrite Hx in Ed. rewrite Ed. cbn [bind].
      destruct OKi as (L & OKi).
      match goal with |- exists zz, for_loop ?n ?f ?s = _ /\ _ =>
        destruct (@for_loop_total _ (fun d0 VD => length VD = dim /\ forall d, (d < dim)%nat -> exists A, nth_error VD d = Some A /\ m_rows A = m_cols points /\ m_cols A = N /\
          (forall q j, (j < i)%nat -> m_at A q j = mono_d d (enum M j) (scaled c h (pt points q)) * (1 / h)) /\
          ((d < d0)%nat -> forall q, m_at A q i = mono_d d (enum M i) (scaled c h (pt points q)) * (1 / h))) f n s) as (VD' & EE & LD & HD) end.
      * split; auto. intros d Hd. destruct (OKi d Hd) as (A & E1 & E2 & E3 & E4). exists A. repeat split; auto. intros; lia.
      * intros d VDd Hd (LD & HD).
        assert (Eder : nth_error der d = Some (nth d der 0%Z)) by (apply nth_error_nth'; unfold dim in *; lia).
        rewrite (proj2 (idx_Ok _ _ _) Eder). cbn [bind]. destruct (HD d Hd) as (A & E1 & E2 & E3 & E4 & E5).
        rewrite (proj2 (idx_Ok _ _ _) E1). cbn [bind]. rewrite (Vd d Hd).
        assert (Q : exists A', (if (0 <=? (if (0 <? nth d (enum M i) 0)%Z then idx (lower d 1 (enum M i)) else -1))%Z then
                  Di <- idx_ (DerivativeMatrices data) d ;;
                  c <- mat_get Di i (Z.to_nat (if (0 <? nth d (enum M i) 0)%Z then idx (lower d 1 (enum M i)) else -1)) ;;
                  v <- mcol V (Z.to_nat (if (0 <? nth d (enum M i) 0)%Z then idx (lower d 1 (enum M i)) else -1)) ;;
                  mat_set_col A i (fun q => 1 / h * c * v q)
                else mat_set_col A i (fun _ => 0)) = Ok A' /\ m_rows A' = m_cols points /\ m_cols A' = N /\
             (forall q j, (j < i)%nat -> m_at A' q j = m_at A q j) /\
             (forall q, m_at A' q i = mono_d d (enum M i) (scaled c h (pt points q)) * (1 / h))).
        { unfold mat_set_col. rewrite E3. rewrite (proj2 (Nat.ltb_lt i N)) by lia. unfold mono_d.
          destruct (Z.ltb_spec 0 (nth d (enum M i) 0%Z)) as [P|P].
          - assert (Ht' : tuple dim (lower d 1 (enum M i))) by (apply tuple_lower; auto; lia).
            assert (Hidx : (Z.to_nat (idx (lower d 1 (enum M i))) < N)%nat).
            { apply (idx_lt _ _ G); auto. rewrite degree_lower by (rewrite (enum_length _ _ G); auto). pose proof (proj1 (enum_lt _ _ G k i) HiN). lia. }
            rewrite (proj2 (Z.leb_le 0 _) (g_pos _ _ G _ Ht')).
            destruct (proj2 (u_D _ _ _ _ _ U) d Hd) as (D & D1 & D2 & D3 & D4). rewrite (proj2 (idx_Ok _ _ _) D1). cbn [bind].
            unfold mat_get. rewrite D2, D3. fold N. rewrite (proj2 (Nat.ltb_lt i N)) by lia. rewrite (proj2 (Nat.ltb_lt _ N) Hidx). cbn [andb bind].
            unfold mcol. rewrite VC. rewrite (proj2 (Nat.ltb_lt _ N) Hidx). cbn [bind].
            eexists. split; [reflexivity|]. cbn [m_rows m_cols m_at]. repeat split; auto.
            + intros q j Hj. destruct (Nat.eqb_spec j i); [lia|auto].
            + intros q. rewrite Nat.eqb_refl, D4, VV by auto. rewrite expo_enum by auto. rewrite (enum_idx _ _ G) by auto.
              fold N. rewrite (proj2 (Nat.ltb_lt i N)) by lia. unfold dval. rewrite (proj2 (Z.ltb_lt 0 _) P), Nat.eqb_refl. cbn [andb]. ring.
          - change (0 <=? -1)%Z with false. eexists. split; [reflexivity|]. cbn [m_rows m_cols m_at]. repeat split; auto.
            + intros q j Hj. destruct (Nat.eqb_spec j i); [lia|auto].
            + intros q. rewrite Nat.eqb_refl. ring. }
        destruct Q as (A' & EA' & A1 & A2 & A3 & A4). rewrite EA'. cbn [bind]. unfold set_idx. rewrite (proj2 (Nat.ltb_lt d _)) by lia.
        eexists. split; [reflexivity|]. split; [now rewrite replace_length|]. intros d' Hd'. destruct (Nat.eq_dec d d') as [<-|Ne].
        -- exists A'. split; [apply nth_error_replace_eq; lia|]. repeat split; auto. intros q j Hj. rewrite A3 by auto. auto.
        -- destruct (HD d' Hd') as (B & F1 & F2 & F3 & F4 & F5). exists B. rewrite nth_error_replace_neq by auto. repeat split; auto.
           intros Hlt. apply F5. lia.
      * exists VD'. split; auto. split; auto. intros d Hd. destruct (HD d Hd) as (A & E1 & E2 & E3 & E4 & E5). exists A. repeat split; auto.
        intros q j Hj. destruct (Nat.eq_dec j i) as [->|]; [apply E5; auto|apply E4; lia].
    + exists VD. split; auto. apply FIN. replace (1 + (N - 1))%nat with N in OKN by lia. exact OKN.
  - exists VD0. split; auto. apply FIN. replace N with 1%nat by lia. exact OK0.
Qed.

(** ** VanderLaplacian *)
Lemma mono_dd_low e d x : tuple dim e -> (degree e <= 1)%Z -> (d < dim)%nat -> mono_dd d e x = 0.
Proof.
  intros Ht Hd Hdd. unfold mono_dd. destruct (Z.ltb_spec 1 (nth d e 0%Z)); auto. exfalso.
  assert (Ht' : tuple dim (lower d (nth d e 0%Z) e)) by (apply tuple_lower; auto; lia).
  assert (Hs : (0 <= degree (lower d (nth d e 0%Z) e))%Z). { destruct Ht' as (_ & F). clear - F. induction F; cbn in *; unfold degree in *; lia. }
  rewrite degree_lower in Hs by (destruct Ht; lia). lia.
Qed.

(** the columns from the fourth on, whatever the dimension *)
Lemma g_C33_cols junk points c h V : h <> 0 -> m_rows V = m_cols points -> m_cols V = NumMonomials data -> (3 <= N)%nat ->
  (forall q i, (i < NumMonomials data)%nat -> m_at V q i = mono (expo (Exponents data) i) (scaled c h (pt points q))) ->
  exists A, VanderLaplacian M junk data V h = Ok A /\ m_rows A = m_cols points /\ m_cols A = NumMonomials data /\
      (forall q i, (i < 3)%nat -> m_at A q i = 0) /\
      forall q i, (3 <= i < NumMonomials data)%nat ->
        m_at A q i = 1 / (h * h) * rsum dim (fun d => mono_dd d (enum M i) (scaled c h (pt points q))).
Proof.
  intros Hh VR VC H3 VV. unfold VanderLaplacian. rewrite (num_data _ _ G _ _ E) in *. change (numM M k) with N in VC, VV |- *. fold dim.
  rewrite VC. rewrite (proj2 (Nat.leb_le 3 N) H3). cbn [bind].
  set (ok := fun i A => m_rows A = m_cols points /\ m_cols A = N /\ (forall q j, (j < 3)%nat -> m_at A q j = 0) /\
     forall q j, (3 <= j < i)%nat -> m_at A q j = 1 / (h * h) * rsum dim (fun d => mono_dd d (enum M j) (scaled c h (pt points q)))).
  assert (OK3 : ok 3%nat (mraw (fun q i => if (i <? 3)%nat then 0 else junk q i) (m_rows V) N)).
  { unfold ok. cbn [m_rows m_cols m_at mraw]. repeat split; auto; intros q j Hj; [|lia]. rewrite (proj2 (Nat.ltb_lt j 3)) by auto. reflexivity. }
  destruct (Nat.ltb_spec 3 N) as [H4|H4].
  - match goal with |- exists zz, for_from 3 ?n ?f ?s = _ /\ _ =>
      destruct (@for_from_total _ ok f n 3%nat s OK3) as (A & EE & OKN) end.
    + intros i A Hi OKi. assert (HiN : (i < N)%nat) by lia. destruct (enum_ok _ _ G i) as (Ht & Hx).
      unfold SecondDerivativeIndices at 1. rewrite (proj2 (idx_Ok _ _ _) (u_exp _ _ _ _ _ U i HiN)). cbn [bind].
      destruct (g_der2 _ _ G _ Ht) as (der & Ed & Ld & Vd). rewrite Hx in Ed. rewrite Ed. cbn [bind].
      destruct OKi as (A1 & A2 & A3 & A4). pose proof (g_dim _ _ G) as Hd0. fold dim in Hd0.
      assert (Eder : forall d, (d < dim)%nat -> nth_error der d = Some (nth d der 0%Z)) by (intros; apply nth_error_nth'; unfold dim in *; lia).
      (* value of the d-th term *)
      assert (TERM : forall d, (d < dim)%nat ->
         (nth d der 0%Z = (-1)%Z /\ forall q, mono_dd d (enum M i) (scaled c h (pt points q)) = 0) \/
         ((0 <=? nth d der 0)%Z = true /\ exists cc v, mat_get (Laplacian data) i (Z.to_nat (nth d der 0%Z)) = Ok cc /\
           mcol V (Z.to_nat (nth d der 0%Z)) = Ok v /\
           forall q, cc * v q = mono_dd d (enum M i) (scaled c h (pt points q)))).
      { intros d Hd. rewrite (Vd d Hd). unfold mono_dd. destruct (Z.ltb_spec 1 (nth d (enum M i) 0%Z)) as [P|P]; [right|left; auto].
        assert (Ht' : tuple dim (lower d 2 (enum M i))) by (apply tuple_lower; auto; lia).
        assert (Hidx : (Z.to_nat (idx (lower d 2 (enum M i))) < N)%nat).
        { apply (idx_lt _ _ G); auto. rewrite degree_lower by (rewrite (enum_length _ _ G); auto). pose proof (proj1 (enum_lt _ _ G k i) HiN). lia. }
        split; [apply Z.leb_le, (g_pos _ _ G _ Ht')|].
        destruct (u_L _ _ _ _ _ U) as (L1 & L2 & L3). unfold mat_get, mcol. rewrite L1, L2, VC. fold N.
        rewrite (proj2 (Nat.ltb_lt i N)) by lia. rewrite (proj2 (Nat.ltb_lt _ N) Hidx). cbn [andb].
        eexists. eexists. split; [reflexivity|]. split; [reflexivity|]. intros q. cbv beta. rewrite VV by auto. rewrite expo_enum by auto.
        rewrite (enum_idx _ _ G) by auto. rewrite L3. fold N. rewrite (proj2 (Nat.ltb_lt i N)) by lia. f_equal.
        rewrite (rsum_single _ _ d); auto.
        - unfold lval. rewrite (proj2 (Z.ltb_lt 1 _) P), Nat.eqb_refl. reflexivity.
        - intros d' Hd' Hne. unfold lval. destruct (Z.ltb_spec 1 (nth d' (enum M i) 0%Z)) as [P'|]; auto. cbn [andb].
          destruct (Nat.eqb_spec (Z.to_nat (idx (lower d 2 (enum M i)))) (Z.to_nat (idx (lower d' 2 (enum M i))))) as [Eq|]; auto. exfalso.
          assert (Ht'' : tuple dim (lower d' 2 (enum M i))) by (apply tuple_lower; auto; lia).
          pose proof (g_pos _ _ G _ Ht'). pose proof (g_pos _ _ G _ Ht'').
          apply (lower_inj M (enum M i) d' d 2); auto; try lia. apply (g_inj _ _ G); auto. lia. }
      rewrite (proj2 (idx_Ok _ _ _) (Eder 0%nat Hd0)). cbn [bind].
      match goal with |- exists zz, bind ?X _ = _ /\ _ => assert (Q0 : exists B, X = Ok B /\ m_rows B = m_cols points /\ m_cols B = N /\
          (forall q j, (j < i)%nat -> m_at B q j = m_at A q j) /\ (forall q, m_at B q i = 1 / (h * h) * rsum 1 (fun d => mono_dd d (enum M i) (scaled c h (pt points q))))) end.
      { unfold mat_set_col. rewrite A2. rewrite (proj2 (Nat.ltb_lt i N)) by lia.
        destruct (TERM 0%nat Hd0) as [(T1 & T2)|(T1 & cc & v & T2 & T3 & T4)].
        - rewrite T1. change (0 <=? -1)%Z with false. eexists. split; [reflexivity|]. cbn [m_rows m_cols m_at]. repeat split; auto.
          + intros q j Hj. destruct (Nat.eqb_spec j i); [lia|auto].
          + intros q. rewrite Nat.eqb_refl. cbn [rsum]. rewrite T2. ring.
        - rewrite T1, T2. cbn [bind]. rewrite T3. cbn [bind]. eexists. split; [reflexivity|]. cbn [m_rows m_cols m_at]. repeat split; auto.
          + intros q j Hj. destruct (Nat.eqb_spec j i); [lia|auto].
          + intros q. rewrite Nat.eqb_refl. cbn [rsum]. rewrite <- T4. ring. }
      destruct Q0 as (B & EB & B1 & B2 & B3 & B4). rewrite EB. cbn [bind].
      match goal with |- exists zz, for_from 1 ?n ?f ?s = _ /\ _ =>
        destruct (@for_from_total _ (fun d B => m_rows B = m_cols points /\ m_cols B = N /\
          (forall q j, (j < i)%nat -> m_at B q j = m_at A q j) /\ (forall q, m_at B q i = 1 / (h * h) * rsum d (fun d => mono_dd d (enum M i) (scaled c h (pt points q)))))
          f n 1%nat s) as (C & EC & C1 & C2 & C3 & C4); [repeat split; auto| |] end.
      * intros d C Hd (C1 & C2 & C3 & C4). assert (Hd' : (d < dim)%nat) by lia. rewrite (proj2 (idx_Ok _ _ _) (Eder d Hd')). cbn [bind].
        unfold mat_set_col. rewrite C2. rewrite (proj2 (Nat.ltb_lt i N)) by lia.
        destruct (TERM d Hd') as [(T1 & T2)|(T1 & cc & v & T2 & T3 & T4)].
        -- rewrite T1. change (0 <=? -1)%Z with false. exists C. repeat split; auto. intros q. rewrite C4. cbn [rsum]. rewrite T2. ring.
        -- rewrite T1, T2. cbn [bind]. rewrite T3. cbn [bind]. eexists. split; [reflexivity|]. cbn [m_rows m_cols m_at]. repeat split; auto.
          ++ intros q j Hj. destruct (Nat.eqb_spec j i); [lia|auto].
          ++ intros q. rewrite Nat.eqb_refl, C4. cbn [rsum]. rewrite <- T4. ring.
      * exists C. split; auto. replace (1 + (dim - 1))%nat with dim in C4 by lia. unfold ok. split; auto. split; auto. split.
        -- intros q j Hj. rewrite C3 by lia. auto.
        -- intros q j Hj. destruct (Nat.eq_dec j i) as [->|]; [apply C4|]. rewrite C3 by lia. apply A4. lia.
    + exists A. split; auto. replace (3 + (N - 3))%nat with N in OKN by lia. exact OKN.
  - eexists. split; [reflexivity|]. destruct OK3 as (A1 & A2 & A3 & A4). repeat split; auto. intros; lia.
Qed.

Lemma g_C33_UB junk V h : m_cols V = NumMonomials data -> (N < 3)%nat -> VanderLaplacian M junk data V h = UB.
Proof.
  intros VC H. unfold VanderLaplacian. rewrite VC, (num_data _ _ G _ _ E). fold N. destruct (Nat.leb_spec 3 N); [lia|]. reflexivity.
Qed.

End Generic.
