From Coq Require Import List Arith Bool Lia Reals Lra.
From Verif Require Import Base RSum MatrixModel MonomialsModel LagrangeModel LagrangeSpec.
Import ListNotations.
Local Open Scope R_scope.

(** [for_loop_total] with every argument explicit *)
Lemma flt {S} (I : nat -> S -> Prop) (f : nat -> S -> outcome S) (n : nat) (s : S) :
  I 0%nat s -> (forall i s, (i < n)%nat -> I i s -> exists s', f i s = Ok s' /\ I (Datatypes.S i) s') ->
  exists s', for_loop n f s = Ok s' /\ I n s'.
Proof. apply for_loop_total. Qed.

(** ** Products *)
Lemma rprod_ext n f g : (forall i, (i < n)%nat -> f i = g i) -> rprod n f = rprod n g.
Proof. induction n; cbn; intros H; auto. rewrite H, IHn by auto. auto. Qed.
Lemma rprod_1 n f : (forall i, (i < n)%nat -> f i = 1) -> rprod n f = 1.
Proof. induction n; cbn; intros H; auto. rewrite H, IHn by auto. ring. Qed.
Lemma rprod_0 n f k : (k < n)%nat -> f k = 0 -> rprod n f = 0.
Proof.
  induction n; cbn; intros H E; [lia|]. destruct (Nat.eq_dec k n) as [->|]; [rewrite E; ring|]. rewrite IHn by (auto; lia). ring.
Qed.
Lemma rprod_neq_0 n f : (forall i, (i < n)%nat -> f i <> 0) -> rprod n f <> 0.
Proof. induction n; cbn; intros H; [lra|]. apply Rmult_integral_contrapositive. split; auto. Qed.
Lemma rprod_scal n c f : rprod n (fun i => c * f i) = c ^ n * rprod n f.
Proof. induction n; cbn; [ring|]. rewrite IHn. ring. Qed.
Lemma rprod_mult n f g : rprod n (fun i => f i * g i) = rprod n f * rprod n g.
Proof. induction n; cbn; [ring|]. rewrite IHn. ring. Qed.

(** product over the indices other than [i] *)
Definition pne (n i : nat) (f : nat -> R) : R := rprod n (fun j => if (j =? i)%nat then 1 else f j).
Definition skip (i k : nat) : nat := if (k <? i)%nat then k else S k.

Lemma rprod_skip n i f : (i < n)%nat -> rprod (n - 1) (fun k => f (skip i k)) = pne n i f.
Proof.
  induction n as [|m IH]; intros H; [lia|]. unfold pne. cbn [rprod]. replace (S m - 1)%nat with m by lia.
  destruct (Nat.eqb_spec m i) as [->|N].
  - rewrite Rmult_1_r. apply rprod_ext. intros k Hk. unfold skip. destruct (Nat.ltb_spec k i); [|lia].
    destruct (Nat.eqb_spec k i); [lia|auto].
  - destruct m as [|m]; [lia|]. cbn [rprod]. replace (S m - 1)%nat with m in IH by lia. unfold pne in IH. rewrite IH by lia.
    unfold skip. destruct (Nat.ltb_spec m i); [lia|]. auto.
Qed.

Lemma derivable_rprod n (f f' : nat -> R -> R) t : (forall j, (j < n)%nat -> derivable_pt_lim (f j) t (f' j t)) ->
  derivable_pt_lim (fun s => rprod n (fun j => f j s)) t (rsum n (fun j => f' j t * pne n j (fun k => f k t))).
Proof.
  induction n as [|n IH]; intros H; cbn [rprod rsum]; [apply derivable_pt_lim_const|].
  pose proof (derivable_pt_lim_mult _ _ _ _ _ (IH (fun j Hj => H j ltac:(lia))) (H n ltac:(lia))) as D.
  match goal with |- derivable_pt_lim _ _ ?l => match type of D with derivable_pt_lim _ _ ?l' => replace l with l' end end; [exact D|].
  rewrite <- rsum_scal_r. f_equal.
  - apply rsum_ext. intros j Hj. unfold pne. cbn [rprod]. destruct (Nat.eqb_spec n j); [lia|]. ring.
  - unfold pne. cbn [rprod]. rewrite Nat.eqb_refl. rewrite Rmult_1_r.
    rewrite Rmult_comm. f_equal. apply rprod_ext. intros k Hk. destruct (Nat.eqb_spec k n); [lia|auto].
Qed.

(** ** Polynomials: root counting *)
Fixpoint is_poly (n : nat) (f : R -> R) : Prop :=
  match n with O => forall t, f t = 0 | S m => exists c g, is_poly m g /\ forall t, f t = c + t * g t end.

Lemma is_poly_ext n f g : (forall t, f t = g t) -> is_poly n f -> is_poly n g.
Proof. destruct n; cbn; intros E H; [intros t; now rewrite <- E|]. destruct H as (c & h & H & E'). exists c, h. split; auto. intros t. now rewrite <- E. Qed.
Lemma is_poly_plus n f g : is_poly n f -> is_poly n g -> is_poly n (fun t => f t + g t).
Proof.
  revert f g; induction n as [|n IH]; cbn; intros f g Hf Hg; [intros t; rewrite Hf, Hg; ring|].
  destruct Hf as (c & u & Hu & E), Hg as (d & v & Hv & E'). exists (c + d), (fun t => u t + v t). split; auto.
  intros t. rewrite E, E'. ring.
Qed.
Lemma is_poly_scal n a f : is_poly n f -> is_poly n (fun t => a * f t).
Proof.
  revert f; induction n as [|n IH]; cbn; intros f Hf; [intros t; rewrite Hf; ring|].
  destruct Hf as (c & u & Hu & E). exists (a * c), (fun t => a * u t). split; auto. intros t. rewrite E. ring.
Qed.
Lemma is_poly_zero n : is_poly n (fun _ => 0).
Proof. induction n; cbn; auto. exists 0, (fun _ => 0). split; auto. intros; ring. Qed.
Lemma is_poly_S n f : is_poly n f -> is_poly (S n) f.
Proof.
  revert f; induction n as [|n IH]; intros f H.
  - exists 0, f. split; auto. intros t. cbn in H. rewrite H. ring.
  - destruct H as (c & g & H & E). exists c, g. split; auto.
Qed.
Lemma is_poly_le n m f : (n <= m)%nat -> is_poly n f -> is_poly m f.
Proof. induction 1; auto. intros H'. apply is_poly_S. auto. Qed.
Lemma is_poly_x n f : is_poly n f -> is_poly (S n) (fun t => t * f t).
Proof. intros H. exists 0, f. split; auto. intros; ring. Qed.
Lemma is_poly_lin n f a b : is_poly n f -> is_poly (S n) (fun t => f t * (a * t + b)).
Proof.
  intros H. apply (is_poly_ext _ (fun t => a * (t * f t) + b * f t)); [intros; ring|].
  apply is_poly_plus; apply is_poly_scal; [apply is_poly_x|apply is_poly_S]; auto.
Qed.
Lemma is_poly_rsum n m f : (forall i, (i < m)%nat -> is_poly n (f i)) -> is_poly n (fun t => rsum m (fun i => f i t)).
Proof. induction m; cbn; intros H; [apply is_poly_zero|]. apply is_poly_plus; auto. Qed.
Lemma is_poly_coeffs n a : is_poly n (polynomial n a).
Proof.
  unfold polynomial. revert a; induction n as [|n IH]; intros a; [cbn; auto|].
  exists (a 0%nat), (fun t => rsum n (fun k => a (S k) * t ^ k)). split; [apply IH|].
  intros t. rewrite rsum_S_l. cbn [pow]. rewrite <- rsum_scal. f_equal; [ring|]. apply rsum_ext. intros; cbn; ring.
Qed.
Lemma is_poly_const n c : (0 < n)%nat -> is_poly n (fun _ => c).
Proof. destruct n; [lia|]. intros _. exists c, (fun _ => 0). split; [apply is_poly_zero|]. intros; ring. Qed.

Lemma is_poly_factor n f r : is_poly (S n) f -> exists q, is_poly n q /\ forall t, f t - f r = (t - r) * q t.
Proof.
  revert f; induction n as [|n IH]; intros f H.
  - destruct H as (c & g & Hg & E). exists (fun _ => 0). split; [cbn; auto|]. intros t. cbn in Hg. rewrite !E, !Hg. ring.
  - destruct H as (c & g & Hg & E). destruct (IH g Hg) as (q & Hq & Eq). exists (fun t => g t + r * q t). split.
    + apply is_poly_plus; auto. apply is_poly_scal. apply is_poly_S. auto.
    + intros t. rewrite !E. specialize (Eq t). replace (c + t * g t - (c + r * g r)) with ((t - r) * g t + r * (g t - g r)) by ring.
      rewrite Eq. ring.
Qed.

Lemma is_poly_roots n f x : is_poly n f -> distinct n x -> (forall i, (i < n)%nat -> f (x i) = 0) -> forall t, f t = 0.
Proof.
  revert f; induction n as [|n IH]; intros f H D Z; [exact H|].
  destruct (is_poly_factor n f (x n) H) as (q & Hq & E).
  assert (Q : forall t, q t = 0).
  { apply IH; auto.
    - intros i j Hi Hj. apply D; lia.
    - intros i Hi. specialize (E (x i)). rewrite (Z i), (Z n) in E by lia.
      assert (N : x i - x n <> 0). { intros C. assert (i = n) by (apply D; [lia|lia|lra]). lia. }
      apply (Rmult_eq_reg_l (x i - x n)); auto. lra. }
  intros t. specialize (E t). rewrite (Z n), Q in E by lia. lra.
Qed.

Lemma is_poly_pne n m i x : (i < n)%nat -> (m <= n)%nat -> is_poly (if (i <? m)%nat then m else S m) (fun t => pne m i (fun j => t - x j)).
Proof.
  intros Hi. unfold pne. induction m as [|m IH]; intros Hm; cbn [rprod].
  - cbn [Nat.ltb Nat.leb]. apply is_poly_const. lia.
  - specialize (IH ltac:(lia)). destruct (Nat.eqb_spec m i) as [->|N].
    + rewrite Nat.ltb_irrefl in IH. destruct (Nat.ltb_spec i (S i)); [|lia]. eapply is_poly_ext; [|exact IH]. intros t. cbv beta. rewrite Rmult_1_r. auto.
    + assert (E : (i <? S m) = (i <? m)). { destruct (Nat.ltb_spec i (S m)), (Nat.ltb_spec i m); auto; lia. }
      rewrite E. destruct (i <? m);
      (apply (is_poly_lin _ _ 1 (- x m)) in IH; eapply is_poly_ext; [|exact IH]; intros t; cbv beta; f_equal; ring).
Qed.

(** ** The code *)
Definition len_ok (n : nat) (c : Vec) (f : nat -> R) := v_size c = n /\ forall i, (i < n)%nat -> v_at c i = f i.

Lemma coefficients_ok junk x : distinct (v_size x) (v_at x) ->
  exists c, Lagrange_1D_coefficients junk x = Ok c /\
    len_ok (v_size x) c (fun i => 1 / pne (v_size x) i (fun j => v_at x i - v_at x j)).
Proof.
  intros DI. unfold Lagrange_1D_coefficients. set (n := v_size x) in *.
  destruct (Nat.eqb_spec n 0) as [E0|E0]; [exists (vzero 0); split; auto; split; [cbn; lia|intros; lia]|].
  assert (exists D, for_loop n (fun i D =>
      ' (D, _) <- for_loop n (fun j s =>
          let '(D, col) := s in
          if negb (j =? i)%nat then
            xi <- vec_get x i ;; xj <- vec_get x j ;;
            D' <- mat_set D i col (xi - xj) ;;
            Ok (D', S col)
          else Ok (D, col)) (D, O) ;;
      Ok D) (mraw junk n (n - 1)) = Ok D /\
    (m_rows D = n /\ m_cols D = (n - 1)%nat /\ forall i k, (i < n)%nat -> (k < n - 1)%nat -> m_at D i k = v_at x i - v_at x (skip i k))) as (D & E & S1 & S2 & S3).
  { apply (flt (fun i0 D => m_rows D = n /\ m_cols D = (n - 1)%nat /\
       forall i k, (i < i0)%nat -> (k < n - 1)%nat -> m_at D i k = v_at x i - v_at x (skip i k))).
    { repeat split; auto. intros; lia. }
    intros i D Hi (S1 & S2 & S3).
    destruct (flt (fun j (s : Mat * nat) => let '(D', col) := s in
       col = (if (j <=? i)%nat then j else (j - 1)%nat) /\ m_rows D' = n /\ m_cols D' = (n - 1)%nat /\
       (forall a k, (a < i)%nat -> (k < n - 1)%nat -> m_at D' a k = v_at x a - v_at x (skip a k)) /\
       forall k, (k < col)%nat -> m_at D' i k = v_at x i - v_at x (skip i k))
      (fun j s => let '(D, col) := s in
          if negb (j =? i)%nat then
            xi <- vec_get x i ;; xj <- vec_get x j ;;
            D' <- mat_set D i col (xi - xj) ;;
            Ok (D', S col)
          else Ok (D, col)) n (D, 0%nat)) as ((D' & col) & E & Ec & T1 & T2 & T3 & T4).
    - repeat split; auto. intros; lia.
    - intros j (D1 & col) Hj (Ec & T1 & T2 & T3 & T4). destruct (Nat.eqb_spec j i) as [->|N]; cbn [negb].
      + exists (D1, col). split; auto. rewrite Nat.leb_refl in Ec. destruct (Nat.leb_spec (S i) i); [lia|].
        repeat split; auto. lia.
      + unfold vec_get. fold n. destruct (Nat.ltb_spec i n); [|lia]. destruct (Nat.ltb_spec j n); [|lia]. cbn [bind].
        unfold mat_set. rewrite T1, T2. destruct (Nat.ltb_spec i n); [|lia].
        assert (Hc : (col < n - 1)%nat) by (subst col; destruct (Nat.leb_spec j i); lia).
        destruct (Nat.ltb_spec col (n - 1)); [|lia]. cbn [andb bind].
        match goal with |- exists z, Ok ?v = Ok z /\ _ => exists v end. split; auto. cbn [m_rows m_cols m_at].
        repeat split; auto.
        * destruct (Nat.leb_spec j i), (Nat.leb_spec (S j) i); lia.
        * intros a k Ha Hk. destruct (Nat.eqb_spec a i); [lia|]. cbn [andb]. auto.
        * intros k Hk. rewrite Nat.eqb_refl. cbn [andb]. destruct (Nat.eqb_spec k col) as [->|]; [|apply T4; lia].
          do 2 f_equal. unfold skip. subst col. destruct (Nat.leb_spec j i).
          -- destruct (Nat.ltb_spec j i); lia.
          -- destruct (Nat.ltb_spec (j - 1) i); lia.
    - rewrite E. cbn [bind]. exists D'. split; auto. repeat split; auto.
      intros a k Ha Hk. destruct (Nat.eq_dec a i) as [->|]; [|apply T3; lia].
      apply T4. subst col. destruct (Nat.leb_spec n i); lia. }
  rewrite E. cbn [bind].
  destruct (flt (fun i0 c => v_size c = n /\ forall i, (i < n)%nat ->
      v_at c i = if (i <? i0)%nat then 1 / pne n i (fun j => v_at x i - v_at x j) else pne n i (fun j => v_at x i - v_at x j))
    (fun i c => ci <- vec_get c i ;; vec_set c i (1 / ci)) n
    {| v_size := m_rows D; v_at := fun i => rprod (m_cols D) (fun j => m_at D i j) |}) as (c & Ec & T1 & T2).
  - cbn [v_size v_at]. rewrite S1. split; auto. intros i Hi. cbn. rewrite S2.
    rewrite <- rprod_skip by auto. apply rprod_ext. intros k Hk. auto.
  - intros i c Hi (T1 & T2). unfold vec_get, vec_set. rewrite T1. destruct (Nat.ltb_spec i n); [|lia]. cbn [bind].
    match goal with |- exists z, Ok ?v = Ok z /\ _ => exists v end. split; auto. cbn [v_size v_at]. split; auto.
    intros a Ha. destruct (Nat.eqb_spec a i) as [->|].
    + rewrite T2 by auto. rewrite Nat.ltb_irrefl. destruct (Nat.ltb_spec i (S i)); [auto|lia].
    + assert (X : (a <? S i) = (a <? i)) by (destruct (Nat.ltb_spec a (S i)), (Nat.ltb_spec a i); auto; lia). rewrite X. auto.
  - exists c. split; auto. split; auto. intros i Hi. rewrite T2 by auto. destruct (Nat.ltb_spec i n); [auto|lia].
Qed.

Lemma differences_ok junk x y : exists D, point_differences junk x y = Ok D /\ m_rows D = v_size y /\ m_cols D = v_size x /\
  forall q j, (q < v_size y)%nat -> m_at D q j = v_at y q - v_at x j.
Proof.
  unfold point_differences.
  destruct (flt (fun i0 D => m_rows D = v_size y /\ m_cols D = v_size x /\ forall q j, (q < i0)%nat -> m_at D q j = v_at y q - v_at x j)
    (fun i D => yi <- vec_get y i ;; mat_set_row D i (fun j => yi - v_at x j)) (v_size y) (mraw junk (v_size y) (v_size x))) as (D & E & H).
  - repeat split; auto. intros; lia.
  - intros i D Hi (S1 & S2 & S3). unfold vec_get. destruct (Nat.ltb_spec i (v_size y)); [|lia]. cbn [bind].
    unfold mat_set_row. rewrite S1. destruct (Nat.ltb_spec i (v_size y)); [|lia].
    match goal with |- exists z, Ok ?v = Ok z /\ _ => exists v end. split; auto. cbn [m_rows m_cols m_at]. repeat split; auto.
    intros q j Hq. destruct (Nat.eqb_spec q i) as [->|]; auto. apply S3. lia.
  - eauto.
Qed.

Lemma values_ok junk x c y : (v_size x <> 1%nat -> v_size c = v_size x) ->
  exists V, Lagrange_1D_values junk x c y = Ok V /\ m_rows V = v_size y /\ m_cols V = v_size x /\
    forall q i, (q < v_size y)%nat -> (i < v_size x)%nat ->
      m_at V q i = (if (v_size x =? 1)%nat then 1 else v_at c i) * pne (v_size x) i (fun j => v_at y q - v_at x j).
Proof.
  intros Hc. unfold Lagrange_1D_values. set (n := v_size x) in *. set (ne := v_size y).
  destruct (Nat.eqb_spec n 1) as [E1|E1].
  { match goal with |- exists z, Ok ?v = Ok z /\ _ => exists v end. split; auto. cbn [m_rows m_cols m_at]. repeat split; auto.
    intros q i Hq Hi. assert (i = 0%nat) by lia. subst i. rewrite E1. unfold pne. cbn. ring. }
  specialize (Hc E1). destruct (differences_ok junk x y) as (D & ED & S1 & S2 & S3). rewrite ED. cbn [bind]. fold n in S2. fold ne in S1, S3.
  destruct (flt (fun i0 V => m_rows V = ne /\ m_cols V = n /\
     forall q i, (q < ne)%nat -> (i < i0)%nat -> m_at V q i = v_at c i * pne n i (fun j => v_at y q - v_at x j))
    (fun i V => ci <- vec_get c i ;; V <- mat_set_col V i (fun _ => ci) ;;
      for_loop n (fun j V => if negb (i =? j)%nat then vi <- mcol V i ;; dj <- mcol D j ;; mat_set_col V i (fun q => vi q * dj q) else Ok V) V)
    n (mzero ne n)) as (V & E & T1 & T2 & T3).
  - repeat split; auto. intros; lia.
  - intros i V Hi (T1 & T2 & T3). unfold vec_get. rewrite Hc. destruct (Nat.ltb_spec i n); [|lia]. cbn [bind].
    unfold mat_set_col at 1. rewrite T2. destruct (Nat.ltb_spec i n); [|lia]. cbn [bind].
    match goal with |- context [for_loop n _ ?v0] => set (V0 := v0) end.
    destruct (flt (fun j0 V => m_rows V = ne /\ m_cols V = n /\
       (forall q a, (q < ne)%nat -> (a < i)%nat -> m_at V q a = v_at c a * pne n a (fun j => v_at y q - v_at x j)) /\
       forall q, (q < ne)%nat -> m_at V q i = v_at c i * pne j0 i (fun j => v_at y q - v_at x j))
      (fun j V => if negb (i =? j)%nat then vi <- mcol V i ;; dj <- mcol D j ;; mat_set_col V i (fun q => vi q * dj q) else Ok V) n V0)
      as (V' & E & U1 & U2 & U3 & U4).
    + unfold V0. cbn [m_rows m_cols m_at]. repeat split; auto.
      * intros q a Hq Ha. destruct (Nat.eqb_spec a i); [lia|]. auto.
      * intros q Hq. rewrite Nat.eqb_refl. unfold pne. cbn. ring.
    + intros j W Hj (U1 & U2 & U3 & U4). unfold pne at 2. cbn [rprod]. destruct (Nat.eqb_spec i j) as [<-|N]; cbn [negb].
      * exists W. split; auto. repeat split; auto. intros q Hq. rewrite U4 by auto. rewrite Nat.eqb_refl. unfold pne. ring.
      * unfold mcol at 1. rewrite U2. destruct (Nat.ltb_spec i n); [|lia]. cbn [bind]. unfold mcol. rewrite S2. destruct (Nat.ltb_spec j n); [|lia]. cbn [bind].
        unfold mat_set_col. rewrite U2. destruct (Nat.ltb_spec i n); [|lia].
        match goal with |- exists z, Ok ?v = Ok z /\ _ => exists v end. split; auto. cbn [m_rows m_cols m_at]. repeat split; auto.
        -- intros q a Hq Ha. destruct (Nat.eqb_spec a i); [lia|]. auto.
        -- intros q Hq. rewrite Nat.eqb_refl. rewrite U4, S3 by auto. destruct (Nat.eqb_spec j i); [congruence|]. unfold pne. ring.
    + exists V'. split; auto. repeat split; auto. intros q a Hq Ha. destruct (Nat.eq_dec a i) as [->|]; auto. apply U3; auto. lia.
  - exists V. auto.
Qed.

Lemma derivative_values_ok junk x c y : (v_size x <> 1%nat -> v_size c = v_size x) ->
  exists V, Lagrange_1D_derivative_values junk x c y = Ok V /\ m_rows V = v_size y /\ m_cols V = v_size x /\
    forall q i, (q < v_size y)%nat -> (i < v_size x)%nat ->
      m_at V q i = (if (v_size x =? 1)%nat then 1 else v_at c i) *
        rsum (v_size x) (fun j => if (j =? i)%nat then 0 else
           rprod (v_size x) (fun k => if ((k =? j) || (k =? i))%nat then 1 else v_at y q - v_at x k)).
Proof.
  intros Hc. unfold Lagrange_1D_derivative_values. set (n := v_size x) in *. set (ne := v_size y).
  destruct (Nat.eqb_spec n 1) as [E1|E1].
  { match goal with |- exists z, Ok ?v = Ok z /\ _ => exists v end. split; auto. cbn [m_rows m_cols m_at]. repeat split; auto.
    intros q i Hq Hi. assert (i = 0%nat) by lia. subst i. rewrite E1. cbn. ring. }
  specialize (Hc E1). destruct (differences_ok junk x y) as (D & ED & S1 & S2 & S3). rewrite ED. cbn [bind]. fold n in S2. fold ne in S1, S3.
  set (G := fun q i j => if (j =? i)%nat then 0 else rprod n (fun k => if ((k =? j) || (k =? i))%nat then 1 else v_at y q - v_at x k)).
  assert (COL : forall i j ci, (j =? i)%nat = false -> exists v, for_loop n (fun k v => if ((k =? j) || (k =? i))%nat then Ok v else dk <- mcol D k ;; Ok (fun q : nat => v q * dk q)) (fun _ => ci) = Ok v /\
     forall q, (q < ne)%nat -> v q = ci * G q i j).
  { intros i j ci Hji.
    destruct (flt (fun k0 (v : nat -> R) => forall q, (q < ne)%nat -> v q = ci * rprod k0 (fun k => if ((k =? j) || (k =? i))%nat then 1 else v_at y q - v_at x k))
      (fun k v => if ((k =? j) || (k =? i))%nat then Ok v else dk <- mcol D k ;; Ok (fun q : nat => v q * dk q)) n (fun _ => ci)) as (v & E & H).
    - intros q Hq. cbn. ring.
    - intros k v Hk H. cbn [rprod]. destruct ((k =? j) || (k =? i)).
      + exists v. split; auto. intros q Hq. rewrite H by auto. ring.
      + unfold mcol. rewrite S2. destruct (Nat.ltb_spec k n); [|lia]. cbn [bind].
        match goal with |- exists z, Ok ?v = Ok z /\ _ => exists v end. split; auto. intros q Hq. cbv beta. rewrite H, S3 by auto. ring.
    - exists v. split; auto. intros q Hq. rewrite H by auto. unfold G. now rewrite Hji. }
  destruct (flt (fun i0 V => m_rows V = ne /\ m_cols V = n /\
     (forall q i, (q < ne)%nat -> (i < i0)%nat -> m_at V q i = v_at c i * rsum n (G q i)) /\
     forall q i, (i0 <= i)%nat -> m_at V q i = 0)
    (fun i V => for_loop n (fun j V =>
      if (j =? i)%nat then Ok V else
      ci <- vec_get c i ;;
      col_value <- for_loop n (fun k v =>
          if ((k =? j) || (k =? i))%nat then Ok v
          else dk <- mcol D k ;; Ok (fun q : nat => v q * dk q)) (fun _ => ci) ;;
      vi <- mcol V i ;;
      mat_set_col V i (fun q => vi q + col_value q)) V) n (mzero ne n)) as (V & E & T1 & T2 & T3 & T4).
  - repeat split; auto. intros; lia.
  - intros i V Hi (T1 & T2 & T3 & T4).
    destruct (flt (fun j0 V => m_rows V = ne /\ m_cols V = n /\
       (forall q a, (q < ne)%nat -> (a < i)%nat -> m_at V q a = v_at c a * rsum n (G q a)) /\
       (forall q a, (i < a)%nat -> m_at V q a = 0) /\
       forall q, (q < ne)%nat -> m_at V q i = v_at c i * rsum j0 (G q i))
      (fun j V =>
      if (j =? i)%nat then Ok V else
      ci <- vec_get c i ;;
      col_value <- for_loop n (fun k v =>
          if ((k =? j) || (k =? i))%nat then Ok v
          else dk <- mcol D k ;; Ok (fun q : nat => v q * dk q)) (fun _ => ci) ;;
      vi <- mcol V i ;;
      mat_set_col V i (fun q => vi q + col_value q)) n V) as (V' & E & U1 & U2 & U3 & U4 & U5).
    + repeat split; auto.
      * intros q a Ha. apply T4. lia.
      * intros q Hq. rewrite T4 by lia. cbn. ring.
    + intros j W Hj (U1 & U2 & U3 & U4 & U5). cbn [rsum]. destruct (Nat.eqb_spec j i) as [->|N].
      * exists W. split; auto. repeat split; auto. intros q Hq. rewrite U5 by auto. unfold G at 3. rewrite Nat.eqb_refl. ring.
      * unfold vec_get. rewrite Hc. destruct (Nat.ltb_spec i n); [|lia]. cbn [bind].
        destruct (COL i j (v_at c i)) as (v & Ev & Hv); [now apply Nat.eqb_neq|]. rewrite Ev. cbn [bind].
        unfold mcol. rewrite U2. destruct (Nat.ltb_spec i n); [|lia]. cbn [bind].
        unfold mat_set_col. rewrite U2. destruct (Nat.ltb_spec i n); [|lia].
        match goal with |- exists z, Ok ?v = Ok z /\ _ => exists v end. split; auto. cbn [m_rows m_cols m_at]. repeat split; auto.
        -- intros q a Hq Ha. destruct (Nat.eqb_spec a i); [lia|]. auto.
        -- intros q a Ha. destruct (Nat.eqb_spec a i); [lia|]. auto.
        -- intros q Hq. rewrite Nat.eqb_refl. rewrite U5, Hv by auto. ring.
    + exists V'. split; auto. repeat split; auto. intros q a Hq Ha. destruct (Nat.eq_dec a i) as [->|]; auto. apply U3; auto. lia.
  - exists V. auto.
Qed.

(** ** C36 *)
Lemma pne_neq_0 n i x : distinct n x -> (i < n)%nat -> pne n i (fun j => x i - x j) <> 0.
Proof.
  intros D Hi. apply rprod_neq_0. intros j Hj. destruct (Nat.eqb_spec j i); [lra|]. intros C. apply n0. apply D; auto. lra.
Qed.
Lemma pne_other n i j x : (i < n)%nat -> (j < n)%nat -> i <> j -> pne n i (fun k => x j - x k) = 0.
Proof. intros Hi Hj N. apply (rprod_0 n _ j); auto. destruct (Nat.eqb_spec j i); [congruence|]. lra. Qed.

Lemma lagrange_ok junk x y : distinct (v_size x) (v_at x) -> exists c V,
  Lagrange_1D_coefficients junk x = Ok c /\ Lagrange_1D_values junk x c y = Ok V /\ v_size c = v_size x /\
  m_rows V = v_size y /\ m_cols V = v_size x /\
  forall q i, (q < v_size y)%nat -> (i < v_size x)%nat ->
    m_at V q i = pne (v_size x) i (fun j => v_at y q - v_at x j) / pne (v_size x) i (fun j => v_at x i - v_at x j).
Proof.
  intros D. destruct (coefficients_ok junk x D) as (c & Ec & Sc & Hc).
  destruct (values_ok junk x c y (fun _ => Sc)) as (V & EV & S1 & S2 & S3).
  exists c, V. repeat split; auto. intros q i Hq Hi. rewrite S3, Hc by auto.
  destruct (Nat.eqb_spec (v_size x) 1) as [E|E]; [|unfold Rdiv; ring].
  rewrite E in *. assert (i = 0%nat) by lia. subst i. unfold pne. cbn. field.
Qed.

Lemma C36_all : forall junk x, distinct (v_size x) (v_at x) -> exists c V,
  Lagrange_1D_coefficients junk x = Ok c /\ Lagrange_1D_values junk x c x = Ok V /\
  m_rows V = v_size x /\ m_cols V = v_size x /\
  forall i j, (i < v_size x)%nat -> (j < v_size x)%nat -> m_at V j i = kron i j.
Proof.
  intros junk x D. destruct (lagrange_ok junk x x D) as (c & V & E1 & E2 & _ & S1 & S2 & S3). exists c, V.
  repeat split; auto. intros i j Hi Hj. rewrite S3 by auto. unfold kron. destruct (Nat.eqb_spec i j) as [->|N].
  - field. apply pne_neq_0; auto.
  - rewrite pne_other by auto. unfold Rdiv. ring.
Qed.

(** ** C37 *)
Lemma lagrange_reproduces n x f t : distinct n x -> is_poly n f ->
  rsum n (fun i => f (x i) * (pne n i (fun j => t - x j) / pne n i (fun j => x i - x j))) = f t.
Proof.
  intros D P.
  set (g := fun t => rsum n (fun i => f (x i) * (pne n i (fun j => t - x j) / pne n i (fun j => x i - x j))) + (-1) * f t).
  assert (Z : forall t, g t = 0).
  { apply (is_poly_roots n g x); auto.
    - apply is_poly_plus; [|now apply is_poly_scal]. apply (is_poly_rsum n n (fun i t => _)). intros i Hi.
      eapply is_poly_ext; [|apply (is_poly_scal n (f (x i) / pne n i (fun j => x i - x j)) (fun t => pne n i (fun j => t - x j)))].
      + intros s. cbv beta. unfold Rdiv. ring.
      + pose proof (is_poly_pne n n i x Hi (le_n _)) as H. destruct (Nat.ltb_spec i n); [exact H|lia].
    - intros k Hk. unfold g. rewrite (rsum_single n _ k); auto.
      + field. apply pne_neq_0; auto.
      + intros i Hi N. rewrite pne_other by auto. unfold Rdiv. ring. }
  specialize (Z t). unfold g in Z. lra.
Qed.

Lemma C37_all : forall junk x y a, distinct (v_size x) (v_at x) -> exists c V,
  Lagrange_1D_coefficients junk x = Ok c /\ Lagrange_1D_values junk x c y = Ok V /\
  m_rows V = v_size y /\ m_cols V = v_size x /\
  forall q, (q < v_size y)%nat ->
    rsum (v_size x) (fun i => polynomial (v_size x) a (v_at x i) * m_at V q i) = polynomial (v_size x) a (v_at y q).
Proof.
  intros junk x y a D. destruct (lagrange_ok junk x y D) as (c & V & E1 & E2 & _ & S1 & S2 & S3). exists c, V.
  repeat split; auto. intros q Hq. rewrite <- (lagrange_reproduces (v_size x) (v_at x) (polynomial (v_size x) a) (v_at y q) D (is_poly_coeffs _ _)).
  apply rsum_ext. intros i Hi. now rewrite S3.
Qed.

Lemma C37_unity : forall junk x y, (0 < v_size x)%nat -> distinct (v_size x) (v_at x) -> exists c V,
  Lagrange_1D_coefficients junk x = Ok c /\ Lagrange_1D_values junk x c y = Ok V /\
  forall q, (q < v_size y)%nat -> rsum (v_size x) (fun i => m_at V q i) = 1.
Proof.
  intros junk x y N D. destruct (C37_all junk x y (fun k => if (k =? 0)%nat then 1 else 0) D) as (c & V & E1 & E2 & _ & _ & H).
  exists c, V. repeat split; auto. intros q Hq.
  assert (P : forall t, polynomial (v_size x) (fun k => if (k =? 0)%nat then 1 else 0) t = 1).
  { intros t. unfold polynomial. rewrite (rsum_single _ _ 0%nat); [cbn; ring|auto|]. intros k Hk Hn. destruct (Nat.eqb_spec k 0); [congruence|]. ring. }
  rewrite <- (P (v_at y q)), <- H by auto. apply rsum_ext. intros i Hi. rewrite P. ring.
Qed.

(** ** C38 *)
Lemma derivable_pne n i x t : (i < n)%nat -> derivable_pt_lim (fun s => pne n i (fun j => s - x j)) t
  (rsum n (fun j => if (j =? i)%nat then 0 else rprod n (fun k => if ((k =? j) || (k =? i))%nat then 1 else t - x k))).
Proof.
  intros Hi. unfold pne.
  pose proof (derivable_rprod n (fun j s => if (j =? i)%nat then 1 else s - x j) (fun j s => if (j =? i)%nat then 0 else 1) t) as H.
  match goal with |- derivable_pt_lim _ _ ?l => match type of H with _ -> derivable_pt_lim _ _ ?l' => replace l with l' end end.
  - apply H. intros j Hj. destruct (j =? i)%nat; [apply derivable_pt_lim_const|].
    replace 1 with (1 - 0) by ring. apply (derivable_pt_lim_minus id (fun _ => x j)); [apply derivable_pt_lim_id|apply derivable_pt_lim_const].
  - apply rsum_ext. intros j Hj. destruct (Nat.eqb_spec j i); [ring|]. rewrite Rmult_1_l. unfold pne. apply rprod_ext. intros k Hk.
    destruct (k =? j)%nat, (k =? i)%nat; auto.
Qed.

Lemma C38_all : forall junk x c y, v_size c = v_size x -> exists D V,
  Lagrange_1D_derivative_values junk x c y = Ok D /\ m_rows D = v_size y /\ m_cols D = v_size x /\
  (forall t, Lagrange_1D_values junk x c (one_point t) = Ok (V t)) /\
  forall q i, (q < v_size y)%nat -> (i < v_size x)%nat -> derivable_pt_lim (fun t => m_at (V t) 0 i) (v_at y q) (m_at D q i).
Proof.
  intros junk x c y Hc. destruct (derivative_values_ok junk x c y (fun _ => Hc)) as (D & ED & S1 & S2 & S3).
  set (V := fun t => match Lagrange_1D_values junk x c (one_point t) with Ok A => A | _ => mzero 0 0 end).
  assert (HV : forall t, Lagrange_1D_values junk x c (one_point t) = Ok (V t) /\ forall i, (i < v_size x)%nat ->
     m_at (V t) 0 i = (if (v_size x =? 1)%nat then 1 else v_at c i) * pne (v_size x) i (fun j => t - v_at x j)).
  { intros t. destruct (values_ok junk x c (one_point t) (fun _ => Hc)) as (A & EA & _ & _ & A3). unfold V. rewrite EA. split; auto.
    intros i Hi. apply (A3 0%nat i); cbn; auto. }
  exists D, V. repeat split; auto.
  - intros t. apply HV.
  - intros q i Hq Hi. rewrite S3 by auto.
    eapply derivable_pt_lim_ext; [intros t; symmetry; apply HV; auto|].
    apply (derivable_pt_lim_scal (fun t => pne (v_size x) i (fun j => t - v_at x j))). now apply derivable_pne.
Qed.
