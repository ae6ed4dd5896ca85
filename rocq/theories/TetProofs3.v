(** Values of the shape functions of the tetrahedron. *)
From Coq Require Import List Arith Bool Lia ZArith Reals Lra Permutation.
From Verif Require Import Base RSum MatrixModel MonomialsModel MonomialsSpec GBasisProofs LagrangeModel LagrangeSpec LagrangeProofs RBinom TriangleModel TriangleProofs TriangleProofs2 VemQuadModel TetModel TetProofs TetProofs2.
Import ListNotations.
Local Open Scope R_scope.

Definition lam (x y z : R) : nat -> R := vec4 (1 - x - y - z) x y z.
(** product of the factors of coordinate [i] *)
Definition fprod (o k : nat) (z : R) : R := rprod k (fun p => z - INR p / INR o).
Definition num4 (o : nat) (t : nat -> nat) (l : nat -> R) : R := rprod 4 (fun i => fprod o (t i) (l i)).

Lemma num4_eq o t l : num4 o t l = fprod o (t 0%nat) (l 0%nat) * fprod o (t 1%nat) (l 1%nat) * fprod o (t 2%nat) (l 2%nat) * fprod o (t 3%nat) (l 3%nat).
Proof. unfold num4. cbn [rprod]. ring. Qed.
Lemma num4_ext o t t' l l' : (forall i, (i < 4)%nat -> t i = t' i) -> (forall i, (i < 4)%nat -> l i = l' i) -> num4 o t l = num4 o t' l'.
Proof. intros H1 H2. apply rprod_ext. intros i Hi. now rewrite H1, H2. Qed.

Lemma factor_ok o ty L dl nf v : exists nf' v', tet_factor o ty L dl (nf, v) = Ok (nf', v') /\ nf' = nf * num4 o ty dl /\ forall q, v' q = v q * num4 o ty (L q).
Proof.
  unfold tet_factor.
  match goal with |- context [for_loop 4 ?f ?s0] =>
    destruct (flt (fun k s => fst s = nf * rprod k (fun i => fprod o (ty i) (dl i)) /\ forall q, snd s q = v q * rprod k (fun i => fprod o (ty i) (L q i))) f 4%nat s0) as ((nf' & v') & E & A & B) end.
  - cbn. split; [ring|intros; ring].
  - intros i (a & w) Hi (A & B). cbn [fst snd] in A, B.
    match goal with |- context [for_loop (ty i) ?f ?s0] =>
      destruct (flt (fun k s => fst s = a * rprod k (fun p => dl i - INR p / INR o) /\ forall q, snd s q = w q * rprod k (fun p => L q i - INR p / INR o)) f (ty i) s0) as ((a' & w') & E & A' & B') end.
    + cbn. split; [ring|intros; ring].
    + intros p (b & u) Hp (A' & B'). cbn [fst snd] in A', B'. eexists. split; [reflexivity|]. cbn [fst snd rprod]. rewrite A'. split; [ring|]. intros q. rewrite B'. ring.
    + exists (a', w'). split; auto. cbn [fst snd rprod] in *. rewrite A', A. split; [unfold fprod; ring|]. intros q. rewrite B', B. unfold fprod. ring.
  - exists nf', v'. split; auto.
Qed.

Section Values.
Variable o : nat.
Hypothesis Ho : (1 <= o)%nat.
Let NZ : INR o <> 0 := o_neq o Ho.
Notation pt := (nat * nat * nat)%type.

Definition phi3 (p : pt) (x y z : R) : R := let '(a, b, c) := p in
  gb (INR o * (1 - x - y - z)) (o - a - b - c) * gb (INR o * x) a * gb (INR o * y) b * gb (INR o * z) c.
Lemma fprod_gb z k : gb (INR o * z) k = fprod o k z / fprod o k (INR k / INR o).
Proof using Ho.
  rewrite (gb_h o Ho). unfold fprod. f_equal; [apply rprod_ext; intros; unfold Rdiv; ring|apply rprod_ext; intros; unfold Rdiv; ring].
Qed.
Lemma fprod_neq k : fprod o k (INR k / INR o) <> 0.
Proof using Ho.
  intros E. apply (den_neq_0 o Ho k). rewrite <- E. apply rprod_ext. intros. unfold Rdiv. ring.
Qed.
Lemma lam_posn a b c i : (a + b + c <= o)%nat -> (i < 4)%nat -> lam (INR a / INR o) (INR b / INR o) (INR c / INR o) i = INR (typ o (a, b, c) i) / INR o.
Proof using Ho.
  intros H Hi. unfold lam, typ. destruct i as [|[|[|[|i]]]]; cbn [vec4]; try reflexivity. rewrite !minus_INR by lia. field. auto.
Qed.
Lemma phi3_num a b c x y z : (a + b + c <= o)%nat -> phi3 (a, b, c) x y z =
  num4 o (typ o (a, b, c)) (lam x y z) / num4 o (typ o (a, b, c)) (lam (INR a / INR o) (INR b / INR o) (INR c / INR o)).
Proof using Ho.
  intros H. unfold phi3. rewrite !fprod_gb, !num4_eq.
  pose proof (lam_posn a b c 0 H ltac:(lia)) as E. cbn [typ vec4] in E. rewrite E. unfold lam. cbn [typ vec4].
  field. repeat split; apply fprod_neq.
Qed.
Lemma lambda_ok points : (3 <= m_rows points)%nat -> exists L, Tet_Lambda points = Ok L /\ m_rows L = m_cols points /\ m_cols L = 4%nat /\
  forall q, m_at L q = lam (m_at points 0 q) (m_at points 1 q) (m_at points 2 q).
Proof using Ho.
  intros H. unfold Tet_Lambda, mrow. destruct (Nat.ltb_spec 0 (m_rows points)); [|lia]. destruct (Nat.ltb_spec 1 (m_rows points)); [|lia]. destruct (Nat.ltb_spec 2 (m_rows points)); [|lia]. cbn [bind].
  eexists. split; [reflexivity|]. auto.
Qed.
Definition tet_ok (P : Mat) (T : list (nat -> nat)) : Prop := m_rows P = 3%nat /\ m_cols P = TN o /\ length T = TN o /\
  forall d p, nth_error (TL o) d = Some p -> (forall i, (i < 3)%nat -> m_at P i d = posn o p i) /\ exists t, nth_error T d = Some t /\ forall i, (i < 4)%nat -> t i = typ o p i.

Lemma TL_sum d a b c : nth_error (TL o) d = Some (a, b, c) -> (a + b + c <= o)%nat.
Proof using Ho. intros E. apply nth_error_In in E. now apply (TL_In o Ho) in E. Qed.

Lemma phi3_1 d p x y z : o = 1%nat -> nth_error (TL o) d = Some p -> phi3 p x y z = lam x y z d.
Proof using Ho.
  intros E H. assert (TL o = [(0, 0, 0); (1, 0, 0); (0, 1, 0); (0, 0, 1)]%nat) by (rewrite E; reflexivity). rewrite H0 in H. unfold phi3.
  assert (G1 : forall X, gb X 1 = X) by (intros; rewrite gb_alt; cbn; field).
  do 4 (destruct d as [|d]; [cbn in H; injection H as <-; rewrite E; cbn [Nat.sub]; rewrite !G1, !gb_O; cbn; ring|]). destruct d; discriminate.
Qed.
Lemma values_ok P T points : tet_ok P T -> (3 <= m_rows points)%nat ->
  exists V, tet_values o (TN o) P T points = Ok V /\ m_rows V = m_cols points /\ m_cols V = TN o /\
    forall q d p, nth_error (TL o) d = Some p -> m_at V q d = phi3 p (m_at points 0 q) (m_at points 1 q) (m_at points 2 q).
Proof using Ho.
  intros (T1 & T2 & T3 & T4) HP. unfold tet_values. destruct (lambda_ok points HP) as (L & EL & L1 & L2 & L3). rewrite EL. cbn [bind].
  destruct (Nat.eqb_spec o 1) as [E1|NE].
  - exists L. split; auto. split; auto. split; [rewrite L2, E1; reflexivity|]. intros q d p Hp. rewrite L3. symmetry. now apply phi3_1.
  - destruct (lambda_ok P ltac:(lia)) as (DL & EDL & D1 & D2 & D3). rewrite EDL. cbn [bind].
    match goal with |- context [for_loop (TN o) ?f ?s0] =>
      destruct (flt (fun k V => m_rows V = m_cols points /\ m_cols V = TN o /\ (forall q d, (k <= d)%nat -> m_at V q d = 1) /\
        forall q d p, (d < k)%nat -> nth_error (TL o) d = Some p -> m_at V q d = phi3 p (m_at points 0 q) (m_at points 1 q) (m_at points 2 q)) f (TN o) s0) as (V & EV & V1 & V2 & V3 & V4) end.
    + cbn. repeat split; auto. intros; lia.
    + intros d V Hd (V1 & V2 & V3 & V4). destruct (nth_error_Some_ex (TL o) (i:=d)) as (p & Ep); [rewrite (TL_length o Ho); auto|].
      destruct (T4 d p Ep) as (A & t & Et & Bt). rewrite (proj2 (idx_Ok _ _ _) Et). cbn [bind]. unfold mcol. rewrite V2, D1, T2. destruct (Nat.ltb_spec d (TN o)); [|lia]. cbn [bind].
      match goal with |- context [tet_factor o t ?l ?dl (1, ?v)] => destruct (factor_ok o t l dl 1 v) as (nf & v' & EF & NF & VF) end. rewrite EF. cbn [bind].
      unfold mat_set_col. rewrite V2. destruct (Nat.ltb_spec d (TN o)); [|lia]. eexists. split; [reflexivity|]. cbn [m_rows m_cols m_at]. repeat split; auto.
      * intros q d' Hd'. destruct (Nat.eqb_spec d' d); [lia|]. apply V3. lia.
      * intros q d' p' Hd' E'. destruct (Nat.eqb_spec d' d) as [->|]; [|apply (V4 q d' p'); auto; lia].
        rewrite Ep in E'. injection E' as <-. destruct p as [[a b] c]. pose proof (TL_sum d a b c Ep) as S. rewrite phi3_num by auto. rewrite VF, V3 by lia. rewrite NF, L3, D3.
        rewrite (A 0%nat), (A 1%nat), (A 2%nat) by lia. cbn [posn vec3]. rewrite !Rmult_1_l. f_equal; apply num4_ext; auto.
    + exists V. rewrite EV. repeat split; auto. intros q d p Hp. apply V4; auto. apply nth_error_lt in Hp. rewrite (TL_length o Ho) in Hp. auto.
Qed.

(** *** nodality *)
Lemma phi3_nodal a b c a' b' c' : (a + b + c <= o)%nat -> (a' + b' + c' <= o)%nat ->
  phi3 (a, b, c) (INR a' / INR o) (INR b' / INR o) (INR c' / INR o) = if ((a =? a') && (b =? b') && (c =? c'))%nat then 1 else 0.
Proof using Ho.
  intros H H'. unfold phi3.
  assert (X : forall k, INR o * (INR k / INR o) = INR k) by (intros k; field; auto).
  assert (E : INR o * (1 - INR a' / INR o - INR b' / INR o - INR c' / INR o) = INR (o - a' - b' - c')) by (rewrite !minus_INR by lia; field; auto).
  rewrite E, !X.
  destruct (Nat.eqb_spec a a') as [A1|A1]; [destruct (Nat.eqb_spec b b') as [A2|A2]; [destruct (Nat.eqb_spec c c') as [A3|A3]|]|]; cbn [andb]; [subst a' b' c'; rewrite !gb_diag; ring| | |];
    (destruct (Nat.lt_ge_cases a' a); [rewrite (gb_lt a' a) by auto; ring|]; destruct (Nat.lt_ge_cases b' b); [rewrite (gb_lt b' b) by auto; ring|];
     destruct (Nat.lt_ge_cases c' c); [rewrite (gb_lt c' c) by auto; ring|]; rewrite (gb_lt (o - a' - b' - c')) by lia; ring).
Qed.

(** *** sums over the lattice *)
Definition FL : list pt := triples (S o).
Lemma TL_perm : Permutation (TL o) FL.
Proof using Ho.
  apply NoDup_Permutation; [apply (TL_NoDup o Ho)|apply triples_NoDup|]. intros [[a b] c]. rewrite (TL_In o Ho). unfold FL. rewrite triples_In. lia.
Qed.
Lemma lsum_FL f : lsum f FL = rsum (S o) (fun c => rsum (S (o - c)) (fun a => rsum (S (o - c - a)) (fun b => f (a, b, c)))).
Proof using Ho.
  unfold FL, triples. rewrite lsum_flat_map, lsum_seq. apply rsum_ext. intros c Hc. rewrite lsum_map. unfold pairs. rewrite lsum_flat_map, lsum_seq. replace (S o - c)%nat with (S (o - c)) by lia.
  apply rsum_ext. intros a Ha. rewrite lsum_map, lsum_seq. replace (S (o - c) - a)%nat with (S (o - c - a)) by lia. reflexivity.
Qed.
Lemma rsum_TL (f : nat -> R) (g : pt -> R) : (forall d p, nth_error (TL o) d = Some p -> f d = g p) ->
  rsum (TN o) f = rsum (S o) (fun c => rsum (S (o - c)) (fun a => rsum (S (o - c - a)) (fun b => g (a, b, c)))).
Proof using Ho.
  intros H. rewrite <- lsum_FL, <- (lsum_perm g _ _ TL_perm), (lsum_nth (O, O, O)), (TL_length o Ho).
  apply rsum_ext. intros d Hd. apply H. rewrite (nth_error_nth' _ (O, O, O)); auto. rewrite (TL_length o Ho); auto.
Qed.

(** two sums of products of binomials *)
Lemma two_sums X Y L m p q : (p + q <= m)%nat ->
  rsum (S m) (fun a => rsum (S (m - a)) (fun b => gb (INR a) p * gb (INR b) q * (gb L (m - a - b) * gb X a * gb Y b))) =
  gb X p * gb Y q * gb (X - INR p + (Y - INR q) + L) (m - p - q).
Proof using Ho.
  intros H.
  rewrite (rsum_ext (S m) _ (fun a => gb (INR a) p * gb X a * (if (q <=? m - a)%nat then gb Y q * gb (Y - INR q + L) (m - a - q) else 0))).
  2: { intros a Ha. rewrite <- vandermonde_shift, <- rsum_scal. apply rsum_ext. intros b Hb. ring. }
  replace (S m) with (S (m - q) + q)%nat by lia. rewrite rsum_add. rewrite (rsum_0 q).
  2: { intros i Hi. destruct (Nat.leb_spec q (m - (S (m - q) + i))); [lia|]. ring. }
  rewrite Rplus_0_r.
  rewrite (rsum_ext _ _ (fun a => gb Y q * (gb (INR a) p * (gb X a * gb (Y - INR q + L) (m - q - a))))).
  2: { intros i Hi. destruct (Nat.leb_spec q (m - i)); [|lia]. replace (m - i - q)%nat with (m - q - i)%nat by lia. ring. }
  rewrite rsum_scal, vandermonde_shift. destruct (Nat.leb_spec p (m - q)); [|lia].
  replace (m - q - p)%nat with (m - p - q)%nat by lia. replace (X - INR p + (Y - INR q + L)) with (X - INR p + (Y - INR q) + L) by ring. ring.
Qed.
Lemma two_sums_0 X Y L m p q : (m < p + q)%nat ->
  rsum (S m) (fun a => rsum (S (m - a)) (fun b => gb (INR a) p * gb (INR b) q * (gb L (m - a - b) * gb X a * gb Y b))) = 0.
Proof using Ho.
  intros H. apply rsum_0. intros a Ha. apply rsum_0. intros b Hb. destruct (Nat.lt_ge_cases a p); [rewrite (gb_lt a p) by auto; ring|]. rewrite (gb_lt b q) by lia. ring.
Qed.
Lemma reproduce_gb3 p q r x y z : (p + q + r <= o)%nat ->
  rsum (S o) (fun c => rsum (S (o - c)) (fun a => rsum (S (o - c - a)) (fun b => gb (INR a) p * gb (INR b) q * gb (INR c) r * phi3 (a, b, c) x y z))) =
  gb (INR o * x) p * gb (INR o * y) q * gb (INR o * z) r.
Proof using Ho.
  intros H. set (X := INR o * x). set (Y := INR o * y). set (W := INR o * z). set (L := INR o * (1 - x - y - z)).
  rewrite (rsum_ext (S o) _ (fun c => gb (INR c) r * gb W c * (if (p + q <=? o - c)%nat then gb X p * gb Y q * gb (X - INR p + (Y - INR q) + L) (o - c - p - q) else 0))).
  2: { intros c Hc.
       transitivity (gb (INR c) r * gb W c * rsum (S (o - c)) (fun a => rsum (S (o - c - a)) (fun b => gb (INR a) p * gb (INR b) q * (gb L (o - c - a - b) * gb X a * gb Y b)))).
       - rewrite <- rsum_scal. apply rsum_ext. intros a Ha. rewrite <- rsum_scal. apply rsum_ext. intros b Hb. unfold phi3. fold X Y W L. replace (o - a - b - c)%nat with (o - c - a - b)%nat by lia. ring.
       - f_equal. destruct (Nat.leb_spec (p + q) (o - c)); [apply two_sums; lia|apply two_sums_0; lia]. }
  replace (S o) with (S (o - (p + q)) + (p + q))%nat by lia. rewrite rsum_add. rewrite (rsum_0 (p + q)).
  2: { intros i Hi. destruct (Nat.leb_spec (p + q) (o - (S (o - (p + q)) + i))); [lia|]. ring. }
  rewrite Rplus_0_r.
  rewrite (rsum_ext _ _ (fun c => gb X p * gb Y q * (gb (INR c) r * (gb W c * gb (X - INR p + (Y - INR q) + L) (o - (p + q) - c))))).
  2: { intros i Hi. destruct (Nat.leb_spec (p + q) (o - i)); [|lia]. replace (o - i - p - q)%nat with (o - (p + q) - i)%nat by lia. ring. }
  rewrite rsum_scal, vandermonde_shift. destruct (Nat.leb_spec r (o - (p + q))); [|lia].
  replace (W - INR r + (X - INR p + (Y - INR q) + L)) with (INR (o - (p + q) - r)).
  2: { rewrite !minus_INR, plus_INR by lia. unfold X, Y, W, L. ring. }
  rewrite gb_diag. ring.
Qed.

(** interpolation operator *)
Definition sum3 (g : nat -> nat -> nat -> R) : R := rsum (S o) (fun c => rsum (S (o - c)) (fun a => rsum (S (o - c - a)) (fun b => g a b c))).
Lemma sum3_ext f g : (forall a b c, (a + b + c <= o)%nat -> f a b c = g a b c) -> sum3 f = sum3 g.
Proof using Ho. intros E. unfold sum3. apply rsum_ext. intros c Hc. apply rsum_ext. intros a Ha. apply rsum_ext. intros b Hb. apply E. lia. Qed.
Lemma sum3_scal k g : sum3 (fun a b c => k * g a b c) = k * sum3 g.
Proof using Ho. unfold sum3. rewrite <- rsum_scal. apply rsum_ext. intros c _. rewrite <- rsum_scal. apply rsum_ext. intros a _. apply rsum_scal. Qed.
Lemma sum3_rsum n g : sum3 (fun a b c => rsum n (fun k => g k a b c)) = rsum n (fun k => sum3 (g k)).
Proof using Ho.
  induction n as [|n IH]; cbn [rsum].
  - unfold sum3. apply rsum_0. intros. apply rsum_0. intros. apply rsum_0. auto.
  - rewrite <- IH. unfold sum3. rewrite <- rsum_plus. apply rsum_ext. intros. rewrite <- rsum_plus. apply rsum_ext. intros. rewrite <- rsum_plus. reflexivity.
Qed.
Definition interp3 (f : R -> R -> R -> R) (x y z : R) : R := sum3 (fun a b c => f (INR a / INR o) (INR b / INR o) (INR c / INR o) * phi3 (a, b, c) x y z).
Lemma interp3_sum n k f x y z : interp3 (fun u v w => rsum n (fun i => k i * f i u v w)) x y z = rsum n (fun i => k i * interp3 (f i) x y z).
Proof using Ho.
  unfold interp3. rewrite (rsum_ext n _ (fun i => sum3 (fun a b c => k i * (f i (INR a / INR o) (INR b / INR o) (INR c / INR o) * phi3 (a, b, c) x y z)))) by (intros; now rewrite sum3_scal).
  rewrite <- sum3_rsum. apply sum3_ext. intros. rewrite <- rsum_scal_r. apply rsum_ext. intros. ring.
Qed.
Lemma interp3_ext f g x y z : (forall u v w, f u v w = g u v w) -> interp3 f x y z = interp3 g x y z.
Proof using Ho. intros E. apply sum3_ext. intros. now rewrite E. Qed.
Lemma interp3_gb p q r x y z : (p + q + r <= o)%nat ->
  interp3 (fun u v w => gb (INR o * u) p * gb (INR o * v) q * gb (INR o * w) r) x y z = gb (INR o * x) p * gb (INR o * y) q * gb (INR o * z) r.
Proof using Ho.
  intros H. rewrite <- (reproduce_gb3 p q r x y z H). unfold interp3. apply sum3_ext. intros a b c Hs.
  assert (X : forall k, INR o * (INR k / INR o) = INR k) by (intros k; field; auto). now rewrite !X.
Qed.
Lemma interp3_pow p q r x y z : (p + q + r <= o)%nat -> interp3 (fun u v w => u ^ p * v ^ q * w ^ r) x y z = x ^ p * y ^ q * z ^ r.
Proof using Ho.
  intros H. destruct (pow_gb o p Ho) as (cp & Hp), (pow_gb o q Ho) as (cq & Hq), (pow_gb o r Ho) as (cr & Hr).
  assert (E : forall u v w, u ^ p * v ^ q * w ^ r = rsum (S p) (fun i => cp i * rsum (S q) (fun j => cq j * rsum (S r) (fun k => cr k * (gb (INR o * u) i * gb (INR o * v) j * gb (INR o * w) k))))).
  { intros u v w. rewrite (Hp u), (Hq v), (Hr w). set (W := rsum (S r) (fun k => cr k * gb (INR o * w) k)). set (V := rsum (S q) (fun j => cq j * gb (INR o * v) j)).
    symmetry. rewrite (rsum_ext (S p) _ (fun i => cp i * gb (INR o * u) i * (V * W))); [rewrite rsum_scal_r; ring|]. intros i Hi.
    rewrite (rsum_ext (S q) _ (fun j => cq j * gb (INR o * v) j * (gb (INR o * u) i * W))); [rewrite rsum_scal_r; fold V; ring|]. intros j Hj.
    rewrite (rsum_ext (S r) _ (fun k => (gb (INR o * u) i * gb (INR o * v) j) * (cr k * gb (INR o * w) k))) by (intros; ring). rewrite rsum_scal. fold W. ring. }
  rewrite (interp3_ext _ _ x y z E). rewrite E.
  rewrite (interp3_sum (S p) cp (fun i u v w => rsum (S q) (fun j => cq j * rsum (S r) (fun k => cr k * (gb (INR o * u) i * gb (INR o * v) j * gb (INR o * w) k))))).
  apply rsum_ext. intros i Hi. f_equal. rewrite (interp3_sum (S q) cq (fun j u v w => rsum (S r) (fun k => cr k * (gb (INR o * u) i * gb (INR o * v) j * gb (INR o * w) k)))).
  apply rsum_ext. intros j Hj. f_equal. rewrite (interp3_sum (S r) cr (fun k u v w => gb (INR o * u) i * gb (INR o * v) j * gb (INR o * w) k)).
  apply rsum_ext. intros k Hk. f_equal. apply interp3_gb. lia.
Qed.
End Values.
