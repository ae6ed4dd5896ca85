(** Derivatives of the shape functions of the tetrahedron, and the final statements about the reference element. *)
From Coq Require Import List Arith Bool Lia ZArith Reals Lra Permutation.
From Verif Require Import Base RSum MatrixModel MonomialsModel MonomialsSpec GBasisProofs LagrangeModel LagrangeSpec LagrangeProofs RBinom TriangleModel TriangleProofs TriangleProofs2 TriangleProofs3 VemQuadModel TetModel TetProofs TetProofs2 TetProofs3 TetSpec.
Import ListNotations.
Local Open Scope R_scope.

Definition hit (o : nat) (ty : nat -> nat) (l : nat -> R) : Prop := exists i p, (i < 4)%nat /\ (p < ty i)%nat /\ l i - INR p / INR o = 0.
Definition dsum (o : nat) (ty : nat -> nat) (g l : nat -> R) (b : R) : R := rsum 4 (fun i => rsum (ty i) (fun p => g i * b / (l i - INR p / INR o))).

Lemma deriv_col_ok o ty L g b w : exists w', tet_deriv_col o ty L g b w = Ok w' /\
  forall q, (hit o ty (L q) -> w' q = None) /\ (~ hit o ty (L q) -> forall a, w q = Some a -> w' q = Some (a + dsum o ty (g q) (L q) (b q))).
Proof.
  unfold tet_deriv_col.
  match goal with |- context [for_loop 4 ?f ?s0] =>
    destruct (flt (fun k w' => forall q,
      ((exists i p, (i < k)%nat /\ (p < ty i)%nat /\ L q i - INR p / INR o = 0) -> w' q = None) /\
      (~ (exists i p, (i < k)%nat /\ (p < ty i)%nat /\ L q i - INR p / INR o = 0) -> forall a, w q = Some a -> w' q = Some (a + rsum k (fun i => rsum (ty i) (fun p => g q i * b q / (L q i - INR p / INR o)))))) f 4%nat s0) as (w' & E & A) end.
  - intros q. split; [intros (i & p & H & _); lia|]. intros _ a Ha. rewrite Ha. cbn. f_equal. ring.
  - intros i u Hi A.
    match goal with |- context [for_loop (ty i) ?f ?s0] =>
      destruct (flt (fun k w' => forall q,
        ((u q = None \/ exists p, (p < k)%nat /\ L q i - INR p / INR o = 0) -> w' q = None) /\
        (~ (exists p, (p < k)%nat /\ L q i - INR p / INR o = 0) -> forall a, u q = Some a -> w' q = Some (a + rsum k (fun p => g q i * b q / (L q i - INR p / INR o))))) f (ty i) s0) as (w' & E & B) end.
    + intros q. split; [intros [H|(p & H & _)]; [auto|lia]|]. intros _ a Ha. rewrite Ha. cbn. f_equal. ring.
    + intros p v Hp B. eexists. split; [reflexivity|]. intros q. destruct (B q) as (B1 & B2). unfold fdiv. destruct (Req_EM_T (L q i - INR p / INR o) 0) as [Z|Z].
      * split; [intros _; destruct (v q); reflexivity|]. intros N. exfalso. apply N. exists p. split; auto.
      * split.
        -- intros [H|(p' & H & Z')]; [rewrite B1 by auto; reflexivity|]. destruct (Nat.eq_dec p' p) as [->|]; [contradiction|]. rewrite B1; [reflexivity|]. right. exists p'. split; auto. lia.
        -- intros N a Ha. rewrite (B2 ltac:(intros (p' & H & Z'); apply N; exists p'; split; auto) a Ha). cbn [fadd rsum]. f_equal. ring.
    + exists w'. split; auto. intros q. destruct (A q) as (A1 & A2), (B q) as (B1 & B2). split.
      * intros (i' & p & H1 & H2 & Z). apply B1. destruct (Nat.eq_dec i' i) as [->|]; [right; eauto|]. left. apply A1. exists i', p. repeat split; auto. lia.
      * intros N a Ha. assert (U : u q = Some (a + rsum i (fun i0 => rsum (ty i0) (fun p => g q i0 * b q / (L q i0 - INR p / INR o))))).
        { apply A2; auto. intros (i' & p & H1 & H2 & Z). apply N. exists i', p. repeat split; auto. }
        rewrite (B2 ltac:(intros (p & H & Z); apply N; exists i, p; repeat split; auto) _ U). cbn [rsum]. f_equal. ring.
  - exists w'. split; auto.
Qed.

Definition gl (d : nat) : nat -> R := nth d [vec4 (-1) 1 0 0; vec4 (-1) 0 1 0; vec4 (-1) 0 0 1] (fun _ => 0).

Lemma hit_ext o t t' l : (forall i, (i < 4)%nat -> t i = t' i) -> hit o t l <-> hit o t' l.
Proof. intros H. split; intros (i & p & A & B & C); exists i, p; [rewrite <- H by auto|rewrite H by auto]; auto. Qed.
Lemma dsum_ext o t t' g l b : (forall i, (i < 4)%nat -> t i = t' i) -> dsum o t g l b = dsum o t' g l b.
Proof. intros H. unfold dsum. apply rsum_ext. intros i Hi. now rewrite H. Qed.

Section Derivatives.
Variable o : nat.
Hypothesis Ho : (1 <= o)%nat.
Let NZ : INR o <> 0 := o_neq o Ho.
Notation pt := (nat * nat * nat)%type.
Definition lq (points : Mat) (q : nat) : nat -> R := lam (m_at points 0 q) (m_at points 1 q) (m_at points 2 q).

(** an entry of the matrices of derivatives *)
Definition entry_ok (d : nat) (p : pt) (l : nat -> R) (b : R) (v : option R) : Prop :=
  (hit o (typ o p) l -> v = None) /\ (~ hit o (typ o p) l -> v = Some (dsum o (typ o p) (gl d) l b)).

Lemma derivatives_ok P T points : tet_ok o P T -> (3 <= m_rows points)%nat -> (2 <= o)%nat ->
  exists D, tet_derivatives o (TN o) P T points = Ok D /\ length D = 3%nat /\
    forall d, (d < 3)%nat -> exists A, nth_error D d = Some A /\ f_rows A = m_cols points /\ f_cols A = TN o /\
      forall q i p, nth_error (TL o) i = Some p -> entry_ok d p (lq points q) (phi3 o p (m_at points 0 q) (m_at points 1 q) (m_at points 2 q)) (f_at A q i).
Proof using Ho.
  intros TO HP H2. pose proof TO as (T1 & T2 & T3 & T4). unfold tet_derivatives. destruct (Nat.eqb_spec o 1); [lia|].
  destruct (values_ok o Ho P T points TO HP) as (B & EB & B1 & B2 & B3). rewrite EB. cbn [bind].
  destruct (lambda_ok o Ho points HP) as (L & EL & L1 & L2 & L3). rewrite EL. cbn [bind].
  match goal with |- context [for_loop 3 ?f ?s0] =>
    destruct (flt (fun k D => length D = 3%nat /\
      (forall d, (k <= d < 3)%nat -> nth_error D d = Some (fzero (m_cols points) (TN o))) /\
      forall d, (d < k)%nat -> exists A, nth_error D d = Some A /\ f_rows A = m_cols points /\ f_cols A = TN o /\
        forall q i p, nth_error (TL o) i = Some p -> entry_ok d p (lq points q) (phi3 o p (m_at points 0 q) (m_at points 1 q) (m_at points 2 q)) (f_at A q i)) f 3%nat s0) as (D & ED & D1 & _ & D3) end.
  - cbn [length repeat]. split; auto. split; [|intros; lia]. intros d Hd. destruct d as [|[|[|d]]]; try lia; reflexivity.
  - intros d D Hd (D1 & D2 & D3).
    match goal with |- context [for_loop (TN o) ?f D] =>
      destruct (flt (fun k D' => length D' = 3%nat /\ (forall d', d' <> d -> nth_error D' d' = nth_error D d') /\
        exists A, nth_error D' d = Some A /\ f_rows A = m_cols points /\ f_cols A = TN o /\ (forall q i, (k <= i)%nat -> f_at A q i = Some 0) /\
        forall q i p, (i < k)%nat -> nth_error (TL o) i = Some p -> entry_ok d p (lq points q) (phi3 o p (m_at points 0 q) (m_at points 1 q) (m_at points 2 q)) (f_at A q i)) f (TN o) D) as (D' & ED' & D1' & D2' & A & EA & A1 & A2 & _ & A4) end.
    + split; auto. split; auto. exists (fzero (m_cols points) (TN o)). split; [apply D2; lia|]. cbn. repeat split; auto; intros; lia.
    + intros i D' Hi (D1' & D2' & A & EA & A1 & A2 & A3 & A4).
      destruct (nth_error_Some_ex (TL o) (i:=i)) as (p & Ep); [rewrite (TL_length o Ho); auto|]. destruct (T4 i p Ep) as (_ & t & Et & Bt).
      rewrite (proj2 (idx_Ok _ _ _) Et). cbn [bind].
      assert (EG : idx_ (Tet_GradLambda points) d = Ok {| m_rows := m_cols points; m_cols := 4; m_at := fun _ => gl d |}).
      { destruct d as [|[|[|d]]]; [reflexivity|reflexivity|reflexivity|lia]. }
      rewrite EG. cbn [bind]. unfold mcol. rewrite B2. destruct (Nat.ltb_spec i (TN o)); [|lia]. cbn [bind]. rewrite (proj2 (idx_Ok _ _ _) EA). cbn [bind].
      unfold fcol. rewrite A2. destruct (Nat.ltb_spec i (TN o)); [|lia]. cbn [bind m_at].
      match goal with |- context [tet_deriv_col o t ?l ?g ?b ?w] => destruct (deriv_col_ok o t l g b w) as (w' & EW & W) end. rewrite EW. cbn [bind].
      unfold fset_col. rewrite A2. destruct (Nat.ltb_spec i (TN o)); [|lia]. cbn [bind]. rewrite set_idx_Ok by lia. eexists. split; [reflexivity|].
      rewrite replace_length. split; auto. split; [intros d' Hd'; rewrite nth_error_replace_neq by auto; apply D2'; auto|].
      eexists. split; [rewrite nth_error_replace_eq by lia; reflexivity|]. cbn [f_rows f_cols f_at]. do 2 (split; auto). split.
      * intros q i' Hi'. destruct (Nat.eqb_spec i' i); [lia|]. apply A3. lia.
      * intros q i' p' Hi' Ep'. destruct (Nat.eqb_spec i' i) as [->|]; [|apply A4; auto; lia]. rewrite Ep in Ep'. injection Ep' as <-.
        destruct (W q) as (W1 & W2). rewrite (L3 q) in W1, W2. split.
        -- intros Hh. apply W1. apply (hit_ext o t (typ o p)); auto.
        -- intros Nh. rewrite (W2 ltac:(intros Hh; apply Nh; apply (hit_ext o t (typ o p)); auto) 0); [|apply A3; lia].
           f_equal. rewrite Rplus_0_l, (B3 q i p Ep). apply dsum_ext. auto.
    + exists D'. split; auto. split; auto. split.
      * intros d' Hd'. rewrite D2' by lia. apply D2. lia.
      * intros d' Hd'. destruct (Nat.eq_dec d' d) as [->|].
        -- exists A. split; auto. do 2 (split; auto). intros q i p Hp. apply A4; auto. apply nth_error_lt in Hp. rewrite (TL_length o Ho) in Hp. auto.
        -- rewrite D2' by auto. apply D3. lia.
  - exists D. split; auto.
Qed.

(** the limit *)
Lemma fprod_der (z : R -> R) s u k : derivable_pt_lim z s u -> (forall p, (p < k)%nat -> z s - INR p / INR o <> 0) ->
  derivable_pt_lim (fun t => fprod o k (z t)) s (rsum k (fun p => u * fprod o k (z s) / (z s - INR p / INR o))).
Proof using Ho.
  intros D. induction k as [|k IH]; intros H.
  - cbn. apply derivable_pt_lim_const.
  - specialize (IH ltac:(intros; apply H; lia)).
    pose proof (derivable_pt_lim_mult _ (fun t => z t - INR k / INR o) _ _ _ IH (derivable_pt_lim_minus z (fun _ => INR k / INR o) s u 0 D (derivable_pt_lim_const _ _))) as M.
    match goal with |- derivable_pt_lim _ _ ?l => match type of M with derivable_pt_lim _ _ ?l' => replace l with l' end end; [exact M|].
    unfold fprod. cbn [rprod rsum]. rewrite Rminus_0_r, <- rsum_scal_r. f_equal.
    + apply rsum_ext. intros p Hp. unfold Rdiv. ring.
    + match goal with |- ?a * ?b = ?b * (?a * ?c) / ?c => replace (b * (a * c) / c) with (a * b * (c * / c)) by (unfold Rdiv; ring); rewrite (Rinv_r c) by (apply H; lia); ring end.
Qed.
Lemma lam_line x d i t : (d < 3)%nat -> (i < 4)%nat -> lam (setc x d t 0%nat) (setc x d t 1%nat) (setc x d t 2%nat) i = lam (x 0%nat) (x 1%nat) (x 2%nat) i + (t - x d) * gl d i.
Proof using Ho.
  intros Hd Hi. unfold lam, gl, setc. destruct d as [|[|[|d]]]; try lia; destruct i as [|[|[|[|i]]]]; try lia; cbn; ring.
Qed.
Lemma phi3_partial a b c d x : (a + b + c <= o)%nat -> (d < 3)%nat -> let l := lam (x 0%nat) (x 1%nat) (x 2%nat) in ~ hit o (typ o (a, b, c)) l ->
  is_partial (fun p => phi3 o (a, b, c) (p 0%nat) (p 1%nat) (p 2%nat)) d x (dsum o (typ o (a, b, c)) (gl d) l (phi3 o (a, b, c) (x 0%nat) (x 1%nat) (x 2%nat))).
Proof using Ho.
  intros H Hd l NH. set (t := typ o (a, b, c)) in *. set (D := num4 o t (lam (INR a / INR o) (INR b / INR o) (INR c / INR o))).
  unfold is_partial.
  assert (SELF : forall i, (i < 4)%nat -> (fun s => l i + (s - x d) * gl d i) (x d) = l i) by (intros; ring).
  assert (A : forall i, (i < 4)%nat -> derivable_pt_lim (fun s => l i + (s - x d) * gl d i) (x d) (gl d i)).
  { intros i Hi eps He. exists (mkposreal 1 Rlt_0_1). intros k Hk _. replace ((l i + (x d + k - x d) * gl d i - (l i + (x d - x d) * gl d i)) / k - gl d i) with 0 by (field; auto). now rewrite Rabs_R0. }
  assert (F : forall i, (i < 4)%nat -> derivable_pt_lim (fun s => fprod o (t i) (l i + (s - x d) * gl d i)) (x d) (rsum (t i) (fun p => gl d i * fprod o (t i) (l i) / (l i - INR p / INR o)))).
  { intros i Hi. pose proof (fprod_der (fun s => l i + (s - x d) * gl d i) (x d) (gl d i) (t i) (A i Hi)) as FD. cbv beta in FD. rewrite (SELF i Hi) in FD. apply FD.
    intros p Hp E. apply NH. exists i, p. auto. }
  pose proof (derivable_pt_lim_mult _ _ _ _ _ (derivable_pt_lim_mult _ _ _ _ _ (derivable_pt_lim_mult _ _ _ _ _ (derivable_pt_lim_mult _ _ _ _ _ (F 0%nat ltac:(lia)) (F 1%nat ltac:(lia))) (F 2%nat ltac:(lia))) (F 3%nat ltac:(lia))) (derivable_pt_lim_const (/ D) (x d))) as M.
  eapply dpl_ext; [|match type of M with derivable_pt_lim ?f _ ?l' => match goal with |- derivable_pt_lim _ _ ?r => replace r with l' end; [exact M|] end].
  - intros s. cbv beta. rewrite phi3_num by auto. fold t D. rewrite num4_eq. rewrite !lam_line by (auto; lia). fold l. unfold mult_fct, fct_cte. unfold Rdiv. reflexivity.
  - rewrite phi3_num by auto. fold t D l. rewrite num4_eq. unfold mult_fct, fct_cte, dsum. cbn [rsum].
    rewrite (SELF 0%nat), (SELF 1%nat), (SELF 2%nat), (SELF 3%nat) by lia.
    set (F0 := fprod o (t 0%nat) (l 0%nat)). set (F1 := fprod o (t 1%nat) (l 1%nat)). set (F2 := fprod o (t 2%nat) (l 2%nat)). set (F3 := fprod o (t 3%nat) (l 3%nat)).
    assert (S : forall i X Y, rsum (t i) (fun p => gl d i * (X * Y) / (l i - INR p / INR o)) = rsum (t i) (fun p => gl d i * X / (l i - INR p / INR o)) * Y).
    { intros i X Y. rewrite <- rsum_scal_r. apply rsum_ext. intros. unfold Rdiv. ring. }
    rewrite <- (S 0%nat F0 (F1 * F2 * F3 * / D)) || idtac.
    replace (F0 * F1 * F2 * F3 / D) with (F0 * (F1 * F2 * F3 / D)) by (unfold Rdiv; ring). rewrite (S 0%nat).
    replace (F0 * (F1 * F2 * F3 / D)) with (F1 * (F0 * F2 * F3 / D)) by (unfold Rdiv; ring). rewrite (S 1%nat).
    replace (F1 * (F0 * F2 * F3 / D)) with (F2 * (F0 * F1 * F3 / D)) by (unfold Rdiv; ring). rewrite (S 2%nat).
    replace (F2 * (F0 * F1 * F3 / D)) with (F3 * (F0 * F1 * F2 / D)) by (unfold Rdiv; ring). rewrite (S 3%nat). unfold Rdiv. ring.
Qed.
End Derivatives.
