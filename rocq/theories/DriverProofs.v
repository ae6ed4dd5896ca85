(** Proofs about the errors. *)
From Coq Require Import List Arith Bool Reals Lra Lia.
From Verif Require Import Base RSum MatrixModel DofsModel DofsSpec AssemblerModel AssemblerSpec VemQuadModel VemModel VemSpec DriverModel DriverSpec.
Import ListNotations.
Local Open Scope R_scope.

(** ** Weighted sums *)
Definition sw (f : R * R * R -> R) (l : list (R * R * R)) : R := lsum f l.

Lemma quadratic_bound A B C : 0 <= A -> 0 <= B -> (forall t, 0 <= A + 2 * t * C + t * t * B) -> C * C <= A * B.
Proof.
  intros HA HB H. destruct (Req_dec B 0) as [->|HB0].
  - destruct (Req_dec C 0) as [->|HC]; [lra|]. specialize (H (- (A + 1) / (2 * C))).
    replace (A + 2 * (- (A + 1) / (2 * C)) * C + - (A + 1) / (2 * C) * (- (A + 1) / (2 * C)) * 0) with (-1) in H by (field; auto). lra.
  - specialize (H (- C / B)).
    replace (A + 2 * (- C / B) * C + - C / B * (- C / B) * B) with ((A * B - C * C) / B) in H by (field; auto).
    assert (HBp : 0 < B) by lra. apply Rmult_le_compat_r with (r := B) in H; [|lra].
    replace ((A * B - C * C) / B * B) with (A * B - C * C) in H by (field; auto). lra.
Qed.

Definition wnonneg (l : list (R * R * R)) := forall w a b, In (w, a, b) l -> 0 <= w.

Lemma sum_sq_nonneg l (f : R -> R -> R) : wnonneg l -> 0 <= lsum (fun t : R * R * R => match t with (w, a, b) => w * (f a b * f a b) end) l.
Proof.
  intros H. apply lsum_nonneg. intros [[w a] b] Hin. apply Rmult_le_pos; [eapply H; eauto|apply Rle_0_sqr].
Qed.

Lemma cauchy_schwarz l (f g : R -> R -> R) : wnonneg l ->
  let C := lsum (fun t : R * R * R => match t with (w, a, b) => w * (f a b * g a b) end) l in
  C * C <= lsum (fun t : R * R * R => match t with (w, a, b) => w * (f a b * f a b) end) l *
           lsum (fun t : R * R * R => match t with (w, a, b) => w * (g a b * g a b) end) l.
Proof.
  intros H C. apply quadratic_bound; try (now apply sum_sq_nonneg).
  intros t. pose proof (sum_sq_nonneg l (fun a b => f a b + t * g a b) H) as P.
  replace (lsum _ l) with (lsum (fun t : R * R * R => match t with (w, a, b) => w * (f a b * f a b) end) l + 2 * t * C +
    t * t * lsum (fun t : R * R * R => match t with (w, a, b) => w * (g a b * g a b) end) l) in P; [exact P|].
  unfold C. rewrite <- !lsum_scal, <- !lsum_plus. apply lsum_ext. intros [[w a] b] _. ring.
Qed.

Lemma minkowski l (f g : R -> R -> R) : wnonneg l ->
  sqrt (lsum (fun t : R * R * R => match t with (w, a, b) => w * ((f a b + g a b) * (f a b + g a b)) end) l) <=
  sqrt (lsum (fun t : R * R * R => match t with (w, a, b) => w * (f a b * f a b) end) l) +
  sqrt (lsum (fun t : R * R * R => match t with (w, a, b) => w * (g a b * g a b) end) l).
Proof.
  intros H. pose proof (cauchy_schwarz l f g H) as CS. cbv zeta in CS.
  pose proof (sum_sq_nonneg l f H) as HA. pose proof (sum_sq_nonneg l g H) as HB.
  set (C := lsum (fun t : R * R * R => match t with (w, a, b) => w * (f a b * g a b) end) l) in *.
  set (A := lsum (fun t : R * R * R => match t with (w, a, b) => w * (f a b * f a b) end) l) in *.
  set (B := lsum (fun t : R * R * R => match t with (w, a, b) => w * (g a b * g a b) end) l) in *.
  replace (lsum _ l) with (A + 2 * C + B).
  2:{ unfold A, B, C. rewrite <- lsum_scal, <- !lsum_plus. apply lsum_ext. intros [[w a] b] _. ring. }
  assert (HC : C <= sqrt A * sqrt B).
  { rewrite <- sqrt_mult by auto. destruct (Rle_dec 0 C) as [HC|HC].
    - rewrite <- (sqrt_square C) by auto. apply sqrt_le_1; [apply Rle_0_sqr|apply Rmult_le_pos; auto|auto].
    - apply Rle_trans with 0; [lra|apply sqrt_pos]. }
  apply Rsqr_incr_0_var; [|apply Rplus_le_le_0_compat; apply sqrt_pos].
  unfold Rsqr. assert (P : 0 <= A + 2 * C + B).
  { replace (A + 2 * C + B) with (lsum (fun t : R * R * R => match t with (w, a, b) => w * ((f a b + g a b) * (f a b + g a b)) end) l).
    - now apply (sum_sq_nonneg l (fun a b => f a b + g a b)).
    - unfold A, B, C. rewrite <- lsum_scal, <- !lsum_plus. apply lsum_ext. intros [[w a] b] _. ring. }
  rewrite sqrt_sqrt by auto.
  replace ((sqrt A + sqrt B) * (sqrt A + sqrt B)) with (sqrt A * sqrt A + 2 * (sqrt A * sqrt B) + sqrt B * sqrt B) by ring.
  rewrite !sqrt_sqrt by auto. lra.
Qed.

Lemma lsum_zero_all {A} (f : A -> R) l : (forall x, In x l -> 0 <= f x) -> lsum f l = 0 -> forall x, In x l -> f x = 0.
Proof.
  induction l as [|a l IH]; simpl; intros H0 H x Hx; [tauto|].
  assert (0 <= lsum f l) by (apply lsum_nonneg; auto). assert (0 <= f a) by auto.
  destruct Hx as [->|Hx]; [lra|]. apply IH; auto. lra.
Qed.

(** ** Consequences of a report *)
Section Report.
Variable Pt : nat -> R * R * R -> Prop.
Variable n : nat.
Variable r : Post_Process_Data_Error.
Hypothesis HR : reports Pt n r.

Lemma gather_points : exists l, (forall t, In t l <-> exists c, (c < n)%nat /\ Pt c t) /\
  rsum n (fun c => nth c (pe_cells_error r) 0) = sum_error l /\
  rsum n (fun c => nth c (pe_cells_numeric r) 0) = sum_numeric l /\
  rsum n (fun c => nth c (pe_cells_exact r) 0) = sum_exact l.
Proof.
  destruct HR as (_ & _ & _ & H & _).
  assert (G : forall k, (k <= n)%nat -> exists l, (forall t, In t l <-> exists c, (c < k)%nat /\ Pt c t) /\
    rsum k (fun c => nth c (pe_cells_error r) 0) = sum_error l /\
    rsum k (fun c => nth c (pe_cells_numeric r) 0) = sum_numeric l /\
    rsum k (fun c => nth c (pe_cells_exact r) 0) = sum_exact l).
  { induction k as [|k IH]; intros Hk.
    - exists []. split; [|repeat split]. intros t. split; [intros []|intros (c & Hc & _); lia].
    - destruct IH as (l1 & I1 & E1 & N1 & X1); [lia|].
      destruct (H k) as (l2 & I2 & E2 & N2 & X2); [lia|].
      exists (l1 ++ l2). split.
      + intros t. rewrite in_app_iff, I1, I2. split.
        * intros [(c & Hc & P)|P]; [exists c; split; auto; lia|exists k; split; auto; lia].
        * intros (c & Hc & P). destruct (Nat.eq_dec c k) as [->|Hne]; [now right|left; exists c; split; auto; lia].
      + cbn [rsum]. unfold sum_error, sum_numeric, sum_exact in *. rewrite !lsum_app, E1, N1, X1, E2, N2, X2. auto. }
  apply G. lia.
Qed.

Hypothesis HW : forall c w a b, (c < n)%nat -> Pt c (w, a, b) -> 0 <= w.

Lemma report_squares :
  pe_error r * pe_error r = rsum n (fun c => nth c (pe_cells_error r) 0) /\
  pe_numeric r * pe_numeric r = rsum n (fun c => nth c (pe_cells_numeric r) 0) /\
  pe_exact r * pe_exact r = rsum n (fun c => nth c (pe_cells_exact r) 0).
Proof.
  destruct gather_points as (l & I & E & N & X). destruct HR as (_ & _ & _ & _ & RE & RN & RX).
  assert (W : wnonneg l). { intros w a b Hin. apply I in Hin. destruct Hin as (c & Hc & P). eauto. }
  rewrite RE, RN, RX, E, N, X. repeat split; apply sqrt_sqrt.
  - now apply (sum_sq_nonneg l (fun a b => a - b)).
  - now apply (sum_sq_nonneg l (fun a b => a)).
  - now apply (sum_sq_nonneg l (fun a b => b)).
Qed.

Lemma report_triangle : pe_numeric r <= pe_exact r + pe_error r /\ pe_exact r <= pe_numeric r + pe_error r.
Proof.
  destruct gather_points as (l & I & E & N & X). destruct HR as (_ & _ & _ & _ & RE & RN & RX).
  assert (W : wnonneg l). { intros w a b Hin. apply I in Hin. destruct Hin as (c & Hc & P). eauto. }
  rewrite RE, RN, RX, E, N, X. split.
  - pose proof (minkowski l (fun a b => b) (fun a b => a - b) W) as M. unfold sum_numeric, sum_exact, sum_error.
    erewrite (lsum_ext _ _ l) in M; [exact M|]. intros [[w a] b] _. cbv beta. ring.
  - pose proof (minkowski l (fun a b => a) (fun a b => b - a) W) as M. unfold sum_numeric, sum_exact, sum_error.
    erewrite (lsum_ext _ _ l) in M; [|intros [[w a] b] _; cbv beta; instantiate (1 := fun t => match t with (w, a, b) => w * (b * b) end); cbv beta iota; ring].
    erewrite (lsum_ext (fun t => match t with (w, a, b) => w * ((b - a) * (b - a)) end) _ l) in M; [exact M|].
    intros [[w a] b] _. ring.
Qed.

Lemma report_zero : (forall c w a b, (c < n)%nat -> Pt c (w, a, b) -> a = b) -> pe_error r = 0.
Proof.
  intros H. destruct gather_points as (l & I & E & N & X). destruct HR as (_ & _ & _ & _ & RE & _).
  rewrite RE, E. unfold sum_error. rewrite lsum_0; [apply sqrt_0|].
  intros [[w a] b] Hin. apply I in Hin. destruct Hin as (c & Hc & P). rewrite (H c w a b Hc P). ring.
Qed.

Lemma report_zero_inv : (forall c w a b, (c < n)%nat -> Pt c (w, a, b) -> 0 < w) -> pe_error r = 0 ->
  forall c w a b, (c < n)%nat -> Pt c (w, a, b) -> a = b.
Proof.
  intros HP Z c w a b Hc P. destruct gather_points as (l & I & E & N & X). destruct HR as (_ & _ & _ & _ & RE & _).
  assert (W : wnonneg l). { intros w' a' b' Hin. apply I in Hin. destruct Hin as (c' & Hc' & P'). eauto. }
  rewrite RE, E in Z. apply sqrt_eq_0 in Z; [|now apply (sum_sq_nonneg l (fun a b => a - b))].
  assert (T : w * ((a - b) * (a - b)) = 0).
  { apply (lsum_zero_all (fun t => match t with (w, a, b) => w * ((a - b) * (a - b)) end) l) with (x := (w, a, b)); auto.
    - intros [[w' a'] b'] Hin. apply Rmult_le_pos; [eapply W; eauto|apply Rle_0_sqr].
    - apply I. eauto. }
  specialize (HP c w a b Hc P). apply Rmult_integral in T. destruct T as [T|T]; [lra|].
  apply Rmult_integral in T. lra.
Qed.
End Report.

(** ** The runs *)
Lemma nth_replace_same {A} (l : list A) i v d : (i < length l)%nat -> nth i (replace l i v) d = v.
Proof. revert i; induction l as [|a l IH]; intros [|i] H; simpl in *; try lia; auto. apply IH. lia. Qed.
Lemma nth_replace_other {A} (l : list A) i j v d : i <> j -> nth j (replace l i v) d = nth j l d.
Proof. revert i j; induction l as [|a l IH]; intros [|i] [|j] H; simpl; auto; try congruence. Qed.
Lemma length_replace {A} (l : list A) i v : length (replace l i v) = length l.
Proof. revert i; induction l as [|a l IH]; intros [|i]; simpl; auto. Qed.
Lemma set_idx_inv {A} (l : list A) i v l' : set_idx l i v = Ok l' -> (i < length l)%nat /\ l' = replace l i v.
Proof. unfold set_idx. destruct (i <? length l)%nat eqn:E; intros H; inversion H. apply Nat.ltb_lt in E. auto. Qed.
Lemma set_idx_in {A} (l : list A) i v : (i < length l)%nat -> set_idx l i v = Ok (replace l i v).
Proof. intros H. unfold set_idx. apply Nat.ltb_lt in H. now rewrite H. Qed.
Lemma nth_repeat0 n c : nth c (repeat 0 n) 0 = 0.
Proof. revert c; induction n as [|n IH]; intros [|c]; simpl; auto. Qed.

Lemma sum_list_nth l : sum_list l = rsum (length l) (fun c => nth c l 0).
Proof. unfold sum_list. now rewrite (lsum_nth 0). Qed.

Definition cells_state := (list R * list R * list R)%type.
Definition cell_ok (Pt : nat -> R * R * R -> Prop) (s : cells_state) (c : nat) : Prop :=
  let '(se, sn, sx) := s in
  exists l, (forall t, In t l <-> Pt c t) /\ nth c se 0 = sum_error l /\ nth c sn 0 = sum_numeric l /\ nth c sx 0 = sum_exact l.

Lemma run_reports Pt n (act : nat -> bool) (step : nat -> cells_state -> outcome cells_state) s' :
  for_loop n (fun c s => if negb (act c) then Ok s else step c s) (repeat 0 n, repeat 0 n, repeat 0 n) = Ok s' ->
  (forall c t, act c = false -> ~ Pt c t) ->
  (forall c s s', (c < n)%nat -> act c = true -> step c s = Ok s' ->
     exists e nn x l, set_cell c e nn x s = Ok s' /\ (forall t, In t l <-> Pt c t) /\ e = sum_error l /\ nn = sum_numeric l /\ x = sum_exact l) ->
  reports Pt n (close_error s').
Proof.
  intros E Hina Hst.
  assert (G : let '(se, sn, sx) := s' in length se = n /\ length sn = n /\ length sx = n /\ forall c, (c < n)%nat -> cell_ok Pt s' c).
  { pose (I := fun k (s : cells_state) => let '(se, sn, sx) := s in length se = n /\ length sn = n /\ length sx = n /\
      (forall c, (c < k)%nat -> cell_ok Pt s c) /\ forall c, (k <= c)%nat -> nth c se 0 = 0 /\ nth c sn 0 = 0 /\ nth c sx 0 = 0).
    assert (Q : I n s').
    { apply (for_loop_inv I _ _ E); unfold I.
      - rewrite !repeat_length. repeat split; auto; try apply nth_repeat0. intros; lia.
      - intros c [[se sn] sx] [[se' sn'] sx'] Hc (L1 & L2 & L3 & HP & HF) Es.
        destruct (act c) eqn:Ea; simpl in Es.
        + destruct (Hst c _ _ Hc Ea Es) as (e & nn & x & l & Ec & Il & -> & -> & ->).
          simpl in Ec. apply bind_Ok in Ec. destruct Ec as (a1 & A1 & Ec). apply bind_Ok in Ec. destruct Ec as (a2 & A2 & Ec).
          apply bind_Ok in Ec. destruct Ec as (a3 & A3 & Ec). inversion Ec; subst a1 a2 a3; clear Ec.
          apply set_idx_inv in A1, A2, A3. destruct A1 as (B1 & ->). destruct A2 as (B2 & ->). destruct A3 as (B3 & ->).
          rewrite !length_replace. repeat split; auto.
          * intros c' Hc'. unfold cell_ok. destruct (Nat.eq_dec c' c) as [->|Hne].
            -- exists l. rewrite !nth_replace_same by auto. auto.
            -- rewrite !nth_replace_other by auto. apply HP. lia.
          * rewrite nth_replace_other by lia. apply HF. lia.
          * rewrite nth_replace_other by lia. apply HF. lia.
          * rewrite nth_replace_other by lia. apply HF. lia.
        + inversion Es; subst. repeat split; auto; try (apply HF; lia).
          intros c' Hc'. destruct (Nat.eq_dec c' c) as [->|Hne]; [|apply HP; lia].
          exists []. destruct (HF c) as (-> & -> & ->); [lia|]. split; [|auto].
          intros t. split; [intros []|]. intros P. exfalso. eapply Hina; eauto. }
    destruct s' as [[se sn] sx]. unfold I in Q. destruct Q as (L1 & L2 & L3 & HP & _). auto. }
  destruct s' as [[se sn] sx]. destruct G as (L1 & L2 & L3 & HP). unfold reports, close_error. simpl.
  rewrite !sum_list_nth, L1, L2, L3. repeat split; auto.
Qed.

(** decomposition of one cell *)
Lemma vdot_inv w v x : vdot w v = Ok x -> v_size w = v_size v /\ x = rsum (v_size w) (fun i => v_at w i * v_at v i).
Proof. unfold vdot. destruct (v_size w =? v_size v)%nat eqn:E; intros H; inversion H. apply Nat.eqb_eq in E. auto. Qed.
Lemma vsub_inv v w x : vsub v w = Ok x -> v_size v = v_size w /\ x = {| v_size := v_size v; v_at := fun i => v_at v i - v_at w i |}.
Proof. unfold vsub. destruct (v_size v =? v_size w)%nat eqn:E; intros H; inversion H. apply Nat.eqb_eq in E. auto. Qed.
Lemma vadd_inv v w x : vadd v w = Ok x -> v_size v = v_size w /\ x = {| v_size := v_size v; v_at := fun i => v_at v i + v_at w i |}.
Proof. unfold vadd. destruct (v_size v =? v_size w)%nat eqn:E; intros H; inversion H. apply Nat.eqb_eq in E. auto. Qed.
Lemma mmulv_inv A v x : mmulv A v = Ok x -> m_cols A = v_size v /\ v_size x = m_rows A /\ forall i, v_at x i = combine A (v_at v) i.
Proof. unfold mmulv. destruct (m_cols A =? v_size v)%nat eqn:E; intros H; inversion H. apply Nat.eqb_eq in E. auto. Qed.
Lemma function_evaluation_inv P f x : function_evaluation P f = Ok x -> v_size x = m_cols P /\
  forall i, v_at x i = f (m_at P 0 i) (m_at P 1 i) (m_at P 2 i).
Proof. unfold function_evaluation. destruct (_ || _); intros H; inversion H. auto. Qed.
Lemma exact_values_inv P ex x : exact_values P ex = Ok x -> forall i, v_at x i = exact_at ex P i.
Proof.
  destruct ex as [f|]; simpl; intros H i.
  - now apply function_evaluation_inv in H.
  - now inversion H.
Qed.
Lemma function_evaluation_array_inv n P f l : function_evaluation_array n P f = Ok l ->
  length l = n /\ forall d v, nth_error l d = Some v -> forall i, v_at v i = f (m_at P 0 i) (m_at P 1 i) (m_at P 2 i) d.
Proof.
  unfold function_evaluation_array. intros E.
  pose (I := fun k (l : list Vec) => length l = k /\ forall d v, nth_error l d = Some v -> forall i, v_at v i = f (m_at P 0 i) (m_at P 1 i) (m_at P 2 i) d).
  apply (for_loop_inv I _ _ E); unfold I.
  - split; auto. intros [|d]; discriminate.
  - intros k s s' Hk (L & H) Es. apply bind_Ok in Es. destruct Es as (v & Ev & Es). inversion Es; subst s'; clear Es.
    rewrite app_length. simpl. split; [lia|]. intros d v' Hd i.
    destruct (Nat.lt_ge_cases d (length s)) as [Hl|Hl].
    + rewrite nth_error_app1 in Hd by auto. eauto.
    + rewrite nth_error_app2 in Hd by auto. destruct (d - length s)%nat as [|z] eqn:Ez; [|destruct z; discriminate].
      simpl in Hd. inversion Hd; subst v'. assert (d = k) as -> by lia.
      now apply function_evaluation_inv in Ev.
Qed.

Definition points_list (n : nat) (w a b : nat -> R) : list (R * R * R) := map (fun q => (w q, a q, b q)) (seq 0 n).

Lemma points_sums n w a b :
  sum_error (points_list n w a b) = rsum n (fun q => w q * ((a q - b q) * (a q - b q))) /\
  sum_numeric (points_list n w a b) = rsum n (fun q => w q * (a q * a q)) /\
  sum_exact (points_list n w a b) = rsum n (fun q => w q * (b q * b q)).
Proof. unfold sum_error, sum_numeric, sum_exact, points_list. rewrite !lsum_map, !lsum_seq. auto. Qed.

Lemma in_points n w a b t : In t (points_list n w a b) <-> exists q, (q < n)%nat /\ t = (w q, a q, b q).
Proof.
  unfold points_list. rewrite in_map_iff. split.
  - intros (q & <- & Hq). apply in_seq in Hq. exists q. split; auto; lia.
  - intros (q & Hq & ->). exists q. split; auto. apply in_seq. lia.
Qed.

Lemma L2_reports m data create uD uS exact r :
  compute_error_L2 m data create uD uS exact = Ok r ->
  reports (L2_point m data create uD uS exact) (Cell2Ds_number (md_mesh m)) r.
Proof.
  unfold compute_error_L2. intros E. apply bind_Ok in E. destruct E as (s & E & Er). inversion Er; subst r; clear Er.
  apply (run_reports _ _ _ _ _ E).
  - intros c t Hf (_ & Ht & _). congruence.
  - intros c st st' Hc Ha Es. cbv beta in Es. apply bind_Ok in Es. destruct Es as (sp & Esp & Es).
    unfold error_L2_cell in Es. repeat (apply bind_Ok in Es; destruct Es as (? & ? & Es)).
    match goal with
    | H : ls_Values sp _ = Ok ?V, Hx : exact_values _ _ = Ok ?x, Hu : local_solution _ _ _ _ = Ok ?u, Hn : mmulv _ _ = Ok ?nn,
      Hd : vsub _ _ = Ok ?d, He : vdot _ (vsquare ?d) = Ok ?e2, H2 : vdot _ (vsquare ?nn) = Ok ?n2, H3 : vdot _ (vsquare ?x) = Ok ?x2 |- _ =>
      rename H into HV, Hx into HX, Hu into HU, Hn into HN, Hd into HD, He into HE, H2 into HN2, H3 into HX2;
      exists e2, n2, x2, (points_list (v_size (q_Weights (ls_InternalQuadrature sp))) (v_at (q_Weights (ls_InternalQuadrature sp)))
        (combine V (v_at u)) (exact_at exact (q_Points (ls_InternalQuadrature sp))))
    end.
    apply vdot_inv in HE, HN2, HX2. apply vsub_inv in HD. apply mmulv_inv in HN.
    destruct HE as (_ & ->). destruct HN2 as (_ & ->). destruct HX2 as (_ & ->). destruct HD as (_ & ->). destruct HN as (_ & _ & HN).
    pose proof (exact_values_inv _ _ _ HX) as HX'.
    match goal with |- context [points_list ?k ?w ?a ?b] => destruct (points_sums k w a b) as (-> & -> & ->) end.
    split; [exact Es|]. split; [|repeat split; apply rsum_ext; intros q _; simpl; rewrite ?HN, ?HX'; reflexivity].
    intros t. rewrite in_points. split.
    + intros (q & Hq & ->). split; auto. split; auto. do 3 eexists. exists q. repeat split; eauto.
    + intros (_ & _ & sp' & V' & u' & q & E1 & E2 & E3 & Hq & ->). rewrite Esp in E1. inversion E1; subst sp'.
      rewrite HV in E2. inversion E2; subst V'. rewrite HU in E3. inversion E3; subst u'. eauto.
Qed.

Lemma exact_gradient_inv P ex l : exact_gradient_values P ex = Ok l ->
  forall d v, nth_error l d = Some v -> forall i, v_at v i = exact_gradient_at ex P i d.
Proof.
  destruct ex as [f|]; simpl; intros H d v Hd i.
  - apply function_evaluation_array_inv in H. destruct H as (_ & H). eauto.
  - inversion H; subst l. destruct d as [|[|[|d]]]; simpl in Hd; try (inversion Hd; reflexivity). destruct d; discriminate.
Qed.

Lemma at_inv {A} (l : list A) i a : at_ l i = Ok a -> nth_error l i = Some a.
Proof. unfold at_. destruct (nth_error l i); intros H; inversion H; auto. Qed.

Lemma H1_reports m data create uD uS exact r :
  compute_error_H1 m data create uD uS exact = Ok r ->
  reports (H1_point m data create uD uS exact) (Cell2Ds_number (md_mesh m)) r.
Proof.
  unfold compute_error_H1. intros E. apply bind_Ok in E. destruct E as (s & E & Er). inversion Er; subst r; clear Er.
  apply (run_reports _ _ _ _ _ E).
  - intros c t Hf (_ & Ht & _). congruence.
  - intros c st st' Hc Ha Es. cbv beta in Es. apply bind_Ok in Es. destruct Es as (sp & Esp & Es).
    unfold error_H1_cell in Es.
    apply bind_Ok in Es. destruct Es as (D & HD & Es). apply bind_Ok in Es. destruct Es as (x & HX & Es).
    apply bind_Ok in Es. destruct Es as (u & HU & Es).
    apply bind_Ok in Es. destruct Es as (D0 & HD0 & Es). apply bind_Ok in Es. destruct Es as (n0 & HN0 & Es).
    apply bind_Ok in Es. destruct Es as (x0 & HX0 & Es). apply bind_Ok in Es. destruct Es as (d0 & Hd0 & Es).
    apply bind_Ok in Es. destruct Es as (D1 & HD1 & Es). apply bind_Ok in Es. destruct Es as (n1 & HN1 & Es).
    apply bind_Ok in Es. destruct Es as (x1 & HX1 & Es). apply bind_Ok in Es. destruct Es as (d1 & Hd1 & Es).
    apply bind_Ok in Es. destruct Es as (dd & Hdd & Es). apply bind_Ok in Es. destruct Es as (nn & Hnn & Es).
    apply bind_Ok in Es. destruct Es as (xx & Hxx & Es). apply bind_Ok in Es. destruct Es as (e2 & He2 & Es).
    apply bind_Ok in Es. destruct Es as (n2 & Hn2 & Es). apply bind_Ok in Es. destruct Es as (x2 & Hx2 & Es).
    apply at_inv in HD0, HX0, HD1, HX1.
    pose proof (exact_gradient_inv _ _ _ HX _ _ HX0) as G0. pose proof (exact_gradient_inv _ _ _ HX _ _ HX1) as G1.
    apply mmulv_inv in HN0, HN1. destruct HN0 as (_ & _ & HN0). destruct HN1 as (_ & _ & HN1).
    apply vsub_inv in Hd0, Hd1. destruct Hd0 as (_ & ->). destruct Hd1 as (_ & ->).
    apply vadd_inv in Hdd, Hnn, Hxx. destruct Hdd as (_ & ->). destruct Hnn as (_ & ->). destruct Hxx as (_ & ->).
    apply vdot_inv in He2, Hn2, Hx2. destruct He2 as (_ & ->). destruct Hn2 as (_ & ->). destruct Hx2 as (_ & ->).
    set (W := q_Weights (ls_InternalQuadrature sp)) in *. set (P := q_Points (ls_InternalQuadrature sp)) in *.
    set (l := fun d Dd => points_list (v_size W) (v_at W) (combine Dd (v_at u)) (fun q => exact_gradient_at exact P q d)).
    do 3 eexists. exists (l 0%nat D0 ++ l 1%nat D1). split; [exact Es|]. split.
    + intros t. rewrite in_app_iff. unfold l. rewrite !in_points. split.
      * intros [(q & Hq & ->)|(q & Hq & ->)]; (split; [auto|split; [auto|]]); exists sp, D, u, q; [exists 0%nat, D0|exists 1%nat, D1]; repeat split; auto.
      * intros (_ & _ & sp' & D' & u' & q & d & Dd & E1 & E2 & E3 & Hq & Hd & HDd & ->). rewrite Esp in E1. inversion E1; subst sp'.
        rewrite HD in E2. inversion E2; subst D'. rewrite HU in E3. inversion E3; subst u'.
        destruct d as [|[|d]]; [left|right|lia].
        -- rewrite HD0 in HDd. inversion HDd; subst Dd. eauto.
        -- rewrite HD1 in HDd. inversion HDd; subst Dd. eauto.
    + unfold sum_error, sum_numeric, sum_exact, l, points_list. rewrite !lsum_app, !lsum_map, !lsum_seq, <- !rsum_plus.
      repeat split; apply rsum_ext; intros q _; simpl; rewrite ?HN0, ?HN1, ?G0, ?G1; ring.
Qed.
