(** Proofs: the run of the driver of the heat equation. *)
From Coq Require Import List Arith Bool Reals Lra Lia.
From Verif Require Import Base RSum MatrixModel DofsModel DofsSpec DofsProofs DofsProofs2 AssemblerModel AssemblerSpec
  EquationModel EquationSpec VemQuadModel VemModel VemSpec DriverModel DriverSpec DriverSpec2 DriverProofs DriverProofs3 DriverProofs5
  DriverProofs6 Pcc2dProofs Mcc2dProofs3 ParabolicModel ParabolicSpec ParabolicProofs.
Import ListNotations.
Local Open Scope R_scope.

Lemma combine_lin A a b u v q : combine A (fun j => a * u j + b * v j) q = a * combine A u q + b * combine A v q.
Proof. unfold combine. rewrite <- !rsum_scal, <- rsum_plus. apply rsum_ext. intros; ring. Qed.
Lemma mass_lin E a b u v p : mass_form E (fun j => a * u j + b * v j) p = a * mass_form E u p + b * mass_form E v p.
Proof.
  unfold mass_form. rewrite combine_lin, !Rmult_plus_distr_l, <- !rsum_scal.
  rewrite (rsum_ext _ _ (fun q => a * (v_at (hc_weights E) q * (combine (hc_V E) u q * m_at (hc_V E) q p)) + b * (v_at (hc_weights E) q * (combine (hc_V E) v q * m_at (hc_V E) q p))))
    by (intros q Hq; rewrite combine_lin; ring). rewrite rsum_plus. ring.
Qed.
Lemma stiffness_lin E kappa k a b u v p : stiffness_form E kappa k (fun j => a * u j + b * v j) p = a * stiffness_form E kappa k u p + b * stiffness_form E kappa k v p.
Proof.
  unfold stiffness_form. rewrite combine_lin, !Rmult_plus_distr_l, <- !rsum_scal.
  rewrite (rsum_ext _ (fun q => v_at (hc_weights E) q * hc_at kappa E q * rsum 2 (fun d => combine (hc_D E d) (fun j => a * u j + b * v j) q * m_at (hc_D E d) q p))
    (fun q => a * (v_at (hc_weights E) q * hc_at kappa E q * rsum 2 (fun d => combine (hc_D E d) u q * m_at (hc_D E d) q p)) +
      b * (v_at (hc_weights E) q * hc_at kappa E q * rsum 2 (fun d => combine (hc_D E d) v q * m_at (hc_D E d) q p))))
    by (intros q Hq; rewrite !rsum2, !combine_lin; ring). rewrite rsum_plus. ring.
Qed.
Lemma mass_ext E u v p : (forall j, (j < m_cols (hc_V E))%nat -> u j = v j) -> (forall j, (j < m_cols (hc_SM E))%nat -> u j = v j) -> mass_form E u p = mass_form E v p.
Proof.
  intros H1 H2. unfold mass_form. f_equal; [apply rsum_ext; intros q Hq; do 2 f_equal|]; unfold combine; apply rsum_ext; intros j Hj; f_equal; auto.
Qed.
Lemma stiffness_ext E kappa k u v p : (forall d j, (d < 2)%nat -> (j < m_cols (hc_D E d))%nat -> u j = v j) -> (forall j, (j < m_cols (hc_SA E))%nat -> u j = v j) ->
  stiffness_form E kappa k u p = stiffness_form E kappa k v p.
Proof.
  intros H1 H2. unfold stiffness_form. f_equal; [apply rsum_ext; intros q Hq; f_equal; apply rsum_ext; intros d Hd; f_equal|f_equal]; unfold combine; apply rsum_ext; intros j Hj; f_equal; eauto.
Qed.
Lemma cells_row_lin info m data a b F G r : cells_row info m data (fun c p => a * F c p + b * G c p) r = a * cells_row info m data F r + b * cells_row info m data G r.
Proof.
  unfold cells_row. rewrite <- !rsum_scal, <- rsum_plus. apply rsum_ext. intros c Hc. unfold free_places. rewrite !lsum_seq, <- !rsum_scal, <- rsum_plus. apply rsum_ext. intros p Hp.
  destruct (nth_error _ p); [destruct (free_is _ _ _)|]; ring.
Qed.

Section Run.
Variables (m : Mesh2D) (info : MeshDOFsInfo) (data : DOFsData).
Local Notation mesh := (md_mesh m).
Local Notation nc := (Cell2Ds_number (md_mesh m)).
Local Notation size c := (length (closure_dofs info (md_mesh m) 2 c)).
Local Notation N := (NumberDOFs data).
Local Notation NS := (NumberStrongs data).
Hypothesis HC : CreateDOFs 2 info mesh = Ok data.
Hypothesis HN : nc = num_cells info 2.
Hypothesis HN0 : Cell0Ds_number mesh = num_cells info 0.
Variables (create : nat -> outcome ParabolicSpace) (E : nat -> HeatCell).
Hypothesis HE : forall c, (c < nc)%nat -> heat_cell create c (size c) (E c).
Variables (geometry : nat -> Polygon) (gauss : QuadratureData) (B : nat -> Mat).
Hypothesis HW : forall c, (c < nc)%nat -> weak_cell info info mesh (spaces create) gauss (geometry c) c (ps_space (hc_space (E c))) (B c).
Hypothesis HQ : m_cols (q_Points gauss) = v_size (q_Weights gauss).
Variable pt : nat -> nat -> nat -> R.
Hypothesis HV : forall c v, (c < nc)%nat -> In v (Cell2D_vertices mesh c) -> (requested info 0 v <= 1)%nat.
Hypothesis HP : edge_points_agree m info (spaces create) (fun _ => true) (fun _ => True) pt.
Variables (solver : LUSolver) (order : nat) (pb : Problem) (dt theta : R) (kk : nat -> R).
Hypothesis HS : exact_solver solver.
Hypothesis HK : forall c, (c < nc)%nat -> greatest_value (E c) (pb_diffusion pb) (kk c).
Hypothesis HR : regular_step m data create (pb_diffusion pb) (dt * theta).
Variables (u0 uD0 : list R).
Hypothesis HI : ComputeInitalCondition m data order create (pb_initial pb) = Ok (u0, uD0).
Hypothesis L0 : length u0 = N.
Hypothesis LD0 : length uD0 = NS.

Lemma spaces_ok c : (c < nc)%nat -> spaces create c = Ok (ps_space (hc_space (E c))).
Proof using HE. intros Hc. unfold spaces. rewrite (he_create _ _ _ _ (HE c Hc)). reflexivity. Qed.

Lemma post_ok A rhs u uD exact gradient : length u = N -> length uD = NS ->
  exists d, PostProcessSolution m data create A rhs u uD exact gradient = Ok d /\ sd_solution d = u /\ sd_dirichlet d = uD /\ sd_residual d = residual_norm N A u rhs /\
    reports m data create exact gradient d.
Proof using HC HN HN0 HE.
  intros Lu LD. destruct (extract_ok (all_active m) info data u uD (Some exact) HC HN0 Lu LD) as (un & ue & Ev & _).
  assert (EC : forall c, (c < nc)%nat -> exists v, error_cell (spaces create) data u uD c (ps_space (hc_space (E c))) v /\ v_size v = size c).
  { intros c Hc. destruct (local_solution_ok m info data HC HN c u uD Hc Lu LD) as (v & Ev' & Sv & _). exists v. split; [|exact Sv]. destruct (HE c Hc) as [_ (P1 & P2 & P3) _ _ _ _ _].
    split; [apply spaces_ok; exact Hc|]. split; [exact Ev'|]. split; assumption. }
  destruct (L2_total (all_active m) data (spaces create) u uD exact) as (eL & EL).
  { intros c Hc _. destruct (EC c Hc) as (v & Hv & Sv). destruct (HE c Hc) as [_ _ _ (V1 & V2 & V3) _ _ _]. exists (ps_space (hc_space (E c))), v, (hc_V0 (E c)). rewrite Sv. auto. }
  destruct (H1_total (all_active m) data (spaces create) u uD gradient) as (eH & EH).
  { intros c Hc _. destruct (EC c Hc) as (v & Hv & Sv). destruct (HE c Hc) as [_ _ _ _ (D1 & D2) _ _]. exists (ps_space (hc_space (E c))), v, (hc_D (E c) 0), (hc_D (E c) 1). rewrite Sv.
    destruct (D2 0%nat Nat.lt_0_2). destruct (D2 1%nat (le_n 2)). auto 10. }
  unfold PostProcessSolution. rewrite Ev. cbn [bind]. rewrite EL. cbn [bind]. rewrite EH. cbn [bind]. eexists. split; [reflexivity|]. cbn [sd_solution sd_dirichlet sd_residual].
  split; [reflexivity|]. split; [reflexivity|]. split; [reflexivity|]. unfold reports. cbn. auto.
Qed.

Definition load_at (t : R) (r : nat) : R := load_row info m data geometry gauss E B (fun x y z => pb_source pb x y z t) (fun i x y z => pb_weak pb i x y z t) r.

Lemma step_ok A M t f u uD out d : StaticAssemble m data create (pb_diffusion pb) = Ok (A, M) ->
  length u = N -> length uD = NS -> sd_solution d = u -> sd_dirichlet d = uD -> forall t', (forall r, nth r f 0 = load_at t r) ->
  exists u' uD' f' d', time_step solver m info data geometry gauss create pb dt theta A M t' (u, uD, f, out) = Ok (u', uD', f', out ++ [d']) /\
    sd_solution d' = u' /\ sd_dirichlet d' = uD' /\ (forall r, nth r f' 0 = load_at t' r) /\ sd_residual d' = 0 /\
    reports m data create (fun x y z => pb_exact pb x y z t') (fun x y z k => pb_gradient pb x y z t' k) d' /\
    theta_step info m data E (pb_diffusion pb) kk dt theta (load_at t) (load_at t') d d' /\
    assemble_strong_solution (all_active m) info data 2 (spaces create) (fun i x y z => pb_strong pb i x y z t') = Ok uD'.
Proof using HC HN HN0 HE HW HQ HV HP HS HK HR.
  intros ES Lu LD <- <- t' Hf. set (u := sd_solution d) in *. set (uD := sd_dirichlet d) in *.
  destruct (data_ok m info data HC HN create E HE geometry gauss B HW HQ pt HV HP (fun x y z => pb_source pb x y z t') (fun i x y z => pb_strong pb i x y z t') (fun i x y z => pb_weak pb i x y z t'))
    as (f' & uD' & EF & LF & LD' & Vf & EU).
  set (K := scaled_sum (dt * theta) (trip_DOFs A) (trip_DOFs M)). set (rhs := step_rhs N NS dt theta A M f f' u uD uD').
  set (u' := if (0 <? N)%nat then solver N K rhs else repeat 0 N).
  assert (Lr : length rhs = N) by (unfold rhs, step_rhs; rewrite map_length, seq_length; reflexivity).
  destruct (HS N K rhs Lr) as (S1 & S2). { intros x Hx. apply (HR A M ES). exact Hx. }
  assert (Lu' : length u' = N) by (unfold u'; destruct (0 <? N)%nat; [exact S1|apply repeat_length]).
  assert (Su : forall r, (r < N)%nat -> rsum N (fun j => K r j * nth j u' 0) = nth r rhs 0).
  { intros r Hr. unfold u'. destruct (Nat.ltb_spec 0 N) as [_|Hz]; [apply S2; exact Hr|apply Nat.le_0_r in Hz; rewrite Hz in Hr; inversion Hr]. }
  destruct (post_ok K rhs u' uD' (fun x y z => pb_exact pb x y z t') (fun x y z k => pb_gradient pb x y z t' k) Lu' LD') as (d' & Ed & D1 & D2 & D3 & D4).
  exists u', uD', f', d'. split; [|split; [exact D1|split; [exact D2|split; [exact Vf|split; [|split; [exact D4|split; [|exact EU]]]]]]].
  - unfold time_step. rewrite EF. cbn [bind fst snd]. fold rhs. fold K. fold u'. rewrite Ed. reflexivity.
  - rewrite D3. unfold residual_norm. destruct (Nat.ltb_spec 0 N); [|reflexivity]. rewrite rsum_0; [apply sqrt_0|].
    intros r Hr. unfold times_vector. rewrite Su by exact Hr. ring.
  - destruct (static_ok m info data HC HN create E HE (pb_diffusion pb) kk HK) as (A' & M' & EA & (_ & _ & RA) & (_ & _ & RM)). rewrite ES in EA. injection EA as <- <-.
    destruct (local_exist m info data HC HN u uD Lu LD) as (ul & _ & HL). destruct (local_exist m info data HC HN u' uD' Lu' LD') as (ul' & _ & HL').
    exists (fun c => v_at (ul c)), (fun c => v_at (ul' c)). rewrite D1, D2. split; [exact HL|]. split; [exact HL'|]. intros r Hr.
    pose proof (RA u uD _ Lu LD HL r) as A1. pose proof (RA u' uD' _ Lu' LD' HL' r) as A2. pose proof (RM u uD _ Lu LD HL r) as M1. pose proof (RM u' uD' _ Lu' LD' HL' r) as M2.
    rewrite (cells_row_ext _ _ _ (fun c => mass_form (E c) (fun j => v_at (ul' c) j - v_at (ul c) j)) (fun c p => 1 * mass_form (E c) (v_at (ul' c)) p + (-1) * mass_form (E c) (v_at (ul c)) p)).
    2:{ intros c p Hc. rewrite <- mass_lin. apply mass_ext; intros; ring. }
    rewrite (cells_row_ext _ _ _ (fun c => stiffness_form (E c) (pb_diffusion pb) (kk c) (fun j => theta * v_at (ul' c) j + (1 - theta) * v_at (ul c) j)) (fun c p => theta * stiffness_form (E c) (pb_diffusion pb) (kk c) (v_at (ul' c)) p + (1 - theta) * stiffness_form (E c) (pb_diffusion pb) (kk c) (v_at (ul c)) p)).
    2:{ intros c p Hc. rewrite <- stiffness_lin. reflexivity. }
    rewrite (cells_row_lin info m data 1 (-1) (fun c => mass_form (E c) (v_at (ul' c))) (fun c => mass_form (E c) (v_at (ul c)))).
    rewrite (cells_row_lin info m data theta (1 - theta) (fun c => stiffness_form (E c) (pb_diffusion pb) (kk c) (v_at (ul' c))) (fun c => stiffness_form (E c) (pb_diffusion pb) (kk c) (v_at (ul c)))).
    rewrite <- A1, <- A2, <- M1, <- M2. clear A1 A2 M1 M2.
    pose proof (Su r Hr) as S3. unfold rhs, step_rhs in S3. rewrite nth_map_seq in S3 by exact Hr. rewrite Hf, Vf in S3. unfold K, times_vector, scaled_sum in S3.
    unfold operator_row. rewrite Lu, LD, Lu', LD'.
    assert (SP : forall n (a : R) (X Y : nat -> R) (v : nat -> R), rsum n (fun j => (a * X j + Y j) * v j) = a * rsum n (fun j => X j * v j) + rsum n (fun j => Y j * v j)).
    { intros n a X Y v. rewrite <- rsum_scal, <- rsum_plus. apply rsum_ext. intros; ring. }
    rewrite !(SP _ _ (fun j => entry (trip_DOFs A) r j) (fun j => entry (trip_DOFs M) r j)) in S3. rewrite !(SP _ _ (fun j => entry (trip_Strongs A) r j) (fun j => entry (trip_Strongs M) r j)) in S3.
    fold (load_at t' r) in S3. lra.
Qed.

Lemma run_ok t0 ts : exists ds, run solver m info data geometry gauss order create pb dt theta (t0 :: ts) = Ok ds /\ length ds = length (t0 :: ts) /\
  (exists d0, nth_error ds 0 = Some d0 /\ sd_solution d0 = u0 /\ sd_dirichlet d0 = uD0) /\
  (forall i t d, nth_error (t0 :: ts) i = Some t -> nth_error ds i = Some d -> reports m data create (fun x y z => pb_exact pb x y z t) (fun x y z k => pb_gradient pb x y z t k) d) /\
  forall i t t' d d', nth_error (t0 :: ts) i = Some t -> nth_error (t0 :: ts) (S i) = Some t' -> nth_error ds i = Some d -> nth_error ds (S i) = Some d' ->
    theta_step info m data E (pb_diffusion pb) kk dt theta (load_at t) (load_at t') d d' /\ sd_residual d' = 0 /\
    assemble_strong_solution (all_active m) info data 2 (spaces create) (fun i x y z => pb_strong pb i x y z t') = Ok (sd_dirichlet d').
Proof using HC HN HN0 HE HW HQ HV HP HS HK HR HI L0 LD0.
  set (times := t0 :: ts).
  destruct (static_ok m info data HC HN create E HE (pb_diffusion pb) kk HK) as (A & M & EA & _ & _).
  destruct (data_ok m info data HC HN create E HE geometry gauss B HW HQ pt HV HP (fun x y z => pb_source pb x y z t0) (fun i x y z => pb_strong pb i x y z t0) (fun i x y z => pb_weak pb i x y z t0))
    as (f0 & g0 & EF & _ & _ & Vf & _).
  destruct (post_ok (entry (trip_DOFs A)) f0 u0 uD0 (fun x y z => pb_exact pb x y z t0) (fun x y z k => pb_gradient pb x y z t0 k) L0 LD0) as (d0 & Ed & D1 & D2 & _ & D4).
  set (P := fun n (ds : list StepData) => length ds = n /\ nth_error ds 0 = Some d0 /\
    (forall i t d, nth_error times i = Some t -> nth_error ds i = Some d -> reports m data create (fun x y z => pb_exact pb x y z t) (fun x y z k => pb_gradient pb x y z t k) d) /\
    forall i t t' d d', nth_error times i = Some t -> nth_error times (S i) = Some t' -> nth_error ds i = Some d -> nth_error ds (S i) = Some d' ->
      theta_step info m data E (pb_diffusion pb) kk dt theta (load_at t) (load_at t') d d' /\ sd_residual d' = 0 /\
      assemble_strong_solution (all_active m) info data 2 (spaces create) (fun i x y z => pb_strong pb i x y z t') = Ok (sd_dirichlet d')).
  set (J := fun n (s : list R * list R * list R * list StepData) => let '(u, uD, f, out) := s in P n out /\
    exists d t, nth_error out (n - 1) = Some d /\ nth_error times (n - 1) = Some t /\ sd_solution d = u /\ sd_dirichlet d = uD /\ length u = N /\ length uD = NS /\ forall r, nth r f 0 = load_at t r).
  destruct (@for_from_total _ J (fun i s => t <- at_ times i ;; time_step solver m info data geometry gauss create pb dt theta A M t s) (length times - 1) 1 (u0, uD0, f0, [d0])) as ((((u & uD) & f) & out) & El & HJ).
  - unfold J, P. split.
    + split; [reflexivity|]. split; [reflexivity|]. split.
      * intros [|i] t d Ht Hd; [|destruct i; discriminate]. injection Ht as <-. injection Hd as <-. exact D4.
      * intros i t t' d d' _ _ _ Hd. destruct i; discriminate.
    + exists d0, t0. repeat split; auto.
  - intros i (((u & uD) & f) & out) Hi ((P1 & P2 & P3 & P4) & (d & t & Hd & Ht & Su & SD & Lu & LD & Hf)).
    destruct (nth_error times i) as [t'|] eqn:Et; [|apply nth_error_None in Et; lia]. unfold at_. rewrite Et. cbn [bind].
    destruct (step_ok A M t f u uD out d EA Lu LD Su SD t' Hf) as (u' & uD' & f' & d' & ET & U1 & U2 & U3 & U4 & U5 & U6 & U7). rewrite ET.
    eexists. split; [reflexivity|]. unfold J, P. split.
    + split; [rewrite app_length; simpl; lia|]. split; [rewrite nth_error_app1 by lia; exact P2|]. split.
      * intros j s e Hs He. destruct (Nat.lt_ge_cases j i) as [Hj|Hj].
        -- rewrite nth_error_app1 in He by lia. apply (P3 j s e Hs He).
        -- assert (j = i) as -> by (assert (HH : nth_error (out ++ [d']) j <> None) by congruence; apply nth_error_Some in HH; rewrite app_length in HH; simpl in HH; lia).
           rewrite nth_error_app2 in He by lia. replace (i - length out)%nat with 0%nat in He by lia. injection He as <-. rewrite Et in Hs. injection Hs as <-. exact U5.
      * intros j s s' e e' Hs Hs' He He'. destruct (Nat.lt_ge_cases (S j) i) as [Hj|Hj].
        -- rewrite nth_error_app1 in He, He' by lia. apply (P4 j s s' e e' Hs Hs' He He').
        -- assert (S j = i) as <- by (assert (HH : nth_error (out ++ [d']) (S j) <> None) by congruence; apply nth_error_Some in HH; rewrite app_length in HH; simpl in HH; lia).
           rewrite nth_error_app1 in He by lia. rewrite nth_error_app2 in He' by lia. replace (S j - length out)%nat with 0%nat in He' by lia. injection He' as <-.
           replace (S j - 1)%nat with j in Hd, Ht by lia. rewrite He in Hd. injection Hd as <-. rewrite Hs in Ht. injection Ht as <-. rewrite Et in Hs'. injection Hs' as <-.
           rewrite U2. auto.
    + exists d', t'. replace (S i - 1)%nat with i by lia. split; [rewrite nth_error_app2 by lia; replace (i - length out)%nat with 0%nat by lia; reflexivity|]. split; [exact Et|].
      split; [exact U1|]. split; [exact U2|]. destruct U5 as (X & Y & _). rewrite U1 in X. rewrite U2 in Y. auto.
  - replace (1 + (length times - 1))%nat with (length times) in HJ by (unfold times; simpl; lia). destruct HJ as ((P1 & P2 & P3 & P4) & _).
    exists out. split; [|split; [exact P1|split; [exists d0; auto|split; [exact P3|exact P4]]]].
    unfold run. rewrite EA. cbn [bind fst snd]. rewrite HI. cbn [bind fst snd]. unfold idx_, times at 1. cbn [nth_error bind]. rewrite EF. cbn [bind fst snd]. rewrite Ed. cbn [bind]. rewrite El. reflexivity.
Qed.
End Run.
