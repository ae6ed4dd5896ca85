(** The assembled elliptic operator and source term. *)
From Coq Require Import List Arith Bool Reals Lra Lia.
From Verif Require Import Base RSum MatrixModel DofsModel DofsSpec DofsProofs DofsProofs2 AssemblerModel AssemblerSpec AssemblerProofs AssemblerProofs2
  EquationModel EquationSpec EquationProofs VemQuadModel VemModel VemSpec DriverModel DriverSpec DriverSpec2 DriverProofs DriverProofs2 DriverProofs3 DriverProofs4.
Import ListNotations.
Local Open Scope R_scope.

Lemma for_filter {S} (act : nat -> bool) (G : nat -> S -> outcome S) n : forall a s,
  for_from a n (fun c s => if negb (act c) then Ok s else G c s) s = foldM (fun s c => G c s) (filter act (seq a n)) s.
Proof.
  induction n as [|n IH]; intros a s; simpl; [reflexivity|]. destruct (act a); simpl.
  - destruct (G a s); simpl; auto.
  - apply IH.
Qed.
Lemma foldM_ext_in {A S} (f g : S -> A -> outcome S) l : (forall a s, In a l -> f s a = g s a) -> forall s, foldM f l s = foldM g l s.
Proof.
  induction l as [|a l IH]; intros H s; simpl; [reflexivity|]. rewrite (H a s) by (left; auto). destruct (g s a); simpl; auto.
  apply IH. intros b t Hb. apply H. right. auto.
Qed.
Lemma foldM_map {A B S} (f : S -> B -> outcome S) (h : A -> B) l : forall s, foldM f (map h l) s = foldM (fun s a => f s (h a)) l s.
Proof. induction l as [|a l IH]; intros s; simpl; [reflexivity|]. destruct (f s (h a)); simpl; auto. Qed.

Lemma single_packed m info data c : CreateDOFs 2 info (md_mesh m) = Ok data -> Cell2Ds_number (md_mesh m) = num_cells info 2 -> (c < Cell2Ds_number (md_mesh m))%nat ->
  packed 2 c (single_handler data)
     {| num_total_boundary_dofs := NumberBoundaryDOFs data; num_total_dofs := NumberDOFs data; num_total_strong := NumberStrongs data;
        offsets_DOFs := [0%nat]; offsets_Strongs := [0%nat] |}
     {| l_num_total_dofs := length (closure_dofs info (md_mesh m) 2 c); l_offsets_DOFs := [0%nat] |} /\
  nth_error (CellsGlobalDOFs data 2) c = Some (closure_dofs info (md_mesh m) 2 c).
Proof.
  intros HC HN Hc. destruct (C05_closure 2 info (md_mesh m) data 2 c) as (G & HL); auto; try lia. split; [|exact G].
  constructor; simpl; auto.
  - repeat constructor. exists info, (md_mesh m). auto.
  - unfold local_count_dofs, idx_. simpl. unfold at_. rewrite G. reflexivity.
Qed.

Lemma single_slots data c gl : nth_error (CellsGlobalDOFs data 2) c = Some gl -> slots 2 c [data] = map (pair 0%nat) (seq 0 (length gl)).
Proof. intros G. unfold slots. simpl. rewrite (local_size_at 2 c data gl) by auto. apply app_nil_r. Qed.

Lemma single_free m info data c r (F : nat -> R) : CreateDOFs 2 info (md_mesh m) = Ok data -> Cell2Ds_number (md_mesh m) = num_cells info 2 ->
  (c < Cell2Ds_number (md_mesh m))%nat ->
  lsum (fun p => if numbered (free_number 2 c (single_handler data) p) r then F (slot_pos (single_handler data) p) else 0) (slots 2 c [data]) =
  free_places info (md_mesh m) data c r F.
Proof.
  intros HC HN Hc. destruct (single_packed m info data c HC HN Hc) as (_ & G). rewrite (single_slots data c _ G), lsum_map.
  unfold free_places. apply lsum_ext. intros p Hp. unfold free_number, slot_dof, slot_pos. simpl. rewrite G.
  destruct (nth_error (closure_dofs info (md_mesh m) 2 c) p) as [h|]; [|reflexivity].
  unfold free_is. destruct (lookup data h) as [x|]; [|reflexivity]. unfold is_type. destruct (dof_type x); simpl; try reflexivity.
  rewrite !Nat.add_0_r. reflexivity.
Qed.

(** ** The local matrix *)
Lemma fold_max_ge (f : nat -> R) l : forall a, a <= fold_left (fun a i => Rmax a (Rabs (f i))) l a.
Proof. induction l as [|i l IH]; intros a; simpl; [lra|]. eapply Rle_trans; [apply (Rmax_l a (Rabs (f i)))|apply IH]. Qed.
Lemma fold_max_in (f : nat -> R) l i : In i l -> forall a, Rabs (f i) <= fold_left (fun a i => Rmax a (Rabs (f i))) l a.
Proof.
  induction l as [|j l IH]; intros Hi a; [destruct Hi|]. simpl. destruct Hi as [->|Hi]; [|apply IH; auto].
  eapply Rle_trans; [apply (Rmax_r a (Rabs (f i)))|apply fold_max_ge].
Qed.
Lemma fold_max_attained (f : nat -> R) l : forall a, fold_left (fun a i => Rmax a (Rabs (f i))) l a = a \/ exists i, In i l /\
  fold_left (fun a i => Rmax a (Rabs (f i))) l a = Rabs (f i).
Proof.
  induction l as [|j l IH]; intros a; simpl; [auto|]. destruct (IH (Rmax a (Rabs (f j)))) as [E|(i & Hi & E)].
  - destruct (Rle_dec a (Rabs (f j))).
    + right. exists j. split; [auto|]. rewrite E. apply Rmax_right. auto.
    + left. rewrite E. apply Rmax_left. lra.
  - right. exists i. auto.
Qed.
Lemma max_abs_ok v : (0 < v_size v)%nat -> exists k, max_abs v = Ok k /\ (forall i, (i < v_size v)%nat -> Rabs (v_at v i) <= k) /\
  exists i, (i < v_size v)%nat /\ k = Rabs (v_at v i).
Proof.
  intros H. unfold max_abs. destruct (Nat.eqb_spec (v_size v) 0) as [E|_]; [lia|]. eexists. split; [reflexivity|]. split.
  - intros i Hi. destruct i as [|i]; [apply fold_max_ge|]. apply fold_max_in. apply in_seq. lia.
  - destruct (fold_max_attained (v_at v) (seq 1 (v_size v - 1)) (Rabs (v_at v 0%nat))) as [E|(i & Hi & E)].
    + exists 0%nat. split; auto.
    + exists i. split; [apply in_seq in Hi; lia|auto].
Qed.
Lemma k_max_ok nq K : (0 < nq)%nat -> Forall (sized nq) K -> K <> [] -> exists k, k_max K = Ok k /\
  (forall d q, (d < length K)%nat -> (q < nq)%nat -> Rabs (vcomp K d q) <= k) /\ exists d q, (d < length K)%nat /\ (q < nq)%nat /\ k = Rabs (vcomp K d q).
Proof.
  intros Hn HK Hne. unfold k_max.
  assert (H : forall k0, 0 <= k0 -> exists k, foldM (fun k v => b <- max_abs v ;; Ok (if Rlt_dec k b then b else k)) K k0 = Ok k /\ k0 <= k /\
    (forall d q, (d < length K)%nat -> (q < nq)%nat -> Rabs (vcomp K d q) <= k) /\
    ((k = k0) \/ exists d q, (d < length K)%nat /\ (q < nq)%nat /\ k = Rabs (vcomp K d q))).
  { clear Hne. induction HK as [|v K Hv HK IH]; intros k0 H0.
    - exists k0. simpl. split; [reflexivity|]. split; [lra|]. split; [intros; lia|auto].
    - unfold sized in Hv. destruct (max_abs_ok v) as (b & Eb & Ub & (i & Hi & Ab)); [lia|]. simpl. rewrite Eb. cbn [bind].
      assert (Hb : 0 <= b) by (rewrite Ab; apply Rabs_pos).
      set (k1 := if Rlt_dec k0 b then b else k0). assert (Hk1 : k0 <= k1 /\ b <= k1 /\ (k1 = k0 \/ k1 = b)) by (unfold k1; destruct (Rlt_dec k0 b); repeat split; auto; lra).
      destruct Hk1 as (L0 & Lb & Ek). destruct (IH k1) as (k & E & L & U & A); [lra|]. exists k. split; [exact E|]. split; [lra|]. split.
      + intros d q Hd Hq. destruct d as [|d]; [|apply U; lia]. unfold vcomp. simpl. apply Rle_trans with b; [apply Ub; lia|lra].
      + destruct A as [A|(d & q & Hd & Hq & A)].
        * destruct Ek as [Ek|Ek]; [left; lra|]. right. exists 0%nat, i. split; [lia|]. split; [lia|]. rewrite A, Ek. exact Ab.
        * right. exists (S d), q. split; [lia|]. auto. }
  destruct (H 0) as (k & E & L & U & A); [lra|]. exists k. split; [exact E|]. split; [exact U|]. destruct A as [A|A]; [|exact A].
  destruct K as [|v K]; [congruence|]. exists 0%nat, 0%nat. split; [simpl; lia|]. split; [lia|]. specialize (U 0%nat 0%nat).
  assert (Rabs (vcomp (v :: K) 0 0) <= k) by (apply U; simpl; lia). pose proof (Rabs_pos (vcomp (v :: K) 0 0)). lra.
Qed.

Lemma function_evaluation_array_ok n P f : (m_cols P = 0 \/ 3 <= m_rows P)%nat -> exists l, function_evaluation_array n P f = Ok l /\ length l = n /\
  Forall (sized (m_cols P)) l /\ forall d q, (d < n)%nat -> vcomp l d q = f (m_at P 0%nat q) (m_at P 1%nat q) (m_at P 2%nat q) d.
Proof.
  intros HP. unfold function_evaluation_array.
  destruct (@for_loop_total _ (fun i l => length l = i /\ Forall (sized (m_cols P)) l /\
     forall d q, (d < i)%nat -> vcomp l d q = f (m_at P 0%nat q) (m_at P 1%nat q) (m_at P 2%nat q) d)
    (fun d l => v <- function_evaluation P (fun x y z => f x y z d) ;; Ok (l ++ [v])) n []) as (l & E & L & F & V).
  - split; [reflexivity|]. split; [constructor|]. intros; lia.
  - intros i l _ (L & F & V). rewrite function_evaluation_ok by auto. cbn [bind]. eexists. split; [reflexivity|]. split; [rewrite app_length, L; simpl; lia|].
    split; [apply Forall_app; split; [auto|repeat constructor]|]. intros d q Hd. unfold vcomp. destruct (Nat.eq_dec d i) as [->|N].
    + rewrite app_nth2 by lia. rewrite L, Nat.sub_diag. reflexivity.
    + rewrite app_nth1 by lia. apply V. lia.
  - simpl in *. exists l. auto.
Qed.

Lemma shaped_pair nq n (D : nat -> Mat) : (forall d, (d < 2)%nat -> shaped nq n (D d)) -> Forall (shaped nq n) [D 0%nat; D 1%nat].
Proof. intros H. constructor; [apply H; lia|]. constructor; [apply H; lia|]. constructor. Qed.
Lemma comp_pair (D : nat -> Mat) d q i : (d < 2)%nat -> comp [D 0%nat; D 1%nat] d q i = m_at (D d) q i.
Proof. intros H. destruct d as [|[|d]]; [reflexivity|reflexivity|lia]. Qed.

Lemma rsum2 f : rsum 2 f = f 0%nat + f 1%nat.
Proof. simpl. ring. Qed.
(** coefficient of unknown j in the form tested on p *)
Definition elliptic_entry (E : CellForms) (diffusion advection : option (R -> R -> R -> nat -> R)) (reaction : option (R -> R -> R -> R))
  (k : R) (p j : nat) : R :=
  rsum (v_size (cf_weights E)) (fun q => v_at (cf_weights E) q *
    (match diffusion with None => 0 | Some K => rsum 2 (fun i => rsum 2 (fun j' => at_q K E q (i + 3 * j')%nat * m_at (cf_dU E j') q j) * m_at (cf_dV E i) q p) end
   + match advection with None => 0 | Some b => rsum 2 (fun i => at_q b E q i * m_at (cf_dU E i) q j) * m_at (cf_V E) q p end
   + match reaction with None => 0 | Some c => at_q c E q * m_at (cf_U E) q j * m_at (cf_V E) q p end))
  + match diffusion with
    | Some _ => if (ls_Size (cf_test E) =? ls_Size (cf_trial E))%nat then k * m_at (cf_S E) p j else 0
    | None => 0 end.

Lemma elliptic_cell_ok ct cs c n n' E dif adv rea k : cell_forms ct cs c n n' E -> (forall K, dif = Some K -> greatest_diffusion E K k) ->
  exists A, elliptic_cell (cf_trial E) (cf_test E) dif adv rea = Ok A /\ is_mat A n' n (elliptic_entry E dif adv rea k).
Proof.
  intros HE Hk. destruct HE as [E1 E2 E3 E4 (P1 & P2 & P3) (U1 & U2) (dU1 & dU2) (V1 & V2) (dV1 & dV2) (S1 & S2)].
  set (nq := v_size (cf_weights E)) in *.
  unfold elliptic_cell. rewrite U1. cbn [bind]. rewrite dU1. cbn [bind]. fold (cf_points E). rewrite V1. cbn [bind]. rewrite dV1. cbn [bind].
  fold (cf_weights E). rewrite E3, E4.
  assert (HP : (m_cols (cf_points E) = 0 \/ 3 <= m_rows (cf_points E))%nat) by auto.
  (* diffusion *)
  match goal with |- exists A, bind ?X _ = _ /\ _ => assert (HD : exists A, X = Ok A /\ is_mat A n' n (fun p j =>
     rsum nq (fun q => v_at (cf_weights E) q * match dif with None => 0 | Some K => rsum 2 (fun i => rsum 2 (fun j' => at_q K E q (i + 3 * j')%nat * m_at (cf_dU E j') q j) * m_at (cf_dV E i) q p) end)
     + match dif with Some _ => if (n' =? n)%nat then k * m_at (cf_S E) p j else 0 | None => 0 end)) end.
  { destruct dif as [K|].
    - destruct (function_evaluation_array_ok 9 (cf_points E) K HP) as (l & El & Ll & Fl & Vl). rewrite El. cbn [bind]. rewrite P1 in Fl. fold nq in Fl.
      destruct (C21_tensor l [cf_dU E 0; cf_dU E 1] [cf_dV E 0; cf_dV E 1] (cf_weights E) nq n' n) as (B & EB & (B1 & B2 & B3)); auto; try discriminate; try (apply shaped_pair; auto; fail); try reflexivity; try (simpl; lia).
      rewrite EB. cbn [bind]. unfold madd at 1. cbn [m_rows m_cols mzero]. rewrite B1, B2, !Nat.eqb_refl. cbn [andb bind m_at mzero].
      assert (Hent : forall p j, m_at B p j = rsum nq (fun q => v_at (cf_weights E) q * rsum 2 (fun i => rsum 2 (fun j' => at_q K E q (i + 3 * j')%nat * m_at (cf_dU E j') q j) * m_at (cf_dV E i) q p))).
      { intros p j. rewrite B3. apply rsum_ext. intros q Hq. apply Rmult_eq_compat_l. simpl length. apply rsum_ext. intros d1 Hd1. rewrite <- rsum_scal_r.
        apply rsum_ext. intros d2 Hd2. rewrite !comp_pair by auto. rewrite Vl by lia. unfold at_q. ring. }
      destruct (Nat.eqb_spec n' n) as [En|En].
      + destruct (k_max_ok nq l P3 Fl) as (k' & Ek & Uk & (d0 & q0 & Hd0 & Hq0 & Ak)); [intros Z; rewrite Z in Ll; discriminate|].
        rewrite Ek. cbn [bind]. rewrite S1. cbn [bind]. destruct S2 as (SR & SC).
        assert (k' = k) as ->.
        { destruct (Hk K eq_refl) as (Uk' & (d1 & q1 & Hd1 & Hq1 & Ak')). rewrite Ll in *. apply Rle_antisym.
          - rewrite Ak, Vl by auto. apply Uk'; auto.
          - rewrite Ak'. specialize (Uk d1 q1 Hd1 Hq1). rewrite Vl in Uk by auto. exact Uk. }
        unfold madd. cbn [m_rows m_cols mscal]. rewrite SR, SC, En, !Nat.eqb_refl. cbn [andb bind]. eexists. split; [reflexivity|].
        split; [reflexivity|]. split; [reflexivity|]. intros p j. cbn [m_at mscal]. rewrite Hent. ring.
      + eexists. split; [reflexivity|]. split; [reflexivity|]. split; [reflexivity|]. intros p j. cbn [m_at]. rewrite Hent. ring.
    - eexists. split; [reflexivity|]. split; [reflexivity|]. split; [reflexivity|]. intros p j. simpl. rewrite rsum_0 by (intros; ring). ring. }
  destruct HD as (A & EA & (A1 & A2 & A3)). rewrite EA. cbn [bind].
  (* advection *)
  match goal with |- exists A', bind ?X _ = _ /\ _ => assert (HD : exists A', X = Ok A' /\ is_mat A' n' n (fun p j => m_at A p j +
     rsum nq (fun q => v_at (cf_weights E) q * match adv with None => 0 | Some b => rsum 2 (fun i => at_q b E q i * m_at (cf_dU E i) q j) * m_at (cf_V E) q p end))) end.
  { destruct adv as [b|].
    - destruct (function_evaluation_array_ok 3 (cf_points E) b HP) as (l & El & Ll & Fl & Vl). rewrite El. cbn [bind]. rewrite P1 in Fl. fold nq in Fl.
      destruct (C21_advection l (cf_V E) [cf_dU E 0; cf_dU E 1] (cf_weights E) nq n' n) as (B & EB & (B1 & B2 & B3)); auto; try discriminate; try (apply shaped_pair; auto; fail); try reflexivity; try (simpl; lia).
      rewrite EB. cbn [bind]. unfold madd. rewrite A1, A2, B1, B2, !Nat.eqb_refl. cbn [andb]. eexists. split; [reflexivity|].
      split; [reflexivity|]. split; [reflexivity|]. intros p j. cbn [m_at]. f_equal. rewrite B3. apply rsum_ext. intros q Hq. rewrite Rmult_assoc. f_equal. f_equal.
      apply rsum_ext. intros d Hd. simpl length in Hd. rewrite comp_pair by auto. rewrite Vl by lia. reflexivity.
    - eexists. split; [reflexivity|]. split; [auto|]. split; [auto|]. intros p j. rewrite rsum_0 by (intros; ring). ring. }
  destruct HD as (A' & EA' & (A1' & A2' & A3')). rewrite EA'. cbn [bind].
  assert (Hfin : forall M, (forall p j, M p j = m_at A' p j + rsum nq (fun q => v_at (cf_weights E) q *
       match rea with None => 0 | Some c => at_q c E q * m_at (cf_U E) q j * m_at (cf_V E) q p end)) ->
     forall p j, M p j = elliptic_entry E dif adv rea k p j).
  { intros M HM p j. rewrite HM, A3', A3. unfold elliptic_entry. rewrite E3, E4. fold nq.
    rewrite (rsum_ext nq (fun q => v_at (cf_weights E) q * (_ + _ + _)) (fun q =>
      v_at (cf_weights E) q * match dif with None => 0 | Some K => rsum 2 (fun i => rsum 2 (fun j' => at_q K E q (i + 3 * j')%nat * m_at (cf_dU E j') q j) * m_at (cf_dV E i) q p) end
      + (v_at (cf_weights E) q * match adv with None => 0 | Some b => rsum 2 (fun i => at_q b E q i * m_at (cf_dU E i) q j) * m_at (cf_V E) q p end
      + v_at (cf_weights E) q * match rea with None => 0 | Some c => at_q c E q * m_at (cf_U E) q j * m_at (cf_V E) q p end))) by (intros; ring).
    rewrite !rsum_plus. ring. }
  destruct rea as [f|].
  - rewrite function_evaluation_ok by auto. cbn [bind].
    destruct (C21_reaction {| v_size := m_cols (cf_points E); v_at := fun q => at_q f E q |} (cf_U E) (cf_V E) (cf_weights E) nq n' n) as (B & EB & (B1 & B2 & B3)); auto.
    { reflexivity. }
    unfold at_q in EB. rewrite EB. cbn [bind]. unfold madd. rewrite A1', A2', B1, B2, !Nat.eqb_refl. cbn [andb]. eexists. split; [reflexivity|].
    split; [reflexivity|]. split; [reflexivity|]. apply Hfin. intros p j. cbn [m_at]. f_equal. rewrite B3. apply rsum_ext. intros q Hq. simpl. unfold at_q. ring.
  - eexists. split; [reflexivity|]. split; [auto|]. split; [auto|]. apply Hfin. intros p j. rewrite rsum_0 by (intros; ring). ring.
Qed.

Lemma elliptic_form_entries ct cs c n n' E dif adv rea k u p : cell_forms ct cs c n n' E ->
  rsum n (fun j => elliptic_entry E dif adv rea k p j * u j) = elliptic_form E dif adv rea k u p.
Proof.
  intros HE. destruct HE as [E1 E2 E3 E4 (P1 & P2 & P3) (U1 & U2) (dU1 & dU2) (V1 & V2) (dV1 & dV2) (S1 & S2)].
  unfold elliptic_entry, elliptic_form. set (nq := v_size (cf_weights E)) in *.
  rewrite (rsum_ext n _ (fun j => rsum nq (fun q => v_at (cf_weights E) q *
    (match dif with None => 0 | Some K => rsum 2 (fun i => rsum 2 (fun j' => at_q K E q (i + 3 * j')%nat * m_at (cf_dU E j') q j) * m_at (cf_dV E i) q p) end
   + match adv with None => 0 | Some b => rsum 2 (fun i => at_q b E q i * m_at (cf_dU E i) q j) * m_at (cf_V E) q p end
   + match rea with None => 0 | Some c => at_q c E q * m_at (cf_U E) q j * m_at (cf_V E) q p end) * u j) +
    (match dif with Some _ => if (ls_Size (cf_test E) =? ls_Size (cf_trial E))%nat then k * m_at (cf_S E) p j else 0 | None => 0 end) * u j)).
  2:{ intros j Hj. rewrite Rmult_plus_distr_r. f_equal. symmetry. apply rsum_scal_r. }
  rewrite rsum_plus. f_equal.
  - rewrite rsum_swap. apply rsum_ext. intros q Hq.
    rewrite (rsum_ext n _ (fun j => v_at (cf_weights E) q *
      (match dif with None => 0 | Some K => rsum 2 (fun i => rsum 2 (fun j' => at_q K E q (i + 3 * j')%nat * m_at (cf_dU E j') q j) * m_at (cf_dV E i) q p) end * u j
     + match adv with None => 0 | Some b => rsum 2 (fun i => at_q b E q i * m_at (cf_dU E i) q j) * m_at (cf_V E) q p end * u j
     + match rea with None => 0 | Some c => at_q c E q * m_at (cf_U E) q j * m_at (cf_V E) q p end * u j))) by (intros; ring).
    rewrite rsum_scal, !rsum_plus. f_equal. f_equal; [f_equal|].
    + destruct dif as [K|]; [|apply rsum_0; intros; ring].
      assert (C : forall d, (d < 2)%nat -> combine (cf_dU E d) u q = rsum n (fun j => m_at (cf_dU E d) q j * u j)) by (intros d Hd; unfold combine; destruct (dU2 d Hd) as (_ & ->); reflexivity).
      rewrite !rsum2, !C by lia.
      rewrite (rsum_ext n _ (fun j => at_q K E q (0 + 3 * 0)%nat * m_at (cf_dV E 0) q p * (m_at (cf_dU E 0) q j * u j)
        + (at_q K E q (0 + 3 * 1)%nat * m_at (cf_dV E 0) q p * (m_at (cf_dU E 1) q j * u j)
        + (at_q K E q (1 + 3 * 0)%nat * m_at (cf_dV E 1) q p * (m_at (cf_dU E 0) q j * u j)
        + at_q K E q (1 + 3 * 1)%nat * m_at (cf_dV E 1) q p * (m_at (cf_dU E 1) q j * u j))))) by (intros; rewrite !rsum2; ring).
      rewrite !rsum_plus, !rsum_scal. ring.
    + destruct adv as [b|]; [|apply rsum_0; intros; ring].
      assert (C : forall d, (d < 2)%nat -> combine (cf_dU E d) u q = rsum n (fun j => m_at (cf_dU E d) q j * u j)) by (intros d Hd; unfold combine; destruct (dU2 d Hd) as (_ & ->); reflexivity).
      rewrite !rsum2, !C by lia.
      rewrite (rsum_ext n _ (fun j => at_q b E q 0%nat * m_at (cf_V E) q p * (m_at (cf_dU E 0) q j * u j)
        + at_q b E q 1%nat * m_at (cf_V E) q p * (m_at (cf_dU E 1) q j * u j))) by (intros; rewrite !rsum2; ring).
      rewrite !rsum_plus, !rsum_scal. ring.
    + destruct rea as [f|]; [|apply rsum_0; intros; ring].
      unfold combine. destruct U2 as (_ & ->). rewrite (rsum_ext n _ (fun j => at_q f E q * m_at (cf_V E) q p * (m_at (cf_U E) q j * u j))) by (intros; ring).
      rewrite rsum_scal. ring.
  - destruct dif as [K|]; [|apply rsum_0; intros; ring].
    rewrite E3, E4. destruct (Nat.eqb_spec n' n) as [En|En]; [|apply rsum_0; intros; ring].
    unfold combine. destruct S2 as (_ & ->). rewrite En, <- rsum_scal. apply rsum_ext. intros j Hj. ring.
Qed.

(** ** The assembled operator *)
Section Operator.
Variables (m : Mesh2D) (info info' : MeshDOFsInfo) (trial test : DOFsData) (ct cs : nat -> outcome LocalSpace) (E : nat -> CellForms).
Local Notation mesh := (md_mesh m).
Hypothesis HC : CreateDOFs 2 info mesh = Ok trial.
Hypothesis HN : Cell2Ds_number mesh = num_cells info 2.
Hypothesis HC' : CreateDOFs 2 info' mesh = Ok test.
Hypothesis HN' : Cell2Ds_number mesh = num_cells info' 2.
Hypothesis HE : forall c, (c < Cell2Ds_number mesh)%nat -> md_active2 m c = true ->
  cell_forms ct cs c (length (closure_dofs info mesh 2 c)) (length (closure_dofs info' mesh 2 c)) (E c).
Local Notation actives := (filter (md_active2 m) (seq 0 (Cell2Ds_number mesh))).

Lemma in_actives c : In c actives -> (c < Cell2Ds_number mesh)%nat /\ md_active2 m c = true.
Proof using. clear HC HC' HN HN' HE. intros H. apply filter_In in H. destruct H as (H & Ha). apply in_seq in H. split; [lia|auto]. Qed.

Definition op_of (A : nat -> option Mat) (b : nat -> option (list R)) (c : nat) : cell_op :=
  {| op_cell := c; op_test := single_handler test; op_trial := single_handler trial; op_lhs := A c; op_rhs := b c |}.

Lemma ops_fit A b : (forall c B, In c actives -> A c = Some B -> m_rows B = length (closure_dofs info' mesh 2 c) /\ m_cols B = length (closure_dofs info mesh 2 c)) ->
  (forall c l, In c actives -> b c = Some l -> length l = length (closure_dofs info' mesh 2 c)) ->
  Forall (op_fits 2 (NumberDOFs test)) (map (op_of A b) actives) /\
  Forall (trial_total 2 (NumberDOFs trial) (NumberStrongs trial)) (map (op_of A b) actives).
Proof using HC HC' HN HN'.
  intros HA Hb. split; apply Forall_forall; intros o Ho; apply in_map_iff in Ho; destruct Ho as (c & <- & Hc); destruct (in_actives c Hc) as (Hc1 & Hc2);
    destruct (single_packed m info trial c HC HN Hc1) as (P & _); destruct (single_packed m info' test c HC' HN' Hc1) as (P' & _).
  - do 4 eexists. split; [exact P'|]. split; [exact P|]. split; [reflexivity|]. split.
    + intros B EB. apply (HA c B Hc EB).
    + intros l El. apply (Hb c l Hc El).
  - do 2 eexists. split; [exact P|]. split; reflexivity.
Qed.

Lemma local_solution_list uD uS c u : (c < Cell2Ds_number mesh)%nat -> local_solution trial uD uS c = Ok u -> exists l, u = vec_of_list l /\
  global_solution_to_local_solution 2 c [trial] (length (closure_dofs info mesh 2 c)) [0%nat] [0%nat] [0%nat] uD uS = Ok l.
Proof using HC HN.
  intros Hc H. unfold local_solution in H. destruct (single_packed m info trial c HC HN Hc) as (P & _).
  destruct P as [_ _ P _ _ _]. simpl dofs_data in P. rewrite P in H. cbn [bind] in H. apply bind_Ok in H. destruct H as (l & El & H). simpl in El. inversion H. exists l. auto.
Qed.

Lemma operator_ok dif adv rea kk : (forall c K, (c < Cell2Ds_number mesh)%nat -> md_active2 m c = true -> dif = Some K -> greatest_diffusion (E c) K (kk c)) ->
  exists s, assemble_elliptic_operator m trial test ct cs dif adv rea = Ok s /\
    (forall r j v, In (r, j, v) (trip_DOFs s) -> (r < NumberDOFs test)%nat /\ (j < NumberDOFs trial)%nat) /\
    (forall r j v, In (r, j, v) (trip_Strongs s) -> (r < NumberDOFs test)%nat /\ (j < NumberStrongs trial)%nat) /\
    forall uD uS, length uD = NumberDOFs trial -> length uS = NumberStrongs trial ->
    exists ul, (forall c, (c < Cell2Ds_number mesh)%nat -> local_solution trial uD uS c = Ok (ul c)) /\
    forall r, operator_row s uD uS r = active_sum m (fun c => free_places info' mesh test c r (elliptic_form (E c) dif adv rea (kk c) (v_at (ul c)))).
Proof using HC HC' HN HN' HE.
  intros Hk. set (A := fun c => match elliptic_cell (cf_trial (E c)) (cf_test (E c)) dif adv rea with Ok B => B | _ => mzero 0 0 end).
  assert (HA : forall c, In c actives -> elliptic_cell (cf_trial (E c)) (cf_test (E c)) dif adv rea = Ok (A c) /\
    is_mat (A c) (length (closure_dofs info' mesh 2 c)) (length (closure_dofs info mesh 2 c)) (elliptic_entry (E c) dif adv rea (kk c))).
  { intros c Hc. destruct (in_actives c Hc) as (Hc1 & Hc2).
    destruct (elliptic_cell_ok ct cs c _ _ (E c) dif adv rea (kk c) (HE c Hc1 Hc2)) as (B & EB & HB); [intros K EK; apply (Hk c K); auto|].
    unfold A. rewrite EB. auto. }
  destruct (ops_fit (fun c => Some (A c)) (fun _ => None)) as (F1 & F2).
  { intros c B Hc EB. inversion EB; subst B. destruct (HA c Hc) as (_ & (X & Y & _)). auto. } { intros; discriminate. }
  set (ops := map (op_of (fun c => Some (A c)) (fun _ => None)) actives) in *.
  assert (Run : assemble_elliptic_operator m trial test ct cs dif adv rea = assemble_all 2 ops (asm_init (NumberDOFs test))).
  { unfold assemble_elliptic_operator, for_loop. rewrite for_filter. unfold assemble_all, ops. rewrite foldM_map. apply foldM_ext_in.
    intros c s Hc. destruct (in_actives c Hc) as (Hc1 & Hc2). destruct (HE c Hc1 Hc2) as [E1 E2 _ _ _ _ _ _ _ _]. rewrite E1. cbn [bind]. rewrite E2. cbn [bind].
    destruct (HA c Hc) as (-> & _). cbn [bind]. reflexivity. }
  destruct (C15_assembly 2 (NumberDOFs test) (NumberDOFs trial) (NumberStrongs trial) ops F1 F2) as (s & Es & _ & R1' & R2' & _).
  exists s. rewrite Run. split; [exact Es|]. split; [exact R1'|]. split; [exact R2'|].
  intros uD uS LD LS. set (ul := fun c => match local_solution trial uD uS c with Ok u => u | _ => vzero 0 end).
  assert (Hul : forall c, (c < Cell2Ds_number mesh)%nat -> local_solution trial uD uS c = Ok (ul c)).
  { intros c Hc. destruct (local_solution_ok m info trial HC HN c uD uS Hc LD LS) as (u & Eu & _). unfold ul. rewrite Eu. reflexivity. }
  exists ul. split; [exact Hul|]. intros r.
  unfold operator_row. rewrite (C16_operator 2 (NumberDOFs test) ops s uD uS (fun o => map (v_at (ul (op_cell o))) (seq 0 (v_size (ul (op_cell o)))))).
  - unfold active_sum, ops. rewrite lsum_map. apply lsum_ext. intros c Hc. destruct (in_actives c Hc) as (Hc1 & Hc2). simpl op_lhs. simpl op_cell. simpl op_test. cbv beta iota.
    simpl dofs_data. rewrite <- (single_free m info' test c r _ HC' HN' Hc1). apply lsum_ext. intros p Hp. destruct (numbered _ _); [|reflexivity].
    destruct (HA c Hc) as (_ & (X & Y & Z)). rewrite Y. rewrite <- (elliptic_form_entries ct cs c _ _ (E c) dif adv rea (kk c) _ _ (HE c Hc1 Hc2)).
    apply rsum_ext. intros j Hj. rewrite Z. f_equal. destruct (local_solution_ok m info trial HC HN c uD uS Hc1 LD LS) as (u & Eu & Su & _).
    rewrite Hul in Eu by auto. inversion Eu; subst u. rewrite (nth_indep _ 0 (v_at (ul c) 0%nat)) by (rewrite map_length, seq_length; lia).
    rewrite map_nth, seq_nth by lia. reflexivity.
  - exact F1.
  - rewrite LD, LS. exact F2.
  - exact Es.
  - intros o Ho. apply in_map_iff in Ho. destruct Ho as (c & <- & Hc). destruct (in_actives c Hc) as (Hc1 & Hc2). simpl.
    destruct (local_solution_list uD uS c (ul c) Hc1 (Hul c Hc1)) as (l & El & Eg). exists (length (closure_dofs info mesh 2 c)). rewrite El. cbn [v_size vec_of_list]. split.
    + rewrite Eg. f_equal. symmetry. apply nth_ext with (d := 0) (d' := 0); [rewrite map_length, seq_length; reflexivity|]. intros i Hi. rewrite map_length, seq_length in Hi.
      rewrite (nth_indep _ 0 (v_at (vec_of_list l) 0%nat)) by (rewrite map_length, seq_length; lia). rewrite map_nth, seq_nth by lia. reflexivity.
    + destruct (single_packed m info trial c HC HN Hc1) as ([_ _ P _ _ _] & _). exact P.
Qed.

Lemma source_ok f : exists b, assemble_source_term m test ct cs f = Ok b /\ length b = NumberDOFs test /\
    forall r, nth r b 0 = active_sum m (fun c => free_places info' mesh test c r (source_form (E c) f)).
Proof using HC HC' HN HN' HE.
  assert (HA : forall c, In c actives -> exists b, source_cell (cf_trial (E c)) (cf_test (E c)) f = Ok b /\ is_vec b (length (closure_dofs info' mesh 2 c)) (source_form (E c) f)).
  { intros c Hc. destruct (in_actives c Hc) as (Hc1 & Hc2). destruct (HE c Hc1 Hc2) as [E1 E2 E3 E4 (P1 & P2 & P3) (U1 & U2) (dU1 & dU2) (V1 & V2) (dV1 & dV2) (S1 & S2)].
    unfold source_cell. fold (cf_points (E c)). rewrite V1. cbn [bind]. rewrite function_evaluation_ok by auto. cbn [bind].
    destruct (C21_forcing {| v_size := m_cols (cf_points (E c)); v_at := at_q f (E c) |} (cf_V (E c)) (cf_weights (E c)) _ _ V2 P1 eq_refl) as (b & Eb & Hb).
    exists b. split; [exact Eb|exact Hb]. }
  set (B := fun c => match source_cell (cf_trial (E c)) (cf_test (E c)) f with Ok b => list_of_vec b | _ => [] end).
  destruct (ops_fit (fun _ => None) (fun c => Some (B c))) as (F1 & F2).
  { intros; discriminate. }
  { intros c l Hc El. inversion El; subst l. destruct (HA c Hc) as (b & Eb & (L & _)). unfold B. rewrite Eb. unfold list_of_vec. rewrite map_length, seq_length. exact L. }
  set (ops := map (op_of (fun _ => None) (fun c => Some (B c))) actives) in *.
  destruct (C15_assembly 2 (NumberDOFs test) (NumberDOFs trial) (NumberStrongs trial) ops F1 F2) as (s & Es & Ls & _ & _ & _ & _ & Hr).
  exists (asm_rhs s). split; [|split; [exact Ls|]].
  - unfold assemble_source_term, for_loop. rewrite for_filter. match goal with |- bind ?X _ = _ => assert (X = Ok s) as -> end; [|reflexivity].
    rewrite <- Es. unfold assemble_all, ops. rewrite foldM_map. apply foldM_ext_in.
    intros c t Hc. destruct (in_actives c Hc) as (Hc1 & Hc2). destruct (HE c Hc1 Hc2) as [E1 E2 _ _ _ _ _ _ _ _]. rewrite E1. cbn [bind]. rewrite E2. cbn [bind].
    destruct (HA c Hc) as (b & Eb & _). rewrite Eb. cbn [bind]. unfold assemble_rhs, op_of. cbn [op_cell op_test op_trial op_lhs op_rhs]. unfold B. rewrite Eb.
    unfold assemble_gen. cbn [op_lhs]. reflexivity.
  - intros r. rewrite Hr. unfold rhs_sum, active_sum, ops. rewrite lsum_map. apply lsum_ext. intros c Hc. destruct (in_actives c Hc) as (Hc1 & Hc2).
    simpl op_rhs. cbv iota beta. simpl op_cell. simpl op_test. simpl dofs_data. rewrite <- (single_free m info' test c r _ HC' HN' Hc1).
    apply lsum_ext. intros p Hp. destruct (numbered _ _); [|reflexivity]. destruct (HA c Hc) as (b & Eb & (L & V)). unfold B. rewrite Eb. unfold list_of_vec.
    rewrite <- V. destruct (single_packed m info' test c HC' HN' Hc1) as (_ & G). rewrite (single_slots test c _ G) in Hp. apply in_map_iff in Hp. destruct Hp as (i & <- & Hi).
    apply in_seq in Hi. unfold slot_pos. simpl. rewrite Nat.add_0_r. rewrite (nth_indep _ 0 (v_at b 0%nat)) by (rewrite map_length, seq_length; lia).
    rewrite map_nth, seq_nth by lia. reflexivity.
Qed.
End Operator.
