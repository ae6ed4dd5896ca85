(** Drivers with coefficients depending on a discrete function. *)
From Coq Require Import List Arith Bool Reals Lra Lia FunctionalExtensionality.
From Verif Require Import Base RSum MatrixModel DofsModel DofsSpec DofsProofs DofsProofs2 AssemblerModel AssemblerSpec AssemblerProofs AssemblerProofs2
  EquationModel EquationSpec EquationProofs VemQuadModel VemModel VemSpec DriverModel DriverSpec DriverSpec2 DriverProofs DriverProofs2 DriverProofs3 DriverProofs4
  DriverProofs5 DriverProofs7 Driver2Model Driver2Spec.
Import ListNotations.
Local Open Scope R_scope.

(** ** Assembly of given local matrices and vectors *)
Section General.
Variables (m : Mesh2D) (info info' : MeshDOFsInfo) (trial test : DOFsData).
Local Notation mesh := (md_mesh m).
Hypothesis HC : CreateDOFs 2 info mesh = Ok trial.
Hypothesis HN : Cell2Ds_number mesh = num_cells info 2.
Hypothesis HC' : CreateDOFs 2 info' mesh = Ok test.
Hypothesis HN' : Cell2Ds_number mesh = num_cells info' 2.
Local Notation actives := (filter (md_active2 m) (seq 0 (Cell2Ds_number mesh))).

Lemma lhs_general (A : nat -> Mat) :
  (forall c, In c actives -> m_rows (A c) = length (closure_dofs info' mesh 2 c) /\ m_cols (A c) = length (closure_dofs info mesh 2 c)) ->
  exists s, foldM (fun s c => assemble_lhs 2 c (single_handler test) (single_handler trial) (A c) s) actives (asm_init (NumberDOFs test)) = Ok s /\
    (forall r j v, In (r, j, v) (trip_DOFs s) -> (r < NumberDOFs test)%nat /\ (j < NumberDOFs trial)%nat) /\
    (forall r j v, In (r, j, v) (trip_Strongs s) -> (r < NumberDOFs test)%nat /\ (j < NumberStrongs trial)%nat) /\
    forall uD uS, length uD = NumberDOFs trial -> length uS = NumberStrongs trial ->
    exists ul, (forall c, (c < Cell2Ds_number mesh)%nat -> local_solution trial uD uS c = Ok (ul c)) /\
    forall r, operator_row s uD uS r = active_sum m (fun c => free_places info' mesh test c r (fun p =>
      rsum (length (closure_dofs info mesh 2 c)) (fun j => m_at (A c) p j * v_at (ul c) j))).
Proof using HC HC' HN HN'.
  intros HA.
  destruct (ops_fit m info info' trial test HC HN HC' HN' (fun c => Some (A c)) (fun _ => None)) as (F1 & F2).
  { intros c B Hc EB. inversion EB; subst B. apply HA. exact Hc. } { intros; discriminate. }
  set (ops := map (op_of trial test (fun c => Some (A c)) (fun _ => None)) actives) in *.
  destruct (C15_assembly 2 (NumberDOFs test) (NumberDOFs trial) (NumberStrongs trial) ops F1 F2) as (s & Es & _ & R1' & R2' & _).
  assert (Run : foldM (fun s c => assemble_lhs 2 c (single_handler test) (single_handler trial) (A c) s) actives (asm_init (NumberDOFs test)) = Ok s).
  { rewrite <- Es. unfold assemble_all, ops. rewrite foldM_map. reflexivity. }
  exists s. split; [exact Run|]. split; [exact R1'|]. split; [exact R2'|].
  intros uD uS LD LS. set (ul := fun c => match local_solution trial uD uS c with Ok u => u | _ => vzero 0 end).
  assert (Hul : forall c, (c < Cell2Ds_number mesh)%nat -> local_solution trial uD uS c = Ok (ul c)).
  { intros c Hc. destruct (local_solution_ok m info trial HC HN c uD uS Hc LD LS) as (u & Eu & _). unfold ul. rewrite Eu. reflexivity. }
  exists ul. split; [exact Hul|]. intros r.
  unfold operator_row. rewrite (C16_operator 2 (NumberDOFs test) ops s uD uS (fun o => map (v_at (ul (op_cell o))) (seq 0 (v_size (ul (op_cell o)))))).
  - unfold active_sum, ops. rewrite lsum_map. apply lsum_ext. intros c Hc. destruct (in_actives m c Hc) as (Hc1 & Hc2). simpl op_lhs. simpl op_cell. simpl op_test. cbv beta iota.
    simpl dofs_data. rewrite <- (single_free m info' test c r _ HC' HN' Hc1). apply lsum_ext. intros p Hp. destruct (numbered _ _); [|reflexivity].
    destruct (HA c Hc) as (_ & ->).
    apply rsum_ext. intros j Hj. f_equal. destruct (local_solution_ok m info trial HC HN c uD uS Hc1 LD LS) as (u & Eu & Su & _).
    rewrite Hul in Eu by auto. inversion Eu; subst u. rewrite (nth_indep _ 0 (v_at (ul c) 0%nat)) by (rewrite map_length, seq_length; lia).
    rewrite map_nth, seq_nth by lia. reflexivity.
  - exact F1.
  - rewrite LD, LS. exact F2.
  - exact Es.
  - intros o Ho. apply in_map_iff in Ho. destruct Ho as (c & <- & Hc). destruct (in_actives m c Hc) as (Hc1 & Hc2). simpl.
    destruct (local_solution_list m info trial HC HN uD uS c (ul c) Hc1 (Hul c Hc1)) as (l & El & Eg). exists (length (closure_dofs info mesh 2 c)). rewrite El. cbn [v_size vec_of_list]. split.
    + rewrite Eg. f_equal. symmetry. apply nth_ext with (d := 0) (d' := 0); [rewrite map_length, seq_length; reflexivity|]. intros i Hi. rewrite map_length, seq_length in Hi.
      rewrite (nth_indep _ 0 (v_at (vec_of_list l) 0%nat)) by (rewrite map_length, seq_length; lia). rewrite map_nth, seq_nth by lia. reflexivity.
    + destruct (single_packed m info trial c HC HN Hc1) as ([_ _ P _ _ _] & _). exact P.
Qed.

Lemma rhs_general (b : nat -> Vec) : (forall c, In c actives -> v_size (b c) = length (closure_dofs info' mesh 2 c)) ->
  exists s, foldM (fun s c => assemble_rhs 2 c (single_handler test) (list_of_vec (b c)) s) actives (asm_init (NumberDOFs test)) = Ok s /\
    length (asm_rhs s) = NumberDOFs test /\ forall r, nth r (asm_rhs s) 0 = active_sum m (fun c => free_places info' mesh test c r (v_at (b c))).
Proof using HC HC' HN HN'.
  intros HB. destruct (ops_fit m info info' trial test HC HN HC' HN' (fun _ => None) (fun c => Some (list_of_vec (b c)))) as (F1 & F2).
  { intros; discriminate. }
  { intros c l Hc El. inversion El; subst l. unfold list_of_vec. rewrite map_length, seq_length. apply HB. exact Hc. }
  set (ops := map (op_of trial test (fun _ => None) (fun c => Some (list_of_vec (b c)))) actives) in *.
  destruct (C15_assembly 2 (NumberDOFs test) (NumberDOFs trial) (NumberStrongs trial) ops F1 F2) as (s & Es & Ls & _ & _ & _ & _ & Hr).
  exists s. split; [|split; [exact Ls|]].
  - rewrite <- Es. unfold assemble_all, ops. rewrite foldM_map. reflexivity.
  - intros r. rewrite Hr. unfold rhs_sum, active_sum, ops. rewrite lsum_map. apply lsum_ext. intros c Hc. destruct (in_actives m c Hc) as (Hc1 & Hc2).
    simpl op_rhs. cbv iota beta. simpl op_cell. simpl op_test. simpl dofs_data. rewrite <- (single_free m info' test c r _ HC' HN' Hc1).
    apply lsum_ext. intros p Hp. destruct (numbered _ _); [|reflexivity]. unfold list_of_vec.
    destruct (single_packed m info' test c HC' HN' Hc1) as (_ & G). rewrite (single_slots test c _ G) in Hp. apply in_map_iff in Hp. destruct Hp as (i & <- & Hi).
    apply in_seq in Hi. unfold slot_pos. simpl. rewrite Nat.add_0_r. rewrite (nth_indep _ 0 (v_at (b c) 0%nat)) by (rewrite map_length, seq_length; rewrite HB by auto; lia).
    rewrite map_nth, seq_nth by (rewrite HB by auto; lia). reflexivity.
Qed.
End General.

(** ** Coefficients at the quadrature points *)
Lemma gradient3_at E w q gx gy : v_at gx q = combine (cf_dU E 0) w q -> v_at gy q = combine (cf_dU E 1) w q ->
  gradient3 (v_at gx q) (v_at gy q) = gradient_at E w q.
Proof. intros X Y. apply functional_extensionality. intros d. unfold gradient3, gradient_at. destruct d as [|[|d]]; simpl; auto. Qed.

(** the given function at the points of a cell *)
Record sampled (E : CellForms) (w : nat -> R) (u gx gy : Vec) : Prop := {
  sa_u : is_vec u (v_size (cf_weights E)) (combine (cf_U E) w);
  sa_x : is_vec gx (v_size (cf_weights E)) (combine (cf_dU E 0) w);
  sa_y : is_vec gy (v_size (cf_weights E)) (combine (cf_dU E 1) w) }.

Lemma solution_values_ok data ct cs c n n' E wD wS x : cell_forms ct cs c n n' E -> local_solution data wD wS c = Ok x -> v_size x = n ->
  exists u gx gy, solution_values data (cf_trial E) wD wS c = Ok (u, gx, gy) /\ sampled E (v_at x) u gx gy.
Proof.
  intros HE Ex Sx. destruct HE as [E1 E2 E3 E4 (P1 & P2 & P3) (U1 & (U2 & U3)) (dU1 & dU2) (V1 & V2) (dV1 & dV2) (S1 & S2)].
  unfold solution_values. rewrite U1. cbn [bind]. rewrite dU1. cbn [bind]. rewrite Ex. cbn [bind]. unfold mmulv. rewrite U3, Sx, Nat.eqb_refl. cbn [bind].
  destruct (dU2 0%nat ltac:(lia)) as (A0 & B0). destruct (dU2 1%nat ltac:(lia)) as (A1 & B1).
  unfold at_. cbn [nth_error bind]. rewrite B0, B1, Nat.eqb_refl. cbn [bind]. do 3 eexists. split; [reflexivity|].
  constructor; split; cbn [v_size v_at]; auto; intros q; unfold combine.
  - rewrite U3. reflexivity.
  - rewrite B0. reflexivity.
  - rewrite B1. reflexivity.
Qed.

Lemma function_evaluation_u_ok E w u gx gy f : m_cols (cf_points E) = v_size (cf_weights E) -> (3 <= m_rows (cf_points E))%nat -> sampled E w u gx gy ->
  exists v, function_evaluation_u (cf_points E) u gx gy f = Ok v /\ is_vec v (v_size (cf_weights E)) (eval_u f E w).
Proof.
  intros P1 P2 [(S1 & V1) (S2 & V2) (S3 & V3)]. unfold function_evaluation_u. rewrite P1, S1, S2, S3, !Nat.leb_refl.
  replace (3 <=? m_rows (cf_points E))%nat with true by (symmetry; apply Nat.leb_le; auto). cbn [andb]. rewrite orb_true_r. eexists. split; [reflexivity|]. split; [reflexivity|].
  intros q. cbn [v_at]. unfold eval_u, at_q. rewrite V1. f_equal. apply gradient3_at; auto.
Qed.
Lemma function_evaluation_u3_ok E w u gx gy f : m_cols (cf_points E) = v_size (cf_weights E) -> (3 <= m_rows (cf_points E))%nat -> sampled E w u gx gy ->
  exists l, function_evaluation_u3 (cf_points E) u gx gy f = Ok l /\ length l = 3%nat /\ Forall (sized (v_size (cf_weights E))) l /\
    forall d q, (d < 3)%nat -> vcomp l d q = eval_u f E w q d.
Proof.
  intros P1 P2 HS. unfold function_evaluation_u3.
  destruct (@for_loop_total _ (fun i l => length l = i /\ Forall (sized (v_size (cf_weights E))) l /\ forall d q, (d < i)%nat -> vcomp l d q = eval_u f E w q d)
    (fun d l => v <- function_evaluation_u (cf_points E) u gx gy (fun x y z w g => f x y z w g d) ;; Ok (l ++ [v])) 3%nat []) as (l & El & L & F & V).
  - split; [reflexivity|]. split; [constructor|]. intros; lia.
  - intros i l _ (L & F & V). destruct (function_evaluation_u_ok E w u gx gy (fun x y z w g => f x y z w g i) P1 P2 HS) as (v & Ev & (Sv & Vv)). rewrite Ev. cbn [bind].
    eexists. split; [reflexivity|]. split; [rewrite app_length, L; simpl; lia|]. split; [apply Forall_app; split; [auto|repeat constructor; exact Sv]|].
    intros d q Hd. unfold vcomp. destruct (Nat.eq_dec d i) as [->|N].
    + rewrite app_nth2 by lia. rewrite L, Nat.sub_diag. cbn [nth]. rewrite Vv. reflexivity.
    + rewrite app_nth1 by lia. apply V. lia.
  - exists l. auto.
Qed.

(** ** Local matrix *)
Definition elliptic_entry_u (E : CellForms) (w : nat -> R)
  (diffusion : option (R -> R -> R -> R -> (nat -> R) -> R)) (advection : option (R -> R -> R -> R -> (nat -> R) -> nat -> R))
  (reaction : option (R -> R -> R -> R -> (nat -> R) -> R)) (k : R) (p j : nat) : R :=
  rsum (v_size (cf_weights E)) (fun q => v_at (cf_weights E) q *
    (match diffusion with None => 0 | Some a => eval_u a E w q * rsum 2 (fun i => m_at (cf_dU E i) q j * m_at (cf_dV E i) q p) end
   + match advection with None => 0 | Some b => rsum 2 (fun i => eval_u b E w q i * m_at (cf_dU E i) q j) * m_at (cf_V E) q p end
   + match reaction with None => 0 | Some c => eval_u c E w q * m_at (cf_U E) q j * m_at (cf_V E) q p end))
  + match diffusion with
    | Some _ => if (ls_Size (cf_test E) =? ls_Size (cf_trial E))%nat then k * m_at (cf_S E) p j else 0
    | None => 0 end.

Lemma elliptic_cell_u_ok data ct cs c n n' E wD wS x dif adv rea k : cell_forms ct cs c n n' E -> local_solution data wD wS c = Ok x -> v_size x = n ->
  (forall a, dif = Some a -> greatest_value E (eval_u a E (v_at x)) k) ->
  exists A, elliptic_cell_u data (cf_trial E) (cf_test E) wD wS c dif adv rea = Ok A /\ is_mat A n' n (elliptic_entry_u E (v_at x) dif adv rea k).
Proof.
  intros HE Ex Sx Hk. destruct (solution_values_ok data ct cs c n n' E wD wS x HE Ex Sx) as (u & gx & gy & Es & HS).
  destruct HE as [E1 E2 E3 E4 (P1 & P2 & P3) (U1 & U2) (dU1 & dU2) (V1 & V2) (dV1 & dV2) (S1 & S2)].
  set (w := v_at x) in *. set (nq := v_size (cf_weights E)) in *.
  unfold elliptic_cell_u. rewrite U1. cbn [bind]. rewrite dU1. cbn [bind]. fold (cf_points E). rewrite V1. cbn [bind]. rewrite dV1. cbn [bind].
  rewrite Es. cbn [bind]. fold (cf_weights E). rewrite E3, E4.
  (* diffusion *)
  match goal with |- exists A, bind ?X _ = _ /\ _ => assert (HD : exists A, X = Ok A /\ is_mat A n' n (fun p j =>
     rsum nq (fun q => v_at (cf_weights E) q * match dif with None => 0 | Some a => eval_u a E w q * rsum 2 (fun i => m_at (cf_dU E i) q j * m_at (cf_dV E i) q p) end)
     + match dif with Some _ => if (n' =? n)%nat then k * m_at (cf_S E) p j else 0 | None => 0 end)) end.
  { destruct dif as [a|].
    - destruct (function_evaluation_u_ok E w u gx gy a P1 P2 HS) as (l & El & (Sl & Vl)). rewrite El. cbn [bind]. fold nq in Sl.
      destruct (C21_diffusion l [cf_dU E 0; cf_dU E 1] [cf_dV E 0; cf_dV E 1] (cf_weights E) nq n' n) as (B & EB & (B1 & B2 & B3)); auto; try discriminate; try (apply shaped_pair; auto; fail); try reflexivity.
      rewrite EB. cbn [bind]. unfold madd at 1. cbn [m_rows m_cols mzero]. rewrite B1, B2, !Nat.eqb_refl. cbn [andb bind m_at mzero].
      assert (Hent : forall p j, m_at B p j = rsum nq (fun q => v_at (cf_weights E) q * (eval_u a E w q * rsum 2 (fun i => m_at (cf_dU E i) q j * m_at (cf_dV E i) q p)))).
      { intros p j. rewrite B3. apply rsum_ext. intros q Hq. rewrite Vl, Rmult_assoc. f_equal. f_equal. simpl length. apply rsum_ext. intros d Hd. rewrite !comp_pair by auto. ring. }
      destruct (Nat.eqb_spec n' n) as [En|En].
      + destruct (max_abs_ok l) as (k' & Ek & Uk & (q0 & Hq0 & Ak)); [lia|]. rewrite Ek. cbn [bind]. rewrite S1. cbn [bind]. destruct S2 as (SR & SC).
        assert (k' = k) as ->.
        { destruct (Hk a eq_refl) as (Uk' & (q1 & Hq1 & Ak')). rewrite Sl in *. apply Rle_antisym.
          - rewrite Ak, Vl. apply Uk'. exact Hq0.
          - rewrite Ak'. specialize (Uk q1 Hq1). rewrite Vl in Uk. exact Uk. }
        unfold madd. cbn [m_rows m_cols mscal]. rewrite SR, SC, En, !Nat.eqb_refl. cbn [andb bind]. eexists. split; [reflexivity|].
        split; [reflexivity|]. split; [reflexivity|]. intros p j. cbn [m_at mscal]. rewrite Hent. ring.
      + eexists. split; [reflexivity|]. split; [reflexivity|]. split; [reflexivity|]. intros p j. cbn [m_at]. rewrite Hent. ring.
    - eexists. split; [reflexivity|]. split; [reflexivity|]. split; [reflexivity|]. intros p j. simpl. rewrite rsum_0 by (intros; ring). ring. }
  destruct HD as (A & EA & (A1 & A2 & A3)). rewrite EA. cbn [bind].
  (* advection *)
  match goal with |- exists A', bind ?X _ = _ /\ _ => assert (HD : exists A', X = Ok A' /\ is_mat A' n' n (fun p j => m_at A p j +
     rsum nq (fun q => v_at (cf_weights E) q * match adv with None => 0 | Some b => rsum 2 (fun i => eval_u b E w q i * m_at (cf_dU E i) q j) * m_at (cf_V E) q p end))) end.
  { destruct adv as [b|].
    - destruct (function_evaluation_u3_ok E w u gx gy b P1 P2 HS) as (l & El & Ll & Fl & Vl). rewrite El. cbn [bind]. fold nq in Fl.
      destruct (C21_advection l (cf_V E) [cf_dU E 0; cf_dU E 1] (cf_weights E) nq n' n) as (B & EB & (B1 & B2 & B3)); auto; try discriminate; try (apply shaped_pair; auto; fail); try reflexivity; try (simpl; lia).
      rewrite EB. cbn [bind]. unfold madd. rewrite A1, A2, B1, B2, !Nat.eqb_refl. cbn [andb]. eexists. split; [reflexivity|].
      split; [reflexivity|]. split; [reflexivity|]. intros p j. cbn [m_at]. f_equal. rewrite B3. apply rsum_ext. intros q Hq. rewrite Rmult_assoc. f_equal. f_equal.
      apply rsum_ext. intros d Hd. simpl length in Hd. rewrite comp_pair by auto. rewrite Vl by lia. reflexivity.
    - eexists. split; [reflexivity|]. split; [auto|]. split; [auto|]. intros p j. rewrite rsum_0 by (intros; ring). ring. }
  destruct HD as (A' & EA' & (A1' & A2' & A3')). rewrite EA'. cbn [bind].
  assert (Hfin : forall M, (forall p j, M p j = m_at A' p j + rsum nq (fun q => v_at (cf_weights E) q *
       match rea with None => 0 | Some c => eval_u c E w q * m_at (cf_U E) q j * m_at (cf_V E) q p end)) ->
     forall p j, M p j = elliptic_entry_u E w dif adv rea k p j).
  { intros M HM p j. rewrite HM, A3', A3. unfold elliptic_entry_u. rewrite E3, E4. fold nq.
    rewrite (rsum_ext nq (fun q => v_at (cf_weights E) q * (_ + _ + _)) (fun q =>
      v_at (cf_weights E) q * match dif with None => 0 | Some a => eval_u a E w q * rsum 2 (fun i => m_at (cf_dU E i) q j * m_at (cf_dV E i) q p) end
      + (v_at (cf_weights E) q * match adv with None => 0 | Some b => rsum 2 (fun i => eval_u b E w q i * m_at (cf_dU E i) q j) * m_at (cf_V E) q p end
      + v_at (cf_weights E) q * match rea with None => 0 | Some c => eval_u c E w q * m_at (cf_U E) q j * m_at (cf_V E) q p end))) by (intros; ring).
    rewrite !rsum_plus. ring. }
  destruct rea as [f|].
  - destruct (function_evaluation_u_ok E w u gx gy f P1 P2 HS) as (l & El & (Sl & Vl)). rewrite El. cbn [bind].
    destruct (C21_reaction l (cf_U E) (cf_V E) (cf_weights E) nq n' n) as (B & EB & (B1 & B2 & B3)); auto; try reflexivity.
    rewrite EB. cbn [bind]. unfold madd. rewrite A1', A2', B1, B2, !Nat.eqb_refl. cbn [andb]. eexists. split; [reflexivity|].
    split; [reflexivity|]. split; [reflexivity|]. apply Hfin. intros p j. cbn [m_at]. f_equal. rewrite B3. apply rsum_ext. intros q Hq. rewrite Vl. ring.
  - eexists. split; [reflexivity|]. split; [auto|]. split; [auto|]. apply Hfin. intros p j. rewrite rsum_0 by (intros; ring). ring.
Qed.

Lemma elliptic_form_u_entries ct cs c n n' E w dif adv rea k u p : cell_forms ct cs c n n' E ->
  rsum n (fun j => elliptic_entry_u E w dif adv rea k p j * u j) = elliptic_form_u E w dif adv rea k u p.
Proof.
  intros HE. destruct HE as [E1 E2 E3 E4 (P1 & P2 & P3) (U1 & U2) (dU1 & dU2) (V1 & V2) (dV1 & dV2) (S1 & S2)].
  unfold elliptic_entry_u, elliptic_form_u. set (nq := v_size (cf_weights E)) in *.
  rewrite (rsum_ext n _ (fun j => rsum nq (fun q => v_at (cf_weights E) q *
    (match dif with None => 0 | Some a => eval_u a E w q * rsum 2 (fun i => m_at (cf_dU E i) q j * m_at (cf_dV E i) q p) end
   + match adv with None => 0 | Some b => rsum 2 (fun i => eval_u b E w q i * m_at (cf_dU E i) q j) * m_at (cf_V E) q p end
   + match rea with None => 0 | Some c => eval_u c E w q * m_at (cf_U E) q j * m_at (cf_V E) q p end) * u j) +
    (match dif with Some _ => if (ls_Size (cf_test E) =? ls_Size (cf_trial E))%nat then k * m_at (cf_S E) p j else 0 | None => 0 end) * u j)).
  2:{ intros j Hj. rewrite Rmult_plus_distr_r. f_equal. symmetry. apply rsum_scal_r. }
  rewrite rsum_plus. f_equal.
  - rewrite rsum_swap. apply rsum_ext. intros q Hq.
    rewrite (rsum_ext n _ (fun j => v_at (cf_weights E) q *
      (match dif with None => 0 | Some a => eval_u a E w q * rsum 2 (fun i => m_at (cf_dU E i) q j * m_at (cf_dV E i) q p) end * u j
     + match adv with None => 0 | Some b => rsum 2 (fun i => eval_u b E w q i * m_at (cf_dU E i) q j) * m_at (cf_V E) q p end * u j
     + match rea with None => 0 | Some c => eval_u c E w q * m_at (cf_U E) q j * m_at (cf_V E) q p end * u j))) by (intros; ring).
    rewrite rsum_scal, !rsum_plus.
    assert (C : forall d, (d < 2)%nat -> combine (cf_dU E d) u q = rsum n (fun j => m_at (cf_dU E d) q j * u j)) by (intros d Hd; unfold combine; destruct (dU2 d Hd) as (_ & ->); reflexivity).
    f_equal. f_equal; [f_equal|].
    + destruct dif as [a|]; [|apply rsum_0; intros; ring]. rewrite !rsum2, !C by lia.
      rewrite (rsum_ext n _ (fun j => eval_u a E w q * m_at (cf_dV E 0) q p * (m_at (cf_dU E 0) q j * u j)
        + eval_u a E w q * m_at (cf_dV E 1) q p * (m_at (cf_dU E 1) q j * u j))) by (intros; rewrite !rsum2; ring).
      rewrite !rsum_plus, !rsum_scal. ring.
    + destruct adv as [b|]; [|apply rsum_0; intros; ring]. rewrite !rsum2, !C by lia.
      rewrite (rsum_ext n _ (fun j => eval_u b E w q 0%nat * m_at (cf_V E) q p * (m_at (cf_dU E 0) q j * u j)
        + eval_u b E w q 1%nat * m_at (cf_V E) q p * (m_at (cf_dU E 1) q j * u j))) by (intros; rewrite !rsum2; ring).
      rewrite !rsum_plus, !rsum_scal. ring.
    + destruct rea as [f|]; [|apply rsum_0; intros; ring].
      unfold combine. destruct U2 as (_ & ->). rewrite (rsum_ext n _ (fun j => eval_u f E w q * m_at (cf_V E) q p * (m_at (cf_U E) q j * u j))) by (intros; ring).
      rewrite rsum_scal. ring.
  - destruct dif as [K|]; [|apply rsum_0; intros; ring].
    rewrite E3, E4. destruct (Nat.eqb_spec n' n) as [En|En]; [|apply rsum_0; intros; ring].
    unfold combine. destruct S2 as (_ & ->). rewrite En, <- rsum_scal. apply rsum_ext. intros j Hj. ring.
Qed.

Lemma source_cell_u_ok data ct cs c n n' E wD wS x f : cell_forms ct cs c n n' E -> local_solution data wD wS c = Ok x -> v_size x = n ->
  exists b, source_cell_u data (cf_trial E) (cf_test E) wD wS c f = Ok b /\ is_vec b n' (source_form_u E (v_at x) f).
Proof.
  intros HE Ex Sx. destruct (solution_values_ok data ct cs c n n' E wD wS x HE Ex Sx) as (u & gx & gy & Es & HS).
  destruct HE as [E1 E2 E3 E4 (P1 & P2 & P3) (U1 & U2) (dU1 & dU2) (V1 & V2) (dV1 & dV2) (S1 & S2)].
  unfold source_cell_u. fold (cf_points E). rewrite V1. cbn [bind]. rewrite Es. cbn [bind].
  destruct (function_evaluation_u_ok E (v_at x) u gx gy f P1 P2 HS) as (l & El & (Sl & Vl)). rewrite El. cbn [bind].
  destruct (C21_forcing l (cf_V E) (cf_weights E) _ _ V2 Sl eq_refl) as (b & Eb & (Lb & Vb)). exists b. split; [exact Eb|]. split; [exact Lb|].
  intros p. rewrite Vb. unfold source_form_u. apply rsum_ext. intros q Hq. rewrite Vl. reflexivity.
Qed.
Lemma source_gradients_cell_ok data ct cs c n n' E wD wS x f : cell_forms ct cs c n n' E -> local_solution data wD wS c = Ok x -> v_size x = n ->
  exists b, source_gradients_cell data (cf_trial E) (cf_test E) wD wS c f = Ok b /\ is_vec b n' (source_gradient_form E (v_at x) f).
Proof.
  intros HE Ex Sx. destruct (solution_values_ok data ct cs c n n' E wD wS x HE Ex Sx) as (u & gx & gy & Es & HS).
  destruct HE as [E1 E2 E3 E4 (P1 & P2 & P3) (U1 & U2) (dU1 & dU2) (V1 & V2) (dV1 & dV2) (S1 & S2)].
  unfold source_gradients_cell. fold (cf_points E). rewrite dV1. cbn [bind]. rewrite Es. cbn [bind].
  destruct (function_evaluation_u3_ok E (v_at x) u gx gy f P1 P2 HS) as (l & El & Ll & Fl & Vl). rewrite El. cbn [bind].
  destruct (C21_forcing_vector l [cf_dV E 0; cf_dV E 1] (cf_weights E) (v_size (cf_weights E)) n') as (b & Eb & (Lb & Vb)); auto; try discriminate; try (apply shaped_pair; auto; fail); try reflexivity; try (simpl; lia).
  exists b. split; [exact Eb|]. split; [exact Lb|].
  intros p. rewrite Vb. unfold source_gradient_form. apply rsum_ext. intros q Hq. f_equal. simpl length. apply rsum_ext. intros d Hd.
  rewrite comp_pair by auto. rewrite Vl by lia. reflexivity.
Qed.

Section Nonlinear.
Variables (m : Mesh2D) (info info' : MeshDOFsInfo) (trial test : DOFsData) (ct cs : nat -> outcome LocalSpace) (E : nat -> CellForms).
Local Notation mesh := (md_mesh m).
Hypothesis HC : CreateDOFs 2 info mesh = Ok trial.
Hypothesis HN : Cell2Ds_number mesh = num_cells info 2.
Hypothesis HC' : CreateDOFs 2 info' mesh = Ok test.
Hypothesis HN' : Cell2Ds_number mesh = num_cells info' 2.
Hypothesis HE : forall c, (c < Cell2Ds_number mesh)%nat -> md_active2 m c = true ->
  cell_forms ct cs c (length (closure_dofs info mesh 2 c)) (length (closure_dofs info' mesh 2 c)) (E c).
Variables (wD wS : list R) (wl : nat -> Vec).
Hypothesis LwD : length wD = NumberDOFs trial.
Hypothesis LwS : length wS = NumberStrongs trial.
Hypothesis Hwl : forall c, (c < Cell2Ds_number mesh)%nat -> local_solution trial wD wS c = Ok (wl c).
Local Notation actives := (filter (md_active2 m) (seq 0 (Cell2Ds_number mesh))).

Lemma wl_size c : (c < Cell2Ds_number mesh)%nat -> v_size (wl c) = length (closure_dofs info mesh 2 c).
Proof using HC HN LwD LwS Hwl.
  intros Hc. destruct (local_solution_ok m info trial HC HN c wD wS Hc LwD LwS) as (u & Eu & Su & _). rewrite Hwl in Eu by auto. inversion Eu; subst u. exact Su.
Qed.

Lemma operator_u_ok dif adv rea kk :
  (forall c a, (c < Cell2Ds_number mesh)%nat -> md_active2 m c = true -> dif = Some a -> greatest_value (E c) (eval_u a (E c) (v_at (wl c))) (kk c)) ->
  exists s, assemble_elliptic_operator_u m trial test ct cs wD wS dif adv rea = Ok s /\
    (forall r j v, In (r, j, v) (trip_DOFs s) -> (r < NumberDOFs test)%nat /\ (j < NumberDOFs trial)%nat) /\
    (forall r j v, In (r, j, v) (trip_Strongs s) -> (r < NumberDOFs test)%nat /\ (j < NumberStrongs trial)%nat) /\
    forall uD uS, length uD = NumberDOFs trial -> length uS = NumberStrongs trial ->
    exists ul, (forall c, (c < Cell2Ds_number mesh)%nat -> local_solution trial uD uS c = Ok (ul c)) /\
    forall r, operator_row s uD uS r = active_sum m (fun c => free_places info' mesh test c r (elliptic_form_u (E c) (v_at (wl c)) dif adv rea (kk c) (v_at (ul c)))).
Proof using HC HC' HN HN' HE LwD LwS Hwl.
  intros Hk. set (A := fun c => match elliptic_cell_u trial (cf_trial (E c)) (cf_test (E c)) wD wS c dif adv rea with Ok B => B | _ => mzero 0 0 end).
  assert (HA : forall c, In c actives -> elliptic_cell_u trial (cf_trial (E c)) (cf_test (E c)) wD wS c dif adv rea = Ok (A c) /\
    is_mat (A c) (length (closure_dofs info' mesh 2 c)) (length (closure_dofs info mesh 2 c)) (elliptic_entry_u (E c) (v_at (wl c)) dif adv rea (kk c))).
  { intros c Hc. destruct (in_actives m c Hc) as (Hc1 & Hc2).
    destruct (elliptic_cell_u_ok trial ct cs c _ _ (E c) wD wS (wl c) dif adv rea (kk c) (HE c Hc1 Hc2) (Hwl c Hc1) (wl_size c Hc1)) as (B & EB & HB); [intros a Ea; apply (Hk c a); auto|].
    unfold A. rewrite EB. auto. }
  destruct (lhs_general m info info' trial test HC HN HC' HN' A) as (s & Es & R1' & R2' & Hs).
  { intros c Hc. destruct (HA c Hc) as (_ & (X & Y & _)). auto. }
  exists s. split; [|split; [exact R1'|split; [exact R2'|]]].
  - rewrite <- Es. unfold assemble_elliptic_operator_u, for_loop. rewrite for_filter. apply foldM_ext_in. intros c t Hc. destruct (in_actives m c Hc) as (Hc1 & Hc2).
    destruct (HE c Hc1 Hc2) as [E1 E2 _ _ _ _ _ _ _ _]. rewrite E1. cbn [bind]. rewrite E2. cbn [bind]. destruct (HA c Hc) as (-> & _). reflexivity.
  - intros uD uS LD LS. destruct (Hs uD uS LD LS) as (ul & Hul & Hr). exists ul. split; [exact Hul|]. intros r. rewrite Hr. unfold active_sum. apply lsum_ext. intros c Hc.
    destruct (in_actives m c Hc) as (Hc1 & Hc2). unfold free_places. apply lsum_ext. intros p Hp. destruct (nth_error _ p) as [h|]; [|reflexivity]. destruct (free_is test h r); [|reflexivity].
    destruct (HA c Hc) as (_ & (_ & _ & Z)). rewrite <- (elliptic_form_u_entries ct cs c _ _ (E c) (v_at (wl c)) dif adv rea (kk c) _ _ (HE c Hc1 Hc2)).
    apply rsum_ext. intros j Hj. rewrite Z. reflexivity.
Qed.

Lemma source_u_ok f : exists b, assemble_source_term_u m trial test ct cs wD wS f = Ok b /\ length b = NumberDOFs test /\
    forall r, nth r b 0 = active_sum m (fun c => free_places info' mesh test c r (source_form_u (E c) (v_at (wl c)) f)).
Proof using HC HC' HN HN' HE LwD LwS Hwl.
  set (B := fun c => match source_cell_u trial (cf_trial (E c)) (cf_test (E c)) wD wS c f with Ok b => b | _ => vzero 0 end).
  assert (HA : forall c, In c actives -> source_cell_u trial (cf_trial (E c)) (cf_test (E c)) wD wS c f = Ok (B c) /\ is_vec (B c) (length (closure_dofs info' mesh 2 c)) (source_form_u (E c) (v_at (wl c)) f)).
  { intros c Hc. destruct (in_actives m c Hc) as (Hc1 & Hc2).
    destruct (source_cell_u_ok trial ct cs c _ _ (E c) wD wS (wl c) f (HE c Hc1 Hc2) (Hwl c Hc1) (wl_size c Hc1)) as (b & Eb & Hb). unfold B. rewrite Eb. auto. }
  destruct (rhs_general m info info' trial test HC HN HC' HN' B) as (s & Es & Ls & Hr).
  { intros c Hc. apply (HA c Hc). }
  exists (asm_rhs s). split; [|split; [exact Ls|]].
  - unfold assemble_source_term_u, for_loop. rewrite for_filter. match goal with |- bind ?X _ = _ => assert (X = Ok s) as -> end; [|reflexivity].
    rewrite <- Es. apply foldM_ext_in. intros c t Hc. destruct (in_actives m c Hc) as (Hc1 & Hc2). destruct (HE c Hc1 Hc2) as [E1 E2 _ _ _ _ _ _ _ _].
    rewrite E1. cbn [bind]. rewrite E2. cbn [bind]. destruct (HA c Hc) as (-> & _). reflexivity.
  - intros r. rewrite Hr. unfold active_sum. apply lsum_ext. intros c Hc. unfold free_places. apply lsum_ext. intros p Hp. destruct (nth_error _ p) as [h|]; [|reflexivity].
    destruct (free_is test h r); [|reflexivity]. apply (HA c Hc).
Qed.

Lemma source_gradients_ok f : exists b, assemble_source_term_gradients m trial test ct cs wD wS f = Ok b /\ length b = NumberDOFs test /\
    forall r, nth r b 0 = active_sum m (fun c => free_places info' mesh test c r (source_gradient_form (E c) (v_at (wl c)) f)).
Proof using HC HC' HN HN' HE LwD LwS Hwl.
  set (B := fun c => match source_gradients_cell trial (cf_trial (E c)) (cf_test (E c)) wD wS c f with Ok b => b | _ => vzero 0 end).
  assert (HA : forall c, In c actives -> source_gradients_cell trial (cf_trial (E c)) (cf_test (E c)) wD wS c f = Ok (B c) /\ is_vec (B c) (length (closure_dofs info' mesh 2 c)) (source_gradient_form (E c) (v_at (wl c)) f)).
  { intros c Hc. destruct (in_actives m c Hc) as (Hc1 & Hc2).
    destruct (source_gradients_cell_ok trial ct cs c _ _ (E c) wD wS (wl c) f (HE c Hc1 Hc2) (Hwl c Hc1) (wl_size c Hc1)) as (b & Eb & Hb). unfold B. rewrite Eb. auto. }
  destruct (rhs_general m info info' trial test HC HN HC' HN' B) as (s & Es & Ls & Hr).
  { intros c Hc. apply (HA c Hc). }
  exists (asm_rhs s). split; [|split; [exact Ls|]].
  - unfold assemble_source_term_gradients, for_loop. rewrite for_filter. match goal with |- bind ?X _ = _ => assert (X = Ok s) as -> end; [|reflexivity].
    rewrite <- Es. apply foldM_ext_in. intros c t Hc. destruct (in_actives m c Hc) as (Hc1 & Hc2). destruct (HE c Hc1 Hc2) as [E1 E2 _ _ _ _ _ _ _ _].
    rewrite E1. cbn [bind]. rewrite E2. cbn [bind]. destruct (HA c Hc) as (-> & _). reflexivity.
  - intros r. rewrite Hr. unfold active_sum. apply lsum_ext. intros c Hc. unfold free_places. apply lsum_ext. intros p Hp. destruct (nth_error _ p) as [h|]; [|reflexivity].
    destruct (free_is test h r); [|reflexivity]. apply (HA c Hc).
Qed.
End Nonlinear.

(** ** Diffusion operator *)
Lemma anysotropic_form E k kk u p : elliptic_form E (Some (anysotropic_diffusion_term_function k)) None None kk u p =
  rsum (v_size (cf_weights E)) (fun q => v_at (cf_weights E) q * (at_q k E q * rsum 2 (fun i => combine (cf_dU E i) u q * m_at (cf_dV E i) q p)))
  + if (ls_Size (cf_test E) =? ls_Size (cf_trial E))%nat then kk * combine (cf_S E) u p else 0.
Proof.
  unfold elliptic_form. f_equal. apply rsum_ext. intros q Hq. f_equal. rewrite !rsum2. unfold at_q, anysotropic_diffusion_term_function. cbn [Nat.add Nat.mul nth]. ring.
Qed.
Lemma anysotropic_greatest E k kk : greatest_value E (at_q k E) kk -> greatest_diffusion E (anysotropic_diffusion_term_function k) kk.
Proof.
  intros (U & q0 & Hq0 & A). split.
  - intros d q Hd Hq. specialize (U q Hq). unfold at_q, anysotropic_diffusion_term_function in *. assert (0 <= kk) by (rewrite A; apply Rabs_pos).
    do 9 (destruct d as [|d]; [cbn [nth]; try (rewrite Rabs_R0; assumption); exact U|]). lia.
  - exists 0%nat, q0. split; [lia|]. split; [exact Hq0|]. exact A.
Qed.
Lemma diffusion_ok m info info' trial test ct cs E :
  CreateDOFs 2 info (md_mesh m) = Ok trial -> Cell2Ds_number (md_mesh m) = num_cells info 2 ->
  CreateDOFs 2 info' (md_mesh m) = Ok test -> Cell2Ds_number (md_mesh m) = num_cells info' 2 ->
  (forall c, (c < Cell2Ds_number (md_mesh m))%nat -> md_active2 m c = true ->
     cell_forms ct cs c (length (closure_dofs info (md_mesh m) 2 c)) (length (closure_dofs info' (md_mesh m) 2 c)) (E c)) ->
  forall k kk, (forall c, (c < Cell2Ds_number (md_mesh m))%nat -> md_active2 m c = true -> greatest_value (E c) (at_q k (E c)) (kk c)) ->
  exists s, assemble_diffusion_operator m trial test ct cs k = Ok s /\
    (forall r j v, In (r, j, v) (trip_DOFs s) -> (r < NumberDOFs test)%nat /\ (j < NumberDOFs trial)%nat) /\
    (forall r j v, In (r, j, v) (trip_Strongs s) -> (r < NumberDOFs test)%nat /\ (j < NumberStrongs trial)%nat) /\
    forall uD uS, length uD = NumberDOFs trial -> length uS = NumberStrongs trial ->
    exists ul, (forall c, (c < Cell2Ds_number (md_mesh m))%nat -> local_solution trial uD uS c = Ok (ul c)) /\
    forall r, operator_row s uD uS r = active_sum m (fun c => free_places info' (md_mesh m) test c r (diffusion_form (E c) k (kk c) (v_at (ul c)))).
Proof.
  intros HC HN HC' HN' HE k kk Hk.
  destruct (operator_ok m info info' trial test ct cs E HC HN HC' HN' HE (Some (anysotropic_diffusion_term_function k)) None None kk) as (s & Es & R1' & R2' & Hs).
  { intros c K Hc Ac [= <-]. apply anysotropic_greatest. apply Hk; auto. }
  exists s. split; [exact Es|]. split; [exact R1'|]. split; [exact R2'|]. intros uD uS LD LS. destruct (Hs uD uS LD LS) as (ul & Hul & Hr). exists ul. split; [exact Hul|].
  intros r. rewrite Hr. unfold active_sum. apply lsum_ext. intros c _. unfold free_places. apply lsum_ext. intros p _. destruct (nth_error _ p); [|reflexivity]. destruct (free_is _ _ _); [|reflexivity].
  apply anysotropic_form.
Qed.
