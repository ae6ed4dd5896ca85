(** Evaluation on the quadrature points. *)
From Coq Require Import List Arith Bool Reals Lra Lia.
From Verif Require Import Base RSum MatrixModel DofsModel DofsSpec DofsProofs DofsProofs2 AssemblerModel AssemblerSpec AssemblerProofs AssemblerProofs2
  EquationModel EquationSpec EquationProofs VemQuadModel VemQuadProofs VemModel VemSpec DriverModel DriverSpec DriverSpec2 DriverProofs DriverProofs2 DriverProofs3 DriverProofs4
  DriverProofs5 DriverProofs7 Driver2Model Driver2Spec Driver2Proofs Driver2Proofs2.
Import ListNotations.
Local Open Scope R_scope.

(** all the parts of a record have n points *)
Definition evaluated (e : Evaluate_Solution_On_Quadrature_Points_Data) (n : nat) (pt : nat -> PointData) : Prop :=
  evaluation_sizes e n /\ forall q, (q < n)%nat -> point_of e q = pt q.

Lemma exact_values_ok P f : (3 <= m_rows P)%nat -> exists x, exact_values P f = Ok x /\ v_size x = m_cols P /\ forall q, v_at x q = exact_at f P q.
Proof.
  intros HP. unfold exact_values, exact_at. destruct f as [f|].
  - rewrite function_evaluation_ok by auto. eexists. split; [reflexivity|]. split; reflexivity.
  - eexists. split; [reflexivity|]. split; reflexivity.
Qed.
Lemma exact_gradient_values_ok P f : (3 <= m_rows P)%nat -> exists g0 g1 g2, exact_gradient_values P f = Ok [g0; g1; g2] /\
  (forall d, (d < 3)%nat -> v_size (nth d [g0; g1; g2] (vzero 0)) = m_cols P) /\
  forall d q, (d < 3)%nat -> v_at (nth d [g0; g1; g2] (vzero 0)) q = exact_gradient_at f P q d.
Proof.
  intros HP. unfold exact_gradient_values, exact_gradient_at. destruct f as [f|].
  - destruct (function_evaluation_array_ok 3 P f) as (l & El & Ll & Fl & Vl); auto. destruct l as [|g0 [|g1 [|g2 [|g3 l]]]]; simpl in Ll; try lia. exists g0, g1, g2. split; [exact El|].
    assert (D : vzero 0 = {| v_size := 0; v_at := fun _ => 0 |}) by reflexivity.
    split.
    + intros d Hd. rewrite Forall_forall in Fl. apply Fl. apply nth_In. simpl. lia.
    + intros d q Hd. specialize (Vl d q Hd). unfold vcomp in Vl. rewrite <- Vl. reflexivity.
  - do 3 eexists. split; [reflexivity|]. split; intros d; [|intros q]; intros Hd; destruct d as [|[|[|d]]]; try lia; reflexivity.
Qed.

Lemma evaluate_cell_ok data create c n C uD uS x exact eg : comp_forms Pi0k_t create c n C -> local_solution data uD uS c = Ok x -> v_size x = n ->
  exists e, evaluate_cell data (cp_space C) uD uS exact eg c = Ok e /\ evaluated e (v_size (cp_weights C)) (cell_point C (v_at x) exact eg).
Proof.
  intros [E1 E2 (P1 & P2) (U1 & (U2 & U3)) (D1 & D2)] Ex Sx. unfold evaluate_cell. rewrite U1. cbn [bind]. rewrite D1. cbn [bind]. fold (cp_points C). fold (cp_weights C).
  destruct (exact_values_ok (cp_points C) exact ltac:(lia)) as (y & Ey & Sy & Vy). rewrite Ey. cbn [bind].
  destruct (exact_gradient_values_ok (cp_points C) eg ltac:(lia)) as (g0 & g1 & g2 & Eg & Sg & Vg). rewrite Eg. unfold at_. cbn [bind nth_error]. rewrite Ex. cbn [bind].
  destruct (D2 0%nat ltac:(lia)) as (R0' & C0'). destruct (D2 1%nat ltac:(lia)) as (R1' & C1').
  unfold mmulv. rewrite U3, Sx, Nat.eqb_refl. cbn [bind]. rewrite C0', C1', Nat.eqb_refl. cbn [bind]. eexists. split; [reflexivity|]. split.
  - split; [exact P2|]. split; [exact P1|]. cbn [ev_weights ev_numeric ev_exact ev_numeric_gradient ev_exact_gradient v_size]. split; [reflexivity|]. split; [exact U2|]. split; [lia|].
    intros d Hd. split; [|rewrite Sg by auto; exact P1]. destruct d as [|[|[|d]]]; [| | |lia]; cbn [nth v_size vzero]; auto.
  - intros q Hq. unfold point_of, cell_point. cbn [ev_points ev_weights ev_numeric ev_exact ev_numeric_gradient ev_exact_gradient map]. rewrite Vy, !Vg by lia. cbn [nth v_at vzero].
    unfold combine. rewrite U3, C0', C1'. reflexivity.
Qed.

Lemma write_ok r e a n N pt : evaluation_sizes r N -> evaluated e n pt -> (a + n <= N)%nat ->
  exists r', evaluation_write r e a n = Ok r' /\ evaluation_sizes r' N /\ (forall k, (k < a)%nat -> point_of r' k = point_of r k) /\ forall q, (q < n)%nat -> point_of r' (a + q) = pt q.
Proof.
  intros (S1 & S2 & S3 & S4 & S5 & S6) ((Z1 & Z2 & Z3 & Z4 & Z5 & Z6) & HP) Ha. unfold evaluation_write.
  destruct (set_block_ok (ev_points r) 0 a 3 n (ev_points e)) as (P & EP & P1 & P2 & P3 & P4); auto; try lia. rewrite EP. cbn [bind].
  destruct (set_segment_ok (ev_weights r) a n (ev_weights e)) as (w & Ew & W1 & W2 & W3); auto; try lia. rewrite Ew. cbn [bind].
  destruct (set_segment_ok (ev_numeric r) a n (ev_numeric e)) as (u & Eu & Y1 & Y2 & Y3); auto; try lia. rewrite Eu. cbn [bind].
  destruct (set_segment_ok (ev_exact r) a n (ev_exact e)) as (x & Ex & X1 & X2 & X3); auto; try lia. rewrite Ex. cbn [bind].
  assert (G : forall d, (d < 3)%nat -> exists v, vec_set_segment (ev_numeric_gradient r d) a n (ev_numeric_gradient e d) = Ok v /\ v_size v = N /\
     (forall i, (i < n)%nat -> v_at v (a + i) = v_at (ev_numeric_gradient e d) i) /\ forall i, (i < a)%nat -> v_at v i = v_at (ev_numeric_gradient r d) i).
  { intros d Hd. destruct (S6 d Hd) as (A1 & _). destruct (Z6 d Hd) as (B1 & _).
    destruct (set_segment_ok (ev_numeric_gradient r d) a n (ev_numeric_gradient e d)) as (v & Ev & V1 & V2 & V3); auto; try lia. exists v. split; [exact Ev|]. split; [lia|]. split; [exact V2|]. intros i Hi. apply V3. lia. }
  assert (G' : forall d, (d < 3)%nat -> exists v, vec_set_segment (ev_exact_gradient r d) a n (ev_exact_gradient e d) = Ok v /\ v_size v = N /\
     (forall i, (i < n)%nat -> v_at v (a + i) = v_at (ev_exact_gradient e d) i) /\ forall i, (i < a)%nat -> v_at v i = v_at (ev_exact_gradient r d) i).
  { intros d Hd. destruct (S6 d Hd) as (_ & A1). destruct (Z6 d Hd) as (_ & B1).
    destruct (set_segment_ok (ev_exact_gradient r d) a n (ev_exact_gradient e d)) as (v & Ev & V1 & V2 & V3); auto; try lia. exists v. split; [exact Ev|]. split; [lia|]. split; [exact V2|]. intros i Hi. apply V3. lia. }
  destruct (G 0%nat ltac:(lia)) as (a0 & Ea0 & Sa0 & Va0 & Wa0). destruct (G 1%nat ltac:(lia)) as (a1 & Ea1 & Sa1 & Va1 & Wa1). destruct (G 2%nat ltac:(lia)) as (a2 & Ea2 & Sa2 & Va2 & Wa2).
  destruct (G' 0%nat ltac:(lia)) as (b0 & Eb0 & Sb0 & Vb0 & Wb0). destruct (G' 1%nat ltac:(lia)) as (b1 & Eb1 & Sb1 & Vb1 & Wb1). destruct (G' 2%nat ltac:(lia)) as (b2 & Eb2 & Sb2 & Vb2 & Wb2).
  rewrite Ea0. cbn [bind]. rewrite Ea1. cbn [bind]. rewrite Ea2. cbn [bind]. rewrite Eb0. cbn [bind]. rewrite Eb1. cbn [bind]. rewrite Eb2. cbn [bind].
  eexists. split; [reflexivity|]. split; [|split].
  - split; [simpl; lia|]. split; [simpl; lia|]. cbn [ev_weights ev_numeric ev_exact ev_numeric_gradient ev_exact_gradient]. split; [lia|]. split; [lia|]. split; [lia|].
    intros d Hd. destruct d as [|[|[|d]]]; [| | |lia]; cbn [nth]; auto.
  - intros k Hk. unfold point_of. cbn [ev_points ev_weights ev_numeric ev_exact ev_numeric_gradient ev_exact_gradient map nth].
    rewrite !P4, W3, Y3, X3, Wa0, Wa1, Wa2, Wb0, Wb1, Wb2 by lia. reflexivity.
  - intros q Hq. rewrite <- (HP q Hq). unfold point_of. cbn [ev_points ev_weights ev_numeric ev_exact ev_numeric_gradient ev_exact_gradient map nth].
    rewrite !P3, W2, Y2, X2, Va0, Va1, Va2, Vb0, Vb1, Vb2 by lia. replace (a + q - a)%nat with q by lia. rewrite !Nat.sub_0_r. reflexivity.
Qed.

Definition nsum (f : nat -> nat) (l : list nat) : nat := fold_right (fun c t => (f c + t)%nat) 0%nat l.
Lemma nsum_app f l l' : nsum f (l ++ l') = (nsum f l + nsum f l')%nat.
Proof. induction l as [|a l IH]; simpl; [reflexivity|]. rewrite IH. lia. Qed.
Lemma filter_seq_S act i : filter act (seq 0 (S i)) = filter act (seq 0 i) ++ if (act i : bool) then [i] else [].
Proof. rewrite seq_S, filter_app. simpl. reflexivity. Qed.
Lemma filter_seq_le act i n : (i <= n)%nat -> exists l, filter act (seq 0 n) = filter act (seq 0 i) ++ l.
Proof. intros H. exists (filter act (seq i (n - i))). rewrite <- filter_app, <- (Nat.add_0_l i) at 1. replace n with (i + (n - i))%nat at 1 by lia. rewrite seq_app. f_equal. Qed.

Lemma map_shift {A} (f g : nat -> A) a k : (forall q, (q < k)%nat -> f (a + q)%nat = g q) -> map f (seq a k) = map g (seq 0 k).
Proof.
  intros H. cut (forall s, (forall q, (s <= q < s + k)%nat -> f (a + q)%nat = g q) -> map f (seq (a + s) k) = map g (seq s k)).
  { intros Q. rewrite <- (Nat.add_0_r a) at 1. apply Q. intros q Hq. apply H. lia. }
  clear H. induction k as [|k IH]; intros s H; simpl; [reflexivity|]. rewrite H by lia. f_equal. replace (S (a + s)) with (a + S s)%nat by lia. apply IH. intros q Hq. apply H. lia.
Qed.

Section Evaluate.
Variables (m : Mesh2D) (info : MeshDOFsInfo) (data : DOFsData) (create : nat -> outcome LocalSpace) (C : nat -> CompForms).
Local Notation mesh := (md_mesh m).
Hypothesis HC : CreateDOFs 2 info mesh = Ok data.
Hypothesis HN : Cell2Ds_number mesh = num_cells info 2.
Hypothesis HF : forall c, (c < Cell2Ds_number mesh)%nat -> md_active2 m c = true -> comp_forms Pi0k_t create c (length (closure_dofs info mesh 2 c)) (C c).
Variables (uD uS : list R) (ul : nat -> Vec).
Hypothesis LD : length uD = NumberDOFs data.
Hypothesis LS : length uS = NumberStrongs data.
Hypothesis Hul : forall c, (c < Cell2Ds_number mesh)%nat -> local_solution data uD uS c = Ok (ul c).
Local Notation nq c := (v_size (cp_weights (C c))).
Local Notation act := (md_active2 m).
Variables (exact : option (R -> R -> R -> R)) (eg : option (R -> R -> R -> nat -> R)).
Local Notation pt c := (cell_point (C c) (v_at (ul c)) exact eg).

Lemma evaluation_list junk : exists r, evaluate_solution_on_quadrature_points m data create uD uS exact eg junk = Ok r /\
  evaluation_sizes r (nsum (fun c => nq c) (filter act (seq 0 (Cell2Ds_number mesh)))) /\
  map (point_of r) (seq 0 (nsum (fun c => nq c) (filter act (seq 0 (Cell2Ds_number mesh))))) = flat_map (fun c => map (pt c) (seq 0 (nq c))) (filter act (seq 0 (Cell2Ds_number mesh))).
Proof using HC HN HF LD LS Hul.
  set (n := Cell2Ds_number mesh) in *. unfold evaluate_solution_on_quadrature_points. fold n.
  set (Inv := fun i (t : nat * list nat * list Evaluate_Solution_On_Quadrature_Points_Data) => let '(total, counts, cells) := t in
     total = nsum (fun c => nq c) (filter act (seq 0 i)) /\ length counts = n /\ length cells = n /\
     forall c, (c < i)%nat -> act c = true -> nth_error counts c = Some (nq c) /\ exists e, nth_error cells c = Some e /\ evaluated e (nq c) (pt c)).
  match goal with |- context [for_loop n ?f (0%nat, repeat 0%nat n, ?cells)] => destruct (@for_loop_total _ Inv f n (0%nat, repeat 0%nat n, cells)) as (((total & counts) & cells') & El & HI) end.
  - simpl. rewrite !repeat_length. repeat split; auto. lia. lia.
  - intros i ((total & counts) & cells) Hi (HT & Lc & Ls & HI).
    destruct (act i) eqn:Ea; cbn [negb].
    + destruct (HF i Hi Ea) as [E1 E2 (P1 & P2) _ _]. rewrite E1. cbn [bind].
      destruct (local_solution_ok m info data HC HN i uD uS Hi LD LS) as (x & Ex & Sx & _). rewrite (Hul i Hi) in Ex. inversion Ex; subst x.
      destruct (evaluate_cell_ok data create i _ (C i) uD uS (ul i) exact eg (HF i Hi Ea) (Hul i Hi) Sx) as (e & Ee & He). rewrite Ee. cbn [bind]. fold (cp_points (C i)). rewrite P1.
      rewrite set_idx_in by lia. cbn [bind]. rewrite set_idx_in by lia. cbn [bind]. eexists. split; [reflexivity|]. split; [|split; [|split]].
      * rewrite filter_seq_S, Ea, nsum_app. simpl. lia.
      * rewrite length_replace. exact Lc.
      * rewrite length_replace. exact Ls.
      * intros c Hc Ac. destruct (Nat.eq_dec c i) as [->|N].
        -- split; [apply nth_error_replace_eq; lia|]. exists e. split; [apply nth_error_replace_eq; lia|exact He].
        -- rewrite !nth_error_replace_neq by auto. apply HI; [lia|auto].
    + eexists. split; [reflexivity|]. split; [rewrite filter_seq_S, Ea, app_nil_r; exact HT|]. split; [exact Lc|]. split; [exact Ls|].
      intros c Hc Ac. apply HI; [|auto]. assert (c <> i) by (intros ->; congruence). lia.
  - rewrite El. cbn [bind]. destruct HI as (HT & Lc & Ls & HI).
    set (N := nsum (fun c => nq c) (filter act (seq 0 n))) in *.
    set (Jnv := fun i (t : nat * Evaluate_Solution_On_Quadrature_Points_Data) => let '(a, r) := t in a = nsum (fun c => nq c) (filter act (seq 0 i)) /\ evaluation_sizes r N /\
       map (point_of r) (seq 0 a) = flat_map (fun c => map (pt c) (seq 0 (nq c))) (filter act (seq 0 i))).
    match goal with |- context [for_loop n ?f (0%nat, ?al)] => destruct (@for_loop_total _ Jnv f n (0%nat, al)) as ((a & r) & Er & (Ha & Sr & Hr)) end.
    + split; [reflexivity|]. split; [|reflexivity]. rewrite HT. unfold evaluation_alloc, evaluation_sizes. simpl. auto 10.
    + intros i (a & r) Hi (Ha & Sr & Hr). destruct (act i) eqn:Ea; cbn [negb].
      * destruct (HI i Hi Ea) as (Hk & e & He & Ve). unfold at_. rewrite Hk. cbn [bind]. rewrite He. cbn [bind].
        destruct (filter_seq_le act (S i) n ltac:(lia)) as (tl & Htl).
        assert (Hle : (a + nq i <= N)%nat). { unfold N. rewrite Htl, nsum_app, filter_seq_S, Ea, nsum_app. simpl. lia. }
        destruct (write_ok r e a (nq i) N _ Sr Ve Hle) as (r' & Er' & Sr' & K1 & K2). rewrite Er'. cbn [bind]. eexists. split; [reflexivity|]. split; [|split; [exact Sr'|]].
        -- rewrite filter_seq_S, Ea, nsum_app. simpl. lia.
        -- rewrite filter_seq_S, Ea, flat_map_app, seq_app, map_app. cbn [flat_map]. rewrite app_nil_r. f_equal.
           ++ rewrite <- Hr. apply map_ext_in. intros k Hk'. apply in_seq in Hk'. apply K1. lia.
           ++ cbn [Nat.add]. apply map_shift. exact K2.
      * eexists. split; [reflexivity|]. unfold Jnv. rewrite filter_seq_S, Ea, app_nil_r. auto.
    + rewrite Er. cbn [bind snd]. exists r. split; [reflexivity|]. split; [exact Sr|]. replace N with a by exact Ha. exact Hr.
Qed.

(** the loop of the errors *)
Lemma cells_loop (fe fn fx : nat -> R) (G : nat -> list R * list R * list R -> outcome (list R * list R * list R)) :
  (forall c s, (c < Cell2Ds_number mesh)%nat -> act c = true -> G c s = set_cell c (fe c) (fn c) (fx c) s) ->
  let n := Cell2Ds_number mesh in
  exists se sn sx, for_loop n (fun c s => if negb (act c) then Ok s else G c s) (repeat 0 n, repeat 0 n, repeat 0 n) = Ok (se, sn, sx) /\
    se = map (fun c => if act c then fe c else 0) (seq 0 n) /\ sn = map (fun c => if act c then fn c else 0) (seq 0 n) /\ sx = map (fun c => if act c then fx c else 0) (seq 0 n).
Proof using.
  clear. intros HG n.
  assert (M : forall f l, length l = n -> (forall c, (c < n)%nat -> nth_error l c = Some (if act c then f c else 0)) -> l = map (fun c => if act c then f c else 0) (seq 0 n)).
  { intros f l L H. apply nth_ext with (d := 0) (d' := 0); [rewrite map_length, seq_length; exact L|]. intros i Hi. rewrite L in Hi.
    rewrite (nth_error_nth _ _ 0 (H i Hi)). rewrite (nth_indep _ 0 (if act 0%nat then f 0%nat else 0)) by (rewrite map_length, seq_length; auto).
    rewrite (map_nth (fun c => if act c then f c else 0)), seq_nth by auto. reflexivity. }
  set (J := fun f i (l : list R) => length l = n /\ forall c, (c < n)%nat -> nth_error l c = Some (if (c <? i)%nat then (if act c then f c else 0) else 0)).
  assert (J0 : forall f, J f 0%nat (repeat 0 n)).
  { intros f. split; [apply repeat_length|]. intros c Hc. simpl. apply nth_error_repeat. exact Hc. }
  assert (JS : forall f i l, (i < n)%nat -> act i = true -> J f i l -> J f (S i) (replace l i (f i))).
  { intros f i l Hi Ai (L & H). split; [rewrite length_replace; exact L|]. intros c Hc. destruct (Nat.eq_dec c i) as [->|N].
    - rewrite nth_error_replace_eq by lia. replace (i <? S i)%nat with true by (symmetry; apply Nat.ltb_lt; lia). rewrite Ai. reflexivity.
    - rewrite nth_error_replace_neq by auto. rewrite H by auto. f_equal. destruct (Nat.ltb_spec c i), (Nat.ltb_spec c (S i)); try reflexivity; lia. }
  assert (JF : forall f i l, act i = false -> J f i l -> J f (S i) l).
  { intros f i l Ai (L & H). split; [exact L|]. intros c Hc. rewrite H by auto. f_equal. destruct (Nat.ltb_spec c i), (Nat.ltb_spec c (S i)); try reflexivity; [lia|]. replace c with i by lia. rewrite Ai. reflexivity. }
  destruct (@for_loop_total _ (fun i t => let '(se, sn, sx) := t in J fe i se /\ J fn i sn /\ J fx i sx) (fun c s => if negb (act c) then Ok s else G c s) n (repeat 0 n, repeat 0 n, repeat 0 n))
    as (((se & sn) & sx) & El & (J1 & J2 & J3)).
  - auto.
  - intros i ((se & sn) & sx) Hi (J1 & J2 & J3). destruct (act i) eqn:Ai; cbn [negb].
    + rewrite HG by auto. unfold set_cell. destruct J1 as (L1 & K1). destruct J2 as (L2 & K2). destruct J3 as (L3 & K3).
      rewrite !set_idx_in by lia. cbn [bind]. eexists. split; [reflexivity|]. split; [|split]; apply JS; auto; split; auto.
    + eexists. split; [reflexivity|]. split; [|split]; apply JF; auto.
  - exists se, sn, sx. split; [exact El|].
    assert (Q : forall f l, J f n l -> l = map (fun c => if act c then f c else 0) (seq 0 n)).
    { intros f l (L & H). apply M; [exact L|]. intros c Hc. rewrite H by auto. replace (c <? n)%nat with true by (symmetry; apply Nat.ltb_lt; exact Hc). reflexivity. }
    auto.
Qed.

Lemma sum_active (f : nat -> R) : sum_list (map (fun c => if act c then f c else 0) (seq 0 (Cell2Ds_number mesh))) = lsum f (filter act (seq 0 (Cell2Ds_number mesh))).
Proof using. clear. unfold sum_list. rewrite lsum_map, lsum_filter. reflexivity. Qed.
Lemma sum_points (F : PointData -> R) : lsum (fun c => rsum (nq c) (fun q => F (pt c q))) (filter act (seq 0 (Cell2Ds_number mesh))) =
  lsum F (flat_map (fun c => map (pt c) (seq 0 (nq c))) (filter act (seq 0 (Cell2Ds_number mesh)))).
Proof using. clear. rewrite lsum_flat_map. apply lsum_ext. intros c _. rewrite lsum_map, lsum_seq. reflexivity. Qed.

Lemma L2_ok : exists r, compute_error_L2 m data create uD uS exact = Ok r /\
  let F f := map (fun c => if act c then rsum (nq c) (fun q => f (pt c q)) else 0) (seq 0 (Cell2Ds_number mesh)) in
  let G f := sqrt (lsum f (flat_map (fun c => map (pt c) (seq 0 (nq c))) (filter act (seq 0 (Cell2Ds_number mesh))))) in
  let e p := pd_w p * ((pd_u p - pd_e p) * (pd_u p - pd_e p)) in let n p := pd_w p * (pd_u p * pd_u p) in let x p := pd_w p * (pd_e p * pd_e p) in
  pe_cells_error r = F e /\ pe_cells_numeric r = F n /\ pe_cells_exact r = F x /\ pe_error r = G e /\ pe_numeric r = G n /\ pe_exact r = G x.
Proof using HC HN HF LD LS Hul.
  set (e := fun p => pd_w p * ((pd_u p - pd_e p) * (pd_u p - pd_e p))). set (n := fun p => pd_w p * (pd_u p * pd_u p)). set (x := fun p => pd_w p * (pd_e p * pd_e p)).
  destruct (cells_loop (fun c => rsum (nq c) (fun q => e (pt c q))) (fun c => rsum (nq c) (fun q => n (pt c q))) (fun c => rsum (nq c) (fun q => x (pt c q)))
    (fun c s => space <- create c ;; error_L2_cell data space uD uS exact c s)) as (se & sn & sx & El & H1 & H2 & H3).
  - intros c s Hc Ac. destruct (HF c Hc Ac) as [E1 E2 (P1 & P2) (U1 & (U2 & U3)) (D1 & D2)]. rewrite E1. cbn [bind]. unfold error_L2_cell. rewrite U1. cbn [bind]. fold (cp_points (C c)). fold (cp_weights (C c)).
    destruct (exact_values_ok (cp_points (C c)) exact ltac:(lia)) as (y & Ey & Sy & Vy). rewrite Ey. cbn [bind]. rewrite (Hul c Hc). cbn [bind].
    destruct (local_solution_ok m info data HC HN c uD uS Hc LD LS) as (v & Ev & Sv & _). rewrite (Hul c Hc) in Ev. inversion Ev; subst v.
    unfold mmulv. rewrite U3, Sv, Nat.eqb_refl. cbn [bind]. unfold vsub. cbn [v_size]. rewrite U2, Sy, P1, Nat.eqb_refl. cbn [bind]. unfold vdot, vsquare. cbn [v_size v_at].
    rewrite ?U2, ?Sy, ?P1, ?Nat.eqb_refl. cbn [bind]. f_equal; apply rsum_ext; intros q Hq; unfold e, n, x, cell_point; cbn [pd_w pd_u pd_e]; unfold combine; rewrite ?U3, ?Vy; reflexivity.
  - exists (close_error (se, sn, sx)). split; [unfold compute_error_L2; rewrite El; reflexivity|]. cbv zeta. cbn [close_error pe_cells_error pe_cells_numeric pe_cells_exact pe_error pe_numeric pe_exact].
    subst se sn sx. rewrite !sum_active, !(sum_points _). repeat split; reflexivity.
Qed.

Lemma H1_ok : exists r, compute_error_H1 m data create uD uS eg = Ok r /\
  let F f := map (fun c => if act c then rsum (nq c) (fun q => f (pt c q)) else 0) (seq 0 (Cell2Ds_number mesh)) in
  let G f := sqrt (lsum f (flat_map (fun c => map (pt c) (seq 0 (nq c))) (filter act (seq 0 (Cell2Ds_number mesh))))) in
  let sq (v : nat -> R) := rsum 2 (fun d => v d * v d) in
  let e p := pd_w p * sq (fun d => nth d (pd_gu p) 0 - nth d (pd_ge p) 0) in let n p := pd_w p * sq (fun d => nth d (pd_gu p) 0) in let x p := pd_w p * sq (fun d => nth d (pd_ge p) 0) in
  pe_cells_error r = F e /\ pe_cells_numeric r = F n /\ pe_cells_exact r = F x /\ pe_error r = G e /\ pe_numeric r = G n /\ pe_exact r = G x.
Proof using HC HN HF LD LS Hul.
  set (sq := fun v : nat -> R => rsum 2 (fun d => v d * v d)).
  set (e := fun p => pd_w p * sq (fun d => nth d (pd_gu p) 0 - nth d (pd_ge p) 0)). set (n := fun p => pd_w p * sq (fun d => nth d (pd_gu p) 0)). set (x := fun p => pd_w p * sq (fun d => nth d (pd_ge p) 0)).
  destruct (cells_loop (fun c => rsum (nq c) (fun q => e (pt c q))) (fun c => rsum (nq c) (fun q => n (pt c q))) (fun c => rsum (nq c) (fun q => x (pt c q)))
    (fun c s => space <- create c ;; error_H1_cell data space uD uS eg c s)) as (se & sn & sx & El & H1 & H2 & H3).
  - intros c s Hc Ac. destruct (HF c Hc Ac) as [E1 E2 (P1 & P2) (U1 & (U2 & U3)) (D1 & D2)]. rewrite E1. cbn [bind]. unfold error_H1_cell. rewrite D1. cbn [bind]. fold (cp_points (C c)). fold (cp_weights (C c)).
    destruct (exact_gradient_values_ok (cp_points (C c)) eg ltac:(lia)) as (g0 & g1 & g2 & Eg & Sg & Vg). rewrite Eg. cbn [bind]. rewrite (Hul c Hc). cbn [bind].
    destruct (local_solution_ok m info data HC HN c uD uS Hc LD LS) as (v & Ev & Sv & _). rewrite (Hul c Hc) in Ev. inversion Ev; subst v.
    destruct (D2 0%nat ltac:(lia)) as (R0' & C0'). destruct (D2 1%nat ltac:(lia)) as (R1' & C1').
    pose proof (Sg 0%nat ltac:(lia)) as S0. pose proof (Sg 1%nat ltac:(lia)) as S1. cbn [nth] in S0, S1.
    unfold at_. cbn [nth_error bind]. unfold mmulv. rewrite C0', Sv, Nat.eqb_refl. cbn [bind]. unfold vsub. cbn [v_size]. rewrite R0', S0, P1, Nat.eqb_refl. cbn [bind].
    rewrite C1', Nat.eqb_refl. cbn [bind v_size]. rewrite ?R1', ?S1, ?P1, ?Nat.eqb_refl. cbn [bind]. unfold vadd, vsquare. cbn [v_size]. rewrite ?R0', ?R1', ?S0, ?S1, ?P1, ?Nat.eqb_refl. cbn [bind].
    unfold vdot. cbn [v_size v_at]. rewrite ?R0', ?S0, ?P1, ?Nat.eqb_refl. cbn [bind].
    pose proof (fun q => Vg 0%nat q ltac:(lia)) as V0. pose proof (fun q => Vg 1%nat q ltac:(lia)) as V1. cbn [nth] in V0, V1.
    f_equal; apply rsum_ext; intros q Hq; unfold e, n, x, sq, cell_point; cbn [pd_w pd_gu pd_ge map]; rewrite rsum2; cbn [nth]; unfold combine; rewrite ?C0', ?C1', ?V0, ?V1; reflexivity.
  - exists (close_error (se, sn, sx)). split; [unfold compute_error_H1; rewrite El; reflexivity|]. cbv zeta. cbn [close_error pe_cells_error pe_cells_numeric pe_cells_exact pe_error pe_numeric pe_exact].
    subst se sn sx. rewrite !sum_active, !(sum_points _). repeat split; reflexivity.
Qed.

Lemma all_points_length : length (all_points m C ul exact eg) = nsum (fun c => nq c) (filter act (seq 0 (Cell2Ds_number mesh))).
Proof using.
  clear. unfold all_points. induction (filter act (seq 0 (Cell2Ds_number mesh))) as [|c l IH]; simpl; [reflexivity|]. rewrite app_length, map_length, seq_length, IH. reflexivity.
Qed.
Lemma evaluation_ok junk : exists r, evaluate_solution_on_quadrature_points m data create uD uS exact eg junk = Ok r /\
  evaluation_sizes r (length (all_points m C ul exact eg)) /\ map (point_of r) (seq 0 (length (all_points m C ul exact eg))) = all_points m C ul exact eg.
Proof using HC HN HF LD LS Hul. rewrite all_points_length. apply evaluation_list. Qed.
Lemma errors_ok :
  (exists r, compute_error_L2 m data create uD uS exact = Ok r /\ reports_points m C ul exact eg sq_error sq_numeric sq_exact r) /\
  (exists r, compute_error_H1 m data create uD uS eg = Ok r /\ reports_points m C ul exact eg sq_gradient_error sq_gradient_numeric sq_gradient_exact r).
Proof using HC HN HF LD LS Hul. split; [exact L2_ok|exact H1_ok]. Qed.
End Evaluate.
