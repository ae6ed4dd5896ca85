(** The weak term and the values at the vertices. *)
From Coq Require Import List Arith Bool Reals Lra Lia.
From Verif Require Import Base RSum MatrixModel DofsModel DofsSpec DofsProofs DofsProofs2 AssemblerModel AssemblerSpec AssemblerProofs AssemblerProofs2
  EquationModel EquationSpec EquationProofs VemQuadModel VemModel VemSpec DriverModel DriverSpec DriverSpec2 DriverProofs DriverProofs2 DriverProofs3 DriverProofs4 DriverProofs5.
Import ListNotations.
Local Open Scope R_scope.

(** f adds F r to entry r of vectors of size N *)
Definition adds (N : nat) (f : list R -> outcome (list R)) (F : nat -> R) : Prop :=
  forall s, length s = N -> exists s', f s = Ok s' /\ length s' = N /\ forall r, nth r s' 0 = nth r s 0 + F r.
Lemma adds_ext N f g F G : (forall s, f s = g s) -> (forall r, F r = G r) -> adds N f F -> adds N g G.
Proof. intros H HF HA s Ls. destruct (HA s Ls) as (s' & E & L & V). exists s'. rewrite <- H. split; [auto|]. split; [auto|]. intros r. rewrite V, HF. reflexivity. Qed.
Lemma adds_bind N f g F G : adds N f F -> adds N g G -> adds N (fun s => t <- f s ;; g t) (fun r => F r + G r).
Proof.
  intros HF HG s Ls. destruct (HF s Ls) as (s' & E & L & V). destruct (HG s' L) as (t & E' & L' & V'). exists t. rewrite E. cbn [bind]. split; [auto|]. split; [auto|].
  intros r. rewrite V', V. ring.
Qed.
Lemma adds_none N : adds N (fun s => Ok s) (fun _ => 0).
Proof. intros s Ls. exists s. split; [auto|]. split; [auto|]. intros r. ring. Qed.
Lemma adds_loop N n f F : (forall i, (i < n)%nat -> adds N (f i) (F i)) -> adds N (for_loop n f) (fun r => rsum n (fun i => F i r)).
Proof.
  intros H s Ls. destruct (@for_loop_total _ (fun i t => length t = N /\ forall r, nth r t 0 = nth r s 0 + rsum i (fun i => F i r)) f n s) as (s' & E & L & V).
  - split; [auto|]. intros r. simpl. ring.
  - intros i t Hi (L & V). destruct (H i Hi t L) as (t' & E & L' & V'). exists t'. split; [auto|]. split; [auto|]. intros r. rewrite V', V. simpl. ring.
  - exists s'. auto.
Qed.
Lemma adds_fold N {A} (l : list A) f F : (forall a, In a l -> adds N (fun s => f s a) (F a)) -> adds N (foldM f l) (fun r => lsum (fun a => F a r) l).
Proof.
  induction l as [|a l IH]; intros H.
  - apply adds_none.
  - simpl. apply (adds_bind N (fun s => f s a) (foldM f l) (F a)); [apply H; left; auto|]. apply IH. intros b Hb. apply H. right. auto.
Qed.

Section Weak.
Variables (m : Mesh2D) (info info' : MeshDOFsInfo) (data : DOFsData).
Local Notation mesh := (md_mesh m).
Hypothesis HC : CreateDOFs 2 info' mesh = Ok data.
Hypothesis HN : Cell2Ds_number mesh = num_cells info' 2.

Lemma add_weak_ok d e row values off step : (d <= 2)%nat -> (e < num_cells info' d)%nat -> nth_error (CellsDOFs data d) e = Some row ->
  (forall i, (i < requested info' d e)%nat -> (off + step * i < v_size values)%nat) ->
  adds (NumberDOFs data) (add_weak row values off step)
    (fun r => rsum (requested info' d e) (fun i => if free_is data (entity_dof d e i) r then v_at values (off + step * i) else 0)).
Proof using HC HN.
  intros Hd He Hr Hv. destruct (valid_row 2 info' mesh data ltac:(lia) HC d e Hd He) as (row' & Er & Lr & HL). rewrite Er in Hr. inversion Hr; subst row'.
  unfold add_weak. rewrite <- Lr. apply (adds_loop _ _ _ (fun i r => if free_is data (entity_dof d e i) r then v_at values (off + step * i) else 0)).
  intros i Hi s Ls.
  destruct (valid_lookup 2 info' mesh data ltac:(lia) HC (entity_dof d e i)) as (x & t & Hx & _ & Hcase).
  { split; [auto|]. split; [auto|]. simpl. lia. }
  unfold at_. rewrite <- HL, Hx. cbn [bind]. unfold free_is. rewrite Hx. destruct Hcase as [(_ & Ty & B)|(_ & Ty & B)].
  - rewrite Ty. unfold is_type. rewrite Ty. cbn [andb]. exists s. split; [auto|]. split; [auto|]. intros r. ring.
  - rewrite Ty. unfold is_type. rewrite Ty. cbn [andb]. rewrite vec_get_in by (apply Hv; lia). cbn [bind].
    destruct (AddValue_in s (dof_index x) (v_at values (off + step * i))) as (s' & E & L); [lia|]. exists s'. split; [auto|]. split; [lia|].
    intros r. destruct (AddValue_ok _ _ _ _ E) as (_ & _ & V). rewrite V. destruct (Nat.eqb_spec (dof_index x) r); [subst; ring|ring].
Qed.

Lemma edge_vertex_range e p : (e < num_cells info' 1)%nat -> (p < 2)%nat -> (p < length (Cell1D_vertices mesh e))%nat /\ (nth p (Cell1D_vertices mesh e) 0%nat < num_cells info' 0)%nat.
Proof using HC HN.
  intros He Hp. destruct (wf m info' data HC 1%nat e) as (_ & H2 & H3); auto. specialize (H2 eq_refl). split; [lia|]. apply (H3 0%nat). simpl. apply in_app_iff. left.
  apply in_map_iff. exists (nth p (Cell1D_vertices mesh e) 0%nat). split; auto.
  destruct (Cell1D_vertices mesh e) as [|a [|b l]]; simpl in *; try lia. destruct p as [|[|p]]; simpl; auto. lia.
Qed.

Hypothesis HB : forall e, (e < num_cells info' 1)%nat -> exists b, nth_error (CellsBoundaryInfo info 1) e = Some b.

Lemma weak_values_ok gauss create P c sp B g ed : weak_cell info info' mesh create gauss P c sp B -> (ed < m_cols (pg_Vertices P))%nat ->
  m_cols (q_Points gauss) = v_size (q_Weights gauss) ->
  exists b, weak_values gauss P sp g ed = Ok b /\ v_size b = m_cols B /\
    forall j, v_at b j = rsum (v_size (q_Weights gauss)) (fun q => v_at (q_Weights gauss) q * Rabs (v_at (pg_EdgesLength P) ed) *
      at_point g (edge_point P ed (m_at (q_Points gauss) 0%nat q)) * m_at B q j).
Proof using.
  clear HB HN HC. intros [W1 W2 W3 W4 (W5 & W6) W7 W8 (W9 & W10)] Hed HQ. unfold weak_values. unfold idx_.
  rewrite (nth_error_nth' _ true) by lia. cbn [bind].
  assert (Hmod : ((ed + 1) mod m_cols (pg_Vertices P) < m_cols (pg_Vertices P))%nat) by (apply Nat.mod_upper_bound; lia).
  assert (Hs : mat_col (pg_Vertices P) 3 (if nth ed (pg_EdgesDirection P) true then ed else ((ed + 1) mod m_cols (pg_Vertices P))%nat) =
     Ok (fun i => m_at (pg_Vertices P) i (if nth ed (pg_EdgesDirection P) true then ed else ((ed + 1) mod m_cols (pg_Vertices P))%nat))).
  { unfold mat_col. rewrite W4, Nat.eqb_refl. cbn [andb]. destruct (nth ed (pg_EdgesDirection P) true).
    - apply Nat.ltb_lt in Hed. rewrite Hed. reflexivity.
    - apply Nat.ltb_lt in Hmod. rewrite Hmod. reflexivity. }
  rewrite Hs. cbn [bind]. unfold mat_col. rewrite W5, W6, Nat.eqb_refl. pose proof Hed as Hed'. apply Nat.ltb_lt in Hed'. rewrite Hed'. cbn [andb bind].
  rewrite vec_get_in by lia. cbn [bind]. rewrite function_evaluation_ok by (right; simpl; lia). cbn [bind]. rewrite W8. cbn [bind]. cbn [m_cols].
  set (w := {| v_size := v_size (q_Weights gauss); v_at := fun q => v_at (q_Weights gauss) q * Rabs (v_at (pg_EdgesLength P) ed) |}).
  match goal with |- exists b, twv B w ?gv = _ /\ _ => destruct (twv_ok B w gv (v_size (q_Weights gauss)) (m_cols B)) as (b & Eb & (L & V)) end.
  { split; auto. } { reflexivity. } { simpl. exact HQ. }
  exists b. split; [exact Eb|]. split; [exact L|]. intros j. rewrite V. apply rsum_ext. intros q Hq. unfold w. cbn [v_at m_at].
  unfold at_point, edge_point. destruct (nth ed (pg_EdgesDirection P) true).
  - rewrite !Rmult_1_l. ring.
  - replace (m_at (pg_Vertices P) 0 ((ed + 1) mod m_cols (pg_Vertices P))%nat + -1 * m_at (q_Points gauss) 0 q * m_at (pg_EdgesTangent P) 0 ed)
      with (m_at (pg_Vertices P) 0 ((ed + 1) mod m_cols (pg_Vertices P))%nat - m_at (q_Points gauss) 0 q * m_at (pg_EdgesTangent P) 0 ed) by ring.
    replace (m_at (pg_Vertices P) 1 ((ed + 1) mod m_cols (pg_Vertices P))%nat + -1 * m_at (q_Points gauss) 0 q * m_at (pg_EdgesTangent P) 1 ed)
      with (m_at (pg_Vertices P) 1 ((ed + 1) mod m_cols (pg_Vertices P))%nat - m_at (q_Points gauss) 0 q * m_at (pg_EdgesTangent P) 1 ed) by ring.
    replace (m_at (pg_Vertices P) 2 ((ed + 1) mod m_cols (pg_Vertices P))%nat + -1 * m_at (q_Points gauss) 0 q * m_at (pg_EdgesTangent P) 2 ed)
      with (m_at (pg_Vertices P) 2 ((ed + 1) mod m_cols (pg_Vertices P))%nat - m_at (q_Points gauss) 0 q * m_at (pg_EdgesTangent P) 2 ed) by ring.
    ring.
Qed.

Lemma edge_test_sum e r n (a : nat -> R) (B : nat -> nat -> R) (v : nat -> R) : (forall j, v j = rsum n (fun q => a q * B q j)) ->
  rsum 2 (fun p => rsum (requested info' 0 (nth p (Cell1D_vertices mesh e) 0%nat)) (fun i =>
    if free_is data (entity_dof 0 (nth p (Cell1D_vertices mesh e) 0%nat) i) r then v (p + 0 * i)%nat else 0)) +
  rsum (requested info' 1 e) (fun i => if free_is data (entity_dof 1 e i) r then v (2 + 1 * i)%nat else 0) =
  rsum n (fun q => a q * edge_test info' mesh data e r (B q)).
Proof using.
  clear HB HN HC. intros Hv.
  assert (S1 : forall k (t : nat -> bool) (h : nat -> nat), rsum k (fun i => if t i then v (h i) else 0) = rsum n (fun q => a q * rsum k (fun i => if t i then B q (h i) else 0))).
  { intros k t h. rewrite (rsum_ext k _ (fun i => rsum n (fun q => a q * (if t i then B q (h i) else 0)))).
    - rewrite rsum_swap. apply rsum_ext. intros q Hq. rewrite rsum_scal. reflexivity.
    - intros i Hi. destruct (t i); [apply Hv|]. symmetry. apply rsum_0. intros; ring. }
  unfold edge_test. rewrite (rsum_ext n _ (fun q => a q * rsum 2 (fun p => rsum (requested info' 0 (nth p (Cell1D_vertices mesh e) 0%nat)) (fun i =>
    if free_is data (entity_dof 0 (nth p (Cell1D_vertices mesh e) 0%nat) i) r then B q p else 0)) + a q * rsum (requested info' 1 e) (fun i => if free_is data (entity_dof 1 e i) r then B q (2 + i)%nat else 0))) by (intros; ring).
  rewrite rsum_plus. f_equal.
  - rewrite (rsum_ext n _ (fun q => rsum 2 (fun p => a q * rsum (requested info' 0 (nth p (Cell1D_vertices mesh e) 0%nat)) (fun i =>
      if free_is data (entity_dof 0 (nth p (Cell1D_vertices mesh e) 0%nat) i) r then B q p else 0)))) by (intros; symmetry; apply rsum_scal).
    rewrite (rsum_swap n 2). apply rsum_ext. intros p Hp. rewrite (S1 _ _ (fun i => (p + 0 * i)%nat)). apply rsum_ext. intros q Hq. f_equal. apply rsum_ext. intros i Hi.
    rewrite Nat.mul_0_l, Nat.add_0_r. reflexivity.
  - rewrite (S1 _ _ (fun i => (2 + 1 * i)%nat)). apply rsum_ext. intros q Hq. f_equal. apply rsum_ext. intros i Hi. rewrite Nat.mul_1_l. reflexivity.
Qed.

Lemma weak_term_ok geometry gauss create g sp B :
  (forall c, (c < Cell2Ds_number mesh)%nat -> md_active2 m c = true -> weak_cell info info' mesh create gauss (geometry c) c (sp c) (B c)) ->
  m_cols (q_Points gauss) = v_size (q_Weights gauss) ->
  exists b, assemble_weak_term m info data geometry gauss create g = Ok b /\ length b = NumberDOFs data /\
    forall r, nth r b 0 = active_sum m (fun c => weak_form info info' mesh data (geometry c) gauss (B c) g c r).
Proof using HB HC HN.
  intros HW HQ. unfold assemble_weak_term, for_loop at 1. rewrite for_filter.
  match goal with |- exists b, foldM ?f ?l ?s = _ /\ _ => assert (HA : adds (NumberDOFs data) (foldM f l)
    (fun r => lsum (fun c => weak_form info info' mesh data (geometry c) gauss (B c) g c r) l)) end.
  2:{ destruct (HA (repeat 0 (NumberDOFs data))) as (b & E & L & V); [apply repeat_length|]. exists b. split; [exact E|]. split; [exact L|]. intros r. rewrite V.
      rewrite nth_repeat. unfold active_sum. ring. }
  apply (adds_fold _ _ _ (fun c r => weak_form info info' mesh data (geometry c) gauss (B c) g c r)). intros c Hc. apply (in_actives m) in Hc.
  destruct Hc as (Hc1 & Hc2). pose proof (HW c Hc1 Hc2) as Wc. pose proof Wc as [W1 W2 W3 W4 (W5 & W6) W7 W8 (W9 & W10)]. rewrite W1. cbn [bind].
  unfold weak_form. apply adds_loop. intros ed Hed. cbv zeta. set (e := nth ed (Cell2D_edges mesh c) 0%nat).
  assert (He : In e (Cell2D_edges mesh c)) by (apply nth_In; lia).
  assert (Hen : (e < num_cells info' 1)%nat) by (apply (edge_range m info' data HC HN c e Hc1 He)).
  unfold idx_ at 1. rewrite (nth_error_nth' _ 0%nat) by lia. fold e. cbn [bind]. destruct (HB e Hen) as (bi & Hbi). unfold at_ at 1. rewrite Hbi. cbn [bind].
  unfold weak_edge. rewrite Hbi. destruct (bi_type bi) eqn:Ty; cbn [is_weak negb]; try apply adds_none.
  destruct (weak_values_ok gauss create (geometry c) c (sp c) (B c) (g (bi_marker bi)) ed Wc Hed HQ) as (b & Eb & Lb & Vb). rewrite Eb. cbn [bind].
  assert (Mk : marker_of info 1 e = bi_marker bi) by (unfold marker_of; rewrite Hbi; reflexivity). rewrite Mk.
  eapply adds_ext; [intros s; reflexivity|intros r; apply (edge_test_sum e r _ _ (m_at (B c)) (v_at b) Vb)|].
  apply (adds_bind (NumberDOFs data) (fun s => for_loop 2 _ s) (fun s => row <- at_ (CellsDOFs data 1) e ;; add_weak row b 2 1 s)).
  - apply (adds_loop _ 2 _ (fun p r => rsum (requested info' 0 (nth p (Cell1D_vertices mesh e) 0%nat)) (fun i =>
      if free_is data (entity_dof 0 (nth p (Cell1D_vertices mesh e) 0%nat) i) r then v_at b (p + 0 * i) else 0))).
    intros p Hp. destruct (edge_vertex_range e p Hen Hp) as (Hpl & Hv). unfold idx_. rewrite (nth_error_nth' _ 0%nat) by lia. cbn [bind].
    destruct (valid_row 2 info' mesh data ltac:(lia) HC 0 (nth p (Cell1D_vertices mesh e) 0%nat) ltac:(lia) Hv) as (row & Er & _).
    unfold at_. rewrite Er. cbn [bind]. apply (add_weak_ok 0 (nth p (Cell1D_vertices mesh e) 0%nat) row b p 0); auto; try lia. intros i Hi. specialize (W10 e He). lia.
  - destruct (valid_row 2 info' mesh data ltac:(lia) HC 1 e ltac:(lia) Hen) as (row & Er & _).
    unfold at_. rewrite Er. cbn [bind]. apply (add_weak_ok 1 e row b 2 1); auto; try lia. intros i Hi. specialize (W10 e He). lia.
Qed.
End Weak.

(** the points of the weak term depend only on the edge of the mesh *)
Lemma edge_point_mesh m c P ed t k : geometry_of m c P -> (ed < m_cols (pg_Vertices P))%nat -> (k < 3)%nat ->
  let e := nth ed (Cell2D_edges (md_mesh m) c) 0%nat in
  edge_point P ed t k = md_coords m (nth 0 (Cell1D_vertices (md_mesh m) e) 0%nat) k +
    t * (md_coords m (nth 1 (Cell1D_vertices (md_mesh m) e) 0%nat) k - md_coords m (nth 0 (Cell1D_vertices (md_mesh m) e) 0%nat) k).
Proof.
  intros (G1 & G2 & G3 & G4) Hed Hk e. unfold edge_point. specialize (G4 ed Hed). cbv zeta in G4. fold e in G4.
  assert (Hmod : ((ed + 1) mod m_cols (pg_Vertices P) < m_cols (pg_Vertices P))%nat) by (apply Nat.mod_upper_bound; lia).
  rewrite (G3 ed k Hed Hk). rewrite !G2 by auto. destruct (nth ed (pg_EdgesDirection P) true); destruct G4 as (-> & ->); ring.
Qed.

(** ** Values at the vertices *)
Lemma extract_ok m info data uD uS exact : CreateDOFs 2 info (md_mesh m) = Ok data -> Cell0Ds_number (md_mesh m) = num_cells info 0 ->
  length uD = NumberDOFs data -> length uS = NumberStrongs data ->
  exists un ue, extract_solution_on_cell0Ds m data uD uS exact = Ok (un, ue) /\
    length un = Cell0Ds_number (md_mesh m) /\ length ue = Cell0Ds_number (md_mesh m) /\
    forall v, (v < Cell0Ds_number (md_mesh m))%nat ->
      (md_active0 m v = false -> nth v un 0 = 0 /\ nth v ue 0 = 0) /\
      (md_active0 m v = true ->
         nth v ue 0 = match exact with Some f => at_point f (md_coords m v) | None => 0 end /\
         (requested info 0 v = 0%nat -> nth v un 0 = 0) /\
         ((0 < requested info 0 v)%nat -> value_of data uD uS (entity_dof 0 v (requested info 0 v - 1)) = Some (nth v un 0))).
Proof.
  intros HC HN LD LS. set (n := Cell0Ds_number (md_mesh m)).
  set (ok := fun v (un ue : list R) => (md_active0 m v = false -> nth v un 0 = 0 /\ nth v ue 0 = 0) /\
      (md_active0 m v = true ->
         nth v ue 0 = match exact with Some f => at_point f (md_coords m v) | None => 0 end /\
         (requested info 0 v = 0%nat -> nth v un 0 = 0) /\
         ((0 < requested info 0 v)%nat -> value_of data uD uS (entity_dof 0 v (requested info 0 v - 1)) = Some (nth v un 0)))).
  unfold extract_solution_on_cell0Ds. fold n.
  match goal with |- exists un ue, for_loop n ?f ?s = _ /\ _ => destruct (@for_loop_total _ (fun i (st : list R * list R) => length (fst st) = n /\ length (snd st) = n /\
     (forall v, (v < i)%nat -> ok v (fst st) (snd st)) /\ forall v, (i <= v)%nat -> nth v (fst st) 0 = 0 /\ nth v (snd st) 0 = 0) f n s) as ((un & ue) & E & L1 & L2 & H & _) end.
  - cbn [fst snd]. rewrite !repeat_length. split; [auto|]. split; [auto|]. split; [intros; lia|]. intros v _. rewrite !nth_repeat. auto.
  - intros v (un & ue) Hv (L1 & L2 & H1 & H2). cbn [fst snd] in *. destruct (md_active0 m v) eqn:Ac; cbn [negb].
    2:{ exists (un, ue). split; [reflexivity|]. split; [auto|]. split; [auto|]. split.
        - intros v' Hv'. destruct (Nat.eq_dec v' v) as [->|N]; [|apply H1; lia]. split; [intros _; apply H2; cbn [fst snd]; lia|congruence].
        - intros v' Hv'. apply H2. cbn [fst snd]. lia. }
    assert (X : exists ue', match exact with
          | None => Ok ue
          | Some f => x <- function_evaluation (column3 (md_coords m v)) f ;; x0 <- vec_get x 0 ;; set_idx ue v x0 end = Ok ue' /\ length ue' = n /\
          nth v ue' 0 = match exact with Some f => at_point f (md_coords m v) | None => 0 end /\ forall w, w <> v -> nth w ue' 0 = nth w ue 0).
    { destruct exact as [f|].
      - rewrite function_evaluation_ok by (right; simpl; lia). cbn [bind]. unfold vec_get. cbn [v_size column3 m_cols Nat.ltb Nat.leb bind v_at m_at].
        rewrite set_idx_in by lia. eexists. split; [reflexivity|]. rewrite length_replace. split; [auto|]. split; [apply nth_replace_same; lia|].
        intros w Hw. apply nth_replace_other. auto.
      - exists ue. split; [auto|]. split; [auto|]. split; [apply H2; cbn [fst snd]; lia|auto]. }
    destruct X as (ue' & -> & L2' & V2 & V2'). cbn [bind].
    destruct (valid_row 2 info (md_mesh m) data ltac:(lia) HC 0 v ltac:(lia) ltac:(lia)) as (row & Er & Lr & HL). unfold at_ at 1. rewrite Er. cbn [bind].
    match goal with |- exists s', bind (for_loop ?N ?f ?s) _ = _ /\ _ => destruct (@for_loop_total _ (fun i (t : list R) => length t = n /\ (forall w, w <> v -> nth w t 0 = nth w un 0) /\
      (i = 0%nat -> nth v t 0 = 0) /\ ((0 < i)%nat -> value_of data uD uS (entity_dof 0 v (i - 1)) = Some (nth v t 0))) f N s) as (un' & E' & L1' & V1 & V1a & V1b) end.
    + split; [auto|]. split; [auto|]. split; [intros _; apply H2; cbn [fst snd]; lia|intros; lia].
    + intros i t Hi (Lt & T1 & T2 & T3). rewrite Lr in Hi.
      destruct (valid_lookup 2 info (md_mesh m) data ltac:(lia) HC (entity_dof 0 v i)) as (x & ty & Hx & _ & Hcase).
      { split; [simpl; lia|]. split; [simpl; lia|]. simpl. lia. }
      unfold at_. rewrite <- HL, Hx. cbn [bind].
      assert (exists y, value_of data uD uS (entity_dof 0 v i) = Some y /\ match dof_type x with
         | TDOF => y <- idx_ uD (dof_index x);; set_idx t v y | TStrong => y <- idx_ uS (dof_index x);; set_idx t v y | TUnknown => Throw end = Ok (replace t v y)) as (y & Ey & Ef).
      { unfold value_of. rewrite Hx. destruct Hcase as [(_ & Ty & Bd)|(_ & Ty & Bd)]; rewrite Ty.
        - exists (nth (dof_index x) uS 0). rewrite (nth_error_nth' _ 0) by lia. split; [reflexivity|]. unfold idx_. rewrite (nth_error_nth' _ 0) by lia. cbn [bind]. apply set_idx_in. lia.
        - exists (nth (dof_index x) uD 0). rewrite (nth_error_nth' _ 0) by lia. split; [reflexivity|]. unfold idx_. rewrite (nth_error_nth' _ 0) by lia. cbn [bind]. apply set_idx_in. lia. }
      exists (replace t v y). split; [destruct (dof_type x); exact Ef|]. rewrite length_replace. split; [auto|]. split.
      * intros w Hw. rewrite nth_replace_other by auto. apply T1. auto.
      * split; [intros; lia|]. intros _. rewrite nth_replace_same by lia. simpl. rewrite Nat.sub_0_r. exact Ey.
    + rewrite E'. cbn [bind]. exists (un', ue'). split; [reflexivity|]. cbn [fst snd]. split; [auto|]. split; [auto|]. rewrite Lr in *. split.
      * intros v' Hv'. destruct (Nat.eq_dec v' v) as [->|N].
        -- split; [congruence|]. intros _. split; [exact V2|]. split; [exact V1a|exact V1b].
        -- assert (v' < v)%nat as Hlt by lia. specialize (H1 v' Hlt). unfold ok in *. rewrite V1, V2' by auto. exact H1.
      * intros v' Hv'. rewrite V1, V2' by lia. apply H2. lia.
  - exists un, ue. cbn [fst snd] in *. split; [exact E|]. split; [exact L1|]. split; [exact L2|]. exact H.
Qed.
