(** Proofs: unknowns of a cell by place, sums over the edges seen from the cells. *)
From Coq Require Import List Arith Bool Reals Lia Lra.
From Verif Require Import Base RSum MatrixModel DofsModel DofsSpec AssemblerModel AssemblerSpec VemQuadModel VemQuadSpec GreenSpec VemModel VemSpec
  DriverModel DriverSpec DriverSpec2 Pcc2dSpec DriverProofs DriverProofs2 DriverProofs3 DriverProofs4 DriverProofs5 DriverProofs6 DriverProofs7.
Import ListNotations.
Local Open Scope R_scope.

Lemma nth_error_flat {A B} (f : A -> list B) n l i q x : (forall a, In a l -> length (f a) = n) -> nth_error l i = Some x -> (q < n)%nat ->
  nth_error (flat_map f l) (n * i + q) = nth_error (f x) q.
Proof.
  revert i. induction l as [|a l IH]; intros i Hl Hi Hq; [destruct i; discriminate|]. cbn [flat_map].
  assert (La : length (f a) = n) by (apply Hl; left; auto). destruct i.
  - injection Hi as <-. rewrite nth_error_app1 by lia. f_equal. lia.
  - cbn in Hi. rewrite nth_error_app2 by lia. rewrite La. replace (n * S i + q - n)%nat with (n * i + q)%nat by lia. apply IH; auto. intros; apply Hl; right; auto.
Qed.
Lemma length_flat {A B} (f : A -> list B) n l : (forall a, In a l -> length (f a) = n) -> length (flat_map f l) = (n * length l)%nat.
Proof. induction l; intros Hl; cbn [flat_map length]; [lia|]. rewrite app_length, IHl, Hl; [lia|left; auto|intros; apply Hl; right; auto]. Qed.
Lemma nth_error_nth_d {A} (l : list A) i d : (i < length l)%nat -> nth_error l i = Some (nth i l d).
Proof. revert i. induction l; intros i Hi; cbn in *; [lia|]. destruct i; cbn; auto. apply IHl. lia. Qed.

(** ** Places *)
Section Places.
Variables (info : MeshDOFsInfo) (mesh : Mesh) (c n1 n2 : nat).
Hypothesis HV : forall v, In v (Cell2D_vertices mesh c) -> requested info 0 v = 1%nat.
Hypothesis HE : forall e, In e (Cell2D_edges mesh c) -> requested info 1 e = n1.
Hypothesis HC : requested info 2 c = n2.
Let nv := length (Cell2D_vertices mesh c).
Let ne := length (Cell2D_edges mesh c).

Lemma closure_split : closure_dofs info mesh 2 c =
  map (fun v => entity_dof 0 v 0) (Cell2D_vertices mesh c) ++ flat_map (fun e => map (entity_dof 1 e) (seq 0 n1)) (Cell2D_edges mesh c) ++ map (entity_dof 2 c) (seq 0 n2).
Proof using HV HE HC.
  unfold closure_dofs. cbn [closure_entities]. rewrite !flat_map_app. f_equal; [|f_equal].
  - revert HV. generalize (Cell2D_vertices mesh c). clear. induction l; intros HV; cbn [map flat_map]; auto. cbn [fst snd]. rewrite HV by (left; auto). cbn [seq map app].
    f_equal. apply IHl. intros; apply HV; right; auto.
  - revert HE. generalize (Cell2D_edges mesh c). clear. induction l; intros HE; cbn [map flat_map]; auto. cbn [fst snd]. rewrite HE by (left; auto). f_equal. apply IHl. intros; apply HE; right; auto.
  - cbn [flat_map fst snd]. rewrite app_nil_r, HC. reflexivity.
Qed.
Lemma closure_length : length (closure_dofs info mesh 2 c) = (nv + n1 * ne + n2)%nat.
Proof using HV HE HC.
  rewrite closure_split, !app_length, !map_length, seq_length, (length_flat _ n1); [unfold nv, ne; lia|]. intros. now rewrite map_length, seq_length.
Qed.
Lemma place_vertex i : (i < nv)%nat -> nth_error (closure_dofs info mesh 2 c) i = Some (entity_dof 0 (nth i (Cell2D_vertices mesh c) 0%nat) 0).
Proof using HV HE HC.
  intros Hi. rewrite closure_split, nth_error_app1 by (now rewrite map_length). rewrite (nth_error_nth_d _ _ (entity_dof 0 0 0)) by (now rewrite map_length).
  f_equal. apply (map_nth (fun v => entity_dof 0 v 0)).
Qed.
Lemma place_edge i q : (i < ne)%nat -> (q < n1)%nat -> nth_error (closure_dofs info mesh 2 c) (nv + n1 * i + q) = Some (entity_dof 1 (nth i (Cell2D_edges mesh c) 0%nat) q).
Proof using HV HE HC.
  intros Hi Hq. rewrite closure_split, nth_error_app2, map_length by (rewrite map_length; unfold nv; lia). fold nv. replace (nv + n1 * i + q - nv)%nat with (n1 * i + q)%nat by lia.
  assert (Hin : forall a, In a (Cell2D_edges mesh c) -> length (map (entity_dof 1 a) (seq 0 n1)) = n1) by (intros; now rewrite map_length, seq_length).
  rewrite nth_error_app1. 2: { rewrite (length_flat _ n1) by auto. fold ne. nia. }
  rewrite (nth_error_flat _ n1 _ i q (nth i (Cell2D_edges mesh c) 0%nat)); auto; [|apply nth_error_nth_d; auto].
  rewrite (nth_error_nth_d _ _ (entity_dof 1 (nth i (Cell2D_edges mesh c) 0%nat) 0)) by (now rewrite map_length, seq_length). f_equal.
  rewrite (map_nth (entity_dof 1 (nth i (Cell2D_edges mesh c) 0%nat))), seq_nth by auto. reflexivity.
Qed.
Lemma place_cell i : (i < n2)%nat -> nth_error (closure_dofs info mesh 2 c) (nv + n1 * ne + i) = Some (entity_dof 2 c i).
Proof using HV HE HC.
  intros Hi. rewrite closure_split, nth_error_app2, map_length by (rewrite map_length; unfold nv; lia). fold nv. replace (nv + n1 * ne + i - nv)%nat with (n1 * ne + i)%nat by lia.
  assert (Hin : forall a, In a (Cell2D_edges mesh c) -> length (map (entity_dof 1 a) (seq 0 n1)) = n1) by (intros; now rewrite map_length, seq_length).
  rewrite nth_error_app2; rewrite (length_flat _ n1) by auto; fold ne; [|lia]. replace (n1 * ne + i - n1 * ne)%nat with i by lia.
  rewrite (nth_error_nth_d _ _ (entity_dof 2 c 0)) by (now rewrite map_length, seq_length). f_equal. rewrite (map_nth (entity_dof 2 c)), seq_nth by auto. reflexivity.
Qed.
Lemma place_cases p : (p < nv + n1 * ne + n2)%nat -> (p < nv)%nat \/ (exists i q, (i < ne)%nat /\ (q < n1)%nat /\ p = (nv + n1 * i + q)%nat) \/ (exists i, (i < n2)%nat /\ p = (nv + n1 * ne + i)%nat).
Proof using Type.
  clear HV HE HC. intros Hp. destruct (Nat.lt_ge_cases p nv); [auto|right]. destruct (Nat.lt_ge_cases p (nv + n1 * ne)).
  - left. destruct (Nat.eq_dec n1 0) as [->|Hn]; [lia|]. exists ((p - nv) / n1)%nat, ((p - nv) mod n1)%nat.
    pose proof (Nat.div_mod (p - nv) n1 Hn). pose proof (Nat.mod_upper_bound (p - nv) n1 Hn). split; [apply Nat.div_lt_upper_bound; lia|]. split; [auto|lia].
  - right. exists (p - (nv + n1 * ne))%nat. lia.
Qed.
End Places.

(** the values of a function of the unknowns at the places of a cell *)
Definition at_places (info : MeshDOFsInfo) (mesh : Mesh) (c : nat) (w : GlobalCell_DOF -> R) (p : nat) : R :=
  match nth_error (closure_dofs info mesh 2 c) p with Some h => w h | None => 0 end.
Definition hat (data : DOFsData) (r : nat) (h : GlobalCell_DOF) : R := if free_is data h r then 1 else 0.
Lemma lsum_seq_rsum n (f : nat -> R) : lsum f (seq 0 n) = rsum n f.
Proof. apply lsum_seq. Qed.
Lemma free_places_sum info mesh data c r F : free_places info mesh data c r F =
  rsum (length (closure_dofs info mesh 2 c)) (fun p => at_places info mesh c (hat data r) p * F p).
Proof.
  unfold free_places. rewrite lsum_seq_rsum. apply rsum_ext. intros p Hp. unfold at_places, hat. destruct (nth_error _ p); [|ring]. destruct (free_is data g r); ring.
Qed.

(** ** Sums over incidences *)
Lemma lsum_map' {A B} (f : B -> R) (g : A -> B) l : lsum f (map g l) = lsum (fun a => f (g a)) l.
Proof. induction l; cbn; auto. now rewrite IHl. Qed.
Lemma lsum_incidences mesh (F : nat -> nat -> R) : lsum (fun ci => F (fst ci) (snd ci)) (incidences mesh) =
  rsum (Cell2Ds_number mesh) (fun c => rsum (length (Cell2D_edges mesh c)) (F c)).
Proof.
  unfold incidences. rewrite <- lsum_seq_rsum. induction (seq 0 (Cell2Ds_number mesh)) as [|c l IH]; cbn [flat_map lsum]; auto.
  rewrite lsum_app, IH. f_equal. rewrite lsum_map'. cbn [fst snd]. apply lsum_seq_rsum.
Qed.
Lemma in_incidences mesh c i : In (c, i) (incidences mesh) <-> (c < Cell2Ds_number mesh)%nat /\ (i < length (Cell2D_edges mesh c))%nat.
Proof.
  unfold incidences. rewrite in_flat_map. split.
  - intros (x & Hx & H). apply in_seq in Hx. apply in_map_iff in H. destruct H as (y & E & Hy). injection E as <- <-. apply in_seq in Hy. lia.
  - intros [H1 H2]. exists c. split; [apply in_seq; lia|]. apply in_map, in_seq. lia.
Qed.

(** terms with opposite signs on the inner edges and null on the others cancel *)
Lemma cancel_edges (l : list (nat * nat)) (edge : nat * nat -> nat) (dir : nat * nat -> bool) (X : nat -> R) :
  (forall ci, In ci l -> X (edge ci) = 0 \/
     length (filter (fun x => (edge x =? edge ci)%nat && Bool.eqb (dir x) true) l) = length (filter (fun x => (edge x =? edge ci)%nat && Bool.eqb (dir x) false) l)) ->
  lsum (fun ci => (if dir ci then 1 else -1) * X (edge ci)) l = 0.
Proof.
  remember (length l) as n eqn:En. assert (Hn : (length l <= n)%nat) by lia. clear En. revert l Hn. induction n; intros l Hn H.
  { destruct l; [reflexivity|cbn in Hn; lia]. }
  destruct l as [|a l']; [reflexivity|]. set (l := a :: l') in *. set (e := edge a).
  (* split the list in the incidences of e and the others *)
  assert (SPL : forall l f, lsum f l = lsum f (filter (fun x => (edge x =? e)%nat) l) + lsum f (filter (fun x => negb (edge x =? e)%nat) l)).
  { clear. induction l as [|x l IH]; intros f; cbn [filter lsum]; [ring|]. destruct (edge x =? e)%nat; cbn [negb filter lsum]; rewrite (IH f); ring. }
  rewrite SPL. replace (lsum _ (filter (fun x => negb _) l)) with 0.
  - assert (CNT : forall l, lsum (fun ci => (if dir ci then 1 else -1) * X (edge ci)) (filter (fun x => (edge x =? e)%nat) l) =
      (INR (length (filter (fun x => (edge x =? e)%nat && Bool.eqb (dir x) true) l)) - INR (length (filter (fun x => (edge x =? e)%nat && Bool.eqb (dir x) false) l))) * X e).
    { clear. induction l as [|x l IH]; cbn [filter lsum length INR]; [cbn; ring|]. destruct (Nat.eqb_spec (edge x) e) as [Ex|]; cbn [andb]; [|exact IH].
      cbn [lsum]. rewrite IH, Ex. destruct (dir x); cbn [Bool.eqb length]; rewrite ?S_INR; ring. }
    rewrite CNT. destruct (H a (or_introl eq_refl)) as [H0|H0]; fold e in H0; rewrite H0; ring.
  - symmetry. apply IHn.
    + assert (LE : forall l : list (nat * nat), (length (filter (fun x => negb (edge x =? e)%nat) l) <= length l)%nat) by (clear; induction l as [|x l IH]; cbn; [lia|]; destruct (edge x =? e)%nat; cbn; lia).
      unfold l. cbn [filter]. fold e. rewrite Nat.eqb_refl. cbn [negb]. specialize (LE l'). cbn [length l] in Hn. lia.
    + intros ci Hci. apply filter_In in Hci. destruct Hci as [Hci Hne]. destruct (H ci Hci) as [H0|H0]; [auto|right].
      assert (FF : forall b (l : list (nat * nat)), filter (fun x => (edge x =? edge ci)%nat && Bool.eqb (dir x) b) (filter (fun x => negb (edge x =? e)%nat) l) = filter (fun x => (edge x =? edge ci)%nat && Bool.eqb (dir x) b) l).
      { intros b. clear - Hne. induction l as [|x l IH]; cbn [filter]; auto. destruct (Nat.eqb_spec (edge x) e) as [Ex|Ex]; cbn [negb filter].
        - rewrite IH. destruct (Nat.eqb_spec (edge x) (edge ci)) as [Ec|]; [|reflexivity]. rewrite <- Ec, Ex, Nat.eqb_refl in Hne. discriminate.
        - rewrite IH. reflexivity. }
      rewrite !FF. exact H0.
Qed.

(** the hat functions of the free unknowns vanish on Strong entities *)
Lemma hat_strong m info data d e i r : CreateDOFs 2 info (md_mesh m) = Ok data -> (d <= 2)%nat -> (e < num_cells info d)%nat -> strong_entity info d e ->
  hat data r (entity_dof d e i) = 0.
Proof.
  intros HC Hd He HS. destruct (info_entry m info data HC d e) as (b & row & Eb & Et & _ & Er & _ & HF); auto.
  unfold hat, free_is, lookup. cbn [g_dim g_cell g_dof entity_dof]. rewrite Er. unfold strong_entity in HS. rewrite Et in HS. injection HS as HS. rewrite HS in HF.
  destruct (nth_error row i) as [x|] eqn:Ex; [|reflexivity]. rewrite Forall_forall in HF. unfold is_type. rewrite (HF x) by (eapply nth_error_In; eauto). reflexivity.
Qed.

(** ** The errors are computed *)
Definition sizes3 (n : nat) (s : list R * list R * list R) : Prop := length (fst (fst s)) = n /\ length (snd (fst s)) = n /\ length (snd s) = n.
Lemma set_cell_ok n c e x y s : sizes3 n s -> (c < n)%nat -> exists s', set_cell c e x y s = Ok s' /\ sizes3 n s'.
Proof.
  destruct s as [[a b] d]. intros (H1 & H2 & H3) Hc. cbn [fst snd] in *. unfold set_cell. rewrite !set_idx_in by lia. cbn [bind]. eexists. split; [reflexivity|]. unfold sizes3. cbn [fst snd]. rewrite !length_replace. auto.
Qed.
Lemma mmulv_ok A v : m_cols A = v_size v -> exists x, mmulv A v = Ok x /\ v_size x = m_rows A.
Proof. intros H. unfold mmulv. rewrite H, Nat.eqb_refl. eexists. split; reflexivity. Qed.
Lemma vsub_ok v w : v_size v = v_size w -> exists x, vsub v w = Ok x /\ v_size x = v_size v.
Proof. intros H. unfold vsub. rewrite H, Nat.eqb_refl. eexists. split; reflexivity. Qed.
Lemma vadd_ok v w : v_size v = v_size w -> exists x, vadd v w = Ok x /\ v_size x = v_size v.
Proof. intros H. unfold vadd. rewrite H, Nat.eqb_refl. eexists. split; reflexivity. Qed.
Lemma vdot_ok v w : v_size v = v_size w -> exists x, vdot v w = Ok x.
Proof. intros H. unfold vdot. rewrite H, Nat.eqb_refl. eexists. reflexivity. Qed.

Definition error_cell (create : nat -> outcome LocalSpace) (data : DOFsData) (uD uS : list R) (c : nat) (sp : LocalSpace) (u : Vec) : Prop :=
  create c = Ok sp /\ local_solution data uD uS c = Ok u /\ m_cols (q_Points (ls_InternalQuadrature sp)) = v_size (q_Weights (ls_InternalQuadrature sp)) /\
  (3 <= m_rows (q_Points (ls_InternalQuadrature sp)))%nat.
Lemma L2_total m data create uD uS f :
  (forall c, (c < Cell2Ds_number (md_mesh m))%nat -> md_active2 m c = true -> exists sp u V, error_cell create data uD uS c sp u /\
     ls_Values sp Pi0k_t = Ok V /\ m_rows V = v_size (q_Weights (ls_InternalQuadrature sp)) /\ m_cols V = v_size u) ->
  exists r, compute_error_L2 m data create uD uS (Some f) = Ok r.
Proof.
  intros H. unfold compute_error_L2. set (n := Cell2Ds_number (md_mesh m)) in *.
  destruct (@for_loop_total _ (fun _ s => sizes3 n s) (fun c s => if negb (md_active2 m c) then Ok s else space <- create c ;; error_L2_cell data space uD uS (Some f) c s) n (repeat 0 n, repeat 0 n, repeat 0 n)) as (s & E & _).
  - unfold sizes3. cbn [fst snd]. rewrite !repeat_length. auto.
  - intros c s Hc HI. destruct (md_active2 m c) eqn:A; cbn [negb]; [|eauto]. destruct (H c Hc A) as (sp & u & V & (Ec & Eu & Hp & Hr) & EV & RV & CV).
    rewrite Ec. cbn [bind]. unfold error_L2_cell. rewrite EV, Eu. cbn [bind exact_values]. rewrite function_evaluation_ok by lia. cbn [bind].
    destruct (mmulv_ok V u CV) as (x & Ex & Sx). rewrite Ex. cbn [bind].
    match goal with |- context [vsub x ?y] => destruct (vsub_ok x y) as (d & Ed & Sd); [rewrite Sx; cbn [v_size]; lia|] end. rewrite Ed. cbn [bind].
    destruct (vdot_ok (q_Weights (ls_InternalQuadrature sp)) (vsquare d)) as (x1 & E1); [cbn [vsquare v_size]; lia|]. rewrite E1. cbn [bind].
    destruct (vdot_ok (q_Weights (ls_InternalQuadrature sp)) (vsquare x)) as (x2 & E2); [cbn [vsquare v_size]; lia|]. rewrite E2. cbn [bind].
    match goal with |- context [vdot ?a ?b] => destruct (vdot_ok a b) as (x3 & E3); [cbn [vsquare v_size]; lia|] end. rewrite E3. cbn [bind]. apply set_cell_ok; auto.
  - rewrite E. cbn [bind]. eauto.
Qed.
Lemma H1_total m data create uD uS f :
  (forall c, (c < Cell2Ds_number (md_mesh m))%nat -> md_active2 m c = true -> exists sp u D0 D1, error_cell create data uD uS c sp u /\
     ls_DerivativeValues sp = Ok [D0; D1] /\ m_rows D0 = v_size (q_Weights (ls_InternalQuadrature sp)) /\ m_cols D0 = v_size u /\
     m_rows D1 = v_size (q_Weights (ls_InternalQuadrature sp)) /\ m_cols D1 = v_size u) ->
  exists r, compute_error_H1 m data create uD uS (Some f) = Ok r.
Proof.
  intros H. unfold compute_error_H1. set (n := Cell2Ds_number (md_mesh m)) in *.
  destruct (@for_loop_total _ (fun _ s => sizes3 n s) (fun c s => if negb (md_active2 m c) then Ok s else space <- create c ;; error_H1_cell data space uD uS (Some f) c s) n (repeat 0 n, repeat 0 n, repeat 0 n)) as (s & E & _).
  - unfold sizes3. cbn [fst snd]. rewrite !repeat_length. auto.
  - intros c s Hc HI. destruct (md_active2 m c) eqn:A; cbn [negb]; [|eauto]. destruct (H c Hc A) as (sp & u & D0 & D1 & (Ec & Eu & Hp & Hr) & EV & RV & CV & RV' & CV').
    rewrite Ec. cbn [bind]. unfold error_H1_cell. rewrite EV, Eu. cbn [bind exact_gradient_values].
    destruct (function_evaluation_array_ok 3 (q_Points (ls_InternalQuadrature sp)) f) as (xl & Exl & Lx & Hx & _); [auto|]. rewrite Exl. cbn [bind at_ nth_error].
    destruct xl as [|y0 [|y1 xl]]; cbn [length] in Lx; try lia.
    inversion Hx as [|? ? S0 Hx']. inversion Hx' as [|? ? S1 ?]. unfold EquationSpec.sized in S0, S1. subst. clear Hx Hx'.
    destruct (mmulv_ok D0 u CV) as (x & Ex & Sx). rewrite Ex. cbn [bind at_ nth_error].
    destruct (vsub_ok x y0) as (d & Ed & Sd); [lia|]. rewrite Ed. cbn [bind].
    destruct (mmulv_ok D1 u CV') as (x' & Ex' & Sx'). rewrite Ex'. cbn [bind].
    destruct (vsub_ok x' y1) as (d' & Ed' & Sd'); [lia|]. rewrite Ed'. cbn [bind].
    destruct (vadd_ok (vsquare d) (vsquare d')) as (a1 & A1 & SA1); [cbn [vsquare v_size]; lia|]. rewrite A1. cbn [bind].
    destruct (vadd_ok (vsquare x) (vsquare x')) as (a2 & A2 & SA2); [cbn [vsquare v_size]; lia|]. rewrite A2. cbn [bind].
    destruct (vadd_ok (vsquare y0) (vsquare y1)) as (a3 & A3 & SA3); [cbn [vsquare v_size]; lia|]. rewrite A3. cbn [bind]. cbn [vsquare v_size] in SA1, SA2, SA3.
    destruct (vdot_ok (q_Weights (ls_InternalQuadrature sp)) a1) as (x1 & E1); [lia|]. rewrite E1. cbn [bind].
    destruct (vdot_ok (q_Weights (ls_InternalQuadrature sp)) a2) as (x2 & E2); [lia|]. rewrite E2. cbn [bind].
    destruct (vdot_ok (q_Weights (ls_InternalQuadrature sp)) a3) as (x3 & E3); [lia|]. rewrite E3. cbn [bind]. apply set_cell_ok; auto.
  - rewrite E. cbn [bind]. eauto.
Qed.
