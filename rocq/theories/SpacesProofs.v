(** Proofs about the tables of unknowns of the 2D spaces. *)
From Coq Require Import List Arith Bool Lia ZArith Reals Classical.
From Verif Require Import Base DofsModel DofsSpec DofsProofs DofsProofs2 MatrixModel MonomialsModel LagrangeModel TriangleModel QuadModel TriangleProofs TriangleProofs3 TriangleProofs4 TriangleProofs5 QuadProofs2 QuadProofs3 SpacesModel SpacesSpec.
Import ListNotations.
Local Open Scope nat_scope.

Definition cell_ok (count : nat -> outcome nat) (marker : nat -> nat) (boundary : nat -> option BoundaryInfo) (c : nat) : Prop :=
  (exists n, count c = Ok n) /\ boundary (marker c) <> None.

Definition value (x : outcome nat) : nat := match x with Ok n => n | _ => 0 end.

Lemma fill_case mesh count boundary info d :
  CellsNumDOFs info d = [] -> CellsBoundaryInfo info d = [] -> (forall c, count d c <> UB) ->
  ((forall c, c < mesh_cells mesh d -> cell_ok (count d) (mesh_marker mesh d) boundary c) /\
   exists info', fill_dim d (mesh_cells mesh d) (count d) (mesh_marker mesh d) boundary info = Ok info' /\
     table_of mesh (fun d c => value (count d c)) boundary info' d /\
     forall d', d' <> d -> CellsNumDOFs info' d' = CellsNumDOFs info d' /\ CellsBoundaryInfo info' d' = CellsBoundaryInfo info d') \/
  (~ (forall c, c < mesh_cells mesh d -> cell_ok (count d) (mesh_marker mesh d) boundary c) /\
   fill_dim d (mesh_cells mesh d) (count d) (mesh_marker mesh d) boundary info = Throw).
Proof.
  intros F1 F2 NU. unfold fill_dim. rewrite F1, F2, !resize_nil.
  set (n := mesh_cells mesh d). set (m := mesh_marker mesh d). set (cnt := count d) in *.
  set (bU := {| bi_type := BUnknown; bi_marker := 0 |}).
  set (vn := fun c => value (cnt c)).
  set (vb := fun c => match boundary (m c) with Some b => b | None => bU end).
  set (body := fun c (st : list nat * list BoundaryInfo) => x <- cnt c ;; num <- set_idx (fst st) c x ;; v <- map_at boundary (m c) ;; b <- set_idx (snd st) c v ;; Ok (num, b)).
  set (Inv := fun i (s : list nat * list BoundaryInfo) => s = (partial_map vn 0 n i, partial_map vb bU n i)).
  assert (Hstep : forall i s, i < n -> cell_ok cnt m boundary i -> Inv i s -> exists s', body i s = Ok s' /\ Inv (S i) s').
  { intros i s Hi ((k & Ek) & Hm) ->. unfold body, map_at. rewrite Ek. cbn [bind fst snd].
    assert (Q : k = vn i) by (unfold vn; now rewrite Ek). rewrite Q, partial_map_set by auto. cbn [bind].
    destruct (boundary (m i)) as [b|] eqn:Eb; [|congruence]. cbn [bind].
    assert (E : b = vb i) by (unfold vb; now rewrite Eb). rewrite E, partial_map_set by auto. cbn [bind]. eexists. split; reflexivity. }
  assert (D : forall i, {cell_ok cnt m boundary i} + {~ cell_ok cnt m boundary i}).
  { intros i. unfold cell_ok. destruct (cnt i) as [k| |] eqn:Ek.
    - destruct (boundary (m i)); [left; split; [eauto|discriminate]|right; intros (_ & H); congruence].
    - right. intros ((x & H) & _). discriminate.
    - right. intros ((x & H) & _). discriminate. }
  destruct (bounded_dec _ D n) as [Hv|(c & Hc & Hn & Hb)].
  - left. split; [exact Hv|].
    destruct (@for_loop_total _ Inv body n (repeat 0 n, repeat bU n)) as (s & E & Hs).
    + unfold Inv. now rewrite !partial_map_0.
    + intros i s Hi. apply Hstep; auto.
    + rewrite E. cbn [bind]. eexists. split; [reflexivity|]. rewrite Hs. cbn [fst snd]. rewrite !partial_map_n. split.
      * unfold table_of. cbn [CellsNumDOFs CellsBoundaryInfo]. rewrite !upd_eq, !map_length, !seq_length. fold n. split; [auto|]. split; [auto|].
        intros c Hc. split.
        -- unfold requested. cbn [CellsNumDOFs]. rewrite upd_eq. erewrite nth_error_nth; [|apply nth_error_map_seq; auto]. reflexivity.
        -- exists (vb c). rewrite nth_error_map_seq by auto. split; auto. destruct (Hv c Hc) as (_ & H). unfold vb. fold m. destruct (boundary (m c)); congruence.
      * intros d' Hd'. cbn [CellsNumDOFs CellsBoundaryInfo]. now rewrite !upd_neq by auto.
  - right. split; [intros H; apply Hn; auto|].
    rewrite (@for_loop_throw _ Inv body n c); auto.
    + unfold Inv. now rewrite !partial_map_0.
    + intros i s Hi. apply Hstep; auto. lia.
    + intros s Hs. unfold body. rewrite Hs. destruct (cnt c) as [k| |] eqn:Ek; [|reflexivity|exfalso; apply (NU c); exact Ek]. cbn [bind fst snd].
      assert (Q : k = vn c) by (unfold vn; now rewrite Ek). rewrite Q, partial_map_set by auto. cbn [bind]. unfold map_at.
      destruct (boundary (m c)) eqn:Eb; [|reflexivity]. exfalso. apply Hn. split; [eauto|congruence].
Qed.

(** all three dimensions *)
Definition all_ok mesh (count : nat -> nat -> outcome nat) boundary : Prop :=
  forall d c, d <= 2 -> c < mesh_cells mesh d -> cell_ok (count d) (mesh_marker mesh d) boundary c.

Lemma fill_2D_case mesh count boundary : (forall d c, count d c <> UB) ->
  (all_ok mesh count boundary /\ exists info, fill_2D mesh count boundary = Ok info /\ forall d, d <= 2 -> table_of mesh (fun d c => value (count d c)) boundary info d) \/
  (~ all_ok mesh count boundary /\ fill_2D mesh count boundary = Throw).
Proof.
  intros NU. assert (X : fill_2D mesh count boundary = (i0 <- fill_dim 0 (mesh_cells mesh 0) (count 0) (mesh_marker mesh 0) boundary empty_info ;;
    i1 <- fill_dim 1 (mesh_cells mesh 1) (count 1) (mesh_marker mesh 1) boundary i0 ;; fill_dim 2 (mesh_cells mesh 2) (count 2) (mesh_marker mesh 2) boundary i1)) by reflexivity.
  rewrite X. clear X.
  destruct (fill_case mesh count boundary empty_info 0 eq_refl eq_refl (NU 0)) as [(A0 & i0 & E0 & T0 & P0)|(A0 & E0)]; rewrite E0; cbn [bind].
  2: { right. split; [intros H; apply A0; intros c Hc; apply H; [lia|exact Hc]|reflexivity]. }
  destruct (P0 1) as (Q1 & Q2); [lia|].
  destruct (fill_case mesh count boundary i0 1 Q1 Q2 (NU 1)) as [(A1 & i1 & E1 & T1 & P1)|(A1 & E1)]; rewrite E1; cbn [bind].
  2: { right. split; [intros H; apply A1; intros c Hc; apply H; [lia|exact Hc]|reflexivity]. }
  destruct (P1 2) as (Q3 & Q4); [lia|]. destruct (P0 2) as (Q5 & Q6); [lia|].
  destruct (fill_case mesh count boundary i1 2 (eq_trans Q3 Q5) (eq_trans Q4 Q6) (NU 2)) as [(A2 & i2 & E2 & T2 & P2)|(A2 & E2)].
  - left. split.
    + intros d c Hd Hc. destruct d as [|[|[|d]]]; try lia; auto.
    + exists i2. split; auto. intros d Hd.
      assert (G : forall j j' d', CellsNumDOFs j' d' = CellsNumDOFs j d' -> CellsBoundaryInfo j' d' = CellsBoundaryInfo j d' ->
        table_of mesh (fun d c => value (count d c)) boundary j d' -> table_of mesh (fun d c => value (count d c)) boundary j' d').
      { intros j j' d' K1 K2. unfold table_of, requested. now rewrite K1, K2. }
      destruct d as [|[|[|d]]]; try lia; auto.
      * destruct (P2 0) as (K1 & K2); [lia|]. destruct (P1 0) as (K3 & K4); [lia|]. apply (G i0); congruence.
      * destruct (P2 1) as (K1 & K2); [lia|]. apply (G i1); congruence.
  - right. split; [|exact E2]. intros H; apply A2. intros c Hc; apply H; [lia|exact Hc].
Qed.

Lemma fill_2D_table mesh count boundary info : (forall d c, count d c <> UB) -> fill_2D mesh count boundary = Ok info ->
  all_ok mesh count boundary /\ forall d, d <= 2 -> table_of mesh (fun d c => value (count d c)) boundary info d.
Proof. intros NU E. destruct (fill_2D_case mesh count boundary NU) as [(A & i & E' & T)|(_ & E')]; rewrite E in E'; [|discriminate]. injection E' as <-. auto. Qed.

(** size of a closure *)
Lemma length_closure info mesh c n0 n1 : (forall v, In v (Cell2D_vertices mesh c) -> requested info 0 v = n0) -> (forall e, In e (Cell2D_edges mesh c) -> requested info 1 e = n1) ->
  length (closure_dofs info mesh 2 c) = n0 * length (Cell2D_vertices mesh c) + n1 * length (Cell2D_edges mesh c) + requested info 2 c.
Proof.
  intros H0 H1. unfold closure_dofs, closure_entities.
  assert (G : forall d l n, (forall v, In v l -> requested info d v = n) ->
    length (flat_map (fun e => map (fun i => {| g_dim := fst e; g_cell := snd e; g_dof := i |}) (seq 0 (requested info (fst e) (snd e)))) (map (pair d) l)) = n * length l).
  { intros d l n. induction l as [|x l IH]; intros H; cbn [map flat_map length]; [lia|]. rewrite app_length, IH by (intros; apply H; now right). cbn [fst snd].
    rewrite map_length, seq_length, (H x) by now left. lia. }
  rewrite !flat_map_app, !app_length, (G 0 _ n0), (G 1 _ n1) by auto. cbn [flat_map fst snd]. rewrite app_nil_r, map_length, seq_length. lia.
Qed.

(** the closure of a polygon in a table with constant counts on vertices and edges *)
Lemma closure_size mesh count boundary info data c n0 n1 :
  (forall d, d <= 2 -> table_of mesh count boundary info d) -> CreateDOFs 2 info mesh = Ok data -> c < Cell2Ds_number mesh ->
  length (Cell2D_edges mesh c) = length (Cell2D_vertices mesh c) ->
  (forall v, count 0 v = n0) -> (forall e, count 1 e = n1) ->
  exists l, nth_error (CellsGlobalDOFs data 2) c = Some l /\ length l = (n0 + n1) * length (Cell2D_vertices mesh c) + count 2 c.
Proof.
  intros T E Hc He C0 C1. assert (N : forall d, d <= 2 -> num_cells info d = mesh_cells mesh d) by (intros d Hd; apply (T d Hd)).
  destruct (C05_closure 2 info mesh data 2 c ltac:(lia) E ltac:(lia)) as (A & _). { rewrite N by lia. exact Hc. }
  destruct (CreateDOFs_stage 2 info mesh data ltac:(lia) E) as (W & _). destruct (W 2 c ltac:(lia)) as (_ & _ & V). { rewrite N by lia. exact Hc. }
  exists (closure_dofs info mesh 2 c). split; auto. rewrite (length_closure info mesh c n0 n1), He.
  - destruct (T 2 ltac:(lia)) as (_ & _ & H). destruct (H c Hc) as (-> & _). lia.
  - intros v Hv. destruct (T 0 ltac:(lia)) as (_ & _ & H). rewrite <- (C0 v). apply H. specialize (V 0 v). rewrite N in V by lia. apply V. cbn. apply in_or_app. left. now apply in_map.
  - intros e Hv. destruct (T 1 ltac:(lia)) as (_ & _ & H). rewrite <- (C1 e). apply H. specialize (V 1 e). rewrite N in V by lia. apply V. cbn. apply in_or_app. right. apply in_or_app. left. now apply in_map.
Qed.

Lemma closed_creation mesh count boundary info :
  (forall d, d <= 2 -> table_of mesh count boundary info d) -> polygonal_mesh mesh -> markers_known mesh boundary -> exists data, CreateDOFs 2 info mesh = Ok data.
Proof.
  intros T (M1 & M2) MK. destruct (C09_dichotomy 2 info mesh ltac:(lia)) as [(_ & H)|(H & _)]; auto. exfalso. apply H.
  assert (N : forall d, d <= 2 -> num_cells info d = mesh_cells mesh d) by (intros d Hd; apply (T d Hd)).
  intros d c Hd Hc. rewrite N in Hc by auto. split; [|split].
  - destruct (T d Hd) as (_ & _ & K). destruct (K c Hc) as (_ & b & B1 & B2). unfold boundary_type. rewrite B2. exists (bi_type b). split; auto.
    destruct (MK d c Hd Hc) as (b' & B3 & B4). congruence.
  - intros ->. apply M1. exact Hc.
  - intros d' c' Hin. destruct d as [|[|[|d]]]; try lia; cbn [closure_entities] in Hin.
    + destruct Hin as [Hin|[]]. injection Hin as <- <-. rewrite N by lia. exact Hc.
    + apply in_app_or in Hin. destruct Hin as [Hin|[Hin|[]]].
      * apply in_map_iff in Hin. destruct Hin as (x & Ex & Hx). injection Ex as <- <-. rewrite N by lia. destruct (M1 c Hc) as (_ & K). apply K; auto.
      * injection Hin as <- <-. rewrite N by lia. exact Hc.
    + destruct (M2 c Hc) as (K1 & K2 & _). apply in_app_or in Hin. destruct Hin as [Hin|Hin]; [|apply in_app_or in Hin; destruct Hin as [Hin|[Hin|[]]]].
      * apply in_map_iff in Hin. destruct Hin as (x & Ex & Hx). injection Ex as <- <-. rewrite N by lia. apply K1; auto.
      * apply in_map_iff in Hin. destruct Hin as (x & Ex & Hx). injection Ex as <- <-. rewrite N by lia. apply K2; auto.
      * injection Hin as <- <-. rewrite N by lia. exact Hc.
Qed.

(** ** C59 *)
Lemma count_not_UB ref mesh d c : count_PCC_2D ref mesh d c <> UB.
Proof. destruct ref; cbn; destruct d as [|[|d]]; try discriminate. destruct (_ =? 3); [discriminate|]. destruct (_ =? 4); discriminate. Qed.

Lemma created_reference junk lobatto m o ref : 1 <= o -> CreateReferenceElement_PCC_2D junk lobatto m o = Ok ref ->
  match m with
  | FEM_PCC => exists t q, ref = FEM_reference 1 (o - 1) t q /\ Tri_Create o = Ok t /\ Quad_Create junk lobatto o = Ok q
  | ZFEM_PCC => ref = ZFEM_reference 1 (o - 1) ((o - 1) * (o - 2) / 2)
  | _ => ref = VEM_reference 1 (o - 1) (o * (o - 1) / 2)
  end.
Proof.
  intros Ho E. destruct m; cbn [CreateReferenceElement_PCC_2D] in E; try congruence.
  destruct (Tri_Create o) as [t| |]; cbn [bind] in E; try discriminate. destruct (Quad_Create junk lobatto o) as [q| |]; cbn [bind] in E; try discriminate.
  exists t, q. split; [congruence|auto].
Qed.

Lemma not_refused m mesh boundary : ~ refused m mesh boundary -> forall ref junk lobatto o, 1 <= o -> CreateReferenceElement_PCC_2D junk lobatto m o = Ok ref ->
  all_ok mesh (count_PCC_2D ref mesh) boundary.
Proof.
  intros NR ref junk lobatto o Ho E d c Hd Hc. split.
  - pose proof (created_reference _ _ _ _ _ Ho E) as H. destruct m; try (subst ref; destruct d as [|[|d]]; cbn; eauto).
    destruct H as (t & q & -> & _). destruct d as [|[|d]]; cbn; eauto. destruct (Nat.eqb_spec (length (Cell2D_vertices mesh c)) 3); eauto. destruct (Nat.eqb_spec (length (Cell2D_vertices mesh c)) 4); eauto.
    exfalso. apply NR. right. split; auto. exists c. destruct d as [|d]; [|lia]. auto.
  - intros Hb. apply NR. left. exists d, c. auto.
Qed.

Lemma ok_not_refused m mesh boundary ref junk lobatto o : 1 <= o -> CreateReferenceElement_PCC_2D junk lobatto m o = Ok ref ->
  all_ok mesh (count_PCC_2D ref mesh) boundary -> ~ refused m mesh boundary.
Proof.
  intros Ho E A [(d & c & Hd & Hc & Hb)|(-> & c & Hc & N3 & N4)].
  - destruct (A d c Hd Hc) as (_ & H). congruence.
  - destruct (created_reference _ _ _ _ _ Ho E) as (t & q & -> & _). destruct (A 2 c ltac:(lia) Hc) as ((n & H) & _). cbn in H.
    destruct (Nat.eqb_spec (length (Cell2D_vertices mesh c)) 3); [lia|]. destruct (Nat.eqb_spec (length (Cell2D_vertices mesh c)) 4); [lia|]. discriminate.
Qed.

Lemma half_even a b : a = 2 * b -> a / 2 = b.
Proof. intros ->. rewrite Nat.mul_comm. apply Nat.div_mul. lia. Qed.

Lemma tri_inner o t : 1 <= o -> Tri_Create o = Ok t -> ft_NumDofs2D t = (o - 1) * (o - 2) / 2.
Proof.
  intros Ho E. destruct (created_counts o t E) as (C1 & _). destruct (counts' o t Ho E) as (C2 & C3 & C4 & C5). unfold NN in C4.
  destruct o as [|o]; [lia|]. clear E Ho. replace (S o - 1) with o in * by lia. replace (S o - 2) with (o - 1) by lia.
  assert (Q : (S o + 1) * (S o + 2) / 2 = o * (o - 1) / 2 + 3 * S o).
  { replace ((S o + 1) * (S o + 2)) with (o * (o - 1) + (3 * S o) * 2). { apply Nat.div_add. lia. } destruct o; [reflexivity|]. rewrite Nat.sub_succ, Nat.sub_0_r. nia. }
  rewrite Q in C4. lia.
Qed.

Lemma table_ext mesh f g boundary info d : (forall c, c < mesh_cells mesh d -> f d c = g d c) -> table_of mesh f boundary info d -> table_of mesh g boundary info d.
Proof. intros H (A & B & C). split; [auto|]. split; [auto|]. intros c Hc. destruct (C c Hc) as (E & X). split; [rewrite E; auto|exact X]. Qed.


Lemma C59_tables_all : forall junk lobatto m order mesh boundary, 1 <= order -> exists ref, CreateReferenceElement_PCC_2D junk lobatto m order = Ok ref /\
  ((~ refused m mesh boundary /\ exists info, SetMeshDOFsInfo_PCC_2D ref mesh boundary = Ok info /\ forall d, d <= 2 -> table_of mesh (pcc_count m order mesh) boundary info d) \/
   (refused m mesh boundary /\ SetMeshDOFsInfo_PCC_2D ref mesh boundary = Throw)).
Proof.
  intros junk lobatto m o mesh boundary Ho.
  assert (X : exists ref, CreateReferenceElement_PCC_2D junk lobatto m o = Ok ref).
  { destruct m; cbn [CreateReferenceElement_PCC_2D]; eauto. destruct (C41_all o Ho) as (t & Et & _). rewrite Et. cbn [bind]. destruct (qcreate_ok junk lobatto o Ho) as (q & Eq & _). rewrite Eq. cbn [bind]. eauto. }
  destruct X as (ref & E). exists ref. split; auto. unfold SetMeshDOFsInfo_PCC_2D.
  destruct (fill_2D_case mesh (count_PCC_2D ref mesh) boundary (count_not_UB ref mesh)) as [(A & info & EI & T)|(A & EI)].
  - left. split; [eapply ok_not_refused; eauto|]. exists info. split; auto. intros d Hd. eapply table_ext; [|exact (T d Hd)]. intros c Hc. cbn beta.
    pose proof (created_reference _ _ _ _ _ Ho E) as H. destruct m; try (subst ref; destruct d as [|[|d]]; reflexivity).
    destruct H as (t & q & -> & Et & Eq). destruct d as [|[|d]]; try reflexivity. destruct d as [|d]; [|lia].
    destruct (A 2 c ltac:(lia) Hc) as ((n' & H) & _). cbn in H |- *. destruct (_ =? 3).
    + apply (tri_inner o t Ho Et).
    + destruct (created_QOK _ _ _ _ Ho Eq) as (_ & _ & _ & _ & K & _). destruct (_ =? 4); [auto|discriminate].
  - right. split; [|exact EI]. apply NNPP. intros NR. apply A. eapply not_refused; eauto.
Qed.

Lemma inner_size m o nv : m <> FEM_PCC -> inner m o nv = inner m o 3.
Proof. destruct m; auto. congruence. Qed.

Lemma C59_size_all : forall junk lobatto m order ref mesh boundary info data c dir mt mq, 1 <= order ->
  CreateReferenceElement_PCC_2D junk lobatto m order = Ok ref -> SetMeshDOFsInfo_PCC_2D ref mesh boundary = Ok info -> CreateDOFs 2 info mesh = Ok data ->
  c < Cell2Ds_number mesh -> length (Cell2D_edges mesh c) = length (Cell2D_vertices mesh c) -> length (Cell2D_vertices mesh c) <= length dir ->
  (Z.of_nat ((order + 1) * (order + 1)) <= UINT_MAX)%Z ->
  exists l, nth_error (CellsGlobalDOFs data 2) c = Some l /\ Size_PCC_2D ref (length (Cell2D_vertices mesh c)) dir mt mq = Ok (length l).
Proof.
  intros junk lobatto m o ref mesh boundary info data c dir mt mq Ho E EI ED Hc He Hdir HR.
  destruct (C59_tables_all junk lobatto m o mesh boundary Ho) as (ref' & E' & H). rewrite E in E'. injection E' as <-.
  destruct H as [(NR & info' & EI' & T)|(_ & EI')]; rewrite EI in EI'; [|discriminate]. injection EI' as <-.
  destruct (closure_size mesh _ boundary info data c 1 (o - 1) T ED Hc He) as (l & El & L); [reflexivity|reflexivity|].
  exists l. split; auto. rewrite L. cbn [pcc_count]. pose proof (created_reference _ _ _ _ _ Ho E) as R. set (nv := length (Cell2D_vertices mesh c)) in *.
  destruct m; try (subst ref; cbn [Size_PCC_2D inner]; f_equal; lia).
  destruct R as (t & q & -> & Et & Eq). cbn [Size_PCC_2D]. cbn [inner].
  destruct (Nat.eqb_spec nv 3) as [E3|N3].
  - rewrite E3 in *. destruct (created_counts o t Et) as (C1 & _). destruct (counts' o t Ho Et) as (C2 & C3 & C4 & C5).
    destruct (local_ok o t dir mt Et Hdir) as (lt & ELt & _ & _ & _ & N & _).
    { unfold in_range. rewrite C4. unfold NN. eapply Z.le_trans; [|exact HR]. apply inj_le. apply Nat.div_le_upper_bound; [lia|]. nia. }
    rewrite ELt. cbn [bind]. rewrite N. f_equal. rewrite <- (tri_inner o t Ho Et). lia.
  - destruct (Nat.eqb_spec nv 4) as [E4|N4].
    + rewrite E4 in *. pose proof (created_QOK _ _ _ _ Ho Eq) as K. destruct K as (K1 & K2 & K3 & K4 & K5 & K6).
      destruct (qlocal_ok junk o q dir mq Ho (created_QOK _ _ _ _ Ho Eq) Hdir) as (lq & ELq & _ & N & _); [now rewrite K2|].
      rewrite ELq. cbn [bind]. rewrite N. f_equal. destruct o; [lia|]. rewrite Nat.sub_succ, Nat.sub_0_r. nia.
    + exfalso. apply NR. right. split; auto. exists c. auto.
Qed.

Lemma C59_created_all : forall junk lobatto m order ref mesh boundary info, 1 <= order ->
  CreateReferenceElement_PCC_2D junk lobatto m order = Ok ref -> SetMeshDOFsInfo_PCC_2D ref mesh boundary = Ok info ->
  polygonal_mesh mesh -> markers_known mesh boundary -> exists data, CreateDOFs 2 info mesh = Ok data.
Proof.
  intros junk lobatto m o ref mesh boundary info Ho E EI M K.
  destruct (C59_tables_all junk lobatto m o mesh boundary Ho) as (ref' & E' & H). rewrite E in E'. injection E' as <-.
  destruct H as [(NR & info' & EI' & T)|(_ & EI')]; rewrite EI in EI'; [|discriminate]. injection EI' as <-. eapply closed_creation; eauto.
Qed.

(** ** mixed spaces *)
Lemma constant_table mesh n boundary info : Create_Constant_DOFsInfo 2 mesh {| NumDOFs := n; BoundaryMap := boundary |} = Ok info ->
  forall d, d <= 2 -> table_of mesh (fun d _ => n d) boundary info d.
Proof.
  intros E d Hd. destruct (C11_constant 2 mesh {| NumDOFs := n; BoundaryMap := boundary |} ltac:(lia)) as (H & _). destruct (H info E d Hd) as (A & B & C).
  cbn [NumDOFs BoundaryMap] in *. split; [now rewrite A, repeat_length|]. split; auto. intros c Hc. split; [|auto].
  unfold requested. rewrite A. erewrite nth_error_nth; [reflexivity|]. now apply nth_error_repeat_lt.
Qed.

Lemma two_half a b : a + b = 2 * (a + b) / 2.
Proof. symmetry. rewrite Nat.mul_comm. apply Nat.div_mul. lia. Qed.

Lemma Nk_twice o : 2 * ((o + 1) * (o + 2) / 2) = (o + 1) * (o + 2).
Proof.
  assert (H : exists k, (o + 1) * (o + 2) = 2 * k).
  { induction o as [|o (k & IH)]; [exists 1; lia|]. exists (k + (o + 2)). nia. }
  destruct H as (k & ->). rewrite (Nat.mul_comm 2 k), Nat.div_mul; lia.
Qed.

Lemma C66_all : forall m order mesh boundary info data c, c < Cell2Ds_number mesh -> length (Cell2D_edges mesh c) = length (Cell2D_vertices mesh c) ->
  (m = FEM_RT_MCC -> length (Cell2D_vertices mesh c) = 3) ->
  let ref := CreateReferenceElement_MCC_2D m order in let nv := length (Cell2D_vertices mesh c) in
  Create_Constant_DOFsInfo 2 mesh {| NumDOFs := fst (ReferenceElementNumDOFs_MCC_2D ref); BoundaryMap := boundary |} = Ok info -> CreateDOFs 2 info mesh = Ok data ->
  exists l, nth_error (CellsGlobalDOFs data 2) c = Some l /\ VelocitySize_MCC_2D ref (length (Cell2D_edges mesh c)) nv = Ok (length l).
Proof.
  intros m o mesh boundary info data c Hc He H3 ref nv EI ED.
  destruct (closure_size mesh _ boundary info data c _ _ (constant_table _ _ _ _ EI) ED Hc He (fun _ => eq_refl) (fun _ => eq_refl)) as (l & El & L).
  exists l. split; auto. rewrite L, He. fold nv. unfold ref. pose proof (Nk_twice o) as N.
  destruct m; cbn [ReferenceElementNumDOFs_MCC_2D CreateReferenceElement_MCC_2D VelocitySize_MCC_2D rm_velocity rm_method rm_order fst snd num_dofs_array]; try (f_equal; remember ((o + 1) * (o + 2) / 2) as K; nia).
  unfold nv in *. rewrite H3 by auto. cbn [Nat.eqb]. f_equal. lia.
Qed.

Lemma C66_pressure_all : forall m order mesh boundary info data c, c < Cell2Ds_number mesh -> length (Cell2D_edges mesh c) = length (Cell2D_vertices mesh c) ->
  (m = FEM_RT_MCC -> length (Cell2D_vertices mesh c) = 3) ->
  let ref := CreateReferenceElement_MCC_2D m order in let nv := length (Cell2D_vertices mesh c) in
  Create_Constant_DOFsInfo 2 mesh {| NumDOFs := snd (ReferenceElementNumDOFs_MCC_2D ref); BoundaryMap := boundary |} = Ok info -> CreateDOFs 2 info mesh = Ok data ->
  exists l, nth_error (CellsGlobalDOFs data 2) c = Some l /\ PressureSize_MCC_2D ref nv = Ok (length l).
Proof.
  intros m o mesh boundary info data c Hc He H3 ref nv EI ED.
  destruct (closure_size mesh _ boundary info data c _ _ (constant_table _ _ _ _ EI) ED Hc He (fun _ => eq_refl) (fun _ => eq_refl)) as (l & El & L).
  exists l. split; auto. rewrite L. fold nv. unfold ref.
  destruct m; cbn [ReferenceElementNumDOFs_MCC_2D CreateReferenceElement_MCC_2D PressureSize_MCC_2D rm_pressure rm_method rm_order fst snd num_dofs_array]; try (f_equal; lia).
  unfold nv in *. rewrite H3 by auto. cbn [Nat.eqb]. f_equal.
Qed.

Lemma C66_not_triangle : forall order ne nv, nv <> 3 -> VelocitySize_MCC_2D (CreateReferenceElement_MCC_2D FEM_RT_MCC order) ne nv = Throw.
Proof. intros o ne nv H. cbn. destruct (Nat.eqb_spec nv 3); [lia|reflexivity]. Qed.

(** ** divergence-free spaces *)
Lemma df_tables ref mesh b0 b1 infos : SetMeshDOFsInfo_DF_2D ref mesh b0 b1 = Ok infos -> exists i0 i1 i2 i3, infos = [i0; i1; i2; i3] /\
  let none := fun _ : nat => Some {| bi_type := BNone; bi_marker := 0 |} in
  let velocity := fun d _ : nat => match d with 0 => rd_n0 ref | 1 => rd_n1 ref | _ => 0 end in
  forall d, d <= 2 -> table_of mesh velocity b0 i0 d /\ table_of mesh velocity b1 i1 d /\
    table_of mesh (fun d _ => match d with 0 => 0 | 1 => 0 | _ => rd_BigOPlus ref + rd_Divergence ref end) none i2 d /\
    table_of mesh (fun d _ => num_dofs_array (rd_pressure ref) d) none i3 d.
Proof.
  unfold SetMeshDOFsInfo_DF_2D. intros E.
  set (f := fun d _ : nat => Ok match d with 0 => rd_n0 ref | 1 => rd_n1 ref | _ => 0 end) in E.
  set (g := fun d _ : nat => Ok match d with 0 => 0 | 1 => 0 | _ => rd_BigOPlus ref + rd_Divergence ref end) in E.
  set (h := fun d _ : nat => Ok (num_dofs_array (rd_pressure ref) d)) in E. cbv zeta in E. set (none := fun _ : nat => Some _) in E.
  destruct (fill_2D mesh f b0) as [i0| |] eqn:E0; cbn [bind] in E; try discriminate.
  destruct (fill_2D mesh f b1) as [i1| |] eqn:E1; cbn [bind] in E; try discriminate.
  destruct (fill_2D mesh g none) as [i2| |] eqn:E2; cbn [bind] in E; try discriminate.
  destruct (fill_2D mesh h none) as [i3| |] eqn:E3; cbn [bind] in E; try discriminate.
  injection E as <-. exists i0, i1, i2, i3. split; auto. cbv zeta; intros d Hd.
  apply fill_2D_table in E0; [|discriminate]. apply fill_2D_table in E1; [|discriminate]. apply fill_2D_table in E2; [|discriminate]. apply fill_2D_table in E3; [|discriminate].
  split; [|split; [|split]]; [apply E0|apply E1|apply E2|apply E3]; auto.
Qed.

Lemma C67_all : forall m order ref mesh b0 b1 infos c, CreateReferenceElement_DF_2D m order = Ok ref -> SetMeshDOFsInfo_DF_2D ref mesh b0 b1 = Ok infos ->
  c < Cell2Ds_number mesh -> length (Cell2D_edges mesh c) = length (Cell2D_vertices mesh c) ->
  forall d0 d1 d2 d3, map (fun i => CreateDOFs 2 i mesh) infos = [Ok d0; Ok d1; Ok d2; Ok d3] ->
  exists l0 l1 l2 l3, map (fun d => nth_error (CellsGlobalDOFs d 2) c) [d0; d1; d2; d3] = [Some l0; Some l1; Some l2; Some l3] /\
    VelocitySize_DF_2D ref (length (Cell2D_vertices mesh c)) = length l0 + length l1 + length l2 /\ PressureSize_DF_2D ref = length l3.
Proof.
  intros m o ref mesh b0 b1 infos c E EI Hc He d0 d1 d2 d3 ED. destruct (df_tables _ _ _ _ _ EI) as (i0 & i1 & i2 & i3 & -> & T). cbv zeta in T. cbn [map] in ED.
  injection ED as D0 D1 D2 D3.
  destruct (closure_size mesh _ _ i0 d0 c _ _ (fun d Hd => proj1 (T d Hd)) D0 Hc He (fun _ => eq_refl) (fun _ => eq_refl)) as (l0 & E0 & L0).
  destruct (closure_size mesh _ _ i1 d1 c _ _ (fun d Hd => proj1 (proj2 (T d Hd))) D1 Hc He (fun _ => eq_refl) (fun _ => eq_refl)) as (l1 & E1 & L1).
  destruct (closure_size mesh _ _ i2 d2 c _ _ (fun d Hd => proj1 (proj2 (proj2 (T d Hd)))) D2 Hc He (fun _ => eq_refl) (fun _ => eq_refl)) as (l2 & E2 & L2).
  destruct (closure_size mesh _ _ i3 d3 c _ _ (fun d Hd => proj2 (proj2 (proj2 (T d Hd)))) D3 Hc He (fun _ => eq_refl) (fun _ => eq_refl)) as (l3 & E3 & L3).
  exists l0, l1, l2, l3. cbn [map]. rewrite E0, E1, E2, E3, L0, L1, L2, L3. split; auto.
  assert (N0 : rd_n0 ref = 1 /\ fst (rd_pressure ref) = (0, 0)) by (destruct m; cbn in E; try discriminate; injection E as <-; auto). destruct N0 as (N0 & NP).
  unfold VelocitySize_DF_2D, PressureSize_DF_2D, num_dofs_array. rewrite N0, NP. cbn [fst snd]. split; lia.
Qed.
