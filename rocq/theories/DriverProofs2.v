(** Proofs about strong values and interpolation: each unknown receives the value of its own entity. *)
From Coq Require Import List Arith Bool Reals Lra Lia.
From Verif Require Import Base RSum MatrixModel DofsModel DofsSpec DofsProofs DofsProofs2 AssemblerModel AssemblerSpec AssemblerProofs AssemblerProofs2
  VemQuadModel VemModel VemSpec DriverModel DriverSpec DriverProofs.
Import ListNotations.
Local Open Scope nat_scope.

(** unknowns of the mesh *)
Definition valid (k : nat) (info : MeshDOFsInfo) (g : GlobalCell_DOF) : Prop :=
  g_dim g <= k /\ g_cell g < num_cells info (g_dim g) /\ g_dof g < requested info (g_dim g) (g_cell g).

Lemma self_entity mesh d c : d <= 3 -> In (d, c) (closure_entities mesh d c).
Proof. intros H. destruct d as [|[|[|[|d]]]]; try lia; simpl; rewrite ?in_app_iff; simpl; tauto. Qed.

Lemma entity_eta g : entity_dof (g_dim g) (g_cell g) (g_dof g) = g.
Proof. now destruct g. Qed.

Section Numbering.
Variables (k : nat) (info : MeshDOFsInfo) (mesh : Mesh) (data : DOFsData).
Hypothesis Hk : k <= 3.
Hypothesis HC : CreateDOFs k info mesh = Ok data.

Lemma valid_self g : valid k info g -> In g (closure_dofs info mesh (g_dim g) (g_cell g)).
Proof. intros (A & B & C). apply in_closure_dofs. split; auto. apply self_entity. lia. Qed.

Lemma valid_row d c : d <= k -> c < num_cells info d -> exists row, nth_error (CellsDOFs data d) c = Some row /\ length row = requested info d c /\
  forall i, lookup data (entity_dof d c i) = nth_error row i.
Proof.
  intros Hd Hc. destruct (C04_cell_dofs k info mesh data d c Hk HC Hd Hc) as (t & row & _ & Hr & L & _).
  exists row. split; auto. split; auto. intros i. unfold lookup, entity_dof; simpl. now rewrite Hr.
Qed.

Lemma valid_lookup g : valid k info g -> exists x t, lookup data g = Some x /\ boundary_type info (g_dim g) (g_cell g) = Some t /\
  ((t = BStrong /\ dof_type x = TStrong /\ dof_index x < NumberStrongs data) \/ (t <> BStrong /\ dof_type x = TDOF /\ dof_index x < NumberDOFs data)).
Proof.
  intros V. pose proof V as (Hd & Hc & Hi).
  destruct (C04_cell_dofs k info mesh data _ _ Hk HC Hd Hc) as (t & row & Ht & Hr & L & F & _).
  destruct (C05_closure k info mesh data _ _ Hk HC Hd Hc) as (G & HL).
  destruct (HL g (valid_self g V)) as (x & Hx). exists x, t. split; auto. split; auto.
  assert (Hin : In x row).
  { unfold lookup in Hx. rewrite Hr in Hx. eapply nth_error_In; eauto. }
  rewrite Forall_forall in F. specialize (F x Hin).
  assert (B : forall T, T <> TUnknown -> dof_type x = T -> dof_index x < match T with TStrong => NumberStrongs data | _ => NumberDOFs data end).
  { intros T HT ET. eapply (index_bound T k info mesh data g x (g_dim g) (g_cell g)); eauto. apply valid_self; auto. }
  destruct t; [right|left|right|right|right]; (split; [congruence|]); (split; [exact F|]).
  - apply (B TDOF); [congruence|auto].
  - apply (B TStrong); [congruence|auto].
  - apply (B TDOF); [congruence|auto].
  - apply (B TDOF); [congruence|auto].
  - apply (B TDOF); [congruence|auto].
Qed.

Lemma valid_inj g1 g2 : valid k info g1 -> valid k info g2 -> lookup data g1 = lookup data g2 -> g1 = g2.
Proof.
  intros V1 V2 E. pose proof V1 as (D1 & C1 & _). pose proof V2 as (D2 & C2 & _).
  destruct (C05_closure k info mesh data _ _ Hk HC D1 C1) as (G1 & _).
  destruct (C05_closure k info mesh data _ _ Hk HC D2 C2) as (G2 & _).
  apply (C06_conformity k info mesh data _ _ _ g1 _ _ _ g2 Hk HC D1 D2 G1 (valid_self g1 V1) G2 (valid_self g2 V2)); auto.
Qed.

(** ** Writing the unknowns of one entity *)
Definition sizes (s : list R * list R) : Prop := length (fst s) = NumberDOFs data /\ length (snd s) = NumberStrongs data.
Definition val (s : list R * list R) (g : GlobalCell_DOF) : option R := value_of data (fst s) (snd s) g.

Lemma nth_error_replace_same {A} (l : list A) i v : i < length l -> nth_error (replace l i v) i = Some v.
Proof. revert i; induction l as [|a l IH]; intros [|i] H; simpl in *; try lia; auto. apply IH. lia. Qed.
Lemma nth_error_replace_other {A} (l : list A) i j v : i <> j -> nth_error (replace l i v) j = nth_error l j.
Proof. revert i j; induction l as [|a l IH]; intros [|i] [|j] H; simpl; auto; try congruence. Qed.
Lemma vec_get_in v i : i < v_size v -> vec_get v i = Ok (v_at v i).
Proof. intros H. unfold vec_get. apply Nat.ltb_lt in H. now rewrite H. Qed.

Lemma set_one d c i x y s : d <= k -> c < num_cells info d -> i < requested info d c -> sizes s -> lookup data (entity_dof d c i) = Some x ->
  exists s', (match dof_type x with
    | TStrong => u <- set_idx (snd s) (dof_index x) y ;; Ok (fst s, u)
    | TDOF => u <- set_idx (fst s) (dof_index x) y ;; Ok (u, snd s)
    | TUnknown => Throw end) = Ok s' /\ sizes s' /\ val s' (entity_dof d c i) = Some y /\
    forall g, valid k info g -> g <> entity_dof d c i -> val s' g = val s g.
Proof.
  intros Hd Hc Hi (S1 & S2) Hx. assert (V : valid k info (entity_dof d c i)) by (repeat split; auto).
  destruct (valid_lookup _ V) as (x' & t & Hx' & _ & Hb). rewrite Hx in Hx'. inversion Hx'; subst x'; clear Hx'.
  assert (Hoth : forall g x', valid k info g -> g <> entity_dof d c i -> lookup data g = Some x' -> dof_type x' = dof_type x -> dof_index x' <> dof_index x).
  { intros g x' Vg Ng Hl Ty Ix. apply Ng. apply valid_inj; auto. rewrite Hl, Hx. f_equal. destruct x, x'; simpl in *; congruence. }
  destruct Hb as [(_ & Ty & Lt)|(_ & Ty & Lt)]; rewrite Ty.
  - exists (fst s, replace (snd s) (dof_index x) y). rewrite set_idx_in by lia. split; [reflexivity|].
    split; [split; simpl; rewrite ?length_replace; auto|]. split.
    + unfold val, value_of. rewrite Hx, Ty. simpl. apply nth_error_replace_same. lia.
    + intros g Vg Ng. unfold val, value_of. destruct (lookup data g) as [x'|] eqn:El; auto.
      destruct (dof_type x') eqn:Ty'; auto. simpl. apply nth_error_replace_other.
      intros Q. apply (Hoth g x'); auto. congruence.
  - exists (replace (fst s) (dof_index x) y, snd s). rewrite set_idx_in by lia. split; [reflexivity|].
    split; [split; simpl; rewrite ?length_replace; auto|]. split.
    + unfold val, value_of. rewrite Hx, Ty. simpl. apply nth_error_replace_same. lia.
    + intros g Vg Ng. unfold val, value_of. destruct (lookup data g) as [x'|] eqn:El; auto.
      destruct (dof_type x') eqn:Ty'; auto. simpl. apply nth_error_replace_other.
      intros Q. apply (Hoth g x'); auto. congruence.
Qed.

Lemma set_dofs_ok d c row values off s : d <= k -> c < num_cells info d -> nth_error (CellsDOFs data d) c = Some row -> sizes s ->
  off + length row <= v_size values ->
  exists s', set_dofs row values off s = Ok s' /\ sizes s' /\
    (forall i, i < length row -> val s' (entity_dof d c i) = Some (v_at values (off + i))) /\
    (forall g, valid k info g -> ~ (g_dim g = d /\ g_cell g = c) -> val s' g = val s g).
Proof.
  intros Hd Hc Hr Hs Hv. destruct (valid_row d c Hd Hc) as (row' & Hr' & L & HL). rewrite Hr in Hr'. inversion Hr'; subst row'; clear Hr'.
  unfold set_dofs.
  pose (I := fun n (t : list R * list R) => sizes t /\ (forall i, i < n -> val t (entity_dof d c i) = Some (v_at values (off + i))) /\
    (forall g, valid k info g -> ~ (g_dim g = d /\ g_cell g = c) -> val t g = val s g)).
  assert (Q : exists s', set_dofs row values off s = Ok s' /\ I (length row) s').
  { unfold set_dofs. apply (for_loop_total I); unfold I.
    - repeat split; auto; try apply Hs. intros; lia.
    - intros i t Hi (St & W & O). destruct (nth_error row i) as [x|] eqn:Ex; [|apply nth_error_None in Ex; lia].
      unfold at_. rewrite Ex. cbn [bind].
      destruct (set_one d c i x (v_at values (off + i)) t Hd Hc) as (t' & Et & St' & V1 & V2); auto; [lia|now rewrite HL|].
      exists t'. split.
      + rewrite !vec_get_in by lia. cbn [bind]. exact Et.
      + split; auto. split.
        * intros j Hj. destruct (Nat.eq_dec j i) as [->|Hne]; auto. rewrite V2; [apply W; lia| |unfold entity_dof; congruence].
          repeat split; simpl; auto. lia.
        * intros g Vg Ng. rewrite V2; auto. intros ->. apply Ng. auto. }
  destruct Q as (s' & E & St & W & O). exists s'. auto.
Qed.

(** rows of Strong entities: the strong loop is the general one *)
Lemma set_strong_dofs_ok row values uD s : Forall (fun x => dof_type x = TStrong) row ->
  set_dofs row values 0 (uD, s) = (u <- set_strong_dofs row values s ;; Ok (uD, u)).
Proof.
  intros F. unfold set_dofs, set_strong_dofs, for_loop. simpl Nat.add.
  assert (G : forall n i s, for_from i n (fun i (s : list R * list R) =>
      x <- at_ row i ;; match dof_type x with
      | TStrong => v <- vec_get values i ;; u <- set_idx (snd s) (dof_index x) v ;; Ok (fst s, u)
      | TDOF => v <- vec_get values i ;; u <- set_idx (fst s) (dof_index x) v ;; Ok (u, snd s)
      | TUnknown => Throw end) (uD, s) =
    (u <- for_from i n (fun i s => x <- at_ row i ;; match dof_type x with
      | TStrong => v <- vec_get values i ;; set_idx s (dof_index x) v
      | TDOF => Ok s | TUnknown => Throw end) s ;; Ok (uD, u))).
  { induction n as [|n IH]; intros i t; simpl; auto. unfold at_ at 1 3. destruct (nth_error row i) as [x|] eqn:Ex; simpl; auto.
    rewrite Forall_forall in F. rewrite (F x) by (eapply nth_error_In; eauto).
    destruct (vec_get values i) as [v| |]; simpl; auto. destruct (set_idx t (dof_index x) v) as [u| |]; simpl; auto. }
  apply G.
Qed.

(** ** Sequences of entity writes *)
Variable T : GlobalCell_DOF -> R.
(** the unknowns in Done have their value, the others have the initial zero *)
Definition written (Done : GlobalCell_DOF -> Prop) (s : list R * list R) : Prop := sizes s /\
  forall g, valid k info g -> (Done g -> val s g = Some (T g)) /\ (~ Done g -> val s g = Some 0%R).

Lemma written_ext D D' s : (forall g, valid k info g -> (D g <-> D' g)) -> written D s -> written D' s.
Proof. intros H (S1 & W). split; auto. intros g V. destruct (W g V) as (W1 & W2). specialize (H g V). split; tauto. Qed.

Lemma written_init : written (fun _ => False) (repeat 0%R (NumberDOFs data), repeat 0%R (NumberStrongs data)).
Proof.
  split; [split; simpl; apply repeat_length|]. intros g V. split; [tauto|]. intros _.
  destruct (valid_lookup g V) as (x & t & Hx & _ & [(_ & Ty & Lt)|(_ & Ty & Lt)]); unfold val, value_of; rewrite Hx, Ty; simpl; now apply nth_error_repeat.
Qed.

Definition entity (d c : nat) (g : GlobalCell_DOF) : Prop := g_dim g = d /\ g_cell g = c.

Lemma written_step D d c row values off s : d <= k -> c < num_cells info d -> nth_error (CellsDOFs data d) c = Some row ->
  off + length row <= v_size values -> (forall i, i < length row -> v_at values (off + i) = T (entity_dof d c i)) ->
  written D s -> exists s', set_dofs row values off s = Ok s' /\ written (fun g => D g \/ entity d c g) s'.
Proof.
  intros Hd Hc Hr Hv Ht (S1 & W). destruct (set_dofs_ok d c row values off s Hd Hc Hr S1 Hv) as (s' & E & S2 & V1 & V2).
  exists s'. split; auto. split; auto. intros g V. unfold entity.
  destruct (valid_row d c Hd Hc) as (row' & Hr' & L & _). rewrite Hr in Hr'. inversion Hr'; subst row'; clear Hr'.
  destruct (Nat.eq_dec (g_dim g) d) as [Ed|Nd]; [destruct (Nat.eq_dec (g_cell g) c) as [Ec|Nc]|].
  - split; [|tauto]. intros _. subst d c. destruct V as (_ & _ & Vi). pose proof (V1 (g_dof g)) as Q. rewrite entity_eta in Q.
    rewrite Q by lia. rewrite Ht by lia. now rewrite entity_eta.
  - destruct (W g V) as (W1 & W2). rewrite V2 by tauto. split; tauto.
  - destruct (W g V) as (W1 & W2). rewrite V2 by tauto. split; tauto.
Qed.
End Numbering.

Lemma foldM_total {A S} (I : list A -> S -> Prop) (f : S -> A -> outcome S) l s :
  I [] s -> (forall pre a post t, l = pre ++ a :: post -> I pre t -> exists t', f t a = Ok t' /\ I (pre ++ [a]) t') ->
  exists s', foldM f l s = Ok s' /\ I l s'.
Proof.
  intros H0 Hs. assert (G : forall post pre t, l = pre ++ post -> I pre t -> exists s', foldM f post t = Ok s' /\ I l s').
  { induction post as [|a post IH]; intros pre t El Ht; simpl.
    - rewrite app_nil_r in El. subst. eauto.
    - destruct (Hs pre a post t El Ht) as (t' & E & Ht'). rewrite E. simpl. apply (IH (pre ++ [a])); auto.
      now rewrite <- app_assoc. }
  apply (G l [] s); auto.
Qed.
