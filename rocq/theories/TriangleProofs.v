From Coq Require Import List Arith Bool Lia ZArith Reals Lra Permutation.
From Verif Require Import Base RSum MatrixModel MonomialsModel GBasisModel LagrangeModel LagrangeProofs TriangleModel.
Import ListNotations.
Local Open Scope nat_scope.

(** ** The lattice *)
Section Lattice.
Variable o : nat.
Hypothesis Ho : 1 <= o.

Definition row (a : nat) : list (nat * nat) := map (fun b => (a, b)) (seq 0 (o + 1 - a)).
Definition PP (i j : nat) : list (nat * nat) := flat_map row (seq 0 i) ++ map (fun b => (i, b)) (seq 0 j).
Definition LAT : list (nat * nat) := PP (o + 1) 0.
Definition idx2 (i j : nat) : nat := sumn i (fun a => o + 1 - a) + j.
Definition idxp (p : nat * nat) : nat := idx2 (fst p) (snd p).

Lemma idx2_row i : idx2 i (o + 1 - i) = idx2 (S i) 0.
Proof. unfold idx2. rewrite sumn_S. lia. Qed.
Lemma idx2_double i : i <= o + 1 -> 2 * idx2 i 0 = i * (2 * o + 3 - i).
Proof.
  unfold idx2. induction i as [|i IH]; intros H; [reflexivity|]. rewrite sumn_S. specialize (IH ltac:(lia)). nia.
Qed.
Definition NN : nat := (o + 1) * (o + 2) / 2.
Lemma NN_double : 2 * NN = (o + 1) * (o + 2).
Proof.
  unfold NN. pose proof (idx2_double (o + 1) (le_n _)) as H. replace (2 * o + 3 - (o + 1)) with (o + 2) in H by lia.
  rewrite <- H at 1. rewrite (Nat.mul_comm 2 (idx2 _ _)), Nat.div_mul by lia. lia.
Qed.
Lemma idx2_end : idx2 (o + 1) 0 = NN.
Proof. pose proof (idx2_double (o + 1) (le_n _)). pose proof NN_double. nia. Qed.
Lemma idx2_mono i i' : i <= i' -> idx2 i 0 <= idx2 i' 0.
Proof. induction 1; auto. unfold idx2 in *. rewrite sumn_S. lia. Qed.
Lemma idx2_lt i j : i + j <= o -> idx2 i j < NN.
Proof.
  intros H. rewrite <- idx2_end. pose proof (idx2_mono (S i) (o + 1) ltac:(lia)). pose proof (idx2_row i). unfold idx2 in *. lia.
Qed.

Lemma PP_S i j : PP i (S j) = PP i j ++ [(i, j)].
Proof. unfold PP. rewrite seq_snoc, map_app, app_assoc. reflexivity. Qed.
Lemma PP_row i : PP i (o + 1 - i) = PP (S i) 0.
Proof. unfold PP. rewrite seq_snoc, flat_map_app. cbn [flat_map map seq plus]. rewrite !app_nil_r. reflexivity. Qed.
Lemma PP_idx_row i j : map idxp (map (fun b => (i, b)) (seq 0 j)) = seq (idx2 i 0) j.
Proof.
  induction j as [|j IH]; [reflexivity|]. rewrite !seq_snoc, !map_app, IH. cbn [map]. f_equal. f_equal. unfold idxp, idx2. cbn [fst snd]. lia.
Qed.
Lemma PP_idx i j : i <= o + 1 -> map idxp (PP i j) = seq 0 (idx2 i j).
Proof.
  intros Hi. unfold PP. rewrite map_app, PP_idx_row. replace (idx2 i j) with (idx2 i 0 + j) by (unfold idx2; lia). rewrite seq_app. f_equal.
  induction i as [|i IH]; [reflexivity|]. rewrite seq_snoc, flat_map_app, map_app, IH by lia. cbn [flat_map plus]. rewrite app_nil_r. unfold row.
  rewrite PP_idx_row. rewrite <- (idx2_row i). replace (idx2 i (o + 1 - i)) with (idx2 i 0 + (o + 1 - i)) by (unfold idx2; lia). now rewrite seq_app.
Qed.
Lemma LAT_idx : map idxp LAT = seq 0 NN.
Proof. unfold LAT. rewrite PP_idx by lia. now rewrite idx2_end. Qed.
Lemma LAT_NoDup : NoDup LAT.
Proof. apply (NoDup_map_inv idxp). rewrite LAT_idx. apply seq_NoDup. Qed.
Lemma LAT_length : length LAT = NN.
Proof. rewrite <- (map_length idxp), LAT_idx. apply seq_length. Qed.
Lemma PP_In i j p : i <= o + 1 -> j <= o + 1 - i -> (In p (PP i j) <-> fst p + snd p <= o /\ (fst p < i \/ (fst p = i /\ snd p < j))).
Proof.
  intros Hi Hj. destruct p as [a b]. cbn [fst snd]. unfold PP. rewrite in_app_iff, in_flat_map, in_map_iff. split.
  - intros [(x & Hx & Hr)|(x & E & Hx)].
    + apply in_seq in Hx. unfold row in Hr. apply in_map_iff in Hr. destruct Hr as (y & E & Hy). apply in_seq in Hy. injection E as <- <-. lia.
    + injection E as <- <-. apply in_seq in Hx. lia.
  - intros [H [H'|[-> H']]].
    + left. exists a. split; [apply in_seq; lia|]. unfold row. apply in_map_iff. exists b. split; auto. apply in_seq. lia.
    + right. exists b. split; auto. apply in_seq. lia.
Qed.
Lemma LAT_In p : In p LAT <-> fst p + snd p <= o.
Proof. unfold LAT. rewrite PP_In by lia. lia. Qed.
Lemma idx_PP_lt i j p : i <= o + 1 -> In p (PP i j) -> idxp p < idx2 i j.
Proof. intros Hi H. apply (in_map idxp) in H. rewrite PP_idx in H by auto. apply in_seq in H. lia. Qed.

(** classes of lattice points *)
Definition cls (p : nat * nat) : nat :=
  let (i, j) := p in
  if i =? 0 then (if (0 <? j) && (j <? o) then 0 else 4)
  else if (i <? o) && ((j =? 0) || (j =? o - i)) then (if j =? 0 then 2 else 1)
  else if i <? o then 3 else 4.
Definition part (k : nat) (l : list (nat * nat)) : list (nat * nat) := filter (fun p => cls p =? k) l.
Lemma part_app k l1 l2 : part k (l1 ++ l2) = part k l1 ++ part k l2.
Proof. apply filter_app. Qed.
Lemma cls_le p : cls p <= 4.
Proof. destruct p as [i j]. unfold cls. repeat match goal with |- context [if ?b then _ else _] => destruct b end; lia. Qed.

Lemma partition l : Permutation (part 4 l ++ part 0 l ++ part 1 l ++ part 2 l ++ part 3 l) l.
Proof.
  induction l as [|p l IH]; [constructor|]. unfold part in *. cbn [filter]. pose proof (cls_le p).
  destruct (cls p) as [|[|[|[|[|c]]]]]; [| | | | |lia]; cbn [Nat.eqb].
  - cbn [app]. rewrite <- Permutation_middle. now constructor.
  - rewrite (app_assoc (filter _ l)). rewrite (app_assoc (filter _ l)) in IH. cbn [app]. rewrite <- Permutation_middle. now constructor.
  - rewrite 2 (app_assoc _ (filter _ l)). rewrite 2 (app_assoc _ (filter _ l)) in IH. cbn [app]. rewrite <- Permutation_middle. now constructor.
  - rewrite 3 (app_assoc _ (filter _ l)). rewrite 3 (app_assoc _ (filter _ l)) in IH. cbn [app]. rewrite <- Permutation_middle. now constructor.
  - cbn [app]. now constructor.
Qed.

(** ** The numbering loop *)
Definition h : R := (1 / INR o)%R.
Definition at_lattice (P : Mat) (T : IMat) (c : nat) (p : nat * nat) : Prop :=
  let (i, j) := p in
  m_at P 0 c = (INR j * h)%R /\ m_at P 1 c = (INR i * h)%R /\ m_at P 2 c = 0%R /\
  im_at T 0 c = Z.of_nat (o - i - j) /\ im_at T 1 c = Z.of_nat j /\ im_at T 2 c = Z.of_nat i.

Definition inv (l : list (nat * nat)) (k : nat) (s : tri_state) : Prop :=
  ts_dof s = k /\ ts_e0 s = map idxp (part 0 l) /\ ts_e1 s = map idxp (part 1 l) /\ ts_e2 s = rev (map idxp (part 2 l)) /\
  ts_cell s = map idxp (part 3 l) /\
  m_rows (ts_pos s) = 3 /\ m_cols (ts_pos s) = NN /\ im_rows (ts_typ s) = 3 /\ im_cols (ts_typ s) = NN /\
  forall p, In p l -> at_lattice (ts_pos s) (ts_typ s) (idxp p) p.

Lemma body_ok i j s : i + j <= o -> inv (PP i j) (idx2 i j) s ->
  exists s', tri_body o i j s = Ok s' /\ inv (PP i (S j)) (idx2 i (S j)) s'.
Proof.
  intros H (I1 & I2 & I3 & I4 & I5 & I6 & I7 & I8 & I9 & I10). unfold tri_body. rewrite I1.
  match goal with |- context [ts_pos (if _ then _ else _)] => idtac | _ => idtac end.
  set (s1 := if i =? 0 then _ else _).
  assert (S1 : ts_pos s1 = ts_pos s /\ ts_typ s1 = ts_typ s).
  { unfold s1. repeat match goal with |- context [if ?b then _ else _] => destruct b end; auto. }
  destruct S1 as [-> ->].
  assert (S2 : ts_e0 s1 = map idxp (part 0 (PP i (S j))) /\ ts_e1 s1 = map idxp (part 1 (PP i (S j))) /\
     ts_e2 s1 = rev (map idxp (part 2 (PP i (S j)))) /\ ts_cell s1 = map idxp (part 3 (PP i (S j)))).
  { rewrite PP_S, !part_app, !map_app, rev_app_distr, <- I2, <- I3, <- I4, <- I5. unfold part, cls. cbn [filter].
    unfold s1. destruct (Nat.eqb_spec i 0) as [->|N0].
    - rewrite Nat.sub_0_r. destruct ((0 <? j) && (j <? o)); cbn [Nat.eqb map app rev ts_e0 ts_e1 ts_e2 ts_cell]; rewrite ?app_nil_r; repeat split; auto.
    - destruct ((i <? o) && ((j =? 0) || (j =? o - i))).
      + destruct (j =? 0); cbn [Nat.eqb map app rev ts_e0 ts_e1 ts_e2 ts_cell]; rewrite ?app_nil_r; repeat split; auto.
      + destruct (i <? o); cbn [Nat.eqb map app rev ts_e0 ts_e1 ts_e2 ts_cell]; rewrite ?app_nil_r; repeat split; auto. }
  destruct S2 as (-> & -> & -> & ->).
  unfold mat_set_col, imat_set_col. rewrite I7, I9. pose proof (idx2_lt i j H) as HL. destruct (Nat.ltb_spec (idx2 i j) NN); [|lia]. cbn [bind].
  match goal with |- exists z, Ok ?v = Ok z /\ _ => exists v end. split; auto.
  unfold inv. cbn [ts_dof ts_e0 ts_e1 ts_e2 ts_cell ts_pos ts_typ m_rows m_cols im_rows im_cols]. repeat split; auto.
  - unfold idx2. lia.
  - intros p Hp. rewrite PP_S in Hp. apply in_app_iff in Hp. unfold at_lattice. cbn [m_at im_at]. destruct Hp as [Hp|[<-|[]]].
    + pose proof (idx_PP_lt i j p ltac:(lia) Hp). destruct (Nat.eqb_spec (idxp p) (idx2 i j)); [lia|]. apply (I10 p Hp).
    + unfold idxp. cbn [fst snd]. rewrite Nat.eqb_refl. unfold vec3, h. repeat split.
Qed.

Lemma lattice_ok : exists s, tri_lattice o NN = Ok s /\ inv LAT NN s.
Proof.
  unfold tri_lattice.
  match goal with |- context [for_loop (o + 1) ?f ?s0] =>
    destruct (flt (fun i s => inv (PP i 0) (idx2 i 0) s) f (o + 1) s0) as (s & E & H) end.
  - unfold inv. cbn. repeat split; auto. intros p [].
  - intros i s Hi Hs.
    destruct (flt (fun j s => inv (PP i j) (idx2 i j) s) (fun j s => tri_body o i j s) (o + 1 - i) s Hs) as (s' & E & H').
    + intros j s' Hj. apply body_ok. lia.
    + exists s'. split; auto. rewrite PP_row, idx2_row in H'. auto.
  - exists s. split; auto. rewrite idx2_end in H. auto.
Qed.

(** ** The reordering *)
Lemma foldM_app {A S} (f : S -> A -> outcome S) l1 l2 s : foldM f (l1 ++ l2) s = (s' <- foldM f l1 s ;; foldM f l2 s').
Proof. revert s; induction l1; intros s; cbn; auto. destruct (f s a); cbn; auto. Qed.

Lemma copy_list_ok P T (pts : list (nat * nat)) : m_cols P = NN -> im_cols T = NN ->
  (forall p, In p pts -> idxp p < NN /\ at_lattice P T (idxp p) p) ->
  forall Q U k, m_rows Q = 3 -> m_cols Q = NN -> im_rows U = 3 -> im_cols U = NN -> k + length pts <= NN ->
  exists Q' U', tri_copy P T (map idxp pts) (Q, U, k) = Ok (Q', U', k + length pts) /\
    m_rows Q' = 3 /\ m_cols Q' = NN /\ im_rows U' = 3 /\ im_cols U' = NN /\
    (forall c p, c < k -> at_lattice Q U c p -> at_lattice Q' U' c p) /\
    (forall c p, nth_error pts c = Some p -> at_lattice Q' U' (k + c) p).
Proof.
  intros HP HT. induction pts as [|p pts IH]; intros HA Q U k Q1 Q2 U1 U2 Hk.
  - exists Q, U. cbn. rewrite Nat.add_0_r. repeat split; auto; try apply H0. intros [|c] p H; discriminate.
  - cbn [length] in Hk. destruct (HA p (or_introl eq_refl)) as (Hp & Ap).
    unfold tri_copy. cbn [map foldM]. unfold mcol, imcol, mat_set_col, imat_set_col. rewrite HP, HT, Q2, U2.
    destruct (Nat.ltb_spec (idxp p) NN); [|lia]. destruct (Nat.ltb_spec k NN); [|lia]. cbn [bind].
    match goal with |- context [foldM _ _ (?a, ?b, _)] => set (Q3 := a); set (U3 := b) end.
    destruct (IH (fun p' Hp' => HA p' (or_intror Hp')) Q3 U3 (S k)) as (Q' & U' & E & R1 & R2 & R3 & R4 & R5 & R6); auto; [lia|].
    exists Q', U'. unfold tri_copy, mcol, imcol, mat_set_col, imat_set_col in E. rewrite HP, HT in E. rewrite E.
    replace (S k + length pts) with (k + length (p :: pts)) by (cbn; lia). repeat split; auto.
    + intros c p' Hc Ha. apply R5; [lia|]. unfold at_lattice in *. unfold Q3, U3. cbn [m_at im_at]. destruct (Nat.eqb_spec c k); [lia|]. auto.
    + intros [|c] p' E'.
      * cbn in E'. injection E' as <-. rewrite Nat.add_0_r. apply R5; [lia|]. unfold at_lattice in *. unfold Q3, U3. cbn [m_at im_at]. rewrite Nat.eqb_refl. auto.
      * cbn in E'. replace (k + S c) with (S k + c) by lia. auto.
Qed.

Definition Lp : list (nat * nat) := [(0, 0); (0, o); (o, 0)] ++ part 0 LAT ++ part 1 LAT ++ rev (part 2 LAT) ++ part 3 LAT.

(** the classes, row by row *)
Lemma filter_none {A} (f : A -> bool) l : (forall x, In x l -> f x = false) -> filter f l = [].
Proof. induction l; cbn; intros H; auto. rewrite H by auto. auto. Qed.
Lemma filter_all {A} (f : A -> bool) l : (forall x, In x l -> f x = true) -> filter f l = l.
Proof. induction l; cbn; intros H; auto. rewrite H by auto. f_equal. auto. Qed.
Lemma filter_flat_map {A B} (f : B -> bool) (g : A -> list B) l : filter f (flat_map g l) = flat_map (fun a => filter f (g a)) l.
Proof. induction l; cbn; auto. now rewrite filter_app, IHl. Qed.
Lemma flat_map_single {A B} (g : A -> list B) (u : A -> B) l : (forall a, In a l -> g a = [u a]) -> flat_map g l = map u l.
Proof. induction l; cbn; intros H; auto. rewrite H by auto. cbn. f_equal. auto. Qed.
Lemma flat_map_none {A B} (g : A -> list B) l : (forall a, In a l -> g a = []) -> flat_map g l = [].
Proof. induction l; cbn; intros H; auto. now rewrite H, IHl by auto. Qed.

Lemma LAT_rows : LAT = row 0 ++ flat_map row (seq 1 (o - 1)) ++ row o.
Proof.
  unfold LAT, PP. cbn [seq map]. rewrite app_nil_r. replace (o + 1) with (1 + ((o - 1) + 1)) by lia. rewrite !seq_app, !flat_map_app. cbn [seq flat_map plus].
  rewrite !app_nil_r. replace (S (o - 1)) with o by lia. reflexivity.
Qed.
Lemma row_o : row o = [(o, 0)].
Proof. unfold row. replace (o + 1 - o) with 1 by lia. reflexivity. Qed.
Lemma row_0 : row 0 = [(0, 0)] ++ map (fun k => (0, S k)) (seq 0 (o - 1)) ++ [(0, o)].
Proof.
  unfold row. rewrite Nat.sub_0_r. replace (o + 1) with (1 + ((o - 1) + 1)) by lia. rewrite !seq_app, !map_app. cbn [seq map plus app]. f_equal. f_equal.
  - rewrite <- seq_shift, map_map. reflexivity.
  - replace (S (o - 1)) with o by lia. reflexivity.
Qed.
Lemma row_mid a : 1 <= a -> a < o -> row a = [(a, 0)] ++ map (fun b => (a, b)) (seq 1 (o - a - 1)) ++ [(a, o - a)].
Proof.
  intros H1 H2. unfold row. replace (o + 1 - a) with (1 + ((o - a - 1) + 1)) by lia. rewrite !seq_app, !map_app. cbn [seq map plus app]. do 2 f_equal.
  f_equal. f_equal. lia.
Qed.

Lemma part_row0 : part 4 (row 0) = [(0, 0); (0, o)] /\ part 0 (row 0) = map (fun k => (0, S k)) (seq 0 (o - 1)) /\
  part 1 (row 0) = [] /\ part 2 (row 0) = [] /\ part 3 (row 0) = [].
Proof.
  rewrite row_0, !part_app. unfold part.
  assert (C : forall k, In k (map (fun k => (0, S k)) (seq 0 (o - 1))) -> cls k = 0).
  { intros k Hk. apply in_map_iff in Hk. destruct Hk as (x & <- & Hx). apply in_seq in Hx. unfold cls. cbn [Nat.eqb].
    destruct (Nat.ltb_spec 0 (S x)); [|lia]. destruct (Nat.ltb_spec (S x) o); [|lia]. reflexivity. }
  assert (C0 : cls (0, 0) = 4) by reflexivity.
  assert (Co : cls (0, o) = 4). { unfold cls. cbn [Nat.eqb]. rewrite Nat.ltb_irrefl, andb_false_r. reflexivity. }
  cbn [filter]. rewrite C0, Co. cbn [Nat.eqb].
  repeat split; try (rewrite filter_none; [reflexivity|intros x Hx; rewrite (C x Hx); reflexivity]).
  rewrite filter_all; [cbn; now rewrite app_nil_r|intros x Hx; rewrite (C x Hx); reflexivity].
Qed.
Lemma part_rowo : part 4 (row o) = [(o, 0)] /\ part 0 (row o) = [] /\ part 1 (row o) = [] /\ part 2 (row o) = [] /\ part 3 (row o) = [].
Proof.
  rewrite row_o. assert (C : cls (o, 0) = 4). { unfold cls. destruct (Nat.eqb_spec o 0); [lia|]. rewrite Nat.ltb_irrefl. reflexivity. }
  unfold part. cbn [filter]. rewrite C. cbn. auto.
Qed.
Lemma part_mid a : 1 <= a -> a < o -> part 4 (row a) = [] /\ part 0 (row a) = [] /\ part 1 (row a) = [(a, o - a)] /\ part 2 (row a) = [(a, 0)] /\
  part 3 (row a) = map (fun b => (a, b)) (seq 1 (o - a - 1)).
Proof.
  intros H1 H2. rewrite row_mid, !part_app by auto. unfold part.
  assert (C : forall k, In k (map (fun b => (a, b)) (seq 1 (o - a - 1))) -> cls k = 3).
  { intros k Hk. apply in_map_iff in Hk. destruct Hk as (x & <- & Hx). apply in_seq in Hx. unfold cls. destruct (Nat.eqb_spec a 0); [lia|].
    destruct (Nat.ltb_spec a o); [|lia]. destruct (Nat.eqb_spec x 0); [lia|]. destruct (Nat.eqb_spec x (o - a)); [lia|]. reflexivity. }
  assert (C0 : cls (a, 0) = 2). { unfold cls. destruct (Nat.eqb_spec a 0); [lia|]. destruct (Nat.ltb_spec a o); [|lia]. reflexivity. }
  assert (Co : cls (a, o - a) = 1).
  { unfold cls. destruct (Nat.eqb_spec a 0); [lia|]. destruct (Nat.ltb_spec a o); [|lia]. rewrite Nat.eqb_refl, orb_true_r. cbn [andb].
    destruct (Nat.eqb_spec (o - a) 0); [lia|]. reflexivity. }
  cbn [filter]. rewrite C0, Co. cbn [Nat.eqb].
  repeat split; try (rewrite filter_none; [reflexivity|intros x Hx; rewrite (C x Hx); reflexivity]).
  rewrite filter_all; [cbn; now rewrite app_nil_r|intros x Hx; rewrite (C x Hx); reflexivity].
Qed.

Lemma parts : part 4 LAT = [(0, 0); (0, o); (o, 0)] /\
  part 0 LAT = map (fun k => (0, S k)) (seq 0 (o - 1)) /\
  part 1 LAT = map (fun k => (S k, o - 1 - k)) (seq 0 (o - 1)) /\
  rev (part 2 LAT) = map (fun k => (o - 1 - k, 0)) (seq 0 (o - 1)) /\
  part 3 LAT = flat_map (fun a => map (fun b => (a, b)) (seq 1 (o - a - 1))) (seq 1 (o - 1)).
Proof.
  rewrite LAT_rows, !part_app. destruct part_row0 as (-> & -> & -> & -> & ->), part_rowo as (-> & -> & -> & -> & ->).
  unfold part at 1 2 3 4 5. rewrite !filter_flat_map.
  assert (B : forall a, In a (seq 1 (o - 1)) -> 1 <= a /\ a < o) by (intros a Ha; apply in_seq in Ha; lia).
  repeat split.
  - rewrite flat_map_none; [reflexivity|]. intros a Ha. apply part_mid; apply B; auto.
  - rewrite flat_map_none; [now rewrite app_nil_r|]. intros a Ha. apply part_mid; apply B; auto.
  - rewrite (flat_map_single _ (fun a => (a, o - a))). 2: { intros a Ha. apply part_mid; apply B; auto. }
    cbn [app]. rewrite app_nil_r, <- seq_shift, map_map. apply map_ext. intros a. f_equal. lia.
  - rewrite (flat_map_single _ (fun a => (a, 0))). 2: { intros a Ha. apply part_mid; apply B; auto. }
    cbn [app]. rewrite app_nil_r, <- map_rev. rewrite <- (map_map (fun k => o - 1 - k) (fun a => (a, 0))). f_equal.
    clear. generalize (o - 1) as m. clear. intros m. induction m as [|m IH]; [reflexivity|]. rewrite seq_snoc, rev_app_distr, IH.
    cbn [seq map rev app]. f_equal. rewrite <- seq_shift, map_map. apply map_ext. intros; lia.
  - cbn [app]. rewrite app_nil_r. clear - B Ho. induction (seq 1 (o - 1)) as [|a l IH]; [reflexivity|]. cbn [flat_map]. rewrite IH by (intros; apply B; now right).
    f_equal. destruct (B a (or_introl eq_refl)). apply part_mid; auto.
Qed.

Lemma Lp_perm : Permutation Lp LAT.
Proof.
  eapply Permutation_trans; [|apply (partition LAT)]. unfold Lp. destruct parts as (-> & _). apply Permutation_app_head. do 2 apply Permutation_app_head. apply Permutation_app_tail.
  apply Permutation_sym, Permutation_rev.
Qed.
Lemma Lp_length : length Lp = NN.
Proof. rewrite (Permutation_length Lp_perm). apply LAT_length. Qed.
Lemma Lp_NoDup : NoDup Lp.
Proof. apply (Permutation_NoDup (Permutation_sym Lp_perm) LAT_NoDup). Qed.
Lemma Lp_In p : In p Lp <-> fst p + snd p <= o.
Proof. rewrite <- LAT_In. split; apply Permutation_in; [|symmetry]; apply Lp_perm. Qed.

(** what a created element is *)
Definition tri_ok (data : Tri_Data) : Prop :=
  ft_Order data = o /\ ft_NumDofs0D data = 1 /\ ft_NumDofs1D data = o - 1 /\ 3 + 3 * (o - 1) + ft_NumDofs2D data = NN /\ ft_NumBasisFunctions data = NN /\
  m_rows (ft_DofPositions data) = 3 /\ m_cols (ft_DofPositions data) = NN /\ im_rows (ft_DofTypes data) = 3 /\ im_cols (ft_DofTypes data) = NN /\
  forall d p, nth_error Lp d = Some p -> at_lattice (ft_DofPositions data) (ft_DofTypes data) d p.

Lemma create_ok : exists data, Tri_Create o = Ok data /\ tri_ok data.
Proof.
  unfold Tri_Create. destruct (Nat.eqb_spec o 0); [lia|]. fold NN.
  destruct lattice_ok as (s & E & I1 & I2 & I3 & I4 & I5 & I6 & I7 & I8 & I9 & I10). rewrite E. cbn [bind].
  assert (X : forall st, (st <- tri_copy (ts_pos s) (ts_typ s) [0; o; NN - 1] st ;;
    st <- tri_copy (ts_pos s) (ts_typ s) (ts_e0 s) st ;;
    st <- tri_copy (ts_pos s) (ts_typ s) (ts_e1 s) st ;;
    st <- tri_copy (ts_pos s) (ts_typ s) (ts_e2 s) st ;;
    tri_copy (ts_pos s) (ts_typ s) (ts_cell s) st) = tri_copy (ts_pos s) (ts_typ s) (map idxp Lp) st).
  { intros st. unfold Lp. rewrite !map_app, map_rev. rewrite <- I2, <- I3, <- I4, <- I5. cbn [map]. 
    replace (idxp (0, 0)) with 0 by reflexivity. replace (idxp (0, o)) with o by reflexivity.
    replace (idxp (o, 0)) with (NN - 1).
    2: { unfold idxp. cbn [fst snd]. pose proof (idx2_row o). pose proof idx2_end. replace (o + 1) with (S o) in * by lia. replace (S o - o) with 1 in * by lia. unfold idx2 in *. lia. }
    unfold tri_copy.
    repeat (rewrite foldM_app; match goal with |- bind ?e _ = bind ?e _ => destruct e as [?| |]; cbn [bind]; auto end). }
  destruct (copy_list_ok (ts_pos s) (ts_typ s) Lp I7 I9) with (Q := mzero 3 NN) (U := imzero 3 NN) (k := 0) as (Q & U & EQ & R1 & R2 & R3 & R4 & _ & R6); auto.
  - intros p Hp. assert (Hl : In p LAT) by (apply (Permutation_in _ Lp_perm Hp)). split; auto.
    apply (in_map idxp) in Hl. rewrite LAT_idx in Hl. apply in_seq in Hl. lia.
  - rewrite Lp_length. lia.
  - rewrite <- X in EQ. 
    repeat match type of EQ with bind ?e _ = _ => let v := fresh "v" in let E' := fresh "E'" in destruct e as [v| |] eqn:E'; cbn [bind] in EQ; try discriminate; cbn [bind] end.
    rewrite EQ. cbn [bind].
    match goal with |- exists z, Ok ?v = Ok z /\ _ => exists v end. split; auto.
    assert (L1 : length (ts_e0 s) = o - 1) by (rewrite I2, map_length; destruct parts as (_ & -> & _); now rewrite map_length, seq_length).
    repeat split; cbn [ft_Order ft_NumDofs0D ft_NumDofs1D ft_NumDofs2D ft_NumBasisFunctions ft_DofPositions ft_DofTypes]; auto.
    + rewrite <- Lp_length. unfold Lp. rewrite !app_length. rewrite I5, map_length. destruct parts as (_ & -> & -> & -> & _). rewrite !map_length, !seq_length. cbn [length]. lia.
Qed.
End Lattice.
