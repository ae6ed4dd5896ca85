(** Proofs: patch test and unique solvability of the mixed problem, from what its element provides. *)
From Coq Require Import List Arith Bool Reals Lra Lia.
From Verif Require Import Base RSum MatrixModel DofsModel DofsSpec DofsProofs DofsProofs2 AssemblerModel AssemblerSpec AssemblerProofs AssemblerProofs2
  EquationModel EquationSpec EquationProofs TriangleProofs VemQuadModel VemModel VemSpec DriverModel DriverSpec DriverSpec2 Pcc2dSpec DriverProofs DriverProofs2 DriverProofs3 DriverProofs4
  DriverProofs5 DriverProofs6 Pcc2dProofs Pcc2dProofs4 Pcc2dProofs7 VemMccModel VemMccProofs4 Mcc2dModel Mcc2dSpec Mcc2dProofs Mcc2dProofs2 Mcc2dProofs3 Mcc2dProofs4.
From Verif Require Import GreenSpec.
Import ListNotations.
Local Open Scope R_scope.

(** a square system with one solution at most has one *)
Lemma injective_solvable n (a : nat -> nat -> R) : (forall x, (forall i, (i < n)%nat -> rsum n (fun j => a i j * x j) = 0) -> forall j, (j < n)%nat -> x j = 0) ->
  forall b, exists x, forall i, (i < n)%nat -> rsum n (fun j => a i j * x j) = b i.
Proof.
  intros H b. destruct (underdetermined n (S n) (fun i j => if (j <? n)%nat then a i j else b i) ltac:(lia)) as (x & (j0 & Hj0 & Nz) & Hx).
  assert (X : forall i, (i < n)%nat -> rsum n (fun j => a i j * x j) = - (b i * x n)).
  { intros i Hi. specialize (Hx i Hi). cbn [rsum] in Hx. rewrite (rsum_ext n _ (fun j => a i j * x j)) in Hx by (intros j Hj; apply Nat.ltb_lt in Hj; rewrite Hj; reflexivity).
    rewrite Nat.ltb_irrefl in Hx. lra. }
  assert (Xn : x n <> 0).
  { intros Z. apply Nz. destruct (Nat.eq_dec j0 n) as [->|Hn]; [exact Z|]. apply H; [|lia]. intros i Hi. rewrite X, Z by exact Hi. ring. }
  exists (fun j => - (x j / x n)). intros i Hi. rewrite (rsum_ext n _ (fun j => - / x n * (a i j * x j))) by (intros; unfold Rdiv; ring). rewrite rsum_scal, X by exact Hi. field. exact Xn.
Qed.

Lemma place0_cases n1 n2 ne p : (p < n1 * ne + n2)%nat -> (exists i q, (i < ne)%nat /\ (q < n1)%nat /\ p = (n1 * i + q)%nat) \/ (exists i, (i < n2)%nat /\ p = (n1 * ne + i)%nat).
Proof.
  intros Hp. destruct (Nat.lt_ge_cases p (n1 * ne)).
  - left. destruct (Nat.eq_dec n1 0) as [->|Hn]; [lia|]. exists (p / n1)%nat, (p mod n1)%nat.
    pose proof (Nat.div_mod p n1 Hn). pose proof (Nat.mod_upper_bound p n1 Hn). split; [apply Nat.div_lt_upper_bound; lia|]. split; [auto|lia].
  - right. exists (p - n1 * ne)%nat. lia.
Qed.

Lemma lsum_single {A} (f : A -> R) l a : NoDup l -> In a l -> (forall x, In x l -> x <> a -> f x = 0) -> lsum f l = f a.
Proof.
  induction 1 as [|x l Hx ND IH]; intros Hin H; [destruct Hin|]. cbn [lsum]. destruct Hin as [->|Hin].
  - rewrite (lsum_ext _ (fun _ => 0)); [rewrite lsum_0 by auto; ring|]. intros y Hy. apply H; [right; exact Hy|]. intros ->. contradiction.
  - rewrite (H x) by (first [left; reflexivity|intros ->; contradiction]). rewrite IH; auto; [ring|]. intros y Hy. apply H. right. exact Hy.
Qed.
Lemma incidences_nodup mesh : NoDup (incidences mesh).
Proof.
  unfold incidences. pose proof (seq_NoDup (Cell2Ds_number mesh) 0) as ND. induction ND as [|c l Hc ND IH]; cbn [flat_map]; [constructor|].
  assert (AP : forall (A : Type) (a b : list A), NoDup a -> NoDup b -> (forall x, In x a -> ~ In x b) -> NoDup (a ++ b)).
  { clear. intros A a b Ha Hb H. induction Ha as [|x a Hx Ha IH]; [exact Hb|]. cbn. constructor; [|apply IH; intros y Hy; apply H; right; exact Hy]. rewrite in_app_iff. intros [K|K]; [contradiction|]. exact (H x (or_introl eq_refl) K). }
  apply AP; [apply FinFun.Injective_map_NoDup; [intros x y E; injection E; auto|apply seq_NoDup]|exact IH|].
  intros [a b] Ha Hb. apply in_map_iff in Ha. destruct Ha as (i & Ei & _). injection Ei as <- <-. apply in_flat_map in Hb. destruct Hb as (c' & Hc' & Hb). apply in_map_iff in Hb. destruct Hb as (j & Ej & _). injection Ej as -> ->. contradiction.
Qed.

(** ** The places of the unknowns of a cell when the vertices have none *)
Section Places0.
Variables (info : MeshDOFsInfo) (mesh : Mesh) (c n1 n2 : nat).
Hypothesis HV : forall v, In v (Cell2D_vertices mesh c) -> requested info 0 v = 0%nat.
Hypothesis HE : forall e, In e (Cell2D_edges mesh c) -> requested info 1 e = n1.
Hypothesis HC : requested info 2 c = n2.
Let ne := length (Cell2D_edges mesh c).
Lemma split0 : closure_dofs info mesh 2 c = flat_map (fun e => map (entity_dof 1 e) (seq 0 n1)) (Cell2D_edges mesh c) ++ map (entity_dof 2 c) (seq 0 n2).
Proof.
  unfold closure_dofs. cbn [closure_entities]. rewrite !flat_map_app.
  match goal with |- ?a ++ _ = _ => assert (a = []) as -> end.
  { revert HV. generalize (Cell2D_vertices mesh c). clear. induction l; intros HV; cbn [map flat_map]; auto. cbn [fst snd]. rewrite HV by (left; auto). cbn [seq map app]. apply IHl. intros; apply HV; right; auto. }
  cbn [app]. f_equal.
  - revert HE. generalize (Cell2D_edges mesh c). clear. induction l; intros HE; cbn [map flat_map]; auto. cbn [fst snd]. rewrite HE by (left; auto). f_equal. apply IHl. intros; apply HE; right; auto.
  - cbn [flat_map fst snd]. rewrite app_nil_r, HC. reflexivity.
Qed.
Let Hin : forall a, In a (Cell2D_edges mesh c) -> length (map (entity_dof 1 a) (seq 0 n1)) = n1.
Proof. intros; now rewrite map_length, seq_length. Qed.
Lemma length0 : length (closure_dofs info mesh 2 c) = (n1 * ne + n2)%nat.
Proof using HV HE HC. rewrite split0, app_length, map_length, seq_length, (length_flat _ n1) by exact Hin. reflexivity. Qed.
Lemma place0_edge i q : (i < ne)%nat -> (q < n1)%nat -> nth_error (closure_dofs info mesh 2 c) (n1 * i + q) = Some (entity_dof 1 (nth i (Cell2D_edges mesh c) 0%nat) q).
Proof.
  intros Hi Hq. rewrite split0. rewrite nth_error_app1. 2: { rewrite (length_flat _ n1) by exact Hin. fold ne. nia. }
  rewrite (nth_error_flat _ n1 _ i q (nth i (Cell2D_edges mesh c) 0%nat)); auto; [|apply nth_error_nth_d; auto]. apply nth_error_map_seq. exact Hq.
Qed.
Lemma place0_cell i : (i < n2)%nat -> nth_error (closure_dofs info mesh 2 c) (n1 * ne + i) = Some (entity_dof 2 c i).
Proof.
  intros Hi. rewrite split0. rewrite nth_error_app2; rewrite (length_flat _ n1) by exact Hin; fold ne; [|lia]. replace (n1 * ne + i - n1 * ne)%nat with i by lia. apply nth_error_map_seq. exact Hi.
Qed.
End Places0.

Lemma free_places_less mesh info data c r F G : free_places info mesh data c r F - free_places info mesh data c r G = free_places info mesh data c r (fun p => F p - G p).
Proof. unfold free_places. rewrite <- lsum_less. apply lsum_ext. intros p _. destruct (nth_error _ p); [|ring]. destruct (free_is _ _ _); ring. Qed.
Lemma free_places_ext mesh info data c r F G : (forall p, (p < length (closure_dofs info mesh 2 c))%nat -> F p = G p) -> free_places info mesh data c r F = free_places info mesh data c r G.
Proof. intros H. unfold free_places. apply lsum_ext. intros p Hp. apply in_seq in Hp. rewrite H by lia. reflexivity. Qed.

Lemma nth_zero n r : nth r (repeat 0 n) 0 = 0.
Proof. revert r. induction n; intros [|r]; simpl; auto. Qed.
(** the rows tested on fields *)
Lemma tested_rows m info data (F : nat -> nat -> R) y : CreateDOFs 2 info (md_mesh m) = Ok data -> (Cell2Ds_number (md_mesh m)) = num_cells info 2 -> length y = NumberDOFs data ->
  rsum (NumberDOFs data) (fun r => nth r y 0 * cells_sum (md_mesh m) (fun c => free_places info (md_mesh m) data c r (F c))) =
  cells_sum (md_mesh m) (fun c => rsum (length (closure_dofs info (md_mesh m) 2 c)) (fun p => cell_value info (md_mesh m) data y (repeat 0 (NumberStrongs data)) c p * F c p)).
Proof.
  intros HC HN Ly. unfold cells_sum. rewrite lsum_seq.
  rewrite (rsum_ext _ _ (fun r => rsum (Cell2Ds_number (md_mesh m)) (fun c => nth r y 0 * free_places info (md_mesh m) data c r (F c)))) by (intros r Hr; rewrite lsum_seq, rsum_scal; reflexivity).
  rewrite rsum_swap. apply rsum_ext. intros c Hc. apply (tested_places m info data HC HN); auto.
Qed.


(** ** The action of the matrix *)
Section Element.
Variables (m : Mesh2D) (info0 info1 : MeshDOFsInfo) (d0 d1 : DOFsData) (create : nat -> outcome MixedSpace) (P : MixedProblem) (E : nat -> MixedForms) (kk : nat -> R) (sv : nat -> nat -> R).
Local Notation mesh := (md_mesh m).
Local Notation nc := (Cell2Ds_number mesh).
Hypothesis HC0 : CreateDOFs 2 info0 mesh = Ok d0.
Hypothesis HN0 : nc = num_cells info0 2.
Hypothesis HC1 : CreateDOFs 2 info1 mesh = Ok d1.
Hypothesis HN1 : nc = num_cells info1 2.
Local Notation n0 c := (length (closure_dofs info0 mesh 2 c)).
Local Notation n1 c := (length (closure_dofs info1 mesh 2 c)).
Hypothesis HE : forall c, (c < nc)%nat -> mixed_forms create (Cell2D_edges mesh c) (requested info0 1) c (n0 c) (n1 c) (E c).
Local Notation N0 := (NumberDOFs d0).
Local Notation N1 := (NumberDOFs d1).
Local Notation S0 := (NumberStrongs d0).
Local Notation S1 := (NumberStrongs d1).
Local Notation zero0 := (repeat 0 S0).
Local Notation zero1 := (repeat 0 S1).
Local Notation cv0 u c := (cell_value info0 mesh d0 u zero0 c).
Local Notation cv1 u c := (cell_value info1 mesh d1 u zero1 c).

(** what is known of the assembled data *)
Definition sums (D : MixedData) (gS : list R) : Prop := forall vD pD, length vD = N0 -> length pD = N1 ->
  (forall r, (r < N0)%nat -> mixed_residual D (vD ++ pD) r =
     cells_sum mesh (fun c => free_places info0 mesh d0 c r (velocity_form (E c) P (kk c) (cell_value info0 mesh d0 vD gS c) (cell_value info1 mesh d1 pD (repeat 0 S1) c))) +
     cells_sum mesh (fun c => boundary_form info0 mesh d0 (E c) (mp_weak P) c r)) /\
  (forall r, (r < N1)%nat -> mixed_residual D (vD ++ pD) (N0 + r) =
     cells_sum mesh (fun c => free_places info1 mesh d1 c r (pressure_form (E c) P (cell_value info0 mesh d0 vD gS c) (cell_value info1 mesh d1 pD (repeat 0 S1) c)))).

Lemma action D gS vD pD : sums D gS -> length gS = S0 -> length vD = N0 -> length pD = N1 ->
  (forall r, (r < N0)%nat -> mixed_row D (vD ++ pD) r = cells_sum mesh (fun c => free_places info0 mesh d0 c r (velocity_form (E c) P (kk c) (cv0 vD c) (cv1 pD c)))) /\
  (forall r, (r < N1)%nat -> mixed_row D (vD ++ pD) (N0 + r) = cells_sum mesh (fun c => free_places info1 mesh d1 c r (pressure_form (E c) (unforced P) (cv0 vD c) (cv1 pD c)))).
Proof.
  intros SM Lg Lv Lp.
  destruct (SM vD pD Lv Lp) as (A0 & A1). destruct (SM (repeat 0 N0) (repeat 0 N1) (repeat_length _ _) (repeat_length _ _)) as (B0 & B1).
  assert (Z : forall r, mixed_row D (repeat 0 N0 ++ repeat 0 N1) r = 0).
  { intros r. unfold mixed_row. apply rsum_0. intros j _. rewrite <- repeat_app, nth_zero. ring. }
  assert (X : forall r, mixed_row D (vD ++ pD) r = mixed_residual D (vD ++ pD) r - mixed_residual D (repeat 0 N0 ++ repeat 0 N1) r) by (intros r; unfold mixed_residual; rewrite Z; ring).
  assert (C0 : forall c p, (c < nc)%nat -> cell_value info0 mesh d0 vD gS c p - cell_value info0 mesh d0 (repeat 0 N0) gS c p = cv0 vD c p).
  { intros c p Hc. rewrite (cell_value_linear m info0 d0 HC0 HN0 1 (-1) vD gS (repeat 0 N0) gS vD zero0 c p Hc); auto using repeat_length; [ring| |]; intros r Hr; rewrite ?nth_zero; ring. }
  assert (C1 : forall c p, (c < nc)%nat -> cell_value info1 mesh d1 pD zero1 c p - cell_value info1 mesh d1 (repeat 0 N1) zero1 c p = cv1 pD c p).
  { intros c p Hc. symmetry. etransitivity; [apply (cell_value_linear m info1 d1 HC1 HN1 1 (-1) pD zero1 (repeat 0 N1) zero1 pD zero1 c p Hc); auto using repeat_length; intros r Hr; rewrite ?nth_zero; ring|ring]. }
  split; intros r Hr; rewrite X.
  - rewrite A0, B0 by exact Hr. match goal with |- ?a + ?b - (?d + ?b) = _ => replace (a + b - (d + b)) with (a - d) by ring end.
    unfold cells_sum. rewrite <- lsum_less. apply lsum_ext. intros c Hc. apply in_seq in Hc. rewrite free_places_less. apply free_places_ext. intros p Hp. rewrite velocity_less.
    apply (velocity_ext create (Cell2D_edges mesh c) (requested info0 1) c (n0 c) (n1 c)); [apply HE; lia| |]; intros j Hj; [apply C0|apply C1]; lia.
  - rewrite A1, B1 by exact Hr.
    unfold cells_sum. rewrite <- lsum_less. apply lsum_ext. intros c Hc. apply in_seq in Hc. rewrite free_places_less. apply free_places_ext. intros p Hp. rewrite pressure_less.
    apply (pressure_ext create (Cell2D_edges mesh c) (requested info0 1) c (n0 c) (n1 c)); [apply HE; lia| |]; intros j Hj; [apply C0|apply C1]; lia.
Qed.

(** ** The element *)
Variables (geometry : nat -> Polygon) (k ke : nat) (Phi : nat -> (R -> R -> R) -> (nat -> R) -> R).
Hypothesis HV0 : forall c v, (c < nc)%nat -> In v (Cell2D_vertices mesh c) -> requested info0 0 v = 0%nat.
Hypothesis HE0 : forall c e, (c < nc)%nat -> In e (Cell2D_edges mesh c) -> requested info0 1 e = ke.
Local Notation ne c := (length (Cell2D_edges mesh c)).
Local Notation nq c := (v_size (xf_weights (E c))).
Local Notation w c q := (v_at (xf_weights (E c)) q).
Local Notation px c q := (m_at (xf_points (E c)) 0%nat q).
Local Notation py c q := (m_at (xf_points (E c)) 1%nat q).
Local Notation sg ci := (sign (direction_of geometry ci)).
(** the flux against p through the edges *)
Hypothesis parts : forall c v p p0 p1, (c < nc)%nat -> poly2 k p p0 p1 ->
  rsum (nq c) (fun q => w c q * (p0 (px c q) (py c q) * combine (xf_V (E c) 0) v q + p1 (px c q) (py c q) * combine (xf_V (E c) 1) v q + p (px c q) (py c q) * combine (xf_D (E c)) v q)) =
  rsum (ne c) (fun i => sg (c, i) * Phi (edge_of mesh (c, i)) p (fun j => v (ke * i + j)%nat)).
Hypothesis edge_flux : forall c i g p v, In (c, i) (incidences mesh) -> (forall t, let x := edge_point (geometry c) i t in at_point g x = p (x 0%nat) (x 1%nat)) ->
  rsum ke (fun j => v j * edge_form (E c) g i j) = sg (c, i) * Phi (edge_of mesh (c, i)) p v.
Hypothesis Phi_ext : forall e p v v', (forall j, (j < ke)%nat -> v j = v' j) -> Phi e p v = Phi e p v'.
Hypothesis Phi_zero : forall e p, Phi e p (fun _ => 0) = 0.

(** the values of a test vector on the edges *)
Definition edge_value (y : list R) (e j : nat) : R := match value_of d0 y zero0 (entity_dof 1 e j) with Some x => x | None => 0 end.
Lemma value_edge y c i j : (c < nc)%nat -> (i < ne c)%nat -> (j < ke)%nat -> cv0 y c (ke * i + j)%nat = edge_value y (edge_of mesh (c, i)) j.
Proof.
  intros Hc Hi Hj. unfold cell_value. rewrite (place0_edge info0 mesh c ke (requested info0 2 c)); auto; [intros v; apply HV0|intros e; apply HE0]; auto.
Qed.
Lemma boundary_tested c r : (c < nc)%nat -> (r < N0)%nat ->
  boundary_form info0 mesh d0 (E c) (mp_weak P) c r = rsum (ne c) (fun i => if weak_edge info0 (edge_of mesh (c, i))
    then rsum ke (fun j => edge_value (unit_vector d0 r) (edge_of mesh (c, i)) j * edge_form (E c) (mp_weak P (marker_of info0 1 (edge_of mesh (c, i)))) i j) else 0).
Proof.
  intros Hc Hr. unfold boundary_form. apply rsum_ext. intros i Hi. cbv zeta. change (nth i (Cell2D_edges mesh c) 0%nat) with (edge_of mesh (c, i)).
  destruct (weak_edge info0 (edge_of mesh (c, i))); [|reflexivity].
  assert (Hin : In (edge_of mesh (c, i)) (Cell2D_edges mesh c)) by (unfold edge_of; cbn [fst snd]; apply nth_In; exact Hi).
  rewrite (HE0 c _ Hc Hin). apply rsum_ext. intros j Hj. rewrite <- (value_edge _ c i j Hc Hi Hj).
  pose proof (place0_edge info0 mesh c ke (requested info0 2 c) (fun v => HV0 c v Hc) (fun e => HE0 c e Hc) eq_refl i j Hi Hj) as PL.
  destruct (closure_valid m info0 d0 c _ HC0 HN0 Hc (nth_error_In _ _ PL)) as (V & _).
  destruct (valid_lookup 2 info0 mesh d0 ltac:(lia) HC0 _ V) as (x & t & Lx & _).
  rewrite (value_unit m info0 d0 HC0 HN0 r c _ _ x Hc Hr PL Lx). unfold free_is. change (nth i (Cell2D_edges mesh c) 0%nat) with (edge_of mesh (c, i)) in Lx. rewrite Lx.
  destruct (_ && _); ring.
Qed.
(** *** Patch test *)
Lemma edge_value_strong y c i j : In (c, i) (incidences mesh) -> (j < ke)%nat -> strong_entity info0 1 (edge_of mesh (c, i)) -> edge_value y (edge_of mesh (c, i)) j = 0.
Proof.
  intros Hci Hj Hs. destruct (proj1 (in_incidences _ _ _) Hci) as (Hc & Hi). rewrite <- (value_edge y c i j Hc Hi Hj).
  eapply (value_strong m info0 d0 HC0 HN0); [exact Hc|apply (place0_edge info0 mesh c ke (requested info0 2 c) (fun v => HV0 c v Hc) (fun e => HE0 c e Hc) eq_refl i j Hi Hj)|exact Hs].
Qed.
Lemma tested_edges y c p p0 p1 : (c < nc)%nat -> poly2 k p p0 p1 ->
  rsum (nq c) (fun q => w c q * (p0 (px c q) (py c q) * combine (xf_V (E c) 0) (cv0 y c) q + p1 (px c q) (py c q) * combine (xf_V (E c) 1) (cv0 y c) q + p (px c q) (py c q) * combine (xf_D (E c)) (cv0 y c) q)) =
  rsum (ne c) (fun i => sg (c, i) * Phi (edge_of mesh (c, i)) p (edge_value y (edge_of mesh (c, i)))).
Proof.
  intros Hc Hp. rewrite (parts c (cv0 y c) p p0 p1 Hc Hp). apply rsum_ext. intros i Hi. f_equal. apply Phi_ext. intros j Hj. apply value_edge; auto.
Qed.
Lemma patch_velocity D gS vD pD p p0 p1 : sums D gS -> length vD = N0 -> length pD = N1 -> poly2 k p p0 p1 ->
  (forall c q, (c < nc)%nat -> (q < nq c)%nat ->
     at_x (mp_inverse_diffusion P) (E c) q 0%nat * combine (xf_V (E c) 0) (cell_value info0 mesh d0 vD gS c) q + at_x (mp_inverse_diffusion P) (E c) q 3%nat * combine (xf_V (E c) 1) (cell_value info0 mesh d0 vD gS c) q =
       at_x (mp_advection P) (E c) q 0%nat * p (px c q) (py c q) - p0 (px c q) (py c q) /\
     at_x (mp_inverse_diffusion P) (E c) q 1%nat * combine (xf_V (E c) 0) (cell_value info0 mesh d0 vD gS c) q + at_x (mp_inverse_diffusion P) (E c) q 4%nat * combine (xf_V (E c) 1) (cell_value info0 mesh d0 vD gS c) q =
       at_x (mp_advection P) (E c) q 1%nat * p (px c q) (py c q) - p1 (px c q) (py c q) /\
     combine (xf_P (E c)) (cv1 pD c) q = p (px c q) (py c q)) ->
  (forall c i, (c < nc)%nat -> (i < n0 c)%nat -> combine (xf_S (E c)) (cell_value info0 mesh d0 vD gS c) i = 0) ->
  mixed_closed info0 mesh geometry -> pressure_data info0 mesh geometry p (mp_weak P) ->
  forall r, (r < N0)%nat -> mixed_residual D (vD ++ pD) r = 0.
Proof.
  intros SM Lv Lp Hp HM HSt CL PD r Hr. rewrite (proj1 (SM vD pD Lv Lp) r Hr). set (y := unit_vector d0 r). set (X := fun e => Phi e p (edge_value y e)).
  unfold cells_sum. rewrite !lsum_seq.
  rewrite (rsum_ext nc (fun c => free_places _ _ _ _ _ _) (fun c => rsum (ne c) (fun i => - (sg (c, i) * X (edge_of mesh (c, i)))))).
  2: { intros c Hc. rewrite (unit_places m info0 d0 HC0 HN0 r c _ Hc Hr). fold y.
    rewrite (velocity_tested create _ _ c _ _ (E c) P (kk c) (HE c Hc)).
    rewrite (rsum_0 (n0 c)) by (intros i Hi; rewrite HSt by auto; ring). rewrite Rmult_0_r, Rplus_0_r.
    rewrite (rsum_ext (ne c) _ (fun i => -1 * (sg (c, i) * X (edge_of mesh (c, i))))) by (intros; ring). rewrite rsum_scal. unfold X. rewrite <- (tested_edges y c p p0 p1 Hc Hp), <- rsum_scal.
    apply rsum_ext. intros q Hq. destruct (HM c q Hc Hq) as (M0 & M1 & M2). rewrite M2, !rsum2. cbn [Nat.add Nat.mul]. rewrite M0, M1. ring. }
  rewrite (rsum_ext nc (fun c => boundary_form _ _ _ _ _ _ _) (fun c => rsum (ne c) (fun i => if weak_edge info0 (edge_of mesh (c, i)) then sg (c, i) * X (edge_of mesh (c, i)) else 0))).
  2: { intros c Hc. rewrite (boundary_tested c r Hc Hr). apply rsum_ext. intros i Hi. destruct (weak_edge info0 (edge_of mesh (c, i))) eqn:Ew; [|reflexivity].
    assert (Hci : In (c, i) (incidences mesh)) by (apply in_incidences; auto). rewrite (edge_flux c i _ p _ Hci); [reflexivity|]. intros t. apply PD; auto. }
  rewrite <- (lsum_incidences mesh (fun c i => - (sg (c, i) * X (edge_of mesh (c, i))))), <- (lsum_incidences mesh (fun c i => if weak_edge info0 (edge_of mesh (c, i)) then sg (c, i) * X (edge_of mesh (c, i)) else 0)).
  rewrite <- lsum_plus. pose proof (cancel_edges (incidences mesh) (edge_of mesh) (direction_of geometry) (fun e => if weak_edge info0 e then 0 else X e)) as K.
  rewrite (lsum_ext _ (fun ci => -1 * ((if direction_of geometry ci then 1 else -1) * (if weak_edge info0 (edge_of mesh ci) then 0 else X (edge_of mesh ci))))).
  - rewrite lsum_scal, K; [ring|]. intros [c i] Hci. destruct (weak_edge info0 (edge_of mesh (c, i))) eqn:Ew; [auto|]. destruct (CL _ Hci Ew) as [Hi|Hs]; [right; exact Hi|left].
    unfold X. rewrite <- (Phi_zero (edge_of mesh (c, i)) p). apply Phi_ext. intros j Hj. apply edge_value_strong; auto.
  - intros [c i] Hci. cbn [fst snd]. unfold sign. destruct (weak_edge info0 (edge_of mesh (c, i))); ring.
Qed.
Lemma patch_pressure D gS vD pD : sums D gS -> length vD = N0 -> length pD = N1 ->
  (forall c q, (c < nc)%nat -> (q < nq c)%nat -> combine (xf_D (E c)) (cell_value info0 mesh d0 vD gS c) q + at_x (mp_reaction P) (E c) q * combine (xf_P (E c)) (cv1 pD c) q = at_x (mp_source P) (E c) q) ->
  forall r, (r < N1)%nat -> mixed_residual D (vD ++ pD) (N0 + r) = 0.
Proof.
  intros SM Lv Lp HM r Hr. rewrite (proj2 (SM vD pD Lv Lp) r Hr). unfold cells_sum. rewrite lsum_seq. apply rsum_0. intros c Hc. rewrite free_places_sum. apply rsum_0. intros p Hp.
  replace (pressure_form (E c) P _ _ p) with 0; [ring|]. unfold pressure_form. symmetry. apply rsum_0. intros q Hq. rewrite HM by auto. ring.
Qed.

(** *** Unique solvability *)
Hypothesis Hk : forall c, (c < nc)%nat -> greatest_inverse (E c) (mp_inverse_diffusion P) (kk c).
Hypothesis weights : forall c q, (c < nc)%nat -> (q < nq c)%nat -> 0 <= w c q.
Hypothesis EL : elliptic (mp_inverse_diffusion P).
Hypothesis still : forall x y z i, mp_advection P x y z i = 0.
Hypothesis decay : forall x y z, 0 <= mp_reaction P x y z.
Hypothesis stab_pos : forall c v, (c < nc)%nat -> 0 <= rsum (n0 c) (fun p => v p * combine (xf_S (E c)) v p).
Hypothesis mass : forall c v, (c < nc)%nat ->
  rsum (nq c) (fun q => w c q * (combine (xf_V (E c) 0) v q * combine (xf_V (E c) 0) v q + combine (xf_V (E c) 1) v q * combine (xf_V (E c) 1) v q)) + rsum (n0 c) (fun p => v p * combine (xf_S (E c)) v p) <= 0 ->
  forall p, (p < n0 c)%nat -> v p = 0.
Hypothesis div_kernel : forall c r, (c < nc)%nat ->
  (forall v, (forall p, (p < ke * ne c)%nat -> v p = 0) -> rsum (nq c) (fun q => w c q * (combine (xf_P (E c)) r q * combine (xf_D (E c)) v q)) = 0) ->
  exists C, (forall q, (q < nq c)%nat -> combine (xf_P (E c)) r q = C) /\ (C = 0 -> forall p, (p < n1 c)%nat -> r p = 0).
Hypothesis Phi_one : forall ci, In ci (incidences mesh) -> exists j, (j < ke)%nat /\ Phi (edge_of mesh ci) (fun _ _ => 1) (fun s => if (s =? j)%nat then 1 else 0) <> 0.
Hypothesis one : poly2 k (fun _ _ => 1) (fun _ _ => 0) (fun _ _ => 0).
Hypothesis CO0 : covered info0 mesh.
Hypothesis CO1 : covered info1 mesh.
Hypothesis cells_free : forall c, (c < nc)%nat -> ~ strong_entity info0 2 c.
Hypothesis DR : forall c, (c < nc)%nat -> drained info0 mesh geometry c.

Lemma elliptic_pos x y z a b : 0 <= mp_inverse_diffusion P x y z 0%nat * a * a + (mp_inverse_diffusion P x y z 1%nat + mp_inverse_diffusion P x y z 3%nat) * a * b + mp_inverse_diffusion P x y z 4%nat * b * b.
Proof. destruct (Req_dec a 0) as [->|Ha]; [destruct (Req_dec b 0) as [->|Hb]; [lra|]|]; left; apply EL; auto. Qed.
Lemma kk_pos c : (c < nc)%nat -> 0 < kk c.
Proof.
  intros Hc. destruct (Hk c Hc) as (A & _). destruct (xe_points _ _ _ _ _ _ _ (HE c Hc)) as (_ & _ & Hq). specialize (A 0%nat 0%nat ltac:(lia) Hq).
  pose proof (EL (px c 0%nat) (py c 0%nat) (m_at (xf_points (E c)) 2%nat 0%nat) 1 0 ltac:(left; lra)) as B. unfold at_x, at_col in A. eapply Rlt_le_trans; [|exact A]. rewrite Rabs_right; lra.
Qed.
Lemma realise_free info data (T : GlobalCell_DOF -> R) : CreateDOFs 2 info mesh = Ok data -> (forall h, valid 2 info h -> strong_entity info (g_dim h) (g_cell h) -> T h = 0) ->
  exists uD, length uD = NumberDOFs data /\ forall h, valid 2 info h -> value_of data uD (repeat 0 (NumberStrongs data)) h = Some (T h).
Proof.
  intros HC HT. destruct (realise info mesh data HC T) as (uD & uS & LD & LS & HU). exists uD. split; [exact LD|]. intros h V. specialize (HU h V).
  destruct (valid_lookup 2 info mesh data ltac:(lia) HC h V) as (x & t & Lx & Bt & B). unfold value_of in *. rewrite Lx in *.
  destruct B as [(Et & Tx & Ix)|(_ & Tx & Ix)]; rewrite Tx in *; [|exact HU]. rewrite nth_error_repeat by exact Ix. rewrite HT; auto. unfold strong_entity. rewrite Bt, Et. reflexivity.
Qed.
Lemma vanish info data y : CreateDOFs 2 info mesh = Ok data -> nc = num_cells info 2 -> covered info mesh -> length y = NumberDOFs data ->
  (forall c p, (c < nc)%nat -> (p < length (closure_dofs info mesh 2 c))%nat -> cell_value info mesh data y (repeat 0 (NumberStrongs data)) c p = 0) -> forall r, (r < NumberDOFs data)%nat -> nth r y 0 = 0.
Proof.
  intros HC HN CO Ly H r Hr. destruct (free_unknown info mesh data r HC Hr) as (g & x & V & Lx & Tx & Ix). destruct (covered_cell info mesh g HN CO V) as (c & Hc & Hin).
  destruct (In_nth_error _ _ Hin) as (p & Hp). specialize (H c p Hc ltac:(apply nth_error_Some; rewrite Hp; discriminate)). unfold cell_value in H. rewrite Hp in H. unfold value_of in H.
  rewrite Lx, Tx, Ix in H. rewrite (nth_error_nth' _ 0) in H by lia. exact H.
Qed.

Lemma kernel D gS vD pD : sums D gS -> length gS = S0 -> length vD = N0 -> length pD = N1 -> (forall r, (r < N0 + N1)%nat -> mixed_row D (vD ++ pD) r = 0) ->
  (forall r, (r < N0)%nat -> nth r vD 0 = 0) /\ (forall r, (r < N1)%nat -> nth r pD 0 = 0).
Proof.
  intros SM Lg Lv Lp Z. destruct (action D gS vD pD SM Lg Lv Lp) as (A0 & A1).
  (* energy *)
  assert (EN : cells_sum mesh (fun c => rsum (nq c) (fun q => w c q *
     (rsum 2 (fun i => rsum 2 (fun j => at_x (mp_inverse_diffusion P) (E c) q (i + 3 * j)%nat * combine (xf_V (E c) j) (cv0 vD c) q) * combine (xf_V (E c) i) (cv0 vD c) q)
      + at_x (mp_reaction P) (E c) q * (combine (xf_P (E c)) (cv1 pD c) q * combine (xf_P (E c)) (cv1 pD c) q))) + kk c * rsum (n0 c) (fun p => cv0 vD c p * combine (xf_S (E c)) (cv0 vD c) p)) = 0).
  { transitivity (rsum N0 (fun r => nth r vD 0 * mixed_row D (vD ++ pD) r) + rsum N1 (fun r => nth r pD 0 * mixed_row D (vD ++ pD) (N0 + r))).
    2: { rewrite !rsum_0; [ring| |]; intros r Hr; rewrite Z by lia; ring. }
    rewrite (rsum_ext N0 _ (fun r => nth r vD 0 * cells_sum mesh (fun c => free_places info0 mesh d0 c r (velocity_form (E c) P (kk c) (cv0 vD c) (cv1 pD c))))) by (intros r Hr; rewrite A0 by exact Hr; reflexivity).
    rewrite (rsum_ext N1 _ (fun r => nth r pD 0 * cells_sum mesh (fun c => free_places info1 mesh d1 c r (pressure_form (E c) (unforced P) (cv0 vD c) (cv1 pD c))))) by (intros r Hr; rewrite A1 by exact Hr; reflexivity).
    rewrite (tested_rows m info0 d0 _ vD HC0 HN0 Lv), (tested_rows m info1 d1 _ pD HC1 HN1 Lp). unfold cells_sum. rewrite <- lsum_plus. apply lsum_ext. intros c Hc. apply in_seq in Hc.
    rewrite (velocity_tested create _ _ c _ _ (E c) P (kk c) (HE c ltac:(lia))), (pressure_tested create _ _ c _ _ (E c) (unforced P) (HE c ltac:(lia))).
    match goal with |- ?a + ?s = ?b + ?s + ?d => cut (a = b + d); [intros ->; ring|] end. rewrite <- rsum_plus. apply rsum_ext. intros q Hq.
    unfold at_x at 4 6, at_col. cbn [unforced mp_source mp_reaction]. unfold at_x, at_col. rewrite !rsum2, !still. cbn [unforced mp_source mp_reaction]. ring. }
  assert (QP : forall c q, (c < nc)%nat -> (q < nq c)%nat -> 0 <= rsum 2 (fun i => rsum 2 (fun j => at_x (mp_inverse_diffusion P) (E c) q (i + 3 * j)%nat * combine (xf_V (E c) j) (cv0 vD c) q) * combine (xf_V (E c) i) (cv0 vD c) q)).
  { intros c q Hc Hq. rewrite !rsum2. cbn [Nat.add Nat.mul]. unfold at_x, at_col.
    pose proof (elliptic_pos (px c q) (py c q) (m_at (xf_points (E c)) 2%nat q) (combine (xf_V (E c) 0) (cv0 vD c) q) (combine (xf_V (E c) 1) (cv0 vD c) q)). lra. }
  assert (RP : forall c q, 0 <= at_x (mp_reaction P) (E c) q * (combine (xf_P (E c)) (cv1 pD c) q * combine (xf_P (E c)) (cv1 pD c) q)).
  { intros c q. apply Rmult_le_pos; [apply decay|nra]. }
  assert (V0 : forall c p, (c < nc)%nat -> (p < n0 c)%nat -> cv0 vD c p = 0).
  { intros c p Hc Hp. unfold cells_sum in EN. rewrite lsum_seq in EN.
    pose proof (fun H => rsum_nonneg_0 nc _ H EN c Hc) as EC. cbv beta in EC. match type of EC with ?A -> _ => assert (EH : A); [|specialize (EC EH)] end.
    { intros c' Hc'. apply Rplus_le_le_0_compat; [apply rsum_nonneg; intros q Hq; apply Rmult_le_pos; [apply weights; auto|apply Rplus_le_le_0_compat; auto]|].
      apply Rmult_le_pos; [left; apply kk_pos; auto|apply stab_pos; auto]. }
    pose proof (stab_pos c (cv0 vD c) Hc) as SP. pose proof (kk_pos c Hc) as KP.
    assert (QN : forall q, (q < nq c)%nat -> 0 <= w c q * (rsum 2 (fun i => rsum 2 (fun j => at_x (mp_inverse_diffusion P) (E c) q (i + 3 * j)%nat * combine (xf_V (E c) j) (cv0 vD c) q) * combine (xf_V (E c) i) (cv0 vD c) q)
      + at_x (mp_reaction P) (E c) q * (combine (xf_P (E c)) (cv1 pD c) q * combine (xf_P (E c)) (cv1 pD c) q))).
    { intros q Hq. apply Rmult_le_pos; [apply weights; auto|apply Rplus_le_le_0_compat; auto]. }
    pose proof (rsum_nonneg _ _ QN) as QS.
    assert (SZ : kk c * rsum (n0 c) (fun p => cv0 vD c p * combine (xf_S (E c)) (cv0 vD c) p) = 0) by nra.
    assert (QZ : rsum (nq c) (fun q => w c q * (rsum 2 (fun i => rsum 2 (fun j => at_x (mp_inverse_diffusion P) (E c) q (i + 3 * j)%nat * combine (xf_V (E c) j) (cv0 vD c) q) * combine (xf_V (E c) i) (cv0 vD c) q)
      + at_x (mp_reaction P) (E c) q * (combine (xf_P (E c)) (cv1 pD c) q * combine (xf_P (E c)) (cv1 pD c) q))) = 0) by lra.
    apply (mass c (cv0 vD c) Hc); [|exact Hp]. apply Rmult_integral in SZ. destruct SZ as [SZ|SZ]; [lra|]. rewrite SZ, Rplus_0_r. right. apply rsum_0. intros q Hq.
    pose proof (rsum_nonneg_0 _ _ QN QZ q Hq) as QQ. cbv beta in QQ. apply Rmult_integral in QQ. destruct QQ as [QQ|QQ]; [rewrite QQ; ring|].
    pose proof (QP c q Hc Hq) as QP1. pose proof (RP c q) as RP1. assert (Q0 : rsum 2 (fun i => rsum 2 (fun j => at_x (mp_inverse_diffusion P) (E c) q (i + 3 * j)%nat * combine (xf_V (E c) j) (cv0 vD c) q) * combine (xf_V (E c) i) (cv0 vD c) q) = 0) by lra.
    rewrite !rsum2 in Q0. cbn [Nat.add Nat.mul] in Q0. unfold at_x, at_col in Q0.
    assert (NN : ~ (combine (xf_V (E c) 0) (cv0 vD c) q <> 0 \/ combine (xf_V (E c) 1) (cv0 vD c) q <> 0)).
    { intros NZ. pose proof (EL (px c q) (py c q) (m_at (xf_points (E c)) 2%nat q) _ _ NZ). lra. }
    destruct (Req_dec (combine (xf_V (E c) 0) (cv0 vD c) q) 0) as [X0|X0]; [|exfalso; auto]. destruct (Req_dec (combine (xf_V (E c) 1) (cv0 vD c) q) 0) as [X1|X1]; [|exfalso; auto].
    rewrite X0, X1. ring. }
  split; [apply (vanish info0 d0 vD HC0 HN0 CO0 Lv); exact V0|].
  (* the momentum balance without velocity *)
  assert (TT : forall y, length y = N0 -> cells_sum mesh (fun c => rsum (nq c) (fun q => w c q * (combine (xf_P (E c)) (cv1 pD c) q * combine (xf_D (E c)) (cv0 y c) q))) = 0).
  { intros y Ly. assert (X : rsum N0 (fun r => nth r y 0 * mixed_row D (vD ++ pD) r) = 0) by (apply rsum_0; intros r Hr; rewrite Z by lia; ring).
    rewrite (rsum_ext N0 _ (fun r => nth r y 0 * cells_sum mesh (fun c => free_places info0 mesh d0 c r (velocity_form (E c) P (kk c) (cv0 vD c) (cv1 pD c))))) in X by (intros r Hr; rewrite A0 by exact Hr; reflexivity).
    rewrite (tested_rows m info0 d0 _ y HC0 HN0 Ly) in X. unfold cells_sum in *. rewrite lsum_seq in *.
    rewrite (rsum_ext nc _ (fun c => -1 * rsum (nq c) (fun q => w c q * (combine (xf_P (E c)) (cv1 pD c) q * combine (xf_D (E c)) (cv0 y c) q)))) in X; [rewrite rsum_scal in X; lra|].
    intros c Hc. rewrite (velocity_tested create _ _ c _ _ (E c) P (kk c) (HE c Hc)). destruct (HE c Hc) as [_ _ (_ & V2) (_ & _ & D2) _ (_ & _ & S2) _ _ _ _].
    assert (CV : forall d q, (d < 2)%nat -> combine (xf_V (E c) d) (cv0 vD c) q = 0) by (intros d q Hd; destruct (V2 d Hd) as (_ & Hcc); unfold combine; rewrite Hcc; apply rsum_0; intros j Hj; rewrite V0 by auto; ring).
    assert (CS : forall p, combine (xf_S (E c)) (cv0 vD c) p = 0) by (intros p; unfold combine; rewrite S2; apply rsum_0; intros j Hj; rewrite V0 by auto; ring).
    rewrite (rsum_0 (n0 c)) by (intros p Hp; rewrite CS; ring). rewrite Rmult_0_r, Rplus_0_r, <- rsum_scal. apply rsum_ext. intros q Hq.
    unfold at_x, at_col. rewrite !rsum2, !still, !CV by lia. ring. }
  assert (PC : forall c, (c < nc)%nat -> exists C, (forall q, (q < nq c)%nat -> combine (xf_P (E c)) (cv1 pD c) q = C) /\ (C = 0 -> forall p, (p < n1 c)%nat -> cv1 pD c p = 0)).
  { intros c Hc. apply div_kernel; [exact Hc|]. intros v Hv.
    destruct (realise_free info0 d0 (fun h => if ((g_dim h =? 2) && (g_cell h =? c))%nat then v (ke * ne c + g_dof h)%nat else 0) HC0) as (y & Ly & Hy).
    { intros h V Hs. destruct (Nat.eqb_spec (g_dim h) 2) as [Ed|]; [|reflexivity]. destruct (Nat.eqb_spec (g_cell h) c) as [Ec|]; [|reflexivity]. exfalso. rewrite Ed, Ec in Hs. exact (cells_free c Hc Hs). }
    specialize (TT y Ly). unfold cells_sum in TT. rewrite lsum_seq in TT. rewrite (rsum_single nc _ c) in TT; [|exact Hc|].
    - etransitivity; [|exact TT]. apply rsum_ext. intros q Hq. do 2 f_equal. apply combine_ext.
 destruct (xe_D _ _ _ _ _ _ _ (HE c Hc)) as (_ & _ & ->). intros p Hp.
      pose proof Hp as Hp'. rewrite (length0 info0 mesh c ke (requested info0 2 c) (fun v => HV0 c v Hc) (fun e => HE0 c e Hc) eq_refl) in Hp'. unfold cell_value.
      destruct (place0_cases _ _ _ _ Hp') as [(i & j & Hi & Hj & ->)|(i & Hi & ->)].
      + pose proof (place0_edge info0 mesh c ke (requested info0 2 c) (fun v => HV0 c v Hc) (fun e => HE0 c e Hc) eq_refl i j Hi Hj) as PL. rewrite PL.
        rewrite Hy by (apply (closure_valid m info0 d0 c _ HC0 HN0 Hc (nth_error_In _ _ PL))). cbn. apply Hv. nia.
      + pose proof (place0_cell info0 mesh c ke (requested info0 2 c) (fun v => HV0 c v Hc) (fun e => HE0 c e Hc) eq_refl i Hi) as PL. rewrite PL.
        rewrite Hy by (apply (closure_valid m info0 d0 c _ HC0 HN0 Hc (nth_error_In _ _ PL))). cbn. rewrite Nat.eqb_refl. reflexivity.
    - intros c' Hc' Hne. apply rsum_0. intros q Hq. replace (combine (xf_D (E c')) (cv0 y c') q) with 0; [ring|]. symmetry. unfold combine. destruct (xe_D _ _ _ _ _ _ _ (HE c' Hc')) as (_ & _ & ->). apply rsum_0. intros p Hp.
      replace (cv0 y c' p) with 0; [ring|]. symmetry.
      pose proof Hp as Hp'. rewrite (length0 info0 mesh c' ke (requested info0 2 c') (fun v => HV0 c' v Hc') (fun e => HE0 c' e Hc') eq_refl) in Hp'. unfold cell_value.
      destruct (place0_cases _ _ _ _ Hp') as [(i & j & Hi & Hj & ->)|(i & Hi & ->)].
      + pose proof (place0_edge info0 mesh c' ke (requested info0 2 c') (fun v => HV0 c' v Hc') (fun e => HE0 c' e Hc') eq_refl i j Hi Hj) as PL. rewrite PL.
        rewrite Hy by (apply (closure_valid m info0 d0 c' _ HC0 HN0 Hc' (nth_error_In _ _ PL))). reflexivity.
      + pose proof (place0_cell info0 mesh c' ke (requested info0 2 c') (fun v => HV0 c' v Hc') (fun e => HE0 c' e Hc') eq_refl i Hi) as PL. rewrite PL.
        rewrite Hy by (apply (closure_valid m info0 d0 c' _ HC0 HN0 Hc' (nth_error_In _ _ PL))). cbn. destruct (Nat.eqb_spec c' c); [contradiction|reflexivity]. }
  destruct (finite_choice _ nc PC) as (Cs & _ & HCs).
  assert (HB : forall c i, In (c, i) (incidences mesh) -> ~ strong_entity info0 1 (edge_of mesh (c, i)) ->
     lsum (fun ci => if (edge_of mesh ci =? edge_of mesh (c, i))%nat then sg ci * nth (fst ci) Cs 0 else 0) (incidences mesh) = 0).
  { intros c i Hci NS. destruct (Phi_one (c, i) Hci) as (j & Hj & PN). set (e := edge_of mesh (c, i)) in *.
    destruct (realise_free info0 d0 (fun h => if ((g_dim h =? 1) && (g_cell h =? e) && (g_dof h =? j))%nat then 1 else 0) HC0) as (y & Ly & Hy).
    { intros h V Hs. destruct (Nat.eqb_spec (g_dim h) 1) as [Ed|]; [|reflexivity]. destruct (Nat.eqb_spec (g_cell h) e) as [Ec|]; [|reflexivity]. exfalso. rewrite Ed, Ec in Hs. exact (NS Hs). }
    specialize (TT y Ly). unfold cells_sum in TT. rewrite lsum_seq in TT.
    rewrite (rsum_ext nc _ (fun c => rsum (ne c) (fun i => (if (edge_of mesh (c, i) =? e)%nat then sg (c, i) * nth c Cs 0 else 0) * Phi e (fun _ _ => 1) (fun s => if (s =? j)%nat then 1 else 0)))) in TT.
    - rewrite <- (lsum_incidences mesh (fun c i => (if (edge_of mesh (c, i) =? e)%nat then sg (c, i) * nth c Cs 0 else 0) * Phi e (fun _ _ => 1) (fun s => if (s =? j)%nat then 1 else 0))) in TT.
      rewrite (lsum_ext _ (fun ci => Phi e (fun _ _ => 1) (fun s => if (s =? j)%nat then 1 else 0) * (if (edge_of mesh ci =? e)%nat then sg ci * nth (fst ci) Cs 0 else 0))) in TT by (intros [a b] _; cbn [fst snd]; ring).
      rewrite lsum_scal in TT. apply Rmult_integral in TT. destruct TT as [TT|TT]; [contradiction|exact TT].
    - intros c' Hc'. destruct (HCs c' 0 Hc') as (HP & _).
      rewrite (rsum_ext (nq c') _ (fun q => nth c' Cs 0 * (w c' q * (0 * combine (xf_V (E c') 0) (cv0 y c') q + 0 * combine (xf_V (E c') 1) (cv0 y c') q + 1 * combine (xf_D (E c')) (cv0 y c') q)))) by (intros q Hq; rewrite HP by exact Hq; ring).
      rewrite rsum_scal. rewrite (tested_edges y c' (fun _ _ => 1) (fun _ _ => 0) (fun _ _ => 0) Hc' one), <- rsum_scal. apply rsum_ext. intros i' Hi'.
      assert (Hci' : In (c', i') (incidences mesh)) by (apply in_incidences; auto).
      assert (EV : forall s, (s < ke)%nat -> edge_value y (edge_of mesh (c', i')) s = if ((edge_of mesh (c', i') =? e) && (s =? j))%nat then 1 else 0).
      { intros s Hs. rewrite <- (value_edge y c' i' s Hc' Hi' Hs). unfold cell_value.
        pose proof (place0_edge info0 mesh c' ke (requested info0 2 c') (fun v => HV0 c' v Hc') (fun e => HE0 c' e Hc') eq_refl i' s Hi' Hs) as PL. rewrite PL.
        rewrite Hy by (apply (closure_valid m info0 d0 c' _ HC0 HN0 Hc' (nth_error_In _ _ PL))). reflexivity. }
      destruct (Nat.eqb_spec (edge_of mesh (c', i')) e) as [Ee|Ne].
      + rewrite Ee in *. rewrite (Phi_ext e _ _ (fun s => if (s =? j)%nat then 1 else 0)) by (intros s Hs; rewrite EV by exact Hs; reflexivity). ring.
      + rewrite (Phi_ext _ _ _ (fun _ => 0)), Phi_zero by (intros s Hs; rewrite EV by exact Hs; reflexivity). ring. }
  assert (ND : NoDup (incidences mesh)) by apply incidences_nodup.
  assert (C0 : forall c, drained info0 mesh geometry c -> nth c Cs 0 = 0).
  { intros c HD. induction HD as [c i Hci NS U|c i c' i' _ IH Hci Hci' Ne Ee NS Di U].
    - pose proof (HB c i Hci NS) as X. rewrite (lsum_single _ _ (c, i) ND Hci) in X.
      + rewrite Nat.eqb_refl in X. cbn [fst] in X. unfold sign in X. destruct (direction_of geometry (c, i)); lra.
      + intros ci Hin Hne. destruct (Nat.eqb_spec (edge_of mesh ci) (edge_of mesh (c, i))) as [Ee|]; [|reflexivity]. exfalso. apply Hne. apply U; auto.
    - pose proof (HB c i Hci NS) as X. rewrite (lsum_single _ _ (c', i') ND Hci') in X.
      + rewrite Ee, Nat.eqb_refl in X. cbn [fst] in X. unfold sign in X. destruct (direction_of geometry (c', i')); lra.
      + intros ci Hin Hne. destruct (Nat.eqb_spec (edge_of mesh ci) (edge_of mesh (c, i))) as [Ee'|]; [|reflexivity]. destruct (U ci Hin Ee') as [->| ->]; [cbn [fst]; rewrite IH; apply Rmult_0_r|contradiction]. }
  apply (vanish info1 d1 pD HC1 HN1 CO1 Lp). intros c p Hc Hp. destruct (HCs c 0 Hc) as (_ & HZ). apply HZ; auto.
Qed.

Lemma element_solvable D gS (b : nat -> R) : sums D gS -> length gS = S0 ->
  exists x, length x = (N0 + N1)%nat /\ (forall r, (r < N0 + N1)%nat -> mixed_row D x r = b r) /\
    forall y, length y = (N0 + N1)%nat -> (forall r, (r < N0 + N1)%nat -> mixed_row D y r = b r) -> y = x.
Proof.
  intros SM Lg.
  assert (INJ : forall x : list R, length x = (N0 + N1)%nat -> (forall r, (r < N0 + N1)%nat -> mixed_row D x r = 0) -> forall j, (j < N0 + N1)%nat -> nth j x 0 = 0).
  { intros x Lx Hx. rewrite <- (firstn_skipn N0 x) in Hx |- *. assert (L0 : length (firstn N0 x) = N0) by (rewrite firstn_length; lia). assert (L1 : length (skipn N0 x) = N1) by (rewrite skipn_length; lia).
    destruct (kernel D gS _ _ SM Lg L0 L1 Hx) as (K0 & K1). intros j Hj. destruct (Nat.lt_ge_cases j N0).
    - rewrite app_nth1 by lia. auto.
    - rewrite app_nth2, L0 by lia. apply K1. lia. }
  assert (FN : forall n (f : nat -> R), exists x : list R, length x = n /\ forall j, (j < n)%nat -> nth j x 0 = f j).
  { intros n f. exists (map f (seq 0 n)). rewrite map_length, seq_length. split; [reflexivity|]. intros j Hj. apply nth_map_seq. exact Hj. }
  destruct (injective_solvable (N0 + N1) (fun i j => entry (md_globalMatrixA D) i j)) with (b := b) as (f & Hf).
  { intros f Hf j Hj. destruct (FN (N0 + N1)%nat f) as (x & Lx & Hx). rewrite <- (Hx j Hj). apply INJ; auto. intros r Hr. unfold mixed_row. rewrite Lx. etransitivity; [|exact (Hf r Hr)]. apply rsum_ext. intros s Hs. rewrite Hx by exact Hs. reflexivity. }
  destruct (FN (N0 + N1)%nat f) as (x & Lx & Hx).
  assert (RX : forall r, (r < N0 + N1)%nat -> mixed_row D x r = b r) by (intros r Hr; unfold mixed_row; rewrite Lx, <- (Hf r Hr); apply rsum_ext; intros s Hs; rewrite Hx by exact Hs; reflexivity).
  exists x. split; [exact Lx|]. split; [exact RX|]. intros y Ly Hy. destruct (FN (N0 + N1)%nat (fun j => nth j y 0 - nth j x 0)) as (z & Lz & Hz).
  apply (nth_ext _ _ 0 0); [lia|]. intros j Hj. rewrite Ly in Hj. assert (Z : nth j z 0 = 0).
  { apply INJ; auto. intros r Hr. unfold mixed_row. rewrite Lz. rewrite (rsum_ext _ _ (fun s => entry (md_globalMatrixA D) r s * nth s y 0 - entry (md_globalMatrixA D) r s * nth s x 0)) by (intros s Hs; rewrite Hz by exact Hs; ring).
    rewrite rsum_minus. specialize (Hy r Hr). specialize (RX r Hr). unfold mixed_row in Hy, RX. rewrite Ly in Hy. rewrite Lx in RX. lra. }
  rewrite Hz in Z by exact Hj. lra.
Qed.
End Element.
