(** Proofs: polynomials along an edge, exact rules, the balance of an assembled problem from the balance of its cells. *)
From Coq Require Import List Arith Bool Reals Lia Lra.
From Verif Require Import Base RSum MatrixModel MonomialsModel MonomialsSpec LagrangeModel LagrangeSpec LagrangeProofs DofsModel DofsSpec AssemblerModel AssemblerSpec EquationModel EquationSpec VemQuadModel VemQuadSpec VemQuadProofs VemQuadProofs2 GreenSpec GreenProofs PolyProofs VemModel VemSpec
  DriverModel DriverSpec DriverSpec2 Pcc2dModel Pcc2dSpec DriverProofs DriverProofs2 DriverProofs3 DriverProofs4 DriverProofs5 DriverProofs6 DriverProofs7 Pcc2dProofs.
Import ListNotations.
Local Open Scope R_scope.

(** ** Polynomials of one variable *)
Lemma is_poly_polynomial n : forall f, is_poly n f -> exists a, forall t, f t = polynomial n a t.
Proof.
  induction n; intros f H; cbn in H; [exists (fun _ => 0); intros t; rewrite H; reflexivity|]. destruct H as (c & g & Hg & E). destruct (IHn g Hg) as (a & Ha).
  exists (fun j => match j with O => c | S j' => a j' end). intros t. rewrite E, Ha. unfold polynomial. rewrite rsum_S_l. cbn [pow]. rewrite Rmult_1_r. f_equal. rewrite <- rsum_scal. apply rsum_ext. intros; ring.
Qed.
Lemma is_poly_mult n m f g : is_poly n f -> is_poly (S m) g -> is_poly (n + m) (fun t => f t * g t).
Proof.
  revert f. induction n; intros f Hf Hg; cbn in Hf.
  - apply (is_poly_le 0); [lia|]. cbn. intros t. rewrite Hf. ring.
  - destruct Hf as (c & h & Hh & E). apply (is_poly_ext _ (fun t => c * g t + t * (h t * g t))); [intros t; rewrite E; ring|]. apply is_poly_plus.
    + apply is_poly_scal. apply (is_poly_le (S m)); [lia|auto].
    + cbn [Nat.add]. apply (is_poly_x (n + m) (fun t => h t * g t)). auto.
Qed.
Lemma poly_along n g gx gy a b a' b' : poly2 n g gx gy -> is_poly (S n) (fun t => g (a + t * b) (a' + t * b')).
Proof.
  intros H. pose proof (poly2_comp n g gx gy a b 0 a' b' 0 H) as H'. apply (poly2_x_is_poly _ _ _ _ 0) in H'. eapply is_poly_ext; [|exact H']. intros t. cbv beta. f_equal; ring.
Qed.
(** the integral of a polynomial over the unit interval, from its coefficients *)
Definition integral (n : nat) (a : nat -> R) : R := rsum n (fun j => a j * / INR (j + 1)).
Lemma interval_integral n q a : exact_interval n q -> apply_rule (q_Weights q) (fun j => polynomial (S n) a (m_at (q_Points q) 0 j)) = integral (S n) a.
Proof.
  intros [_ H]. unfold apply_rule, polynomial, integral. rewrite (rsum_ext (v_size (q_Weights q)) _ (fun j => rsum (S n) (fun i => a i * (v_at (q_Weights q) j * m_at (q_Points q) 0 j ^ i)))) by (intros; rewrite <- rsum_scal; apply rsum_ext; intros; ring).
  rewrite rsum_swap. apply rsum_ext. intros i Hi. rewrite rsum_scal. f_equal. apply H. lia.
Qed.
Lemma segment_integral n ext P W a : exact_segment n ext P W ->
  fst ext * polynomial (S n) a 0 + snd ext * polynomial (S n) a 1 + apply_rule W (fun q => polynomial (S n) a (m_at P 0 q)) = integral (S n) a.
Proof.
  intros H. unfold apply_rule, polynomial, integral. rewrite (rsum_ext (v_size W) _ (fun j => rsum (S n) (fun i => a i * (v_at W j * m_at P 0 j ^ i)))) by (intros; rewrite <- rsum_scal; apply rsum_ext; intros; ring).
  rewrite rsum_swap, <- !rsum_scal, <- !rsum_plus. apply rsum_ext. intros i Hi. rewrite rsum_scal. rewrite <- (H i) by lia. unfold apply_rule. ring.
Qed.

(** the interpolating polynomial *)
Definition interp (n : nat) (x w : nat -> R) (t : R) : R := rsum n (fun i => w i * (pne n i (fun j => t - x j) / pne n i (fun j => x i - x j))).
Lemma interp_poly n x w : is_poly n (interp n x w).
Proof.
  apply (is_poly_rsum n n (fun i t => w i * (pne n i (fun j => t - x j) / pne n i (fun j => x i - x j)))). intros i Hi.
  eapply is_poly_ext; [|apply (is_poly_scal n (w i / pne n i (fun j => x i - x j)) (fun t => pne n i (fun j => t - x j)))].
  - intros s. cbv beta. unfold Rdiv. ring.
  - pose proof (is_poly_pne n n i x Hi (le_n _)) as H. destruct (Nat.ltb_spec i n); [exact H|lia].
Qed.
Lemma interp_node n x w i : distinct n x -> (i < n)%nat -> interp n x w (x i) = w i.
Proof.
  intros D Hi. unfold interp. rewrite (rsum_single n _ i); auto.
  - field. apply pne_neq_0; auto.
  - intros j Hj N. rewrite pne_other by auto. unfold Rdiv. ring.
Qed.

(** ** The greatest coefficient *)
Definition big_max (l : list R) : R := fold_right Rmax (hd 0 l) l.
Lemma big_max_ge l x : In x l -> x <= big_max l.
Proof.
  unfold big_max. generalize (hd 0 l). intros d. induction l; cbn; [tauto|]. intros [->|H]; [apply Rmax_l|]. eapply Rle_trans; [apply IHl; auto|apply Rmax_r].
Qed.
Lemma big_max_in l : l <> [] -> In (big_max l) l.
Proof.
  intros H. assert (G : forall l' d, In (fold_right Rmax d l') l' \/ fold_right Rmax d l' = d).
  { induction l'; intros d; cbn; [auto|]. destruct (Rle_or_lt a (fold_right Rmax d l')) as [L|L]; [rewrite Rmax_right by auto; destruct (IHl' d); auto|rewrite Rmax_left by lra; auto]. }
  unfold big_max. destruct (G l (hd 0 l)) as [K|K]; auto. rewrite K. destruct l; [congruence|]. left. reflexivity.
Qed.
Definition kmax (E : CellForms) (K : R -> R -> R -> nat -> R) : R :=
  big_max (flat_map (fun d => map (fun q => Rabs (at_q K E q d)) (seq 0 (v_size (cf_weights E)))) (seq 0 9)).
Lemma kmax_ok E K : (0 < v_size (cf_weights E))%nat -> greatest_diffusion E K (kmax E K).
Proof.
  intros H. unfold kmax. set (l := flat_map _ (seq 0 9)).
  assert (IN : forall x, In x l <-> exists d q, (d < 9)%nat /\ (q < v_size (cf_weights E))%nat /\ x = Rabs (at_q K E q d)).
  { intros x. unfold l. rewrite in_flat_map. split.
    - intros (d & Hd & Hx). apply in_seq in Hd. apply in_map_iff in Hx. destruct Hx as (q & <- & Hq). apply in_seq in Hq. exists d, q. repeat split; lia.
    - intros (d & q & Hd & Hq & ->). exists d. split; [apply in_seq; lia|]. apply in_map_iff. exists q. split; auto. apply in_seq. lia. }
  split.
  - intros d q Hd Hq. apply big_max_ge, IN. eauto.
  - apply IN, big_max_in. intros Z. assert (In (Rabs (at_q K E 0%nat 0%nat)) l) by (apply IN; exists 0%nat, 0%nat; repeat split; auto; lia). rewrite Z in H0. destruct H0.
Qed.

(** ** Balance *)
Lemma active_all m F : (forall c, (c < Cell2Ds_number (md_mesh m))%nat -> md_active2 m c = true) -> active_sum m F = rsum (Cell2Ds_number (md_mesh m)) F.
Proof.
  intros H. unfold active_sum. rewrite <- lsum_seq_rsum. f_equal. assert (G : forall l, (forall c, In c l -> md_active2 m c = true) -> filter (md_active2 m) l = l).
  { induction l; cbn; intros Hl; auto. rewrite (Hl a) by (left; auto). f_equal. apply IHl. intros; apply Hl; right; auto. }
  apply G. intros c Hc. apply H. apply in_seq in Hc. lia.
Qed.
Definition sign (b : bool) : R := if b then 1 else -1.

Section Balance.
Variables (m : Mesh2D) (info : MeshDOFsInfo) (data : DOFsData) (geometry : nat -> Polygon) (X : nat -> R) (T Z : nat -> nat -> R).
Let mesh := md_mesh m.
Let nc := Cell2Ds_number mesh.
(** T: the terms of the cells place by place; X: the flux through an edge; Z: the terms of the Weak edges *)
Variable r : nat.
Hypothesis cells : forall c, (c < nc)%nat -> rsum (length (closure_dofs info mesh 2 c)) (fun p => at_places info mesh c (hat data r) p * T c p) =
  rsum (length (Cell2D_edges mesh c)) (fun i => sign (direction_of geometry (c, i)) * X (edge_of mesh (c, i))).
Hypothesis weak : forall c i, In (c, i) (incidences mesh) -> weak_edge info (edge_of mesh (c, i)) = true -> sign (direction_of geometry (c, i)) * X (edge_of mesh (c, i)) = Z c i.
Hypothesis strong : forall ci, In ci (incidences mesh) -> strong_edge info mesh (edge_of mesh ci) -> X (edge_of mesh ci) = 0.
Hypothesis closed : closed_boundary info mesh geometry.

Lemma balance : rsum nc (fun c => free_places info mesh data c r (T c)) =
  rsum nc (fun c => rsum (length (Cell2D_edges mesh c)) (fun i => if weak_edge info (edge_of mesh (c, i)) then Z c i else 0)).
Proof using cells weak strong closed.
  rewrite (rsum_ext nc _ (fun c => rsum (length (Cell2D_edges mesh c)) (fun i => sign (direction_of geometry (c, i)) * X (edge_of mesh (c, i))))) by (intros c Hc; rewrite free_places_sum; apply cells; auto).
  unfold nc. rewrite <- (lsum_incidences mesh (fun c i => sign (direction_of geometry (c, i)) * X (edge_of mesh (c, i)))), <- (lsum_incidences mesh (fun c i => if weak_edge info (edge_of mesh (c, i)) then Z c i else 0)).
  pose proof (cancel_edges (incidences mesh) (edge_of mesh) (direction_of geometry) (fun e => if weak_edge info e then 0 else X e)) as K.
  assert (K0 : lsum (fun ci => (if direction_of geometry ci then 1 else -1) * (if weak_edge info (edge_of mesh ci) then 0 else X (edge_of mesh ci))) (incidences mesh) = 0).
  { apply K. intros ci Hci. destruct (weak_edge info (edge_of mesh ci)) eqn:Ew; [auto|]. destruct (closed ci Hci Ew) as [Hi|Hs]; [right|left; apply strong; auto]. exact Hi. }
  match type of K0 with ?L = _ => match goal with |- ?A = ?B => transitivity (B + L); [|rewrite K0; ring] end end. rewrite <- lsum_plus. apply lsum_ext. intros [c i] Hci. cbn [fst snd].
  destruct (weak_edge info (edge_of mesh (c, i))) eqn:Ew; [rewrite <- (weak c i Hci Ew); unfold sign; ring|unfold sign; ring].
Qed.
End Balance.
