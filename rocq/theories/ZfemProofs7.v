(** Proofs about ZFEM: the nodes determine a polynomial when the sides lie on enough different lines. *)
From Coq Require Import List Arith Bool Lia ZArith Reals Lra.
From Verif Require Import Base RSum MatrixModel LagrangeModel LagrangeSpec LagrangeProofs GreenSpec GreenProofs PolyProofs TriangleModel TriangleProofs4 VemModel 
  ZfemModel ZfemSpec ZfemProofs4 ZfemProofs6.
Import ListNotations.
Local Open Scope R_scope.
Local Notation poly2 := GreenSpec.poly2.

(** ** Conditions that hold from a number on *)
Definition eventually (P : R -> Prop) : Prop := exists s0, forall s, s0 <= s -> P s.
Lemma eventually_and (P Q : R -> Prop) : eventually P -> eventually Q -> eventually (fun s => P s /\ Q s).
Proof. intros (s & Hs) (t & Ht). exists (Rmax s t). intros u Hu. pose proof (Rmax_l s t). pose proof (Rmax_r s t). split; [apply Hs|apply Ht]; lra. Qed.
Lemma eventually_all n (P : nat -> R -> Prop) : (forall i, (i < n)%nat -> eventually (P i)) -> eventually (fun s => forall i, (i < n)%nat -> P i s).
Proof.
  induction n; intros H; [exists 0; intros; lia|]. destruct (eventually_and _ _ (IHn (fun i Hi => H i ltac:(lia))) (H n ltac:(lia))) as (s & Hs).
  exists s. intros t Ht i Hi. destruct (Hs t Ht) as [A B]. destruct (Nat.eq_dec i n) as [->|]; auto. apply A. lia.
Qed.
Lemma eventually_form a b : a <> 0 \/ b <> 0 -> eventually (fun s => a + b * s <> 0).
Proof.
  intros H. destruct (Req_dec b 0) as [->|Hb]. { exists 0. intros s _ E. destruct H; lra. }
  exists (- a / b + 1). intros s Hs E. assert (s = - a / b); [|lra]. field_simplify_eq; lra.
Qed.
Lemma eventually_true (P : R -> Prop) : (forall s, P s) -> eventually P.
Proof. intros H. exists 0. auto. Qed.

Lemma restrict n f fx fy x y d e : poly2 n f fx fy -> is_poly (S n) (fun t => f (x + d * t) (y + e * t)).
Proof.
  intros P. pose proof (poly2_comp n f fx fy x d 0 y e 0 P) as H. cbv zeta in H. apply poly2_x_is_poly with (y := 0) in H.
  eapply is_poly_ext; [|exact H]. intros t. cbv beta. f_equal; ring.
Qed.

Definition proportional (a b c : nat -> R) (i j : nat) : Prop := a i * b j = a j * b i /\ a i * c j = a j * c i /\ b i * c j = b j * c i.

(** the directions (1, s) that cut the lines in different points *)
Lemma directions m (a b c : nat -> R) x y : (forall i, (i < m)%nat -> b i <> 0 \/ c i <> 0) -> (forall i j, (i < m)%nat -> (j < m)%nat -> i <> j -> ~ proportional a b c i j) ->
  (forall i, (i < m)%nat -> a i + b i * x + c i * y <> 0) ->
  eventually (fun s => (forall i, (i < m)%nat -> b i + c i * s <> 0) /\ distinct m (fun i => - (a i + b i * x + c i * y) / (b i + c i * s))).
Proof.
  intros Hn Hp HL. set (L := fun i => a i + b i * x + c i * y).
  assert (K1 : eventually (fun s => forall i, (i < m)%nat -> b i + c i * s <> 0)) by (apply (eventually_all m (fun i s => b i + c i * s <> 0)); intros; now apply eventually_form, Hn).
  assert (K2 : eventually (fun s => forall i, (i < m)%nat -> forall j, (j < m)%nat -> i <> j -> (L i * b j - L j * b i) + (L i * c j - L j * c i) * s <> 0)).
  { apply (eventually_all m (fun i s => forall j, (j < m)%nat -> i <> j -> (L i * b j - L j * b i) + (L i * c j - L j * c i) * s <> 0)). intros i Hi.
    apply (eventually_all m (fun j s => i <> j -> (L i * b j - L j * b i) + (L i * c j - L j * c i) * s <> 0)). intros j Hj.
    destruct (Nat.eq_dec i j) as [->|Hij]; [apply eventually_true; intros; congruence|].
    destruct (eventually_form (L i * b j - L j * b i) (L i * c j - L j * c i)) as (s0 & Hs0); [|exists s0; auto].
    destruct (Req_dec (L i * b j - L j * b i) 0) as [E1|]; auto. destruct (Req_dec (L i * c j - L j * c i) 0) as [E2|]; auto. exfalso. apply (Hp i j Hi Hj Hij).
    assert (E3 : b i * c j - b j * c i = 0). { apply (Rmult_eq_reg_l (L j)); [|now apply HL]. replace (L j * (b i * c j - b j * c i)) with (b j * (L i * c j - L j * c i) - c j * (L i * b j - L j * b i)) by ring. rewrite E1, E2. ring. }
    unfold proportional. unfold L in E1, E2. repeat split; [| |lra].
    - replace (a i * b j) with ((a i + b i * x + c i * y) * b j - (a j + b j * x + c j * y) * b i + y * (b i * c j - b j * c i) + a j * b i) by ring. rewrite E1, E3. ring.
    - replace (a i * c j) with ((a i + b i * x + c i * y) * c j - (a j + b j * x + c j * y) * c i - x * (b i * c j - b j * c i) + a j * c i) by ring. rewrite E2, E3. ring. }
  destruct (eventually_and _ _ K1 K2) as (s0 & H). exists s0. intros s Hs. destruct (H s Hs) as [A B]. split; auto.
  intros i j Hi Hj E. destruct (Nat.eq_dec i j) as [|Hij]; auto. exfalso. apply (B i Hi j Hj Hij). fold (L i) (L j) in E.
  pose proof (A i Hi). pose proof (A j Hj).
  assert (E' : L i * (b j + c j * s) = L j * (b i + c i * s)). { apply (f_equal (fun z => - z * (b i + c i * s) * (b j + c j * s))) in E. field_simplify in E; auto. lra. }
  lra.
Qed.

Lemma lines_vanish n (a b c : nat -> R) f fx fy : poly2 n f fx fy -> (forall i, (i <= n)%nat -> b i <> 0 \/ c i <> 0) -> (forall i j, (i <= n)%nat -> (j <= n)%nat -> i <> j -> ~ proportional a b c i j) ->
  (forall i x y, (i <= n)%nat -> a i + b i * x + c i * y = 0 -> f x y = 0) -> forall x y, f x y = 0.
Proof.
  intros P Hn Hp HF x y.
  assert (D : (exists i, (i < S n)%nat /\ a i + b i * x + c i * y = 0) \/ forall i, (i < S n)%nat -> a i + b i * x + c i * y <> 0).
  { generalize (S n) as m. induction m; [right; intros; lia|]. destruct IHm as [(i & Hi & E)|H]; [left; exists i; auto|]. destruct (Req_dec (a m + b m * x + c m * y) 0) as [E|E]; [left; exists m; auto|].
    right. intros i Hi. destruct (Nat.eq_dec i m) as [->|]; auto. apply H. lia. }
  destruct D as [(i & Hi & E)|HL]; [apply (HF i); auto; lia|].
  destruct (directions (S n) a b c x y (fun i Hi => Hn i ltac:(lia)) (fun i j Hi Hj => Hp i j ltac:(lia) ltac:(lia)) HL) as (s & Hs). destruct (Hs s ltac:(lra)) as [A B].
  pose proof (is_poly_roots (S n) _ _ (restrict n f fx fy x y 1 s P) B) as H. specialize (H) with (t := 0). cbv beta in H.
  replace x with (x + 1 * 0) by ring. replace y with (y + s * 0) by ring. apply H. intros i Hi. apply (HF i); [lia|]. specialize (A i Hi). field. auto.
Qed.

Lemma lines_point_vanish n (a b c : nat -> R) px py f fx fy : poly2 n f fx fy -> (forall i, (i < n)%nat -> b i <> 0 \/ c i <> 0) -> (forall i j, (i < n)%nat -> (j < n)%nat -> i <> j -> ~ proportional a b c i j) ->
  (forall i x y, (i < n)%nat -> a i + b i * x + c i * y = 0 -> f x y = 0) -> (forall i, (i < n)%nat -> a i + b i * px + c i * py <> 0) -> f px py = 0 -> forall x y, f x y = 0.
Proof.
  intros P Hn Hp HF HL H0.
  destruct (directions n a b c px py Hn Hp HL) as (s0 & Hs).
  assert (K : forall s, s0 <= s -> forall t, f (px + 1 * t) (py + s * t) = 0).
  { intros s Hs0. destruct (Hs s Hs0) as [A B].
    set (z := fun i => if (i <? n)%nat then - (a i + b i * px + c i * py) / (b i + c i * s) else 0).
    apply (is_poly_roots (S n) (fun t => f (px + 1 * t) (py + s * t)) z (restrict n f fx fy px py 1 s P)).
    - assert (Z : forall i, (i < n)%nat -> - (a i + b i * px + c i * py) / (b i + c i * s) <> 0).
      { intros i Hi. specialize (A i Hi). specialize (HL i Hi). unfold Rdiv. apply Rmult_integral_contrapositive_currified; [lra|]. now apply Rinv_neq_0_compat. }
      intros i j Hi Hj E. unfold z in E. destruct (Nat.ltb_spec i n), (Nat.ltb_spec j n); try lia.
      + now apply B.
      + now apply Z in E.
      + symmetry in E. now apply Z in E.
    - intros i Hi. unfold z. destruct (Nat.ltb_spec i n) as [L|].
      + apply (HF i); auto. specialize (A i L). field. auto.
      + replace (px + 1 * 0) with px by ring. replace (py + s * 0) with py by ring. auto. }
  apply (lines_vanish n (fun k => py - (s0 + INR k) * px) (fun k => s0 + INR k) (fun _ => -1) f fx fy P).
  - intros; right; lra.
  - intros i j Hi Hj Hij (_ & _ & E). apply Hij, INR_eq. lra.
  - intros i x y Hi E. replace x with (px + 1 * (x - px)) by ring. replace y with (py + (s0 + INR i) * (x - px)) by lra. apply K. pose proof (pos_INR i). lra.
Qed.

Section Nodes.
Variables (order : nat) (ref : Zfem_Reference) (p : Zfem_Polygon) (llt : Solver) (l : Zfem_Local) (num : node -> nat).
Hypothesis Ho : (1 <= order)%nat.
Hypothesis ST : star (zp_Vertices p) (zp_Center p) (zp_Triangles p) (zp_EdgesDirection p).
Hypothesis FA : facts order ref p llt l num.
Let V := m_cols (zp_Vertices p).
Let next i := ((i + 1) mod V)%nat.
Let X := m_at (zp_Vertices p) 0.
Let Y := m_at (zp_Vertices p) 1.

Section F.
Variables (f fx fy : R -> R -> R).
Hypothesis Pf : poly2 order f fx fy.
Hypothesis H0 : forall i, (i < m_cols (zl_Nodes l))%nat -> f (m_at (zl_Nodes l) 0 i) (m_at (zl_Nodes l) 1 i) = 0.

Lemma at_node x : is_node V (order - 1) ((order - 1) * (order - 2) / 2) x -> (num x < V + V * (order - 1) + (order - 1) * (order - 2) / 2)%nat ->
  let pos := position order (zp_Vertices p) (zp_Center p) (zp_EdgesDirection p) (inner_point (zr_Tri ref)) x in f (pos 0%nat) (pos 1%nat) = 0.
Proof.
  intros Hx Hl. destruct (zf_finer _ _ _ _ _ _ FA) as (_ & _ & F3). destruct (zf_nodes _ _ _ _ _ _ FA) as (_ & N2 & N3). cbv zeta.
  rewrite <- !F3 by (auto; lia). rewrite <- !N3. apply H0. rewrite N2. exact Hl.
Qed.

Lemma next_lt v : (v < V)%nat -> (next v < V)%nat.
Proof. intros. unfold next. apply Nat.mod_upper_bound. lia. Qed.

Lemma flat v : (v < V)%nat -> (X v - zp_Center p 0%nat) * (Y (next v) - zp_Center p 1%nat) <> (X (next v) - zp_Center p 0%nat) * (Y v - zp_Center p 1%nat).
Proof.
  intros Hv. destruct (st_triangles _ _ _ _ ST v Hv) as (T & _ & _ & P & N). destruct (P 0%nat ltac:(lia)) as (A & B & C). destruct (P 1%nat ltac:(lia)) as (A' & B' & C').
  rewrite A, B, C, A', B', C' in N. exact N.
Qed.

Lemma on_side v k : (v < V)%nat -> (k <= order)%nat -> f (X v + (X (next v) - X v) * (INR k / INR order)) (Y v + (Y (next v) - Y v) * (INR k / INR order)) = 0.
Proof.
  intros Hv Hk. assert (O : INR order <> 0) by (apply not_0_INR; lia). pose proof (next_lt v Hv) as Hn.
  destruct (Nat.eq_dec k 0) as [->|Z0].
  { pose proof (at_node (Corner v)) as H. cbv zeta in H. cbn [position is_node] in H. rewrite (zf_corner _ _ _ _ _ _ FA) in H by auto. specialize (H Hv ltac:(nia)). fold (X v) (Y v) in H. rewrite <- H. cbn [INR]. f_equal; field; auto. }
  destruct (Nat.eq_dec k order) as [->|Z1].
  { pose proof (at_node (Corner (next v))) as H. cbv zeta in H. cbn [position is_node] in H. rewrite (zf_corner _ _ _ _ _ _ FA) in H by auto. specialize (H Hn ltac:(nia)). fold (X (next v)) (Y (next v)) in H. rewrite <- H. f_equal; field; auto. }
  set (q := if nth v (zp_EdgesDirection p) true then (k - 1)%nat else (order - k - 1)%nat).
  assert (Hq : (q < order - 1)%nat) by (unfold q; destruct (nth v _ true); lia).
  pose proof (at_node (Side v q)) as H. cbv zeta in H. cbn [is_node] in H. rewrite (zf_side _ _ _ _ _ _ FA) in H by auto. specialize (H (conj Hv Hq) ltac:(nia)). cbn [position] in H. fold V in H. fold (next v) in H. fold (X v) (Y v) (X (next v)) (Y (next v)) in H.
  unfold q in H. destruct (nth v (zp_EdgesDirection p) true); rewrite <- H.
  - replace (S (k - 1)) with k by lia. f_equal; field; auto.
  - replace (S (order - k - 1)) with (order - k)%nat by lia. rewrite minus_INR by lia. f_equal; field; auto.
Qed.

Lemma on_line v t : (v < V)%nat -> f (X v + (X (next v) - X v) * t) (Y v + (Y (next v) - Y v) * t) = 0.
Proof.
  intros Hv. revert t. apply (is_poly_roots (S order) (fun t => f (X v + (X (next v) - X v) * t) (Y v + (Y (next v) - Y v) * t)) (fun k => INR k / INR order) (restrict order f fx fy _ _ _ _ Pf)).
  - intros i j _ _ E. apply INR_eq. apply (f_equal (fun z => z * INR order)) in E. unfold Rdiv in E. rewrite !Rmult_assoc, Rinv_l in E by (apply not_0_INR; lia). lra.
  - intros k Hk. apply on_side; auto. lia.
Qed.

Definition la v := (Y (next v) - Y v) * X v - (X (next v) - X v) * Y v.
Definition lb v := - (Y (next v) - Y v).
Definition lc v := X (next v) - X v.

Lemma not_point v : (v < V)%nat -> lb v <> 0 \/ lc v <> 0.
Proof. intros Hv. pose proof (flat v Hv). unfold lb, lc. destruct (Req_dec (Y (next v)) (Y v)) as [E|]; [|left; lra]. destruct (Req_dec (X (next v)) (X v)) as [E'|]; [|right; lra]. exfalso. rewrite E, E' in *. lra. Qed.

Lemma line_vanish v x y : (v < V)%nat -> la v + lb v * x + lc v * y = 0 -> f x y = 0.
Proof.
  intros Hv E. destruct (not_point v Hv) as [H|H]; unfold la, lb, lc in *.
  - rewrite <- (on_line v ((y - Y v) / (Y (next v) - Y v)) Hv). f_equal; field_simplify_eq; lra.
  - rewrite <- (on_line v ((x - X v) / (X (next v) - X v)) Hv). f_equal; field_simplify_eq; lra.
Qed.

Lemma proportional_aligned (e : nat -> nat) i j : (e i < V)%nat -> (e j < V)%nat -> proportional (fun i => la (e i)) (fun i => lb (e i)) (fun i => lc (e i)) i j -> aligned (zp_Vertices p) (e i) (e j).
Proof.
  unfold proportional. generalize (e i) as v, (e j) as w. intros v w Hv Hw (E1 & E2 & E3). unfold aligned. fold V. fold (next v) (next w). fold (X v) (X w) (X (next v)) (X (next w)). fold (Y v) (Y w) (Y (next v)) (Y (next w)).
  assert (K : forall x y, la w + lb w * x + lc w * y = 0 -> la v + lb v * x + lc v * y = 0).
  { intros x y E. destruct (not_point w Hw) as [H|H]; eapply Rmult_eq_reg_r; try exact H; rewrite Rmult_0_l.
    - replace ((la v + lb v * x + lc v * y) * lb w) with (la v * lb w + lb v * (lb w * x) + (lc v * lb w) * y) by ring. replace (lc v * lb w) with (lb v * lc w) by lra. rewrite E1. replace (lb w * x) with (- la w - lc w * y) by lra. ring.
    - replace ((la v + lb v * x + lc v * y) * lc w) with (la v * lc w + (lb v * lc w) * x + lc v * (lc w * y)) by ring. rewrite E3, E2. replace (lc w * y) with (- la w - lb w * x) by lra. ring. }
  assert (A : la w + lb w * X w + lc w * Y w = 0) by (unfold la, lb, lc; ring).
  assert (B : la w + lb w * X (next w) + lc w * Y (next w) = 0) by (unfold la, lb, lc; ring).
  apply K in A, B. unfold la, lb, lc in A, B. split; lra.
Qed.

Lemma vanish_sides : lines (zp_Vertices p) (order + 1) -> forall x y, f x y = 0.
Proof.
  intros (e & He & Hd). apply (lines_vanish order (fun i => la (e i)) (fun i => lb (e i)) (fun i => lc (e i)) f fx fy Pf).
  - intros i Hi. apply not_point, He. lia.
  - intros i j Hi Hj Hij Hp. apply (Hd i j ltac:(lia) ltac:(lia) Hij). apply proportional_aligned; auto; apply He; lia.
  - intros i x y Hi. apply line_vanish, He. lia.
Qed.
Lemma vanish_centre : (3 <= order)%nat -> lines (zp_Vertices p) order -> forall x y, f x y = 0.
Proof.
  intros H3 (e & He & Hd). apply (lines_point_vanish order (fun i => la (e i)) (fun i => lb (e i)) (fun i => lc (e i)) (zp_Center p 0%nat) (zp_Center p 1%nat) f fx fy Pf).
  - intros i Hi. apply not_point, He. lia.
  - intros i j Hi Hj Hij Hp. apply (Hd i j ltac:(lia) ltac:(lia) Hij). apply proportional_aligned; auto; apply He; lia.
  - intros i x y Hi. apply line_vanish, He. lia.
  - intros i Hi E. apply (flat (e i) (He i Hi)). unfold la, lb, lc in E. lra.
  - apply (at_node Centre); [exact I|]. apply (zf_centre _ _ _ _ _ _ FA H3).
Qed.
End F.

Lemma nodes_unisolvent : lines (zp_Vertices p) (order + 1) \/ ((3 <= order)%nat /\ lines (zp_Vertices p) order) -> unisolvent order (zl_Nodes l).
Proof. intros [H|[H3 H]] f fx fy P H0; [apply (vanish_sides f fx fy P H0 H)|apply (vanish_centre f fx fy P H0 H3 H)]. Qed.
End Nodes.
