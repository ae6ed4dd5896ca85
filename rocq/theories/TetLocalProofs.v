(** The tetrahedra of a mesh: writes, tables, lattice. *)
From Coq Require Import List Arith Bool Lia ZArith Reals Lra Permutation.
From Verif Require Import Base RSum MatrixModel MonomialsModel MonomialsSpec LagrangeModel LagrangeSpec LagrangeProofs TriangleModel TriangleSpec TriangleProofs TriangleProofs3 TriangleProofs4 VemQuadModel TetModel TetSpec TetProofs TetProofs2 TetProofs3 TetProofs5 TetLocalModel TetLocalSpec.
Import ListNotations.
Local Open Scope nat_scope.

(** writes at listed positions *)
Definition wr (W : list (nat * nat)) (l : list nat) : list nat := fold_left (fun l w => replace l (fst w) (snd w)) W l.
Lemma wr_app W1 W2 l : wr (W1 ++ W2) l = wr W2 (wr W1 l).
Proof. apply fold_left_app. Qed.
Lemma wr_length W : forall l, length (wr W l) = length l.
Proof. induction W as [|w W IH]; intros l; [reflexivity|]. cbn [wr fold_left]. fold (wr W (replace l (fst w) (snd w))). now rewrite IH, replace_length. Qed.
Lemma wr_other W : forall l i, ~ In i (map fst W) -> nth_error (wr W l) i = nth_error l i.
Proof.
  induction W as [|w W IH]; intros l i H; [reflexivity|]. cbn [wr fold_left]. fold (wr W (replace l (fst w) (snd w))). rewrite IH.
  - apply nth_error_replace_neq. intros E. apply H. left. auto.
  - intros X. apply H. right. auto.
Qed.
Lemma wr_get W : forall l w, NoDup (map fst W) -> In w W -> fst w < length l -> nth_error (wr W l) (fst w) = Some (snd w).
Proof.
  induction W as [|x W IH]; intros l w ND I L; [destruct I|]. cbn [map] in ND. inversion ND as [|? ? N1 N2]; subst.
  cbn [wr fold_left]. fold (wr W (replace l (fst x) (snd x))). destruct I as [->|I].
  - rewrite wr_other by auto. now apply nth_error_replace_eq.
  - apply IH; auto. now rewrite replace_length.
Qed.

Lemma set_idx_wr l i v : i < length l -> set_idx l i v = Ok (wr [(i, v)] l).
Proof. intros H. unfold set_idx. destruct (Nat.ltb_spec i (length l)); [reflexivity|lia]. Qed.

Lemma for_from_wr (f : nat -> list nat -> outcome (list nat)) (W : nat -> list (nat * nat)) N n : forall a l, length l = N ->
  (forall i l, a <= i < a + n -> length l = N -> f i l = Ok (wr (W i) l)) -> for_from a n f l = Ok (wr (flat_map W (seq a n)) l).
Proof.
  induction n as [|n IH]; intros a l L H; [reflexivity|]. cbn [for_from seq flat_map]. rewrite H by (auto; lia). cbn [bind].
  rewrite wr_app. apply IH; [now rewrite wr_length|]. intros. apply H; auto. lia.
Qed.
Lemma for_loop_wr (f : nat -> list nat -> outcome (list nat)) (W : nat -> list (nat * nat)) N n l : length l = N ->
  (forall i l, i < n -> length l = N -> f i l = Ok (wr (W i) l)) -> for_loop n f l = Ok (wr (flat_map W (seq 0 n)) l).
Proof. intros L H. unfold for_loop. apply (for_from_wr f W N); auto. intros; apply H; auto; lia. Qed.

Definition up (k a n : nat) : list (nat * nat) := map (fun t => (k + t, a + t)) (seq 0 n).
Definition down (k a n : nat) : list (nat * nat) := map (fun t => (k + t, a + (n - 1 - t))) (seq 0 n).
Lemma up_S k a n : up k a (S n) = (k, a) :: up (S k) (S a) n.
Proof. unfold up. cbn [seq map]. rewrite !Nat.add_0_r. f_equal. rewrite <- seq_shift, map_map. apply map_ext. intros. f_equal; lia. Qed.
Lemma down_S k a n : down k a (S n) = (k, a + n) :: down (S k) a n.
Proof. unfold down. cbn [seq map]. f_equal; [f_equal; lia|]. rewrite <- seq_shift, map_map. apply map_ext. intros. f_equal; lia. Qed.

Lemma asc_wr n : forall k a l, k + n <= length l -> ascending a (a + n) (l, k) = Ok (wr (up k a n) l, k + n).
Proof.
  unfold ascending. intros k a l H. replace (a + n - a) with n by lia. revert k a l H.
  induction n as [|n IH]; intros k a l H; [cbn; now rewrite Nat.add_0_r|]. cbn [for_from put_dof].
  rewrite set_idx_wr by lia. cbn [bind]. rewrite IH by (rewrite wr_length; lia). rewrite up_S. cbn [wr fold_left fst snd]. f_equal. f_equal. lia.
Qed.
Lemma desc_wr n : forall k a l fuel, n <= fuel -> k + n <= length l -> (Z.of_nat (a + n) <= UINT_MAX)%Z ->
  descending fuel (decr (Z.of_nat (a + n))) (Z.of_nat a) (l, k) = Ok (wr (down k a n) l, k + n).
Proof.
  induction n as [|n IH]; intros k a l fuel Hf Hk HU.
  - rewrite !Nat.add_0_r.
    assert (C : ((decr (Z.of_nat a) <? UINT_MAX) && (Z.of_nat a <=? decr (Z.of_nat a)))%Z = false).
    { unfold decr. destruct (Z.eqb_spec (Z.of_nat a) 0); [reflexivity|]. destruct (Z.leb_spec (Z.of_nat a) (Z.of_nat a - 1)); [lia|]. apply andb_false_r. }
    destruct fuel; cbn [descending]; rewrite C; reflexivity.
  - assert (D : decr (Z.of_nat (a + S n)) = Z.of_nat (a + n)). { unfold decr. destruct (Z.eqb_spec (Z.of_nat (a + S n)) 0); lia. }
    rewrite D. destruct fuel as [|f]; [lia|]. cbn [descending].
    destruct (Z.ltb_spec (Z.of_nat (a + n)) UINT_MAX); [|lia]. destruct (Z.leb_spec (Z.of_nat a) (Z.of_nat (a + n))); [|lia]. cbn [andb put_dof].
    rewrite Nat2Z.id. rewrite set_idx_wr by lia. cbn [bind]. rewrite IH; [|lia|rewrite wr_length; lia|lia].
    rewrite down_S. cbn [wr fold_left fst snd]. f_equal. f_equal. lia.
Qed.

(** ** Tables *)
Definition er (a b : nat) : nat := match pair_at Edges_by_vertices a b with Ok r => fst r | _ => 0 end.
Definition ed (a b : nat) : bool := match pair_at Edges_by_vertices a b with Ok r => snd r | _ => true end.
Definition rA (r : nat) : nat := match r with 0 => 0 | 1 => 1 | 2 => 2 | 3 => 0 | _ => 3 end.
Definition rZ (r : nat) : nat := match r with 0 => 1 | 1 => 2 | 2 => 0 | 3 => 3 | 4 => 1 | _ => 2 end.
Ltac four v H := destruct v as [|[|[|[|v]]]]; [| | | |exfalso; clear -H; lia].

Lemma edge_table a b : a < 4 -> b < 4 -> a <> b ->
  pair_at Edges_by_vertices a b = Ok (er a b, ed a b) /\ er a b < 6 /\ er b a = er a b /\
  (if ed a b then rA (er a b) = a /\ rZ (er a b) = b else rA (er a b) = b /\ rZ (er a b) = a).
Proof. intros Ha Hb N. four a Ha; four b Hb; try (exfalso; apply N; reflexivity); cbn; repeat split; lia. Qed.
Lemma ref_edge_ok r : r < 6 -> rA r < 4 /\ rZ r < 4 /\ rA r <> rZ r /\ er (rA r) (rZ r) = r.
Proof. intros H. destruct r as [|[|[|[|[|[|r]]]]]]; [| | | | | |lia]; cbn; repeat split; lia. Qed.

Definition fr (v0 v1 v2 : nat) : nat := match pair_at Faces_by_edge_vertex (er v0 v1) v2 with Ok f => f | _ => 0 end.
Lemma face_table v0 v1 v2 : v0 < 4 -> v1 < 4 -> v2 < 4 -> v0 <> v1 -> v1 <> v2 -> v2 <> v0 ->
  pair_at Faces_by_edge_vertex (er v0 v1) v2 = Ok (fr v0 v1 v2) /\ (exists s d, pair_at Faces_by_edges (er v0 v1) (er v1 v2) = Ok (fr v0 v1 v2, s, d)) /\
  fr v0 v1 v2 < 4 /\ forall w, w < 4 -> w <> v0 -> w <> v1 -> w <> v2 -> fr v0 v1 v2 = 3 - w.
Proof.
  intros H0 H1 H2 N1 N2 N3. four v0 H0; four v1 H1; try (exfalso; apply N1; reflexivity); four v2 H2; try (exfalso; apply N2; reflexivity); try (exfalso; apply N3; reflexivity);
  (split; [reflexivity|]; split; [eexists; eexists; reflexivity|]; split; [cbn; lia|]; intros w Hw A B C; four w Hw; try (exfalso; apply A; reflexivity); try (exfalso; apply B; reflexivity); try (exfalso; apply C; reflexivity); reflexivity).
Qed.

(** ** Lattice points by their weights at the vertices *)
Section Weights.
Variable o : nat.
Hypothesis Ho : 1 <= o.
Notation pt3 := (nat * nat * nat)%type.
(** weight [o - i - j] at [v0], [j] at [v1], [i] at [v2] *)
Definition wt (v0 v1 v2 i j w : nat) : nat := if w =? v0 then o - i - j else if w =? v1 then j else if w =? v2 then i else 0.
Definition tp (v0 v1 v2 i j : nat) : pt3 := (wt v0 v1 v2 i j 1, wt v0 v1 v2 i j 2, wt v0 v1 v2 i j 3).

Lemma e1_tp r d : r < 6 -> d < o - 1 -> e1 o r d = tp (rA r) (rZ r) (rA r) 0 (S d).
Proof using Ho. intros H D. destruct r as [|[|[|[|[|[|r]]]]]]; [| | | | | |lia]; unfold e1, tp, wt; cbn [rA rZ Nat.eqb]; repeat (f_equal; try lia). Qed.
Lemma tp_swap a b k : a < 4 -> b < 4 -> a <> b -> k <= o -> tp a b a 0 k = tp b a b 0 (o - k).
Proof using Ho.
  intros Ha Hb N K. unfold tp, wt. f_equal; [f_equal|]; repeat match goal with |- context [Nat.eqb ?x ?y] => destruct (Nat.eqb_spec x y) end; lia.
Qed.
Lemma tp_sum v0 v1 v2 i j : v0 < 4 -> v1 < 4 -> v2 < 4 -> v0 <> v1 -> v1 <> v2 -> v2 <> v0 -> i + j <= o ->
  let '(a, b, c) := tp v0 v1 v2 i j in a + b + c <= o /\ forall w, w < 4 -> typ o (a, b, c) w = wt v0 v1 v2 i j w.
Proof using Ho.
  intros H0 H1 H2 N1 N2 N3 S. unfold tp, typ. four v0 H0; four v1 H1; try (exfalso; apply N1; reflexivity); four v2 H2; try (exfalso; apply N2; reflexivity); try (exfalso; apply N3; reflexivity);
  (split; [unfold wt; cbn [Nat.eqb]; lia|intros w Hw; four w Hw; unfold vec4, wt; cbn [Nat.eqb]; lia]).
Qed.
Lemma tp_sum2 a b k : a < 4 -> b < 4 -> a <> b -> k <= o ->
  let '(x, y, z) := tp a b a 0 k in x + y + z <= o /\ forall w, w < 4 -> typ o (x, y, z) w = wt a b a 0 k w.
Proof using Ho.
  intros H0 H1 N1 S. unfold tp, typ. four a H0; four b H1; try (exfalso; apply N1; reflexivity);
  (split; [unfold wt; cbn [Nat.eqb]; lia|intros w Hw; four w Hw; unfold vec4, wt; cbn [Nat.eqb]; lia]).
Qed.
Lemma vchunk_tp v u : v < 4 -> u < 4 -> v <> u -> nth_error (vchunk o) v = Some (tp v u v 0 0).
Proof using Ho. intros H U N. unfold vchunk, tp, wt. rewrite !Nat.sub_0_r. four v H; four u U; try (exfalso; apply N; reflexivity); cbn; reflexivity. Qed.

(** inner points of a face *)
Lemma face_in v0 v1 v2 i j : v0 < 4 -> v1 < 4 -> v2 < 4 -> v0 <> v1 -> v1 <> v2 -> v2 <> v0 -> 1 <= i -> 1 <= j -> i + j < o ->
  In (tp v0 v1 v2 i j) (fchunk o (fr v0 v1 v2)).
Proof using Ho.
  intros H0 H1 H2 N1 N2 N3 I J S. apply fchunk_In. unfold tp. four v0 H0; four v1 H1; try (exfalso; apply N1; reflexivity); four v2 H2; try (exfalso; apply N2; reflexivity); try (exfalso; apply N3; reflexivity);
  cbv [wt fr er pair_at Faces_by_edge_vertex Edges_by_vertices Nat.eqb andb fst]; cbn [f1 fst snd];
  let t := (repeat (f_equal; try lia)) in
  first [ exists (j - 1), (i - 1); split; [lia|t; fail]
        | exists (i - 1), (j - 1); split; [lia|t; fail]
        | exists (o - i - j - 1), (j - 1); split; [lia|t; fail]
        | exists (o - i - j - 1), (i - 1); split; [lia|t; fail]
        | exists (j - 1), (o - i - j - 1); split; [lia|t; fail]
        | exists (i - 1), (o - i - j - 1); split; [lia|t; fail] ].
Qed.
Lemma face_out v0 v1 v2 p : v0 < 4 -> v1 < 4 -> v2 < 4 -> v0 <> v1 -> v1 <> v2 -> v2 <> v0 -> In p (fchunk o (fr v0 v1 v2)) ->
  exists i j, 1 <= i /\ 1 <= j /\ i + j < o /\ p = tp v0 v1 v2 i j.
Proof using Ho.
  intros H0 H1 H2 N1 N2 N3 P. apply fchunk_In in P. destruct P as (a & b & Sab & ->). unfold tp. four v0 H0; four v1 H1; try (exfalso; apply N1; reflexivity); four v2 H2; try (exfalso; apply N2; reflexivity); try (exfalso; apply N3; reflexivity);
  cbv [wt fr er pair_at Faces_by_edge_vertex Edges_by_vertices Nat.eqb andb fst]; cbn [f1 fst snd];
  let t := (repeat (f_equal; try lia)) in
  first [ exists (S a), (S b); split; [lia|split; [lia|split; [lia|t; fail]]]
        | exists (S b), (S a); split; [lia|split; [lia|split; [lia|t; fail]]]
        | exists (S a), (o - a - b - 2); split; [lia|split; [lia|split; [lia|t; fail]]]
        | exists (S b), (o - a - b - 2); split; [lia|split; [lia|split; [lia|t; fail]]]
        | exists (o - a - b - 2), (S a); split; [lia|split; [lia|split; [lia|t; fail]]]
        | exists (o - a - b - 2), (S b); split; [lia|split; [lia|split; [lia|t; fail]]] ].
Qed.
Lemma tp_inj v0 v1 v2 i j i' j' : v0 < 4 -> v1 < 4 -> v2 < 4 -> v0 <> v1 -> v1 <> v2 -> v2 <> v0 -> i + j <= o -> i' + j' <= o -> tp v0 v1 v2 i j = tp v0 v1 v2 i' j' -> i = i' /\ j = j'.
Proof using Ho.
  intros H0 H1 H2 N1 N2 N3 S S'. unfold tp. four v0 H0; four v1 H1; try (exfalso; apply N1; reflexivity); four v2 H2; try (exfalso; apply N2; reflexivity); try (exfalso; apply N3; reflexivity);
  unfold wt; cbn [Nat.eqb]; intros E; injection E; lia.
Qed.
End Weights.
