(** The tetrahedra of a mesh: the numbering of the dofs. *)
From Coq Require Import List Arith Bool Lia ZArith Reals Lra Permutation.
From Verif Require Import Base RSum MatrixModel MonomialsModel MonomialsSpec LagrangeModel LagrangeSpec LagrangeProofs TriangleModel TriangleSpec TriangleProofs TriangleProofs3 TriangleProofs4 VemQuadModel VemQuadProofs TetModel TetSpec TetProofs TetProofs2 TetProofs3 TetProofs5 TetLocalModel TetLocalSpec TetLocalProofs.
Import ListNotations.
Local Open Scope nat_scope.

Lemma append_loop {A} (f : nat -> list A -> outcome (list A)) (P : nat -> A -> Prop) n :
  (forall i, i < n -> exists x, P i x /\ forall acc, f i acc = Ok (acc ++ [x])) ->
  exists l, for_loop n f [] = Ok l /\ length l = n /\ forall i, i < n -> exists x, nth_error l i = Some x /\ P i x.
Proof.
  intros H. destruct (flt (fun k l => length l = k /\ forall i, i < k -> exists x, nth_error l i = Some x /\ P i x) f n []) as (l & E & L1 & L2).
  - split; [reflexivity|lia].
  - intros i s Hi (I1 & I2). destruct (H i Hi) as (x & Px & Ex). exists (s ++ [x]). split; [apply Ex|]. split; [rewrite app_length; cbn; lia|].
    intros j Hj. destruct (Nat.eq_dec j i) as [->|N].
    + exists x. rewrite nth_error_app2 by lia. rewrite I1, Nat.sub_diag. auto.
    + rewrite nth_error_app1 by lia. apply I2. lia.
  - exists l. auto.
Qed.
Lemma nth_flat {A} (f : nat -> list A) n m : (forall e, length (f e) = n) -> forall a e d, e < m -> d < n -> nth_error (flat_map f (seq a m)) (e * n + d) = nth_error (f (a + e)) d.
Proof.
  intros L. induction m as [|m IH]; intros a e d He Hd; [lia|]. cbn [seq flat_map]. destruct e as [|e].
  - rewrite nth_error_app1 by (rewrite L; lia). rewrite Nat.add_0_r. reflexivity.
  - rewrite nth_error_app2 by (rewrite L; lia). rewrite L. replace (S e * n + d - n) with (e * n + d) by lia. rewrite IH by lia. do 2 f_equal. lia.
Qed.
Lemma flat_length {A} (f : nat -> list A) n m a : (forall e, length (f e) = n) -> length (flat_map f (seq a m)) = m * n.
Proof. intros L. revert a. induction m as [|m IH]; intros a; [reflexivity|]. cbn [seq flat_map]. rewrite app_length, IH, L. lia. Qed.

Definition pt3_eqb (p q : nat * nat * nat) : bool := let '(a, b, c) := p in let '(a', b', c') := q in (a =? a') && (b =? b') && (c =? c').
Lemma pt3_eqb_spec p q : reflect (p = q) (pt3_eqb p q).
Proof.
  destruct p as ((a, b), c), q as ((a', b'), c'). unfold pt3_eqb.
  destruct (Nat.eqb_spec a a') as [->|N]; [|constructor; congruence]. destruct (Nat.eqb_spec b b') as [->|N]; [|constructor; congruence].
  destruct (Nat.eqb_spec c c') as [->|N]; constructor; congruence.
Qed.
Fixpoint index (p : nat * nat * nat) (l : list (nat * nat * nat)) : nat := match l with [] => 0 | q :: l' => if pt3_eqb p q then 0 else S (index p l') end.
Lemma index_ok p l : In p l -> nth_error l (index p l) = Some p.
Proof.
  induction l as [|q l IH]; intros H; [destruct H|]. cbn [index]. destruct (pt3_eqb_spec p q) as [->|N]; [reflexivity|]. cbn. apply IH. destruct H; congruence.
Qed.
Lemma index_lt p l : In p l -> index p l < length l.
Proof. intros H. apply index_ok, nth_error_lt in H. auto. Qed.

Section Local.
Variable o : nat.
Hypothesis Ho : 1 <= o.
Notation n1 := (o - 1).
Notation m2 := (n2 o).
Notation m3 := (n3 o).
Notation N := (TN o).

Lemma vlen : length (vchunk o) = 4.
Proof using. reflexivity. Qed.
Lemma TL_vertex v u : v < 4 -> u < 4 -> v <> u -> nth_error (TL o) v = Some (tp o v u v 0 0).
Proof using Ho. intros H H' E. unfold TL. rewrite nth_error_app1 by (rewrite vlen; lia). now apply vchunk_tp. Qed.
Lemma TL_flat : TL o = vchunk o ++ flat_map (echunk o) (seq 0 6) ++ flat_map (fchunk o) (seq 0 4) ++ ichunk o.
Proof using Ho. unfold TL. cbn [seq flat_map]. rewrite !app_nil_r. rewrite <- !app_assoc. reflexivity. Qed.
Lemma TL_edge r d : r < 6 -> d < n1 -> nth_error (TL o) (4 + r * n1 + d) = Some (tp o (rA r) (rZ r) (rA r) 0 (S d)).
Proof using Ho.
  intros Hr Hd. rewrite TL_flat. rewrite nth_error_app2 by (rewrite vlen, <- ?Nat.add_assoc; apply Nat.le_add_r). rewrite vlen.
  replace (4 + r * n1 + d - 4) with (r * n1 + d) by (generalize (r * n1); intros; lia). pose proof (Nat.mul_le_mono_r r 5 n1 ltac:(lia)) as Q. rewrite nth_error_app1 by (rewrite (flat_length _ n1) by apply echunk_length; lia). rewrite (nth_flat _ n1) by (auto using echunk_length). rewrite Nat.add_0_l. unfold echunk. rewrite nth_error_map_seq by auto. f_equal. now apply e1_tp.
Qed.
Lemma TL_face f s : f < 4 -> s < m2 -> nth_error (TL o) (4 + 6 * n1 + f * m2 + s) = nth_error (fchunk o f) s.
Proof using Ho.
  intros Hr Hd. rewrite TL_flat. rewrite nth_error_app2 by (rewrite vlen, <- ?Nat.add_assoc; apply Nat.le_add_r). rewrite vlen.
  rewrite nth_error_app2 by (rewrite (flat_length _ n1) by apply echunk_length; lia). rewrite (flat_length _ n1) by apply echunk_length.
  replace (4 + 6 * n1 + f * m2 + s - 4 - 6 * n1) with (f * m2 + s) by (generalize (f * m2); intros; lia). pose proof (Nat.mul_le_mono_r f 3 m2 ltac:(lia)) as Q.
  rewrite nth_error_app1 by (rewrite (flat_length _ m2) by apply fchunk_length; lia). rewrite (nth_flat _ m2) by (auto using fchunk_length). now rewrite Nat.add_0_l.
Qed.

Variable data : Tet_Data.
Hypothesis TD : tet_data o data.
Variable g : Tet_Geometry.
Variable V : nat -> point.
Hypothesis G : tetrahedron g V.
Hypothesis SA : tells_nodes_apart g data.
Hypothesis UI : (Z.of_nat (te_NumBasisFunctions data) <= UINT_MAX)%Z.

Lemma edges_ok : exists es, tl_edges g = Ok es /\ length es = 6 /\ forall e a b, e < 6 -> nth_error (tg_Edges g) e = Some (a, b) -> nth_error es e = Some (er a b, ed a b).
Proof using G.
  destruct G as (_ & _ & GE & _). unfold tl_edges.
  match goal with |- context [for_loop 6 ?f []] => destruct (append_loop f (fun e x => forall a b, nth_error (tg_Edges g) e = Some (a, b) -> x = (er a b, ed a b)) 6) as (l & E & L & H) end.
  - intros e He. destruct (GE e He) as (a & b & E & Ha & Hb & Nab). exists (er a b, ed a b). split; [intros a' b' E'; congruence|].
    intros acc. unfold idx_. rewrite E. cbn [bind]. destruct (edge_table a b Ha Hb Nab) as (-> & _). reflexivity.
  - exists l. split; auto. split; auto. intros e a b He E'. destruct (H e He) as (x & Ex & Px). rewrite (Px a b E') in Ex. auto.
Qed.

Lemma in_range_tri : in_range (te_Boundary data) /\ tri_ok o (te_Boundary data) /\ ft_NumDofs2D (te_Boundary data) = m2.
Proof using Ho TD UI.
  pose proof TD as (_ & D2 & _ & _ & _ & _ & _ & DT). pose proof (created_ok o _ Ho DT) as T. pose proof T as (_ & _ & _ & T4 & T5 & _).
  pose proof (NN_double o Ho) as Q1. pose proof (TN_six o Ho) as Q2. split; [|split; auto].
  - unfold in_range. rewrite T5. rewrite D2 in UI. rewrite <- Q1 in Q2. assert (LE : NN o <= TN o) by (clear -Q2; nia). clear -LE UI. lia.
  - pose proof (pairs_length (o - 2)) as P. unfold n2. clear -T4 Q1 P Ho. destruct o as [|[|k]]; [lia|cbn in *; lia|]. replace (S (S k) - 2) with k in * by lia. replace (S (S k) - 1) with (S k) in * by lia. nia.
Qed.

(** the triangle of face [f] *)
Lemma boundary_ok : exists bl, tl_boundary data g = Ok bl /\ length bl = 4 /\ forall f nv dir m, f < 4 -> nth_error (tg_Faces_2D_Geometry g) f = Some (nv, dir, m) ->
  exists l, nth_error bl f = Some l /\ 3 <= length dir /\ nv = 3 /\ Tri_CreateLocalSpace (te_Boundary data) 3 dir m = Ok l.
Proof using Ho TD UI G.
  destruct in_range_tri as (IR & _). pose proof TD as (_ & _ & _ & _ & _ & _ & _ & DT). destruct G as (_ & _ & _ & _ & _ & GF & _ & G2). unfold tl_boundary.
  match goal with |- context [for_loop 4 ?h []] => destruct (append_loop h (fun f l => forall nv dir m, nth_error (tg_Faces_2D_Geometry g) f = Some (nv, dir, m) -> 3 <= length dir /\ nv = 3 /\ Tri_CreateLocalSpace (te_Boundary data) 3 dir m = Ok l) 4) as (l & E & L & H) end.
  - intros f Hf. destruct (GF f Hf) as (v0 & v1 & v2 & e0 & e1 & e2 & F). destruct (G2 _ _ _ _ _ _ _ Hf F) as (dir & m & rot & trans & E & L & _).
    destruct (local_ok o (te_Boundary data) dir m DT L IR) as (l & El & _). exists l. split.
    + intros nv' dir' m' E'. rewrite E in E'. injection E' as <- <- <-. auto.
    + intros acc. unfold idx_. rewrite E. cbn [bind]. rewrite El. reflexivity.
  - exists l. split; auto. split; auto. intros f nv dir m Hf E'. destruct (H f Hf) as (x & Ex & Px). exists x. split; auto.
Qed.

Lemma joins_er es e a b : (forall e a b, e < 6 -> nth_error (tg_Edges g) e = Some (a, b) -> nth_error es e = Some (er a b, ed a b)) ->
  e < 6 -> a < 4 -> b < 4 -> a <> b -> joins g e a b -> exists d, nth_error es e = Some (er a b, d).
Proof using.
  intros H He Ha Hb Nab [J|J].
  - exists (ed a b). now apply H.
  - exists (ed b a). destruct (edge_table a b Ha Hb Nab) as (_ & _ & <- & _). now apply H.
Qed.
Lemma faces_ok es : (forall e a b, e < 6 -> nth_error (tg_Edges g) e = Some (a, b) -> nth_error es e = Some (er a b, ed a b)) ->
  exists fs, tl_faces g es = Ok fs /\ length fs = 4 /\ forall f v0 v1 v2 e0 e1 e2, f < 4 -> face_of g f v0 v1 v2 e0 e1 e2 -> exists s d, nth_error fs f = Some (fr v0 v1 v2, s, d).
Proof using G.
  intros HE. pose proof G as (_ & _ & _ & _ & _ & GF & _). unfold tl_faces.
  match goal with |- context [for_loop 4 ?h []] => destruct (append_loop h (fun f x => forall v0 v1 v2 e0 e1 e2, face_of g f v0 v1 v2 e0 e1 e2 -> exists s d, x = (fr v0 v1 v2, s, d)) 4) as (l & E & L & H) end.
  - intros f Hf. destruct (GF f Hf) as (v0 & v1 & v2 & e0 & e1 & e2 & F). pose proof F as (FE & (H0 & H1 & H2 & N1 & N2 & N3) & (He0 & He1 & _) & J0 & J1 & _).
    destruct (face_table v0 v1 v2 H0 H1 H2 N1 N2 N3) as (T1 & (s & d & T2) & _).
    destruct (joins_er es e0 v0 v1 HE He0 H0 H1 N1 J0) as (d0 & X0). destruct (joins_er es e1 v1 v2 HE He1 H1 H2 N2 J1) as (d1 & X1).
    exists (fr v0 v1 v2, s, d). split.
    + intros v0' v1' v2' e0' e1' e2' (FE' & _). rewrite FE in FE'. injection FE' as <- <- <- <- <- <-. eauto.
    + intros acc. unfold idx_. rewrite FE. cbn [bind nth_error]. rewrite X0. cbn [bind nth_error]. rewrite X1. cbn [bind nth_error fst]. rewrite T1. cbn [bind]. rewrite T2. cbn [bind]. now rewrite Nat.eqb_refl.
  - exists l. split; auto. split; auto. intros f v0 v1 v2 e0 e1 e2 Hf F. destruct (H f Hf) as (x & Ex & Px). destruct (Px _ _ _ _ _ _ F) as (s & d & ->). eauto.
Qed.
End Local.
