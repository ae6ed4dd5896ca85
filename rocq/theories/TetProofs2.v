(** Values and derivatives of the shape functions of the tetrahedron. *)
From Coq Require Import List Arith Bool Lia ZArith Reals Lra Permutation.
From Verif Require Import Base RSum MatrixModel MonomialsModel MonomialsSpec GBasisProofs LagrangeModel LagrangeSpec LagrangeProofs RBinom TriangleModel TriangleProofs TriangleProofs2 VemQuadModel TetModel TetProofs.
Import ListNotations.
Local Open Scope R_scope.

(** ** Loops as lists *)
Definition item : Type := (nat -> R) * (nat -> nat).
Definition puts (l : list item) (s : tet_state) : outcome tet_state := foldM (fun s x => tet_put (fst x) (snd x) s) l s.
Lemma for_from_ext {S} a n (f g : nat -> S -> outcome S) s : (forall i s, f i s = g i s) -> for_from a n f s = for_from a n g s.
Proof. intros E. revert a s. induction n as [|n IH]; intros a s; cbn; auto. rewrite E. destruct (g a s); cbn; auto. Qed.
Lemma for_loop_ext' {S} n (f g : nat -> S -> outcome S) s : (forall i s, f i s = g i s) -> for_loop n f s = for_loop n g s.
Proof. apply for_from_ext. Qed.
Lemma puts_app l1 l2 s : puts (l1 ++ l2) s = (s' <- puts l1 s ;; puts l2 s').
Proof. unfold puts. apply foldM_app. Qed.
Lemma for_from_puts a n l s : for_from a n (fun d => puts (l d)) s = puts (flat_map l (seq a n)) s.
Proof.
  revert a s. induction n as [|n IH]; intros a s; cbn [for_from seq flat_map]; auto. rewrite puts_app.
  destruct (puts (l a) s); cbn; auto.
Qed.
Lemma put_puts p t s : tet_put p t s = puts [(p, t)] s.
Proof. unfold puts. cbn. destruct (tet_put p t s); auto. Qed.
Lemma loop_puts n (f : nat -> tet_state -> outcome tet_state) l s : (forall d s, f d s = puts (l d) s) -> for_loop n f s = puts (flat_map l (seq 0 n)) s.
Proof. intros E. rewrite (for_loop_ext' _ _ (fun d => puts (l d))) by auto. apply for_from_puts. Qed.
Lemma flat_map_sing {A B} (f : A -> B) l : flat_map (fun a => [f a]) l = map f l.
Proof. induction l; cbn; congruence. Qed.
Lemma loop1_puts n (p : nat -> nat -> R) (t : nat -> nat -> nat) s : for_loop n (fun d => tet_put (p d) (t d)) s = puts (map (fun d => (p d, t d)) (seq 0 n)) s.
Proof. rewrite (loop_puts n _ (fun d => [(p d, t d)])) by (intros; apply put_puts). now rewrite flat_map_sing. Qed.
Lemma map_flat_map' {A B C} (g : B -> C) (f : A -> list B) l : map g (flat_map f l) = flat_map (fun a => map g (f a)) l.
Proof. induction l; cbn; auto. now rewrite map_app, IHl. Qed.
Lemma flat_map_ext' {A B} (f g : A -> list B) l : (forall a, In a l -> f a = g a) -> flat_map f l = flat_map g l.
Proof. induction l as [|a l IH]; cbn; auto. intros H. rewrite H, IH; auto. Qed.
Lemma face_puts n1 (p : nat -> nat -> nat -> R) (t : nat -> nat -> nat -> nat) s :
  tet_face n1 (fun d1 d2 => tet_put (p d1 d2) (t d1 d2)) s = puts (map (fun x => (p (fst x) (snd x), t (fst x) (snd x))) (pairs (n1 - 1))) s.
Proof.
  unfold tet_face. rewrite (loop_puts _ _ (fun d1 => map (fun d2 => (p d1 d2, t d1 d2)) (seq 0 (n1 - 1 - d1)))) by (intros; apply loop1_puts).
  unfold pairs. rewrite map_flat_map'. f_equal. apply flat_map_ext'. intros a _. now rewrite map_map.
Qed.
Lemma inner_puts o n1 s : tet_inner o n1 s = puts (map (fun x => let '(d1, d2, d3) := x in
    (vec3 (INR (d1 + 1) / INR o) (INR (d2 + 1) / INR o) (INR (d3 + 1) / INR o), (vec4 (o - d1 - d2 - d3 - 3) (d1 + 1) (d2 + 1) (d3 + 1))%nat)) (triples (n1 - 2))) s.
Proof.
  unfold tet_inner.
  rewrite (loop_puts _ _ (fun d3 => flat_map (fun d1 => map (fun d2 => (vec3 (INR (d1 + 1) / INR o) (INR (d2 + 1) / INR o) (INR (d3 + 1) / INR o), (vec4 (o - d1 - d2 - d3 - 3) (d1 + 1) (d2 + 1) (d3 + 1))%nat)) (seq 0 (n1 - 2 - d1 - d3))) (seq 0 (n1 - 2 - d3)))).
  2: { intros d3 s'. apply loop_puts. intros d1 s''. apply loop1_puts. }
  unfold triples. rewrite map_flat_map'. f_equal. apply flat_map_ext'. intros d3 _. rewrite map_map. unfold pairs. rewrite map_flat_map'. apply flat_map_ext'. intros d1 _.
  rewrite map_map. replace (n1 - 2 - d1 - d3)%nat with (n1 - 2 - d3 - d1)%nat by lia. reflexivity.
Qed.

Section Tet.
Variable o : nat.
Hypothesis Ho : (1 <= o)%nat.
Notation pt := (nat * nat * nat)%type.
Definition typ (p : pt) : nat -> nat := let '(a, b, c) := p in vec4 (o - a - b - c)%nat a b c.
Definition posn (p : pt) : nat -> R := let '(a, b, c) := p in vec3 (INR a / INR o) (INR b / INR o) (INR c / INR o).
Definition matches (x : item) (p : pt) : Prop := (forall i, (i < 3)%nat -> fst x i = posn p i) /\ (forall i, (i < 4)%nat -> snd x i = typ p i).

Definition good (L : list pt) (N : nat) (s : tet_state) : Prop := let '(P, T, dof) := s in
  m_rows P = 3%nat /\ m_cols P = N /\ length T = N /\ dof = length L /\
  forall d p, nth_error L d = Some p -> (forall i, (i < 3)%nat -> m_at P i d = posn p i) /\ exists t, nth_error T d = Some t /\ forall i, (i < 4)%nat -> t i = typ p i.
Lemma put_good L N s x p : good L N s -> (length L < N)%nat -> matches x p -> exists s', tet_put (fst x) (snd x) s = Ok s' /\ good (L ++ [p]) N s'.
Proof using Ho.
  destruct s as [[P T] dof]. intros (G1 & G2 & G3 & -> & G5) HL (M1 & M2). unfold tet_put, mat_set_col. rewrite G2. destruct (Nat.ltb_spec (length L) N); [|lia]. cbn [bind].
  rewrite set_idx_Ok by lia. cbn [bind]. eexists. split; [reflexivity|]. cbn [good m_rows m_cols m_at]. rewrite replace_length, app_length. cbn [length]. repeat split; auto; try lia.
  - intros i Hi. destruct (Nat.eqb_spec d (length L)) as [->|N'].
    + rewrite nth_error_app2, Nat.sub_diag in H0 by lia. injection H0 as <-. now apply M1.
    + assert (d < length L)%nat. { apply nth_error_lt in H0. rewrite app_length in H0. cbn in H0. lia. } rewrite nth_error_app1 in H0 by auto. now apply (G5 d p0 H0).
  - destruct (Nat.eq_dec d (length L)) as [->|N'].
    + rewrite nth_error_app2, Nat.sub_diag in H0 by lia. injection H0 as <-. rewrite nth_error_replace_eq by lia. eauto.
    + assert (d < length L)%nat. { apply nth_error_lt in H0. rewrite app_length in H0. cbn in H0. lia. } rewrite nth_error_app1 in H0 by auto. rewrite nth_error_replace_neq by auto. apply (G5 d p0 H0).
Qed.
Lemma puts_good l : forall L M N s, good L N s -> (length L + length M <= N)%nat -> Forall2 matches l M -> exists s', puts l s = Ok s' /\ good (L ++ M) N s'.
Proof using Ho.
  induction l as [|x l IH]; intros L M N s G HL F; inversion F; subst.
  - exists s. rewrite app_nil_r. auto.
  - cbn [length] in HL. destruct (put_good L N s x y G ltac:(lia) ltac:(auto)) as (s1 & E1 & G1). unfold puts. cbn [foldM]. rewrite E1. cbn [bind].
    destruct (IH (L ++ [y]) l' N s1 G1) as (s2 & E2 & G2); [rewrite app_length; cbn; lia|auto|]. exists s2. split; auto. now rewrite <- app_assoc in G2.
Qed.
Lemma Forall2_map {A B C} (P : B -> C -> Prop) (f : A -> B) (g : A -> C) l : (forall a, In a l -> P (f a) (g a)) -> Forall2 P (map f l) (map g l).
Proof using Ho. induction l; cbn; constructor; auto. Qed.

Lemma o_neq : INR o <> 0. Proof using Ho. apply not_0_INR. lia. Qed.
Lemma numbering_ok junk : exists P T, tet_numbering junk o (o - 1) (TN o) = Ok (P, T) /\ m_rows P = 3%nat /\ m_cols P = TN o /\ length T = TN o /\
  forall d p, nth_error (TL o) d = Some p -> (forall i, (i < 3)%nat -> m_at P i d = posn p i) /\ exists t, nth_error T d = Some t /\ forall i, (i < 4)%nat -> t i = typ p i.
Proof using Ho.
  pose proof o_neq as NZ. pose proof (TL_length o Ho) as TLn. unfold TL in TLn. rewrite !app_length in TLn. rewrite !echunk_length, !fchunk_length in TLn. cbn [length vchunk] in TLn.
  unfold tet_numbering.
  assert (Z0' : 0 / INR o = 0) by (field; auto). assert (Z1 : INR o / INR o = 1) by (field; auto).
  assert (M4 : exists s, (s <- tet_put (vec3 0 0 0) (vec4 o 0 0 0)%nat (mraw junk 3 (TN o), repeat (fun _ => 0%nat) (TN o), 0%nat) ;;
    s <- tet_put (vec3 1 0 0) (vec4 0 o 0 0)%nat s ;; s <- tet_put (vec3 0 1 0) (vec4 0 0 o 0)%nat s ;; tet_put (vec3 0 0 1) (vec4 0 0 0 o)%nat s) = Ok s /\ good (vchunk o) (TN o) s).
  { set (s0 := (mraw junk 3 (TN o), repeat (fun _ : nat => 0%nat) (TN o), 0%nat)).
    assert (G0 : good [] (TN o) s0). { cbn. rewrite repeat_length. repeat split; auto; destruct d; discriminate. }
    destruct (puts_good [(vec3 0 0 0, (vec4 o 0 0 0)%nat); (vec3 1 0 0, (vec4 0 o 0 0)%nat); (vec3 0 1 0, (vec4 0 0 o 0)%nat); (vec3 0 0 1, (vec4 0 0 0 o)%nat)] [] (vchunk o) (TN o) s0 G0) as (s & E & G).
    - cbn [length vchunk]. lia.
    - unfold vchunk. repeat constructor; cbn [fst snd]; intros i Hi; unfold posn, typ; cbn [INR]; rewrite ?Z0', ?Z1; do 4 (destruct i as [|i]; [cbn; try reflexivity; lia|]); exfalso; lia.
    - exists s. split; auto. }
  destruct M4 as (s4 & E4 & G4).
  assert (ME : exists s, tet_edges o (o - 1) s4 = Ok s /\ good (vchunk o ++ (echunk o 0 ++ echunk o 1 ++ echunk o 2 ++ echunk o 3 ++ echunk o 4 ++ echunk o 5)) (TN o) s).
  { unfold tet_edges. cbv zeta. rewrite loop1_puts.
    assert (STEP : forall e L s (p : nat -> nat -> R) (t : nat -> nat -> nat), (e < 6)%nat -> good L (TN o) s -> (length L + (o - 1) <= TN o)%nat ->
       (forall d, (d < o - 1)%nat -> matches (p d, t d) (e1 o e d)) -> exists s', puts (map (fun d => (p d, t d)) (seq 0 (o - 1))) s = Ok s' /\ good (L ++ echunk o e) (TN o) s').
    { intros e L s p t He G HL M. apply puts_good; auto; [rewrite echunk_length; auto|]. unfold echunk. apply Forall2_map. intros d Hd. apply in_seq in Hd. apply M. lia. }
    Ltac fin NZ := intros d Hd; unfold matches, e1, posn, typ; cbn [fst snd]; split; intros i Hi; do 4 (try (destruct i as [|i]; [cbn [vec3 vec4]; try reflexivity; try lia; try (unfold Rdiv; cbn [INR]; ring); try (do 2 f_equal; lia)|])); try lia.
    destruct (STEP 0%nat _ s4 (fun d => vec3 (INR (d + 1) / INR o) 0 0) (fun d => vec4 (o - 1 - d) (d + 1) 0 0)%nat ltac:(lia) G4 ltac:(cbn [length vchunk]; lia)) as (s5 & E5 & G5). { fin NZ. }
    rewrite E5. cbn [bind]. rewrite loop1_puts.
    destruct (STEP 1%nat _ s5 (fun d => vec3 (INR (o - 1 - d) / INR o) (INR (d + 1) / INR o) 0) (fun d => vec4 0 (o - d - 1) (d + 1) 0)%nat ltac:(lia) G5 ltac:(rewrite ?app_length, ?echunk_length; cbn [length vchunk]; lia)) as (s6 & E6 & G6). { fin NZ. }
    rewrite E6. cbn [bind]. rewrite loop1_puts.
    destruct (STEP 2%nat _ s6 (fun d => vec3 0 (INR (o - 1 - d) / INR o) 0) (fun d => vec4 (d + 1) 0 (o - d - 1) 0)%nat ltac:(lia) G6 ltac:(rewrite ?app_length, ?echunk_length; cbn [length vchunk]; lia)) as (s7 & E7 & G7). { fin NZ. }
    rewrite E7. cbn [bind]. rewrite loop1_puts.
    destruct (STEP 3%nat _ s7 (fun d => vec3 0 0 (INR (d + 1) / INR o)) (fun d => vec4 (o - d - 1) 0 0 (d + 1))%nat ltac:(lia) G7 ltac:(rewrite ?app_length, ?echunk_length; cbn [length vchunk]; lia)) as (s8 & E8 & G8). { fin NZ. }
    rewrite E8. cbn [bind]. rewrite loop1_puts.
    destruct (STEP 4%nat _ s8 (fun d => vec3 (INR (d + 1) / INR o) 0 (INR (o - 1 - d) / INR o)) (fun d => vec4 0 (d + 1) 0 (o - d - 1))%nat ltac:(lia) G8 ltac:(rewrite ?app_length, ?echunk_length; cbn [length vchunk]; lia)) as (s9 & E9 & G9). { fin NZ. }
    rewrite E9. cbn [bind]. rewrite loop1_puts.
    destruct (STEP 5%nat _ s9 (fun d => vec3 0 (INR (d + 1) / INR o) (INR (o - 1 - d) / INR o)) (fun d => vec4 0 0 (d + 1) (o - d - 1))%nat ltac:(lia) G9 ltac:(rewrite ?app_length, ?echunk_length; cbn [length vchunk]; lia)) as (s10 & E10 & G10). { fin NZ. }
    exists s10. split; auto. rewrite <- !app_assoc in G10. exact G10. }
  destruct ME as (sE & EE & GE).
  assert (MF : exists s, tet_faces o (o - 1) sE = Ok s /\ good ((vchunk o ++ (echunk o 0 ++ echunk o 1 ++ echunk o 2 ++ echunk o 3 ++ echunk o 4 ++ echunk o 5)) ++ (fchunk o 0 ++ fchunk o 1 ++ fchunk o 2 ++ fchunk o 3)) (TN o) s).
  { unfold tet_faces. cbv zeta.
    assert (STEP : forall f L s (p : nat -> nat -> nat -> R) (t : nat -> nat -> nat -> nat), (f < 4)%nat -> good L (TN o) s -> (length L + n2 o <= TN o)%nat ->
       (forall a b, (a + b < o - 2)%nat -> matches (p a b, t a b) (f1 o f (a, b))) -> exists s', tet_face (o - 1) (fun d1 d2 => tet_put (p d1 d2) (t d1 d2)) s = Ok s' /\ good (L ++ fchunk o f) (TN o) s').
    { intros f L s p t He G HL M. rewrite face_puts. apply puts_good; auto; [rewrite fchunk_length; auto|]. unfold fchunk. replace (o - 1 - 1)%nat with (o - 2)%nat by lia. apply Forall2_map. intros (a, b) Hd. apply pairs_In in Hd. apply M. auto. }
    Ltac fin2 NZ := intros a b Hd; unfold matches, f1, posn, typ; cbn [fst snd]; split; intros i Hi; do 4 (try (destruct i as [|i]; [cbn [vec3 vec4]; try reflexivity; try lia; try (unfold Rdiv; cbn [INR]; ring); try (do 2 f_equal; lia)|])); try lia.
    destruct (STEP 0%nat _ sE (fun d1 d2 => vec3 (INR (d1 + 1) / INR o) (INR (d2 + 1) / INR o) 0) (fun d1 d2 => vec4 (o - d1 - d2 - 2) (d1 + 1) (d2 + 1) 0)%nat ltac:(lia) GE ltac:(rewrite ?app_length, ?echunk_length, ?fchunk_length; cbn [length vchunk]; lia)) as (s5 & E5 & G5). { fin2 NZ. }
    rewrite E5. cbn [bind].
    destruct (STEP 1%nat _ s5 (fun d1 d2 => vec3 (INR (d1 + 1) / INR o) 0 (INR (d2 + 1) / INR o)) (fun d1 d2 => vec4 (o - d1 - d2 - 2) (d1 + 1) 0 (d2 + 1))%nat ltac:(lia) G5 ltac:(rewrite ?app_length, ?echunk_length, ?fchunk_length; cbn [length vchunk]; lia)) as (s6 & E6 & G6). { fin2 NZ. }
    rewrite E6. cbn [bind].
    destruct (STEP 2%nat _ s6 (fun d1 d2 => vec3 0 (INR (d1 + 1) / INR o) (INR (d2 + 1) / INR o)) (fun d1 d2 => vec4 (o - d1 - d2 - 2) 0 (d1 + 1) (d2 + 1))%nat ltac:(lia) G6 ltac:(rewrite ?app_length, ?echunk_length, ?fchunk_length; cbn [length vchunk]; lia)) as (s7 & E7 & G7). { fin2 NZ. }
    rewrite E7. cbn [bind].
    destruct (STEP 3%nat _ s7 (fun d1 d2 => vec3 (INR (d1 + 1) / INR o) (INR (d2 + 1) / INR o) (1 - INR (d1 + 1) / INR o - INR (d2 + 1) / INR o)) (fun d1 d2 => vec4 0 (d1 + 1) (d2 + 1) (o - d1 - d2 - 2))%nat ltac:(lia) G7 ltac:(rewrite ?app_length, ?echunk_length, ?fchunk_length; cbn [length vchunk]; lia)) as (s8 & E8 & G8).
    { fin2 NZ. rewrite !minus_INR by lia. field. auto. }
    exists s8. split; auto. rewrite <- !app_assoc in G8. rewrite <- !app_assoc. exact G8. }
  destruct MF as (sF & EF & GF).
  assert (MI : exists s, tet_inner o (o - 1) sF = Ok s /\ good (TL o) (TN o) s).
  { rewrite inner_puts. destruct (puts_good (map (fun x => let '(d1, d2, d3) := x in
      (vec3 (INR (d1 + 1) / INR o) (INR (d2 + 1) / INR o) (INR (d3 + 1) / INR o), (vec4 (o - d1 - d2 - d3 - 3) (d1 + 1) (d2 + 1) (d3 + 1))%nat)) (triples (o - 1 - 2))) _ (ichunk o) (TN o) sF GF) as (s & E & G).
    - rewrite ?app_length, ?echunk_length, ?fchunk_length. cbn [length vchunk]. lia.
    - unfold ichunk. replace (o - 1 - 2)%nat with (o - 3)%nat by lia. apply Forall2_map. intros [[a b] c] Hd. apply triples_In in Hd. cbn [i1].
      unfold matches, posn, typ; cbn [fst snd]; split; intros i Hi; do 4 (try (destruct i as [|i]; [cbn [vec3 vec4]; try reflexivity; try lia|])); try lia.
    - exists s. split; auto. unfold TL. rewrite <- !app_assoc in G. rewrite <- !app_assoc. exact G. }
  destruct MI as (sI & EI & GI).
  destruct (tet_put (vec3 0 0 0) (vec4 o 0 0 0)%nat (mraw junk 3 (TN o), repeat (fun _ => 0%nat) (TN o), 0%nat)) as [s1| |]; cbn [bind] in *; try discriminate.
  destruct (tet_put (vec3 1 0 0) (vec4 0 o 0 0)%nat s1) as [s2| |]; cbn [bind] in *; try discriminate.
  destruct (tet_put (vec3 0 1 0) (vec4 0 0 o 0)%nat s2) as [s3| |]; cbn [bind] in *; try discriminate. rewrite E4. cbn [bind].
  assert (FIN : exists s, (if (1 <? o)%nat then s <- tet_edges o (o - 1) s4 ;; (if (2 <? o)%nat then s <- tet_faces o (o - 1) s ;; (if (3 <? o)%nat then tet_inner o (o - 1) s else Ok s) else Ok s) else Ok s4) = Ok s /\ good (TL o) (TN o) s).
  { rewrite EE. cbn [bind]. rewrite EF. cbn [bind]. rewrite EI.
    assert (P0 : (o - 2 = 0)%nat -> forall f, fchunk o f = []) by (intros Z f; unfold fchunk; rewrite Z; reflexivity).
    assert (Q0 : (o - 3 = 0)%nat -> ichunk o = []) by (intros Z; unfold ichunk; rewrite Z; reflexivity).
    destruct (Nat.ltb_spec 1 o).
    - destruct (Nat.ltb_spec 2 o).
      + destruct (Nat.ltb_spec 3 o); [eauto|]. exists sF. split; auto. unfold TL. rewrite (Q0 ltac:(lia)), app_nil_r. now rewrite <- app_assoc in GF.
      + exists sE. split; auto. unfold TL. rewrite (Q0 ltac:(lia)), !(P0 ltac:(lia)). cbn [app]. now rewrite app_nil_r.
    - exists s4. split; auto. unfold TL. rewrite (Q0 ltac:(lia)), !(P0 ltac:(lia)). unfold echunk. replace (o - 1)%nat with 0%nat by lia. cbn [seq map app]. exact G4. }
  destruct FIN as ([[P T] dof] & EFIN & GG). rewrite EFIN. cbn [bind]. destruct GG as (A & B & C & _ & D). exists P, T. auto.
Qed.
End Tet.
