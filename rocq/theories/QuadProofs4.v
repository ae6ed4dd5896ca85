From Coq Require Import List Arith Bool Lia ZArith Reals Lra Permutation FunctionalExtensionality.
From Verif Require Import Base RSum MatrixModel MonomialsModel MonomialsSpec GBasisModel GBasisProofs LagrangeModel LagrangeSpec LagrangeProofs LagrangeProofs2
  RBinom TriangleModel TriangleSpec TriangleProofs2 TriangleProofs3 TriangleProofs4 TriangleProofs5 Renumber QuadModel QuadSpec QuadProofs QuadProofs2 QuadProofs3.
Import ListNotations.
Local Open Scope R_scope.

(** ** The one dimensional functions in the two forms of the code *)
Lemma is_poly_lin' n f a b : is_poly n f -> is_poly (S n) (fun t => (a * t + b) * f t).
Proof. intros H. eapply is_poly_ext; [|apply (is_poly_lin n f a b H)]. intros; cbv beta; ring. Qed.
Lemma gb_poly f o a b : forall k n, is_poly n f -> is_poly (k + n) (fun s => gb (INR o * (a * s + b)) k * f s).
Proof.
  intros k n H. apply (is_poly_ext _ (fun s => / INR (fact k) * (rprod k (fun t => INR o * (a * s + b) - INR t) * f s))).
  { intros s. rewrite gb_alt. unfold Rdiv. ring. }
  apply is_poly_scal. induction k as [|k IH]; [cbn; eapply is_poly_ext; [|exact H]; intros; cbv beta; ring|].
  eapply is_poly_ext; [|apply (is_poly_lin' _ _ (INR o * a) (INR o * b - INR k) IH)]. intros s. cbv beta. cbn [rprod]. ring.
Qed.
Lemma Lk_poly o k : (k <= o)%nat -> is_poly (o + 1) (Lk o k).
Proof.
  intros Hk. replace (o + 1)%nat with (k + ((o - k) + 1))%nat by lia.
  eapply is_poly_ext; [|apply (gb_poly (fun s => gb (INR o * (-1 * s + 1)) (o - k) * 1) o 1 0 k (o - k + 1)); apply gb_poly; apply is_poly_const; lia].
  intros s. cbv beta. unfold Lk. replace (1 * s + 0) with s by ring. replace (-1 * s + 1) with (1 - s) by ring. ring.
Qed.
Lemma Lk_nodal o k p : (1 <= o)%nat -> (k <= o)%nat -> (p <= o)%nat -> Lk o k (INR p / INR o) = kron k p.
Proof.
  intros Ho Hk Hp. unfold Lk. assert (INR o <> 0) by (apply not_0_INR; lia).
  replace (INR o * (INR p / INR o)) with (INR p) by (field; auto). replace (INR o * (1 - INR p / INR o)) with (INR (o - p)) by (rewrite minus_INR by auto; field; auto).
  unfold kron. destruct (Nat.eqb_spec k p) as [->|].
  - rewrite !gb_diag. ring.
  - destruct (Nat.lt_ge_cases p k); [rewrite gb_lt by auto; ring|]. rewrite (gb_lt (o - p) (o - k)) by lia. ring.
Qed.
Lemma ph_Lk o i t : (1 <= o)%nat -> (i < o + 1)%nat -> ph o i t = Lk o (perm1 (o + 1) i) t.
Proof.
  intros Ho Hi. pose proof (perm1_lt (o + 1) i ltac:(lia) Hi) as L.
  rewrite <- (ph_sum o (Lk o (perm1 (o + 1) i)) t Ho) by (apply Lk_poly; lia).
  rewrite (rsum_single _ _ i); [|auto|].
  2: { intros j Hj N. unfold nd. pose proof (perm1_lt (o + 1) j ltac:(lia) Hj). rewrite Lk_nodal by lia. unfold kron.
       destruct (Nat.eqb_spec (perm1 (o + 1) i) (perm1 (o + 1) j)) as [Q|]; [apply perm1_inj in Q; auto; lia|ring]. }
  unfold nd. rewrite Lk_nodal by lia. unfold kron. rewrite Nat.eqb_refl. ring.
Qed.

(** ** Edges of the reference square *)
Definition rx (v : nat) : R := match v with 1%nat | 2%nat => 1 | _ => 0 end.
Definition ry (v : nat) : R := match v with 2%nat | 3%nat => 1 | _ => 0 end.
Definition va (e : nat) : nat := (if rdir e then e else (e + 1) mod 4)%nat.
Definition vb (e : nat) : nat := (if rdir e then (e + 1) mod 4 else e)%nat.
Definition eqi (n1 e i : nat) : nat := match e with O => qi n1 i 0 | S O => qi n1 1 i | S (S O) => qi n1 i 1 | _ => qi n1 0 i end.
Definition epx (e : nat) (r : R) : R := (1 - r) * rx (va e) + r * rx (vb e).
Definition epy (e : nat) (r : R) : R := (1 - r) * ry (va e) + r * ry (vb e).

Lemma eqi_0 n1 e : (e < 4)%nat -> eqi n1 e 0 = va e.
Proof. intros H. destruct e as [|[|[|[|e]]]]; [| | | |lia]; reflexivity. Qed.
Lemma eqi_1 n1 e : (e < 4)%nat -> eqi n1 e 1 = vb e.
Proof. intros H. destruct e as [|[|[|[|e]]]]; [| | | |lia]; reflexivity. Qed.
Lemma eqi_SS n1 e k : (e < 4)%nat -> eqi n1 e (S (S k)) = (4 + e * n1 + k)%nat.
Proof. intros H. destruct e as [|[|[|[|e]]]]; [| | | |lia]; cbn [eqi qi]; lia. Qed.

(** on an edge only its own functions are nonzero *)
Lemma edge_sum o e F r : (1 <= o)%nat -> (e < 4)%nat ->
  rsum (o + 1) (fun i => rsum (o + 1) (fun j => F (qi (o - 1) i j) * (ph o i (epx e r) * ph o j (epy e r)))) =
  rsum (o + 1) (fun i => F (eqi (o - 1) e i) * ph o i r).
Proof.
  intros Ho He. assert (P0 : forall i, (i < o + 1)%nat -> ph o i 0 = kron i 0) by (intros i Hi; rewrite <- (nd_0 o) at 1; apply ph_nodal; auto; lia).
  assert (P1 : forall i, (i < o + 1)%nat -> ph o i 1 = kron i 1) by (intros i Hi; rewrite <- (nd_1 o Ho) at 1; apply ph_nodal; auto; lia).
  assert (C : forall i c, (c = 0 \/ c = 1)%nat -> rsum (o + 1) (fun j => F (qi (o - 1) i j) * (ph o i r * ph o j (INR c))) = F (qi (o - 1) i c) * ph o i r).
  { intros i c Hc. rewrite (rsum_single _ _ c).
    - destruct Hc as [->| ->]; cbn [INR]; [rewrite P0 by lia|rewrite P1 by lia]; unfold kron; rewrite Nat.eqb_refl; ring.
    - lia.
    - intros j Hj Nj. destruct Hc as [->| ->]; cbn [INR]; [rewrite P0 by lia|rewrite P1 by lia]; unfold kron; rewrite (proj2 (Nat.eqb_neq _ _) Nj); ring. }
  assert (C' : forall c, (c = 0 \/ c = 1)%nat -> rsum (o + 1) (fun i => rsum (o + 1) (fun j => F (qi (o - 1) i j) * (ph o i (INR c) * ph o j r))) =
     rsum (o + 1) (fun j => F (qi (o - 1) c j) * ph o j r)).
  { intros c Hc. rewrite (rsum_single _ _ c).
    - apply rsum_ext. intros j Hj. destruct Hc as [->| ->]; cbn [INR]; [rewrite P0 by lia|rewrite P1 by lia]; unfold kron; rewrite Nat.eqb_refl; ring.
    - lia.
    - intros i Hi Ni. apply rsum_0. intros j Hj. destruct Hc as [->| ->]; cbn [INR]; [rewrite P0 by lia|rewrite P1 by lia]; unfold kron; rewrite (proj2 (Nat.eqb_neq _ _) Ni); ring. }
  destruct e as [|[|[|[|e]]]]; [| | | |lia]; cbn [eqi]; unfold epx, epy; cbn [va vb rdir Nat.ltb Nat.leb Nat.add Nat.modulo Nat.divmod fst snd Nat.sub rx ry].
  - rewrite (rsum_ext (o + 1) _ (fun i => F (qi (o - 1) i 0%nat) * ph o i r)); auto. intros i Hi. rewrite <- (C i 0%nat) by auto. apply rsum_ext. intros j Hj. repeat f_equal; cbn [INR]; ring.
  - rewrite <- (C' 1%nat) by auto. apply rsum_ext. intros i Hi. apply rsum_ext. intros j Hj. repeat f_equal; cbn [INR]; ring.
  - rewrite (rsum_ext (o + 1) _ (fun i => F (qi (o - 1) i 1%nat) * ph o i r)); auto. intros i Hi. rewrite <- (C i 1%nat) by auto. apply rsum_ext. intros j Hj. repeat f_equal; cbn [INR]; ring.
  - rewrite <- (C' 0%nat) by auto. apply rsum_ext. intros i Hi. apply rsum_ext. intros j Hj. repeat f_equal; cbn [INR]; ring.
Qed.

Lemma rsum_invol N (s : nat -> nat) F : (forall d, (d < N)%nat -> (s d < N)%nat) -> (forall d, s (s d) = d) -> rsum N F = rsum N (fun d => F (s d)).
Proof.
  intros H1 H2. rewrite <- !lsum_seq. rewrite <- (lsum_map F s). apply lsum_perm. apply NoDup_Permutation_bis.
  - apply seq_NoDup.
  - now rewrite map_length.
  - intros d Hd. apply in_seq in Hd. apply in_map_iff. exists (s d). split; auto. apply in_seq. specialize (H1 d). lia.
Qed.

Definition qstart (dir : list bool) (e : nat) : nat := (if nth e dir true then e else (e + 1) mod 4)%nat.
Definition qstop (dir : list bool) (e : nat) : nat := (if nth e dir true then (e + 1) mod 4 else e)%nat.

Lemma mod4 e : (e < 4)%nat -> ((e + 1) mod 4 < 4)%nat. Proof. intros. apply Nat.mod_upper_bound. lia. Qed.

Section Trace.
Variables (junk : nat -> nat -> R) (o : nat) (data : Quad_Data) (dir : list bool) (m : QuadMap) (l : Quad_Local).
Hypotheses (Ho : (1 <= o)%nat) (K : QOK junk o data) (Hdir : (4 <= length dir)%nat) (HR : (Z.of_nat (fq_NumBasisFunctions data) <= UINT_MAX)%Z)
  (EL : Quad_CreateLocalSpace data 4 dir m = Ok l) (G : good_map m).

Definition rr (e : nat) (s : R) : R := if qkeep dir e then s else 1 - s.

Lemma start_stop e : (e < 4)%nat -> (if qkeep dir e then va e else vb e) = qstart dir e /\ (if qkeep dir e then vb e else va e) = qstop dir e.
Proof. clear. intros He. unfold qkeep, qstart, qstop, va, vb. destruct (nth e dir true), (rdir e); cbn [Bool.eqb]; auto. Qed.

Lemma GF_line e r c : (e < 4)%nat -> (c < 3)%nat -> 0 <= r <= 1 ->
  GF m (vec3 (epx e r) (epy e r) 0) c = (1 - r) * GF m (vec3 (rx (va e)) (ry (va e)) 0) c + r * GF m (vec3 (rx (vb e)) (ry (vb e)) 0) c.
Proof.
  clear K EL HR. intros He Hc Hr.
  destruct m as [a|g]; cbn [GF].
  - unfold affine, epx, epy. cbn [rsum vec3]. ring.
  - destruct G as (v & G1 & _). rewrite !G1; auto.
    + unfold bilinear, epx, epy. cbn [vec3]. destruct e as [|[|[|[|e]]]]; [| | | |lia]; cbn [va vb rdir Nat.ltb Nat.leb Nat.add Nat.modulo Nat.divmod fst snd Nat.sub rx ry]; ring.
    + unfold in_square. cbn [vec3]. destruct e as [|[|[|[|e]]]]; [| | | |lia]; cbn [va vb rdir Nat.ltb Nat.leb Nat.add Nat.modulo Nat.divmod fst snd Nat.sub rx ry]; lra.
    + unfold in_square. cbn [vec3]. destruct e as [|[|[|[|e]]]]; [| | | |lia]; cbn [va vb rdir Nat.ltb Nat.leb Nat.add Nat.modulo Nat.divmod fst snd Nat.sub rx ry]; lra.
    + unfold in_square. cbn [vec3]. unfold epx, epy. destruct e as [|[|[|[|e]]]]; [| | | |lia]; cbn [va vb rdir Nat.ltb Nat.leb Nat.add Nat.modulo Nat.divmod fst snd Nat.sub rx ry]; lra.
Qed.
Lemma ep_square e r : (e < 4)%nat -> 0 <= r <= 1 -> in_square (vec3 (epx e r) (epy e r) 0).
Proof.
  clear. intros He Hr. unfold in_square. cbn [vec3]. unfold epx, epy.
  destruct e as [|[|[|[|e]]]]; [| | | |lia]; cbn [va vb rdir Nat.ltb Nat.leb Nat.add Nat.modulo Nat.divmod fst snd Nat.sub rx ry]; lra.
Qed.

Lemma GF_ext x y c : in_square x -> in_square y -> (forall i, (i < 3)%nat -> x i = y i) -> (c < 3)%nat -> GF m x c = GF m y c.
Proof.
  clear K EL HR. intros Hx Hy H Hc. destruct m as [a|g]; cbn [GF].
  - unfold affine. f_equal. apply rsum_ext. intros i Hi. now rewrite H.
  - destruct G as (v & G1 & _). rewrite !G1 by auto. unfold bilinear. now rewrite !H by lia.
Qed.

(** the dof with reference index [qi i j] *)
Lemma dof_at i j d : (i < o + 1)%nat -> (j < o + 1)%nat -> qsig o dir d = qi (o - 1) i j -> (d < (o + 1) * (o + 1))%nat ->
  forall c, (c < 3)%nat -> m_at (lq_Dofs l) c d = GF m (vec3 (nd o i) (nd o j) 0) c.
Proof.
  intros Hi Hj Es Hd c Hc. destruct (qlocal_ok junk o data dir m Ho K Hdir HR) as (l' & EL' & _ & _ & _ & _ & _ & _ & M7). rewrite EL in EL'. injection EL' as <-.
  rewrite M7, quad_F_at, Es by auto. destruct K as (_ & _ & _ & _ & _ & _ & _ & _ & _ & T & _). destruct (proj2 (T i j Hi Hj)) as (X0 & X1 & X2).
  apply GF_ext; auto.
  - unfold in_square, pt. rewrite X0, X1, X2. split; [apply nd_range; auto|]. split; [apply nd_range; auto|auto].
  - unfold in_square. cbn [vec3]. split; [apply nd_range; auto|]. split; [apply nd_range; auto|auto].
  - intros k Hk. unfold pt. destruct k as [|[|[|k]]]; [| | |lia]; cbn [vec3]; auto.
Qed.

Lemma qsig_v v : (v < 4)%nat -> qsig o dir v = v.
Proof. intros Hv. apply rsigma_fix. left. unfold ea. lia. Qed.

Lemma N_ge : (4 + 4 * (o - 1) <= (o + 1) * (o + 1))%nat.
Proof. clear - Ho. destruct o; [lia|]. rewrite Nat.sub_succ, Nat.sub_0_r. nia. Qed.

Lemma qvertex v c : (v < 4)%nat -> (c < 3)%nat -> m_at (lq_Dofs l) c v = GF m (vec3 (rx v) (ry v) 0) c.
Proof.
  intros Hv Hc. pose proof N_ge. pose proof (nd_0 o) as E0. pose proof (nd_1 o Ho) as E1.
  destruct v as [|[|[|[|v]]]]; [| | | |lia]; cbn [rx ry].
  - rewrite (dof_at 0 0 _ ltac:(lia) ltac:(lia) (qsig_v _ Hv) ltac:(lia)) by auto. now rewrite E0.
  - rewrite (dof_at 1 0 _ ltac:(lia) ltac:(lia) (qsig_v _ Hv) ltac:(lia)) by auto. now rewrite E0, E1.
  - rewrite (dof_at 1 1 _ ltac:(lia) ltac:(lia) (qsig_v _ Hv) ltac:(lia)) by auto. now rewrite E1.
  - rewrite (dof_at 0 1 _ ltac:(lia) ltac:(lia) (qsig_v _ Hv) ltac:(lia)) by auto. now rewrite E0, E1.
Qed.

Lemma va_lt e : (e < 4)%nat -> (va e < 4)%nat. Proof. clear. intros He. unfold va. pose proof (mod4 e He). destruct (rdir e); lia. Qed.
Lemma vb_lt e : (e < 4)%nat -> (vb e < 4)%nat. Proof. clear. intros He. unfold vb. pose proof (mod4 e He). destruct (rdir e); lia. Qed.

(** points of edge [e] *)
Lemma qedge_point e s c : (e < 4)%nat -> (c < 3)%nat -> 0 <= s <= 1 ->
  (1 - s) * m_at (lq_Dofs l) c (qstart dir e) + s * m_at (lq_Dofs l) c (qstop dir e) = GF m (vec3 (epx e (rr e s)) (epy e (rr e s)) 0) c.
Proof.
  intros He Hc Hs. destruct (start_stop e He) as (<- & <-). pose proof (va_lt e He). pose proof (vb_lt e He). rewrite GF_line by (auto; unfold rr; destruct (qkeep dir e); lra).
  unfold rr. destruct (qkeep dir e); rewrite !qvertex by auto; ring.
Qed.

Lemma qedge_dofs e k c : (e < 4)%nat -> (k < o - 1)%nat -> (c < 3)%nat -> let s := INR (S k) / INR o in
  m_at (lq_Dofs l) c (4 + e * (o - 1) + k) = (1 - s) * m_at (lq_Dofs l) c (qstart dir e) + s * m_at (lq_Dofs l) c (qstop dir e).
Proof.
  intros He Hk Hc s. assert (0 < INR o) by (apply lt_0_INR; lia).
  assert (Hs : 0 <= s <= 1).
  { unfold s. split; [apply Rmult_le_pos; [apply pos_INR|left; now apply Rinv_0_lt_compat]|]. apply (Rmult_le_reg_r (INR o)); auto. unfold Rdiv. rewrite Rmult_assoc, Rinv_l by lra.
    rewrite Rmult_1_r, Rmult_1_l. apply le_INR. lia. }
  rewrite qedge_point by auto. set (k' := if qkeep dir e then k else (o - 2 - k)%nat).
  assert (Q : qsig o dir (4 + e * (o - 1) + k) = eqi (o - 1) e (S (S k'))).
  { rewrite eqi_SS by auto. change (4 + e * (o - 1))%nat with (ea 4 (o - 1) e). unfold qsig. rewrite rsigma_at by auto. unfold k'. destruct (qkeep dir e); [auto|]. f_equal. lia. }
  assert (B : (4 + e * (o - 1) + k < (o + 1) * (o + 1))%nat) by (pose proof N_ge; nia).
  assert (R : nd o (S (S k')) = rr e s).
  { change (S (S k')) with (2 + k')%nat. rewrite nd_SS. unfold rr, s, k'. destruct (qkeep dir e); auto. replace (S (o - 2 - k)) with (o - S k)%nat by lia. rewrite minus_INR by lia. field. lra. }
  assert (Hk' : (S (S k') < o + 1)%nat) by (unfold k'; destruct (qkeep dir e); lia).
  pose proof (nd_0 o) as E0. pose proof (nd_1 o Ho) as E1.
  unfold epx, epy. destruct e as [|[|[|[|e]]]]; [| | | |lia]; cbn [eqi] in Q; (erewrite dof_at; [|clear Q..|exact Q|exact B|exact Hc]; [|lia|lia]); rewrite R, ?E0, ?E1;
    cbn [va vb rdir Nat.ltb Nat.leb Nat.add Nat.modulo Nat.divmod fst snd Nat.sub rx ry]; (apply f_equal2; [|reflexivity]); f_equal; f_equal; ring.
Qed.

Lemma qvalues_sum e s u p : (e < 4)%nat -> 0 <= s <= 1 ->
  (forall c, (c < 3)%nat -> p c = (1 - s) * m_at (lq_Dofs l) c (qstart dir e) + s * m_at (lq_Dofs l) c (qstop dir e)) -> exists V,
  Quad_LocalValues junk data l (space_point p) = Ok V /\
  rsum (fq_NumBasisFunctions data) (fun d => u d * m_at V 0 d) =
    u (qstart dir e) * Lk o 0 s + u (qstop dir e) * Lk o o s + rsum (o - 1) (fun k => u (4 + e * (o - 1) + k)%nat * Lk o (S k) s).
Proof.
  intros He Hs Hp. destruct (qlocal_values junk o data dir m l (space_point p) Ho K Hdir HR EL) as (V & EV & _ & _ & VV). exists V. split; [exact EV|].
  destruct K as (_ & K2 & _). rewrite K2. set (N := ((o + 1) * (o + 1))%nat) in *.
  rewrite (rsum_invol N (qsig o dir)); [|intros; apply qsig_lt; auto|intros; apply rsigma_invol]. unfold N. rewrite q_sum by auto.
  assert (Hr : 0 <= rr e s <= 1) by (unfold rr; destruct (qkeep dir e); lra).
  assert (X : forall c, (c < 2)%nat -> GI m p c = vec3 (epx e (rr e s)) (epy e (rr e s)) 0 c).
  { apply GI_GF; auto; [apply ep_square; auto|]. intros c Hc. rewrite Hp by auto. apply qedge_point; auto. }
  rewrite (rsum_ext (o + 1) _ (fun i => rsum (o + 1) (fun j => (fun d => u (qsig o dir d)) (qi (o - 1) i j) * (ph o i (epx e (rr e s)) * ph o j (epy e (rr e s)))))).
  2: { intros i Hi. apply rsum_ext. intros j Hj. rewrite VV by (cbn; auto). change (pt (space_point p) 0) with p. rewrite !X by lia. reflexivity. }
  rewrite (edge_sum o e (fun d => u (qsig o dir d)) (rr e s) Ho He). replace (o + 1)%nat with (S (S (o - 1))) by lia. rewrite !rsum_S_l.
  rewrite !ph_Lk by lia. cbn [perm1]. replace (o + 1 - 1)%nat with o by lia. rewrite eqi_0, eqi_1 by auto. pose proof (va_lt e He). pose proof (vb_lt e He). rewrite !qsig_v by auto.
  rewrite <- Rplus_assoc.
  assert (Y : forall k, (k < o - 1)%nat -> u (qsig o dir (eqi (o - 1) e (S (S k)))) * ph o (S (S k)) (rr e s) =
     u (if qkeep dir e then 4 + e * (o - 1) + k else 4 + e * (o - 1) + (o - 1 - 1 - k))%nat * Lk o (S k) (rr e s)).
  { intros k Hk. rewrite eqi_SS by auto. change (4 + e * (o - 1))%nat with (ea 4 (o - 1) e). unfold qsig. rewrite rsigma_at by auto. rewrite ph_Lk by lia. cbn [perm1].
    replace (S (S k) - 1)%nat with (S k) by lia. reflexivity. }
  rewrite (rsum_ext (o - 1) _ _ Y). destruct (start_stop e He) as (<- & <-). unfold rr. destruct (qkeep dir e).
  - reflexivity.
  - rewrite <- (Lk_rev o o s), <- (Lk_rev o 0 s) by lia. rewrite Nat.sub_diag, Nat.sub_0_r. rewrite (rsum_rev (o - 1)).
    rewrite (rsum_ext (o - 1) _ (fun k => u (4 + e * (o - 1) + k)%nat * Lk o (S k) s)); [ring|].
    intros k Hk. rewrite <- (Lk_rev o (S k) s) by lia. replace (o - 1 - 1 - (o - 1 - 1 - k))%nat with k by lia. replace (S (o - 1 - 1 - k)) with (o - S k)%nat by lia. reflexivity.
Qed.
End Trace.

Lemma tri_values_ext data l p q : (forall c, (c < 3)%nat -> p c = q c) -> Tri_LocalValues data l (space_point p) = Tri_LocalValues data l (space_point q).
Proof.
  intros H. unfold Tri_LocalValues. replace (mt_FInv (lt_Map l) (space_point p)) with (mt_FInv (lt_Map l) (space_point q)); auto.
  unfold mt_FInv, space_point. cbn [m_cols m_at]. f_equal. apply functional_extensionality. intros i. apply functional_extensionality. intros j.
  cbn [rsum]. now rewrite !H by lia.
Qed.

(** C64: renumbering *)
Lemma C64_order_all : forall junk lobatto order data dir m, (1 <= order)%nat -> Quad_Create junk lobatto order = Ok data -> (4 <= length dir)%nat -> (Z.of_nat (fq_NumBasisFunctions data) <= UINT_MAX)%Z ->
  exists l, Quad_CreateLocalSpace data 4 dir m = Ok l /\
  let N := fq_NumBasisFunctions data in let n1 := fq_NumDofs1D data in
  let s := fun d => nth d (lq_DofsMeshOrder l) 0%nat in
  length (lq_DofsMeshOrder l) = N /\ lq_NumberOfBasisFunctions l = N /\
  (forall d, (d < N)%nat -> (s d < N)%nat /\ s (s d) = d) /\
  (forall d, (d < 4)%nat -> s d = d) /\
  (forall d, (4 + 4 * n1 <= d)%nat -> (d < N)%nat -> s d = d) /\
  (forall e k, (e < 4)%nat -> (k < n1)%nat -> s (4 + e * n1 + k)%nat = if Bool.eqb (nth e dir true) (e <? 2)%nat then (4 + e * n1 + k)%nat else (4 + e * n1 + (n1 - 1 - k))%nat).
Proof.
  intros junk lobatto o data dir m Ho E Hd HR. pose proof (created_QOK _ _ _ _ Ho E) as K.
  destruct (qlocal_ok junk o data dir m Ho K Hd HR) as (l & EL & M1 & M2 & M3 & M4 & _). exists l. split; [exact EL|]. destruct K as (_ & K2 & K3 & K4 & _). cbv zeta. rewrite K2, K4.
  do 2 (split; [auto|]). pose proof (N_ge o Ho) as NG.
  split. { intros d Hdn. destruct (M4 d Hdn) as (-> & L). split; [auto|]. destruct (M4 _ L) as (-> & _). apply rsigma_invol. }
  split. { intros d Hdn. destruct (M4 d ltac:(lia)) as (-> & _). apply qsig_v; auto. }
  split. { intros d H1 H2. destruct (M4 d H2) as (-> & _). apply rsigma_fix. right. unfold ea. lia. }
  intros e k He Hk. destruct (M4 (4 + e * (o - 1) + k)%nat ltac:(nia)) as (-> & _). change (4 + e * (o - 1))%nat with (ea 4 (o - 1) e). unfold qsig. rewrite rsigma_at by auto. reflexivity.
Qed.

Lemma C64_edges_all : forall junk lobatto order data dir m l, (1 <= order)%nat -> Quad_Create junk lobatto order = Ok data -> (4 <= length dir)%nat -> (Z.of_nat (fq_NumBasisFunctions data) <= UINT_MAX)%Z ->
  good_map m -> Quad_CreateLocalSpace data 4 dir m = Ok l ->
  forall e k c, (e < 4)%nat -> (k < fq_NumDofs1D data)%nat -> (c < 3)%nat ->
    let A := (if nth e dir true then e else (e + 1) mod 4)%nat in let Z := (if nth e dir true then (e + 1) mod 4 else e)%nat in
    let s := INR (S k) / INR order in
    m_at (lq_Dofs l) c (4 + e * fq_NumDofs1D data + k) = (1 - s) * m_at (lq_Dofs l) c A + s * m_at (lq_Dofs l) c Z.
Proof.
  intros junk lobatto o data dir m l Ho E Hd HR G EL e k c He Hk Hc. pose proof (created_QOK _ _ _ _ Ho E) as K. pose proof K as (_ & _ & _ & K4 & _). rewrite K4 in *.
  cbv zeta. apply (qedge_dofs junk o data dir m l Ho K Hd HR EL G); auto.
Qed.

(** C64: the vertices *)
Lemma C64_vertices_all : forall junk lobatto order data dir g v l, (1 <= order)%nat -> Quad_Create junk lobatto order = Ok data -> (4 <= length dir)%nat -> (Z.of_nat (fq_NumBasisFunctions data) <= UINT_MAX)%Z ->
  maps_square (mq_F g) (mq_FInv g) v -> Quad_CreateLocalSpace data 4 dir (Generic g) = Ok l ->
  forall i c, (i < 4)%nat -> (c < 3)%nat -> m_at (lq_Dofs l) c i = v i c.
Proof.
  intros junk lobatto o data dir g v l Ho E Hd HR G EL i c Hi Hc. pose proof (created_QOK _ _ _ _ Ho E) as K.
  assert (G' : good_map (Generic g)) by (exists v; auto). rewrite (qvertex junk o data dir (Generic g) l Ho K Hd HR EL G') by auto. destruct G as (G1 & _). cbn [GF]. rewrite G1; auto.
  - unfold bilinear. destruct i as [|[|[|[|i]]]]; [| | | |lia]; cbn [vec3 rx ry]; ring.
  - unfold in_square. destruct i as [|[|[|[|i]]]]; [| | | |lia]; cbn [vec3 rx ry]; lra.
Qed.

(** C65 *)
Lemma C65_quads_all : forall junk lobatto order data dir1 dir2 m1 m2 l1 l2 e1 e2 u1 u2, (1 <= order)%nat -> Quad_Create junk lobatto order = Ok data -> (Z.of_nat (fq_NumBasisFunctions data) <= UINT_MAX)%Z ->
  (4 <= length dir1)%nat -> (4 <= length dir2)%nat -> good_map m1 -> good_map m2 ->
  Quad_CreateLocalSpace data 4 dir1 m1 = Ok l1 -> Quad_CreateLocalSpace data 4 dir2 m2 = Ok l2 -> (e1 < 4)%nat -> (e2 < 4)%nat ->
  let A1 := (if nth e1 dir1 true then e1 else (e1 + 1) mod 4)%nat in let Z1 := (if nth e1 dir1 true then (e1 + 1) mod 4 else e1)%nat in
  let A2 := (if nth e2 dir2 true then e2 else (e2 + 1) mod 4)%nat in let Z2 := (if nth e2 dir2 true then (e2 + 1) mod 4 else e2)%nat in
  (forall c, (c < 3)%nat -> m_at (lq_Dofs l1) c A1 = m_at (lq_Dofs l2) c A2 /\ m_at (lq_Dofs l1) c Z1 = m_at (lq_Dofs l2) c Z2) ->
  u1 A1 = u2 A2 -> u1 Z1 = u2 Z2 -> (forall k, (k < fq_NumDofs1D data)%nat -> u1 (4 + e1 * fq_NumDofs1D data + k)%nat = u2 (4 + e2 * fq_NumDofs1D data + k)%nat) ->
  forall (s : R) (p : point), 0 <= s <= 1 -> (forall c, (c < 3)%nat -> p c = (1 - s) * m_at (lq_Dofs l1) c A1 + s * m_at (lq_Dofs l1) c Z1) ->
  exists V1 V2, Quad_LocalValues junk data l1 (space_point p) = Ok V1 /\ Quad_LocalValues junk data l2 (space_point p) = Ok V2 /\
    rsum (fq_NumBasisFunctions data) (fun d => u1 d * m_at V1 0 d) = rsum (fq_NumBasisFunctions data) (fun d => u2 d * m_at V2 0 d).
Proof.
  intros junk lobatto o data dir1 dir2 m1 m2 l1 l2 e1 e2 u1 u2 Ho E HR Hd1 Hd2 G1 G2 EL1 EL2 He1 He2 A1 Z1 A2 Z2 HP HA HZ HE s p Hs Hp.
  pose proof (created_QOK _ _ _ _ Ho E) as K. pose proof K as (_ & _ & _ & K4 & _). rewrite K4 in *.
  destruct (qvalues_sum junk o data dir1 m1 l1 Ho K Hd1 HR EL1 G1 e1 s u1 p He1 Hs Hp) as (V1 & EV1 & S1).
  destruct (qvalues_sum junk o data dir2 m2 l2 Ho K Hd2 HR EL2 G2 e2 s u2 p He2 Hs) as (V2 & EV2 & S2).
  { intros c Hc. rewrite Hp by auto. destruct (HP c Hc) as (-> & ->). reflexivity. }
  exists V1, V2. do 2 (split; [auto|]). rewrite S1, S2. unfold A1, Z1, A2, Z2 in *. unfold qstart, qstop. rewrite HA, HZ. f_equal. apply rsum_ext. intros k Hk. now rewrite HE.
Qed.

Lemma C65_triangle_all : forall junk lobatto order dataT dataQ dirT dirQ mT mQ lT lQ eT eQ uT uQ, (1 <= order)%nat -> Tri_Create order = Ok dataT -> Quad_Create junk lobatto order = Ok dataQ ->
  (Z.of_nat (fq_NumBasisFunctions dataQ) <= UINT_MAX)%Z ->
  (3 <= length dirT)%nat -> (4 <= length dirQ)%nat -> inverse3 (mt_B mT) (mt_BInv mT) -> good_map mQ ->
  Tri_CreateLocalSpace dataT 3 dirT mT = Ok lT -> Quad_CreateLocalSpace dataQ 4 dirQ mQ = Ok lQ -> (eT < 3)%nat -> (eQ < 4)%nat ->
  let AT := (if nth eT dirT true then eT else (eT + 1) mod 3)%nat in let ZT := (if nth eT dirT true then (eT + 1) mod 3 else eT)%nat in
  let AQ := (if nth eQ dirQ true then eQ else (eQ + 1) mod 4)%nat in let ZQ := (if nth eQ dirQ true then (eQ + 1) mod 4 else eQ)%nat in
  ft_NumDofs1D dataT = fq_NumDofs1D dataQ /\
  ((forall c, (c < 3)%nat -> m_at (lt_Dofs lT) c AT = m_at (lq_Dofs lQ) c AQ /\ m_at (lt_Dofs lT) c ZT = m_at (lq_Dofs lQ) c ZQ) ->
  uT AT = uQ AQ -> uT ZT = uQ ZQ -> (forall k, (k < ft_NumDofs1D dataT)%nat -> uT (3 + eT * ft_NumDofs1D dataT + k)%nat = uQ (4 + eQ * ft_NumDofs1D dataT + k)%nat) ->
  forall (s : R) (p : point), 0 <= s <= 1 -> (forall c, (c < 3)%nat -> p c = (1 - s) * m_at (lt_Dofs lT) c AT + s * m_at (lt_Dofs lT) c ZT) ->
  exists V1 V2, Tri_LocalValues dataT lT (space_point p) = Ok V1 /\ Quad_LocalValues junk dataQ lQ (space_point p) = Ok V2 /\
    rsum (ft_NumBasisFunctions dataT) (fun d => uT d * m_at V1 0 d) = rsum (fq_NumBasisFunctions dataQ) (fun d => uQ d * m_at V2 0 d)).
Proof.
  intros junk lobatto o dataT dataQ dirT dirQ mT mQ lT lQ eT eQ uT uQ Ho ET EQ HR HdT HdQ GT GQ ELT ELQ HeT HeQ AT ZT AQ ZQ.
  pose proof (created_QOK _ _ _ _ Ho EQ) as K. pose proof K as (_ & K2 & _ & K4 & _).
  destruct (counts' o dataT Ho ET) as (C0 & C1 & C2 & C3). split; [congruence|]. intros HP HA HZ HE s p Hs Hp.
  assert (HRT : in_range dataT). { unfold in_range. pose proof (C41_all o Ho) as (d' & E' & _ & C & _). rewrite ET in E'. injection E' as <-. rewrite K2 in HR. nia. }
  destruct (values_sum o dataT dirT mT lT Ho ET HdT HRT ELT GT eT s uT HeT) as (V1 & EV1 & S1).
  destruct (qvalues_sum junk o dataQ dirQ mQ lQ Ho K HdQ HR ELQ GQ eQ s uQ p HeQ Hs) as (V2 & EV2 & S2).
  { intros c Hc. rewrite Hp by auto. destruct (HP c Hc) as (-> & ->). reflexivity. }
  assert (EP : Tri_LocalValues dataT lT (space_point p) = Tri_LocalValues dataT lT (space_point (fun c => (1 - s) * m_at (lt_Dofs lT) c (start dirT eT) + s * m_at (lt_Dofs lT) c (stop dirT eT)))) by (apply tri_values_ext; auto).
  exists V1, V2. rewrite EP. do 2 (split; [auto|]). rewrite S1, S2. rewrite C1 in HE. unfold AT, ZT, AQ, ZQ in *. unfold start, stop, qstart, qstop. rewrite HA, HZ. f_equal. apply rsum_ext. intros k Hk. now rewrite HE.
Qed.
