From Coq Require Import List Arith Bool Lia ZArith Reals Lra.
From Verif Require Import Base RSum MatrixModel MonomialsModel MonomialsSpec MonomialsProofs.
Import ListNotations.
Local Open Scope Z_scope.

(** the i-th exponents *)
Fixpoint enum (M : MonomialsClass) (i : nat) : list Z :=
  match i with
  | O => repeat 0 (mc_dim M)
  | S j => match mc_next M (enum M j) with Ok e => e | _ => [] end
  end.

Definition numM (M : MonomialsClass) (k : nat) : nat := Z.to_nat (mc_num M k).

Lemma tuple_lower dim e d c : tuple dim e -> c <= nth d e 0 -> tuple dim (lower d c e).
Proof.
  intros (L & F) H. split; [unfold lower; now rewrite replace_length|].
  apply Forall_forall. intros x Hx. unfold lower in Hx. apply In_nth_error in Hx. destruct Hx as (j & Hj).
  assert (Hjl : (j < length e)%nat) by (rewrite <- (replace_length e d (nth d e 0 - c)); apply nth_error_Some; congruence).
  destruct (Nat.eq_dec d j) as [<-|N].
  - rewrite nth_error_replace_eq in Hj by auto. injection Hj as <-. lia.
  - rewrite nth_error_replace_neq in Hj by auto. rewrite Forall_forall in F. apply F. eapply nth_error_In; eauto.
Qed.

Lemma nth_replace {A} (l : list A) i v j d : nth j (replace l i v) d = if (i =? j)%nat && (i <? length l)%nat then v else nth j l d.
Proof.
  revert i j; induction l as [|a l IH]; intros i j; cbn [replace length].
  - cbn. rewrite andb_false_r. reflexivity.
  - destruct i as [|i], j as [|j]; cbn; auto. rewrite IH. reflexivity.
Qed.

Lemma nth_lower d c e j : (d < length e)%nat -> nth j (lower d c e) 0 = if (d =? j)%nat then nth d e 0 - c else nth j e 0.
Proof.
  intros H. unfold lower. rewrite nth_replace. replace (d <? length e)%nat with true by (symmetry; now apply Nat.ltb_lt).
  rewrite andb_true_r. reflexivity.
Qed.

Lemma degree_lower e d c : (d < length e)%nat -> degree (lower d c e) = degree e - c.
Proof.
  revert d. induction e as [|a e IH]; intros d H; cbn in H; [lia|]. destruct d as [|d].
  - unfold lower. cbn. lia.
  - unfold lower in *. cbn [replace nth degree fold_right]. specialize (IH d ltac:(lia)). unfold degree in IH. cbn [fold_right]. lia.
Qed.

Section Generic.
Context (M : MonomialsClass) (idx : list Z -> Z) (G : good M idx).
Let dim := mc_dim M.

Lemma enum_ok i : tuple dim (enum M i) /\ idx (enum M i) = Z.of_nat i.
Proof.
  induction i as [|i (IH1 & IH2)].
  - split; [|exact (g_zero _ _ G)]. split; [apply repeat_length|]. apply Forall_forall. intros x Hx%repeat_spec. lia.
  - destruct (g_next _ _ G _ IH1) as (e' & E & H1 & H2). cbn [enum]. rewrite E. split; auto. lia.
Qed.

Lemma enum_next i : mc_next M (enum M i) = Ok (enum M (S i)).
Proof. destruct (g_next _ _ G _ (proj1 (enum_ok i))) as (e' & E & _). cbn [enum]. now rewrite E. Qed.

Lemma enum_length i : length (enum M i) = dim.
Proof. apply enum_ok. Qed.

Lemma enum_inj i j : enum M i = enum M j -> i = j.
Proof. intros E. pose proof (proj2 (enum_ok i)). pose proof (proj2 (enum_ok j)). rewrite E in *. lia. Qed.

Lemma enum_idx e : tuple dim e -> enum M (Z.to_nat (idx e)) = e.
Proof.
  intros H. apply (g_inj _ _ G); auto; [apply enum_ok|]. rewrite (proj2 (enum_ok _)).
  pose proof (g_pos _ _ G _ H). lia.
Qed.

Lemma enum_lt k i : (i < numM M k)%nat <-> degree (enum M i) <= Z.of_nat k.
Proof.
  rewrite <- (g_num _ _ G k) by apply enum_ok. rewrite (proj2 (enum_ok i)). unfold numM.
  pose proof (g_numpos _ _ G k). lia.
Qed.

Lemma idx_lt k e : tuple dim e -> degree e <= Z.of_nat k -> (Z.to_nat (idx e) < numM M k)%nat.
Proof. intros H1 H2. apply enum_lt. now rewrite enum_idx. Qed.

Lemma numM_pos k : (0 < numM M k)%nat.
Proof. unfold numM. pose proof (g_numpos _ _ G k). lia. Qed.

(** entries of the matrices *)
Definition dval (e : list Z) (d c : nat) : R :=
  if (0 <? nth d e 0) && (c =? Z.to_nat (idx (lower d 1 e)))%nat then IZR (nth d e 0) else 0%R.
Definition lval (e : list Z) (d c : nat) : R :=
  if (1 <? nth d e 0) && (c =? Z.to_nat (idx (lower d 2 e)))%nat then IZR (nth d e 0 * (nth d e 0 - 1)) else 0%R.

Definition Dshape (n : nat) (D : list Mat) (f : nat -> nat -> nat -> R) : Prop :=
  length D = dim /\ forall d, (d < dim)%nat -> exists A, nth_error D d = Some A /\ m_rows A = n /\ m_cols A = n /\
    forall r c, m_at A r c = f d r c.
Definition Lshape (n : nat) (A : Mat) (f : nat -> nat -> R) : Prop :=
  m_rows A = n /\ m_cols A = n /\ forall r c, m_at A r c = f r c.

Lemma lower_inj e d d' c : tuple dim e -> (d < dim)%nat -> (d' < dim)%nat -> 0 < c -> d <> d' -> lower d c e <> lower d' c e.
Proof.
  intros (L & _) H1 H2 Hc N E. assert (E' : nth d (lower d c e) 0 = nth d (lower d' c e) 0) by now rewrite E.
  rewrite !nth_lower in E' by lia. rewrite Nat.eqb_refl in E'. destruct (Nat.eqb_spec d' d); [congruence|]. lia.
Qed.

Lemma fill_row_ok n i e der der2 D L fD fL j :
  tuple dim e -> (i < n)%nat -> (j < dim)%nat ->
  (forall d c, (d < dim)%nat -> c <= nth d e 0 -> 0 < c -> (Z.to_nat (idx (lower d c e)) < n)%nat) ->
  length der = dim -> length der2 = dim ->
  (forall d, (d < dim)%nat -> nth d der 0 = if 0 <? nth d e 0 then idx (lower d 1 e) else -1) ->
  (forall d, (d < dim)%nat -> nth d der2 0 = if 1 <? nth d e 0 then idx (lower d 2 e) else -1) ->
  Dshape n D (fun d r c => if (r =? i)%nat && (d <? j)%nat then dval e d c else fD d r c) ->
  Lshape n L (fun r c => if (r =? i)%nat then rsum j (fun d => lval e d c) else fL r c) ->
  (forall d c, fD d i c = 0%R) ->
  exists D' L', fill_row i e der der2 j (D, L) = Ok (D', L') /\
    Dshape n D' (fun d r c => if (r =? i)%nat && (d <? S j)%nat then dval e d c else fD d r c) /\
    Lshape n L' (fun r c => if (r =? i)%nat then rsum (S j) (fun d => lval e d c) else fL r c).
Proof.
  intros He Hi Hj Hb L1 L2 V1 V2 HD HL HfD. unfold fill_row.
  assert (E1 : nth_error der j = Some (nth j der 0)) by (apply nth_error_nth'; lia).
  assert (E2 : nth_error der2 j = Some (nth j der2 0)) by (apply nth_error_nth'; lia).
  assert (E3 : nth_error e j = Some (nth j e 0)) by (apply nth_error_nth'; destruct He as (He & _); lia).
  rewrite (proj2 (idx_Ok _ _ _) E1). cbn [bind].
  assert (SD : exists D', (if 0 <=? nth j der 0 then
           ej <- idx_ e j ;; Dj <- idx_ D j ;;
           Dj' <- mat_set Dj i (Z.to_nat (nth j der 0)) (IZR ej) ;; set_idx D j Dj' else Ok D) = Ok D' /\
    Dshape n D' (fun d r c => if (r =? i)%nat && (d <? S j)%nat then dval e d c else fD d r c)).
  { destruct HD as (HDl & HD). rewrite (V1 j Hj). destruct (0 <? nth j e 0) eqn:Ep.
    - apply Z.ltb_lt in Ep. assert (Ht : tuple dim (lower j 1 e)) by (apply tuple_lower; auto; lia).
      pose proof (g_pos _ _ G _ Ht) as Hp. rewrite (proj2 (Z.leb_le 0 _) Hp).
      rewrite (proj2 (idx_Ok _ _ _) E3). cbn [bind]. destruct (HD j Hj) as (A & EA & A1 & A2 & A3).
      rewrite (proj2 (idx_Ok _ _ _) EA). cbn [bind]. unfold mat_set. rewrite A1, A2.
      rewrite (proj2 (Nat.ltb_lt i n)) by lia. rewrite (proj2 (Nat.ltb_lt _ n)) by (apply Hb; auto; lia). cbn [andb bind].
      unfold set_idx. rewrite (proj2 (Nat.ltb_lt j _)) by lia. eexists. split; [reflexivity|].
      split; [now rewrite replace_length|]. intros d Hd. destruct (Nat.eq_dec j d) as [<-|N].
      + eexists. split; [apply nth_error_replace_eq; lia|]. cbn [m_rows m_cols m_at]. repeat split; auto.
        intros r c. rewrite A3. destruct (Nat.eqb_spec r i) as [->|Nr]; cbn [andb].
        * rewrite (proj2 (Nat.ltb_lt j (S j))) by lia. rewrite (proj2 (Nat.ltb_ge j j)) by lia. unfold dval.
          rewrite (proj2 (Z.ltb_lt 0 _) Ep). cbn [andb]. destruct (c =? Z.to_nat (idx (lower j 1 e)))%nat; auto.
        * destruct (r =? i)%nat eqn:Er; [apply Nat.eqb_eq in Er; congruence|]. reflexivity.
      + destruct (HD d Hd) as (B & EB & B1 & B2 & B3). exists B. split; [rewrite nth_error_replace_neq; auto|].
        repeat split; auto. intros r c. rewrite B3. replace (d <? S j)%nat with (d <? j)%nat; auto.
        destruct (Nat.ltb_spec d j), (Nat.ltb_spec d (S j)); auto; lia.
    - change (0 <=? -1) with false. exists D. split; auto. split; auto. intros d Hd. destruct (HD d Hd) as (B & EB & B1 & B2 & B3).
      exists B. split; auto. repeat split; auto. intros r c. rewrite B3. destruct (Nat.eq_dec d j) as [->|N].
      + rewrite (proj2 (Nat.ltb_lt j (S j))) by lia. rewrite (proj2 (Nat.ltb_ge j j)) by lia. rewrite andb_false_r, andb_true_r.
        destruct (Nat.eqb_spec r i) as [->|]; auto. unfold dval. rewrite Ep. cbn [andb]. apply HfD.
      + replace (d <? S j)%nat with (d <? j)%nat; auto.
        destruct (Nat.ltb_spec d j), (Nat.ltb_spec d (S j)); auto; lia. }
  destruct SD as (D' & ED & HD'). rewrite ED. cbn [bind].
  rewrite (proj2 (idx_Ok _ _ _) E2). cbn [bind].
  assert (SL : exists L', (if 0 <=? nth j der2 0 then
           ej <- idx_ e j ;; mat_set L i (Z.to_nat (nth j der2 0)) (IZR (ej * (ej - 1))) else Ok L) = Ok L' /\
    Lshape n L' (fun r c => if (r =? i)%nat then rsum (S j) (fun d => lval e d c) else fL r c)).
  { destruct HL as (B1 & B2 & B3). rewrite (V2 j Hj). destruct (1 <? nth j e 0) eqn:Ep.
    - apply Z.ltb_lt in Ep. assert (Ht : tuple dim (lower j 2 e)) by (apply tuple_lower; auto; lia).
      pose proof (g_pos _ _ G _ Ht) as Hp. rewrite (proj2 (Z.leb_le 0 _) Hp).
      rewrite (proj2 (idx_Ok _ _ _) E3). cbn [bind]. unfold mat_set. rewrite B1, B2.
      rewrite (proj2 (Nat.ltb_lt i n)) by lia. rewrite (proj2 (Nat.ltb_lt _ n)) by (apply Hb; auto; lia). cbn [andb bind].
      eexists. split; [reflexivity|]. unfold Lshape. cbn [m_rows m_cols m_at]. repeat split; auto.
      intros r c. rewrite B3. destruct (Nat.eqb_spec r i) as [->|Nr]; cbn [andb]; auto.
      cbn [rsum]. destruct (Nat.eqb_spec c (Z.to_nat (idx (lower j 2 e)))) as [->|Nc].
      + rewrite rsum_0.
        * unfold lval. rewrite (proj2 (Z.ltb_lt 1 _) Ep), Nat.eqb_refl. cbn [andb]. lra.
        * intros d Hd. unfold lval. destruct (1 <? nth d e 0) eqn:Ed; auto. apply Z.ltb_lt in Ed. cbn [andb].
          destruct (Nat.eqb_spec (Z.to_nat (idx (lower j 2 e))) (Z.to_nat (idx (lower d 2 e)))) as [Eq|]; auto.
          exfalso. assert (Ht' : tuple dim (lower d 2 e)) by (apply tuple_lower; auto; lia).
          pose proof (g_pos _ _ G _ Ht'). apply (lower_inj e j d 2); auto; try lia. apply (g_inj _ _ G); auto. lia.
      + unfold lval at 3. rewrite (proj2 (Z.ltb_lt 1 _) Ep). cbn [andb]. destruct (Nat.eqb_spec c (Z.to_nat (idx (lower j 2 e)))); [congruence|]. lra.
    - change (0 <=? -1) with false. exists L. split; auto. unfold Lshape. repeat split; auto. intros r c. rewrite B3.
      destruct (r =? i)%nat; auto. cbn [rsum]. unfold lval at 3. rewrite Ep. cbn [andb]. lra. }
  destruct SL as (L' & EL & HL'). rewrite EL. cbn [bind]. eauto.
Qed.

(** the state after the first [i] monomials *)
Record upto (k i : nat) (data : Monomials_Data) : Prop := {
  u_deg : PolynomialDegree data = k;
  u_num : NumMonomials data = numM M k;
  u_len : length (Exponents data) = numM M k;
  u_exp : forall j, (j < i)%nat -> nth_error (Exponents data) j = Some (enum M j);
  u_D : Dshape (numM M k) (DerivativeMatrices data) (fun d r c => if (r <? i)%nat then dval (enum M r) d c else 0%R);
  u_L : Lshape (numM M k) (Laplacian data) (fun r c => if (r <? i)%nat then rsum dim (fun d => lval (enum M r) d c) else 0%R) }.

Lemma compute_step_ok k i data : (1 <= i < numM M k)%nat -> upto k i data ->
  exists data', compute_step M i data = Ok data' /\ upto k (S i) data'.
Proof.
  intros Hi [U1 U2 U3 U4 U5 U6]. unfold compute_step.
  rewrite (proj2 (idx_Ok _ _ _) (U4 (i - 1)%nat ltac:(lia))). cbn [bind]. rewrite enum_next. cbn [bind].
  replace (S (i - 1))%nat with i by lia. unfold set_idx. rewrite (proj2 (Nat.ltb_lt i _)) by lia. cbn [bind].
  destruct (enum_ok i) as (Ht & Hx).
  assert (Ee : nth_error (replace (Exponents data) i (enum M i)) i = Some (enum M i)) by (apply nth_error_replace_eq; lia).
  unfold DerivativeIndices, SecondDerivativeIndices. cbn [Exponents].
  rewrite (proj2 (idx_Ok _ _ _) Ee). cbn [bind].
  destruct (g_der _ _ G _ Ht) as (der & Ed & Ld & Vd). destruct (g_der2 _ _ G _ Ht) as (der2 & Ed2 & Ld2 & Vd2).
  rewrite Hx in Ed, Ed2. rewrite Ed. cbn [bind]. rewrite Ed2. cbn [bind DerivativeMatrices Laplacian].
  assert (Hb : forall d c, (d < dim)%nat -> c <= nth d (enum M i) 0 -> 0 < c -> (Z.to_nat (idx (lower d c (enum M i))) < numM M k)%nat).
  { intros d c Hd Hc Hp. apply idx_lt; [now apply tuple_lower|]. rewrite degree_lower by (rewrite enum_length; auto).
    pose proof (proj1 (enum_lt k i) ltac:(lia)). lia. }
  destruct (@for_loop_total _ (fun j s =>
     Dshape (numM M k) (fst s) (fun d r c => if (r =? i)%nat && (d <? j)%nat then dval (enum M i) d c else
         if (r <? i)%nat then dval (enum M r) d c else 0%R) /\
     Lshape (numM M k) (snd s) (fun r c => if (r =? i)%nat then rsum j (fun d => lval (enum M i) d c) else
         if (r <? i)%nat then rsum dim (fun d => lval (enum M r) d c) else 0%R))
    (fill_row i (enum M i) der der2) dim (DerivativeMatrices data, Laplacian data)) as ((D & L) & EDL & HD & HL).
  - cbn [fst snd]. split.
    + destruct U5 as (V1 & V2). split; auto. intros d Hd. destruct (V2 d Hd) as (A & A1 & A2 & A3 & A4). exists A.
      repeat split; auto. intros r c. rewrite A4, andb_false_r. reflexivity.
    + destruct U6 as (V1 & V2 & V3). repeat split; auto. intros r c. rewrite V3. destruct (Nat.eqb_spec r i) as [->|]; auto.
      rewrite (proj2 (Nat.ltb_ge i i)) by lia. reflexivity.
  - intros j (D & L) Hj (HD & HL). cbn [fst snd] in *.
    destruct (fill_row_ok (numM M k) i (enum M i) der der2 D L _ _ j Ht ltac:(lia) Hj Hb Ld Ld2 Vd Vd2 HD HL) as (D' & L' & E & H1 & H2).
    + intros d c. rewrite (proj2 (Nat.ltb_ge i i)) by lia. reflexivity.
    + exists (D', L'). auto.
  - fold dim. rewrite EDL. cbn [bind]. eexists. split; [reflexivity|]. cbn [fst snd] in *. constructor; cbn [PolynomialDegree NumMonomials Exponents DerivativeMatrices Laplacian]; auto.
    + now rewrite replace_length.
    + intros j Hj. destruct (Nat.eq_dec i j) as [<-|N]; auto. rewrite nth_error_replace_neq by auto. apply U4. lia.
    + destruct HD as (V1 & V2). split; auto. intros d Hd. destruct (V2 d Hd) as (A & A1 & A2 & A3 & A4). exists A.
      repeat split; auto. intros r c. rewrite A4. rewrite (proj2 (Nat.ltb_lt d dim)) by auto. rewrite andb_true_r.
      destruct (Nat.eqb_spec r i) as [->|]; [rewrite (proj2 (Nat.ltb_lt i (S i))) by lia; auto|].
      destruct (Nat.ltb_spec r i), (Nat.ltb_spec r (S i)); auto; lia.
    + destruct HL as (V1 & V2 & V3). repeat split; auto. intros r c. rewrite V3.
      destruct (Nat.eqb_spec r i) as [->|]; [rewrite (proj2 (Nat.ltb_lt i (S i))) by lia; auto|].
      destruct (Nat.ltb_spec r i), (Nat.ltb_spec r (S i)); auto; lia.
Qed.

Lemma Compute_ok k : exists data, Compute M k = Ok data /\ upto k (numM M k) data.
Proof.
  unfold Compute. fold (numM M k). pose proof (numM_pos k) as Hp. unfold set_idx. rewrite repeat_length.
  rewrite (proj2 (Nat.ltb_lt 0 _)) by lia. cbn [bind].
  match goal with |- exists data, for_from 1 ?n ?f ?s = _ /\ _ =>
    destruct (@for_from_total _ (fun i data => upto k i data) f n 1%nat s) as (data & E & U) end.
  - constructor; cbn [PolynomialDegree NumMonomials Exponents DerivativeMatrices Laplacian]; auto.
    + now rewrite replace_length, repeat_length.
    + intros [|j] Hj; [|lia]. rewrite nth_error_replace_eq; auto. rewrite repeat_length. lia.
    + split; [apply repeat_length|]. intros d Hd. eexists. split; [apply nth_error_repeat; auto|]. cbn [m_rows m_cols m_at mzero]. repeat split; auto.
      intros r c. destruct (Nat.ltb_spec r 1); auto. assert (r = 0)%nat as -> by lia. unfold dval. cbn [enum].
      rewrite nth_repeat. reflexivity.
    + repeat split; auto. intros r c. cbn [m_at mzero]. destruct (Nat.ltb_spec r 1); auto. assert (r = 0)%nat as -> by lia.
      rewrite rsum_0; auto. intros d _. unfold lval. cbn [enum]. rewrite nth_repeat. reflexivity.
  - intros i data Hi U. apply compute_step_ok; auto. lia.
  - exists data. split; auto. replace (1 + (numM M k - 1))%nat with (numM M k) in U by lia. exact U.
Qed.

Section Data.
Context (k : nat) (data : Monomials_Data) (E : Compute M k = Ok data).

Lemma the_data : upto k (numM M k) data.
Proof. destruct (Compute_ok k) as (d' & E' & U). rewrite E in E'. now injection E' as <-. Qed.

Lemma num_data : NumMonomials data = numM M k.
Proof. apply (u_num _ _ _ the_data). Qed.

Lemma exps_enum : Exponents data = map (enum M) (seq 0 (numM M k)).
Proof.
  apply nth_error_ext_len.
  - now rewrite map_length, seq_length, (u_len _ _ _ the_data).
  - intros i Hi. rewrite (u_len _ _ _ the_data) in Hi. rewrite (u_exp _ _ _ the_data) by auto.
    rewrite nth_error_map, nth_error_seq_lt by auto. reflexivity.
Qed.
End Data.
End Generic.
