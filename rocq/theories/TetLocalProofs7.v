(** The tetrahedra of a mesh: derivatives of the shape functions. *)
From Coq Require Import List Arith Bool Lia ZArith Reals Lra Permutation.
From Verif Require Import Base RSum MatrixModel MonomialsModel MonomialsSpec LagrangeModel LagrangeSpec LagrangeProofs RBinom TriangleModel TriangleSpec TriangleProofs TriangleProofs2 TriangleProofs3 TriangleProofs4 VemQuadModel VemQuadProofs TetModel TetSpec TetProofs TetProofs2 TetProofs3 TetProofs4 TetProofs5 TetLocalModel TetLocalSpec TetLocalProofs TetLocalProofs2 TetLocalProofs3 TetLocalProofs4 TetLocalProofs5.
Import ListNotations.
Local Open Scope R_scope.

Section Line.
Variable o : nat.
Hypothesis Ho : (1 <= o)%nat.

Lemma phi3_line a b c (X Y Z : R -> R) (l g : nat -> R) s : (a + b + c <= o)%nat -> ~ hit o (typ o (a, b, c)) l ->
  (forall t i, (i < 4)%nat -> lam (X t) (Y t) (Z t) i = l i + (t - s) * g i) ->
  derivable_pt_lim (fun t => phi3 o (a, b, c) (X t) (Y t) (Z t)) s (dsum o (typ o (a, b, c)) g l (phi3 o (a, b, c) (X s) (Y s) (Z s))).
Proof using Ho.
  intros H NH LL. set (t := typ o (a, b, c)) in *. set (D := num4 o t (lam (INR a / INR o) (INR b / INR o) (INR c / INR o))).
  assert (SELF : forall i, (i < 4)%nat -> (fun s' => l i + (s' - s) * g i) s = l i) by (intros; ring).
  assert (A : forall i, (i < 4)%nat -> derivable_pt_lim (fun s' => l i + (s' - s) * g i) s (g i)).
  { intros i Hi eps He. exists (mkposreal 1 Rlt_0_1). intros k Hk _. replace ((l i + (s + k - s) * g i - (l i + (s - s) * g i)) / k - g i) with 0 by (field; auto). now rewrite Rabs_R0. }
  assert (F : forall i, (i < 4)%nat -> derivable_pt_lim (fun s' => fprod o (t i) (l i + (s' - s) * g i)) s (rsum (t i) (fun p => g i * fprod o (t i) (l i) / (l i - INR p / INR o)))).
  { intros i Hi. pose proof (fprod_der o Ho (fun s' => l i + (s' - s) * g i) s (g i) (t i) (A i Hi)) as FD. cbv beta in FD. rewrite (SELF i Hi) in FD. apply FD.
    intros p Hp E. apply NH. exists i, p. auto. }
  pose proof (derivable_pt_lim_mult _ _ _ _ _ (derivable_pt_lim_mult _ _ _ _ _ (derivable_pt_lim_mult _ _ _ _ _ (derivable_pt_lim_mult _ _ _ _ _ (F 0%nat ltac:(lia)) (F 1%nat ltac:(lia))) (F 2%nat ltac:(lia))) (F 3%nat ltac:(lia))) (derivable_pt_lim_const (/ D) s)) as M.
  eapply dpl_ext; [|match type of M with derivable_pt_lim ?f _ ?l' => match goal with |- derivable_pt_lim _ _ ?r => replace r with l' end; [exact M|] end].
  - intros s'. cbv beta. rewrite (phi3_num o Ho) by auto. fold t D. rewrite num4_eq. rewrite !LL by lia. unfold mult_fct, fct_cte. unfold Rdiv. reflexivity.
  - rewrite (phi3_num o Ho) by auto. fold t D. rewrite num4_eq. rewrite !LL by lia. unfold mult_fct, fct_cte, dsum. cbn [rsum].
    replace (s - s) with 0 by ring. rewrite !Rmult_0_l, !Rplus_0_r.
    set (F0 := fprod o (t 0%nat) (l 0%nat)). set (F1 := fprod o (t 1%nat) (l 1%nat)). set (F2 := fprod o (t 2%nat) (l 2%nat)). set (F3 := fprod o (t 3%nat) (l 3%nat)).
    assert (S : forall i U W, rsum (t i) (fun p => g i * (U * W) / (l i - INR p / INR o)) = rsum (t i) (fun p => g i * U / (l i - INR p / INR o)) * W).
    { intros i U W. rewrite <- rsum_scal_r. apply rsum_ext. intros. unfold Rdiv. ring. }
    replace (F0 * F1 * F2 * F3 / D) with (F0 * (F1 * F2 * F3 / D)) by (unfold Rdiv; ring). rewrite (S 0%nat).
    replace (F0 * (F1 * F2 * F3 / D)) with (F1 * (F0 * F2 * F3 / D)) by (unfold Rdiv; ring). rewrite (S 1%nat).
    replace (F1 * (F0 * F2 * F3 / D)) with (F2 * (F0 * F1 * F3 / D)) by (unfold Rdiv; ring). rewrite (S 2%nat).
    replace (F2 * (F0 * F1 * F3 / D)) with (F3 * (F0 * F1 * F2 / D)) by (unfold Rdiv; ring). rewrite (S 3%nat). unfold Rdiv. ring.
Qed.
Lemma dsum_linear ty (c : nat -> R) l b : dsum o ty (fun i => rsum 3 (fun j => c j * gl j i)) l b = rsum 3 (fun j => c j * dsum o ty (gl j) l b).
Proof using.
  unfold dsum. rewrite (rsum_ext 3 _ (fun j => rsum 4 (fun i => rsum (ty i) (fun p => c j * (gl j i * b / (l i - INR p / INR o)))))).
  2: { intros j _. rewrite <- rsum_scal. apply rsum_ext. intros i _. rewrite <- rsum_scal. reflexivity. }
  rewrite rsum_swap. apply rsum_ext. intros i _. rewrite rsum_swap. apply rsum_ext. intros p _. cbn [rsum]. unfold Rdiv. ring.
Qed.

(** entries of the derivatives on the reference element *)
Definition ge (i : nat) (t : nat * nat * nat) (d : nat) (l : nat -> R) (b : R) : R := if (o =? 1)%nat then gl d i else dsum o (typ o t) (gl d) l b.
Lemma entries data points : tet_data o data -> (3 <= m_rows points)%nat ->
  exists D0 D1 D2, Tet_Derivatives points data = Ok [D0; D1; D2] /\
    forall d, (d < 3)%nat -> let A := nth d [D0; D1; D2] D0 in f_rows A = m_cols points /\ f_cols A = TN o /\
      forall q i p, nth_error (TL o) i = Some p -> let l := lam (m_at points 0 q) (m_at points 1 q) (m_at points 2 q) in
        ((2 <= o)%nat -> hit o (typ o p) l -> f_at A q i = None) /\
        (o = 1%nat \/ ~ hit o (typ o p) l -> f_at A q i = Some (ge i p d l (phi3 o p (m_at points 0 q) (m_at points 1 q) (m_at points 2 q)))).
Proof using Ho.
  intros TD HP. pose proof TD as (D1 & D2 & _ & _ & _ & _ & TO & _). unfold Tet_Derivatives. rewrite D1, D2. destruct (Nat.eq_dec o 1) as [E1|N1].
  - unfold tet_derivatives. rewrite E1. cbn [Nat.eqb]. eexists _, _, _. split; [reflexivity|]. intros d Hd.
    destruct d as [|[|[|d]]]; [| | |lia]; cbn [nth of_mat f_rows f_cols m_rows m_cols f_at m_at]; (split; [reflexivity|]; split; [reflexivity|]; intros q i p Hp; cbv zeta; split; [lia|intros _; unfold ge; rewrite E1; reflexivity]).
  - destruct (derivatives_ok o Ho _ _ points TO HP ltac:(lia)) as (D & ED & DL & DA). destruct D as [|A0 [|A1 [|A2 [|? ?]]]]; try discriminate. exists A0, A1, A2. split; [auto|]. intros d Hd. set (A := nth d [A0; A1; A2] A0). cbv zeta.
    destruct (DA d Hd) as (A' & EA & H1 & H2 & H3). assert (A = A') by (unfold A; now apply nth_error_nth). subst A'. split; auto. split; auto. intros q i p Hp. destruct (H3 q i p Hp) as (K1 & K2).
    split; [intros _; exact K1|]. intros [?|NH]; [lia|]. unfold ge. destruct (Nat.eqb_spec o 1); [lia|]. now apply K2.
Qed.
(** derivative along a line *)
Lemma line i t (X Y Z : R -> R) (l : nat -> R) (c : nat -> R) s : nth_error (TL o) i = Some t -> o = 1%nat \/ ~ hit o (typ o t) l ->
  (forall u k, (k < 4)%nat -> lam (X u) (Y u) (Z u) k = l k + (u - s) * rsum 3 (fun j => c j * gl j k)) ->
  derivable_pt_lim (fun u => phi3 o t (X u) (Y u) (Z u)) s (rsum 3 (fun j => c j * ge i t j l (phi3 o t (X s) (Y s) (Z s)))).
Proof using Ho.
  intros Ht H LL. unfold ge. destruct (Nat.eqb_spec o 1) as [E1|N1].
  - assert (Hi : (i < 4)%nat) by (apply nth_error_lt in Ht; rewrite (TL_length o Ho) in Ht; rewrite E1 in Ht; exact Ht).
    apply (dpl_ext (fun u => l i + (u - s) * rsum 3 (fun j => c j * gl j i))).
    { intros u. rewrite (phi3_1 o Ho i t _ _ _ E1 Ht). now rewrite LL. }
    intros eps He. exists (mkposreal 1 Rlt_0_1). intros k Hk _. match goal with |- Rabs ?e < _ => replace e with 0 by (field; auto) end. now rewrite Rabs_R0.
  - destruct H as [?|NH]; [lia|]. rewrite <- dsum_linear. destruct t as ((a, b), e). apply phi3_line; auto. now apply (TL_sum o Ho) in Ht.
Qed.
End Line.

(** products with the inverse of the map *)
Lemma physical_ok Q A0 A1 A2 r n : (forall d, (d < 3)%nat -> f_rows (nth d [A0; A1; A2] A0) = r /\ f_cols (nth d [A0; A1; A2] A0) = n) ->
  exists B0 B1 B2, tl_physical Q [A0; A1; A2] = Ok [B0; B1; B2] /\
    forall d, (d < 3)%nat -> let B := nth d [B0; B1; B2] B0 in f_rows B = r /\ f_cols B = n /\
      forall a b, (f_at A0 a b = None \/ f_at A1 a b = None \/ f_at A2 a b = None -> f_at B a b = None) /\
        forall x y z, f_at A0 a b = Some x -> f_at A1 a b = Some y -> f_at A2 a b = Some z -> f_at B a b = Some (Q 0%nat d * x + Q 1%nat d * y + Q 2%nat d * z).
Proof.
  intros H. destruct (H 0%nat ltac:(lia)) as (R0 & C0). destruct (H 1%nat ltac:(lia)) as (R1' & C1). destruct (H 2%nat ltac:(lia)) as (R2' & C2). cbn [nth] in *.
  unfold tl_physical, f_axpy. cbn [at_ idx_ nth_error bind for_loop for_from set_idx replace repeat Nat.add length Nat.ltb Nat.leb f_rows f_cols f_at].
  rewrite R0, R1', R2', C0, C1, C2, !Nat.eqb_refl.
  cbn [andb at_ idx_ nth_error bind for_loop for_from set_idx replace repeat Nat.add length Nat.ltb Nat.leb f_rows f_cols f_at]. rewrite !Nat.eqb_refl.
  cbn [andb at_ idx_ nth_error bind for_loop for_from set_idx replace repeat Nat.add length Nat.ltb Nat.leb f_rows f_cols f_at]. rewrite ?Nat.eqb_refl.
  cbn [andb at_ idx_ nth_error bind for_loop for_from set_idx replace repeat Nat.add length Nat.ltb Nat.leb f_rows f_cols f_at].
  eexists _, _, _. split; [reflexivity|]. intros d Hd. destruct d as [|[|[|d]]]; [| | |lia]; cbn [nth f_rows f_cols f_at]; (split; [reflexivity|]; split; [reflexivity|]; intros a b; split;
    [intros E; destruct (f_at A0 a b), (f_at A1 a b), (f_at A2 a b); cbn [fadd fscal]; try reflexivity; destruct E as [E|[E|E]]; discriminate
    |intros x y z -> -> ->; cbn [fadd fscal]; f_equal; ring]).
Qed.
Lemma set30 {A} (a b c x : A) : set_idx [a; b; c] 0 x = Ok [x; b; c].
Proof. reflexivity. Qed.
Lemma set31 {A} (a b c x : A) : set_idx [a; b; c] 1 x = Ok [a; x; c].
Proof. reflexivity. Qed.
Lemma set32 {A} (a b c x : A) : set_idx [a; b; c] 2 x = Ok [a; b; x].
Proof. reflexivity. Qed.
Lemma map_derivatives_ok junk Q N order A0 A1 A2 r : length order = N -> NoDup order -> (forall d p, nth_error order d = Some p -> (p < N)%nat) ->
  (forall d, (d < 3)%nat -> f_rows (nth d [A0; A1; A2] A0) = r /\ f_cols (nth d [A0; A1; A2] A0) = N) ->
  exists P0 P1 P2 B0 B1 B2, tl_physical Q [A0; A1; A2] = Ok [P0; P1; P2] /\ tl_MapDerivatives junk Q N order [A0; A1; A2] = Ok [B0; B1; B2] /\
    forall d, (d < 3)%nat -> let B := nth d [B0; B1; B2] B0 in f_rows B = r /\ f_cols B = N /\ forall k p i, nth_error order k = Some p -> f_at B i p = f_at (nth d [P0; P1; P2] P0) i k.
Proof.
  intros L ND LT H. destruct (physical_ok Q A0 A1 A2 r N H) as (P0 & P1 & P2 & EP & HP). exists P0, P1, P2. destruct (H 0%nat ltac:(lia)) as (R0 & _). cbn [nth] in R0.
  unfold tl_MapDerivatives. rewrite EP. cbn [bind at_ nth_error]. rewrite R0.
  destruct (HP 0%nat ltac:(lia)) as (_ & C0 & _). destruct (HP 1%nat ltac:(lia)) as (_ & C1 & _). destruct (HP 2%nat ltac:(lia)) as (_ & C2 & _). cbn [nth] in *.
  match goal with |- context [for_loop N ?f ?s] => destruct (flt (fun m Bs => exists B0 B1 B2, Bs = [B0; B1; B2] /\ forall d, (d < 3)%nat -> let B := nth d [B0; B1; B2] B0 in f_rows B = r /\ f_cols B = N /\
    forall k p i, (k < m)%nat -> nth_error order k = Some p -> f_at B i p = f_at (nth d [P0; P1; P2] P0) i k) f N s) as (Bs & E & B0 & B1 & B2 & -> & HB) end.
  - eexists _, _, _. split; [reflexivity|]. intros d Hd. destruct d as [|[|[|d]]]; [| | |lia]; cbn [nth f_rows f_cols]; (split; [reflexivity|]; split; [reflexivity|]; intros; lia).
  - intros m Bs Hm (B0 & B1 & B2 & -> & HB). destruct (nth_error_Some_ex order (i:=m)) as (p & Ep); [lia|]. unfold at_. rewrite Ep. cbn [bind]. pose proof (LT _ _ Ep) as Hp.
    destruct (HB 0%nat ltac:(lia)) as (b0 & c0 & h0). destruct (HB 1%nat ltac:(lia)) as (b1 & c1 & h1). destruct (HB 2%nat ltac:(lia)) as (b2 & c2 & h2). cbn [nth] in *.
    assert (T1 : (m <? N)%nat = true) by (apply Nat.ltb_lt; lia). assert (T2 : (p <? N)%nat = true) by (apply Nat.ltb_lt; lia).
    unfold fcol, fset_col. cbn [for_loop for_from nth_error bind Nat.add]. rewrite C0, T1. cbn [bind]. rewrite c0, T2. cbn [bind]. rewrite set30.
    cbn [bind nth_error]. rewrite C1, T1. cbn [bind]. rewrite c1, T2. cbn [bind]. rewrite set31. cbn [bind nth_error]. rewrite C2, T1. cbn [bind]. rewrite c2, T2. cbn [bind]. rewrite set32. cbn [bind].
    assert (U : forall k q, nth_error order k = Some q -> q = p -> k = m). { intros k q Ek ->. rewrite NoDup_nth_error in ND. apply ND; [eapply nth_error_lt; eauto|congruence]. }
    eexists. split; [reflexivity|]. eexists _, _, _. split; [reflexivity|]. intros d Hd.
    destruct d as [|[|[|d]]]; [| | |lia]; cbn [nth f_rows f_cols f_at]; (split; [auto|]; split; [auto|]; intros k q i Hk Ek; destruct (Nat.eqb_spec q p) as [E|NE]; [now rewrite (U _ _ Ek E)|assert (k <> m) by congruence]).
    + apply h0; auto; lia.
    + apply h1; auto; lia.
    + apply h2; auto; lia.
  - exists B0, B1, B2. split; auto. split; auto. intros d Hd. destruct (HB d Hd) as (X & Y & Z). split; auto. split; auto. intros k p i Ek. apply Z; auto. rewrite <- L. eapply nth_error_lt; eauto.
Qed.

Section Local.
Variable o : nat.
Hypothesis Ho : (1 <= o)%nat.
Variable data : Tet_Data.
Hypothesis TD : tet_data o data.
Variable g : Tet_Geometry.
Variable V : nat -> point.
Hypothesis G : tetrahedron g V.
Notation N := (TN o).
Notation FI := (mt_FInv (tg_Map g)).
Notation F := (affine (mt_B (tg_Map g)) (mt_b (tg_Map g))).
Notation order := (order o g).

(** barycentric coordinates with respect to the vertices *)
Lemma F_bary (x : point) c : (c < 3)%nat -> F x c = rsum 4 (fun k => lam (x 0%nat) (x 1%nat) (x 2%nat) k * V k c).
Proof using Ho G.
  intros Hc. destruct G as (GV & _). rewrite (rsum_ext 4 _ (fun k => lam (x 0%nat) (x 1%nat) (x 2%nat) k * F (ref_vertex k) c)) by (intros k Hk; now rewrite (GV k Hk c Hc)).
  unfold affine, ref_vertex, lam. cbn [rsum vec4 Nat.eqb]. ring.
Qed.
Lemma bary_unique (b : nat -> R) points q : rsum 4 b = 1 -> (forall c, (c < 3)%nat -> rsum 4 (fun k => b k * V k c) = m_at points c q) ->
  forall k, (k < 4)%nat -> b k = lam (m_at (FI points) 0 q) (m_at (FI points) 1 q) (m_at (FI points) 2 q) k.
Proof using Ho G.
  intros B1 BV. pose proof G as (_ & GI & _). pose (r := fun d => b (S d) : R).
  assert (L : forall k, (k < 4)%nat -> b k = lam (r 0%nat) (r 1%nat) (r 2%nat) k).
  { intros k Hk. unfold lam, r. cbn [rsum] in B1. destruct k as [|[|[|[|k]]]]; try lia; cbn [vec4]; auto. lra. }
  assert (E : forall c, (c < 3)%nat -> m_at points c q = F r c).
  { intros c Hc. rewrite <- BV, F_bary by auto. apply rsum_ext. intros k Hk. now rewrite L. }
  intros k Hk. rewrite L by auto. now rewrite !(FInv_F (tg_Map g) r points q GI E) by lia.
Qed.
Lemma bary_is points q : let b := lam (m_at (FI points) 0 q) (m_at (FI points) 1 q) (m_at (FI points) 2 q) in
  rsum 4 b = 1 /\ forall c, (c < 3)%nat -> rsum 4 (fun k => b k * V k c) = m_at points c q.
Proof using Ho G.
  cbv zeta. split; [unfold lam; cbn [rsum vec4]; ring|]. intros c Hc. rewrite <- (F_FInv g V G points q c Hc). symmetry. exact (F_bary (fun c => m_at (FI points) c q) c Hc).
Qed.
Lemma below_local l p d t points q : local_of o data g l -> nth_error order d = Some p -> nth_error (TL o) d = Some t ->
  (lattice_plane_below o V (col3 (tl_Dofs l) p) (col3 points q) <-> hit o (typ o t) (lam (m_at (FI points) 0 q) (m_at (FI points) 1 q) (m_at (FI points) 2 q))).
Proof using Ho TD G.
  intros L E1 E2. destruct t as ((a, b), c). rewrite <- (below_hit o Ho data d a b c (fun c => m_at (FI points) c q) TD E2).
  set (x := fun c => m_at (FI points) c q).
  assert (NB : forall k, (k < 4)%nat -> bary (col3 (te_DofPositions data) d) k = lam (m_at (FI (tl_Dofs l)) 0 p) (m_at (FI (tl_Dofs l)) 1 p) (m_at (FI (tl_Dofs l)) 2 p) k).
  { intros k Hk. rewrite (bary_lam o Ho) by auto. now rewrite !(finv_dof o data g V G l d p _ L E1) by lia. }
  split.
  - intros (bn & bx & (Bn1 & Bn2) & (Bx1 & Bx2) & k & j & Hk & E & LT). exists k, j. split; auto. rewrite (bary_lam o Ho), NB by auto.
    unfold x. rewrite <- (bary_unique bx points q Bx1 Bx2 k Hk), <- (bary_unique bn (tl_Dofs l) p Bn1 Bn2 k Hk). auto.
  - intros (k & j & Hk & E & LT). exists (lam (m_at (FI (tl_Dofs l)) 0 p) (m_at (FI (tl_Dofs l)) 1 p) (m_at (FI (tl_Dofs l)) 2 p)), (lam (m_at (FI points) 0 q) (m_at (FI points) 1 q) (m_at (FI points) 2 q)).
    split; [apply bary_is|]. split; [apply bary_is|]. exists k, j. split; auto. rewrite (bary_lam o Ho) in E by auto. rewrite NB in LT by auto. auto.
Qed.

(** the value of shape function [p] *)
Definition shape (junk : nat -> nat -> R) (l : Tet_Local) (p : nat) (x : point) : R := match Tet_LocalValues junk data l (space_point x) with Ok A => m_at A 0 p | _ => 0 end.
Lemma shape_phi3 junk l p d t x : local_of o data g l -> nth_error order d = Some p -> nth_error (TL o) d = Some t ->
  shape junk l p x = phi3 o t (m_at (FI (space_point x)) 0 0) (m_at (FI (space_point x)) 1 0) (m_at (FI (space_point x)) 2 0).
Proof using Ho TD G. intros L E1 E2. unfold shape. destruct (values_local o Ho data TD g V G junk l (space_point x) L) as (A & EA & _ & _ & A3). rewrite EA. apply (A3 0%nat d); auto. Qed.
Lemma FI_line x d u i : (d < 3)%nat -> m_at (FI (space_point (setc x d u))) i 0 = m_at (FI (space_point x)) i 0 + (u - x d) * mt_BInv (tg_Map g) i d.
Proof using Ho. intros Hd. cbn [mt_FInv m_at space_point]. unfold setc. destruct d as [|[|[|d]]]; [| | |lia]; cbn [rsum Nat.eqb]; ring. Qed.
Lemma lam_add X Y Z (w : R) c0 c1 c2 k : (k < 4)%nat -> lam (X + w * c0) (Y + w * c1) (Z + w * c2) k = lam X Y Z k + w * (c0 * gl 0 k + c1 * gl 1 k + c2 * gl 2 k).
Proof using Ho. intros Hk. unfold lam, gl. destruct k as [|[|[|[|k]]]]; try lia; cbn; ring. Qed.

Lemma local_gradients junk fjunk l points : local_of o data g l -> exists D0 D1 D2, Tet_LocalDerivatives fjunk data l points = Ok [D0; D1; D2] /\
  forall d, (d < 3)%nat -> let A := nth d [D0; D1; D2] D0 in f_rows A = m_cols points /\ f_cols A = N /\
    forall q p, (p < N)%nat ->
      ((2 <= o)%nat -> lattice_plane_below o V (col3 (tl_Dofs l) p) (col3 points q) -> f_at A q p = None) /\
      (o = 1%nat \/ ~ lattice_plane_below o V (col3 (tl_Dofs l) p) (col3 points q) -> exists v, f_at A q p = Some v /\ is_partial (shape junk l p) d (col3 points q) v).
Proof using Ho TD G.
  intros L. pose proof L as (L1 & L2 & L3 & L4 & _). pose proof TD as (_ & T2 & _).
  destruct (entries o Ho data (FI points) TD ltac:(cbn; lia)) as (A0 & A1 & A2 & EA & HA).
  assert (RC : forall d, (d < 3)%nat -> f_rows (nth d [A0; A1; A2] A0) = m_cols points /\ f_cols (nth d [A0; A1; A2] A0) = N) by (intros d Hd; destruct (HA d Hd) as (X & Y & _); auto).
  destruct (map_derivatives_ok fjunk (mt_BInv (tg_Map g)) N order A0 A1 A2 (m_cols points)) as (P0 & P1 & P2 & B0 & B1 & B2 & EP & EB & HB); auto.
  { apply order_length; auto. } { apply (order_NoDup o Ho g V G). } { intros d p E. now apply (order_lt o Ho g V G) in E. }
  destruct (physical_ok (mt_BInv (tg_Map g)) A0 A1 A2 (m_cols points) N RC) as (P0' & P1' & P2' & EP' & HP). rewrite EP in EP'. injection EP' as <- <- <-.
  exists B0, B1, B2. unfold Tet_LocalDerivatives. rewrite L1, L3, L4, EA. cbn [bind]. split; auto.
  intros d Hd. set (A := nth d [B0; B1; B2] B0). cbv zeta. destruct (HB d Hd) as (C1 & C2 & C3). split; auto. split; auto. intros q p Hp.
  destruct (order_onto o Ho g V G p Hp) as (i & Ei). destruct (order_lt o Ho g V G _ _ Ei) as (Hi & _). destruct (TL_at o Ho i Hi) as (a & b & c & Et & S). set (t := (a, b, c)) in *.
  fold A in C3. rewrite (C3 i p q Ei). destruct (HP d Hd) as (_ & _ & HE). destruct (HE q i) as (HN & HS).
  pose proof (below_local l p i t points q L Ei Et) as BL.
  destruct (HA 0%nat ltac:(lia)) as (_ & _ & H0). destruct (HA 1%nat ltac:(lia)) as (_ & _ & H1). destruct (HA 2%nat ltac:(lia)) as (_ & _ & H2). cbn [nth] in H0, H1, H2.
  destruct (H0 q i t Et) as (H0a & H0b). destruct (H1 q i t Et) as (_ & H1b). destruct (H2 q i t Et) as (_ & H2b). split.
  - intros O2 PB. apply HN. left. apply H0a; tauto.
  - intros NB. assert (NH : o = 1%nat \/ ~ hit o (typ o t) (lam (m_at (FI points) 0 q) (m_at (FI points) 1 q) (m_at (FI points) 2 q))) by tauto.
    eexists. split; [apply HS; [now apply H0b|now apply H1b|now apply H2b]|].
    set (x := col3 points q). assert (FX : forall k, m_at (FI (space_point x)) k 0 = m_at (FI points) k q) by (intros k; reflexivity).
    apply (is_partial_ext (fun x => phi3 o t (m_at (FI (space_point x)) 0 0) (m_at (FI (space_point x)) 1 0) (m_at (FI (space_point x)) 2 0))); [intros y; symmetry; now apply (shape_phi3 junk l p i t)|].
    unfold is_partial.
    pose proof (line o Ho i t (fun u => m_at (FI (space_point (setc x d u))) 0 0) (fun u => m_at (FI (space_point (setc x d u))) 1 0) (fun u => m_at (FI (space_point (setc x d u))) 2 0)
      (lam (m_at (FI points) 0 q) (m_at (FI points) 1 q) (m_at (FI points) 2 q)) (fun j => mt_BInv (tg_Map g) j d) (x d) Et NH) as LN.
    cbv beta in LN. rewrite !(FI_line x d (x d)), !FX in LN by auto. replace (x d - x d) with 0 in LN by ring. rewrite !Rmult_0_l, !Rplus_0_r in LN.
    cbn [rsum] in LN. rewrite Rplus_0_l in LN. apply LN. intros u k Hk. rewrite !FI_line, !FX by auto. rewrite lam_add by auto. ring.
Qed.
End Local.
