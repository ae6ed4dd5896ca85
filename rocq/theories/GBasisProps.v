(** Property theorems C34 and C35: decomposition of vector polynomials (GBasis_2D, GBasis_3D). *)
From Coq Require Import List Arith Bool Lia ZArith Reals Lra.
From Verif Require Import Base RSum MatrixModel MonomialsModel MonomialsSpec MonomialsProofs MonomialsProofs4 GBasisModel GBasisSpec GBasisProofs GBasisProofs3.
Import ListNotations.
Local Open Scope R_scope.

(** The gradient of the combination of row j plus (y, -x) times the polynomial of row j is the
    vector monomial m_j e_i: component c of the gradient is delta_ic m_j - perp_c P_j. *)
Theorem C34_decomposition_2D : forall k, exists data, GBasis_2D_Compute k = Ok data /\ Compute Monomials_2D (k + 1) = Ok (gb_monomials data) /\
  (2 * gb_Nk data = (k + 1) * (k + 2) /\ 2 * gb_Nkp1 data = (k + 2) * (k + 3) /\ 2 * gb_Nkm1 data = k * (k + 1))%nat /\
  length (gb_VectorDecomposition data) = 2%nat /\
  forall i, (i < 2)%nat -> exists Gr P, nth_error (gb_VectorDecomposition data) i = Some [Gr; P] /\
    m_rows Gr = gb_Nk data /\ m_cols Gr = gb_Nkp1 data /\ m_rows P = gb_Nk data /\ m_cols P = gb_Nkm1 data /\
    forall j c x, (j < gb_Nk data)%nat -> (c < 2)%nat ->
      is_partial (comb (Exponents (gb_monomials data)) (gb_Nkp1 data) Gr j) c x
        (delta i c * mono (expo (Exponents (gb_monomials data)) j) x
         - perp c x * comb (Exponents (gb_monomials data)) (gb_Nkm1 data) P j x).
Proof. exact C34_all. Qed.

Theorem C34_vander_2D : forall k data V (xi : nat -> point), GBasis_2D_Compute k = Ok data ->
  (3 <= m_cols V)%nat -> (gb_Nkm1 data <= m_cols V <= gb_Nkp1 data)%nat ->
  (forall q i, (q < m_rows V)%nat -> (i < m_cols V)%nat -> m_at V q i = mono (expo (Exponents (gb_monomials data)) i) (xi q)) ->
  exists A B, VanderGBigOPlus_2D data V = Ok [A; B] /\ m_rows A = m_rows V /\ m_cols A = gb_Nkm1 data /\ m_rows B = m_rows V /\ m_cols B = gb_Nkm1 data /\
   forall q l, (q < m_rows V)%nat -> (l < gb_Nkm1 data)%nat ->
     m_at A q l = perp 0 (xi q) * mono (expo (Exponents (gb_monomials data)) l) (xi q) /\
     m_at B q l = perp 1 (xi q) * mono (expo (Exponents (gb_monomials data)) l) (xi q).
Proof. exact C34_vander_all. Qed.

Theorem C35_decomposition_3D : forall k, exists data res, GBasis_3D_Compute k = Ok data /\ VectorDecomposition_3D data = Ok res /\
  Compute Monomials_3D (k + 1) = Ok (gb_monomials data) /\
  (6 * gb_Nk data = (k + 1) * (k + 2) * (k + 3) /\ 6 * gb_Nkp1 data = (k + 2) * (k + 3) * (k + 4) /\ 6 * gb_Nkm1 data = k * (k + 1) * (k + 2))%nat /\
  gb_DimFirstBasis data = length (without_x (Exponents (gb_monomials data)) (gb_Nkm1 data)) /\
  gb_SaveFirstGroup data = without_x (Exponents (gb_monomials data)) (gb_Nkm1 data) /\
  length res = 3%nat /\
  forall i, (i < 3)%nat -> exists Gr P, nth_error res i = Some [Gr; P] /\
    m_rows Gr = gb_Nk data /\ m_cols Gr = gb_Nkp1 data /\ m_rows P = gb_Nk data /\ m_cols P = (gb_DimFirstBasis data + 2 * gb_Nkm1 data)%nat /\
    forall j c x, (j < gb_Nk data)%nat -> (c < 3)%nat ->
      is_partial (comb (Exponents (gb_monomials data)) (gb_Nkp1 data) Gr j) c x
        (delta i c * mono (expo (Exponents (gb_monomials data)) j) x
         - rsum (m_cols P) (fun l => m_at P j l * plus_field (Exponents (gb_monomials data)) (gb_Nkm1 data) l c x)).
Proof. exact C35_all. Qed.

Theorem C35_vander_3D : forall k data V (xi : nat -> point), GBasis_3D_Compute k = Ok data ->
  let exps := Exponents (gb_monomials data) in
  (gb_Nkm1 data <= m_cols V <= gb_Nkp1 data)%nat -> (k = 0%nat \/ (4 <= m_cols V)%nat) ->
  (forall q i, (q < m_rows V)%nat -> (i < m_cols V)%nat -> m_at V q i = mono (expo exps i) (xi q)) ->
  exists B, VanderGBigOPlus_3D data V = Ok B /\ length B = 3%nat /\
   forall c, (c < 3)%nat -> exists A, nth_error B c = Some A /\ m_rows A = m_rows V /\ m_cols A = (gb_DimFirstBasis data + 2 * gb_Nkm1 data)%nat /\
   forall q l, (q < m_rows V)%nat -> (l < m_cols A)%nat -> m_at A q l = plus_field exps (gb_Nkm1 data) l c (xi q).
Proof. exact C35_vander_all. Qed.

Print Assumptions C34_decomposition_2D.
Print Assumptions C34_vander_2D.
Print Assumptions C35_decomposition_3D.
Print Assumptions C35_vander_3D.

(** ** Concrete cases *)
Definition gb_view (o : outcome GBasis_Data) : option (nat * nat * nat * nat * list nat * list Z) :=
  match o with
  | Ok d => Some (gb_Nk d, gb_Nkp1 d, gb_Nkm1 d, gb_DimFirstBasis d, gb_SaveFirstGroup d, gb_MapFirstGroup d)
  | _ => None
  end.

Example C34_case : gb_view (GBasis_2D_Compute 2) = Some (6, 10, 3, 0, [], [])%nat.
Proof. vm_compute. reflexivity. Qed.

(** degree 3: ten monomials of degree at most 2, of which six do not contain x *)
Example C35_case : gb_view (GBasis_3D_Compute 3) = Some (20, 35, 10, 6, [0; 2; 3; 6; 8; 9], [0; -1; 1; 2; -1; -1; 3; -1; 4; 5]%Z)%nat.
Proof. vm_compute. reflexivity. Qed.

(** the tables used by the two classes: index of x^1 y^2 and of x^1 y^1 z^1 *)
Example C34_table_case : match GBasis_2D_Compute 2 with Ok d => im_at (gb_MatrixExponents d) 1 2 = 8%Z /\ nth 8 (Exponents (gb_monomials d)) [] = [1; 2]%Z | _ => False end.
Proof. vm_compute. split; reflexivity. Qed.
Example C35_table_case : match GBasis_3D_Compute 2 with Ok d => t_at (gb_MapExponents d) 1 1 1 = 15%nat /\ nth 15 (Exponents (gb_monomials d)) [] = [1; 1; 1]%Z | _ => False end.
Proof. vm_compute. split; reflexivity. Qed.

(** The matrices Vander of Monomials_2D and Monomials_3D meet the hypotheses of the two Vander theorems:
    three points, centre (1, 2, 3), diameter 2. *)
Definition ex_gb_points : Mat := {| m_rows := 3; m_cols := 3; m_at := fun d q => INR d + 2 * INR q |}.
Example C34_vander_case : exists data V B, GBasis_2D_Compute 2 = Ok data /\
  Vander 2 (fun _ _ => 5) (gb_monomials data) ex_gb_points (fun d => INR d + 1) 2 = Ok V /\ VanderGBigOPlus_2D data V = Ok B /\ m_rows V = 3%nat /\ length B = 2%nat.
Proof.
  destruct (C34_all 2) as (data & E & Em & (N1 & N2 & N3) & _).
  destruct (C31_all 2 Monomials_2D 3 (gb_monomials data) (fun _ _ => 5) ex_gb_points (fun d => INR d + 1) 2 class2 Em eq_refl ltac:(lra)) as (V & EV & V1 & V2 & V3 & _).
  pose proof (C27_all 2 Monomials_2D 3 class2) as (d' & E' & _ & _ & _ & _ & _ & N4 & _). change (2 + 1)%nat with 3%nat in Em. rewrite Em in E'. injection E' as <-. specialize (N4 eq_refl).
  destruct (C34_vander_all 2 data V (fun q => scaled (fun d => INR d + 1) 2 (pt ex_gb_points q)) E) as (A & B & EB & _); try lia.
  { intros q i _ Hi. apply V3. lia. }
  exists data, V, [A; B]. auto.
Qed.
Example C35_vander_case : exists data V B, GBasis_3D_Compute 2 = Ok data /\
  Vander 3 (fun _ _ => 5) (gb_monomials data) ex_gb_points (fun d => INR d + 1) 2 = Ok V /\ VanderGBigOPlus_3D data V = Ok B /\ m_rows V = 3%nat /\ length B = 3%nat.
Proof.
  destruct (C35_all 2) as (data & res & E & _ & Em & (N1 & N2 & N3) & _).
  assert (class3 : class_of 3 Monomials_3D) by (right; right; auto).
  destruct (C31_all 3 Monomials_3D 3 (gb_monomials data) (fun _ _ => 5) ex_gb_points (fun d => INR d + 1) 2 class3 Em eq_refl ltac:(lra)) as (V & EV & V1 & V2 & V3 & _).
  pose proof (C27_all 3 Monomials_3D 3 class3) as (d' & E' & _ & _ & _ & _ & _ & _ & N4). change (2 + 1)%nat with 3%nat in Em. rewrite Em in E'. injection E' as <-. specialize (N4 eq_refl).
  destruct (C35_vander_all 2 data V (fun q => scaled (fun d => INR d + 1) 2 (pt ex_gb_points q)) E) as (B & EB & LB & _); try lia.
  { intros q i _ Hi. apply V3. lia. }
  exists data, V, B. auto.
Qed.
