(** The properties C142 - C144. *)
From Coq Require Import List Arith Bool Reals Lia Lra.
From Verif Require Import Base RSum MatrixModel EquationModel EquationSpec GreenSpec VemQuadModel VemQuadSpec VemQuadProps VemModel VemSpec VemProps GaussModel DriverModel ElasticModel ElasticSpec ElasticProofs ElasticProofs2 ElasticProofs3 ElasticProofs4.
Import ListNotations.
Local Open Scope R_scope.

(** C142: the matrix and the right-hand side of a cell *)
Theorem C142_cell : forall sp n Q V D0 D1 S, scalar_element sp n Q V D0 D1 S -> forall P,
  exists A b k, elastic_cell sp P = Ok (A, b) /\ shaped (2 * n) (2 * n) A /\ sized (2 * n) b /\ largest Q (el_mu P) k /\
  (forall u v, bilinear (2 * n) A v u = elastic_form n Q D0 D1 S P k u v) /\
  forall v, rsum (2 * n) (fun i => v i * v_at b i) =
    rsum (v_size (q_Weights Q)) (fun q => v_at (q_Weights Q) q * rsum 2 (fun d => at_quadrature Q (fun x y z => el_source P x y z d) q * displacement n V v d q)).
Proof. exact cell_form. Qed.

(** C142, finding: with the modulus E and the ratio nu the coefficient mu of the beam and of Cook's membrane is not E / (2 (1 + nu)) but 4 (1 + nu)^2 times that *)
Theorem C142_lame_refuted : forall E nu, 0 < E -> 0 <= nu < 1 / 2 ->
  fst (lame_of E nu) <> E / (2 * (1 + nu)) /\ snd (lame_of E nu) = E * nu / ((1 + nu) * (1 - 2 * nu)) /\ fst (lame_of E nu) = 4 * (1 + nu) ^ 2 * (E / (2 * (1 + nu))).
Proof. exact lame_wrong. Qed.

(** C143: symmetry *)
Theorem C143_symmetric : forall sp n Q V D0 D1 S P A b, scalar_element sp n Q V D0 D1 S -> elastic_cell sp P = Ok (A, b) ->
  (forall i j, (i < n)%nat -> (j < n)%nat -> m_at S i j = m_at S j i) -> forall i j, (i < 2 * n)%nat -> (j < 2 * n)%nat -> m_at A i j = m_at A j i.
Proof. exact cell_symmetric. Qed.
(** C143: sign *)
Theorem C143_nonnegative : forall sp n Q V D0 D1 S P A b, scalar_element sp n Q V D0 D1 S -> elastic_cell sp P = Ok (A, b) ->
  (forall q, (q < v_size (q_Weights Q))%nat -> 0 <= v_at (q_Weights Q) q /\ 0 <= at_quadrature Q (el_mu P) q /\ 0 <= at_quadrature Q (el_lambda P) q) ->
  (forall x, 0 <= bilinear n S x x) -> forall u, 0 <= bilinear (2 * n) A u u.
Proof. exact cell_nonneg. Qed.
(** C143: no energy means no strain at any point and no stabilisation *)
Theorem C143_zero_energy : forall sp n Q V D0 D1 S P A b, scalar_element sp n Q V D0 D1 S -> elastic_cell sp P = Ok (A, b) ->
  (forall q, (q < v_size (q_Weights Q))%nat -> 0 <= v_at (q_Weights Q) q /\ 0 <= at_quadrature Q (el_mu P) q /\ 0 <= at_quadrature Q (el_lambda P) q) ->
  (forall x, 0 <= bilinear n S x x) ->
  forall u, (forall q, (q < v_size (q_Weights Q))%nat -> 0 < v_at (q_Weights Q) q /\ 0 < at_quadrature Q (el_mu P) q) -> bilinear (2 * n) A u u = 0 ->
  (forall q a c, (q < v_size (q_Weights Q))%nat -> (a < 2)%nat -> (c < 2)%nat -> strain n D0 D1 u a c q = 0) /\ forall d, (d < 2)%nat -> bilinear n S (half n d u) (half n d u) = 0.
Proof. exact cell_zero_energy. Qed.
(** C143: rigid motions *)
Theorem C143_rigid : forall sp n Q V D0 D1 S P A b, scalar_element sp n Q V D0 D1 S -> elastic_cell sp P = Ok (A, b) ->
  forall one x y, linear_functions n Q D0 D1 S one x y -> forall a c r i, (i < 2 * n)%nat -> rsum (2 * n) (fun j => m_at A i j * rigid n one x y a c r j) = 0.
Proof. exact cell_rigid. Qed.
(** C143: the virtual element of every order on every polygon *)
Theorem C143_vem : forall gt lob junk lu llt k p ref l, vem_space gt lob junk lu llt k p ref l -> forall sp, vem_scalar l sp -> forall P,
  let N := lv_NumBasisFunctions l in let Q := lv_InternalQuadrature l in
  let one := dofs_of ref l (fun _ _ => 1) in let x := dofs_of ref l (fun x _ => x) in let y := dofs_of ref l (fun _ y => y) in
  exists V D0 D1 S A b, scalar_element sp N Q V D0 D1 S /\ elastic_cell sp P = Ok (A, b) /\ linear_functions N Q D0 D1 S one x y /\
  (forall i j, (i < 2 * N)%nat -> (j < 2 * N)%nat -> m_at A i j = m_at A j i) /\
  forall a c r i, (i < 2 * N)%nat -> rsum (2 * N) (fun j => m_at A i j * rigid N one x y a c r j) = 0.
Proof. exact vem_elastic. Qed.

(** C143: with positive rules and coefficients the kernel of the cell matrix of the virtual element is exactly the rigid motions *)
Theorem C143_vem_kernel : forall gt lob junk lu llt k p ref l, vem_space gt lob junk lu llt k p ref l -> forall sp, vem_scalar l sp -> forall P,
  (forall q, (q < v_size (q_Weights (gt (2 * k)%nat)))%nat -> 0 < v_at (q_Weights (gt (2 * k)%nat)) q) ->
  (forall T, In T (pg_TriangulationVertices p) -> 0 < signed_area T) -> (forall x y z, 0 < el_mu P x y z /\ 0 <= el_lambda P x y z) ->
  let N := lv_NumBasisFunctions l in
  let one := dofs_of ref l (fun _ _ => 1) in let x := dofs_of ref l (fun x _ => x) in let y := dofs_of ref l (fun _ y => y) in
  exists A b, elastic_cell sp P = Ok (A, b) /\ (forall u, 0 <= bilinear (2 * N) A u u) /\
  forall u, bilinear (2 * N) A u u = 0 <-> exists a c r, forall j, (j < 2 * N)%nat -> u j = rigid N one x y a c r j.
Proof. exact vem_kernel_all. Qed.

(** C144: errors of a cell *)
Theorem C144_errors : forall sp n Q V D0 D1 S, scalar_element sp n Q V D0 D1 S -> forall x xd u, sized (2 * n) u ->
  exists r, elastic_errors sp x xd u = Ok r /\
  ee_error_L2 r = rsum (v_size (q_Weights Q)) (fun q => v_at (q_Weights Q) q * rsum 2 (fun a => (displacement n V (v_at u) a q - at_quadrature Q (fun s t z => x s t z a) q) ^ 2)) /\
  ee_norm_L2 r = rsum (v_size (q_Weights Q)) (fun q => v_at (q_Weights Q) q * rsum 2 (fun a => displacement n V (v_at u) a q ^ 2)) /\
  ee_error_H1 r = rsum (v_size (q_Weights Q)) (fun q => v_at (q_Weights Q) q *
    rsum 2 (fun a => rsum 2 (fun c => (gradient n D0 D1 (v_at u) a c q - at_quadrature Q (fun s t z => xd s t z (3 * a + c)%nat) q) ^ 2))) /\
  ee_norm_H1 r = rsum (v_size (q_Weights Q)) (fun q => v_at (q_Weights Q) q * rsum 2 (fun a => rsum 2 (fun c => gradient n D0 D1 (v_at u) a c q ^ 2))).
Proof. exact cell_errors. Qed.
(** C144: polynomial displacements of the order of a virtual element have no error *)
Theorem C144_vem_exact : forall gt lob junk lu llt k p ref l, vem_space gt lob junk lu llt k p ref l -> forall sp, vem_scalar l sp ->
  forall f1 f1x f1y f2 f2x f2y u, poly2 k f1 f1x f1y -> poly2 k f2 f2x f2y -> sized (2 * lv_NumBasisFunctions l) u ->
  (forall j, (j < lv_NumBasisFunctions l)%nat -> v_at u j = dofs_of ref l f1 j /\ v_at u (lv_NumBasisFunctions l + j) = dofs_of ref l f2 j) ->
  exists r, elastic_errors sp (fun x y _ d => match d with 0%nat => f1 x y | 1%nat => f2 x y | _ => 0 end)
    (fun x y _ d => match d with 0%nat => f1x x y | 1%nat => f1y x y | 3%nat => f2x x y | 4%nat => f2y x y | _ => 0 end) u = Ok r /\ ee_error_L2 r = 0 /\ ee_error_H1 r = 0.
Proof. exact vem_exact. Qed.

(** ** Examples: linear functions on the triangle (0,0), (1,0), (0,1) with the rule of its centroid *)
Definition tri_table (a b c : R) : Mat := {| m_rows := 1; m_cols := 3; m_at := fun _ j => match j with 0%nat => a | 1%nat => b | _ => c end |}.
Definition tri_rule : QuadratureData := {| q_Points := {| m_rows := 3; m_cols := 1; m_at := fun d _ => match d with 2%nat => 0 | _ => 1 / 3 end |}; q_Weights := {| v_size := 1; v_at := fun _ => 1 / 2 |} |}.
Definition tri_space : LocalSpace := {|
  ls_Size := 3; ls_InternalQuadrature := tri_rule; ls_Values := fun _ => Ok (tri_table (1 / 3) (1 / 3) (1 / 3)); ls_DerivativeValues := Ok [tri_table (-1) 1 0; tri_table (-1) 0 1];
  ls_ValuesAt := fun _ => UB; ls_DerivativeValuesAt := fun _ => UB; ls_StabilizationMatrix := Ok (mzero 3 3);
  ls_EdgeDofsCoordinates := fun _ => UB; ls_InternalDofsCoordinates := UB; ls_InternalDofs := fun _ _ => UB; ls_ValuesOnEdge := fun _ => UB |}.
Definition tri_problem : ElasticProblem := {| el_mu := fun _ _ _ => 3; el_lambda := fun _ _ _ => 5; el_source := fun x y _ d => match d with 0%nat => 1 | 1%nat => x | _ => 0 end |}.
Example tri_element : scalar_element tri_space 3 tri_rule (tri_table (1 / 3) (1 / 3) (1 / 3)) (tri_table (-1) 1 0) (tri_table (-1) 0 1) (mzero 3 3).
Proof. constructor; cbn; repeat split; lia. Qed.
Example tri_linear : linear_functions 3 tri_rule (tri_table (-1) 1 0) (tri_table (-1) 0 1) (mzero 3 3) (fun _ => 1) (fun j => match j with 1%nat => 1 | _ => 0 end) (fun j => match j with 2%nat => 1 | _ => 0 end).
Proof. split; intros; cbn; repeat split; lra. Qed.
Example tri_signs : (forall q, (q < 1)%nat -> 0 < v_at (q_Weights tri_rule) q /\ 0 < at_quadrature tri_rule (el_mu tri_problem) q /\ 0 <= at_quadrature tri_rule (el_lambda tri_problem) q) /\
  forall x, 0 <= bilinear 3 (mzero 3 3) x x.
Proof. split; [intros; cbn; repeat split; lra|]. intros x. unfold bilinear. cbn. lra. Qed.
(** the displacement (x, 0): the energy is (2 mu + lambda) / 2; (- y, x): none; force of (x, 0) *)
Example C142_case : exists A b, elastic_cell tri_space tri_problem = Ok (A, b) /\
  bilinear 6 A (fun j => match j with 1%nat => 1 | _ => 0 end) (fun j => match j with 1%nat => 1 | _ => 0 end) = 11 / 2 /\
  rsum 6 (fun i => (match i with 1%nat => 1 | _ => 0 end) * v_at b i) = 1 / 6 /\
  forall i, (i < 6)%nat -> rsum 6 (fun j => m_at A i j * (match j with 2%nat => - (1) | 4%nat => 1 | _ => 0 end)) = 0.
Proof.
  destruct (C142_cell _ _ _ _ _ _ _ tri_element tri_problem) as (A & b & k & E & _ & _ & _ & F & B). exists A, b. split; [exact E|]. split; [|split].
  - change 6%nat with (2 * 3)%nat. rewrite F. unfold elastic_form, strain, divergence, gradient, at_quadrature, bilinear. cbn. lra.
  - change 6%nat with (2 * 3)%nat. rewrite B. unfold displacement, at_quadrature. cbn. lra.
  - intros i Hi. etransitivity; [|exact (C143_rigid _ _ _ _ _ _ _ _ _ _ tri_element E _ _ _ tri_linear 0 0 1 i Hi)]. apply rsum_ext. intros j Hj. f_equal.
    destruct j as [|[|[|[|[|[|j]]]]]]; try lia; unfold rigid; cbn; lra.
Qed.
(** the coefficients of the beam: mu is 260000, E / (2 (1 + nu)) is less than 38462 *)
Example C142_lame_case : fst (lame_of 100000 (3 / 10)) = 260000 /\ 100000 / (2 * (1 + 3 / 10)) < 38462.
Proof. unfold lame_of. cbn [fst]. lra. Qed.
(** order 2 on a trapezium: 18 unknowns; the rotation is in the kernel, (x y, x) has no error *)
Definition vem_scalar_of (l : VEM_2D_Local) : LocalSpace := {|
  ls_Size := lv_NumBasisFunctions l; ls_InternalQuadrature := lv_InternalQuadrature l; ls_Values := VEM_Values_quadrature l; ls_DerivativeValues := VEM_DerivativeValues_quadrature l Pi0km1Der_t;
  ls_ValuesAt := fun _ => UB; ls_DerivativeValuesAt := fun _ => UB; ls_StabilizationMatrix := VEM_DofiDofi l PiNabla_t;
  ls_EdgeDofsCoordinates := fun _ => UB; ls_InternalDofsCoordinates := UB; ls_InternalDofs := fun _ _ => UB; ls_ValuesOnEdge := fun _ => UB |}.
Example C143_case : forall junk P, exists ref l A b, vem_space (fun _ => lattice_rule) (fun _ => simpson_rule) junk gauss_solver gauss_solver 2 trapezium ref l /\
  elastic_cell (vem_scalar_of l) P = Ok (A, b) /\ (forall i j, (i < 18)%nat -> (j < 18)%nat -> m_at A i j = m_at A j i) /\
  forall i, (i < 18)%nat -> rsum 18 (fun j => m_at A i j * rigid 9 (dofs_of ref l (fun _ _ => 1)) (dofs_of ref l (fun x _ => x)) (dofs_of ref l (fun _ y => y)) 0 0 1 j) = 0.
Proof.
  intros junk P. destruct (vem_case junk) as (ref & l & VS & N9 & _).
  destruct (C143_vem _ _ _ _ _ _ _ _ _ VS (vem_scalar_of l) (conj eq_refl (conj eq_refl (conj eq_refl eq_refl))) P) as (V & D0 & D1 & S & A & b & _ & E & _ & Sy & Ri).
  rewrite N9 in Sy, Ri. exists ref, l, A, b. split; [exact VS|]. split; [exact E|]. split; [exact Sy|]. exact (Ri 0 0 1).
Qed.
(** order 1 on the trapezium: the energy of 8 unknowns vanishes exactly at the rigid motions *)
Example C143_kernel_case : forall junk, exists ref l A b, vem_space (fun _ => midpoint_rule) (fun _ => ends_rule) junk gauss_solver gauss_solver 1 trapezium ref l /\
  elastic_cell (vem_scalar_of l) tri_problem = Ok (A, b) /\
  forall u, bilinear 8 A u u = 0 <-> exists a c r, forall j, (j < 8)%nat -> u j = rigid 4 (dofs_of ref l (fun _ _ => 1)) (dofs_of ref l (fun x _ => x)) (dofs_of ref l (fun _ y => y)) a c r j.
Proof.
  intros junk. destruct (vem_case_1 junk) as (ref & l & VS & N4 & _).
  destruct (C143_vem_kernel _ _ _ _ _ _ _ _ _ VS (vem_scalar_of l) (conj eq_refl (conj eq_refl (conj eq_refl eq_refl))) tri_problem) as (A & b & E & _ & K).
  - intros q _. cbn. lra.
  - intros T HT. cbn [trapezium pg_TriangulationVertices trap_tris] in HT. destruct HT as [<-|[<-|[]]]; unfold signed_area, cross; cbn; lra.
  - intros x y z. cbn. lra.
  - rewrite N4 in K. exists ref, l, A, b. split; [exact VS|]. split; [exact E|]. exact K.
Qed.
Example C144_case : forall junk, exists ref l u, vem_space (fun _ => lattice_rule) (fun _ => simpson_rule) junk gauss_solver gauss_solver 2 trapezium ref l /\ v_size u = 18%nat /\
  exists r, elastic_errors (vem_scalar_of l) (fun x y _ d => match d with 0%nat => x ^ 1 * y ^ 1 | 1%nat => x ^ 1 * y ^ 0 | _ => 0 end)
    (fun x y _ d => match d with 0%nat => INR 1 * x ^ 0 * y ^ 1 | 1%nat => INR 1 * x ^ 1 * y ^ 0 | 3%nat => INR 1 * x ^ 0 * y ^ 0 | 4%nat => INR 0 * x ^ 1 * y ^ 0 | _ => 0 end) u = Ok r /\
    ee_error_L2 r = 0 /\ ee_error_H1 r = 0.
Proof.
  intros junk. destruct (vem_case junk) as (ref & l & VS & N9 & _).
  exists ref, l, {| v_size := 18; v_at := fun j => if (j <? 9)%nat then dofs_of ref l (fun x y => x ^ 1 * y ^ 1) j else dofs_of ref l (fun x y => x ^ 1 * y ^ 0) (j - 9)%nat |}.
  split; [exact VS|]. split; [reflexivity|].
  apply (C144_vem_exact _ _ _ _ _ _ _ _ _ VS (vem_scalar_of l) (conj eq_refl (conj eq_refl (conj eq_refl eq_refl))) (fun x y => x ^ 1 * y ^ 1) (fun x y => INR 1 * x ^ 0 * y ^ 1) (fun x y => INR 1 * x ^ 1 * y ^ 0)
    (fun x y => x ^ 1 * y ^ 0) (fun x y => INR 1 * x ^ 0 * y ^ 0) (fun x y => INR 0 * x ^ 1 * y ^ 0)).
  - apply (poly2_mono 2 1 1). lia.
  - apply (poly2_mono 2 1 0). lia.
  - rewrite N9. reflexivity.
  - rewrite N9. intros j Hj. cbn [v_at]. rewrite (proj2 (Nat.ltb_lt j 9) Hj). replace (9 + j <? 9)%nat with false by (symmetry; apply Nat.ltb_ge; lia).
    replace (9 + j - 9)%nat with j by lia. auto.
Qed.
Print Assumptions C142_cell.
Print Assumptions C142_lame_refuted.
Print Assumptions C143_symmetric.
Print Assumptions C143_nonnegative.
Print Assumptions C143_zero_energy.
Print Assumptions C143_rigid.
Print Assumptions C143_vem.
Print Assumptions C143_vem_kernel.
Print Assumptions C144_errors.
Print Assumptions C144_vem_exact.
