(** Theorems about the Raviart-Thomas triangle. *)
From Coq Require Import List Arith Bool Lia ZArith Reals Lra.
From Verif Require Import Base RSum MatrixModel MonomialsModel VemQuadModel VemQuadSpec VemQuadProps GreenSpec VemModel VemSpec VemProps GaussModel RtModel RtSpec RtProofs6.
Import ListNotations.
Local Open Scope R_scope.

(** C55: for every matrix of coefficients the divergence returned is the divergence of the velocity returned, at every point; the number of basis functions is (k + 1) (k + 3). *)
Theorem C55_divergence : forall gt gs junk lu k ref C, rt_element gt gs junk lu k ref -> m_rows C = rt_v_NumBasisFunctions ref ->
  rt_v_NumBasisFunctions ref = ((k + 1) * (k + 3))%nat /\
  exists v d, velocity_fields ref C v /\ divergence_fields ref C d /\ forall j, is_divergence (v j) (d j).
Proof. exact C55_all. Qed.

(** C56: on a triangle of the mesh the divergence returned is that of the velocity returned, it is the reference divergence over the determinant,
    and the flux through an edge (normal given by the orientation of the edge) is the reference flux, whatever the sign of the determinant. *)
Theorem C56_piola : forall gt gs junk lu k ref p, rt_element gt gs junk lu k ref -> triangle_ok p ->
  exists l b v d v' d', RT_CreateLocalSpace ref p = Ok l /\ rl_NumVelocityBasisFunctions l = rt_v_NumBasisFunctions ref /\
    map_at (rt_basis_functions ref) (mp_EdgesDirection p) = Ok b /\ velocity_fields ref (rb_MonomialsCoefficients b) v /\ divergence_fields ref (rb_MonomialsCoefficients b) d /\
    velocity_fields_at ref l v' /\ divergence_fields_at ref l d' /\
    forall j, (j < rl_NumVelocityBasisFunctions l)%nat -> is_divergence (v' j) (d' j) /\
      (forall x y, d' j (px p x y) (py p x y) = d j x y / (2 * signed_area (mp_Vertices p))) /\
      forall e t, (e < 3)%nat -> flux p e (v' j) t = normal_part (dir_of p e) e (v j) t.
Proof. exact C56_all. Qed.

(** C79: the element exists for every order and its basis is dual to the degrees of freedom. *)
Theorem C79_dual_basis : forall gt gs junk lu k, rt_rules gt gs k -> exact_for nonsingular lu ->
  exists ref, RT_Create gt gs junk lu k = Ok ref /\
    rt_v_NumBasisFunctions ref = ((k + 1) * (k + 3))%nat /\ rt_v_NumDofs0D ref = 0%nat /\ rt_v_NumDofs1D ref = (k + 1)%nat /\ rt_v_NumDofs2D ref = (k * (k + 1))%nat /\
    (2 * rt_p_NumBasisFunctions ref = (k + 1) * (k + 2))%nat /\
    forall dirs, length dirs = 3%nat -> exists b v, map_at (rt_basis_functions ref) dirs = Ok b /\
      m_cols (rb_MonomialsCoefficients b) = rt_v_NumBasisFunctions ref /\ velocity_fields ref (rb_MonomialsCoefficients b) v /\
      forall r j, (r < rt_v_NumBasisFunctions ref)%nat -> (j < rt_v_NumBasisFunctions ref)%nat ->
        rt_dof (gs (2 * k + 1)%nat) (gt (2 * (k + 1))%nat) k ref dirs r (v j) = delta r j.
Proof. exact C79_all. Qed.

(** C80: the basis functions are fields of the Raviart-Thomas space, and every field of the space is the combination of the basis with its degrees of freedom. *)
Theorem C80_reproduces : forall gt gs junk lu k ref dirs b v, rt_element gt gs junk lu k ref -> length dirs = 3%nat ->
  map_at (rt_basis_functions ref) dirs = Ok b -> velocity_fields ref (rb_MonomialsCoefficients b) v ->
  (forall j, (j < rt_v_NumBasisFunctions ref)%nat -> rt_field k (v j)) /\
  forall w, rt_field k w -> forall x y, let u := fun j => rt_dof (gs (2 * k + 1)%nat) (gt (2 * (k + 1))%nat) k ref dirs j w in
    fst w x y = fst (lincomb (rt_v_NumBasisFunctions ref) u v) x y /\ snd w x y = snd (lincomb (rt_v_NumBasisFunctions ref) u v) x y.
Proof. exact C80_all. Qed.

(** C81: two triangles that share an edge (same end points for the orientation of the edge) and the coefficients of that edge have the same normal component there. *)
Theorem C81_normal_continuity : forall gt gs junk lu k ref p p' l l' v v' u u' e e', rt_element gt gs junk lu k ref -> triangle_ok p -> triangle_ok p' ->
  RT_CreateLocalSpace ref p = Ok l -> RT_CreateLocalSpace ref p' = Ok l' -> velocity_fields_at ref l v -> velocity_fields_at ref l' v' ->
  (e < 3)%nat -> (e' < 3)%nat -> (forall d, (d < 2)%nat -> edge_from p e d = edge_from p' e' d /\ edge_to p e d = edge_to p' e' d) ->
  (forall i, (i < rt_v_NumDofs1D ref)%nat -> u (rt_v_NumDofs1D ref * e + i)%nat = u' (rt_v_NumDofs1D ref * e' + i)%nat) ->
  forall t, let X := edge_at p e t 0 in let Y := edge_at p e t 1 in
    let nx := edge_to p e 1 - edge_from p e 1 in let ny := - (edge_to p e 0 - edge_from p e 0) in
    let w := lincomb (rt_v_NumBasisFunctions ref) u v in let w' := lincomb (rt_v_NumBasisFunctions ref) u' v' in
    nx * fst w X Y + ny * snd w X Y = nx * fst w' X Y + ny * snd w' X Y.
Proof. exact C81_all. Qed.

(** C82: the local space integrates on the triangle and on its edges, and the values stored at the quadrature points are those at the points. *)
Theorem C82_local_space : forall gt gs junk lu k ref p, rt_element gt gs junk lu k ref -> triangle_ok p ->
  exists l, RT_CreateLocalSpace ref p = Ok l /\ rl_NumVelocityBasisFunctions l = rt_v_NumBasisFunctions ref /\ rl_NumPressureBasisFunctions l = rt_p_NumBasisFunctions ref /\
    rule (rl_InternalQuadrature l) /\
    (forall f, apply_rule (q_Weights (rl_InternalQuadrature l)) (fun q => f (m_at (q_Points (rl_InternalQuadrature l)) 0 q) (m_at (q_Points (rl_InternalQuadrature l)) 1 q)) =
       2 * area (mp_Vertices p) * apply_rule (q_Weights (gt (2 * (k + 1))%nat)) (fun q => let x := m_at (q_Points (gt (2 * (k + 1))%nat)) 0 q in let y := m_at (q_Points (gt (2 * (k + 1))%nat)) 1 q in f (px p x y) (py p x y))) /\
    (forall e, (e < 3)%nat -> exists Q, nth_error (rl_BoundaryQuadrature l) e = Some Q /\ rule Q /\
       forall f, apply_rule (q_Weights Q) (fun q => f (m_at (q_Points Q) 0 q) (m_at (q_Points Q) 1 q)) =
         Rabs (v_at (mp_EdgesLength p) e) * apply_rule (q_Weights (gs (2 * k + 1)%nat)) (fun q => let t := m_at (q_Points (gs (2 * k + 1)%nat)) 0 q in f (edge_at p e t 0) (edge_at p e t 1))) /\
    (forall v, velocity_fields_at ref l v -> exists V0 V1, RT_VelocityValues ref l = Ok [V0; V1] /\
       forall q j, (q < m_cols (q_Points (rl_InternalQuadrature l)))%nat -> (j < rl_NumVelocityBasisFunctions l)%nat ->
         m_at V0 q j = fst (v j) (m_at (q_Points (rl_InternalQuadrature l)) 0 q) (m_at (q_Points (rl_InternalQuadrature l)) 1 q) /\
         m_at V1 q j = snd (v j) (m_at (q_Points (rl_InternalQuadrature l)) 0 q) (m_at (q_Points (rl_InternalQuadrature l)) 1 q)) /\
    (forall d, divergence_fields_at ref l d -> exists D, RT_VelocityDivergenceValues ref l = Ok D /\
       forall q j, (q < m_cols (q_Points (rl_InternalQuadrature l)))%nat -> (j < rl_NumVelocityBasisFunctions l)%nat ->
         m_at D q j = d j (m_at (q_Points (rl_InternalQuadrature l)) 0 q) (m_at (q_Points (rl_InternalQuadrature l)) 1 q)) /\
    (forall junk', exists A, RT_PressureValues_at junk' ref l (q_Points (rl_InternalQuadrature l)) = Ok A /\
       forall q j, (q < m_cols (q_Points (rl_InternalQuadrature l)))%nat -> (j < rl_NumPressureBasisFunctions l)%nat -> m_at (RT_PressureValues ref l) q j = m_at A q j).
Proof. exact C82_all. Qed.

(** C83: the integral of the divergence is the flux out of the three edges. *)
Theorem C83_conservation : forall gt gs junk lu k ref C v d dirs j, rt_element gt gs junk lu k ref -> m_rows C = rt_v_NumBasisFunctions ref -> (j < m_cols C)%nat ->
  velocity_fields ref C v -> divergence_fields ref C d -> length dirs = 3%nat ->
  inner_dof (gt (2 * (k + 1))%nat) (fun _ _ => 1) (d j) = rsum 3 (fun e => orient (nth e dirs true) * edge_dof (gs (2 * k + 1)%nat) (nth e dirs true) e 0 (v j)).
Proof. exact C83_all. Qed.

(** ** Cases *)
Definition gauss2_rule : QuadratureData := {|
  q_Points := {| m_rows := 3; m_cols := 2; m_at := fun d j => match d, j with 0%nat, 0%nat => 1/2 - sqrt 3 / 6 | 0%nat, 1%nat => 1/2 + sqrt 3 / 6 | _, _ => 0 end |};
  q_Weights := {| v_size := 2; v_at := fun _ => 1/2 |} |}.
Example rt_rules_1 : rt_rules (fun _ => lattice_rule) (fun _ => gauss2_rule) 1.
Proof.
  constructor; try apply lattice_exact; try (split; reflexivity); try reflexivity.
  intros a Ha. unfold apply_rule. cbn [rsum v_size v_at gauss2_rule q_Weights q_Points m_at fst snd].
  assert (S3 : sqrt 3 * sqrt 3 = 3) by (apply sqrt_sqrt; lra). set (s := sqrt 3) in *.
  assert (P3 : s ^ 2 = 3) by (cbn; lra).
  destruct a as [|[|[|[|a]]]]; [| | | |lia]; cbn [INR Nat.add].
  - cbn. field.
  - cbn. field.
  - transitivity (1/4 + s ^ 2 / 36); [cbn; field|rewrite P3; field].
  - transitivity (1/8 + s ^ 2 / 24); [cbn; field|rewrite P3; field].
Qed.
Example rt_element_1 : forall junk, exists ref, rt_element (fun _ => lattice_rule) (fun _ => gauss2_rule) junk gauss_solver 1 ref.
Proof.
  intros junk. destruct (C79_dual_basis (fun _ => lattice_rule) (fun _ => gauss2_rule) junk gauss_solver 1 rt_rules_1 gauss_nonsingular) as (ref & E & _).
  exists ref. constructor; [apply rt_rules_1|apply gauss_nonsingular|exact E].
Qed.
(** the field (2 + x (x + y), -1 + y (x + y)) is in the space of order 1; its first degree of freedom is its flux through the first edge *)
Example C80_case : forall junk, exists ref b v, rt_element (fun _ => lattice_rule) (fun _ => gauss2_rule) junk gauss_solver 1 ref /\
  map_at (rt_basis_functions ref) [true; false; true] = Ok b /\ velocity_fields ref (rb_MonomialsCoefficients b) v /\ rt_v_NumBasisFunctions ref = 8%nat /\
  let w : field := (fun x y => 2 + x * (x + y), fun x y => -1 + y * (x + y)) in
  rt_dof gauss2_rule lattice_rule 1 ref [true; false; true] 0 w = 1 /\
  fst w 5 7 = rsum 8 (fun j => rt_dof gauss2_rule lattice_rule 1 ref [true; false; true] j w * fst (v j) 5 7).
Proof.
  intros junk. destruct (rt_element_1 junk) as (ref & EL). destruct (C79_dual_basis (fun _ => lattice_rule) (fun _ => gauss2_rule) junk gauss_solver 1 rt_rules_1 gauss_nonsingular) as (ref' & E & N & _ & _ & _ & _ & D).
  rewrite (re_create _ _ _ _ _ _ EL) in E. injection E as <-. destruct (D [true; false; true] eq_refl) as (b & v & Eb & _ & Hv & _). exists ref, b, v. do 4 (split; auto). cbv zeta. split.
  - unfold rt_dof, edge_dof, apply_rule, normal_part, edge_x, edge_y. cbn. field.
  - assert (W : rt_field 1 (fun x y => 2 + x * (x + y), fun x y => -1 + y * (x + y))).
    { exists (fun _ _ => 2), (fun _ _ => 0), (fun _ _ => 0), (fun _ _ => -1), (fun _ _ => 0), (fun _ _ => 0), (fun x y => x + y), (fun _ _ => 1), (fun _ _ => 1).
      split; [|split; [|split]].
      - apply (poly2_ext 1 (fun x y => 2 * (x ^ 0 * y ^ 0)) (fun x y => 2 * (INR 0 * x ^ (0 - 1) * y ^ 0)) (fun x y => 2 * (INR 0 * x ^ 0 * y ^ (0 - 1)))); [apply poly2_scal, poly2_mono; lia|intros; cbn; ring..].
      - apply (poly2_ext 1 (fun x y => -1 * (x ^ 0 * y ^ 0)) (fun x y => -1 * (INR 0 * x ^ (0 - 1) * y ^ 0)) (fun x y => -1 * (INR 0 * x ^ 0 * y ^ (0 - 1)))); [apply poly2_scal, poly2_mono; lia|intros; cbn; ring..].
      - apply (poly2_ext 1 (fun x y => x ^ 1 * y ^ 0 + x ^ 0 * y ^ 1) (fun x y => INR 1 * x ^ (1 - 1) * y ^ 0 + INR 0 * x ^ (0 - 1) * y ^ 1) (fun x y => INR 0 * x ^ 1 * y ^ (0 - 1) + INR 1 * x ^ 0 * y ^ (1 - 1))); [apply poly2_add; apply poly2_mono; lia|intros; cbn; ring..].
      - intros x y. cbn. split; ring. }
    destruct (C80_reproduces _ _ junk gauss_solver 1 ref [true; false; true] b v EL eq_refl Eb Hv) as (_ & R). specialize (R _ W 5 7). rewrite N in R. exact (proj1 R).
Qed.
Example C55_case : forall junk, exists ref, rt_element (fun _ => lattice_rule) (fun _ => gauss2_rule) junk gauss_solver 1 ref /\
  exists v d, velocity_fields ref (midentity 8) v /\ divergence_fields ref (midentity 8) d /\ forall j, is_divergence (v j) (d j).
Proof.
  intros junk. destruct (rt_element_1 junk) as (ref & EL). exists ref. split; auto.
  destruct (C79_dual_basis (fun _ => lattice_rule) (fun _ => gauss2_rule) junk gauss_solver 1 rt_rules_1 gauss_nonsingular) as (ref' & E & N & _). rewrite (re_create _ _ _ _ _ _ EL) in E. injection E as <-.
  apply (C55_divergence _ _ junk gauss_solver 1 ref (midentity 8) EL). symmetry. exact N.
Qed.
(** two triangles with vertices (0,0), (2,0), (0,1) and (0,1), (2,0), (3,3); the shared edge goes from (2,0) to (0,1) *)
Definition tri_a : MCC_Polygon := {| mp_Vertices := {| m_rows := 3; m_cols := 3; m_at := fun d j => match d, j with 0%nat, 1%nat => 2 | 1%nat, 2%nat => 1 | _, _ => 0 end |};
  mp_EdgesDirection := [true; true; true]; mp_EdgesLength := {| v_size := 3; v_at := fun e => match e with 0%nat => 2 | 1%nat => sqrt 5 | _ => 1 end |} |}.
Definition tri_b : MCC_Polygon := {| mp_Vertices := {| m_rows := 3; m_cols := 3; m_at := fun d j => match d, j with 1%nat, 0%nat => 1 | 0%nat, 1%nat => 2 | 0%nat, 2%nat => 3 | 1%nat, 2%nat => 3 | _, _ => 0 end |};
  mp_EdgesDirection := [false; true; false]; mp_EdgesLength := {| v_size := 3; v_at := fun e => match e with 0%nat => sqrt 5 | 1%nat => sqrt 10 | _ => sqrt 13 end |} |}.
Example tri_a_ok : triangle_ok tri_a. Proof. constructor; try reflexivity. unfold signed_area, cross. cbn. lra. Qed.
Example tri_b_ok : triangle_ok tri_b. Proof. constructor; try reflexivity. unfold signed_area, cross. cbn. lra. Qed.
Example C81_case : forall junk, exists ref l l' v v', rt_element (fun _ => lattice_rule) (fun _ => gauss2_rule) junk gauss_solver 1 ref /\
  RT_CreateLocalSpace ref tri_a = Ok l /\ RT_CreateLocalSpace ref tri_b = Ok l' /\ velocity_fields_at ref l v /\ velocity_fields_at ref l' v' /\
  let u := fun j : nat => INR j in let u' := fun j : nat => match j with 0%nat => 2 | 1%nat => 3 | _ => -7 end in
  let w := lincomb 8 u v in let w' := lincomb 8 u' v' in
  1 * fst w 1 (1/2) + 2 * snd w 1 (1/2) = 1 * fst w' 1 (1/2) + 2 * snd w' 1 (1/2).
Proof.
  intros junk. destruct (rt_element_1 junk) as (ref & EL).
  destruct (C79_dual_basis (fun _ => lattice_rule) (fun _ => gauss2_rule) junk gauss_solver 1 rt_rules_1 gauss_nonsingular) as (ref' & E & N & _ & N1 & _). rewrite (re_create _ _ _ _ _ _ EL) in E. injection E as <-.
  destruct (C56_piola _ _ _ _ _ _ tri_a EL tri_a_ok) as (l & _ & _ & _ & v & _ & El & _ & _ & _ & _ & Hv & _). destruct (C56_piola _ _ _ _ _ _ tri_b EL tri_b_ok) as (l' & _ & _ & _ & v' & _ & El' & _ & _ & _ & _ & Hv' & _).
  exists ref, l, l', v, v'. do 5 (split; auto). cbv zeta.
  assert (A := C81_normal_continuity _ _ _ _ _ ref tri_a tri_b l l' v v' (fun j : nat => INR j) (fun j : nat => match j with 0%nat => 2 | 1%nat => 3 | _ => -7 end) 1 0 EL tri_a_ok tri_b_ok El El' Hv Hv' ltac:(lia) ltac:(lia)).
  rewrite N in A. rewrite N1 in A.
  assert (A' : forall t : R, _) by (apply A; [intros [|[|d]] Hd; [split; reflexivity|split; reflexivity|lia]|intros [|[|i]] Hi; [cbn; ring|cbn; ring|lia]]). clear A.
  specialize (A' (1 / 2)). cbv zeta in A'. unfold edge_at, edge_from, edge_to, dir_of in A'. cbn [tri_a mp_Vertices mp_EdgesDirection nth from3 to3 next3 m_at] in A'.
  replace ((1 - 1 / 2) * 2 + 1 / 2 * 0) with 1 in A' by field. replace ((1 - 1 / 2) * 0 + 1 / 2 * 1) with (1 / 2) in A' by field.
  replace (1 - 0) with 1 in A' by ring. replace (- (0 - 2)) with 2 in A' by ring. exact A'.
Qed.
(** on tri_a the basis functions of the local space have the mapped divergence and the flux of the reference edge (determinant 2) *)
Example C56_case : forall junk, exists ref l d d', rt_element (fun _ => lattice_rule) (fun _ => gauss2_rule) junk gauss_solver 1 ref /\
  RT_CreateLocalSpace ref tri_a = Ok l /\ divergence_fields_at ref l d' /\ d' 0%nat (2 * (1/3)) (1/4) = d (1/3) (1/4) / 2.
Proof.
  intros junk. destruct (rt_element_1 junk) as (ref & EL).
  destruct (C79_dual_basis (fun _ => lattice_rule) (fun _ => gauss2_rule) junk gauss_solver 1 rt_rules_1 gauss_nonsingular) as (ref' & E & N & _). rewrite (re_create _ _ _ _ _ _ EL) in E. injection E as <-.
  destruct (C56_piola _ _ _ _ _ _ tri_a EL tri_a_ok) as (l & b & v & d & v' & d' & El & Nl & _ & _ & _ & _ & Hd & F).
  exists ref, l, (d 0%nat), d'. do 3 (split; auto). destruct (F 0%nat ltac:(rewrite Nl, N; cbn; lia)) as (_ & F' & _). specialize (F' (1/3) (1/4)).
  replace (px tri_a (1/3) (1/4)) with (2 * (1/3)) in F' by (unfold px, in_triangle; cbn; lra). replace (py tri_a (1/3) (1/4)) with (1/4) in F' by (unfold py, in_triangle; cbn; lra).
  rewrite F'. f_equal. unfold signed_area, cross. cbn. field.
Qed.
Example C82_case : forall junk, exists ref l, rt_element (fun _ => lattice_rule) (fun _ => gauss2_rule) junk gauss_solver 1 ref /\ RT_CreateLocalSpace ref tri_a = Ok l /\
  apply_rule (q_Weights (rl_InternalQuadrature l)) (fun _ => 1) = 1.
Proof.
  intros junk. destruct (rt_element_1 junk) as (ref & EL). destruct (C82_local_space _ _ _ _ _ _ tri_a EL tri_a_ok) as (l & El & _ & _ & _ & I & _).
  exists ref, l. do 2 (split; auto). rewrite (I (fun _ _ => 1)). cbv zeta.
  replace (area (mp_Vertices tri_a)) with 1 by (unfold area, signed_area, cross; cbn; rewrite Rabs_right; lra).
  unfold apply_rule. cbn. field.
Qed.
Example C83_case : forall junk, exists ref v d, rt_element (fun _ => lattice_rule) (fun _ => gauss2_rule) junk gauss_solver 1 ref /\
  velocity_fields ref (midentity 8) v /\ divergence_fields ref (midentity 8) d /\
  inner_dof lattice_rule (fun _ _ => 1) (d 5%nat) = rsum 3 (fun e => orient (nth e [true; false; true] true) * edge_dof gauss2_rule (nth e [true; false; true] true) e 0 (v 5%nat)).
Proof.
  intros junk. destruct (C55_case junk) as (ref & EL & v & d & Hv & Hd & _). exists ref, v, d. do 3 (split; auto).
  destruct (C79_dual_basis (fun _ => lattice_rule) (fun _ => gauss2_rule) junk gauss_solver 1 rt_rules_1 gauss_nonsingular) as (ref' & E & N & _). rewrite (re_create _ _ _ _ _ _ EL) in E. injection E as <-.
  apply (C83_conservation _ _ junk gauss_solver 1 ref (midentity 8) v d [true; false; true] 5 EL (eq_sym N) ltac:(cbn; lia) Hv Hd eq_refl).
Qed.
Print Assumptions C55_divergence.
Print Assumptions C56_piola.
Print Assumptions C79_dual_basis.
Print Assumptions C80_reproduces.
Print Assumptions C81_normal_continuity.
Print Assumptions C82_local_space.
Print Assumptions C83_conservation.
