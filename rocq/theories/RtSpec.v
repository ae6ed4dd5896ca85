(** Vocabulary of the statements about the Raviart-Thomas triangle. *)
From Coq Require Import List Arith Bool ZArith Reals.
From Verif Require Import Base RSum MatrixModel MonomialsModel MonomialsSpec VemQuadModel VemQuadSpec GreenSpec VemModel VemSpec RtModel.
Import ListNotations.
Local Open Scope R_scope.

(** the reference rules for order k: exact for degree 2k + 2 on the triangle, 2k + 1 on the segment with k + 1 points *)
Record rt_rules (gauss_triangle gauss_segment : nat -> QuadratureData) (k : nat) : Prop := {
  rr_triangle : rule (gauss_triangle (2 * (k + 1))%nat);
  rr_triangle_exact : exact_triangle (2 * (k + 1)) (gauss_triangle (2 * (k + 1))%nat);
  rr_segment : rule (gauss_segment (2 * k + 1)%nat);
  rr_segment_points : m_cols (q_Points (gauss_segment (2 * k + 1)%nat)) = (k + 1)%nat;
  rr_segment_exact : exact_segment (2 * k + 1) (0, 0) (q_Points (gauss_segment (2 * k + 1)%nat)) (q_Weights (gauss_segment (2 * k + 1)%nat)) }.

(** an element of order k *)
Record rt_element (gauss_triangle gauss_segment : nat -> QuadratureData) (junk : nat -> nat -> R) (lu : Solver) (k : nat) (ref : RT_Reference) : Prop := {
  re_rules : rt_rules gauss_triangle gauss_segment k;
  re_lu : exact_for nonsingular lu;
  re_create : RT_Create gauss_triangle gauss_segment junk lu k = Ok ref }.

(** plane vector fields *)
Definition field := ((R -> R -> R) * (R -> R -> R))%type.

(** ** The reference triangle: vertices (0,0), (1,0), (0,1), edge e from vertex e to the following one *)
Definition corner_x (v : nat) : R := match v with 1%nat => 1 | _ => 0 end.
Definition corner_y (v : nat) : R := match v with 2%nat => 1 | _ => 0 end.
Definition next3 (v : nat) : nat := match v with 0%nat => 1%nat | 1%nat => 2%nat | _ => 0%nat end.
(** outward normal of edge e times its length *)
Definition out_x (e : nat) : R := match e with 0%nat => 0 | 1%nat => 1 | _ => -1 end.
Definition out_y (e : nat) : R := match e with 0%nat => -1 | 1%nat => 1 | _ => 0 end.
(** end points of edge e for its own orientation: along the boundary if the direction is true *)
Definition from3 (dir : bool) (e : nat) : nat := if dir then e else next3 e.
Definition to3 (dir : bool) (e : nat) : nat := if dir then next3 e else e.
Definition edge_x (dir : bool) (e : nat) (t : R) : R := (1 - t) * corner_x (from3 dir e) + t * corner_x (to3 dir e).
Definition edge_y (dir : bool) (e : nat) (t : R) : R := (1 - t) * corner_y (from3 dir e) + t * corner_y (to3 dir e).
Definition orient (dir : bool) : R := if dir then 1 else -1.

(** component along the normal of edge e (times the length of the edge); the normal goes outside if the direction is true *)
Definition normal_part (dir : bool) (e : nat) (v : field) (t : R) : R :=
  orient dir * (out_x e * fst v (edge_x dir e t) (edge_y dir e t) + out_y e * snd v (edge_x dir e t) (edge_y dir e t)).

(** ** Degrees of freedom: for each edge the moments of the normal component against (t - 1/2)^i, i <= k,
    then the moments of the two components against the scaled monomials of degree less than k *)
Definition edge_dof (segment : QuadratureData) (dir : bool) (e i : nat) (v : field) : R :=
  apply_rule (q_Weights segment) (fun q => let t := m_at (q_Points segment) 0 q in (t - 1 / 2) ^ i * normal_part dir e v t).
Definition inner_dof (triangle : QuadratureData) (w : R -> R -> R) (f : R -> R -> R) : R :=
  apply_rule (q_Weights triangle) (fun q => let x := m_at (q_Points triangle) 0 q in let y := m_at (q_Points triangle) 1 q in w x y * f x y).
Definition rt_monomial (ref : RT_Reference) (i : nat) (x y : R) : R :=
  mono (expo (Exponents (rt_monomials_2D ref)) i) (fun d => match d with 0%nat => x - 1 / 3 | 1%nat => y - 1 / 3 | _ => 0 end).
(** number of monomials of degree less than k *)
Definition below (k : nat) : nat := (k * (k + 1) / 2)%nat.
Definition rt_dof (segment triangle : QuadratureData) (k : nat) (ref : RT_Reference) (dirs : list bool) (r : nat) (v : field) : R :=
  let n := (k + 1)%nat in
  if (r <? 3 * n)%nat then edge_dof segment (nth (r / n) dirs true) (r / n) (r mod n) v
  else if (r <? 3 * n + below k)%nat then inner_dof triangle (rt_monomial ref (r - 3 * n)) (fst v)
  else inner_dof triangle (rt_monomial ref (r - 3 * n - below k)) (snd v).

(** [v j] is the j-th basis function given by the coefficients C: what EvaluateVelocityBasisFunctions returns at every point *)
Definition velocity_fields (ref : RT_Reference) (C : Mat) (v : nat -> field) : Prop :=
  forall junk points, m_rows points = 3%nat -> exists V0 V1, EvaluateVelocityBasisFunctions junk points C ref = Ok [V0; V1] /\
    m_rows V0 = m_cols points /\ m_cols V0 = m_cols C /\ m_rows V1 = m_cols points /\ m_cols V1 = m_cols C /\
    forall q j, (q < m_cols points)%nat -> (j < m_cols C)%nat ->
      m_at V0 q j = fst (v j) (m_at points 0 q) (m_at points 1 q) /\ m_at V1 q j = snd (v j) (m_at points 0 q) (m_at points 1 q).
Definition divergence_fields (ref : RT_Reference) (C : Mat) (d : nat -> R -> R -> R) : Prop :=
  forall junk points, m_rows points = 3%nat -> exists D, EvaluateVelocityBasisFunctionsDivergence junk points C ref = Ok D /\
    m_rows D = m_cols points /\ m_cols D = m_cols C /\
    forall q j, (q < m_cols points)%nat -> (j < m_cols C)%nat -> m_at D q j = d j (m_at points 0 q) (m_at points 1 q).
(** d is the divergence of v at every point *)
Definition is_divergence (v : field) (d : R -> R -> R) : Prop :=
  forall x y, exists a b, derivable_pt_lim (fun t => fst v t y) x a /\ derivable_pt_lim (fun t => snd v x t) y b /\ d x y = a + b.

(** fields of the Raviart-Thomas space of order k: (p1, p2) + q (x, y), all polynomials of degree at most k *)
Definition rt_field (k : nat) (v : field) : Prop :=
  exists p1 p1x p1y p2 p2x p2y q qx qy, poly2 k p1 p1x p1y /\ poly2 k p2 p2x p2y /\ poly2 k q qx qy /\
    forall x y, fst v x y = p1 x y + x * q x y /\ snd v x y = p2 x y + y * q x y.

(** linear combination of fields *)
Definition lincomb (n : nat) (u : nat -> R) (v : nat -> field) : field :=
  (fun x y => rsum n (fun j => u j * fst (v j) x y), fun x y => rsum n (fun j => u j * snd (v j) x y)).

(** ** Triangles of the mesh *)
Record triangle_ok (p : MCC_Polygon) : Prop := {
  to_rows : m_rows (mp_Vertices p) = 3%nat; to_cols : m_cols (mp_Vertices p) = 3%nat;
  to_dirs : length (mp_EdgesDirection p) = 3%nat; to_lengths : v_size (mp_EdgesLength p) = 3%nat;
  to_area : signed_area (mp_Vertices p) <> 0 }.
Definition px (p : MCC_Polygon) (x y : R) : R := in_triangle (mp_Vertices p) x y 0.
Definition py (p : MCC_Polygon) (x y : R) : R := in_triangle (mp_Vertices p) x y 1.
(** the values the local space returns at points of the triangle *)
Definition velocity_fields_at (ref : RT_Reference) (l : RT_Local) (v : nat -> field) : Prop :=
  forall junk points, m_rows points = 3%nat -> exists V0 V1, RT_VelocityValues_at junk ref l points = Ok [V0; V1] /\
    m_rows V0 = m_cols points /\ m_cols V0 = rl_NumVelocityBasisFunctions l /\ m_rows V1 = m_cols points /\ m_cols V1 = rl_NumVelocityBasisFunctions l /\
    forall q j, (q < m_cols points)%nat -> (j < rl_NumVelocityBasisFunctions l)%nat ->
      m_at V0 q j = fst (v j) (m_at points 0 q) (m_at points 1 q) /\ m_at V1 q j = snd (v j) (m_at points 0 q) (m_at points 1 q).
Definition divergence_fields_at (ref : RT_Reference) (l : RT_Local) (d : nat -> R -> R -> R) : Prop :=
  forall junk points, m_rows points = 3%nat -> exists D, RT_VelocityDivergenceValues_at junk ref l points = Ok D /\
    m_rows D = m_cols points /\ m_cols D = rl_NumVelocityBasisFunctions l /\
    forall q j, (q < m_cols points)%nat -> (j < rl_NumVelocityBasisFunctions l)%nat -> m_at D q j = d j (m_at points 0 q) (m_at points 1 q).

(** end points of edge e of the triangle for its own orientation, points between them *)
Definition dir_of (p : MCC_Polygon) (e : nat) : bool := nth e (mp_EdgesDirection p) true.
Definition edge_from (p : MCC_Polygon) (e d : nat) : R := m_at (mp_Vertices p) d (from3 (dir_of p e) e).
Definition edge_to (p : MCC_Polygon) (e d : nat) : R := m_at (mp_Vertices p) d (to3 (dir_of p e) e).
Definition edge_at (p : MCC_Polygon) (e : nat) (t : R) (d : nat) : R := (1 - t) * edge_from p e d + t * edge_to p e d.
(** component of v along the edge turned clockwise by a right angle, times the length of the edge *)
Definition flux (p : MCC_Polygon) (e : nat) (v : field) (t : R) : R :=
  (edge_to p e 1 - edge_from p e 1) * fst v (edge_at p e t 0) (edge_at p e t 1) - (edge_to p e 0 - edge_from p e 0) * snd v (edge_at p e t 0) (edge_at p e t 1).
