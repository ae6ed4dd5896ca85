(** Vocabulary of the statements about the drivers that depend on a given discrete function. *)
From Coq Require Import List Arith Bool Reals.
From Verif Require Import Base RSum MatrixModel DofsModel DofsSpec AssemblerModel AssemblerSpec EquationModel EquationSpec VemQuadModel VemModel VemSpec
  DriverModel DriverSpec DriverSpec2 Driver2Model.
Import ListNotations.
Local Open Scope R_scope.

(** the gradient of the discrete function with unknowns w at point q of the cell; the third component is zero *)
Definition gradient_at (E : CellForms) (w : nat -> R) (q d : nat) : R := if (d <? 2)%nat then combine (cf_dU E d) w q else 0.
(** a function of the point, of the discrete function and of its gradient there *)
Definition eval_u {T : Type} (f : R -> R -> R -> R -> (nat -> R) -> T) (E : CellForms) (w : nat -> R) (q : nat) : T :=
  at_q f E q (combine (cf_U E) w q) (gradient_at E w q).

(** the greatest modulus of a coefficient at the points of the cell *)
Definition greatest_value (E : CellForms) (a : nat -> R) (k : R) : Prop :=
  (forall q, (q < v_size (cf_weights E))%nat -> Rabs (a q) <= k) /\ exists q, (q < v_size (cf_weights E))%nat /\ k = Rabs (a q).
(** quadrature of a(w) grad u . grad v + (b(w) . grad u) v + c(w) u v, plus the stabilisation times k *)
Definition elliptic_form_u (E : CellForms) (w : nat -> R)
  (diffusion : option (R -> R -> R -> R -> (nat -> R) -> R)) (advection : option (R -> R -> R -> R -> (nat -> R) -> nat -> R))
  (reaction : option (R -> R -> R -> R -> (nat -> R) -> R)) (k : R) (u : nat -> R) (p : nat) : R :=
  rsum (v_size (cf_weights E)) (fun q => v_at (cf_weights E) q *
    (match diffusion with None => 0 | Some a => eval_u a E w q * rsum 2 (fun i => combine (cf_dU E i) u q * m_at (cf_dV E i) q p) end
   + match advection with None => 0 | Some b => rsum 2 (fun i => eval_u b E w q i * combine (cf_dU E i) u q) * m_at (cf_V E) q p end
   + match reaction with None => 0 | Some c => eval_u c E w q * combine (cf_U E) u q * m_at (cf_V E) q p end))
  + match diffusion with
    | Some _ => if (ls_Size (cf_test E) =? ls_Size (cf_trial E))%nat then k * combine (cf_S E) u p else 0
    | None => 0 end.
(** quadrature of k grad u . grad v, plus the stabilisation times kk *)
Definition diffusion_form (E : CellForms) (k : R -> R -> R -> R) (kk : R) (u : nat -> R) (p : nat) : R :=
  rsum (v_size (cf_weights E)) (fun q => v_at (cf_weights E) q * (at_q k E q * rsum 2 (fun i => combine (cf_dU E i) u q * m_at (cf_dV E i) q p)))
  + if (ls_Size (cf_test E) =? ls_Size (cf_trial E))%nat then kk * combine (cf_S E) u p else 0.
(** quadrature of f(w) v, of f(w) . grad v *)
Definition source_form_u (E : CellForms) (w : nat -> R) (f : R -> R -> R -> R -> (nat -> R) -> R) (p : nat) : R :=
  rsum (v_size (cf_weights E)) (fun q => v_at (cf_weights E) q * eval_u f E w q * m_at (cf_V E) q p).
Definition source_gradient_form (E : CellForms) (w : nat -> R) (f : R -> R -> R -> R -> (nat -> R) -> nat -> R) (p : nat) : R :=
  rsum (v_size (cf_weights E)) (fun q => v_at (cf_weights E) q * rsum 2 (fun d => eval_u f E w q d * m_at (cf_dV E d) q p)).

(** ** One space: values (of a projection) and derivatives at its quadrature points *)
Record CompForms := { cp_space : LocalSpace; cp_U : Mat; cp_dU : nat -> Mat }.
Definition cp_points (C : CompForms) : Mat := q_Points (ls_InternalQuadrature (cp_space C)).
Definition cp_weights (C : CompForms) : Vec := q_Weights (ls_InternalQuadrature (cp_space C)).
Record comp_forms (t : ProjectionTypes) (create : nat -> outcome LocalSpace) (c n : nat) (C : CompForms) : Prop := {
  co_create : create c = Ok (cp_space C);
  co_size : ls_Size (cp_space C) = n;
  co_points : m_cols (cp_points C) = v_size (cp_weights C) /\ m_rows (cp_points C) = 3%nat;
  co_U : ls_Values (cp_space C) t = Ok (cp_U C) /\ shaped (v_size (cp_weights C)) n (cp_U C);
  co_dU : ls_DerivativeValues (cp_space C) = Ok [cp_dU C 0; cp_dU C 1] /\ forall d, (d < 2)%nat -> shaped (v_size (cp_weights C)) n (cp_dU C d) }.

(** ** Navier-Stokes: u = (u 0, u 1) and v = (v 0, v 1) given by the unknowns of their components *)
(** component h of (u . grad) v at point q *)
Definition convect (C : CompForms) (u v : nat -> nat -> R) (h q : nat) : R :=
  rsum 2 (fun d => combine (cp_U C) (u d) q * combine (cp_dU C d) (v h) q).
(** quadrature of component h of (u . grad) v tested on function p *)
Definition convective_form (C : CompForms) (u v : nat -> nat -> R) (h p : nat) : R :=
  rsum (v_size (cp_weights C)) (fun q => v_at (cp_weights C) q * convect C u v h q * m_at (cp_U C) q p).
(** the two components of a vector of the stacked unknowns *)
Definition pair2 {A : Type} (x y : A) (h : nat) : A := match h with O => x | _ => y end.
(** sum of two lists *)
Definition add_lists (a b : list R) : list R := map (fun i => nth i a 0 + nth i b 0) (seq 0 (length a)).

(** ** Evaluation on the quadrature points *)
(** what is known of one point: coordinates, weight, numeric and exact values, gradients *)
Record PointData := { pd_x : list R; pd_w : R; pd_u : R; pd_e : R; pd_gu : list R; pd_ge : list R }.
(** point k of the result *)
Definition point_of (r : Evaluate_Solution_On_Quadrature_Points_Data) (k : nat) : PointData :=
  {| pd_x := map (fun i => m_at (ev_points r) i k) [0; 1; 2]%nat; pd_w := v_at (ev_weights r) k; pd_u := v_at (ev_numeric r) k; pd_e := v_at (ev_exact r) k;
     pd_gu := map (fun d => v_at (ev_numeric_gradient r d) k) [0; 1; 2]%nat; pd_ge := map (fun d => v_at (ev_exact_gradient r d) k) [0; 1; 2]%nat |}.
(** point q of a cell with the discrete function of unknowns u *)
Definition cell_point (C : CompForms) (u : nat -> R) (exact : option (R -> R -> R -> R)) (exact_gradient : option (R -> R -> R -> nat -> R)) (q : nat) : PointData :=
  {| pd_x := map (fun i => m_at (cp_points C) i q) [0; 1; 2]%nat; pd_w := v_at (cp_weights C) q;
     pd_u := combine (cp_U C) u q; pd_e := exact_at exact (cp_points C) q;
     pd_gu := [combine (cp_dU C 0) u q; combine (cp_dU C 1) u q; 0];
     pd_ge := map (exact_gradient_at exact_gradient (cp_points C) q) [0; 1; 2]%nat |}.
(** all the vectors of the result have n entries *)
Definition evaluation_sizes (r : Evaluate_Solution_On_Quadrature_Points_Data) (n : nat) : Prop :=
  m_rows (ev_points r) = 3%nat /\ m_cols (ev_points r) = n /\ v_size (ev_weights r) = n /\ v_size (ev_numeric r) = n /\ v_size (ev_exact r) = n /\
  forall d, (d < 3)%nat -> v_size (ev_numeric_gradient r d) = n /\ v_size (ev_exact_gradient r d) = n.
(** the points of the active cells, cell after cell *)
Definition all_points (m : Mesh2D) (C : nat -> CompForms) (ul : nat -> Vec) (exact : option (R -> R -> R -> R)) (exact_gradient : option (R -> R -> R -> nat -> R)) : list PointData :=
  flat_map (fun c => map (cell_point (C c) (v_at (ul c)) exact exact_gradient) (seq 0 (v_size (cp_weights (C c))))) (filter (md_active2 m) (seq 0 (Cell2Ds_number (md_mesh m)))).
(** weighted squares of the error, of the numeric and of the exact value at a point; the same for the first two components of the gradients *)
Definition sq_error (p : PointData) : R := pd_w p * ((pd_u p - pd_e p) * (pd_u p - pd_e p)).
Definition sq_numeric (p : PointData) : R := pd_w p * (pd_u p * pd_u p).
Definition sq_exact (p : PointData) : R := pd_w p * (pd_e p * pd_e p).
Definition sq_gradient_error (p : PointData) : R := pd_w p * rsum 2 (fun d => (nth d (pd_gu p) 0 - nth d (pd_ge p) 0) * (nth d (pd_gu p) 0 - nth d (pd_ge p) 0)).
Definition sq_gradient_numeric (p : PointData) : R := pd_w p * rsum 2 (fun d => nth d (pd_gu p) 0 * nth d (pd_gu p) 0).
Definition sq_gradient_exact (p : PointData) : R := pd_w p * rsum 2 (fun d => nth d (pd_ge p) 0 * nth d (pd_ge p) 0).
(** the report r holds the sums of e, n, x over the points of each cell (zero for an inactive cell), and the roots of the sums over all points *)
Definition reports_points (m : Mesh2D) (C : nat -> CompForms) (ul : nat -> Vec) (exact : option (R -> R -> R -> R)) (exact_gradient : option (R -> R -> R -> nat -> R))
  (e n x : PointData -> R) (r : Post_Process_Data_Error) : Prop :=
  let cells f := map (fun c => if md_active2 m c then rsum (v_size (cp_weights (C c))) (fun q => f (cell_point (C c) (v_at (ul c)) exact exact_gradient q)) else 0)
                   (seq 0 (Cell2Ds_number (md_mesh m))) in
  let total f := sqrt (lsum f (all_points m C ul exact exact_gradient)) in
  pe_cells_error r = cells e /\ pe_cells_numeric r = cells n /\ pe_cells_exact r = cells x /\ pe_error r = total e /\ pe_numeric r = total n /\ pe_exact r = total x.
