(** Theorems about ZFEM on a polygon: node numbering, minimizer weights, reproduction of polynomials, continuity. *)
From Coq Require Import List Arith Bool Lia ZArith Reals Lra.
From Verif Require Import Base RSum MatrixModel LagrangeModel LagrangeSpec GreenSpec TriangleModel TriangleSpec TriangleProofs5 VemModel VemSpec GaussModel ZfemModel ZfemSpec ZfemProofs3 ZfemProofs6 ZfemProofs9.
Import ListNotations.
Local Open Scope R_scope.
Local Notation poly2 := GreenSpec.poly2.

(** C57: CreateMaps gives two local nodes the same number if and only if they are the same node of the star, and uses the numbers 0 ... NumTotal - 1. *)
Theorem C57_numbering : forall order V junk, (1 <= order)%nat -> (1 <= V)%nat ->
  let n1 := (order - 1)%nat in let n2 := ((order - 1) * (order - 2) / 2)%nat in
  let NB := (V + V * n1 + n2)%nat in let NT := (V + V * n1 + 1 + V * (n1 + n2))%nat in
  exists M num, CreateMaps junk order V n1 n2 NB = Ok M /\ nm_rows M = V /\ nm_cols M = (3 * (1 + n1) + n2)%nat /\
    (forall t l, (t < V)%nat -> (l < 3 * (1 + n1) + n2)%nat -> nm_at M t l = num (node_of V n1 t l)) /\
    (forall x y, is_node V n1 n2 x -> is_node V n1 n2 y -> num x = num y -> x = y) /\
    (forall x, is_node V n1 n2 x -> (num x < NT)%nat) /\
    (forall i, (i < NT)%nat -> exists x, is_node V n1 n2 x /\ num x = i) /\
    (forall v, (v < V)%nat -> num (Corner v) = v) /\
    (forall v q, (v < V)%nat -> (q < n1)%nat -> num (Side v q) = (V + v * n1 + q)%nat) /\
    (forall x, is_node V n1 n2 x -> ~ on_boundary x -> (V + V * n1 <= num x)%nat) /\
    ((3 <= order)%nat -> (num Centre < NB)%nat).
Proof. exact numbering. Qed.

(** C57: every node of the star is a node of a triangle. *)
Theorem C57_all_used : forall V n1 n2 x, (1 <= V)%nat -> is_node V n1 n2 x -> exists t l, (t < V)%nat /\ (l < 3 * (1 + n1) + n2)%nat /\ node_of V n1 t l = x.
Proof. exact node_of_all. Qed.

(** C57: the space exists, and its nodes are the ones of the star, at their places. *)
Theorem C57_space_exists : forall junk njunk llt order p ref, (1 <= order)%nat -> Zfem_Create order = Ok ref -> (Z.of_nat (ft_NumBasisFunctions (zr_Tri ref)) <= UINT_MAX)%Z ->
  star (zp_Vertices p) (zp_Center p) (zp_Triangles p) (zp_EdgesDirection p) -> zp_Diameter p <> 0 -> exists l, zfem_space junk njunk llt order p ref l.
Proof. exact space_exists. Qed.
Theorem C57_nodes : forall junk njunk llt order p ref l, zfem_space junk njunk llt order p ref l ->
  let V := m_cols (zp_Vertices p) in let n1 := (order - 1)%nat in let n2 := ((order - 1) * (order - 2) / 2)%nat in
  zl_NumBasis l = (V + V * n1 + n2)%nat /\ zl_NumTotal l = (V + V * n1 + 1 + V * (n1 + n2))%nat /\ (zl_NumBasis l + zl_NumVirtual l = zl_NumTotal l)%nat /\
  exists num : node -> nat,
    (forall x y, is_node V n1 n2 x -> is_node V n1 n2 y -> num x = num y -> x = y) /\
    (forall x, is_node V n1 n2 x -> (num x < zl_NumTotal l)%nat) /\
    (forall i, (i < zl_NumTotal l)%nat -> exists x, is_node V n1 n2 x /\ num x = i) /\
    (forall v, (v < V)%nat -> num (Corner v) = v) /\ (forall v q, (v < V)%nat -> (q < n1)%nat -> num (Side v q) = (V + v * n1 + q)%nat) /\
    (forall t i, (t < V)%nat -> (i < ft_NumBasisFunctions (zr_Tri ref))%nat -> nm_at (zl_Map l) t i = num (node_of V n1 t i)) /\
    (exists inner, forall x c, is_node V n1 n2 x -> (c < 3)%nat ->
       let here := position order (zp_Vertices p) (zp_Center p) (zp_EdgesDirection p) inner x c in
       m_at (zl_Finer l) c (num x) = here /\ ((num x < zl_NumBasis l)%nat -> m_at (zl_Nodes l) c (num x) = here) /\
       ((zl_NumBasis l <= num x)%nat -> m_at (zl_VirtualNodes l) c (num x - zl_NumBasis l) = here)) /\
    (forall t tl i c, nth_error (zl_Tris l) t = Some tl -> (i < ft_NumBasisFunctions (zr_Tri ref))%nat -> (c < 3)%nat -> m_at (lt_Dofs tl) c i = m_at (zl_Finer l) c (nm_at (zl_Map l) t i)).
Proof. exact C57_nodes_all. Qed.

(** C58: the weights of a virtual node reproduce polynomials, and no others that do so have a smaller sum of squares. *)
Theorem C58_weights : forall junk njunk llt order p ref l, zfem_space junk njunk llt order p ref l -> exact_for positive_definite llt -> unisolvent order (zl_Nodes l) ->
  let NB := zl_NumBasis l in let node i := (m_at (zl_Nodes l) 0 i, m_at (zl_Nodes l) 1 i) in
  let reproduces j w := forall f fx fy, poly2 order f fx fy -> rsum NB (fun i => f (fst (node i)) (snd (node i)) * w i) = f (m_at (zl_VirtualNodes l) 0 j) (m_at (zl_VirtualNodes l) 1 j) in
  forall j, (j < zl_NumVirtual l)%nat -> let W i := m_at (zl_Weights l) i j in
    reproduces j W /\ (forall w, reproduces j w -> rsum NB (fun i => W i * W i) <= rsum NB (fun i => w i * w i)) /\
    (forall w, reproduces j w -> rsum NB (fun i => w i * w i) <= rsum NB (fun i => W i * W i) -> forall i, (i < NB)%nat -> w i = W i).
Proof. exact C58_all. Qed.

(** C58: the nodes determine a polynomial if order + 1 sides lie on different lines; from order 3 on, if as many as the order do. *)
Theorem C58_unisolvent : forall junk njunk llt order p ref l, zfem_space junk njunk llt order p ref l ->
  lines (zp_Vertices p) (order + 1) \/ ((3 <= order)%nat /\ lines (zp_Vertices p) order) -> unisolvent order (zl_Nodes l).
Proof. exact C58_unisolvent_all. Qed.

(** C75: the basis functions reproduce the polynomials of degree at most the order and their derivatives. *)
Theorem C75_reproduction : forall junk njunk llt order p ref l, zfem_space junk njunk llt order p ref l -> exact_for positive_definite llt -> unisolvent order (zl_Nodes l) ->
  forall points, (length points <= m_cols (zp_Vertices p))%nat -> (forall P, In P points -> (0 < m_rows P)%nat) ->
  exists Z D0 D1, Zfem_Values ref l points = Ok Z /\ Zfem_Derivatives ref l 0 points = Ok D0 /\ Zfem_Derivatives ref l 1 points = Ok D1 /\
    Forall (fun M => m_rows M = total_cols points /\ m_cols M = zl_NumBasis l) [Z; D0; D1] /\
    forall f fx fy, poly2 order f fx fy -> forall t P q, nth_error points t = Some P -> (q < m_cols P)%nat ->
      let r := (total_cols (firstn t points) + q)%nat in let u i := f (m_at (zl_Nodes l) 0 i) (m_at (zl_Nodes l) 1 i) in
      rsum (zl_NumBasis l) (fun i => u i * m_at Z r i) = f (m_at P 0 q) (m_at P 1 q) /\
      rsum (zl_NumBasis l) (fun i => u i * m_at D0 r i) = fx (m_at P 0 q) (m_at P 1 q) /\
      rsum (zl_NumBasis l) (fun i => u i * m_at D1 r i) = fy (m_at P 0 q) (m_at P 1 q).
Proof. exact C75_all. Qed.

(** C76: two polygons that share a side and its unknowns agree at every point of the side. *)
Theorem C76_continuity : forall junk1 njunk1 llt1 junk2 njunk2 llt2 order ref p1 p2 l1 l2 v1 v2 (u1 u2 : nat -> R) points1 points2 P1 P2 q1 q2 s,
  zfem_space junk1 njunk1 llt1 order p1 ref l1 -> zfem_space junk2 njunk2 llt2 order p2 ref l2 ->
  let V1 := m_cols (zp_Vertices p1) in let V2 := m_cols (zp_Vertices p2) in let n1 := (order - 1)%nat in
  let start p v := if nth v (zp_EdgesDirection p) true then v else ((v + 1) mod m_cols (zp_Vertices p))%nat in
  let stop p v := if nth v (zp_EdgesDirection p) true then ((v + 1) mod m_cols (zp_Vertices p))%nat else v in
  (v1 < V1)%nat -> (v2 < V2)%nat ->
  (forall c, (c < 3)%nat -> m_at (zp_Vertices p1) c (start p1 v1) = m_at (zp_Vertices p2) c (start p2 v2) /\ m_at (zp_Vertices p1) c (stop p1 v1) = m_at (zp_Vertices p2) c (stop p2 v2)) ->
  u1 (start p1 v1) = u2 (start p2 v2) -> u1 (stop p1 v1) = u2 (stop p2 v2) -> (forall k, (k < n1)%nat -> u1 (V1 + v1 * n1 + k)%nat = u2 (V2 + v2 * n1 + k)%nat) ->
  (length points1 <= V1)%nat -> (length points2 <= V2)%nat -> (forall P, In P points1 \/ In P points2 -> (0 < m_rows P)%nat) ->
  nth_error points1 v1 = Some P1 -> nth_error points2 v2 = Some P2 -> (q1 < m_cols P1)%nat -> (q2 < m_cols P2)%nat ->
  (forall c, (c < 3)%nat -> m_at P1 c q1 = (1 - s) * m_at (zp_Vertices p1) c (start p1 v1) + s * m_at (zp_Vertices p1) c (stop p1 v1) /\ m_at P2 c q2 = m_at P1 c q1) ->
  exists Z1 Z2, Zfem_Values ref l1 points1 = Ok Z1 /\ Zfem_Values ref l2 points2 = Ok Z2 /\
    rsum (zl_NumBasis l1) (fun i => u1 i * m_at Z1 (total_cols (firstn v1 points1) + q1) i) = rsum (zl_NumBasis l2) (fun i => u2 i * m_at Z2 (total_cols (firstn v2 points2) + q2) i).
Proof. exact C76_all. Qed.

(** C77: the basis functions are one at their node and zero at the others; at a virtual node their values are its weights. *)
Theorem C77_nodal : forall junk njunk llt order p ref l points, zfem_space junk njunk llt order p ref l -> (length points <= m_cols (zp_Vertices p))%nat -> (forall P, In P points -> (0 < m_rows P)%nat) ->
  exists Z, Zfem_Values ref l points = Ok Z /\ m_rows Z = total_cols points /\ m_cols Z = zl_NumBasis l /\
  forall t d P q, nth_error points t = Some P -> (q < m_cols P)%nat -> (d < ft_NumBasisFunctions (zr_Tri ref))%nat -> let n := nm_at (zl_Map l) t d in
    (forall c, (c < 3)%nat -> m_at P c q = m_at (zl_Finer l) c n) ->
    forall i, (i < zl_NumBasis l)%nat -> m_at Z (total_cols (firstn t points) + q) i =
      (if (n <? zl_NumBasis l)%nat then kron i n else m_at (zl_Weights l) i (n - zl_NumBasis l)).
Proof. exact C77_all. Qed.

(** ** Examples: two unit squares side by side, order 3, Gauss elimination *)
Definition table (rows : list (list R)) : Mat := {| m_rows := length rows; m_cols := length (nth 0 rows []); m_at := fun i j => nth j (nth i rows []) 0 |}.
Definition square (a : R) (dirs : list bool) : Zfem_Polygon := {|
  zp_Vertices := table [[a; a + 1; a + 1; a]; [0; 0; 1; 1]; [0; 0; 0; 0]]; zp_Diameter := sqrt 2; zp_EdgesDirection := dirs;
  zp_Center := fun c => match c with 0%nat => a + 1/2 | 1%nat => 1/2 | _ => 0 end;
  zp_Triangles := [table [[a + 1/2; a; a + 1]; [1/2; 0; 0]; [0; 0; 0]]; table [[a + 1/2; a + 1; a + 1]; [1/2; 0; 1]; [0; 0; 0]];
                   table [[a + 1/2; a + 1; a]; [1/2; 1; 1]; [0; 0; 0]]; table [[a + 1/2; a; a]; [1/2; 1; 0]; [0; 0; 0]]] |}.

Example square_star : forall a dirs, length dirs = 4%nat -> let p := square a dirs in star (zp_Vertices p) (zp_Center p) (zp_Triangles p) (zp_EdgesDirection p).
Proof.
  intros a dirs Hd p. constructor; cbn; [lia| |exact Hd|].
  - split; [reflexivity|]. intros v Hv. destruct v as [|[|[|[|v]]]]; try lia; reflexivity.
  - intros v Hv. destruct v as [|[|[|[|v]]]]; try lia; eexists; (split; [reflexivity|]); (split; [reflexivity|]); (split; [intros c Hc; destruct c as [|[|[|c]]]; try lia; repeat split; reflexivity|]); cbn; lra.
Qed.
Example square_lines : forall a dirs, lines (zp_Vertices (square a dirs)) 4.
Proof.
  intros a dirs. exists (fun i => i). split; [auto|]. intros i j Hi Hj Hij. unfold aligned. intros [A B].
  destruct i as [|[|[|[|i]]]]; try lia; destruct j as [|[|[|[|j]]]]; try lia; cbn in A, B; try lra; exfalso; auto.
Qed.
Example space_case : forall junk njunk a dirs, length dirs = 4%nat -> exists ref, Zfem_Create 3 = Ok ref /\ exists l, zfem_space junk njunk gauss_solver 3 (square a dirs) ref l /\
  zl_NumBasis l = 13%nat /\ zl_NumVirtual l = 12%nat /\ unisolvent 3 (zl_Nodes l).
Proof.
  intros junk njunk a dirs Hd. destruct (create_exists 3 ltac:(lia)) as (ref & ER). exists ref. split; auto.
  destruct (C57_space_exists junk njunk gauss_solver 3 (square a dirs) ref ltac:(lia)) as (l & ZS); auto.
  - apply (small_orders 3 ref); [lia|exact ER].
  - now apply square_star.
  - cbn. apply Rgt_not_eq, sqrt_lt_R0. lra.
  - exists l. split; auto. destruct (C57_nodes _ _ _ _ _ _ _ ZS) as (A & B & C & _). cbn in A, B. split; [exact A|]. split; [lia|].
    apply (C58_unisolvent _ _ _ _ _ _ _ ZS). left. apply square_lines.
Qed.
(** x^2 y at the point (1/2, 1/4) of the first triangle of the square [0,1]^2 *)
Example C75_case : forall junk njunk, exists ref l Z, Zfem_Create 3 = Ok ref /\ Zfem_CreateLocalSpace junk njunk gauss_solver ref (square 0 [true; true; true; true]) = Ok l /\
  Zfem_Values ref l [table [[1/2]; [1/4]; [0]]] = Ok Z /\
  rsum 13 (fun i => m_at (zl_Nodes l) 0 i ^ 2 * m_at (zl_Nodes l) 1 i ^ 1 * m_at Z 0 i) = 1 / 16.
Proof.
  intros junk njunk. destruct (space_case junk njunk 0 [true; true; true; true] eq_refl) as (ref & ER & l & ZS & NB & _ & U).
  destruct (C75_reproduction _ _ _ _ _ _ _ ZS gauss_positive U [table [[1/2]; [1/4]; [0]]]) as (Z & D0 & D1 & EZ & _ & _ & _ & K).
  - cbn. lia.
  - intros P [<-|[]]. cbn. lia.
  - exists ref, l, Z. split; auto. split; [apply (zs_space _ _ _ _ _ _ _ ZS)|]. split; auto.
    destruct (K _ _ _ (poly2_mono 3 2 1 ltac:(lia)) 0%nat _ 0%nat eq_refl) as (A & _); [cbn; lia|]. cbv zeta in A. rewrite NB in A. cbn [firstn total_cols] in A. refine (eq_trans A _). cbn. lra.
Qed.
(** the squares [0,1] x [0,1] and [1,2] x [0,1] share the side from (1,0) to (1,1), seen backwards by the second *)
Example C76_case : forall junk njunk s (u1 u2 : nat -> R), u1 1%nat = u2 0%nat -> u1 2%nat = u2 3%nat -> u1 6%nat = u2 10%nat -> u1 7%nat = u2 11%nat ->
  exists ref l1 l2 Z1 Z2, zfem_space junk njunk gauss_solver 3 (square 0 [true; true; true; true]) ref l1 /\ zfem_space junk njunk gauss_solver 3 (square 1 [true; true; true; false]) ref l2 /\
  let P := table [[1]; [s]; [0]] in let none := mzero 3 0 in
  Zfem_Values ref l1 [none; P] = Ok Z1 /\ Zfem_Values ref l2 [none; none; none; P] = Ok Z2 /\ rsum 13 (fun i => u1 i * m_at Z1 0 i) = rsum 13 (fun i => u2 i * m_at Z2 0 i).
Proof.
  intros junk njunk s u1 u2 H1 H2 H3 H4.
  destruct (space_case junk njunk 0 [true; true; true; true] eq_refl) as (ref & ER & l1 & ZS1 & NB1 & _).
  destruct (space_case junk njunk 1 [true; true; true; false] eq_refl) as (ref' & ER' & l2 & ZS2 & NB2 & _). rewrite ER in ER'. injection ER' as <-.
  exists ref, l1, l2.
  destruct (C76_continuity _ _ _ _ _ _ 3 ref _ _ l1 l2 1%nat 3%nat u1 u2 [mzero 3 0; table [[1]; [s]; [0]]] [mzero 3 0; mzero 3 0; mzero 3 0; table [[1]; [s]; [0]]] (table [[1]; [s]; [0]]) (table [[1]; [s]; [0]]) 0%nat 0%nat s ZS1 ZS2) as (Z1 & Z2 & EZ1 & EZ2 & K);
    try (exact H1 || exact H2 || reflexivity || (cbn; lia)).
  - intros c Hc. destruct c as [|[|[|c]]]; try lia; cbn; split; lra.
  - intros k Hk. destruct k as [|[|k]]; [exact H3|exact H4|cbn in Hk; lia].
  - intros P [H|H]; cbn in H; repeat (destruct H as [<-|H]; [cbn; lia|]); destruct H.
  - intros c Hc. destruct c as [|[|[|c]]]; try lia; cbn; split; lra.
  - exists Z1, Z2. split; auto. split; auto. cbv zeta. split; auto. split; auto. rewrite NB1, NB2 in K. exact K.
Qed.
Print Assumptions C57_numbering.
Print Assumptions C57_all_used.
Print Assumptions C57_space_exists.
Print Assumptions C57_nodes.
Print Assumptions C58_weights.
Print Assumptions C58_unisolvent.
Print Assumptions C75_reproduction.
Print Assumptions C76_continuity.
Print Assumptions C77_nodal.
