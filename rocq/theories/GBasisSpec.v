(** Vocabulary of the statements about the vector decompositions. *)
From Coq Require Import List Arith Bool ZArith Reals.
From Verif Require Import Base RSum MatrixModel MonomialsSpec.
Import ListNotations.
Local Open Scope R_scope.

Definition delta (i c : nat) : R := if (i =? c)%nat then 1 else 0.

(** component [c] of the plane field (y, -x) *)
Definition perp (c : nat) (x : point) : R := match c with O => x 1%nat | _ => - x 0%nat end.

(** component [c] of the three fields (0, z, -y), (-z, 0, x), (y, -x, 0) *)
Definition curl_field (g c : nat) (x : point) : R :=
  match g, c with
  | O, S O => x 2%nat | O, S (S O) => - x 1%nat
  | S O, O => - x 2%nat | S O, S (S O) => x 0%nat
  | S (S O), O => x 1%nat | S (S O), S O => - x 0%nat
  | _, _ => 0
  end.

(** linear combination of the first [n] monomials of a table with the coefficients of row [j] *)
Definition comb (exps : list (list Z)) (n : nat) (A : Mat) (j : nat) (x : point) : R :=
  rsum n (fun l => m_at A j l * mono (expo exps l) x).

(** the indices below [n] of the monomials that do not contain the first variable, in order *)
Definition without_x (exps : list (list Z)) (n : nat) : list nat :=
  filter (fun i => (nth 0 (expo exps i) 0 =? 0)%Z) (seq 0 n).

(** component [c] of field number [l]: first (0,z,-y) times the monomials without x, then (-z,0,x)
    times every one of the [n] monomials, then (y,-x,0) times every one of them *)
Definition plus_field (exps : list (list Z)) (n l c : nat) (x : point) : R :=
  let S := without_x exps n in
  let d := length S in
  if (l <? d)%nat then curl_field 0 c x * mono (expo exps (nth l S 0%nat)) x
  else if (l <? d + n)%nat then curl_field 1 c x * mono (expo exps (l - d)) x
  else curl_field 2 c x * mono (expo exps (l - d - n)) x.
