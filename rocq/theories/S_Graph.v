(** Specification vocabulary for the graph of the partitioners. *)
From Verif Require Import Base M_Grid M_Deriv S_Deriv.
Open Scope Z_scope.

(** Two points [a], [b] of a line of [N] points are neighbours for order [p]: with m = |a - b| and X the smaller of the two,
    either the backward derivative at the larger one reaches down to the smaller one, or that of the smaller one up to the
    larger one.  The backward derivative of order 2k at x uses the points x-k .. x+k-1, and k is limited by the two ends. *)
Definition neighbours (p N a b : Z) : Prop :=
  let m := Z.abs (a - b) in let X := Z.min a b in
  1 <= m /\ ((2 * m <= p /\ X + 2 * m <= N) \/ (2 * (m + 1) <= p /\ m + 1 <= X /\ X + m + 1 <= N)).

(** A derivative matrix (given by its rows) couples [i] with [j]: row [i] uses the value at [j]. *)
Definition uses (D : Z -> res (list (Z * Q))) (i j : Z) : Prop := exists row, D i = Ok row /\ In j (map fst row).
