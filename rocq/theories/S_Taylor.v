(** Specification vocabulary for smooth functions sampled on a grid (C164, C165). *)
From Coq Require Import Reals ZArith List.
Import ListNotations.
From Verif Require Import Base M_Deriv S_Solver.
Open Scope R_scope.

(** [f] is n+1 times differentiable between [a] and [b], and its derivative of order n+1 is bounded by [M] there. *)
Definition smooth_on (n : nat) (M a b : R) (f : R -> R) : Prop := exists F : nat -> R -> R,
  (forall s, F O s = f s) /\ (forall k s, (k <= n)%nat -> a <= s <= b -> derivable_pt_lim (F k) s (F (S k) s)) /\
  (forall s, a <= s <= b -> Rabs (F (S n) s) <= M).

(** The finite-difference quotient of order [p] with spacing [h] about the point [s]. *)
Definition quotient (p : Z) (h : R) (f : R -> R) (s : R) : R :=
  Rsum (map (fun j => Q2R (stencil_at p j) / h * f (s + IZR (2 * j - (p - 1)) / 2 * h)) (zseq 0 (Z.to_nat p))).

(** Error constants of the quotients: |quotient - f'| <= error_const p * max |f^(p+1)| * h^p. *)
Definition error_const (p : Z) : R :=
  if (p =? 2)%Z then 1 / 24 else if (p =? 4)%Z then 3 / 512 else if (p =? 6)%Z then 725 / 458752
  else if (p =? 8)%Z then 354095 / 679477248 else if (p =? 10)%Z then 1 / 5000 else 1 / 10000.

(** A row of a sparse matrix applied to a field of real numbers. *)
Definition rapply (row : list (Z * Q)) (field : Z -> R) : R := Rsum (map (fun e => Q2R (snd e) * field (fst e)) row).

(** On a line of [N] points with spacing [h], whose X-th point is at X*h and has column [colf X], the row applied to samples of a
    smooth function gives its derivative at [pos] up to an error of order [q]. *)
Definition approximates (row : list (Z * Q)) (colf : Z -> Z) (N : Z) (h : R) (q : Z) (pos : R) : Prop := forall field u M d,
  (forall X, (0 <= X < N)%Z -> field (colf X) = u (IZR X * h)) -> smooth_on (Z.to_nat q) M 0 (IZR (N - 1) * h) u -> derivable_pt_lim u pos d ->
  Rabs (rapply row field - d) <= error_const q * M * h ^ Z.to_nat q.

(** The line of points through (x,y,z) along an axis, and what the forward and backward rows at its a-th point must compute:
    the derivative half a cell to the right, resp. left, with the largest order for which the stencil fits; at the last, resp. first,
    point the derivative on the other side, with order 2. *)
Definition forward_good (row : list (Z * Q)) (colf : Z -> Z) (N : Z) (h : R) (p a : Z) : Prop :=
  ((a < N - 1)%Z -> exists k, (1 <= k)%Z /\ (2 * k <= p)%Z /\ (forall k', 2 * k' <= p -> 0 <= a - k' + 1 -> a + k' <= N - 1 -> k' <= k)%Z /\
     approximates row colf N h (2 * k) ((IZR a + 1 / 2) * h)) /\
  (a = (N - 1)%Z -> approximates row colf N h 2 ((IZR a - 1 / 2) * h)).
Definition backward_good (row : list (Z * Q)) (colf : Z -> Z) (N : Z) (h : R) (p a : Z) : Prop :=
  ((0 < a)%Z -> exists k, (1 <= k)%Z /\ (2 * k <= p)%Z /\ (forall k', 2 * k' <= p -> 0 <= a - k' -> a + k' - 1 <= N - 1 -> k' <= k)%Z /\
     approximates row colf N h (2 * k) ((IZR a - 1 / 2) * h)) /\
  (a = 0%Z -> approximates row colf N h 2 ((IZR a + 1 / 2) * h)).
