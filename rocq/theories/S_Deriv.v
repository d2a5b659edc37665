(** Specification vocabulary for finite differences. *)
From Coq Require Export QArith Qabs.
From Verif Require Import Base.
Open Scope Z_scope.

(** Sum of a list of rationals. *)
Definition qsum (l : list Q) : Q := fold_right Qplus 0%Q l.

(** F 0 + ... + F (n-1). *)
Definition qsum_to (n : Z) (F : Z -> Q) : Q := qsum (map F (zseq 0 (Z.to_nat n))).

(** A sparse matrix row applied to a field, and the value stored in one column (several pushes to a column add up). *)
Definition apply_row (row : list (Z * Q)) (f : Z -> Q) : Q := qsum (map (fun e => (snd e * f (fst e))%Q) row).
Definition entry (row : list (Z * Q)) (k : Z) : Q := qsum (map (fun e => if fst e =? k then snd e else 0%Q) row).

(** Polynomials by coefficients, lowest degree first; value and formal derivative. *)
Fixpoint peval (l : list Q) (x : Q) : Q := match l with [] => 0 | a :: l' => a + x * peval l' x end%Q.
Fixpoint pder_from (n : Z) (l : list Q) : list Q := match l with [] => [] | a :: l' => (inject_Z n * a)%Q :: pder_from (n + 1) l' end.
Definition pder (l : list Q) : list Q := match l with [] => [] | _ :: l' => pder_from 1 l' end.

(** Sum of |s_k| h^(k-1) over k >= 1: size of the Taylor terms of a polynomial. *)
Fixpoint wsize_from (l : list Q) (h : Q) : Q := match l with [] => 0 | a :: l' => Qabs a + h * wsize_from l' h end%Q.
Definition wsize (l : list Q) (h : Q) : Q := match l with [] => 0%Q | _ :: l' => wsize_from l' h end.

(** Storage index of point (x,y,z) of a regular grid (see C01_regular_formula). *)
Definition reg_index (nx nz x y z : Z) : Z := x + z * nx + y * nx * nz.

(** Shape of a derivative row on a line of [N] points, at point [x], for a requested order [p]; [colf X] is the matrix
    column of point [X], [coef q j] the j-th coefficient of order q, [h] the spacing.  Forward derivatives live half a
    cell to the right of [x], backward ones half a cell to the left. *)
Definition is_row (N h : _) (colf : Z -> Z) (coef : Z -> Z -> Q) (q x0 : Z) (row : list (Z * Q)) : Prop :=
  0 <= x0 /\ x0 + q <= N /\
  row = map (fun j => (colf (x0 + j), (coef q j / h)%Q)) (zseq 0 (Z.to_nat q)) /\ NoDup (map fst row).
Definition forward_row (N : Z) (h : Q) (colf : Z -> Z) (coef : Z -> Z -> Q) (p x : Z) (row : list (Z * Q)) : Prop :=
  exists k x0, 1 <= k /\ 2 * k <= p /\ is_row N h colf coef (2 * k) x0 row /\
   (x < N - 1 -> x0 = x - k + 1 /\ forall k', 2 * k' <= p -> 0 <= x - k' + 1 -> x + k' <= N - 1 -> k' <= k) /\
   (x = N - 1 -> k = 1 /\ x0 = x - 1).
Definition backward_row (N : Z) (h : Q) (colf : Z -> Z) (coef : Z -> Z -> Q) (p x : Z) (row : list (Z * Q)) : Prop :=
  exists k x0, 1 <= k /\ 2 * k <= p /\ is_row N h colf coef (2 * k) x0 row /\
   (0 < x -> x0 = x - k /\ forall k', 2 * k' <= p -> 0 <= x - k' -> x + k' - 1 <= N - 1 -> k' <= k) /\
   (x = 0 -> k = 1 /\ x0 = 0).

(** A field on the half-line of rows 0..NY-1 continued antisymmetrically about row 0 (resp. about the level half a cell
    above row 0); it is zero beyond the last row. *)
Definition restrict (NY : Z) (f : Z -> Q) (Y : Z) : Q := if (0 <=? Y) && (Y <? NY) then f Y else 0%Q.
Definition odd_full (NY : Z) (f : Z -> Q) (Y : Z) : Q := (restrict NY f Y - restrict NY f (- Y))%Q.
Definition odd_half (NY : Z) (f : Z -> Q) (Y : Z) : Q := (restrict NY f Y - restrict NY f (- 1 - Y))%Q.
