(** Specification vocabulary for derivatives on layered grids. *)
From Verif Require Import Base S_Deriv.
Open Scope Z_scope.

(** A row that is the central difference of order [p] with point distance [s] about the doubled position [m]: entry [j] lies at
    the position [X] with 2X = m + s (2j - (p-1)), [col k X] says that column [k] is the grid point at [X], [coef p j / h] is
    the weight. *)
Definition central_row (m s p : Z) (h : Q) (coef : Z -> Z -> Q) (col : Z -> Z -> Prop) (row : list (Z * Q)) : Prop :=
  length row = Z.to_nat p /\
  forall j k v, nth_error row j = Some (k, v) ->
    exists X, 2 * X = m + s * (2 * Z.of_nat j - (p - 1)) /\ col k X /\ (v == coef p (Z.of_nat j) / h)%Q.

(** All points of that row lie in 0..N-1. *)
Definition central_fits (m s p N : Z) : Prop := 0 <= m - s * (p - 1) /\ m + s * (p - 1) <= 2 * (N - 1).

(** Order configured for a layer: the first entry of the list or, with orders per layer, the entry of the layer. *)
Definition configured (orders : list Z) (perLayer : bool) (layer : nat) (p : Z) : Prop :=
  if perLayer then nth_error orders layer = Some p else nth_error orders 0 = Some p.
