(** Specification vocabulary for the memory estimates of the derivative matrices. *)
From Coq Require Import QArith.
From Verif Require Import Base M_Grid M_Deriv.
Open Scope Z_scope.
Local Notation length := List.length.

(** The derivative matrices and their rows (as modelled in M_Deriv). *)
Inductive dmat := Dxf | Dyf | Dzf | Dxb | Dyb | Dzb | DyfFreeSurface | DybFreeSurface.
Definition drow (m : dmat) (fuel : nat) (g : grid) (orders : list Z) (useVar useVarGrid hybrid : bool) (DH : Q) (i : Z) : res (list (Z * Q)) :=
  match m with
  | Dxf => calcDxf fuel g orders useVar DH i
  | Dyf => calcDyf fuel g orders useVar useVarGrid DH i
  | Dzf => calcDzf fuel g orders useVar DH i
  | Dxb => calcDxb fuel g orders useVar DH i
  | Dyb => calcDyb fuel g orders useVar useVarGrid DH i
  | Dzb => calcDzb fuel g orders useVar DH i
  | DyfFreeSurface => calcDyfFreeSurface g orders useVar useVarGrid hybrid DH i
  | DybFreeSurface => calcDybFreeSurface g orders useVar hybrid DH i
  end.

(** [rows] are the rows of the matrix, one per grid point. *)
Definition rows_of (m : dmat) (fuel : nat) (g : grid) (orders : list Z) (useVar useVarGrid hybrid : bool) (DH : Q)
    (rows : list (list (Z * Q))) : Prop :=
  Z.of_nat (length rows) = nGridpoints g /\
  forall i row, nth_error rows i = Some row -> drow m fuel g orders useVar useVarGrid hybrid DH (Z.of_nat i) = Ok row.

(** Number of entries, and bytes of compressed rows: a value and a column for each entry, two indices for each row. *)
Definition entries (rows : list (list (Z * Q))) : Z := zsum (map (fun r => Z.of_nat (length r)) rows).
Definition bytes (rows : list (list (Z * Q))) (sv si : Z) : Z := entries rows * (sv + si) + 2 * Z.of_nat (length rows) * si.
