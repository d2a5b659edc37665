(** Model of getGraph, the weighted graph of the grid points handed to the graph partitioners (src/ForwardSolver/Derivatives/
    FDTD2D.cpp 288-316, FDTD3D.cpp 345-376; called from Partitioning.hpp 501 and 548). *)
From Verif Require Import Base M_Grid M_Deriv.
Open Scope Z_scope.

(** Value stored in column [k] of a matrix row given by its pushed pairs. *)
Definition mentry (row : list (Z * Q)) (k : Z) : Q := fold_right (fun e s => if fst e =? k then (snd e + s)%Q else s) 0%Q row.

(** Row [idx] of "temp = DxbSparse; temp += DybSparse", FDTD2D.cpp 306-307.  The matrices DxbSparse and DybSparse are those
    of calcDxb and calcDyb, 295-303 (computed here or before, with the same arguments). *)
Definition sum2D (fuel : nat) (g : grid) (orders : list Z) (useVar useVarGrid : bool) (DH : Q) (idx : Z) : res (list (Z * Q)) :=
  rx <- calcDxb fuel g orders useVar DH idx ;; ry <- calcDyb fuel g orders useVar useVarGrid DH idx ;; Ok (rx ++ ry).
(** Row [idx] of "temp = DxbSparse; temp += DybSparse; temp += DzbSparse", FDTD3D.cpp 362-364. *)
Definition sum3D (fuel : nat) (g : grid) (orders : list Z) (useVar useVarGrid : bool) (DH : Q) (idx : Z) : res (list (Z * Q)) :=
  rx <- calcDxb fuel g orders useVar DH idx ;; ry <- calcDyb fuel g orders useVar useVarGrid DH idx ;;
  rz <- calcDzb fuel g orders useVar DH idx ;; Ok (rx ++ ry ++ rz).

(** Entry (i, j) after "temp = transpose(temp)" and the subtractions of the matrices, FDTD2D.cpp 308-312, FDTD3D.cpp 365-371. *)
Definition graph_entry (row : Z -> res (list (Z * Q))) (i j : Z) : res Q :=
  rj <- row j ;; ri <- row i ;; Ok (mentry rj i - mentry ri j)%Q.
Definition getGraph2D (fuel : nat) (g : grid) (orders : list Z) (useVar useVarGrid : bool) (DH : Q) : Z -> Z -> res Q :=
  graph_entry (sum2D fuel g orders useVar useVarGrid DH).
Definition getGraph3D (fuel : nat) (g : grid) (orders : list Z) (useVar useVarGrid : bool) (DH : Q) : Z -> Z -> res Q :=
  graph_entry (sum3D fuel g orders useVar useVarGrid DH).
