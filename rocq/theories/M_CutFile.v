(** writeCutCoordToFile, Acquisition/AcquisitionSettings.hpp 409-426: the file of the cut coordinates, without its name
    and the formatting, on the master with useStreamConfig. *)
From Verif Require Import Base M_Grid M_Acq.
Open Scope Z_scope.

(** The loop of lines 421-423; cutCoordinates[i] out of range is undefined behaviour. *)
Fixpoint cut_lines (nos : list Z) (cuts : list coord) : res (list (Z * coord)) :=
  match nos with
  | [] => Ok []
  | no :: nos => match cuts with
                 | [] => UB
                 | c :: cuts => rest <- cut_lines nos cuts ;; Ok ((no, c) :: rest)
                 end
  end.
(** Line 420: the number of points of the model of one shot and its sizes.  NXPerShot is a whole number here (ValueType
    in the code); its product is exact. *)
Definition writeCutCoord (cuts : list coord) (nos : list Z) (NXPerShot NY NZ : Z) : res ((Z * coord) * list (Z * coord)) :=
  l <- cut_lines nos cuts ;; Ok ((NXPerShot * NY * NZ, mkC NXPerShot NY NZ), l).
