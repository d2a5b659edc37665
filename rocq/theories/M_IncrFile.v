(** Sources::writeShotIndsIncr, Acquisition/Sources.cpp 724-749: the file of the shots that are left after the
    thinning, without its name and the formatting, on the master. *)
From Coq Require Import QArith.
From Verif Require Import Base M_Grid M_Acq.
Open Scope Z_scope.

(** The loop of lines 745-747; an index out of range is undefined behaviour. *)
Fixpoint incr_lines (inds nos : list Z) : res (list (Z * Z)) :=
  match inds with
  | [] => Ok []
  | i :: inds => match nos with
                 | [] => UB
                 | no :: nos => rest <- incr_lines inds nos ;; Ok ((i + 1, no) :: rest)
                 end
  end.
(** [inds] = shotIndsIncr, [nos] = uniqueShotNos; [None]: no file is written. *)
Definition writeShotIndsIncr (inds nos : list Z) (shotIncr DH : Q) : res (option (list (Z * Z))) :=
  if negb (Qle_bool shotIncr DH) then
    if negb (Nat.eqb (List.length inds) (List.length nos)) then Throw
    else l <- incr_lines inds nos ;; Ok (Some l)
  else Ok None.
