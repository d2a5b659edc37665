(** Model of Modelparameter::getShrinkVector, Modelparameter.cpp 181-215: the weights, on the big model, of the model of one shot.
    Values are real numbers; the vector is the whole one, of all processes. *)
From Coq Require Import Reals.
From Verif Require Import Base M_Grid M_Average.
Open Scope Z_scope.
Local Notation length := List.length.

(** vector[k] = x *)
Fixpoint setAt (v : list R) (k : nat) (x : R) : list R :=
  match v, k with
  | [], _ => []
  | _ :: v, O => x :: v
  | a :: v, S k => a :: setAt v k x
  end.
(** An assignment to the value at a coordinate of the big model; coordinate2index throws outside it. *)
Definition assign (big : grid) (v : list R) (a : coord * R) : res (list R) :=
  k <- coordinate2index big (fst a) ;; Ok (setAt v (Z.to_nat k) (snd a)).
Fixpoint assigns (big : grid) (v : list R) (l : list (coord * R)) : res (list R) :=
  match l with [] => Ok v | a :: l => v <- assign big v a ;; assigns big v l end.

(** tmp = sin(i * M_PI / (width * 2.0)); tmp *= tmp; 203-204 and 208-209 *)
Definition damp (width i : Z) : R := let tmp := sin (IZR i * PI / (IZR width * 2)) in (tmp * tmp)%R.

(** The assignments of the loop for one y, 202-211; [nx] is modelCoordinates.getNX(). *)
Definition border (cut : coord) (nx left right y : Z) : list (coord * R) :=
  map (fun i => (mkC (cx cut + i) y 0, damp left i)) (zseq 0 (Z.to_nat left)) ++
  map (fun i => (mkC (cx cut + nx - 1 - i) y 0, damp right i)) (zseq 0 (Z.to_nat right)).

(** 190-198: the coordinates of the submodel, moved by cutCoordinate. *)
Definition moved (sub : grid) (cut : coord) (i : Z) : res (coord * R) :=
  c <- index2coordinate sub i ;; Ok (mkC (cx c + cx cut) (cy c + cy cut) (cz c + cz cut), 1%R).

Definition getShrinkVector (sub big : grid) (cut : coord) (left right : Z) : res (list R) :=
  inside <- mapres (moved sub cut) (zseq 0 (Z.to_nat (nGridpoints sub))) ;;
  v <- assigns big (repeat 0%R (Z.to_nat (nGridpoints big))) inside ;;
  assigns big v (flat_map (border cut (gNX sub) left right) (zseq 0 (Z.to_nat (gNY big)))).
