(** Model of the Hilbert transform by a FIR filter (src/Common/HilbertFIR.cpp, the class is in src/Common/Hilbert.hpp 56-73).
    ValueType is a real number or, as the result of 0/0, not a number ([None]); an access outside a vector is undefined
    behaviour.  kernelSize is at least 1. *)
From Coq Require Import Reals.
From Verif Require Import Base M_Acq.
Open Scope Z_scope.

Notation elem := (option R).
Definition eadd (a b : elem) : elem := match a, b with Some x, Some y => Some (x + y)%R | _, _ => None end.
Definition emul (a b : elem) : elem := match a, b with Some x, Some y => Some (x * y)%R | _, _ => None end.
Definition eopp (a : elem) : elem := option_map Ropp a.

(** k * w of one turn of the loop, HilbertFIR.cpp 24-27 and 29, with m = 1 - kernelSize + 2 n; cos(0) - 1 is divided by 0 when m = 0
    (that covers kernelSize = 1, where alpha is 0/0 too). *)
Definition firTerm (kernelSize n : Z) : elem :=
  let m := - kernelSize + 1 + 2 * n in
  if m =? 0 then None else
  let k := (- (cos (IZR m * PI) - 1) / (IZR m * PI))%R in
  let alpha := (PI * IZR n / IZR (kernelSize - 1))%R in
  let w := (0.42 - 0.5 * cos (2 * alpha) + 0.08 * cos (4 * alpha))%R in
  Some (k * w)%R.

(** The loop of calcHilbertCoefficient, 23-33: [turns] more turns from [n]. *)
Fixpoint firFill (kernelSize : Z) (turns : nat) (n : Z) (kernel : list elem) : res (list elem) :=
  match turns with
  | O => Ok kernel
  | S turns' =>
      kernel <- vset kernel n (firTerm kernelSize n) ;;
      kernel <- vset kernel (kernelSize - n - 1) (eopp (firTerm kernelSize n)) ;;
      firFill kernelSize turns' (n + 1) kernel
  end.
(** calcHilbertCoefficient, 10-34. *)
Definition firKernel (kernelSize : Z) : res (list elem) :=
  firFill kernelSize (Z.to_nat kernelSize) 0 (repeat (Some 0%R) (Z.to_nat kernelSize)).

(** The inner loop, 61-63 and 97-99: i = i, i+2, ... below [stop]; [fuel] bounds the number of turns. *)
Fixpoint firInner (fuel : nat) (data : list R) (kernel : list elem) (n stop i : Z) (h : elem) : res elem :=
  if negb (i <? stop) then Ok h else
  match fuel with
  | O => Fuel
  | S fuel' =>
      d <- vget data i ;; k <- vget kernel (Z.quot (n - i) 2) ;;
      firInner fuel' data kernel n stop (i + 2) (eadd h (emul (Some d) k))
  end.
(** One turn of the outer loop, 55-65 and 91-101: the value h for [n]; FIRlength = 2 kernelSize - 1. *)
Definition firSample (kernelSize : Z) (kernel : list elem) (data : list R) (n : Z) : res elem :=
  let len := kernelSize * 2 - 1 in
  let halfklen := Z.quot len 2 in
  let koffset := if halfklen =? kernelSize then 1 else 0 in
  let kmin := Z.max (n - (len - 1)) 0 + koffset in
  let kmax := Z.min n (Z.of_nat (length data) - 1) + koffset in
  firInner (length data) data kernel n (kmax - 1) kmin (Some 0%R).
(** The outer loop: [turns] more turns from [n], writing into [out]. *)
Fixpoint firOuter (turns : nat) (kernelSize : Z) (kernel : list elem) (data : list R) (n : Z) (out : list elem) : res (list elem) :=
  match turns with
  | O => Ok out
  | S turns' =>
      h <- firSample kernelSize kernel data n ;;
      out <- vset out (n - Z.quot (kernelSize * 2 - 1) 2) h ;;
      firOuter turns' kernelSize kernel data (n + 1) out
  end.
(** hilbert of a vector, 79-104: the result starts as a copy of the data. *)
Definition firHilbert (kernelSize : Z) (kernel : list elem) (data : list R) : res (list elem) :=
  firOuter (length data - 1) kernelSize kernel data (Z.quot (kernelSize * 2 - 1) 2) (map Some data).
(** hilbert of a matrix, 41-72: the result vector is created once, with zeros, and kept from row to row. *)
Fixpoint firRows (kernelSize : Z) (kernel : list elem) (rows : list (list R)) (trace : list elem) : res (list (list elem)) :=
  match rows with
  | [] => Ok []
  | r :: rows' =>
      trace <- firOuter (length r - 1) kernelSize kernel r (Z.quot (kernelSize * 2 - 1) 2) trace ;;
      rest <- firRows kernelSize kernel rows' trace ;;
      Ok (trace :: rest)
  end.
Definition firMatrix (kernelSize : Z) (kernel : list elem) (columns : nat) (rows : list (list R)) : res (list (list elem)) :=
  firRows kernelSize kernel rows (repeat (Some 0%R) columns).
