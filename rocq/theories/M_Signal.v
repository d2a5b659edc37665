(** Model of the synthetic source signals, src/Acquisition/SourceSignal/*.cpp, and of their selection in
    src/Acquisition/Sources.cpp.  ValueType is a real number, a vector the list of its values; every vector below has NT
    elements (the constructor gets a vector of that size, Sources.cpp 153). *)
From Coq Require Import Reals.
From Verif Require Import Base.
Open Scope R_scope.

(** ** Vector operations (LAMA), element by element *)
Definition vmap1 (f : R -> R) (v : list R) : list R := map f v.
Definition vmap2 (f : R -> R -> R) (u v : list R) : list R := map (fun p => f (fst p) (snd p)) (combine u v).
Definition fillv (n : Z) (x : R) : list R := repeat x (Z.to_nat n).
(** linearDenseVector(NT, 0, DT): element i is 0 + i * DT *)
Definition linearv (n : Z) (DT : R) : list R := map (fun i => INR i * DT) (seq 0 (Z.to_nat n)).
(** setValue with an index outside the vector is undefined. *)
Definition setValue (v : list R) (i : Z) (x : R) : res (list R) :=
  if ((0 <=? i) && (i <? Z.of_nat (length v)))%Z then Ok (firstn (Z.to_nat i) v ++ x :: skipn (S (Z.to_nat i)) v) else UB.
Definition floorR (x : R) : Z := Int_part x.
Definition maxNorm (v : list R) : R := fold_right (fun x m => Rmax (Rabs x) m) 0 v.
Definition sgn (x : R) : R := if Rlt_dec x 0 then -1 else if Rlt_dec 0 x then 1 else 0.

(** The assertions at the head of every class, for example Ricker.cpp 32-34. *)
Definition checked {A} (NT : Z) (DT FC : R) (k : res A) : res A :=
  if (0 <? NT)%Z then if Rlt_dec 0 DT then if Rlt_dec 0 FC then k else Throw else Throw else Throw.

(** Ricker.cpp 41-52 *)
Definition ricker (NT : Z) (DT FC AMP Tshift : R) : res (list R) := checked NT DT FC (
  let t := linearv NT DT in
  let help := fillv NT (3 / 2 / FC + Tshift) in
  let tau := vmap2 Rminus t help in
  let tau := vmap1 (fun x => x * (PI * FC)) tau in
  let one := fillv NT 1 in
  let help := vmap2 Rmult tau tau in
  let tau := vmap1 (fun x => -1 * x) help in
  let tau := vmap1 exp tau in
  let help := vmap2 (fun x y => x - 2 * y) one help in
  Ok (vmap2 (fun x y => AMP * x * y) help tau)).

(** FGaussian.cpp 41-51 *)
Definition fgaussian (NT : Z) (DT FC AMP Tshift : R) : res (list R) := checked NT DT FC (
  let t := linearv NT DT in
  let help := fillv NT (12 / 10 / FC + Tshift) in
  let tau := vmap2 Rminus t help in
  let tau := vmap1 (fun x => x * (PI * FC)) tau in
  let help := vmap1 (fun x => -2 * x) tau in
  let tau := vmap2 (fun x y => -1 * x * y) tau tau in
  let tau := vmap1 exp tau in
  Ok (vmap2 (fun x y => AMP * x * y) help tau)).

(** Ricker_GprMax.cpp 42-58 *)
Definition ricker_gprmax (NT : Z) (DT FC AMP Tshift : R) : res (list R) := checked NT DT FC (
  let t := linearv NT DT in
  let help := fillv NT (1 / FC + Tshift) in
  let tau := vmap2 Rminus t help in
  let zeta := fillv NT (2 * PI * PI * FC * FC) in
  let help := vmap2 Rmult tau tau in
  let help := vmap2 Rmult zeta help in
  let help := vmap1 (fun x => -1 * x) help in
  let help := vmap1 exp help in
  let tau := vmap2 Rmult help tau in
  let help := vmap1 (fun x => 1 / x) zeta in
  let help := vmap1 (fun x => x / 4) help in
  let help := vmap1 exp help in
  let zeta := vmap2 Rmult zeta help in
  let zeta := vmap1 (fun x => -2 * x) zeta in
  Ok (vmap2 (fun x y => AMP * x * y) zeta tau)).

(** Sin.cpp 42-47 *)
Definition sin_signal (NT : Z) (DT FC AMP Tshift : R) : res (list R) := checked NT DT FC (
  let tau := linearv NT DT in
  let tau := vmap1 (fun x => x - Tshift) tau in
  let tau := vmap1 (fun x => x * (2 * PI * FC)) tau in
  let tau := vmap1 sin tau in
  Ok (vmap1 (fun x => AMP * x) tau)).

(** Berlage.cpp 46-64.  pow(tau, 2) is the square.  With maximum norm 0 the quotient AMP / 0 is not finite and all samples
    0 * (AMP / 0) are not a number: [None]. *)
Definition berlage (NT : Z) (DT FC AMP Tshift : R) : res (option (list R)) := checked NT DT FC (
  let t := linearv NT DT in
  let help := fillv NT (1 / FC + Tshift) in
  let tau := vmap2 Rminus t help in
  let alpha := 2 * FC in
  let t := vmap1 (fun x => 2 * PI * FC * x) tau in
  let signal := vmap1 cos t in
  let heaviside := vmap1 sgn tau in
  let heaviside := vmap1 (fun x => x + 1) heaviside in
  let heaviside := vmap1 sgn heaviside in
  let help := vmap1 (fun x => x ^ 2) tau in
  let tau := vmap1 (fun x => x * - alpha) tau in
  let tau := vmap1 exp tau in
  let signal := vmap2 Rmult signal help in
  let signal := vmap2 Rmult signal tau in
  let signal := vmap2 Rmult signal heaviside in
  if Req_EM_T (maxNorm signal) 0 then Ok None
  else let f := AMP / maxNorm signal in Ok (Some (vmap1 (fun x => x * f) signal))).

(** The loop over the samples i1 .. i2 with its counter, SinThree.cpp 57-64. *)
Fixpoint write_from (v : list R) (i : Z) (n : nat) (f : nat -> R) (count : nat) : res (list R) :=
  match n with
  | O => Ok v
  | S n' => v' <- setValue v i (f count) ;; write_from v' (i + 1) n' f (S count)
  end.
Definition write_window (v : list R) (i1 i2 : Z) (f : nat -> R) : res (list R) := write_from v i1 (Z.to_nat (i2 - i1 + 1)) f 0.
(** The first and the last index, SinThree.cpp 47-53 (SinW.cpp, IntgSinThree.cpp the same). *)
Definition window {A} (NT : Z) (DT FC Tshift : R) (k : Z -> Z -> res A) : res A :=
  let i1 := floorR (Tshift / DT) in
  let i2 := (i1 + floorR (1 / FC / DT))%Z in
  if (i1 <? NT)%Z then k i1 (if (NT <? i2)%Z then NT - 1 else i2)%Z else Throw.

(** SinThree.cpp 42-66 *)
Definition sinthree (NT : Z) (DT FC AMP Tshift : R) : res (list R) := checked NT DT FC (
  window NT DT FC Tshift (fun i1 i2 =>
  let zero := fillv NT 0 in
  zero <- write_window zero i1 i2 (fun c => (sin (INR c * DT * PI * FC)) ^ 3) ;;
  Ok (vmap1 (fun x => AMP * x) zero))).

(** SinW.cpp 42-71; the two vectors written in one loop are written one after the other here. *)
Definition sinw (NT : Z) (DT FC AMP Tshift : R) : res (list R) := checked NT DT FC (
  window NT DT FC Tshift (fun i1 i2 =>
  help <- write_window (fillv NT 0) i1 i2 (fun c => sin (2 * INR c * DT * PI * FC)) ;;
  zero <- write_window (fillv NT 0) i1 i2 (fun c => sin (2 * (2 * INR c * DT * PI * FC))) ;;
  let zero := vmap1 (fun x => x / 2) zero in
  let help := vmap2 Rminus help zero in
  Ok (vmap1 (fun x => AMP * x) help))).

(** IntgSinThree.cpp 42-75 *)
Definition intgsinthree (NT : Z) (DT FC AMP Tshift : R) : res (list R) := checked NT DT FC (
  window NT DT FC Tshift (fun i1 i2 =>
  let half := fillv NT (1 / 2) in
  help <- write_window (fillv NT 0) i1 i2 (fun c => cos (INR c * DT * PI * FC)) ;;
  zero <- write_window (fillv NT 0) i1 i2 (fun c => (cos (INR c * DT * PI * FC)) ^ 3) ;;
  let help := vmap1 (fun x => 75 / 100 * x) help in
  let zero := vmap1 (fun x => 25 / 100 * x) zero in
  let zero := vmap2 Rminus zero help in
  let zero := vmap2 Rplus half zero in
  let zero := vmap1 (fun x => x / FC) zero in
  let zero := vmap1 (fun x => x / PI) zero in
  let zero := vmap1 (fun x => x / (75 / 100)) zero in
  Ok (vmap1 (fun x => AMP * x) zero))).

(** Spike.cpp 33-50; there is no assertion on FC. *)
Definition spike (NT : Z) (DT FC AMP Tshift : R) : res (list R) := checked NT DT 1 (
  let i := floorR (Tshift / DT) in
  if (i <? NT)%Z then help <- setValue (fillv NT 0) i 1 ;; Ok (vmap1 (fun x => AMP * x) help) else Throw).

(** ** Selection *)
Definition samples (r : res (list R)) : res (option (list R)) := v <- r ;; Ok (Some v).
(** Sources.cpp 151-213 generateSyntheticSignal *)
Definition synthetic (shape : Z) (NT : Z) (DT FC AMP Tshift : R) : res (option (list R)) :=
  match shape with
  | 1 => samples (ricker NT DT FC AMP Tshift)
  | 2 => samples (sinw NT DT FC AMP Tshift)
  | 3 => samples (sinthree NT DT FC AMP Tshift)
  | 4 => samples (fgaussian NT DT FC AMP Tshift)
  | 5 => samples (spike NT DT FC AMP Tshift)
  | 6 => samples (intgsinthree NT DT FC AMP Tshift)
  | 7 => samples (ricker_gprmax NT DT FC AMP Tshift)
  | 8 => berlage NT DT FC AMP Tshift
  | 9 => samples (sin_signal NT DT FC AMP Tshift)
  | _ => Throw
  end%Z.

(** The data of one local source, and the flags kept by the object (Sources.hpp 83-84). *)
Record wavelet := Wavelet { w_type : Z; w_shape : Z; w_fc : R; w_amp : R; w_tshift : R; w_row : Z }.
Record flags := Flags { flag2 : bool; flag3 : bool }.
Definition flags0 : flags := Flags false false.
(** Sources.cpp 90-142 generateSignals; [file r] is what reading row r of the signal file gives; the flags stay in the object
    when an exception leaves the function, which ends the program.  The local sources are taken one by one; on one process they are
    all sources. *)
Fixpoint generate (file : Z -> res (list R)) (NT : Z) (DT : R) (fl : flags) (ws : list wavelet) : res (flags * list (option (list R))) :=
  match ws with
  | [] => Ok (fl, [])
  | w :: ws' =>
      ' (fl, s) <- match w_type w with
        | 1%Z => s <- synthetic (w_shape w) NT DT (w_fc w) (w_amp w) (w_tshift w) ;; Ok (fl, s)
        | 2%Z => if flag3 fl then Throw else s <- file 0%Z ;; Ok (Flags true (flag3 fl), Some s)
        | 3%Z => if flag2 fl then Throw else s <- file (w_row w) ;; Ok (Flags (flag2 fl) true, Some s)
        | _ => Throw
        end ;;
      ' (fl, r) <- generate file NT DT fl ws' ;; Ok (fl, s :: r)
  end.
(** The shots of one process, one after the other with the same object (Simulation.cpp 363-383). *)
Fixpoint generate_shots (file : Z -> res (list R)) (NT : Z) (DT : R) (fl : flags) (shots : list (list wavelet)) : res (list (list (option (list R)))) :=
  match shots with
  | [] => Ok []
  | ws :: l => ' (fl, r) <- generate file NT DT fl ws ;; rs <- generate_shots file NT DT fl l ;; Ok (r :: rs)
  end.
