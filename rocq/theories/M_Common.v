(** Model of helper functions of src/Common/Common.hpp, of the snapshot condition of src/Simulation.cpp and of the
    list of receiver types of src/Acquisition/Receivers.cpp.  ValueType is a real number; a vector is the list of its
    local values. *)
From Coq Require Import Reals.
From Verif Require Import Base M_Seis.
Open Scope Z_scope.

(** searchAndReplace, Common.hpp 67-120. *)
Definition searchAndReplace (v : list R) (threshold replaceValue : R) (compareType : Z) : res (list R) :=
  if compareType =? 1 then Ok (map (fun x => if Rlt_dec x threshold then replaceValue else x) v)
  else if compareType =? 2 then Ok (map (fun x => if Rlt_dec threshold x then replaceValue else x) v)
  else if compareType =? 3 then Ok (map (fun x => if Rle_dec x threshold then replaceValue else x) v)
  else if compareType =? 4 then Ok (map (fun x => if Rle_dec threshold x then replaceValue else x) v)
  else if compareType =? 5 then Ok (map (fun x => if Req_EM_T x threshold then replaceValue else x) v)
  else Throw.

(** replaceVpwithVs, Common.hpp 148-181; reading velocityS beyond its end is undefined behaviour. *)
Fixpoint limit_loop (below : bool) (ratio : R) (vp vs : list R) : res (list R) :=
  match vp, vs with
  | [], _ => Ok []
  | _ :: _, [] => UB
  | p :: vp, s :: vs =>
      let replaceValue := (ratio * s)%R in
      let p' := if below then (if Rlt_dec p replaceValue then replaceValue else p)
                else (if Rlt_dec replaceValue p then replaceValue else p) in
      rest <- limit_loop below ratio vp vs ;; Ok (p' :: rest)
  end.
Definition replaceVpwithVs (vp vs : list R) (ratio : R) (compareType : Z) : res (list R) :=
  if compareType =? 1 then limit_loop true ratio vp vs
  else if compareType =? 2 then limit_loop false ratio vp vs
  else Throw.

(** replaceInvalid, Common.hpp 127-141; a floating-point value is a number, an infinity or not a number. *)
Inductive fpv := Num (x : R) | PInf | MInf | NaN.
Definition replaceInvalid (v : list fpv) (replaceValue : fpv) : list fpv :=
  map (fun x => match x with Num _ => x | _ => replaceValue end) v.

(** calcNextPowTwo, Common.hpp 186-194: 2 to the power ceil(log(nt)/log(2)), cast to an integer.  log(0) is minus
    infinity and 2 to that power is 0. *)
Definition ceilR (x : R) : Z := - Int_part (- x).
Definition calcNextPowTwo (nt : Z) : Z :=
  if nt =? 0 then 0 else Int_part (Rpower 2 (IZR (ceilR (ln (IZR nt) / ln 2)))).

(** time2index, Common.hpp 239-243: conversion to an integer truncates towards zero. *)
Definition truncR (x : R) : Z := if Rle_dec 0 x then Int_part x else - Int_part (- x).
Definition time2index (time DT : R) : Z := truncR (time / DT + 1 / 2).

(** Phase unwrapping of one trace, Common.hpp 321-338; the input are the values of atan2, M_PI is pi. *)
Fixpoint unwrap_from (prevWrapped prevOut : R) (ws : list R) : list R :=
  match ws with
  | [] => []
  | w :: ws =>
      let d := (w - prevWrapped)%R in
      let d := (if Rlt_dec PI d then d - 2 * PI else if Rlt_dec d (- PI) then d + 2 * PI else d)%R in
      let out := (prevOut + d)%R in
      out :: unwrap_from w out ws
  end.
Definition unwrap (ws : list R) : list R :=
  match ws with [] => [] | w :: ws => w :: unwrap_from w w ws end.

(** calcInstantaneousPhaseResidual, Common.hpp 348-390, one trace; [r] = observed minus synthetic phase. *)
Definition shifted (r : list R) (k : Z) : list R := map (fun x => (x + IZR k * 2 * PI)%R) r.
Fixpoint residual_loop (fuel : nat) (step : Z) (r best : list R) (k : Z) : res (list R) :=
  match fuel with
  | O => Fuel
  | S f => if Rle_dec (l2Norm (shifted r k)) (l2Norm best) then residual_loop f step r (shifted r k) (k + step) else Ok best
  end.
Definition phaseResidual (fuel : nat) (r : list R) : res (list R) :=
  if Rle_dec (l2Norm (shifted r 1)) (l2Norm r) then residual_loop fuel 1 r r 1
  else if Rle_dec (l2Norm (shifted r (-1))) (l2Norm r) then residual_loop fuel (-1) r r (-1)
  else Ok r.

(** The time steps at which a snapshot is written, Simulation.cpp 437-469 (and 481-513); the remainder by zero is
    undefined behaviour.  && is evaluated from left to right. *)
Fixpoint snapshots (snapType first last inc : Z) (steps : list Z) : res (list Z) :=
  match steps with
  | [] => Ok []
  | t :: steps =>
      b <- (if (snapType >? 0) && (t >=? first) && (t <=? last) then r <- crem (t - first) inc ;; Ok (r =? 0) else Ok false) ;;
      rest <- snapshots snapType first last inc steps ;;
      Ok (if b : bool then t :: rest else rest)
  end.
Definition run_snapshots (snapType : Z) (tFirst tLast tInc DT : R) (tStepEnd : Z) : res (list Z) :=
  snapshots snapType (time2index tFirst DT) (time2index tLast DT) (time2index tInc DT) (zseq 0 (Z.to_nat tStepEnd)).

(** uniqueReceiverTypes of initWholeSpace, Receivers.cpp 161-180. *)
Definition differing (t : Z) (us : list Z) : Z := zsum (map (fun u => if u =? t then 0 else 1) us).
Definition unique_step (us : list Z) (t : Z) : list Z := if negb (differing t us =? 0) then us ++ [t] else us.
Definition uniqueReceiverTypes (ts : list Z) : res (list Z) :=
  match ts with [] => UB | t0 :: _ => Ok (fold_left unique_step ts [t0]) end.
