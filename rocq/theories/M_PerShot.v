(** Model of Receivers::getModelPerShotSize, Receivers.cpp 574-700, called at Simulation.cpp 96: the width of the model of one shot.
    The settings are those of M_Acq; [recs] gives the receivers that getAcquisitionSettings reads for a shot number (223-305).
    Not modelled: the last part (677-692), which initialises the receivers with the settings of the last shot looked at. *)
From Verif Require Import Base M_Grid M_Acq.
Open Scope Z_scope.
Local Notation length := List.length.

(** std::vector::at *)
Definition at_ {A} (v : list A) (i : Z) : res A :=
  if i <? 0 then Throw else match nth_error v (Z.to_nat i) with Some a => Ok a | None => Throw end.

Section Size.
Context {F : Type}.
Variable big enc : list (@source F).          (* sourceSettingsBig, getSourceSettingsEncode() *)
Variable cuts : option (list coord).          (* cutCoordinates, if useStreamConfig *)
Variable recs : Z -> res (list receiver).
Variable NX BW useReceiversPerShot useSourceEncode numShotDomains : Z.

(** x - cutCoordinates.at(shotInd).x if useStreamConfig *)
Definition less_cut (x i : Z) : res Z := match cuts with None => Ok x | Some l => c <- at_ l i ;; Ok (x - cx c) end.
Fixpoint less_cuts (rs : list receiver) (i : Z) : res (list Z) :=
  match rs with [] => Ok [] | r :: rs => x <- less_cut (cx (receiverCoords r)) i ;; xs <- less_cuts rs i ;; Ok (x :: xs) end.

(** if (min > x) min = x; if (max < x) max = x; *)
Record ext := mkExt { x_min : Z; x_max : Z }.
Definition widen (e : ext) (x : Z) : ext := mkExt (if x <? x_min e then x else x_min e) (if x_max e <? x then x else x_max e).

(** 616-618: size()/10 is an integer division *)
Definition shotSkip : Z := let n := Z.of_nat (length big) in if 1 <? n / 10 then n / 10 else 1.
(** The body of the loop, 620-650; [s], [r] are the extents of the sources and of the receivers. *)
Definition look (i : Z) (s r : ext) : res (ext * ext) :=
  src <- vget (if useSourceEncode =? 0 then big else enc) i ;;
  x <- less_cut (cx (sourceCoords src)) i ;;
  let s := widen s x in
  rs <- (if (useReceiversPerShot =? 1) || (useReceiversPerShot =? 2) then recs (Z.abs (sourceNo src)) else Ok []) ;;
  xs <- less_cuts rs i ;;
  Ok (s, fold_left widen xs r).
(** The loop over shotInd, 619; the fuel is the number of sources. *)
Fixpoint looks (fuel : nat) (i : Z) (s r : ext) : res (ext * ext) :=
  if i <? Z.of_nat (length big) then
    match fuel with
    | O => Fuel
    | S fuel => ' (s, r) <- look i s r ;; looks fuel (i + shotSkip) s r
    end
  else Ok (s, r).

(** NXPerShot and numShotPerSuperShot *)
Definition getModelPerShotSize : res (Z * Z) :=
  if 0 <? useReceiversPerShot then
    s0 <- vget big 0 ;;
    x0 <- less_cut (cx (sourceCoords s0)) 0 ;;
    ' (s, r) <- looks (length big) 0 (mkExt x0 x0) (mkExt x0 x0) ;;
    let maxX := if x_max r <? x_max s then x_max s else x_max r in
    let minX := if x_min s <? x_min r then x_min s else x_min r in
    _ <- assert (BW <=? minX) ;;
    let NXPerShot := if NX <? maxX + BW + 1 then maxX + BW + 1 else NX in
    Ok (NXPerShot, if useSourceEncode =? 0 then 1 else cceil (Z.of_nat (length big)) numShotDomains)
  else Ok (NX, 1).
End Size.
