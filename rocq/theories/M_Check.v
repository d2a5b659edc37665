(** Model of src/CheckParameter/CheckParameter.hpp and of the name check and time index of
    src/Common/Common.hpp.  ValueType is a real number, IndexType an integer. *)
From Coq Require Import Reals Ascii String.
From Verif Require Import Base M_Grid M_Acq M_Conf.
Open Scope Z_scope.
Local Notation length := List.length.

(** checkEquationType, Common.hpp 248-265. *)
Definition checkEquationType (type : str) : res bool :=
  let t := lower type in
  let seismic := str_eqb t (txt "acoustic") || str_eqb t (txt "elastic") || str_eqb t (txt "viscoelastic")
                 || str_eqb t (txt "sh") || str_eqb t (txt "viscosh") in
  let em := str_eqb t (txt "emem") || str_eqb t (txt "tmem") || str_eqb t (txt "viscoemem") || str_eqb t (txt "viscotmem") in
  _ <- assert (seismic || em) ;;
  Ok (if seismic then true else if em then false else true).

(** checkStabilityCriterion, CheckParameter.hpp 60-113; the quotients of integer literals are integer divisions.
    Printing is left out. *)
Definition cfl_dim (dimension : str) : res Z :=
  if str_eqb dimension (txt "2D") then Ok 2 else if str_eqb dimension (txt "3D") then Ok 3 else Throw.
Definition cfl_h (spFDo : Z) : res Z :=
  if spFDo =? 2 then Ok 1
  else if spFDo =? 4 then cdiv 7 6
  else if spFDo =? 6 then cdiv 149 120
  else if spFDo =? 8 then cdiv 2161 1680
  else if spFDo =? 10 then cdiv 53089 40320
  else if spFDo =? 12 then cdiv 1187803 887040
  else Throw.
(** a <= b / c; the quotient of a positive number by zero is infinite in floating point arithmetic. *)
Definition le_quot (a b c : R) : bool :=
  if Req_EM_T c 0 then (if Rlt_dec 0 b then true else false) else (if Rle_dec a (b / c) then true else false).
Definition checkStabilityCriterion (rank : Z) (dt DH vpMax : R) (dimension : str) (spFDo : Z) : res unit :=
  if rank =? 0 then
    D <- cfl_dim dimension ;;
    h <- cfl_h spFDo ;;
    if le_quot dt DH (IZR h * sqrt (IZR D) * vpMax) then Ok tt else Throw
  else Ok tt.

(** checkNumericalDispersion, CheckParameter.hpp 121-161; the result tells whether the warning is printed. *)
Definition disp_N (spFDo : Z) : res Z :=
  if spFDo =? 2 then Ok 12 else if spFDo =? 4 then Ok 8 else if spFDo =? 6 then Ok 7
  else if spFDo =? 8 then Ok 6 else if spFDo =? 10 then Ok 5 else if spFDo =? 12 then Ok 4 else Throw.
Definition checkNumericalDispersion (rank : Z) (DH vMin fcMax : R) (spFDo : Z) : res bool :=
  if rank =? 0 then
    N <- disp_N spFDo ;;
    Ok (negb (le_quot DH vMin (2 * fcMax * IZR N)))
  else Ok false.

(** The loop over the owned points in checkNumericalArtefactsAndInstabilities, CheckParameter.hpp 200-218.
    [vhi], [vlo] are vMaxTmp and vMinTmp by global index; the arrays vMax and vMin are functions of the layer. *)
Definition upd {A} (f : Z -> A) (k : Z) (v : A) : Z -> A := fun j => if j =? k then v else f j.
Definition in_layers (g : grid) (k : Z) : bool := (0 <=? k) && (k <? Z.of_nat (numLayers g)).
Fixpoint extremes (g : grid) (ratio : bool) (vhi vlo : Z -> R) (owned : list Z) (vMax vMin : Z -> R)
  : res ((Z -> R) * (Z -> R)) :=
  match owned with
  | [] => Ok (vMax, vMin)
  | i :: owned =>
      c <- index2coordinate g i ;;
      k <- getLayer g (cy c) ;;
      _ <- (if ratio then (if Rle_dec (sqrt 2) (vhi i / vlo i) then Ok tt else Throw) else Ok tt) ;;
      if in_layers g k then
        let vMax := if Rlt_dec (vMax k) (vhi i) then upd vMax k (vhi i) else vMax in
        let vMin := if Rlt_dec (vlo i) (vMin k) then (if Rlt_dec 0 (vlo i) then upd vMin k (vlo i) else vMin) else vMin in
        extremes g ratio vhi vlo owned vMax vMin
      else UB
  end.
(** All processes of the shot; minImpl and maxImpl, lines 221-222. *)
Fixpoint all_extremes (g : grid) (ratio : bool) (vhi vlo : Z -> R) (procs : list (list Z)) : res ((Z -> R) * (Z -> R)) :=
  match procs with
  | [] => Ok (fun _ => 0%R, fun _ => 300000000%R)
  | owned :: procs =>
      p <- extremes g ratio vhi vlo owned (fun _ => 0%R) (fun _ => 300000000%R) ;;
      q <- all_extremes g ratio vhi vlo procs ;;
      Ok (fun k => Rmax (fst p k) (fst q k), fun k => Rmin (snd p k) (snd q k))
  end.
(** fcMax, lines 224-228. *)
Definition fc_max (fcs : list R) : R := fold_left (fun m f => if Rlt_dec m f then f else m) fcs 0%R.
(** The checks of all layers, lines 240-248, on process [rank]. *)
Fixpoint check_layers (ks : list Z) (rank : Z) (dt : R) (DHs vMax vMin : Z -> R) (fcMax : R) (dimension : str)
  (orders : list Z) : res (list bool) :=
  match ks with
  | [] => Ok []
  | k :: ks =>
      o <- vget orders k ;;
      _ <- checkStabilityCriterion rank dt (DHs k) (vMax k) dimension o ;;
      w <- checkNumericalDispersion rank (DHs k) (vMin k) fcMax o ;;
      ws <- check_layers ks rank dt DHs vMax vMin fcMax dimension orders ;;
      Ok (w :: ws)
  end.

(** checkNumericalArtefactsAndInstabilities, lines 165-250, for a configuration without initSourcesFromSU.
    [equationType] is the text of the configuration, compared here with its letter case.  The getters of the
    velocities throw when the model has none ([vP], [vS], [vEM] are then [Throw]).  DHs k is getDH(k). *)
Definition checkArtefacts (g : grid) (rank : Z) (equationType dimension : str) (dt : R) (DHs : Z -> R)
  (orders : list Z) (fcs : list R) (vP vS vEM : res (Z -> R)) (procs : list (list Z)) : res (list bool) :=
  isSeismic <- checkEquationType equationType ;;
  '(vhi, vlo) <- (if isSeismic : bool then
       hi <- (if str_eqb equationType (txt "sh") || str_eqb equationType (txt "viscosh") then vS else vP) ;;
       lo <- (if str_eqb equationType (txt "acoustic") then vP else vS) ;; Ok (hi, lo)
     else v <- vEM ;; Ok (v, v)) ;;
  let ratio := str_eqb equationType (txt "elastic") || str_eqb equationType (txt "viscoelastic") in
  p <- all_extremes g ratio vhi vlo procs ;;
  check_layers (zseq 0 (numLayers g)) rank dt DHs (fst p) (snd p) (fc_max fcs) dimension orders.

(** checkSources, lines 258-278 and checkReceivers, lines 285-307: the coordinates of all entries in order. *)
Definition coord_eqb (a b : coord) : bool := (cx a =? cx b) && (cy a =? cy b) && (cz a =? cz b).
Fixpoint checkPoints (g : grid) (cs : list coord) : res unit :=
  match cs with
  | [] => Ok tt
  | c :: cs =>
      if (cx c >=? gNX g) || (cx c <? 0) || (cy c >=? gNY g) || (cy c <? 0) || (cz c >=? gNZ g) || (cz c <? 0) then Throw
      else
        i <- coordinate2index g c ;;
        q <- index2coordinate g i ;;
        if negb (coord_eqb q c) then Throw else checkPoints g cs
  end.
Definition checkSources {F} (g : grid) (l : list (source F)) : res unit := checkPoints g (map sourceCoords l).
Definition checkReceivers (g : grid) (l : list receiver) : res unit := checkPoints g (map receiverCoords l).
