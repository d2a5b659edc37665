(** Absorbing boundaries: the CPML coefficient vectors and the exponential damping frame. *)
From Coq Require Import QArith Qreals Reals.
From Verif Require Import Base M_Grid.
Open Scope R_scope.

(* ------------------------------------------------------------------ *)
(** ** CPML *)

(** The parameters NPower, CenterFrequencyCPML, VMaxCPML, DT of calcCoeffCPML. *)
Record pml_par := mkPP { p_N : R; p_fc : R; p_V : R; p_DT : R }.

(** CPML.cpp calcCoeffCPML 39-68, one pass of the loop: the pair (a[i], b[i]).  [W] is BoundaryWidth = a.size(),
    [dh] the grid spacing, [shift] the flag shiftGrid.  [pow] is modelled by Rpower, which agrees with it for positive
    base (the base is positive for every i < BoundaryWidth); real arithmetic instead of floating point. *)
Definition cpml_coeff (pp : pml_par) (W : Z) (dh : R) (shift : bool) (i : Z) : R * R :=
  let sh := if shift then 0.5 else 0 in
  let RCoef := 0.0008 in
  let alpha_max := 2 * PI * (p_fc pp / 2) in
  let d0 := - (p_N pp + 1) * p_V pp * ln RCoef / (2 * IZR W * dh) in
  let pos := (IZR W - IZR i - sh) / IZR W in
  let d := d0 * Rpower pos (p_N pp) in
  let alpha := alpha_max * (1 - pos) in
  let b := exp (- (d + alpha) * p_DT pp) in
  let a := if Rlt_dec 1e-6 (Rabs d) then d * (b - 1) / (d + alpha) else 0 in
  (a, b).
(** the whole table *)
Definition calcCoeffCPML (pp : pml_par) (W : Z) (dh : R) (shift : bool) : list (R * R) :=
  map (cpml_coeff pp W dh shift) (zseq 0 (Z.to_nat W)).

(** [std::ceil((float)BoundaryWidth / dhFactor)], CPML2DAcoustic.cpp 142, 172 and the other classes; the float division is
    taken to be exact (it is for widths below 2^24). *)
Definition pml_width (BW d : Z) : res Z := if (d =? 0)%Z then UB else Ok (- (- BW / d))%Z.

(** The entries of a_x, b_x, a_x_half, b_x_half (or y, z) at one grid point; 0 if nothing was pushed. *)
Record cpml_pt := mkPT { pt_a : R; pt_b : R; pt_ah : R; pt_bh : R }.
Definition pt0 := mkPT 0 0 0 0.

(** One direction of the loop over the grid points (CPML2DAcoustic.cpp 176-208, CPML3DAcoustic.cpp, CPML2D.cpp, CPML3D.cpp,
    CPMLEM2D.cpp, CPMLEM3D.cpp init: the six loops have the same text).  [x] is the coordinate, [gd] the distance to the
    edges, [d] the dhFactor of the layer, [tab] and [tabh] its tables, [skip] tells that nothing is pushed at the low side
    (y direction with free surface). *)
Definition cpml_axis (tab tabh : list (R * R)) (width d x gd : Z) (skip : bool) : res cpml_pt :=
  dist <- cdiv gd d ;;
  if (dist <? width)%Z then
    co <- cdiv x d ;;
    if (co <? width)%Z then
      (if skip then Ok pt0
       else ab <- vget tab dist ;; abh <- vget tabh dist ;; Ok (mkPT (fst ab) (snd ab) (fst abh) (snd abh)))
    else ab <- vget tab dist ;; abh <- vget tabh dist ;; Ok (mkPT (fst abh) (snd abh) (fst ab) (snd ab))
  else Ok pt0.

(** The part of the loop body before the directions; the tables of the layer are those computed in the first loop (lines
    140-153) for spacing getDH(layer) = DH * dhFactor(layer).  A negative width makes the std::vector constructor throw. *)
Definition cpml_point (dirs : coord -> coord -> list (Z * Z * bool)) (pp : pml_par) (DH : R) (BW : Z)
    (g : grid) (i : Z) : res (list cpml_pt) :=
  c <- index2coordinate g i ;;
  k <- getLayer g (cy c) ;;
  gd <- edgeDistance g c ;;
  l <- vget (layers g) k ;;
  w <- pml_width BW (ldh l) ;;
  _ <- assert (0 <=? w)%Z ;;
  let tab := calcCoeffCPML pp w (DH * IZR (ldh l)) false in
  let tabh := calcCoeffCPML pp w (DH * IZR (ldh l)) true in
  (fix go ds := match ds with
    | [] => Ok []
    | (x, e, s) :: ds' => p <- cpml_axis tab tabh w (ldh l) x e s ;; ps <- go ds' ;; Ok (p :: ps)
    end) (dirs c gd).

(** init of the 2-D classes (x and y) and of the 3-D classes (x, y and z); [fs] is useFreeSurface. *)
Definition dirs2D (fs : Z) (c gd : coord) := [(cx c, cx gd, false); (cy c, cy gd, negb (fs =? 0)%Z)].
Definition dirs3D (fs : Z) (c gd : coord) := [(cx c, cx gd, false); (cy c, cy gd, negb (fs =? 0)%Z); (cz c, cz gd, false)].
Definition cpml_init2D pp DH BW fs := cpml_point (dirs2D fs) pp DH BW.
Definition cpml_init3D pp DH BW fs := cpml_point (dirs3D fs) pp DH BW.

(** estimateMemory of the CPML classes (CPML2DAcoustic.cpp 52-90 and the others): the counter after one grid point. *)
Definition cpml_count_axis (width d x gd : Z) (skip : bool) : res Z :=
  dist <- cdiv gd d ;;
  if (dist <? width)%Z then co <- cdiv x d ;; (if (co <? width)%Z then Ok (if skip then 0 else 1)%Z else Ok 1%Z) else Ok 0%Z.
Definition cpml_count_point (dirs : coord -> coord -> list (Z * Z * bool)) (BW : Z) (g : grid) (i : Z) : res Z :=
  c <- index2coordinate g i ;;
  k <- getLayer g (cy c) ;;
  gd <- edgeDistance g c ;;
  l <- vget (layers g) k ;;
  w <- pml_width BW (ldh l) ;;
  (fix go ds := match ds with
    | [] => Ok 0%Z
    | (x, e, s) :: ds' => n <- cpml_count_axis w (ldh l) x e s ;; m <- go ds' ;; Ok (n + m)%Z
    end) (dirs c gd).

(* ------------------------------------------------------------------ *)
(** ** Exponential damping (ABS) *)

(** ABS2D.cpp init 128-138 / ABS3D.cpp init: coeff[j]. *)
Definition abs_coeff (BW : Z) (D : R) (j : Z) : R :=
  let amp := 1 - D / 100 in
  let a := sqrt (- ln amp / (IZR BW * IZR BW)) in
  exp (- (a * a * (IZR BW - IZR j) * (IZR BW - IZR j))).
Definition abs_table (BW : Z) (D : R) : list R := map (abs_coeff BW D) (zseq 0 (Z.to_nat BW)).

(** ABS2D.cpp: which table entry a grid point gets (lines 146-172), None if nothing is pushed. [coord3D::min] is
    Coordinates.hpp 39-52; the 2-D class takes the minimum of x and y. *)
Definition abs_index2D (BW fs : Z) (c dist : coord) : option Z :=
  let m := if (cx dist <? cy dist)%Z then cx dist else cy dist in
  if (fs =? 0)%Z then (if (m <? BW)%Z then Some m else None)
  else if (cy c <? BW)%Z then (if (cx dist <? BW)%Z then Some (cx dist) else None)
  else if (m <? BW)%Z then Some m else None.

(** ABS3D.cpp 184-211. *)
Definition coord_min (c : coord) : Z :=
  let t := if (cx c <? cy c)%Z then cx c else cy c in if (cz c <? t)%Z then cz c else t.
Definition abs_index3D (BW fs : Z) (c dist : coord) : option Z :=
  let m := coord_min dist in
  if (fs =? 0)%Z then (if (m <? BW)%Z then Some m else None)
  else
    let xz := if negb (cx dist <? cz dist)%Z then cz dist else cx dist in
    if (cy c <? BW)%Z then (if ((cz dist <? BW) || (cx dist <? BW))%Z%bool then Some xz else None)
    else if (m <? BW)%Z then Some m else None.

(** init: entry i of the vector damping (default 1). *)
Definition abs_init (index : Z -> Z -> coord -> coord -> option Z) (BW : Z) (D : R) (fs : Z) (g : grid) (i : Z) : res R :=
  c <- index2coordinate g i ;;
  dist <- edgeDistance g c ;;
  match index BW fs c dist with None => Ok 1 | Some j => vget (abs_table BW D) j end.

(** estimateMemory, ABS2D.cpp 57-97: increment of the counter for one point ... *)
Definition abs_counts2D (BW fs : Z) (c dist : coord) : bool :=
  let m := if (cx dist <? cy dist)%Z then cx dist else cy dist in
  if (fs =? 0)%Z then (m <? BW)%Z
  else if (cy c <? BW)%Z then (cx dist <? BW)%Z
  else (m <? BW)%Z.
(** ... ABS3D.cpp 100-140 *)
Definition abs_counts3D (BW fs : Z) (c dist : coord) : bool :=
  let m := coord_min dist in
  if (fs =? 0)%Z then (m <? BW)%Z
  else if (cy c <? BW)%Z then ((cz dist <? BW) || (cx dist <? BW))%Z%bool
  else (m <? BW)%Z.

(** A loop over the indices owned by one process that adds to a counter, and the sum over the processes
    ([getCommunicator().sum]); [owned] lists the indices of every process. *)
Fixpoint count_owned (f : Z -> res Z) (l : list Z) : res Z :=
  match l with [] => Ok 0%Z | i :: l' => n <- f i ;; m <- count_owned f l' ;; Ok (n + m)%Z end.
Fixpoint count_all (f : Z -> res Z) (owned : list (list Z)) : res Z :=
  match owned with [] => Ok 0%Z | l :: o => n <- count_owned f l ;; m <- count_all f o ;; Ok (n + m)%Z end.

Definition abs_count (counts : Z -> Z -> coord -> coord -> bool) (BW fs : Z) (g : grid) (owned : list (list Z)) : res Z :=
  count_all (fun i => c <- index2coordinate g i ;; dist <- edgeDistance g c ;; Ok (if counts BW fs c dist then 1 else 0)%Z) owned.
Definition abs_count2D := abs_count abs_counts2D.
Definition abs_count3D := abs_count abs_counts3D.

Definition cpml_count (dirs : coord -> coord -> list (Z * Z * bool)) (BW : Z) (g : grid) (owned : list (list Z)) : res Z :=
  count_all (cpml_count_point dirs BW g) owned.

(** The value returned by estimateMemory of the CPML classes in MByte: sum * sizeof(ValueType) * numVectorsPerDim / (1024*1024)
    with integer division (numVectorsPerDim: 6 acoustic, 8 for CPML2D, 10 for CPML3D). *)
Definition cpml_mbytes (count size nvec : Z) : Z := (count * size * nvec / (1024 * 1024))%Z.
