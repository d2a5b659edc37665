(** Model of the averaging matrices and the window ("shrink") matrix of Modelparameter.cpp. *)
From Coq Require Import Reals.
From Verif Require Import Base M_Grid.

(** The entries (column, value) pushed for one row.  Row i of a matrix is pushed by the process owning i and depends on i
    only, so the model gives each row as a function of i. *)
Definition row := list (Z * R).

(** getDHFactor(layer) (Coordinates.cpp 453-456) reads the vector without a range check. *)
Definition dhFactorOfLayer (g : grid) (k : Z) : res Z := l <- vget (layers g) k ;; Ok (ldh l).

(** One row of calcAverageMatrixX, Modelparameter.cpp 345-361. *)
Definition avgX (g : grid) (i : Z) : res row :=
  c <- index2coordinate g i ;;
  d <- getDHFactor g (cy c) ;;
  let X := cx c + d in
  if X <? gNX g then
    col <- coordinate2index g (mkC X (cy c) (cz c)) ;;
    Ok [(i, (1 / 2)%R); (col, (1 / 2)%R)]
  else Ok [(i, 1%R)].

(** One row of calcAverageMatrixY, 382-404. *)
Definition avgY (g : grid) (i : Z) : res row :=
  c <- index2coordinate g i ;;
  k <- getLayer g (cy c) ;;
  b <- locatedOnInterface g (cy c) ;;
  t <- (if b then t <- getTransition g (cy c) ;; Ok (t =? 0) else Ok false) ;;
  d <- (if (t : bool) then dhFactorOfLayer g (k + 1) else dhFactorOfLayer g k) ;;
  let Y := cy c + d in
  if Y <? gNY g then
    col <- coordinate2index g (mkC (cx c) Y (cz c)) ;;
    Ok [(i, (1 / 2)%R); (col, (1 / 2)%R)]
  else Ok [(i, 1%R)].

(** One row of calcAverageMatrixZ, 425-442. *)
Definition avgZ (g : grid) (i : Z) : res row :=
  c <- index2coordinate g i ;;
  d <- getDHFactor g (cy c) ;;
  let Z' := cz c + d in
  if Z' <? gNZ g then
    col <- coordinate2index g (mkC (cx c) (cy c) Z') ;;
    Ok [(i, (1 / 2)%R); (col, (1 / 2)%R)]
  else Ok [(i, 1%R)].

(** calc4PointAverageMatrixRow, 449-526; p1..p4 are the points 1..4 of the code, the maxima are taken over the arrays,
    which start with a 0. *)
Definition row4 (g : grid) (i : Z) (p1 p2 p3 p4 : coord) : res row :=
  let mx f := fold_left Z.max [f p1; f p2; f p3; f p4] 0 in
  let '(mX, mY, mZ) := (mx cx, mx cy, mx cz) in
  let '(bX, bY, bZ) := (mX <? gNX g, mY <? gNY g, mZ <? gNZ g) in
  r1 <- (if bX && bY && bZ then
           c2 <- coordinate2index g p2 ;; c3 <- coordinate2index g p3 ;; c4 <- coordinate2index g p4 ;;
           Ok [(i, (1 / 4)%R); (c2, (1 / 4)%R); (c3, (1 / 4)%R); (c4, (1 / 4)%R)]
         else Ok []) ;;
  r2 <- (if bX && negb bY && bZ then                                              (* bottom side, 480-486 *)
           k <- coordinate2index g (mkC mX (cy p1) mZ) ;; Ok [(k, (1 / 2)%R); (i, (1 / 2)%R)]
         else Ok []) ;;
  r3 <- (if negb bX && bY && bZ then                                              (* right side, 489-495 *)
           k <- coordinate2index g (mkC (cx p1) mY mZ) ;; Ok [(k, (1 / 2)%R); (i, (1 / 2)%R)]
         else Ok []) ;;
  r4 <- (if bX && bY && negb bZ then                                              (* back side, 498-504 *)
           k <- coordinate2index g (mkC mX mY (cz p1)) ;; Ok [(k, (1 / 2)%R); (i, (1 / 2)%R)]
         else Ok []) ;;
  let e b := if (b : bool) then [(i, 1%R)] else [] in                             (* the three edges, 508-525 *)
  Ok (r1 ++ r2 ++ r3 ++ r4 ++ e (negb bX && negb bY && bZ) ++ e (bX && negb bY && negb bZ) ++ e (negb bX && bY && negb bZ)).

(** Rows of calcAverageMatrixXY, 543-554; XZ, 577-588; YZ, 609-620. *)
Definition avgXY (g : grid) (i : Z) : res row :=
  c <- index2coordinate g i ;; d <- getDHFactor g (cy c) ;;
  let '(mkC x y z) := c in row4 g i (mkC x y z) (mkC (x + d) y z) (mkC x (y + d) z) (mkC (x + d) (y + d) z).
Definition avgXZ (g : grid) (i : Z) : res row :=
  c <- index2coordinate g i ;; d <- getDHFactor g (cy c) ;;
  let '(mkC x y z) := c in row4 g i (mkC x y z) (mkC (x + d) y z) (mkC x y (z + d)) (mkC (x + d) y (z + d)).
Definition avgYZ (g : grid) (i : Z) : res row :=
  c <- index2coordinate g i ;; d <- getDHFactor g (cy c) ;;
  let '(mkC x y z) := c in row4 g i (mkC x y z) (mkC x (y + d) z) (mkC x y (z + d)) (mkC x (y + d) (z + d)).

(** The six averaging matrices. *)
Inductive avgkind := AX | AY | AZ | AXY | AXZ | AYZ.
Definition avgRow (a : avgkind) : grid -> Z -> res row :=
  match a with AX => avgX | AY => avgY | AZ => avgZ | AXY => avgXY | AXZ => avgXZ | AYZ => avgYZ end.

(** One row of getShrinkMatrix, 152-172. *)
Definition shrinkRow (sub big : grid) (cut : coord) (i : Z) : res row :=
  c <- index2coordinate sub i ;;
  k <- coordinate2index big (mkC (cx c + cx cut) (cy c + cy cut) (cz c + cz cut)) ;;
  Ok [(k, 1%R)].

(** fillFromAssembly (LAMA, called with its default operation COPY): an entry pushed again replaces the earlier one. *)
Fixpoint put (r : row) (e : Z * R) : row :=
  match r with
  | [] => [e]
  | (k, w) :: r' => if k =? fst e then (k, snd e) :: r' else (k, w) :: put r' e
  end.
Definition assemble (pushed : row) : row := fold_left put pushed [].

Fixpoint mapres {A B} (f : A -> res B) (l : list A) : res (list B) :=
  match l with [] => Ok [] | a :: l' => b <- f a ;; r <- mapres f l' ;; Ok (b :: r) end.

(** A matrix: number of columns and its rows. *)
Record matrix := mkMat { mcols : Z; mrows : list row }.
Definition fill (n : Z) (cols : Z) (f : Z -> res row) : res matrix :=
  rs <- mapres (fun i => r <- f i ;; Ok (assemble r)) (zseq 0 (Z.to_nat n)) ;; Ok (mkMat cols rs).
Definition averageMatrix (a : avgkind) (g : grid) : res matrix := fill (nGridpoints g) (nGridpoints g) (avgRow a g).
Definition shrinkMatrix (sub big : grid) (cut : coord) : res matrix :=
  fill (nGridpoints sub) (nGridpoints big) (shrinkRow sub big cut).

(** matrix * vector (LAMA): sizes must agree, otherwise an exception. *)
Definition rowdot (r : row) (v : list R) : R := fold_right (fun e s => (snd e * nth (Z.to_nat (fst e)) v 0 + s)%R) 0%R r.
Definition matvec (m : matrix) (v : list R) : res (list R) :=
  if mcols m =? Z.of_nat (length v) then Ok (map (fun r => rowdot r v) (mrows m)) else Throw.
