(** Model of the node weights for the graph partitioning, Partitioning::Weights (src/Partitioning/Partitioning.hpp 252-482).
    ValueType is a real number; the quotient 0/0 is not a number ([None]).  The vectors fdWeights and pmlWeights are filled from assemblies to
    which every process pushes one entry for each of its points; the model computes the entry of every grid point in the order of the indices.
    The parameters read from the configuration are arguments. *)
From Coq Require Import Reals Ascii String.
From Verif Require Import Base M_Grid M_Acq M_Conf M_Bound.
Open Scope Z_scope.
Local Notation length := List.length.

(** NumMatrixVector, NumVectorAssignement, NumVectorPlusVector, NumPMLPerDim. *)
Record ops := mkOps { oMV : Z; oVA : Z; oVV : Z; oPML : Z }.

(** 280-382: the sequence of ifs; a later match would overwrite an earlier one.  [dim] and [type] are in lower case. *)
Definition opTable : list (string * string * ops) :=
  [ ("2d", "acoustic", mkOps 4 7 0 2);
    ("2d", "elastic", mkOps 8 20 0 4);
    ("2d", "viscoelastic", mkOps 8 41 8 4);
    ("2d", "sh", mkOps 4 7 0 2);
    ("2d", "viscosh", mkOps 4 7 0 2);
    ("3d", "acoustic", mkOps 6 10 0 2);
    ("3d", "elastic", mkOps 18 34 3 6);
    ("3d", "viscoelastic", mkOps 18 72 22 6);
    ("2d", "tmem", mkOps 4 7 0 2);
    ("2d", "emem", mkOps 4 7 0 2);
    ("2d", "viscotmem", mkOps 4 41 8 4);
    ("2d", "viscoemem", mkOps 8 41 8 4);
    ("3d", "emem", mkOps 18 34 3 6);
    ("3d", "viscoemem", mkOps 18 72 22 6) ]%string.
Definition pickOps (dim type : str) : ops :=
  fold_left (fun o '(d, t, o') => if str_eqb dim (txt d) && str_eqb type (txt t) then o' else o) opTable (mkOps 0 0 0 0).

(** The assertions, 275-277. *)
Definition knownDim (dim : str) : bool := str_eqb dim (txt "2d") || str_eqb dim (txt "3d").
Definition knownType (t : str) : bool :=
  existsb (fun n => str_eqb t (txt n)) ["acoustic"; "elastic"; "viscoelastic"; "sh"; "viscosh"; "emem"; "tmem"; "viscoemem"; "viscotmem"]%string.

(** 385-386. *)
Definition constantWeight (o : ops) : R := (IZR (oVA o) * 0.25 + IZR (oVV o) * 0.43)%R.
Definition referenceTotalWeight (o : ops) : R := (IZR (oMV o) * 1.00 + constantWeight o)%R.
(** FDWeights, 413. *)
Definition FDWeights : list R := [1.00; 1.56; 2.06; 2.54; 3.00; 3.70]%R.

(** One turn of the loop over the points, 416-433; [orders] is the third column of the grid configuration file if useVariableFDoperators
    is set. *)
Definition fdWeight (o : ops) (orders : option (list Z)) (spatialFDorder : Z) (g : grid) (i : Z) : res R :=
  c <- index2coordinate g i ;;
  k <- getLayer g (cy c) ;;
  order <- match orders with Some v => vget v k | None => Ok spatialFDorder end ;;
  w <- vget FDWeights (Z.quot order 2 - 1) ;;
  Ok (IZR (oMV o) * w + constantWeight o)%R.

(** One turn of the loop of the PML weights, 445-468; [is3d] tells that the dimension is 3d. *)
Definition pmlWeight (o : ops) (BW fs : Z) (is3d : bool) (g : grid) (i : Z) : res R :=
  c <- index2coordinate g i ;;
  e <- edgeDistance g c ;;
  k <- getLayer g (cy c) ;;
  l <- vget (layers g) k ;;
  width <- pml_width BW (ldh l) ;;
  xDist <- cdiv (cx e) (ldh l) ;;
  yDist <- cdiv (cy e) (ldh l) ;;
  zDist <- cdiv (cz e) (ldh l) ;;
  let add := (IZR (oPML o) * 1.5)%R in
  let w := (0 + (if xDist <? width then add else 0))%R in
  w <- (if yDist <? width then
          yCoord <- cdiv (cy c) (ldh l) ;;
          Ok (if yCoord <? width then (if fs =? 0 then w + add else w)%R else (w + add)%R)
        else Ok w) ;;
  Ok (if is3d then (if zDist <? width then w + add else w)%R else w).

Fixpoint mapM {A B} (f : A -> res B) (l : list A) : res (list B) :=
  match l with [] => Ok [] | a :: l' => b <- f a ;; r <- mapM f l' ;; Ok (b :: r) end.
Fixpoint lsum (l : list R) : R := match l with [] => 0%R | a :: l' => (a + lsum l')%R end.
(** a / b of numbers of which the first is 0 whenever the second is: 0/0 is not a number. *)
Definition fdivide (a b : R) : option R := if Req_EM_T b 0 then None else Some (a / b)%R.
(** weights /= weights.sum(); a sum with a NaN is NaN. *)
Definition normalise (ws : list (option R)) : list (option R) :=
  let total := fold_right (fun w s => match w, s with Some a, Some b => Some (a + b)%R | _, _ => None end) (Some 0%R) ws in
  map (fun w => match w, total with Some a, Some t => fdivide a t | _, _ => None end) ws.

(** Weights, 259-481. *)
Definition nodeWeights (dimension type : str) (useNodeWeights : bool) (orders : option (list Z)) (spatialFDorder DampingBoundary BW fs : Z)
    (g : grid) : res (list (option R)) :=
  let type := lower type in
  let dimension := lower dimension in
  _ <- assert (knownDim dimension) ;;
  _ <- assert (knownType type) ;;
  let o := pickOps dimension type in
  let points := zseq 0 (Z.to_nat (nGridpoints g)) in
  fd <- (if useNodeWeights then mapM (fdWeight o orders spatialFDorder g) points
         else Ok (map (fun _ => referenceTotalWeight o) points)) ;;
  pml <- (if (DampingBoundary =? 2) && useNodeWeights then mapM (pmlWeight o BW fs (str_eqb dimension (txt "3d")) g) points
          else Ok (map (fun _ => 0%R) points)) ;;
  Ok (normalise (map (fun '(a, b) => fdivide (a + b) (referenceTotalWeight o)) (combine fd pml))).

(** estimateMemory of the CPML classes, in MB: the product of unsigned integers is divided as an integer (CPML2DAcoustic.cpp 87-89 with 6 vectors
    per direction, CPML3DAcoustic.cpp 6, CPML2D.cpp 8, CPML3D.cpp 10); [sz] = sizeof(ValueType). *)
Definition cpml_memory (dirs : coord -> coord -> list (Z * Z * bool)) (numVectorsPerDim sz BW : Z) (g : grid) (owned : list (list Z)) : res Z :=
  n <- cpml_count dirs BW g owned ;; Ok (n * sz * numVectorsPerDim / (1024 * 1024)).
