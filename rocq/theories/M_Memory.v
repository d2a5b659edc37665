(** Model of the memory estimates of the derivative matrices: Derivatives.cpp 88-105 and 1704-1760, FDTD2D.cpp 107-147,
    FDTD3D.cpp 119-172.  IndexType is a 32 bit int (the default of LAMA); a product of two of them that does not fit is undefined
    behaviour.  A product with sizeof is computed in 64 bits, where it fits.  [sv], [si] are sizeof(ValueType), sizeof(IndexType);
    sums and quotients of ValueType are exact. *)
From Coq Require Import QArith.
From Verif Require Import Base M_Grid.
From Verif Require M_PerShot M_GridFile.
Open Scope Z_scope.
Local Notation length := List.length.

(** a product of two values of type IndexType *)
Definition imul (a b : Z) : res Z := if (- 2 ^ 31 <=? a * b) && (a * b <? 2 ^ 31) then Ok (a * b) else UB.

(** getMemoryStencilMatrix, 1704-1713; [n] is the global size of the distribution. *)
Definition getMemoryStencilMatrix (n si : Z) : Z := n * si.

(** n * order * (sizeof(ValueType) + sizeof(IndexType)) + 2 * n * sizeof(IndexType), lines 1727 and 1756 *)
Definition sparseBytes (n p sv si : Z) : res Z := np <- imul n p ;; n2 <- imul 2 n ;; Ok (np * (sv + si) + n2 * si).

(** getMemorySparseMatrix(dist), 1719-1728 *)
Definition getMemorySparseMatrix1 (n : Z) (orders : list Z) (sv si : Z) : res Z :=
  p <- M_PerShot.at_ orders 0 ;; sparseBytes n p sv si.

(** getMemoryInterpolationMatrix, 1734-1743 *)
Definition getMemoryInterpolationMatrix (n sv si : Z) : res Z := n2 <- imul 2 n ;; Ok (n * (sv + si) + n2 * si).

(** The loop over the layers of getMemorySparseMatrix(dist, modelCoordinates), 1752-1757; [p] is the order of layer 0. *)
Fixpoint layersBytes (g : grid) (orders : list Z) (useVar : bool) (p sv si : Z) (ks : list Z) : res Z :=
  match ks with
  | [] => Ok 0
  | k :: ks =>
      q <- (if useVar then M_PerShot.at_ orders k else Ok p) ;;
      l <- vget (layers g) k ;;
      b <- sparseBytes (lcnt l) q sv si ;;
      r <- layersBytes g orders useVar p sv si ks ;; Ok (b + r)
  end.
(** getMemorySparseMatrix(dist, modelCoordinates), 1745-1760 *)
Definition getMemorySparseMatrix (g : grid) (orders : list Z) (useVar : bool) (sv si : Z) : res Z :=
  p <- M_PerShot.at_ orders 0 ;; layersBytes g orders useVar p sv si (zseq 0 (numLayers g)).

(** getMemoryUsage, 88-105: in MByte *)
Definition getMemoryUsage (g : grid) (d : M_GridFile.dstate) (sv si numD numI : Z) : res Q :=
  let mega := inject_Z (1024 * 1024) in
  size <- (if M_GridFile.d_stencil d then Ok (inject_Z (getMemoryStencilMatrix (nGridpoints g) si) / mega * inject_Z numD)%Q
           else b <- getMemorySparseMatrix g (M_GridFile.d_orders d) (M_GridFile.d_varFD d) sv si ;; Ok (inject_Z b / mega * inject_Z numD)%Q) ;;
  sizeInterp <- (if M_GridFile.d_varGrid d then b <- getMemoryInterpolationMatrix (nGridpoints g) sv si ;; Ok (inject_Z b / mega * inject_Z numI)%Q
                 else Ok 0%Q) ;;
  Ok (size + sizeInterp)%Q.

(** getNumDMatrices and getNumInterpMatrices, FDTD2D.cpp 107-128, FDTD3D.cpp 119-153; [fs] is useFreeSurface == 1. *)
Definition numD2D (varGrid fs elastic : bool) : Z := 4 + (if (varGrid || fs) && elastic then 2 else 0).
Definition numI2D (varGrid : bool) : Z := if varGrid then 2 else 0.
Definition numD3D (varGrid fs elastic : bool) : Z :=
  6 + (if varGrid && elastic then 4 else 0) + (if fs && elastic && negb varGrid then 2 else 0).
Definition numI3D (varGrid elastic : bool) : Z := if varGrid then 3 + (if elastic then 1 else 0) else 0.
(** estimateMemory after the setup, FDTD2D.cpp 141-147, FDTD3D.cpp 166-172 *)
Definition estimateMemory (threeD fs : bool) (g : grid) (d : M_GridFile.dstate) (sv si : Z) : res Q :=
  _ <- assert (M_GridFile.d_isSetup d) ;;
  let '(v, e) := (M_GridFile.d_varGrid d, M_GridFile.d_elastic d) in
  if threeD then getMemoryUsage g d sv si (numD3D v fs e) (numI3D v e) else getMemoryUsage g d sv si (numD2D v fs e) (numI2D v).
