(** Model of ForwardSolver::Derivatives (src/ForwardSolver/Derivatives/Derivatives.cpp, FDTD2D.cpp, FDTD3D.cpp).
    Numbers are exact rationals; a matrix row is the list of pushed (column, value) pairs. *)
From Coq Require Export QArith.
From Verif Require Import Base M_Grid.
Open Scope Q_scope.
Open Scope Z_scope.

(** setFDCoef, cpp 2001-2042.  The literals a.0/b.0 are the exact rationals a/b (the code rounds the quotients). *)
Definition FD2 : list Q := [-1 # 1; 1 # 1]%Q.
Definition FD4 : list Q := [1 # 24; -9 # 8; 9 # 8; -1 # 24]%Q.
Definition FD6 : list Q := [-3 # 640; 25 # 384; -75 # 64; 75 # 64; -25 # 384; 3 # 640]%Q.
Definition FD8 : list Q := [5 # 7168; -49 # 5120; 245 # 3072; -1225 # 1024; 1225 # 1024; -245 # 3072; 49 # 5120; -5 # 7168]%Q.
Definition FD10 : list Q :=
  [-8756999275442633 # 73786976294838206464; 8142668969129685 # 4611686018427387904; -567 # 40960; 735 # 8192; -19845 # 16384;
   19845 # 16384; -735 # 8192; 567 # 40960; -8142668969129685 # 4611686018427387904; 8756999275442633 # 73786976294838206464]%Q.
Definition FD12 : list Q :=
  [6448335830095439 # 295147905179352825856; -1655620175512543 # 4611686018427387904; 6842103786556949 # 2305843009213693952;
   -628618285389933 # 36028797018963968; 436540475965291 # 4503599627370496; -2750204998582123 # 2251799813685248;
   2750204998582123 # 2251799813685248; -436540475965291 # 4503599627370496; 628618285389933 # 36028797018963968;
   -6842103786556949 # 2305843009213693952; 1655620175512543 # 4611686018427387904; -6448335830095439 # 295147905179352825856]%Q.

(** stencilFDmap[p].values(): operator[] of std::map creates an empty stencil for an unknown order. *)
Definition stencil (p : Z) : list Q :=
  if p =? 2 then FD2 else if p =? 4 then FD4 else if p =? 6 then FD6
  else if p =? 8 then FD8 else if p =? 10 then FD10 else if p =? 12 then FD12 else [].

(** stencilFDmap[p].values()[j]: out-of-range access is undefined behaviour. *)
Definition fdcoef (p j : Z) : res Q := vget (stencil p) j.

(** The inner loop of calcDxf (cpp 154-180), calcDzf (329-355; there with the extra test NZ > 0, which always holds) and
    calcDyf (255-274).  [sh] is the extra offset of the branch locatedOnInterface (-dhFactor/3, else 0), [dh] the spacing
    factor, [N] the number of points of the axis, [h] the spacing, [col] the lookup coordinate2index along the axis.
    The statement "j--; continue" restarts the iteration. *)
Fixpoint row_fwd (fuel : nat) (dh sh N : Z) (h : Q) (col : Z -> res Z) (x p j : Z) (acc : list (Z * Q)) : res (list (Z * Q)) :=
  match fuel with
  | O => Fuel
  | S f =>
      if negb (j <? p) then Ok acc else
      let X := x + sh + dh * (j - Z.quot p 2 + 1) in
      let Xmin := x + sh + dh * (Z.quot (- p) 2 + 1) in
      let Xmax := x + sh + Z.quot (dh * p) 2 in
      if Xmin <? 0 then row_fwd f dh sh N h col x (p + 2 * Xmin) j acc
      else if Xmax >=? N then
        let p' := p - 2 * (Xmax - N + 1) in
        if p' =? 0 then row_fwd f dh sh N h col (x - 1) 2 j acc else row_fwd f dh sh N h col x p' j acc
      else
        k <- col X ;; c <- fdcoef p j ;; row_fwd f dh sh N h col x p (j + 1) (acc ++ [(k, (c / h)%Q)])
  end.

(** The inner loop of calcDxb (cpp 731-758) and calcDzb (1204-1229). *)
Fixpoint row_bwd (fuel : nat) (dh sh N : Z) (h : Q) (col : Z -> res Z) (x p j : Z) (acc : list (Z * Q)) : res (list (Z * Q)) :=
  match fuel with
  | O => Fuel
  | S f =>
      if negb (j <? p) then Ok acc else
      let X := x + sh + dh * (j - Z.quot p 2) in
      let Xmin := x + sh + dh * (Z.quot (- p) 2) in
      let Xmax := x + sh + dh * (Z.quot p 2 - 1) in
      if Xmin <? 0 then
        let p' := p + 2 * Xmin in
        if p' =? 0 then row_bwd f dh sh N h col (x + 1) 2 j acc else row_bwd f dh sh N h col x p' j acc
      else if Xmax >=? N then row_bwd f dh sh N h col x (p - 2 * (Xmax - N + 1)) j acc
      else
        k <- col X ;; c <- fdcoef p j ;; row_bwd f dh sh N h col x p (j + 1) (acc ++ [(k, (c / h)%Q)])
  end.

(** The inner loop of calcDyb (cpp 808-838): as [row_bwd], with the correction of Y on an interface (cpp 815-821);
    locatedOnInterface and getTransition are evaluated on the possibly moved coordinate. *)
Fixpoint row_yb (fuel : nat) (g : grid) (layer dh : Z) (h : Q) (col : Z -> res Z) (y p j : Z) (acc : list (Z * Q)) : res (list (Z * Q)) :=
  match fuel with
  | O => Fuel
  | S f =>
      if negb (j <? p) then Ok acc else
      let Ymin := y + dh * (Z.quot (- p) 2) in
      let Ymax := y + dh * (Z.quot p 2 - 1) in
      onif <- locatedOnInterface g y ;;
      d1 <- (if (onif && (j =? 0))%bool then t <- getTransition g y ;; (if t =? 1 then l <- vget (layers g) (layer - 1) ;; Ok (ldh l) else Ok 0) else Ok 0) ;;
      d2 <- (if (onif && (j =? 1))%bool then t <- getTransition g y ;; (if t =? -1 then l <- vget (layers g) (layer + 1) ;; Ok (ldh l) else Ok 0) else Ok 0) ;;
      let Y := y + dh * (j - Z.quot p 2) + d1 + d2 in
      if Ymin <? 0 then
        let p' := p + 2 * Ymin in
        if p' =? 0 then row_yb f g layer dh h col (y + 1) 2 j acc else row_yb f g layer dh h col y p' j acc
      else if Ymax >=? gNY g then row_yb f g layer dh h col y (p - 2 * (Ymax - gNY g + 1)) j acc
      else
        k <- col Y ;; c <- fdcoef p j ;; row_yb f g layer dh h col y p (j + 1) (acc ++ [(k, (c / h)%Q)])
  end.

(** spatialFDorderVec.at(0) or, with useVarFDorder, the entry of the layer (cpp 148-152 and alike). *)
Definition order_at (orders : list Z) (useVar : bool) (layer : Z) : res Z :=
  if useVar then vget orders layer else match orders with p :: _ => Ok p | [] => Throw end.

(** Reduction of the order near grid interfaces, cpp 237-244 (same text in calcDyb, calcDyfFreeSurface, calcDybFreeSurface). *)
Definition reduce_order (useVarGrid : bool) (g : grid) (y layer p : Z) : res Z :=
  if useVarGrid then
    l <- vget (layers g) layer ;;
    distance <- cdiv (distToInterface g y) (ldh l) ;;
    Ok (if distance =? 0 then 2 else if p >? distance * 2 then distance * 2 else p)
  else Ok p.

(** One row of calcDxf, cpp 143-181.  [DH] is the base spacing, getDH(coordinate) = DH * dhFactor. *)
Definition calcDxf (fuel : nat) (g : grid) (orders : list Z) (useVar : bool) (DH : Q) (idx : Z) : res (list (Z * Q)) :=
  c <- index2coordinate g idx ;;
  layer <- getLayer g (cy c) ;; l <- vget (layers g) layer ;;
  p <- order_at orders useVar layer ;;
  onif <- locatedOnInterface g (cy c) ;;
  row_fwd fuel (ldh l) (if onif : bool then - Z.quot (ldh l) 3 else 0) (gNX g) (DH * inject_Z (ldh l))
          (fun X => coordinate2index g (mkC X (cy c) (cz c))) (cx c) p 0 [].

(** One row of calcDzf, cpp 318-356. *)
Definition calcDzf (fuel : nat) (g : grid) (orders : list Z) (useVar : bool) (DH : Q) (idx : Z) : res (list (Z * Q)) :=
  c <- index2coordinate g idx ;;
  layer <- getLayer g (cy c) ;; l <- vget (layers g) layer ;;
  p <- order_at orders useVar layer ;;
  onif <- locatedOnInterface g (cy c) ;;
  row_fwd fuel (ldh l) (if onif : bool then - Z.quot (ldh l) 3 else 0) (gNZ g) (DH * inject_Z (ldh l))
          (fun Z => coordinate2index g (mkC (cx c) (cy c) Z)) (cz c) p 0 [].

(** One row of calcDyf, cpp 227-275. *)
Definition calcDyf (fuel : nat) (g : grid) (orders : list Z) (useVar useVarGrid : bool) (DH : Q) (idx : Z) : res (list (Z * Q)) :=
  c <- index2coordinate g idx ;;
  layer <- getLayer g (cy c) ;;
  p <- order_at orders useVar layer ;;
  p <- reduce_order useVarGrid g (cy c) layer p ;;
  onif <- locatedOnInterface g (cy c) ;;
  t <- (if onif : bool then getTransition g (cy c) else Ok 0) ;;
  l <- vget (layers g) (if (onif && (t =? -1))%bool then layer + 1 else layer) ;;
  row_fwd fuel (ldh l) 0 (gNY g) (DH * inject_Z (ldh l)) (fun Y => coordinate2index g (mkC (cx c) Y (cz c))) (cy c) p 0 [].

(** One row of calcDxb, cpp 720-759. *)
Definition calcDxb (fuel : nat) (g : grid) (orders : list Z) (useVar : bool) (DH : Q) (idx : Z) : res (list (Z * Q)) :=
  c <- index2coordinate g idx ;;
  layer <- getLayer g (cy c) ;; l <- vget (layers g) layer ;;
  p <- order_at orders useVar layer ;;
  onif <- locatedOnInterface g (cy c) ;;
  row_bwd fuel (ldh l) (if onif : bool then Z.quot (ldh l) 3 else 0) (gNX g) (DH * inject_Z (ldh l))
          (fun X => coordinate2index g (mkC X (cy c) (cz c))) (cx c) p 0 [].

(** One row of calcDzb, cpp 1192-1230. *)
Definition calcDzb (fuel : nat) (g : grid) (orders : list Z) (useVar : bool) (DH : Q) (idx : Z) : res (list (Z * Q)) :=
  c <- index2coordinate g idx ;;
  layer <- getLayer g (cy c) ;; l <- vget (layers g) layer ;;
  p <- order_at orders useVar layer ;;
  onif <- locatedOnInterface g (cy c) ;;
  row_bwd fuel (ldh l) (if onif : bool then Z.quot (ldh l) 3 else 0) (gNZ g) (DH * inject_Z (ldh l))
          (fun Z => coordinate2index g (mkC (cx c) (cy c) Z)) (cz c) p 0 [].

(** One row of calcDyb, cpp 786-839. *)
Definition calcDyb (fuel : nat) (g : grid) (orders : list Z) (useVar useVarGrid : bool) (DH : Q) (idx : Z) : res (list (Z * Q)) :=
  c <- index2coordinate g idx ;;
  layer <- getLayer g (cy c) ;; l <- vget (layers g) layer ;;
  p <- order_at orders useVar layer ;;
  p <- reduce_order useVarGrid g (cy c) layer p ;;
  row_yb fuel g layer (ldh l) (DH * inject_Z (ldh l)) (fun Y => coordinate2index g (mkC (cx c) Y (cz c))) (cy c) p 0 [].

(** Inner loop of calcDyfFreeSurface, cpp 407-427: [base] is the constant of the image test (2 for calcDyfFreeSurface, 1 for
    calcDybFreeSurface, cpp 480-509 without the interface correction) and [o] the offset of Y (1 resp. 0).
    [hybrid] is useHybridFreeSurface. *)
Fixpoint row_fs (n : nat) (base o : Z) (hybrid : bool) (dh NY : Z) (h : Q) (col : Z -> res Z) (y p j : Z) : res (list (Z * Q)) :=
  match n with
  | O => Ok []
  | S n' =>
      let Y := y + dh * (j - Z.quot p 2 + o) in
      c <- fdcoef p j ;;
      q <- cdiv (2 * y) dh ;;
      d <- (if p >=? base + q + j then fdcoef p (p - base - q - j) else Ok 0%Q) ;;
      e <- (if ((Y >=? 0) && (Y <? NY))%bool then
              k <- col Y ;;
              Ok (if negb hybrid then [(k, ((c - d) / h)%Q)] else if Qeq_bool d 0 then [] else [(k, (- d / h)%Q)])
            else Ok []) ;;
      r <- row_fs n' base o hybrid dh NY h col y p (j + 1) ;;
      Ok (e ++ r)
  end.

(** One row of calcDyfFreeSurface, cpp 382-428. *)
Definition calcDyfFreeSurface (g : grid) (orders : list Z) (useVar useVarGrid hybrid : bool) (DH : Q) (idx : Z) : res (list (Z * Q)) :=
  c <- index2coordinate g idx ;;
  layer <- getLayer g (cy c) ;;
  onif <- locatedOnInterface g (cy c) ;;
  t <- (if onif : bool then getTransition g (cy c) else Ok 0) ;;
  l <- vget (layers g) (if (onif && (t =? -1))%bool then layer + 1 else layer) ;;
  p <- order_at orders useVar layer ;;
  p <- reduce_order useVarGrid g (cy c) layer p ;;
  row_fs (Z.to_nat p) 2 1 hybrid (ldh l) (gNY g) (DH * inject_Z (ldh l)) (fun Y => coordinate2index g (mkC (cx c) Y (cz c))) (cy c) p 0.

(** One row of calcDybFreeSurface, cpp 460-509, for points that do not lie on a grid interface (regular grids). *)
Definition calcDybFreeSurface (g : grid) (orders : list Z) (useVar hybrid : bool) (DH : Q) (idx : Z) : res (list (Z * Q)) :=
  c <- index2coordinate g idx ;;
  layer <- getLayer g (cy c) ;; l <- vget (layers g) layer ;;
  p <- order_at orders useVar layer ;;
  row_fs (Z.to_nat p) 1 0 hybrid (ldh l) (gNY g) (DH * inject_Z (ldh l)) (fun Y => coordinate2index g (mkC (cx c) Y (cz c))) (cy c) p 0.

(** Stencil matrices, Derivatives.cpp 112-120, 194-200, 288-295 and FDTD2D.cpp 156-183, FDTD3D.cpp 183-219, along one axis with
    N points: a LAMA stencil matrix has entry stencil[j] at column row + j - (p/2-1) (the p points of an even stencil start p/2-1
    to the left) and entries that leave the grid are dropped.  The backward matrix is the negative transpose of the forward
    matrix; both are scaled by the same factor. *)
Definition stencil_at (p j : Z) : Q := if ((0 <=? j) && (j <? p))%bool then nth (Z.to_nat j) (stencil p) 0%Q else 0%Q.
Definition on_line (N i : Z) : bool := (0 <=? i) && (i <? N).
Definition Df_stencil (p N : Z) (h : Q) (i k : Z) : Q :=
  if (on_line N i && on_line N k)%bool then (stencil_at p (k - i + Z.quot p 2 - 1) / h)%Q else 0%Q.
Definition Db_stencil (p N : Z) (h : Q) (i k : Z) : Q := (- Df_stencil p N h k i)%Q.
