(** Model of the interpolation matrices and of the staggered vertical derivatives of variable grids
    (src/ForwardSolver/Derivatives/Derivatives.cpp).  As in M_Deriv, numbers are exact rationals and a matrix row is the list of
    pushed (column, value) pairs; the distribution of rows over processes is left out. *)
From Verif Require Import Base M_Grid M_Deriv.
Open Scope Q_scope.
Open Scope Z_scope.

(** ** Interpolation *)

(** The quantities computed before the points are pushed, cpp 1275-1298 (same text at 1379-1402, 1485-1508, 1591-1614): dhFactor
    of the layer of the point and dhFactorFineGrid; [None] for points off the interfaces, which get a single 1 (1300-1301). *)
Definition inter_head (g : grid) (idx : Z) : res (coord * option (Z * Z)) :=
  c <- index2coordinate g idx ;;
  layer <- getLayer g (cy c) ;; l <- vget (layers g) layer ;;
  onif <- locatedOnInterface g (cy c) ;;
  if negb onif then Ok (c, None) else
  t <- getTransition g (cy c) ;;
  f <- (if t =? 1 then l' <- vget (layers g) (layer - 1) ;; Ok (ldh l')
        else if t =? -1 then l' <- vget (layers g) (layer + 1) ;; Ok (ldh l')
        else Ok (ldh l)) ;;
  Ok (c, Some (ldh l, f)).

(** One pushed point (cpp 1307-1309 and alike): nothing when the test fails.  coordinate2index throws outside the grid; the
    try blocks of points 21 and 22 throw again. *)
Definition inter_push (g : grid) (test : bool) (value : Q) (x y z : Z) : res (list (Z * Q)) :=
  if test then k <- coordinate2index g (mkC x y z) ;; Ok [(k, value)] else Ok [].

(** The four points, cpp 1306-1338 (1410-1444, 1516-1550, 1622-1654); denom = 1/(dhFactor*dhFactor); [t11]..[t22] are the tests
    in front of them. *)
Definition inter_points (g : grid) (c : coord) (dh modx modz : Z) (t11 t12 t21 t22 : bool) : res (list (Z * Q)) :=
  let '(mkC x y z) := c in
  let w a b := (inject_Z a * inject_Z b * (1 / inject_Z (dh * dh)))%Q in
  e11 <- inter_push g t11 (w (dh - modx) (dh - modz)) (x - modx) y (z - modz) ;;
  e12 <- inter_push g t12 (w modx (dh - modz)) (x + dh - modx) y (z - modz) ;;
  e21 <- inter_push g t21 (w (dh - modx) modz) (x - modx) y (z + dh - modz) ;;
  e22 <- inter_push g t22 (w modx modz) (x + dh - modx) y (z + dh - modz) ;;
  Ok (e11 ++ e12 ++ e21 ++ e22).

(** One row of calcInterpolationFull, cpp 1272-1340. *)
Definition calcInterpolationFull (g : grid) (idx : Z) : res (list (Z * Q)) :=
  '(c, o) <- inter_head g idx ;;
  match o with
  | None => Ok [(idx, 1%Q)]
  | Some (dh, f) =>
      modx <- crem (cx c) dh ;; modz <- crem (cz c) dh ;;
      let tx := cx c + 2 * f <? gNX g in let tz := cz c + 2 * f <? gNZ g in
      inter_points g c dh modx modz true tx tz (tx && tz)
  end.

(** One row of calcInterpolationStaggeredX, cpp 1376-1446. *)
Definition calcInterpolationStaggeredX (g : grid) (idx : Z) : res (list (Z * Q)) :=
  '(c, o) <- inter_head g idx ;;
  match o with
  | None => Ok [(idx, 1%Q)]
  | Some (dh, f) =>
      modx <- crem (cx c - Z.quot dh 2) dh ;; modz <- crem (cz c) dh ;;
      let tx := cx c + 1 * f <? gNX g in let tz := cz c + 2 * f <? gNZ g in
      inter_points g c dh modx modz (cx c >=? modx) tx ((cx c >=? modx) && tz) (tx && tz)
  end.

(** One row of calcInterpolationStaggeredZ, cpp 1482-1552. *)
Definition calcInterpolationStaggeredZ (g : grid) (idx : Z) : res (list (Z * Q)) :=
  '(c, o) <- inter_head g idx ;;
  match o with
  | None => Ok [(idx, 1%Q)]
  | Some (dh, f) =>
      modx <- crem (cx c) dh ;; modz <- crem (cz c - Z.quot dh 2) dh ;;
      let tx := cx c + 2 * f <? gNX g in let tz := cz c + 1 * f <? gNZ g in
      inter_points g c dh modx modz (cz c >=? modz) tx ((cx c >=? modx) && tz) (tx && tz)
  end.

(** One row of calcInterpolationStaggeredXZ, cpp 1588-1656. *)
Definition calcInterpolationStaggeredXZ (g : grid) (idx : Z) : res (list (Z * Q)) :=
  '(c, o) <- inter_head g idx ;;
  match o with
  | None => Ok [(idx, 1%Q)]
  | Some (dh, f) =>
      modx <- crem (cx c - Z.quot dh 2) dh ;; modz <- crem (cz c - Z.quot dh 2) dh ;;
      let tx := cx c + 1 * f <? gNX g in let tz := cz c + 1 * f <? gNZ g in
      inter_points g c dh modx modz ((cx c >=? modx) && (cz c >=? modz)) tx ((cx c >=? modx) && tz) (tx && tz)
  end.

(** ** Vertical derivatives on staggered points *)

(** The horizontal axis in which the points are staggered: X for the functions ...StaggeredX, Z for ...StaggeredZ, whose texts
    differ only in this axis. *)
Inductive axis := AX | AZ.
Definition along (a : axis) (c : coord) : Z := match a with AX => cx c | AZ => cz c end.
Definition extent (a : axis) (g : grid) : Z := match a with AX => gNX g | AZ => gNZ g end.
Definition moved (a : axis) (c : coord) (v Y : Z) : coord := match a with AX => mkC v Y (cz c) | AZ => mkC (cx c) Y v end.

(** locatedOnInterface(y) && getTransition(y) == t (short-circuit). *)
Definition iface_is (g : grid) (y t : Z) : res bool :=
  b <- locatedOnInterface g y ;; if b : bool then t' <- getTransition g y ;; Ok (t' =? t) else Ok false.

(** spatialFDorderVec[0] or [layer] (operator[], unlike M_Deriv.order_at). *)
Definition order_idx (orders : list Z) (useVar : bool) (layer : Z) : res Z := vget orders (if useVar then layer else 0).

(** The loop over the stencil: rows outside the model are skipped; [X j] is the horizontal position of entry j, [Y j] its row,
    [coef j] its coefficient. *)
Fixpoint stag_row (n : nat) (NY : Z) (h : Q) (lookup : Z -> Z -> res Z) (X Y : Z -> Z) (coef : Z -> res Q) (j : Z) : res (list (Z * Q)) :=
  match n with
  | O => Ok []
  | S n' =>
      e <- (if (Y j >=? 0) && (Y j <? NY) then k <- lookup (X j) (Y j) ;; v <- coef j ;; Ok [(k, (v / h)%Q)] else Ok []) ;;
      r <- stag_row n' NY h lookup X Y coef (j + 1) ;;
      Ok (e ++ r)
  end.

(** One row of calcDyfStaggeredX (cpp 869-925) resp. calcDyfStaggeredZ (1030-1087).  Entry 1 is moved by -dhFactor/3 and the last
    entry by dhFactor/3 (for order 2 both act on entry 1); [DH] is the base spacing. *)
Definition calcDyfStaggered (a : axis) (g : grid) (orders : list Z) (useVar : bool) (DH : Q) (idx : Z) : res (list (Z * Q)) :=
  c <- index2coordinate g idx ;;
  layer <- getLayer g (cy c) ;;
  p <- order_idx orders useVar layer ;;
  p <- reduce_order true g (cy c) layer p ;;
  coarse2fine <- iface_is g (cy c) (-1) ;;
  l <- vget (layers g) (if coarse2fine : bool then layer + 1 else layer) ;;
  let dh := ldh l in
  fine2coarse <- iface_is g (cy c) 1 ;;
  let m1 := if (fine2coarse && (along a c >=? Z.quot dh 3))%bool then Z.quot dh 3 else 0 in
  ends <- iface_is g (cy c + Z.quot p 2 * dh) (-1) ;;
  let m2 := if (ends && (along a c <? extent a g - Z.quot dh 3))%bool then Z.quot dh 3 else 0 in
  stag_row (Z.to_nat p) (gNY g) (DH * inject_Z dh) (fun v Y => coordinate2index g (moved a c v Y))
    (fun j => along a c - (if j =? 1 then m1 else 0) + (if j =? p - 1 then m2 else 0))
    (fun j => cy c + dh * (j - Z.quot p 2 + 1)) (fdcoef p) 0.

(** The correction of Y on an interface, cpp 984-991 (501-508, 585-592, 671-678, 1149-1156). *)
Definition stag_corr (g : grid) (y layer j : Z) : res Z :=
  onif <- locatedOnInterface g y ;;
  if negb onif then Ok 0 else
  t <- getTransition g y ;;
  d1 <- (if (j =? 0) && (t =? 1) then l <- vget (layers g) (layer - 1) ;; Ok (ldh l) else Ok 0) ;;
  d2 <- (if (j =? 1) && (t =? -1) then l <- vget (layers g) (layer + 1) ;; Ok (ldh l) else Ok 0) ;;
  Ok (d1 + d2).

(** The two moves of entry 0 in the backward rows, cpp 968-978 (1133-1143, 569-579, 655-665): [v] is X[1], still at its initial
    value. *)
Definition stag_move (a : axis) (g : grid) (c : coord) (p dh : Z) : res Z :=
  starts <- iface_is g (cy c - Z.quot p 2 * dh) 1 ;;
  coarse2fine <- iface_is g (cy c) (-1) ;;
  let v := along a c in
  Ok ((if (starts && (v <? extent a g - Z.quot dh 3))%bool then Z.quot dh 3 else 0)
      - (if (coarse2fine && (v >=? Z.quot dh 3))%bool then Z.quot dh 3 else 0)).

(** The corrections of the rows are computed first; they do not depend on the loop. *)
Definition stag_corrs (g : grid) (y layer : Z) : res (Z * Z) :=
  d0 <- stag_corr g y layer 0 ;; d1 <- stag_corr g y layer 1 ;; Ok (d0, d1).

(** One row of calcDybStaggeredX (cpp 949-998) resp. calcDybStaggeredZ (1111-1164). *)
Definition calcDybStaggered (a : axis) (g : grid) (orders : list Z) (useVar : bool) (DH : Q) (idx : Z) : res (list (Z * Q)) :=
  c <- index2coordinate g idx ;;
  layer <- getLayer g (cy c) ;; l <- vget (layers g) layer ;;
  p <- order_idx orders useVar layer ;;
  p <- reduce_order true g (cy c) layer p ;;
  m0 <- stag_move a g c p (ldh l) ;;
  '(d0, d1) <- stag_corrs g (cy c) layer ;;
  stag_row (Z.to_nat p) (gNY g) (DH * inject_Z (ldh l)) (fun v Y => coordinate2index g (moved a c v Y))
    (fun j => along a c + (if j =? 0 then m0 else 0))
    (fun j => cy c + ldh l * (j - Z.quot p 2) + (if j =? 0 then d0 else if j =? 1 then d1 else 0)) (fdcoef p) 0.

(** The coefficient with the image of the free surface, cpp 594-599 (511-519, 680-685). *)
Definition fs_coef (p y dh j : Z) : res Q :=
  c <- fdcoef p j ;;
  q <- cdiv (2 * y) dh ;;
  if p >=? 1 + q + j then d <- fdcoef p (p - 1 - q - j) ;; Ok (c - d)%Q else Ok c.

(** One row of calcDybStaggeredXFreeSurface (cpp 549-605) resp. calcDybStaggeredZFreeSurface (634-691). *)
Definition calcDybStaggeredFreeSurface (a : axis) (g : grid) (orders : list Z) (useVar useVarGrid : bool) (DH : Q) (idx : Z) : res (list (Z * Q)) :=
  c <- index2coordinate g idx ;;
  layer <- getLayer g (cy c) ;; l <- vget (layers g) layer ;;
  p <- order_at orders useVar layer ;;
  p <- reduce_order useVarGrid g (cy c) layer p ;;
  m0 <- stag_move a g c p (ldh l) ;;
  '(d0, d1) <- stag_corrs g (cy c) layer ;;
  stag_row (Z.to_nat p) (gNY g) (DH * inject_Z (ldh l)) (fun v Y => coordinate2index g (moved a c v Y))
    (fun j => along a c + (if j =? 0 then m0 else 0))
    (fun j => cy c + ldh l * (j - Z.quot p 2) + (if j =? 0 then d0 else if j =? 1 then d1 else 0)) (fs_coef p (cy c) (ldh l)) 0.

(** One row of calcDybFreeSurface, cpp 460-509, with useHybridFreeSurface = false and with the correction on interfaces that
    M_Deriv.calcDybFreeSurface leaves out. *)
Definition calcDybFreeSurfaceVar (g : grid) (orders : list Z) (useVar useVarGrid : bool) (DH : Q) (idx : Z) : res (list (Z * Q)) :=
  c <- index2coordinate g idx ;;
  layer <- getLayer g (cy c) ;; l <- vget (layers g) layer ;;
  p <- order_at orders useVar layer ;;
  p <- reduce_order useVarGrid g (cy c) layer p ;;
  '(d0, d1) <- stag_corrs g (cy c) layer ;;
  stag_row (Z.to_nat p) (gNY g) (DH * inject_Z (ldh l)) (fun _ Y => coordinate2index g (mkC (cx c) Y (cz c)))
    (fun _ => cx c)
    (fun j => cy c + ldh l * (j - Z.quot p 2) + (if j =? 0 then d0 else if j =? 1 then d1 else 0)) (fs_coef p (cy c) (ldh l)) 0.
