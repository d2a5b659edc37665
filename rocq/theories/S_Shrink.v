(** Specification vocabulary for the weights of the model of one shot; does not mention the model of the code. *)
From Coq Require Import Reals ZArith Bool.
Local Open Scope R_scope.

(** The taper over a border of [width] points: 0 at the edge, towards 1 at distance [width]. *)
Definition taper (width d : Z) : R := (sin (PI / 2 * (IZR d / IZR width)))².

(** A window: its first point and its size. *)
Record window := mkW { wx : Z; wy : Z; wz : Z; wnx : Z; wny : Z; wnz : Z }.
Definition inside (w : window) (x y z : Z) : Prop :=
  (wx w <= x < wx w + wnx w /\ wy w <= y < wy w + wny w /\ wz w <= z < wz w + wnz w)%Z.
(** Distances to the left and right edge; the point is in the border if its distance is between 0 and width - 1. *)
Definition leftEdge (w : window) (x : Z) : Z := (x - wx w)%Z.
Definition rightEdge (w : window) (x : Z) : Z := (wx w + wnx w - 1 - x)%Z.
Definition inBorder (width d : Z) : Prop := (0 <= d < width)%Z.

(** What one would like: 0 outside the window, the tapers at its borders, 1 elsewhere. *)
Definition tapered (w : window) (left right x y z : Z) (v : R) : Prop :=
  (~ inside w x y z -> v = 0) /\
  (inside w x y z -> inBorder right (rightEdge w x) -> v = taper right (rightEdge w x)) /\
  (inside w x y z -> ~ inBorder right (rightEdge w x) -> inBorder left (leftEdge w x) -> v = taper left (leftEdge w x)) /\
  (inside w x y z -> ~ inBorder right (rightEdge w x) -> ~ inBorder left (leftEdge w x) -> v = 1).
(** What the code computes: the borders are tapered at z = 0 only, but there on all rows of the big model. *)
Definition taperedAtZ0 (w : window) (left right x y z : Z) (v : R) : Prop :=
  (z = 0%Z -> inBorder right (rightEdge w x) -> v = taper right (rightEdge w x)) /\
  (z = 0%Z -> ~ inBorder right (rightEdge w x) -> inBorder left (leftEdge w x) -> v = taper left (leftEdge w x)) /\
  (z <> 0%Z \/ (~ inBorder right (rightEdge w x) /\ ~ inBorder left (leftEdge w x)) -> inside w x y z -> v = 1) /\
  (z <> 0%Z \/ (~ inBorder right (rightEdge w x) /\ ~ inBorder left (leftEdge w x)) -> ~ inside w x y z -> v = 0).
