(** Specification vocabulary for the interpolation at grid interfaces. *)
From Verif Require Import Base M_Grid S_Deriv.
Open Scope Z_scope.

(** The hat function of width [s] at distance [t]: 1 at 0, falling linearly to 0 at distance s. *)
Definition hat (s t : Z) : Q := (inject_Z (Z.max 0 (s - Z.abs t)) / inject_Z s)%Q.

(** A row that interpolates bilinearly at (x,z) from the points with coordinates divisible by [s] inside 0..NX-1, 0..NZ-1:
    [col k X Z] says that column [k] is the point (X,Z).  No column occurs twice, every column is such a point with the product
    of the hats as weight, and every such point nearer than [s] in both directions occurs. *)
Definition bilinear_row (s x z NX NZ : Z) (col : Z -> Z -> Z -> Prop) (row : list (Z * Q)) : Prop :=
  NoDup (map fst row) /\
  (forall k v, In (k, v) row -> exists X Z, col k X Z /\ 0 <= X < NX /\ 0 <= Z < NZ /\ (s | X) /\ (s | Z) /\ (v == hat s (x - X) * hat s (z - Z))%Q) /\
  (forall X Z, 0 <= X < NX -> 0 <= Z < NZ -> (s | X) -> (s | Z) -> Z.abs (x - X) < s -> Z.abs (z - Z) < s ->
     exists k v, In (k, v) row /\ col k X Z).

(** The field a0 + a1 X + a2 Z + a3 X Z. *)
Definition bilinear (a0 a1 a2 a3 : Q) (X Z : Z) : Q :=
  (a0 + a1 * inject_Z X + a2 * inject_Z Z + a3 * inject_Z X * inject_Z Z)%Q.

(** A row that, at (x,z), reproduces every bilinear field from the points [PX] x [PZ]. *)
Definition reproduces (PX PZ : Z -> Prop) (x z : Z) (col : Z -> Z -> Z -> Prop) (row : list (Z * Q)) : Prop :=
  (forall k v, In (k, v) row -> exists X Z, col k X Z /\ PX X /\ PZ Z) /\
  (forall a0 a1 a2 a3 f, (forall k X Z, col k X Z -> PX X -> PZ Z -> (f k == bilinear a0 a1 a2 a3 X Z)%Q) ->
     (apply_row row f == bilinear a0 a1 a2 a3 x z)%Q).

(** The part inside 0..N-1 of the central difference of order [p] with point distance [s] about the doubled position [m]:
    [col k Y] says that column [k] lies at [Y], [w j / h] is the weight of entry [j]. *)
Definition cut_row (m s p N : Z) (h : Q) (w : Z -> Q) (col : Z -> Z -> Prop) (row : list (Z * Q)) : Prop :=
  Forall2 (fun j e => exists Y, 2 * Y = m + s * (2 * j - (p - 1)) /\ col (fst e) Y /\ (snd e == w j / h)%Q)
    (filter (fun j => let t := m + s * (2 * j - (p - 1)) in (0 <=? t) && (t <? 2 * N)) (zseq 0 (Z.to_nat p))) row.

(** A field on the rows 0..N-1 continued antisymmetrically about the level d/2 above row 0, zero beyond the last row. *)
Definition odd_about (d N : Z) (F : Z -> Q) (Y : Z) : Q := (restrict N F Y - restrict N F (- d - Y))%Q.

(** Row [Y] belongs to a layer with spacing [e]. *)
Definition row_spacing (g : grid) (Y e : Z) : Prop := exists l, In l (layers g) /\ lstart l <= Y <= lend l /\ ldh l = e.
