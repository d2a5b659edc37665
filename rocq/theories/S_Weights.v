(** The cost of a grid point in a time step, in units of one product with a derivative matrix of second order. *)
From Coq Require Import Reals String List ZArith.
From Verif Require Import Base M_Grid M_Bound.
Import ListNotations.
Open Scope R_scope.

(** Dimension, equation type, number of derivatives, cost of the vector operations, extra cost of one direction of the PML. *)
Definition costs : list (string * string * (Z * R * R)) :=
  [ ("2d", "acoustic", (4%Z, 1.75, 3)); ("2d", "elastic", (8%Z, 5, 6)); ("2d", "viscoelastic", (8%Z, 13.69, 6));
    ("2d", "sh", (4%Z, 1.75, 3)); ("2d", "viscosh", (4%Z, 1.75, 3));
    ("2d", "emem", (4%Z, 1.75, 3)); ("2d", "viscoemem", (8%Z, 13.69, 6)); ("2d", "tmem", (4%Z, 1.75, 3)); ("2d", "viscotmem", (4%Z, 13.69, 6));
    ("3d", "acoustic", (6%Z, 2.5, 3)); ("3d", "elastic", (18%Z, 9.79, 9)); ("3d", "viscoelastic", (18%Z, 27.46, 9));
    ("3d", "emem", (18%Z, 9.79, 9)); ("3d", "viscoemem", (18%Z, 27.46, 9)) ]%string.
(** Cost of one derivative of the given order. *)
Inductive derivative_cost : Z -> R -> Prop :=
| dc2 : derivative_cost 2 1 | dc4 : derivative_cost 4 1.56 | dc6 : derivative_cost 6 2.06
| dc8 : derivative_cost 8 2.54 | dc10 : derivative_cost 10 3 | dc12 : derivative_cost 12 3.7.
(** The order used at point i: that of its layer, or the same everywhere. *)
Definition order_at (g : grid) (orders : option (list Z)) (so i o : Z) : Prop :=
  match orders with
  | None => o = so
  | Some v => exists c k, index2coordinate g i = Ok c /\ getLayer g (cy c) = Ok k /\ vget v k = Ok o
  end.
(** Number of directions in which the PML coefficients of a point are not all zero. *)
Inductive directions : list cpml_pt -> Z -> Prop :=
| dir_nil : directions [] 0
| dir_in p ps n : p <> mkPT 0 0 0 0 -> directions ps n -> directions (p :: ps) (1 + n)
| dir_out ps n : directions ps n -> directions (mkPT 0 0 0 0 :: ps) n.
(** n is the number of directions in which the PML acts at point i; there is none without PML. *)
Definition pml_directions (pml : bool) (three : bool) (pp : pml_par) (DH : R) (BW fs : Z) (g : grid) (i n : Z) : Prop :=
  if pml then exists pts, (if three then cpml_init3D else cpml_init2D) pp DH BW fs g i = Ok pts /\ directions pts n else n = 0%Z.
(** x is the cost of point i. *)
Definition cost_of (k : Z * R * R) (orders : option (list Z)) (so : Z) (pml three : bool) (pp : pml_par) (DH : R) (BW fs : Z) (g : grid) (i : Z) (x : R) : Prop :=
  exists o d n, order_at g orders so i o /\ derivative_cost o d /\ pml_directions pml three pp DH BW fs g i n /\
    x = IZR (fst (fst k)) * d + snd (fst k) + IZR n * snd k.
Definition usable (o : Z) : Prop := exists d, derivative_cost o d.
Definition usable_orders (g : grid) (orders : option (list Z)) (so : Z) : Prop :=
  match orders with None => usable so | Some v => (length (layers g) <= length v)%nat /\ Forall usable v end.
Fixpoint total (f : Z -> R) (l : list Z) : R := match l with [] => 0 | i :: l' => f i + total f l' end.
