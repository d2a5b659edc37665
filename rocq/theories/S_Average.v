(** Specification vocabulary for averaging and windowing; does not mention the model of the code. *)
From Coq Require Import Reals.
From Verif Require Import Base.
Local Open Scope R_scope.

(** A weighted average over the points 0..n-1: (point, weight) pairs, every point at most once. *)
Definition is_average (n : Z) (r : list (Z * R)) : Prop :=
  Forall (fun e => (0 <= fst e < n)%Z /\ 0 <= snd e) r /\ NoDup (map fst r) /\ fold_right Rplus 0 (map snd r) = 1.

(** The three grid directions; a point moved one cell. *)
Inductive dir := DX | DY | DZ.
Definition point := (Z * Z * Z)%type.
Definition move (d : dir) (p : point) : point :=
  let '(x, y, z) := p in match d with DX => (x + 1, y, z) | DY => (x, y + 1, z) | DZ => (x, y, z + 1) end%Z.
(** The corners of the cell spanned from [p] in the given directions. *)
Fixpoint corners (ds : list dir) (p : point) : list point :=
  match ds with [] => [p] | d :: ds' => corners ds' p ++ map (move d) (corners ds' p) end.
(** Directions in which the model does not end at [p]. *)
Definition extent (n : point) (d : dir) : Z := let '(nx, ny, nz) := n in match d with DX => nx | DY => ny | DZ => nz end.
Definition open_dirs (n : point) (ds : list dir) (p : point) : list dir :=
  filter (fun d => (extent (move d p) d <? extent n d)%Z) ds.
(** The uniform average over the corners of the cell clipped at the end of the model; points are numbered by [num]. *)
Definition cell_average (num : point -> Z) (n : point) (ds : list dir) (p : point) : list (Z * R) :=
  let cs := corners (open_dirs n ds p) p in map (fun q => (num q, / INR (length cs))) cs.
