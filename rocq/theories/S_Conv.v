(** Specification vocabulary for the convergence of the acoustic solvers (C165). *)
From Coq Require Import Reals.
From Verif Require Import Base M_Deriv S_Deriv M_Prog M_Solvers S_Solver S_Step S_Taylor.
Open Scope R_scope.
Open Scope list_scope.

(** Points of space, the grid point (x,y,z) of a grid with spacing [h], and displacement along an axis. *)
Definition position : Type := axis -> R.
Definition coordinate (a : axis) (x y z : Z) : Z := match a with AX => x | AY => y | AZ => z end.
Definition at_point (h : R) (x y z : Z) : position := fun a => IZR (coordinate a x y z) * h.
Definition shift (a : axis) (s : R) (r : position) : position := fun d => if axis_eqb a d then r d + s else r d.
(** Velocities along [a] lie half a cell further along [a]. *)
Definition half_point (h : R) (a : axis) (x y z : Z) : position := shift a (h / 2) (at_point h x y z).

Definition points_sum (nx ny nz : Z) (f : Z -> Z -> Z -> R) : R :=
  line_sum ny (fun y => line_sum nz (fun z => line_sum nx (fun x => f x y z))).

(** A smooth solution of the acoustic wave equation, up to time [T], on and around a grid of nx * ny * nz points:
      d/dt V_a = b_a d/da P,   d/dt P = K (sum of d/da V_a),
    where the coefficients at the grid points are those of the program (inverse densities [buoyancy], moduli [pmod]). *)
Record exact_solution (nx ny nz p : Z) (h dt T Mx Mt : R) (e : env R_arith) (axes : list axis)
    (P : R -> position -> R) (V : axis -> R -> position -> R) : Prop := {
  (** the equations hold at the points where the program evaluates them *)
  es_v : forall a x y z t, In a axes -> (0 <= x < nx)%Z -> (0 <= y < ny)%Z -> (0 <= z < nz)%Z -> 0 <= t <= T ->
    let r := half_point h a x y z in
    exists dP, derivable_pt_lim (fun s => P t (shift a s r)) 0 dP /\
      derivable_pt_lim (fun s => V a s r) t (e_coef e (buoyancy axes a) (reg_index nx nz x y z) * dP);
  es_p : forall x y z t, (0 <= x < nx)%Z -> (0 <= y < ny)%Z -> (0 <= z < nz)%Z -> 0 <= t <= T ->
    let r := at_point h x y z in
    exists dV, (forall a, In a axes -> derivable_pt_lim (fun s => V a t (shift a s r)) 0 (dV a)) /\
      derivable_pt_lim (fun s => P s r) t (pmod e (reg_index nx nz x y z) * sum_axes axes dV);
  (** space derivatives of order p+1 are bounded by Mx, third time derivatives by Mt *)
  es_Px : forall a x y z t, In a axes -> (0 <= x < nx)%Z -> (0 <= y < ny)%Z -> (0 <= z < nz)%Z -> 0 <= t <= T ->
    smooth_on (Z.to_nat p) Mx (- (IZR p / 2 * h)) (IZR p / 2 * h) (fun s => P t (shift a s (half_point h a x y z)));
  es_Vx : forall a x y z t, In a axes -> (0 <= x < nx)%Z -> (0 <= y < ny)%Z -> (0 <= z < nz)%Z -> 0 <= t <= T ->
    smooth_on (Z.to_nat p) Mx (- (IZR p / 2 * h)) (IZR p / 2 * h) (fun s => V a t (shift a s (at_point h x y z)));
  es_Pt : forall x y z, (0 <= x < nx)%Z -> (0 <= y < ny)%Z -> (0 <= z < nz)%Z ->
    smooth_on 2 Mt 0 T (fun s => P s (at_point h x y z));
  es_Vt : forall a x y z, In a axes -> (0 <= x < nx)%Z -> (0 <= y < ny)%Z -> (0 <= z < nz)%Z ->
    smooth_on 2 Mt (- (dt / 2)) T (fun s => V a s (half_point h a x y z));
  (** the fields vanish at those points outside the grid that the stencils of its points would reach *)
  es_Po : forall a x y z j t, In a axes -> (0 <= x < nx)%Z -> (0 <= y < ny)%Z -> (0 <= z < nz)%Z -> 0 <= t <= T ->
    (- p < 2 * j <= p)%Z -> ~ (0 <= coordinate a x y z + j < coordinate a nx ny nz)%Z -> P t (shift a (IZR j * h) (at_point h x y z)) = 0;
  es_Vo : forall a x y z j t, In a axes -> (0 <= x < nx)%Z -> (0 <= y < ny)%Z -> (0 <= z < nz)%Z -> 0 <= t <= T ->
    (- p <= 2 * j < p)%Z -> ~ (0 <= coordinate a x y z + j < coordinate a nx ny nz)%Z -> V a t (shift a (IZR j * h) (half_point h a x y z)) = 0
}.
