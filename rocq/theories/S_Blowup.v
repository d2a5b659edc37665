(** Instability beyond the CFL limit (C156). *)
From Coq Require Import Reals.
From Verif Require Import S_Deriv M_Prog M_Solvers S_Solver S_Step.
Open Scope R_scope.
(** number of grid points along an axis *)
Definition extent (nx ny nz : Z) (a : axis) : Z := match a with AX => nx | AY => ny | AZ => nz end.
(** The pressure of a sequence of states exceeds every bound somewhere on the grid at some time. *)
Definition pressure_unbounded (nx ny nz : Z) (after : nat -> state R_arith) : Prop := forall B : R,
  exists n x y z, (0 <= x < nx)%Z /\ (0 <= y < ny)%Z /\ (0 <= z < nz)%Z /\ B < Rabs (after n pressure (reg_index nx nz x y z)).
