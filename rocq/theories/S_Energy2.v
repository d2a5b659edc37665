(** Energies of the electromagnetic schemes with Debye relaxation. *)
From Coq Require Import Reals.
From Verif Require Import M_Prog M_Solvers S_Solver S_Step S_Energy.
Open Scope R_scope.
Open Scope list_scope.

(** The solvers with relaxation currents, the directions in which their fields vary, and the components. *)
Definition debye_setting (S : solver) (axes es hs : list axis) : Prop :=
  (S = FD2Dviscoemem /\ axes = [AX; AY] /\ es = [AX; AY] /\ hs = [AZ]) \/ (S = FD2Dviscotmem /\ axes = [AX; AY] /\ es = [AZ] /\ hs = [AX; AY]) \/
  (S = FD3Dviscoemem /\ axes = [AX; AY; AZ] /\ es = [AX; AY; AZ] /\ hs = [AX; AY; AZ]).

Section debye.
Variables (nx ny nz : Z) (es : list axis) (L : nat) (T : nat -> R) (g : axis -> nat -> Z -> R) (DT : R).
Notation gs := (grid_sum nx ny nz).
Notation sum_mech f := (Rsum (map f (seq 0 L))).
(** Energy stored in the polarization (twice): the relaxation current r = - P / T of a mechanism with susceptibility g T stores
    T r^2 / g; here a mean over two steps, [st] and the next one [st'], with weights 1/2 -+ DT / (4 T). *)
Definition polarization (st st' : state R_arith) : R :=
  sum_axes es (fun a => gs (fun i => sum_mech (fun l => T l / g a l i *
    ((1 / 2 - DT / (4 * T l)) * (st (rfield a l) i * st (rfield a l) i) + (1 / 2 + DT / (4 * T l)) * (st' (rfield a l) i * st' (rfield a l) i))))).
(** Energy lost by relaxation from [st] to the state [st''] two steps later. *)
Definition relaxation_loss (st st'' : state R_arith) : R :=
  sum_axes es (fun a => gs (fun i => sum_mech (fun l => (T l * T l - DT * DT / 4) / (2 * DT * g a l i) *
    ((st'' (rfield a l) i - st (rfield a l) i) * (st'' (rfield a l) i - st (rfield a l) i))))).
End debye.
