(** Coefficients of the time stepping that are computed once before the time loop: relaxation mechanisms of the
    viscoelastic solvers, electromagnetic coefficients.  Exact real arithmetic; DenseVectors are functions of the grid
    index, elementwise operations. *)
From Coq Require Import Reals.
From Verif Require Import M_Prog S_Solver.
Open Scope R_scope.

(** relaxationTime[l] = 1 / (2 Pi f_l): ForwardSolver2Dviscoelastic.cpp 58-59, 2Dviscosh 50-51, 3Dviscoelastic 60-61,
    ForwardSolver2Dviscoemem.cpp 82, 2Dviscotmem 89, 3Dviscoemem 100. *)
Definition relaxationTime (f : nat -> R) (l : nat) : R := 1 / (2 * PI * f l).
(** ForwardSolver2Dviscoelastic.cpp 60-62 (2Dviscosh 52-55, 3Dviscoelastic 62-64). *)
Definition inverseRelaxationTime (f : nat -> R) (l : nat) : R := 1 / relaxationTime f l.
Definition viscoCoeff1 (DT : R) (f : nat -> R) (l : nat) : R := 1 - DT / (2 * relaxationTime f l).
Definition viscoCoeff2 (DT : R) (f : nat -> R) (l : nat) : R := 1 / (1 + DT / (2 * relaxationTime f l)).
(** ForwardSolver2Dviscoelastic.cpp prepareForModelling 94-98: 1 + L * tau. *)
Definition onePlusLtau (L : nat) (tau : Z -> R) (i : Z) : R := 1 + INR L * tau i.

(** What initForwardSolver and prepareForModelling of the viscoelastic solvers provide to [run]; f: relaxation
    frequencies, L: their number. *)
Record visco_prepared (e : env R_arith) (DT : R) (f : nat -> R) (L : nat) : Prop := {
  vp_inv : forall l, (l < L)%nat -> e_sca e (N "inverseRelaxationTime" l) = inverseRelaxationTime f l;
  vp_c1 : forall l, (l < L)%nat -> e_sca e (N "viscoCoeff1" l) = viscoCoeff1 DT f l;
  vp_c2 : forall l, (l < L)%nat -> e_sca e (N "viscoCoeff2" l) = viscoCoeff2 DT f l;
  vp_half : e_sca e "DThalf"%string = DT / 2;
  vp_P : forall i, e_coef e "onePlusLtauP"%string i = onePlusLtau L (e_coef e "tauP"%string) i;
  vp_S : forall i, e_coef e "onePlusLtauS"%string i = onePlusLtau L (e_coef e "tauS"%string) i }.

(** ** ForwardSolverEM.cpp *)
(** getAveragedCinv 15-24. *)
Definition getCinv (eps sig DT : R) : R := 1 / (1 / 2 / eps * sig * DT + 1).
(** getAveragedCa 37-47. *)
Definition getCa (eps sig DT : R) : R := (1 - 1 / 2 / eps * sig * DT) * getCinv eps sig DT.
(** getAveragedCb 61-68. *)
Definition getCb (eps sig DT : R) : R := 1 / eps * getCinv eps sig DT.
(** getCc 80-88. *)
Definition getCc (f : nat -> R) (DT : R) (l : nat) : R :=
  (1 - 1 / 2 * DT / relaxationTime f l) / (1 + 1 / 2 * DT / relaxationTime f l).
(** getAveragedCd 102-117. *)
Definition getCd (L : nat) (f : nat -> R) (eps tau DT : R) (l : nat) : R :=
  tau * (1 / (1 + 1 / 2 * DT / relaxationTime f l) / (INR L * relaxationTime f l * relaxationTime f l)) * eps * - DT.
(** getElectricConductivityEffectiveOptical 122-135. *)
Definition sigmaOptical (L : nat) (f : nat -> R) (eps sig tau : R) : R :=
  tau * (Rsum (map (fun l => 1 / relaxationTime f l) (seq 0 L)) / INR L) * eps + sig.
(** getDielectricPermittivityEffectiveOptical 140-154; searchAndReplace(v, t, t, 1) replaces the values below t by t
    (Common.hpp 218-257). *)
Definition epsOptical (eps sig tau tauS eps0 : R) : R :=
  let x := (1 - tau) * eps + sig * tauS in if Rlt_dec x eps0 then eps0 else x.

(** What prepareForModelling of the electromagnetic solvers provides to [run], for the electric field component with
    upper case letter X, in terms of the averaged model parameters at the points of that component.
    ForwardSolver2Demem.cpp 84-88, 2Dtmem.cpp 81-82, 3Demem.cpp 85-91. *)
Record em_prepared (e : env R_arith) (DT : R) (X : string) (eps sig : Z -> R) : Prop := {
  ep_a : forall i, e_coef e (nm_s ("CaAverage" ++ X)) i = getCa (eps i) (sig i) DT;
  ep_b : forall i, e_coef e (nm_s ("CbAverage" ++ X)) i = getCb (eps i) (sig i) DT }.
(** ForwardSolver2Dviscoemem.cpp 70-104, 2Dviscotmem.cpp 78-104, 3Dviscoemem.cpp 75-131. *)
Record viscoem_prepared (e : env R_arith) (DT : R) (f : nat -> R) (L : nat) (X : string) (eps sig tau tauS : Z -> R) (eps0 : R) : Prop := {
  ev_ab : em_prepared e DT X (fun i => epsOptical (eps i) (sig i) (tau i) (tauS i) eps0)
                             (fun i => sigmaOptical L f (eps i) (sig i) (tau i));
  ev_c : forall l, (l < L)%nat -> e_sca e (N "Cc" l) = getCc f DT l;
  ev_d : forall l i, (l < L)%nat -> e_coef e (N ("CdAverage" ++ X) l) i = getCd L f (eps i) (tau i) DT l;
  ev_dt : e_sca e "DT_temp"%string = DT }.
