(** The vectors of the free surface classes. *)
From Coq Require Import QArith Qreals Reals.
From Verif Require Import M_Grid M_Prog S_Solver.
Open Scope R_scope.

(** FreeSurfaceAcoustic.cpp init (11-38), FreeSurfaceElastic.cpp init (58-92), FreeSurfaceViscoelastic.cpp init:
    setZeroFreeSurface is 1 except 0 at the indices with locatedOnSurface; selectFreeSurface is 0 except 1 there. *)
Definition setZeroFreeSurface (g : grid) (i : Z) : R :=
  match locatedOnSurface g i with Ok true => 0 | _ => 1 end.
Definition selectFreeSurface (g : grid) (i : Z) : R :=
  match locatedOnSurface g i with Ok true => 1 | _ => 0 end.

(** FreeSurfaceElastic.cpp setModelparameter (11-47), pi = pWaveModulus, mu = sWaveModulus. *)
Definition scaleVerticalUpdate (g : grid) (pi mu : Z -> R) (i : Z) : R := selectFreeSurface g i * (pi i - 2 * mu i).
Definition scaleHorizontalUpdate (g : grid) (pi mu : Z -> R) (i : Z) : R :=
  selectFreeSurface g i * ((pi i - 2 * mu i) * (pi i - 2 * mu i) / pi i * -1).

(** The free surface vectors that the programs of M_Solvers.v read. *)
Definition surface_vectors (e : env R_arith) (g : grid) : Prop :=
  (forall i, e_coef e "setZeroFreeSurface"%string i = setZeroFreeSurface g i) /\
  (forall i, e_coef e "selectFreeSurface"%string i = selectFreeSurface g i).

(** FreeSurfaceViscoelastic.cpp setModelparameter (12-97); pu = pWaveModulus * onePlusLtauP, mu_ = sWaveModulus *
    onePlusLtauS, dp = pWaveModulus * tauP, dm = sWaveModulus * tauS, c2 = viscoCoeff2[l], t = relaxationTime[l]. *)
Definition scaleStressVerticalUpdate (g : grid) (pu mu_ : Z -> R) (i : Z) : R := selectFreeSurface g i * (-2 * mu_ i + pu i).
Definition scaleStressHorizontalUpdate (g : grid) (pu mu_ : Z -> R) (i : Z) : R :=
  -1 * selectFreeSurface g i * (-2 * mu_ i + pu i) * (-2 * mu_ i + pu i) * (1 / pu i).
Definition scaleRelaxationVerticalUpdate (g : grid) (dp dm : Z -> R) (c2 t : R) (i : Z) : R :=
  selectFreeSurface g i * (2 * dm i - dp i) * c2 / t.
Definition scaleRelaxationHorizontalUpdate (g : grid) (pu mu_ dp dm : Z -> R) (c2 t : R) (i : Z) : R :=
  selectFreeSurface g i * (2 * dm i - dp i) * (2 * mu_ i / pu i - 1) * c2 / t.
