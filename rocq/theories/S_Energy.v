(** The discrete energies of the forward solvers (C153-C156).  The velocities (magnetic fields) live half a time step before
    the stresses (electric fields), so the kinetic (magnetic) part is a product of two consecutive time levels. *)
From Coq Require Import Reals.
From Verif Require Import S_Deriv M_Prog M_Solvers S_Solver S_Step.
Open Scope R_scope.
Open Scope list_scope.

Section energies.
Variables (nx ny nz : Z) (e : env R_arith) (axes comps : list axis).
Notation gs := (grid_sum nx ny nz).

(** sum of v_n v_(n+1) / (1/rho) over the directions of motion *)
Definition kinetic (st st' : state R_arith) : R :=
  sum_axes comps (fun a => gs (fun i => st (vel a) i * st' (vel a) i / e_coef e (buoyancy axes a) i)).
(** sum of p^2 / modulus *)
Definition compression (st : state R_arith) : R := gs (fun i => st pressure i * st pressure i / pmod e i).

(** ** elastic media
    The stress components: normal stresses and shear stresses. *)
Definition normals : list axis := filter (has comps) axes.
Definition shears : list (axis * axis) :=
  filter (fun ab => has axes (fst ab) && has comps (snd ab) || has axes (snd ab) && has comps (fst ab)) [(AX, AY); (AX, AZ); (AY, AZ)].
Definition tensor := axis -> axis -> Z -> R.
(** Complementary energy density S : C^-1 : T of the isotropic law with P-wave modulus P and shear modulus M in n
    dimensions: with lambda = P - 2 M,
    (S : T - lambda / (n lambda + 2 M) tr S tr T) / (2 M) for the normal stresses, S_ab T_ab / M_ab for the shear stresses. *)
Definition compl (P : Z -> R) (M : tensor) (S T : tensor) (i : Z) : R :=
  let mu := M AX AX i in let la := P i - 2 * mu in let n := INR (length normals) in
  (sum_axes normals (fun a => S a a i * T a a i) -
     la / (n * la + 2 * mu) * (sum_axes normals (fun a => S a a i) * sum_axes normals (fun a => T a a i))) / (2 * mu) +
  Rsum (map (fun ab => S (fst ab) (snd ab) i * T (fst ab) (snd ab) i / M (fst ab) (snd ab) i) shears).
Definition strain_energy (P : Z -> R) (M : tensor) (S : tensor) : R := gs (fun i => compl P M S S i).
Definition stress_of (st : state R_arith) : tensor := fun a b => st (sig a b).

(** ** viscoelastic media
    Standard linear solids: a spring with the relaxed moduli and L Maxwell elements with moduli dP, dM.  The stress of the
    l-th Maxwell element is - tau_l times the relaxation variable; the spring carries the rest. *)
Section visco.
Variables (P : Z -> R) (M : tensor) (L : nat) (tau : nat -> R) (dP : Z -> R) (dM : tensor).
Definition maxwell_element (st : state R_arith) (l : nat) : tensor := fun a b i => - tau l * st (rel a b l) i.
Definition spring (st : state R_arith) : tensor := fun a b i =>
  st (sig a b) i - Rsum (map (fun l => maxwell_element st l a b i) (seq 0 L)).
Definition relaxedP : Z -> R := fun i => P i - INR L * dP i.
Definition relaxedM : tensor := fun a b i => M a b i - INR L * dM a b i.
Definition visco_energy (st st' : state R_arith) : R :=
  kinetic st st' + strain_energy relaxedP relaxedM (spring st) +
  Rsum (map (fun l => strain_energy dP dM (maxwell_element st l)) (seq 0 L)).
(** what the dash-pots take out between two time levels *)
Definition visco_loss (DT : R) (st st' : state R_arith) : R :=
  Rsum (map (fun l => DT / (2 * tau l) * strain_energy dP dM (fun a b i => maxwell_element st l a b i + maxwell_element st' l a b i)) (seq 0 L)).
End visco.

(** ** electromagnetic fields *)
Variables (es hs : list axis) (eps sigma : axis -> Z -> R).
Definition magnetic (st st' : state R_arith) : R :=
  sum_axes hs (fun a => gs (fun i => st (hfield a) i * st' (hfield a) i / e_coef e (inv_mu a) i)).
Definition electric (st : state R_arith) : R := sum_axes es (fun a => gs (fun i => eps a i * (st (efield a) i * st (efield a) i))).
(** sigma E^2 with the mean of two time levels *)
Definition ohmic_loss (DT : R) (st st' : state R_arith) : R :=
  sum_axes es (fun a => gs (fun i => 2 * DT * sigma a i * (((st (efield a) i + st' (efield a) i) / 2) * ((st (efield a) i + st' (efield a) i) / 2)))).
End energies.

(** The three settings of the elastic solvers: P-SV waves in the plane, three dimensions, SH waves. *)
Definition geometry (axes comps : list axis) : Prop :=
  (axes = [AX; AY] /\ comps = [AX; AY]) \/ (axes = [AX; AY; AZ] /\ comps = [AX; AY; AZ]) \/ (axes = [AX; AY] /\ comps = [AZ]).
(** The three settings of the electromagnetic solvers: electric field in the plane, electric field normal to the plane,
    three dimensions. *)
Definition em_geometry (axes es hs : list axis) : Prop :=
  (axes = [AX; AY] /\ es = [AX; AY] /\ hs = [AZ]) \/ (axes = [AX; AY] /\ es = [AZ] /\ hs = [AX; AY]) \/
  (axes = [AX; AY; AZ] /\ es = [AX; AY; AZ] /\ hs = [AX; AY; AZ]).

(** The isotropic law is positive definite: positive shear moduli and, if there are normal stresses, positive bulk modulus
    (n lambda + 2 mu) / n in n dimensions. *)
Definition definite (axes comps : list axis) (P : Z -> R) (M : tensor) : Prop := forall i,
  (normals axes comps <> [] -> 0 < M AX AX i /\ 0 < INR (length (normals axes comps)) * (P i - 2 * M AX AX i) + 2 * M AX AX i) /\
  (forall ab, In ab (shears axes comps) -> 0 < M (fst ab) (snd ab) i).
(** lambda <= la and mu <= mu0 everywhere *)
Definition moduli_below (axes comps : list axis) (P : Z -> R) (M : tensor) (la mu : R) : Prop := forall i,
  P i - 2 * M AX AX i <= la /\ M AX AX i <= mu /\ (forall ab, In ab (shears axes comps) -> M (fst ab) (snd ab) i <= mu).
(** Largest P-wave modulus; for SH waves the largest shear modulus. *)
Definition stiffness (comps : list axis) (la mu : R) : R := if has comps AX then la + 2 * mu else mu.

(** The solvers, the directions in which their fields vary, and the directions of motion. *)
Definition acoustic_setting (S : solver) (axes : list axis) : Prop :=
  (S = FD2Dacoustic /\ axes = [AX; AY]) \/ (S = FD3Dacoustic /\ axes = [AX; AY; AZ]).
Definition elastic_setting (S : solver) (axes comps : list axis) : Prop :=
  (S = FD2Delastic /\ axes = [AX; AY] /\ comps = [AX; AY]) \/ (S = FD3Delastic /\ axes = [AX; AY; AZ] /\ comps = [AX; AY; AZ]) \/
  (S = FD2Dsh /\ axes = [AX; AY] /\ comps = [AZ]).
Definition visco_setting (S : solver) (axes comps : list axis) : Prop :=
  (S = FD2Dviscoelastic /\ axes = [AX; AY] /\ comps = [AX; AY]) \/ (S = FD3Dviscoelastic /\ axes = [AX; AY; AZ] /\ comps = [AX; AY; AZ]) \/
  (S = FD2Dviscosh /\ axes = [AX; AY] /\ comps = [AZ]).
Definition em_setting (S : solver) (axes es hs : list axis) : Prop :=
  (S = FD2Demem /\ axes = [AX; AY] /\ es = [AX; AY] /\ hs = [AZ]) \/ (S = FD2Dtmem /\ axes = [AX; AY] /\ es = [AZ] /\ hs = [AX; AY]) \/
  (S = FD3Demem /\ axes = [AX; AY; AZ] /\ es = [AX; AY; AZ] /\ hs = [AX; AY; AZ]).
