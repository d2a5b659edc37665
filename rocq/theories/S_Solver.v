(** Vocabulary for the properties of the forward solvers. *)
From Coq Require Import QArith Qreals Reals.
From Verif Require Import S_Deriv M_Prog M_Solvers.
Open Scope R_scope.

(** Exact real arithmetic. *)
Definition R_arith : arith := Arith R Rplus Rminus Rmult Q2R.

Definition Rsum (l : list R) : R := fold_right Rplus 0 l.

(** Sum of the samples at time t of the sources of a list that are located at grid point i. *)
Definition injected (l : list (Z * (nat -> R))) (t : nat) (i : Z) : R :=
  Rsum (map (fun js => snd js t) (filter (fun js => Z.eqb (fst js) i) l)).

(** Sample of a recorded seismogram: time t, k-th seismogram type of the solver, receiver number r. *)
Definition sample {K} (seis : list (list (list K))) (t k r : nat) : option K :=
  match nth_error seis t with
  | Some col => match nth_error col k with Some tr => nth_error tr r | None => None end
  | None => None
  end.

(** The auxiliary vectors of the PML are zero (only relevant if the PML is used). *)
Definition pml_memory_zero {A} (s : solver) (c : cfg) (st : state A) : Prop :=
  c_pml c = true -> forall n, In n (s_psi s) -> forall i, st n i = a_q A 0.

(** Two states with the same wavefields and, if the PML is used, the same PML memory. *)
Definition same_fields {A} (s : solver) (c : cfg) (st st' : state A) : Prop :=
  (forall n, In n (s_fields s c) -> forall i, st n i = st' n i) /\
  (c_pml c = true -> forall n, In n (s_psi s) -> forall i, st n i = st' n i).

(** Two source sets with the same positions and the same samples at time t. *)
Definition same_sources_at {A} (src src' : acq A) (t : nat) : Prop :=
  forall ty, map (fun js => (fst js, snd js t)) (src ty) = map (fun js => (fst js, snd js t)) (src' ty).

(** The seismograms of one shot. *)
Definition seismograms {A} (s : solver) (c : cfg) (sh : shot A) (st : state A) : list (list (list (num A))) :=
  snd (run_shot s c sh st).
(** Wavefields (and PML memory) after the time steps of a shot that starts with zero wavefields. *)
Definition final_fields {A} (s : solver) (c : cfg) (sh : shot A) (n : nat) (st : state A) : state A :=
  fst (steps s c sh 0 n (zero_regs (s_fields s c) st)).

(** Two source sets that inject the same samples, in the same order, at every grid point except P0. *)
Definition same_sources_off {A} (P0 : Z) (src src' : acq A) : Prop :=
  forall ty t i, i <> P0 -> map (fun js => snd js t) (filter (fun js => Z.eqb (fst js) i) (src ty)) =
                           map (fun js => snd js t) (filter (fun js => Z.eqb (fst js) i) (src' ty)).

(** The solvers in three space dimensions, which use the z derivatives. *)
Definition solvers3D : list solver := [FD3Dacoustic; FD3Delastic; FD3Dviscoelastic; FD3Demem; FD3Dviscoemem].

(** Sum over the points of a line of n points, and over all points of a regular grid. *)
Definition line_sum (n : Z) (f : Z -> R) : R := Rsum (map f (zseq 0 (Z.to_nat n))).
Definition grid_sum (nx ny nz : Z) (f : Z -> R) : R :=
  line_sum ny (fun y => line_sum nz (fun z => line_sum nx (fun x => f (reg_index nx nz x y z)))).

(** No PML, no damping frame, no interpolation between grids of different spacing. *)
Definition undamped (c : cfg) : Prop :=
  c_pml c = false /\ c_damp c = false /\ c_itF c = false /\ c_itX c = false /\ c_itZ c = false /\ c_itXZ c = false.

(** One pressure source, one pressure receiver. *)
Definition point_source (i : Z) (w : nat -> R) : acq R_arith := fun ty => match ty with TP => [(i, w)] | _ => [] end.
Definition point_receiver (i : Z) : stype -> list Z := fun ty => match ty with TP => [i] | _ => [] end.
