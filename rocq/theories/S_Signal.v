(** Specification of the synthetic source signals (C96-C100): the wavelets as functions of time, independent of the code. *)
From Coq Require Import Reals.
From Verif Require Import Base.
Open Scope R_scope.

(** Time functions with centre frequency [f]; [s] is the time after the reference time of the wavelet. *)
Definition ricker_at (f s : R) : R := (1 - 2 * (PI * f * s) ^ 2) * exp (- (PI * f * s) ^ 2).
Definition gauss_at (f s : R) : R := exp (- (PI * f * s) ^ 2).
Definition fgauss_at (f s : R) : R := - 2 * (PI * f * s) * exp (- (PI * f * s) ^ 2).
Definition gprmax_at (f s : R) : R := - 4 * (PI * f) ^ 2 * exp (1 / (8 * (PI * f) ^ 2)) * (s * exp (- 2 * (PI * f * s) ^ 2)).
Definition sine_at (f s : R) : R := sin (2 * PI * f * s).
Definition sin3_at (f s : R) : R := (sin (PI * f * s)) ^ 3.
Definition sinw_at (f s : R) : R := sin (2 * PI * f * s) - 1 / 2 * sin (4 * PI * f * s).
Definition intg_at (f s : R) : R := (1 / 2 - 3 / 4 * cos (PI * f * s) + 1 / 4 * (cos (PI * f * s)) ^ 3) / (3 / 4 * PI * f).
Definition berlage_at (f s : R) : R := if Rlt_dec s 0 then 0 else cos (2 * PI * f * s) * s ^ 2 * exp (- (2 * f * s)).

(** [v] are the values of [g] at the times 0, DT, ..., (NT-1) DT. *)
Definition sampled (NT : Z) (DT : R) (g : R -> R) (v : list R) : Prop :=
  Z.of_nat (length v) = NT /\ forall i, (0 <= i < NT)%Z -> nth_error v (Z.to_nat i) = Some (g (IZR i * DT)).
(** [k] is the largest integer not above [x]. *)
Definition is_floor (x : R) (k : Z) : Prop := IZR k <= x < IZR k + 1.
