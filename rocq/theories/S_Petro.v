(** Specification vocabulary for porous media; does not mention the model of the code. *)
From Coq Require Import Reals.
From Verif Require Import Base.
Local Open Scope R_scope.

(** The pore fluid: water of density 1000 and velocity 1473, air of density 1.29 and velocity 340; s is the water saturation. *)
Definition water_density : R := 1000.
Definition air_density : R := 129 / 100.
Definition water_modulus : R := water_density * 1473 ^ 2.
Definition air_modulus : R := air_density * 340 ^ 2.
Definition fluid_density (s : R) : R := s * water_density + (1 - s) * air_density.
(** Modulus of the mixture: the compressibilities add up. *)
Definition fluid_modulus (s : R) : R := / (s / water_modulus + (1 - s) / air_modulus).

(** Biot's coefficient for the critical porosity 0.4. *)
Definition critical : R := 2 / 5.
Definition biot_coefficient (phi : R) : R := Rmin 1 (Rmax 0 (phi / critical)).

(** Density rho, shear modulus mu and bulk modulus k of a rock with porosity phi and saturation s whose grains have density rm, shear
    modulus mm, bulk modulus km: Gassmann's relations k = (1 - b) km + b^2 M with 1/M = phi/kf + (b - phi)/km, written with one
    fraction.  (For phi = 0 the second term is 0.) *)
Definition medium (phi s rm mm km rho mu k : R) : Prop :=
  let b := biot_coefficient phi in let kf := fluid_modulus s in
  rho = (1 - phi) * rm + phi * fluid_density s /\
  mu = (1 - b) * mm /\
  k = (1 - b) * km + b ^ 2 * (kf * km / (phi * km + (b - phi) * kf)).

(** The value of a vector at a point. *)
Definition pt (v : list R) (i : nat) (x : R) : Prop := nth_error v i = Some x.
