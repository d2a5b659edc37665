(** Specification of the filter, envelope and phase properties (C51, C82-C84). *)
From Coq Require Import Reals.
From Verif Require Import Base.
Open Scope Z_scope.

Definition power_of_two (n : Z) : Prop := exists e, 0 <= e /\ n = 2 ^ e.
(** [L] is the smallest power of two that is not smaller than [n]. *)
Definition smallest_power_of_two (n L : Z) : Prop :=
  power_of_two L /\ n <= L /\ forall M, power_of_two M -> n <= M -> L <= M.
(** A harmonic trace with [m] periods in [L] samples. *)
Definition cosine (L m : nat) : list R := map (fun j => cos (2 * PI * INR m * INR j / INR L)) (seq 0 L).
Definition sine (L m : nat) : list R := map (fun j => sin (2 * PI * INR m * INR j / INR L)) (seq 0 L).
