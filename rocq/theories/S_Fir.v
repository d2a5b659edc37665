(** What a Hilbert transform by a FIR filter is: the convolution with the samples 2/(pi m), m odd, of the ideal transformer,
    weighted by a Blackman window over the 2K-1 samples -(K-1) .. K-1. *)
From Coq Require Import Reals ZArith List.
Open Scope R_scope.

(** The Blackman window centred at 0, which ends at x = -1 and x = 1. *)
Definition blackman (x : R) : R := 0.42 + 0.5 * cos (PI * x) + 0.08 * cos (2 * PI * x).
(** The ideal transformer takes cos to sin: 2/(pi m) at odd m and 0 at even m. *)
Definition ideal (m : Z) : R := if Z.odd m then 2 / (PI * IZR m) else 0.
Definition windowed (K m : Z) : R :=
  if (Z.abs m <=? K - 1)%Z then ideal m * blackman (IZR m / IZR (K - 1)) else 0.
(** f 0 + ... + f (n-1) *)
Fixpoint sumn (n : nat) (f : Z -> R) : R := match n with O => 0 | S n => sumn n f + f (Z.of_nat n) end.
(** Convolution of the first [c] samples of the signal [x], which is zero outside of them. *)
Definition convolution (K : Z) (c : nat) (x : Z -> R) (j : Z) : R := sumn c (fun i => x i * windowed K (j - i)).
(** The factor by which the filter changes a harmonic of [omega] per sample. *)
Definition gain (K : Z) (omega : R) : R :=
  sumn (Z.to_nat (2 * K - 1)) (fun t => windowed K (K - 1 - t) * sin (omega * IZR (K - 1 - t))).
Definition sample (data : list R) (i : Z) : R := nth (Z.to_nat i) data 0.
