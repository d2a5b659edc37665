(** Specification of the Butterworth and one-frequency filters (C139-C143). *)
From Coq Require Import Reals.
From Verif Require Import Base M_Fft.
Open Scope Z_scope.

(** Product of [f 0], ..., [f (n-1)]. *)
Fixpoint cprod (n : nat) (f : nat -> C) : C := match n with O => C1 | S n => Cmul (cprod n f) (f n) end.
Definition power (z : C) (n : nat) : C := cprod n (fun _ => z).
(** The value of a polynomial with real coefficients (lowest first). *)
Definition pval (p : list R) (s : C) : C := csum (length p) (fun k => Cmul (nth k p 0%R, 0%R) (power s k)).
(** The poles of the analogue Butterworth filter of order [n] with corner frequency 1: the [n] points
    exp(i pi (2k + n - 1) / (2n)), k = 1, ..., n, of the unit circle. *)
Definition pole (n k : nat) : C := let t := (PI * (2 * INR k + INR n - 1) / (2 * INR n))%R in (cos t, sin t).
(** The normalised Butterworth polynomial: the monic polynomial with these zeros. *)
Definition butterworth (n : nat) (s : C) : C := cprod n (fun k => Cadd s (- fst (pole n (S k)), - snd (pole n (S k)))%R).
Definition modulus2 (z : C) : R := (fst z * fst z + snd z * snd z)%R.
Definition conj (z : C) : C := (fst z, - snd z)%R.
(** Frequency of entry [i] of a transfer function with [L] entries: the second half has the negative frequencies. *)
Definition bin_frequency (L : Z) (dt : R) (i : Z) : R := (IZR (if 2 * i <=? L then i else i - L) / (IZR L * dt))%R.
(** The value of a Butterworth low pass and of a high pass at frequency [f] (the high pass is 0 at frequency 0). *)
Definition lp_value (order : nat) (fc f : R) : C := Cinv (butterworth order (0, f / fc)%R).
Definition hp_value (order : nat) (fc f : R) : C := if Req_EM_T f 0 then C0 else Cinv (butterworth order (0, - fc / f)%R).
(** The squared gains of these filters. *)
Definition lp_gain2 (order : nat) (fc f : R) : R := (1 / (1 + (f / fc) ^ (2 * order)))%R.
Definition hp_gain2 (order : nat) (fc f : R) : R := if Req_EM_T f 0 then 0%R else (1 / (1 + (fc / f) ^ (2 * order)))%R.
(** A harmonic trace of [L] samples with [m] periods, amplitude [A] and phase [phi]. *)
Definition harmonic (L m : nat) (A phi : R) : list R := map (fun j => A * cos (2 * PI * INR m * INR j / INR L + phi))%R (seq 0 L).
