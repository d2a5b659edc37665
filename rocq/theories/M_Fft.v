(** Model of the frequency filter (src/Filter/Filter.cpp), of the FFT based Hilbert transform
    (src/Common/HilbertFFT.cpp) and of the envelope and instantaneous phase (src/Common/Common.hpp).
    ValueType is a real number, ComplexValueType a pair of reals.  The transforms of LAMA are modelled by the discrete
    Fourier transform with the negative sign (fft) and with the positive sign (ifft), both without normalisation;
    resizing a vector cuts it or fills it with zeros. *)
From Coq Require Import Reals.
From Verif Require Import Base M_Seis M_Common.
Open Scope Z_scope.

(** ** Complex numbers (scai::common::Complex) *)
Definition C : Type := (R * R)%type.
Definition C0 : C := (0, 0)%R.
Definition C1 : C := (1, 0)%R.
Definition Cadd (a b : C) : C := (fst a + fst b, snd a + snd b)%R.
Definition Cmul (a b : C) : C := (fst a * fst b - snd a * snd b, fst a * snd b + snd a * fst b)%R.
Definition Cscale (s : R) (a : C) : C := (s * fst a, s * snd a)%R.
Definition Creal (x : R) : C := (x, 0%R).
(** the value of the complex exponential at an imaginary argument *)
Definition cis (t : R) : C := (cos t, sin t).
(** reciprocal *)
Definition Cinv (a : C) : C := let n := (fst a * fst a + snd a * snd a)%R in (fst a / n, - snd a / n)%R.

Fixpoint csum (n : nat) (f : nat -> C) : C :=
  match n with O => C0 | S n => Cadd (csum n f) (f n) end.

(** ** fft, ifft and resize of LAMA (not part of the repository) *)
Definition dft (sign : R) (x : list C) : list C :=
  map (fun k => csum (length x) (fun j => Cmul (nth j x C0) (cis (sign * (2 * PI * INR j * INR k / INR (length x))))))
      (seq 0 (length x)).
Definition fft := dft (-1).
Definition ifft := dft 1.
Definition resize (n : nat) (x : list C) : list C := firstn n x ++ repeat C0 (n - length x).

(** ** Filter *)
Record filt := mkFilt { zeroPadding : Z; coefs : list C; df : R; fNyquist : R; filtNT : Z }.
(** init, Filter.cpp 8-18. *)
Definition filter_init (dt : R) (nt : Z) : res filt :=
  if Req_EM_T dt 0 then Throw else
  if nt =? 0 then Throw else
  let zp := calcNextPowTwo (nt - 1) - nt in
  let filterLength := zp + nt in
  Ok (mkFilt zp (repeat C1 (Z.to_nat filterLength)) (1 / (IZR filterLength * dt)) (1 / (2 * dt)) nt).
(** [len] of apply, Filter.cpp 282 and 315; with filterLength = 0 the frequency step is infinite and the length 0. *)
Definition filter_len (f : filt) : Z :=
  if zeroPadding f + filtNT f =? 0 then 0 else truncR (2 * fNyquist f / df f).
(** apply for a vector, Filter.cpp 280-307, without the matrix L (that is, not for the one-frequency DFT filter);
    the rows of a matrix are treated in the same way, 313-342. *)
Definition filter_apply (f : filt) (signal : list R) : res (list R) :=
  let len := filter_len f in
  if negb (Z.of_nat (length signal) + zeroPadding f =? len) then Throw else
  let fSignal := resize (Z.to_nat len) (map Creal signal) in
  let fSignal := fft fSignal in
  let fSignal := map2 Cmul fSignal (coefs f) in
  let fSignal := map (Cscale (1 / IZR len)) fSignal in
  let fSignal := ifft fSignal in
  let fSignal := resize (length signal) fSignal in
  Ok (map fst fSignal).

(** ** Hilbert transform *)
(** calcHilbertCoefficient, HilbertFFT.cpp 9-28; writing kernel[0] of an empty vector is undefined behaviour. *)
Definition hilbert_kernel (kernelSize : Z) : res (list R) :=
  if kernelSize <=? 0 then UB else
  Ok (map (fun i => if 2 * (kernelSize / 2) =? kernelSize
                    then if i =? 0 then 1%R else if i =? kernelSize / 2 then 1%R
                         else if i <? kernelSize / 2 then 2%R else 0%R
                    else if i =? 0 then 1%R else if i <? (kernelSize + 1) / 2 then 2%R else 0%R)
          (zseq 0 (Z.to_nat kernelSize))).
(** the complex result of hilbert before the imaginary part is taken, HilbertFFT.cpp 35-47 and 56-69 *)
Definition analytic (kernelSize : Z) (kernel : list R) (data : list R) : list C :=
  let fData := resize (Z.to_nat kernelSize) (map Creal data) in
  let fData := fft fData in
  let fData := map2 Cmul fData (map Creal kernel) in
  let fData := map (Cscale (1 / IZR kernelSize)) fData in
  let fData := ifft fData in
  resize (length data) fData.
Definition hilbert (kernelSize : Z) (kernel : list R) (data : list R) : list R := map snd (analytic kernelSize kernel data).

(** calcEnvelope for one row, Common.hpp 271-290. *)
Definition calcEnvelope (data : list R) : res (list R) :=
  let kernelSize := calcNextPowTwo (Z.of_nat (length data) - 1) in
  kernel <- hilbert_kernel kernelSize ;;
  let dataImag := hilbert kernelSize kernel data in
  Ok (map2 (fun x h => sqrt (x * x + h * h)) data dataImag).

(** ** Instantaneous phase *)
(** std::atan2 for numbers (signed zeros are not distinguished) *)
Definition atan2 (y x : R) : R :=
  if Rlt_dec 0 x then atan (y / x)
  else if Rlt_dec x 0 then (if Rle_dec 0 y then atan (y / x) + PI else atan (y / x) - PI)%R
  else if Rlt_dec 0 y then (PI / 2)%R else if Rlt_dec y 0 then (- (PI / 2))%R else 0%R.
(** calcInstantaneousPhase for one row, phase types 2 and 3 (type 1, which divides by the data, is not modelled),
    Common.hpp 297-341.  The call of the Hilbert transform is
    commented out in line 301, so the imaginary part is minus the data. *)
Definition instantaneousPhase (phaseType : Z) (data : list R) : list R :=
  let dataImag := map Ropp data in
  if phaseType =? 2 then map2 (fun im re => atan2 im re) dataImag data
  else if phaseType =? 3 then unwrap (map2 (fun im re => atan2 im re) dataImag data)
  else data.
