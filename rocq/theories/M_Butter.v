(** Model of the design of the frequency filters, src/Filter/Filter.cpp 20-274, and of the application of a filter object
    including the one-frequency filter, 280-342.  The base (init, the transfer function and its application by FFT) is in
    M_Fft.v.  The order of a filter is a natural number (a negative order is not modelled); std::string is a list of bytes. *)
From Coq Require Import Reals String.
From Verif Require Import Base M_Seis M_Common M_Acq M_Conf M_Fft.
Open Scope Z_scope.
Local Notation length := List.length.

Fixpoint Cpow (z : C) (n : nat) : C := match n with O => C1 | S n => Cmul z (Cpow z n) end.

(** setting one entry of a vector of LAMA; the index is checked *)
Definition vput {A} (v : list A) (i : nat) (x : A) : res (list A) :=
  if (i <? length v)%nat then Ok (firstn i v ++ x :: skipn (S i) v) else Throw.

(** ** Frequencies *)
(** calcFrequencyVector, Filter.cpp 23-30: the multiples 0 ... nFreq and -(nFreq-1) ... -1 of df.  A vector of
    negative size (nFreq = 0) is undefined. *)
Definition frequencyVector (f : filt) : res (list R) :=
  let nFreq := truncR (fNyquist f / df f) in
  if nFreq <? 1 then UB else
  Ok (map (fun i => IZR i * df f)%R (zseq 0 (Z.to_nat (nFreq + 1))) ++
      map (fun i => - IZR (nFreq - 1) * df f + IZR i * df f)%R (zseq 0 (Z.to_nat (nFreq - 1)))).

(** the normalised imaginary frequencies of calcFrequencyMat, Filter.cpp 46-51 *)
Inductive pass := lowPass | highPass.
Definition normFreq (p : pass) (fc f : R) : C :=
  match p with lowPass => (0, f / fc)%R | highPass => (0, - fc / f)%R end.
(** one row of the frequency matrix, Filter.cpp 56-58 *)
Definition freqRow (p : pass) (order : nat) (fc f : R) : list C := map (Cpow (normFreq p fc f)) (seq 0 (S order)).

(** ** The Butterworth polynomial *)
(** calcButterPoly, Filter.cpp 66-109.  The factors are multiplied in the frequency domain. *)
Definition butterLinear (order : nat) (iOrder : nat) : R :=
  (-2 * cos ((2 * INR iOrder + INR order - 1) / (2 * INR order) * PI))%R.
Fixpoint butterLoop (n order : nat) (ks : list nat) (polyTemp : list R) (fPoly : list C) : res (list R * list C) :=
  match ks with
  | [] => Ok (polyTemp, fPoly)
  | k :: ks =>
      polyTemp <- vput polyTemp 1 (butterLinear order k) ;;
      let fPolyTemp := fft (resize n (map Creal polyTemp)) in
      butterLoop n order ks polyTemp (map2 Cmul fPoly fPolyTemp)
  end.
Definition calcButterPoly (order : nat) : res (list R) :=
  poly <- vput (repeat 0%R (S order)) 0 1%R ;;
  let fPolyLen := calcNextPowTwo (Z.of_nat order + 1) in
  let n := Z.to_nat fPolyLen in
  let fPoly := fft (resize n (map Creal poly)) in
  let polyTemp := repeat 0%R n in
  polyTemp <- vput polyTemp 0 1%R ;;
  polyTemp <- vput polyTemp 2 1%R ;;
  ' (polyTemp, fPoly) <- butterLoop n order (seq 1 (order / 2)) polyTemp fPoly ;;
  fPoly <- (if Nat.even order then Ok fPoly else
            polyTemp <- vput polyTemp 1 1%R ;;
            polyTemp <- vput polyTemp 2 0%R ;;
            let fPolyTemp := fft (resize n (map Creal polyTemp)) in
            Ok (map2 Cmul fPoly fPolyTemp)) ;;
  let fPoly := map (Cscale (1 / IZR fPolyLen)) fPoly in
  let fPoly := ifft fPoly in
  Ok (map fst (resize (S order) fPoly)).

(** ** Transfer functions *)
(** one entry of the product of the frequency matrix with the polynomial and its reciprocal, Filter.cpp 175-176, 198-199 *)
Definition butterValue (p : pass) (order : nat) (fc : R) (poly : list R) (f : R) : C :=
  Cinv (fold_right Cadd C0 (map2 Cmul (freqRow p order fc f) (map Creal poly))).
(** calcButterworthLp and calcButterworthHp, Filter.cpp 164-201.  At frequency 0 the high pass divides by zero (the
    model has an arbitrary number there); this entry is overwritten in both functions. *)
Definition calcButterworthPass (p : pass) (freqVec : list R) (order : nat) (fc : R) : res (list C) :=
  poly <- calcButterPoly order ;;
  vput (map (butterValue p order fc poly) freqVec) 0 (match p with lowPass => C1 | highPass => C0 end).
(** calcButterworthBp, Filter.cpp 211-218. *)
Definition calcButterworthBp (freqVec : list R) (order : nat) (fc1 fc2 : R) : res (list C) :=
  if Req_EM_T fc2 0 then Throw else
  lp <- calcButterworthPass lowPass freqVec order fc2 ;;
  hp <- calcButterworthPass highPass freqVec order fc1 ;;
  Ok (map2 Cmul lp hp).
(** calcButterworthFilt, Filter.cpp 138-155. *)
Definition calcButterworthFilt (f : filt) (filterType : str) (order : nat) (fc1 fc2 : R) : res (list C) :=
  if negb (if Rlt_dec 0 fc1 then true else false) then Throw else
  let filterType := lower filterType in
  freqVec <- frequencyVector f ;;
  if str_eqb filterType (list_ascii_of_string "lp") then calcButterworthPass lowPass freqVec order fc1
  else if str_eqb filterType (list_ascii_of_string "hp") then calcButterworthPass highPass freqVec order fc1
  else if str_eqb filterType (list_ascii_of_string "bp") then calcButterworthBp freqVec order fc1 fc2
  else Throw.

(** ** Filter objects *)
(** The members L and Linv (one column, one row of length NT) are only allocated by the one-frequency filter. *)
Record fobj := mkFobj { base : filt; matL : option (list C * list C) }.
Definition with_coefs (f : filt) (c : list C) : filt := mkFilt (zeroPadding f) c (df f) (fNyquist f) (filtNT f).
(** init on an existing object, Filter.cpp 8-18: L and Linv are not touched. *)
Definition obj_init (o : fobj) (dt : R) (nt : Z) : res fobj :=
  b <- filter_init dt nt ;; Ok (mkFobj b (matL o)).
(** calcIdealBp, Filter.cpp 246-274; setValue checks the index. *)
Definition calcIdealBp (o : fobj) (order : nat) (fc : R) : res fobj :=
  let f := base o in
  let fc1Ind := ceilR (fc / df f) in
  if (order =? 0)%nat then
    let len := truncR (2 * fNyquist f / df f) in
    let fc2Ind := len - fc1Ind in
    if (fc1Ind <? 0) || (fc2Ind <? 0) then Throw else
    c <- vput (coefs f) (Z.to_nat fc1Ind) C0 ;;
    c <- vput c (Z.to_nat fc2Ind) C0 ;;
    Ok (mkFobj (with_coefs f (map (fun x : C => ((1 - fst x, 0 - snd x)%R : C)) c)) (matL o))
  else
    let dt := (1 / (2 * fNyquist f))%R in
    let t := map (fun i => IZR i * dt)%R (zseq 0 (Z.to_nat (filtNT f))) in
    let L := map (fun t => cis (- (2 * PI * IZR fc1Ind * df f * t))) t in
    let Linv := map (fun t => cis (2 * PI * IZR fc1Ind * df f * t)) t in
    Ok (mkFobj f (Some (L, Linv))).
(** calcIdealFilt, Filter.cpp 227-237. *)
Definition calcIdealFilt (o : fobj) (filterType : str) (order : nat) (fc : R) : res fobj :=
  if negb (if Rlt_dec 0 fc then true else false) then Throw else
  if str_eqb (lower filterType) (list_ascii_of_string "bp") then calcIdealBp o order fc else Throw.
(** calc, Filter.cpp 119-129. *)
Definition obj_calc (o : fobj) (transFcnFmly filterType : str) (order : nat) (fc1 fc2 : R) : res fobj :=
  let transFcnFmly := lower transFcnFmly in
  if str_eqb transFcnFmly (list_ascii_of_string "butterworth") then
    c <- calcButterworthFilt (base o) filterType order fc1 fc2 ;;
    Ok (mkFobj (with_coefs (base o) c) (matL o))
  else if str_eqb transFcnFmly (list_ascii_of_string "ideal") then calcIdealFilt o filterType order fc1
  else Throw.

(** ** Application *)
Definition cdot (a b : list C) : C := fold_right Cadd C0 (map2 Cmul a b).
(** apply for a vector, Filter.cpp 280-307. *)
Definition obj_apply (o : fobj) (signal : list R) : res (list R) :=
  match matL o with
  | None => filter_apply (base o) signal
  | Some (L, Linv) =>
      let len := filter_len (base o) in
      if negb (Z.of_nat (length signal) + zeroPadding (base o) =? len) then Throw else
      if negb (length signal =? length L)%nat then Throw else
      let temp := cdot L (map Creal signal) in
      Ok (map (fun c => fst (Cscale (1 / IZR (filtNT (base o))) (Cmul c temp))) Linv)
  end.
(** apply for a matrix of one or more rows, Filter.cpp 313-342, with the matrix L; the whole matrix is divided by its
    largest magnitude.  None stands for the entries 0 * infinity (not a number) when this is zero. *)
Definition maxNorm (m : list (list R)) : R := fold_right Rmax 0%R (map Rabs (concat m)).
Definition obj_applyMat (o : fobj) (signal : list (list R)) : res (option (list (list R))) :=
  match matL o with
  | None => m <- (fix go rows := match rows with [] => Ok [] | r :: rs => x <- filter_apply (base o) r ;; xs <- go rs ;; Ok (x :: xs) end) signal ;;
            Ok (Some m)
  | Some (L, Linv) =>
      let len := filter_len (base o) in
      if negb (forallb (fun r => Z.of_nat (length r) + zeroPadding (base o) =? len) signal) then Throw else
      if negb (forallb (fun r => (length r =? length L)%nat) signal) then Throw else
      let m := map (fun r => let temp := Cscale (2 / IZR len) (cdot (map Creal r) L) in map (fun c => fst (Cmul temp c)) Linv) signal in
      let mx := maxNorm m in
      if Req_EM_T mx 0 then Ok None else Ok (Some (map (map (fun x => 1 / mx * x)%R) m))
  end.
