(** Model of the seismogram post-processing (src/Acquisition/Seismogram.cpp), the resampling matrix
    (src/Common/Common.hpp) and the SU file format (src/IO/SUIO.hpp, src/Acquisition/segy.hpp,
    src/Acquisition/suHandler.cpp).

    Samples are real numbers in the parts that compute with them (floating-point rounding is not
    modelled); in the SU part a sample is the 32-bit pattern of the float that is stored. *)
From Coq Require Import Reals QArith Qround.
From Verif Require Import Base M_Acq.
Open Scope R_scope.
Open Scope Z_scope.

(** * Traces in memory *)

(** [row\[i\]] for an index in range. *)
Definition rget (row : list R) (i : nat) : R := nth i row 0%R.
(** [row\[i\] = v]. *)
Fixpoint rset (row : list R) (i : nat) (v : R) : list R :=
  match row, i with
  | [], _ => []
  | _ :: r, O => v :: r
  | x :: r, S i => x :: rset r i v
  end.

(** integrateTraces, Seismogram.cpp 475-487, one row: the loop writes into the row it reads from. *)
Definition integrate_row (DT : R) (row : list R) : list R :=
  fold_left (fun tempRow j => rset tempRow (j + 1) (rget tempRow (j + 1) * DT + rget tempRow j)%R)
            (seq 0 (length row - 1)) row.

(** differentiateTraces, Seismogram.cpp 495-507, one row. *)
Definition differentiate_row (DT : R) (row : list R) : list R :=
  fold_left (fun tempRow j => rset tempRow (j + 1) ((rget tempRow (j + 1) - rget tempRow j) / DT)%R)
            (seq 0 (length row - 1)) row.

(** The guard [data.getNumValues() > 0] only skips matrices without entries, for which the loops do
    nothing. *)
Definition integrateTraces (DT : R) (data : list (list R)) : list (list R) := map (integrate_row DT) data.
Definition differentiateTraces (DT : R) (data : list (list R)) : list (list R) :=
  map (differentiate_row DT) data.

(** HArrayUtils::maxNorm and HArrayUtils::l2Norm (LAMA). *)
Definition maxNorm (row : list R) : R := fold_right (fun x m => Rmax (Rabs x) m) 0%R row.
Definition sumsq (row : list R) : R := fold_right (fun x s => (x * x + s)%R) 0%R row.
Definition l2Norm (row : list R) : R := sqrt (sumsq row).

(** [setScalar(tempRow, c, DIVIDE)]. *)
Definition divide_row (c : R) (row : list R) : list R := map (fun x => (x / c)%R) row.
(** [if (tempMax == 0) tempMax = 1;] *)
Definition one_if_zero (c : R) : R := if Req_EM_T c 0 then 1%R else c.

Record seismo := { sdata : list (list R); sinverseAGC : list (list R); suseAGC : bool }.

Definition map2 {A B C} (f : A -> B -> C) (l : list A) (k : list B) : list C :=
  map (fun p => f (fst p) (snd p)) (combine l k).

(** Envelope normalisation of one trace, Seismogram.cpp 241-256; [env] is the envelope of the
    l2-normalised trace. *)
Definition envelope_row (row env : list R) : list R :=
  let tempMax := maxNorm env in
  let water := if Req_EM_T tempMax 0 then (1/1000 * (1/1000))%R else (1/1000 * tempMax)%R in
  map2 (fun x e => (x / (e + water))%R) row env.

(** normalizeTrace, Seismogram.cpp 215-260.  [calcEnvelope] (Hilbert transform by FFT) is not
    modelled, it is a parameter. *)
Definition normalizeTrace (calcEnvelope : list (list R) -> list (list R)) (kind : Z) (s : seismo) : seismo :=
  if kind <=? 0 then s
  else if kind =? 1 then
    {| sdata := map (fun row => divide_row (one_if_zero (maxNorm row)) row) (sdata s);
       sinverseAGC := sinverseAGC s; suseAGC := suseAGC s |}
  else
    let data := map (fun row => divide_row (one_if_zero (l2Norm row)) row) (sdata s) in
    if (kind =? 3) && suseAGC s then
      {| sdata := map2 (map2 Rmult) data (sinverseAGC s); sinverseAGC := sinverseAGC s; suseAGC := false |}
    else if kind =? 4 then
      {| sdata := map2 envelope_row data (calcEnvelope data);
         sinverseAGC := sinverseAGC s; suseAGC := suseAGC s |}
    else {| sdata := data; sinverseAGC := sinverseAGC s; suseAGC := suseAGC s |}.

(** * Automatic gain control *)

(** [if (NAGC > NT / 2) NAGC = NT / 2;] (Seismogram.cpp 280-281, 336-337).  The requested NAGC,
    round(1/(frequencyAGC*DT)), is a parameter. *)
Definition clip_nagc (NAGC NT : Z) : Z := if NAGC >? Z.quot NT 2 then Z.quot NT 2 else NAGC.

(** First loop, Seismogram.cpp 289-292 and 349-353; [term] is what a sample adds to the sum. *)
Fixpoint agc_init (term : R -> R) (row : list R) (sum : R) (steps : list Z) : res R :=
  match steps with
  | [] => Ok sum
  | t :: steps => var <- vget row t ;; agc_init term row (sum + term var)%R steps
  end.

(** Second loop, Seismogram.cpp 293-311, for the time steps in the given (decreasing) order.  The
    result lists, for every step, the sum and the number of samples NWIN; [rmsTemp] is their quotient. *)
Fixpoint agc_loop (NAGC NT : Z) (row : list R) (sum : R) (nwin : Z) (steps : list Z)
  : res (list (Z * (R * Z))) :=
  match steps with
  | [] => Ok []
  | t :: steps =>
      ' (sum, nwin) <-
        (if t >=? NT - NAGC then
           var <- vget row (t - NAGC) ;; Ok ((sum + var)%R, nwin + 1)
         else if (t >=? NAGC) && (t <? NT - NAGC) then
           var <- vget row (t - NAGC) ;;
           let sum := (sum + var)%R in
           var <- vget row (t + NAGC) ;; Ok ((sum - var)%R, nwin)
         else if t <? NAGC then
           var <- vget row (t + NAGC) ;; Ok ((sum - var)%R, nwin - 1)
         else Ok (sum, nwin)) ;;
      rest <- agc_loop NAGC NT row sum nwin steps ;;
      Ok ((t, (sum, nwin)) :: rest)
  end.

(** getAGCSum, Seismogram.cpp 268-316, the running sums and window lengths of one row (already
    l2-normalised), latest time step first. *)
Definition agc_row (NAGC : Z) (row : list R) : res (list (Z * (R * Z))) :=
  let NT := Z.of_nat (length row) in
  let NAGC := clip_nagc NAGC NT in
  sum <- agc_init (fun x => x) row 0%R (zseq (NT - NAGC) (Z.to_nat NAGC)) ;;
  agc_loop NAGC NT row sum NAGC (rev (zseq 0 (Z.to_nat NT))).

(** [rmsTemp = sumTemp / NWIN]; a division by zero (NaN) is reported as [UB]. *)
Definition agc_mean (p : Z * (R * Z)) : res R :=
  if snd (snd p) =? 0 then UB else Ok (fst (snd p) / IZR (snd (snd p)))%R.
Fixpoint mapres {A B} (f : A -> res B) (l : list A) : res (list B) :=
  match l with [] => Ok [] | a :: r => b <- f a ;; s <- mapres f r ;; Ok (b :: s) end.

Definition getAGCSum_row (NAGC : Z) (row : list R) : res (list R) :=
  l <- agc_row NAGC row ;;
  out <- mapres agc_mean l ;;
  Ok (rev out).

(** getAGCSum, Seismogram.cpp 268-316: the data are l2-normalised first (and restored afterwards). *)
Definition getAGCSum (NAGC : Z) (data : list (list R)) : res (list (list R)) :=
  mapres (getAGCSum_row NAGC) (map (fun row => divide_row (one_if_zero (l2Norm row)) row) data).

(** calcInverseAGC, Seismogram.cpp 355-381: second loop with squares and water level. *)
Fixpoint inv_loop (w : R) (NAGC NT : Z) (row : list R) (sum : R) (nwin : Z) (steps : list Z)
  : res (list (Z * (R * Z))) :=
  match steps with
  | [] => Ok []
  | t :: steps =>
      ' (sum, nwin) <-
        (if t >=? NT - NAGC then
           var <- vget row (t - NAGC) ;; Ok ((sum + var * var + w)%R, nwin + 1)
         else if (t >=? NAGC) && (t <? NT - NAGC) then
           var <- vget row (t - NAGC) ;;
           let sum := (sum + var * var)%R in
           var <- vget row (t + NAGC) ;; Ok ((sum - var * var)%R, nwin)
         else if t <? NAGC then
           var <- vget row (t + NAGC) ;; Ok ((sum - var * var - w)%R, nwin - 1)
         else Ok (sum, nwin)) ;;
      rest <- inv_loop w NAGC NT row sum nwin steps ;;
      Ok ((t, (sum, nwin)) :: rest)
  end.

(** Water level of one trace, Seismogram.cpp 343-348; [rest] = 1e-3*dataNorm.l2Norm()/NT/numTraces is
    used for a zero trace. *)
Definition water_level (rest : R) (row : list R) : R :=
  let w := (l2Norm row * l2Norm row / IZR (Z.of_nat (length row)))%R in
  if Req_EM_T w 0 then rest else (w * (1/1000))%R.

(** Seismogram.cpp 372-378. *)
Definition inv_value (p : Z * (R * Z)) : res R :=
  m <- agc_mean p ;; Ok (if Rlt_dec 0 m then (1 / sqrt m)%R else 0%R).

(** calcInverseAGC, Seismogram.cpp 323-387, one (l2-normalised) row. *)
Definition inverseAGC_row (rest : R) (NAGC : Z) (row : list R) : res (list R) :=
  let NT := Z.of_nat (length row) in
  let NAGC := clip_nagc NAGC NT in
  let w := water_level rest row in
  sum <- agc_init (fun x => (x * x + w)%R) row 0%R (zseq (NT - NAGC) (Z.to_nat NAGC)) ;;
  l <- inv_loop w NAGC NT row sum NAGC (rev (zseq 0 (Z.to_nat NT))) ;;
  out <- mapres inv_value l ;;
  Ok (rev out).

(** * Check for NaN and infinity *)

(** isFinite, Seismogram.cpp 529-539: [data] is the row-major local storage, [NS] = getNumSamples(),
    [fin] = std::isfinite. *)
Fixpoint isFinite_loop {A} (fin : A -> bool) (fuel : nat) (NS : Z) (data : list A) (loc : Z) : res bool :=
  match fuel with
  | O => Fuel
  | S fuel =>
      if loc <? Z.of_nat (length data) - 1 then
        v <- vget data loc ;;
        if negb (fin v) then Ok false else isFinite_loop fin fuel NS data (loc + NS)
      else Ok true
  end.
Definition isFinite {A} (fin : A -> bool) (fuel : nat) (NS : Z) (data : list A) : res bool :=
  isFinite_loop fin fuel NS data (NS - 1).

(** SeismogramHandler::isFinite, SeismogramHandler.cpp 445-456: conjunction over the components. *)
Fixpoint isFinite_all (l : list (res bool)) : res bool :=
  match l with
  | [] => Ok true
  | c :: l => b <- c ;; if b then isFinite_all l else Ok false
  end.

(** * Resampling *)

(** calcResampleMat, Common.hpp 201-233: numColsNew and the entries (column of the sample matrix,
    new column, weight).  [fmod(x,1)] is x - floor x for x >= 0. *)
Definition resample_cols (n : Z) (c : Q) : Z := (Qfloor (inject_Z (n - 1) / c) + 1)%Z.
Definition fmod1 (x : Q) : Q := (x - inject_Z (Qfloor x))%Q.
Definition resample_row (n : Z) (c : Q) (rowIndex : Z) : list (Z * Z * Q) :=
  let relativeIndex := (inject_Z rowIndex * c)%Q in
  let columnIndex := Qfloor relativeIndex in
  let first := if columnIndex <? n then [(columnIndex, rowIndex, (1 - fmod1 relativeIndex)%Q)] else [] in
  let columnIndex := columnIndex + 1 in
  let second := if columnIndex <? n then [(columnIndex, rowIndex, fmod1 relativeIndex)] else [] in
  first ++ second.
Definition resample_entries (n : Z) (c : Q) : list (Z * Z * Q) :=
  flat_map (resample_row n c) (zseq 0 (Z.to_nat (resample_cols n c))).

(** [data * resampleMat] for one trace (Seismogram.cpp 102): sample [r] of the result is the sum over
    the entries of column [r]. *)
Definition qsum (l : list Q) : Q := fold_right Qplus 0%Q l.
Definition resample_sample (ents : list (Z * Z * Q)) (tr : list Q) (r : Z) : Q :=
  qsum (map (fun e => (nth (Z.to_nat (fst (fst e))) tr 0 * snd e)%Q)
            (filter (fun e => snd (fst e) =? r) ents)).
Definition resample (c : Q) (tr : list Q) : list Q :=
  let n := Z.of_nat (length tr) in
  map (resample_sample (resample_entries n c) tr) (zseq 0 (Z.to_nat (resample_cols n c))).

(** * SU files *)

(** Little-endian bytes of a C++ integer of [w] bytes (the struct is written as it is in memory). *)
Fixpoint le (w : nat) (v : Z) : list Z :=
  match w with O => [] | S w => (v mod 256) :: le w (v / 256) end.
Fixpoint ule (bs : list Z) : Z :=
  match bs with [] => 0 | b :: bs => b + 256 * ule bs end.
(** Signed reading of a field. *)
Definition sle (bs : list Z) : Z :=
  let v := ule bs in
  let m := 256 ^ Z.of_nat (length bs) in
  if 2 * v <? m then v else v - m.

(** The fields of Segy set by writeSU (SUIO.hpp 201, 218-246); [d1], a float, as bit pattern. *)
Record segy := { tracl : Z; tracr : Z; ep : Z; cdp : Z; trid : Z; soffset : Z; gelev : Z; sdepth : Z;
                 gdel : Z; swdep : Z; gwdep : Z; scalel : Z; scalco : Z; sx : Z; sy : Z; gx : Z; gy : Z;
                 hns : Z; hdt : Z; d1 : Z; ntr : Z }.

(** Memory layout of struct Segy, segy.hpp, up to the field mark: width in bytes and value.  Fields not
    listed in [segy] are set by initSegy (SUIO.hpp 21-142): counit = 1, the others 0. *)
Definition layout (h : segy) : list (nat * Z) :=
  [ (4, tracl h); (4, tracr h); (4, 0%Z); (4, 0%Z); (4, ep h); (4, cdp h); (4, 0%Z);
    (2, trid h); (2, 0%Z); (2, 0%Z); (2, 0%Z);
    (4, soffset h); (4, gelev h); (4, 0%Z); (4, sdepth h); (4, gdel h); (4, 0%Z); (4, swdep h); (4, gwdep h);
    (2, scalel h); (2, scalco h);
    (4, sx h); (4, sy h); (4, gx h); (4, gy h);
    (2, 1%Z); (2, 0%Z); (2, 0%Z); (2, 0%Z); (2, 0%Z); (2, 0%Z); (2, 0%Z); (2, 0%Z); (2, 0%Z); (2, 0%Z); (2, 0%Z); (2, 0%Z); (2, 0%Z);
    (2, hns h); (2, hdt h) ]%nat
  ++ repeat (2%nat, 0) 31
  ++ [ (4, d1 h); (4, 0%Z); (4, 0%Z); (4, 0%Z); (4, 0%Z); (4, 0%Z); (4, ntr h); (2, 0%Z) ]%nat.

(** [memcpy(writePointer, &tr, 240)], SUIO.hpp 248: the field unass and the first samples of the data
    array of [tr], which lie before byte 240 of the struct, are never initialised: [junk]. *)
Definition header_bytes (junk : list Z) (h : segy) : list Z :=
  flat_map (fun f => le (fst f) (snd f)) (layout h) ++ firstn 30 junk.

(** SUIO.hpp 216-255: bytes of one trace. *)
Definition trace_bytes (junk : list Z) (h : segy) (samples : list Z) : list Z :=
  header_bytes junk h ++ flat_map (le 4) samples.

(** writeSU, SUIO.hpp 156-269: every process writes the traces of its block of the block distribution
    into a buffer; the collective file holds the buffers in the order of the processes. *)
Definition writeSU (junk : list Z) (p : Z) (traces : list (segy * list Z)) : list Z :=
  let n := Z.of_nat (length traces) in
  flat_map (fun r =>
      let lb := block_lb n p r in
      let ub := block_ub n p r in
      flat_map (fun t => trace_bytes junk (fst t) (snd t))
               (firstn (Z.to_nat (ub - lb)) (skipn (Z.to_nat lb) traces)))
    (zseq 0 (Z.to_nat p)).

(** [w]-byte words of a byte string. *)
Fixpoint words4 (n : nat) (bs : list Z) : list Z :=
  match n with O => [] | S n => ule (firstn 4 bs) :: words4 n (skipn 4 bs) end.

(** readDataSU, SUIO.hpp 280-340: loop over the local buffer. *)
Fixpoint read_traces (ns : nat) (n : nat) (buf : list Z) : list (list Z) :=
  match n with
  | O => []
  | S n =>
      let buf := skipn 240 buf in
      words4 ns (firstn (4 * ns) buf) :: read_traces ns n (skipn (4 * ns) buf)
  end.
(** The traces that process [r] of [p] reads; readAll gives every process its part of the file in the
    order of the processes. *)
Definition readDataSU (file : list Z) (ns ntraces p r : Z) : list (list Z) :=
  let lb := block_lb ntraces p r in
  let ub := block_ub ntraces p r in
  let size := 240 + 4 * ns in
  read_traces (Z.to_nat ns) (Z.to_nat (ub - lb)) (skipn (Z.to_nat (lb * size)) file).

(** Field of [w] bytes at offset [off] of a header. *)
Definition field (off w : nat) (bs : list Z) : list Z := firstn w (skipn off bs).

(** [fread(&tr, 1, 240, pFile)]: a short read leaves the rest of [tr] as it was. *)
Definition fread240 (old file : list Z) : list Z :=
  let got := firstn 240 file in got ++ skipn (length got) old.

(** readSingleDataSU, SUIO.hpp 350-372; [old] is the uninitialised struct, at least 240 bytes; samples
    that lie beyond the end of the file are not read, they are left out here. *)
Definition readSingleDataSU (old file : list Z) (traceNumber : Z) : list Z :=
  let tr := fread240 old file in
  let ns := ule (field 114 2 tr) in
  let nSkip := (240 + ns * 4) * traceNumber in
  let rest := skipn (Z.to_nat nSkip) (skipn 240 file) in
  words4 (Nat.min (Z.to_nat ns) (length rest / 4)) rest.

(** readHeaderSU, SUIO.hpp 380-405. *)
Fixpoint readHeaderSU (fuel : nat) (old file : list Z) : res (list (list Z)) :=
  match fuel with
  | O => Fuel
  | S fuel =>
      match file with
      | [] => Ok []
      | _ =>
          let tr := fread240 old file in
          let ns := ule (field 114 2 tr) in
          rest <- readHeaderSU fuel tr (skipn (Z.to_nat (4 * ns)) (skipn 240 file)) ;;
          Ok (tr :: rest)
      end
  end.

(** ** Coordinates in the header *)

(** Grid coordinates of a trace. *)
Record gcoord := { gcx : Z; gcy : Z; gcz : Z }.

(** [(signed int)round(x * DH * 1000.0)], SUIO.hpp 224-243. *)
Definition millimetres (DH : Q) (x : Z) : Z := round_half (inject_Z x * DH * 1000).

(** The coordinate fields of the header of one trace, SUIO.hpp 224-243; the other fields as in [h]. *)
Definition set_coords (DH : Q) (src rec : gcoord) (h : segy) : segy :=
  {| tracl := tracl h; tracr := tracr h; ep := ep h; cdp := cdp h; trid := trid h; soffset := soffset h;
     gelev := millimetres DH (gcy rec); sdepth := millimetres DH (gcy src);
     gdel := gdel h; swdep := swdep h; gwdep := gwdep h; scalel := -3; scalco := -3;
     sx := millimetres DH (gcx src); sy := millimetres DH (gcz src);
     gx := millimetres DH (gcx rec); gy := millimetres DH (gcz rec);
     hns := hns h; hdt := hdt h; d1 := d1 h; ntr := ntr h |}.

(** Fields as the reader sees them. *)
Definition h_scalel (bs : list Z) : Z := sle (field 68 2 bs).
Definition h_scalco (bs : list Z) : Z := sle (field 70 2 bs).
Definition h_gelev (bs : list Z) : Z := sle (field 40 4 bs).
Definition h_sdepth (bs : list Z) : Z := sle (field 48 4 bs).
Definition h_sx (bs : list Z) : Z := sle (field 72 4 bs).
Definition h_sy (bs : list Z) : Z := sle (field 76 4 bs).
Definition h_gx (bs : list Z) : Z := sle (field 80 4 bs).
Definition h_gy (bs : list Z) : Z := sle (field 84 4 bs).

(** [static_cast<IndexType>(q)]: truncation towards zero. *)
Definition truncQ (q : Q) : Z := Z.quot (Qnum q) (Zpos (Qden q)).

(** [pow(10, s)]. *)
Definition pow10 (s : Z) : Q := if s <? 0 then (1 / inject_Z (10 ^ (- s)))%Q else inject_Z (10 ^ s).

(** readAllSettingsFromSUComp, suHandler.cpp 76-82 (sources). *)
Definition source_coord (DH : Q) (bs : list Z) : gcoord :=
  {| gcx := truncQ (inject_Z (h_sx bs) * pow10 (h_scalco bs) / DH + (1#2));
     gcy := truncQ (inject_Z (h_sdepth bs) * pow10 (h_scalel bs) / DH + (1#2));
     gcz := truncQ (inject_Z (h_sy bs) * pow10 (h_scalco bs) / DH + (1#2)) |}.

(** readAllSettingsFromSUComp, suHandler.cpp 105-110 (receivers; no 0.5 is added). *)
Definition receiver_coord (DH : Q) (bs : list Z) : gcoord :=
  {| gcx := truncQ (inject_Z (h_gx bs) * pow10 (h_scalco bs) / DH);
     gcy := truncQ (inject_Z (h_gelev bs) * pow10 (h_scalel bs) / DH);
     gcz := truncQ (inject_Z (h_gy bs) * pow10 (h_scalco bs) / DH) |}.
