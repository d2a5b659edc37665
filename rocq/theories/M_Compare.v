(** Model of the integration test src/Tests/IntegrationTest/Test_CompareSeismogram.cpp: the names of the files compared and the
    verdict on the seismograms.  Numbers are real numbers with infinities and not-a-number ([fpv], M_Common.v), without rounding.
    Left out: reading the configuration, the receivers and the files (a seismogram that was not read has no rows and columns). *)
From Coq Require Import Ascii String Reals.
From Verif Require Import Base M_Acq M_Conf M_Common M_Model M_ModelEM M_Wave.
Open Scope Z_scope.
Local Notation length := List.length.

(** The matrix of a seismogram: one row for each trace. *)
Record seis := mkS { ncols : Z; traces : list (list fpv) }.
Definition nrows (s : seis) : Z := Z.of_nat (length (traces s)).

(** operator-, Seismogram.cpp 1157-1176, on the data; LAMA throws when the shapes differ. *)
Fixpoint minusRows (a b : list (list fpv)) : res (list (list fpv)) :=
  match a, b with
  | [], [] => Ok []
  | x :: a, y :: b => r <- zipR fsub x y ;; l <- minusRows a b ;; Ok (r :: l)
  | _, _ => Throw
  end.
Definition minus (a b : seis) : res seis :=
  _ <- assert (ncols a =? ncols b) ;; d <- minusRows (traces a) (traces b) ;; Ok (mkS (ncols a) d).
(** l2Norm and maxNorm of a matrix (library); comparisons with not-a-number are false. *)
Definition l2Norm (s : seis) : fpv := fsqrt (fold_left (fun a x => fadd a (fmul x x)) (concat (traces s)) (Num 0)).
Definition maxNorm (s : seis) : fpv := fmaxnorm (concat (traces s)).

(** The variables of the loop, lines 57-60. *)
Record totals := mkT { numSamples : Z; numTraces : Z; maxAmp : fpv; misfitSum : fpv }.
(** One pass, lines 61-78: [test] and [ref] are the seismograms of one type. *)
Definition onePass (a : totals) (test ref : seis) : res totals :=
  let ns := numSamples a + ncols ref in
  let nt := numTraces a + nrows ref in
  let m := if flt (maxAmp a) (maxNorm ref) then maxNorm ref else maxAmp a in
  let m := if flt m (maxNorm test) then maxNorm test else m in
  d <- minus test ref ;;
  Ok (mkT ns nt m (fadd (misfitSum a) (l2Norm d))).
Fixpoint passes (a : totals) (l : list (seis * seis)) : res totals :=
  match l with [] => Ok a | (t, r) :: l => a <- onePass a t r ;; passes a l end.
(** The value returned by main, lines 57-94: 1 if the seismograms do not match, 0 if they do. *)
Definition verdict (l : list (seis * seis)) : res Z :=
  a <- passes (mkT 0 0 (Num 0) (Num 0)) l ;;
  let q := fquot (misfitSum a) (fmul (fmul (maxAmp a) (Num (IZR (numSamples a)))) (Num (IZR (numTraces a)))) in
  Ok (if flt (Num (5 / 10000000)) q then 1 else 0).

(** std::string::find: position of the first occurrence. *)
Fixpoint starts (p s : str) : bool :=
  match p, s with
  | [], _ => true
  | _, [] => false
  | a :: p, b :: s => Ascii.eqb a b && starts p s
  end.
Fixpoint find_str (p s : str) : option nat :=
  if starts p s then Some O else match s with [] => None | _ :: s => option_map S (find_str p s) end.
(** Lines 49-51; substr(0, npos) is the whole string.  [shot] is std::to_string of the number of the first source. *)
Definition testName (seismogramFilename shot : str) : str := (seismogramFilename ++ txt ".shot_" ++ shot)%list.
Definition refName (filenameTest : str) : str :=
  (match find_str (txt ".ci") filenameTest with Some pos => firstn pos filenameTest | None => filenameTest end ++ txt ".ref")%list.
