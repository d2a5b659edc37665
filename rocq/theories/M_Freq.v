(** The frequencies of a source encoding in the frequency domain (gradientDomain != 0) and the list of the supershots
    that is written to disk: Acquisition/Sources.cpp 583-612, 657-682 and 756-793. *)
From Coq Require Import Reals.
From Verif Require Import Base M_Grid M_Common M_Acq.
Open Scope Z_scope.

(** Lines 588-590: NT = (T / DT + 0.5) cut to an integer, nFFT = the next power of two of NT - 1, df = 1/(nFFT*DT).
    Real numbers stand for ValueType; a division by zero is not modelled (nFFT = 0 only for NT = 1). *)
Definition freq_step (T DT : R) : R :=
  (1 / (IZR (calcNextPowTwo (truncR (T / DT + / 2) - 1)) * DT))%R.

(** Lines 591-611: first index, step and number of the selectable frequencies.  [encode] is useSourceEncode != 0.
    ceil((ValueType)fc1Ind / 2) is [cceil fc1Ind 2]; % is the remainder of C. *)
Definition first_ind (encode : bool) (fc1Ind : Z) : Z :=
  if encode then
    let a := if fc1Ind =? 0 then 2 else fc1Ind in if Z.rem a 2 =? 1 then a + 1 else a
  else
    let a := cceil fc1Ind 2 in if a =? 0 then 1 else a.
Definition step_ind (encode : bool) : Z := if encode then 2 else 1.
Definition number_freq (encode : bool) (fc1Ind fc2Ind : Z) : Z :=
  if encode then cceil (fc2Ind - first_ind true fc1Ind + 1) 2 else fc2Ind * 2 - first_ind false fc1Ind + 1.
(** linearDenseVector(n, start, inc): n values start + k*inc.  A negative n is an error in LAMA. *)
Definition linear (n : Z) (start inc : R) : res (list R) :=
  if n <? 0 then Throw else Ok (map (fun k => (start + IZR (Z.of_nat k) * inc)%R) (seq 0 (Z.to_nat n))).
(** Lines 584-611.  [cpml] is CenterFrequencyCPML. *)
Definition frequencies (encode : bool) (df fc1 fc2 cpml : R) : res (list R) :=
  let fc2' := if Req_EM_T fc2 0 then (cpml * 2)%R else fc2 in
  let i1 := ceilR (fc1 / df) in
  let i2 := ceilR (fc2' / df) in
  linear (number_freq encode i1 i2) (IZR (first_ind encode i1) * df)%R (IZR (step_ind encode) * df)%R.

Section Select.
  Context {F : Type}.
  Variable rnd : nat -> Z.

  (** Lines 667-668 and 674: waveletType = 1, waveletShape = 9 and fc = the selected frequency. *)
  Definition tune (s : source F) (f : F) : source F :=
    mkSrc (sourceNo s) (sourceCoords s) (sourceType s) 1 9 f (amp s) (tShift s) (row s).

  (** The loop over the shots of one supershot, lines 664-678.  The rejection loop of lines 669-672 is [draw] with
      room for one ([h > 0] is [1 <= h] on integers).  uniqueFC[jf] out of range is taken as undefined behaviour. *)
  Fixpoint pick (fuel : nat) (fc12 : list F) (l : list (source F)) (no : Z) (p : nat) (hist : list Z) (jf : Z)
    (uniqueFC : list F) : res (list (source F) * nat * list F) :=
    match l with
    | [] => Ok ([], p, uniqueFC)
    | s :: r =>
        if Z.abs (sourceNo s) =? no then
          ' (ind, p') <- draw rnd fuel p (Z.of_nat (List.length fc12)) 1 hist ;;
          h <- vget hist ind ;; hist' <- vset hist ind (h + 1) ;;
          f <- vget fc12 ind ;; uniqueFC' <- vset uniqueFC jf f ;;
          ' (rest, p'', u) <- pick fuel fc12 r no p' hist' (jf + 1) uniqueFC' ;;
          Ok (tune s f :: rest, p'', u)
        else
          ' (rest, p'', u) <- pick fuel fc12 r no p hist jf uniqueFC ;; Ok (s :: rest, p'', u)
    end.

  (** The loop over the supershots, lines 662-680: [k] = shotIndEncode, [n] supershots are left.  uniqueFC is made
      once, before the loop (line 661), and handed on.  uniqueShotNosEncode[shotIndEncode] (line 666) is read before
      the loop over the shots; the code reads it once for every shot and there is at least one. *)
  Fixpoint pick_all (fuel : nat) (fc12 : list F) (nos : list Z) (n : nat) (k : Z) (l : list (source F)) (p : nat)
    (uniqueFC : list F) : res (list (source F) * list (list F)) :=
    match n with
    | O => Ok (l, [])
    | S n =>
        no <- vget nos k ;;
        ' (l', p', u) <- pick fuel fc12 l no p (repeat 0 (List.length fc12)) 0 uniqueFC ;;
        ' (l'', fcs) <- pick_all fuel fc12 nos n (k + 1) l' p' u ;;
        Ok (l'', u :: fcs)
    end.

  (** Lines 616-621 and 657-681; [dom] = numShotDomains, [l] the sources with their supershot numbers, [zero] the
      initial value of uniqueFC.  The result: the sources and sourceFC. *)
  Definition selectFreq (fuel : nat) (zero : F) (fc12 : list F) (l : list (source F)) (dom : Z) (p : nat)
    : res (list (source F) * list (list F)) :=
    if dom =? 0 then UB else
    let cap := cceil (Z.of_nat (List.length l)) dom in
    if Z.of_nat (List.length fc12) <? cap then Throw else
    nos <- calcuniqueShotNo l ;;
    pick_all fuel fc12 nos (Z.to_nat dom) 0 l p (repeat zero (Z.to_nat cap)).

  (** One line of the file: the supershot number and the numbers of its shots, lines 785-789. *)
  Fixpoint shots_of (l : list (source F)) (no shotInd : Z) : list Z :=
    match l with
    | [] => []
    | s :: r => if Z.abs (sourceNo s) =? no then (shotInd + 1) :: shots_of r no (shotInd + 1)
                else shots_of r no (shotInd + 1)
    end.
  Fixpoint encode_lines (nos : list Z) (l : list (source F)) (n : nat) (k : Z) : res (list (Z * list Z)) :=
    match n with
    | O => Ok []
    | S n => no <- vget nos k ;; rest <- encode_lines nos l n (k + 1) ;; Ok ((no, shots_of l no 0) :: rest)
    end.
  (** writeSourceEncode on the master with useSourceEncode != 0, lines 756-793, without the file name and the
      formatting.  The assertion of line 766 compares with the number of selected shots [numshots]. *)
  Definition writeSourceEncode (l : list (source F)) (numshots dom : Z) : res (list (Z * list Z)) :=
    nos <- calcuniqueShotNo l ;;
    if negb (Z.of_nat (List.length l) =? numshots) then Throw
    else encode_lines nos l (Z.to_nat dom) 0.
End Select.
