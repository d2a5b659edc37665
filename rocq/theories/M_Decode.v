(** Model of the receivers of a shot or supershot taken from the mark matrix and of the decoding and encoding of supershots:
    Receivers::getAcquisitionSettings with marks, Receivers.cpp 250-300, and Receivers::encode, decode, 354-573.
    The mark matrix has one row per shot: the shot number, then one mark per receiver (values are integers here).
    A receiver is its type (1..4).  Matrices are lists of rows.  Not modelled here: gradientDomain != 0 (filtering of the
    traces, see M_DecodeF) and the settings read from the files of the stream configuration. *)
From Coq Require Import Reals String.
From Verif Require Import Base M_Acq M_Wave M_Cop.
Open Scope Z_scope.
Local Notation length := List.length.

(** A source line of sourceSettingsEncode: sourceNo and amp. *)
Record esrc := mkE { e_no : Z; e_amp : R }.

(** getRow and setRow of LAMA matrices throw when the row does not exist. *)
Definition getRow {A} (m : list A) (k : Z) : res A :=
  if k <? 0 then Throw else match nth_error m (Z.to_nat k) with Some r => Ok r | None => Throw end.
Definition updRow (f : row -> row) (m : mat) (k : Z) : res mat :=
  r <- getRow m k ;; Ok (upd_at (Z.to_nat k) (fun _ => f r) m).

(** ** The marks of a shot, Receivers.cpp 250-300 *)
(** IO::readMatrix asserts the size numshots x (numrecs+1), IO.hpp 136-170. *)
Definition readMarks (numshots numrecs : nat) (mm : list (list Z)) : res (list (list Z)) :=
  if Nat.eqb (length mm) numshots && forallb (fun r => Nat.eqb (length r) (S numrecs)) mm then Ok mm else Throw.
(** The loop over normal shots, 277-284; [v] is receiverMarkVector, which keeps its value when no row is read. *)
Fixpoint find_marks (mm : list (list Z)) (numshots shotNumber : Z) (incr : list Z) (v : list Z) : res (list Z) :=
  match incr with
  | [] => Ok v
  | k :: incr =>
      v <- getRow mm k ;;
      no <- vget v 0 ;;
      if no =? shotNumber then Ok v
      else if k =? numshots - 1 then Throw
      else find_marks mm numshots shotNumber incr v
  end.
(** The loop over the shots of a supershot, 286-294. *)
Fixpoint vplus (a b : list Z) : list Z := match a, b with x :: a, y :: b => x + y :: vplus a b | _, _ => [] end.
Fixpoint sum_marks (mm : list (list Z)) (shotNumber : Z) (incr : list Z) (enc : list esrc) (v : list Z) : res (list Z) :=
  match incr with
  | [] => Ok v
  | k :: incr =>
      match enc with
      | [] => UB
      | e :: enc =>
          v <- (if Z.abs (e_no e) =? shotNumber then r <- getRow mm k ;; Ok (vplus v r) else Ok v) ;;
          sum_marks mm shotNumber incr enc v
      end
  end.
(** 276-299: the vector of marks (signs, then the number of the shot in front); [old] is the previous value of the member. *)
Definition markVector (mm : list (list Z)) (numrecs : nat) (shotNumber numshots : Z) (incr : list Z) (enc : list esrc) (old : list Z)
  : res (list Z) :=
  v <- (match enc with
        | [] => find_marks mm numshots shotNumber incr old
        | _ => sum_marks mm shotNumber incr enc (repeat 0 (S numrecs))
        end) ;;
  match map Z.sgn v with
  | [] => Throw
  | _ :: v => Ok (shotNumber :: v)
  end.
(** 300-305: the receivers with a mark. *)
Fixpoint marked {A} (v : list Z) (recs : list A) : list A :=
  match v, recs with
  | m :: v, r :: recs => if negb (m =? 0) then r :: marked v recs else marked v recs
  | _, _ => []
  end.

(** ** Encoding and decoding, Receivers.cpp 360-573 *)
(** The types of the marked receivers in the order of appearance, 393-408. *)
Definition receiverTypes (mv : list Z) (recs : list Z) : list Z :=
  fold_left (fun ts t => if existsb (Z.eqb t) ts then ts else (ts ++ [t])%list) (marked mv recs) [].

(** data and dataDecode of the four seismograms. *)
Record dstate := mkD { d_data : list mat; d_dec : list (list mat) }.
Definition negate (b : bool) (m : mat) : mat := if b then map (map Ropp) m else m.
Definition flip (e : esrc) : bool := if Rlt_dec (e_amp e) 0 then true else false.

(** One receiver in the loops over irec: its mark in receiverMarkVector, its type, its mark in the row of the shot. *)
Definition cell := (Z * Z * Z)%type.
Fixpoint cells (mv recs mr : list Z) : list cell :=
  match mv, recs, mr with
  | a :: mv, t :: recs, b :: mr => (a, t, b) :: cells mv recs mr
  | _, _, _ => []
  end.
(** 525-534 *)
Fixpoint decode_rows (t : Z) (cs : list cell) (data single : mat) (count countEncode : Z) : res mat :=
  match cs with
  | [] => Ok single
  | (a, ty, b) :: cs =>
      if negb (a =? 0) && (ty =? t) then
        if negb (b =? 0) then
          r <- getRow data countEncode ;; s <- updRow (fun _ => r) single count ;;
          decode_rows t cs data s (count + 1) (countEncode + 1)
        else decode_rows t cs data single count (countEncode + 1)
      else decode_rows t cs data single count countEncode
  end.
(** 513-522 *)
Fixpoint encode_rows (t : Z) (cs : list cell) (single data : mat) (count countEncode : Z) : res mat :=
  match cs with
  | [] => Ok data
  | (a, ty, b) :: cs =>
      if negb (a =? 0) && (ty =? t) then
        if negb (b =? 0) then
          r <- getRow single count ;; d <- updRow (fun x => radd x r) data countEncode ;;
          encode_rows t cs single d (count + 1) (countEncode + 1)
        else encode_rows t cs single data count (countEncode + 1)
      else encode_rows t cs single data count countEncode
  end.

Section Code.
(** Contents of the files; the values written are returned. *)
Variable disk : string -> option mat.
Variable seismic : bool.
Variable base : string.
Variable NT : nat.
Variable shotNumber : Z.
Variable encodeType : Z.
Variable mm : list (list Z).
Variable mv : list Z.
Variable recs : list Z.

Definition comp_name (t : Z) : string := nth (Z.to_nat (t - 1)) (typeStrings seismic) ""%string.
(** IO::readMatrix into a matrix with [n] rows and NT columns (IO.hpp 155-168). *)
Definition readFile (name : string) (n : nat) : res mat :=
  match disk name with
  | Some m => if Nat.eqb (length m) n && forallb (fun r => Nat.eqb (length r) NT) m then Ok m else Throw
  | None => Throw
  end.

(** Multi offset data, 492-553, one type [t]. *)
Fixpoint multi (t : Z) (incr : list Z) (enc : list esrc) (data : mat) (dec : list mat) (countDecode : Z)
  : res (mat * list mat * list (string * mat)) :=
  match incr with
  | [] => Ok (data, dec, [])
  | k :: incr =>
      match enc with
      | [] => UB
      | e :: enc =>
          if Z.abs (e_no e) =? shotNumber then
            r <- getRow mm k ;;
            sourceNo <- vget r 0 ;;
            let mr := tl r in
            let n := Z.to_nat (zsum mr) in
            let name := (base ++ ".shot_" ++ decStr sourceNo ++ "." ++ comp_name t)%string in
            ' (data, dec, f) <-
              (if encodeType <=? 1 then
                 s <- (if encodeType =? 1 then readFile name n else vget dec countDecode) ;;
                 d <- encode_rows t (cells (tl mv) recs mr) (negate (flip e) s) data 0 0 ;;
                 Ok (d, dec, [])
               else
                 s <- decode_rows t (cells (tl mv) recs mr) data (zmat n NT) 0 0 ;;
                 let s := negate (flip e) s in
                 dec <- vset dec countDecode s ;;
                 Ok (data, dec, if encodeType =? 3 then [(name, s)] else [])) ;;
            ' (data, dec, fs) <- multi t incr enc data dec (countDecode + 1) ;;
            Ok (data, dec, (f ++ fs)%list)
          else multi t incr enc data dec countDecode
      end
  end.

(** Common offset data, 437-491; [file] is the matrix read row by row (encodeType = 1). *)
Fixpoint common (t : Z) (incr : list Z) (enc : list esrc) (data : mat) (dec : list mat) (single : mat) (countEncode countDecode : Z)
  : res (mat * list mat) :=
  match incr with
  | [] => Ok (data, dec)
  | k :: incr =>
      match enc with
      | [] => UB
      | e :: enc =>
          m <- getRow mv (k + 1) ;;
          ty <- (if negb (m =? 0) then vget recs k else Ok 0) ;;
          let mine := negb (m =? 0) && (ty =? t) in
          if encodeType <=? 1 then
            if (Z.abs (e_no e) =? shotNumber) && mine then
              s <- (if encodeType =? 1 then
                      match disk (base ++ "." ++ comp_name t)%string with Some f => r <- getRow f k ;; Ok [r] | None => Throw end
                    else vget dec countDecode) ;;
              r <- getRow mm k ;; mr <- getRow r (k + 1) ;;
              data <- (if negb (mr =? 0) then
                         x <- getRow s 0 ;;
                         updRow (fun y => radd y (if flip e then map Ropp x else x)) data countEncode
                       else Ok data) ;;
              common t incr enc data dec s (countEncode + 1) (countDecode + 1)
            else common t incr enc data dec single countEncode countDecode
          else if mine then
            r <- getRow mm k ;; mr <- getRow r (k + 1) ;;
            s <- (if negb (mr =? 0) then
                    x <- getRow data countEncode ;; updRow (fun _ => if flip e then map Ropp x else x) single 0
                  else Ok single) ;;
            dec <- vset dec countDecode s ;;
            common t incr enc data dec s (countEncode + 1) (countDecode + 1)
          else common t incr enc data dec single countEncode countDecode
      end
  end.

(** The number of shots of the supershot (428-435). *)
Fixpoint members (incr : list Z) (enc : list esrc) : res nat :=
  match incr with
  | [] => Ok 0%nat
  | _ :: incr =>
      match enc with
      | [] => UB
      | e :: enc => n <- members incr enc ;; Ok (if Z.abs (e_no e) =? shotNumber then S n else n)
      end
  end.

(** The body of the loop over the types, 421-554. *)
Definition code_type (numshots : Z) (incr : list Z) (enc : list esrc) (t : Z) (st : dstate)
  : res (dstate * list (string * mat)) :=
  data <- vget (d_data st) (t - 1) ;; dec <- vget (d_dec st) (t - 1) ;;
  ' (data, dec) <- (if encodeType <=? 1 then Ok (zero_of data, dec)
                    else n <- members incr enc ;; Ok (data, repeat ([] : mat) n)) ;;
  ' (data, dec, f) <-
    (if numshots =? Z.of_nat (length recs) then
       ' (data, dec) <- common t incr enc data dec (zmat 1 NT) 0 0 ;; Ok (data, dec, [])
     else multi t incr enc data dec 0) ;;
  ds <- vset (d_data st) (t - 1) data ;; dd <- vset (d_dec st) (t - 1) dec ;;
  Ok (mkD ds dd, f).
Fixpoint code_types (numshots : Z) (incr : list Z) (enc : list esrc) (ts : list Z) (st : dstate)
  : res (dstate * list (string * mat)) :=
  match ts with
  | [] => Ok (st, [])
  | t :: ts =>
      ' (st, f) <- code_type numshots incr enc t st ;;
      ' (st, fs) <- code_types numshots incr enc ts st ;;
      Ok (st, (f ++ fs)%list)
  end.
End Code.

(** Receivers::encode with useSourceEncode != 0 and gradientDomain == 0. *)
Definition encode disk seismic base NT shotNumber encodeType (mm : list (list Z)) (mv recs : list Z) (numshots : nat) incr enc st :=
  mm <- readMarks numshots (length recs) mm ;;
  code_types disk seismic base NT shotNumber encodeType mm mv recs (Z.of_nat numshots) incr enc (receiverTypes (tl mv) recs) st.
(** Receivers::decode, 566-573. *)
Definition decode disk seismic base NT shotNumber (encodeType : Z) mm mv recs numshots incr enc st :=
  encode disk seismic base NT shotNumber (encodeType + 2) mm mv recs numshots incr enc st.
