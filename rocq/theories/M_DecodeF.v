(** Supershots with a gradient in the frequency domain (gradientDomain != 0): the branches of Receivers::encode that filter
    the traces, Receivers.cpp 415-420, 523-553 (decoding of multi offset data) and 437-491 (common offset data).  One
    receiver type; the loop over the types and the other branches are in M_Decode. *)
From Coq Require Import Reals String.
From Verif Require Import Base M_Acq M_Wave M_Cop M_Fft M_Butter M_Common M_Decode.
Open Scope Z_scope.

(** A source line of sourceSettingsEncode: sourceNo and amp, and fc. *)
Record fsrc := mkFs { f_src : esrc; f_fc : R }.

(** 416-420: the number of time steps is the integer part of T / DT + 0.5. *)
Definition freqFilter (T DT : R) : res fobj :=
  f <- filter_init DT (truncR (T / DT + 1 / 2)) ;; Ok (mkFobj f None).

Section CodeF.
Variable seismic : bool.
Variable base : string.
Variable NT : nat.
Variable shotNumber : Z.
Variable encodeType : Z.
Variable mm : list (list Z).
Variable mv : list Z.
Variable recs : list Z.

(** 492-500, 523-553 for encodeType 2 and 3.  A matrix [None] has no numbers as entries (see obj_applyMat).  The filter
    object is kept from one shot to the next. *)
Fixpoint multiF (t : Z) (incr : list Z) (enc : list fsrc) (data : mat) (dec : list (option mat)) (countDecode : Z) (o : fobj)
  : res (list (option mat) * list (string * option mat) * fobj) :=
  match incr with
  | [] => Ok (dec, [], o)
  | k :: incr =>
      match enc with
      | [] => UB
      | e :: enc =>
          if Z.abs (e_no (f_src e)) =? shotNumber then
            r <- getRow mm k ;;
            sourceNo <- vget r 0 ;;
            let mr := tl r in
            let n := Z.to_nat (zsum mr) in
            let name := (base ++ ".shot_" ++ decStr sourceNo ++ "." ++ comp_name seismic t)%string in
            s <- decode_rows t (cells (tl mv) recs mr) data (zmat n NT) 0 0 ;;
            let s := negate (flip (f_src e)) s in
            o <- obj_calc o (list_ascii_of_string "ideal") (list_ascii_of_string "bp") 1 (f_fc e) 0 ;;
            s <- obj_applyMat o s ;;
            dec <- vset dec countDecode s ;;
            ' (dec, fs, o) <- multiF t incr enc data dec (countDecode + 1) o ;;
            Ok (dec, ((if encodeType =? 3 then [(name, s)] else []) ++ fs)%list, o)
          else multiF t incr enc data dec countDecode o
      end
  end.

(** Common offset data, 437-491. *)
Variable disk : string -> option mat.
Definition signed (e : fsrc) (x : row) : row := if flip (f_src e) then map Ropp x else x.
Fixpoint commonF (t : Z) (incr : list Z) (enc : list fsrc) (data : mat) (dec : list mat) (single : mat) (countEncode countDecode : Z) (o : fobj)
  : res (mat * list mat * fobj) :=
  match incr with
  | [] => Ok (data, dec, o)
  | k :: incr =>
      match enc with
      | [] => UB
      | e :: enc =>
          m <- getRow mv (k + 1) ;;
          ty <- (if negb (m =? 0) then vget recs k else Ok 0) ;;
          let mine := negb (m =? 0) && (ty =? t) in
          if encodeType <=? 1 then
            if (Z.abs (e_no (f_src e)) =? shotNumber) && mine then
              s <- (if encodeType =? 1 then
                      match disk (base ++ "." ++ comp_name seismic t)%string with Some f => r <- getRow f k ;; Ok [r] | None => Throw end
                    else vget dec countDecode) ;;
              r <- getRow mm k ;; mr <- getRow r (k + 1) ;;
              ' (data, o) <- (if negb (mr =? 0) then
                         x <- getRow s 0 ;;
                         o <- obj_calc o (list_ascii_of_string "ideal") (list_ascii_of_string "bp") 1 (f_fc e) 0 ;;
                         x <- obj_apply o (signed e x) ;;
                         data <- updRow (fun y => radd y x) data countEncode ;; Ok (data, o)
                       else Ok (data, o)) ;;
              commonF t incr enc data dec s (countEncode + 1) (countDecode + 1) o
            else commonF t incr enc data dec single countEncode countDecode o
          else if mine then
            r <- getRow mm k ;; mr <- getRow r (k + 1) ;;
            ' (s, o) <- (if negb (mr =? 0) then
                    x <- getRow data countEncode ;;
                    o <- obj_calc o (list_ascii_of_string "ideal") (list_ascii_of_string "bp") 1 (f_fc e) 0 ;;
                    x <- obj_apply o (signed e x) ;;
                    s <- updRow (fun _ => x) single 0 ;; Ok (s, o)
                  else Ok (single, o)) ;;
            dec <- vset dec countDecode s ;;
            commonF t incr enc data dec s (countEncode + 1) (countDecode + 1) o
          else commonF t incr enc data dec single countEncode countDecode o
      end
  end.
End CodeF.
