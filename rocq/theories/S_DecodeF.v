(** Specification of decoding with a gradient in the frequency domain (C182). *)
From Coq Require Import Reals String.
From Verif Require Import Base M_Cop M_Decode M_DecodeF S_Cop S_Decode.
Open Scope Z_scope.

(** The part of trace [r] that has [q] periods in its NT samples. *)
Definition component_at (NT q : nat) (r : row) (j : nat) : R :=
  (2 / INR NT * rtotal (map (fun i => sample r i * cos (2 * PI * INR q * (INR j - INR i) / INR NT)) (seq 0 NT)))%R.
Definition part (NT q : nat) (r : row) : row := map (component_at NT q r) (seq 0 NT).
(** [out] holds the parts of the traces of [M] with a common positive factor that makes the largest magnitude 1; it holds
    no numbers if all parts are zero. *)
Definition tuned (NT q : nat) (M : mat) (out : option mat) : Prop :=
  match out with
  | None => forall r x, In r M -> In x (part NT q r) -> x = 0%R
  | Some N => exists c, (0 < c)%R /\ N = map (fun r => times c (part NT q r)) M /\
      (forall r x, In r N -> In x r -> (Rabs x <= 1)%R) /\ exists r x, In r N /\ In x r /\ Rabs x = 1%R
  end.
(** The shots that belong to supershot [no]. *)
Definition teamF (no : Z) (incr : list Z) (enc : list fsrc) : list (Z * fsrc) :=
  filter (fun p => Z.abs (e_no (f_src (snd p))) =? no) (combine incr enc).
Definition shot_of (m : Z * fsrc) : Z * esrc := (fst m, f_src (snd m)).
(** The shots of the supershot whose receiver records type [t] (common offset data). *)
Definition of_typeF (recs : list Z) (t : Z) (ms : list (Z * fsrc)) : list (Z * fsrc) :=
  filter (fun m => nth (Z.to_nat (fst m)) recs 0 =? t) ms.
