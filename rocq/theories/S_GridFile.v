(** Specifications for the grid configuration file (C167) and the setup of the derivatives (C168).  Lines, columns and decimal
    numbers are those of S_Acq. *)
From Coq Require Import Ascii String.
From Verif Require Import Base M_Grid M_Acq S_Acq.
Open Scope Z_scope.

(** [t] is nothing but an integer of value [n] that fits into 32 bits. *)
Definition whole_int (t : str) (n : Z) : Prop :=
  exists sign ds v, t = (sign ++ ds)%list /\ ds <> [] /\ decimal ds v /\
    (sign = [] /\ n = v \/ sign = ["+"%char] /\ n = v \/ sign = ["-"%char] /\ n = - v) /\
    - 2 ^ 31 <= n < 2 ^ 31.

(** The line begins with columns that are the integers [ns]; more columns of any kind may follow. *)
Definition begins_with (l : str) (ns : list Z) : Prop :=
  exists ts more, fields l (ts ++ more) /\ Forall2 whole_int ts ns.
(** The line consists of the columns [ns] and nothing else. *)
Definition consists_of (l : str) (ns : list Z) : Prop :=
  exists ts, fields l ts /\ Forall2 whole_int ts ns.

(** Column [c] (from 0) of the line is the integer [v], and so are the columns before. *)
Definition column_of (c : nat) (l : str) (v : Z) : Prop :=
  exists ns, begins_with l ns /\ nth_error ns c = Some v.

(** The data lines of a file. *)
Definition data_lines (content : str) (dl : list str) : Prop :=
  exists ls, file_lines content ls /\ select data_line ls dl.

(** Rows of the interfaces and spacing factors as the grid needs them: the first layer starts at row 0, the rows increase, and the
    spacing changes by a factor 3 or not at all from one layer to the next.  *)
Definition increasing (l : list Z) : Prop :=
  forall k a b, nth_error l k = Some a -> nth_error l (S k) = Some b -> a < b.
Definition factor_three (dhs : list Z) : Prop :=
  forall k a b, nth_error dhs k = Some a -> nth_error dhs (S k) = Some b -> b = a \/ b = 3 * a \/ a = 3 * b.

(** The supported orders. *)
Definition known_order (p : Z) : Prop := In p [2; 4; 6; 8; 10; 12].
