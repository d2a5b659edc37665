(** Specifications for the acquisition properties C28-C38, independent of the model's helper functions
    (only the record types source, receiver and coord are taken from the model). *)
From Coq Require Import Ascii String QArith Permutation Sorted.
From Verif Require Import Base M_Grid M_Acq.
Open Scope Z_scope.

(** * Text files *)
Definition newline : ascii := ascii_of_nat 10.
Definition space (c : ascii) : Prop := In c (map ascii_of_nat [32; 9; 10; 11; 12; 13]%nat).

(** [ls] are the lines of the file: every line is followed by a newline, except possibly the last one. *)
Definition file_lines (content : str) (ls : list str) : Prop :=
  Forall (fun l => ~ In newline l) ls /\
  (content = flat_map (fun l => l ++ [newline])%list ls \/
   exists ls' last, ls = (ls' ++ [last])%list /\ last <> [] /\
                    content = (flat_map (fun l => l ++ [newline]) ls' ++ last)%list).

(** A data line has a character that is not white space and does not begin with '#'. *)
Definition data_line (l : str) : Prop :=
  (exists c, In c l /\ ~ space c) /\ (forall r, l <> "#"%char :: r).

(** The sublist of the elements satisfying [P]. *)
Inductive select {A} (P : A -> Prop) : list A -> list A -> Prop :=
| select_nil : select P [] []
| select_keep a l l' : P a -> select P l l' -> select P (a :: l) (a :: l')
| select_drop a l l' : ~ P a -> select P l l' -> select P (a :: l) l'.

(** [fields l ts]: the line [l] consists of the columns [ts] separated by white space. *)
Inductive fields : str -> list str -> Prop :=
| fields_nil : fields [] []
| fields_space c l ts : space c -> fields l ts -> fields (c :: l) ts
| fields_last t : t <> [] -> Forall (fun c => ~ space c) t -> fields t [t]
| fields_word t c l ts : t <> [] -> Forall (fun c => ~ space c) t -> space c -> fields l ts ->
    fields (t ++ c :: l) (t :: ts).

(** Decimal numbers. *)
Definition is_digit (c : ascii) (d : Z) : Prop := 0 <= d <= 9 /\ Z.of_nat (nat_of_ascii c) = 48 + d.
Inductive decimal : str -> Z -> Prop :=
| decimal_nil : decimal [] 0
| decimal_cons c d l v : is_digit c d -> decimal l v ->
    decimal (c :: l) (d * 10 ^ Z.of_nat (List.length l) + v).

(** The text [t] starts with an optional sign and a decimal number of value [n] that fits into a 32-bit
    integer; what follows does not start with a digit. *)
Definition int_text (t : str) (n : Z) : Prop :=
  exists sign ds rest v,
    t = (sign ++ ds ++ rest)%list /\ ds <> [] /\ decimal ds v /\
    (forall c r d, rest = c :: r -> ~ is_digit c d) /\
    (sign = [] /\ n = v \/ sign = ["+"%char] /\ n = v \/ sign = ["-"%char] /\ n = - v) /\
    - 2 ^ 31 <= n < 2 ^ 31.

(** The columns of a source file: shot number, x, y, z, source type, wavelet type, wavelet shape, center
    frequency, amplitude, time shift. *)
Definition source_columns {F} (stof : str -> option F) (l : str) (s : source F) : Prop :=
  exists t0 t1 t2 t3 t4 t5 t6 t7 t8 t9,
    fields l [t0; t1; t2; t3; t4; t5; t6; t7; t8; t9] /\
    int_text t0 (sourceNo s) /\
    int_text t1 (cx (sourceCoords s)) /\ int_text t2 (cy (sourceCoords s)) /\
    int_text t3 (cz (sourceCoords s)) /\
    int_text t4 (sourceType s) /\ int_text t5 (waveletType s) /\ int_text t6 (waveletShape s) /\
    stof t7 = Some (fc s) /\ stof t8 = Some (amp s) /\ stof t9 = Some (tShift s).

(** The columns of a receiver file: x, y, z, receiver type. *)
Definition receiver_columns (l : str) (r : receiver) : Prop :=
  exists t0 t1 t2 t3,
    fields l [t0; t1; t2; t3] /\
    int_text t0 (cx (receiverCoords r)) /\ int_text t1 (cy (receiverCoords r)) /\
    int_text t2 (cz (receiverCoords r)) /\ int_text t3 (receiverType r).

(** * Shots *)
Definition shot_of {F} (s : source F) : Z := Z.abs (sourceNo s).

(** [u] lists the values of [l] once each, in order of first occurrence. *)
Definition first_occurrences (l u : list Z) : Prop :=
  NoDup u /\ (forall n, In n u <-> In n l) /\
  (forall a n b, l = (a ++ n :: b)%list -> ~ In n a ->
     exists u1 u2, u = (u1 ++ n :: u2)%list /\ forall m, In m u1 <-> In m a).

(** * Windows *)
Definition inside_window (c : coord) (NX NY NZ : Z) : Prop :=
  0 <= cx c < NX /\ 0 <= cy c < NY /\ 0 <= cz c < NZ.
(** outside the boundary frame of width BW in direction x (n points) *)
Definition off_frame (x n BW : Z) : Prop := BW <= x < n - BW.
(** the same source in window coordinates *)
Definition moved {F} (s : source F) (cut : coord) (s' : source F) : Prop :=
  sourceCoords s' = mkC (cx (sourceCoords s) - cx cut) (cy (sourceCoords s) - cy cut)
                        (cz (sourceCoords s) - cz cut) /\
  sourceNo s' = sourceNo s /\ sourceType s' = sourceType s /\ waveletType s' = waveletType s /\
  waveletShape s' = waveletShape s /\ fc s' = fc s /\ amp s' = amp s /\ tShift s' = tShift s /\
  row s' = row s.

(** * Supershots *)
Definition occupancy {F} (l : list (source F)) (n : Z) : Z :=
  Z.of_nat (List.length (filter (fun s => Z.abs (sourceNo s) =? n) l)).
(** smallest integer c with c*dom >= n *)
Definition capacity (n dom c : Z) : Prop := n <= c * dom /\ (c - 1) * dom < n.
(** same source apart from shot number and sign of the amplitude *)
Definition same_source {F} (neg : F -> F) (s s' : source F) : Prop :=
  sourceCoords s' = sourceCoords s /\ sourceType s' = sourceType s /\ waveletType s' = waveletType s /\
  waveletShape s' = waveletShape s /\ fc s' = fc s /\ tShift s' = tShift s /\ row s' = row s /\
  (amp s' = amp s \/ amp s' = neg (amp s)).

(** A random sequence that produces every remainder modulo [n] again and again. *)
Definition fair (rnd : nat -> Z) (n : Z) : Prop :=
  forall r p, 0 <= r < n -> exists q, (p <= q)%nat /\ Z.rem (rnd q) n = r.

(** * Thinning *)
Definition increasing (l : list Z) : Prop := StronglySorted Z.lt l.
Definition picked {A} (all : list A) (inds : list Z) (out : list A) : Prop :=
  Forall2 (fun i s => 0 <= i /\ nth_error all (Z.to_nat i) = Some s) inds out.

(** [l'] is [l] regrouped into [dom] supershots numbered dom*10000+1, ..., dom*10000+dom: every source is
    kept, in its place, and carries the number of exactly one supershot; no supershot has more than [cap]. *)
Definition supershots {F} (neg : F -> F) (l l' : list (source F)) (dom cap : Z) : Prop :=
  Forall2 (fun s s' => same_source neg s s' /\ exists k, 0 <= k < dom /\ sourceNo s' = dom * 10000 + 1 + k) l l' /\
  forall k, 0 <= k < dom -> occupancy l' (dom * 10000 + 1 + k) <= cap.
Definition none_empty {F} (l' : list (source F)) (dom : Z) : Prop :=
  forall k, 0 <= k < dom -> 1 <= occupancy l' (dom * 10000 + 1 + k).

(** Shots whose counter in the history is below the limit. *)
Definition available (history : list Z) (limit : Z) : list nat :=
  filter (fun i => nth i history 0 <? limit) (seq 0 (List.length history)).
Definition drawn (N : Z) (k : nat) (inds : list Z) : Prop :=
  List.length inds = k /\ NoDup inds /\ Forall (fun i => 0 <= i < N) inds.
