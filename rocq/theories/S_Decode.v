(** Specification of the marks and of the supershots (C160, C161). *)
From Coq Require Import Reals String.
From Verif Require Import Base M_Cop M_Decode S_Cop.
Open Scope Z_scope.

(** Row [v] of a mark matrix (shot number, then one mark per receiver) marks receiver [i]. *)
Definition marks (v : list Z) (i : nat) : bool := negb (nth (S i) v 0 =? 0).
(** The receivers marked by [v] that record type [t]. *)
Definition chosen (v recs : list Z) (t : Z) : list nat :=
  filter (fun i => marks v i && (nth i recs 0 =? t)) (seq 0 (List.length recs)).
(** The shots that belong to supershot [no]: index of the row in the mark matrix and source line. *)
Definition team (no : Z) (incr : list Z) (enc : list esrc) : list (Z * esrc) :=
  filter (fun p => Z.abs (e_no (snd p)) =? no) (combine incr enc).
Definition mark_row (mm : list (list Z)) (k : Z) : list Z := nth (Z.to_nat k) mm [].
(** +1 or -1: the sign with which a shot takes part. *)
Definition sg (e : esrc) : R := if Rlt_dec (e_amp e) 0 then (-1)%R else 1%R.
(** A mark matrix for [n] receivers: numbers of shots and marks 0 or 1. *)
Definition mark_matrix (n : nat) (mm : list (list Z)) : Prop :=
  forall r, In r mm -> List.length r = S n /\ forall i, (i < n)%nat -> nth (S i) r 0 = 0 \/ nth (S i) r 0 = 1.
(** The marks of the supershot: a receiver is marked if one of its shots marks it. *)
Definition super_marks (mm : list (list Z)) (n : nat) (ms : list (Z * esrc)) (v : list Z) : Prop :=
  List.length v = S n /\
  forall i, (i < n)%nat -> (marks v i = true <-> exists k e, In (k, e) ms /\ marks (mark_row mm k) i = true).
Definition times (w : R) (r : row) : row := map (Rmult w) r.
(** The file of component [t] of shot [sourceNo]. *)
Definition shot_file (base : string) (seismic : bool) (sourceNo : Z) (t : Z) : string :=
  (base ++ ".shot_" ++ M_Wave.decStr sourceNo ++ "." ++ component seismic (Z.to_nat (t - 1)))%string.
(** What a shot gets from the supershot: [D i] is the trace of receiver [i] in the supershot. *)
Definition own_traces (mm : list (list Z)) (recs : list Z) (t : Z) (D : nat -> row) (m : Z * esrc) : mat :=
  map (fun i => times (sg (snd m)) (D i)) (chosen (mark_row mm (fst m)) recs t).
(** The number of receivers of a shot, of all types. *)
Definition all_receivers (n : nat) (v : list Z) : nat := List.length (filter (marks v) (seq 0 n)).

(** The receivers of a shot that record another type. *)
Definition others (mm : list (list Z)) (recs : list Z) (t : Z) (m : Z * esrc) : nat :=
  List.length (filter (fun i => marks (mark_row mm (fst m)) i && negb (nth i recs 0 =? t)) (seq 0 (List.length recs))).
(** A supershot: every receiver has one of the types 1..4, the rows of its shots exist, and [mv] are its marks. *)
Record supershot (no : Z) (mm : list (list Z)) (mv recs : list Z) (incr : list Z) (enc : list esrc) : Prop := mkSuper {
  su_matrix : mark_matrix (List.length recs) mm;
  su_marks : super_marks mm (List.length recs) (team no incr enc) mv;
  su_lines : List.length enc = List.length incr;
  su_rows : forall k, In k incr -> 0 <= k < Z.of_nat (List.length mm);
  su_types : forall t, In t recs -> 1 <= t <= 4 }.
(** The seismograms of the supershot: one trace with NT samples for every marked receiver, in the order of the receivers. *)
Definition recorded (NT : nat) (mv recs : list Z) (D : Z -> nat -> row) (data : list mat) : Prop :=
  List.length data = 4%nat /\
  forall t, 1 <= t <= 4 -> nth (Z.to_nat (t - 1)) data [] = map (D t) (chosen mv recs t) /\ forall i, List.length (D t i) = NT.
(** The decoded seismogram: the traces of the shot's own receivers with the sign of the shot, then one row of zeros for
    every receiver of the shot that records another type. *)
Definition single_shot (NT : nat) (mm : list (list Z)) (recs : list Z) (t : Z) (D : nat -> row) (m : Z * esrc) : mat :=
  (own_traces mm recs t D m ++ zmat (others mm recs t m) NT)%list.
Definition rtotal (l : list R) : R := fold_right Rplus 0%R l.
(** The encoded trace of receiver [i]: the signed sum of the traces of the shots that mark it; [T m i] is the trace of
    receiver [i] for shot [m]. *)
Definition stacked (NT : nat) (mm : list (list Z)) (ms : list (Z * esrc)) (T : Z * esrc -> nat -> row) (i : nat) : row :=
  map (fun j => rtotal (map (fun m => if marks (mark_row mm (fst m)) i then (sg (snd m) * sample (T m i) j)%R else 0%R) ms)) (seq 0 NT).
(** The number of shots of the supershot that mark receiver [i]. *)
Definition fold_number (mm : list (list Z)) (ms : list (Z * esrc)) (i : nat) : nat :=
  List.length (filter (fun m => marks (mark_row mm (fst m)) i) ms).
(** Inner product of two matrices of seismograms. *)
Definition rdot (a b : row) : R := rtotal (map (fun p => (fst p * snd p)%R) (combine a b)).
Definition mdot (a b : mat) : R := rtotal (map (fun p => rdot (fst p) (snd p)) (combine a b)).
(** Common offset data: receiver k belongs to shot k. *)
Definition diagonal (mm : list (list Z)) : Prop :=
  forall k i, (k < List.length mm)%nat -> (i < List.length mm)%nat -> (marks (mark_row mm (Z.of_nat k)) i = true <-> i = k).
(** The shots of the supershot whose receiver records type [t]. *)
Definition of_type (recs : list Z) (t : Z) (ms : list (Z * esrc)) : list (Z * esrc) :=
  filter (fun m => nth (Z.to_nat (fst m)) recs 0 =? t) ms.
