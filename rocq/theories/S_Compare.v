(** Specification for the comparison of seismograms: the recorded numbers of one type of seismogram, for the run under test and for the
    reference. *)
From Coq Require Import Reals Lra.
From Verif Require Import Base M_Common M_Compare.
Open Scope R_scope.

Record pair := mkPair { samples : nat; tested : list (list R); reference : list (list R) }.
(** Both have the same number of traces, all of the same length. *)
Definition shaped (c : pair) : Prop :=
  length (tested c) = length (reference c) /\
  (forall t, In t (tested c) -> length t = samples c) /\ (forall t, In t (reference c) -> length t = samples c).
(** As data of the program. *)
Definition data (n : nat) (m : list (list R)) : seis := mkS (Z.of_nat n) (map (map Num) m).
Definition loaded (c : pair) : seis * seis := (data (samples c) (tested c), data (samples c) (reference c)).

(** Corresponding samples, and the l2 norm of the difference. *)
Definition both (c : pair) : list (R * R) := combine (concat (tested c)) (concat (reference c)).
Definition rsum (l : list R) : R := fold_right Rplus 0 l.
Definition distance (c : pair) : R := sqrt (rsum (map (fun p => (fst p - snd p) ^ 2) (both c))).
Definition total_distance (l : list pair) : R := rsum (map distance l).
(** M is the largest absolute value of all samples. *)
Definition sample_of (l : list pair) (x : R) : Prop := exists c, In c l /\ (In x (concat (tested c)) \/ In x (concat (reference c))).
Definition largest (l : list pair) (M : R) : Prop :=
  0 <= M /\ (forall x, sample_of l x -> Rabs x <= M) /\ (M = 0 \/ exists x, sample_of l x /\ Rabs x = M).
(** Sum over the types of the number of samples of a trace, and of the number of traces. *)
Definition sum_samples (l : list pair) : R := rsum (map (fun c => INR (samples c)) l).
Definition sum_traces (l : list pair) : R := rsum (map (fun c => INR (length (reference c))) l).
