(** What is meant by the frequencies of an encoding, stated without the model's loops. *)
From Coq Require Import Reals.
From Verif Require Import Base M_Grid M_Acq.
Open Scope Z_scope.

(** Only the signal of a source may change. *)
Definition same_but_signal {F} (s s' : source F) : Prop :=
  sourceNo s' = sourceNo s /\ sourceCoords s' = sourceCoords s /\ sourceType s' = sourceType s /\
  amp s' = amp s /\ tShift s' = tShift s /\ row s' = row s.
(** A synthetic sine (waveletType 1, waveletShape 9). *)
Definition sine {F} (s : source F) : Prop := waveletType s = 1 /\ waveletShape s = 9.

(** The whole multiples k of df from [lo] on up to the first one that reaches [hi]. *)
Definition up_to (k : Z) (df hi : R) : Prop := (IZR (k - 1) * df < hi)%R.
Definition grid_freq (df lo hi f : R) : Prop :=
  exists k, f = (IZR k * df)%R /\ 0 < k /\ Z.even k = true /\ (lo <= f)%R /\ up_to k df hi.
(** Without encoding: every positive multiple from half of [lo] up to twice the first multiple that reaches [hi]. *)
Definition wide_freq (df lo hi f : R) : Prop :=
  exists k m, f = (IZR k * df)%R /\ 0 < k /\ (lo <= 2 * f)%R /\ k <= 2 * m /\ up_to m df hi.

(** How many sources of the list belong to supershot [no]. *)
Definition members {F} (l : list (source F)) (no : Z) : nat :=
  List.length (filter (fun s => Z.abs (sourceNo s) =? no) l).
