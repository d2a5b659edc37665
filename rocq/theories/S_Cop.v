(** Specification of the common offset profile (C158, C159). *)
From Coq Require Import Reals String.
From Verif Require Import Base M_Cop.
Open Scope Z_scope.

(** A shot that records the single trace [t] of component [c] (0..3): the matrices of the four components. *)
Definition single (c : nat) (t : row) : list mat := map (fun j => if Nat.eqb j c then [t] else []) [0; 1; 2; 3]%nat.
(** A trace with [NT] samples that is not zero everywhere. *)
Definition trace (NT : nat) (t : row) : Prop := List.length t = NT /\ exists x, In x t /\ x <> 0%R.
(** What is known of getNumValues() > 0: true for a matrix with a nonzero value, false for a matrix without entries; for
    a matrix of zeros both answers are allowed. *)
Definition counts (has : mat -> bool) : Prop :=
  has [] = false /\ forall m, (exists r x, In r m /\ In x r /\ x <> 0%R) -> has m = true.
(** Value of sample [j] of a trace. *)
Definition sample (t : row) (j : nat) : R := nth j t 0%R.
Definition component (seismic : bool) (c : nat) : string :=
  nth c (if seismic then ["p"; "vx"; "vy"; "vz"] else ["ez"; "ex"; "ey"; "hz"])%string ""%string.
(** The first [NT] samples of [t] plus [w] times [s]. *)
Definition plus_times (NT : nat) (t : row) (w : R) (s : row) : row :=
  map (fun j => (sample t j + w * sample s j)%R) (seq 0 NT).
