(** Specifications for the seismogram properties (C39-C45), independent of the model's helpers. *)
From Coq Require Import Reals QArith Qround.
From Verif Require Import Base.
Open Scope R_scope.
Open Scope Z_scope.

Definition rsum (l : list R) : R := fold_right Rplus 0%R l.

(** Backward difference of a trace at sample [j >= 1], divided by DT. *)
Definition backward_difference (DT : R) (row : list R) (j : nat) : R :=
  ((nth j row 0 - nth (j - 1) row 0) / DT)%R.

(** The largest absolute value of a trace is [m]. *)
Definition is_max_abs (row : list R) (m : R) : Prop :=
  (forall x, In x row -> (Rabs x <= m)%R) /\ exists x, In x row /\ Rabs x = m.
Definition has_l2_norm (row : list R) (m : R) : Prop :=
  (0 <= m)%R /\ (m * m = rsum (map (fun x => x * x) row))%R.
Definition zero_trace (row : list R) : Prop := forall x, In x row -> x = 0%R.
Definition positive_multiple (row out : list R) : Prop :=
  exists k, (0 < k)%R /\ out = map (fun x => (k * x)%R) row.

(** Mean of the samples with index in [t - N, t + N) that exist. *)
Definition window (row : list R) (N t : nat) : list R :=
  firstn (Nat.min (length row) (t + N) - (t - N)) (skipn (t - N) row).
Definition mean (l : list R) : R := (rsum l / INR (length l))%R.

(** Linear interpolation of a trace at the (fractional) sample position [x]: [v] is the value. *)
Definition interpolates (tr : list Q) (x v : Q) : Prop :=
  exists k, 0 <= k /\ (inject_Z k <= x)%Q /\ (x <= inject_Z (k + 1))%Q /\
    (* the left neighbour exists, the right one too unless its weight is zero *)
    k < Z.of_nat (length tr) /\ (k + 1 < Z.of_nat (length tr) \/ (x == inject_Z k)%Q) /\
    (v == (inject_Z (k + 1) - x) * nth (Z.to_nat k) tr 0
          + (x - inject_Z k) * nth (Z.to_nat (k + 1)) tr 0)%Q.
