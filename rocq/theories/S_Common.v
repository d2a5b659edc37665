(** Specification of the helper functions (C52, C53, C58, C60, C79-C82). *)
From Coq Require Import Reals.
From Verif Require Import Base M_Seis M_Common.
Open Scope Z_scope.

(** The relation selected by a code of searchAndReplace. *)
Definition relates (code : Z) (x t : R) : Prop :=
  (code = 1 /\ (x < t)%R) \/ (code = 2 /\ (x > t)%R) \/ (code = 3 /\ (x <= t)%R) \/ (code = 4 /\ (x >= t)%R) \/ (code = 5 /\ x = t).

(** [k] is the time step nearest to [time], the later one of two equally near ones. *)
Definition nearest_step (time DT : R) (k : Z) : Prop := (time - DT / 2 < IZR k * DT <= time + DT / 2)%R.

(** A sequence of wrapped phases. *)
Definition wrapped (ws : list R) : Prop := Forall (fun w => - PI <= w <= PI)%R ws.

(** The list [us] contains each value of [ts] exactly once. *)
Definition lists_once (ts us : list Z) : Prop := NoDup us /\ forall t, In t us <-> In t ts.

(** The part of a list from the first value different from [t0] on. *)
Fixpoint from_first_change (t0 : Z) (ts : list Z) : list Z :=
  match ts with [] => [] | t :: r => if t =? t0 then from_first_change t0 r else t :: r end.
