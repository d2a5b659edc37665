(** Specification vocabulary for C166. *)
From Verif Require Import Base M_Grid M_Acq.
Open Scope Z_scope.
Local Notation length := List.length.

(** The x position, in the model of shot [i], of a point at [x] of the survey: the model starts at the cut coordinate. *)
Definition own_x (cuts : option (list coord)) (i : nat) (x p : Z) : Prop :=
  match cuts with None => p = x | Some l => exists c, nth_error l i = Some c /\ p = x - cx c end.
(** [p] is the position of the source or of a receiver of the i-th shot. *)
Inductive used {F} (srcs : list (@source F)) (cuts : option (list coord)) (recs : Z -> res (list receiver)) (i : nat) (p : Z) : Prop :=
| used_src s : nth_error srcs i = Some s -> own_x cuts i (cx (sourceCoords s)) p -> used srcs cuts recs i p
| used_rec s l r : nth_error srcs i = Some s -> recs (Z.abs (sourceNo s)) = Ok l -> In r l -> own_x cuts i (cx (receiverCoords r)) p -> used srcs cuts recs i p.
(** The shots that are looked at: all if there are less than twenty, otherwise about ten. *)
Definition looked_at (n i : nat) : Prop := (i < n)%nat /\ (i mod (if (n <? 20)%nat then 1 else n / 10) = 0)%nat.
