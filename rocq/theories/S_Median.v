(** Specification of the median filters (C50, C85). *)
From Coq Require Import Reals.
From Verif Require Import Base.
Open Scope Z_scope.

(** [v] is the median of [w]: it occurs in [w], at most half of the other values are smaller and at most half are larger. *)
Definition smaller (v : R) (w : list R) : Z := Z.of_nat (length (filter (fun x => if Rlt_dec x v then true else false) w)).
Definition larger (v : R) (w : list R) : Z := Z.of_nat (length (filter (fun x => if Rlt_dec v x then true else false) w)).
Definition is_median (v : R) (w : list R) : Prop :=
  In v w /\ 2 * smaller v w <= Z.of_nat (length w) - 1 /\ 2 * larger v w <= Z.of_nat (length w) - 1.

(** The pixel at row y, column x of the image extended over its edges: the nearest pixel of the image or zero. *)
Definition clamp (n i : Z) : Z := Z.max 0 (Z.min (n - 1) i).
Definition pixel (image : list R) (NX NY : Z) (nearest : bool) (y x : Z) : R :=
  if nearest then nth (Z.to_nat (clamp NY y * NX + clamp NX x)) image 0%R
  else if (0 <=? y) && (y <? NY) && (0 <=? x) && (x <? NX) then nth (Z.to_nat (y * NX + x)) image 0%R else 0%R.
(** The square window of (2b+1)^2 pixels around a pixel. *)
Definition window2D (image : list R) (NX NY : Z) (nearest : bool) (b y x : Z) : list R :=
  map (fun p => pixel image NX NY nearest (y + fst p) (x + snd p))
      (list_prod (zseq (- b) (Z.to_nat (2 * b + 1))) (zseq (- b) (Z.to_nat (2 * b + 1)))).
(** The five samples around sample i of a signal continued beyond its ends by its mirror image. *)
Definition mirror (n i : Z) : Z := if i <? 0 then - 1 - i else if i <? n then i else 2 * n - 1 - i.
Definition window1D (signal : list R) (i : Z) : list R :=
  map (fun d => nth (Z.to_nat (mirror (Z.of_nat (length signal)) (i + d))) signal 0%R) [-2; -1; 0; 1; 2].
