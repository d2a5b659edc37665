(** Shared conventions of the model: outcomes of C++ code, integer division, small list helpers. *)
From Coq Require Export List ZArith Lia Bool Arith.
From Coq Require Export ZifyBool ZifyNat.
Export ListNotations.
Open Scope Z_scope.

(** Outcome of a piece of C++ code.  [Throw] is a C++ exception (COMMON_THROWEXCEPTION, SCAI_ASSERT),
    [UB] is undefined behaviour (out-of-range vector access, division by zero, ...), [Fuel] means that
    the fuel given to a model of a [while] loop did not suffice. *)
Inductive res (A : Type) : Type :=
| Ok : A -> res A
| Throw : res A
| UB : res A
| Fuel : res A.
Arguments Ok {A} _.
Arguments Throw {A}.
Arguments UB {A}.
Arguments Fuel {A}.

Definition bind {A B} (x : res A) (f : A -> res B) : res B :=
  match x with Ok a => f a | Throw => Throw | UB => UB | Fuel => Fuel end.
Notation "x <- e ;; f" := (bind e (fun x => f)) (at level 61, e at next level, right associativity).
Notation "' p <- e ;; f" := (bind e (fun p => f))
  (at level 61, p pattern, e at next level, right associativity).

(** SCAI_ASSERT(_ERROR)(b, ...) : throws when [b] is false. *)
Definition assert (b : bool) : res unit := if b then Ok tt else Throw.

(** C++ integer division; division by zero is undefined behaviour. *)
Definition cdiv (a b : Z) : res Z := if b =? 0 then UB else Ok (Z.quot a b).
(** C++ integer remainder. *)
Definition crem (a b : Z) : res Z := if b =? 0 then UB else Ok (Z.rem a b).

(** [v\[i\]] on a std::vector: out of range is undefined behaviour. *)
Definition vget {A} (v : list A) (i : Z) : res A :=
  if i <? 0 then UB else match nth_error v (Z.to_nat i) with Some a => Ok a | None => UB end.

(** Sum of a list of integers. *)
Definition zsum (l : list Z) : Z := fold_right Z.add 0 l.

(** [zseq s n] = [s; s+1; ...; s+n-1]. *)
Fixpoint zseq (s : Z) (n : nat) : list Z :=
  match n with O => [] | S n' => s :: zseq (s + 1) n' end.
