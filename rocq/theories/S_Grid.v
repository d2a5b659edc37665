(** Specification vocabulary for layered grids; does not mention the model of the code. *)
From Verif Require Import Base.

(** [d] is a power of three. *)
Definition pow3 (d : Z) : Prop := exists n : nat, d = 3 ^ Z.of_nat n.

(** A request for a layered grid: spacing factor of each layer and requested depth of the lower end of each
    layer (the last one is the lowest row NY-1).  [thick base off dhs is]: below the row [base] the first layer of
    [dhs] loses [off] rows at its top (when the layer above is finer the first row of the coarse layer lies one
    coarse cell below the interface) and one of its own cells at its bottom (when the layer below is not coarser);
    what remains has at least one row. *)
Fixpoint thick (base off : Z) (dhs is : list Z) : Prop :=
  match dhs, is with
  | d :: dhs', i :: is' =>
      let need := match dhs' with d' :: _ => if d <? d' then 0 else d | [] => 0 end in
      let off' := match dhs' with d' :: _ => if d <? d' then d' else 0 | [] => 0 end in
      off + need <= i - base /\ thick i off' dhs' is'
  | _, _ => True
  end.

(** Largest factor. *)
Definition is_max (m : Z) (l : list Z) : Prop := In m l /\ forall d, In d l -> d <= m.

(** Requests for which the construction is meaningful: factors are powers of three, one interface less than there are
    layers, the model is wide enough for the coarsest cell, no layer is too thin. *)
Definition good_request (nx ny nz : Z) (dhs ifs : list Z) : Prop :=
  (forall d, In d dhs -> pow3 d) /\ length dhs = S (length ifs) /\
  0 < nx /\ 0 < ny /\ 0 < nz /\
  (forall d, In d dhs -> 1 + d / 2 <= nx /\ (nz = 1 \/ 1 + d / 2 <= nz)) /\
  thick 0 0 dhs (ifs ++ [ny - 1]).

(** [corrected base dhs is js]: every corrected interface [j] is the deepest row not below the requested row [i] whose
    distance from the previous corrected interface ([base] for the first) is a whole number of cells of its layer. *)
Fixpoint corrected (base : Z) (dhs is js : list Z) : Prop :=
  match dhs, is, js with
  | d :: dhs', i :: is', j :: js' => (d | j - base) /\ i - d < j <= i /\ corrected j dhs' is' js'
  | [], _, [] => True
  | _, [], [] => True
  | _, _, _ => False
  end.
