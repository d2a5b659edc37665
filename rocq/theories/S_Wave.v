(** What a wavefield object has to hold, written down independently of the classes. *)
From Coq Require Import Reals String Ascii.
From Verif Require Import Base M_Average M_Common M_Model M_ModelEM S_Model S_ModelEM M_Wave.
Open Scope string_scope.
Open Scope Z_scope.

(** The fields that the equations of each kind propagate. *)
Definition propagated (k : wkind) : list string :=
  match k with
  | W2Dacoustic => ["VX"; "VY"; "P"]
  | W2Delastic | W2Dviscoelastic => ["VX"; "VY"; "Sxx"; "Syy"; "Sxy"]
  | W2Dsh | W2Dviscosh => ["VZ"; "Sxz"; "Syz"]
  | W3Dacoustic => ["VX"; "VY"; "VZ"; "P"]
  | W3Delastic | W3Dviscoelastic => ["VX"; "VY"; "VZ"; "Sxx"; "Syy"; "Szz"; "Sxy"; "Sxz"; "Syz"]
  | W2Demem | W2Dviscoemem => ["HZ"; "EX"; "EY"]
  | W2Dtmem | W2Dviscotmem => ["HX"; "HY"; "EZ"]
  | W3Demem | W3Dviscoemem => ["HX"; "HY"; "HZ"; "EX"; "EY"; "EZ"]
  end.
(** The parts into which the fields can be decomposed. *)
Definition directional (k : wkind) : list string :=
  match k with
  | W2Dacoustic => ["Pup"; "Pdown"; "Pleft"; "Pright"; "VXup"; "VXdown"; "VXleft"; "VXright"; "VYup"; "VYdown"; "VYleft"; "VYright"]
  | W2Dtmem => ["EZup"; "EZdown"; "EZleft"; "EZright"]
  | _ => []
  end.
Definition members (k : wkind) : list string := (propagated k ++ directional k)%list.
(** The memory variables, one per mechanism: one for each stress (elastic) or electric field component. *)
Definition memory (k : wkind) : list string :=
  match k with
  | W2Dviscoelastic => ["Rxx"; "Ryy"; "Rxy"]
  | W2Dviscosh => ["Rxz"; "Ryz"]
  | W3Dviscoelastic => ["Rxx"; "Ryy"; "Rzz"; "Rxy"; "Rxz"; "Ryz"]
  | W2Dviscoemem => ["RX"; "RY"]
  | W2Dviscotmem => ["RZ"]
  | W3Dviscoemem => ["RX"; "RY"; "RZ"]
  | _ => []
  end.

(** An object for [n] grid points with memory variables for [L] mechanisms. *)
Definition shaped (k : wkind) (n : nat) (L : Z) (w : wave) : Prop :=
  (forall f, In f (members k) -> length (wf w f) = n) /\
  (forall f, In f (memory k) -> Z.of_nat (length (wr w f)) = L /\ Forall (fun v => length v = n) (wr w f)) /\
  (memory k <> [] -> wn w = L).

(** Value of a member, and of a memory variable of mechanism [l], at a grid point. *)
Definition val (w : wave) (f : string) (i : nat) : option fpv := nth_error (wf w f) i.
Definition valR (w : wave) (f : string) (l i : nat) : option fpv := match nth_error (wr w f) l with Some v => nth_error v i | None => None end.
(** [u] and [w] agree outside the given members and memory variables. *)
Definition same_but (fs rs : list string) (w u : wave) : Prop :=
  (forall f, ~ In f fs -> wf u f = wf w f) /\ (forall f, ~ In f rs -> wr u f = wr w f) /\ wn u = wn w.
(** At every grid point the members and memory variables of [u] are [F] of their values in [w] and [v]. *)
Definition pointwise2 (F : fpv -> fpv -> fpv) (k : wkind) (n : nat) (L : Z) (w v u : wave) : Prop :=
  (forall f i, In f (members k) -> (i < n)%nat -> exists x y, val w f i = Some x /\ val v f i = Some y /\ val u f i = Some (F x y)) /\
  (forall f l i, In f (memory k) -> (Z.of_nat l < L) -> (i < n)%nat -> exists x y, valR w f l i = Some x /\ valR v f l i = Some y /\ valR u f l i = Some (F x y)).
Definition pointwise1 (F : nat -> fpv -> fpv) (k : wkind) (n : nat) (L : Z) (w u : wave) : Prop :=
  (forall f i, In f (members k) -> (i < n)%nat -> exists x, val w f i = Some x /\ val u f i = Some (F i x)) /\
  (forall f l i, In f (memory k) -> (Z.of_nat l < L) -> (i < n)%nat -> exists x, valR w f l i = Some x /\ valR u f l i = Some (F i x)).
(** All values are zero. *)
Definition all_zero (v : list fpv) : Prop := forall x, In x v -> x = Num 0.

(** The value at a grid point as a number. *)
Definition num (v : list fpv) (i : nat) : R := nth i (nums v) 0%R.
(** The largest modulus of the first [n] values. *)
Definition largest (m : R) (f : nat -> R) (n : nat) : Prop :=
  (forall i, (i < n)%nat -> (Rabs (f i) <= m)%R) /\ (m = 0%R \/ exists i, (i < n)%nat /\ m = Rabs (f i)).
(** Matrix times vector over the numbers. *)
Definition applied (m : matrix) (v : list fpv) (i : nat) : R := mean (nth i (mrows m) []) (nums v).

(** A decomposition: the fields that are split, the endings of the names of the parts for the negative and the positive direction, the
    energy flux, and whether the direction is x (otherwise y). *)
Record splitting := mkS { sFields : list string; sNeg : string; sPos : string; sFlux : wave -> nat -> R; sAlongX : bool }.
Definition splittingOf (k : wkind) (dec : Z) : option splitting :=
  match k, dec with
  | W2Dacoustic, 1 => Some (mkS ["P"; "VX"; "VY"] "up" "down" (fun w i => - num (wf w "P") i * num (wf w "VY") i)%R false)
  | W2Dacoustic, 2 => Some (mkS ["P"; "VX"; "VY"] "left" "right" (fun w i => - num (wf w "P") i * num (wf w "VX") i)%R true)
  | W2Dtmem, 1 => Some (mkS ["EZ"] "up" "down" (fun w i => num (wf w "EZ") i * num (wf w "HX") i)%R false)
  | W2Dtmem, 2 => Some (mkS ["EZ"] "left" "right" (fun w i => num (wf w "EZ") i * num (wf w "HY") i * -1)%R true)
  | _, _ => None
  end.
(** Second flux of a field: minus its derivative in space times its derivative in time. *)
Definition flux2 (d : matrix) (w der : wave) (f : string) (i : nat) : R := (applied d (wf w f) i * num (wf der f) i * -1)%R.
Definition parts (s : splitting) : list string := (map (fun f => (f ++ sNeg s)%string) (sFields s) ++ map (fun f => (f ++ sPos s)%string) (sFields s))%list.

(** ** Snapshots *)
(** Particle velocities and magnetic fields; the other propagated fields are stresses, pressures and electric fields. *)
Definition moving (f : string) : bool := match f with String c _ => Ascii.eqb c "V"%char || Ascii.eqb c "H"%char | EmptyString => false end.
(** The snapshot types that a kind supports. *)
Definition supported (k : wkind) (t : Z) : Prop :=
  t = 1 \/ t = 2 \/
  t = 3 /\ (match k with W2Dacoustic | W3Dacoustic | W2Dsh | W2Dviscosh | W2Demem | W2Dviscoemem => False | _ => True end) \/
  (t = 0 \/ t = 4 \/ t = 5) /\ directional k <> [].
(** The value of a curl and a divergence at point [i]: sums over the rows of the derivative matrices. *)
Definition curlOf2 (d : derivs) (x y : vec) (i : nat) : R := (applied (Dyf d) x i - applied (Dxf d) y i)%R.
Definition divOf2 (d : derivs) (x y : vec) (i : nat) : R := (applied (Dxb d) x i + applied (Dyb d) y i)%R.
Definition curlSq3 (d : derivs) (x y z : vec) (i : nat) : R :=
  ((applied (Dyf d) z i - applied (Dzf d) y i) ^ 2 + (applied (Dzf d) x i - applied (Dxf d) z i) ^ 2 + (applied (Dxf d) y i - applied (Dyf d) x i) ^ 2)%R.
Definition divOf3 (d : derivs) (x y z : vec) (i : nat) : R := (applied (Dxb d) x i + applied (Dyb d) y i + applied (Dzb d) z i)%R.
(** The vector field of which curl and divergence are taken, and the model vectors that weight them. *)
Definition flow (k : wkind) : string * string * string := if isSeismicW k then ("VX", "VY", "VZ") else ("HX", "HY", "HZ").
Definition spatial (k : wkind) : bool := match k with W3Dacoustic | W3Delastic | W3Dviscoelastic | W3Demem | W3Dviscoemem => true | _ => false end.
Definition curlWeight (k : wkind) (m : snapmodel) : vec := if isSeismicW k then smS m else smEps m.
Definition divWeight (k : wkind) (m : snapmodel) : vec := if isSeismicW k then smP m else match k with W3Dviscoemem => smSigma m | _ => smVel m end.
Definition square (m : matrix) (n : nat) : Prop := mcols m = Z.of_nat n /\ length (mrows m) = n.
