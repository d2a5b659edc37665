(** Model of Acquisition::Coordinates (src/Acquisition/Coordinates.hpp / Coordinates.cpp). *)
From Verif Require Import Base.

(** coordinate3D (Coordinates.hpp 16-53). *)
Record coord := mkC { cx : Z; cy : Z; cz : Z }.

(** The per-layer vectors dhFactor, layerStart, layerEnd, transition, varNX, varNY, varNZ and
    nGridpointsPerLayer (Coordinates.hpp 118-153).  The code keeps one std::vector per field; the model
    keeps one list of records.  varDH is omitted (it is DH*dhFactor and never used for indexing). *)
Record layer := mkL {
  ldh : Z; lstart : Z; lend : Z; ltrans : Z; lnx : Z; lny : Z; lnz : Z; lcnt : Z }.

(** State of a Coordinates object. [numLayers] is kept separately from the tables because the code does so. *)
Record grid := mkG {
  gNX : Z; gNY : Z; gNZ : Z;
  numLayers : nat;
  nGridpoints : Z;
  layers : list layer;
  interface : list Z }.

(** A freshly constructed object: members are empty vectors (Coordinates.hpp 118-153). *)
Definition fresh (nx ny nz : Z) : grid := mkG nx ny nz 0 0 [] [].

(** Coordinates::init() for a regular grid, Coordinates.cpp 269-295: every vector gets a push_back, the
    interface vector also an insert at the front; nothing is cleared.  The three assertions come last. *)
Definition init_regular (g : grid) : res grid :=
  let '(nx, ny, nz) := (gNX g, gNY g, gNZ g) in
  let n := nx * ny * nz in
  let l := mkL 1 0 (ny - 1) 0 nx ny nz n in
  _ <- assert (0 <? nx) ;; _ <- assert (0 <? ny) ;; _ <- assert (0 <? nz) ;;
  Ok (mkG nx ny nz 1 n (layers g ++ [l]) (-1 :: interface g ++ [ny - 1])).

(** Setting NX, NY, NZ on an existing object and calling init() again: Coordinates::init(config,...)
    cpp 32-45 and 85-88 (the useVariableGrid == 0 and useVariableFDoperators == 0 branch). *)
Definition reinit_regular (g : grid) (nx ny nz : Z) : res grid :=
  init_regular (mkG nx ny nz (numLayers g) (nGridpoints g) (layers g) (interface g)).

(** Constructor Coordinates(nx,ny,nz,dh), cpp 257-262. *)
Definition mk_regular (nx ny nz : Z) : res grid := init_regular (fresh nx ny nz).

(* ------------------------------------------------------------------ *)
(** ** Variable grid: init(dhFactors, interfaces), cpp 115-247 *)

(** 3^n test of cpp 150.  The code compares floor(log d / log 3) with log d / log 3 in floating point; the
    model takes the exact test.  For d = 0 both sides are -inf, so the code accepts 0; for d < 0 they are NaN
    and the code rejects. *)
Fixpoint is_pow3_fuel (n : nat) (d : Z) : bool :=
  match n with
  | O => false
  | S n' => (d =? 1) || ((0 <? d) && (Z.rem d 3 =? 0) && is_pow3_fuel n' (Z.quot d 3))
  end.
Definition is_pow3 (d : Z) : bool := is_pow3_fuel (S (Z.to_nat (Z.log2 d))) d.
Definition dh_accepted (d : Z) : bool := (d =? 0) || is_pow3 d.

(** The dhMax loop, cpp 147-153. *)
Definition dh_max (dhs : list Z) : Z := fold_left (fun m d => if d >? m then d else m) dhs 0.

(** The loops of cpp 159-171: [while(true) { if (N == floor(N / dhMax)*dhMax + 1 + floor(dhMax/2)) break; N--; }]
    (N / dhMax and dhMax / 2 are int divisions). *)
Fixpoint reduceN (fuel : nat) (d N : Z) : res Z :=
  match fuel with
  | O => Fuel
  | S f => if N =? Z.quot N d * d + 1 + Z.quot d 2 then Ok N else reduceN f d (N - 1)
  end.

(** The interface correction of cpp 184-206: interface[layer] is decremented until
    (interface[layer] - base) is divisible by dhFactor[layer-1]; the code tests floor(q) != q on the exact quotient. *)
Fixpoint align (fuel : nat) (base d i : Z) : res Z :=
  match fuel with
  | O => Fuel
  | S f => if Z.rem (i - base) d =? 0 then Ok i else align f base d (i - 1)
  end.

(** Second loop of the correction, cpp 194-206: each interface is aligned relative to the previous (already
    corrected) one. [prev] is interface[layer-1], [dhs] are the factors of the layers still to do. *)
Fixpoint align_rest (fuel : nat) (prev : Z) (dhs is : list Z) : res (list Z) :=
  match dhs, is with
  | d :: dhs', i :: is' =>
      i' <- align fuel prev d i ;;
      r <- align_rest fuel i' dhs' is' ;;
      Ok (i' :: r)
  | _, _ => Ok []
  end.

(** Both correction loops together; the first interface is measured from interface[0]+1 = 0 (cpp 183-192). *)
Definition align_all (fuel : nat) (dhs is : list Z) : res (list Z) :=
  match dhs, is with
  | d :: dhs', i :: is' =>
      i' <- align fuel 0 d i ;;
      r <- align_rest fuel i' dhs' is' ;;
      Ok (i' :: r)
  | _, _ => Ok []
  end.

(** Sizes of one layer, cpp 233-246: varNY = (layerEnd-layerStart)/dh + 1, varNX = NXmax/dh, varNZ = NZmax/dh,
    the latter two plus one when dh > 1; int divisions. *)
Definition mk_layer (nx nz start d en tr : Z) : res layer :=
  qy <- cdiv (en - start) d ;;
  qx <- cdiv nx d ;;
  qz <- cdiv nz d ;;
  let vy := qy + 1 in
  let vx := if d >? 1 then qx + 1 else qx in
  let vz := if d >? 1 then qz + 1 else qz in
  Ok (mkL d start en tr vx vy vz (vx * vy * vz)).

(** The layer loop of cpp 218-246: [start] is layerStart of the first layer in [dhs], [is] are interface[layer+1..].
    transition, layerEnd and the next layerStart follow from the comparison with the next factor; the last layer
    gets transition 0 and ends on the last interface (cpp 229-231). *)
Fixpoint build_layers (nx nz start : Z) (dhs is : list Z) : res (list layer) :=
  match dhs, is with
  | d :: dhs', i :: is' =>
      match dhs' with
      | [] => l <- mk_layer nx nz start d i 0 ;; Ok [l]
      | d' :: _ =>
          let '(tr, en, st') :=
            if d <? d' then (1, i, i + d')
            else if d >? d' then (-1, i - d, i)
            else (0, i - d, i) in
          l <- mk_layer nx nz start d en tr ;;
          r <- build_layers nx nz st' dhs' is' ;;
          Ok (l :: r)
      end
  | _, _ => Ok []
  end.

(** init(dhFactors, interfaces), cpp 115-247.  A zero factor passes the assertion of cpp 150 but every path then
    divides by it (cpp 159 or 235): undefined behaviour (unless the loops of cpp 158-206 never get there). *)
Definition init_variable (fuel : nat) (nx ny nz : Z) (dhs ifs : list Z) : res grid :=
  _ <- assert (negb (Nat.eqb (length dhs) 0)) ;;
  _ <- assert (Nat.eqb (length ifs) (length dhs - 1)) ;;
  _ <- assert (0 <? nx) ;; _ <- assert (0 <? ny) ;; _ <- assert (0 <? nz) ;;
  let itf := ifs ++ [ny - 1] in                                   (* interface[1..] ; interface[0] = -1 *)
  _ <- assert (forallb dh_accepted dhs) ;;
  if existsb (Z.eqb 0) dhs then UB else
  let dm := dh_max dhs in
  '(nx', nz', itf') <-
     (if dm =? 1 then Ok (nx, nz, itf)
      else nx' <- reduceN fuel dm nx ;;
           nz' <- (if nz =? 1 then Ok nz else reduceN fuel dm nz) ;;
           itf' <- align_all fuel dhs itf ;;
           Ok (nx', nz', itf')) ;;
  let ny' := last itf' 0 + 1 in                                   (* NY = interface[numLayers] + 1, cpp 209 *)
  ls <- build_layers nx' nz' 0 dhs itf' ;;
  Ok (mkG nx' ny' nz' (length dhs) (zsum (map lcnt ls)) ls (-1 :: itf')).

(* ------------------------------------------------------------------ *)
(** ** Mappings *)

(** First loop of mapIndex2coordinate, cpp 618-625: walk over the first numLayers layers subtracting their point
    counts.  When the loop runs to its end, [layer] equals numLayers and the tables are read at that position. *)
Fixpoint find_index (n : nat) (ls : list layer) (idx : Z) : res (layer * Z) :=
  match n, ls with
  | _, [] => UB
  | O, l :: _ => Ok (l, idx)
  | S n', l :: ls' => if idx >=? lcnt l then find_index n' ls' (idx - lcnt l) else Ok (l, idx)
  end.

(** mapIndex2coordinate / index2coordinate, cpp 615-660. *)
Definition index2coordinate (g : grid) (idx : Z) : res coord :=
  '(l, i) <- find_index (numLayers g) (layers g) idx ;;
  y <- cdiv i (lnx l * lnz l) ;;
  let i := i - y * (lnx l * lnz l) in
  z <- cdiv i (lnx l) ;;
  let x := i - z * lnx l in
  Ok (mkC (x * ldh l) (y * ldh l + lstart l) (z * ldh l)).

(** Layer search of map3Dcoordinate2index, cpp 679-685, together with the summation loop cpp 689-691
    ([acc] = points of the layers before).  When no layer matches, Y is left as it is and the tables are read at
    position numLayers. *)
Fixpoint find_y (n : nat) (ls : list layer) (Y acc : Z) : res (layer * Z * Z) :=
  match n, ls with
  | _, [] => UB
  | O, l :: _ => Ok (l, Y, acc)
  | S n', l :: ls' =>
      if (Y <=? lend l) && (Y >=? lstart l) then Ok (l, Y - lstart l, acc)
      else find_y n' ls' Y (acc + lcnt l)
  end.

(** map3Dcoordinate2index / coordinate2index, cpp 668-724. *)
Definition coordinate2index (g : grid) (c : coord) : res Z :=
  let '(mkC X Y Z) := c in
  _ <- assert (X <? gNX g) ;; _ <- assert (Y <? gNY g) ;; _ <- assert (Z <? gNZ g) ;;
  _ <- assert (X >=? 0) ;; _ <- assert (Y >=? 0) ;; _ <- assert (Z >=? 0) ;;
  '(l, Y', acc) <- find_y (numLayers g) (layers g) Y 0 ;;
  qx <- cdiv X (ldh l) ;; qz <- cdiv Z (ldh l) ;; qy <- cdiv Y' (ldh l) ;;
  Ok (qx + qz * lnx l + qy * lnx l * lnz l + acc).

(** locatedOnSurface, cpp 598-607. *)
Definition locatedOnSurface (g : grid) (idx : Z) : res bool :=
  c <- index2coordinate g idx ;; Ok (cy c =? 0).

(** estimateDistanceToEdges3D / edgeDistance, cpp 734-765. *)
Definition edgeDistance (g : grid) (c : coord) : res coord :=
  let '(mkC X Y Z) := c in
  _ <- assert (X <? gNX g) ;; _ <- assert (Y <? gNY g) ;; _ <- assert (Z <? gNZ g) ;;
  _ <- assert (X >=? 0) ;; _ <- assert (Y >=? 0) ;; _ <- assert (Z >=? 0) ;;
  let d N a := if negb (N - 1 - a <? a) then a else N - 1 - a in
  Ok (mkC (d (gNX g) X) (d (gNY g) Y) (d (gNZ g) Z)).

(** getLayer, cpp 392-406. [lo] is interface[layer], the list holds interface[layer+1..]; vector::at on transition
    throws when out of range. Returns numLayers when no layer contains y. *)
Fixpoint getLayer_from (n : nat) (layer : Z) (lo : Z) (its : list Z) (ls : list Verif.M_Grid.layer) (y : Z) : res Z :=
  match n with
  | O => Ok layer
  | S n' =>
      match its with
      | [] => UB
      | hi :: its' =>
          if (y <? hi) && (y >? lo) then Ok layer
          else if y =? hi then
            match ls with
            | [] => Throw
            | l :: _ => Ok (if ltrans l >? 0 then layer + 1 else layer)
            end
          else getLayer_from n' (layer + 1) hi its' (tl ls) y
      end
  end.
Definition getLayer (g : grid) (y : Z) : res Z :=
  match interface g with
  | [] => match numLayers g with O => Ok 0 | _ => UB end
  | lo :: its => getLayer_from (numLayers g) 0 lo its (layers g) y
  end.

(** getDHFactor(coordinate), cpp 443-446. *)
Definition getDHFactor (g : grid) (y : Z) : res Z :=
  k <- getLayer g y ;; l <- vget (layers g) k ;; Ok (ldh l).

(** locatedOnInterface, cpp 482-491: compares with interface[0..numLayers-1]. *)
Fixpoint on_iface (n : nat) (its : list Z) (y : Z) (acc : bool) : res bool :=
  match n with
  | O => Ok acc
  | S n' => match its with [] => UB | i :: its' => on_iface n' its' y (if y =? i then true else acc) end
  end.
Definition locatedOnInterface (g : grid) (y : Z) : res bool := on_iface (numLayers g) (interface g) y false.

(** distToInterface, cpp 498-507: iterates from begin()+1 to end()-1. *)
Definition distToInterface (g : grid) (y : Z) : Z :=
  fold_left (fun d i => if Z.abs (y - i) <? d then Z.abs (y - i) else d)
            (removelast (tl (interface g))) (gNY g).

(** getTransition, cpp 524-537. *)
Fixpoint transition_from (n : nat) (its : list Z) (ls : list layer) (y acc : Z) : res Z :=
  match n with
  | O => Ok acc
  | S n' =>
      match its with
      | [] => UB
      | i :: its' =>
          if y =? i then match ls with [] => UB | l :: _ => transition_from n' its' (tl ls) y (ltrans l) end
          else transition_from n' its' (tl ls) y acc
      end
  end.
Definition getTransition (g : grid) (y : Z) : res Z :=
  b <- locatedOnInterface g y ;;
  if negb b then Throw else transition_from (numLayers g) (tl (interface g)) (layers g) y 0.

(** Reading the grid description (Coordinates::init(config,...), cpp 47-75): [its] is column 0 and [dhs] column 1 of the
    grid file.  [interface.at(0)] throws on an empty vector. *)
Fixpoint increasing (l : list Z) : bool :=
  match l with
  | a :: ((b :: _) as l') => (b >? a) && increasing l'
  | _ => true
  end.
Fixpoint factors3 (l : list Z) : bool :=
  match l with
  | a :: ((b :: _) as l') => ((b =? a * 3) || (b =? Z.quot a 3) || (b =? a)) && factors3 l'
  | _ => true
  end.
Definition init_config_variable (fuel : nat) (nx ny nz : Z) (its dhs : list Z) : res grid :=
  match its with
  | [] => Throw
  | i0 :: its' =>
      if negb (i0 =? 0) then Throw
      else _ <- assert (increasing its') ;;
           if negb (factors3 dhs) then Throw else init_variable fuel nx ny nz dhs its'
  end.
(** The variable-FD-operator branch, cpp 76-84: all factors are 1. *)
Definition init_config_fdop (fuel : nat) (nx ny nz : Z) (its : list Z) : res grid :=
  match its with
  | [] => Throw
  | i0 :: its' =>
      if negb (i0 =? 0) then Throw
      else init_variable fuel nx ny nz (repeat 1 (length its' + 1)) its'
  end.
