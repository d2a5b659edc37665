(** Model of the grid configuration file and of what is read from it: Common::readColumnFromFile (src/Common/Common.hpp 25-60),
    Coordinates::init(config, DHInversion, NXPerShot) (src/Acquisition/Coordinates.cpp 33-89), CheckParameter::checkVariableGrid
    (src/CheckParameter/CheckParameter.hpp 21-49) and the setup of the derivatives (src/ForwardSolver/Derivatives/Derivatives.cpp 12-86,
    1663-1702). *)
From Coq Require Import Ascii String.
From Verif Require Import Base M_Grid M_Deriv M_Acq M_Conf.
Open Scope Z_scope.

(** strings >> tempStr for an int (Common.hpp 44): std::num_get, base 10, "C" locale.  White space is skipped, an optional sign
    and the longest run of digits are consumed; [None] is failbit: no digits, end of the line, or a value outside int. *)
Fixpoint skip_digits (s : str) : str :=
  match s with c :: r => if isdigit c then skip_digits r else s | [] => [] end.
Definition read_int (s : str) : option (Z * str) :=
  let '(sign, s) := split_sign (skip_space s) in
  if starts_digit s then
    let v := sign * digits_val s 0 in
    if (-2147483648 <=? v) && (v <=? 2147483647) then Some (v, skip_digits s) else None
  else None.
(** while (strings >> tempStr) vec.push_back(tempStr), 44-46; every number takes at least one character, so the number of
    characters of the line bounds the number of iterations. *)
Fixpoint read_ints_loop (n : nat) (s : str) : list Z :=
  match n with
  | O => []
  | S n' => match read_int s with None => [] | Some (v, s') => v :: read_ints_loop n' s' end
  end.
Definition read_ints (line : str) : list Z := read_ints_loop (List.length line) line.

(** readColumnFromFile, 25-60, for T = int; [values] is the vector on entry, [None] a file that cannot be opened. *)
Fixpoint read_column_loop (ls : list str) (values : list Z) (column : nat) : res (list Z) :=
  match ls with
  | [] => Ok values
  | line :: r =>
      if skipped line then read_column_loop r values column
      else let vec := read_ints line in
           if (List.length vec <? column + 1)%nat then Throw
           else v <- vget vec (Z.of_nat column) ;; read_column_loop r (values ++ [v]) column
  end.
Definition readColumnFromFile (file : option str) (values : list Z) (column : nat) : res (list Z) :=
  match file with
  | None => Throw
  | Some content => read_column_loop (getlines content) values column
  end.

(** The part of the configuration used here.  [None] for the two optional switches: get throws, the catch block takes false. *)
Record gconfig := mkGC {
  gc_NX : Z; gc_NY : Z; gc_NZ : Z;
  gc_varGrid : bool;                (* useVariableGrid *)
  gc_varFD : bool;                  (* useVariableFDoperators *)
  gc_file : option str;             (* content of gridConfigurationFilename *)
  gc_order : Z;                     (* spatialFDorder *)
  gc_type : str;                    (* equationType *)
  gc_partitioning : Z;
  gc_stencil : option bool;         (* useStencilMatrix *)
  gc_hybrid : option bool           (* useHybridFreeSurface *)
}.

(** interface.at(0) == 0, then erase the first element; otherwise an exception: std::out_of_range or the one of Coordinates.cpp 54-56. *)
Definition drop_first_zero (ifs : list Z) : res (list Z) :=
  match ifs with
  | [] => Throw
  | i :: r => if i =? 0 then Ok r else Throw
  end.
(** Coordinates.cpp 63-65. *)
Fixpoint interfaces_increase (ifs : list Z) : bool :=
  match ifs with
  | i :: ((j :: _) as r) => (j >? i) && interfaces_increase r
  | _ => true
  end.
(** Coordinates.cpp 67-70; the division is the int division of C++. *)
Fixpoint factors_match (dhs : list Z) : bool :=
  match dhs with
  | d :: ((e :: _) as r) => ((e =? d * 3) || (e =? Z.quot d 3) || (e =? d)) && factors_match r
  | _ => true
  end.
(** ceil(a / DHInversion) for positive DHInversion (the quotient is exact here). *)
Definition ceil_div (a b : Z) : Z := - ((- a) / b).

(** Coordinates::init(config, DHInversion, NXPerShot), Coordinates.cpp 33-89, on a new object.  NXPerShot is an integer here, DH and
    the origin are left out. *)
Definition init_config (fuel : nat) (c : gconfig) (dhInversion nxPerShot : Z) : res grid :=
  let nx := if nxPerShot <? gc_NX c then ceil_div (gc_NX c) dhInversion else ceil_div nxPerShot dhInversion in
  let ny := ceil_div (gc_NY c) dhInversion in
  let nz := ceil_div (gc_NZ c) dhInversion in
  if gc_varGrid c then
    ifs <- readColumnFromFile (gc_file c) [] 0 ;;
    ifs <- drop_first_zero ifs ;;
    dhs <- readColumnFromFile (gc_file c) [] 1 ;;
    _ <- assert (interfaces_increase ifs) ;;
    _ <- assert (factors_match dhs) ;;
    init_variable fuel nx ny nz dhs ifs
  else if gc_varFD c then
    ifs <- readColumnFromFile (gc_file c) [] 0 ;;
    ifs <- drop_first_zero ifs ;;
    init_variable fuel nx ny nz (repeat 1 (List.length ifs + 1)) ifs
  else mk_regular nx ny nz.

(** checkVariableGrid, CheckParameter.hpp 21-49: whether the message about the dimensions is printed, and the messages about moved
    interfaces: number, old row, new row.  newInterfaces[i + 1] out of range is undefined. *)
Fixpoint moved_interfaces (i : Z) (ifs : list Z) (new : list Z) : res (list (Z * Z * Z)) :=
  match ifs with
  | [] => Ok []
  | y :: r =>
      n <- vget new (i + 1) ;;
      rest <- moved_interfaces (i + 1) r new ;;
      Ok (if negb (y =? n) then (i + 1, y, n) :: rest else rest)
  end.
Definition checkVariableGrid (c : gconfig) (g : grid) : res (bool * list (Z * Z * Z)) :=
  let altered := negb (gc_NX c =? gNX g) || negb (gc_NY c =? gNY g) || negb (gc_NZ c =? gNZ g) in
  ifs <- readColumnFromFile (gc_file c) [] 0 ;;
  ifs <- drop_first_zero ifs ;;
  m <- moved_interfaces 0 ifs (interface g) ;;
  Ok (altered, m).

(** The members of Derivatives that setup writes (Derivatives.hpp 264-276); useFreeSurface and DT are plain copies and left out. *)
Record dstate := mkD {
  d_varGrid : bool; d_elastic : bool; d_stencil : bool; d_hybrid : bool; d_varFD : bool;
  d_orders : list Z;   (* spatialFDorderVec *)
  d_isSetup : bool
}.
(** the initial values of the members, Derivatives.hpp 266-276 *)
Definition new_derivatives : dstate := mkD false false false false false [] false.

(** stencilFDmap.find(p) != end() after setFDCoef, Derivatives.cpp 2001-2042. *)
Definition supported (p : Z) : bool :=
  (p =? 2) || (p =? 4) || (p =? 6) || (p =? 8) || (p =? 10) || (p =? 12).

(** setFDOrder(gridConfigFileName), 1664-1674: appends to the member and then checks all its elements. *)
Definition setFDOrder_file (file : option str) (orders : list Z) : res (list Z) :=
  orders <- readColumnFromFile file orders 2 ;;
  _ <- assert (forallb supported orders) ;; Ok orders.
(** setFDOrder(FDorder vector), 1681-1688. *)
Definition setFDOrder_vec (l : list Z) : res (list Z) :=
  _ <- assert (forallb supported l) ;; Ok l.
(** setFDOrder(FDorder), 1695-1700: push_back. *)
Definition setFDOrder (p : Z) (orders : list Z) : res (list Z) :=
  _ <- assert (supported p) ;; Ok (orders ++ [p]).

(** the equation types of lines 20 and 70 *)
Definition elastic_type (t : str) : bool :=
  let t := lower t in
  str_eqb t (txt "sh") || str_eqb t (txt "viscosh") || str_eqb t (txt "elastic") || str_eqb t (txt "viscoelastic").
Definition or_false (b : option bool) : bool := match b with Some b => b | None => false end.

(** setup(config), 12-55. *)
Definition setup (c : gconfig) (d : dstate) : res dstate :=
  let el := if elastic_type (gc_type c) then true else d_elastic d in
  let st := or_false (gc_stencil c) in
  if negb (gc_partitioning c =? 1) && st then Throw else
  let hy := or_false (gc_hybrid c) in
  if negb st && hy then Throw else
  if negb st && gc_varFD c then
    o <- setFDOrder_file (gc_file c) (d_orders d) ;;
    Ok (mkD (gc_varGrid c) el st hy true o true)
  else
    _ <- assert (negb (gc_varFD c)) ;;
    o <- setFDOrder (gc_order c) (d_orders d) ;;
    Ok (mkD (gc_varGrid c) el st hy (d_varFD d) o true).

(** setup(config, FDorder), 63-86. *)
Definition setup_vec (c : gconfig) (l : list Z) (d : dstate) : res dstate :=
  let el := if elastic_type (gc_type c) then true else d_elastic d in
  _ <- assert (negb (gc_partitioning c =? 1)) ;;
  o <- setFDOrder_vec l ;;
  Ok (mkD (gc_varGrid c) el false false true o true).

(** The order the loops over the points use in a layer, e.g. lines 148-152: at(0) throws, operator[] out of range is undefined. *)
Definition order_at (d : dstate) (layer : Z) : res Z :=
  match d_orders d with
  | [] => Throw
  | p :: _ => if d_varFD d then vget (d_orders d) layer else Ok p
  end.
