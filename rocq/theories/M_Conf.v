(** Model of the configuration file reader, src/Configuration/Configuration.cpp and .hpp.
    Strings are lists of bytes ([str], see M_Acq.v). *)
From Coq Require Import Ascii String.
From Verif Require Import Base M_Acq.
Open Scope Z_scope.
Local Notation length := List.length.

(** ::tolower in the "C" locale. *)
Definition tolower (c : ascii) : ascii :=
  let n := nat_of_ascii c in
  if (Nat.leb 65 n && Nat.leb n 90)%bool then ascii_of_nat (n + 32) else c.
Definition lower (s : str) : str := map tolower s.

Definition str_eqb (a b : str) : bool := if list_eq_dec ascii_dec a b then true else false.

(** std::string::find_first_of with a single character. *)
Fixpoint find_char (c : ascii) (s : str) : option nat :=
  match s with
  | [] => None
  | d :: r => if Ascii.eqb d c then Some 0%nat else option_map S (find_char c r)
  end.

(** std::string::substr(pos, len) for pos <= size; [len] is a size_t. *)
Definition substr (s : str) (pos : nat) (len : Z) : str :=
  firstn (Z.to_nat (Z.min len (Z.of_nat (length s - pos)))) (skipn pos s).

(** Difference of two sizes (below 2^64) as a size_t: a negative value wraps around. *)
Definition size_t (v : Z) : Z := if v <? 0 then v + 2 ^ 64 else v.

(** configMap and insertionOrder (Configuration.hpp 52-53); the unordered map is an association list with
    one entry per key. *)
Record config := { cmap : list (str * str); corder : list str }.
Definition empty_config : config := {| cmap := []; corder := [] |}.

Fixpoint lookup (m : list (str * str)) (k : str) : option str :=
  match m with [] => None | (k', v) :: m => if str_eqb k' k then Some v else lookup m k end.
Definition erase (m : list (str * str)) (k : str) : list (str * str) :=
  filter (fun p => negb (str_eqb (fst p) k)) m.

(** add2map, Configuration.cpp 15-27. *)
Definition add2map (k v : str) (overwrite : bool) (c : config) : config :=
  match lookup (cmap c) k with
  | None => {| cmap := (k, v) :: cmap c; corder := corder c ++ [k] |}
  | Some _ => if overwrite then {| cmap := (k, v) :: erase (cmap c) k; corder := corder c |} else c
  end.

Definition txt (s : string) : str := list_ascii_of_string s.

(** One line, Configuration.cpp 56-78: name and value, [None] if the line is skipped. *)
Definition parse_line (line : str) : option (str * str) :=
  let lineEnd := Z.of_nat (length line) in
  let cut (lineEnd : Z) :=
    match find_char "="%char line with
    | None => None
    | Some equalPos =>
        let name := firstn equalPos line in
        let len := size_t (lineEnd - Z.of_nat (equalPos + 1)) in
        let val := substr line (equalPos + 1) len in
        Some (lower name, val)
    end in
  match find_char "#"%char line with
  | Some commentPos1 =>
      (* commentPos2, the first # from commentPos1 on, is commentPos1 itself *)
      if Nat.eqb commentPos1 0 then None else cut (Z.of_nat commentPos1)
  | None => cut lineEnd
  end.

(** The loop over the lines, Configuration.cpp 55-88; [flag2D] as in the code. *)
Fixpoint read_lines (ls : list str) (overwrite flag2D : bool) (c : config) : config :=
  match ls with
  | [] => c
  | line :: ls =>
      match parse_line line with
      | None => read_lines ls overwrite flag2D c
      | Some (name, val) =>
          let flag2D := if str_eqb name (txt "dimension") && str_eqb val (txt "2D              ") then true else flag2D in
          let val := if str_eqb name (txt "nz") && flag2D then txt "1" else val in
          read_lines ls overwrite flag2D (add2map name val overwrite c)
      end
  end.

(** readFromFile, Configuration.cpp 44-90 (the file exists and has the given content). *)
Definition readFromFile (content : str) (overwrite : bool) (c : config) : config :=
  read_lines (getlines content) overwrite false c.

(** The constructor, Configuration.cpp 99-102. *)
Definition fromFile (content : str) : config := readFromFile content true empty_config.

(** add2config, Configuration.hpp 63-74; the value already printed to text. *)
Definition add2config (k v : str) (overwrite : bool) (c : config) : config := add2map (lower k) v overwrite c.

(** get, Configuration.hpp 95-108; [conv] is operator>> from the stored text. *)
Definition get {T} (conv : str -> T) (c : config) (name : str) : res T :=
  match lookup (cmap c) (lower name) with Some v => Ok (conv v) | None => Throw end.

(** getAndCatch, Configuration.hpp 130-142. *)
Definition getAndCatch {T} (conv : str -> T) (c : config) (name : str) (default : T) : T :=
  match lookup (cmap c) (lower name) with Some v => conv v | None => default end.

(** A history of calls on one object. *)
Inductive call :=
| Read (content : str) (overwrite : bool)
| Add (key value : str) (overwrite : bool).
Definition do_call (c : config) (k : call) : config :=
  match k with
  | Read content ow => readFromFile content ow c
  | Add key v ow => add2config key v ow c
  end.
Definition history (ks : list call) : config := fold_left do_call ks empty_config.
