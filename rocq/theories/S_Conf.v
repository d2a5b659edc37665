(** Specification of configuration files (C46, C47). *)
From Coq Require Import Ascii String.
From Verif Require Import Base M_Acq M_Conf.
Open Scope Z_scope.

(** Two names that differ only in letter case. *)
Inductive same_letter : ascii -> ascii -> Prop :=
| sl_eq c : same_letter c c
| sl_up i : (i < 26)%nat -> same_letter (ascii_of_nat (65 + i)) (ascii_of_nat (97 + i))
| sl_down i : (i < 26)%nat -> same_letter (ascii_of_nat (97 + i)) (ascii_of_nat (65 + i)).
Definition same_name (a b : str) : Prop := Forall2 same_letter a b.

(** The line [l] gives the name [n] the value [v]: name, '=', value, end of line or comment. *)
Definition defines (l n v : str) : Prop :=
  ~ In "#"%char n /\ ~ In "="%char n /\ ~ In "#"%char v /\
  exists c, l = (n ++ "="%char :: v ++ c)%list /\ (c = [] \/ exists c', c = "#"%char :: c').

(** [l] without its comment. *)
Definition without_comment (l l' : str) : Prop :=
  ~ In "#"%char l' /\ exists c, l = (l' ++ c)%list /\ (c = [] \/ exists c', c = "#"%char :: c').

(** The last line of [ls] that defines [name] gives it the value [v]. *)
Definition last_definition (ls : list str) (name v : str) : Prop :=
  exists before l after n, ls = (before ++ l :: after)%list /\ defines l n v /\ same_name n name /\
    forall l' n' v', In l' after -> defines l' n' v' -> ~ same_name n' name.
Definition no_definition (ls : list str) (name : str) : Prop :=
  forall l n v, In l ls -> defines l n v -> ~ same_name n name.

(** A name of a parameter contains neither '#' nor '='. *)
Definition plain (n : str) : Prop := ~ In "#"%char n /\ ~ In "="%char n.

(** In a file, the lines [before] switch on the special treatment of the parameter NZ: one of them defines
    DIMENSION as 2D padded with blanks to 16 characters. *)
Definition two_dimensional (before : list str) : Prop :=
  exists l n, In l before /\ same_name n (txt "dimension") /\ defines l n (txt "2D              ").

(** [v] is given to [name] by line [l]; the first such line. *)
Definition first_definition (ls : list str) (name v : str) : Prop :=
  exists before l after n, ls = (before ++ l :: after)%list /\ defines l n v /\ same_name n name /\
    forall l' n' v', In l' before -> defines l' n' v' -> ~ same_name n' name.

(** The names that the lines of a file define, in order (lower case); a line that starts with '#' or has no
    '=' defines none. *)
Inductive line_names : list str -> list str -> Prop :=
| ln_nil : line_names [] []
| ln_skip l ls ns : (~ In "="%char l \/ exists r, l = "#"%char :: r) -> line_names ls ns -> line_names (l :: ls) ns
| ln_take n r ls ns : ~ In "="%char n -> (forall q, n <> "#"%char :: q) -> line_names ls ns ->
    line_names ((n ++ "="%char :: r)%list :: ls) (lower n :: ns).
(** Names in order of first occurrence. *)
Definition first_occurrences (ns : list str) : list str :=
  fold_left (fun acc n => if in_dec (list_eq_dec ascii_dec) n acc then acc else (acc ++ [n])%list) ns [].

(** What a call does to the value of a name; the value before is [o], afterwards [o']. *)
Definition overridden (ow : bool) (o : option str) (v : str) : option str :=
  match o with Some old => if ow then Some v else Some old | None => Some v end.
Inductive effect (name : str) : call -> option str -> option str -> Prop :=
| ef_add k v ow o : same_name k name -> effect name (Add k v ow) o (overridden ow o v)
| ef_add_other k v ow o : ~ same_name k name -> effect name (Add k v ow) o o
| ef_read_none content ow o : no_definition (getlines content) name -> effect name (Read content ow) o o
| ef_read_last content o before l after n v : getlines content = (before ++ l :: after)%list -> defines l n v ->
    same_name n name -> no_definition after name ->
    ~ (same_name name (txt "nz") /\ two_dimensional before) ->
    effect name (Read content true) o (Some v)
| ef_read_first content before l after n v : getlines content = (before ++ l :: after)%list -> defines l n v ->
    same_name n name -> no_definition before name ->
    ~ (same_name name (txt "nz") /\ two_dimensional before) ->
    effect name (Read content false) None (Some v)
| ef_read_keep content o : effect name (Read content false) (Some o) (Some o)
| ef_nz_last content o before l after n v : getlines content = (before ++ l :: after)%list -> defines l n v ->
    same_name n name -> no_definition after name -> same_name name (txt "nz") -> two_dimensional before ->
    effect name (Read content true) o (Some (txt "1"))
| ef_nz_first content before l after n v : getlines content = (before ++ l :: after)%list -> defines l n v ->
    same_name n name -> no_definition before name -> same_name name (txt "nz") -> two_dimensional before ->
    effect name (Read content false) None (Some (txt "1")).
Inductive effects (name : str) : list call -> option str -> Prop :=
| efs_nil : effects name [] None
| efs_snoc ks k o o' : effects name ks o -> effect name k o o' -> effects name (ks ++ [k]) o'.

(** The names that a history of calls defines, in order. *)
Inductive call_names : list call -> list str -> Prop :=
| cn_nil : call_names [] []
| cn_read content ow ks ns ms : line_names (getlines content) ns -> call_names ks ms ->
    call_names (Read content ow :: ks) (ns ++ ms)
| cn_add k v ow ks ms : call_names ks ms -> call_names (Add k v ow :: ks) (lower k :: ms).
