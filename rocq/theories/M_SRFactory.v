(** SourceReceiverImpl::Factory::Create, ForwardSolver/SourceReceiverImpl/SourceReceiverImplFactory.cpp 3-46, and the
    class of SourceReceiver in the run function of every solver.  [None] is the null pointer of line 45. *)
From Coq Require Import Ascii String.
From Verif Require Import Base M_Prog M_Solvers M_Wave M_Acq M_Conf M_Factory.
Open Scope Z_scope.

(** The classes that put sources into the wavefields and read the receivers from them. *)
Inductive srclass := SR2Dacoustic | SR2Delastic | SR2Dsh | SR3Dacoustic | SR3Delastic | SR2Demem | SR2Dtmem | SR3Demem.

Definition create_sr (dimension type : str) : res (option srclass) :=
  let d := lower dimension in
  let t := lower type in
  _ <- assert (str_eqb d (txt "2d") || str_eqb d (txt "3d")) ;;
  _ <- assert (known_type t) ;;
  Ok (if str_eqb d (txt "2d") && str_eqb t (txt "acoustic") then Some SR2Dacoustic
      else if str_eqb d (txt "2d") && (str_eqb t (txt "elastic") || str_eqb t (txt "viscoelastic")) then Some SR2Delastic
      else if str_eqb d (txt "2d") && (str_eqb t (txt "sh") || str_eqb t (txt "viscosh")) then Some SR2Dsh
      else if str_eqb d (txt "3d") && str_eqb t (txt "acoustic") then Some SR3Dacoustic
      else if str_eqb d (txt "3d") && (str_eqb t (txt "elastic") || str_eqb t (txt "viscoelastic")) then Some SR3Delastic
      else if str_eqb d (txt "2d") && (str_eqb t (txt "emem") || str_eqb t (txt "viscoemem")) then Some SR2Demem
      else if str_eqb d (txt "2d") && (str_eqb t (txt "tmem") || str_eqb t (txt "viscotmem")) then Some SR2Dtmem
      else if str_eqb d (txt "3d") && (str_eqb t (txt "emem") || str_eqb t (txt "viscoemem")) then Some SR3Demem
      else None).

(** The declaration of SourceReceiver in run: ForwardSolver2Dacoustic.cpp 116, 2Delastic 154, 2Dviscoelastic 167,
    2Dsh 130, 2Dviscosh 154, 3Dacoustic 122, 3Delastic 172, 3Dviscoelastic 183; ForwardSolverEM: 2Dtmem 126, 2Demem 131,
    2Dviscotmem 150, 2Dviscoemem 163, 3Demem 149, 3Dviscoemem 195.  A solver is named here by the class of the
    wavefields it works on, which has the same name (table of C157). *)
Definition run_sr (s : wkind) : srclass :=
  match s with
  | W2Dacoustic => SR2Dacoustic
  | W2Delastic | W2Dviscoelastic => SR2Delastic
  | W2Dsh | W2Dviscosh => SR2Dsh
  | W3Dacoustic => SR3Dacoustic
  | W3Delastic | W3Dviscoelastic => SR3Delastic
  | W2Dtmem | W2Dviscotmem => SR2Dtmem
  | W2Demem | W2Dviscoemem => SR2Demem
  | W3Demem | W3Dviscoemem => SR3Demem
  end.
