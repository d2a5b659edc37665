(** Model of the factories and of the first part of main.
    Pointers are options: [None] is the null pointer that a factory returns at its end. *)
From Coq Require Import Ascii String.
From Verif Require Import Base M_Prog M_Solvers M_Wave M_Model M_ModelEM M_Acq M_Conf.
Open Scope Z_scope.

(** The names accepted by the assertions of the factories, ForwardSolverFactory.cpp 12, ModelparameterFactory.cpp 11,
    WavefieldsFactory.cpp 15. *)
Definition known_type (t : str) : bool :=
  str_eqb t (txt "acoustic") || str_eqb t (txt "elastic") || str_eqb t (txt "viscoelastic") || str_eqb t (txt "sh")
  || str_eqb t (txt "viscosh") || str_eqb t (txt "emem") || str_eqb t (txt "tmem") || str_eqb t (txt "viscoemem")
  || str_eqb t (txt "viscotmem").

(** ForwardSolver::Derivatives::Factory::Create, DerivativesFactory.cpp 12-29; the result tells whether the class is
    FDTD3D (otherwise FDTD2D). *)
Definition create_deriv (dimension : str) : res (option bool) :=
  let d := lower dimension in
  _ <- assert (str_eqb d (txt "3d") || str_eqb d (txt "2d")) ;;
  if str_eqb d (txt "2d") then Ok (Some false)
  else if str_eqb d (txt "3d") then Ok (Some true)
  else Throw.

(** Modelparameter::Factory::Create, ModelparameterFactory.cpp 4-43. *)
Inductive mclass := Seismic (k : kind) | Electromagnetic (k : emkind).
Definition create_model (type : str) : res (option mclass) :=
  let t := lower type in
  _ <- assert (known_type t) ;;
  Ok (if str_eqb t (txt "acoustic") then Some (Seismic Acoustic)
      else if str_eqb t (txt "elastic") then Some (Seismic Elastic)
      else if str_eqb t (txt "viscoelastic") then Some (Seismic Viscoelastic)
      else if str_eqb t (txt "sh") then Some (Seismic SH)
      else if str_eqb t (txt "viscosh") then Some (Seismic ViscoSH)
      else if str_eqb t (txt "tmem") then Some (Electromagnetic TMEM)
      else if str_eqb t (txt "emem") then Some (Electromagnetic EMEM)
      else if str_eqb t (txt "viscotmem") then Some (Electromagnetic ViscoTMEM)
      else if str_eqb t (txt "viscoemem") then Some (Electromagnetic ViscoEMEM)
      else None).

(** Wavefields::Factory::Create, WavefieldsFactory.cpp 6-69. *)
Definition create_wave (dimension type : str) : res (option wkind) :=
  let t := lower type in
  let d := lower dimension in
  _ <- assert (str_eqb d (txt "2d") || str_eqb d (txt "3d")) ;;
  _ <- assert (known_type t) ;;
  Ok (if str_eqb d (txt "2d") && str_eqb t (txt "acoustic") then Some W2Dacoustic
      else if str_eqb d (txt "2d") && str_eqb t (txt "elastic") then Some W2Delastic
      else if str_eqb d (txt "2d") && str_eqb t (txt "viscoelastic") then Some W2Dviscoelastic
      else if str_eqb d (txt "2d") && str_eqb t (txt "sh") then Some W2Dsh
      else if str_eqb d (txt "2d") && str_eqb t (txt "viscosh") then Some W2Dviscosh
      else if str_eqb d (txt "3d") && str_eqb t (txt "acoustic") then Some W3Dacoustic
      else if str_eqb d (txt "3d") && str_eqb t (txt "elastic") then Some W3Delastic
      else if str_eqb d (txt "3d") && str_eqb t (txt "viscoelastic") then Some W3Dviscoelastic
      else if str_eqb d (txt "2d") && str_eqb t (txt "tmem") then Some W2Dtmem
      else if str_eqb d (txt "2d") && str_eqb t (txt "emem") then Some W2Demem
      else if str_eqb d (txt "2d") && str_eqb t (txt "viscotmem") then Some W2Dviscotmem
      else if str_eqb d (txt "2d") && str_eqb t (txt "viscoemem") then Some W2Dviscoemem
      else if str_eqb d (txt "3d") && str_eqb t (txt "emem") then Some W3Demem
      else if str_eqb d (txt "3d") && str_eqb t (txt "viscoemem") then Some W3Dviscoemem
      else None).

(** ForwardSolver::Factory::Create, ForwardSolverFactory.cpp 4-66. *)
Definition create_solver (dimension type : str) : res (option solver) :=
  let d := lower dimension in
  let t := lower type in
  _ <- assert (str_eqb d (txt "2d") || str_eqb d (txt "3d")) ;;
  _ <- assert (known_type t) ;;
  Ok (if str_eqb d (txt "2d") && str_eqb t (txt "acoustic") then Some FD2Dacoustic
      else if str_eqb d (txt "2d") && str_eqb t (txt "elastic") then Some FD2Delastic
      else if str_eqb d (txt "2d") && str_eqb t (txt "viscoelastic") then Some FD2Dviscoelastic
      else if str_eqb d (txt "2d") && str_eqb t (txt "sh") then Some FD2Dsh
      else if str_eqb d (txt "2d") && str_eqb t (txt "viscosh") then Some FD2Dviscosh
      else if str_eqb d (txt "3d") && str_eqb t (txt "acoustic") then Some FD3Dacoustic
      else if str_eqb d (txt "3d") && str_eqb t (txt "elastic") then Some FD3Delastic
      else if str_eqb d (txt "3d") && str_eqb t (txt "viscoelastic") then Some FD3Dviscoelastic
      else if str_eqb d (txt "2d") && str_eqb t (txt "tmem") then Some FD2Dtmem
      else if str_eqb d (txt "2d") && str_eqb t (txt "emem") then Some FD2Demem
      else if str_eqb d (txt "2d") && str_eqb t (txt "viscotmem") then Some FD2Dviscotmem
      else if str_eqb d (txt "2d") && str_eqb t (txt "viscoemem") then Some FD2Dviscoemem
      else if str_eqb d (txt "3d") && str_eqb t (txt "emem") then Some FD3Demem
      else if str_eqb d (txt "3d") && str_eqb t (txt "viscoemem") then Some FD3Dviscoemem
      else None).

(** Call of a member function through a pointer. *)
Definition deref {A} (p : option A) : res A := match p with Some a => Ok a | None => UB end.

(** Simulation.cpp 158-177: the factories and the first use of every object (estimateMemory of the derivatives, the
    wavefields, the model and the solver, in this order).  The memory estimates themselves are not modelled here. *)
Record objects := { o_deriv : bool; o_model : mclass; o_wave : wkind; o_solver : solver }.
Definition startup (dimension equationType : str) : res objects :=
  derivatives <- create_deriv dimension ;;
  model <- create_model equationType ;;
  wavefields <- create_wave dimension equationType ;;
  solver <- create_solver dimension equationType ;;
  d <- deref derivatives ;;
  w <- deref wavefields ;;
  m <- deref model ;;
  s <- deref solver ;;
  Ok {| o_deriv := d; o_model := m; o_wave := w; o_solver := s |}.
