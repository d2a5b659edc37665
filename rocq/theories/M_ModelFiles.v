(** Model of the model files: IO::writeVector and IO::readVector (src/IO/IO.hpp), the member functions init(ctx, dist, filename,
    fileFormat) and write of the nine parameter classes, and the program src/Tools/CreateModel/TwoLayer.cpp.
    Simplifications: one process; a file is the vector stored in it; writing replaces the file; LAMA throws when a file that is to
    be read does not exist or holds a vector of another size.  [rnd] is what storing a number in a file of the given format does to
    it (format 1 is text, format 2 stores float, IO.hpp 28, 35).  The messages printed are left out. *)
From Coq Require Import Ascii String Reals.
From Verif Require Import Base M_Acq M_Conf M_Model M_ModelEM M_Factory.
Open Scope Z_scope.
Local Notation length := List.length.
Local Notation lower := M_Conf.lower.

Definition fsys (V : Type) := str -> option (list V).

(** The ending chosen by the switch on fileFormat, IO.hpp 25-47 (writing) and 63-78 (reading). *)
Definition ending (fileFormat : Z) : res str :=
  if fileFormat =? 1 then Ok (txt ".mtx")
  else if fileFormat =? 2 then Ok (txt ".lmf")
  else if fileFormat =? 3 then Ok (txt ".frv")
  else Throw.

(** IO::writeVector, IO.hpp 20-49. *)
Definition writeVector {V} (rnd : Z -> V -> V) (fs : fsys V) (v : list V) (filename : str) (fileFormat : Z) : res (fsys V) :=
  e <- ending fileFormat ;;
  Ok (fun name => if str_eqb name (filename ++ e) then Some (map (rnd fileFormat) v) else fs name).

(** IO::readVector, IO.hpp 58-90; [n] is the size of the vector before reading. *)
Definition readVector {V} (fs : fsys V) (n : nat) (filename : str) (fileFormat : Z) : res (list V) :=
  e <- ending fileFormat ;;
  match fs (filename ++ e) with
  | None => Throw
  | Some v => _ <- assert (Nat.eqb (length v) n) ;; Ok v
  end.

(** The vectors of the parameter classes that are stored in files.  For the electromagnetic classes these are the numbers as they
    stand in the files, i.e. the relative and effective quantities that init converts after reading (EMEM.cpp 286-287, ViscoEMEM.cpp
    297-305) and that write computes before writing (EMEM.cpp 314-318, ViscoEMEM.cpp 338-346); the conversions are [efromFiles] and
    [ewrite] of M_ModelEM.v. *)
Inductive fld := VP | VS | RHO | TAUP | TAUS | MUR | SIGMA | EPSR | TSR | TEPS | POR | SAT | REFL.
Definition fld_eqb (a b : fld) : bool :=
  match a, b with
  | VP, VP | VS, VS | RHO, RHO | TAUP, TAUP | TAUS, TAUS | MUR, MUR | SIGMA, SIGMA | EPSR, EPSR | TSR, TSR | TEPS, TEPS
  | POR, POR | SAT, SAT | REFL, REFL => true
  | _, _ => false
  end.
(** A parameter object: its vectors and the four settings the functions look at. *)
Record pobj (V : Type) := mkO { vecs : fld -> list V; inversionType : Z; parameterisation : Z; gradientKernel : Z; decomposition : Z }.
Arguments mkO {V}. Arguments vecs {V}. Arguments inversionType {V}. Arguments parameterisation {V}.
Arguments gradientKernel {V}. Arguments decomposition {V}.
Definition setv {V} (o : pobj V) (f : fld) (v : list V) : pobj V :=
  mkO (fun g => if fld_eqb g f then v else vecs o g) (inversionType o) (parameterisation o) (gradientKernel o) (decomposition o).

(** [this->getInversionType() == 3 || this->getParameterisation() == 1 || this->getParameterisation() == 2], e.g. Acoustic.cpp 263. *)
Definition petroFiles {V} (o : pobj V) : bool := (inversionType o =? 3) || (parameterisation o =? 1) || (parameterisation o =? 2).
(** [this->getGradientKernel() != 0 && this->getDecomposition() == 0], e.g. Acoustic.cpp 270. *)
Definition reflFile {V} (o : pobj V) : bool := negb (gradientKernel o =? 0) && (decomposition o =? 0).

(** The vectors read unconditionally, in the order of the code: Acoustic.cpp 261-262, SH.cpp 220-221, Elastic.cpp 286-288,
    ViscoSH.cpp 238-240, Viscoelastic.cpp 273-277, EMEM.cpp 270-272, TMEM.cpp 270-272, ViscoEMEM.cpp 280-284, ViscoTMEM.cpp 325-329. *)
Definition initList (c : mclass) : list (fld * str) :=
  match c with
  | Seismic Acoustic => [(VP, txt ".vp"); (RHO, txt ".density")]
  | Seismic SH => [(VS, txt ".vs"); (RHO, txt ".density")]
  | Seismic Elastic => [(VP, txt ".vp"); (VS, txt ".vs"); (RHO, txt ".density")]
  | Seismic ViscoSH => [(VS, txt ".vs"); (RHO, txt ".density"); (TAUS, txt ".tauS")]
  | Seismic Viscoelastic => [(VS, txt ".vs"); (VP, txt ".vp"); (RHO, txt ".density"); (TAUS, txt ".tauS"); (TAUP, txt ".tauP")]
  | Electromagnetic EMEM | Electromagnetic TMEM => [(MUR, txt ".mur"); (SIGMA, txt ".sigma"); (EPSR, txt ".epsilonr")]
  | Electromagnetic ViscoEMEM | Electromagnetic ViscoTMEM =>
      [(MUR, txt ".mur"); (SIGMA, txt ".sigma"); (EPSR, txt ".epsilonr"); (TSR, txt ".tauSigmar"); (TEPS, txt ".tauEpsilon")]
  end.
(** The vectors written unconditionally: Acoustic.cpp 302-303, SH.cpp 260-261, Elastic.cpp 331-333, ViscoSH.cpp 285-287,
    Viscoelastic.cpp 326-330, EMEM.cpp 320-322, TMEM.cpp 320-322, ViscoEMEM.cpp 348-352, ViscoTMEM.cpp 394-398. *)
Definition writeList (c : mclass) : list (fld * str) :=
  match c with
  | Seismic Acoustic => [(RHO, txt ".density"); (VP, txt ".vp")]
  | Seismic SH => [(RHO, txt ".density"); (VS, txt ".vs")]
  | Seismic Elastic => [(RHO, txt ".density"); (VP, txt ".vp"); (VS, txt ".vs")]
  | Seismic ViscoSH => [(RHO, txt ".density"); (VS, txt ".vs"); (TAUS, txt ".tauS")]
  | Seismic Viscoelastic => [(RHO, txt ".density"); (VP, txt ".vp"); (VS, txt ".vs"); (TAUP, txt ".tauP"); (TAUS, txt ".tauS")]
  | Electromagnetic EMEM | Electromagnetic TMEM => [(MUR, txt ".mur"); (SIGMA, txt ".sigma"); (EPSR, txt ".epsilonr")]
  | Electromagnetic ViscoEMEM | Electromagnetic ViscoTMEM =>
      [(MUR, txt ".mur"); (SIGMA, txt ".sigma"); (EPSR, txt ".epsilonr"); (TSR, txt ".tauSigmar"); (TEPS, txt ".tauEpsilon")]
  end.

(** A sequence of calls of initModelparameter(vector, ctx, dist, filename + suffix, fileFormat), Modelparameter.cpp 256-262; [n] is
    the size of the distribution. *)
Fixpoint readAll {V} (fs : fsys V) (n : nat) (filename : str) (fileFormat : Z) (l : list (fld * str)) (o : pobj V) : res (pobj V) :=
  match l with
  | [] => Ok o
  | (f, s) :: l => v <- readVector fs n (filename ++ s) fileFormat ;; readAll fs n filename fileFormat l (setv o f v)
  end.
(** A sequence of calls of IO::writeVector(vector, filename + suffix, fileFormat). *)
Fixpoint writeAll {V} (rnd : Z -> V -> V) (fs : fsys V) (filename : str) (fileFormat : Z) (l : list (fld * str)) (o : pobj V)
  : res (fsys V) :=
  match l with
  | [] => Ok fs
  | (f, s) :: l => fs <- writeVector rnd fs (vecs o f) (filename ++ s) fileFormat ;; writeAll rnd fs filename fileFormat l o
  end.

(** init(ctx, dist, filename, fileFormat): Acoustic.cpp 259-275, SH.cpp 218-234, Elastic.cpp 284-301, ViscoSH.cpp 236-253,
    Viscoelastic.cpp 271-290, EMEM.cpp 268-284, TMEM.cpp 268-284, ViscoEMEM.cpp 275-295, ViscoTMEM.cpp 320-340; [zero] is 0.0. *)
Definition initFromFiles {V} (zero : V) (c : mclass) (fs : fsys V) (n : nat) (filename : str) (fileFormat : Z) (o : pobj V)
  : res (pobj V) :=
  o <- readAll fs n filename fileFormat (initList c) o ;;
  o <- (if petroFiles o then readAll fs n filename fileFormat [(POR, txt ".porosity"); (SAT, txt ".saturation")] o
        else Ok (setv (setv o POR (repeat zero n)) SAT (repeat zero n))) ;;
  if reflFile o then readAll fs n filename fileFormat [(REFL, txt ".reflectivity")] o
  else Ok (setv o REFL (repeat zero n)).

(** write(filename, fileFormat): Acoustic.cpp 300-311, SH.cpp 258-269, Elastic.cpp 329-341, ViscoSH.cpp 283-295, Viscoelastic.cpp
    324-338, EMEM.cpp 312-330, TMEM.cpp 312-330, ViscoEMEM.cpp 336-360, ViscoTMEM.cpp 382-406. *)
Definition writeFiles {V} (rnd : Z -> V -> V) (c : mclass) (fs : fsys V) (filename : str) (fileFormat : Z) (o : pobj V)
  : res (fsys V) :=
  fs <- writeAll rnd fs filename fileFormat (writeList c) o ;;
  fs <- (if petroFiles o then writeAll rnd fs filename fileFormat [(POR, txt ".porosity"); (SAT, txt ".saturation")] o else Ok fs) ;;
  if reflFile o then writeAll rnd fs filename fileFormat [(REFL, txt ".reflectivity")] o else Ok fs.

(** ** TwoLayer.cpp *)
(** [v(y, lama::Range(), lama::Range()) = val] on a vector of the grid (NY, NZ, NX), which is stored row by row with the last
    dimension running fastest (library). *)
Definition setPlane {V} (NZ NX y : Z) (x : V) (v : list V) : list V :=
  let m := Z.to_nat (NZ * NX) in
  firstn (Z.to_nat y * m) v ++ repeat x m ++ skipn (Z.to_nat (y + 1) * m) v.
(** TwoLayer.cpp 44-52 (construction of the vector) and 55-62 (the loop), for one vector with the values [a] and [b]. *)
Definition layers {V} (NX NY NZ depth : Z) (a b : V) : list V :=
  fold_left (fun v y => setPlane NZ NX y b v) (zseq depth (Z.to_nat (NY - depth))) (repeat a (Z.to_nat (NY * NZ * NX))).
(** main of TwoLayer.cpp, 22-89, after the configuration has been read: [type] is equationType, used without changing its case. *)
Definition twoLayer (rnd : Z -> R -> R) (fs : fsys R) (NX NY NZ : Z) (type filename : str) (fileFormat : Z) : res (fsys R) :=
  let depth := 40 in
  let vp := layers NX NY NZ depth 3500%R 4550%R in
  let vs := layers NX NY NZ depth 2000%R 2600%R in
  let rho := layers NX NY NZ depth 2000%R 2600%R in
  let tauP := layers NX NY NZ depth (1 / 10)%R (1 / 10)%R in
  let tauS := layers NX NY NZ depth (1 / 10)%R (1 / 10)%R in
  fs <- writeVector rnd fs rho (filename ++ txt ".density") fileFormat ;;
  fs <- (if negb (str_eqb type (txt "sh")) then writeVector rnd fs vp (filename ++ txt ".vp") fileFormat else Ok fs) ;;
  fs <- (if negb (str_eqb type (txt "acoustic")) then writeVector rnd fs vs (filename ++ txt ".vs") fileFormat else Ok fs) ;;
  if str_eqb type (txt "viscoelastic") then
    fs <- writeVector rnd fs tauP (filename ++ txt ".tauP") fileFormat ;;
    writeVector rnd fs tauS (filename ++ txt ".tauS") fileFormat
  else Ok fs.
