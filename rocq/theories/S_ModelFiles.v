(** Specification for the model files: which quantities a class of model parameters has, and in which file each is stored. *)
From Coq Require Import Ascii String.
From Verif Require Import Base M_Acq M_Model M_ModelEM M_Factory M_ModelFiles.
Open Scope Z_scope.

(** Waves in the medium: P waves, S waves, attenuation of seismic waves; electromagnetic waves, relaxation. *)
Definition compressional (c : mclass) := c = Seismic Acoustic \/ c = Seismic Elastic \/ c = Seismic Viscoelastic.
Definition shear (c : mclass) := exists k, c = Seismic k /\ k <> Acoustic.
Definition attenuating (c : mclass) := c = Seismic Viscoelastic \/ c = Seismic ViscoSH.
Definition electromagnetic (c : mclass) := exists k, c = Electromagnetic k.
Definition relaxing (c : mclass) := c = Electromagnetic ViscoEMEM \/ c = Electromagnetic ViscoTMEM.

Definition quantity (f : fld) : string :=
  match f with
  | VP => "vp" | VS => "vs" | RHO => "density" | TAUP => "tauP" | TAUS => "tauS" | MUR => "mur" | SIGMA => "sigma"
  | EPSR => "epsilonr" | TSR => "tauSigmar" | TEPS => "tauEpsilon" | POR => "porosity" | SAT => "saturation" | REFL => "reflectivity"
  end%string.
Inductive format := Text | Lama | Raw.
Definition code (t : format) : Z := match t with Text => 1 | Lama => 2 | Raw => 3 end.
Definition extension (t : format) : string := match t with Text => "mtx" | Lama => "lmf" | Raw => "frv" end%string.
(** base.quantity.extension *)
Definition file (base : str) (f : fld) (t : format) : str :=
  base ++ list_ascii_of_string ("." ++ quantity f ++ "." ++ extension t)%string.

(** When the optional quantities are used. *)
Definition usesPetro {V} (o : pobj V) : Prop := inversionType o = 3 \/ parameterisation o = 1 \/ parameterisation o = 2.
Definition usesRefl {V} (o : pobj V) : Prop := gradientKernel o <> 0 /\ decomposition o = 0.
Definition optional (f : fld) : Prop := f = POR \/ f = SAT \/ f = REFL.
(** The quantities of object [o] of class [c] that live in files. *)
Definition kept {V} (c : mclass) (o : pobj V) (f : fld) : Prop :=
  match f with
  | VP => compressional c
  | VS => shear c
  | RHO => exists k, c = Seismic k
  | TAUP => attenuating c /\ compressional c
  | TAUS => attenuating c
  | MUR | SIGMA | EPSR => electromagnetic c
  | TSR | TEPS => relaxing c
  | POR | SAT => usesPetro o
  | REFL => usesRefl o
  end.
(** The settings of two objects agree. *)
Definition same_settings {V} (o o' : pobj V) : Prop :=
  inversionType o = inversionType o' /\ parameterisation o = parameterisation o' /\
  gradientKernel o = gradientKernel o' /\ decomposition o = decomposition o'.
