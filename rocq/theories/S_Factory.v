(** Specification of the choice of the classes (C157). *)
From Coq Require Import Ascii String.
From Verif Require Import Base M_Prog M_Solvers M_Wave M_Model M_ModelEM M_Acq M_Conf S_Conf M_Factory.
Open Scope Z_scope.

(** The simulations that exist: name of the dimension, name of the equation, and the classes for it. *)
Definition table : list (string * string * objects) :=
  [ ("2D", "acoustic",     {| o_deriv := false; o_model := Seismic Acoustic;     o_wave := W2Dacoustic;     o_solver := FD2Dacoustic |});
    ("2D", "elastic",      {| o_deriv := false; o_model := Seismic Elastic;      o_wave := W2Delastic;      o_solver := FD2Delastic |});
    ("2D", "viscoelastic", {| o_deriv := false; o_model := Seismic Viscoelastic; o_wave := W2Dviscoelastic; o_solver := FD2Dviscoelastic |});
    ("2D", "sh",           {| o_deriv := false; o_model := Seismic SH;           o_wave := W2Dsh;           o_solver := FD2Dsh |});
    ("2D", "viscosh",      {| o_deriv := false; o_model := Seismic ViscoSH;      o_wave := W2Dviscosh;      o_solver := FD2Dviscosh |});
    ("2D", "emem",      {| o_deriv := false; o_model := Electromagnetic EMEM;      o_wave := W2Demem;      o_solver := FD2Demem |});
    ("2D", "tmem",      {| o_deriv := false; o_model := Electromagnetic TMEM;      o_wave := W2Dtmem;      o_solver := FD2Dtmem |});
    ("2D", "viscoemem", {| o_deriv := false; o_model := Electromagnetic ViscoEMEM; o_wave := W2Dviscoemem; o_solver := FD2Dviscoemem |});
    ("2D", "viscotmem", {| o_deriv := false; o_model := Electromagnetic ViscoTMEM; o_wave := W2Dviscotmem; o_solver := FD2Dviscotmem |});
    ("3D", "acoustic",     {| o_deriv := true; o_model := Seismic Acoustic;     o_wave := W3Dacoustic;     o_solver := FD3Dacoustic |});
    ("3D", "elastic",      {| o_deriv := true; o_model := Seismic Elastic;      o_wave := W3Delastic;      o_solver := FD3Delastic |});
    ("3D", "viscoelastic", {| o_deriv := true; o_model := Seismic Viscoelastic; o_wave := W3Dviscoelastic; o_solver := FD3Dviscoelastic |});
    ("3D", "emem",      {| o_deriv := true; o_model := Electromagnetic EMEM;      o_wave := W3Demem;      o_solver := FD3Demem |});
    ("3D", "viscoemem", {| o_deriv := true; o_model := Electromagnetic ViscoEMEM; o_wave := W3Dviscoemem; o_solver := FD3Dviscoemem |}) ]%string.

(** The texts of the configuration name an entry, in any letter case. *)
Definition names (dimension type : str) (d t : string) : Prop :=
  same_name dimension (txt d) /\ same_name type (txt t).
(** Equations that are known but exist in two dimensions only. *)
Definition only2D : list string := ["sh"; "viscosh"; "tmem"; "viscotmem"]%string.
