(** Specification of the parameter checks (C48, C49, C59, C76-C78). *)
From Coq Require Import Reals Qreals Ascii String.
From Verif Require Import Base M_Grid M_Deriv S_Deriv M_Acq M_Conf S_Conf.
Open Scope Z_scope.

(** Sum of the absolute finite-difference coefficients of order [p] on one side of the staggered point (the
    stencil is antisymmetric). *)
Definition fd_h (p : Z) : R := Q2R (qsum (map Qabs (stencil p)) / 2).
(** Largest stable time step. *)
Definition cfl_limit (p D : Z) (DH vmax : R) : R := (DH / (fd_h p * sqrt (IZR D) * vmax))%R.
Definition is_order (p : Z) : Prop := In p [2; 4; 6; 8; 10; 12].
Definition has_dim (dimension : str) (D : Z) : Prop :=
  (dimension = txt "2D" /\ D = 2) \/ (dimension = txt "3D" /\ D = 3).

(** Grid point [i] lies in layer [k]. *)
Definition at_layer (g : grid) (i k : Z) : Prop :=
  exists c, index2coordinate g i = Ok c /\ getLayer g (cy c) = Ok k.

(** A coordinate that lies inside the model and is the position of a grid point. *)
Definition on_grid (g : grid) (c : coord) : Prop :=
  (0 <= cx c < gNX g /\ 0 <= cy c < gNY g /\ 0 <= cz c < gNZ g) /\
  exists i, 0 <= i < nGridpoints g /\ index2coordinate g i = Ok c.

(** The nine names. *)
Definition seismic_names : list str := map txt ["acoustic"; "elastic"; "viscoelastic"; "sh"; "viscosh"]%string.
Definition em_names : list str := map txt ["emem"; "tmem"; "viscoemem"; "viscotmem"]%string.

(** Which velocities are compared: the larger and the smaller ones of the configured equation type. *)
Definition compared (equationType : str) (vP vS vEM : res (Z -> R)) (vhi vlo : Z -> R) : Prop :=
  (In equationType [txt "elastic"; txt "viscoelastic"] /\ vP = Ok vhi /\ vS = Ok vlo) \/
  (equationType = txt "acoustic" /\ vP = Ok vhi /\ vP = Ok vlo) \/
  (In equationType [txt "sh"; txt "viscosh"] /\ vS = Ok vhi /\ vS = Ok vlo) \/
  (In equationType em_names /\ vEM = Ok vhi /\ vEM = Ok vlo).
Definition elastic_type (equationType : str) : Prop := In equationType [txt "elastic"; txt "viscoelastic"].
