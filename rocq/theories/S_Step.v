(** The discretised equations of motion, written independently of the programs: staggered grid, stretched coordinates
    (CPML), isotropic elastic law, standard linear solids, Maxwell's equations. *)
From Coq Require Import Reals.
From Verif Require Import M_Prog S_Solver.
Open Scope R_scope.
Open Scope list_scope.

Inductive axis : Type := AX | AY | AZ.
Definition axis_eqb (a b : axis) : bool :=
  match a, b with AX, AX | AY, AY | AZ, AZ => true | _, _ => false end.
Definition has (l : list axis) (a : axis) : bool := existsb (axis_eqb a) l.
Definition low (a : axis) : string := match a with AX => "x" | AY => "y" | AZ => "z" end.
Definition up (a : axis) : string := match a with AX => "X" | AY => "Y" | AZ => "Z" end.
(** Unordered pair of axes, in alphabetical order. *)
Definition low2 (a b : axis) : string :=
  match a, b with
  | AY, AX => "xy" | AZ, AX => "xz" | AZ, AY => "yz" | _, _ => low a ++ low b end.
Definition up2 (a b : axis) : string :=
  match a, b with
  | AY, AX => "XY" | AZ, AX => "XZ" | AZ, AY => "YZ" | _, _ => up a ++ up b end.

(** ** Derivatives
    A field value that lies half a cell further along axis d ([half]) is differentiated along d with the backward
    matrix, which gives a value at the full point; a value at the full point with the forward matrix, which gives one at
    the half point.  Inside the PML the derivative D f is replaced by D f + psi, where the memory psi is first updated to
    b psi + a D f; a and b belong to the point where the derivative is.  [dm] is the suffix of the matrix (free
    surface). *)
Section derivatives.
Variables (e : env R_arith) (c : cfg).
Definition dmat (dm : string) (d : axis) (half : bool) : nm := nm_s ("D" ++ low d ++ (if half then "b" else "f") ++ dm).
Definition pml_coef (ab : string) (d : axis) (half : bool) : nm := nm_s (ab ++ "_" ++ low d ++ (if half then "" else "_half")).
Definition Dmv (dm : string) (d : axis) (half : bool) (f : Z -> R) (i : Z) : R := mv (A := R_arith) (e_mat e (dmat dm d half) i) f.
Definition memory (dm : string) (d : axis) (half : bool) (psi f : Z -> R) (i : Z) : R :=
  e_coef e (pml_coef "b" d half) i * psi i + e_coef e (pml_coef "a" d half) i * Dmv dm d half f i.
Definition deriv (dm : string) (d : axis) (half : bool) (psi f : Z -> R) (i : Z) : R :=
  if c_pml c then Dmv dm d half f i + memory dm d half psi f i else Dmv dm d half f i.
(** The damping frame multiplies the new fields. *)
Definition damped (x : R) (i : Z) : R := if c_damp c then x * e_coef e "damping"%string i else x.
End derivatives.

Definition sum_axes (l : list axis) (f : axis -> R) : R := Rsum (map f l).

(** ** Elastic and viscoelastic waves
    [axes]: the directions in which fields vary; [comps]: the directions of motion.  [P], [M]: unrelaxed moduli (M a b at
    the points of the stress component a b).  [L] relaxation mechanisms with relaxation times [tau] and moduli [dP],
    [dM].  [surface]: the points of the free surface if it is simulated by the image method. *)
Section elastic.
Variables (e : env R_arith) (c : cfg) (st : state R_arith) (axes comps : list axis) (surface : Z -> bool).
Definition vel (a : axis) : nm := nm_s ("v" ++ up a).
Definition sig (a b : axis) : nm := nm_s ("S" ++ low2 a b).
Definition rel (a b : axis) (l : nat) : nm := N ("R" ++ low2 a b) l.
(** velocities lie at half points along their own axis, shear stresses along both axes *)
Definition vel_half (a d : axis) : bool := axis_eqb a d.
Definition sig_half (a b d : axis) : bool := negb (axis_eqb a b) && (axis_eqb a d || axis_eqb b d).
(** PML memory of the derivative along d of the stress a d, and of the velocity a *)
Definition psi_sig (a d : axis) : nm := nm_s ("psi_s" ++ low2 a d ++ "_" ++ low d).
Definition psi_vel (a d : axis) : nm := nm_s ("psi_v" ++ low a ++ low d).
Definition buoyancy (a : axis) : nm := nm_s ("inverseDensity" ++ (if has axes a then "Average" ++ up a else "")).
(** vertical derivatives of stresses use the free surface matrices if the image method is on *)
Definition surf (d : axis) : string := if (axis_eqb d AY && (c_fs c =? 1)%Z)%bool then "FreeSurface" else "".

(** d v_a / dt = 1/rho * sum_d d sigma_ad / d x_d *)
Definition new_vel (a : axis) (i : Z) : R :=
  st (vel a) i + e_coef e (buoyancy a) i *
    sum_axes axes (fun d => deriv e c (surf d) d (sig_half a d d) (st (psi_sig a d)) (st (sig a d)) i).
(** velocity gradient d v_a / d x_d *)
Definition grad (a d : axis) (i : Z) : R :=
  if has axes d && has comps a then deriv e c "" d (vel_half a d) (st (psi_vel a d)) (new_vel a) i else 0.

Section law.
Variables (P : Z -> R) (M : axis -> axis -> Z -> R).
(** At the free surface the vertical gradient d v_y / d y is the one for which the normal stress does not change:
    (P - 2 M) (d v_x / d x + d v_z / d z) + P d v_y / d y = 0. *)
Definition grad_s (a d : axis) (i : Z) : R :=
  if surface i && axis_eqb a AY && axis_eqb d AY
  then - ((P i - 2 * M AY AY i) / P i) * sum_axes (filter (fun d => negb (axis_eqb d AY)) axes) (fun d => grad d d i)
  else grad a d i.
(** lambda * div * delta_ab + 2 mu strain_ab with lambda = p - 2 mu *)
Definition hooke (p : Z -> R) (mu : axis -> axis -> Z -> R) (a b : axis) (i : Z) : R :=
  (if axis_eqb a b then (p i - 2 * mu a b i) * sum_axes axes (fun d => grad_s d d i) else 0) +
  mu a b i * (grad_s a b i + grad_s b a i).

Variables (L : nat) (tau : nat -> R) (DT : R) (dP : Z -> R) (dM : axis -> axis -> Z -> R).
(** the stress components that occur: one index is an axis, the other a direction of motion *)
Definition stress (a b : axis) : Prop := has axes a && has comps b || has axes b && has comps a = true.
Definition normal_at_surface (a b : axis) (i : Z) : bool := surface i && axis_eqb a AY && axis_eqb b AY.

Definition elastic_step (st' : state R_arith) : Prop :=
  (* balance of momentum *)
  (forall a i, has comps a = true -> st' (vel a) i = damped e c (new_vel a i) i) /\
  (* stress rate: unrelaxed elastic law plus the mean of the old and new relaxation variables *)
  (forall a b i, stress a b -> st' (sig a b) i =
     if normal_at_surface a b i then 0
     else damped e c (st (sig a b) i + hooke P M a b i +
            DT / 2 * Rsum (map (fun l => st (rel a b l) i + st' (rel a b l) i) (seq 0 L))) i) /\
  (* relaxation: tau dR/dt = - R - elastic law with the relaxation moduli, mean of old and new R on the right *)
  (forall a b i l, stress a b -> (l < L)%nat ->
     if normal_at_surface a b i then st' (rel a b l) i = 0
     else tau l * (st' (rel a b l) i - st (rel a b l) i) =
            - DT * (st' (rel a b l) i + st (rel a b l) i) / 2 - hooke dP dM a b i) /\
  (* the PML memories *)
  (c_pml c = true -> forall a d i, has comps a = true -> has axes d = true ->
     st' (psi_sig a d) i = memory e (surf d) d (sig_half a d d) (st (psi_sig a d)) (st (sig a d)) i /\
     st' (psi_vel a d) i = memory e "" d (vel_half a d) (st (psi_vel a d)) (new_vel a) i).
End law.
End elastic.

(** The moduli read by the programs. *)
Definition pmod (e : env R_arith) : Z -> R := e_coef e "pWaveModulus"%string.
Definition smod (e : env R_arith) (a b : axis) : Z -> R :=
  e_coef e (nm_s ("sWaveModulus" ++ (if axis_eqb a b then "" else "Average" ++ up2 a b))).
Definition taus (e : env R_arith) (a b : axis) : Z -> R :=
  e_coef e (nm_s ("tauS" ++ (if axis_eqb a b then "" else "Average" ++ up2 a b))).

(** Viscoelastic media with L mechanisms: unrelaxed moduli and relaxation moduli.  For shear stresses the programs scale
    the averaged modulus by 1 + L tauS of the full point, and use the averaged tauS in the relaxation moduli. *)
Definition unrelaxedP (e : env R_arith) (L : nat) (i : Z) : R := pmod e i * (1 + INR L * e_coef e "tauP"%string i).
Definition unrelaxedM (e : env R_arith) (L : nat) (a b : axis) (i : Z) : R := smod e a b i * (1 + INR L * e_coef e "tauS"%string i).
Definition relaxP (e : env R_arith) (i : Z) : R := pmod e i * e_coef e "tauP"%string i.
Definition relaxM (e : env R_arith) (a b : axis) (i : Z) : R := smod e a b i * taus e a b i.

(** ** Acoustic waves
    rho dv_a/dt = dp/dx_a, dp/dt = pi sum_a dv_a/dx_a (p is minus the pressure); p = 0 at the free surface. *)
Section acoustic.
Variables (e : env R_arith) (c : cfg) (st : state R_arith) (axes : list axis) (surface : Z -> bool).
Definition pressure : nm := nm_s "p".
Definition psi_p (d : axis) : nm := nm_s ("psi_p_" ++ low d).
Definition new_vel_ac (a : axis) (i : Z) : R :=
  st (vel a) i + e_coef e (nm_s ("inverseDensityAverage" ++ up a)) i * deriv e c (surf c a) a false (st (psi_p a)) (st pressure) i.
Definition acoustic_step (st' : state R_arith) : Prop :=
  (forall a i, has axes a = true -> st' (vel a) i = damped e c (new_vel_ac a i) i) /\
  (forall i, st' pressure i =
     if surface i then 0
     else damped e c (st pressure i + pmod e i * sum_axes axes (fun a => deriv e c "" a true (st (psi_vel a a)) (new_vel_ac a) i)) i) /\
  (c_pml c = true -> forall a i, has axes a = true ->
     st' (psi_p a) i = memory e (surf c a) a false (st (psi_p a)) (st pressure) i /\
     st' (psi_vel a a) i = memory e "" a true (st (psi_vel a a)) (new_vel_ac a) i).
End acoustic.

(** ** Electromagnetic waves
    mu dH/dt = - curl E, eps dE/dt + sigma E = curl H - sum_l r_l, tau_l dr_l/dt + r_l = - g_l E (Debye relaxation).
    [axes]: the directions in which fields vary; [es], [hs]: the components of E and H that occur.  E_a lies at half points
    along a, H_a along the other axes. *)
Section maxwell.
Variables (e : env R_arith) (c : cfg) (st : state R_arith) (axes es hs : list axis).
Definition next (a : axis) : axis := match a with AX => AY | AY => AZ | AZ => AX end.
Definition efield (a : axis) : nm := nm_s ("e" ++ up a).
Definition hfield (a : axis) : nm := nm_s ("h" ++ up a).
Definition rfield (a : axis) (l : nat) : nm := N ("r" ++ up a) l.
Definition psi_e (a d : axis) : nm := nm_s ("psi_e" ++ low a ++ low d).
Definition psi_h (a d : axis) : nm := nm_s ("psi_h" ++ low a ++ low d).
Definition inv_mu (a : axis) : nm := nm_s ("inverseMagneticPermeabilityAverage" ++ up2 (next a) (next (next a))).
Definition grad_e (a d : axis) (i : Z) : R :=
  if has es a && has axes d then deriv e c "" d false (st (psi_e a d)) (st (efield a)) i else 0.
Definition curl (g : axis -> axis -> Z -> R) (a : axis) (i : Z) : R :=
  g (next (next a)) (next a) i - g (next a) (next (next a)) i.
Definition new_h (a : axis) (i : Z) : R := st (hfield a) i - e_coef e (inv_mu a) i * curl grad_e a i.
Definition grad_h (a d : axis) (i : Z) : R :=
  if has hs a && has axes d then deriv e c "" d true (st (psi_h a d)) (new_h a) i else 0.

Variables (eps sigma : axis -> Z -> R) (L : nat) (tau : nat -> R) (g : axis -> nat -> Z -> R) (DT : R).
Definition maxwell_step (st' : state R_arith) : Prop :=
  (forall a i, has hs a = true -> st' (hfield a) i = damped e c (new_h a i) i) /\
  (forall a i l, has es a = true -> (l < L)%nat ->
     tau l * (st' (rfield a l) i - st (rfield a l) i) =
       - DT * (st' (rfield a l) i + st (rfield a l) i) / 2 - DT * (g a l i * st (efield a) i)) /\
  (forall a i, has es a = true -> exists x, st' (efield a) i = damped e c x i /\
     eps a i * (x - st (efield a) i) + DT * sigma a i * (x + st (efield a) i) / 2 =
       curl grad_h a i - DT * Rsum (map (fun l => st' (rfield a l) i) (seq 0 L))) /\
  (c_pml c = true -> forall a d i, axis_eqb a d = false -> has axes d = true ->
     (has es a = true -> st' (psi_e a d) i = memory e "" d false (st (psi_e a d)) (st (efield a)) i) /\
     (has hs a = true -> st' (psi_h a d) i = memory e "" d true (st (psi_h a d)) (new_h a) i)).
End maxwell.

(** The grid has no variable spacing: the matrices for staggered quantities are the plain ones. *)
Definition uniform (e : env R_arith) : Prop := forall i,
  e_mat e "DyfStaggeredX"%string i = e_mat e "Dyf"%string i /\ e_mat e "DyfStaggeredZ"%string i = e_mat e "Dyf"%string i /\
  e_mat e "DybStaggeredX"%string i = e_mat e "Dyb"%string i /\ e_mat e "DybStaggeredZ"%string i = e_mat e "Dyb"%string i /\
  e_mat e "DybStaggeredXFreeSurface"%string i = e_mat e "DybFreeSurface"%string i /\
  e_mat e "DybStaggeredZFreeSurface"%string i = e_mat e "DybFreeSurface"%string i.
Definition no_interpolation (c : cfg) : Prop := c_itF c = false /\ c_itX c = false /\ c_itZ c = false /\ c_itXZ c = false.
