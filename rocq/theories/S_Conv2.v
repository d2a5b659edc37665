(** Specification vocabulary for the convergence of the elastic, viscoelastic and electromagnetic solvers (C169, C170). *)
From Coq Require Import Reals.
From Verif Require Import Base M_Deriv S_Deriv M_Prog M_Solvers S_Solver S_Step S_Energy S_Taylor S_Conv.
Open Scope R_scope.
Open Scope list_scope.

(** The points of the staggered grid: [s] tells along which axes a field component lies half a cell further. *)
Definition spot (h : R) (s : axis -> bool) (x y z : Z) : position := fun d => IZR (coordinate d x y z) * h + (if s d then h / 2 else 0).
(** Finite differences along [d] map values at the points of [s] to values at the points of [flip d s]. *)
Definition flip (d : axis) (s : axis -> bool) : axis -> bool := fun a => if axis_eqb d a then negb (s a) else s a.

(** The field component [F], known at the points [spot h s], can be differentiated along [d]: around the points where the program
    needs the derivative its space derivatives of order p+1 are bounded by Mx up to time T; it vanishes at those points outside the grid
    that the stencils of its points would reach. *)
Definition fits (nx ny nz p : Z) (h T Mx : R) (s : axis -> bool) (d : axis) (F : R -> position -> R) : Prop :=
  forall x y z t, (0 <= x < nx)%Z -> (0 <= y < ny)%Z -> (0 <= z < nz)%Z -> 0 <= t <= T ->
    smooth_on (Z.to_nat p) Mx (- (IZR p / 2 * h)) (IZR p / 2 * h) (fun u => F t (shift d u (spot h (flip d s) x y z))) /\
    forall j, (if s d then - p <= 2 * j < p else - p < 2 * j <= p)%Z -> ~ (0 <= coordinate d x y z + j < coordinate d nx ny nz)%Z ->
      F t (shift d (IZR j * h) (spot h s x y z)) = 0.

(** ** elastic and viscoelastic waves
    Isotropic stress rate for the velocity gradient G: lambda tr G on the diagonal plus mu (G + G^T), lambda = P - 2 mu. *)
Definition rate (axes : list axis) (P : Z -> R) (M : tensor) (G : axis -> axis -> R) (a b : axis) (i : Z) : R :=
  (if axis_eqb a b then (P i - 2 * M a b i) * sum_axes axes (fun d => G d d) else 0) + M a b i * (G a b + G b a).

(** A smooth solution, up to time [T], of
      d/dt V_a = b_a (sum of d/dd S_ad),
      d/dt S_ab = isotropic law with the unrelaxed moduli P, M + sum of the relaxation variables R_ab,l,
      tau_l d/dt R_ab,l = - R_ab,l - isotropic law with the moduli dP, dM
    on a grid of nx * ny * nz points: velocities V, stresses S, L relaxation variables R for each stress (none for elastic waves). *)
Record elastic_solution (nx ny nz p : Z) (h dt T Mx Mt : R) (e : env R_arith) (axes comps : list axis) (P : Z -> R) (M : tensor)
    (L : nat) (tau : nat -> R) (dP : Z -> R) (dM : tensor)
    (V : axis -> R -> position -> R) (S : axis -> axis -> R -> position -> R) (Rv : axis -> axis -> nat -> R -> position -> R) : Prop := {
  vs_sym : forall a b t r, S a b t r = S b a t r;
  vs_symr : forall a b l t r, Rv a b l t r = Rv b a l t r;
  (** the equations hold at the points where the program evaluates them *)
  vs_momentum : forall a x y z t, In a comps -> (0 <= x < nx)%Z -> (0 <= y < ny)%Z -> (0 <= z < nz)%Z -> 0 <= t <= T ->
    let r := spot h (vel_half a) x y z in
    exists dS, (forall d, In d axes -> derivable_pt_lim (fun s => S a d t (shift d s r)) 0 (dS d)) /\
      derivable_pt_lim (fun s => V a s r) t (e_coef e (buoyancy axes a) (reg_index nx nz x y z) * sum_axes axes dS);
  vs_law : forall a b x y z t, stress axes comps a b -> (0 <= x < nx)%Z -> (0 <= y < ny)%Z -> (0 <= z < nz)%Z -> 0 <= t <= T ->
    let r := spot h (sig_half a b) x y z in let i := reg_index nx nz x y z in
    exists G, (forall v d, has comps v && has axes d = true -> derivable_pt_lim (fun s => V v t (shift d s r)) 0 (G v d)) /\
      (forall v d, has comps v && has axes d = false -> G v d = 0) /\
      derivable_pt_lim (fun s => S a b s r) t (rate axes P M G a b i + Rsum (map (fun l => Rv a b l t r) (seq 0 L))) /\
      (forall l, (l < L)%nat -> derivable_pt_lim (fun s => Rv a b l s r) t (- (Rv a b l t r + rate axes dP dM G a b i) / tau l));
  (** space derivatives of order p+1 are bounded by Mx, third time derivatives by Mt (for R also the second ones) *)
  vs_Vx : forall a d, In a comps -> In d axes -> fits nx ny nz p h T Mx (vel_half a) d (V a);
  vs_Sx : forall a d, In a comps -> In d axes -> fits nx ny nz p h T Mx (sig_half a d) d (S a d);
  vs_Vt : forall a x y z, In a comps -> (0 <= x < nx)%Z -> (0 <= y < ny)%Z -> (0 <= z < nz)%Z ->
    smooth_on 2 Mt (- (dt / 2)) T (fun s => V a s (spot h (vel_half a) x y z));
  vs_St : forall a b x y z, stress axes comps a b -> (0 <= x < nx)%Z -> (0 <= y < ny)%Z -> (0 <= z < nz)%Z ->
    smooth_on 2 Mt 0 T (fun s => S a b s (spot h (sig_half a b) x y z));
  vs_Rt : forall a b l x y z, stress axes comps a b -> (l < L)%nat -> (0 <= x < nx)%Z -> (0 <= y < ny)%Z -> (0 <= z < nz)%Z ->
    smooth_on 2 Mt 0 T (fun s => Rv a b l s (spot h (sig_half a b) x y z)) /\
    smooth_on 1 Mt 0 T (fun s => Rv a b l s (spot h (sig_half a b) x y z))
}.

(** The isotropic law is uniformly positive definite: shear moduli and, if there are normal stresses, n lambda + 2 mu in n dimensions are
    at least [kmin]. *)
Definition definite_by (axes comps : list axis) (P : Z -> R) (M : tensor) (kmin : R) : Prop := forall i,
  (normals axes comps <> [] -> kmin <= M AX AX i /\ kmin <= INR (length (normals axes comps)) * (P i - 2 * M AX AX i) + 2 * M AX AX i) /\
  (forall ab, In ab (shears axes comps) -> kmin <= M (fst ab) (snd ab) i).

(** The stress components, each once. *)
Definition stresses (axes comps : list axis) : list (axis * axis) := map (fun a => (a, a)) (normals axes comps) ++ shears axes comps.

(** ** electromagnetic fields
    E_a lies at half points along a, H_a along the other axes. *)
Definition e_half (a d : axis) : bool := axis_eqb a d.
Definition h_half (a d : axis) : bool := negb (axis_eqb a d).
(** curl for the gradient G a d = d F_a / d x_d *)
Definition curl_of (G : axis -> axis -> R) (a : axis) : R := G (next (next a)) (next a) - G (next a) (next (next a)).
(** A smooth solution, up to time [T], of Maxwell's equations d/dt H = - (1/mu) curl E, eps d/dt E + sigma E = curl H. *)
Record maxwell_solution (nx ny nz p : Z) (h dt T Mx Mt : R) (e : env R_arith) (axes es hs : list axis) (eps sigma : axis -> Z -> R)
    (E H : axis -> R -> position -> R) : Prop := {
  ms_faraday : forall a x y z t, In a hs -> (0 <= x < nx)%Z -> (0 <= y < ny)%Z -> (0 <= z < nz)%Z -> 0 <= t <= T ->
    let r := spot h (h_half a) x y z in
    exists G, (forall v d, has es v && has axes d = true -> derivable_pt_lim (fun s => E v t (shift d s r)) 0 (G v d)) /\
      (forall v d, has es v && has axes d = false -> G v d = 0) /\
      derivable_pt_lim (fun s => H a s r) t (- (e_coef e (inv_mu a) (reg_index nx nz x y z) * curl_of G a));
  ms_ampere : forall a x y z t, In a es -> (0 <= x < nx)%Z -> (0 <= y < ny)%Z -> (0 <= z < nz)%Z -> 0 <= t <= T ->
    let r := spot h (e_half a) x y z in let i := reg_index nx nz x y z in
    exists G, (forall v d, has hs v && has axes d = true -> derivable_pt_lim (fun s => H v t (shift d s r)) 0 (G v d)) /\
      (forall v d, has hs v && has axes d = false -> G v d = 0) /\
      derivable_pt_lim (fun s => E a s r) t ((curl_of G a - sigma a i * E a t r) / eps a i);
  ms_Ex : forall a d, In a es -> In d axes -> a <> d -> fits nx ny nz p h T Mx (e_half a) d (E a);
  ms_Hx : forall a d, In a hs -> In d axes -> a <> d -> fits nx ny nz p h T Mx (h_half a) d (H a);
  ms_Et : forall a x y z, In a es -> (0 <= x < nx)%Z -> (0 <= y < ny)%Z -> (0 <= z < nz)%Z ->
    smooth_on 2 Mt 0 T (fun s => E a s (spot h (e_half a) x y z)) /\ smooth_on 1 Mt 0 T (fun s => E a s (spot h (e_half a) x y z));
  ms_Ht : forall a x y z, In a hs -> (0 <= x < nx)%Z -> (0 <= y < ny)%Z -> (0 <= z < nz)%Z ->
    smooth_on 2 Mt (- (dt / 2)) T (fun s => H a s (spot h (h_half a) x y z))
}.
