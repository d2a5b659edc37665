(** Specification vocabulary for absorbing boundaries. *)
From Coq Require Import Reals Permutation String.
From Verif Require Import Base M_Grid S_Grid M_Prog M_Solvers S_Solver M_Bound.
Open Scope R_scope.
Open Scope list_scope.

(** Grids produced by the two constructors: regular, or layered from a sensible request. *)
Definition built (g : grid) : Prop :=
  (exists nx ny nz, mk_regular nx ny nz = Ok g) \/
  (exists fuel nx ny nz dhs ifs, good_request nx ny nz dhs ifs /\ (forall d, In d dhs -> (d <= Z.of_nat fuel)%Z) /\
     init_variable fuel nx ny nz dhs ifs = Ok g).

(** Parameters with a physical meaning. *)
Definition physical (pp : pml_par) : Prop := -1 <= p_N pp /\ 0 <= p_fc pp /\ 0 <= p_V pp /\ 0 <= p_DT pp.

(** The textbook CPML profile for a frame of W cells of size dh at distance s (in cells) from the outer edge:
    damping -(N+1) V ln R / (2 W dh) ((W-s)/W)^N and frequency shift pi fc s/W. *)
Definition pml_damping (pp : pml_par) (W : Z) (dh s : R) : R :=
  (p_N pp + 1) * p_V pp * - ln 0.0008 / (2 * (IZR W * dh)) * Rpower ((IZR W - s) / IZR W) (p_N pp).
Definition pml_shift (pp : pml_par) (W : Z) (s : R) : R := PI * p_fc pp * (s / IZR W).
Definition pml_b (pp : pml_par) (W : Z) (dh s : R) : R :=
  exp (- ((pml_damping pp W dh s + pml_shift pp W s) * p_DT pp)).
(** (the damping counts as zero below 1e-6) *)
Definition pml_a_spec (pp : pml_par) (W : Z) (dh s : R) (a : R) : Prop :=
  (1e-6 < pml_damping pp W dh s ->
     a = pml_damping pp W dh s / (pml_damping pp W dh s + pml_shift pp W s) * (pml_b pp W dh s - 1)) /\
  (pml_damping pp W dh s <= 1e-6 -> a = 0).
Definition profile (pp : pml_par) (W : Z) (dh s : R) (a b : R) : Prop := b = pml_b pp W dh s /\ pml_a_spec pp W dh s a.

(** What one direction of the PML must do at a point with coordinate [x] on a line of [N] fine grid points, in a layer of
    spacing [d], for a frame of [BW] fine grid points; [low] tells whether the low end of the line absorbs.
    (a,b) belong to the point itself, (a_half,b_half) to the position half a cell further; distances are measured from the
    first grid point at the low end and from half a cell behind the last grid point at the high end. *)
Definition axis_ok (pp : pml_par) (DH : R) (BW d N x : Z) (low : bool) (p : cpml_pt) : Prop :=
  let w := ((BW + d - 1) / d)%Z in
  let dist := (Z.min x (N - 1 - x) / d)%Z in
  ((w <= dist)%Z -> p = mkPT 0 0 0 0) /\
  ((dist < w)%Z -> (x / d < w)%Z -> low = false -> p = mkPT 0 0 0 0) /\
  ((dist < w)%Z -> (x / d < w)%Z -> low = true ->
     profile pp w (DH * IZR d) (IZR dist) (pt_a p) (pt_b p) /\
     profile pp w (DH * IZR d) (IZR dist + / 2) (pt_ah p) (pt_bh p)) /\
  ((dist < w)%Z -> (w <= x / d)%Z ->
     profile pp w (DH * IZR d) (IZR dist + / 2) (pt_a p) (pt_b p) /\
     profile pp w (DH * IZR d) (IZR dist) (pt_ah p) (pt_bh p)).

(** The PML is applied once per time step to a derivative vector [vec] that has been computed anew: [xs] are the successive
    values of that vector, the result lists the vector after the application and the memory, for every step. *)
Fixpoint pml_steps (e : env R_arith) (src : acq R_arith) (vec psi a b : nm) (st : state R_arith) (xs : list (Z -> R))
    : list ((Z -> R) * (Z -> R)) :=
  match xs with
  | [] => []
  | x :: xs' =>
      let st' := exec e src 0 (applyCPML vec psi a b) (upd st vec x) in
      (st' vec, st' psi) :: pml_steps e src vec psi a b st' xs'
  end.
Definition distinct3 (vec psi : nm) : Prop := vec <> psi /\ vec <> "cpml_temp"%string /\ psi <> "cpml_temp"%string.

(** Number of grid points between a point and the nearest edge; [_fs]: the nearest edge other than the top (free surface). *)
Definition edge_dist2D (g : grid) (c : coord) : Z :=
  Z.min (Z.min (cx c) (gNX g - 1 - cx c)) (Z.min (cy c) (gNY g - 1 - cy c)).
Definition edge_dist3D (g : grid) (c : coord) : Z := Z.min (edge_dist2D g c) (Z.min (cz c) (gNZ g - 1 - cz c)).
Definition edge_dist2D_fs (g : grid) (c : coord) : Z :=
  Z.min (Z.min (cx c) (gNX g - 1 - cx c)) (gNY g - 1 - cy c).
Definition edge_dist3D_fs (g : grid) (c : coord) : Z := Z.min (edge_dist2D_fs g c) (Z.min (cz c) (gNZ g - 1 - cz c)).

(** The damping factor at distance m from an absorbing edge: (1-D/100)^(((BW-m)/BW)^2) inside the frame, 1 outside. *)
Definition damping_factor (BW : Z) (D : R) (m : Z) (f : R) : Prop :=
  ((m < BW)%Z -> f = Rpower (1 - D / 100) ((IZR BW - IZR m) / IZR BW * ((IZR BW - IZR m) / IZR BW))) /\
  ((BW <= m)%Z -> f = 1).

(** [owned] distributes the indices 0 .. n-1 over processes. *)
Definition distribution (n : Z) (owned : list (list Z)) : Prop := Permutation (concat owned) (zseq 0 (Z.to_nat n)).

(** [k] is the number of grid indices with property P. *)
Definition number_of (n : Z) (P : Z -> Prop) (k : Z) : Prop :=
  exists l, NoDup l /\ (forall i, In i l <-> (0 <= i < n)%Z /\ P i) /\ k = Z.of_nat (length l).

(** The coefficient vectors read by the solvers hold the entries computed by the initialisation. *)
Definition pml_vectors (e : env R_arith) (g : grid) (init : grid -> Z -> res (list cpml_pt)) : Prop :=
  forall i ps k p ax, (0 <= i < nGridpoints g)%Z -> init g i = Ok ps -> nth_error ps k = Some p ->
    nth_error ["x"; "y"; "z"]%string k = Some ax ->
    e_coef e (String.append "a_" ax) i = pt_a p /\ e_coef e (String.append "b_" ax) i = pt_b p /\
    e_coef e (String.append "a_" (String.append ax "_half")) i = pt_ah p /\
    e_coef e (String.append "b_" (String.append ax "_half")) i = pt_bh p.

(** A point lies outside the part of the frame that absorbs in one direction: at least as many cells from both ends as the
    frame is wide (in cells of its layer), or in the low part of the frame where the low end does not absorb. *)
Definition outside_frame (BW d N x : Z) (low : bool) : Prop :=
  ((BW + d - 1) / d <= Z.min x (N - 1 - x) / d \/ (low = false /\ x / d < (BW + d - 1) / d))%Z.

(** Coefficient vector pairs of the three directions. *)
Definition pml_pair (ax : string) (a b : nm) : Prop :=
  (a = nm_s (String.append "a_" ax) /\ b = nm_s (String.append "b_" ax)) \/
  (a = nm_s (String.append "a_" (String.append ax "_half")) /\ b = nm_s (String.append "b_" (String.append ax "_half"))).
