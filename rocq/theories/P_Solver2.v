(** Properties C19-C21 and C23 (second half): energy, reciprocity, free surface, reversibility of the acoustic solver. *)
From Coq Require Import QArith Qreals Reals Lra.
From Verif Require Import M_Grid M_Deriv S_Deriv L_Deriv L_Deriv2 M_Prog M_Solvers M_Env M_Surface S_Solver L_Prog L_Live L_Lin L_Src L_Shape L_Env
  L_Surface L_Leap L_Leap2 L_Leap3.
Open Scope R_scope.

Lemma scale_odd k : forall q, Q2R (- q)%Q * k = - (Q2R q * k).
Proof. intros q. rewrite Q2R_opp. lra. Qed.

(** No PML, no damping frame, no variable grid, no free surface (image method). *)
Definition closed_box (c : cfg) : Prop := undamped c /\ c_fs c <> 1%Z.
Lemma closed_fs c : closed_box c -> (c_fs c =? 1)%Z = false.
Proof. intros [_ H]. apply Z.eqb_neq. exact H. Qed.

(** ** C19 *)
(** The stencil matrices hold the coefficients times DT / DH = [k].  Energy at step n:
    sum of p_n^2 / modulus plus sum of v_n * v_(n+1) / (inverse density) over both velocity components. *)
Theorem C19_energy_conserved : forall (e : env R_arith) (c : cfg) (useVar hybrid : bool) (nx ny nz p : Z) (rest : list Z) (DH : Q)
    (fuel : nat) (k : R) (cv : Q -> R) (g : grid) (src : acq R_arith) (st : state R_arith),
  @fd_matrices R_arith e c true useVar hybrid nx ny nz p rest DH fuel (fun q => Q2R q * k) cv g -> closed_box c ->
  (forall x y z, (0 <= x < nx)%Z -> (0 <= y < ny)%Z -> (0 <= z < nz)%Z -> let i := reg_index nx nz x y z in
     0 < e_coef e "inverseDensityAverageX"%string i /\ 0 < e_coef e "inverseDensityAverageY"%string i /\ 0 < e_coef e "pWaveModulus"%string i) ->
  (forall ty t i, injected (src ty) t i = 0) ->
  let after n := fst (steps FD2Dacoustic c (Shot R_arith e src (fun _ => []) 0) 0 n st) in
  let E n := grid_sum nx ny nz (fun i => after n "p"%string i * after n "p"%string i / e_coef e "pWaveModulus"%string i) +
             grid_sum nx ny nz (fun i => after n "vX"%string i * after (S n) "vX"%string i / e_coef e "inverseDensityAverageX"%string i) +
             grid_sum nx ny nz (fun i => after n "vY"%string i * after (S n) "vY"%string i / e_coef e "inverseDensityAverageY"%string i) in
  forall n m, E n = E m.
Proof.
  intros e c useVar hybrid nx ny nz p rest DH fuel k cv g src st HM Hc Hpos Hsrc after E.
  assert (Hpos' : forall x y z, (0 <= x < nx)%Z -> (0 <= y < ny)%Z -> (0 <= z < nz)%Z ->
    e_coef e "inverseDensityAverageX"%string (reg_index nx nz x y z) <> 0 /\ e_coef e "inverseDensityAverageY"%string (reg_index nx nz x y z) <> 0 /\
    e_coef e "pWaveModulus"%string (reg_index nx nz x y z) <> 0).
  { intros x y z Hx Hy Hz. pose proof (Hpos x y z Hx Hy Hz) as H. cbv zeta in H. lra. }
  assert (G : forall n, E n = energy e nx ny nz st (state_at FD2Dacoustic c (Shot R_arith e src (fun _ => []) 0) 0 1 st)).
  { intros n. unfold E, after. rewrite !steps_state_at.
    exact (energy_const e c useVar hybrid nx ny nz p rest DH fuel _ cv g HM (scale_odd k) (proj1 Hc) (closed_fs c Hc) Hpos' src Hsrc n st). }
  intros n m. rewrite !G. reflexivity.
Qed.
Print Assumptions C19_energy_conserved.
(** stencil matrices of order 6 on a 20 x 11 grid with unit model *)
Example C19_ex : exists g e c, mk_regular 20 11 1 = Ok g /\ closed_box c /\
  @fd_matrices R_arith e c true false false 20 11 1 6 [] (1 # 2) 20 (fun q => Q2R q * (1 / 2)) Q2R g /\ (forall m i, e_coef e m i = 1).
Proof.
  destruct (mk_regular 20 11 1) as [g| | |] eqn:E; try discriminate.
  exists g, (Env R_arith (matrices R_arith true false false 20 11 1 6 [] (1 # 2) 20 (fun q => Q2R q * (1 / 2)) Q2R g) (fun _ _ => 1) (fun _ => 1)),
    (Cfg false false 0 false false false false 0).
  split; [reflexivity|]. split; [repeat split; discriminate|]. split; [|reflexivity].
  apply matrices_ok; [exact E|unfold supported; auto 10 with datatypes|lia|lia|lia].
Qed.

(** ** C20 *)
(** One pressure source at A with signal w and a pressure receiver at B, and the exchanged experiment, both from rest. *)
Theorem C20_reciprocity : forall (e : env R_arith) (c : cfg) (useVar hybrid : bool) (nx ny nz p : Z) (rest : list Z) (DH : Q)
    (fuel : nat) (k : R) (cv : Q -> R) (g : grid),
  @fd_matrices R_arith e c true useVar hybrid nx ny nz p rest DH fuel (fun q => Q2R q * k) cv g -> closed_box c ->
  (forall x y z, (0 <= x < nx)%Z -> (0 <= y < ny)%Z -> (0 <= z < nz)%Z -> 0 < e_coef e "pWaveModulus"%string (reg_index nx nz x y z)) ->
  forall (w : nat -> R) (n t : nat) (st st' : state R_arith) xa ya za xb yb zb,
  (0 <= xa < nx)%Z -> (0 <= ya < ny)%Z -> (0 <= za < nz)%Z -> (0 <= xb < nx)%Z -> (0 <= yb < ny)%Z -> (0 <= zb < nz)%Z -> (t < n)%nat ->
  let A := reg_index nx nz xa ya za in let B := reg_index nx nz xb yb zb in
  exists ab ba,
  sample (seismograms FD2Dacoustic c (Shot R_arith e (point_source A w) (point_receiver B) n) st) t 0 0 = Some ab /\
  sample (seismograms FD2Dacoustic c (Shot R_arith e (point_source B w) (point_receiver A) n) st') t 0 0 = Some ba /\
  ab * e_coef e "pWaveModulus"%string A = ba * e_coef e "pWaveModulus"%string B.
Proof.
  intros e c useVar hybrid nx ny nz p rest DH fuel k cv g HM Hc HK w n t st st' xa ya za xb yb zb H1 H2 H3 H4 H5 H6 Ht.
  apply (recip_sample e c useVar hybrid nx ny nz p rest DH fuel _ cv g HM (scale_odd k) (proj1 Hc) (closed_fs c Hc)); auto.
  intros x y z Hx Hy Hz. specialize (HK x y z Hx Hy Hz). lra.
Qed.
Print Assumptions C20_reciprocity.

(** With assembled (sparse) matrices reciprocity fails: order 2, unit model, grid 3 x 2, unit impulse, points (0,0) and (1,0). *)
Definition Q_arith : arith := Arith Q Qplus Qminus Qmult (fun q => q).
Definition qgrid nx ny : grid := match mk_regular nx ny 1 with Ok g => g | _ => fresh 0 0 0 end.
Definition qenv (st hyb : bool) nx ny p coef : env Q_arith :=
  Env Q_arith (matrices Q_arith st false hyb nx ny 1 p [] 1%Q 20 (fun q => q) (fun q => q) (qgrid nx ny)) coef (fun _ => 1%Q).
Definition qsource (i : Z) : acq Q_arith := fun ty => match ty with TP => [(i, fun t => if Nat.eqb t 0 then 1%Q else 0%Q)] | _ => [] end.
Theorem C20_sparse_refuted : exists (e : env Q_arith) (c : cfg) (g : grid) (st : state Q_arith) (A B : Z) (ab ba : Q),
  @fd_matrices Q_arith e c false false false 3 2 1 2 [] 1%Q 20 (fun q => q) (fun q => q) g /\ closed_box c /\
  (forall m i, e_coef e m i = 1%Q) /\ (0 <= A < 6)%Z /\ (0 <= B < 6)%Z /\
  sample (seismograms FD2Dacoustic c (Shot Q_arith e (qsource A) (point_receiver B) 2) st) 1 0 0 = Some ab /\
  sample (seismograms FD2Dacoustic c (Shot Q_arith e (qsource B) (point_receiver A) 2) st) 1 0 0 = Some ba /\
  ~ (ab == ba)%Q.
Proof.
  exists (qenv false false 3 2 2 (fun _ _ => 1%Q)), (Cfg false false 0 false false false false 0), (qgrid 3 2), (fun _ _ => 0%Q), 0%Z, 1%Z.
  eexists _, _. split; [apply matrices_ok; [reflexivity|left; reflexivity|lia|lia|lia]|].
  split; [repeat split; discriminate|]. split; [reflexivity|]. split; [lia|]. split; [lia|].
  split; [vm_compute; reflexivity|]. split; [vm_compute; reflexivity|]. vm_compute. discriminate.
Qed.
Print Assumptions C20_sparse_refuted.

(** With the free surface of the image method (stencil matrices, hybrid free surface) it fails for order 4 near the surface. *)
Definition qmask (nx : Z) : nm -> Z -> Q := fun m i => if (nm_eqb m "setZeroFreeSurface"%string && (i <? nx)%Z)%bool then 0%Q else 1%Q.
Theorem C20_free_surface_refuted : exists (e : env Q_arith) (c : cfg) (g : grid) (st : state Q_arith) (A B : Z) (ab ba : Q),
  @fd_matrices Q_arith e c true false true 3 6 1 4 [] 1%Q 20 (fun q => q) (fun q => q) g /\ undamped c /\ c_fs c = 1%Z /\
  (forall m i, e_coef e m i = if (nm_eqb m "setZeroFreeSurface"%string && (i <? 3)%Z)%bool then 0%Q else 1%Q) /\ (0 <= A < 18)%Z /\ (0 <= B < 18)%Z /\
  sample (seismograms FD2Dacoustic c (Shot Q_arith e (qsource A) (point_receiver B) 2) st) 1 0 0 = Some ab /\
  sample (seismograms FD2Dacoustic c (Shot Q_arith e (qsource B) (point_receiver A) 2) st) 1 0 0 = Some ba /\
  ~ (ab == ba)%Q.
Proof.
  exists (qenv true true 3 6 4 (qmask 3)), (Cfg false false 1 false false false false 0), (qgrid 3 6), (fun _ _ => 0%Q), 4%Z, 7%Z.
  eexists _, _. split; [apply matrices_ok; [reflexivity|right; left; reflexivity|lia|lia|lia]|].
  split; [repeat split; discriminate|]. split; [reflexivity|]. split; [reflexivity|]. split; [lia|]. split; [lia|].
  split; [vm_compute; reflexivity|]. split; [vm_compute; reflexivity|]. vm_compute. discriminate.
Qed.
Print Assumptions C20_free_surface_refuted.

(** ** C21 *)
(** After every time step the vectors that the code zeroes (pressure; Syy and the Ryy memory of the elastic solvers) are
    zero at all surface points at which no source is injected into them. *)
Theorem C21_surface_zero : forall (g : grid) (s : solver) (c : cfg) (sh : shot R_arith) (r : nm) (n : nat) (st : state R_arith) (i : Z),
  (In s [FD2Dacoustic; FD3Dacoustic] /\ r = "p"%string) \/
  (In s [FD2Delastic; FD3Delastic; FD2Dviscoelastic; FD3Dviscoelastic] /\ r = "Syy"%string) \/
  (In s [FD2Dviscoelastic; FD3Dviscoelastic] /\ exists l, (l < c_L c)%nat /\ r = N "Ryy" l) ->
  c_fs c = 1%Z -> surface_vectors (sh_env sh) g -> locatedOnSurface g i = Ok true ->
  (forall js, In js (sh_src sh TP) -> fst js <> i) ->
  fst (steps s c sh 0 (S n) st) r i = 0.
Proof.
  intros g s c sh r n st i Hr Hfs Hsv Hi Hsrc. rewrite steps_state_at, state_at_step.
  apply (surface_zero_lem (sh_env sh) g s c r); auto.
  intros ty rs js Hj Hin Hjs. apply Hsrc.
  assert (ty = TP); [|subst; exact Hjs].
  destruct Hr as [[Hs ->]|[[Hs ->]|[Hs (l&_&->)]]]; cbn [In] in Hs;
  repeat (destruct Hs as [<-|Hs]; [destruct ty; cbn in Hj; try discriminate; try reflexivity; injection Hj as <-; cbn in Hin;
    exfalso; repeat destruct Hin as [Hin|Hin]; try discriminate; contradiction|]); destruct Hs.
Qed.
Print Assumptions C21_surface_zero.

(** Enforcing p = 0 changes nothing else: all vectors except p everywhere, and p at the points below the surface, are those
    of the same time step executed with setZeroFreeSurface = 1 everywhere. *)
Theorem C21_others_unaffected : forall (g : grid) (s : solver) (c : cfg) (e e1 : env R_arith) (src : acq R_arith) (t : nat) (st : state R_arith) (n : nm) (i : Z),
  In s [FD2Dacoustic; FD3Dacoustic] -> c_fs c = 1%Z -> surface_vectors e g ->
  e_mat e1 = e_mat e -> e_sca e1 = e_sca e -> (forall m j, e_coef e1 m j = if nm_eqb m "setZeroFreeSurface"%string then 1 else e_coef e m j) ->
  (n <> "p"%string :> nm \/ locatedOnSurface g i = Ok false) ->
  exec e src t (step_prog s c) st n i = exec e1 src t (step_prog s c) st n i.
Proof.
  intros g s c e e1 src t st n i Hs Hfs Hsv E1 E2 E3 Hn.
  rewrite (surface_other_lem e g s c src t st n i Hs Hfs Hsv Hn).
  apply (exec_ext R_arith (no_zeroing e) e1 src t "no_such_vector"%string); auto.
  - intros; cbn; rewrite E1; reflexivity.
  - intros; cbn; rewrite E2; reflexivity.
  - intros m j _. cbn. rewrite E3. reflexivity.
  - destruct c as [pml dmp fs itF itX itZ itXZ L]. cbn [c_fs] in Hfs. subst fs.
    destruct Hs as [<-|[<-|[]]]; destruct pml, dmp, itF, itX, itZ; vm_compute; reflexivity.
Qed.
Print Assumptions C21_others_unaffected.
(** on a regular grid the surface points are those with y = 0 *)
Theorem C21_surface_points : forall nx ny nz g x y z, mk_regular nx ny nz = Ok g -> (0 <= x < nx)%Z -> (0 <= y < ny)%Z -> (0 <= z < nz)%Z ->
  locatedOnSurface g (reg_index nx nz x y z) = Ok (Z.eqb y 0).
Proof. exact regular_surface. Qed.
Print Assumptions C21_surface_points.
Example C21_ex : exists g e c, c_fs c = 1%Z /\ surface_vectors e g /\ locatedOnSurface g 17 = Ok true /\ locatedOnSurface g 20 = Ok false.
Proof.
  destruct (mk_regular 20 11 1) as [g| | |] eqn:E; try discriminate.
  exists g, (Env R_arith (fun _ _ => []) (fun m i => if nm_eqb m "setZeroFreeSurface"%string then setZeroFreeSurface g i else selectFreeSurface g i) (fun _ => 1)),
    (Cfg true true 1 false false false false 2).
  split; [reflexivity|]. split; [split; reflexivity|]. injection E as <-. split; reflexivity.
Qed.

(** ** C23, second half *)
(** Without PML and damping frame the initial wavefields can be computed from those after n steps (and the sources).  With the
    free surface the pressure must start at zero at the surface and have no source there. *)
Theorem C23_reversible : forall (e : env R_arith) (c : cfg) (g : grid) (sh : shot R_arith) (n : nat),
  sh_env sh = e -> undamped c -> (c_fs c = 1%Z -> surface_vectors e g) ->
  (c_fs c = 1%Z -> forall js i, In js (sh_src sh TP) -> locatedOnSurface g i = Ok true -> fst js <> i) ->
  exists recover : state R_arith -> state R_arith, forall st : state R_arith,
  (c_fs c = 1%Z -> forall i, locatedOnSurface g i = Ok true -> st "p"%string i = 0) ->
  same_fields FD2Dacoustic c (recover (fst (steps FD2Dacoustic c sh 0 n st))) st.
Proof. exact C23_reversible_lem. Qed.
Print Assumptions C23_reversible.
Example C23_ex : undamped (Cfg false false 1 false false false false 0) /\
  (forall js i g, In js (point_source 25 (fun t => INR t) TP) -> mk_regular 20 11 1 = Ok g -> locatedOnSurface g i = Ok true -> fst js <> i).
Proof.
  split; [repeat split|]. intros js i g [<-|[]] Hg Hi E. cbn in E. subst i. injection Hg as <-. discriminate Hi.
Qed.
