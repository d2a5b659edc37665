(** Properties C15-C18, C22, C23 (first half): the forward solvers.

    Statements about linearity use exact real arithmetic; statements about which values influence which hold for every
    arithmetic [A], floating-point included.  All of them hold for all fourteen solvers ([all_solvers]); the 2-D acoustic
    solver named in the properties is the first. *)
From Coq Require Import QArith Qreals Reals Lra.
From Verif Require Import M_Grid M_Deriv S_Deriv L_Deriv L_Deriv2 M_Prog M_Solvers M_Env S_Solver L_Prog L_Live L_Lin L_Src L_Shape L_Env L_Cone L_ConeP.
Open Scope Z_scope.

Example solvers_acoustic : In FD2Dacoustic all_solvers /\ length all_solvers = 14%nat.
Proof. split; [left; reflexivity|reflexivity]. Qed.

(** ** C15 *)
(** A source set whose injected amount is everywhere a times that of the first plus b times that of the second: the
    seismograms of every type and receiver and all wavefields (and PML memory) after any number of steps are the same
    combination.  [c] is any configuration (PML, damping frame, free surface, variable grid). *)
Theorem C15_linear : forall (s : solver) (c : cfg) (sh1 sh2 sh3 : shot R_arith) (a b : R) (st1 st2 st3 : state R_arith),
  In s all_solvers ->
  sh_env sh1 = sh_env sh3 -> sh_env sh2 = sh_env sh3 -> sh_rec sh1 = sh_rec sh3 -> sh_rec sh2 = sh_rec sh3 ->
  sh_n sh1 = sh_n sh3 -> sh_n sh2 = sh_n sh3 ->
  (forall ty t i, injected (sh_src sh3 ty) t i = a * injected (sh_src sh1 ty) t i + b * injected (sh_src sh2 ty) t i)%R ->
  pml_memory_zero s c st1 -> pml_memory_zero s c st2 -> pml_memory_zero s c st3 ->
  (forall t k r x1 x2, sample (seismograms s c sh1 st1) t k r = Some x1 -> sample (seismograms s c sh2 st2) t k r = Some x2 ->
     sample (seismograms s c sh3 st3) t k r = Some (a * x1 + b * x2)%R) /\
  (forall m n, (In n (s_fields s c) \/ c_pml c = true /\ In n (s_psi s)) -> forall i,
     final_fields s c sh3 m st3 n i = (a * final_fields s c sh1 m st1 n i + b * final_fields s c sh2 m st2 n i)%R).
Proof. exact C15_lem. Qed.
Print Assumptions C15_linear.

(** the sum of two source sets (concatenated lists) and the multiple of one meet the hypothesis *)
Example C15_sum_of_sources : forall (l1 l2 : list (Z * (nat -> R))) t i,
  (injected (l1 ++ l2) t i = 1 * injected l1 t i + 1 * injected l2 t i)%R.
Proof.
  intros. unfold injected, Rsum. rewrite filter_app, map_app, fold_right_app.
  induction (map _ (filter _ l1)) as [|q l IH]; cbn [fold_right]; lra.
Qed.
Example C15_multiple : forall (l1 : list (Z * (nat -> R))) a t i,
  (injected (map (fun js => (fst js, fun u => a * snd js u)) l1) t i = a * injected l1 t i + 0 * injected l1 t i)%R.
Proof.
  intros. unfold injected, Rsum. induction l1 as [|q l IH]; cbn [map filter fold_right fst]; [cbn; lra|].
  destruct (Z.eqb (fst q) i); cbn [map fold_right fst snd]; lra.
Qed.

(** ** C16 *)
(** The sample recorded at time step t is the same for two source sets that agree up to and including t. *)
Theorem C16_causal : forall (A : arith) (s : solver) (c : cfg) (sh sh' : shot A) (st st' : state A) (t : nat),
  In s all_solvers -> sh_env sh = sh_env sh' -> sh_rec sh = sh_rec sh' -> (t < sh_n sh)%nat -> (t < sh_n sh')%nat ->
  (forall u, (u <= t)%nat -> same_sources_at (sh_src sh) (sh_src sh') u) ->
  pml_memory_zero s c st -> pml_memory_zero s c st' ->
  forall k r, sample (seismograms s c sh st) t k r = sample (seismograms s c sh' st') t k r.
Proof. exact C16_lem. Qed.
Print Assumptions C16_causal.
Example C16_ex : (forall u, (u <= 4)%nat -> same_sources_at (A := R_arith) (fun _ => [(7, fun t => INR t)])
    (fun _ => [(7, fun t => if Nat.leb t 4 then INR t else 0%R)]) u) /\
  ~ same_sources_at (A := R_arith) (fun _ => [(7, fun t => INR t)]) (fun _ => [(7, fun t => if Nat.leb t 4 then INR t else 0%R)]) 5.
Proof.
  split.
  - intros u Hu ty. cbn. destruct u as [|[|[|[|[|u]]]]]; try reflexivity. lia.
  - intros H. specialize (H TP). cbn in H. injection H. lra.
Qed.

(** Changing, at time t and at grid point i, the amount injected by sources of type ty by d changes the sample recorded
    at time t by every receiver of that type at i by exactly d. *)
Theorem C16_same_step : forall (s : solver) (c : cfg) (sh sh' : shot R_arith) (st st' : state R_arith) (t : nat) (ty : stype)
    (i : Z) (d : R) o rs (k r : nat),
  In s all_solvers -> sh_env sh = sh_env sh' -> sh_rec sh = sh_rec sh' -> (t < sh_n sh)%nat -> (t < sh_n sh')%nat ->
  (forall u, (u < t)%nat -> same_sources_at (sh_src sh) (sh_src sh') u) ->
  (forall ty', ty' <> ty -> injected (sh_src sh' ty') t i = injected (sh_src sh ty') t i) ->
  injected (sh_src sh' ty) t i = (injected (sh_src sh ty) t i + d)%R ->
  s_out s ty = Some o -> s_inj s ty = Some rs -> nth_error (s_types s) k = Some ty -> nth_error (sh_rec sh ty) r = Some i ->
  pml_memory_zero s c st -> pml_memory_zero s c st' ->
  exists x, sample (seismograms s c sh st) t k r = Some x /\ sample (seismograms s c sh' st') t k r = Some (x + d)%R.
Proof. exact C16_dep_lem. Qed.
Print Assumptions C16_same_step.
Example C16_same_step_ex : s_out FD2Dacoustic TP = Some (["p" : nm], Some 1%Q)%string /\ s_inj FD2Dacoustic TP = Some ["p" : nm]%string /\
  nth_error (s_types FD2Dacoustic) 0 = Some TP /\
  (injected [(7%Z, fun _ => 3); (9%Z, fun _ => 4); (7%Z, fun _ => 5)] 2 7 = injected [(7%Z, fun _ => 3); (9%Z, fun _ => 4)] 2 7 + 5)%R.
Proof. repeat split; try reflexivity. cbn. lra. Qed.

(** ** C17 *)
(** In any sequence of shots the seismograms of a shot are those it has when it is simulated alone, whatever the state
    (with cleared PML memory, as after start-up) in which the process was. *)
Theorem C17_shots_independent : forall (A : arith) (s : solver) (c : cfg) (pre post : list (shot A)) (sh : shot A) (st st0 : state A),
  In s all_solvers -> pml_memory_zero s c st -> pml_memory_zero s c st0 ->
  nth_error (snd (run_shots s c (pre ++ sh :: post) st)) (length pre) = Some (seismograms s c sh st0).
Proof. exact C17_lem. Qed.
Print Assumptions C17_shots_independent.
(** the reset that this rests on: PML memory is zero after every shot *)
Theorem C17_pml_reset : forall (A : arith) (s : solver) (c : cfg) (sh : shot A) (st : state A), pml_memory_zero s c (fst (run_shot s c sh st)).
Proof. exact run_shot_psi. Qed.
Print Assumptions C17_pml_reset.
Example C17_ex : pml_memory_zero (A := R_arith) FD2Dacoustic (Cfg true false 1 false false false false 0)
  (fun n i => if nm_eqb n "p"%string then IZR i else 0%R).
Proof. intros _ n Hn i. cbn in Hn. destruct Hn as [<-|[<-|[<-|[<-|[]]]]]; cbn; unfold Q2R; cbn; lra. Qed.

(** ** C18 *)
(** Two runs on a regular grid whose states differ only at the grid point (x0, y0, z0), and whose sources inject the
    same samples at all other points, agree after n steps in all wavefields and PML memory at every grid point more than
    n * (order - 1) cells away in some coordinate direction.  [width] is order - 1 except for order 2 with assembled (sparse)
    matrices, where it is 3. *)
Theorem C18_cone : forall (A : arith) (e : env A) (c : cfg) (useStencil useVar hybrid : bool) (nx ny nz p : Z) (rest : list Z)
    (DH : Q) (fuel : nat) (cvs cv : Q -> num A) (g : grid) (s : solver),
  In s all_solvers -> fd_matrices e c useStencil useVar hybrid nx ny nz p rest DH fuel cvs cv g ->
  In p [2; 4; 6; 8; 10; 12] -> 2 <= nx -> 2 <= ny -> (In s solvers3D -> 2 <= nz) -> 15 <= Z.of_nat fuel ->
  (useStencil = false -> p <> 2) ->
  c_itF c = false /\ c_itX c = false /\ c_itZ c = false /\ c_itXZ c = false ->
  forall x0 y0 z0, 0 <= x0 < nx -> 0 <= y0 < ny -> 0 <= z0 < nz ->
  forall (n t0 : nat) (st st' : state A) (src src' : acq A), same_sources_off (reg_index nx nz x0 y0 z0) src src' ->
  (forall f i, In f (live s c) -> i <> reg_index nx nz x0 y0 z0 -> st f i = st' f i) ->
  forall f x y z, In f (live s c) -> 0 <= x < nx -> 0 <= y < ny -> 0 <= z < nz ->
  Z.abs (x - x0) > Z.of_nat n * (p - 1) \/ Z.abs (y - y0) > Z.of_nat n * (p - 1) \/ Z.abs (z - z0) > Z.of_nat n * (p - 1) ->
  fst (steps s c (Shot A e src (fun _ => []) 0) t0 n st) f (reg_index nx nz x y z) =
  fst (steps s c (Shot A e src' (fun _ => []) 0) t0 n st') f (reg_index nx nz x y z).
Proof.
  intros A e c useStencil useVar hybrid nx ny nz p rest DH fuel cvs cv g s Hs HM Hp Hnx Hny Hnz Hf H2 Hit x0 y0 z0 Hx0 Hy0 Hz0
    n t0 st st' src src' Hsrc Hst f x y z Hf' Hx Hy Hz Hap. rewrite !steps_state_at.
  apply (cone_lem A e c useStencil useVar hybrid nx ny nz p rest DH fuel cvs cv g s Hs HM Hp Hnx Hny Hnz Hf Hit x0 y0 z0 Hx0 Hy0 Hz0
    n t0 st st' src src' Hsrc Hst f x y z Hf' Hx Hy Hz).
  unfold apart. replace (width useStencil p) with (p - 1); [exact Hap|].
  unfold width. destruct useStencil; [reflexivity|]. specialize (H2 eq_refl).
  cbn in Hp. lia.
Qed.
Print Assumptions C18_cone.

(** the remaining case: order 2 with assembled matrices, three cells per step *)
Theorem C18_order2_sparse_partial : forall (A : arith) (e : env A) (c : cfg) (useVar hybrid : bool) (nx ny nz : Z) (rest : list Z)
    (DH : Q) (fuel : nat) (cvs cv : Q -> num A) (g : grid) (s : solver),
  In s all_solvers -> fd_matrices e c false useVar hybrid nx ny nz 2 rest DH fuel cvs cv g ->
  2 <= nx -> 2 <= ny -> (In s solvers3D -> 2 <= nz) -> 15 <= Z.of_nat fuel ->
  c_itF c = false /\ c_itX c = false /\ c_itZ c = false /\ c_itXZ c = false ->
  forall x0 y0 z0, 0 <= x0 < nx -> 0 <= y0 < ny -> 0 <= z0 < nz ->
  forall (n t0 : nat) (st st' : state A) (src src' : acq A), same_sources_off (reg_index nx nz x0 y0 z0) src src' ->
  (forall f i, In f (live s c) -> i <> reg_index nx nz x0 y0 z0 -> st f i = st' f i) ->
  forall f x y z, In f (live s c) -> 0 <= x < nx -> 0 <= y < ny -> 0 <= z < nz ->
  Z.abs (x - x0) > Z.of_nat n * 3 \/ Z.abs (y - y0) > Z.of_nat n * 3 \/ Z.abs (z - z0) > Z.of_nat n * 3 ->
  fst (steps s c (Shot A e src (fun _ => []) 0) t0 n st) f (reg_index nx nz x y z) =
  fst (steps s c (Shot A e src' (fun _ => []) 0) t0 n st') f (reg_index nx nz x y z).
Proof.
  intros A e c useVar hybrid nx ny nz rest DH fuel cvs cv g s Hs HM Hnx Hny Hnz Hf Hit x0 y0 z0 Hx0 Hy0 Hz0
    n t0 st st' src src' Hsrc Hst f x y z Hf' Hx Hy Hz Hap. rewrite !steps_state_at.
  exact (cone_lem A e c false useVar hybrid nx ny nz 2 rest DH fuel cvs cv g s Hs HM (or_introl eq_refl) Hnx Hny Hnz Hf Hit
    x0 y0 z0 Hx0 Hy0 Hz0 n t0 st st' src src' Hsrc Hst f x y z Hf' Hx Hy Hz Hap).
Qed.
Print Assumptions C18_order2_sparse_partial.

(** order - 1 = 1 cell per step is false there: at the left edge the assembled backward row uses the two nearest points,
    so p(0) after one step depends on p(2). *)
Definition Q_arith : arith := Arith Q Qplus Qminus Qmult (fun q => q).
Definition ones (m : nm -> Z -> list (Z * Q)) : env Q_arith := Env Q_arith m (fun _ _ => 1%Q) (fun _ => 1%Q).
Definition small_grid : grid := match mk_regular 4 3 1 with Ok g => g | _ => fresh 0 0 0 end.
Definition small_env : env Q_arith :=
  ones (matrices Q_arith false false false 4 3 1 2 [] 1%Q 20 (fun q => q) (fun q => q) small_grid).
Definition plain_cfg : cfg := Cfg false false 0 false false false false 0.
Definition bump (j : Z) : state Q_arith := fun n i => if (nm_eqb n "p" && (i =? j))%bool then 1%Q else 0%Q.
Theorem C18_order2_sparse_refuted :
  exists (e : env Q_arith) (c : cfg) (g : grid) (st st' : state Q_arith) (src : acq Q_arith),
  fd_matrices e c false false false 4 3 1 2 [] 1%Q 20 (fun q => q) (fun q => q) g /\
  c_itF c = false /\ c_itX c = false /\ c_itZ c = false /\ c_itXZ c = false /\
  (forall f i, i <> reg_index 4 1 2 1 0 -> st f i = st' f i) /\
  Z.abs (0 - 2) > Z.of_nat 1 * (2 - 1) /\
  ~ (fst (steps FD2Dacoustic c (Shot Q_arith e src (fun _ => []) 0) 0 1 st) "p"%string (reg_index 4 1 0 1 0) ==
     fst (steps FD2Dacoustic c (Shot Q_arith e src (fun _ => []) 0) 0 1 st') "p"%string (reg_index 4 1 0 1 0))%Q.
Proof.
  exists small_env, plain_cfg, small_grid, (bump 6), (fun _ _ => 0%Q), (fun _ => []).
  split; [apply matrices_ok; [reflexivity|left; reflexivity|lia|lia|reflexivity || (cbn; lia)]|].
  repeat (split; [reflexivity|]). split; [|split; [cbn; lia|]].
  - intros f i Hi. unfold bump. cbn in Hi. destruct (nm_eqb f "p"); [|reflexivity].
    destruct (Z.eqb_spec i 6); [lia|reflexivity].
  - vm_compute. discriminate.
Qed.
Print Assumptions C18_order2_sparse_refuted.

(** a run that meets the hypotheses of C18_cone: order 8, assembled matrices, free surface, a grid of 40 x 30 points *)
Example C18_ex : exists g e c, mk_regular 40 30 1 = Ok g /\ c_fs c = 1 /\ c_pml c = true /\
  @fd_matrices R_arith e c false false false 40 30 1 8 [] (1 # 2) 20 Q2R Q2R g.
Proof.
  destruct (mk_regular 40 30 1) as [g| | |] eqn:E; try discriminate.
  exists g, (Env R_arith (matrices R_arith false false false 40 30 1 8 [] (1 # 2) 20 Q2R Q2R g) (fun _ _ => 1%R) (fun _ => 1%R)),
    (Cfg true true 1 false false false false 0).
  repeat (split; [reflexivity|]). apply matrices_ok; [exact E|unfold supported; auto 10 with datatypes|lia|lia|lia].
Qed.

(** ** C22 *)
(** applySource for one vector and one source type: each grid point receives the sum of the samples of the sources
    located there; other vectors are untouched. *)
Theorem C22_one_type : forall (e : env R_arith) (src : acq R_arith) (t : nat) (r : nm) (ty : stype) (st : state R_arith) (n : nm) (i : Z),
  exec1 e src t (ISrc r ty) st n i = (st n i + (if nm_eqb r n then injected (src ty) t i else 0))%R.
Proof. exact inject_one. Qed.
Print Assumptions C22_one_type.
(** a point without sources keeps its value *)
Theorem C22_unchanged : forall (A : arith) (e : env A) (src : acq A) (t : nat) (r : nm) (ty : stype) (st : state A) (n : nm) (i : Z),
  (forall js, In js (src ty) -> fst js <> i) -> exec1 e src t (ISrc r ty) st n i = st n i.
Proof. exact inject_none. Qed.
Print Assumptions C22_unchanged.
(** all sources at the end of one time step, for every solver *)
Theorem C22_step : forall (e : env R_arith) (s : solver) (c : cfg) (src : acq R_arith) (t : nat) (st : state R_arith) (n : nm) (i : Z),
  In s all_solvers ->
  exec e src t (step_prog s c) st n i =
  (exec e src t (s_run s c) st n i +
   Rsum (map (fun ty => match s_inj s ty with
                        | Some rs => Rsum (map (fun r => if nm_eqb r n then injected (src ty) t i else 0) rs)
                        | None => 0 end) (s_types s)))%R.
Proof. exact inject_step. Qed.
Print Assumptions C22_step.
Example C22_ex : (injected [(7%Z, fun t => INR t); (3%Z, fun _ => 1); (7%Z, fun _ => 10)] 2 7 = 12 /\
  injected [(7%Z, fun t => INR t); (3%Z, fun _ => 1); (7%Z, fun _ => 10)] 2 5 = 0)%R.
Proof. cbn. lra. Qed.

(** ** C23, first half *)
Theorem C23_zero_stays_zero : forall (s : solver) (c : cfg) (sh : shot R_arith) (st : state R_arith) (m : nat), In s all_solvers ->
  (forall ty t i, injected (sh_src sh ty) t i = 0%R) ->
  (forall n, In n (s_fields s c) -> forall i, st n i = 0%R) -> pml_memory_zero s c st ->
  forall n, (In n (s_fields s c) \/ c_pml c = true /\ In n (s_psi s)) -> forall i, fst (steps s c sh 0 m st) n i = 0%R.
Proof. exact C23_zero_lem. Qed.
Print Assumptions C23_zero_stays_zero.
Example C23_zero_ex : forall ty t i, injected ((fun _ : stype => [(3, fun _ => 1%R); (3, fun _ => (-1)%R)]) ty) t i = 0%R.
Proof. intros. unfold injected. cbn [filter fst]. destruct (Z.eqb 3 i); cbn; lra. Qed.
