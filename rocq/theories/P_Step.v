(** Properties C93-C95: one time step of every forward solver is the staggered-grid discretisation of the wave equation it
    is named after (S_Step.v). *)
From Coq Require Import QArith Qreals Reals Lra Lia FunctionalExtensionality.
From Verif Require Import M_Grid M_Prog M_Solvers M_Surface M_Relax S_Solver S_Step L_Step L_Loop L_StepE L_StepA L_StepM L_StepN L_StepV.
Open Scope R_scope.
Open Scope list_scope.

(** The points of the free surface of the image method. *)
Definition surface_of (c : cfg) (g : grid) (i : Z) : bool :=
  ((c_fs c =? 1)%Z && match locatedOnSurface g i with Ok true => true | _ => false end)%bool.
(** With free surface (FreeSurface = 1) the vectors that the free surface object has computed (M_Surface.v). *)
Definition elastic_surface (e : env R_arith) (c : cfg) (g : grid) : Prop := c_fs c = 1%Z -> surface_vectors e g /\
  (forall i, e_coef e "scaleVerticalUpdate"%string i = scaleVerticalUpdate g (e_coef e "pWaveModulus"%string) (e_coef e "sWaveModulus"%string) i) /\
  (forall i, e_coef e "scaleHorizontalUpdate"%string i = scaleHorizontalUpdate g (e_coef e "pWaveModulus"%string) (e_coef e "sWaveModulus"%string) i).
Definition viscoelastic_surface (e : env R_arith) (c : cfg) (g : grid) (f : nat -> R) (DT : R) : Prop := c_fs c = 1%Z ->
  let pi := e_coef e "pWaveModulus"%string in let mu := e_coef e "sWaveModulus"%string in
  let pu i := pi i * e_coef e "onePlusLtauP"%string i in let mu_ i := mu i * e_coef e "onePlusLtauS"%string i in
  let dp i := pi i * e_coef e "tauP"%string i in let dm i := mu i * e_coef e "tauS"%string i in
  surface_vectors e g /\
  (forall i, e_coef e "scaleStressVerticalUpdate"%string i = scaleStressVerticalUpdate g pu mu_ i) /\
  (forall i, e_coef e "scaleStressHorizontalUpdate"%string i = scaleStressHorizontalUpdate g pu mu_ i) /\
  (forall l i, (l < c_L c)%nat -> e_coef e (N "scaleRelaxationVerticalUpdate" l) i =
     scaleRelaxationVerticalUpdate g dp dm (viscoCoeff2 DT f l) (relaxationTime f l) i) /\
  (forall l i, (l < c_L c)%nat -> e_coef e (N "scaleRelaxationHorizontalUpdate" l) i =
     scaleRelaxationHorizontalUpdate g pu mu_ dp dm (viscoCoeff2 DT f l) (relaxationTime f l) i).

Lemma surface_of_1 c g i : c_fs c = 1%Z -> surface_of c g i = match locatedOnSurface g i with Ok true => true | _ => false end.
Proof. intros H. unfold surface_of. rewrite H. reflexivity. Qed.
Lemma surface_of_0 c g i : c_fs c <> 1%Z -> surface_of c g i = false.
Proof. intros H. unfold surface_of. rewrite (proj2 (Z.eqb_neq _ _) H). reflexivity. Qed.
Ltac rfield := real; apply (Rplus_eq_reg_l 0); field.
Ltac surf_cases E c g i := rewrite (surface_of_1 c g i E); unfold setZeroFreeSurface, selectFreeSurface; destruct (locatedOnSurface g i) as [[|]| | |].

Lemma surf_vec_of e c g : elastic_surface e c g -> (forall i, 0 < e_coef e "pWaveModulus"%string i) -> surf_vec e c (surface_of c g).
Proof.
  intros H HP. split.
  - intros E i. destruct (H E) as ((H1 & H2) & H3 & H4). unfold nm_s in *. rewrite H1. surf_cases E c g i; reflexivity.
  - intros E i. destruct (H E) as ((H1 & H2) & H3 & H4). unfold nm_s in *. rewrite H3. unfold scaleVerticalUpdate. surf_cases E c g i;
    lazy beta iota zeta delta [pmod smod axis_eqb append nm_s]; rring.
  - intros E i. destruct (H E) as ((H1 & H2) & H3 & H4). specialize (HP i). unfold nm_s in *. rewrite H4. unfold scaleHorizontalUpdate. surf_cases E c g i;
    lazy beta iota zeta delta [pmod smod axis_eqb append nm_s]; rfield; lra.
  - intros E i. apply surface_of_0; exact E.
  - intros i. specialize (HP i). unfold pmod, nm_s in *. lra.
Qed.

(** ** C93: elastic, SH and acoustic waves *)
Theorem C93_elastic : forall (g : grid) (e : env R_arith) (c : cfg) (src : acq R_arith) (t : nat) (st : state R_arith) DT tau dP dM,
  uniform e -> no_interpolation c -> elastic_surface e c g -> (forall i, 0 < e_coef e "pWaveModulus"%string i) ->
  elastic_step e c st [AX; AY] [AX; AY] (surface_of c g) (pmod e) (smod e) 0 tau DT dP dM (exec e src t (s_run FD2Delastic c) st) /\
  elastic_step e c st [AX; AY; AZ] [AX; AY; AZ] (surface_of c g) (pmod e) (smod e) 0 tau DT dP dM (exec e src t (s_run FD3Delastic c) st).
Proof.
  intros g e c src t st DT tau dP dM HU HI HS HP. pose proof (surf_vec_of e c g HS HP) as SV. split.
  - apply step_2Delastic; assumption.
  - apply step_3Delastic; assumption.
Qed.
Print Assumptions C93_elastic.

(** SH waves: motion along z, fields vary with x and y; no normal stress, hence no vector of the free surface. *)
Theorem C93_sh : forall (e : env R_arith) (c : cfg) (src : acq R_arith) (t : nat) (st : state R_arith) surface DT tau dP dM, uniform e ->
  elastic_step e c st [AX; AY] [AZ] surface (pmod e) (smod e) 0 tau DT dP dM (exec e src t (s_run FD2Dsh c) st).
Proof. intros. apply step_2Dsh; assumption. Qed.
Print Assumptions C93_sh.

Theorem C93_acoustic : forall (g : grid) (e : env R_arith) (c : cfg) (src : acq R_arith) (t : nat) (st : state R_arith),
  no_interpolation c -> (c_fs c = 1%Z -> surface_vectors e g) ->
  acoustic_step e c st [AX; AY] (surface_of c g) (exec e src t (s_run FD2Dacoustic c) st) /\
  acoustic_step e c st [AX; AY; AZ] (surface_of c g) (exec e src t (s_run FD3Dacoustic c) st).
Proof.
  intros g e c src t st HI HS. 
  assert (Hz : c_fs c = 1%Z -> forall i, e_coef e (N "setZeroFreeSurface" 0) i = if surface_of c g i then 0 else 1).
  { intros E i. destruct (HS E) as (H1 & _). unfold nm_s in H1. rewrite H1. surf_cases E c g i; reflexivity. }
  pose proof (fun E i => surface_of_0 c g i E) as Hs. split; [apply step_2Dacoustic | apply step_3Dacoustic]; assumption.
Qed.
Print Assumptions C93_acoustic.

(** ** C94: viscoelastic waves *)
Lemma visco_surf_of e c g f DT : 0 < DT -> (forall l, (l < c_L c)%nat -> 0 < f l) -> visco_prepared e DT f (c_L c) -> viscoelastic_surface e c g f DT ->
  (forall i, 0 < e_coef e "pWaveModulus"%string i) -> (forall i, 0 <= e_coef e "tauP"%string i) -> visco_surf e c f DT (surface_of c g).
Proof.
  intros HD Hf VP H HP HT.
  assert (HU : forall i, 0 < unrelaxedP e (c_L c) i).
  { intros i. unfold unrelaxedP, pmod. apply Rmult_lt_0_compat; [apply HP|]. pose proof (pos_INR (c_L c)). pose proof (Rmult_le_pos _ _ H0 (HT i)). lra. }
  assert (EP : forall i, e_coef e "pWaveModulus"%string i * e_coef e "onePlusLtauP"%string i = unrelaxedP e (c_L c) i) by (intros i; rewrite (vp_P _ _ _ _ VP); reflexivity).
  assert (ES : forall i, e_coef e "sWaveModulus"%string i * e_coef e "onePlusLtauS"%string i = unrelaxedM e (c_L c) AX AX i) by (intros i; rewrite (vp_S _ _ _ _ VP); reflexivity).
  split.
  - intros E i. destruct (H E) as ((H1 & H2) & _). unfold nm_s in *. rewrite H1. surf_cases E c g i; reflexivity.
  - intros E i. destruct (H E) as ((H1 & H2) & _). unfold nm_s in *. rewrite H2. surf_cases E c g i; reflexivity.
  - intros E i. destruct (H E) as (_ & H3 & _). unfold nm_s in *. rewrite H3. unfold scaleStressVerticalUpdate. rewrite EP, ES. surf_cases E c g i; rring.
  - intros E i. destruct (H E) as (_ & _ & H3 & _). unfold nm_s in *. rewrite H3. unfold scaleStressHorizontalUpdate. rewrite EP, ES.
    pose proof (HU i). surf_cases E c g i; rfield; lra.
  - intros E l i Hl. destruct (H E) as (_ & _ & _ & H3 & _). rewrite H3 by exact Hl. unfold scaleRelaxationVerticalUpdate, inverseRelaxationTime, relaxM, relaxP.
    pose proof (Hf l Hl). pose proof PI_RGT_0. surf_cases E c g i; lazy beta iota zeta delta [pmod smod taus axis_eqb append nm_s]; rfield; unfold relaxationTime; 
    apply Rgt_not_eq; (apply Rdiv_lt_0_compat; [lra|]; apply Rmult_lt_0_compat; lra).
  - intros E l i Hl. destruct (H E) as (_ & _ & _ & _ & H3). rewrite H3 by exact Hl. unfold scaleRelaxationHorizontalUpdate, inverseRelaxationTime, relaxM, relaxP. rewrite EP, ES.
    pose proof (Hf l Hl). pose proof PI_RGT_0. pose proof (HU i).
    assert (0 < relaxationTime f l) by (unfold relaxationTime; apply Rdiv_lt_0_compat; [lra|]; apply Rmult_lt_0_compat; lra).
    surf_cases E c g i; lazy beta iota zeta delta [pmod smod taus axis_eqb append nm_s]; rfield; split; lra.
  - intros E i. apply surface_of_0; exact E.
  - intros i. specialize (HU i). lra.
Qed.

Theorem C94_viscoelastic : forall (g : grid) (e : env R_arith) (c : cfg) (src : acq R_arith) (t : nat) (st : state R_arith) (f : nat -> R) (DT : R),
  uniform e -> 0 < DT -> (forall l, (l < c_L c)%nat -> 0 < f l) -> visco_prepared e DT f (c_L c) -> viscoelastic_surface e c g f DT ->
  (forall i, 0 < e_coef e "pWaveModulus"%string i) -> (forall i, 0 <= e_coef e "tauP"%string i) ->
  (c_fs c = 0%Z \/ c_fs c = 1%Z ->
   elastic_step e c st [AX; AY] [AX; AY] (surface_of c g) (unrelaxedP e (c_L c)) (unrelaxedM e (c_L c)) (c_L c) (relaxationTime f) DT (relaxP e) (relaxM e)
     (exec e src t (s_run FD2Dviscoelastic c) st)) /\
  elastic_step e c st [AX; AY; AZ] [AX; AY; AZ] (surface_of c g) (unrelaxedP e (c_L c)) (unrelaxedM e (c_L c)) (c_L c) (relaxationTime f) DT (relaxP e) (relaxM e)
    (exec e src t (s_run FD3Dviscoelastic c) st).
Proof.
  intros g e c src t st f DT HU HD Hf VP HS HP HT. pose proof (visco_surf_of e c g f DT HD Hf VP HS HP HT) as VS. split.
  - intros HF. apply step_2Dviscoelastic; assumption.
  - apply step_3Dviscoelastic; assumption.
Qed.
Print Assumptions C94_viscoelastic.

Theorem C94_viscosh : forall (e : env R_arith) (c : cfg) (src : acq R_arith) (t : nat) (st : state R_arith) surface (f : nat -> R) (DT : R),
  uniform e -> 0 < DT -> (forall l, (l < c_L c)%nat -> 0 < f l) -> visco_prepared e DT f (c_L c) ->
  elastic_step e c st [AX; AY] [AZ] surface (unrelaxedP e (c_L c)) (unrelaxedM e (c_L c)) (c_L c) (relaxationTime f) DT (relaxP e) (relaxM e)
    (exec e src t (s_run FD2Dviscosh c) st).
Proof. intros. apply step_2Dviscosh; assumption. Qed.
Print Assumptions C94_viscosh.

(** ** C95: electromagnetic waves *)
(** The PML coefficients in x direction at the half points are those at the full points; without this the three dimensional
    solvers differ, see below. *)
Definition same_x_coefficients (e : env R_arith) : Prop := forall i,
  e_coef e "a_x_half"%string i = e_coef e "a_x"%string i /\ e_coef e "b_x_half"%string i = e_coef e "b_x"%string i.

Theorem C95_maxwell : forall (e : env R_arith) (c : cfg) (src : acq R_arith) (t : nat) (st : state R_arith) (eps sigma : axis -> Z -> R) tau g DT,
  uniform e -> 0 < DT -> (forall a i, 0 < eps a i) -> (forall a i, 0 <= sigma a i) ->
  ((forall a, has [AX; AY] a = true -> em_prepared e DT (up a) (eps a) (sigma a)) ->
   maxwell_step e c st [AX; AY] [AX; AY] [AZ] eps sigma 0 tau g DT (exec e src t (s_run FD2Demem c) st)) /\
  (em_prepared e DT "Z" (eps AZ) (sigma AZ) ->
   maxwell_step e c st [AX; AY] [AZ] [AX; AY] eps sigma 0 tau g DT (exec e src t (s_run FD2Dtmem c) st)) /\
  ((forall a, em_prepared e DT (up a) (eps a) (sigma a)) -> (c_pml c = true -> same_x_coefficients e) ->
   maxwell_step e c st [AX; AY; AZ] [AX; AY; AZ] [AX; AY; AZ] eps sigma 0 tau g DT (exec e src t (s_run FD3Demem c) st)).
Proof.
  intros e c src t st eps sigma tau g DT HU HD He Hs. split; [|split].
  - intros P. apply step_2Demem; assumption.
  - intros P. apply step_2Dtmem; try assumption. intros [] Ha; try discriminate Ha. exact P.
  - intros P Hx. apply step_3Demem; try assumption. intros a _. apply P.
Qed.
Print Assumptions C95_maxwell.

Lemma debye_code : forall (e : env R_arith) (c : cfg) (src : acq R_arith) (t : nat) (st : state R_arith) (f : nat -> R)
  (eps sigma tau tauS : axis -> Z -> R) (eps0 DT : R),
  let prepared a := viscoem_prepared e DT f (c_L c) (up a) (eps a) (sigma a) (tau a) (tauS a) eps0 in
  let epsO a i := epsOptical (eps a i) (sigma a i) (tau a i) (tauS a i) eps0 in
  let sigmaO a i := sigmaOptical (c_L c) f (eps a i) (sigma a i) (tau a i) in
  let g a l i := eps a i * tau a i / (INR (c_L c) * relaxationTime f l) in
  uniform e -> 0 < DT -> (forall l, (l < c_L c)%nat -> 0 < f l) -> 0 < eps0 ->
  (forall a i, 0 <= eps a i) -> (forall a i, 0 <= sigma a i) -> (forall a i, 0 <= tau a i) ->
  ((forall a, has [AX; AY] a = true -> prepared a) ->
   maxwell_step e c st [AX; AY] [AX; AY] [AZ] epsO sigmaO (c_L c) (relaxationTime f) g DT (exec e src t (s_run FD2Dviscoemem c) st)) /\
  (prepared AZ ->
   maxwell_step e c st [AX; AY] [AZ] [AX; AY] epsO sigmaO (c_L c) (relaxationTime f) g DT (exec e src t (s_run FD2Dviscotmem c) st)) /\
  ((forall a, prepared a) -> (c_pml c = true -> same_x_coefficients e) ->
   maxwell_step e c st [AX; AY; AZ] [AX; AY; AZ] [AX; AY; AZ] epsO sigmaO (c_L c) (relaxationTime f) g DT (exec e src t (s_run FD3Dviscoemem c) st)).
Proof.
  intros e c src t st f eps sigma tau tauS eps0 DT prepared epsO sigmaO g HU HD Hf H0 He Hs Ht.
  assert (HO : forall a i, 0 < epsO a i).
  { intros a i. unfold epsO, epsOptical. destruct (Rlt_dec _ _) as [L|L]; lra. }
  assert (HQ : forall a i, 0 <= sigmaO a i).
  { intros a i. unfold sigmaO, sigmaOptical. apply Rplus_le_le_0_compat; [|apply Hs]. apply Rmult_le_pos; [|apply He]. apply Rmult_le_pos; [apply Ht|].
    assert (HS : 0 <= Rsum (map (fun l => 1 / relaxationTime f l) (seq 0 (c_L c)))).
    { assert (G : forall l, (forall x, In x l -> (x < c_L c)%nat) -> 0 <= Rsum (map (fun l => 1 / relaxationTime f l) l)).
      { induction l as [|x l IH]; intros Hl; [unfold Rsum; cbn; lra|]. unfold Rsum in *. cbn [map fold_right]. apply Rplus_le_le_0_compat; [|apply IH; intros; apply Hl; right; assumption].
        pose proof (Hf x (Hl x (or_introl eq_refl))). pose proof PI_RGT_0. assert (0 < 2 * PI * f x) by (apply Rmult_lt_0_compat; lra).
        unfold relaxationTime. replace (1 / (1 / (2 * PI * f x))) with (2 * PI * f x) by (field; lra). lra. }
      apply G. intros x Hx. apply in_seq in Hx. lia. }
    destruct (c_L c) as [|L]; [unfold Rsum; cbn; unfold Rdiv; lra|].
    apply Rle_mult_inv_pos; [exact HS|apply lt_0_INR; lia]. }
  split; [|split].
  - intros P. apply (step_2Dviscoemem e c src t st HU f eps sigma tau tauS eps0 DT); assumption.
  - intros P. apply (step_2Dviscotmem e c src t st HU f eps sigma tau tauS eps0 DT); try assumption. intros [] Ha; try discriminate Ha. exact P.
  - intros P Hx. apply (step_3Dviscoemem e c src t st HU f eps sigma tau tauS eps0 DT); try assumption. intros a _. apply P.
Qed.
(** With Debye relaxation: the optical permittivity eps (1 - tau) + sigma tauS, at least eps0, the optical conductivity
    sigma + eps tau times the mean of the 1 / T_l, the relaxation times T_l = 1 / (2 pi f_l) and the relaxation currents. *)
Theorem C95_debye : forall (e : env R_arith) (c : cfg) (src : acq R_arith) (t : nat) (st : state R_arith) (f : nat -> R)
  (eps sigma tau tauS : axis -> Z -> R) (eps0 DT : R),
  let prepared a := viscoem_prepared e DT f (c_L c) (up a) (eps a) (sigma a) (tau a) (tauS a) eps0 in
  let T l := / (2 * PI * f l) in
  let epsO a i := Rmax eps0 (eps a i * (1 - tau a i) + sigma a i * tauS a i) in
  let sigmaO a i := sigma a i + eps a i * tau a i * (Rsum (map (fun l => 2 * PI * f l) (seq 0 (c_L c))) / INR (c_L c)) in
  let g a l i := eps a i * tau a i / (INR (c_L c) * T l) in
  uniform e -> 0 < DT -> (forall l, (l < c_L c)%nat -> 0 < f l) -> 0 < eps0 ->
  (forall a i, 0 <= eps a i) -> (forall a i, 0 <= sigma a i) -> (forall a i, 0 <= tau a i) ->
  ((forall a, has [AX; AY] a = true -> prepared a) ->
   maxwell_step e c st [AX; AY] [AX; AY] [AZ] epsO sigmaO (c_L c) T g DT (exec e src t (s_run FD2Dviscoemem c) st)) /\
  (prepared AZ ->
   maxwell_step e c st [AX; AY] [AZ] [AX; AY] epsO sigmaO (c_L c) T g DT (exec e src t (s_run FD2Dviscotmem c) st)) /\
  ((forall a, prepared a) -> (c_pml c = true -> same_x_coefficients e) ->
   maxwell_step e c st [AX; AY; AZ] [AX; AY; AZ] [AX; AY; AZ] epsO sigmaO (c_L c) T g DT (exec e src t (s_run FD3Dviscoemem c) st)).
Proof.
  intros e c src t st f eps sigma tau tauS eps0 DT prepared T epsO sigmaO g HU HD Hf H0 He Hs Ht.
  assert (ET : T = relaxationTime f) by (apply functional_extensionality; intros l; unfold T, relaxationTime, Rdiv; ring).
  assert (EE : epsO = fun a i => epsOptical (eps a i) (sigma a i) (tau a i) (tauS a i) eps0).
  { apply functional_extensionality; intros a. apply functional_extensionality; intros i. unfold epsO, epsOptical.
    replace (eps a i * (1 - tau a i)) with ((1 - tau a i) * eps a i) by ring. unfold Rmax.
    destruct (Rle_dec eps0 ((1 - tau a i) * eps a i + sigma a i * tauS a i)), (Rlt_dec ((1 - tau a i) * eps a i + sigma a i * tauS a i) eps0); lra. }
  assert (ES : sigmaO = fun a i => sigmaOptical (c_L c) f (eps a i) (sigma a i) (tau a i)).
  { apply functional_extensionality; intros a. apply functional_extensionality; intros i. unfold sigmaO, sigmaOptical.
    replace (Rsum (map (fun l => 1 / relaxationTime f l) (seq 0 (c_L c)))) with (Rsum (map (fun l => 2 * PI * f l) (seq 0 (c_L c)))); [ring|].
    apply Rsum_ext. intros l Hl. apply in_seq in Hl. pose proof (Hf l ltac:(lia)). pose proof PI_RGT_0. unfold relaxationTime. field. split; lra. }
  assert (EG : g = fun a l i => eps a i * tau a i / (INR (c_L c) * relaxationTime f l)) by (unfold g; rewrite ET; reflexivity).
  rewrite EG, ES, EE, ET. exact (debye_code e c src t st f eps sigma tau tauS eps0 DT HU HD Hf H0 He Hs Ht).
Qed.
Print Assumptions C95_debye.

(** ** Where the equations are not those *)
(** The convolutional PML of the three dimensional electromagnetic solvers advances the memory of d hY / d x, a value at a full point, with
    the coefficients of the half points (CPMLEM3D.cpp apply_hyx). *)
Theorem C95_hyx : forall (e : env R_arith) (c : cfg) (src : acq R_arith) (t : nat) (st : state R_arith) (i : Z), uniform e -> c_pml c = true ->
  let dhy := Dmv e "" AX true (new_h e c st [AX; AY; AZ] [AX; AY; AZ] AY) i in
  exec e src t (s_run FD3Demem c) st "psi_hyx"%string i = e_coef e "b_x_half"%string i * st "psi_hyx"%string i + e_coef e "a_x_half"%string i * dhy.
Proof.
  intros e c src t st i HU HP dhy. subst dhy. rewrite exec_unstag by exact HU. unfold s_run, FD3Demem, run_3Demem, new_h, curl, grad_e, deriv, memory, Dmv. rewrite HP.
  destruct (c_damp c); lazy beta iota zeta delta [has existsb orb andb axis_eqb next hfield efield inv_mu psi_e pml_coef dmat up low up2 append nm_s]; ev; lazy beta iota zeta; change (num R_arith) with R;
  match goal with |- _ = _ + _ * mv _ ?g => match goal with |- _ + _ * mv _ ?f = _ => replace f with g by (apply functional_extensionality; intros j; rring); rring end end.
Qed.
Print Assumptions C95_hyx.
Theorem C95_pml_refuted : exists (e : env R_arith) (c : cfg) (st : state R_arith) (eps sigma : axis -> Z -> R),
  uniform e /\ (forall a i, 0 < eps a i) /\ (forall a i, 0 <= sigma a i) /\ (forall a, em_prepared e 1 (up a) (eps a) (sigma a)) /\ c_pml c = true /\
  forall src t tau g, ~ maxwell_step e c st [AX; AY; AZ] [AX; AY; AZ] [AX; AY; AZ] eps sigma 0 tau g 1 (exec e src t (s_run FD3Demem c) st).
Proof.
  set (e := Env R_arith (fun _ _ => []) (fun n _ => if nm_eqb n "b_x"%string then 0 else 1) (fun _ => 0)). set (c := Cfg true false 0 false false false false 0).
  set (st := (fun n _ => if nm_eqb n "psi_hyx"%string then 1 else 0) : state R_arith).
  assert (HU : uniform e) by (intros i; repeat split).
  exists e, c, st, (fun _ _ => 1), (fun _ _ => 0).
  split; [exact HU|]. split; [intros; lra|]. split; [intros; lra|].
  split. { intros []; split; intros i; unfold getCa, getCb, getCinv; cbn; rfield. } split; [reflexivity|].
  intros src t tau g H. destruct H as (_ & _ & _ & H). destruct (H eq_refl AY AX 0%Z eq_refl eq_refl) as (_ & K). specialize (K eq_refl). clear H.
  change (psi_h AY AX) with (N "psi_hyx" 0) in K. pose proof (C95_hyx e c src t st 0%Z HU eq_refl) as V. unfold nm_s in V. cbv zeta in V. rewrite V in K. clear V.
  unfold memory in K. change (pml_coef "b" AX true) with (N "b_x" 0) in K. change (pml_coef "a" AX true) with (N "a_x" 0) in K.
  change (e_coef e (N "b_x" 0) 0%Z) with 0 in K. change (e_coef e (N "a_x" 0) 0%Z) with 1 in K. change (e_coef e (N "b_x_half" 0) 0%Z) with 1 in K.
  change (e_coef e (N "a_x_half" 0) 0%Z) with 1 in K. change (st (N "psi_hyx" 0) 0%Z) with 1 in K. lra.
Qed.
Print Assumptions C95_pml_refuted.

(** In the viscoelastic solvers the unrelaxed modulus of a shear stress is the averaged modulus times 1 + L tauS at the full
    point, not times 1 + L times the averaged tauS that the relaxation equation uses. *)
Definition averagedM (e : env R_arith) (L : nat) (a b : axis) (i : Z) : R := smod e a b i * (1 + INR L * taus e a b i).
Theorem C94_averaged_tauS_refuted : exists (e : env R_arith) (c : cfg) (st : state R_arith) (f : nat -> R) (DT : R),
  uniform e /\ 0 < DT /\ (forall l, (l < c_L c)%nat -> 0 < f l) /\ visco_prepared e DT f (c_L c) /\ c_fs c = 0%Z /\
  (forall i, 0 < e_coef e "pWaveModulus"%string i) /\ (forall i, 0 <= e_coef e "tauP"%string i) /\
  forall src t, ~ elastic_step e c st [AX; AY] [AX; AY] (fun _ => false) (unrelaxedP e (c_L c)) (averagedM e (c_L c)) (c_L c) (relaxationTime f) DT
                    (relaxP e) (relaxM e) (exec e src t (s_run FD2Dviscoelastic c) st).
Proof.
  set (f := fun _ : nat => 1). set (c := Cfg false false 0 false false false false 1).
  set (e := Env R_arith (fun n i => if nm_eqb n "Dxf"%string then [(0%Z, 1)] else [])
     (fun n _ => if nm_eqb n "tauP"%string then 0 else if nm_eqb n "tauSAverageXY"%string then 0 else if nm_eqb n "onePlusLtauS"%string then 2 else 1)
     (fun n => if nm_eqb n "DThalf"%string then 1 / 2 else if nm_eqb n (N "inverseRelaxationTime" 0) then inverseRelaxationTime f 0
               else if nm_eqb n (N "viscoCoeff1" 0) then viscoCoeff1 1 f 0 else viscoCoeff2 1 f 0)).
  set (st := (fun n _ => if nm_eqb n "vY"%string then 1 else 0) : state R_arith).
  assert (HU : uniform e) by (intros i; repeat split).
  assert (HF : forall l, (l < c_L c)%nat -> 0 < f l) by (intros; unfold f; lra).
  assert (VP : visco_prepared e 1 f (c_L c)).
  { split; [intros [|[|]] Hl; cbn in Hl; try lia; reflexivity..|reflexivity|intros i; unfold onePlusLtau; cbn; lra|intros i; unfold onePlusLtau; cbn; lra]. }
  assert (HP : forall i, 0 < e_coef e "pWaveModulus"%string i) by (intros i; cbn; lra).
  assert (HT : forall i, 0 <= e_coef e "tauP"%string i) by (intros i; cbn; lra).
  exists e, c, st, f, 1. repeat (split; [first [assumption|lra|reflexivity]|]).
  intros src t H.
  destruct (mk_regular 3 3 1) as [g| | |] eqn:EG; try discriminate.
  destruct (C94_viscoelastic g e c src t st f 1 HU ltac:(lra) HF VP ltac:(intros E; discriminate E) HP HT) as (H2 & _). specialize (H2 (or_introl eq_refl)).
  destruct H as (_ & H & _). destruct H2 as (_ & H2 & _). specialize (H AX AY 0%Z eq_refl). specialize (H2 AX AY 0%Z eq_refl).
  rewrite H in H2. clear H. revert H2. unfold normal_at_surface. rewrite surface_of_0 by discriminate. cbn [andb axis_eqb]. unfold damped. cbn [c_damp c].
  unfold hooke. cbn [axis_eqb]. unfold grad_s. rewrite surface_of_0 by discriminate. cbn [andb].
  assert (M0 : forall n f i, nm_eqb n "Dxf"%string = false -> mv (A := R_arith) (e_mat e n i) f = 0) by (intros n h i Hn; cbn [e_mat e]; rewrite Hn; apply RMicromega.Q2R_0).
  assert (M1 : forall f i, mv (A := R_arith) (e_mat e "Dxf"%string i) f = f 0%Z) by (intros h i; unfold mv; cbn; rewrite RMicromega.Q2R_0; rring).
  assert (V : new_vel e c st [AX; AY] AY 0%Z = 1).
  { unfold new_vel, sum_axes, Rsum, deriv, Dmv. cbn [map fold_right c_pml c]. rewrite !M0 by reflexivity. change (st (vel AY) 0%Z) with 1. rring. }
  assert (G : grad e c st [AX; AY] [AX; AY] AY AX 0%Z = 1).
  { unfold grad, deriv, Dmv. cbn [has existsb orb andb axis_eqb c_pml c]. change (dmat "" AX (vel_half AY AX)) with (N "Dxf" 0). unfold nm_s in M1. rewrite M1. exact V. }
  assert (G' : grad e c st [AX; AY] [AX; AY] AX AY 0%Z = 0).
  { unfold grad, deriv, Dmv. cbn [has existsb orb andb axis_eqb c_pml c]. apply M0. reflexivity. }
  rewrite G, G'. unfold averagedM, unrelaxedM. 
  change (smod e AX AY 0%Z) with 1. change (taus e AX AY 0%Z) with 0. change (e_coef e "tauS"%string 0%Z) with 1. change (INR (c_L c)) with 1.
  generalize (Rsum (map (fun l => st (rel AX AY l) 0%Z + exec e src t (s_run FD2Dviscoelastic c) st (rel AX AY l) 0%Z) (seq 0 (c_L c)))). intros r. change (st (sig AX AY) 0%Z) with 0. lra.
Qed.
Print Assumptions C94_averaged_tauS_refuted.

(** ForwardSolver2Dviscoelastic.cpp 302 tests [if (useFreeSurface)]: with FreeSurface = 2 the stresses are multiplied by vectors of the free
    surface object that were never computed (ForwardSolver.cpp 40 initialises it for FreeSurface = 1 only). *)
Lemma fs2_syy (e : env R_arith) (src : acq R_arith) (t : nat) (st : state R_arith) (i : Z) :
  exists x, exec e src t (s_run FD2Dviscoelastic (Cfg false false 2 false false false false 0)) st "Syy"%string i = x * e_coef e "setZeroFreeSurface"%string i.
Proof.
  eexists. lazy beta iota zeta delta [s_run FD2Dviscoelastic run_2Dviscoelastic c_pml c_damp c_fs c_L Z.eqb Pos.eqb negb loop seq flat_map map concat app when exchange_2Dviscoelastic]. ev. reflexivity.
Qed.
Theorem C94_free_surface_2_refuted : exists (e : env R_arith) (c : cfg) (g : grid) (st : state R_arith) (f : nat -> R) (DT : R),
  uniform e /\ 0 < DT /\ (forall l, (l < c_L c)%nat -> 0 < f l) /\ visco_prepared e DT f (c_L c) /\ viscoelastic_surface e c g f DT /\
  (forall i, 0 < e_coef e "pWaveModulus"%string i) /\ (forall i, 0 <= e_coef e "tauP"%string i) /\ c_fs c = 2%Z /\
  forall src t, ~ elastic_step e c st [AX; AY] [AX; AY] (surface_of c g) (unrelaxedP e (c_L c)) (unrelaxedM e (c_L c)) (c_L c) (relaxationTime f) DT
                    (relaxP e) (relaxM e) (exec e src t (s_run FD2Dviscoelastic c) st).
Proof.
  set (f := fun _ : nat => 1). set (c := Cfg false false 2 false false false false 0).
  set (e := Env R_arith (fun n i => []) (fun n _ => if nm_eqb n "setZeroFreeSurface"%string then 0 else 1) (fun n => 1 / 2)).
  set (st := (fun n _ => if nm_eqb n "Syy"%string then 1 else 0) : state R_arith).
  destruct (mk_regular 3 3 1) as [g| | |] eqn:EG; try discriminate.
  exists e, c, g, st, f, 1. split; [intros i; repeat split|]. split; [lra|]. split; [intros; unfold f; lra|].
  split. { split; [intros l Hl; cbn in Hl; lia..|reflexivity|intros i; unfold onePlusLtau; cbn; rring|intros i; unfold onePlusLtau; cbn; rring]. }
  split; [intros E; discriminate E|]. split; [intros i; cbn; lra|]. split; [intros i; cbn; lra|]. split; [reflexivity|].
  intros src t H. destruct H as (_ & H & _). specialize (H AY AY 0%Z eq_refl).
  assert (M0 : forall n f i, mv (A := R_arith) (e_mat e n i) f = 0) by (intros; apply RMicromega.Q2R_0).
  assert (G : forall a d, grad e c st [AX; AY] [AX; AY] a d 0%Z = 0) by (intros a d; unfold grad, deriv, Dmv; destruct (_ && _)%bool; [apply M0|reflexivity]).
  destruct (fs2_syy e src t st 0%Z) as (x & V). change (sig AY AY) with (N "Syy" 0) in H. fold c in V. unfold nm_s in V. rewrite V in H. clear V.
  change (e_coef e (N "setZeroFreeSurface" 0) 0%Z) with 0 in H. revert H. unfold normal_at_surface. rewrite surface_of_0 by discriminate. cbn [andb axis_eqb].
  unfold damped. cbn [c_damp c]. unfold hooke. cbn [axis_eqb]. unfold sum_axes, Rsum, grad_s. cbn [map fold_right c_L c seq]. rewrite !surface_of_0 by discriminate. cbn [andb]. rewrite !G.
  change (st (N "Syy" 0) 0%Z) with 1. lra.
Qed.
Print Assumptions C94_free_surface_2_refuted.

(** ** The hypotheses can be met: grid 4 x 3, free surface, PML and damping, two relaxation mechanisms. *)
Example C93_case : exists (g : grid) (e : env R_arith) (c : cfg), mk_regular 4 3 1 = Ok g /\ uniform e /\ no_interpolation c /\ elastic_surface e c g /\
  (forall i, 0 < e_coef e "pWaveModulus"%string i) /\ c_fs c = 1%Z /\ c_pml c = true /\ c_damp c = true /\
  surface_of c g 2 = true /\ surface_of c g 5 = false /\ e_coef e "scaleHorizontalUpdate"%string 2%Z = - (1 / 3).
Proof.
  destruct (mk_regular 4 3 1) as [g| | |] eqn:EG; try discriminate.
  exists g, (Env R_arith (fun n i => [(i, 1); ((i + 1)%Z, -(1))])
    (fun n => if nm_eqb n "setZeroFreeSurface"%string then setZeroFreeSurface g else if nm_eqb n "selectFreeSurface"%string then selectFreeSurface g
              else if nm_eqb n "scaleVerticalUpdate"%string then scaleVerticalUpdate g (fun _ => 3) (fun _ => 1)
              else if nm_eqb n "scaleHorizontalUpdate"%string then scaleHorizontalUpdate g (fun _ => 3) (fun _ => 1)
              else if nm_eqb n "sWaveModulus"%string then fun _ => 1 else fun _ => 3) (fun _ => 1 / 2)), (Cfg true true 1 false false false false 0).
  injection EG as <-. split; [reflexivity|]. split; [intros i; repeat split|]. split; [repeat split|]. split; [intros _; repeat split|].
  split; [intros i; cbn; lra|]. repeat (split; [reflexivity|]). unfold scaleHorizontalUpdate. cbn. rfield.
Qed.
Example C94_case : exists (g : grid) (e : env R_arith) (c : cfg) (f : nat -> R), mk_regular 4 3 1 = Ok g /\ uniform e /\ (forall l, (l < c_L c)%nat -> 0 < f l) /\
  visco_prepared e 1 f (c_L c) /\ viscoelastic_surface e c g f 1 /\ (forall i, 0 < e_coef e "pWaveModulus"%string i) /\ (forall i, 0 <= e_coef e "tauP"%string i) /\
  c_L c = 2%nat /\ c_fs c = 1%Z /\ c_pml c = true /\ surface_of c g 2 = true /\ surface_of c g 5 = false /\ e_coef e "scaleStressVerticalUpdate"%string 2%Z = 4.
Proof.
  destruct (mk_regular 4 3 1) as [g| | |] eqn:EG; try discriminate. set (f := fun l : nat => INR l + 1).
  assert (HF : forall l, 0 < f l) by (intros l; unfold f; pose proof (pos_INR l); lra).
  set (pu := fun _ : Z => 3 * 2). set (mu_ := fun _ : Z => 1 * 1). set (dp := fun _ : Z => 3 * (1 / 2)). set (dm := fun _ : Z => 1 * 0).
  exists g, (Env R_arith (fun n i => [(i, 1); ((i + 1)%Z, -(1))])
    (fun n => let '(N x l) := n in
              if String.eqb x "setZeroFreeSurface" then setZeroFreeSurface g else if String.eqb x "selectFreeSurface" then selectFreeSurface g
              else if String.eqb x "scaleStressVerticalUpdate" then scaleStressVerticalUpdate g pu mu_
              else if String.eqb x "scaleStressHorizontalUpdate" then scaleStressHorizontalUpdate g pu mu_
              else if String.eqb x "scaleRelaxationVerticalUpdate" then scaleRelaxationVerticalUpdate g dp dm (viscoCoeff2 1 f l) (relaxationTime f l)
              else if String.eqb x "scaleRelaxationHorizontalUpdate" then scaleRelaxationHorizontalUpdate g pu mu_ dp dm (viscoCoeff2 1 f l) (relaxationTime f l)
              else if String.eqb x "sWaveModulus" then fun _ => 1 else if String.eqb x "tauP" then fun _ => 1 / 2 else if String.eqb x "onePlusLtauP" then fun _ => 2
              else if String.eqb x "tauS" then fun _ => 0 else if String.eqb x "onePlusLtauS" then fun _ => 1 else fun _ => 3)
    (fun n => let '(N x l) := n in if String.eqb x "inverseRelaxationTime" then inverseRelaxationTime f l else if String.eqb x "viscoCoeff1" then viscoCoeff1 1 f l
              else if String.eqb x "viscoCoeff2" then viscoCoeff2 1 f l else 1 / 2)), (Cfg true true 1 false false false false 2), f.
  injection EG as <-. split; [reflexivity|]. split; [intros i; repeat split|]. split; [intros; apply HF|].
  split. { split; try (intros; reflexivity); intros i; unfold onePlusLtau; cbn; rfield. }
  split; [intros _; repeat split|].
  split; [intros i; cbn; lra|]. split; [intros i; cbn; lra|]. repeat (split; [reflexivity|]). unfold scaleStressVerticalUpdate, pu, mu_. cbn. rring.
Qed.
Example C95_case : exists (e : env R_arith) (f : nat -> R) (eps sigma tau tauS : axis -> Z -> R), uniform e /\ same_x_coefficients e /\
  (forall l, (l < 2)%nat -> 0 < f l) /\ (forall a i, 0 < eps a i) /\ (forall a i, 0 < sigma a i) /\ (forall a i, 0 < tau a i) /\
  forall a, viscoem_prepared e 1 f 2 (up a) (eps a) (sigma a) (tau a) (tauS a) (1 / 4).
Proof.
  set (f := fun l : nat => INR l + 1). set (eo := epsOptical 2 1 (1 / 2) 1 (1 / 4)). set (so := sigmaOptical 2 f 2 1 (1 / 2)).
  exists (Env R_arith (fun n i => [(i, 1); ((i + 1)%Z, -(1))])
    (fun n _ => let '(N x l) := n in if existsb (String.eqb x) ["CaAverageX"; "CaAverageY"; "CaAverageZ"]%string then getCa eo so 1
                else if existsb (String.eqb x) ["CbAverageX"; "CbAverageY"; "CbAverageZ"]%string then getCb eo so 1
                else if existsb (String.eqb x) ["CdAverageX"; "CdAverageY"; "CdAverageZ"]%string then getCd 2 f 2 (1 / 2) 1 l else 1)
    (fun n => let '(N x l) := n in if String.eqb x "Cc" then getCc f 1 l else 1)), f, (fun _ _ => 2), (fun _ _ => 1), (fun _ _ => 1 / 2), (fun _ _ => 1).
  split; [intros i; repeat split|]. split; [intros i; split; reflexivity|]. split; [intros l _; unfold f; pose proof (pos_INR l); lra|].
  split; [intros; lra|]. split; [intros; lra|]. split; [intros; lra|].
  intros []; (split; [split; intros i; reflexivity|intros; reflexivity|intros; reflexivity|reflexivity]).
Qed.
