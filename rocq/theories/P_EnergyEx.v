(** Cases meeting the hypotheses of C153-C155. *)
From Coq Require Import QArith Qreals Reals Lra.
From Verif Require Import M_Grid M_Deriv S_Deriv L_Deriv L_Deriv2 M_Prog M_Solvers M_Env M_Surface M_Relax S_Solver S_Step S_Check S_Energy L_Env P_Solver2 P_Check P_Energy.
Open Scope R_scope.
Open Scope list_scope.

(** ** cases meeting the hypotheses *)
Lemma cfl_ex p D : fd_h p = 1 -> (0 < D <= 3)%Z -> 1 / 10 < cfl_limit p D (Q2R (1 # 2)) 2.
Proof.
  intros Hp HD. unfold cfl_limit. rewrite Hp, Rmult_1_l. assert (HR : 0 < IZR D <= 3) by (split; [apply IZR_lt|apply IZR_le]; lia).
  assert (S0 : 0 < sqrt (IZR D)) by (apply sqrt_lt_R0; lra). pose proof (sqrt_sqrt (IZR D) ltac:(lra)) as S1. assert (sqrt (IZR D) < 2) by nra.
  replace (Q2R (1 # 2)) with (1 / 2) by (unfold Q2R; cbn; lra). apply (Rmult_lt_reg_r (sqrt (IZR D) * 2)); [lra|]. unfold Rdiv at 2. rewrite Rmult_assoc, Rinv_l by lra. lra.
Qed.
Lemma matrices_uniform a b c nx ny nz p rest DH fuel cvs cv g coef sca : uniform (Env R_arith (matrices R_arith a b c nx ny nz p rest DH fuel cvs cv g) coef sca).
Proof.
  intros i. cbn [e_mat]. unfold matrices. destruct (index2coordinate g i) as [[x y z]| | |]; cbv beta iota zeta delta [String.eqb Ascii.eqb Bool.eqb orb nm_s]; repeat split; reflexivity.
Qed.
(** order 2, grid 5 x 4 x 3, spacing 1/2, time step 1/10, pWaveModulus 3, all other coefficients 1 *)
Definition ex_env (coef : nm -> Z -> R) (sca : nm -> R) (g : grid) : env R_arith :=
  Env R_arith (matrices R_arith true false false 5 4 3 2 [] (1 # 2) 20 (fun q => Q2R q * (1 / 10 / Q2R (1 # 2))) Q2R g) coef sca.
Definition ex_coef (n : nm) (_ : Z) : R := if nm_eqb n "pWaveModulus"%string then 3 else 1.
Lemma ex_env_ok coef sca : exists g e, uniform e /\
  (forall c, @fd_matrices R_arith e c true false false 5 4 3 2 [] (1 # 2) 20 (fun q => Q2R q * (1 / 10 / Q2R (1 # 2))) Q2R g) /\ e_coef e = coef /\ e_sca e = sca.
Proof.
  destruct (mk_regular 5 4 3) as [g| | |] eqn:EG; try discriminate. exists g, (ex_env coef sca g). split; [apply matrices_uniform|].
  split; [|split; reflexivity]. intros c. apply matrices_ok; [exact EG|left; reflexivity|lia|lia|lia].
Qed.
Example C153_ex : exists g e c, closed_box c /\ uniform e /\ supported 2 /\ (2 <= 3)%Z /\
  @fd_matrices R_arith e c true false false 5 4 3 2 [] (1 # 2) 20 (fun q => Q2R q * (1 / 10 / Q2R (1 # 2))) Q2R g /\
  (forall S axes, acoustic_setting S axes -> (forall i, 0 < pmod e i <= 3) /\ (forall a i, In a axes -> 0 < e_coef e (buoyancy axes a) i <= 1) /\
     3 * 1 <= 2 * 2 /\ 1 / 10 < cfl_limit 2 (Z.of_nat (length axes)) (Q2R (1 # 2)) 2) /\
  (forall S axes comps, elastic_setting S axes comps -> definite axes comps (pmod e) (smod e) /\ moduli_below axes comps (pmod e) (smod e) 1 1 /\
     (forall a i, In a comps -> 0 < e_coef e (buoyancy axes a) i <= 1) /\ stiffness comps 1 1 * 1 <= 2 * 2 /\ 1 / 10 < cfl_limit 2 (Z.of_nat (length axes)) (Q2R (1 # 2)) 2).
Proof.
  destruct (ex_env_ok ex_coef (fun _ => 1)) as (g & e & HU & HM & EC & ES).
  exists g, e, (Cfg false false 0 false false false false 0).
  split; [repeat split; discriminate|]. split; [exact HU|]. split; [left; reflexivity|]. split; [lia|].
  split; [apply HM|]. clear HM HU. unfold definite, moduli_below, relaxedP, relaxedM, unrelaxedP, unrelaxedM, relaxP, relaxM, pmod, smod, taus. rewrite ?EC.
  pose proof (cfl_ex 2 2 fd_h_2 ltac:(lia)) as C2. pose proof (cfl_ex 2 3 fd_h_2 ltac:(lia)) as C3. split.
  - intros S axes HS. split; [intros i; unfold pmod; cbn; lra|].
    split; [intros a i Ha; destruct HS as [(_ & ->)|(_ & ->)]; destruct a; cbn; lra|]. split; [lra|]. destruct HS as [(_ & ->)|(_ & ->)]; assumption.
  - intros S axes comps [(_ & -> & ->)|[(_ & -> & ->)|(_ & -> & ->)]];
    (split; [intros i; split; [unfold pmod, smod; cbn; lra|intros (a & b) _; destruct a, b; cbn; lra]|]);
    (split; [intros i; split; [unfold pmod, smod; cbn; lra|split; [cbn; lra|intros (a & b) _; destruct a, b; cbn; lra]]|]);
    (split; [intros a i _; destruct a; cbn; lra|]); (split; [cbn; lra|assumption]).
Qed.
(** two relaxation mechanisms with tauP = tauS = 1/8: unrelaxed moduli 15/4 and 5/4 *)
Definition ex_f (l : nat) : R := INR l + 1.
Definition ex_coef_v (n : nm) (_ : Z) : R :=
  let '(N x l) := n in if String.eqb x "pWaveModulus" then 3 else if existsb (String.eqb x) ["tauP"; "tauS"; "tauSAverageXY"; "tauSAverageXZ"; "tauSAverageYZ"]%string then 1 / 8
  else if existsb (String.eqb x) ["onePlusLtauP"; "onePlusLtauS"]%string then 5 / 4 else 1.
Definition ex_sca_v (n : nm) : R :=
  let '(N x l) := n in if String.eqb x "inverseRelaxationTime" then inverseRelaxationTime ex_f l else if String.eqb x "viscoCoeff1" then viscoCoeff1 (1 / 10) ex_f l
  else if String.eqb x "viscoCoeff2" then viscoCoeff2 (1 / 10) ex_f l else 1 / 20.
Example C154_ex : exists g e c, closed_box c /\ c_fs c = 0%Z /\ c_L c = 2%nat /\ uniform e /\
  @fd_matrices R_arith e c true false false 5 4 3 2 [] (1 # 2) 20 (fun q => Q2R q * (1 / 10 / Q2R (1 # 2))) Q2R g /\
  visco_prepared e (1 / 10) ex_f (c_L c) /\ (forall i, 0 < pmod e i) /\ (forall i, 0 <= e_coef e "tauP"%string i) /\
  (forall S axes comps, visco_setting S axes comps ->
     definite axes comps (relaxedP (unrelaxedP e 2) 2 (relaxP e)) (relaxedM (unrelaxedM e 2) 2 (relaxM e)) /\ definite axes comps (relaxP e) (relaxM e) /\
     moduli_below axes comps (unrelaxedP e 2) (unrelaxedM e 2) (5 / 4) (5 / 4) /\
     (forall a i, In a comps -> 0 < e_coef e (buoyancy axes a) i <= 1) /\ stiffness comps (5 / 4) (5 / 4) * 1 <= 2 * 2 /\ 1 / 10 < cfl_limit 2 (Z.of_nat (length axes)) (Q2R (1 # 2)) 2).
Proof.
  destruct (ex_env_ok ex_coef_v ex_sca_v) as (g & e & HU & HM & EC & ES).
  exists g, e, (Cfg false false 0 false false false false 2).
  split; [repeat split; discriminate|]. split; [reflexivity|]. split; [reflexivity|]. split; [exact HU|].
  split; [apply HM|]. clear HM HU. unfold definite, moduli_below, relaxedP, relaxedM, unrelaxedP, unrelaxedM, relaxP, relaxM, pmod, smod, taus. rewrite ?EC.
  split. { split; rewrite ?EC, ?ES; try (intros; reflexivity); try (intros i; unfold onePlusLtau; cbn; lra). cbn. lra. }
  split; [intros i; unfold pmod; cbn; lra|]. split; [intros i; cbn; lra|].
  pose proof (cfl_ex 2 2 fd_h_2 ltac:(lia)) as C2. pose proof (cfl_ex 2 3 fd_h_2 ltac:(lia)) as C3.
  intros S axes comps [(_ & -> & ->)|[(_ & -> & ->)|(_ & -> & ->)]];
    (split; [intros i; split; [unfold relaxedP, relaxedM, unrelaxedP, unrelaxedM, relaxP, relaxM, pmod, smod, taus; cbn; lra|
       intros (a & b) _; unfold relaxedM, unrelaxedM, relaxM, smod, taus; destruct a, b; cbn; lra]|]);
    (split; [intros i; split; [unfold relaxP, relaxM, pmod, smod, taus; cbn; lra|intros (a & b) _; unfold relaxM, smod, taus; destruct a, b; cbn; lra]|]);
    (split; [intros i; split; [unfold unrelaxedP, unrelaxedM, pmod, smod; cbn; lra|split; [unfold unrelaxedM, smod; cbn; lra|intros (a & b) _; unfold unrelaxedM, smod; destruct a, b; cbn; lra]]|]);
    (split; [intros a i _; destruct a; cbn; lra|]); (split; [cbn; lra|assumption]).
Qed.
(** permittivity 2, conductivity 3, inverse permeability 1 *)
Definition ex_coef_m (n : nm) (_ : Z) : R :=
  let '(N x l) := n in if existsb (String.eqb x) ["CaAverageX"; "CaAverageY"; "CaAverageZ"]%string then getCa 2 3 (1 / 10)
  else if existsb (String.eqb x) ["CbAverageX"; "CbAverageY"; "CbAverageZ"]%string then getCb 2 3 (1 / 10) else 1.
Example C154_maxwell_ex : exists g e c, closed_box c /\ uniform e /\
  @fd_matrices R_arith e c true false false 5 4 3 2 [] (1 # 2) 20 (fun q => Q2R q * (1 / 10 / Q2R (1 # 2))) Q2R g /\
  (forall a, em_prepared e (1 / 10) (up a) (fun _ => 2) (fun _ => 3)) /\
  (forall S axes es hs, em_setting S axes es hs -> (forall a i, In a hs -> 0 < e_coef e (inv_mu a) i <= 1) /\ 1 / 2 <= 2 * 2 /\
     1 / 10 < cfl_limit 2 (Z.of_nat (length axes)) (Q2R (1 # 2)) 2).
Proof.
  destruct (ex_env_ok ex_coef_m (fun _ => 1)) as (g & e & HU & HM & EC & ES).
  exists g, e, (Cfg false false 0 false false false false 0).
  split; [repeat split; discriminate|]. split; [exact HU|].
  split; [apply HM|]. clear HM HU. unfold definite, moduli_below, relaxedP, relaxedM, unrelaxedP, unrelaxedM, relaxP, relaxM, pmod, smod, taus. rewrite ?EC.
  split; [intros []; (split; intros i; rewrite EC; reflexivity)|].
  pose proof (cfl_ex 2 2 fd_h_2 ltac:(lia)) as C2. pose proof (cfl_ex 2 3 fd_h_2 ltac:(lia)) as C3.
  intros S axes es hs H. split; [intros a i _; destruct a; cbn; lra|]. split; [lra|]. destruct H as [(_ & -> & _)|[(_ & -> & _)|(_ & -> & _)]]; assumption.
Qed.
