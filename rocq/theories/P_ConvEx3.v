(** A case meeting the hypotheses of C170: a transverse magnetic field dying out in a conductor. *)
From Coq Require Import QArith Qreals Reals Lra.
From Verif Require Import M_Grid M_Deriv S_Deriv L_Deriv L_Deriv2 M_Prog M_Solvers M_Env M_Relax S_Solver S_Step S_Check S_Energy L_Env L_Diff L_Energy4 P_Solver2 P_Check P_Energy P_EnergyEx S_Taylor S_Conv S_Conv2 L_Conv3 L_Conv6 P_Conv3 P_ConvEx P_ConvEx2.
Open Scope R_scope.
Open Scope list_scope.

(** E_z = exp (- t) phi, H_x = exp (- t) d phi / dy, H_y = - exp (- t) d phi / dx, permittivity 2, conductivity 2 + k2, permeability 1 *)
Definition tm_E (a : axis) (t : R) (r : position) : R := match a with AZ => exp (- t) * phi r | _ => 0 end.
Definition tm_H (a : axis) (t : R) (r : position) : R := match a with AX => exp (- t) * gy r | AY => exp (- t) * - gx r | AZ => 0 end.
Definition ex_coef_c (n : nm) (_ : Z) : R :=
  let '(N x l) := n in if existsb (String.eqb x) ["CaAverageX"; "CaAverageY"; "CaAverageZ"]%string then getCa 2 (2 + k2) (1 / 10)
  else if existsb (String.eqb x) ["CbAverageX"; "CbAverageY"; "CbAverageZ"]%string then getCb 2 (2 + k2) (1 / 10) else 1.
Lemma exp_le t : 0 <= t -> 0 < exp (- t) <= 1.
Proof. intros Ht. split; [apply exp_pos|]. rewrite <- exp_0. destruct (Req_dec t 0) as [->|Hne]; [rewrite Ropp_0; lra|]. apply Rlt_le, exp_increasing. lra. Qed.
Lemma g_small r : Rabs (gx r) <= 1 /\ Rabs (gy r) <= 1.
Proof. exact (conj (grad_small AX AZ r) (grad_small AY AZ r)). Qed.
Lemma amp1 x y k : Rabs x <= 1 -> Rabs y <= 1 -> 0 < k < 1 -> Rabs (x * y) * Rabs k ^ 3 <= 1.
Proof. intros H1 H2 H3. apply (amp 1); assumption. Qed.

Lemma tm_solution (e : env R_arith) T : (forall a i, e_coef e (inv_mu a) i = 1) -> maxwell_solution 5 4 3 2 (1 / 2) (1 / 10) T 1 3 e [AX; AY] [AZ] [AX; AY] (fun _ _ => 2) (fun _ _ => 2 + k2) tm_E tm_H.
Proof.
  intros Hm. destruct k_bounds as (K1 & K2). constructor.
  - intros a x y z t Ha Hx Hy Hz Ht r. exists (fun v d => match v, d with AZ, AX => exp (- t) * gx r | AZ, AY => exp (- t) * gy r | _, _ => 0 end). split; [|split].
    + intros v d Hvd. destruct v; try discriminate Hvd. destruct d; try discriminate Hvd; unfold tm_E; apply (derivable_pt_lim_scal (fun u => phi (shift _ u r))).
      * exact (phi_x AX r ltac:(auto)).
      * exact (phi_x AY r ltac:(auto)).
    + intros v d Hvd. destruct v, d; try reflexivity; discriminate Hvd.
    + rewrite Hm. destruct Ha as [<-|[<-|[]]]; unfold curl_of, tm_H; cbn [next]; apply exp_deriv; ring.
  - intros a x y z t [<-|[]] Hx Hy Hz Ht r i. exists (fun v d => match v, d with AY, AX => exp (- t) * (kx * kx * phi r) | AX, AY => exp (- t) * - (ky * ky * phi r) | AX, AX => exp (- t) * (kx * ky * (sin (kx * (r AX + 1 / 4)) * sin (ky * (r AY + 1 / 4))))
      | AY, AY => exp (- t) * - (kx * ky * (sin (kx * (r AX + 1 / 4)) * sin (ky * (r AY + 1 / 4)))) | _, _ => 0 end). split; [|split].
    + intros v d Hvd. destruct v, d; try discriminate Hvd; unfold tm_H.
      * apply (derivable_pt_lim_scal (fun u => gy (shift AX u r))).
        apply (sin_deriv _ (- ky * sin (ky * (r AY + 1 / 4))) kx (kx * (r AX + 1 / 4) + PI / 2)).
        { intros s. unfold gy, shift. cbn [axis_eqb]. rewrite (cs (kx * _)). replace (kx * (r AX + s + 1 / 4) + PI / 2) with (kx * s + (kx * (r AX + 1 / 4) + PI / 2)) by ring. ring. }
        { replace (kx * 0 + (kx * (r AX + 1 / 4) + PI / 2)) with (PI / 2 + kx * (r AX + 1 / 4)) by ring. rewrite <- (Ropp_involutive (cos (PI / 2 + _))), <- sin_cos. ring. }
      * apply (derivable_pt_lim_scal (fun u => gy (shift AY u r))). exact (grad_x AY r ltac:(auto)).
      * apply (derivable_pt_lim_scal (fun u => - gx (shift AX u r))). apply (deriv_ext _ (fun u => gx (shift AX u r) * -1)); [intros; ring|].
        replace (kx * kx * phi r) with (- (kx * kx * phi r) * -1) by ring. apply deriv_scal. exact (grad_x AX r ltac:(auto)).
      * apply (derivable_pt_lim_scal (fun u => - gx (shift AY u r))).
        apply (sin_deriv _ (kx * sin (kx * (r AX + 1 / 4))) ky (ky * (r AY + 1 / 4) + PI / 2)).
        { intros s. unfold gx, shift. cbn [axis_eqb]. rewrite (cs (ky * _)). replace (ky * (r AY + s + 1 / 4) + PI / 2) with (ky * s + (ky * (r AY + 1 / 4) + PI / 2)) by ring. ring. }
        { replace (ky * 0 + (ky * (r AY + 1 / 4) + PI / 2)) with (PI / 2 + ky * (r AY + 1 / 4)) by ring. rewrite <- (Ropp_involutive (cos (PI / 2 + _))), <- sin_cos. ring. }
    + intros v d Hvd. destruct v, d; try reflexivity; discriminate Hvd.
    + unfold curl_of, tm_E. cbn [next]. apply exp_deriv. unfold k2. field.
  - intros a d [<-|[]] Hd Hne x y z t Hx Hy Hz Ht. set (r := spot (1 / 2) (flip d (e_half AZ)) x y z). destruct (exp_le t (proj1 Ht)) as (E0 & E1).
    assert (A1 : Rabs (exp (- t)) <= 1) by (rewrite Rabs_right; lra). split.
    + destruct Hd as [<-|[<-|[]]].
      * apply (sin_smooth_on _ _ _ _ _ (exp (- t) * cos (ky * (r AY + 1 / 4))) kx (kx * (r AX + 1 / 4) + PI / 2)); [|apply amp1; [exact A1|apply abc1|exact K1]].
        intros u. unfold tm_E, phi, shift. cbn [axis_eqb]. rewrite (cs (kx * _)). replace (kx * (r AX + u + 1 / 4) + PI / 2) with (kx * u + (kx * (r AX + 1 / 4) + PI / 2)) by ring. ring.
      * apply (sin_smooth_on _ _ _ _ _ (exp (- t) * cos (kx * (r AX + 1 / 4))) ky (ky * (r AY + 1 / 4) + PI / 2)); [|apply amp1; [exact A1|apply abc1|exact K2]].
        intros u. unfold tm_E, phi, shift. cbn [axis_eqb]. rewrite (cs (ky * _)). replace (ky * (r AY + u + 1 / 4) + PI / 2) with (ky * u + (ky * (r AY + 1 / 4) + PI / 2)) by ring. ring.
    + intros j Hj Ho. destruct Hd as [<-|[<-|[]]]; cbn [coordinate e_half axis_eqb] in Ho, Hj; unfold tm_E.
      * assert (x = 4 /\ j = 1)%Z as (-> & ->) by lia. unfold phi, shift, spot, coordinate. cbn [axis_eqb e_half].
        replace (kx * (4 * (1 / 2) + 0 + 1 * (1 / 2) + 1 / 4)) with (PI / 2) by (unfold kx; field). rewrite cos_PI2. ring.
      * assert (y = 3 /\ j = 1)%Z as (-> & ->) by lia. unfold phi, shift, spot, coordinate. cbn [axis_eqb e_half].
        replace (ky * (3 * (1 / 2) + 0 + 1 * (1 / 2) + 1 / 4)) with (PI / 2) by (unfold ky; field). rewrite cos_PI2. ring.
  - intros a d Ha Hd Hne x y z t Hx Hy Hz Ht. set (r := spot (1 / 2) (flip d (h_half a)) x y z). destruct (exp_le t (proj1 Ht)) as (E0 & E1).
    assert (A1 : Rabs (exp (- t)) <= 1) by (rewrite Rabs_right; lra). split.
    + destruct Ha as [<-|[<-|[]]], Hd as [<-|[<-|[]]]; try (contradiction Hne; reflexivity).
      * apply (sin_smooth_on _ _ _ _ _ (exp (- t) * (- ky * cos (kx * (r AX + 1 / 4)))) ky (ky * (r AY + 1 / 4))); [|apply amp1; [exact A1| |exact K2]].
        { intros u. unfold tm_H, gy, shift. cbn [axis_eqb]. replace (ky * (r AY + u + 1 / 4)) with (ky * u + ky * (r AY + 1 / 4)) by ring. ring. }
        { apply ab1; [rewrite Rabs_Ropp, Rabs_right; lra|apply abc1]. }
      * apply (sin_smooth_on _ _ _ _ _ (exp (- t) * (kx * cos (ky * (r AY + 1 / 4)))) kx (kx * (r AX + 1 / 4))); [|apply amp1; [exact A1| |exact K1]].
        { intros u. unfold tm_H, gx, shift. cbn [axis_eqb]. replace (kx * (r AX + u + 1 / 4)) with (kx * u + kx * (r AX + 1 / 4)) by ring. ring. }
        { apply ab1; [rewrite Rabs_right; lra|apply abc1]. }
    + intros j Hj Ho. destruct Ha as [<-|[<-|[]]], Hd as [<-|[<-|[]]]; try (contradiction Hne; reflexivity); cbn [coordinate h_half axis_eqb negb] in Ho, Hj; unfold tm_H.
      * assert (y = 0 /\ j = -1)%Z as (-> & ->) by lia. unfold gy, shift, spot, coordinate. cbn [axis_eqb h_half negb].
        match goal with |- context [sin (ky * ?u)] => replace (ky * u) with 0 by (field) end. rewrite sin_0. ring.
      * assert (x = 0 /\ j = -1)%Z as (-> & ->) by lia. unfold gx, shift, spot, coordinate. cbn [axis_eqb h_half negb].
        match goal with |- context [sin (kx * ?u)] => replace (kx * u) with 0 by (field) end. rewrite sin_0. ring.
  - intros a x y z [<-|[]] Hx Hy Hz. assert (X : Rabs (phi (spot (1 / 2) (e_half AZ) x y z)) <= 1) by (apply ab1; apply abc1).
    split; unfold tm_E; apply (smooth_sub _ _ (- (1 / 10 / 2))); try lra; apply exp_smooth; lra.
  - intros a x y z Ha Hx Hy Hz. set (r := spot _ _ _ _ _). destruct (g_small r) as (G1 & G2). destruct Ha as [<-|[<-|[]]]; unfold tm_H; apply exp_smooth; rewrite ?Rabs_Ropp; lra.
Qed.
Example C170_ex : exists e c g (src : acq R_arith) (st : state R_arith), let S := FD2Dtmem in let axes := [AX; AY] in let es := [AZ] in let hs := [AX; AY] in let DT := 1 / 10 in let h := Q2R (1 # 2) in
  let eps (_ : axis) (_ : Z) := 2 in let sigma (_ : axis) (_ : Z) := 2 + k2 in
  em_setting S axes es hs /\ In 2%Z [2; 4; 6; 8]%Z /\ 1 / 2 <= 2 * 2 /\
  @fd_matrices R_arith e c true false false 5 4 3 2 [] (1 # 2) 20 (fun q => Q2R q * (DT / Q2R (1 # 2))) Q2R g /\ closed_box c /\ uniform e /\
  (forall a i, 2 <= eps a i <= 2) /\ (forall a i, 0 <= sigma a i <= 4) /\ (forall a, In a es -> em_prepared e DT (up a) (eps a) (sigma a)) /\
  (forall a i, In a hs -> 1 <= e_coef e (inv_mu a) i <= 1) /\
  (forall ty t i, injected (src ty) t i = 0) /\ DT < cfl_limit 2 (Z.of_nat (length axes)) h 2 /\
  (forall T, maxwell_solution 5 4 3 2 h DT T 1 3 e axes es hs eps sigma tm_E tm_H) /\
  (forall x y z, (0 <= x < 5)%Z -> (0 <= y < 4)%Z -> (0 <= z < 3)%Z -> let i := reg_index 5 3 x y z in
     (forall a, In a hs -> st (hfield a) i = tm_H a (- (DT / 2)) (spot h (h_half a) x y z)) /\
     (forall a, In a es -> st (efield a) i = tm_E a 0 (spot h (e_half a) x y z))) /\
  0 < tm_E AZ 0 (spot h (e_half AZ) 0 0 0).
Proof.
  destruct (ex_env_ok ex_coef_c (fun _ => 1)) as (g & e & HU & HM & EC & ES).
  assert (EH : Q2R (1 # 2) = 1 / 2) by (unfold Q2R; cbn; lra). pose proof k2_bounds as KB.
  assert (EI : forall a i, e_coef e (inv_mu a) i = 1) by (intros a i; rewrite EC; destruct a; reflexivity).
  exists e, (Cfg false false 0 false false false false 0), g, (fun _ => []), (emst 5 3 (1 / 10) (1 / 2) tm_E tm_H 0). cbv zeta.
  split; [right; left; repeat split; reflexivity|]. split; [left; reflexivity|]. split; [lra|]. split; [apply HM|]. split; [repeat split; discriminate|]. split; [exact HU|].
  split; [intros; lra|]. split; [intros; lra|]. split; [intros a _; destruct a; (split; intros i; rewrite EC; reflexivity)|].
  split; [intros a i _; rewrite EI; lra|]. split; [reflexivity|]. split; [exact (cfl_ex 2 2 fd_h_2 ltac:(lia))|]. rewrite EH. split; [intros T; apply tm_solution, EI|]. split.
  - intros x y z Hx Hy Hz. assert (Hi : inside 5 4 3 x y z) by (unfold inside; auto). split; intros a Ha.
    + rewrite emst_h, (samp_at 5 4 3 (1 / 2)) by exact Hi. cbn [INR]. replace (0 * (1 / 10) - 1 / 10 / 2) with (- (1 / 10 / 2)) by field. reflexivity.
    + rewrite emst_e, (samp_at 5 4 3 (1 / 2)) by exact Hi. cbn [INR]. rewrite Rmult_0_l. reflexivity.
  - unfold tm_E, phi, spot, coordinate. cbn [e_half axis_eqb]. rewrite Ropp_0, exp_0, Rmult_1_l, Rmult_0_l, !Rplus_0_l. destruct k_bounds. pose proof PI2_1.
    apply Rmult_lt_0_compat; apply cos_gt_0; lra.
Qed.
