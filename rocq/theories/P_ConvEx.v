(** A case meeting the hypotheses of C165: a standing wave. *)
From Coq Require Import QArith Qreals Reals Lra.
From Verif Require Import M_Grid M_Deriv S_Deriv L_Deriv L_Deriv2 M_Prog M_Solvers M_Env S_Solver S_Step S_Check S_Energy L_Env L_Diff P_Solver2 P_Check P_Energy P_EnergyEx S_Taylor S_Conv L_Conv2 P_Conv.
Open Scope R_scope.
Open Scope list_scope.

Lemma deriv_ext f g x l : (forall s, f s = g s) -> derivable_pt_lim g x l -> derivable_pt_lim f x l.
Proof. intros E H eps He. destruct (H eps He) as (d & Hd). exists d. intros s H1 H2. rewrite !E. apply Hd; assumption. Qed.
Lemma sin_deriv f A k ph s l : (forall s, f s = A * sin (k * s + ph)) -> l = A * k * cos (k * s + ph) -> derivable_pt_lim f s l.
Proof.
  intros E ->. apply (deriv_ext _ _ _ _ E). replace (A * k * cos (k * s + ph)) with (A * (cos (k * s + ph) * (k * 1 + 0))) by ring.
  apply (derivable_pt_lim_scal (comp sin (fun s => k * s + ph)) A). apply derivable_pt_lim_comp; [|apply derivable_pt_lim_sin].
  apply (derivable_pt_lim_plus (fun s => k * s) (fun _ => ph)); [|apply derivable_pt_lim_const].
  apply (derivable_pt_lim_scal (fun s => s) k). apply derivable_pt_lim_id.
Qed.
Lemma cs x : cos x = sin (x + PI / 2).
Proof. rewrite cos_sin. f_equal. ring. Qed.
Lemma sin_smooth_on n M a b f A k ph : (forall s, f s = A * sin (k * s + ph)) -> Rabs A * Rabs k ^ S n <= M -> smooth_on n M a b f.
Proof.
  intros E HM. exists (fun j s => A * k ^ j * sin (k * s + (ph + INR j * (PI / 2)))). split; [|split].
  - intros s. rewrite E. cbn [pow INR]. f_equal; [ring|f_equal; ring].
  - intros j s _ _. apply (sin_deriv _ (A * k ^ j) k (ph + INR j * (PI / 2))); [reflexivity|]. rewrite cs, S_INR. cbn [pow]. f_equal; [ring|f_equal; ring].
  - intros s _. rewrite Rabs_mult, Rabs_mult, <- RPow_abs. set (u := Rabs A * Rabs k ^ S n) in *.
    assert (0 <= u) by (unfold u; apply Rmult_le_pos; [apply Rabs_pos|apply pow_le, Rabs_pos]).
    assert (Rabs (sin (k * s + (ph + INR (S n) * (PI / 2)))) <= 1) by (apply Rabs_le, SIN_bound).
    pose proof (Rmult_le_compat_l u _ _ H H0). lra.
Qed.

(** grid 5 x 4, spacing 1/2, modulus 3, inverse density 1: the pressure vanishes at x = 5/2 and y = 2, the velocities at x, y = -1/4 *)
Definition kx : R := 2 * PI / 11.
Definition ky : R := 2 * PI / 9.
Definition om : R := sqrt (3 * (kx * kx + ky * ky)).
Definition wave_P (t : R) (r : position) : R := cos (om * t) * (cos (kx * (r AX + 1 / 4)) * cos (ky * (r AY + 1 / 4))).
Definition wave_V (a : axis) (t : R) (r : position) : R := match a with
  | AX => - (kx / om) * sin (om * t) * (sin (kx * (r AX + 1 / 4)) * cos (ky * (r AY + 1 / 4)))
  | AY => - (ky / om) * sin (om * t) * (cos (kx * (r AX + 1 / 4)) * sin (ky * (r AY + 1 / 4)))
  | AZ => 0 end.

Lemma k_bounds : 0 < kx < 1 /\ 0 < ky < 1.
Proof. unfold kx, ky. pose proof PI_RGT_0. pose proof PI_4. split; lra. Qed.
Lemma om_sq : om * om = 3 * (kx * kx + ky * ky).
Proof. destruct k_bounds. apply sqrt_sqrt. nra. Qed.
Lemma om_pos : 0 < om.
Proof. destruct k_bounds. apply sqrt_lt_R0. nra. Qed.
Lemma om_k : kx <= om /\ ky <= om.
Proof. destruct k_bounds. pose proof om_sq. pose proof om_pos. split; nra. Qed.
Lemma ab1 x y : Rabs x <= 1 -> Rabs y <= 1 -> Rabs (x * y) <= 1.
Proof. intros H1 H2. rewrite Rabs_mult. pose proof (Rabs_pos x). pose proof (Rabs_pos y). pose proof (Rmult_le_compat _ _ _ _ H H0 H1 H2). lra. Qed.
Lemma abs1 x : Rabs (sin x) <= 1.
Proof. apply Rabs_le, SIN_bound. Qed.
Lemma abc1 x : Rabs (cos x) <= 1.
Proof. apply Rabs_le, COS_bound. Qed.
Lemma absq : Rabs (- (kx / om)) <= 1 /\ Rabs (- (ky / om)) <= 1.
Proof.
  destruct k_bounds. pose proof om_pos. destruct om_k. rewrite !Rabs_Ropp. split; (rewrite Rabs_right; [|apply Rle_ge, Rlt_le, Rdiv_lt_0_compat; lra]);
  (apply (Rmult_le_reg_r om); [assumption|]; unfold Rdiv; rewrite Rmult_assoc, Rinv_l by lra; lra).
Qed.
Lemma pow_k k : 0 < k < 1 -> Rabs k ^ 3 <= 1.
Proof. intros H. rewrite Rabs_right by lra. cbn [pow]. nra. Qed.
Lemma small A k M : Rabs A <= 1 -> 0 <= k -> k <= M -> Rabs A * k <= M.
Proof. intros H1 H2 H3. pose proof (Rmult_le_compat_r k _ _ H2 H1). lra. Qed.

Ltac ph := repeat match goal with |- cos ?x = cos ?y => apply (f_equal cos) | |- sin ?x = sin ?y => apply (f_equal sin) | |- _ = _ => f_equal end; try ring; try field.

Lemma wave_exact e dt T : (forall i, pmod e i = 3) -> (forall a i, In a [AX; AY] -> e_coef e (buoyancy [AX; AY] a) i = 1) -> 
  exact_solution 5 4 3 2 (1 / 2) dt T 1 (om ^ 3) e [AX; AY] wave_P wave_V.
Proof.
  intros HK Hb. destruct k_bounds as (K1 & K2). pose proof om_pos as O0. pose proof om_sq as O2. destruct absq as (Q1 & Q2).
  assert (O3 : Rabs om ^ 3 <= om ^ 3) by (rewrite Rabs_right by lra; lra). assert (O4 : 0 <= Rabs om ^ 3) by (apply pow_le, Rabs_pos).
  pose proof (pow_k kx K1) as P1. pose proof (pow_k ky K2) as P2.
  assert (P3 : 0 <= Rabs kx ^ 3) by (apply pow_le, Rabs_pos). assert (P4 : 0 <= Rabs ky ^ 3) by (apply pow_le, Rabs_pos).
  constructor.
  - intros a x y z t Ha Hx Hy Hz Ht r. rewrite (Hb a _ Ha). destruct Ha as [<-|[<-|[]]].
    + exists (- kx * cos (om * t) * (sin (kx * (r AX + 1 / 4)) * cos (ky * (r AY + 1 / 4)))). split.
      * apply (sin_deriv _ (cos (om * t) * cos (ky * (r AY + 1 / 4))) kx (kx * (r AX + 1 / 4) + PI / 2)).
        { intros s. unfold wave_P, shift. cbn [axis_eqb]. rewrite (cs (kx * _)).
          replace (kx * (r AX + s + 1 / 4) + PI / 2) with (kx * s + (kx * (r AX + 1 / 4) + PI / 2)) by ring. ring. }
        { replace (kx * 0 + (kx * (r AX + 1 / 4) + PI / 2)) with (PI / 2 + kx * (r AX + 1 / 4)) by ring. rewrite <- (Ropp_involutive (cos (PI / 2 + _))), <- sin_cos. ring. }
      * apply (sin_deriv _ (- (kx / om) * (sin (kx * (r AX + 1 / 4)) * cos (ky * (r AY + 1 / 4)))) om 0).
        { intros s. unfold wave_V. rewrite Rplus_0_r. ring. }
        { change (num R_arith) with R. rewrite Rplus_0_r. field. lra. }
    + exists (- ky * cos (om * t) * (cos (kx * (r AX + 1 / 4)) * sin (ky * (r AY + 1 / 4)))). split.
      * apply (sin_deriv _ (cos (om * t) * cos (kx * (r AX + 1 / 4))) ky (ky * (r AY + 1 / 4) + PI / 2)).
        { intros s. unfold wave_P, shift. cbn [axis_eqb]. rewrite (cs (ky * _)).
          replace (ky * (r AY + s + 1 / 4) + PI / 2) with (ky * s + (ky * (r AY + 1 / 4) + PI / 2)) by ring. ring. }
        { replace (ky * 0 + (ky * (r AY + 1 / 4) + PI / 2)) with (PI / 2 + ky * (r AY + 1 / 4)) by ring. rewrite <- (Ropp_involutive (cos (PI / 2 + _))), <- sin_cos. ring. }
      * apply (sin_deriv _ (- (ky / om) * (cos (kx * (r AX + 1 / 4)) * sin (ky * (r AY + 1 / 4)))) om 0).
        { intros s. unfold wave_V. rewrite Rplus_0_r. ring. }
        { change (num R_arith) with R. rewrite Rplus_0_r. field. lra. }
  - intros x y z t Hx Hy Hz Ht r. rewrite HK.
    exists (fun a => match a with AX => - (kx * kx / om) * sin (om * t) * (cos (kx * (r AX + 1 / 4)) * cos (ky * (r AY + 1 / 4)))
      | AY => - (ky * ky / om) * sin (om * t) * (cos (kx * (r AX + 1 / 4)) * cos (ky * (r AY + 1 / 4))) | AZ => 0 end). split.
    + intros a [<-|[<-|[]]].
      * apply (sin_deriv _ (- (kx / om) * sin (om * t) * cos (ky * (r AY + 1 / 4))) kx (kx * (r AX + 1 / 4))).
        { intros s. unfold wave_V, shift. cbn [axis_eqb]. replace (kx * (r AX + s + 1 / 4)) with (kx * s + kx * (r AX + 1 / 4)) by ring. ring. }
        { rewrite Rmult_0_r, Rplus_0_l. field. lra. }
      * apply (sin_deriv _ (- (ky / om) * sin (om * t) * cos (kx * (r AX + 1 / 4))) ky (ky * (r AY + 1 / 4))).
        { intros s. unfold wave_V, shift. cbn [axis_eqb]. replace (ky * (r AY + s + 1 / 4)) with (ky * s + ky * (r AY + 1 / 4)) by ring. ring. }
        { rewrite Rmult_0_r, Rplus_0_l. field. lra. }
    + apply (sin_deriv _ (cos (kx * (r AX + 1 / 4)) * cos (ky * (r AY + 1 / 4))) om (PI / 2)).
      * intros s. unfold wave_P. rewrite (cs (om * s)). ring.
      * rewrite (Rplus_comm (om * t) (PI / 2)), <- (Ropp_involutive (cos (PI / 2 + _))), <- sin_cos. unfold sum_axes, Rsum. cbn [map fold_right].
        apply (Rmult_eq_reg_l om); [|lra].
        set (C := cos (kx * (r AX + 1 / 4)) * cos (ky * (r AY + 1 / 4))). transitivity (- (3 * (kx * kx + ky * ky)) * (sin (om * t) * C)); [field; lra|]. rewrite <- O2. ring.
  - intros a x y z t Ha Hx Hy Hz Ht. set (r := half_point (1 / 2) a x y z). destruct Ha as [<-|[<-|[]]].
    + apply (sin_smooth_on _ _ _ _ _ (cos (om * t) * cos (ky * (r AY + 1 / 4))) kx (kx * (r AX + 1 / 4) + PI / 2)).
      * intros s. unfold wave_P, shift. cbn [axis_eqb]. rewrite (cs (kx * _)). replace (kx * (r AX + s + 1 / 4) + PI / 2) with (kx * s + (kx * (r AX + 1 / 4) + PI / 2)) by ring. ring.
      * apply small; [apply ab1; apply abc1|exact P3|exact P1].
    + apply (sin_smooth_on _ _ _ _ _ (cos (om * t) * cos (kx * (r AX + 1 / 4))) ky (ky * (r AY + 1 / 4) + PI / 2)).
      * intros s. unfold wave_P, shift. cbn [axis_eqb]. rewrite (cs (ky * _)). replace (ky * (r AY + s + 1 / 4) + PI / 2) with (ky * s + (ky * (r AY + 1 / 4) + PI / 2)) by ring. ring.
      * apply small; [apply ab1; apply abc1|exact P4|exact P2].
  - intros a x y z t Ha Hx Hy Hz Ht. set (r := at_point (1 / 2) x y z). destruct Ha as [<-|[<-|[]]].
    + apply (sin_smooth_on _ _ _ _ _ (- (kx / om) * sin (om * t) * cos (ky * (r AY + 1 / 4))) kx (kx * (r AX + 1 / 4))).
      * intros s. unfold wave_V, shift. cbn [axis_eqb]. replace (kx * (r AX + s + 1 / 4)) with (kx * s + kx * (r AX + 1 / 4)) by ring. ring.
      * apply small; [apply ab1; [apply ab1; [exact Q1|apply abs1]|apply abc1]|exact P3|exact P1].
    + apply (sin_smooth_on _ _ _ _ _ (- (ky / om) * sin (om * t) * cos (kx * (r AX + 1 / 4))) ky (ky * (r AY + 1 / 4))).
      * intros s. unfold wave_V, shift. cbn [axis_eqb]. replace (ky * (r AY + s + 1 / 4)) with (ky * s + ky * (r AY + 1 / 4)) by ring. ring.
      * apply small; [apply ab1; [apply ab1; [exact Q2|apply abs1]|apply abc1]|exact P4|exact P2].
  - intros x y z Hx Hy Hz. set (r := at_point (1 / 2) x y z).
    apply (sin_smooth_on _ _ _ _ _ (cos (kx * (r AX + 1 / 4)) * cos (ky * (r AY + 1 / 4))) om (PI / 2)).
    + intros s. unfold wave_P. rewrite (cs (om * s)). ring.
    + apply small; [apply ab1; apply abc1|exact O4|exact O3].
  - intros a x y z Ha Hx Hy Hz. set (r := half_point (1 / 2) a x y z). destruct Ha as [<-|[<-|[]]].
    + apply (sin_smooth_on _ _ _ _ _ (- (kx / om) * (sin (kx * (r AX + 1 / 4)) * cos (ky * (r AY + 1 / 4)))) om 0).
      * intros s. unfold wave_V. rewrite Rplus_0_r. ring.
      * apply small; [apply ab1; [exact Q1|apply ab1; [apply abs1|apply abc1]]|exact O4|exact O3].
    + apply (sin_smooth_on _ _ _ _ _ (- (ky / om) * (cos (kx * (r AX + 1 / 4)) * sin (ky * (r AY + 1 / 4)))) om 0).
      * intros s. unfold wave_V. rewrite Rplus_0_r. ring.
      * apply small; [apply ab1; [exact Q2|apply ab1; [apply abc1|apply abs1]]|exact O4|exact O3].
  - intros a x y z j t Ha Hx Hy Hz Ht Hj Ho. assert (j = 0 \/ j = 1)%Z as Hj2 by lia. destruct Ha as [<-|[<-|[]]]; cbn [coordinate] in Ho.
    + assert (x = 4 /\ j = 1)%Z as (-> & ->) by lia. unfold wave_P, shift, at_point, coordinate. cbn [axis_eqb].
      replace (kx * (4 * (1 / 2) + 1 * (1 / 2) + 1 / 4)) with (PI / 2) by (unfold kx; field). rewrite cos_PI2. ring.
    + assert (y = 3 /\ j = 1)%Z as (-> & ->) by lia. unfold wave_P, shift, at_point, coordinate. cbn [axis_eqb].
      replace (ky * (3 * (1 / 2) + 1 * (1 / 2) + 1 / 4)) with (PI / 2) by (unfold ky; field). rewrite cos_PI2. ring.
  - intros a x y z j t Ha Hx Hy Hz Ht Hj Ho. assert (j = 0 \/ j = -1)%Z as Hj2 by lia. destruct Ha as [<-|[<-|[]]]; cbn [coordinate] in Ho.
    + assert (x = 0 /\ j = -1)%Z as (-> & ->) by lia. unfold wave_V, half_point, shift, at_point, coordinate. cbn [axis_eqb].
      match goal with |- context [sin (kx * ?u)] => replace (kx * u) with 0 by (field) end. rewrite sin_0. ring.
    + assert (y = 0 /\ j = -1)%Z as (-> & ->) by lia. unfold wave_V, half_point, shift, at_point, coordinate. cbn [axis_eqb].
      match goal with |- context [sin (ky * ?u)] => replace (ky * u) with 0 by (field) end. rewrite sin_0. ring.
Qed.

Example C165_ex : exists e c g (src : acq R_arith) (st : state R_arith), let S := FD2Dacoustic in let axes := [AX; AY] in let DT := 1 / 10 in let h := Q2R (1 # 2) in
  acoustic_setting S axes /\ In 2%Z [2; 4; 6; 8]%Z /\ 3 * 1 <= 2 * 2 /\ 0 <= om ^ 3 /\
  @fd_matrices R_arith e c true false false 5 4 3 2 [] (1 # 2) 20 (fun q => Q2R q * (DT / Q2R (1 # 2))) Q2R g /\ closed_box c /\
  (forall i, 3 <= pmod e i <= 3) /\ (forall a i, In a axes -> 1 <= e_coef e (buoyancy axes a) i <= 1) /\
  (forall ty t i, injected (src ty) t i = 0) /\ DT < cfl_limit 2 (Z.of_nat (length axes)) h 2 /\
  (forall T, exact_solution 5 4 3 2 h DT T 1 (om ^ 3) e axes wave_P wave_V) /\
  (forall x y z, (0 <= x < 5)%Z -> (0 <= y < 4)%Z -> (0 <= z < 3)%Z ->
     st pressure (reg_index 5 3 x y z) = wave_P 0 (at_point h x y z) /\
     (forall a, In a axes -> st (vel a) (reg_index 5 3 x y z) = wave_V a (- (DT / 2)) (half_point h a x y z))) /\
  0 < wave_P 0 (at_point h 0 0 0).
Proof.
  destruct (ex_env_ok ex_coef (fun _ => 1)) as (g & e & HU & HM & EC & ES).
  assert (EH : Q2R (1 # 2) = 1 / 2) by (unfold Q2R; cbn; lra).
  exists e, (Cfg false false 0 false false false false 0), g, (fun _ => []), (exst 5 3 (1 / 10) (1 / 2) wave_P wave_V 0). cbv zeta.
  assert (HK : forall i, pmod e i = 3) by (intros i; unfold pmod; rewrite EC; reflexivity).
  assert (Hb : forall a i, In a [AX; AY] -> e_coef e (buoyancy [AX; AY] a) i = 1) by (intros a i [<-|[<-|[]]]; rewrite EC; reflexivity).
  split; [left; split; reflexivity|]. split; [left; reflexivity|]. split; [lra|]. split; [apply pow_le, Rlt_le, om_pos|]. split; [apply HM|].
  split; [repeat split; discriminate|]. split; [intros i; rewrite HK; lra|]. split; [intros a i Ha; rewrite (Hb a i Ha); lra|].
  split; [reflexivity|]. split; [exact (cfl_ex 2 2 fd_h_2 ltac:(lia))|]. rewrite EH. split; [intros T; apply wave_exact; assumption|]. split.
  - intros x y z Hx Hy Hz. assert (Hi : inside 5 4 3 x y z) by (unfold inside; auto). split.
    + rewrite exst_p, (sampP_at 5 4 3 (1 / 2) wave_P _ x y z Hi). cbn [INR]. rewrite Rmult_0_l. reflexivity.
    + intros a Ha. rewrite exst_v, (sampV_at 5 4 3 (1 / 2) wave_V a _ x y z Hi). cbn [INR]. replace (0 * (1 / 10) - 1 / 10 / 2) with (- (1 / 10 / 2)) by field. reflexivity.
  - unfold wave_P, at_point, coordinate. rewrite Rmult_0_r, cos_0, Rmult_1_l, Rmult_0_l, Rplus_0_l. destruct k_bounds. pose proof PI_RGT_0. pose proof PI2_1.
    apply Rmult_lt_0_compat; apply cos_gt_0; lra.
Qed.
