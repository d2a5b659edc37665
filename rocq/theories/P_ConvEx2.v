(** Cases meeting the hypotheses of C169: a standing SH wave, and an SH field dying out in a viscoelastic medium. *)
From Coq Require Import QArith Qreals Reals Lra.
From Verif Require Import M_Grid M_Deriv S_Deriv L_Deriv L_Deriv2 M_Prog M_Solvers M_Env M_Relax S_Solver S_Step S_Check S_Energy L_Env L_Diff L_Energy3 P_Solver2 P_Check P_Energy P_EnergyEx S_Taylor S_Conv S_Conv2 L_Conv3 L_Conv5 P_Conv2 P_ConvEx.
Open Scope R_scope.
Open Scope list_scope.

(** grid 5 x 4, spacing 1/2: the velocity vanishes at x = 5/2 and y = 2, the stresses at x, y = -1/4 *)
Ltac rring := match goal with |- ?x = ?y => change (@eq R x y) end; ring.
Ltac rfield := match goal with |- ?x = ?y => change (@eq R x y) end; field.
Definition phi (r : position) : R := cos (kx * (r AX + 1 / 4)) * cos (ky * (r AY + 1 / 4)).
Definition gx (r : position) : R := - kx * (sin (kx * (r AX + 1 / 4)) * cos (ky * (r AY + 1 / 4))).
Definition gy (r : position) : R := - ky * (cos (kx * (r AX + 1 / 4)) * sin (ky * (r AY + 1 / 4))).
Definition gradient (a b : axis) (r : position) : R := match a, b with AX, AZ | AZ, AX => gx r | AY, AZ | AZ, AY => gy r | _, _ => 0 end.
Definition k2 : R := kx * kx + ky * ky.
Definition sh_V (v : R -> R) (a : axis) (t : R) (r : position) : R := match a with AZ => v t * phi r | _ => 0 end.
Definition sh_S (s : R -> R) (a b : axis) (t : R) (r : position) : R := s t * gradient a b r.
Definition sh_R (rl : nat -> R -> R) (a b : axis) (l : nat) (t : R) (r : position) : R := rl l t * gradient a b r.

Lemma deriv_scal f k s l : derivable_pt_lim f s l -> derivable_pt_lim (fun u => f u * k) s (l * k).
Proof. intros H. apply (deriv_ext _ (fun u => k * f u)); [intros; ring|]. rewrite Rmult_comm. apply (derivable_pt_lim_scal f k s l H). Qed.
Lemma smooth_scal n M a b f k : Rabs k <= 1 -> smooth_on n M a b f -> smooth_on n M a b (fun s => f s * k).
Proof.
  intros Hk (F & F0 & F1 & F2). exists (fun j s => F j s * k). split; [intros s; rewrite F0; reflexivity|]. split.
  - intros j s Hj Hs. apply deriv_scal, F1; assumption.
  - intros s Hs. rewrite Rabs_mult. pose proof (Rmult_le_compat _ _ _ _ (Rabs_pos (F (S n) s)) (Rabs_pos k) (F2 s Hs) Hk). lra.
Qed.
Lemma grad_small a b r : Rabs (gradient a b r) <= 1.
Proof.
  destruct k_bounds as (K1 & K2). assert (X1 : Rabs (- kx) <= 1) by (rewrite Rabs_Ropp, Rabs_right; lra). assert (X2 : Rabs (- ky) <= 1) by (rewrite Rabs_Ropp, Rabs_right; lra).
  assert (gx r = gx r /\ Rabs (gx r) <= 1) as (_ & X) by (split; [reflexivity|]; apply ab1; [exact X1|apply ab1; [apply abs1|apply abc1]]).
  assert (Rabs (gy r) <= 1) by (apply ab1; [exact X2|apply ab1; [apply abc1|apply abs1]]).
  destruct a, b; cbn; try assumption; rewrite Rabs_R0; lra.
Qed.
Lemma phi_x d r : d = AX \/ d = AY -> derivable_pt_lim (fun s => phi (shift d s r)) 0 (gradient d AZ r).
Proof.
  intros [->| ->].
  - apply (sin_deriv _ (cos (ky * (r AY + 1 / 4))) kx (kx * (r AX + 1 / 4) + PI / 2)).
    + intros s. unfold phi, shift. cbn [axis_eqb]. rewrite (cs (kx * _)). replace (kx * (r AX + s + 1 / 4) + PI / 2) with (kx * s + (kx * (r AX + 1 / 4) + PI / 2)) by ring. ring.
    + cbn. unfold gx. replace (kx * 0 + (kx * (r AX + 1 / 4) + PI / 2)) with (PI / 2 + kx * (r AX + 1 / 4)) by ring. rewrite <- (Ropp_involutive (cos (PI / 2 + _))), <- sin_cos. ring.
  - apply (sin_deriv _ (cos (kx * (r AX + 1 / 4))) ky (ky * (r AY + 1 / 4) + PI / 2)).
    + intros s. unfold phi, shift. cbn [axis_eqb]. rewrite (cs (ky * _)). replace (ky * (r AY + s + 1 / 4) + PI / 2) with (ky * s + (ky * (r AY + 1 / 4) + PI / 2)) by ring. ring.
    + cbn. unfold gy. replace (ky * 0 + (ky * (r AY + 1 / 4) + PI / 2)) with (PI / 2 + ky * (r AY + 1 / 4)) by ring. rewrite <- (Ropp_involutive (cos (PI / 2 + _))), <- sin_cos. ring.
Qed.
Lemma grad_x d r : d = AX \/ d = AY -> derivable_pt_lim (fun s => gradient AZ d (shift d s r)) 0 (- ((match d with AX => kx * kx | _ => ky * ky end) * phi r)).
Proof.
  intros [->| ->]; cbn [gradient].
  - apply (sin_deriv _ (- kx * cos (ky * (r AY + 1 / 4))) kx (kx * (r AX + 1 / 4))).
    + intros s. unfold gx, shift. cbn [axis_eqb]. replace (kx * (r AX + s + 1 / 4)) with (kx * s + kx * (r AX + 1 / 4)) by ring. ring.
    + unfold phi. rewrite Rmult_0_r, Rplus_0_l. ring.
  - apply (sin_deriv _ (- ky * cos (kx * (r AX + 1 / 4))) ky (ky * (r AY + 1 / 4))).
    + intros s. unfold gy, shift. cbn [axis_eqb]. replace (ky * (r AY + s + 1 / 4)) with (ky * s + ky * (r AY + 1 / 4)) by ring. ring.
    + unfold phi. rewrite Rmult_0_r, Rplus_0_l. ring.
Qed.

Section sh.
Variables (e : env R_arith) (L : nat) (tau : nat -> R) (P : Z -> R) (M : tensor) (dP : Z -> R) (dM : tensor) (M0 D0 dt T A Mt : R) (v s : R -> R) (rl : nat -> R -> R).
Hypothesis Hb : forall i, e_coef e (buoyancy [AX; AY] AZ) i = 1.
Hypothesis HM : forall a b i, axis_eqb a b = false -> M a b i = M0.
Hypothesis HD : forall a b i, axis_eqb a b = false -> dM a b i = D0.
Hypothesis V1 : forall t, 0 <= t <= T -> derivable_pt_lim v t (- (k2 * s t)).
Hypothesis S1 : forall t, 0 <= t <= T -> derivable_pt_lim s t (M0 * v t + Rsum (map (fun l => rl l t) (seq 0 L))).
Hypothesis R1 : forall t l, 0 <= t <= T -> (l < L)%nat -> derivable_pt_lim (rl l) t (- (rl l t + D0 * v t) / tau l).
Hypothesis VA : forall t, 0 <= t <= T -> Rabs (v t) <= A /\ Rabs (s t) <= A.
Hypothesis VT : smooth_on 2 Mt (- (dt / 2)) T v.
Hypothesis ST : smooth_on 2 Mt 0 T s.
Hypothesis RT : forall l, (l < L)%nat -> smooth_on 2 Mt 0 T (rl l) /\ smooth_on 1 Mt 0 T (rl l).

Lemma amp x y k : Rabs x <= A -> Rabs y <= 1 -> 0 < k < 1 -> Rabs (x * y) * Rabs k ^ 3 <= A.
Proof.
  intros H1 H2 H3. pose proof (pow_k k H3) as H4. assert (H5 : 0 <= Rabs k ^ 3) by apply pow_le, Rabs_pos. rewrite Rabs_mult.
  pose proof (Rmult_le_compat _ _ _ _ (Rabs_pos x) (Rabs_pos y) H1 H2) as H6. pose proof (Rabs_pos x). pose proof (Rabs_pos y).
  pose proof (Rmult_le_pos _ _ H H0) as H7. pose proof (Rmult_le_compat _ _ _ _ H7 H5 H6 H4). lra.
Qed.

Lemma sum_scal (g : nat -> R) k l : Rsum (map (fun i => g i * k) l) = Rsum (map g l) * k.
Proof. induction l as [|x l IH]; unfold Rsum in *; cbn [map fold_right]; [ring|rewrite IH; ring]. Qed.

Lemma sh_solution : elastic_solution 5 4 3 2 (1 / 2) dt T A Mt e [AX; AY] [AZ] P M L tau dP dM (sh_V v) (sh_S s) (sh_R rl).
Proof.
  destruct k_bounds as (K1 & K2). constructor.
  - intros a b t r. destruct a, b; reflexivity.
  - intros a b l t r. destruct a, b; reflexivity.
  - intros a x y z t [<-|[]] Hx Hy Hz Ht r. exists (fun d => s t * - ((match d with AX => kx * kx | _ => ky * ky end) * phi r)). split.
    + intros d [<-|[<-|[]]]; unfold sh_S; apply (derivable_pt_lim_scal (fun u => gradient AZ _ (shift _ u r))), grad_x; auto.
    + rewrite Hb. unfold sh_V. replace (1 * sum_axes [AX; AY] _) with (- (k2 * s t) * phi r) by (unfold sum_axes, Rsum, k2; cbn [map fold_right]; ring).
      apply deriv_scal, V1, Ht.
  - intros a b x y z t Ho Hx Hy Hz Ht r i.
    assert (Hd : exists d, (d = AX \/ d = AY) /\ ((a = d /\ b = AZ) \/ (a = AZ /\ b = d))) by (destruct a, b; try discriminate Ho; eauto 6).
    destruct Hd as (d & Hd & Hab). set (G := fun w q => match w with AZ => match q with AZ => 0 | _ => v t * gradient q AZ r end | _ => 0 end). exists G.
    split; [|split; [|split]].
    + intros w q Hw. assert (w = AZ) as -> by (destruct w; try discriminate Hw; reflexivity). assert (Hq : q = AX \/ q = AY) by (destruct q; try discriminate Hw; auto).
      unfold sh_V. replace (G AZ q) with (v t * gradient q AZ r) by (unfold G; destruct Hq as [->| ->]; reflexivity). apply (derivable_pt_lim_scal (fun u => phi (shift q u r))), phi_x, Hq.
    + intros w q Hw. unfold G. destruct w, q; try reflexivity; discriminate Hw.
    + unfold sh_S, sh_R. rewrite sum_scal. replace (rate [AX; AY] P M G a b i) with (M0 * v t * gradient a b r).
      * rewrite <- Rmult_plus_distr_r. apply deriv_scal, S1, Ht.
      * unfold rate. destruct Hd as [->| ->], Hab as [(-> & ->)|(-> & ->)]; cbn [axis_eqb]; rewrite HM by reflexivity; unfold G; cbn [gradient]; ring.
    + intros l Hl. unfold sh_R. replace (- (rl l t * gradient a b r + rate [AX; AY] dP dM G a b i) / tau l) with (- (rl l t + D0 * v t) / tau l * gradient a b r).
      * apply deriv_scal, R1; assumption.
      * replace (rate [AX; AY] dP dM G a b i) with (D0 * v t * gradient a b r); [unfold Rdiv; ring|].
        unfold rate. destruct Hd as [->| ->], Hab as [(-> & ->)|(-> & ->)]; cbn [axis_eqb]; rewrite HD by reflexivity; unfold G; cbn [gradient]; ring.
  - intros a d [<-|[]] Hd x y z t Hx Hy Hz Ht. set (r := spot (1 / 2) (flip d (vel_half AZ)) x y z). destruct (VA t Ht) as (A1 & _). split.
    + destruct Hd as [<-|[<-|[]]].
      * apply (sin_smooth_on _ _ _ _ _ (v t * cos (ky * (r AY + 1 / 4))) kx (kx * (r AX + 1 / 4) + PI / 2)); [|apply amp; [exact A1|apply abc1|exact K1]].
        intros u. unfold sh_V, phi, shift. cbn [axis_eqb]. rewrite (cs (kx * _)). replace (kx * (r AX + u + 1 / 4) + PI / 2) with (kx * u + (kx * (r AX + 1 / 4) + PI / 2)) by ring. ring.
      * apply (sin_smooth_on _ _ _ _ _ (v t * cos (kx * (r AX + 1 / 4))) ky (ky * (r AY + 1 / 4) + PI / 2)); [|apply amp; [exact A1|apply abc1|exact K2]].
        intros u. unfold sh_V, phi, shift. cbn [axis_eqb]. rewrite (cs (ky * _)). replace (ky * (r AY + u + 1 / 4) + PI / 2) with (ky * u + (ky * (r AY + 1 / 4) + PI / 2)) by ring. ring.
    + intros j Hj Ho. destruct Hd as [<-|[<-|[]]]; cbn [coordinate vel_half axis_eqb] in Ho, Hj; unfold sh_V.
      * assert (x = 4 /\ j = 1)%Z as (-> & ->) by lia. unfold phi, shift, spot, coordinate. cbn [axis_eqb vel_half].
        replace (kx * (4 * (1 / 2) + 0 + 1 * (1 / 2) + 1 / 4)) with (PI / 2) by (unfold kx; field). rewrite cos_PI2. ring.
      * assert (y = 3 /\ j = 1)%Z as (-> & ->) by lia. unfold phi, shift, spot, coordinate. cbn [axis_eqb vel_half].
        replace (ky * (3 * (1 / 2) + 0 + 1 * (1 / 2) + 1 / 4)) with (PI / 2) by (unfold ky; field). rewrite cos_PI2. ring.
  - intros a d [<-|[]] Hd x y z t Hx Hy Hz Ht. set (r := spot (1 / 2) (flip d (sig_half AZ d)) x y z). destruct (VA t Ht) as (_ & A1). split.
    + destruct Hd as [<-|[<-|[]]].
      * apply (sin_smooth_on _ _ _ _ _ (s t * (- kx * cos (ky * (r AY + 1 / 4)))) kx (kx * (r AX + 1 / 4))); [|apply amp; [exact A1| |exact K1]].
        { intros u. unfold sh_S, gradient, gx, shift. cbn [axis_eqb]. replace (kx * (r AX + u + 1 / 4)) with (kx * u + kx * (r AX + 1 / 4)) by ring. ring. }
        { apply ab1; [rewrite Rabs_Ropp, Rabs_right; lra|apply abc1]. }
      * apply (sin_smooth_on _ _ _ _ _ (s t * (- ky * cos (kx * (r AX + 1 / 4)))) ky (ky * (r AY + 1 / 4))); [|apply amp; [exact A1| |exact K2]].
        { intros u. unfold sh_S, gradient, gy, shift. cbn [axis_eqb]. replace (ky * (r AY + u + 1 / 4)) with (ky * u + ky * (r AY + 1 / 4)) by ring. ring. }
        { apply ab1; [rewrite Rabs_Ropp, Rabs_right; lra|apply abc1]. }
    + intros j Hj Ho. destruct Hd as [<-|[<-|[]]]; cbn [coordinate sig_half axis_eqb orb andb negb] in Ho, Hj; unfold sh_S.
      * assert (x = 0 /\ j = -1)%Z as (-> & ->) by lia. unfold gradient, gx, shift, spot, coordinate. cbn [axis_eqb sig_half orb andb negb].
        match goal with |- context [sin (kx * ?u)] => replace (kx * u) with 0 by (field) end. rewrite sin_0. ring.
      * assert (y = 0 /\ j = -1)%Z as (-> & ->) by lia. unfold gradient, gy, shift, spot, coordinate. cbn [axis_eqb sig_half orb andb negb].
        match goal with |- context [sin (ky * ?u)] => replace (ky * u) with 0 by (field) end. rewrite sin_0. ring.
  - intros a x y z [<-|[]] Hx Hy Hz. apply (smooth_scal _ _ _ _ v); [|exact VT]. apply ab1; apply abc1.
  - intros a b x y z Ho Hx Hy Hz. apply (smooth_scal _ _ _ _ s); [apply grad_small|exact ST].
  - intros a b l x y z Ho Hl Hx Hy Hz. destruct (RT l Hl) as (T1 & T2). split; apply (smooth_scal _ _ _ _ (rl l)); try apply grad_small; assumption.
Qed.
End sh.

Lemma k2_om : om * om = 3 * k2.
Proof. exact om_sq. Qed.
Lemma k2_bounds : 1 / 2 < k2 < 2.
Proof. unfold k2, kx, ky. pose proof PI2_3_2. pose proof PI_4. nra. Qed.

(** ** elastic: v = cos (om t), shear moduli 3, density 1 *)
Definition ex_coef_s (n : nm) (_ : Z) : R := if nm_eqb n "inverseDensity"%string then 1 else 3.
Definition wave_v (t : R) : R := cos (om * t).
Definition wave_s (t : R) : R := 3 / om * sin (om * t).
Notation zeroR := (fun _ _ _ _ _ => 0).

Example C169_ex : exists e c g (src : acq R_arith) (st : state R_arith), let S := FD2Dsh in let axes := [AX; AY] in let comps := [AZ] in let DT := 1 / 10 in let h := Q2R (1 # 2) in
  elastic_setting S axes comps /\ In 2%Z [2; 4; 6; 8]%Z /\ stiffness comps 0 3 * 1 <= 2 * 2 /\
  @fd_matrices R_arith e c true false false 5 4 3 2 [] (1 # 2) 20 (fun q => Q2R q * (DT / Q2R (1 # 2))) Q2R g /\ closed_box c /\ uniform e /\
  (forall i, 0 < pmod e i) /\ definite_by axes comps (pmod e) (smod e) 3 /\ moduli_below axes comps (pmod e) (smod e) 0 3 /\
  (forall a i, In a comps -> 1 <= e_coef e (buoyancy axes a) i <= 1) /\
  (forall ty t i, injected (src ty) t i = 0) /\ DT < cfl_limit 2 (Z.of_nat (length axes)) h 2 /\
  (forall T, elastic_solution 5 4 3 2 h DT T (1 + 3 / om) (om ^ 3 + 3 * om ^ 2) e axes comps (pmod e) (smod e) 0 (fun _ => 1) (fun _ => 0) (fun _ _ _ => 0) (sh_V wave_v) (sh_S wave_s) zeroR) /\
  (forall x y z, (0 <= x < 5)%Z -> (0 <= y < 4)%Z -> (0 <= z < 3)%Z -> let i := reg_index 5 3 x y z in
     (forall a, In a comps -> st (vel a) i = sh_V wave_v a (- (DT / 2)) (spot h (vel_half a) x y z)) /\
     (forall a b, In (a, b) (stresses axes comps) -> st (sig a b) i = sh_S wave_s a b 0 (spot h (sig_half a b) x y z))) /\
  0 < sh_V wave_v AZ 0 (spot h (vel_half AZ) 0 0 0).
Proof.
  destruct (ex_env_ok ex_coef_s (fun _ => 1)) as (g & e & HU & HM & EC & ES).
  assert (EH : Q2R (1 # 2) = 1 / 2) by (unfold Q2R; cbn; lra). pose proof om_pos as O0. pose proof k2_om as OK. pose proof k2_bounds as KB.
  assert (O3 : 0 <= 3 / om) by (apply Rlt_le, Rdiv_lt_0_compat; lra). assert (O5 : 0 < om ^ 3) by (apply pow_lt; lra). assert (O6 : 0 < om ^ 2) by (apply pow_lt; lra).
  assert (SOL : forall T, elastic_solution 5 4 3 2 (1 / 2) (1 / 10) T (1 + 3 / om) (om ^ 3 + 3 * om ^ 2) e [AX; AY] [AZ] (pmod e) (smod e) 0 (fun _ => 1) (fun _ => 0) (fun _ _ _ => 0) (sh_V wave_v) (sh_S wave_s) zeroR).
  { intros T. assert (X : elastic_solution 5 4 3 2 (1 / 2) (1 / 10) T (1 + 3 / om) (om ^ 3 + 3 * om ^ 2) e [AX; AY] [AZ] (pmod e) (smod e) 0 (fun _ => 1) (fun _ => 0) (fun _ _ _ => 0) (sh_V wave_v) (sh_S wave_s) (sh_R (fun _ _ => 0))).
    { apply (sh_solution e 0 (fun _ => 1) (pmod e) (smod e) (fun _ => 0) (fun _ _ _ => 0) 3 0).
      - intros i. rewrite EC. reflexivity.
      - intros a b i Hab. unfold smod. rewrite EC. destruct a, b; try discriminate Hab; reflexivity.
      - reflexivity.
      - intros t Ht. apply (sin_deriv _ 1 om (PI / 2)); [intros u; unfold wave_v; rewrite cs; ring|].
        rewrite (Rplus_comm (om * t)), <- (Ropp_involutive (cos (PI / 2 + _))), <- sin_cos. unfold wave_s. replace k2 with (om * om / 3) by lra. rfield. lra.
      - intros t Ht. apply (sin_deriv _ (3 / om) om 0); [intros u; unfold wave_s; rewrite Rplus_0_r; reflexivity|]. unfold wave_v. rewrite (Rplus_0_r (om * t)). change (Rsum _) with 0. rfield. lra.
      - intros t l Ht Hl. lia.
      - intros t Ht. unfold wave_v, wave_s. split; [pose proof (abc1 (om * t)); lra|]. rewrite Rabs_mult, (Rabs_right (3 / om)) by lra.
        pose proof (Rmult_le_compat_l _ _ _ O3 (abs1 (om * t))). lra.
      - apply (sin_smooth_on _ _ _ _ _ 1 om (PI / 2)); [intros u; unfold wave_v; rewrite cs; ring|]. rewrite Rabs_R1, (Rabs_right om) by lra. lra.
      - apply (sin_smooth_on _ _ _ _ _ (3 / om) om 0); [intros u; unfold wave_s; rewrite Rplus_0_r; reflexivity|]. rewrite (Rabs_right om), (Rabs_right (3 / om)) by lra.
        replace (3 / om * om ^ 3) with (3 * om ^ 2) by (field; lra). lra.
      - intros l Hl. lia. }
    destruct X as [X1 X2 X3 X4 X5 X6 X7 X8 X9]. constructor; try assumption.
    - reflexivity.
    - intros a b x y z t Ho Hx Hy Hz Ht r i. destruct (X4 a b x y z t Ho Hx Hy Hz Ht) as (G & G1 & G2 & G3 & G4). exists G. split; [exact G1|]. split; [exact G2|]. split; [exact G3|]. intros l Hl. lia.
    - intros a b l x y z Ho Hl. lia. }
  exists e, (Cfg false false 0 false false false false 0), g, (fun _ => []), (exst 5 3 (1 / 10) (1 / 2) (sh_V wave_v) (sh_S wave_s) zeroR 0). cbv zeta.
  split; [right; right; repeat split; reflexivity|]. split; [left; reflexivity|]. split; [cbn; lra|]. split; [apply HM|]. split; [repeat split; discriminate|]. split; [exact HU|].
  assert (EP : forall i, pmod e i = 3) by (intros i; unfold pmod; rewrite EC; reflexivity). assert (EM : forall a b i, smod e a b i = 3) by (intros a b i; unfold smod; rewrite EC; destruct a, b; reflexivity).
  split; [intros i; rewrite EP; lra|]. split; [intros i; split; [intros H; contradiction H; reflexivity|intros ab _; rewrite EM; lra]|].
  split; [intros i; rewrite EP, EM; split; [lra|split; [lra|intros ab _; rewrite EM; lra]]|].
  split; [intros a i [<-|[]]; rewrite EC; cbn; lra|]. split; [reflexivity|]. split; [exact (cfl_ex 2 2 fd_h_2 ltac:(lia))|]. rewrite EH. split; [exact SOL|]. split.
  - intros x y z Hx Hy Hz. assert (Hi : inside 5 4 3 x y z) by (unfold inside; auto). split.
    + intros a Ha. rewrite exst_v, (samp_at 5 4 3 (1 / 2)) by exact Hi. cbn [INR]. replace (0 * (1 / 10) - 1 / 10 / 2) with (- (1 / 10 / 2)) by field. reflexivity.
    + intros a b Hab. rewrite (exst_s e 5 4 3 2 _ _ _ _ _ _ _ _ _ _ _ _ _ _ _ _ (SOL 0)), (samp_at 5 4 3 (1 / 2)) by exact Hi. cbn [INR]. rewrite Rmult_0_l. reflexivity.
  - unfold sh_V, wave_v, phi, spot, coordinate. cbn [vel_half axis_eqb]. rewrite Rmult_0_r, cos_0, Rmult_1_l, Rmult_0_l, !Rplus_0_l. destruct k_bounds. pose proof PI_RGT_0. pose proof PI2_1.
    apply Rmult_lt_0_compat; apply cos_gt_0; lra.
Qed.

(** ** viscoelastic: v = exp (- t), one mechanism with relaxation time 1/2, shear modulus 1, tauS = 1 + 1 / k2 *)
Definition ts : R := 1 + 1 / k2.
Definition decay_f (l : nat) : R := 1 / PI.
Definition decay_v (t : R) : R := exp (- t).
Definition decay_s (t : R) : R := exp (- t) * (1 / k2).
Definition decay_r (l : nat) (t : R) : R := exp (- t) * - (2 * ts).
Definition ex_coef_d (n : nm) (_ : Z) : R :=
  let '(N x l) := n in if String.eqb x "pWaveModulus" then 3 else if existsb (String.eqb x) ["tauS"; "tauSAverageXY"; "tauSAverageXZ"; "tauSAverageYZ"]%string then ts
  else if String.eqb x "onePlusLtauS" then 1 + ts else if String.eqb x "onePlusLtauP" then 2 else 1.
Definition ex_sca_d (n : nm) : R :=
  let '(N x l) := n in if String.eqb x "inverseRelaxationTime" then inverseRelaxationTime decay_f l else if String.eqb x "viscoCoeff1" then viscoCoeff1 (1 / 10) decay_f l
  else if String.eqb x "viscoCoeff2" then viscoCoeff2 (1 / 10) decay_f l else 1 / 20.
Lemma exp_deriv t k l : l = - (exp (- t) * k) -> derivable_pt_lim (fun u => exp (- u) * k) t l.
Proof.
  intros ->. replace (- (exp (- t) * k)) with (exp (- t) * -1 * k) by ring. apply deriv_scal. apply (derivable_pt_lim_comp (fun u => - u) exp t (-1)); [|apply derivable_pt_lim_exp].
  apply (derivable_pt_lim_opp (fun u => u) t 1), derivable_pt_lim_id.
Qed.
Lemma exp_smooth n M b k : Rabs k * 3 <= M -> smooth_on n M (- (1 / 10 / 2)) b (fun u => exp (- u) * k).
Proof.
  intros H. exists (fun j u => exp (- u) * ((-1) ^ j * k)). split; [intros u; cbn [pow]; ring|]. split.
  - intros j u _ _. apply exp_deriv. cbn [pow]. ring.
  - intros u Hu. rewrite Rabs_mult, Rabs_mult, pow_1_abs, Rmult_1_l. pose proof (exp_pos (- u)) as E0. rewrite (Rabs_right (exp (- u))) by lra.
    assert (E1 : exp (- u) <= 3). { apply Rle_trans with (exp 1); [|apply exp_le_3]. destruct (Req_dec (- u) 1) as [->|Hne]; [lra|]. apply Rlt_le, exp_increasing. lra. }
    pose proof (Rabs_pos k). pose proof (Rmult_le_compat_r (Rabs k) _ _ H0 E1). lra.
Qed.
Lemma smooth_sub n M a a' b f : a <= a' -> smooth_on n M a b f -> smooth_on n M a' b f.
Proof. intros Ha (F & F0 & F1 & F2). exists F. split; [exact F0|]. split; [intros; apply F1; [assumption|lra]|intros; apply F2; lra]. Qed.
Example C169_visco_ex : exists e c g (src : acq R_arith) (st : state R_arith), let S := FD2Dviscosh in let axes := [AX; AY] in let comps := [AZ] in let DT := 1 / 10 in let h := Q2R (1 # 2) in
  let L := 1%nat in let P := unrelaxedP e L in let M := unrelaxedM e L in
  visco_setting S axes comps /\ In 2%Z [2; 4; 6; 8]%Z /\ stiffness comps 2 4 * 1 <= 2 * 2 /\
  @fd_matrices R_arith e c true false false 5 4 3 2 [] (1 # 2) 20 (fun q => Q2R q * (DT / Q2R (1 # 2))) Q2R g /\ closed_box c /\ c_fs c = 0%Z /\ uniform e /\ c_L c = L /\
  (forall l, (l < L)%nat -> 0 < decay_f l) /\ (forall l, (l < L)%nat -> relaxationTime decay_f l <= 1 / 2) /\ visco_prepared e DT decay_f L /\
  (forall i, 0 < pmod e i) /\ (forall i, 0 <= e_coef e "tauP"%string i) /\
  definite_by axes comps (relaxedP P L (relaxP e)) (relaxedM M L (relaxM e)) 1 /\ definite_by axes comps (relaxP e) (relaxM e) 1 /\ moduli_below axes comps P M 2 4 /\
  (forall a i, In a comps -> 1 <= e_coef e (buoyancy axes a) i <= 1) /\
  (forall ty t i, injected (src ty) t i = 0) /\ DT < cfl_limit 2 (Z.of_nat (length axes)) h 2 /\
  (forall T, elastic_solution 5 4 3 2 h DT T 2 18 e axes comps P M L (relaxationTime decay_f) (relaxP e) (relaxM e) (sh_V decay_v) (sh_S decay_s) (sh_R decay_r)) /\
  (forall x y z, (0 <= x < 5)%Z -> (0 <= y < 4)%Z -> (0 <= z < 3)%Z -> let i := reg_index 5 3 x y z in
     (forall a, In a comps -> st (vel a) i = sh_V decay_v a (- (DT / 2)) (spot h (vel_half a) x y z)) /\
     (forall a b, In (a, b) (stresses axes comps) -> st (sig a b) i = sh_S decay_s a b 0 (spot h (sig_half a b) x y z) /\
        forall l, (l < L)%nat -> st (rel a b l) i = sh_R decay_r a b l 0 (spot h (sig_half a b) x y z))) /\
  0 < sh_V decay_v AZ 0 (spot h (vel_half AZ) 0 0 0).
Proof.
  destruct (ex_env_ok ex_coef_d ex_sca_d) as (g & e & HU & HM & EC & ES).
  assert (EH : Q2R (1 # 2) = 1 / 2) by (unfold Q2R; cbn; lra). pose proof k2_bounds as KB. pose proof PI_RGT_0 as P0.
  assert (K1 : 1 / 2 < 1 / k2 < 2).
  { split; apply (Rmult_lt_reg_r k2); try lra; unfold Rdiv; rewrite ?Rmult_assoc, ?Rinv_l by lra; lra. }
  assert (T0 : 3 / 2 < ts < 3) by (unfold ts; lra).
  assert (RTm : forall l, relaxationTime decay_f l = 1 / 2) by (intros l; unfold relaxationTime, decay_f; field; lra).
  assert (EP : forall i, pmod e i = 3) by (intros i; unfold pmod; rewrite EC; reflexivity). assert (EM : forall a b i, smod e a b i = 1) by (intros a b i; unfold smod; rewrite EC; destruct a, b; reflexivity).
  assert (ET : forall a b i, taus e a b i = ts) by (intros a b i; unfold taus; rewrite EC; destruct a, b; reflexivity). assert (ETS : forall i, e_coef e "tauS"%string i = ts) by (intros i; rewrite EC; reflexivity).
  assert (ETP : forall i, e_coef e "tauP"%string i = 1) by (intros i; rewrite EC; reflexivity).
  assert (UM : forall a b i, unrelaxedM e 1 a b i = 1 + ts) by (intros a b i; unfold unrelaxedM; rewrite EM, ETS; cbn [INR]; rring).
  assert (RM : forall a b i, relaxM e a b i = ts) by (intros a b i; unfold relaxM; rewrite EM, ET; rring).
  assert (SOL : forall T, elastic_solution 5 4 3 2 (1 / 2) (1 / 10) T 2 18 e [AX; AY] [AZ] (unrelaxedP e 1) (unrelaxedM e 1) 1 (relaxationTime decay_f) (relaxP e) (relaxM e) (sh_V decay_v) (sh_S decay_s) (sh_R decay_r)).
  { intros T. apply (sh_solution e 1 (relaxationTime decay_f) (unrelaxedP e 1) (unrelaxedM e 1) (relaxP e) (relaxM e) (1 + ts) ts).
    - intros i. rewrite EC. reflexivity.
    - intros a b i _. apply UM.
    - intros a b i _. apply RM.
    - intros t Ht. apply (deriv_ext _ (fun u => exp (- u) * 1)); [intros u; unfold decay_v; ring|]. apply exp_deriv. unfold decay_s. field. lra.
    - intros t Ht. apply exp_deriv. unfold decay_v, decay_r, Rsum. cbn [seq map fold_right]. unfold ts. field. lra.
    - intros t l Ht Hl. apply exp_deriv. rewrite RTm. unfold decay_v, decay_r. field.
    - intros t Ht. assert (E1 : 0 < exp (- t) <= 1).
      { split; [apply exp_pos|]. rewrite <- exp_0. destruct (Req_dec t 0) as [->|Hne]; [rewrite Ropp_0; lra|]. apply Rlt_le, exp_increasing. lra. }
      unfold decay_v, decay_s. split; [rewrite Rabs_right; lra|]. rewrite Rabs_mult, !Rabs_right by lra. pose proof (Rmult_le_compat_r (1 / k2) _ _ ltac:(lra) (proj2 E1)). lra.
    - replace decay_v with decay_v by reflexivity. destruct (exp_smooth 2 18 T 1 ltac:(rewrite Rabs_R1; lra)) as (F & F0 & F1 & F2). exists F. split; [intros u; rewrite F0; unfold decay_v; ring|]. split; assumption.
    - apply (smooth_sub _ _ (- (1 / 10 / 2))); [lra|]. apply exp_smooth. rewrite Rabs_right by lra. lra.
    - intros l Hl. split; apply (smooth_sub _ _ (- (1 / 10 / 2))); try lra; apply exp_smooth; rewrite Rabs_Ropp, Rabs_right by lra; lra. }
  exists e, (Cfg false false 0 false false false false 1), g, (fun _ => []), (exst 5 3 (1 / 10) (1 / 2) (sh_V decay_v) (sh_S decay_s) (sh_R decay_r) 0). cbv zeta.
  split; [right; right; repeat split; reflexivity|]. split; [left; reflexivity|]. split; [cbn; lra|]. split; [apply HM|]. split; [repeat split; discriminate|]. split; [reflexivity|]. split; [exact HU|]. split; [reflexivity|].
  split; [intros l _; apply Rdiv_lt_0_compat; lra|]. split; [intros l _; rewrite RTm; lra|].
  split. { split; rewrite ?EC, ?ES; try (intros; reflexivity); try (intros i; unfold onePlusLtau; cbn; lra). cbn. lra. }
  split; [intros i; rewrite EP; lra|]. split; [intros i; rewrite ETP; lra|].
  split. { intros i. split; [intros H; contradiction H; reflexivity|]. intros ab _. unfold relaxedM. rewrite UM, RM. cbn [INR]. lra. }
  split. { intros i. split; [intros H; contradiction H; reflexivity|]. intros ab _. rewrite RM. lra. }
  split. { intros i. unfold unrelaxedP. rewrite EP, ETP, !UM. cbn [INR]. split; [lra|]. split; [lra|]. intros ab _. rewrite UM. lra. }
  split; [intros a i [<-|[]]; rewrite EC; cbn; lra|]. split; [reflexivity|]. split; [exact (cfl_ex 2 2 fd_h_2 ltac:(lia))|]. rewrite EH. split; [exact SOL|]. split.
  - intros x y z Hx Hy Hz. assert (Hi : inside 5 4 3 x y z) by (unfold inside; auto). split.
    + intros a Ha. rewrite exst_v, (samp_at 5 4 3 (1 / 2)) by exact Hi. cbn [INR]. replace (0 * (1 / 10) - 1 / 10 / 2) with (- (1 / 10 / 2)) by field. reflexivity.
    + intros a b Hab. split; [|intros l Hl].
      * rewrite (exst_s e 5 4 3 2 _ _ _ _ _ _ _ _ _ _ _ _ _ _ _ _ (SOL 0)), (samp_at 5 4 3 (1 / 2)) by exact Hi. cbn [INR]. rewrite Rmult_0_l. reflexivity.
      * rewrite (exst_r e 5 4 3 2 _ _ _ _ _ _ _ _ _ _ _ _ _ _ _ _ (SOL 0)), (samp_at 5 4 3 (1 / 2)) by exact Hi. cbn [INR]. rewrite Rmult_0_l. reflexivity.
  - unfold sh_V, decay_v, phi, spot, coordinate. cbn [vel_half axis_eqb]. rewrite Ropp_0, exp_0, Rmult_1_l, Rmult_0_l, !Rplus_0_l. destruct k_bounds. pose proof PI2_1.
    apply Rmult_lt_0_compat; apply cos_gt_0; lra.
Qed.
