(** C127 (velocities of a porous medium), C128 (the rock matrix gives the rock back), C129 (porosity from the shear modulus), C131 (the
    factor 4/3), C132 (rock matrix of a prepared object). *)
From Coq Require Import Reals Lra Psatz.
From Verif Require Import Base M_Grid M_Average M_Common M_Model M_ModelEM M_Petro S_Model S_ModelEM S_Petro L_AcqFile L_Acq2 L_Acq L_Model L_Model2 L_ModelEM L_ModelEM3 L_Petro L_Petro2 P_Model P_Petro.
Open Scope Z_scope.
Local Open Scope R_scope.

(** A rock matrix of the right size. *)
Definition matrix_sized (k : kind) (n : nat) (p : petro) : Prop :=
  length (porosity p) = n /\ length (saturation p) = n /\ length (rhoMa p) = n /\ length (muMa p) = n /\ (hasP k = true -> length (kMa p) = n).

Definition waveD (k : kind) (phi s rm : R) : R := gd k ((1 - phi) * rm + poreS phi s).
Definition waveMu (k : kind) (phi mm : R) : R := gd k (mm * (1 - biot_coefficient phi)).
Definition waveK (k : kind) (phi s km : R) : R :=
  gd k (km * (1 - biot_coefficient phi) + mS phi s km * (biot_coefficient phi * biot_coefficient phi)).
Lemma from_ex k o n : k <> Acoustic -> matrix_sized k n (pet o) -> exists d vs vp, 
  fromPetrophysics k o = Ok (withBase o (let m := setVelocityS (setDensity (base o) d) vs in if hasP k then setVelocityP m vp else m)) /\
  length d = n /\ length vs = n /\ (hasP k = true -> length vp = n) /\
  forall i phi s rm mm, pt (porosity (pet o)) i phi -> pt (saturation (pet o)) i s -> pt (rhoMa (pet o)) i rm -> pt (muMa (pet o)) i mm ->
    pt d i (waveD k phi s rm) /\ pt vs i (velS (waveMu k phi mm) (waveD k phi s rm)) /\
    (hasP k = true -> forall km, pt (kMa (pet o)) i km -> pt vp i (velS (waveMu k phi mm + waveK k phi s km) (waveD k phi s rm))).
Proof.
  intros Hk (L1&L2&L3&L4&L5). set (beta := biot (porosity (pet o))).
  assert (Lb : length beta = n) by (unfold beta; rewrite biot_len; exact L1).
  assert (B : forall i x, pt (porosity (pet o)) i x -> pt beta i (biot_coefficient x)) by (intros; apply C125_biot; assumption).
  destruct (pore_ex (porosity (pet o)) (saturation (pet o)) n L1 L2) as (w&Ew&Lw&Pw).
  destruct (zip_ex Rmult (map (fun x => 1 - x) (porosity (pet o))) (rhoMa (pet o)) n ltac:(rewrite map_length; exact L1) L3) as (g&Eg&Lg&Pg).
  destruct (zip_ex Rplus g w n Lg Lw) as (d&Ed&Ld&Pd).
  destruct (zip_ex Rmult (muMa (pet o)) (map (fun b => 1 - b) beta) n L4 ltac:(rewrite map_length; exact Lb)) as (mu&Em&Lm&Pm).
  destruct (vel_ex (guarded k mu) (guarded k d) n) as (vs&Ev&Lv&Pv); [autorewrite with lens; assumption..|].
  assert (Dp : forall i phi s rm, pt (porosity (pet o)) i phi -> pt (saturation (pet o)) i s -> pt (rhoMa (pet o)) i rm -> pt (guarded k d) i (waveD k phi s rm)).
  { intros i phi s rm H1 H2 H3. apply guarded_pt, Pd; [apply Pg; [apply (mp (fun x => 1 - x)), H1|exact H3]|apply Pw; assumption]. }
  assert (Mp : forall i phi mm, pt (porosity (pet o)) i phi -> pt (muMa (pet o)) i mm -> pt (guarded k mu) i (waveMu k phi mm)).
  { intros i phi mm H1 H2. apply guarded_pt, Pm; [exact H2|]. apply (mp (fun b => 1 - b)), B, H1. }
  destruct (hasP k) eqn:HP.
  - specialize (L5 eq_refl). destruct (M_ex (porosity (pet o)) (saturation (pet o)) (kMa (pet o)) n L1 L2 L5) as (M&EM&LM&PM).
    destruct (zip_ex Rmult M (map (fun b => b * b) beta) n LM ltac:(rewrite map_length; exact Lb)) as (b2&E2&Lb2&P2).
    destruct (zip_ex Rmult (kMa (pet o)) (map (fun b => 1 - b) beta) n L5 ltac:(rewrite map_length; exact Lb)) as (k1&E3&L6&P3).
    destruct (zip_ex Rplus k1 b2 n L6 Lb2) as (ks&E4&L7&P4).
    destruct (zip_ex Rplus (map (fun x => IZR fourThirds * x) (guarded k mu)) (guarded k ks) n) as (pm&E5&L8&P5); [autorewrite with lens; assumption..|].
    destruct (vel_ex pm (guarded k d) n L8 ltac:(autorewrite with lens; assumption)) as (vp&E6&L9&P6).
    exists (guarded k d), vs, vp. split.
    { unfold fromPetrophysics. fold beta. rewrite HP, Ew. cbn [bind]. rewrite Eg. cbn [bind]. rewrite Ed. cbn [bind]. rewrite Em. cbn [bind]. rewrite Ev. cbn [bind].
      rewrite EM. cbn [bind]. rewrite E2. cbn [bind]. rewrite E3. cbn [bind]. rewrite E4. cbn [bind]. rewrite E5. cbn [bind]. rewrite E6. cbn [bind].
      destruct k; try congruence; reflexivity. }
    split; [autorewrite with lens; exact Ld|]. split; [exact Lv|]. split; [auto|].
    intros i phi s rm mm H1 H2 H3 H4. split; [apply Dp; assumption|]. split; [apply Pv; [apply Mp; assumption|apply Dp; assumption]|]. intros _ km H5.
    apply P6; [|apply Dp; assumption]. unfold pt in *. rewrite (P5 i (IZR fourThirds * waveMu k phi mm) (waveK k phi s km)).
    + f_equal. change fourThirds with 1%Z. ring.
    + apply (mp (fun x => IZR fourThirds * x)), Mp; assumption.
    + apply guarded_pt, P4; [apply P3; [exact H5|apply (mp (fun b => 1 - b)), B, H1]|]. apply P2; [apply PM; assumption|apply (mp (fun b => b * b)), B, H1].
  - exists (guarded k d), vs, []. split.
    { unfold fromPetrophysics. fold beta. rewrite HP, Ew. cbn [bind]. rewrite Eg. cbn [bind]. rewrite Ed. cbn [bind]. rewrite Em. cbn [bind]. rewrite Ev. cbn [bind].
      destruct k; try congruence; reflexivity. }
    split; [autorewrite with lens; exact Ld|]. split; [exact Lv|]. split; [discriminate|].
    intros i phi s rm mm H1 H2 H3 H4. split; [apply Dp; assumption|]. split; [apply Pv; [apply Mp; assumption|apply Dp; assumption]|]. discriminate.
Qed.

(** What fromPetrophysics leaves alone: everything but density and velocities; the derived quantities are marked as out of date. *)
Definition only_medium (k : kind) (o o' : rock) : Prop :=
  let p := par (base o) in let q := par (base o') in
  pet o' = pet o /\ parameterisation o' = parameterisation o /\
  tauP q = tauP p /\ tauS q = tauS p /\ freqs q = freqs p /\ nrel q = nrel p /\ cfreq q = cfreq p /\ (hasP k = false -> vP q = vP p) /\
  dS (base o') = true /\ dI (base o') = true /\ dA (base o') = true /\ (hasP k = true -> dP (base o') = true).

(** C127: calcWaveModulusFromPetrophysics of the four classes with shear waves: density and shear velocity of the medium wherever the
    density is positive; P-wave velocity of the medium with the bulk modulus of Gassmann's relations (taking rho (vp^2 - vs^2) as
    the bulk modulus, see C131); zero velocities where the density is zero. *)
Theorem C127_medium : forall k o n, k <> Acoustic -> matrix_sized k n (pet o) -> exists o', fromPetrophysics k o = Ok o' /\
  only_medium k o o' /\ rock_sized k n o' /\
  forall i phi s rm mm, pt (porosity (pet o)) i phi -> pt (saturation (pet o)) i s -> pt (rhoMa (pet o)) i rm -> pt (muMa (pet o)) i mm ->
    0 <= mm -> 0 <= (1 - phi) * rm + phi * fluid_density s ->
    exists r vs, pt (rho (par (base o'))) i r /\ pt (vS (par (base o'))) i vs /\ 0 <= vs /\
      r = (1 - phi) * rm + phi * fluid_density s /\ (0 < r -> r * vs ^ 2 = (1 - biot_coefficient phi) * mm) /\ (r = 0 -> vs = 0) /\
      (hasP k = true -> forall km, pt (kMa (pet o)) i km -> 0 <= phi <= 1 -> 0 <= s <= 1 -> 0 <= km ->
         exists vp, pt (vP (par (base o'))) i vp /\ 0 <= vp /\ (r = 0 -> vp = 0) /\
           (0 < r -> medium phi s rm mm km r (r * vs ^ 2) (r * (vp ^ 2 - vs ^ 2)))).
Proof.
  intros k o n Hk Sz. destruct (from_ex k o n Hk Sz) as (d&vs&vp&E&Ld&Lv&Lp&P). eexists. split; [exact E|].
  destruct Sz as (L1&L2&L3&L4&L5). split; [|split].
  - destruct (hasP k) eqn:HP; cbn; unfold only_medium; cbn; rewrite ?HP; repeat split; auto; discriminate.
  - unfold rock_sized. destruct (hasP k) eqn:HP; cbn; rewrite ?HP; repeat split; auto; discriminate.
  - intros i phi s rm mm H1 H2 H3 H4 Hm Hr. destruct (P i phi s rm mm H1 H2 H3 H4) as (P1&P2&P3).
    assert (ED : waveD k phi s rm = (1 - phi) * rm + phi * fluid_density s) by (unfold waveD; rewrite poreS_eq; apply gd_id, Hr). rewrite ED in *.
    pose proof (biot_range phi) as Br.
    assert (EM : waveMu k phi mm = (1 - biot_coefficient phi) * mm).
    { unfold waveMu. rewrite gd_id; [ring|]. apply Rmult_le_pos; lra. } rewrite EM in *.
    assert (Pm : 0 <= (1 - biot_coefficient phi) * mm) by (apply Rmult_le_pos; lra).
    set (r := (1 - phi) * rm + phi * fluid_density s) in *. exists r, (velS ((1 - biot_coefficient phi) * mm) r).
    split; [destruct (hasP k); exact P1|]. split; [destruct (hasP k); exact P2|].
    assert (V0 : 0 <= velS ((1 - biot_coefficient phi) * mm) r).
    { destruct (Req_dec r 0) as [->|]; [rewrite velS_zero; lra|]. apply velS_ok; [exact Pm|lra]. }
    split; [exact V0|]. split; [reflexivity|]. split; [intros Q; apply velS_ok; [exact Pm|exact Q]|]. split; [intros ->; apply velS_zero|].
    intros HP km H5 Bp Bs Bk. specialize (P3 HP km H5). destruct (bM_ok phi s km Bp Bs Bk) as (M1&M2). cbv zeta in M1, M2.
    assert (EK : waveK k phi s km = (1 - biot_coefficient phi) * km + (biot_coefficient phi) ^ 2 * (fluid_modulus s * km / (phi * km + (biot_coefficient phi - phi) * fluid_modulus s))).
    { unfold waveK. rewrite gd_id; [rewrite M1; ring|]. assert (0 <= km * (1 - biot_coefficient phi)) by (apply Rmult_le_pos; lra). lra. }
    assert (PK : 0 <= waveK k phi s km). { unfold waveK. assert (0 <= km * (1 - biot_coefficient phi)) by (apply Rmult_le_pos; lra). rewrite gd_id; lra. }
    set (K := waveK k phi s km) in *. eexists. split; [rewrite HP; exact P3|].
    split. { destruct (Req_dec r 0) as [->|]; [rewrite velS_zero; lra|]. apply velS_ok; lra. }
    split; [intros ->; apply velS_zero|]. intros Q. destruct (velS_ok ((1 - biot_coefficient phi) * mm) r Pm Q) as (_&V1&_).
    destruct (velS_ok ((1 - biot_coefficient phi) * mm + K) r ltac:(lra) Q) as (_&V2&_).
    split; [reflexivity|]. split; [exact V1|]. rewrite <- EK. rewrite Rmult_minus_distr_l, V1, V2. ring.
Qed.
Print Assumptions C127_medium.
Example C127_case : matrix_sized Elastic 1 (mkPet [1/5] [1/2] [Num 0] [2650] [44000000000] [37000000000]) /\
  0 <= (1 - 1/5) * 2650 + 1/5 * fluid_density (1/2).
Proof. split; [repeat split; auto|]. unfold fluid_density, water_density, air_density. lra. Qed.

(** C128: the rock matrix calculated from a rock, put back into the formulas, gives the same density and velocities. *)
Lemma square_eq r a b : 0 < r -> 0 <= a -> 0 <= b -> r * a ^ 2 = r * b ^ 2 -> a = b.
Proof. intros Hr Ha Hb H. apply Rmult_eq_reg_l in H; [|lra]. rewrite <- (sqrt_pow2 a), <- (sqrt_pow2 b) by assumption. congruence. Qed.
Theorem C128_back : forall k o n, k <> Acoustic -> rock_sized k n o -> current k (base o) ->
  exists o1 o2, calcRockMatrix k o = Ok o1 /\ fromPetrophysics k o1 = Ok o2 /\
  forall i phi s r vs, pt (porosity (pet o)) i phi -> pt (saturation (pet o)) i s -> pt (rho (par (base o))) i r -> pt (vS (par (base o))) i vs ->
    0 <= phi < critical -> 0 <= s <= 1 -> 0 < r -> phi * fluid_density s <= r -> 0 <= vs ->
    pt (rho (par (base o2))) i r /\ pt (vS (par (base o2))) i vs /\
    (hasP k = true -> forall vp, pt (vP (par (base o))) i vp -> vs <= vp -> pt (vP (par (base o2))) i vp).
Proof.
  intros k o n Hk Sz C. destruct (C126_matrix k o n Hk Sz C) as (o1&E1&S1&L1&L2&L3&P1). destruct Sz as (Z1&Z2&Z3&Z4&Z5). destruct S1 as (Q1&Q2&Q3&Q4&Q5).
  destruct (C127_medium k o1 n Hk) as (o2&E2&_&_&P2). { unfold matrix_sized. rewrite Q2, Q3. repeat split; auto. intros HP. rewrite HP in L3. exact L3. }
  exists o1, o2. split; [exact E1|]. split; [exact E2|]. intros i phi s r vs H1 H2 H3 H4 Bp Bs Br Bd Bv.
  destruct (P1 i phi s r vs H1 H2 H3 H4 Bp Bs Bd) as (rm&mm&M1&M2&B1&B2&R1&R2&R3).
  destruct (P2 i phi s rm mm) as (r'&vs'&N1&N2&B3&R4&R5&_&R6); [rewrite Q2; exact H1|rewrite Q3; exact H2|exact M1|exact M2|exact B2|lra|].
  rewrite <- R1 in R4. subst r'. specialize (R5 Br). assert (vs' = vs) as -> by (apply (square_eq r); auto; lra).
  split; [exact N1|]. split; [exact N2|]. intros HP vp Hvp Bvp. destruct (R3 HP vp Hvp) as (km&M3&B4&Md); [apply pow_incr; lra|].
  destruct (R6 HP km M3) as (vp'&N3&B5&_&Md'); [unfold critical in *; lra|exact Bs|exact B4|]. specialize (Md' Br).
  destruct Md as (_&_&Ek), Md' as (_&_&Ek'). assert (vp' = vp) as ->; [|exact N3]. apply (square_eq r); auto; [lra|].
  assert (r * (vp' ^ 2 - vs ^ 2) = r * (vp ^ 2 - vs ^ 2)) by (rewrite Ek, Ek'; reflexivity). lra.
Qed.
Print Assumptions C128_back.
Example C128_case : let o := mkRock (fresh (mkP [3000; 2500] [1500; 0] [2200; 1000] [] [] [] 0 None)) (mkPet [1/5; 0] [1/2; 1] [Num 0; Num 0] [] [] []) 1 in
  rock_sized Viscoelastic 2 o /\ current Viscoelastic (base o) /\ 0 <= 1/5 < critical /\ 1/5 * fluid_density (1/2) <= 2200 /\ 0 * fluid_density 1 <= 1000.
Proof. cbn. unfold rock_sized, current, fluid_density, water_density, air_density, critical. cbn. repeat split; auto; try discriminate; lra. Qed.

(** C129: calcPetrophysicsFromWaveModulus sets the porosity to 0.4 (1 - mu / mu_ma), to 0 without shear strength of the grains, and
    changes nothing else. *)
Theorem C129_porosity : forall k o n, k <> Acoustic -> rock_sized k n o -> current k (base o) -> length (muMa (pet o)) = n ->
  exists o', toPetrophysics k o = Ok o' /\ par (base o') = par (base o) /\ parameterisation o' = parameterisation o /\
  saturation (pet o') = saturation (pet o) /\ reflectivity (pet o') = reflectivity (pet o) /\ rhoMa (pet o') = rhoMa (pet o) /\
  muMa (pet o') = muMa (pet o) /\ kMa (pet o') = kMa (pet o) /\ length (porosity (pet o')) = n /\
  forall i r vs mm, pt (rho (par (base o))) i r -> pt (vS (par (base o))) i vs -> pt (muMa (pet o)) i mm ->
    exists phi, pt (porosity (pet o')) i phi /\ (mm <> 0 -> phi = critical * (1 - r * vs ^ 2 / mm)) /\ (mm = 0 -> phi = 0).
Proof.
  intros k o n Hk (L1&L2&L3&L4&L5) C Lm. assert (HS : hasS k = true) by (destruct k; auto; congruence).
  destruct (shearOf_ex k (base o) n HS L1 L2 C) as (m1&mu&E1&P1&C1&Lmu&Pmu).
  destruct (zip_ex fdiv mu (muMa (pet o)) n Lmu Lm) as (q&Eq1&Lq&Pq).
  exists (mkRock m1 (mkPet (cleaned (map (fun y => fmul (fsub (Num 1) y) (Num criticalPorosity)) q)) (saturation (pet o)) (reflectivity (pet o)) (rhoMa (pet o)) (muMa (pet o)) (kMa (pet o))) (parameterisation o)).
  split. { unfold toPetrophysics. rewrite E1. cbn [bind]. rewrite Eq1. cbn [bind]. destruct k; try congruence; reflexivity. }
  cbn. split; [exact P1|]. do 6 (split; [reflexivity|]). split; [autorewrite with lens; exact Lq|].
  intros i r vs mm H1 H2 H3. eexists. split; [apply cleaned_pt, (mp (fun y => fmul (fsub (Num 1) y) (Num criticalPorosity))), Pq; [apply Pmu; eassumption|exact H3]|].
  split; [intros N|intros ->].
  - rewrite fdiv_ok by exact N. cbn. unfold criticalPorosity, critical. field. exact N.
  - destruct (fdiv_zero (r * vs ^ 2)) as (x&->&_&N). destruct x; try (exfalso; eapply N; reflexivity); cbn;
      unfold fscale, criticalPorosity; try reflexivity; destruct (Req_EM_T (4 / 10) 0); try reflexivity; destruct (Rlt_dec 0 (4 / 10)); reflexivity.
Qed.
(** After calcWaveModulusFromPetrophysics it gives the porosity back, cut at 0 and at the critical porosity. *)
Theorem C129_back : forall k o n, k <> Acoustic -> matrix_sized k n (pet o) ->
  exists o1 o2, fromPetrophysics k o = Ok o1 /\ toPetrophysics k o1 = Ok o2 /\
  forall i phi s rm mm, pt (porosity (pet o)) i phi -> pt (saturation (pet o)) i s -> pt (rhoMa (pet o)) i rm -> pt (muMa (pet o)) i mm ->
    0 < mm -> 0 < (1 - phi) * rm + phi * fluid_density s -> pt (porosity (pet o2)) i (Rmin critical (Rmax 0 phi)).
Proof.
  intros k o n Hk Sz. destruct (C127_medium k o n Hk Sz) as (o1&E1&Om&S1&P1). destruct Om as (Q1&Q2&_&_&_&_&_&_&D1&D2&D3&D4).
  destruct (C129_porosity k o1 n Hk S1) as (o2&E2&_&_&_&_&_&_&_&_&P2).
  { intros _. split; [intros D; congruence|]. intros HP D. specialize (D4 HP). congruence. }
  { rewrite Q1. apply Sz. }
  exists o1, o2. split; [exact E1|]. split; [exact E2|]. intros i phi s rm mm H1 H2 H3 H4 Bm Br.
  destruct (P1 i phi s rm mm H1 H2 H3 H4 ltac:(lra) ltac:(lra)) as (r&vs&N1&N2&_&R1&R2&_). rewrite <- R1 in Br. specialize (R2 Br).
  destruct (P2 i r vs mm N1 N2) as (x&Px&X1&_); [rewrite Q1; exact H4|]. rewrite R2 in X1. specialize (X1 ltac:(lra)).
  assert (x = Rmin critical (Rmax 0 phi)) as <-; [|exact Px]. rewrite X1. replace ((1 - biot_coefficient phi) * mm / mm) with (1 - biot_coefficient phi) by (field; lra).
  unfold biot_coefficient, critical. destruct (Rle_dec phi 0).
  - rewrite (Rmax_left 0 phi) by lra. rewrite Rmax_left by lra. rewrite !Rmin_right by lra. ring.
  - rewrite (Rmax_right 0 phi) by lra. rewrite Rmax_right by lra. destruct (Rle_dec phi (2 / 5)).
    + rewrite !Rmin_right by lra. field.
    + rewrite !Rmin_left by lra. ring.
Qed.
Print Assumptions C129_porosity.
Print Assumptions C129_back.
Example C129_case : matrix_sized SH 2 (mkPet [1/5; 1/2] [1/2; 1] [Num 0; Num 0] [2650; 2650] [44000000000; 1] []) /\
  0 < (1 - 1/5) * 2650 + 1/5 * fluid_density (1/2) /\ Rmin critical (Rmax 0 (1/5)) = 1/5 /\ Rmin critical (Rmax 0 (1/2)) = critical.
Proof.
  split; [repeat split; auto; discriminate|]. unfold fluid_density, water_density, air_density, critical. split; [lra|].
  rewrite !Rmax_right by lra. split; [apply Rmin_right; lra|apply Rmin_left; lra].
Qed.

(** C131: because 4 / 3 is an integer quotient, the P-wave modulus of the medium is K + mu instead of K + 4/3 mu: wherever the grains
    have shear strength, the P-wave velocity is too small. *)
Theorem C131_too_slow : forall k o n, hasP k = true -> k <> Acoustic -> matrix_sized k n (pet o) -> exists o', fromPetrophysics k o = Ok o' /\
  forall i phi s rm mm km rho_m mu K, pt (porosity (pet o)) i phi -> pt (saturation (pet o)) i s -> pt (rhoMa (pet o)) i rm -> pt (muMa (pet o)) i mm ->
    pt (kMa (pet o)) i km -> 0 <= phi < critical -> 0 <= s <= 1 -> 0 < mm -> 0 <= km -> 0 < rho_m -> medium phi s rm mm km rho_m mu K ->
    exists vp, pt (vP (par (base o'))) i vp /\ vp = sqrt ((K + mu) / rho_m) /\ vp < sqrt ((K + 4 / 3 * mu) / rho_m).
Proof.
  intros k o n HP Hk Sz. destruct (C127_medium k o n Hk Sz) as (o'&E&_&_&P). exists o'. split; [exact E|].
  intros i phi s rm mm km r mu K H1 H2 H3 H4 H5 Bp Bs Bm Bk Br (M1&M2&M3).
  destruct (P i phi s rm mm H1 H2 H3 H4 ltac:(lra) ltac:(lra)) as (r'&vs&N1&N2&B1&R1&R2&_&R3). rewrite <- M1 in R1. subst r'.
  destruct (R3 HP km H5) as (vp&N3&B2&_&Md); [unfold critical in Bp; lra|exact Bs|exact Bk|]. destruct (Md Br) as (_&V1&V2).
  assert (Vp : r * vp ^ 2 = K + mu) by lra. exists vp. split; [exact N3|].
  assert (Ev : vp = sqrt ((K + mu) / r)) by (rewrite <- (sqrt_pow2 vp) at 1 by exact B2; f_equal; rewrite <- Vp; field; lra).
  split; [exact Ev|]. rewrite Ev.
  assert (Bb : biot_coefficient phi < 1) by (rewrite biot_inner by lra; unfold critical in *; lra).
  assert (Pmu : 0 < mu) by (rewrite M2; apply Rmult_lt_0_compat; lra).
  assert (I : 0 < / r) by (apply Rinv_0_lt_compat, Br).
  apply sqrt_lt_1_alt. split.
  - replace ((K + mu) / r) with (vp ^ 2); [apply pow2_ge_0|]. rewrite <- Vp. field. lra.
  - unfold Rdiv. apply Rmult_lt_compat_r; lra.
Qed.
Print Assumptions C131_too_slow.
Example C131_case : let p := mkPet [1/5] [1/2] [Num 0] [2650] [44000000000] [37000000000] in
  matrix_sized Elastic 1 p /\ exists r mu K, 0 < r /\ medium (1/5) (1/2) 2650 44000000000 37000000000 r mu K.
Proof.
  split; [repeat split; auto|]. do 3 eexists. split; [|repeat split; reflexivity]. unfold fluid_density, water_density, air_density. lra.
Qed.

(** C132: the rock matrix uses the stored shear modulus, which preparation raises to at least 1: for a prepared object of the classes
    without relaxation, (1 - b) mu_ma is max(1, rho vs^2) instead of rho vs^2. *)
Theorem C132_prepared : forall k g p0 os m outs m1, k = SH \/ k = Elastic -> run k g (fresh p0) os = Ok (m, outs) -> dA m = true ->
  step k g m Prepare = Ok (m1, Nothing) -> forall q z o', calcRockMatrix k (mkRock m1 q z) = Ok o' ->
  forall i phi r vs, pt (porosity q) i phi -> pt (rho (par m)) i r -> pt (vS (par m)) i vs -> 0 <= phi < critical ->
    exists mm, pt (muMa (pet o')) i mm /\ (1 - biot_coefficient phi) * mm = Rmax 1 (r * vs ^ 2).
Proof.
  intros k g p0 os m outs m1 Kk H D E1 q z o' E i phi r vs H1 H2 H3 Bp. pose proof (inv_run _ _ _ _ _ _ (inv_fresh k g p0) H) as I.
  assert (K : hasS k = true) by (destruct Kk as [->| ->]; reflexivity). assert (V : visco k = false) by (destruct Kk as [->| ->]; reflexivity).
  cbn in E1. apply bind_ok in E1 as (m1'&E1&F). injection F as <-.
  destruct (prepare_clamped _ _ _ _ I D K E1) as (w&Ew&Hw). destruct (inv_prepare _ _ _ _ I E1) as (_&_&_&_&DS&_).
  unfold computeS in Ew. rewrite V in Ew. apply bind_ok in Ew as (w'&Ew&F). injection F as <-.
  assert (Pw : pt (sMod m1') i (Rmax 1 (r * vs ^ 2))).
  { rewrite Hw, clamp_max. apply mp. apply modulus_spec in Ew. apply (elastic_pt _ _ _ _ _ _ Ew); assumption. }
  assert (Sh : shearOf k m1' = Ok (m1', sMod m1')) by (unfold shearOf, getSWaveModulus; rewrite V, K, (DS K); reflexivity).
  assert (G : exists u, matrixShear k (sMod m1') (biot (porosity q)) = Ok u /\ muMa (pet o') = u).
  { unfold calcRockMatrix in E. cbn [base pet] in E. rewrite Sh in E. cbn [bind] in E.
    assert (E' : ('(m, ks) <- (if hasP k then '(m, x) <- saturatedBulk k m1' (sMod m1') ;; Ok (m, Some x) else Ok (m1', None)) ;;
      d <- matrixDensity k (rho (par m)) (porosity q) (saturation q) ;; u <- matrixShear k (sMod m1') (biot (porosity q)) ;;
      b <- match ks with Some ks => matrixBulk k ks (biot (porosity q)) (bulkModulusKf (saturation q)) | None => Ok (kMa q) end ;;
      Ok (mkRock m (mkPet (porosity q) (saturation q) (reflectivity q) d u b) z)) = Ok o') by (destruct Kk as [->| ->]; exact E).
    clear E. apply bind_ok in E' as ((m2&ks)&_&E). apply bind_ok in E as (d&_&E). apply bind_ok in E as (u&Eu&E). apply bind_ok in E as (b&_&E). injection E as <-.
    exists u. auto. }
  destruct G as (u&Eu&Hu). rewrite Hu. unfold matrixShear in Eu. apply bind_ok in Eu as (y&Ey&F). injection F as <-.
  assert (Bb : 0 <= biot_coefficient phi < 1) by (rewrite biot_inner by lra; unfold critical in *; lra).
  assert (M0 : 0 <= Rmax 1 (r * vs ^ 2)) by (apply (Rle_trans _ 1); [lra|apply Rmax_l]).
  destruct (shearS_ok k (Rmax 1 (r * vs ^ 2)) (biot_coefficient phi) ltac:(lra) M0) as (S1&_).
  exists (shearS k (Rmax 1 (r * vs ^ 2)) (biot_coefficient phi)). split.
  - apply guarded_pt, cleaned_pt. apply zipR_at in Ey as (_&_&N). rewrite N, (fp_pt _ _ _ Pw), (mp _ _ _ _ (proj2 (C125_biot _) _ _ H1)). reflexivity.
  - rewrite S1. field. lra.
Qed.
Print Assumptions C132_prepared.
(** The case vs = 0: grains without shear strength get mu_ma >= 1. *)
Theorem C132_differs : exists g p m1 q o1 o2, mk_regular 2 2 1 = Ok g /\ step SH g (fresh p) Prepare = Ok (m1, Nothing) /\ par m1 = p /\
  calcRockMatrix SH (mkRock (fresh p) q 1) = Ok o1 /\ calcRockMatrix SH (mkRock m1 q 1) = Ok o2 /\ pt (muMa (pet o1)) 0 0 /\ pt (muMa (pet o2)) 0 1.
Proof.
  set (p := mkP [] [0; 0; 0; 0]%R [3; 3; 3; 3]%R [] [] [] 0 None). set (q := mkPet [0; 0; 0; 0] [0; 0; 0; 0] [] [] [] []).
  assert (G : exists g, mk_regular 2 2 1 = Ok g) by (eexists; reflexivity). destruct G as (g&G).
  assert (Rn : run SH g (fresh p) [] = Ok (fresh p, [])) by reflexivity.
  destruct (C88_available SH 2 2 1 g p [] _ _ G Rn eq_refl) as (m1&E&P&_&S&_).
  { repeat split; intros; try reflexivity; discriminate. }
  assert (N1 : exists o1, calcRockMatrix SH (mkRock (fresh p) q 1) = Ok o1 /\ pt (muMa (pet o1)) 0 0).
  { destruct (C126_matrix SH (mkRock (fresh p) q 1) 4) as (o1&E1&_&_&_&_&P1); [discriminate|repeat split; auto; discriminate|intros _; split; discriminate|].
    exists o1. split; [exact E1|]. destruct (P1 0%nat 0 0 3 0) as (rm&mm&_&M2&_&_&_&M3&_); try reflexivity; try (unfold critical; lra).
    rewrite biot_below in M3 by lra. assert (mm = 0) as <- by lra. exact M2. }
  destruct N1 as (o1&E1&M1).
  assert (DS : dS m1 = false). { destruct (S eq_refl) as (v&mu&Ev&_). cbn in Ev. unfold constS in Ev. cbn in Ev. destruct (dS m1); [discriminate|reflexivity]. }
  assert (LS : length (sMod m1) = 4%nat). { destruct (S eq_refl) as (v&mu&Ev&Hmu&Hv). cbn in Ev. unfold constS in Ev. cbn in Ev. rewrite DS in Ev. cbn in Ev. injection Ev as ->. rewrite Hv, map_length. destruct Hmu as (_&L&_). exact L. }
  assert (N2 : exists o2, calcRockMatrix SH (mkRock m1 q 1) = Ok o2).
  { unfold calcRockMatrix, shearOf, getSWaveModulus. cbn [visco hasS negb base pet]. rewrite DS. cbn [bind hasP]. change (par (fresh p)) with p in P. rewrite P.
    destruct (dens_ex SH (rho p) (porosity q) (saturation q) 4 eq_refl eq_refl eq_refl) as (d&->&_). cbn [bind].
    destruct (shear_ex SH (sMod m1) (biot (porosity q)) 4 LS eq_refl) as (u&->&_). cbn [bind]. eexists. reflexivity. }
  destruct N2 as (o2&E2). exists g, p, m1, q, o1, o2. split; [exact G|]. split; [exact E|]. split; [exact P|]. split; [exact E1|]. split; [exact E2|]. split; [exact M1|].
  destruct (C132_prepared SH g p [] _ _ m1 (or_introl eq_refl) Rn eq_refl E q 1%Z o2 E2 0%nat 0 3 0) as (mm&M2&M3); try reflexivity; try (unfold critical; lra).
  rewrite biot_below in M3 by lra. rewrite Rmax_left in M3 by lra. assert (mm = 1) as <- by lra. exact M2.
Qed.
Print Assumptions C132_differs.
