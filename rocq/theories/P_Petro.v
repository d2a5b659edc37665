(** Petrophysics of the seismic parameter classes: C125 (Biot coefficient, pore fluid), C126 (rock matrix), C127 (velocities of a
    porous medium), C128 (the rock matrix gives the rock back), C129 (porosity from the shear modulus), C130 (critical porosity). *)
From Coq Require Import Reals Lra Psatz.
From Verif Require Import Base M_Grid M_Average M_Common M_Model M_ModelEM M_Petro S_Model S_ModelEM S_Petro L_AcqFile L_Acq2 L_Acq L_Model L_Model2 L_ModelEM L_ModelEM3 L_Petro L_Petro2.
Open Scope Z_scope.
Local Open Scope R_scope.

(** C125: Biot's coefficient is porosity / 0.4, cut at 0 and 1, at every point. *)
Theorem C125_biot : forall v, length (biot v) = length v /\ forall i x, pt v i x -> pt (biot v) i (biot_coefficient x).
Proof. intros v. split; [apply biot_len|]. unfold pt. intros i x H. rewrite <- biotS_eq. apply biot_pt, H. Qed.
(** The modulus of the pore fluid for every saturation between 0 and 1: compressibilities are averaged, the result grows with the
    water saturation from the modulus of air to that of water. *)
Theorem C125_fluid : forall v, length (bulkModulusKf v) = length v /\
  forall i s, pt v i s -> 0 <= s <= 1 -> exists k, pt (bulkModulusKf v) i k /\
    / k = s / water_modulus + (1 - s) / air_modulus /\ air_modulus <= k <= water_modulus /\
    forall j s' k', pt v j s' -> 0 <= s' <= 1 -> pt (bulkModulusKf v) j k' -> s < s' -> k < k'.
Proof.
  intros v. split; [apply kf_len|]. unfold pt. intros i s H Hs. exists (fluid_modulus s). split; [rewrite <- kfS_eq by exact Hs; apply kf_pt, H|].
  pose proof (compress_pos s Hs) as C. pose proof air_pos as A. pose proof air_water as W.
  split; [unfold fluid_modulus; rewrite Rinv_inv; reflexivity|]. split.
  - unfold fluid_modulus. assert (D : s / water_modulus + (1 - s) / air_modulus = / air_modulus - s * (/ air_modulus - / water_modulus)) by (unfold Rdiv; ring).
    assert (I : / water_modulus < / air_modulus) by (apply Rinv_lt_contravar; [apply Rmult_lt_0_compat; lra|exact W]).
    assert (B : / water_modulus <= s / water_modulus + (1 - s) / air_modulus <= / air_modulus).
    { rewrite D. assert (0 <= s * (/ air_modulus - / water_modulus)) by (apply Rmult_le_pos; lra).
      assert (0 <= (1 - s) * (/ air_modulus - / water_modulus)) by (apply Rmult_le_pos; lra). lra. }
    split.
    + apply (Rle_trans _ (/ / air_modulus)); [rewrite Rinv_inv; lra|]. apply Rinv_le_contravar; [exact C|apply B].
    + apply (Rle_trans _ (/ / water_modulus)); [|rewrite Rinv_inv; lra]. apply Rinv_le_contravar; [apply Rinv_0_lt_compat; lra|apply B].
  - intros j s' k' Hj Hs' Hk L. pose proof (kf_pt _ _ _ Hj) as Q. rewrite kfS_eq in Q by exact Hs'. assert (k' = fluid_modulus s') as -> by congruence.
    unfold fluid_modulus. pose proof (compress_pos s' Hs') as C'. apply Rinv_lt_contravar; [apply Rmult_lt_0_compat; lra|].
    assert (I : / water_modulus < / air_modulus) by (apply Rinv_lt_contravar; [apply Rmult_lt_0_compat; lra|exact W]).
    assert (D : (s / water_modulus + (1 - s) / air_modulus) - (s' / water_modulus + (1 - s') / air_modulus) = (s' - s) * (/ air_modulus - / water_modulus)) by (unfold Rdiv; ring).
    assert (0 < (s' - s) * (/ air_modulus - / water_modulus)) by (apply Rmult_lt_0_compat; lra). lra.
Qed.
(** The modulus M of the pores: 1/M = phi/kf + (b - phi)/km for grains with a positive bulk modulus; 0 without pores or without grains. *)
Theorem C125_M : forall phi s km n, length phi = n -> length s = n -> length km = n -> exists M, bulkModulusM phi s km = Ok M /\ length M = n /\
  forall i x y z, pt phi i x -> pt s i y -> pt km i z -> 0 <= x <= 1 -> 0 <= y <= 1 -> 0 <= z -> exists m, pt M i m /\ 0 <= m /\
    (0 < x -> 0 < z -> / m = x / fluid_modulus y + (biot_coefficient x - x) / z) /\ (x = 0 \/ z = 0 -> m = 0).
Proof.
  intros phi s km n L1 L2 L3. destruct (M_ex phi s km n L1 L2 L3) as (M&E&L&P). exists M. split; [exact E|]. split; [exact L|].
  intros i x y z Hx Hy Hz Bx By Bz. exists (mS x y z). split; [eauto|]. pose proof (kf_pos y By) as K. pose proof (biot_ge x Bx) as Bg.
  destruct (Req_dec x 0) as [->|Nx].
  - assert (Z : mS 0 y z = 0).
    { unfold mS. rewrite biotS_eq, kfS_eq, (biot_below 0) by lra. rewrite (fdiv_ok 0) by lra. replace (0 - 0) with 0 by ring.
      unfold fdiv. destruct (Req_EM_T z 0).
      - destruct (Req_EM_T 0 0); [|lra]. cbn. apply pos0_id. lra.
      - replace (0 / fluid_modulus y) with 0 by (unfold Rdiv; ring). replace (0 / z) with 0 by (unfold Rdiv; ring). cbn.
        unfold fdiv. destruct (Req_EM_T (0 + 0) 0); [|lra]. destruct (Req_EM_T 1 0); [lra|]. destruct (Rlt_dec 0 1); apply pos0_id; cbn; lra. }
    rewrite Z. split; [lra|]. split; [lra|auto].
  - destruct (mS_ok x y z ltac:(lra) By Bz) as (Q&R). split; [exact R|]. split.
    + intros Px Pz. rewrite Q. assert (0 < x * z) by (apply Rmult_lt_0_compat; lra).
      assert (0 <= (biot_coefficient x - x) * fluid_modulus y) by (apply Rmult_le_pos; lra). field. repeat split; lra.
    + intros [Z|Z]; [lra|]. rewrite Q, Z. unfold Rdiv. ring.
Qed.
Print Assumptions C125_biot.
Print Assumptions C125_fluid.
Print Assumptions C125_M.
Example C125_case : (biot_coefficient (1/10) = 1/4) /\ fluid_modulus 0 = air_modulus /\ fluid_modulus 1 = water_modulus /\
  exists M, bulkModulusM [1/10] [1/2] [36000000000] = Ok M /\ length M = 1%nat.
Proof.
  split; [rewrite biot_inner; unfold critical; lra|]. split; [unfold fluid_modulus, air_modulus, air_density, water_modulus, water_density; field|].
  split; [unfold fluid_modulus, air_modulus, air_density, water_modulus, water_density; field|].
  destruct (C125_M [1/10] [1/2] [36000000000] 1 eq_refl eq_refl eq_refl) as (M&E&L&_). exists M. auto.
Qed.

(** Vectors of one size. *)
Definition rock_sized (k : kind) (n : nat) (o : rock) : Prop :=
  let p := par (base o) in length (rho p) = n /\ length (vS p) = n /\ (hasP k = true -> length (vP p) = n) /\
  length (porosity (pet o)) = n /\ length (saturation (pet o)) = n.
(** The stored moduli, where they are used, belong to the present velocities and density. *)
Definition current (k : kind) (m : model) : Prop := visco k = false ->
  (dS m = false -> elastic_modulus (vS (par m)) (rho (par m)) (sMod m)) /\
  (hasP k = true -> dP m = false -> elastic_modulus (vP (par m)) (rho (par m)) (pMod m)).
(** The rest of an object stays as it was. *)
Definition same_rest (o o' : rock) : Prop :=
  par (base o') = par (base o) /\ porosity (pet o') = porosity (pet o) /\ saturation (pet o') = saturation (pet o) /\
  reflectivity (pet o') = reflectivity (pet o) /\ parameterisation o' = parameterisation o.

Lemma elastic_pt v r m i x y : elastic_modulus v r m -> pt v i x -> pt r i y -> pt m i (y * x ^ 2).
Proof.
  intros (L1&L2&H) Hx Hy. unfold pt in *. assert (Li : (i < length v)%nat) by (apply nth_error_Some; congruence).
  rewrite (nth_error_nth' m 0) by lia. f_equal. rewrite H by exact Li. f_equal; [|f_equal]; apply nth_error_nth; assumption.
Qed.
Lemma modulus_ex v r n : length v = n -> length r = n -> exists m, calcModulusFromVelocity v r = Ok m /\ length m = n /\
  forall i x y, pt v i x -> pt r i y -> pt m i (y * x ^ 2).
Proof.
  intros L1 L2. unfold calcModulusFromVelocity. destruct (zip_ex (fun r c => r * c * c) r v n L2 L1) as (m&E&L&P). exists m. split; [exact E|]. split; [exact L|].
  intros i x y Hx Hy. unfold pt. rewrite (P i y x Hy Hx). f_equal. ring.
Qed.
Lemma shearOf_ex k m n : hasS k = true -> length (rho (par m)) = n -> length (vS (par m)) = n -> current k m ->
  exists m' v, shearOf k m = Ok (m', v) /\ par m' = par m /\ current k m' /\ length v = n /\
    forall i x y, pt (vS (par m)) i x -> pt (rho (par m)) i y -> pt v i (y * x ^ 2).
Proof.
  intros Hk L1 L2 C. unfold shearOf, getSWaveModulus, computeS. destruct (modulus_ex (vS (par m)) (rho (par m)) n L2 L1) as (v&E&L&P). rewrite E, Hk. cbn [bind negb].
  destruct (visco k) eqn:V.
  - exists m, v. repeat split; auto; intros; congruence.
  - destruct (C V) as (C1&C2). destruct (dS m) eqn:D.
    + eexists. exists v. split; [reflexivity|]. split; [reflexivity|]. split; [|split; [exact L|exact P]]. intros _. cbn. split.
      * intros _. apply modulus_spec, E.
      * exact C2.
    + specialize (C1 eq_refl). exists m, (sMod m). split; [reflexivity|]. split; [reflexivity|]. split; [exact C|]. split; [destruct C1 as (_&C1&_); congruence|].
      intros i x y. apply elastic_pt, C1.
Qed.
Lemma pWaveOf_ex k m n : hasP k = true -> length (rho (par m)) = n -> length (vP (par m)) = n -> current k m ->
  exists m' v, pWaveOf k m = Ok (m', v) /\ par m' = par m /\ current k m' /\ length v = n /\
    forall i x y, pt (vP (par m)) i x -> pt (rho (par m)) i y -> pt v i (y * x ^ 2).
Proof.
  intros Hk L1 L2 C. unfold pWaveOf, getPWaveModulus, computeP. destruct (modulus_ex (vP (par m)) (rho (par m)) n L2 L1) as (v&E&L&P). rewrite E, Hk. cbn [bind negb].
  destruct (visco k) eqn:V.
  - exists m, v. repeat split; auto; intros; congruence.
  - destruct (C V) as (C1&C2). specialize (C2 Hk). destruct (dP m) eqn:D.
    + eexists. exists v. split; [reflexivity|]. split; [reflexivity|]. split; [|split; [exact L|exact P]]. intros _. cbn. split; [exact C1|]. intros _ _. apply modulus_spec, E.
    + specialize (C2 eq_refl). exists m, (pMod m). split; [reflexivity|]. split; [reflexivity|]. split; [exact C|]. split; [destruct C2 as (_&C2&_); congruence|].
      intros i x y. apply elastic_pt, C2.
Qed.

(** The whole conversion at a point, as functions of the values there. *)
Lemma rockMatrix_ex k o n : k <> Acoustic -> rock_sized k n o -> current k (base o) -> exists o', calcRockMatrix k o = Ok o' /\
  same_rest o o' /\ current k (base o') /\ length (rhoMa (pet o')) = n /\ length (muMa (pet o')) = n /\
  (if hasP k then length (kMa (pet o')) = n else kMa (pet o') = kMa (pet o)) /\
  forall i phi s r vs, pt (porosity (pet o)) i phi -> pt (saturation (pet o)) i s -> pt (rho (par (base o))) i r -> pt (vS (par (base o))) i vs ->
    pt (rhoMa (pet o')) i (densS k r phi s) /\ pt (muMa (pet o')) i (shearS k (r * vs ^ 2) (biot_coefficient phi)) /\
    (hasP k = true -> forall vp, pt (vP (par (base o))) i vp ->
       pt (kMa (pet o')) i (bulkS k (gd k (r * vp ^ 2 - r * vs ^ 2)) (biot_coefficient phi) (kfS s))).
Proof.
  intros Hk (L1&L2&L3&L4&L5) C. assert (HS : hasS k = true) by (destruct k; auto; congruence).
  destruct (shearOf_ex k (base o) n HS L1 L2 C) as (m1&mu&E1&P1&C1&Lmu&Pmu).
  destruct (dens_ex k (rho (par (base o))) (porosity (pet o)) (saturation (pet o)) n L1 L4 L5) as (d&Ed&Ld&Pd).
  destruct (shear_ex k mu (biot (porosity (pet o))) n Lmu ltac:(rewrite biot_len; exact L4)) as (u&Eu&Lu&Pu).
  assert (B : forall i x, pt (porosity (pet o)) i x -> pt (biot (porosity (pet o))) i (biot_coefficient x)) by (intros; apply C125_biot; assumption).
  destruct (hasP k) eqn:HP.
  - destruct (pWaveOf_ex k m1 n HP) as (m2&pm&E2&P2&C2&Lp&Pp); [rewrite P1; exact L1|rewrite P1; auto|exact C1|]. rewrite P1 in *.
    destruct (zip_ex Rminus pm (map (fun x => IZR fourThirds * x) mu) n Lp ltac:(rewrite map_length; exact Lmu)) as (q&Eq1&Lq&Pq).
    destruct (bulk_ex k (guarded k q) (biot (porosity (pet o))) (bulkModulusKf (saturation (pet o))) n) as (b&Eb&Lb&Pb); [autorewrite with lens; assumption..|].
    exists (mkRock m2 (mkPet (porosity (pet o)) (saturation (pet o)) (reflectivity (pet o)) d u b) (parameterisation o)). split.
    { unfold calcRockMatrix. rewrite E1. cbn [bind]. rewrite HP. unfold saturatedBulk. rewrite E2. cbn [bind]. rewrite Eq1. cbn [bind]. rewrite P2, Ed. cbn [bind]. rewrite Eu. cbn [bind]. rewrite Eb.
      destruct k; try congruence; reflexivity. }
    cbn [base pet rhoMa muMa kMa]. split; [repeat split; exact P2|]. split; [exact C2|]. split; [exact Ld|]. split; [exact Lu|]. split; [exact Lb|].
    intros i phi s r vs Hphi Hs Hr Hvs. split; [apply Pd; assumption|]. split; [apply Pu; auto|]. intros _ vp Hvp.
    apply Pb; [|auto|apply kf_pt, Hs]. apply guarded_pt. apply Pq; [apply Pp; assumption|]. unfold pt in *.
    rewrite (mp (fun x => IZR fourThirds * x) mu i (r * vs ^ 2) (Pmu i vs r Hvs Hr)). f_equal. change fourThirds with 1%Z. ring.
  - exists (mkRock m1 (mkPet (porosity (pet o)) (saturation (pet o)) (reflectivity (pet o)) d u (kMa (pet o))) (parameterisation o)). split.
    { unfold calcRockMatrix. rewrite E1. cbn [bind]. rewrite HP. cbn [bind]. rewrite P1, Ed. cbn [bind]. rewrite Eu. cbn [bind]. destruct k; try congruence; reflexivity. }
    cbn [base pet rhoMa muMa kMa]. split; [repeat split; exact P1|]. split; [exact C1|]. split; [exact Ld|]. split; [exact Lu|]. split; [reflexivity|].
    intros i phi s r vs Hphi Hs Hr Hvs. split; [apply Pd; assumption|]. split; [apply Pu; auto|]. intros; congruence.
Qed.

(** C126: with moduli that are up to date, calcRockMatrixParameter of the four classes with shear waves succeeds on vectors of one
    size, leaves velocities, density, porosity, saturation and reflectivity alone, and gives grains with the medium's density, shear
    modulus rho vs^2 and bulk modulus rho (vp^2 - vs^2) (sic: see C131), for every porosity below 0.4. *)
Theorem C126_matrix : forall k o n, k <> Acoustic -> rock_sized k n o -> current k (base o) -> exists o', calcRockMatrix k o = Ok o' /\
  same_rest o o' /\ length (rhoMa (pet o')) = n /\ length (muMa (pet o')) = n /\
  (if hasP k then length (kMa (pet o')) = n else kMa (pet o') = kMa (pet o)) /\
  forall i phi s r vs, pt (porosity (pet o)) i phi -> pt (saturation (pet o)) i s -> pt (rho (par (base o))) i r -> pt (vS (par (base o))) i vs ->
    0 <= phi < critical -> 0 <= s <= 1 -> phi * fluid_density s <= r ->
    exists rm mm, pt (rhoMa (pet o')) i rm /\ pt (muMa (pet o')) i mm /\ 0 <= rm /\ 0 <= mm /\
      r = (1 - phi) * rm + phi * fluid_density s /\ r * vs ^ 2 = (1 - biot_coefficient phi) * mm /\
      (hasP k = true -> forall vp, pt (vP (par (base o))) i vp -> vs ^ 2 <= vp ^ 2 ->
         exists km, pt (kMa (pet o')) i km /\ 0 <= km /\ medium phi s rm mm km r (r * vs ^ 2) (r * (vp ^ 2 - vs ^ 2))).
Proof.
  intros k o n Hk Sz C. destruct (rockMatrix_ex k o n Hk Sz C) as (o'&E&S&_&L1&L2&L3&P). exists o'. do 5 (split; [assumption|]).
  intros i phi s r vs Hphi Hs Hr Hvs Bp Bs Br. destruct (P i phi s r vs Hphi Hs Hr Hvs) as (P1&P2&P3).
  assert (Pr : 0 <= r). { pose proof (fluid_pos s Bs). assert (0 <= phi * fluid_density s) by (apply Rmult_le_pos; lra). lra. }
  assert (Cr : critical < 1) by (unfold critical; lra).
  destruct (densS_ok k r phi s) as (D1&D2); [lra|exact Br|].
  assert (Bb : biot_coefficient phi < 1) by (rewrite biot_inner by lra; unfold critical in *; lra).
  assert (Pm : 0 <= r * vs ^ 2) by (apply Rmult_le_pos; [exact Pr|apply pow2_ge_0]).
  destruct (shearS_ok k (r * vs ^ 2) (biot_coefficient phi) Bb Pm) as (M1&M2).
  exists (densS k r phi s), (shearS k (r * vs ^ 2) (biot_coefficient phi)). do 4 (split; [assumption|]).
  assert (E1 : r = (1 - phi) * densS k r phi s + phi * fluid_density s) by (rewrite D1; field; lra).
  assert (E2 : r * vs ^ 2 = (1 - biot_coefficient phi) * shearS k (r * vs ^ 2) (biot_coefficient phi)) by (rewrite M1 at 1; field; lra).
  split; [exact E1|]. split; [exact E2|]. intros HP vp Hvp Bv.
  assert (Pk : 0 <= r * vp ^ 2 - r * vs ^ 2) by (assert (0 <= r * (vp ^ 2 - vs ^ 2)) by (apply Rmult_le_pos; lra); lra).
  specialize (P3 HP vp Hvp). rewrite gd_id, kfS_eq in P3 by assumption. destruct (gassmann k phi s _ Bp Bs Pk) as (K1&K2).
  eexists. split; [exact P3|]. split; [exact K1|]. split; [exact E1|]. split; [exact E2|]. rewrite <- K2. ring.
Qed.
Print Assumptions C126_matrix.
Example C126_case : let o := mkRock (fresh (mkP [3000] [1500] [2200] [] [] [] 0 None)) (mkPet [1/5] [1/2] [Num 0] [] [] []) 1 in
  rock_sized Elastic 1 o /\ current Elastic (base o) /\ 1/5 * fluid_density (1/2) <= 2200 /\ 0 <= 1/5 < critical.
Proof. cbn. unfold rock_sized, current, fluid_density, water_density, air_density, critical. cbn. repeat split; auto; try discriminate; lra. Qed.

(** C130: at and above the critical porosity the moduli of the rock matrix are 0, whatever the rest of the object is. *)
Theorem C130_critical : forall k o n, k <> Acoustic -> rock_sized k n o -> current k (base o) -> exists o', calcRockMatrix k o = Ok o' /\
  forall i phi, pt (porosity (pet o)) i phi -> critical <= phi -> pt (muMa (pet o')) i 0 /\ (hasP k = true -> pt (kMa (pet o')) i 0).
Proof.
  intros k o n Hk Sz C. destruct (rockMatrix_ex k o n Hk Sz C) as (o'&E&S&_&L1&L2&L3&P). exists o'. split; [exact E|].
  intros i phi Hphi Bp. destruct Sz as (Z1&Z2&Z3&Z4&Z5). assert (Li : (i < n)%nat) by (rewrite <- Z4; apply nth_error_Some; unfold pt in Hphi; congruence).
  assert (G : forall v, length v = n -> exists x, pt v i x). { intros v L. exists (nth i v 0). apply nth_error_nth'. lia. }
  destruct (G _ Z1) as (r&Hr), (G _ Z2) as (vs&Hvs), (G _ Z5) as (s&Hs). destruct (P i phi s r vs Hphi Hs Hr Hvs) as (P1&P2&P3).
  rewrite biot_above in * by exact Bp. rewrite shearS_one in P2. split; [exact P2|]. intros HP. destruct (G _ (Z3 HP)) as (vp&Hvp).
  specialize (P3 HP vp Hvp). rewrite bulkS_one in P3. exact P3.
Qed.
Print Assumptions C130_critical.
(** Two points, one below and one above the critical porosity. *)
Example C130_case : let o := mkRock (fresh (mkP [] [1000; 1000] [2000; 2000] [] [] [] 0 None))
    (mkPet [2/10; 5/10] [1; 1] [] [] [] []) 1 in
  SH <> Acoustic /\ rock_sized SH 2 o /\ current SH (base o) /\ pt (porosity (pet o)) 1 (5/10) /\ critical <= 5/10.
Proof. cbn. unfold rock_sized, current, critical, pt. cbn. repeat split; auto; try discriminate; lra. Qed.
