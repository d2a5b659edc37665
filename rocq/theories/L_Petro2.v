(** Scalar algebra of the conversions between porosity and velocities, and the vectors of moduli they start from. *)
From Coq Require Import Reals Lra Psatz.
From Verif Require Import Base M_Grid M_Average M_Common M_Model M_ModelEM M_Petro S_Model S_ModelEM S_Petro L_AcqFile L_Acq2 L_Acq L_Model L_Model2 L_ModelEM L_ModelEM3 L_Petro.
Open Scope Z_scope.
Local Open Scope R_scope.

Lemma fdiv_ok a b : b <> 0 -> fdiv a b = Num (a / b).
Proof. unfold fdiv. destruct (Req_EM_T b 0); [contradiction|reflexivity]. Qed.
Lemma fdiv_zero a : exists x, fdiv a 0 = x /\ num0 x = 0 /\ (forall y, x <> Num y).
Proof. unfold fdiv. destruct (Req_EM_T 0 0); [|lra]. destruct (Req_EM_T a 0); [|destruct (Rlt_dec 0 a)]; eexists; (split; [reflexivity|]); split; try reflexivity; intros y; discriminate. Qed.
Lemma fsqrt_ok x : 0 <= x -> fsqrt (Num x) = Num (sqrt x).
Proof. intros H. cbn. destruct (Rlt_dec x 0); [lra|reflexivity]. Qed.
Lemma pos0_id x : 0 <= x -> pos0 x = x.
Proof. unfold pos0. destruct (Rlt_dec x 0); [lra|reflexivity]. Qed.
Lemma gd_id k x : 0 <= x -> gd k x = x.
Proof. intros H. destruct k; try reflexivity. apply pos0_id, H. Qed.
Lemma gd_zero k : gd k 0 = 0. Proof. apply gd_id. lra. Qed.

Lemma biotS_eq x : biotS x = biot_coefficient x.
Proof.
  unfold biotS, biot_coefficient, cut1, pos0, criticalPorosity, critical. replace (x / (4 / 10)) with (x / (2 / 5)) by field.
  set (y := x / (2 / 5)). destruct (Rlt_dec y 0).
  - rewrite Rmax_left by lra. rewrite Rmin_right by lra. destruct (Rlt_dec 1 0); lra.
  - rewrite Rmax_right by lra. destruct (Rlt_dec 1 y); [rewrite Rmin_left by lra|rewrite Rmin_right by lra]; reflexivity.
Qed.
Lemma biot_inner x : 0 <= x <= critical -> biot_coefficient x = x / critical.
Proof. unfold biot_coefficient, critical. intros H. rewrite Rmax_right by lra. rewrite Rmin_right by lra. reflexivity. Qed.
Lemma biot_above x : critical <= x -> biot_coefficient x = 1.
Proof. unfold biot_coefficient, critical. intros H. rewrite Rmax_right by lra. rewrite Rmin_left by lra. reflexivity. Qed.
Lemma biot_below x : x <= 0 -> biot_coefficient x = 0.
Proof. unfold biot_coefficient, critical. intros H. rewrite Rmax_left by lra. apply Rmin_right. lra. Qed.
Lemma biot_range x : 0 <= biot_coefficient x <= 1.
Proof. unfold biot_coefficient. split; [apply Rmin_glb; [lra|apply Rmax_l]|apply Rmin_l]. Qed.
Lemma biot_ge x : 0 <= x <= 1 -> x <= biot_coefficient x.
Proof. unfold biot_coefficient, critical. intros H. rewrite Rmax_right by lra. apply Rmin_glb; lra. Qed.
Lemma water_eq : bulkModulusWater = water_modulus.
Proof. unfold bulkModulusWater, water_modulus, densityWater, water_density. field. Qed.
Lemma air_eq : bulkModulusAir = air_modulus.
Proof. unfold bulkModulusAir, air_modulus, densityAir, air_density. field. Qed.
Lemma air_pos : 0 < air_modulus. Proof. unfold air_modulus, air_density. lra. Qed.
Lemma air_water : air_modulus < water_modulus. Proof. unfold air_modulus, air_density, water_modulus, water_density. lra. Qed.
Lemma compress_pos s : 0 <= s <= 1 -> 0 < s / water_modulus + (1 - s) / air_modulus.
Proof. intros H. unfold air_modulus, air_density, water_modulus, water_density. lra. Qed.
Lemma kfS_eq s : 0 <= s <= 1 -> kfS s = fluid_modulus s.
Proof.
  intros H. unfold kfS, fluid_modulus. rewrite water_eq, air_eq. pose proof (compress_pos s H). rewrite fdiv_ok by lra. cbn [num0].
  rewrite pos0_id; [unfold Rdiv; ring|]. left. apply Rdiv_lt_0_compat; lra.
Qed.
Lemma kf_pos s : 0 <= s <= 1 -> 0 < fluid_modulus s.
Proof. intros H. apply Rinv_0_lt_compat, compress_pos, H. Qed.
Lemma poreS_eq x s : poreS x s = x * fluid_density s.
Proof. unfold poreS, fluid_density, densityWater, densityAir, water_density, air_density. ring. Qed.
Lemma fluid_pos s : 0 <= s <= 1 -> 0 < fluid_density s.
Proof. intros H. unfold fluid_density, water_density, air_density. lra. Qed.

(** The velocity of a modulus. *)
Lemma velS_ok m d : 0 <= m -> 0 < d -> velS m d = sqrt (m / d) /\ d * (velS m d) ^ 2 = m /\ 0 <= velS m d.
Proof.
  intros Hm Hd. assert (Hq : 0 <= m / d) by (apply Rmult_le_pos; [lra|left; apply Rinv_0_lt_compat; lra]).
  unfold velS. rewrite fdiv_ok by lra. rewrite fsqrt_ok by exact Hq. cbn [num0]. split; [reflexivity|]. split; [|apply sqrt_pos].
  rewrite pow2_sqrt by exact Hq. field. lra.
Qed.
Lemma velS_zero m : velS m 0 = 0.
Proof. unfold velS, fdiv. destruct (Req_EM_T 0 0); [|lra]. destruct (Req_EM_T m 0); [reflexivity|]. destruct (Rlt_dec 0 m); reflexivity. Qed.

(** The modulus M. *)
Lemma mS_ok phi s km : 0 < phi <= 1 -> 0 <= s <= 1 -> 0 <= km -> let b := biot_coefficient phi in let kf := fluid_modulus s in
  mS phi s km = kf * km / (phi * km + (b - phi) * kf) /\ 0 <= mS phi s km.
Proof.
  intros Hp Hs Hk b kf. unfold mS. rewrite biotS_eq, kfS_eq by exact Hs. fold b kf. pose proof (kf_pos s Hs) as Kp. fold kf in Kp.
  pose proof (biot_ge phi ltac:(lra)) as Bg. fold b in Bg. rewrite (fdiv_ok phi) by lra.
  destruct (Req_dec km 0) as [->|N].
  - replace (kf * 0 / (phi * 0 + (b - phi) * kf)) with 0 by (unfold Rdiv; ring). unfold fdiv. destruct (Req_EM_T 0 0) as [_|]; [|lra].
    destruct (Req_EM_T (b - phi) 0); [|destruct (Rlt_dec 0 (b - phi)); [|lra]]; cbn [fadd fquot num0]; rewrite pos0_id by lra; split; lra.
  - rewrite fdiv_ok by exact N. cbn [fadd fquot].
    assert (Q1 : 0 < phi / kf) by (apply Rdiv_lt_0_compat; lra).
    assert (Q2 : 0 <= (b - phi) / km) by (apply Rmult_le_pos; [lra|left; apply Rinv_0_lt_compat; lra]).
    assert (Q3 : 0 < phi * km) by (apply Rmult_lt_0_compat; lra).
    assert (Q4 : 0 <= (b - phi) * kf) by (apply Rmult_le_pos; lra).
    rewrite fdiv_ok by lra. cbn [num0].
    assert (Q5 : 0 < 1 / (phi / kf + (b - phi) / km)) by (apply Rdiv_lt_0_compat; lra). rewrite pos0_id by lra. split; [|lra].
    field. repeat split; lra.
Qed.
Lemma bM_ok phi s km : 0 <= phi <= 1 -> 0 <= s <= 1 -> 0 <= km -> let b := biot_coefficient phi in let kf := fluid_modulus s in
  mS phi s km * (b * b) = b ^ 2 * (kf * km / (phi * km + (b - phi) * kf)) /\ 0 <= mS phi s km * (b * b).
Proof.
  intros Hp Hs Hk b kf. destruct (Req_dec phi 0) as [->|N].
  - assert (b = 0) as -> by (apply biot_below; lra). split; [ring|right; ring].
  - destruct (mS_ok phi s km ltac:(lra) Hs Hk) as (E&P). fold b kf in E. split; [rewrite E; ring|]. apply Rmult_le_pos; [exact P|]. pose proof (Rle_0_sqr b). exact H.
Qed.

(** Rock matrix from the rock. *)
Lemma densS_ok k d x s : x < 1 -> x * fluid_density s <= d -> densS k d x s = (d - x * fluid_density s) / (1 - x) /\ 0 <= densS k d x s.
Proof.
  intros Hx Hd. unfold densS. rewrite poreS_eq, fdiv_ok by lra. cbn [fmul num0].
  assert (E : (d - x * fluid_density s) * (1 / (1 - x)) = (d - x * fluid_density s) / (1 - x)) by (field; lra). rewrite E.
  assert (P : 0 <= (d - x * fluid_density s) / (1 - x)) by (apply Rmult_le_pos; [lra|left; apply Rinv_0_lt_compat; lra]).
  rewrite gd_id by exact P. auto.
Qed.
Lemma shearS_ok k mu b : b < 1 -> 0 <= mu -> shearS k mu b = mu / (1 - b) /\ 0 <= shearS k mu b.
Proof.
  intros Hb Hm. unfold shearS. rewrite fdiv_ok by lra. cbn [fmul num0].
  assert (E : mu * (1 / (1 - b)) = mu / (1 - b)) by (field; lra). rewrite E.
  assert (P : 0 <= mu / (1 - b)) by (apply Rmult_le_pos; [lra|left; apply Rinv_0_lt_compat; lra]). rewrite gd_id by exact P. auto.
Qed.
Lemma shearS_one k mu : shearS k mu 1 = 0.
Proof.
  unfold shearS. replace (1 - 1) with 0 by ring. destruct (fdiv_zero 1) as (x&->&_&N). destruct x; try (exfalso; eapply N; reflexivity); cbn [fmul];
    try (unfold fscale; destruct (Req_EM_T mu 0); [|destruct (Rlt_dec 0 mu)]); cbn; apply gd_zero.
Qed.
Lemma upZero_id k x : 0 <= x -> upZero k (Num x) = Num x.
Proof. intros H. destruct k; try reflexivity. cbn. destruct (Rlt_dec x 0); [lra|reflexivity]. Qed.
Lemma sqrt_ge d e : 0 <= d -> e * e <= d -> e <= sqrt d.
Proof.
  intros Hd H. destruct (Rle_dec e 0); [pose proof (sqrt_pos d); lra|]. rewrite <- (sqrt_square e) by lra. apply sqrt_le_1_alt, H.
Qed.
Lemma bulkS_ok k ks b kf : 0 <= b < 1 -> 0 < kf -> 0 <= ks -> let K := bulkS k ks b kf in
  0 <= K /\ ks * (2 * K + 3 * kf) = 2 * (1 - b) * K * K + (3 + 2 * b) * K * kf.
Proof.
  intros Hb Hkf Hks K. unfold K, bulkS. cbv zeta. replace (1 / criticalPorosity - 1) with (3 / 2) by (unfold criticalPorosity; field).
  rewrite (fdiv_ok (1 - b)), (fdiv_ok ks) by lra. cbn [fadd fsub fneg fmul].
  set (a := (1 - b) / kf). set (e := (1 - b) * (3 / 2) + b / criticalPorosity + - (ks / kf)).
  assert (Pa : 0 < a) by (apply Rdiv_lt_0_compat; lra).
  set (d := e * e + - (4 * a * (- (3 / 2) * ks))).
  assert (Pd : e * e <= d). { unfold d. assert (0 <= a * ks) by (apply Rmult_le_pos; lra). lra. }
  assert (Qd : 0 <= d). { pose proof (Rle_0_sqr e). unfold Rsqr in *. lra. }
  rewrite upZero_id, fsqrt_ok by exact Qd. cbn [fadd fsub fneg fquot]. rewrite fdiv_ok by lra. cbn [fquot]. rewrite fdiv_ok by lra. cbn [num0].
  pose proof (sqrt_ge d e Qd Pd) as G.
  assert (P : 0 <= (sqrt d + - e) / a / 2).
  { assert (0 <= (sqrt d + - e) / a) by (apply Rmult_le_pos; [lra|left; apply Rinv_0_lt_compat; lra]). lra. }
  rewrite gd_id by exact P. split; [exact P|]. pose proof (sqrt_sqrt d Qd) as SQ. set (X := (sqrt d + - e) / a / 2) in *.
  assert (EX : sqrt d = 2 * a * X + e). { unfold X. field. lra. }
  assert (QE : a * X * X + e * X - 3 / 2 * ks = 0).
  { rewrite EX in SQ. unfold d in SQ. assert (Z : 4 * a * (a * X * X + e * X - 3 / 2 * ks) = 0) by (ring_simplify; ring_simplify in SQ; lra).
    apply Rmult_integral in Z as [Z|Z]; [lra|exact Z]. }
  assert (Ea : (1 - b) = a * kf). { unfold a. field. lra. }
  assert (Ee : ks = ((1 - b) * (3 / 2) + b * (5 / 2) - e) * kf). { unfold e, criticalPorosity. field. lra. }
  rewrite Ea in *.
  assert (F : 2 * kf * (a * X * X + e * X - 3 / 2 * ks) = 0) by (rewrite QE; ring).
  assert (F1 : e * kf = a * kf * (3 / 2) * kf + b * (5 / 2) * kf - ks) by lra.
  assert (F2 : 2 * (a * kf) * X * X + 2 * (e * kf) * X - 3 * kf * ks = 0) by lra. rewrite F1 in F2.
  assert (B : b = 1 - a * kf) by lra. rewrite B in *. ring_simplify in F2. ring_simplify. lra.
Qed.
Lemma gassmann k phi s ks : 0 <= phi < critical -> 0 <= s <= 1 -> 0 <= ks ->
  let b := biot_coefficient phi in let kf := fluid_modulus s in let K := bulkS k ks b kf in
  0 <= K /\ ks = (1 - b) * K + b ^ 2 * (kf * K / (phi * K + (b - phi) * kf)).
Proof.
  intros Hp Hs Hk b kf K. pose proof (kf_pos s Hs) as Kp. fold kf in Kp. assert (Eb : b = phi / critical) by (apply biot_inner; lra).
  assert (Ep : phi = 2 / 5 * b) by (rewrite Eb; unfold critical; field).
  assert (Hb : 0 <= b < 1) by (rewrite Eb; unfold critical in *; lra).
  destruct (bulkS_ok k ks b kf Hb Kp Hk) as (P&Q). fold K in P, Q. split; [exact P|].
  assert (Pos : 0 < 2 * K + 3 * kf) by lra. destruct (Req_dec b 0) as [Z|N].
  - rewrite Z in Q |- *. replace ((1 - 0) * K + 0 ^ 2 * _) with K by (unfold Rdiv; ring). apply (Rmult_eq_reg_r (2 * K + 3 * kf)); [lra|lra].
  - apply (Rmult_eq_reg_r (2 * K + 3 * kf)); [|lra]. assert (0 < b * (2 * K + 3 * kf)) by (apply Rmult_lt_0_compat; lra).
    rewrite Q, Ep. field. lra.
Qed.
Lemma bulkS_one k ks kf : bulkS k ks 1 kf = 0.
Proof.
  unfold bulkS. cbv zeta. destruct (Req_dec kf 0) as [->|N].
  - replace (1 - 1) with 0 by ring. assert (fdiv 0 0 = NaN) as -> by (unfold fdiv; destruct (Req_EM_T 0 0); [reflexivity|lra]).
    match goal with |- gd k (num0 (fquot (fquot ?x NaN) _)) = 0 => destruct x; cbn; apply gd_zero end.
  - rewrite (fdiv_ok (1 - 1)) by exact N. replace ((1 - 1) / kf) with 0 by (unfold Rdiv; ring).
    match goal with |- gd k (num0 (fquot (fquot ?x (Num 0)) _)) = 0 => destruct x as [y| | |]; cbn [fquot] end.
    + destruct (fdiv_zero y) as (z&->&Z&M). destruct z as [w| | |]; [exfalso; eapply M; reflexivity| | |]; cbn [fquot];
        repeat (match goal with |- context [Rlt_dec ?a ?b] => destruct (Rlt_dec a b) end); cbn; apply gd_zero.
    + repeat (match goal with |- context [Rlt_dec ?a ?b] => destruct (Rlt_dec a b) end); cbn; try (destruct (Rlt_dec 2 0)); apply gd_zero.
    + repeat (match goal with |- context [Rlt_dec ?a ?b] => destruct (Rlt_dec a b) end); cbn; try (destruct (Rlt_dec 2 0)); apply gd_zero.
    + cbn. apply gd_zero.
Qed.
