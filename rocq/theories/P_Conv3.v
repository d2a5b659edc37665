(** C170: convergence of the electromagnetic solvers. *)
From Coq Require Import QArith Qreals Reals Lra FunctionalExtensionality.
From Verif Require Import M_Grid M_Deriv S_Deriv L_Deriv L_Deriv2 M_Prog M_Solvers M_Env M_Relax S_Solver S_Step S_Check S_Energy L_Prog L_Lin L_Src L_Surface L_Leap L_Leap2 L_Diff L_Energy L_Energy4
  P_Solver2 P_Step P_Energy S_Taylor S_Conv S_Conv2 L_Conv L_Conv2 L_Conv3 L_Conv4 L_Conv5 L_Conv6 P_Conv2.
From Verif Require L_Fd L_Taylor.
Open Scope R_scope.
Open Scope list_scope.

Section const.
Variables (es hs : list axis) (p : Z) (mmin mmax emin emax smax v Mx Mt : R).
Definition d1 : R := Mt + mmax * (2 * ka p Mx).
Definition d2 : R := (2 * (2 / v * d1) + 2 * ka p Mx + (emax + smax) * Mt) / emin.
Definition Cem2 : R := 2 * (mmax + 1 / emin) * (INR (length hs) * (d1 * d1 / mmin) + INR (length es) * (emax * (d2 * d2))).
Hypothesis Hp : L_Fd.exact_order p.
Hypothesis M0 : 0 < mmin.
Hypothesis M1 : 0 < mmax.
Hypothesis E0 : 0 < emin.
Hypothesis E1 : 0 < emax.
Hypothesis S0 : 0 <= smax.
Hypothesis V0 : 0 < v.
Hypothesis HMx : 0 <= Mx.
Hypothesis HMt : 0 <= Mt.
Variables (dt h : R).
Hypothesis HT : 0 < dt.
Hypothesis HH : 0 < h.
Hypothesis HC : fd_h p * (dt / h) * v <= 1.
Let w := dt ^ 2 + h ^ Z.to_nat p.
Lemma em_const : 0 <= th p dt h mmax Mx Mt <= d1 * w /\ 0 <= te p dt h mmax emin emax smax Mx Mt <= d2 * w.
Proof.
  assert (KA : 0 <= ka p Mx) by (apply Rmult_le_pos; [apply ec_pos|exact HMx]).
  assert (T2 : 0 <= dt ^ 2) by apply pow2_ge_0. assert (HP : 0 < h ^ Z.to_nat p) by apply pow_lt, HH.
  pose proof (fd_h_pos p (L_Fd.exact_supported p Hp)) as F0. assert (K0 : 0 < dt / h) by (apply Rdiv_lt_0_compat; assumption). pose proof (Rmult_lt_0_compat _ _ F0 K0) as FK.
  unfold te, th, L_Conv6.W. change (error_const p * Mx) with (ka p Mx). unfold d2, d1. set (k := ka p Mx) in *.
  set (hp := h ^ Z.to_nat p) in *. set (t2 := dt ^ 2) in *.
  assert (A1 : 0 <= Mt * t2 <= Mt * w) by (unfold w; pose proof (Rmult_le_pos _ _ HMt T2); pose proof (Rmult_le_pos _ _ HMt (Rlt_le _ _ HP)); lra).
  assert (A2 : 0 <= k * hp <= k * w) by (unfold w; pose proof (Rmult_le_pos _ _ KA T2); pose proof (Rmult_le_pos _ _ KA (Rlt_le _ _ HP)); lra).
  assert (A3 : 0 <= mmax * (2 * (k * hp)) <= mmax * (2 * (k * w))) by (split; [apply Rmult_le_pos; lra|apply Rmult_le_compat_l; lra]).
  assert (TV : 0 <= 1 / 24 * Mt * t2 + mmax * (2 * (k * hp)) <= (Mt + mmax * (2 * k)) * w) by (split; lra).
  split; [exact TV|]. set (X := 1 / 24 * Mt * t2 + mmax * (2 * (k * hp))) in *. set (x := Mt + mmax * (2 * k)) in *.
  assert (FD : 0 <= 2 * fd_h p * (dt / h) <= 2 / v).
  { split; [lra|]. apply (Rmult_le_reg_r v); [exact V0|]. replace (2 / v * v) with 2 by (field; lra). lra. }
  assert (A5 : 0 <= 2 * fd_h p * (dt / h) * X <= 2 / v * (x * w)) by (split; [apply Rmult_le_pos; lra|apply Rmult_le_compat; lra]).
  assert (A6 : 0 <= (emax + smax) * (Mt * t2) <= (emax + smax) * (Mt * w)) by (split; [apply Rmult_le_pos; lra|apply Rmult_le_compat_l; lra]).
  replace ((2 * (2 / v * x) + 2 * k + (emax + smax) * Mt) / emin * w) with ((2 * (2 / v * (x * w)) + 2 * (k * w) + (emax + smax) * (Mt * w)) / emin) by (field; lra).
  assert (I0 : 0 < / emin) by (apply Rinv_0_lt_compat, E0). unfold Rdiv. split; [apply Rmult_le_pos; lra|apply Rmult_le_compat_r; lra].
Qed.
Lemma Cem2_pos : 0 <= Cem2.
Proof.
  unfold Cem2. pose proof (sq_div d1 mmin M0) as X1. assert (X2 : 0 <= emax * (d2 * d2)) by (apply Rmult_le_pos; [lra|apply Rle_0_sqr]).
  pose proof (Rmult_le_pos _ _ (pos_INR (length hs)) X1) as X3. pose proof (Rmult_le_pos _ _ (pos_INR (length es)) X2) as X4.
  assert (0 < 1 / emin) by (apply Rdiv_lt_0_compat; lra). apply Rmult_le_pos; lra.
Qed.
End const.

Lemma em_next (e : env R_arith) c S axes es hs eps sigma DT s : em_setting S axes es hs -> closed_box c -> uniform e -> 0 < DT ->
  (forall a i, 0 < eps a i) -> (forall a i, 0 <= sigma a i) -> (forall a, In a es -> em_prepared e DT (up a) (eps a) (sigma a)) ->
  maxwell_step e c s axes es hs eps sigma 0 (fun _ => 1) (fun _ _ _ => 0) DT (plain_run e c S s).
Proof.
  intros HS Hc HU HD He Hs HP. destruct Hc as ((Hpml & _) & _). unfold plain_run.
  destruct (C95_maxwell e c (fun _ => []) 0 s eps sigma (fun _ => 1) (fun _ _ _ => 0) DT HU HD He Hs) as (P1 & P2 & P3).
  destruct HS as [(-> & -> & EE & ->)|[(-> & -> & EE & ->)|(-> & -> & EE & ->)]]; rewrite EE in *.
  - apply P1. intros a Ha. apply HP, has_in, Ha.
  - apply P2, (HP AZ). left. reflexivity.
  - apply P3; [intros a; apply HP; destruct a; cbn; tauto|rewrite Hpml; discriminate].
Qed.

(** For every electromagnetic solver, order and bounds on the coefficients and on the derivatives of the solution there is a constant C such
    that on all grids and for all time steps below the CFL limit the mean square error of the electric and magnetic fields after n steps is at
    most (C t (dt^2 + h^p))^2 / (1 - q), t = n dt, where q is the ratio of the time step to the CFL limit.  The conductivity may be zero. *)
Theorem C170_maxwell : forall (S : solver) (axes es hs : list axis) (p : Z) (mmin mmax emin emax smax v Mx Mt : R),
  em_setting S axes es hs -> In p [2; 4; 6; 8]%Z -> 0 < mmin -> 0 < emin -> 0 < v -> mmax / emin <= v * v -> 0 <= Mx -> 0 <= Mt ->
  exists C, forall (e : env R_arith) (c : cfg) (useVar hybrid : bool) (nx ny nz : Z) (rest : list Z) (DH : Q) (fuel : nat) (cv : Q -> R)
    (g : grid) (src : acq R_arith) (st : state R_arith) (eps sigma : axis -> Z -> R) (DT T : R) (E H : axis -> R -> position -> R),
  @fd_matrices R_arith e c true useVar hybrid nx ny nz p rest DH fuel (fun q => Q2R q * (DT / Q2R DH)) cv g -> closed_box c -> uniform e ->
  (1 <= nx)%Z -> (1 <= ny)%Z -> (1 <= nz)%Z -> (In AZ axes -> (2 <= nz)%Z) ->
  (forall a i, emin <= eps a i <= emax) -> (forall a i, 0 <= sigma a i <= smax) -> (forall a, In a es -> em_prepared e DT (up a) (eps a) (sigma a)) ->
  (forall a i, In a hs -> mmin <= e_coef e (inv_mu a) i <= mmax) ->
  (forall ty t i, injected (src ty) t i = 0) ->
  let h := Q2R DH in let limit := cfl_limit p (Z.of_nat (length axes)) h v in
  0 < DT -> 0 < h -> DT < limit ->
  maxwell_solution nx ny nz p h DT T Mx Mt e axes es hs eps sigma E H ->
  (forall x y z, (0 <= x < nx)%Z -> (0 <= y < ny)%Z -> (0 <= z < nz)%Z -> let i := reg_index nx nz x y z in
     (forall a, In a hs -> st (hfield a) i = H a (- (DT / 2)) (spot h (h_half a) x y z)) /\
     (forall a, In a es -> st (efield a) i = E a 0 (spot h (e_half a) x y z))) ->
  forall n, INR n * DT <= T ->
  let fields := fst (steps S c (Shot R_arith e src (fun _ => []) 0) 0 n st) in
  (1 - DT / limit) * points_sum nx ny nz (fun x y z => let i := reg_index nx nz x y z in
      sum_axes hs (fun a => (fields (hfield a) i - H a (INR n * DT - DT / 2) (spot h (h_half a) x y z)) ^ 2) +
      sum_axes es (fun a => (fields (efield a) i - E a (INR n * DT) (spot h (e_half a) x y z)) ^ 2)) <=
  IZR (nx * ny * nz) * (C * (INR n * DT) * (DT ^ 2 + h ^ Z.to_nat p)) ^ 2.
Proof.
  intros S axes es hs p mmin mmax emin emax smax v Mx Mt HS Hp M0 E0 V0 Hv HMx HMt.
  exists (sqrt (Cem2 es hs p mmin mmax emin emax smax v Mx Mt)).
  intros e c useVar hybrid nx ny nz rest DH fuel cv g src st eps sigma DT T E H HM Hc HU N1 N2 N3 Hz He Hs HP Hm H0 h limit HDT Hh Hcfl HE Hini n HnT fields.
  assert (He' : forall a i, 0 < eps a i) by (intros a i; destruct (He a i); lra). assert (Hs' : forall a i, 0 <= sigma a i) by (intros a i; apply Hs).
  pose proof (em_run e c src st S axes es hs eps sigma DT HS Hc HU HDT He' Hs' HP H0) as HR. cbv zeta in HR.
  pose proof (emgeo_of S axes es hs HS) as Hg.
  assert (M1 : 0 < mmax) by (assert (X : exists a, In a hs) by (destruct Hg as [(_ & _ & ->)|[(_ & _ & ->)|(_ & _ & ->)]]; eexists; left; reflexivity); destruct X as (a & Ha); destruct (Hm a 0%Z Ha); lra).
  assert (E1 : 0 < emax) by (destruct (He AX 0%Z); lra). assert (S0 : 0 <= smax) by (destruct (Hs AX 0%Z); lra).
  assert (Hps : supported p) by exact (L_Fd.exact_supported p Hp). pose proof (fd_h_pos p Hps) as F0.
  assert (Hn : (0 < length axes)%nat) by (destruct Hg as [(-> & _)|[(-> & _)|(-> & _)]]; cbn; lia).
  destruct (theta (length axes) p DT h v (mmax / emin) Hps HDT Hh V0 Hn) as (T1 & T2).
  { split; [apply Rlt_le, Rdiv_lt_0_compat; assumption|exact Hv]. }
  { exact Hcfl. }
  fold limit in T1. set (q := DT / limit) in *. assert (L0 : 0 < limit) by lra.
  assert (Hq : 0 < q < 1).
  { split; [apply Rdiv_lt_0_compat; lra|]. unfold q. apply (Rmult_lt_reg_r limit); [exact L0|]. unfold Rdiv. rewrite Rmult_assoc, Rinv_l by lra. lra. }
  assert (S1 : 1 <= sqrt (IZR (Z.of_nat (length axes)))) by (rewrite <- sqrt_1 at 1; apply sqrt_le_1_alt; apply (IZR_le 1); lia).
  assert (Q1 : fd_h p * (DT / h) * v <= 1).
  { assert (Eq : q = fd_h p * (DT / h) * v * sqrt (IZR (Z.of_nat (length axes)))) by (unfold q, limit, cfl_limit; field; repeat split; lra).
    assert (X : 0 <= fd_h p * (DT / h) * v) by (apply Rmult_le_pos; [apply Rmult_le_pos; [lra|apply Rlt_le, Rdiv_lt_0_compat; assumption]|lra]).
    pose proof (Rmult_le_compat_l _ _ _ X S1). lra. }
  destruct (em_const p mmax emin emax smax v Mx Mt Hp M1 E0 E1 S0 V0 HMx HMt DT h HDT Hh Q1) as (TV & TT).
  pose proof Hc as (Hu & Hfs). assert (Hax : forall a, In a axes -> ax_ok nz a) by (intros a Ha ->; apply Hz, Ha).
  assert (I1 : forall a x y z, In a hs -> inside nx ny nz x y z -> st (hfield a) (reg_index nx nz x y z) = H a (- (DT / 2)) (spot h (h_half a) x y z)) by (intros a x y z Ha (X1 & X2 & X3); apply Hini; assumption).
  assert (I2 : forall a x y z, In a es -> inside nx ny nz x y z -> st (efield a) (reg_index nx nz x y z) = E a 0 (spot h (e_half a) x y z)) by (intros a x y z Ha (X1 & X2 & X3); apply Hini; assumption).
  set (after := fun n => fst (steps S c (Shot R_arith e src (fun _ => []) 0) 0 n st)) in *.
  pose proof (eerr_bound e c useVar hybrid nx ny nz p rest DH fuel DT h cv g HM Hu Hp Hh HDT ltac:(lia) axes es hs Hg Hax eps sigma (fun _ => 1) (fun _ _ _ => 0) mmin mmax emin emax smax M0 Hm E0 (fun a i _ => He a i) (fun a i _ => Hs a i)
    (plain_run e c S) (fun s => em_next e c S axes es hs eps sigma DT s HS Hc HU HDT He' Hs' HP) q Hq T1 after HR E H T Mx Mt HE HMx HMt I1 I2 n HnT) as EB.
  assert (ES : points_sum nx ny nz (fun x y z => let i := reg_index nx nz x y z in
      sum_axes hs (fun a => (fields (hfield a) i - H a (INR n * DT - DT / 2) (spot h (h_half a) x y z)) ^ 2) +
      sum_axes es (fun a => (fields (efield a) i - E a (INR n * DT) (spot h (e_half a) x y z)) ^ 2)) = eerr_sum nx ny nz DT h es hs after E H n).
  { unfold eerr_sum, sum_axes. rewrite <- !gs_Rsum, <- gs_add. unfold grid_sum, points_sum.
    apply ls_ext. intros y Hy. apply ls_ext. intros z Hzz. apply ls_ext. intros x Hx. cbv zeta.
    assert (Hi : inside nx ny nz x y z) by (unfold inside; auto). f_equal; apply Rsum_map_ext; intros a Ha; unfold eerr.
    - rewrite emst_h, (samp_at nx ny nz h) by exact Hi. cbn [pow]. rewrite Rmult_1_r. reflexivity.
    - rewrite emst_e, (samp_at nx ny nz h) by exact Hi. cbn [pow]. rewrite Rmult_1_r. reflexivity. }
  rewrite ES. eapply Rle_trans; [exact EB|].
  set (w := DT ^ 2 + h ^ Z.to_nat p) in *. set (C2 := Cem2 es hs p mmin mmax emin emax smax v Mx Mt).
  assert (C20 : 0 <= C2) by (apply Cem2_pos; assumption).
  replace ((sqrt C2 * (INR n * DT) * w) ^ 2) with ((sqrt C2 * sqrt C2) * ((INR n * DT) * (INR n * DT) * (w * w))) by ring. rewrite sqrt_sqrt by exact C20.
  set (N := IZR (nx * ny * nz)). assert (N0 : 0 <= N) by (apply (IZR_le 0); apply Z.mul_nonneg_nonneg; [apply Z.mul_nonneg_nonneg|]; lia).
  unfold C2, Cem2.
  set (x1 := d1 p mmax Mx Mt) in *. set (x2 := d2 p mmax emin emax smax v Mx Mt) in *. set (y1 := th p DT h mmax Mx Mt) in *. set (y2 := te p DT h mmax emin emax smax Mx Mt) in *.
  assert (X1 : DT * y1 * (DT * y1) / mmin <= (DT * (x1 * w)) * (DT * (x1 * w)) / mmin).
  { apply mono_sq; [exact M0|]. split; [apply Rmult_le_pos; lra|apply Rmult_le_compat_l; lra]. }
  assert (Y2 : 0 <= DT * y2 <= DT * (x2 * w)) by (split; [apply Rmult_le_pos; lra|apply Rmult_le_compat_l; lra]).
  assert (X2 : emax * (DT * y2 * (DT * y2)) <= emax * ((DT * (x2 * w)) * (DT * (x2 * w)))).
  { apply Rmult_le_compat_l; [lra|]. apply Rmult_le_compat; lra. }
  pose proof (Rmult_le_compat_l _ _ _ (pos_INR (length hs)) X1) as X3. pose proof (Rmult_le_compat_l _ _ _ (pos_INR (length es)) X2) as X4.
  assert (I0 : 0 < 1 / emin) by (apply Rdiv_lt_0_compat; lra).
  apply Rle_trans with ((mmax + 1 / emin) * (INR n * INR n * (2 * N * (INR (length hs) * (DT * (x1 * w) * (DT * (x1 * w)) / mmin) + INR (length es) * (emax * (DT * (x2 * w) * (DT * (x2 * w)))))))).
  - apply Rmult_le_compat_l; [lra|]. apply Rmult_le_compat_l; [apply Rle_0_sqr|]. apply Rmult_le_compat_l; lra.
  - apply Req_le. field. lra.
Qed.
Print Assumptions C170_maxwell.
