(** C169: convergence of the elastic, SH and viscoelastic solvers. *)
From Coq Require Import QArith Qreals Reals Lra FunctionalExtensionality.
From Verif Require Import M_Grid M_Deriv S_Deriv L_Deriv L_Deriv2 M_Prog M_Solvers M_Env M_Relax S_Solver S_Step S_Check S_Energy L_Prog L_Lin L_Src L_Surface L_Leap L_Leap2 L_Diff L_Energy L_Energy2 L_Energy3
  P_Solver2 P_Step P_Energy S_Taylor S_Conv S_Conv2 L_Conv L_Conv2 L_Conv3 L_Conv4 L_Conv5.
From Verif Require L_Fd L_Taylor.
Open Scope R_scope.
Open Scope list_scope.

Lemma mono_sq a b m : 0 < m -> 0 <= a <= b -> a * a / m <= b * b / m.
Proof. intros Hm H. unfold Rdiv. apply Rmult_le_compat_r; [apply Rlt_le, Rinv_0_lt_compat, Hm|]. apply Rmult_le_compat; lra. Qed.

Section const.
Variables (axes comps : list axis) (p : Z) (L : nat) (kmin la mu bmin bmax v taumax Mx Mt : R).
Definition ka : R := error_const p * Mx.
Definition c1 : R := Mt + bmax * (3 * ka).
Definition c2 : R := lawc la mu * (2 / v * c1) + lawc la mu * ka + (1 + (1 + INR L) * taumax) * Mt.
Definition Cel2 : R := 2 * (bmax + 6 * stiffness comps la mu) * (INR (length comps) * (c1 * c1 / bmin) + 8 * (c2 * c2 / kmin) + INR L * (8 * (c2 * c2 / kmin))).
Hypothesis Hp : L_Fd.exact_order p.
Hypothesis K0 : 0 < kmin.
Hypothesis La0 : 0 <= la.
Hypothesis Mu0 : 0 < mu.
Hypothesis B0 : 0 < bmin.
Hypothesis B1 : 0 < bmax.
Hypothesis V0 : 0 < v.
Hypothesis Ta0 : 0 <= taumax.
Hypothesis HMx : 0 <= Mx.
Hypothesis HMt : 0 <= Mt.
Variables (dt h : R).
Hypothesis HT : 0 < dt.
Hypothesis HH : 0 < h.
Hypothesis HC : fd_h p * (dt / h) * v <= 1.
Let w := dt ^ 2 + h ^ Z.to_nat p.
Lemma el_const : 0 <= tv p dt h bmax Mx Mt <= c1 * w /\ 0 <= tt p dt h L la mu bmax taumax Mx Mt <= c2 * w.
Proof.
  assert (KA : 0 <= ka) by (apply Rmult_le_pos; [apply ec_pos|exact HMx]).
  assert (T2 : 0 <= dt ^ 2) by apply pow2_ge_0. assert (HP : 0 < h ^ Z.to_nat p) by apply pow_lt, HH.
  assert (DH0 : 0 < dt / h) by (apply Rdiv_lt_0_compat; assumption). pose proof (fd_h_pos p (L_Fd.exact_supported p Hp)) as F0.
  unfold tt, tv, W, lc. fold ka. pose proof (lawc_pos la mu La0 Mu0) as LC.
  set (hp := h ^ Z.to_nat p) in *. set (t2 := dt ^ 2) in *. set (lc := lawc la mu) in *.
  assert (A1 : 0 <= 1 / 24 * Mt * t2 <= Mt * w) by (unfold w; pose proof (Rmult_le_pos _ _ HMt T2); pose proof (Rmult_le_pos _ _ HMt (Rlt_le _ _ HP)); lra).
  assert (A1' : 0 <= Mt * t2 <= Mt * w) by (unfold w; pose proof (Rmult_le_pos _ _ HMt T2); pose proof (Rmult_le_pos _ _ HMt (Rlt_le _ _ HP)); lra).
  assert (A2 : 0 <= ka * hp <= ka * w) by (unfold w; pose proof (Rmult_le_pos _ _ KA T2); pose proof (Rmult_le_pos _ _ KA (Rlt_le _ _ HP)); lra).
  assert (A3 : 0 <= bmax * (3 * (ka * hp)) <= bmax * (3 * (ka * w))) by (split; [apply Rmult_le_pos; lra|apply Rmult_le_compat_l; lra]).
  assert (TV : 0 <= 1 / 24 * Mt * t2 + bmax * (3 * (ka * hp)) <= c1 * w) by (unfold c1; split; lra).
  split; [exact TV|]. set (X := 1 / 24 * Mt * t2 + bmax * (3 * (ka * hp))) in *.
  assert (A4 : 0 <= lc * (ka * hp) <= lc * (ka * w)) by (split; [apply Rmult_le_pos; lra|apply Rmult_le_compat_l; lra]).
  assert (FD : 0 <= 2 * fd_h p * (dt / h) <= 2 / v).
  { split; [apply Rmult_le_pos; lra|]. apply (Rmult_le_reg_r v); [exact V0|]. replace (2 / v * v) with 2 by (field; lra). lra. }
  assert (A5 : 0 <= 2 * fd_h p * (dt / h) * X <= 2 / v * (c1 * w)) by (split; [apply Rmult_le_pos; lra|apply Rmult_le_compat; lra]).
  assert (A6 : 0 <= lc * (2 * fd_h p * (dt / h) * X) <= lc * (2 / v * (c1 * w))) by (split; [apply Rmult_le_pos; lra|apply Rmult_le_compat_l; lra]).
  assert (Q0 : 0 <= (1 + INR L) * taumax) by (apply Rmult_le_pos; [pose proof (pos_INR L); lra|exact Ta0]).
  assert (A7 : 0 <= (1 + (1 + INR L) * taumax) * (Mt * t2) <= (1 + (1 + INR L) * taumax) * (Mt * w)) by (split; [apply Rmult_le_pos; lra|apply Rmult_le_compat_l; lra]).
  unfold c2. fold lc. split; [lra|].
  replace ((lc * (2 / v * c1) + lc * ka + (1 + (1 + INR L) * taumax) * Mt) * w) with (lc * (2 / v * (c1 * w)) + lc * (ka * w) + (1 + (1 + INR L) * taumax) * (Mt * w)) by (unfold Rdiv; ring). lra.
Qed.
Lemma stf0 : 0 < stiffness comps la mu.
Proof. unfold stiffness. destruct (has comps AX); lra. Qed.
Lemma Cel2_pos : 0 <= Cel2.
Proof.
  unfold Cel2. pose proof stf0. pose proof (sq_div c2 kmin K0) as X1. pose proof (sq_div c1 bmin B0) as X2.
  pose proof (Rmult_le_pos _ _ (pos_INR (length comps)) X2) as X3. pose proof (Rmult_le_pos _ _ (pos_INR L) X1) as X4. apply Rmult_le_pos; lra.
Qed.
End const.

(** any run of the elastic or viscoelastic scheme *)
Section any.
Variables (axes comps : list axis) (p : Z) (L : nat) (kmin la mu bmin bmax v taumax Mx Mt : R).
Hypothesis Hg : geometry axes comps.
Hypothesis Hp : L_Fd.exact_order p.
Hypothesis K0 : 0 < kmin.
Hypothesis La0 : 0 <= la.
Hypothesis Mu0 : 0 < mu.
Hypothesis B0 : 0 < bmin.
Hypothesis V0 : 0 < v.
Hypothesis Hv : stiffness comps la mu * bmax <= v * v.
Hypothesis Ta0 : 0 <= taumax.
Hypothesis HMx : 0 <= Mx.
Hypothesis HMt : 0 <= Mt.
Variables (e : env R_arith) (c : cfg) (useVar hybrid : bool) (nx ny nz : Z) (rest : list Z) (DH : Q) (fuel : nat) (cv : Q -> R)
    (g : grid) (DT T : R) (P : Z -> R) (M : tensor) (tau : nat -> R) (dP : Z -> R) (dM : tensor).
Notation h := (Q2R DH).
Hypothesis HM : @fd_matrices R_arith e c true useVar hybrid nx ny nz p rest DH fuel (fun q => Q2R q * (DT / h)) cv g.
Hypothesis Hc : closed_box c.
Hypothesis HN : (0 <= nx)%Z /\ (0 <= ny)%Z /\ (0 <= nz)%Z.
Hypothesis Hz : In AZ axes -> (2 <= nz)%Z.
Hypothesis HdM : diag dM.
Hypothesis HMd : diag M.
Hypothesis Hb : forall a i, In a comps -> bmin <= e_coef e (buoyancy axes a) i <= bmax.
Hypothesis Hr : definite_by axes comps (relaxedP P L dP) (relaxedM M L dM) kmin.
Hypothesis Hd : (0 < L)%nat -> definite_by axes comps dP dM kmin.
Hypothesis Htau : forall l, (l < L)%nat -> 0 < tau l <= taumax.
Hypothesis Hbe : moduli_below axes comps P M la mu.
Hypothesis HDT : 0 < DT.
Hypothesis Hh : 0 < h.
Notation limit := (cfl_limit p (Z.of_nat (length axes)) h v).
Hypothesis Hcfl : DT < limit.
Variables (nxt : state R_arith -> state R_arith) (after : nat -> state R_arith).
Notation step st st' := (elastic_step e c st axes comps (fun _ => false) P M L tau DT dP dM st').
Hypothesis Hnxt : forall st, step st (nxt st).
Hypothesis Haf : forall n, step (after n) (after (S n)).
Variables (V : axis -> R -> position -> R) (Sg : axis -> axis -> R -> position -> R) (Rv : axis -> axis -> nat -> R -> position -> R).
Hypothesis HE : elastic_solution nx ny nz p h DT T Mx Mt e axes comps P M L tau dP dM V Sg Rv.
Hypothesis Hini : forall x y z, (0 <= x < nx)%Z -> (0 <= y < ny)%Z -> (0 <= z < nz)%Z -> let i := reg_index nx nz x y z in
  (forall a, In a comps -> after 0%nat (vel a) i = V a (- (DT / 2)) (spot h (vel_half a) x y z)) /\
  (forall a b, In (a, b) (stresses axes comps) -> after 0%nat (sig a b) i = Sg a b 0 (spot h (sig_half a b) x y z) /\
     forall l, (l < L)%nat -> after 0%nat (rel a b l) i = Rv a b l 0 (spot h (sig_half a b) x y z)).
Lemma any_conv n : INR n * DT <= T ->
  (1 - DT / limit) * points_sum nx ny nz (fun x y z => let i := reg_index nx nz x y z in
      sum_axes comps (fun a => (after n (vel a) i - V a (INR n * DT - DT / 2) (spot h (vel_half a) x y z)) ^ 2) +
      Rsum (map (fun ab => (after n (sig (fst ab) (snd ab)) i - Sg (fst ab) (snd ab) (INR n * DT) (spot h (sig_half (fst ab) (snd ab)) x y z)) ^ 2) (stresses axes comps))) <=
  IZR (nx * ny * nz) * (sqrt (Cel2 comps p L kmin la mu bmin bmax v taumax Mx Mt) * (INR n * DT) * (DT ^ 2 + h ^ Z.to_nat p)) ^ 2.
Proof.
  intros HnT. assert (B1 : 0 < bmax) by (assert (H : exists a, In a comps) by (geo Hg; eexists; left; reflexivity); destruct H as (a & Ha); destruct (Hb a 0%Z Ha); lra).
  assert (Hps : supported p) by exact (L_Fd.exact_supported p Hp). pose proof (fd_h_pos p Hps) as F0.
  assert (Hn : (0 < length axes)%nat) by (clear - Hg; geo Hg; cbn; lia). assert (Hst : 0 < stiffness comps la mu) by (apply stf0; assumption).
  destruct (theta (length axes) p DT h v (bmax * stiffness comps la mu) Hps HDT Hh V0 Hn) as (T1 & T2).
  { split; [apply Rmult_le_pos; lra|]. rewrite Rmult_comm. exact Hv. }
  { exact Hcfl. }
  set (q := DT / limit) in *. assert (L0 : 0 < limit) by lra.
  assert (Hq : 0 < q < 1).
  { split; [apply Rdiv_lt_0_compat; lra|]. unfold q. apply (Rmult_lt_reg_r limit); [exact L0|]. unfold Rdiv. rewrite Rmult_assoc, Rinv_l by lra. lra. }
  assert (S1 : 1 <= sqrt (IZR (Z.of_nat (length axes)))) by (rewrite <- sqrt_1 at 1; apply sqrt_le_1_alt; apply (IZR_le 1); lia).
  assert (Q1 : fd_h p * (DT / h) * v <= 1).
  { assert (Eq : q = fd_h p * (DT / h) * v * sqrt (IZR (Z.of_nat (length axes)))) by (unfold q, cfl_limit; field; repeat split; lra).
    assert (X : 0 <= fd_h p * (DT / h) * v) by (apply Rmult_le_pos; [apply Rmult_le_pos; [lra|apply Rlt_le, Rdiv_lt_0_compat; assumption]|lra]).
    pose proof (Rmult_le_compat_l _ _ _ X S1). lra. }
  destruct (el_const p L la mu bmax v taumax Mx Mt Hp La0 Mu0 B1 V0 Ta0 HMx HMt DT h HDT Hh Q1) as (TV & TT).
  pose proof Hc as (Hu & Hfs). assert (Hax : forall a, In a axes -> ax_ok nz a) by (intros a Ha ->; apply Hz, Ha).
  assert (I1 : forall a x y z, In a comps -> inside nx ny nz x y z -> after 0%nat (vel a) (reg_index nx nz x y z) = V a (- (DT / 2)) (spot h (vel_half a) x y z)) by (intros a x y z Ha (X1 & X2 & X3); apply Hini; assumption).
  assert (I2 : forall a b x y z, In (a, b) (stresses axes comps) -> inside nx ny nz x y z -> after 0%nat (sig a b) (reg_index nx nz x y z) = Sg a b 0 (spot h (sig_half a b) x y z)).
  { intros a b x y z Ho (X1 & X2 & X3). apply (proj2 (Hini x y z X1 X2 X3) a b Ho). }
  assert (I3 : forall a b l x y z, In (a, b) (stresses axes comps) -> (l < L)%nat -> inside nx ny nz x y z -> after 0%nat (rel a b l) (reg_index nx nz x y z) = Rv a b l 0 (spot h (sig_half a b) x y z)).
  { intros a b l x y z Ho Hl (X1 & X2 & X3). apply (proj2 (Hini x y z X1 X2 X3) a b Ho), Hl. }
  pose proof (err_bound e c useVar hybrid nx ny nz p rest DH fuel DT h cv g HM Hu Hfs Hp Hh HDT HN axes comps Hg Hax P M L tau dP dM HdM HMd kmin la mu bmin bmax taumax K0 B0 Hb Hr Hd Htau Ta0 La0 Mu0 Hbe
    nxt Hnxt q Hq T1 after Haf V Sg Rv T Mx Mt HE HMx HMt I1 I2 I3 n HnT) as EB.
  assert (ES : points_sum nx ny nz (fun x y z => let i := reg_index nx nz x y z in
      sum_axes comps (fun a => (after n (vel a) i - V a (INR n * DT - DT / 2) (spot h (vel_half a) x y z)) ^ 2) +
      Rsum (map (fun ab => (after n (sig (fst ab) (snd ab)) i - Sg (fst ab) (snd ab) (INR n * DT) (spot h (sig_half (fst ab) (snd ab)) x y z)) ^ 2) (stresses axes comps))) =
    err_sum nx ny nz DT h axes comps after V Sg Rv n).
  { unfold err_sum. unfold sum_axes at 2. rewrite <- !gs_Rsum, <- gs_add. unfold grid_sum, points_sum.
    apply ls_ext. intros y Hy. apply ls_ext. intros z Hzz. apply ls_ext. intros x Hx. cbv zeta.
    assert (Hi : inside nx ny nz x y z) by (unfold inside; auto). f_equal.
    - unfold sum_axes. apply Rsum_map_ext. intros a Ha. unfold err. rewrite exst_v, (samp_at nx ny nz h) by exact Hi. cbn [pow]. rewrite Rmult_1_r. reflexivity.
    - apply Rsum_map_ext. intros (a & b) Hab. cbn [fst snd]. unfold stress_of, err.
      rewrite (exst_s e nx ny nz p DT h axes comps P M L tau dP dM V Sg Rv T Mx Mt HE), (samp_at nx ny nz h) by exact Hi. cbn [pow]. rewrite Rmult_1_r. reflexivity. }
  rewrite ES. eapply Rle_trans; [exact EB|].
  set (w := DT ^ 2 + h ^ Z.to_nat p) in *. set (C2 := Cel2 comps p L kmin la mu bmin bmax v taumax Mx Mt).
  assert (C20 : 0 <= C2) by (apply Cel2_pos; assumption).
  replace ((sqrt C2 * (INR n * DT) * w) ^ 2) with ((sqrt C2 * sqrt C2) * ((INR n * DT) * (INR n * DT) * (w * w))) by ring. rewrite sqrt_sqrt by exact C20.
  set (N := IZR (nx * ny * nz)). assert (N0 : 0 <= N) by (apply (IZR_le 0); apply Z.mul_nonneg_nonneg; [apply Z.mul_nonneg_nonneg|]; apply HN).
  unfold C2, Cel2.
  set (x1 := c1 p bmax Mx Mt) in *. set (x2 := c2 p L la mu bmax v taumax Mx Mt) in *. set (y1 := tv p DT h bmax Mx Mt) in *. set (y2 := tt p DT h L la mu bmax taumax Mx Mt) in *.
  assert (X1 : DT * y1 * (DT * y1) / bmin <= (DT * (x1 * w)) * (DT * (x1 * w)) / bmin).
  { apply mono_sq; [exact B0|]. split; [apply Rmult_le_pos; lra|apply Rmult_le_compat_l; lra]. }
  assert (X2 : DT * y2 * (DT * y2) / kmin <= (DT * (x2 * w)) * (DT * (x2 * w)) / kmin).
  { apply mono_sq; [exact K0|]. split; [apply Rmult_le_pos; lra|apply Rmult_le_compat_l; lra]. }
  pose proof (Rmult_le_compat_l _ _ _ (pos_INR (length comps)) X1) as X3. pose proof (Rmult_le_compat_l _ _ _ (pos_INR L) X2) as X4.
  change (stiff comps la mu) with (stiffness comps la mu).
  apply Rle_trans with ((bmax + 6 * stiffness comps la mu) * (INR n * INR n * (2 * N * (INR (length comps) * (DT * (x1 * w) * (DT * (x1 * w)) / bmin) + 8 * (DT * (x2 * w) * (DT * (x2 * w)) / kmin) + INR L * (8 * (DT * (x2 * w) * (DT * (x2 * w)) / kmin)))))).
  - apply Rmult_le_compat_l; [lra|]. apply Rmult_le_compat_l; [apply Rle_0_sqr|]. apply Rmult_le_compat_l; lra.
  - apply Req_le. field. lra.
Qed.
End any.

Section settings.
Variables (e : env R_arith) (c : cfg) (g : grid).
Hypothesis Hc : closed_box c.
Hypothesis HU : uniform e.
Hypothesis HP : forall i, 0 < pmod e i.
Definition plain_run (S : solver) (s : state R_arith) : state R_arith := exec e (fun _ => []) 0 (s_run S c) s.
Lemma el_next S axes comps tau DT dP dM s : elastic_setting S axes comps -> elastic_step e c s axes comps (fun _ => false) (pmod e) (smod e) 0 tau DT dP dM (plain_run S s).
Proof.
  intros HS. pose proof (closed_itp c Hc) as Hi. destruct Hc as (_ & Hfs).
  destruct (C93_elastic g e c (fun _ => []) 0 s DT tau dP dM HU Hi ltac:(intros H; contradiction) HP) as (P2 & P3).
  pose proof (C93_sh e c (fun _ => []) 0 s (fun _ => false) DT tau dP dM HU) as P1. unfold plain_run.
  destruct HS as [(-> & -> & ->)|[(-> & -> & ->)|(-> & -> & ->)]].
  - apply (surf_ext _ _ _ _ _ _ _ _ _ _ _ _ _ _ _ (fun i => surface_of_0 c g i Hfs) P2).
  - apply (surf_ext _ _ _ _ _ _ _ _ _ _ _ _ _ _ _ (fun i => surface_of_0 c g i Hfs) P3).
  - exact P1.
Qed.
Lemma vi_next S axes comps f DT s : visco_setting S axes comps -> c_fs c = 0%Z -> (forall i, 0 <= e_coef e "tauP"%string i) -> 0 < DT -> (forall l, (l < c_L c)%nat -> 0 < f l) -> visco_prepared e DT f (c_L c) ->
  elastic_step e c s axes comps (fun _ => false) (unrelaxedP e (c_L c)) (unrelaxedM e (c_L c)) (c_L c) (relaxationTime f) DT (relaxP e) (relaxM e) (plain_run S s).
Proof.
  intros HS Hfs0 HTp HD Hf VP. destruct Hc as (_ & Hfs).
  destruct (C94_viscoelastic g e c (fun _ => []) 0 s f DT HU HD Hf VP ltac:(intros H; contradiction) HP HTp) as (P2 & P3). specialize (P2 (or_introl Hfs0)).
  pose proof (C94_viscosh e c (fun _ => []) 0 s (fun _ => false) f DT HU HD Hf VP) as P1. unfold plain_run.
  destruct HS as [(-> & -> & ->)|[(-> & -> & ->)|(-> & -> & ->)]].
  - apply (surf_ext _ _ _ _ _ _ _ _ _ _ _ _ _ _ _ (fun i => surface_of_0 c g i Hfs) P2).
  - apply (surf_ext _ _ _ _ _ _ _ _ _ _ _ _ _ _ _ (fun i => surface_of_0 c g i Hfs) P3).
  - exact P1.
Qed.
End settings.

(** ** elastic and SH waves
    For every solver, order and bounds on the coefficients and on the derivatives of the solution there is a constant C such that on all
    grids and for all time steps below the CFL limit the mean square error of velocities and stresses after n steps is at most
    (C t (dt^2 + h^p))^2 / (1 - q), t = n dt, where q is the ratio of the time step to the CFL limit. *)
Theorem C169_elastic : forall (S : solver) (axes comps : list axis) (p : Z) (kmin la mu bmin bmax v Mx Mt : R),
  elastic_setting S axes comps -> In p [2; 4; 6; 8]%Z -> 0 < kmin -> 0 <= la -> 0 < mu -> 0 < bmin -> 0 < v -> stiffness comps la mu * bmax <= v * v -> 0 <= Mx -> 0 <= Mt ->
  exists C, forall (e : env R_arith) (c : cfg) (useVar hybrid : bool) (nx ny nz : Z) (rest : list Z) (DH : Q) (fuel : nat) (cv : Q -> R)
    (g : grid) (src : acq R_arith) (st : state R_arith) (DT T : R) (V : axis -> R -> position -> R) (Sg : axis -> axis -> R -> position -> R),
  @fd_matrices R_arith e c true useVar hybrid nx ny nz p rest DH fuel (fun q => Q2R q * (DT / Q2R DH)) cv g -> closed_box c -> uniform e ->
  (1 <= nx)%Z -> (1 <= ny)%Z -> (1 <= nz)%Z -> (In AZ axes -> (2 <= nz)%Z) ->
  (forall i, 0 < pmod e i) -> definite_by axes comps (pmod e) (smod e) kmin -> moduli_below axes comps (pmod e) (smod e) la mu ->
  (forall a i, In a comps -> bmin <= e_coef e (buoyancy axes a) i <= bmax) ->
  (forall ty t i, injected (src ty) t i = 0) ->
  let h := Q2R DH in let limit := cfl_limit p (Z.of_nat (length axes)) h v in
  0 < DT -> 0 < h -> DT < limit ->
  elastic_solution nx ny nz p h DT T Mx Mt e axes comps (pmod e) (smod e) 0 (fun _ => 1) (fun _ => 0) (fun _ _ _ => 0) V Sg (fun _ _ _ _ _ => 0) ->
  (forall x y z, (0 <= x < nx)%Z -> (0 <= y < ny)%Z -> (0 <= z < nz)%Z -> let i := reg_index nx nz x y z in
     (forall a, In a comps -> st (vel a) i = V a (- (DT / 2)) (spot h (vel_half a) x y z)) /\
     (forall a b, In (a, b) (stresses axes comps) -> st (sig a b) i = Sg a b 0 (spot h (sig_half a b) x y z))) ->
  forall n, INR n * DT <= T ->
  let fields := fst (steps S c (Shot R_arith e src (fun _ => []) 0) 0 n st) in
  (1 - DT / limit) * points_sum nx ny nz (fun x y z => let i := reg_index nx nz x y z in
      sum_axes comps (fun a => (fields (vel a) i - V a (INR n * DT - DT / 2) (spot h (vel_half a) x y z)) ^ 2) +
      Rsum (map (fun ab => (fields (sig (fst ab) (snd ab)) i - Sg (fst ab) (snd ab) (INR n * DT) (spot h (sig_half (fst ab) (snd ab)) x y z)) ^ 2) (stresses axes comps))) <=
  IZR (nx * ny * nz) * (C * (INR n * DT) * (DT ^ 2 + h ^ Z.to_nat p)) ^ 2.
Proof.
  intros S axes comps p kmin la mu bmin bmax v Mx Mt HS Hp K0 La0 Mu0 B0 V0 Hv HMx HMt.
  exists (sqrt (Cel2 comps p 0 kmin la mu bmin bmax v 0 Mx Mt)).
  intros e c useVar hybrid nx ny nz rest DH fuel cv g src st DT T V Sg HM Hc HU N1 N2 N3 Hz HP Hdef Hbe Hb H0 h limit HDT Hh Hcfl HE Hini n HnT fields.
  assert (Z0 : diag (fun _ _ _ => 0)) by (intros ? ?; reflexivity).
  pose proof (el_run e c g src st S axes comps _ _ (fun _ => 1) DT (fun _ => 0) (fun _ _ _ => 0) HS Hc HU HP H0 eq_refl eq_refl) as HR. cbv zeta in HR.
  apply (any_conv axes comps p 0 kmin la mu bmin bmax v 0 Mx Mt (geo_of S axes comps (or_introl HS)) Hp K0 La0 Mu0 B0 V0 Hv ltac:(lra) HMx HMt e c useVar hybrid nx ny nz rest DH fuel cv g DT T (pmod e) (smod e) (fun _ => 1) (fun _ => 0) (fun _ _ _ => 0)
    HM Hc ltac:(lia) Hz Z0 (smod_diag e) Hb ltac:(rewrite relaxedP0, relaxedM0; exact Hdef) ltac:(lia) ltac:(lia) Hbe HDT Hh Hcfl (plain_run e c S) (fun n => fst (steps S c (Shot R_arith e src (fun _ => []) 0) 0 n st))
    (fun s => el_next e c g Hc HU HP S axes comps _ _ _ _ s HS) HR V Sg (fun _ _ _ _ _ => 0) HE); [|exact HnT].
  intros x y z Hx Hy Hzz i. destruct (Hini x y z Hx Hy Hzz) as (I1 & I2). split; [exact I1|]. intros a b Hab. split; [apply I2, Hab|]. intros l Hl. lia.
Qed.
Print Assumptions C169_elastic.

(** ** viscoelastic waves
    The solution includes the relaxation variables; their initial values are those of the program. *)
Theorem C169_visco : forall (S : solver) (axes comps : list axis) (p : Z) (L : nat) (kmin la mu bmin bmax v taumax Mx Mt : R),
  visco_setting S axes comps -> In p [2; 4; 6; 8]%Z -> 0 < kmin -> 0 <= la -> 0 < mu -> 0 < bmin -> 0 < v -> stiffness comps la mu * bmax <= v * v -> 0 <= taumax -> 0 <= Mx -> 0 <= Mt ->
  exists C, forall (e : env R_arith) (c : cfg) (useVar hybrid : bool) (nx ny nz : Z) (rest : list Z) (DH : Q) (fuel : nat) (cv : Q -> R)
    (g : grid) (src : acq R_arith) (st : state R_arith) (f : nat -> R) (DT T : R)
    (V : axis -> R -> position -> R) (Sg : axis -> axis -> R -> position -> R) (Rv : axis -> axis -> nat -> R -> position -> R),
  @fd_matrices R_arith e c true useVar hybrid nx ny nz p rest DH fuel (fun q => Q2R q * (DT / Q2R DH)) cv g -> closed_box c -> c_fs c = 0%Z -> uniform e -> c_L c = L ->
  (1 <= nx)%Z -> (1 <= ny)%Z -> (1 <= nz)%Z -> (In AZ axes -> (2 <= nz)%Z) ->
  (forall l, (l < L)%nat -> 0 < f l) -> (forall l, (l < L)%nat -> relaxationTime f l <= taumax) -> visco_prepared e DT f L ->
  (forall i, 0 < pmod e i) -> (forall i, 0 <= e_coef e "tauP"%string i) ->
  let P := unrelaxedP e L in let M := unrelaxedM e L in
  definite_by axes comps (relaxedP P L (relaxP e)) (relaxedM M L (relaxM e)) kmin -> ((0 < L)%nat -> definite_by axes comps (relaxP e) (relaxM e) kmin) ->
  moduli_below axes comps P M la mu ->
  (forall a i, In a comps -> bmin <= e_coef e (buoyancy axes a) i <= bmax) ->
  (forall ty t i, injected (src ty) t i = 0) ->
  let h := Q2R DH in let limit := cfl_limit p (Z.of_nat (length axes)) h v in
  0 < DT -> 0 < h -> DT < limit ->
  elastic_solution nx ny nz p h DT T Mx Mt e axes comps P M L (relaxationTime f) (relaxP e) (relaxM e) V Sg Rv ->
  (forall x y z, (0 <= x < nx)%Z -> (0 <= y < ny)%Z -> (0 <= z < nz)%Z -> let i := reg_index nx nz x y z in
     (forall a, In a comps -> st (vel a) i = V a (- (DT / 2)) (spot h (vel_half a) x y z)) /\
     (forall a b, In (a, b) (stresses axes comps) -> st (sig a b) i = Sg a b 0 (spot h (sig_half a b) x y z) /\
        forall l, (l < L)%nat -> st (rel a b l) i = Rv a b l 0 (spot h (sig_half a b) x y z))) ->
  forall n, INR n * DT <= T ->
  let fields := fst (steps S c (Shot R_arith e src (fun _ => []) 0) 0 n st) in
  (1 - DT / limit) * points_sum nx ny nz (fun x y z => let i := reg_index nx nz x y z in
      sum_axes comps (fun a => (fields (vel a) i - V a (INR n * DT - DT / 2) (spot h (vel_half a) x y z)) ^ 2) +
      Rsum (map (fun ab => (fields (sig (fst ab) (snd ab)) i - Sg (fst ab) (snd ab) (INR n * DT) (spot h (sig_half (fst ab) (snd ab)) x y z)) ^ 2) (stresses axes comps))) <=
  IZR (nx * ny * nz) * (C * (INR n * DT) * (DT ^ 2 + h ^ Z.to_nat p)) ^ 2.
Proof.
  intros S axes comps p L kmin la mu bmin bmax v taumax Mx Mt HS Hp K0 La0 Mu0 B0 V0 Hv Ta0 HMx HMt.
  exists (sqrt (Cel2 comps p L kmin la mu bmin bmax v taumax Mx Mt)).
  intros e c useVar hybrid nx ny nz rest DH fuel cv g src st f DT T V Sg Rv HM Hc Hfs HU HL N1 N2 N3 Hz Hf Htm VP HP HTp P M Hdef Hdd Hbe Hb H0 h limit HDT Hh Hcfl HE Hini n HnT fields.
  pose proof (vi_run e c g src st S axes comps f DT HS Hc Hfs HU HP HTp HDT ltac:(rewrite HL; exact Hf) ltac:(rewrite HL; exact VP) H0) as HR. cbv zeta in HR. rewrite HL in HR.
  assert (HX : forall s, elastic_step e c s axes comps (fun _ => false) P M L (relaxationTime f) DT (relaxP e) (relaxM e) (plain_run e c S s)).
  { intros s. pose proof (vi_next e c g Hc HU HP S axes comps f DT s HS Hfs HTp HDT ltac:(rewrite HL; exact Hf) ltac:(rewrite HL; exact VP)) as X. rewrite HL in X. exact X. }
  apply (any_conv axes comps p L kmin la mu bmin bmax v taumax Mx Mt (geo_of S axes comps (or_intror HS)) Hp K0 La0 Mu0 B0 V0 Hv Ta0 HMx HMt e c useVar hybrid nx ny nz rest DH fuel cv g DT T P M (relaxationTime f) (relaxP e) (relaxM e)
    HM Hc ltac:(lia) Hz (relaxM_diag e) (unrelaxedM_diag e _) Hb Hdef Hdd (fun l Hl => conj (tau_pos f l (Hf l Hl)) (Htm l Hl)) Hbe HDT Hh Hcfl (plain_run e c S) (fun n => fst (steps S c (Shot R_arith e src (fun _ => []) 0) 0 n st))
    HX HR V Sg Rv HE); [|exact HnT].
  exact Hini.
Qed.
Print Assumptions C169_visco.
