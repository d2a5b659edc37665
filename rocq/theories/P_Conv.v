(** C165: the acoustic solvers converge. *)
From Coq Require Import QArith Qreals Reals Lra FunctionalExtensionality.
From Verif Require Import M_Grid M_Deriv S_Deriv L_Deriv L_Deriv2 M_Prog M_Solvers M_Env S_Solver S_Step S_Check S_Energy L_Prog L_Lin L_Src L_Env
  L_Surface L_Leap L_Leap2 L_Diff L_Energy M_Surface P_Solver2 L_Energy4 P_Step P_Energy S_Taylor S_Conv L_Conv L_Conv2.
From Verif Require L_Fd L_Taylor.
Open Scope R_scope.
Open Scope list_scope.

Ltac rring := match goal with |- ?x = ?y => change (@eq R x y) end; ring.

Lemma algebra1 (a s x : R) : x = a + -1 * s + -1 * (a - s - x).
Proof. ring. Qed.

Section conv.
Variables (e : env R_arith) (c : cfg) (useVar hybrid : bool) (nx ny nz p : Z) (rest : list Z) (DH : Q) (fuel : nat)
  (dt h : R) (cv : Q -> R) (g : grid) (src : acq R_arith) (st : state R_arith) (Sv : solver) (axes : list axis).
Hypothesis HM : @fd_matrices R_arith e c true useVar hybrid nx ny nz p rest DH fuel (fun q => Q2R q * (dt / h)) cv g.
Hypothesis Hc : closed_box c.
Hypothesis HS : acoustic_setting Sv axes.
Hypothesis Hz : In AZ axes -> (2 <= nz)%Z.
Hypothesis HN : (0 <= nx)%Z /\ (0 <= ny)%Z /\ (0 <= nz)%Z.
Hypothesis Hp : L_Fd.exact_order p.
Variables (Kmin Kmax bmin bmax q : R).
Hypothesis HK : forall i, Kmin <= pmod e i <= Kmax.
Hypothesis Hb : forall a i, In a axes -> bmin <= e_coef e (buoyancy axes a) i <= bmax.
Hypothesis HK0 : 0 < Kmin.
Hypothesis Hb0 : 0 < bmin.
Hypothesis H0 : forall ty t i, injected (src ty) t i = 0.
Hypothesis Hdt : 0 < dt.
Hypothesis Hh : 0 < h.
Hypothesis Hq : 0 < q < 1.
Hypothesis Hth : ac_th p (dt / h) axes bmax Kmax <= q * q.
Variables (P : R -> position -> R) (V : axis -> R -> position -> R) (T Mx Mt : R).
Hypothesis HE : exact_solution nx ny nz p h dt T Mx Mt e axes P V.
Hypothesis HP0 : forall x y z, inside nx ny nz x y z -> st pressure (reg_index nx nz x y z) = P 0 (at_point h x y z).
Hypothesis HV0 : forall a x y z, In a axes -> inside nx ny nz x y z -> st (vel a) (reg_index nx nz x y z) = V a (- (dt / 2)) (half_point h a x y z).
Hypothesis HMx : 0 <= Mx.
Hypothesis HMt : 0 <= Mt.
Notation gs := (grid_sum nx ny nz).
Notation ri := (reg_index nx nz).
Notation D := (Dmv e "").
Notation ins := (inside nx ny nz).
Notation rst := (state R_arith).
Notation b a := (e_coef e (buoyancy axes a)).
Notation K := (pmod e).

Definition after (n : nat) : rst := fst (steps Sv c (Shot R_arith e src (fun _ => []) 0) 0 n st).
Definition nxt (s : rst) : rst := exec e (fun _ => []) 0 (s_run Sv c) s.
Definition exst (n : nat) : rst := fun m i =>
  if nm_eqb m pressure then sampP nx nz h P (INR n * dt) i else if nm_eqb m (vel AX) then sampV nx nz h V AX (INR n * dt - dt / 2) i
  else if nm_eqb m (vel AY) then sampV nx nz h V AY (INR n * dt - dt / 2) i else sampV nx nz h V AZ (INR n * dt - dt / 2) i.
Lemma exst_p n i : exst n pressure i = sampP nx nz h P (INR n * dt) i.
Proof. reflexivity. Qed.
Lemma exst_v n a i : exst n (vel a) i = sampV nx nz h V a (INR n * dt - dt / 2) i.
Proof. destruct a; reflexivity. Qed.
Lemma after_step n : acoustic_step e c (after n) axes (fun _ => false) (after (S n)).
Proof. apply (ac_run e c g src st Sv axes Hc HS H0). Qed.
Lemma nxt_step s : acoustic_step e c s axes (fun _ => false) (nxt s).
Proof.
  pose proof (closed_itp c Hc) as Hi. destruct Hc as (_ & Hfs).
  destruct (C93_acoustic g e c (fun _ => []) 0 s Hi ltac:(intros; contradiction)) as (P2 & P3). unfold nxt.
  destruct HS as [(-> & ->)|(-> & ->)]; (eapply acoustic_ext; [intros i; apply (surface_of_0 c g i Hfs)|reflexivity|]); assumption.
Qed.
Lemma axok a : In a axes -> ax_ok nz a.
Proof. intros Ha ->. apply Hz, Ha. Qed.

Definition err (n : nat) : rst := fun m i => after n m i - exst n m i.
Definition fault (n : nat) : rst := fun m i => err (S n) m i - nxt (err n) m i.
Lemma fault_v n a i : has axes a = true -> fault n (vel a) i =
  - (sampV nx nz h V a (INR n * dt + dt / 2) i - sampV nx nz h V a (INR n * dt - dt / 2) i - b a i * D a false (sampP nx nz h P (INR n * dt)) i).
Proof.
  intros Ha. destruct Hc as (Hu & Hfs). unfold fault. rewrite (ac_v e c Hu Hfs axes _ _ (nxt_step (err n)) a i Ha). unfold err at 1.
  rewrite (ac_v e c Hu Hfs axes _ _ (after_step n) a i Ha). unfold err at 1. rewrite !exst_v.
  replace (D a false (err n pressure) i) with (D a false (after n pressure) i - D a false (sampP nx nz h P (INR n * dt)) i).
  - rewrite S_INR. replace ((INR n + 1) * dt - dt / 2) with (INR n * dt + dt / 2) by field. rring.
  - rewrite <- D_sub. reflexivity.
Qed.
Lemma fault_p n i : fault n pressure i =
  - (sampP nx nz h P (INR n * dt + dt) i - sampP nx nz h P (INR n * dt) i - K i * sum_axes axes (fun a => D a true (sampV nx nz h V a (INR n * dt + dt / 2)) i)) +
  K i * sum_axes axes (fun a => D a true (fault n (vel a)) i).
Proof.
  destruct Hc as (Hu & Hfs). unfold fault at 1. rewrite (ac_pr e c Hu axes _ _ (nxt_step (err n)) i). unfold err at 1.
  rewrite (ac_pr e c Hu axes _ _ (after_step n) i). unfold err at 1. rewrite !exst_p.
  assert (E : sum_axes axes (fun a => D a true (nxt (err n) (vel a)) i) = sum_axes axes (fun a => D a true (after (S n) (vel a)) i) -
    sum_axes axes (fun a => D a true (sampV nx nz h V a (INR n * dt + dt / 2)) i) - sum_axes axes (fun a => D a true (fault n (vel a)) i)).
  { unfold sum_axes, Rminus. rewrite (opp1 (Rsum (map (fun a => D a true (sampV _ _ _ _ _ _) i) axes))), (opp1 (Rsum (map (fun a => D a true (fault n (vel a)) i) axes))).
    rewrite <- !Rsum_map_mul, <- !Rsum_map_add. apply Rsum_map_ext. intros a Ha.
    transitivity (D a true (fun j => after (S n) (vel a) j + -1 * sampV nx nz h V a (INR n * dt + dt / 2) j + -1 * fault n (vel a) j) i).
    - apply D_eq. intros j. unfold fault. change (err (S n) (vel a) j) with (after (S n) (vel a) j - exst (S n) (vel a) j). rewrite exst_v, S_INR. replace ((INR n + 1) * dt - dt / 2) with (INR n * dt + dt / 2) by field. apply algebra1.
    - rewrite (D_add e "" a true (fun j => after (S n) (vel a) j + -1 * sampV nx nz h V a (INR n * dt + dt / 2) j)), (D_add e "" a true (after (S n) (vel a))), !D_mul. reflexivity. }
  rewrite E, S_INR. replace ((INR n + 1) * dt) with (INR n * dt + dt) by ring. rring.
Qed.

Definition W : R := error_const p * Mx * h ^ Z.to_nat p.
Definition tv : R := 1 / 24 * Mt * dt ^ 2 + bmax * W.
Definition tp : R := 1 / 24 * Mt * dt ^ 2 + Kmax * (INR (length axes) * W) + Kmax * (INR (length axes) * (2 * fd_h p * (dt / h) * tv)).
Lemma EC0 : 0 <= error_const p.
Proof using. clear. unfold error_const. repeat match goal with |- context [if ?x then _ else _] => destruct x end; lra. Qed.
Lemma W0 : 0 <= W.
Proof using HMx Hh. clear - HMx Hh. unfold W. apply Rmult_le_pos; [apply Rmult_le_pos; [apply EC0|exact HMx]|apply Rlt_le, pow_lt, Hh]. Qed.
Lemma axne : In AX axes.
Proof using HS. clear - HS. destruct HS as [(_ & E)|(_ & E)]; rewrite E; cbn; auto. Qed.
Lemma bmax0 : 0 < bmax.
Proof using HS Hb Hb0. clear - HS Hb Hb0. destruct (Hb AX 0 axne). lra. Qed.
Lemma Kmax0 : 0 < Kmax.
Proof using HK HK0. clear - HK HK0. destruct (HK 0). lra. Qed.
Lemma tv0 : 0 <= tv.
Proof. unfold tv. pose proof W0. pose proof bmax0. assert (0 <= dt ^ 2) by apply pow2_ge_0. apply Rplus_le_le_0_compat; [|apply Rmult_le_pos; lra]. apply Rmult_le_pos; [lra|assumption]. Qed.
Lemma dh0 : 0 < dt / h.
Proof using Hdt Hh. clear - Hdt Hh. apply Rdiv_lt_0_compat; assumption. Qed.
Lemma fault_v_bound n a x y z : In a axes -> ins x y z -> INR (S n) * dt <= T -> Rabs (fault n (vel a) (ri x y z)) <= dt * tv.
Proof.
  intros Ha Hi HT. rewrite fault_v by apply in_has, Ha. rewrite Rabs_Ropp. rewrite S_INR in HT. pose proof (pos_INR n). pose proof (Rmult_le_pos _ _ H (Rlt_le _ _ Hdt)).
  apply (trunc_v e c useVar hybrid nx ny nz p rest DH fuel dt h cv g HM Hp Hh Hdt axes P V T Mx Mt HE axok a (INR n * dt) x y z bmax Ha Hi); [assumption|lra|].
  destruct (Hb a (ri x y z) Ha). lra.
Qed.
Lemma fault_p_bound n x y z : ins x y z -> INR (S n) * dt <= T -> Rabs (fault n pressure (ri x y z)) <= dt * tp.
Proof.
  intros Hi HT. rewrite fault_p. pose proof (pos_INR n). pose proof (Rmult_le_pos _ _ H (Rlt_le _ _ Hdt)). destruct (HK (ri x y z)) as (K1 & K2).
  eapply Rle_trans; [apply Rabs_triang|]. rewrite Rabs_Ropp.
  pose proof HT as HT'. rewrite S_INR in HT'.
  pose proof (trunc_p e c useVar hybrid nx ny nz p rest DH fuel dt h cv g HM Hp Hh Hdt axes P V T Mx Mt HE axok (INR n * dt) x y z Kmax Hi ltac:(assumption) ltac:(lra) ltac:(lra)) as A.
  fold W in A. unfold tp. rewrite (Rplus_assoc (1 / 24 * Mt * dt ^ 2)), <- Rplus_assoc, Rmult_plus_distr_l. apply Rplus_le_compat; [exact A|].
  rewrite Rabs_mult, (Rabs_right (K _)) by lra.
  assert (B : Rabs (sum_axes axes (fun a => D a true (fault n (vel a)) (ri x y z))) <= INR (length axes) * (2 * fd_h p * (dt / h) * (dt * tv))).
  { unfold sum_axes. eapply Rle_trans; [apply L_Taylor.Rsum_abs|]. rewrite <- Rsum_const. apply Rsum_map_le. intros a Ha.
    apply (D_max e c useVar hybrid nx ny nz p rest DH fuel dt h cv g HM Hp Hh Hdt a true); [apply axok, Ha|exact Hi| |].
    - apply Rmult_le_pos; [lra|apply tv0].
    - intros. apply fault_v_bound; assumption. }
  assert (0 <= INR (length axes) * (2 * fd_h p * (dt / h) * (dt * tv))) by (eapply Rle_trans; [apply Rabs_pos|exact B]).
  replace (dt * (Kmax * (INR (length axes) * (2 * fd_h p * (dt / h) * tv)))) with (Kmax * (INR (length axes) * (2 * fd_h p * (dt / h) * (dt * tv)))) by ring.
  apply Rmult_le_compat; [lra|apply Rabs_pos|exact K2|exact B].
Qed.

Definition err_sum (n : nat) : R :=
  gs (fun i => err n pressure i * err n pressure i) + sum_axes axes (fun a => gs (fun i => err n (vel a) i * err n (vel a) i)).
Lemma err_bound n : INR n * dt <= T ->
  (1 - q) * err_sum n <= (Kmax + bmax) * (INR n * INR n * (2 * IZR (nx * ny * nz) * (INR (length axes) * (dt * tv * (dt * tv) / bmin) + dt * tp * (dt * tp) / Kmin))).
Proof.
  intros HT. destruct Hc as (Hu & Hfs). destruct HN as (N1 & N2 & N3).
  assert (G1 : forall a x y z, has axes a = true -> ins x y z -> 0 < b a (ri x y z)) by (intros a x y z Ha _; destruct (Hb a (ri x y z) (has_in _ _ Ha)); lra).
  assert (G2 : forall a x y z, has axes a = true -> ins x y z -> b a (ri x y z) <= bmax) by (intros a x y z Ha _; apply Hb, has_in, Ha).
  assert (G2' : forall a x y z, has axes a = true -> ins x y z -> bmin <= b a (ri x y z)) by (intros a x y z Ha _; apply Hb, has_in, Ha).
  assert (G3 : forall x y z, ins x y z -> 0 < K (ri x y z)) by (intros x y z _; destruct (HK (ri x y z)); lra).
  assert (G4 : forall x y z, ins x y z -> K (ri x y z) <= Kmax) by (intros; apply HK).
  assert (G4' : forall x y z, ins x y z -> Kmin <= K (ri x y z)) by (intros; apply HK).
  pose proof bmax0 as B0. pose proof Kmax0 as K0. pose proof (Hps p Hp) as Hps.
  set (B2 := 2 * IZR (nx * ny * nz) * (INR (length axes) * (dt * tv * (dt * tv) / bmin) + dt * tp * (dt * tp) / Kmin)).
  set (Q := QF e nx ny nz axes nxt).
  assert (SZ : forall s mv mp, (forall a x y z, In a axes -> ins x y z -> Rabs (s (vel a) (ri x y z)) <= mv) -> (forall x y z, ins x y z -> Rabs (s pressure (ri x y z)) <= mp) ->
    Q s <= 2 * IZR (nx * ny * nz) * (INR (length axes) * (mv * mv / bmin) + mp * mp / Kmin)).
  { intros s mv mp Hv Hpr. apply (QF_size e c useVar hybrid nx ny nz p rest DH fuel (dt / h) cv g HM Hu Hfs axes axok G1 G3 bmax Kmax G2 G4 Hps ltac:(lra) nxt nxt_step q Hq Hth); assumption. }
  assert (QP : forall s, 0 <= Q s) by exact (QF_pos e c useVar hybrid nx ny nz p rest DH fuel (dt / h) cv g HM Hu Hfs axes axok G1 G3 bmax Kmax G2 G4 Hps ltac:(lra) nxt nxt_step q Hq Hth).
  assert (QL : forall s, (1 - q) * (kinetic nx ny nz e axes axes s s + compression nx ny nz e s) <= Q s)
    by exact (QF_low e c useVar hybrid nx ny nz p rest DH fuel (dt / h) cv g HM Hu Hfs axes axok G1 G3 bmax Kmax G2 G4 Hps ltac:(lra) nxt nxt_step q Hq Hth).
  assert (B20 : 0 <= B2).
  { unfold B2. assert (0 <= IZR (nx * ny * nz)) by (apply (IZR_le 0); apply Z.mul_nonneg_nonneg; [apply Z.mul_nonneg_nonneg|]; assumption).
    apply Rmult_le_pos; [lra|]. apply Rplus_le_le_0_compat; [apply Rmult_le_pos; [apply pos_INR|]|]; apply sq_div; assumption. }
  assert (Q0 : Q (err 0) = 0).
  { apply Rle_antisym; [|apply QP]. eapply Rle_trans; [apply (SZ (err 0) 0 0)|].
    - intros a x y z Ha Hi. unfold err. rewrite exst_v, (sampV_at nx ny nz h V a _ x y z Hi). change (after 0) with st. rewrite (HV0 a x y z Ha Hi). cbn [INR].
      replace (0 * dt - dt / 2) with (- (dt / 2)) by ring. rewrite Rminus_diag_eq by reflexivity. rewrite Rabs_R0. lra.
    - intros x y z Hi. unfold err. rewrite exst_p, (sampP_at nx ny nz h P _ x y z Hi). change (after 0) with st. rewrite (HP0 x y z Hi). cbn [INR]. rewrite Rmult_0_l.
      rewrite Rminus_diag_eq by reflexivity. rewrite Rabs_R0. lra.
    - apply Req_le. unfold Rdiv. ring. }
  assert (GR : sqrt (Q (err n)) <= INR n * sqrt B2).
  { refine (error_growth e c useVar hybrid nx ny nz p rest DH fuel (dt / h) cv g HM Hu Hfs axes axok G1 G3 bmax Kmax G2 G4 Hps ltac:(lra) nxt nxt_step q Hq Hth err n (sqrt B2) Q0 _ (sqrt_pos _) n (le_n n)).
    intros j Hj. rewrite sqrt_sqrt by exact B20. apply (SZ (fault j)).
    - intros a x y z Ha Hi. apply fault_v_bound; auto. eapply Rle_trans; [|exact HT]. apply Rmult_le_compat_r; [lra|]. apply le_INR. lia.
    - intros x y z Hi. apply fault_p_bound; auto. eapply Rle_trans; [|exact HT]. apply Rmult_le_compat_r; [lra|]. apply le_INR. lia. }
  assert (QN : Q (err n) <= INR n * INR n * B2).
  { rewrite <- (sqrt_sqrt (Q (err n))) by apply QP. rewrite <- (sqrt_sqrt B2) by exact B20.
    replace (INR n * INR n * (sqrt B2 * sqrt B2)) with (INR n * sqrt B2 * (INR n * sqrt B2)) by ring. apply Rmult_le_compat; try apply sqrt_pos; exact GR. }
  assert (S1 : err_sum n <= (Kmax + bmax) * (kinetic nx ny nz e axes axes (err n) (err n) + compression nx ny nz e (err n))).
  { assert (C1 : gs (fun i => err n pressure i * err n pressure i) <= Kmax * compression nx ny nz e (err n)).
    { unfold compression. rewrite <- gs_mul. apply gle. intros x y z Hi. apply sq_le_div; auto. }
    assert (C2 : sum_axes axes (fun a => gs (fun i => err n (vel a) i * err n (vel a) i)) <= bmax * kinetic nx ny nz e axes axes (err n) (err n)).
    { unfold kinetic, sum_axes. rewrite <- Rsum_map_mul. apply Rsum_map_le. intros a Ha. rewrite <- gs_mul. apply gle. intros x y z Hi.
      apply sq_le_div; [apply G1|apply G2]; auto using in_has. }
    pose proof (comp_pos e nx ny nz G3 (err n)). assert (0 <= kinetic nx ny nz e axes axes (err n) (err n)).
    { unfold kinetic, sum_axes. apply Rsum_map_pos. intros a Ha. apply gpos. intros x' y' z' Hi'. apply sq_div, G1; [apply in_has, Ha|exact Hi']. }
    unfold err_sum. nra. }
  apply Rle_trans with ((1 - q) * ((Kmax + bmax) * (kinetic nx ny nz e axes axes (err n) (err n) + compression nx ny nz e (err n)))); [apply Rmult_le_compat_l; lra|].
  pose proof (QL (err n)) as L1.
  replace ((1 - q) * ((Kmax + bmax) * (kinetic nx ny nz e axes axes (err n) (err n) + compression nx ny nz e (err n)))) with
    ((Kmax + bmax) * ((1 - q) * (kinetic nx ny nz e axes axes (err n) (err n) + compression nx ny nz e (err n)))) by ring.
  apply Rmult_le_compat_l; lra.
Qed.
End conv.

(** ** the theorem *)
Lemma conv_const S axes p Kmin Kmax bmin bmax v Mx Mt dt h : acoustic_setting S axes -> L_Fd.exact_order p -> 0 < Kmin -> 0 < bmin -> 0 < Kmax -> 0 < bmax -> 0 < v -> 0 <= Mx -> 0 <= Mt ->
  0 < dt -> 0 < h -> fd_h p * (dt / h) * v <= 1 ->
  let d := INR (length axes) in let ka := error_const p * Mx in let c1 := Mt + bmax * ka in let c2 := Mt + Kmax * (d * ka) + Kmax * (d * (2 / v * c1)) in
  let w := dt ^ 2 + h ^ Z.to_nat p in
  0 <= tv p dt h bmax Mx Mt <= c1 * w /\ 0 <= tp p dt h axes Kmax bmax Mx Mt <= c2 * w.
Proof.
  intros HS Hp K0 B0 K1 B1 V0 HMx HMt HT HH HC d ka c1 c2 w.
  assert (D0 : 0 <= d) by apply pos_INR. assert (KA : 0 <= ka) by (apply Rmult_le_pos; [apply EC0|exact HMx]).
  assert (T2 : 0 <= dt ^ 2) by apply pow2_ge_0. assert (HP : 0 < h ^ Z.to_nat p) by apply pow_lt, HH.
  assert (DH0 : 0 < dt / h) by (apply Rdiv_lt_0_compat; assumption). pose proof (fd_h_pos p (L_Fd.exact_supported p Hp)) as F0.
  unfold tp, tv, W. fold ka. fold d.
  set (hp := h ^ Z.to_nat p) in *. set (t2 := dt ^ 2) in *.
  assert (A1 : 0 <= 1 / 24 * Mt * t2 <= Mt * w) by (unfold w; pose proof (Rmult_le_pos _ _ HMt T2); pose proof (Rmult_le_pos _ _ HMt (Rlt_le _ _ HP)); lra).
  assert (A2 : 0 <= ka * hp <= ka * w) by (unfold w; pose proof (Rmult_le_pos _ _ KA T2); pose proof (Rmult_le_pos _ _ KA (Rlt_le _ _ HP)); lra).
  assert (A3 : 0 <= bmax * (ka * hp) <= bmax * (ka * w)) by (split; [apply Rmult_le_pos; lra|apply Rmult_le_compat_l; lra]).
  assert (TV : 0 <= 1 / 24 * Mt * t2 + bmax * (ka * hp) <= c1 * w) by (unfold c1; split; lra).
  split; [exact TV|].
  assert (A4 : 0 <= Kmax * (d * (ka * hp)) <= Kmax * (d * (ka * w))).
  { split; [apply Rmult_le_pos; [lra|apply Rmult_le_pos; lra]|]. apply Rmult_le_compat_l; [lra|]. apply Rmult_le_compat_l; lra. }
  assert (FD : 0 <= 2 * fd_h p * (dt / h) <= 2 / v).
  { split; [apply Rmult_le_pos; lra|]. apply (Rmult_le_reg_r v); [exact V0|]. replace (2 / v * v) with 2 by (field; lra). lra. }
  assert (A5 : 0 <= 2 * fd_h p * (dt / h) * (1 / 24 * Mt * t2 + bmax * (ka * hp)) <= 2 / v * (c1 * w)) by (split; [apply Rmult_le_pos; lra|apply Rmult_le_compat; lra]).
  assert (A6 : 0 <= Kmax * (d * (2 * fd_h p * (dt / h) * (1 / 24 * Mt * t2 + bmax * (ka * hp)))) <= Kmax * (d * (2 / v * (c1 * w)))).
  { split; [apply Rmult_le_pos; [lra|apply Rmult_le_pos; lra]|]. apply Rmult_le_compat_l; [lra|]. apply Rmult_le_compat_l; lra. }
  unfold c2. split; [lra|].
  replace ((Mt + Kmax * (d * ka) + Kmax * (d * (2 / v * c1))) * w) with (Mt * w + Kmax * (d * (ka * w)) + Kmax * (d * (2 / v * (c1 * w)))) by (unfold Rdiv; ring). lra.
Qed.
Lemma sq_mono a b m : 0 < m -> 0 <= a <= b -> a * a / m <= b * b / m.
Proof. intros Hm H. unfold Rdiv. apply Rmult_le_compat_r; [apply Rlt_le, Rinv_0_lt_compat, Hm|]. apply Rmult_le_compat; lra. Qed.

(** For every solver, order and bounds on the coefficients and on the derivatives of the solution there is a constant C such that on all
    grids and for all time steps below the CFL limit the mean square error of pressure and velocities after n steps is at most
    (C t (dt^2 + h^p))^2 / (1 - q), t = n dt, where q is the ratio of the time step to the CFL limit. *)
Theorem C165_convergence : forall (S : solver) (axes : list axis) (p : Z) (Kmin Kmax bmin bmax v Mx Mt : R),
  acoustic_setting S axes -> In p [2; 4; 6; 8]%Z -> 0 < Kmin -> 0 < bmin -> 0 < v -> Kmax * bmax <= v * v -> 0 <= Mx -> 0 <= Mt ->
  exists C, forall (e : env R_arith) (c : cfg) (useVar hybrid : bool) (nx ny nz : Z) (rest : list Z) (DH : Q) (fuel : nat) (cv : Q -> R)
    (g : grid) (src : acq R_arith) (st : state R_arith) (DT T : R) (P : R -> position -> R) (V : axis -> R -> position -> R),
  @fd_matrices R_arith e c true useVar hybrid nx ny nz p rest DH fuel (fun q => Q2R q * (DT / Q2R DH)) cv g -> closed_box c ->
  (1 <= nx)%Z -> (1 <= ny)%Z -> (1 <= nz)%Z -> (In AZ axes -> (2 <= nz)%Z) ->
  (forall i, Kmin <= pmod e i <= Kmax) -> (forall a i, In a axes -> bmin <= e_coef e (buoyancy axes a) i <= bmax) ->
  (forall ty t i, injected (src ty) t i = 0) ->
  let h := Q2R DH in let limit := cfl_limit p (Z.of_nat (length axes)) h v in
  0 < DT -> 0 < h -> DT < limit ->
  exact_solution nx ny nz p h DT T Mx Mt e axes P V ->
  (forall x y z, (0 <= x < nx)%Z -> (0 <= y < ny)%Z -> (0 <= z < nz)%Z ->
     st pressure (reg_index nx nz x y z) = P 0 (at_point h x y z) /\
     (forall a, In a axes -> st (vel a) (reg_index nx nz x y z) = V a (- (DT / 2)) (half_point h a x y z))) ->
  forall n, INR n * DT <= T ->
  let fields := fst (steps S c (Shot R_arith e src (fun _ => []) 0) 0 n st) in
  (1 - DT / limit) * points_sum nx ny nz (fun x y z => let i := reg_index nx nz x y z in
      (fields pressure i - P (INR n * DT) (at_point h x y z)) ^ 2 +
      sum_axes axes (fun a => (fields (vel a) i - V a (INR n * DT - DT / 2) (half_point h a x y z)) ^ 2)) <=
  IZR (nx * ny * nz) * (C * (INR n * DT) * (DT ^ 2 + h ^ Z.to_nat p)) ^ 2.
Proof.
  intros S axes p Kmin Kmax bmin bmax v Mx Mt HS Hp K0 B0 V0 Hv HMx HMt.
  set (d := INR (length axes)). set (ka := error_const p * Mx). set (c1 := Mt + bmax * ka). set (c2 := Mt + Kmax * (d * ka) + Kmax * (d * (2 / v * c1))).
  exists (sqrt (2 * (Kmax + bmax) * (d * (c1 * c1 / bmin) + c2 * c2 / Kmin))).
  intros e c useVar hybrid nx ny nz rest DH fuel cv g src st DT T P V HM Hc N1 N2 N3 Hz HK Hb H0 h limit HT Hh Hcfl HE Hini n HnT fields.
  assert (IA : In AX axes) by (destruct HS as [(_ & ->)|(_ & ->)]; cbn; auto).
  assert (K1 : 0 < Kmax) by (destruct (HK 0%Z); lra). assert (B1 : 0 < bmax) by (destruct (Hb AX 0%Z IA); lra).
  assert (Hps : supported p) by exact (L_Fd.exact_supported p Hp). pose proof (fd_h_pos p Hps) as F0.
  assert (Hn : (0 < length axes)%nat) by (destruct HS as [(_ & ->)|(_ & ->)]; cbn; lia).
  destruct (theta (length axes) p DT h v (bmax * Kmax) Hps HT Hh V0 Hn) as (T1 & T2).
  { split; [apply Rmult_le_pos; lra|]. rewrite Rmult_comm. exact Hv. }
  { exact Hcfl. }
  fold limit in T1, T2. set (q := DT / limit) in *.
  assert (L0 : 0 < limit) by lra.
  assert (Hq : 0 < q < 1).
  { split; [apply Rdiv_lt_0_compat; lra|]. unfold q. apply (Rmult_lt_reg_r limit); [exact L0|]. unfold Rdiv. rewrite Rmult_assoc, Rinv_l by lra. lra. }
  assert (S1 : 1 <= sqrt (IZR (Z.of_nat (length axes)))) by (rewrite <- sqrt_1 at 1; apply sqrt_le_1_alt; apply (IZR_le 1); lia).
  assert (Q1 : fd_h p * (DT / h) * v <= 1).
  { assert (Eq : q = fd_h p * (DT / h) * v * sqrt (IZR (Z.of_nat (length axes)))) by (unfold q, limit, cfl_limit; field; repeat split; lra).
    assert (X : 0 <= fd_h p * (DT / h) * v) by (apply Rmult_le_pos; [apply Rmult_le_pos; [lra|apply Rlt_le, Rdiv_lt_0_compat; assumption]|lra]).
    pose proof (Rmult_le_compat_l _ _ _ X S1). lra. }
  destruct (conv_const S axes p Kmin Kmax bmin bmax v Mx Mt DT h HS Hp K0 B0 K1 B1 V0 HMx HMt HT Hh Q1) as (TV & TP).
  fold d ka in TV, TP. fold c1 in TV, TP. fold c2 in TP. set (w := DT ^ 2 + h ^ Z.to_nat p) in *.
  pose proof (err_bound e c useVar hybrid nx ny nz p rest DH fuel DT h cv g src st S axes HM Hc HS Hz ltac:(lia) Hp Kmin Kmax bmin bmax q HK Hb K0 B0 H0 HT Hh Hq T1
    P V T Mx Mt HE ltac:(intros x y z (X1 & X2 & X3); apply Hini; assumption) ltac:(intros a x y z Ha (X1 & X2 & X3); apply Hini; assumption) HMx HMt n HnT) as EB.
  assert (ES : points_sum nx ny nz (fun x y z => let i := reg_index nx nz x y z in
      (fields pressure i - P (INR n * DT) (at_point h x y z)) ^ 2 + sum_axes axes (fun a => (fields (vel a) i - V a (INR n * DT - DT / 2) (half_point h a x y z)) ^ 2)) =
    err_sum e c nx ny nz DT h src st S axes P V n).
  { unfold err_sum. unfold sum_axes at 2. rewrite <- gs_Rsum, <- gs_add. unfold grid_sum, points_sum.
    apply ls_ext. intros y Hy. apply ls_ext. intros z Hzz. apply ls_ext. intros x Hx. cbv zeta.
    assert (Hi : inside nx ny nz x y z) by (unfold inside; auto). unfold err. rewrite exst_p, (sampP_at nx ny nz h P _ x y z Hi). fold fields. f_equal.
    - cbn [pow]. rewrite Rmult_1_r. reflexivity.
    - unfold sum_axes. apply Rsum_map_ext. intros a Ha. rewrite exst_v, (sampV_at nx ny nz h V a _ x y z Hi). cbn [pow]. rewrite Rmult_1_r. reflexivity. }
  rewrite ES. eapply Rle_trans; [exact EB|].
  set (C2 := 2 * (Kmax + bmax) * (d * (c1 * c1 / bmin) + c2 * c2 / Kmin)).
  assert (C20 : 0 <= C2).
  { unfold C2. apply Rmult_le_pos; [lra|]. apply Rplus_le_le_0_compat; [apply Rmult_le_pos; [apply pos_INR|]|]; apply sq_div; assumption. }
  replace ((sqrt C2 * (INR n * DT) * w) ^ 2) with ((sqrt C2 * sqrt C2) * ((INR n * DT) * (INR n * DT) * (w * w))) by ring. rewrite sqrt_sqrt by exact C20.
  set (N := IZR (nx * ny * nz)). assert (N0 : 0 <= N) by (apply (IZR_le 0); nia).
  assert (X1 : DT * tv p DT h bmax Mx Mt * (DT * tv p DT h bmax Mx Mt) / bmin <= (DT * (c1 * w)) * (DT * (c1 * w)) / bmin).
  { apply sq_mono; [exact B0|]. split; [apply Rmult_le_pos; lra|apply Rmult_le_compat_l; lra]. }
  assert (X2 : DT * tp p DT h axes Kmax bmax Mx Mt * (DT * tp p DT h axes Kmax bmax Mx Mt) / Kmin <= (DT * (c2 * w)) * (DT * (c2 * w)) / Kmin).
  { apply sq_mono; [exact K0|]. split; [apply Rmult_le_pos; lra|apply Rmult_le_compat_l; lra]. }
  fold d.
  apply Rle_trans with ((Kmax + bmax) * (INR n * INR n * (2 * N * (d * (DT * (c1 * w) * (DT * (c1 * w)) / bmin) + DT * (c2 * w) * (DT * (c2 * w)) / Kmin)))).
  - apply Rmult_le_compat_l; [lra|]. apply Rmult_le_compat_l; [apply Rle_0_sqr|]. apply Rmult_le_compat_l; [lra|]. apply Rplus_le_compat; [|exact X2].
    apply Rmult_le_compat_l; [apply pos_INR|exact X1].
  - apply Req_le. unfold C2. field. lra.
Qed.
Print Assumptions C165_convergence.
