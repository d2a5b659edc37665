(** Energy balance and energy norm of the electromagnetic schemes with Debye relaxation. *)
From Coq Require Import QArith Qreals Reals Lra.
From Verif Require Import M_Grid M_Deriv S_Deriv L_Deriv L_Deriv2 M_Prog M_Solvers M_Env S_Solver S_Step S_Check S_Energy S_Energy2 L_Prog L_Lin L_Src L_Surface L_Leap L_Leap2 L_Diff L_Energy L_Energy4.
Open Scope R_scope.
Open Scope list_scope.

(** One mechanism at one point. *)
Lemma mech_point (T g DT e0 e1 r0 r1 r2 : R) : 0 < T -> 0 < DT -> g <> 0 \/ (r0 = 0 /\ r1 = 0 /\ r2 = 0 /\ g = 0) ->
  T * (r1 - r0) = - DT * (r1 + r0) / 2 - DT * (g * e0) -> T * (r2 - r1) = - DT * (r2 + r1) / 2 - DT * (g * e1) ->
  DT * (e0 + e1) * (g * ((e0 + e1) / 2) + r1) =
  T / g * ((1 / 2 - DT / (4 * T)) * (r1 * r1) + (1 / 2 + DT / (4 * T)) * (r2 * r2)) - T / g * ((1 / 2 - DT / (4 * T)) * (r0 * r0) + (1 / 2 + DT / (4 * T)) * (r1 * r1)) +
  (T * T - DT * DT / 4) / (2 * DT * g) * ((r2 - r0) * (r2 - r0)).
Proof.
  intros HT HD [Hg|(-> & -> & -> & ->)] E0 E1.
  - assert (F0 : e0 = - (T * (r1 - r0) + DT * (r1 + r0) / 2) / (DT * g)) by (field_simplify_eq; [lra|split; lra]).
    assert (F1 : e1 = - (T * (r2 - r1) + DT * (r2 + r1) / 2) / (DT * g)) by (field_simplify_eq; [lra|split; lra]).
    rewrite F0, F1. field. repeat split; lra.
  - unfold Rdiv. ring.
Qed.

Section debye.
Variables (e : env R_arith) (c : cfg) (useVar hybrid : bool) (nx ny nz p : Z) (rest : list Z) (DH : Q) (fuel : nat)
  (k : R) (cv : Q -> R) (g : grid).
Hypothesis HM : @fd_matrices R_arith e c true useVar hybrid nx ny nz p rest DH fuel (fun q => Q2R q * k) cv g.
Hypothesis Hu : undamped c.
Notation gs := (grid_sum nx ny nz).
Notation ri := (reg_index nx nz).
Notation ins := (inside nx ny nz).
Notation rst := (state R_arith).
Variables (axes es hs : list axis).
Hypothesis Hg : em_geometry axes es hs.
Hypothesis Hax : forall a, In a axes -> ax_ok nz a.
Notation m a := (e_coef e (inv_mu a)).
Hypothesis Hm : forall a x y z, has hs a = true -> ins x y z -> 0 < m a (ri x y z).
Variables (eps sigma sig0 : axis -> Z -> R) (L : nat) (T : nat -> R) (gam : axis -> nat -> Z -> R) (DT : R).
Notation sum_mech f := (Rsum (map f (seq 0 L))).
Hypothesis He : forall a x y z, has es a = true -> ins x y z -> 0 < eps a (ri x y z).
Hypothesis HT : forall l, (l < L)%nat -> 0 < T l.
Hypothesis HD : 0 < DT.
Hypothesis Hgam : forall a l i, (l < L)%nat -> 0 <= gam a l i.
Hypothesis Hsig : forall a i, sigma a i = sig0 a i + sum_mech (fun l => gam a l i).
Notation step st st' := (maxwell_step e c st axes es hs eps sigma L T gam DT st').
Notation mag := (magnetic nx ny nz e hs).
Notation elec := (electric nx ny nz es eps).
Notation pol := (polarization nx ny nz es L T gam DT).
Notation gE st := (ge e axes es (ef st)).
Notation gH st := (gh e axes hs (hf st)).
(** No current where there is no dispersion. *)
Definition still (st : rst) : Prop := forall a l i, has es a = true -> (l < L)%nat -> gam a l i = 0 -> st (rfield a l) i = 0.

Lemma de_h st st' : step st st' -> forall a i, has hs a = true -> st' (hfield a) i = st (hfield a) i - m a i * curl (gE st) a i.
Proof. intros (H & _) a i Ha. rewrite (H a i Ha), undamp by exact Hu. unfold new_h. rewrite (em_curl_e e c Hu). reflexivity. Qed.
Lemma de_e st st' : step st st' -> forall a i, has es a = true ->
  eps a i * (st' (efield a) i - st (efield a) i) + DT * sigma a i * (st' (efield a) i + st (efield a) i) / 2 = curl (gH st') a i - DT * sum_mech (fun l => st' (rfield a l) i).
Proof.
  intros S1 a i Ha. pose proof S1 as (Hh & _ & H & _). destruct (H a i Ha) as (x & Ex & E). rewrite undamp in Ex by exact Hu. rewrite Ex, E.
  assert (EE : forall a d, grad_h e c st axes es hs a d i = gh e axes hs (hf st') a d i).
  { intros a' d. unfold grad_h, gh, hf. destruct (has hs a' && has axes d) eqn:X; [|reflexivity]. rewrite plain0 by exact Hu. apply D_eq. intros j.
    apply Bool.andb_true_iff in X. destruct X as (X & _). rewrite (Hh a' j X), undamp by exact Hu. reflexivity. }
  unfold curl. rewrite !EE. reflexivity.
Qed.
Lemma de_r st st' : step st st' -> forall a l i, has es a = true -> (l < L)%nat ->
  T l * (st' (rfield a l) i - st (rfield a l) i) = - DT * (st' (rfield a l) i + st (rfield a l) i) / 2 - DT * (gam a l i * st (efield a) i).
Proof. intros (_ & H & _) a l i Ha Hl. apply H; assumption. Qed.
Lemma still_next st st' : step st st' -> still st -> still st'.
Proof.
  intros S1 H a l i Ha Hl G0. pose proof (de_r st st' S1 a l i Ha Hl) as E. rewrite (H a l i Ha Hl G0), G0 in E. pose proof (HT l Hl).
  assert (X : (T l + DT / 2) * st' (rfield a l) i = 0) by lra. apply Rmult_integral in X. destruct X as [X|X]; [lra|exact X].
Qed.

Lemma de_energy st st1 st2 : step st st1 -> step st1 st2 -> still st ->
  mag st1 st2 + elec st1 + pol st1 st2 = mag st st1 + elec st + pol st st1 - ohmic_loss nx ny nz es sig0 DT st st1 - relaxation_loss nx ny nz es L T gam DT st st2.
Proof.
  intros S1 S2 Q0. pose proof (still_next _ _ S1 Q0) as Q1. pose proof (still_next _ _ S2 Q1) as Q2.
  pose proof (curls e c useVar hybrid nx ny nz p rest DH fuel k cv g HM axes es hs Hg Hax Hm eps T He (fun a i => ef st a i + ef st1 a i) (hf st1)) as C.
  assert (KM : mag st1 st2 = mag st st1 - sum_axes hs (fun a => gs (fun i => hf st1 a i * curl (ge e axes es (fun a i => ef st a i + ef st1 a i)) a i))).
  { unfold magnetic, sum_axes. unfold Rminus. rewrite opp1, <- Rsum_map_mul, <- Rsum_map_add. apply Rsum_map_ext. intros a Ha. pose proof (in_has _ _ Ha) as Ha'.
    rewrite <- gs_mul, <- gs_add. apply gext. intros x y z Hi. pose proof (Hm a x y z Ha' Hi).
    rewrite (de_h st1 st2 S2 a _ Ha'). pose proof (de_h st st1 S1 a (ri x y z) Ha') as E. unfold hf.
    unfold curl in *. rewrite !ge_add. set (p0 := ge e axes es (ef st) _ (next a) _) in *. set (p1 := ge e axes es (ef st) (next a) _ _) in *. set (q0 := ge e axes es (ef st1) _ (next a) _) in *. set (q1 := ge e axes es (ef st1) (next a) _ _) in *.
    assert (E' : st (hfield a) (ri x y z) = st1 (hfield a) (ri x y z) + m a (ri x y z) * (p0 - p1)) by lra. rewrite E'. field. lra. }
  assert (KE : elec st1 + pol st1 st2 + ohmic_loss nx ny nz es sig0 DT st st1 + relaxation_loss nx ny nz es L T gam DT st st2 = elec st + pol st st1 + sum_axes es (fun a => gs (fun i => (ef st a i + ef st1 a i) * curl (gH st1) a i))).
  { unfold electric, ohmic_loss, polarization, relaxation_loss, sum_axes. rewrite <- !Rsum_map_add. apply Rsum_map_ext. intros a Ha. pose proof (in_has _ _ Ha) as Ha'.
    rewrite <- !gs_add. apply gext. intros x y z Hi. pose proof (de_e st st1 S1 a (ri x y z) Ha') as E. rewrite Hsig in E. unfold ef.
    set (i := ri x y z) in *. set (e0 := st (efield a) i) in *. set (e1 := st1 (efield a) i) in *.
    set (pl := fun s s' l => T l / gam a l i * ((1 / 2 - DT / (4 * T l)) * (s (rfield a l) i * s (rfield a l) i) + (1 / 2 + DT / (4 * T l)) * (s' (rfield a l) i * s' (rfield a l) i))).
    set (ls := fun l => (T l * T l - DT * DT / 4) / (2 * DT * gam a l i) * ((st2 (rfield a l) i - st (rfield a l) i) * (st2 (rfield a l) i - st (rfield a l) i))).
    assert (K : DT * (e0 + e1) * (sum_mech (fun l => gam a l i) * ((e0 + e1) / 2) + sum_mech (fun l => st1 (rfield a l) i)) = sum_mech (pl st1 st2) - sum_mech (pl st st1) + sum_mech ls).
    { transitivity (sum_mech (fun l => DT * (e0 + e1) * (gam a l i * ((e0 + e1) / 2) + st1 (rfield a l) i))).
      - rewrite Rsum_map_mul. f_equal. rewrite Rsum_map_add. f_equal. rewrite (Rmult_comm (sum_mech _)), <- Rsum_map_mul. apply Rsum_map_ext. intros; apply Rmult_comm.
      - unfold Rminus. rewrite opp1, <- Rsum_map_mul, <- !Rsum_map_add. apply Rsum_map_ext. intros l Hl. apply in_seq in Hl. assert (Hl' : (l < L)%nat) by lia.
        rewrite (mech_point (T l) (gam a l i) DT e0 e1 (st (rfield a l) i) (st1 (rfield a l) i) (st2 (rfield a l) i) (HT l Hl') HD); [unfold pl, ls; ring| |apply de_r; assumption|apply de_r; assumption].
        destruct (Req_dec (gam a l i) 0) as [G0|G0]; [right|left; exact G0]. repeat split; [apply Q0|apply Q1|apply Q2|]; assumption. }
    fold (pl st1 st2) (pl st st1) ls.
    set (G := sum_mech (fun l => gam a l i)) in *. set (Rr := sum_mech (fun l => st1 (rfield a l) i)) in *. set (P1 := sum_mech (pl st1 st2)) in *. set (P0 := sum_mech (pl st st1)) in *. set (Ls := sum_mech ls) in *.
    set (cu := curl (gH st1) a i) in *. assert (E' : cu = eps a i * (e1 - e0) + DT * (sig0 a i + G) * (e1 + e0) / 2 + DT * Rr) by lra. rewrite E'.
    assert (K' : P1 = P0 - Ls + DT * (e0 + e1) * (G * ((e0 + e1) / 2) + Rr)) by lra. rewrite K'. field. }
  rewrite KM, C. lra.
Qed.
Hypothesis H2 : forall l, (l < L)%nat -> DT <= 2 * T l.
Lemma w_pos l : (l < L)%nat -> 0 <= 1 / 2 - DT / (4 * T l).
Proof.
  intros Hl. pose proof (HT l Hl). pose proof (H2 l Hl). assert (DT / (4 * T l) <= 1 / 2); [|lra]. apply (Rmult_le_reg_r (4 * T l)); [lra|]. replace (DT / (4 * T l) * (4 * T l)) with DT by (field; lra). lra.
Qed.
Lemma pol_term st st' a l i : (l < L)%nat -> has es a = true -> still st -> still st' -> T l * (st' (rfield a l) i * st' (rfield a l) i) <= 2 * gam a l i *
  (T l / gam a l i * ((1 / 2 - DT / (4 * T l)) * (st (rfield a l) i * st (rfield a l) i) + (1 / 2 + DT / (4 * T l)) * (st' (rfield a l) i * st' (rfield a l) i))) /\
  0 <= T l / gam a l i * ((1 / 2 - DT / (4 * T l)) * (st (rfield a l) i * st (rfield a l) i) + (1 / 2 + DT / (4 * T l)) * (st' (rfield a l) i * st' (rfield a l) i)).
Proof.
  intros Hl Ha Q Q'. pose proof (HT l Hl) as T0. pose proof (w_pos l Hl) as W0. pose proof (Hgam a l i Hl) as G0.
  set (u := st (rfield a l) i). set (v := st' (rfield a l) i).
  assert (U0 : 0 <= u * u) by apply Rle_0_sqr. assert (V0 : 0 <= v * v) by apply Rle_0_sqr. assert (D0 : 0 < DT / (4 * T l)) by (apply Rdiv_lt_0_compat; lra).
  set (w := DT / (4 * T l)) in *. assert (X : 0 <= (1 / 2 - w) * (u * u)) by (apply Rmult_le_pos; assumption). assert (Y : 0 <= w * (v * v)) by (apply Rmult_le_pos; lra).
  destruct (Req_dec (gam a l i) 0) as [E|E].
  - assert (Eu : u = 0) by (apply Q; assumption). assert (Ev : v = 0) by (apply Q'; assumption). rewrite Eu, Ev. split; lra.
  - split.
    + replace (2 * gam a l i * (T l / gam a l i * ((1 / 2 - w) * (u * u) + (1 / 2 + w) * (v * v)))) with (T l * (2 * ((1 / 2 - w) * (u * u)) + (1 + 2 * w) * (v * v))) by (field; exact E).
      apply Rmult_le_compat_l; lra.
    + apply Rmult_le_pos; [apply Rle_mult_inv_pos; lra|lra].
Qed.
Lemma pol_pos st st' : still st -> still st' -> 0 <= pol st st'.
Proof.
  intros Q Q'. unfold polarization, sum_axes. apply Rsum_map_pos. intros a Ha. apply gpos. intros x y z Hi. apply Rsum_map_pos. intros l Hl. apply in_seq in Hl.
  apply pol_term; [lia|apply in_has, Ha|exact Q|exact Q'].
Qed.
Lemma pol_point st st' a l x y z : In a es -> (l < L)%nat -> ins x y z -> still st -> still st' ->
  T l * (st' (rfield a l) (ri x y z) * st' (rfield a l) (ri x y z)) <= 2 * gam a l (ri x y z) * pol st st'.
Proof.
  intros Ha Hl Hi Q Q'. eapply Rle_trans; [apply (pol_term st st' a l (ri x y z) Hl (in_has _ _ Ha) Q Q')|].
  apply Rmult_le_compat_l; [pose proof (Hgam a l (ri x y z) Hl); lra|]. set (f := fun a i l => T l / gam a l i * ((1 / 2 - DT / (4 * T l)) * (st (rfield a l) i * st (rfield a l) i) + (1 / 2 + DT / (4 * T l)) * (st' (rfield a l) i * st' (rfield a l) i))).
  assert (P : forall a i l, In a es -> In l (seq 0 L) -> 0 <= f a i l) by (intros a' i' l' Ha' Hl'; apply in_seq in Hl'; apply pol_term; [lia|apply in_has, Ha'|exact Q|exact Q']).
  change (f a (ri x y z) l <= sum_axes es (fun a => gs (fun i => sum_mech (f a i)))).
  apply Rle_trans with (sum_mech (f a (ri x y z))); [apply (Rsum_point (seq 0 L) (f a (ri x y z))); [intros; apply P; assumption|apply in_seq; lia]|].
  assert (P2 : forall a i, In a es -> 0 <= sum_mech (f a i)) by (intros; apply Rsum_map_pos; intros; apply P; assumption).
  eapply Rle_trans; [apply (gpoint nx ny nz (fun i => sum_mech (f a i)) x y z); [intros; apply P2, Ha|exact Hi]|].
  unfold sum_axes. apply (Rsum_point es (fun a => gs (fun i => sum_mech (f a i)))); [|exact Ha]. intros a' Ha'. apply gpos. intros. apply P2, Ha'.
Qed.
Lemma loss_pos st st'' : 0 <= relaxation_loss nx ny nz es L T gam DT st st''.
Proof.
  unfold relaxation_loss, sum_axes. apply Rsum_map_pos. intros a Ha. apply gpos. intros x y z Hi. apply Rsum_map_pos. intros l Hl. apply in_seq in Hl. assert (Hl' : (l < L)%nat) by lia.
  pose proof (HT l Hl') as T0. pose proof (H2 l Hl') as D2. pose proof (Hgam a l (ri x y z) Hl') as G0. apply Rmult_le_pos; [|apply Rle_0_sqr].
  assert (N0 : 0 <= T l * T l - DT * DT / 4) by (assert (DT / 2 * (DT / 2) <= T l * T l) by (apply Rmult_le_compat; lra); lra).
  destruct (Req_dec (gam a l (ri x y z)) 0) as [E|E]; [rewrite E, Rmult_0_r; unfold Rdiv; rewrite Rinv_0; lra|].
  apply Rle_mult_inv_pos; [exact N0|]. apply Rmult_lt_0_compat; lra.
Qed.

(** ** the energy norm *)
Hypothesis Hp : supported p.
Variables (mmax emin : R).
Hypothesis Hmm : forall a x y z, has hs a = true -> ins x y z -> m a (ri x y z) <= mmax.
Hypothesis Hmm0 : 0 <= mmax.
Hypothesis Hem0 : 0 < emin.
Hypothesis Hem : forall a x y z, has es a = true -> ins x y z -> emin <= eps a (ri x y z).
Notation B2 := ((2 * fd_h p * k) * (2 * fd_h p * k)).
Notation th := (em_th p k axes mmax emin).
Lemma de_inc st st' : step st st' -> mag_inc e nx ny nz hs st st' <= 4 * th * elec st.
Proof.
  intros S1. apply Rle_trans with (mmax * sum_axes hs (fun a => gs (fun i => curl (gE st) a i * curl (gE st) a i))).
  - unfold mag_inc, sum_axes. rewrite <- Rsum_map_mul. apply Rsum_map_le. intros a Ha. pose proof (in_has _ _ Ha) as Ha'. rewrite <- gs_mul. apply gle. intros x y z Hi.
    pose proof (Hm a x y z Ha' Hi). pose proof (Hmm a x y z Ha' Hi). rewrite (de_h st st' S1 a _ Ha'). set (q := curl _ _ _).
    replace ((st (hfield a) (ri x y z) - m a (ri x y z) * q - st (hfield a) (ri x y z)) * (st (hfield a) (ri x y z) - m a (ri x y z) * q - st (hfield a) (ri x y z)) / m a (ri x y z)) with (m a (ri x y z) * (q * q)) by (field; lra).
    apply Rmult_le_compat_r; nra.
  - apply Rle_trans with (mmax * (INR (length axes) * B2 * (/ emin * elec st))).
    + apply Rmult_le_compat_l; [exact Hmm0|]. eapply Rle_trans; [apply (curl_norm e c useVar hybrid nx ny nz p rest DH fuel k cv g HM axes es hs Hg Hax Hm eps T He Hp)|]. apply Rmult_le_compat_l; [apply Rmult_le_pos; [apply pos_INR|nra]|].
      unfold electric, sum_axes. rewrite <- Rsum_map_mul. apply Rsum_map_le. intros a Ha. pose proof (in_has _ _ Ha) as Ha'. rewrite <- gs_mul. apply gle. intros x y z Hi.
      pose proof (Hem a x y z Ha' Hi). unfold ef. set (q := st _ _). apply (Rmult_le_reg_l emin); [exact Hem0|]. replace (emin * (/ emin * (eps a (ri x y z) * (q * q)))) with (eps a (ri x y z) * (q * q)) by (field; lra).
      apply Rmult_le_compat_r; [nra|assumption].
    + apply Req_le. unfold em_th. field. lra.
Qed.
Lemma de_bound st st' : step st st' -> th < 1 ->
  (1 - th) * elec st <= mag st st' + elec st /\ (1 - th) * mag st' st' <= 2 * (mag st st' + elec st).
Proof.
  intros S1 Ht. pose proof (em_th_pos p k axes mmax emin Hmm0 Hem0). apply (leap_bound _ _ (mag_mean e nx ny nz hs st st') (mag_inc e nx ny nz hs st st')).
  - rewrite (mag_split e nx ny nz hs Hm). lra.
  - apply (mag_mean_pos e nx ny nz hs Hm).
  - apply de_inc, S1.
  - apply (elec_pos nx ny nz es eps He).
  - lra.
  - apply (mag_next e nx ny nz hs Hm).
Qed.
End debye.
