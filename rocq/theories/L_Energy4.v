(** Energy balance and energy norm of the electromagnetic schemes. *)
From Coq Require Import QArith Qreals Reals Lra.
From Verif Require Import M_Grid M_Deriv S_Deriv L_Deriv L_Deriv2 M_Prog M_Solvers M_Env S_Solver S_Step S_Check S_Energy L_Prog L_Lin L_Src L_Surface L_Leap L_Leap2 L_Diff L_Energy.
Open Scope R_scope.
Open Scope list_scope.

Section maxwell.
Variables (e : env R_arith) (c : cfg) (useVar hybrid : bool) (nx ny nz p : Z) (rest : list Z) (DH : Q) (fuel : nat)
  (k : R) (cv : Q -> R) (g : grid).
Hypothesis HM : @fd_matrices R_arith e c true useVar hybrid nx ny nz p rest DH fuel (fun q => Q2R q * k) cv g.
Hypothesis Hu : undamped c.
Notation gs := (grid_sum nx ny nz).
Notation ri := (reg_index nx nz).
Notation D := (Dmv e "").
Notation ins := (inside nx ny nz).
Notation rst := (state R_arith).
Variables (axes es hs : list axis).
Hypothesis Hg : em_geometry axes es hs.
Hypothesis Hax : forall a, In a axes -> ax_ok nz a.
Notation m a := (e_coef e (inv_mu a)).
Hypothesis Hm : forall a x y z, has hs a = true -> ins x y z -> 0 < m a (ri x y z).
Variables (eps sigma : axis -> Z -> R) (tau : nat -> R) (gam : axis -> nat -> Z -> R) (DT : R).
Hypothesis He : forall a x y z, has es a = true -> ins x y z -> 0 < eps a (ri x y z).
Notation step st st' := (maxwell_step e c st axes es hs eps sigma 0 tau gam DT st').
Notation mag := (magnetic nx ny nz e hs).
Notation elec := (electric nx ny nz es eps).

(** ** magnetic energy *)
Definition mag_mean (st st' : rst) : R := sum_axes hs (fun a => gs (fun i => ((st (hfield a) i + st' (hfield a) i) / 2) * ((st (hfield a) i + st' (hfield a) i) / 2) / m a i)).
Definition mag_inc (st st' : rst) : R := sum_axes hs (fun a => gs (fun i => (st' (hfield a) i - st (hfield a) i) * (st' (hfield a) i - st (hfield a) i) / m a i)).
Lemma mag_mean_pos st st' : 0 <= mag_mean st st'.
Proof. unfold mag_mean, sum_axes. apply Rsum_map_pos. intros a Ha. apply gpos. intros x y z Hi. apply sq_div, Hm; [apply in_has, Ha|exact Hi]. Qed.
Lemma mag_split st st' : mag st st' = mag_mean st st' - mag_inc st st' / 4.
Proof.
  unfold magnetic, mag_mean, mag_inc, sum_axes.
  transitivity (Rsum (map (fun a => gs (fun i => ((st (hfield a) i + st' (hfield a) i) / 2) * ((st (hfield a) i + st' (hfield a) i) / 2) / m a i)) hs) +
    Rsum (map (fun a => -(1/4) * gs (fun i => (st' (hfield a) i - st (hfield a) i) * (st' (hfield a) i - st (hfield a) i) / m a i)) hs)).
  2:{ rewrite Rsum_map_mul. lra. }
  rewrite <- Rsum_map_add. apply Rsum_map_ext. intros a Ha. rewrite <- gs_mul, <- gs_add. apply gext. intros x y z Hi.
  pose proof (Hm a x y z (in_has _ _ Ha) Hi). field. lra.
Qed.
Lemma mag_next st st' : mag st' st' <= 2 * mag_mean st st' + mag_inc st st' / 2.
Proof.
  unfold magnetic, mag_mean, mag_inc, sum_axes.
  apply Rle_trans with (Rsum (map (fun a => 2 * gs (fun i => ((st (hfield a) i + st' (hfield a) i) / 2) * ((st (hfield a) i + st' (hfield a) i) / 2) / m a i)) hs) +
    Rsum (map (fun a => 1/2 * gs (fun i => (st' (hfield a) i - st (hfield a) i) * (st' (hfield a) i - st (hfield a) i) / m a i)) hs)).
  2:{ rewrite !Rsum_map_mul. lra. }
  rewrite <- Rsum_map_add. apply Rsum_map_le. intros a Ha. rewrite <- !gs_mul, <- gs_add. apply gle. intros x y z Hi.
  pose proof (Hm a x y z (in_has _ _ Ha) Hi) as Hp. unfold Rdiv. pose proof (Rinv_0_lt_compat _ Hp).
  set (w := / _) in *. clearbody w. set (u := st _ _). set (v := st' _ _). clearbody u v.
  replace (2 * ((u + v) * / 2 * ((u + v) * / 2) * w) + 1 * / 2 * ((v - u) * (v - u) * w)) with ((u * u + v * v) * w) by field.
  apply Rmult_le_compat_r; nra.
Qed.

(** ** the two curls are adjoint *)
Definition ge (U : axis -> Z -> R) (a d : axis) (i : Z) : R := if has es a && has axes d then D d false (U a) i else 0.
Definition gh (V : axis -> Z -> R) (a d : axis) (i : Z) : R := if has hs a && has axes d then D d true (V a) i else 0.
Definition ef (st : rst) a := st (efield a).
Definition hf (st : rst) a := st (hfield a).
Lemma curls U V : sum_axes hs (fun a => gs (fun i => V a i * curl (ge U) a i)) = sum_axes es (fun a => gs (fun i => U a i * curl (gh V) a i)).
Proof.
  assert (A : forall d a b, In d axes -> gs (fun i => V a i * D d false (U b) i) = - gs (fun i => U b i * D d true (V a) i)).
  { intros d a b Hd. rewrite <- (adj e c useVar hybrid nx ny nz p rest DH fuel k cv g HM d _ _ (Hax d Hd)). apply gext. intros. apply Rmult_comm. }
  assert (Z0 : forall f : Z -> R, gs (fun i => f i * 0) = 0) by (intros f; rewrite (gext nx ny nz _ (fun _ => 0)) by (intros; lra); apply gs_0).
  assert (B : forall W (f h : Z -> R), gs (fun i => W i * (f i - h i)) = gs (fun i => W i * f i) - gs (fun i => W i * h i)).
  { intros W f h. rewrite <- gs_sub. apply gext. intros; lra. }
  unfold sum_axes, curl, ge, gh. 
  destruct Hg as [(E1 & E2 & E3)|[(E1 & E2 & E3)|(E1 & E2 & E3)]]; rewrite E1, E2, E3 in *; cbn [map Rsum fold_right next has existsb axis_eqb orb andb];
    rewrite !B, ?Z0, !A by (rewrite ?E1; cbn; tauto); lra.
Qed.

Lemma em_curl_e st a i : curl (grad_e e c st axes es) a i = curl (ge (ef st)) a i.
Proof.
  assert (E : forall a d, grad_e e c st axes es a d i = ge (ef st) a d i).
  { intros a' d. unfold grad_e, ge, ef. destruct (has es a' && has axes d); [|reflexivity]. apply plain0, Hu. }
  unfold curl. rewrite !E. reflexivity.
Qed.
Lemma em_h st st' : step st st' -> forall a i, has hs a = true -> st' (hfield a) i = st (hfield a) i - m a i * curl (ge (ef st)) a i.
Proof. intros (H & _) a i Ha. rewrite (H a i Ha), undamp by exact Hu. unfold new_h. rewrite em_curl_e. reflexivity. Qed.
Lemma em_e st st' : step st st' -> forall a i, has es a = true ->
  eps a i * (st' (efield a) i - st (efield a) i) + DT * sigma a i * (st' (efield a) i + st (efield a) i) / 2 = curl (gh (hf st')) a i.
Proof.
  intros S1 a i Ha. pose proof S1 as (Hh & _ & H & _). destruct (H a i Ha) as (x & Ex & E). rewrite undamp in Ex by exact Hu. rewrite Ex, E. cbn [seq map Rsum fold_right].
  change (Rsum []) with 0. rewrite Rmult_0_r, Rminus_0_r.
  assert (EE : forall a d, grad_h e c st axes es hs a d i = gh (hf st') a d i).
  { intros a' d. unfold grad_h, gh, hf. destruct (has hs a' && has axes d) eqn:X; [|reflexivity]. rewrite plain0 by exact Hu. apply D_eq. intros j.
    apply Bool.andb_true_iff in X. destruct X as (X & _). rewrite (Hh a' j X), undamp by exact Hu. reflexivity. }
  unfold curl. rewrite !EE. reflexivity.
Qed.
Lemma ge_add U V a d i : ge (fun a j => U a j + V a j) a d i = ge U a d i + ge V a d i.
Proof. unfold ge. destruct (has es a && has axes d); [apply D_add|lra]. Qed.
Lemma em_energy st st1 st2 : step st st1 -> step st1 st2 ->
  mag st1 st2 + elec st1 = mag st st1 + elec st - ohmic_loss nx ny nz es sigma DT st st1.
Proof.
  intros S1 S2. pose proof (curls (fun a i => ef st a i + ef st1 a i) (hf st1)) as C.
  assert (KM : mag st1 st2 = mag st st1 - sum_axes hs (fun a => gs (fun i => hf st1 a i * curl (ge (fun a i => ef st a i + ef st1 a i)) a i))).
  { unfold magnetic, sum_axes. unfold Rminus. rewrite opp1, <- Rsum_map_mul, <- Rsum_map_add. apply Rsum_map_ext. intros a Ha. pose proof (in_has _ _ Ha) as Ha'.
    rewrite <- gs_mul, <- gs_add. apply gext. intros x y z Hi. pose proof (Hm a x y z Ha' Hi).
    rewrite (em_h st1 st2 S2 a _ Ha'). pose proof (em_h st st1 S1 a (ri x y z) Ha') as E. unfold hf.
    unfold curl in *. rewrite !ge_add. set (p0 := ge (ef st) _ (next a) _) in *. set (p1 := ge (ef st) (next a) _ _) in *. set (q0 := ge (ef st1) _ (next a) _) in *. set (q1 := ge (ef st1) (next a) _ _) in *.
    assert (E' : st (hfield a) (ri x y z) = st1 (hfield a) (ri x y z) + m a (ri x y z) * (p0 - p1)) by lra. rewrite E'. field. lra. }
  assert (KE : elec st1 = elec st + sum_axes es (fun a => gs (fun i => (ef st a i + ef st1 a i) * curl (gh (hf st1)) a i)) - ohmic_loss nx ny nz es sigma DT st st1).
  { unfold electric, ohmic_loss, sum_axes. unfold Rminus. rewrite opp1, <- Rsum_map_mul, <- !Rsum_map_add. apply Rsum_map_ext. intros a Ha. pose proof (in_has _ _ Ha) as Ha'.
    rewrite <- gs_mul, <- !gs_add. apply gext. intros x y z Hi. rewrite <- (em_e st st1 S1 a _ Ha'). unfold ef. field. }
  rewrite KM, KE, C. lra.
Qed.
Lemma elec_pos st : 0 <= elec st.
Proof.
  unfold electric, sum_axes. apply Rsum_map_pos. intros a Ha. apply gpos. intros x y z Hi. pose proof (He a x y z (in_has _ _ Ha) Hi).
  apply Rmult_le_pos; [lra|apply Rle_0_sqr].
Qed.
Lemma ohmic_pos st st' : 0 <= DT -> (forall a x y z, has es a = true -> ins x y z -> 0 <= sigma a (ri x y z)) -> 0 <= ohmic_loss nx ny nz es sigma DT st st'.
Proof.
  intros HD Hs. unfold ohmic_loss, sum_axes. apply Rsum_map_pos. intros a Ha. apply gpos. intros x y z Hi. pose proof (Hs a x y z (in_has _ _ Ha) Hi).
  apply Rmult_le_pos; [|apply Rle_0_sqr]. apply Rmult_le_pos; [lra|assumption].
Qed.

(** ** the energy norm *)
Hypothesis Hp : supported p.
Notation B2 := ((2 * fd_h p * k) * (2 * fd_h p * k)).
Lemma curl_norm U : sum_axes hs (fun a => gs (fun i => curl (ge U) a i * curl (ge U) a i)) <= INR (length axes) * B2 * sum_axes es (fun a => gs (fun i => U a i * U a i)).
Proof.
  assert (Bd : forall hb d a, In d axes -> gs (fun i => D d hb (U a) i * D d hb (U a) i) <= B2 * gs (fun i => U a i * U a i)).
  { intros hb d a Hd. apply (bound e c useVar hybrid nx ny nz p rest DH fuel k cv g HM d _ _ Hp (Hax d Hd)). }
  assert (sq2 : forall a b : R, (a - b) * (a - b) <= 2 * (a * a) + 2 * (b * b)) by (intros; pose proof (Rle_0_sqr (a + b)); unfold Rsqr in *; lra).
    assert (cross : forall d d', d <> d' -> In d axes -> In d' axes -> gs (fun i => D d false (U d') i * D d' false (U d) i) = gs (fun i => D d true (U d) i * D d' true (U d') i)).
    { intros d d' Hn Hd Hd'. rewrite (adj e c useVar hybrid nx ny nz p rest DH fuel k cv g HM d (U d') (D d' false (U d)) (Hax d Hd)).
      rewrite (gext nx ny nz (fun i => D d true (U d) i * D d' true (U d') i) (fun i => D d' true (U d') i * D d true (U d) i)) by (intros; lra).
      rewrite (adj' e c useVar hybrid nx ny nz p rest DH fuel k cv g HM d' (U d') (D d true (U d)) (Hax d' Hd')). f_equal. apply gext. intros x0 y0 z0 Hi. f_equal.
      apply (commute e c useVar hybrid nx ny nz p rest DH fuel k cv g HM); auto. }
  unfold sum_axes, curl, ge.
  destruct Hg as [(E1 & E2 & E3)|[(E1 & E2 & E3)|(E1 & E2 & E3)]]; rewrite E1, E2, E3 in *; cbn [map Rsum fold_right next has existsb axis_eqb orb andb length INR].
  - apply Rle_trans with (2 * gs (fun i => D AX false (U AY) i * D AX false (U AY) i) + 2 * gs (fun i => D AY false (U AX) i * D AY false (U AX) i)).
    + rewrite Rplus_0_r. rewrite <- !gs_mul, <- gs_add. apply gle. intros. apply sq2.
    + pose proof (Bd false AX AY ltac:(cbn; tauto)). pose proof (Bd false AY AX ltac:(cbn; tauto)). lra.
  - rewrite (gext nx ny nz _ (fun i => D AY false (U AZ) i * D AY false (U AZ) i)) by (intros; lra).
    rewrite (gext nx ny nz (fun i => (0 - _) * _) (fun i => D AX false (U AZ) i * D AX false (U AZ) i)) by (intros; lra).
    pose proof (Bd false AX AZ ltac:(cbn; tauto)). pose proof (Bd false AY AZ ltac:(cbn; tauto)). lra.
  - set (X := D AY false (U AZ)). set (X' := D AZ false (U AY)). set (Y := D AZ false (U AX)). set (Y' := D AX false (U AZ)). set (Z := D AX false (U AY)). set (Z' := D AY false (U AX)).
    set (x := D AX true (U AX)). set (y := D AY true (U AY)). set (z := D AZ true (U AZ)).
    pose proof (cross AY AZ ltac:(discriminate) ltac:(cbn; tauto) ltac:(cbn; tauto)) as C1.
    pose proof (cross AZ AX ltac:(discriminate) ltac:(cbn; tauto) ltac:(cbn; tauto)) as C2.
    pose proof (cross AX AY ltac:(discriminate) ltac:(cbn; tauto) ltac:(cbn; tauto)) as C3.
    fold X X' Y Y' Z Z' x y z in C1, C2, C3.
    assert (sub2 : forall f h, gs (fun i => (f i - h i) * (f i - h i)) = gs (fun i => f i * f i) + gs (fun i => h i * h i) - 2 * gs (fun i => f i * h i)).
    { intros f h. rewrite <- gs_mul, <- gs_add, <- gs_sub. apply gext. intros; lra. }
    rewrite !sub2, C1, C2, C3.
    assert (dv : 0 <= gs (fun i => x i * x i) + gs (fun i => y i * y i) + gs (fun i => z i * z i) + 2 * gs (fun i => y i * z i) + 2 * gs (fun i => z i * x i) + 2 * gs (fun i => x i * y i)).
    { rewrite <- !gs_mul, <- !gs_add. apply gpos. intros x0 y0 z0 _. pose proof (Rle_0_sqr (x (ri x0 y0 z0) + y (ri x0 y0 z0) + z (ri x0 y0 z0))). unfold Rsqr in *. lra. }
    pose proof (Bd false AY AZ ltac:(cbn; tauto)). pose proof (Bd false AZ AY ltac:(cbn; tauto)). pose proof (Bd false AZ AX ltac:(cbn; tauto)).
    pose proof (Bd false AX AZ ltac:(cbn; tauto)). pose proof (Bd false AX AY ltac:(cbn; tauto)). pose proof (Bd false AY AX ltac:(cbn; tauto)).
    pose proof (Bd true AX AX ltac:(cbn; tauto)). pose proof (Bd true AY AY ltac:(cbn; tauto)). pose proof (Bd true AZ AZ ltac:(cbn; tauto)).
    subst X X' Y Y' Z Z' x y z. lra.
Qed.
Variables (mmax emin : R).
Hypothesis Hmm : forall a x y z, has hs a = true -> ins x y z -> m a (ri x y z) <= mmax.
Hypothesis Hmm0 : 0 <= mmax.
Hypothesis Hem0 : 0 < emin.
Hypothesis Hem : forall a x y z, has es a = true -> ins x y z -> emin <= eps a (ri x y z).
Definition em_th : R := INR (length axes) * ((fd_h p * k) * (fd_h p * k)) * (mmax / emin).
Lemma em_th_pos : 0 <= em_th.
Proof. unfold em_th. apply Rmult_le_pos; [apply Rmult_le_pos; [apply pos_INR|nra]|apply Rle_mult_inv_pos; lra]. Qed.
Lemma em_inc st st' : step st st' -> mag_inc st st' <= 4 * em_th * elec st.
Proof.
  intros S1. apply Rle_trans with (mmax * sum_axes hs (fun a => gs (fun i => curl (ge (ef st)) a i * curl (ge (ef st)) a i))).
  - unfold mag_inc, sum_axes. rewrite <- Rsum_map_mul. apply Rsum_map_le. intros a Ha. pose proof (in_has _ _ Ha) as Ha'. rewrite <- gs_mul. apply gle. intros x y z Hi.
    pose proof (Hm a x y z Ha' Hi). pose proof (Hmm a x y z Ha' Hi). rewrite (em_h st st' S1 a _ Ha'). set (q := curl _ _ _).
    replace ((st (hfield a) (ri x y z) - m a (ri x y z) * q - st (hfield a) (ri x y z)) * (st (hfield a) (ri x y z) - m a (ri x y z) * q - st (hfield a) (ri x y z)) / m a (ri x y z)) with (m a (ri x y z) * (q * q)) by (field; lra).
    apply Rmult_le_compat_r; nra.
  - apply Rle_trans with (mmax * (INR (length axes) * B2 * (/ emin * elec st))).
    + apply Rmult_le_compat_l; [exact Hmm0|]. eapply Rle_trans; [apply curl_norm|]. apply Rmult_le_compat_l; [apply Rmult_le_pos; [apply pos_INR|nra]|].
      unfold electric, sum_axes. rewrite <- Rsum_map_mul. apply Rsum_map_le. intros a Ha. pose proof (in_has _ _ Ha) as Ha'. rewrite <- gs_mul. apply gle. intros x y z Hi.
      pose proof (Hem a x y z Ha' Hi). unfold ef. set (q := st _ _). apply (Rmult_le_reg_l emin); [exact Hem0|]. replace (emin * (/ emin * (eps a (ri x y z) * (q * q)))) with (eps a (ri x y z) * (q * q)) by (field; lra).
      apply Rmult_le_compat_r; [nra|assumption].
    + apply Req_le. unfold em_th. field. lra.
Qed.
Lemma em_bound st st' : step st st' -> em_th < 1 ->
  (1 - em_th) * elec st <= mag st st' + elec st /\ (1 - em_th) * mag st' st' <= 2 * (mag st st' + elec st).
Proof.
  intros S1 Ht. pose proof em_th_pos. apply (leap_bound _ _ (mag_mean st st') (mag_inc st st')).
  - rewrite mag_split. lra.
  - apply mag_mean_pos.
  - apply em_inc, S1.
  - apply elec_pos.
  - lra.
  - apply mag_next.
Qed.
Lemma mag_point st a x y z : In a hs -> ins x y z -> st (hfield a) (ri x y z) * st (hfield a) (ri x y z) <= mmax * mag st st.
Proof.
  intros Ha Hi. pose proof (Hm a x y z (in_has _ _ Ha) Hi) as B0. pose proof (Hmm a x y z (in_has _ _ Ha) Hi) as B1.
  eapply Rle_trans; [apply (sq_le_div _ _ mmax B0 B1)|]. apply Rmult_le_compat_l; [lra|]. unfold magnetic, sum_axes.
  assert (P : forall a x y z, In a hs -> ins x y z -> 0 <= st (hfield a) (ri x y z) * st (hfield a) (ri x y z) / m a (ri x y z)) by (intros; apply sq_div, Hm; [apply in_has|]; assumption).
  eapply Rle_trans; [apply (gpoint nx ny nz (fun i => st (hfield a) i * st (hfield a) i / m a i) x y z); [intros; apply P; assumption|exact Hi]|].
  apply (Rsum_point hs (fun a => gs (fun i => st (hfield a) i * st (hfield a) i / m a i))); [|exact Ha]. intros a' Ha'. apply gpos. intros. apply P; assumption.
Qed.
Lemma elec_point st a x y z : In a es -> ins x y z -> emin * (st (efield a) (ri x y z) * st (efield a) (ri x y z)) <= elec st.
Proof.
  intros Ha Hi. pose proof (Hem a x y z (in_has _ _ Ha) Hi) as B0.
  assert (P : forall a x y z, In a es -> ins x y z -> 0 <= eps a (ri x y z) * (st (efield a) (ri x y z) * st (efield a) (ri x y z))).
  { intros a' x' y' z' Ha' Hi'. pose proof (He a' x' y' z' (in_has _ _ Ha') Hi'). apply Rmult_le_pos; [lra|apply Rle_0_sqr]. }
  apply Rle_trans with (eps a (ri x y z) * (st (efield a) (ri x y z) * st (efield a) (ri x y z))); [apply Rmult_le_compat_r; [apply Rle_0_sqr|exact B0]|]. unfold electric, sum_axes.
  eapply Rle_trans; [apply (gpoint nx ny nz (fun i => eps a i * (st (efield a) i * st (efield a) i)) x y z); [intros; apply P; assumption|exact Hi]|].
  apply (Rsum_point es (fun a => gs (fun i => eps a i * (st (efield a) i * st (efield a) i)))); [|exact Ha]. intros a' Ha'. apply gpos. intros. apply P; assumption.
Qed.
End maxwell.
