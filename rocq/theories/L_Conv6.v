(** The energy of the electromagnetic schemes as a norm, and the truncation errors of smooth solutions of Maxwell's equations. *)
From Coq Require Import QArith Qreals Reals Lra FunctionalExtensionality.
From Verif Require Import M_Grid M_Deriv S_Deriv L_Deriv L_Deriv2 M_Prog M_Solvers M_Env S_Solver S_Step S_Check S_Energy L_Prog L_Lin L_Src L_Surface L_Leap L_Leap2 L_Diff L_Energy L_Energy4
  S_Taylor S_Conv S_Conv2 L_Conv L_Conv2 L_Conv3 L_Conv4 L_Conv5.
From Verif Require L_Fd L_Taylor.
Open Scope R_scope.
Open Scope list_scope.

Ltac rr := match goal with |- ?x = ?y => change (@eq R x y) end; ring.
Lemma flip_e a : flip (next a) (e_half (next (next a))) = h_half a /\ flip (next (next a)) (e_half (next a)) = h_half a.
Proof. split; apply functional_extensionality; intros b; destruct a, b; reflexivity. Qed.
Lemma flip_h a : flip (next a) (h_half (next (next a))) = e_half a /\ flip (next (next a)) (h_half (next a)) = e_half a.
Proof. split; apply functional_extensionality; intros b; destruct a, b; reflexivity. Qed.
Lemma next_ne a : next (next a) <> next a.
Proof. destruct a; discriminate. Qed.

Section norm.
Variables (e : env R_arith) (c : cfg) (useVar hybrid : bool) (nx ny nz p : Z) (rest : list Z) (DH : Q) (fuel : nat)
  (dt h : R) (cv : Q -> R) (g : grid).
Hypothesis HM : @fd_matrices R_arith e c true useVar hybrid nx ny nz p rest DH fuel (fun q => Q2R q * (dt / h)) cv g.
Hypothesis Hu : undamped c.
Notation gs := (grid_sum nx ny nz).
Notation ri := (reg_index nx nz).
Notation D := (Dmv e "").
Notation ins := (inside nx ny nz).
Notation rst := (state R_arith).
Hypothesis Hp : L_Fd.exact_order p.
Hypothesis Hh : 0 < h.
Hypothesis Hdt : 0 < dt.
Hypothesis HN : (0 <= nx)%Z /\ (0 <= ny)%Z /\ (0 <= nz)%Z.
Variables (axes es hs : list axis).
Hypothesis Hg : em_geometry axes es hs.
Hypothesis Hax : forall a, In a axes -> ax_ok nz a.
Notation m a := (e_coef e (inv_mu a)).
Variables (eps sigma : axis -> Z -> R) (tau : nat -> R) (gam : axis -> nat -> Z -> R).
Variables (mmin mmax emin emax smax : R).
Hypothesis Hmm0 : 0 < mmin.
Hypothesis Hm : forall a i, In a hs -> mmin <= m a i <= mmax.
Hypothesis Hem0 : 0 < emin.
Hypothesis He : forall a i, In a es -> emin <= eps a i <= emax.
Hypothesis Hs : forall a i, In a es -> 0 <= sigma a i <= smax.
Notation step st st' := (maxwell_step e c st axes es hs eps sigma 0 tau gam dt st').
Variable nxt : rst -> rst.
Hypothesis Hnxt : forall st, step st (nxt st).
Variable q : R.
Hypothesis Hq : 0 < q < 1.
Hypothesis Hth : em_th p (dt / h) axes mmax emin <= q * q.
Notation mag := (magnetic nx ny nz e hs).
Notation elec := (electric nx ny nz es eps).
Notation ce st := (curl (ge e axes es (ef st))).
Notation ch st := (curl (gh e axes hs (hf st))).

Lemma q_m a x y z : has hs a = true -> ins x y z -> 0 < m a (ri x y z).
Proof. intros Ha _. destruct (Hm a (ri x y z) (has_axis _ _ Ha)). lra. Qed.
Lemma q_mm a x y z : has hs a = true -> ins x y z -> m a (ri x y z) <= mmax.
Proof. intros Ha _. apply Hm, has_axis, Ha. Qed.
Lemma q_e a x y z : has es a = true -> ins x y z -> 0 < eps a (ri x y z).
Proof. intros Ha _. destruct (He a (ri x y z) (has_axis _ _ Ha)). lra. Qed.
Lemma q_em a x y z : has es a = true -> ins x y z -> emin <= eps a (ri x y z).
Proof. intros Ha _. apply He, has_axis, Ha. Qed.
Lemma mx0 : 0 < mmax.
Proof. assert (H : exists a, In a hs) by (destruct Hg as [(_ & _ & ->)|[(_ & _ & ->)|(_ & _ & ->)]]; eexists; left; reflexivity). destruct H as (a & Ha). destruct (Hm a 0%Z Ha). lra. Qed.
Lemma ex0 : 0 < emax /\ 0 <= smax.
Proof. assert (H : exists a, In a es) by (destruct Hg as [(_ & -> & _)|[(_ & -> & _)|(_ & -> & _)]]; eexists; left; reflexivity). destruct H as (a & Ha). destruct (He a 0%Z Ha), (Hs a 0%Z Ha). lra. Qed.
Lemma el_pos st : 0 <= elec st.
Proof. apply elec_pos, q_e. Qed.
Lemma ma_pos st : 0 <= mag st st.
Proof. unfold magnetic, sum_axes. apply Rsum_map_pos. intros a Ha. apply gpos. intros x y z Hi. apply sq_div, q_m; [apply in_has, Ha|exact Hi]. Qed.

Definition EM (st : rst) : R := mag st (nxt st) + elec st.
Lemma EM_nxt st : EM (nxt st) <= EM st.
Proof.
  unfold EM. rewrite (em_energy e c useVar hybrid nx ny nz p rest DH fuel (dt / h) cv g HM Hu axes es hs Hg Hax q_m eps sigma tau gam dt q_e st (nxt st) (nxt (nxt st)) (Hnxt _) (Hnxt _)).
  pose proof (ohmic_pos nx ny nz es sigma dt st (nxt st) ltac:(lra) (fun a x y z Ha _ => proj1 (Hs a _ (has_axis _ _ Ha)))). lra.
Qed.
Lemma nx_h st a i : has hs a = true -> nxt st (hfield a) i = st (hfield a) i - m a i * ce st a i.
Proof. apply (em_h e c Hu axes es hs eps sigma tau gam dt), Hnxt. Qed.
Definition ecross (st st' : rst) : R := sum_axes hs (fun a => gs (fun i => st (hfield a) i * ce st' a i)).
Lemma EM_form st : EM st = mag st st + elec st - ecross st st.
Proof.
  unfold EM. assert (E : mag st (nxt st) = mag st st - ecross st st); [|lra].
  unfold magnetic, ecross, sum_axes, Rminus. rewrite opp1, <- Rsum_map_mul, <- Rsum_map_add. apply Rsum_map_ext. intros a Ha. rewrite <- gs_mul, <- gs_add. apply gext. intros x y z Hi. pose proof (in_has _ _ Ha) as Ha'.
  rewrite (nx_h st a _ Ha'). pose proof (q_m a x y z Ha' Hi). field. lra.
Qed.
Lemma EM_curl st : sum_axes hs (fun a => gs (fun i => m a i * (ce st a i * ce st a i))) <= 4 * (q * q) * elec st.
Proof.
  pose proof (em_inc e c useVar hybrid nx ny nz p rest DH fuel (dt / h) cv g HM Hu axes es hs Hg Hax q_m eps sigma tau gam dt q_e (L_Fd.exact_supported p Hp) mmax emin q_mm ltac:(pose proof mx0; lra) Hem0 q_em st (nxt st) (Hnxt st)) as A.
  unfold mag_inc, sum_axes in *.
  rewrite (Rsum_map_ext hs _ (fun a => gs (fun i => (nxt st (hfield a) i - st (hfield a) i) * (nxt st (hfield a) i - st (hfield a) i) / m a i))).
  - eapply Rle_trans; [exact A|]. apply Rmult_le_compat_r; [apply el_pos|lra].
  - intros a Ha. apply gext. intros x y z Hi. pose proof (in_has _ _ Ha) as Ha'. rewrite (nx_h st a _ Ha'). pose proof (q_m a x y z Ha' Hi). field. lra.
Qed.
Lemma EM_cross st : - (q * (mag st st + elec st)) <= ecross st st <= q * (mag st st + elec st).
Proof.
  pose proof (EM_curl st) as G.
  assert (U : forall s, s = 1 \/ s = -1 -> s * ecross st st <= q * mag st st + 1 / (4 * q) * sum_axes hs (fun a => gs (fun i => m a i * (ce st a i * ce st a i)))).
  { intros s Hss. unfold magnetic, ecross, sum_axes. rewrite <- !Rsum_map_mul, <- Rsum_map_add. apply Rsum_map_le. intros a Ha. rewrite <- !gs_mul, <- gs_add. apply gle.
    intros x y z Hi. pose proof (in_has _ _ Ha) as Ha'. pose proof (young q (st (hfield a) (ri x y z)) _ (ce st a (ri x y z)) (proj1 Hq) (q_m a x y z Ha' Hi)) as Y.
    replace (1 / (4 * q) * (m a (ri x y z) * (ce st a (ri x y z) * ce st a (ri x y z)))) with
      (m a (ri x y z) * (ce st a (ri x y z) * ce st a (ri x y z)) / (4 * q)) by (field; lra).
    destruct Hss as [-> | ->]; lra. }
  assert (W : 1 / (4 * q) * sum_axes hs (fun a => gs (fun i => m a i * (ce st a i * ce st a i))) <= q * elec st).
  { apply Rle_trans with (1 / (4 * q) * (4 * (q * q) * elec st)).
    - apply Rmult_le_compat_l; [|exact G]. apply Rlt_le, Rdiv_lt_0_compat; lra.
    - apply Req_le. field. lra. }
  pose proof (U 1 ltac:(auto)). pose proof (U (-1) ltac:(auto)). lra.
Qed.
Lemma EM_low st : (1 - q) * (mag st st + elec st) <= EM st.
Proof. rewrite EM_form. pose proof (EM_cross st). lra. Qed.
Lemma EM_up st : EM st <= 2 * (mag st st + elec st).
Proof. rewrite EM_form. pose proof (EM_cross st). pose proof (ma_pos st). pose proof (el_pos st). nra. Qed.
Lemma EM_pos st : 0 <= EM st.
Proof. eapply Rle_trans; [|apply EM_low]. pose proof (ma_pos st). pose proof (el_pos st). apply Rmult_le_pos; lra. Qed.
Lemma D_comb d hb (f f' : Z -> R) l i : D d hb (fun j => f j + l * f' j) i = D d hb f i + l * D d hb f' i.
Proof. rewrite (D_add e "" d hb f (fun j => l * f' j)), D_mul. reflexivity. Qed.
Lemma ge_comb U V l a d i : ge e axes es (fun a j => U a j + l * V a j) a d i = ge e axes es U a d i + l * ge e axes es V a d i.
Proof. unfold ge. destruct (has es a && has axes d); [apply D_comb|lra]. Qed.
Lemma gh_comb U V l a d i : gh e axes hs (fun a j => U a j + l * V a j) a d i = gh e axes hs U a d i + l * gh e axes hs V a d i.
Proof. unfold gh. destruct (has hs a && has axes d); [apply D_comb|lra]. Qed.
Lemma ce_lin st l st' a i : ce (lin st l st') a i = ce st a i + l * ce st' a i.
Proof. unfold curl. change (ef (lin st l st')) with (fun a j => ef st a j + l * ef st' a j). rewrite !ge_comb. rr. Qed.
Lemma EM_lin st st' : exists x, forall l, EM (lin st l st') = EM st + l * x + l * l * EM st'.
Proof.
  exists (sum_axes hs (fun a => gs (fun i => 2 * (st (hfield a) i * st' (hfield a) i / m a i))) + sum_axes es (fun a => gs (fun i => 2 * (eps a i * (st (efield a) i * st' (efield a) i)))) - (ecross st st' + ecross st' st)).
  intros l. rewrite !EM_form.
  assert (E1 : mag (lin st l st') (lin st l st') = mag st st + l * sum_axes hs (fun a => gs (fun i => 2 * (st (hfield a) i * st' (hfield a) i / m a i))) + l * l * mag st' st').
  { unfold magnetic, sum_axes. rewrite <- Rsum_poly. apply Rsum_map_ext. intros a Ha. rewrite <- gs_poly. apply gext. intros x y z Hi.
    pose proof (q_m a x y z (in_has _ _ Ha) Hi). unfold lin. field. lra. }
  assert (E2 : elec (lin st l st') = elec st + l * sum_axes es (fun a => gs (fun i => 2 * (eps a i * (st (efield a) i * st' (efield a) i)))) + l * l * elec st').
  { unfold electric, sum_axes. rewrite <- Rsum_poly. apply Rsum_map_ext. intros a Ha. rewrite <- gs_poly. apply gext. intros x y z Hi. unfold lin. rr. }
  assert (E3 : ecross (lin st l st') (lin st l st') = ecross st st + l * (ecross st st' + ecross st' st) + l * l * ecross st' st').
  { unfold ecross, sum_axes. rewrite <- Rsum_map_add, <- Rsum_poly. apply Rsum_map_ext. intros a Ha. rewrite <- gs_add, <- gs_poly. apply gext. intros x y z Hi.
    rewrite ce_lin. unfold lin. rr. }
  rewrite E1, E2, E3. ring.
Qed.
Lemma EM_size st mh me : (forall a x y z, In a hs -> ins x y z -> Rabs (st (hfield a) (ri x y z)) <= mh) ->
  (forall a x y z, In a es -> ins x y z -> Rabs (st (efield a) (ri x y z)) <= me) ->
  EM st <= 2 * IZR (nx * ny * nz) * (INR (length hs) * (mh * mh / mmin) + INR (length es) * (emax * (me * me))).
Proof.
  intros H1 H2. destruct HN as (N1 & N2 & N3). eapply Rle_trans; [apply EM_up|]. rewrite Rmult_assoc. apply Rmult_le_compat_l; [lra|].
  rewrite Rmult_plus_distr_l. apply Rplus_le_compat.
  - unfold magnetic, sum_axes. eapply Rle_trans; [apply (Rsum_map_le _ _ (fun _ => IZR (nx * ny * nz) * (mh * mh / mmin)))|].
    + intros a Ha. rewrite <- (gs_cst nx ny nz) by assumption. apply gle. intros x y z Hi. apply sq_quot; auto. apply Hm, Ha.
    + rewrite Rsum_const. lra.
  - unfold electric, sum_axes. eapply Rle_trans; [apply (Rsum_map_le _ _ (fun _ => IZR (nx * ny * nz) * (emax * (me * me))))|].
    + intros a Ha. rewrite <- (gs_cst nx ny nz) by assumption. apply gle. intros x y z Hi. destruct (He a (ri x y z) Ha). apply Rmult_le_compat; [lra|apply Rle_0_sqr|lra|].
      apply sq_abs, H2; assumption.
    + rewrite Rsum_const. lra.
Qed.
Lemma EM_fields st : (1 - q) * (sum_axes hs (fun a => gs (fun i => st (hfield a) i * st (hfield a) i)) + sum_axes es (fun a => gs (fun i => st (efield a) i * st (efield a) i))) <= (mmax + 1 / emin) * EM st.
Proof.
  pose proof mx0 as B0. assert (S0 : 0 < 1 / emin) by (apply Rdiv_lt_0_compat; lra). pose proof (EM_low st) as EL. pose proof (ma_pos st) as K0. pose proof (el_pos st) as P0.
  assert (F1 : sum_axes hs (fun a => gs (fun i => st (hfield a) i * st (hfield a) i)) <= mmax * mag st st).
  { unfold magnetic, sum_axes. rewrite <- Rsum_map_mul. apply Rsum_map_le. intros a Ha. rewrite <- gs_mul. apply gle. intros x y z Hi. apply sq_le_div; [apply q_m|apply q_mm]; auto using in_has. }
  assert (F2 : sum_axes es (fun a => gs (fun i => st (efield a) i * st (efield a) i)) <= 1 / emin * elec st).
  { unfold electric, sum_axes. rewrite <- Rsum_map_mul. apply Rsum_map_le. intros a Ha. rewrite <- gs_mul. apply gle. intros x y z Hi. destruct (He a (ri x y z) Ha) as (X & _).
    set (u := st _ _). pose proof (Rle_0_sqr u) as U0. unfold Rsqr in U0. change (0 <= u * u) in U0. pose proof (Rmult_le_compat_r _ _ _ U0 X) as Y. pose proof (Rmult_le_compat_l (1 / emin) _ _ ltac:(lra) Y) as Z.
    replace (1 / emin * (emin * (u * u))) with (u * u) in Z by (field; lra). exact Z. }
  apply Rle_trans with ((1 - q) * (mmax * mag st st + 1 / emin * elec st)); [apply Rmult_le_compat_l; lra|].
  apply Rle_trans with ((mmax + 1 / emin) * ((1 - q) * (mag st st + elec st))); [|apply Rmult_le_compat_l; lra].
  assert (0 <= (1 - q) * (mmax * elec st)) by (apply Rmult_le_pos; [lra|apply Rmult_le_pos; lra]). assert (0 <= (1 - q) * (1 / emin * mag st st)) by (apply Rmult_le_pos; [lra|apply Rmult_le_pos; lra]). lra.
Qed.

(** ** faults *)
Variable after : nat -> rst.
Hypothesis Haf : forall n, step (after n) (after (S n)).
Variables (E H : axis -> R -> position -> R) (T Mx Mt : R).
Hypothesis HE : maxwell_solution nx ny nz p h dt T Mx Mt e axes es hs eps sigma E H.
Hypothesis HMx : 0 <= Mx.
Hypothesis HMt : 0 <= Mt.
Definition emst (n : nat) : rst := fun nm0 i =>
  match nm0 with M_Prog.N s l =>
    let t := INR n * dt in
    let ev a := samp nx nz h (E a) (e_half a) t i in
    let hv a := samp nx nz h (H a) (h_half a) (t - dt / 2) i in
    if String.eqb s "eX" then ev AX else if String.eqb s "eY" then ev AY else if String.eqb s "eZ" then ev AZ else
    if String.eqb s "hX" then hv AX else if String.eqb s "hY" then hv AY else hv AZ end.
Lemma emst_e n a i : emst n (efield a) i = samp nx nz h (E a) (e_half a) (INR n * dt) i.
Proof. destruct a; reflexivity. Qed.
Lemma emst_h n a i : emst n (hfield a) i = samp nx nz h (H a) (h_half a) (INR n * dt - dt / 2) i.
Proof. destruct a; reflexivity. Qed.
Definition eerr (n : nat) : rst := fun nm0 i => after n nm0 i - emst n nm0 i.
Definition efault (n : nat) : rst := fun nm0 i => eerr (S n) nm0 i - nxt (eerr n) nm0 i.
Lemma eerr_eq n nm0 i : eerr n nm0 i = after n nm0 i - emst n nm0 i.
Proof. reflexivity. Qed.
Lemma efault_eq n nm0 i : after (S n) nm0 i = nxt (eerr n) nm0 i + efault n nm0 i + emst (S n) nm0 i.
Proof. unfold efault. rewrite (eerr_eq (S n)). set (u := nxt _ _ _). set (v := after _ _ _). set (w := emst _ _ _). lra. Qed.
Lemma ge_ext U V a d i : (forall a j, U a j = V a j) -> ge e axes es U a d i = ge e axes es V a d i.
Proof. intros X. unfold ge. destruct (has es a && has axes d); [apply D_eq; intros; apply X|reflexivity]. Qed.
Lemma gh_ext U V a d i : (forall a j, U a j = V a j) -> gh e axes hs U a d i = gh e axes hs V a d i.
Proof. intros X. unfold gh. destruct (has hs a && has axes d); [apply D_eq; intros; apply X|reflexivity]. Qed.
Lemma efault_h n a i : has hs a = true -> efault n (hfield a) i = - (emst (S n) (hfield a) i - emst n (hfield a) i + m a i * ce (emst n) a i).
Proof.
  intros Ha. unfold efault. rewrite (nx_h (eerr n) a i Ha). unfold eerr at 1. rewrite (em_h e c Hu axes es hs eps sigma tau gam dt _ _ (Haf n) a i Ha).
  assert (X : ce (eerr n) a i = ce (after n) a i + -1 * ce (emst n) a i).
  { unfold curl. rewrite !(ge_ext (ef (eerr n)) (fun a0 j => ef (after n) a0 j + -1 * ef (emst n) a0 j)) by (intros; unfold ef, eerr; rr). rewrite !ge_comb. rr. }
  rewrite X. unfold eerr. rr.
Qed.
Lemma efault_e n a i : has es a = true -> (eps a i + dt * sigma a i / 2) * efault n (efield a) i =
  ch (efault n) a i + (ch (emst (S n)) a i - eps a i * (emst (S n) (efield a) i - emst n (efield a) i) - dt * sigma a i * (emst (S n) (efield a) i + emst n (efield a) i) / 2).
Proof.
  intros Ha. pose proof (em_e e c Hu axes es hs eps sigma tau gam dt _ _ (Haf n) a i Ha) as A.
  pose proof (em_e e c Hu axes es hs eps sigma tau gam dt _ _ (Hnxt (eerr n)) a i Ha) as B.
  assert (X : ch (after (S n)) a i = ch (nxt (eerr n)) a i + (ch (efault n) a i + ch (emst (S n)) a i)).
  { assert (Y : forall a0 j, hf (after (S n)) a0 j = hf (nxt (eerr n)) a0 j + 1 * (hf (efault n) a0 j + 1 * hf (emst (S n)) a0 j)) by (intros a0 j; unfold hf; pose proof (efault_eq n (hfield a0) j) as Y; lra).
    unfold curl. rewrite !(gh_ext _ _ _ _ _ Y), !(gh_comb (hf (nxt (eerr n))) (fun a0 j => hf (efault n) a0 j + 1 * hf (emst (S n)) a0 j)), !gh_comb. rr. }
  rewrite X in A. pose proof (efault_eq n (efield a) i) as F. pose proof (eerr_eq n (efield a) i) as F0. rewrite F0 in B.
  set (f := efault n (efield a) i) in *. set (u' := after (S n) (efield a) i) in *. set (v' := nxt (eerr n) (efield a) i) in *. rewrite F in A. lra.
Qed.
Definition W : R := error_const p * Mx * h ^ Z.to_nat p.
Definition th : R := 1 / 24 * Mt * dt ^ 2 + mmax * (2 * W).
Definition te : R := (2 * (2 * fd_h p * (dt / h) * th) + 2 * W + (emax + smax) * (Mt * dt ^ 2)) / emin.
Lemma W0' : 0 <= W.
Proof. clear - HMx Hh. unfold W. apply Rmult_le_pos; [apply Rmult_le_pos; [apply ec_pos|exact HMx]|apply Rlt_le, pow_lt, Hh]. Qed.
Lemma pt' : 0 <= Mt * dt ^ 2.
Proof. clear - HMt. apply Rmult_le_pos; [exact HMt|apply pow2_ge_0]. Qed.
Lemma th0 : 0 <= th.
Proof. unfold th. pose proof W0'. pose proof mx0. pose proof pt'. apply Rplus_le_le_0_compat; [lra|apply Rmult_le_pos; lra]. Qed.
Lemma curl_diff (G : axis -> axis -> Z -> R) (G' : axis -> axis -> R) a i B : (forall v d, (v = next (next a) /\ d = next a) \/ (v = next a /\ d = next (next a)) -> Rabs (G v d i - dt * G' v d) <= B) ->
  Rabs (curl G a i - dt * curl_of G' a) <= 2 * B.
Proof.
  intros X. unfold curl, curl_of. replace (G (next (next a)) (next a) i - G (next a) (next (next a)) i - dt * (G' (next (next a)) (next a) - G' (next a) (next (next a)))) with
    ((G (next (next a)) (next a) i - dt * G' (next (next a)) (next a)) + - (G (next a) (next (next a)) i - dt * G' (next a) (next (next a)))) by ring.
  replace (2 * B) with (B + B) by ring. apply abs_sum2; [apply X; auto|rewrite Rabs_Ropp; apply X; auto].
Qed.
Lemma trunc_h n a x y z : In a hs -> ins x y z -> INR (S n) * dt <= T -> Rabs (efault n (hfield a) (ri x y z)) <= dt * th.
Proof.
  intros Ha Hi HT. pose proof Hi as (Hx & Hy & Hz). rewrite efault_h by apply in_has, Ha. rewrite Rabs_Ropp, !emst_h, <- mid.
  destruct (t_ok dt Hdt T n HT) as (T1 & T2 & _). rewrite !(samp_at nx ny nz h) by exact Hi. set (t := INR n * dt) in *.
  destruct (ms_faraday _ _ _ _ _ _ _ _ _ _ _ _ _ _ _ _ _ HE a x y z t Ha Hx Hy Hz ltac:(lra)) as (G & G1 & G2 & G3). cbv zeta in G1, G3.
  pose proof (time_error dt _ _ _ _ t _ Hdt (ms_Ht _ _ _ _ _ _ _ _ _ _ _ _ _ _ _ _ _ HE a x y z Ha Hx Hy Hz) ltac:(lra) ltac:(lra) G3) as A. cbv beta in A.
  set (v1 := H a (t + dt / 2) _) in *. set (v0 := H a (t - dt / 2) _) in *. set (ma := m a (ri x y z)) in *.
  assert (BA : 0 <= ma <= mmax) by (destruct (Hm a (ri x y z) Ha); unfold ma; lra).
  replace (v1 - v0 + ma * ce (emst n) a (ri x y z)) with ((v1 - v0 - dt * - (ma * curl_of G a)) + ma * (ce (emst n) a (ri x y z) - dt * curl_of G a)) by ring.
  unfold th. rewrite Rmult_plus_distr_l. apply abs_sum2; [exact A|]. replace (dt * (mmax * (2 * W))) with (mmax * (2 * (dt * W))) by ring.
  apply abs_mul; [apply Rabs_le; lra|]. apply curl_diff. intros v d Hvd.
  assert (Hne : v <> d /\ flip d (e_half v) = h_half a) by (destruct Hvd as [(-> & ->)|(-> & ->)]; split; try apply flip_e; destruct a; discriminate). destruct Hne as (Hne & Hfl).
  unfold ge. destruct (has es v && has axes d) eqn:EV.
  - pose proof EV as EV'. apply Bool.andb_true_iff in EV'. destruct EV' as (E1 & E2).
    assert (HB : e_half v d = false) by (destruct v, d; try reflexivity; contradiction Hne; reflexivity).
    replace (D d false (ef (emst n) v) (ri x y z)) with (D d (e_half v d) (samp nx nz h (E v) (e_half v) t) (ri x y z)) by (rewrite HB; apply D_eq; intros j; symmetry; apply emst_e).
    unfold W. apply (space_any e c useVar hybrid nx ny nz p rest DH fuel dt h cv g HM Hp Hh Hdt (E v) (e_half v) d T Mx t x y z (G v d)
      (ms_Ex _ _ _ _ _ _ _ _ _ _ _ _ _ _ _ _ _ HE v d (has_axis _ _ E1) (has_axis _ _ E2) Hne) (Hax d (has_axis _ _ E2)) Hi ltac:(lra)). rewrite Hfl. apply G1, EV.
  - rewrite (G2 v d EV), Rmult_0_r, Rminus_0_r, Rabs_R0. apply Rmult_le_pos; [lra|apply W0'].
Qed.
Lemma ch_fault n a x y z : ins x y z -> INR (S n) * dt <= T -> Rabs (ch (efault n) a (ri x y z)) <= dt * (2 * (2 * fd_h p * (dt / h) * th)).
Proof.
  intros Hi HT. assert (Z0 : 0 <= dt * th) by (apply Rmult_le_pos; [lra|apply th0]). assert (F0 : 0 < fd_h p) by (apply fd_h_pos, (L_Fd.exact_supported p Hp)).
  assert (K0 : 0 < dt / h) by (apply Rdiv_lt_0_compat; assumption).
  replace (ch (efault n) a (ri x y z)) with (ch (efault n) a (ri x y z) - dt * curl_of (fun _ _ => 0) a) by (unfold curl_of; ring).
  replace (dt * (2 * (2 * fd_h p * (dt / h) * th))) with (2 * (2 * fd_h p * (dt / h) * (dt * th))) by ring. apply curl_diff. intros v d _. rewrite Rmult_0_r, Rminus_0_r.
  unfold gh. destruct (has hs v && has axes d) eqn:E0.
  - apply Bool.andb_true_iff in E0. destruct E0 as (E1 & E2). apply (D_max e c useVar hybrid nx ny nz p rest DH fuel dt h cv g HM Hp Hh Hdt d); [apply Hax, has_axis, E2|exact Hi|exact Z0|].
    intros. apply trunc_h; auto. apply has_axis, E1.
  - rewrite Rabs_R0. apply Rmult_le_pos; [|exact Z0]. apply Rmult_le_pos; lra.
Qed.
Lemma trunc_el n a x y z : In a es -> ins x y z -> INR (S n) * dt <= T -> Rabs (efault n (efield a) (ri x y z)) <= dt * te.
Proof.
  intros Ha Hi HT. pose proof Hi as (Hx & Hy & Hz). pose proof (efault_e n a (ri x y z) (in_has _ _ Ha)) as F. pose proof (ch_fault n a x y z Hi HT) as C1.
  destruct (t_ok dt Hdt T n HT) as (T1 & T2 & T3). destruct (mid2 dt n) as (M1 & M2). set (t := INR (S n) * dt - dt / 2) in *.
  destruct (ms_ampere _ _ _ _ _ _ _ _ _ _ _ _ _ _ _ _ _ HE a x y z t Ha Hx Hy Hz T3) as (G & G1 & G2 & G3). cbv zeta in G1, G3.
  destruct (ms_Et _ _ _ _ _ _ _ _ _ _ _ _ _ _ _ _ _ HE a x y z Ha Hx Hy Hz) as (S2 & S1).
  pose proof (time_error dt _ _ _ _ t _ Hdt S2 ltac:(lra) ltac:(lra) G3) as A. pose proof (mean_error dt _ _ _ _ t Hdt S1 ltac:(lra) ltac:(lra)) as B. cbv beta in A, B. rewrite M1, M2 in A, B.
  assert (C2 : Rabs (ch (emst (S n)) a (ri x y z) - dt * curl_of G a) <= 2 * (dt * W)).
  { apply curl_diff. intros v d Hvd.
    assert (Hne : v <> d /\ flip d (h_half v) = e_half a) by (destruct Hvd as [(-> & ->)|(-> & ->)]; split; try apply flip_h; destruct a; discriminate). destruct Hne as (Hne & Hfl).
    unfold gh. destruct (has hs v && has axes d) eqn:EV.
    - pose proof EV as EV'. apply Bool.andb_true_iff in EV'. destruct EV' as (E1 & E2).
      assert (HB : h_half v d = true) by (destruct v, d; try reflexivity; contradiction Hne; reflexivity).
      replace (D d true (hf (emst (S n)) v) (ri x y z)) with (D d (h_half v d) (samp nx nz h (H v) (h_half v) t) (ri x y z)) by (rewrite HB; apply D_eq; intros j; symmetry; apply emst_h).
      unfold W. apply (space_any e c useVar hybrid nx ny nz p rest DH fuel dt h cv g HM Hp Hh Hdt (H v) (h_half v) d T Mx t x y z (G v d)
        (ms_Hx _ _ _ _ _ _ _ _ _ _ _ _ _ _ _ _ _ HE v d (has_axis _ _ E1) (has_axis _ _ E2) Hne) (Hax d (has_axis _ _ E2)) Hi T3). rewrite Hfl. apply G1, EV.
    - rewrite (G2 v d EV), Rmult_0_r, Rminus_0_r, Rabs_R0. apply Rmult_le_pos; [lra|apply W0']. }
  rewrite !emst_e, !(samp_at nx ny nz h) in F by exact Hi.
  set (u1 := E a (INR (S n) * dt) _) in *. set (u0 := E a (INR n * dt) _) in *. set (um := E a t _) in *. destruct (He a (ri x y z) Ha) as (E1 & E2). destruct (Hs a (ri x y z) Ha) as (Z1 & Z2).
  set (ea := eps a (ri x y z)) in *. set (sa := sigma a (ri x y z)) in *. set (f := efault n (efield a) (ri x y z)) in *. set (cf := ch (efault n) a (ri x y z)) in *. set (cx := ch (emst (S n)) a (ri x y z)) in *.
  assert (Q : Rabs (cx - ea * (u1 - u0) - dt * sa * (u1 + u0) / 2) <= 2 * (dt * W) + emax * (dt * (1 / 24 * Mt * dt ^ 2)) + dt * smax * (1 / 8 * Mt * dt ^ 2)).
  { replace (cx - ea * (u1 - u0) - dt * sa * (u1 + u0) / 2) with ((cx - dt * curl_of G a) + - (ea * (u1 - u0 - dt * ((curl_of G a - sa * um) / ea))) + - (dt * sa * ((u1 + u0) / 2 - um))) by (field; lra).
    apply abs_sum2; [apply abs_sum2; [exact C2|]|]; rewrite Rabs_Ropp; apply abs_mul; try assumption; apply Rabs_le; [lra|].
    assert (0 <= dt * sa <= dt * smax) by (split; [apply Rmult_le_pos; lra|apply Rmult_le_compat_l; lra]). lra. }
  assert (P0 : Rabs ((ea + dt * sa / 2) * f) <= dt * (emin * te)).
  { rewrite F. replace (dt * (emin * te)) with (dt * (2 * (2 * fd_h p * (dt / h) * th)) + (2 * (dt * W) + emax * (dt * (Mt * dt ^ 2)) + dt * smax * (Mt * dt ^ 2))) by (unfold te; field; lra).
    apply abs_sum2; [exact C1|]. eapply Rle_trans; [exact Q|]. pose proof pt' as PT. destruct ex0 as (X1 & X2).
    assert (Y1 : emax * (dt * (1 / 24 * Mt * dt ^ 2)) <= emax * (dt * (Mt * dt ^ 2))) by (apply Rmult_le_compat_l; [lra|]; apply Rmult_le_compat_l; lra).
    assert (Y2 : dt * smax * (1 / 8 * Mt * dt ^ 2) <= dt * smax * (Mt * dt ^ 2)) by (apply Rmult_le_compat_l; [apply Rmult_le_pos; lra|]; lra). lra. }
  assert (D0 : 0 <= dt * sa) by (apply Rmult_le_pos; lra). rewrite Rabs_mult, (Rabs_right (ea + dt * sa / 2)) in P0 by lra. pose proof (Rabs_pos f) as F0.
  assert (P1 : emin * Rabs f <= dt * (emin * te)) by (eapply Rle_trans; [|exact P0]; apply Rmult_le_compat_r; lra).
  apply (Rmult_le_reg_l emin); [exact Hem0|]. lra.
Qed.
Hypothesis HH0 : forall a x y z, In a hs -> ins x y z -> after 0%nat (hfield a) (ri x y z) = H a (- (dt / 2)) (spot h (h_half a) x y z).
Hypothesis HE0 : forall a x y z, In a es -> ins x y z -> after 0%nat (efield a) (ri x y z) = E a 0 (spot h (e_half a) x y z).
Definition eerr_sum (n : nat) : R := sum_axes hs (fun a => gs (fun i => eerr n (hfield a) i * eerr n (hfield a) i)) + sum_axes es (fun a => gs (fun i => eerr n (efield a) i * eerr n (efield a) i)).
Lemma EM_start : EM (eerr 0) = 0.
Proof.
  pose proof (EM_pos (eerr 0)) as A. assert (B : EM (eerr 0) <= 2 * IZR (nx * ny * nz) * (INR (length hs) * (0 * 0 / mmin) + INR (length es) * (emax * (0 * 0)))).
  { apply EM_size; intros a x y z Ha Hi; unfold eerr.
    - rewrite emst_h, (samp_at nx ny nz h), HH0 by assumption. cbn [INR]. replace (0 * dt - dt / 2) with (- (dt / 2)) by ring. rewrite Rminus_diag_eq by reflexivity. rewrite Rabs_R0. lra.
    - rewrite emst_e, (samp_at nx ny nz h), HE0 by assumption. cbn [INR]. rewrite Rmult_0_l, Rminus_diag_eq by reflexivity. rewrite Rabs_R0. lra. }
  replace (2 * IZR (nx * ny * nz) * (INR (length hs) * (0 * 0 / mmin) + INR (length es) * (emax * (0 * 0)))) with 0 in B by (unfold Rdiv; ring). lra.
Qed.
Lemma eerr_bound n : INR n * dt <= T -> (1 - q) * eerr_sum n <=
  (mmax + 1 / emin) * (INR n * INR n * (2 * IZR (nx * ny * nz) * (INR (length hs) * (dt * th * (dt * th) / mmin) + INR (length es) * (emax * (dt * te * (dt * te)))))).
Proof.
  intros HT. unfold eerr_sum. eapply Rle_trans; [apply EM_fields|]. apply Rmult_le_compat_l; [pose proof mx0; assert (0 < 1 / emin) by (apply Rdiv_lt_0_compat; lra); lra|].
  apply (g_error EM nxt EM_pos EM_lin EM_nxt eerr n); [apply EM_start| |].
  - intros j Hj. assert (HT' : INR (S j) * dt <= T) by (apply Rle_trans with (INR n * dt); [apply Rmult_le_compat_r; [lra|apply le_INR; lia]|exact HT]).
    apply EM_size; intros; [apply trunc_h|apply trunc_el]; assumption.
  - destruct HN as (N1 & N2 & N3). assert (0 <= IZR (nx * ny * nz)) by (apply (IZR_le 0), Z.mul_nonneg_nonneg; [apply Z.mul_nonneg_nonneg|]; assumption). destruct ex0.
    apply Rmult_le_pos; [lra|]. apply Rplus_le_le_0_compat; (apply Rmult_le_pos; [apply pos_INR|]); [apply sq_div, Hmm0|apply Rmult_le_pos; [lra|apply Rle_0_sqr]].
Qed.
End norm.
