(** Proofs about absorbing boundaries. *)
From Coq Require Import Reals Lra Permutation.
From Verif Require Import Base M_Grid S_Grid L_Grid L_Grid2 L_Grid3 L_GridP M_Prog M_Solvers S_Solver L_Prog L_Lin M_Bound S_Bound.
Open Scope R_scope.

Lemma ok_inj A (a b : A) : Ok a = Ok b -> a = b.
Proof. congruence. Qed.

(** ** grids *)
Lemma point_ok g i : built g -> (0 <= i < nGridpoints g)%Z ->
  exists c k l, index2coordinate g i = Ok c /\
    (0 <= cx c < gNX g /\ 0 <= cy c < gNY g /\ 0 <= cz c < gNZ g)%Z /\
    getLayer g (cy c) = Ok k /\ vget (layers g) k = Ok l /\ (0 < ldh l)%Z.
Proof.
  intros [(nx&ny&nz&E)|(fuel&nx&ny&nz&dhs&ifs&G&F&E)] Hi.
  - pose proof (regular_bijection _ _ _ _ E) as (R&_).
    assert (P : (0 < nx /\ 0 < ny /\ 0 < nz)%Z).
    { unfold mk_regular, init_regular, fresh, assert in E; simpl in E.
      destruct (0 <? nx)%Z eqn:E1; [|discriminate]. destruct (0 <? ny)%Z eqn:E2; [|discriminate].
      destruct (0 <? nz)%Z eqn:E3; [|discriminate]. lia. }
    rewrite mk_regular_ok in E by lia. injection E as <-. cbn [nGridpoints gNX gNY gNZ] in *.
    destruct (R i Hi) as (c&Ec&B&_). exists c, 0%Z. eexists. split; [exact Ec|]. split; [exact B|].
    split; [|split; [reflexivity|cbn; lia]].
    unfold getLayer. cbn [interface numLayers layers getLayer_from].
    destruct ((cy c <? ny - 1) && (cy c >? -1))%Z%bool eqn:E1; [reflexivity|].
    destruct (cy c =? ny - 1)%Z eqn:E2; [reflexivity|]. lia.
  - destruct (variable_roundtrip _ _ _ _ _ _ G F) as (g1&E1&R&_). rewrite E in E1. injection E1 as <-.
    destruct (variable_lookup _ _ _ _ _ _ G F) as (g1&E1&_&L&_). rewrite E in E1. injection E1 as <-.
    destruct (variable_queries _ _ _ _ _ _ G F) as (g1&itf&E1&_&Q&_). rewrite E in E1. injection E1 as <-.
    destruct (init_variable_ok _ _ _ _ _ _ G F) as (g1&E1&W&_). rewrite E in E1. injection E1 as <-.
    destruct (R i Hi) as (c&Ec&B&Eb).
    destruct (Exists_dec (fun l => (lstart l <= cy c <= lend l)%Z) (layers g)) as [X|X].
    { intros l. destruct (Z_le_dec (lstart l) (cy c)), (Z_le_dec (cy c) (lend l)); [left|right|right|right]; lia. }
    + apply Exists_exists in X. destruct X as (l&Hl&Hy). apply In_nth_error in Hl. destruct Hl as (j&Hj).
      destruct (Q j l (cy c) Hj Hy) as (r&l'&Q1&Q2&_). exists c, (Z.of_nat r), l'. repeat split; auto; try lia.
      * unfold vget. destruct (Z.of_nat r <? 0)%Z eqn:Er; [lia|]. rewrite Nat2Z.id, Q2. reflexivity.
      * destruct W as (_&_&W). destruct (wf_layers_in _ _ _ _ _ _ W (nth_error_In _ _ Q2)) as (lo&_&W'). simpl in W'. lia.
    + exfalso. rewrite (L c) in Eb; [discriminate|exact B|].
      intros l Hl Hy. apply X. apply Exists_exists. eauto.
Qed.

(** ** coefficients *)
Lemma lnR : ln 0.0008 < 0.
Proof. rewrite <- ln_1. apply ln_increasing; lra. Qed.

Lemma coeff_profile pp W dh (sh : bool) i : physical pp -> (0 <= i < W)%Z -> 0 < dh ->
  profile pp W dh (IZR i + (if sh then / 2 else 0)) (fst (cpml_coeff pp W dh sh i)) (snd (cpml_coeff pp W dh sh i)).
Proof.
  intros (HN&Hf&HV&HT) Hi Hd.
  assert (HW : 0 < IZR W) by (apply IZR_lt; lia).
  set (s := IZR i + (if sh then / 2 else 0)).
  assert (E1 : (IZR W - IZR i - (if sh then 0.5 else 0)) / IZR W = (IZR W - s) / IZR W).
  { unfold s. f_equal. destruct sh; lra. }
  unfold cpml_coeff. rewrite E1. cbn [fst snd].
  assert (E2 : - (p_N pp + 1) * p_V pp * ln 0.0008 / (2 * IZR W * dh) * Rpower ((IZR W - s) / IZR W) (p_N pp) = pml_damping pp W dh s).
  { unfold pml_damping. f_equal. unfold Rdiv. rewrite !Rmult_assoc. ring. }
  rewrite E2.
  assert (E3 : 2 * PI * (p_fc pp / 2) * (1 - (IZR W - s) / IZR W) = pml_shift pp W s).
  { unfold pml_shift. field. lra. }
  rewrite E3.
  assert (E4 : - (pml_damping pp W dh s + pml_shift pp W s) * p_DT pp = - ((pml_damping pp W dh s + pml_shift pp W s) * p_DT pp)) by ring.
  rewrite E4. fold (pml_b pp W dh s).
  assert (D0 : 0 <= pml_damping pp W dh s).
  { unfold pml_damping. apply Rmult_le_pos.
    - apply Rmult_le_pos; [|left; apply Rinv_0_lt_compat; apply Rmult_lt_0_compat; [lra|apply Rmult_lt_0_compat; lra]].
      pose proof lnR. apply Rmult_le_pos; [apply Rmult_le_pos; lra|lra].
    - left. unfold Rpower. apply exp_pos. }
  split; [reflexivity|]. split.
  - intros H. rewrite Rabs_right by lra. destruct (Rlt_dec 1e-6 _); [|lra]. unfold Rdiv. ring.
  - intros H. rewrite Rabs_right by lra. destruct (Rlt_dec 1e-6 _); [lra|reflexivity].
Qed.

Lemma damping_nonneg pp W dh s : physical pp -> (0 < W)%Z -> 0 < dh -> 0 <= pml_damping pp W dh s.
Proof.
  intros (HN&Hf&HV&HT) HW Hd. apply (IZR_lt 0) in HW.
  unfold pml_damping. apply Rmult_le_pos.
  - apply Rmult_le_pos; [|left; apply Rinv_0_lt_compat; apply Rmult_lt_0_compat; [lra|apply Rmult_lt_0_compat; lra]].
    pose proof lnR. apply Rmult_le_pos; [apply Rmult_le_pos; lra|lra].
  - left. unfold Rpower. apply exp_pos.
Qed.
Lemma shift_nonneg pp W s : physical pp -> (0 < W)%Z -> 0 <= s -> 0 <= pml_shift pp W s.
Proof.
  intros (HN&Hf&HV&HT) HW Hs. apply (IZR_lt 0) in HW. unfold pml_shift.
  apply Rmult_le_pos; [apply Rmult_le_pos; [left; apply PI_RGT_0|exact Hf]|].
  apply Rmult_le_pos; [exact Hs|left; apply Rinv_0_lt_compat; exact HW].
Qed.

Lemma exp_neg_le1 x : 0 <= x -> 0 < exp (- x) <= 1.
Proof.
  intros H. split; [apply exp_pos|]. rewrite <- exp_0. destruct H as [H|<-]; [left; apply exp_increasing; lra|right; f_equal; lra].
Qed.

Lemma profile_range pp W dh s a b : physical pp -> (0 < W)%Z -> 0 < dh -> 0 <= s -> profile pp W dh s a b ->
  0 < b <= 1 /\ -1 < a <= 0 /\ Rabs a <= 1 - b.
Proof.
  intros P HW Hd Hs (Eb&Ea1&Ea2).
  pose proof (damping_nonneg pp W dh s P HW Hd) as D. pose proof (shift_nonneg pp W s P HW Hs) as S.
  assert (HB : 0 < b <= 1).
  { rewrite Eb. unfold pml_b. apply exp_neg_le1. destruct P as (_&_&_&HT). apply Rmult_le_pos; lra. }
  split; [exact HB|].
  rewrite <- Eb in Ea1.
  destruct (Rle_lt_dec (pml_damping pp W dh s) 1e-6) as [H|H].
  - rewrite (Ea2 H). rewrite Rabs_R0. lra.
  - set (q := pml_damping pp W dh s / (pml_damping pp W dh s + pml_shift pp W s)) in *.
    assert (Hq : 0 < q <= 1).
    { unfold q. split; [apply Rmult_lt_0_compat; [lra|apply Rinv_0_lt_compat; lra]|].
      apply (Rmult_le_reg_r (pml_damping pp W dh s + pml_shift pp W s)); [lra|]. unfold Rdiv. rewrite Rmult_assoc, Rinv_l by lra. lra. }
    rewrite (Ea1 H).
    assert (q * (b - 1) <= 0) by nra. assert (-(1 - b) <= q * (b - 1)) by nra.
    rewrite Rabs_left1 by lra. lra.
Qed.

Lemma b_decreasing pp W dh s pp' W' dh' s' :
  (pml_damping pp W dh s + pml_shift pp W s) * p_DT pp <= (pml_damping pp' W' dh' s' + pml_shift pp' W' s') * p_DT pp' ->
  pml_b pp' W' dh' s' <= pml_b pp W dh s.
Proof.
  intros H. unfold pml_b. destruct H as [H|H]; [left; apply exp_increasing; lra|right; rewrite H; reflexivity].
Qed.

(** ** one application of the PML *)
Lemma nm_neqb a b : a <> b -> nm_eqb a b = false.
Proof. intros H. destruct (nm_eqb a b) eqn:E; [|reflexivity]. apply nm_eqb_eq in E. contradiction. Qed.

Lemma apply_point (e : env R_arith) src t vec psi a b (st : rstate) i : distinct3 vec psi ->
  let st' := exec e src t (applyCPML vec psi a b) st in
  st' psi i = e_coef e b i * st psi i + e_coef e a i * st vec i /\ st' vec i = st vec i + st' psi i.
Proof.
  intros (H1&H2&H3). unfold applyCPML, exec. cbn [fold_left exec1]. unfold upd.
  assert (X : forall r, nm_eqb r r = true) by (intros r; apply nm_eqb_eq; reflexivity).
  assert (H1' : psi <> vec) by congruence.
  assert (H2' : nm_s "cpml_temp" <> vec) by congruence.
  assert (H3' : nm_s "cpml_temp" <> psi) by congruence.
  rewrite ?X, ?(nm_neqb _ _ H1), ?(nm_neqb _ _ H2), ?(nm_neqb _ _ H3), ?(nm_neqb _ _ H1'), ?(nm_neqb _ _ H2'), ?(nm_neqb _ _ H3').
  cbn. split; ring.
Qed.

Lemma steps_psi (e : env R_arith) src vec psi a b i M : distinct3 vec psi ->
  0 <= e_coef e b i -> Rabs (e_coef e a i) <= 1 - e_coef e b i -> forall xs (st : rstate) n y,
  Rabs (st psi i) <= M -> (forall k x, (k <= n)%nat -> nth_error xs k = Some x -> Rabs (x i) <= M) ->
  nth_error (pml_steps e src vec psi a b st xs) n = Some y -> Rabs (snd y i) <= M.
Proof.
  intros Hd Hb Ha. induction xs as [|x xs IH]; intros st n y H0 HM Hn; [destruct n; discriminate|].
  cbn [pml_steps] in Hn. set (st' := exec e src 0 (applyCPML vec psi a b) (upd st vec x)) in *.
  assert (Hp : Rabs (st' psi i) <= M).
  { destruct (apply_point e src 0 vec psi a b (upd st vec x) i Hd) as (E&_). fold st' in E. rewrite E.
    unfold upd at 1 2. rewrite (proj2 (nm_eqb_eq vec vec) eq_refl). destruct Hd as (Hd&_). rewrite (nm_neqb _ _ Hd).
    pose proof (HM 0%nat x ltac:(lia) eq_refl) as Hx.
    eapply Rle_trans; [apply Rabs_triang|]. rewrite !Rabs_mult. rewrite (Rabs_right (e_coef e b i)) by lra.
    pose proof (Rabs_pos (x i)). pose proof (Rabs_pos (st psi i)). pose proof (Rabs_pos (e_coef e a i)).
    cbn in *. nra. }
  destruct n as [|n].
  - cbn [nth_error] in Hn. injection Hn as <-. exact Hp.
  - cbn [nth_error] in Hn. eapply IH; [exact Hp| |exact Hn]. intros k z Hk Hz. apply (HM (S k) z); [lia|exact Hz].
Qed.

Lemma steps_zero (e : env R_arith) src vec psi a b i : distinct3 vec psi ->
  e_coef e b i = 0 -> e_coef e a i = 0 -> forall xs (st : rstate) n x y,
  nth_error xs n = Some x -> nth_error (pml_steps e src vec psi a b st xs) n = Some y -> fst y i = x i /\ snd y i = 0.
Proof.
  intros Hd Hb Ha. induction xs as [|x0 xs IH]; intros st n x y Hx Hn; [destruct n; discriminate|].
  cbn [pml_steps] in Hn. destruct n as [|n].
  - cbn [nth_error] in Hx, Hn. injection Hx as ->. injection Hn as <-. cbn [fst snd].
    destruct (apply_point e src 0 vec psi a b (upd st vec x) i Hd) as (E1&E2). cbv zeta in E1, E2.
    assert (Z0 : exec e src 0 (applyCPML vec psi a b) (upd st vec x) psi i = 0).
    { etransitivity; [exact E1|]. rewrite Hb, Ha. cbn. ring. }
    split; [|exact Z0]. etransitivity; [exact E2|]. rewrite Z0. unfold upd.
    rewrite (proj2 (nm_eqb_eq vec vec) eq_refl). cbn. ring.
  - cbn [nth_error] in Hx, Hn. eapply IH; eauto.
Qed.

(** ** the initialisation loop *)
Lemma zseq_nth n : forall s k, (k < n)%nat -> nth_error (zseq s n) k = Some (s + Z.of_nat k)%Z.
Proof.
  induction n as [|n IH]; intros s k H; [lia|]. destruct k as [|k]; cbn [zseq nth_error]; [f_equal; lia|].
  rewrite IH by lia. f_equal. lia.
Qed.
Lemma table_get pp W dh sh i : (0 <= i < W)%Z -> vget (calcCoeffCPML pp W dh sh) i = Ok (cpml_coeff pp W dh sh i).
Proof.
  intros H. unfold vget, calcCoeffCPML. destruct (i <? 0)%Z eqn:E; [lia|].
  erewrite map_nth_error by (apply zseq_nth; lia). do 2 f_equal. lia.
Qed.
Lemma width_eq BW d : (0 < d)%Z -> (- (- BW / d) = (BW + d - 1) / d)%Z.
Proof.
  intros H. pose proof (Z.div_mod (- BW) d ltac:(lia)). pose proof (Z.mod_pos_bound (- BW) d H).
  pose proof (Z.div_mod (BW + d - 1) d ltac:(lia)). pose proof (Z.mod_pos_bound (BW + d - 1) d H). nia.
Qed.

Lemma quot_div a d : (0 <= a)%Z -> (0 < d)%Z -> cdiv a d = Ok (a / d)%Z.
Proof. intros. unfold cdiv. destruct (d =? 0)%Z eqn:E; [lia|]. rewrite Z.quot_div_nonneg by lia. reflexivity. Qed.

Lemma axis_lem pp DH BW d N x skip : physical pp -> 0 < DH -> (0 < d)%Z -> (0 <= x < N)%Z ->
  let w := ((BW + d - 1) / d)%Z in
  exists p, cpml_axis (calcCoeffCPML pp w (DH * IZR d) false) (calcCoeffCPML pp w (DH * IZR d) true) w d x (Z.min x (N - 1 - x)) skip = Ok p /\
    axis_ok pp DH BW d N x (negb skip) p.
Proof.
  intros P HD Hd Hx w. unfold cpml_axis, axis_ok. fold w.
  rewrite quot_div by lia. cbn [bind]. set (dist := (Z.min x (N - 1 - x) / d)%Z).
  assert (D0 : (0 <= dist)%Z) by (apply Z.div_pos; lia).
  assert (HH : 0 < DH * IZR d) by (apply Rmult_lt_0_compat; [lra|apply IZR_lt; lia]).
  destruct (dist <? w)%Z eqn:E1.
  - rewrite quot_div by lia. cbn [bind].
    assert (C0 : forall sh : bool, profile pp w (DH * IZR d) (IZR dist + (if sh then / 2 else 0)) (fst (cpml_coeff pp w (DH * IZR d) sh dist)) (snd (cpml_coeff pp w (DH * IZR d) sh dist)))
      by (intros sh; apply coeff_profile; auto; lia).
    pose proof (C0 false) as Cf. pose proof (C0 true) as Ct. cbv iota in Cf, Ct. rewrite Rplus_0_r in Cf.
    rewrite !table_get by lia. cbn [bind].
    destruct (x / d <? w)%Z eqn:E2.
    + destruct skip; eexists; (split; [reflexivity|]); cbn [negb pt_a pt_b pt_ah pt_bh]; repeat split; try lia; try discriminate; auto;
        try apply Cf; try apply Ct.
    + eexists; (split; [reflexivity|]); cbn [pt_a pt_b pt_ah pt_bh]; repeat split; try lia; try apply Cf; try apply Ct.
  - exists pt0. split; [reflexivity|]. repeat split; try lia; auto.
Qed.

Lemma frame3D_lem g pp DH BW fs i : built g -> physical pp -> 0 < DH -> (0 <= BW)%Z -> (0 <= i < nGridpoints g)%Z ->
  exists c k l px py pz, index2coordinate g i = Ok c /\ getLayer g (cy c) = Ok k /\ vget (layers g) k = Ok l /\
    cpml_init3D pp DH BW fs g i = Ok [px; py; pz] /\ cpml_init2D pp DH BW fs g i = Ok [px; py] /\
    axis_ok pp DH BW (ldh l) (gNX g) (cx c) true px /\
    axis_ok pp DH BW (ldh l) (gNY g) (cy c) (fs =? 0)%Z py /\
    axis_ok pp DH BW (ldh l) (gNZ g) (cz c) true pz.
Proof.
  intros B P HD HB Hi. destruct (point_ok g i B Hi) as (c&k&l&Ec&(Bx&By&Bz)&Ek&El&Hl).
  destruct (axis_lem pp DH BW (ldh l) (gNX g) (cx c) false P HD Hl Bx) as (px&Ex&Ax).
  destruct (axis_lem pp DH BW (ldh l) (gNY g) (cy c) (negb (fs =? 0)%Z) P HD Hl By) as (py&Ey&Ay).
  destruct (axis_lem pp DH BW (ldh l) (gNZ g) (cz c) false P HD Hl Bz) as (pz&Ez&Az).
  exists c, k, l, px, py, pz. rewrite Bool.negb_involutive in Ay.
  assert (W0 : (0 <= (BW + ldh l - 1) / ldh l)%Z) by (apply Z.div_pos; lia).
  split; [exact Ec|]. split; [exact Ek|]. split; [exact El|]. split; [|split; [|split; [exact Ax|split; [exact Ay|exact Az]]]].
  - unfold cpml_init3D, cpml_point, dirs3D. rewrite Ec. cbn [bind]. rewrite Ek. cbn [bind].
    rewrite edge_distance_ok by assumption. cbn [bind]. rewrite El. cbn [bind]. unfold pml_width.
    destruct (ldh l =? 0)%Z eqn:E; [lia|]. cbn [bind]. rewrite width_eq by lia. unfold assert.
    destruct (0 <=? (BW + ldh l - 1) / ldh l)%Z eqn:E'; [|lia]. cbn [bind cx cy cz].
    rewrite Ex. cbn [bind]. rewrite Ey. cbn [bind]. rewrite Ez. reflexivity.
  - unfold cpml_init2D, cpml_point, dirs2D. rewrite Ec. cbn [bind]. rewrite Ek. cbn [bind].
    rewrite edge_distance_ok by assumption. cbn [bind]. rewrite El. cbn [bind]. unfold pml_width.
    destruct (ldh l =? 0)%Z eqn:E; [lia|]. cbn [bind]. rewrite width_eq by lia. unfold assert.
    destruct (0 <=? (BW + ldh l - 1) / ldh l)%Z eqn:E'; [|lia]. cbn [bind cx cy cz].
    rewrite Ex. cbn [bind]. rewrite Ey. reflexivity.
Qed.

(** ** ABS *)
Lemma abs_table_get BW D j : (0 <= j < BW)%Z -> vget (abs_table BW D) j = Ok (abs_coeff BW D j).
Proof.
  intros H. unfold vget, abs_table. destruct (j <? 0)%Z eqn:E; [lia|].
  erewrite map_nth_error by (apply zseq_nth; lia). do 2 f_equal. lia.
Qed.

Lemma abs_coeff_closed BW D j : (0 < BW)%Z -> 0 < D < 100 ->
  abs_coeff BW D j = exp (ln (1 - D / 100) * ((IZR BW - IZR j) / IZR BW * ((IZR BW - IZR j) / IZR BW))).
Proof.
  intros HB HD. apply (IZR_lt 0) in HB. unfold abs_coeff.
  assert (L : ln (1 - D / 100) < 0) by (rewrite <- ln_1; apply ln_increasing; lra).
  rewrite sqrt_sqrt.
  - f_equal. field. lra.
  - apply Rmult_le_pos; [lra|]. left. apply Rinv_0_lt_compat. apply Rmult_lt_0_compat; lra.
Qed.

Lemma abs_range BW D j : (0 <= j < BW)%Z -> 0 < D < 100 -> 1 - D / 100 <= abs_coeff BW D j < 1 /\ abs_coeff BW D 0 = 1 - D / 100.
Proof.
  intros Hj HD. assert (L : ln (1 - D / 100) < 0) by (rewrite <- ln_1; apply ln_increasing; lra).
  rewrite !abs_coeff_closed by (auto; lia).
  assert (W : 0 < IZR BW) by (apply IZR_lt; lia). assert (J0 : 0 <= IZR j) by (apply IZR_le; lia). assert (J1 : IZR j < IZR BW) by (apply IZR_lt; lia).
  set (q := (IZR BW - IZR j) / IZR BW).
  assert (Hq : 0 < q <= 1).
  { unfold q. split; [apply Rmult_lt_0_compat; [lra|apply Rinv_0_lt_compat; lra]|].
    apply (Rmult_le_reg_r (IZR BW)); [lra|]. unfold Rdiv. rewrite Rmult_assoc, Rinv_l by lra. lra. }
  assert (Q2 : 0 < q * q <= 1) by nra.
  split; [split|].
  - rewrite <- (exp_ln (1 - D / 100)) at 1 by lra.
    assert (X : ln (1 - D / 100) <= ln (1 - D / 100) * (q * q)) by nra.
    destruct X as [X|X]; [left; apply exp_increasing; exact X|right; rewrite <- X; reflexivity].
  - assert (X : ln (1 - D / 100) * (q * q) < 0) by (rewrite <- (Rmult_0_l (q * q)); apply Rmult_lt_compat_r; [apply Q2|exact L]).
    apply exp_increasing in X. rewrite exp_0 in X. exact X.
  - replace ((IZR BW - 0) / IZR BW) with 1 by (field; lra). rewrite !Rmult_1_r. apply exp_ln. lra.
Qed.

Lemma abs_mono BW D j k : (0 <= j)%Z -> (j < k < BW)%Z -> 0 < D < 100 -> abs_coeff BW D j < abs_coeff BW D k.
Proof.
  intros Hj Hk HD. assert (L : ln (1 - D / 100) < 0) by (rewrite <- ln_1; apply ln_increasing; lra).
  rewrite !abs_coeff_closed by (auto; lia).
  assert (W : 0 < IZR BW) by (apply IZR_lt; lia). assert (J1 : IZR j < IZR k) by (apply IZR_lt; lia). assert (K1 : IZR k < IZR BW) by (apply IZR_lt; lia).
  set (q := (IZR BW - IZR j) / IZR BW). set (r := (IZR BW - IZR k) / IZR BW).
  assert (Hr : 0 < r) by (apply Rmult_lt_0_compat; [lra|apply Rinv_0_lt_compat; lra]).
  assert (Hq : r < q) by (apply Rmult_lt_compat_r; [apply Rinv_0_lt_compat; lra|lra]).
  apply exp_increasing. assert (r * r < q * q) by nra. nra.
Qed.


Lemma coeff_factor BW D m : (0 <= m < BW)%Z -> 0 < D < 100 -> damping_factor BW D m (abs_coeff BW D m).
Proof.
  intros Hm HD. split; [|lia]. intros _. rewrite abs_coeff_closed by (auto; lia). unfold Rpower. f_equal. ring.
Qed.

Lemma abs_index_init index BW D fs g i c (m : Z) : (0 < BW)%Z -> 0 < D < 100 ->
  index2coordinate g i = Ok c -> (0 <= cx c < gNX g /\ 0 <= cy c < gNY g /\ 0 <= cz c < gNZ g)%Z -> (0 <= m)%Z ->
  index BW fs c (mkC (Z.min (cx c) (gNX g - 1 - cx c)) (Z.min (cy c) (gNY g - 1 - cy c)) (Z.min (cz c) (gNZ g - 1 - cz c)))
    = (if (m <? BW)%Z then Some m else None) ->
  exists f, abs_init index BW D fs g i = Ok f /\ damping_factor BW D m f.
Proof.
  intros HB HD Ec (Bx&By&Bz) Hm E. unfold abs_init. rewrite Ec. cbn [bind]. rewrite edge_distance_ok by assumption. cbn [bind]. rewrite E.
  destruct (m <? BW)%Z eqn:Em.
  - rewrite abs_table_get by lia. eexists. split; [reflexivity|]. apply coeff_factor; [lia|exact HD].
  - exists 1. split; [reflexivity|]. split; [lia|reflexivity].
Qed.

Ltac bz1 := match goal with |- context [if ?b then _ else _] =>
  lazymatch b with context [if _ then _ else _] => fail | _ => let E := fresh "E" in destruct b eqn:E end end.
Ltac bz := repeat bz1; try reflexivity; try (f_equal; lia); try (exfalso; lia).

Lemma abs2D_lem g BW D fs i : built g -> (0 < BW)%Z -> 0 < D < 100 -> (0 <= i < nGridpoints g)%Z ->
  exists c f, index2coordinate g i = Ok c /\ (0 <= cx c < gNX g /\ 0 <= cy c < gNY g /\ 0 <= cz c < gNZ g)%Z /\
    abs_init abs_index2D BW D fs g i = Ok f /\
    (fs = 0%Z -> damping_factor BW D (edge_dist2D g c) f) /\
    (fs <> 0%Z -> (cy c < BW)%Z -> damping_factor BW D (Z.min (cx c) (gNX g - 1 - cx c)) f) /\
    (fs <> 0%Z -> (BW <= cy c)%Z -> damping_factor BW D (edge_dist2D_fs g c) f).
Proof.
  intros B HB HD Hi. destruct (point_ok g i B Hi) as (c&k&l&Ec&Bc&_). exists c.
  pose proof Bc as (Bx&By&Bz).
  destruct (Z.eq_dec fs 0) as [->|Hf].
  - destruct (abs_index_init abs_index2D BW D 0 g i c (edge_dist2D g c) HB HD Ec Bc) as (f&E&F).
    + unfold edge_dist2D; lia.
    + unfold abs_index2D, edge_dist2D; cbn [cx cy Z.eqb]. bz.
    + exists f. repeat split; auto; try lia; apply F.
  - destruct (Z_lt_dec (cy c) BW) as [Hy|Hy].
    + destruct (abs_index_init abs_index2D BW D fs g i c (Z.min (cx c) (gNX g - 1 - cx c)) HB HD Ec Bc) as (f&E&F).
      * lia.
      * unfold abs_index2D; cbn [cx cy]. bz.
      * exists f. repeat split; auto; try lia; apply F.
    + destruct (abs_index_init abs_index2D BW D fs g i c (edge_dist2D_fs g c) HB HD Ec Bc) as (f&E&F).
      * unfold edge_dist2D_fs; lia.
      * unfold abs_index2D, edge_dist2D_fs; cbn [cx cy]. bz.
      * exists f. repeat split; auto; try lia; apply F.
Qed.

Lemma abs3D_lem g BW D fs i : built g -> (0 < BW)%Z -> 0 < D < 100 -> (0 <= i < nGridpoints g)%Z ->
  exists c f, index2coordinate g i = Ok c /\ (0 <= cx c < gNX g /\ 0 <= cy c < gNY g /\ 0 <= cz c < gNZ g)%Z /\
    abs_init abs_index3D BW D fs g i = Ok f /\
    (fs = 0%Z -> damping_factor BW D (edge_dist3D g c) f) /\
    (fs <> 0%Z -> (cy c < BW)%Z -> damping_factor BW D (Z.min (Z.min (cx c) (gNX g - 1 - cx c)) (Z.min (cz c) (gNZ g - 1 - cz c))) f) /\
    (fs <> 0%Z -> (BW <= cy c)%Z -> damping_factor BW D (edge_dist3D_fs g c) f).
Proof.
  intros B HB HD Hi. destruct (point_ok g i B Hi) as (c&k&l&Ec&Bc&_). exists c.
  pose proof Bc as (Bx&By&Bz).
  destruct (Z.eq_dec fs 0) as [->|Hf].
  - destruct (abs_index_init abs_index3D BW D 0 g i c (edge_dist3D g c) HB HD Ec Bc) as (f&E&F).
    + unfold edge_dist3D, edge_dist2D; lia.
    + unfold abs_index3D, coord_min, edge_dist3D, edge_dist2D; cbn [cx cy cz Z.eqb]. bz.
    + exists f. repeat split; auto; try lia; apply F.
  - destruct (Z_lt_dec (cy c) BW) as [Hy|Hy].
    + destruct (abs_index_init abs_index3D BW D fs g i c (Z.min (Z.min (cx c) (gNX g - 1 - cx c)) (Z.min (cz c) (gNZ g - 1 - cz c))) HB HD Ec Bc) as (f&E&F).
      * lia.
      * unfold abs_index3D; cbn [cx cy cz]. bz.
      * exists f. repeat split; auto; try lia; apply F.
    + destruct (abs_index_init abs_index3D BW D fs g i c (edge_dist3D_fs g c) HB HD Ec Bc) as (f&E&F).
      * unfold edge_dist3D_fs, edge_dist2D_fs; lia.
      * unfold abs_index3D, coord_min, edge_dist3D_fs, edge_dist2D_fs; cbn [cx cy cz]. bz.
      * exists f. repeat split; auto; try lia; apply F.
Qed.

Lemma factor_range BW D m f : (0 < BW)%Z -> 0 < D < 100 -> (0 <= m)%Z -> damping_factor BW D m f ->
  ((m < BW)%Z -> 1 - D / 100 <= f < 1) /\ ((BW <= m)%Z -> f = 1) /\ 0 < f <= 1.
Proof.
  intros HB HD Hm F.
  assert (A : (m < BW)%Z -> 1 - D / 100 <= f < 1).
  { intros H. destruct (coeff_factor BW D m ltac:(lia) HD) as (E&_). destruct F as (F&_). rewrite (F H), <- (E H).
    apply abs_range; [lia|exact HD]. }
  assert (C : (BW <= m)%Z -> f = 1) by apply F.
  split; [exact A|]. split; [exact C|]. destruct (Z_lt_dec m BW) as [H|H]; [specialize (A H)|rewrite C by lia]; lra.
Qed.
Lemma factor_mono BW D m f m' f' : (0 < BW)%Z -> 0 < D < 100 -> (0 <= m)%Z -> (m < m')%Z -> (m < BW)%Z ->
  damping_factor BW D m f -> damping_factor BW D m' f' -> f < f'.
Proof.
  intros HB HD Hm Hmm Hb F F'.
  destruct (Z_lt_dec m' BW) as [H|H].
  - destruct (coeff_factor BW D m ltac:(lia) HD) as (E&_). destruct F as (F&_). rewrite (F Hb), <- (E Hb).
    destruct (coeff_factor BW D m' ltac:(lia) HD) as (E'&_). destruct F' as (F'&_). rewrite (F' H), <- (E' H).
    apply abs_mono; [lia|lia|exact HD].
  - destruct (factor_range BW D m' f' HB HD ltac:(lia) F') as (_&A&_). rewrite A by lia.
    apply (factor_range BW D m f HB HD Hm F). exact Hb.
Qed.

(** ** counting *)
Lemma count_all_concat f owned : count_all f owned = count_owned f (concat owned).
Proof.
  induction owned as [|l o IH]; [reflexivity|]. cbn [count_all concat]. rewrite IH. clear IH.
  induction l as [|i l IH]; [cbn; destruct (count_owned f (concat o)); reflexivity|].
  cbn [count_owned app]. rewrite <- IH. destruct (f i); try reflexivity. cbn [bind].
  destruct (count_owned f l); try reflexivity. cbn [bind].
  destruct (count_owned f (concat o)); try reflexivity. cbn [bind]. f_equal. lia.
Qed.

Lemma count_filter (f : Z -> res Z) (p : Z -> bool) l : (forall i, In i l -> f i = Ok (if p i then 1 else 0)%Z) ->
  count_owned f l = Ok (Z.of_nat (length (filter p l))).
Proof.
  induction l as [|i l IH]; intros H; [reflexivity|]. cbn [count_owned filter].
  rewrite (H i (or_introl eq_refl)). cbn [bind]. rewrite IH by (intros; apply H; right; auto). cbn [bind].
  destruct (p i); cbn [length]; f_equal; lia.
Qed.

Lemma zseq_in n : forall s i, In i (zseq s n) <-> (s <= i < s + Z.of_nat n)%Z.
Proof.
  induction n as [|n IH]; intros s i; cbn [zseq In]; [lia|]. rewrite IH. lia.
Qed.
Lemma zseq_nodup n : forall s, NoDup (zseq s n).
Proof.
  induction n as [|n IH]; intros s; cbn [zseq]; constructor; [rewrite zseq_in; lia|apply IH].
Qed.

Lemma count_lem (f : Z -> res Z) (p : Z -> bool) n owned (P : Z -> Prop) : distribution n owned ->
  (forall i, (0 <= i < n)%Z -> f i = Ok (if p i then 1 else 0)%Z /\ (p i = true <-> P i)) ->
  exists k, count_all f owned = Ok k /\ number_of n P k.
Proof.
  intros D H. rewrite count_all_concat.
  assert (X : forall i, In i (concat owned) <-> (0 <= i < n)%Z).
  { intros i. split; intros Hi.
    - apply (Permutation_in _ D) in Hi. apply zseq_in in Hi. lia.
    - apply (Permutation_in _ (Permutation_sym D)). apply zseq_in. lia. }
  rewrite (count_filter f p) by (intros i Hi; apply H, X, Hi).
  eexists. split; [reflexivity|]. exists (filter p (concat owned)).
  split; [apply NoDup_filter; eapply Permutation_NoDup; [apply Permutation_sym, D|apply zseq_nodup]|].
  split; [|reflexivity]. intros i. rewrite filter_In, X. split; intros (A&B); (split; [exact A|]); apply (H i A); exact B.
Qed.

(** ABS: the estimate counts the points with a factor below 1 *)
Lemma abs_count2D_lem g BW D fs owned : built g -> (0 < BW)%Z -> 0 < D < 100 -> distribution (nGridpoints g) owned ->
  exists k, abs_count2D BW fs g owned = Ok k /\
    number_of (nGridpoints g) (fun i => exists f, abs_init abs_index2D BW D fs g i = Ok f /\ f < 1) k.
Proof.
  intros B HB HD Dd. unfold abs_count2D, abs_count.
  apply (count_lem _ (fun i => match index2coordinate g i with Ok c => match edgeDistance g c with Ok d => abs_counts2D BW fs c d | _ => false end | _ => false end));
    [exact Dd|].
  intros i Hi. destruct (point_ok g i B Hi) as (c&k&l&Ec&Bc&_). pose proof Bc as (Bx&By&Bz).
  unfold abs_init. rewrite Ec. cbn [bind]. rewrite edge_distance_ok by assumption. cbn [bind]. split; [reflexivity|].
  set (dd := mkC _ _ _).
  assert (Z : abs_counts2D BW fs c dd = match abs_index2D BW fs c dd with Some _ => true | None => false end).
  { unfold abs_counts2D, abs_index2D. bz. }
  rewrite Z. destruct (abs_index2D BW fs c dd) as [j|] eqn:Ej.
  - split; [intros _|reflexivity].
    assert (Hj : (0 <= j < BW)%Z).
    { revert Ej. unfold abs_index2D. subst dd. cbn [cx cy].
      repeat bz1; try discriminate;
      intros Hq; injection Hq as <-; lia. }
    rewrite abs_table_get by exact Hj. eexists. split; [reflexivity|]. apply (abs_range BW D j Hj HD).
  - split; [discriminate|]. intros (f&E&Hf). injection E as <-. lra.
Qed.
Lemma abs_count3D_lem g BW D fs owned : built g -> (0 < BW)%Z -> 0 < D < 100 -> distribution (nGridpoints g) owned ->
  exists k, abs_count3D BW fs g owned = Ok k /\
    number_of (nGridpoints g) (fun i => exists f, abs_init abs_index3D BW D fs g i = Ok f /\ f < 1) k.
Proof.
  intros B HB HD Dd. unfold abs_count3D, abs_count.
  apply (count_lem _ (fun i => match index2coordinate g i with Ok c => match edgeDistance g c with Ok d => abs_counts3D BW fs c d | _ => false end | _ => false end));
    [exact Dd|].
  intros i Hi. destruct (point_ok g i B Hi) as (c&k&l&Ec&Bc&_). pose proof Bc as (Bx&By&Bz).
  unfold abs_init. rewrite Ec. cbn [bind]. rewrite edge_distance_ok by assumption. cbn [bind]. split; [reflexivity|].
  set (dd := mkC _ _ _).
  assert (Z : abs_counts3D BW fs c dd = match abs_index3D BW fs c dd with Some _ => true | None => false end).
  { unfold abs_counts3D, abs_index3D. bz. }
  rewrite Z. destruct (abs_index3D BW fs c dd) as [j|] eqn:Ej.
  - split; [intros _|reflexivity].
    assert (Hj : (0 <= j < BW)%Z).
    { revert Ej. unfold abs_index3D, coord_min. subst dd. cbn [cx cy cz].
      repeat bz1; try discriminate;
      intros Hq; injection Hq as <-; lia. }
    rewrite abs_table_get by exact Hj. eexists. split; [reflexivity|]. apply (abs_range BW D j Hj HD).
  - split; [discriminate|]. intros (f&E&Hf). injection E as <-. lra.
Qed.
