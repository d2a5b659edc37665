(** Properties C139-C140: the Butterworth polynomial and the transfer functions. *)
From Coq Require Import Reals Lra Lia Ring String.
From Verif Require Import Base M_Seis M_Common L_Common M_Acq M_Conf M_Fft L_Fft S_Fft P_Fft S_Butter M_Butter L_Butter L_Butter2 L_Butter3 L_Acq.
Open Scope Z_scope.
Local Notation length := List.length.

(** ** C139: the polynomial *)
Theorem C139_polynomial : forall order, (2 <= order)%nat ->
  exists p, calcButterPoly order = Ok p /\ length p = S order /\ forall s, pval p s = butterworth order s.
Proof. exact calcButterPoly_ok. Qed.
(** A filter of order 0 or 1 cannot be designed. *)
Theorem C139_small_order : forall order, (order < 2)%nat -> calcButterPoly order = Throw.
Proof. exact calcButterPoly_small. Qed.
(** All zeros of the polynomial have a negative real part. *)
Theorem C139_stable : forall order p s, calcButterPoly order = Ok p -> pval p s = C0 -> (fst s < 0)%R.
Proof.
  intros order p s E Z. destruct (Nat.lt_ge_cases order 2) as [H|H]; [rewrite (calcButterPoly_small _ H) in E; discriminate|].
  destruct (calcButterPoly_ok order H) as (p' & E' & _ & V). rewrite E' in E. injection E as <-. rewrite V in Z.
  destruct (Rlt_dec (fst s) 0) as [L|L]; [exact L|]. exfalso. apply (butterworth_stable order s); [lra|exact Z].
Qed.
(** The squared magnitude on the imaginary axis. *)
Theorem C139_magnitude : forall order p x, calcButterPoly order = Ok p -> modulus2 (pval p (0, x)%R) = (1 + x ^ (2 * order))%R.
Proof.
  intros order p x E. destruct (Nat.lt_ge_cases order 2) as [H|H]; [rewrite (calcButterPoly_small _ H) in E; discriminate|].
  destruct (calcButterPoly_ok order H) as (p' & E' & _ & V). rewrite E' in E. injection E as <-. rewrite V, butterworth_gain.
  destruct (Nat.eqb_spec order 0); [lia|reflexivity].
Qed.

(** ** Frequencies *)
Lemma init_frequencies dt nt f : (0 < dt)%R -> 3 <= nt -> filter_init dt nt = Ok f ->
  let L := calcNextPowTwo (nt - 1) in
  exists e, 1 <= e /\ L = 2 * 2 ^ (e - 1) /\ frequencyVector f = Ok (map (bin_frequency L dt) (zseq 0 (Z.to_nat L))).
Proof.
  intros HD HN E L. exists (Z.log2_up (nt - 1)). assert (P : 0 < Z.log2_up (nt - 1)) by (apply Z.log2_up_pos; lia).
  assert (EL : L = 2 * 2 ^ (Z.log2_up (nt - 1) - 1)).
  { unfold L. rewrite nextPow_log2 by lia. rewrite <- Z.pow_succ_r by lia. f_equal. lia. }
  split; [lia|]. split; [exact EL|].
  unfold filter_init in E. destruct (Req_EM_T dt 0); [lra|]. destruct (Z.eqb_spec nt 0); [lia|]. injection E as <-.
  unfold frequencyVector. cbn [fNyquist df]. fold L. replace (L - nt + nt) with L by lia.
  set (h := 2 ^ (Z.log2_up (nt - 1) - 1)) in *. assert (HP : 0 < h) by (apply Z.pow_pos_nonneg; lia). clearbody h. clearbody L. subst L.
  assert (RH : (0 < IZR h)%R) by (apply IZR_lt; exact HP).
  replace (1 / (2 * dt) / (1 / (IZR (2 * h) * dt)))%R with (IZR h) by (rewrite mult_IZR; field; split; lra).
  rewrite truncR_nonneg by lra. rewrite int_part_IZR. destruct (Z.ltb_spec h 1); [lia|]. f_equal.
  replace (Z.to_nat (2 * h)) with (Z.to_nat (h + 1) + Z.to_nat (h - 1))%nat by lia.
  assert (APP : forall a b s, zseq s (a + b) = (zseq s a ++ zseq (s + Z.of_nat a) b)%list).
  { intros a. induction a as [|a IH]; intros b s; [cbn; f_equal; lia|]. cbn [zseq Nat.add app]. rewrite IH. do 3 f_equal. lia. }
  rewrite APP, map_app. f_equal.
  - apply map_ext_in. intros i Hi. apply zseq_in in Hi. unfold bin_frequency. destruct (Z.leb_spec (2 * i) (2 * h)); [|lia].
    rewrite mult_IZR. field. lra.
  - replace (Z.of_nat (Z.to_nat (h + 1))) with (h + 1) by lia.
    assert (SH : forall m a, zseq (a + (h + 1)) m = map (fun i => i + (h + 1)) (zseq a m)).
    { induction m as [|m IH]; intros a; [reflexivity|]. cbn. f_equal. rewrite <- IH. f_equal. lia. }
    rewrite SH, map_map. apply map_ext_in. intros i Hi. apply zseq_in in Hi. unfold bin_frequency.
    destruct (Z.leb_spec (2 * (i + (h + 1))) (2 * h)); [lia|].
    replace (i + (h + 1) - 2 * h) with (i - (h - 1)) by lia. rewrite (minus_IZR i), mult_IZR. field. lra.
Qed.

(** ** Values *)
Lemma fold_horner (z : C) (p : list R) (s : nat) :
  fold_right Cadd C0 (map2 Cmul (map (Cpow z) (seq s (length p))) (map Creal p)) = Cmul (Cpow z s) (horner (map Creal p) z).
Proof.
  revert s. induction p as [|c p IH]; intros s; [cbn; ring|].
  cbn [length seq map]. unfold map2 in *. cbn [combine map fold_right]. rewrite IH. cbn [Cpow horner map fst snd]. ring.
Qed.
Lemma butterValue_ok p order fc poly f : length poly = S order -> butterValue p order fc poly f = Cinv (pval poly (normFreq p fc f)).
Proof.
  intros H. unfold butterValue, freqRow. rewrite <- H, fold_horner, pval_horner. f_equal. cbn [Cpow]. ring.
Qed.
Lemma pval_0 order : (0 < order)%nat -> butterworth order (0, 0)%R = C1.
Proof.
  intros H. rewrite butterworth_factors by exact H.
  assert (A : forall m g, cprod m (fun k => quad (g k) (0, 0)%R) = C1).
  { induction m as [|m IH]; intros g; [reflexivity|]. cbn [cprod]. rewrite IH. unfold quad, Cadd, Cmul, Creal, C1. cbn. f_equal; ring. }
  rewrite A. destruct (Nat.even order); unfold Cmul, Cadd, C1; cbn; f_equal; ring.
Qed.
Lemma bin_zero L dt i : (0 < dt)%R -> 0 <= i < L -> bin_frequency L dt i = 0%R <-> i = 0.
Proof.
  intros HD H. unfold bin_frequency. assert (P : (0 < IZR L * dt)%R) by (apply Rmult_lt_0_compat; [apply IZR_lt; lia|exact HD]). split.
  - intros E. assert (X : IZR (if 2 * i <=? L then i else i - L) = 0%R).
    { apply (Rmult_eq_reg_r (/ (IZR L * dt))); [|apply Rinv_neq_0_compat; lra]. rewrite Rmult_0_l. exact E. }
    apply eq_IZR_R0 in X. destruct (2 * i <=? L); lia.
  - intros ->. destruct (Z.leb_spec (2 * 0) L); [|lia]. unfold Rdiv. ring.
Qed.
Lemma pass_ok p L dt order fc : (0 < dt)%R -> 0 < L -> (2 <= order)%nat ->
  calcButterworthPass p (map (bin_frequency L dt) (zseq 0 (Z.to_nat L))) order fc =
  Ok (map (fun i => match p with lowPass => lp_value order fc (bin_frequency L dt i) | highPass => hp_value order fc (bin_frequency L dt i) end)
          (zseq 0 (Z.to_nat L))).
Proof.
  intros HD HL HO. unfold calcButterworthPass. destruct (calcButterPoly_ok order HO) as (poly & E & LP & V). rewrite E. cbn [bind].
  rewrite map_map. destruct (Z.to_nat L) as [|n] eqn:EN; [lia|]. cbn [zseq map]. rewrite vput_0. f_equal. f_equal.
  - assert (B : bin_frequency L dt 0 = 0%R) by (apply bin_zero; [exact HD|lia|reflexivity]). rewrite B. destruct p.
    + unfold lp_value. replace (0 / fc)%R with 0%R by (unfold Rdiv; ring). rewrite pval_0 by lia. unfold Cinv, C1. cbn. f_equal; field.
    + unfold hp_value. destruct (Req_EM_T 0 0); [reflexivity|contradiction].
  - apply map_ext_in. intros i Hi. apply zseq_in in Hi. rewrite butterValue_ok by exact LP. rewrite V.
    destruct p; [reflexivity|]. unfold hp_value. destruct (Req_EM_T (bin_frequency L dt i) 0) as [Z0|]; [|reflexivity].
    apply bin_zero in Z0; [lia|exact HD|lia].
Qed.

(** ** C140: gains *)
Definition is_word (s : str) (w : string) : Prop := lower s = list_ascii_of_string w.
Lemma even_pow_nonneg x n : (0 <= x ^ (2 * n))%R.
Proof. rewrite pow_mult. apply pow_le. cbn. pose proof (Rle_0_sqr x). unfold Rsqr in *. lra. Qed.
Lemma even_pow_opp x n : ((- x) ^ (2 * n) = x ^ (2 * n))%R.
Proof. rewrite !pow_mult. f_equal. cbn. ring. Qed.
Lemma lp_gain order fc f : (2 <= order)%nat -> modulus2 (lp_value order fc f) = lp_gain2 order fc f.
Proof.
  intros H. unfold lp_value, lp_gain2. pose proof (butterworth_gain order (f / fc)) as G. destruct (Nat.eqb_spec order 0); [lia|].
  pose proof (even_pow_nonneg (f / fc) order). rewrite modulus2_inv; rewrite G; [field; lra|lra].
Qed.
Lemma hp_gain order fc f : (2 <= order)%nat -> modulus2 (hp_value order fc f) = hp_gain2 order fc f.
Proof.
  intros H. unfold hp_value, hp_gain2. destruct (Req_EM_T f 0) as [|N]; [unfold modulus2, C0; cbn; ring|].
  pose proof (butterworth_gain order (- fc / f)) as G. destruct (Nat.eqb_spec order 0); [lia|].
  replace (- fc / f)%R with (- (fc / f))%R in * by (field; exact N). rewrite even_pow_opp in G.
  pose proof (even_pow_nonneg (fc / f) order). rewrite modulus2_inv; rewrite G; [field; lra|lra].
Qed.
Theorem C140_values : forall dt nt f typ order fc1 fc2, (0 < dt)%R -> 3 <= nt -> filter_init dt nt = Ok f ->
  (2 <= order)%nat -> (0 < fc1)%R ->
  let L := calcNextPowTwo (nt - 1) in
  let freqs := map (bin_frequency L dt) (zseq 0 (Z.to_nat L)) in
  (is_word typ "lp" -> calcButterworthFilt f typ order fc1 fc2 = Ok (map (lp_value order fc1) freqs)) /\
  (is_word typ "hp" -> calcButterworthFilt f typ order fc1 fc2 = Ok (map (hp_value order fc1) freqs)) /\
  (is_word typ "bp" -> fc2 <> 0%R ->
     calcButterworthFilt f typ order fc1 fc2 = Ok (map (fun x => Cmul (lp_value order fc2 x) (hp_value order fc1 x)) freqs)).
Proof.
  intros dt nt f typ order fc1 fc2 HD HN HI HO HF L freqs.
  destruct (init_frequencies dt nt f HD HN HI) as (e & He & EL & EF). fold L in EL, EF.
  assert (PL : 0 < L) by (rewrite EL; pose proof (Z.pow_pos_nonneg 2 (e - 1)); lia).
  unfold calcButterworthFilt, is_word, str_eqb. destruct (Rlt_dec 0 fc1) as [_|]; [|contradiction]. cbn [negb]. rewrite EF. cbn [bind].
  split; [|split].
  - intros ->. cbn [list_ascii_of_string]. destruct (list_eq_dec _ _ _) as [_|X]; [|contradiction X; reflexivity].
    rewrite pass_ok by assumption. f_equal. unfold freqs. rewrite map_map. reflexivity.
  - intros ->. destruct (list_eq_dec _ _ _) as [X|_]; [discriminate|]. destruct (list_eq_dec _ _ _) as [_|X]; [|contradiction X; reflexivity].
    rewrite pass_ok by assumption. f_equal. unfold freqs. rewrite map_map. reflexivity.
  - intros -> H2. do 2 (destruct (list_eq_dec _ _ _) as [X|_]; [discriminate|]). destruct (list_eq_dec _ _ _) as [_|X]; [|contradiction X; reflexivity].
    unfold calcButterworthBp. destruct (Req_EM_T fc2 0) as [|_]; [contradiction|]. rewrite !pass_ok by assumption. cbn [bind]. f_equal.
    unfold freqs. rewrite map_map. unfold map2. clear. induction (zseq 0 (Z.to_nat L)) as [|i l IH]; [reflexivity|]. cbn. rewrite IH. reflexivity.
Qed.
(** The squared gains at every entry. *)
Theorem C140_gain : forall dt nt f typ order fc1 fc2 c, (0 < dt)%R -> 3 <= nt -> filter_init dt nt = Ok f ->
  calcButterworthFilt f typ order fc1 fc2 = Ok c ->
  let L := calcNextPowTwo (nt - 1) in
  Z.of_nat (length c) = L /\
  forall i, 0 <= i < L -> let x := bin_frequency L dt i in let g := modulus2 (nth (Z.to_nat i) c C0) in
    (is_word typ "lp" /\ g = lp_gain2 order fc1 x) \/ (is_word typ "hp" /\ g = hp_gain2 order fc1 x) \/
    (is_word typ "bp" /\ g = (lp_gain2 order fc2 x * hp_gain2 order fc1 x)%R).
Proof.
  intros dt nt f typ order fc1 fc2 c HD HN HI HC L.
  destruct (init_frequencies dt nt f HD HN HI) as (e & He & EL & EF). fold L in EL, EF.
  assert (PL : 0 < L) by (rewrite EL; pose proof (Z.pow_pos_nonneg 2 (e - 1)); lia).
  assert (HO : (2 <= order)%nat /\ (0 < fc1)%R /\ (is_word typ "lp" \/ is_word typ "hp" \/ (is_word typ "bp" /\ fc2 <> 0%R))).
  { unfold calcButterworthFilt, str_eqb in HC. destruct (Rlt_dec 0 fc1) as [H1|]; [|discriminate]. cbn [negb] in HC. rewrite EF in HC. cbn [bind] in HC.
    destruct (Nat.lt_ge_cases order 2) as [H|H].
    - exfalso. unfold calcButterworthBp, calcButterworthPass in HC. rewrite (calcButterPoly_small _ H) in HC. cbn [bind] in HC.
      repeat (destruct (list_eq_dec _ _ _); [try discriminate|]); try discriminate; destruct (Req_EM_T fc2 0); discriminate.
    - split; [exact H|]. split; [exact H1|]. unfold is_word. destruct (list_eq_dec _ _ _) as [X|_]; [tauto|].
      destruct (list_eq_dec _ _ _) as [X|_]; [tauto|]. destruct (list_eq_dec _ _ _) as [X|_]; [|discriminate].
      unfold calcButterworthBp in HC. destruct (Req_EM_T fc2 0); [discriminate|tauto]. }
  destruct HO as (HO & H1 & HT). pose proof (C140_values dt nt f typ order fc1 fc2 HD HN HI HO H1) as (V1 & V2 & V3). fold L in V1, V2, V3.
  assert (NTH : forall (g : R -> C) i, 0 <= i < L ->
     nth (Z.to_nat i) (map g (map (bin_frequency L dt) (zseq 0 (Z.to_nat L)))) C0 = g (bin_frequency L dt i)).
  { intros g i Hi. rewrite map_map. rewrite (nth_indep _ C0 (g (bin_frequency L dt 0))) by (rewrite map_length, zseq_length; lia).
    rewrite (map_nth (fun j => g (bin_frequency L dt j))). do 2 f_equal.
    assert (ZN : forall n a k, (k < n)%nat -> nth k (zseq a n) 0 = a + Z.of_nat k).
    { induction n as [|n IH]; intros a k Hk; [lia|]. destruct k as [|k]; cbn [zseq nth]; [lia|]. rewrite IH by lia. lia. }
    rewrite ZN by lia. lia. }
  destruct HT as [T|[T|[T T2]]].
  - rewrite (V1 T) in HC. injection HC as <-. split; [rewrite !map_length, zseq_length; lia|]. intros i Hi x g. left. split; [exact T|].
    unfold g. rewrite NTH by exact Hi. apply lp_gain. exact HO.
  - rewrite (V2 T) in HC. injection HC as <-. split; [rewrite !map_length, zseq_length; lia|]. intros i Hi x g. right. left. split; [exact T|].
    unfold g. rewrite NTH by exact Hi. apply hp_gain. exact HO.
  - rewrite (V3 T T2) in HC. injection HC as <-. split; [rewrite !map_length, zseq_length; lia|]. intros i Hi x g. right. right. split; [exact T|].
    unfold g. rewrite NTH by exact Hi. rewrite modulus2_mul, lp_gain, hp_gain by exact HO. reflexivity.
Qed.
(** What the formulas mean: the gain is one half (in power) at the corner frequency, lies between 0 and 1, falls with
    the frequency for a low pass and rises for a high pass. *)
Theorem C140_shape : forall order fc f g, (1 <= order)%nat -> (0 < fc)%R -> (0 <= f < g)%R ->
  lp_gain2 order fc fc = (1 / 2)%R /\ hp_gain2 order fc fc = (1 / 2)%R /\ lp_gain2 order fc 0 = 1%R /\ hp_gain2 order fc 0 = 0%R /\
  (0 < lp_gain2 order fc g < lp_gain2 order fc f)%R /\ (lp_gain2 order fc f <= 1)%R /\
  (hp_gain2 order fc f < hp_gain2 order fc g < 1)%R /\ (0 <= hp_gain2 order fc f)%R.
Proof.
  intros order fc f g HO HF HG.
  assert (ONE : (1 ^ (2 * order) = 1)%R) by apply pow1.
  assert (ZERO : (0 ^ (2 * order) = 0)%R) by (apply pow_i; lia).
  assert (MON : forall x y, (0 <= x < y)%R -> (x ^ (2 * order) < y ^ (2 * order))%R).
  { intros x y H. rewrite !(pow_mult _ 2). cbn [pow]. rewrite !Rmult_1_r.
    assert (Q : (0 <= x * x < y * y)%R) by (split; [pose proof (Rle_0_sqr x); unfold Rsqr in *; lra|apply Rmult_le_0_lt_compat; lra]).
    revert Q. generalize (x * x)%R (y * y)%R. intros a b Q. clear - Q HO. induction order as [|n IH]; [lia|]. destruct n as [|n]; [cbn; lra|].
    specialize (IH ltac:(lia)). change ((a * a ^ S n < b * b ^ S n)%R).
    apply Rmult_le_0_lt_compat; try lra. apply pow_le. lra. }
  assert (DIV : forall a b, (0 <= a < b)%R -> (1 / (1 + b) < 1 / (1 + a))%R).
  { intros a b H. unfold Rdiv. rewrite !Rmult_1_l. apply Rinv_lt_contravar; [apply Rmult_lt_0_compat|]; lra. }
  assert (LE1 : forall a, (0 <= a)%R -> (1 / (1 + a) <= 1)%R).
  { intros a H. apply (Rmult_le_reg_r (1 + a)); [lra|]. unfold Rdiv. rewrite Rmult_assoc, Rinv_l by lra. lra. }
  assert (GT0 : forall a, (0 <= a)%R -> (0 < 1 / (1 + a))%R) by (intros; apply Rdiv_lt_0_compat; lra).
  assert (FP : forall x, (0 <= x)%R -> (0 <= x / fc)%R) by (intros; apply Rmult_le_pos; [lra|left; apply Rinv_0_lt_compat; lra]).
  assert (LP : (f / fc < g / fc)%R) by (apply Rmult_lt_compat_r; [apply Rinv_0_lt_compat; lra|lra]).
  unfold lp_gain2, hp_gain2.
  split. { replace (fc / fc)%R with 1%R by (field; lra). rewrite ONE. lra. }
  split. { destruct (Req_EM_T fc 0); [lra|]. replace (fc / fc)%R with 1%R by (field; lra). rewrite ONE. lra. }
  split. { replace (0 / fc)%R with 0%R by (unfold Rdiv; ring). rewrite ZERO. lra. }
  split. { destruct (Req_EM_T 0 0); [reflexivity|contradiction]. }
  split. { split; [apply GT0, even_pow_nonneg|]. apply DIV. split; [apply even_pow_nonneg|]. apply MON. split; [apply FP; lra|exact LP]. }
  split. { apply LE1, even_pow_nonneg. }
  destruct (Req_EM_T g 0); [lra|].
  assert (GP : (0 < fc / g)%R) by (apply Rdiv_lt_0_compat; lra).
  assert (G0 : (0 < (fc / g) ^ (2 * order))%R) by (apply pow_lt; exact GP).
  split; [|destruct (Req_EM_T f 0); [lra|left; apply GT0, even_pow_nonneg]].
  split.
  - destruct (Req_EM_T f 0) as [|N]; [apply GT0; lra|]. apply DIV. split; [lra|]. apply MON. split; [lra|].
    unfold Rdiv. apply Rmult_lt_compat_l; [exact HF|]. apply Rinv_lt_contravar; [apply Rmult_lt_0_compat|]; lra.
  - apply (Rmult_lt_reg_r (1 + (fc / g) ^ (2 * order))); [lra|]. unfold Rdiv at 1. rewrite Rmult_assoc, Rinv_l by lra. lra.
Qed.
Theorem C140_rejected : forall o fam typ order fc1 fc2,
  (~ is_word fam "butterworth" -> ~ is_word fam "ideal" -> obj_calc o fam typ order fc1 fc2 = Throw) /\
  (is_word fam "butterworth" -> (fc1 <= 0)%R -> obj_calc o fam typ order fc1 fc2 = Throw) /\
  (is_word fam "butterworth" -> is_word typ "bp" -> fc2 = 0%R -> frequencyVector (base o) <> UB -> obj_calc o fam typ order fc1 fc2 = Throw) /\
  (is_word fam "butterworth" -> (order < 2)%nat -> frequencyVector (base o) <> UB -> obj_calc o fam typ order fc1 fc2 = Throw) /\
  (is_word fam "ideal" -> ~ is_word typ "bp" -> obj_calc o fam typ order fc1 fc2 = Throw).
Proof.
  intros o fam typ order fc1 fc2. unfold is_word, obj_calc, str_eqb.
  assert (NU : frequencyVector (base o) <> UB -> exists v, frequencyVector (base o) = Ok v).
  { unfold frequencyVector. destruct (_ <? 1); [contradiction|eauto]. }
  split. { intros N1 N2. destruct (list_eq_dec _ _ _); [contradiction|]. destruct (list_eq_dec _ _ _); [contradiction|reflexivity]. }
  split. { intros -> H. destruct (list_eq_dec _ _ _) as [_|X]; [|contradiction X; reflexivity]. unfold calcButterworthFilt.
           destruct (Rlt_dec 0 fc1); [lra|reflexivity]. }
  split. { intros -> T -> U. destruct (NU U) as (v & EV). destruct (list_eq_dec _ _ _) as [_|X]; [|contradiction X; reflexivity]. unfold calcButterworthFilt, str_eqb.
           destruct (Rlt_dec 0 fc1); [|reflexivity]. cbn [negb]. rewrite EV. cbn [bind]. rewrite T.
           do 2 (destruct (list_eq_dec _ _ _) as [X|_]; [discriminate|]). destruct (list_eq_dec _ _ _) as [_|X]; [|contradiction X; reflexivity].
           unfold calcButterworthBp. destruct (Req_EM_T 0 0); [reflexivity|contradiction]. }
  split. { intros -> H U. destruct (NU U) as (v & EV). destruct (list_eq_dec _ _ _) as [_|X]; [|contradiction X; reflexivity]. unfold calcButterworthFilt, str_eqb.
           destruct (Rlt_dec 0 fc1); [|reflexivity]. cbn [negb]. rewrite EV. cbn [bind]. unfold calcButterworthBp, calcButterworthPass.
           rewrite (calcButterPoly_small _ H). cbn [bind]. repeat (destruct (list_eq_dec _ _ _); [try reflexivity|]); try reflexivity. destruct (Req_EM_T fc2 0); reflexivity. }
  intros -> N. destruct (list_eq_dec _ _ _) as [X|_]; [discriminate|]. destruct (list_eq_dec _ _ _) as [_|X]; [|contradiction X; reflexivity].
  unfold calcIdealFilt, str_eqb. destruct (Rlt_dec 0 fc1); [|reflexivity]. cbn [negb]. destruct (list_eq_dec _ _ _); [contradiction|reflexivity].
Qed.

(** ** Cases *)
(** Order 2: the coefficients 1, sqrt 2, 1. *)
Example C139_case : calcButterPoly 2 = Ok [1%R; sqrt 2; 1%R].
Proof.
  destruct (C139_polynomial 2 ltac:(lia)) as (p & E & L & V). rewrite E. f_equal.
  destruct p as [|a [|b [|c [|d p]]]]; cbn in L; try lia. clear L E.
  assert (B : butterLinear 2 1 = sqrt 2).
  { unfold butterLinear. replace ((2 * INR 1 + INR 2 - 1) / (2 * INR 2) * PI)%R with (3 * (PI / 4))%R by (cbn; field).
    rewrite cos_3PI4. assert (S2 : (sqrt 2 * sqrt 2 = 2)%R) by (apply sqrt_sqrt; lra). assert (sqrt 2 <> 0)%R by (intros X; rewrite X in S2; lra).
    apply (Rmult_eq_reg_r (sqrt 2)); [|assumption]. rewrite S2. field. assumption. }
  assert (V' : forall x, pval [a; b; c] (x, 0)%R = (1 + sqrt 2 * x + x * x, 0)%R).
  { intros x. rewrite V, butterworth_factors by lia. change (2 / 2)%nat with 1%nat. cbn [cprod Nat.even]. rewrite B.
    unfold quad, Cadd, Cmul, Creal, C1. cbn. f_equal; ring. }
  assert (W : forall x, pval [a; b; c] (x, 0)%R = (a + b * x + c * (x * x), 0)%R).
  { intros x. unfold pval, power, csum, cprod, Cadd, Cmul, C0, C1. cbn. f_equal; ring. }
  pose proof (V' 0%R) as V0. pose proof (V' 1%R) as V1. pose proof (V' (-1)%R) as V2. rewrite W in V0, V1, V2. injection V0 as V0. injection V1 as V1. injection V2 as V2.
  f_equal; [lra|]. f_equal; [lra|]. f_equal. lra.
Qed.
(** A low pass with corner frequency 1/4 for 4 samples at distance 1: half of the power at the corner. *)
Example C140_case : exists f c, filter_init 1 4 = Ok f /\ calcButterworthFilt f (list_ascii_of_string "LP") 4 (1 / 4) 0 = Ok c /\
  length c = 4%nat /\ modulus2 (nth 1 c C0) = (1 / 2)%R.
Proof.
  destruct (filter_init_ok 1 4 ltac:(lra) ltac:(lia)) as (f & E). exists f.
  destruct (C140_values 1 4 f (list_ascii_of_string "LP") 4 (1 / 4) 0 ltac:(lra) ltac:(lia) E ltac:(lia) ltac:(lra)) as (V & _).
  specialize (V eq_refl). eexists. split; [exact E|]. split; [exact V|].
  destruct (C140_gain 1 4 f _ _ _ _ _ ltac:(lra) ltac:(lia) E V) as (LEN & G).
  assert (L4 : calcNextPowTwo (4 - 1) = 4) by (rewrite nextPow_log2 by lia; reflexivity). rewrite L4 in *.
  split; [lia|]. specialize (G 1 ltac:(lia)). cbn zeta in G.
  assert (B : bin_frequency 4 1 1 = (1 / 4)%R) by (unfold bin_frequency; cbn; field).
  destruct G as [[_ G]|[[X _]|[X _]]]; [|discriminate X|discriminate X]. rewrite B in G. change (Z.to_nat 1) with 1%nat in G.
  pose proof (C140_shape 4 (1 / 4) 0 1 ltac:(lia) ltac:(lra) ltac:(lra)) as (H & _). rewrite H in G. exact G.
Qed.

Print Assumptions C139_polynomial.
Print Assumptions C139_small_order.
Print Assumptions C139_stable.
Print Assumptions C139_magnitude.
Print Assumptions C140_values.
Print Assumptions C140_gain.
Print Assumptions C140_shape.
Print Assumptions C140_rejected.
