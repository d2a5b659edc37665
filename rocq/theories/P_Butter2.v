(** Properties C141-C143: filters applied to harmonic and constant traces, the one-frequency filters and the state that a
    filter object keeps between two designs. *)
From Coq Require Import Reals Lra Lia Ring String.
From Verif Require Import Base M_Seis M_Common L_Common M_Acq M_Conf M_Fft L_Fft S_Fft P_Fft S_Butter M_Butter L_Butter L_Butter2 L_Butter3 L_Butter4 P_Butter L_Acq.
Open Scope Z_scope.
Local Notation length := List.length.

(** ** Lengths *)
Lemma full_length nt : power_of_two nt -> 4 <= nt -> calcNextPowTwo (nt - 1) = nt.
Proof.
  intros (e & He & E) H. rewrite nextPow_log2 by lia. assert (NE : e <> 0) by (intros ->; cbn in E; lia).
  assert (P : 2 ^ e = 2 * 2 ^ Z.pred e) by (rewrite <- Z.pow_succ_r by lia; f_equal; lia).
  rewrite E at 2. f_equal. apply Z.log2_up_unique; lia.
Qed.
Lemma full_filter dt nt f c : power_of_two nt -> 4 <= nt -> filter_init dt nt = Ok f ->
  zeroPadding (with_coefs f c) = 0 /\ filter_len (with_coefs f c) = nt /\ coefs (with_coefs f c) = c /\
  (dt <> 0%R -> df f = (1 / (IZR nt * dt))%R /\ fNyquist f = (1 / (2 * dt))%R /\ filtNT f = nt) /\ coefs f = repeat C1 (Z.to_nat nt) /\ filter_len f = nt /\ zeroPadding f = 0.
Proof.
  intros P H E. pose proof (full_length nt P H) as F. destruct (filter_len_init dt nt f ltac:(lia) E) as (L1 & L2 & L3). rewrite F in *.
  assert (X : filter_len (with_coefs f c) = filter_len f) by reflexivity.
  split; [cbn; lia|]. split; [rewrite X; exact L1|]. split; [reflexivity|]. split.
  - intros ND. unfold filter_init in E. destruct (Req_EM_T dt 0); [contradiction|]. destruct (Z.eqb_spec nt 0); [lia|]. injection E as <-. cbn.
    rewrite F. replace (nt - nt + nt) with nt by lia. repeat split.
  - split; [exact L3|]. split; [exact L1|lia].
Qed.
Lemma full_apply f nt c signal : filter_len f = nt -> zeroPadding f = 0 -> 0 < nt -> length signal = Z.to_nat nt -> length c = Z.to_nat nt ->
  filter_apply (with_coefs f c) signal = Ok (map fst (processed (Z.to_nat nt) c (map Creal signal))).
Proof.
  intros H1 H2 H3 H4 H5. assert (X : filter_len (with_coefs f c) = nt) by (rewrite <- H1; reflexivity).
  rewrite apply_processed by (rewrite X; cbn [with_coefs zeroPadding]; lia). rewrite X. cbn [with_coefs coefs]. do 2 f_equal.
  assert (SAME : forall n x, length x = n -> resize n x = x).
  { intros n x <-. unfold resize. rewrite firstn_all, Nat.sub_diag. apply app_nil_r. }
  rewrite H4. rewrite (SAME _ (map Creal signal)) by (rewrite map_length; exact H4).
  apply SAME. apply processed_length; [rewrite map_length; exact H4|exact H5].
Qed.
Lemma map_fst_nth l (g : nat -> R) n : length l = n -> (forall j, (j < n)%nat -> fst (nth j l C0) = g j) -> map fst l = map g (seq 0 n).
Proof.
  intros HL H. apply (nth_ext _ _ 0%R 0%R); [rewrite !map_length, seq_length; exact HL|]. intros j Hj. rewrite map_length in Hj.
  assert (Hj' : (j < n)%nat) by (rewrite <- HL; exact Hj). clear Hj. rename Hj' into Hj.
  rewrite (map_seq_nth g) by exact Hj. rewrite <- H by exact Hj. change 0%R with (fst C0) at 1. apply map_nth.
Qed.

(** ** C141: the filters on harmonic traces *)
Lemma value_of dt nt f typ order fc1 fc2 c : (0 < dt)%R -> 3 <= nt -> filter_init dt nt = Ok f -> calcButterworthFilt f typ order fc1 fc2 = Ok c ->
  let L := calcNextPowTwo (nt - 1) in exists v, (forall x, v (- x)%R = conj (v x)) /\ c = map (fun i => v (bin_frequency L dt i)) (zseq 0 (Z.to_nat L)) /\
    v 0%R = (if str_eqb (lower typ) (list_ascii_of_string "lp") then C1 else C0).
Proof.
  intros HD HN HI HC L. destruct (init_frequencies dt nt f HD HN HI) as (e & He & EL & EF). fold L in EL, EF.
  assert (PL : 0 < L) by (rewrite EL; pose proof (Z.pow_pos_nonneg 2 (e - 1)); lia).
  assert (HO : (2 <= order)%nat).
  { destruct (Nat.lt_ge_cases order 2) as [H|H]; [|exact H]. exfalso. unfold calcButterworthFilt, str_eqb in HC. destruct (Rlt_dec 0 fc1) as [H1|]; [|discriminate].
    cbn [negb] in HC. rewrite EF in HC. cbn [bind] in HC.
    unfold calcButterworthBp, calcButterworthPass in HC. rewrite (calcButterPoly_small _ H) in HC. cbn [bind] in HC.
    repeat (destruct (list_eq_dec _ _ _); [try discriminate|]); try discriminate; destruct (Req_EM_T fc2 0); discriminate. }
  assert (LP0 : forall fc, lp_value order fc 0 = C1).
  { intros fc. unfold lp_value. replace (0 / fc)%R with 0%R by (unfold Rdiv; ring). rewrite pval_0 by lia. unfold Cinv, C1. cbn. f_equal; field. }
  assert (HP0 : forall fc, hp_value order fc 0 = C0) by (intros; unfold hp_value; destruct (Req_EM_T 0 0); [reflexivity|contradiction]).
  unfold calcButterworthFilt in HC. destruct (Rlt_dec 0 fc1) as [H1|]; [|discriminate]. cbn [negb] in HC. rewrite EF in HC. cbn [bind] in HC.
  destruct (str_eqb (lower typ) (list_ascii_of_string "lp")).
  - rewrite pass_ok in HC by assumption. injection HC as <-. exists (lp_value order fc1). split; [intros; apply lp_value_opp; exact HO|]. split; [reflexivity|apply LP0].
  - destruct (str_eqb (lower typ) _).
    + rewrite pass_ok in HC by assumption. injection HC as <-. exists (hp_value order fc1). split; [intros; apply hp_value_opp; exact HO|]. split; [reflexivity|apply HP0].
    + destruct (str_eqb (lower typ) _); [|discriminate]. unfold calcButterworthBp in HC. destruct (Req_EM_T fc2 0); [discriminate|].
      rewrite !pass_ok in HC by assumption. cbn [bind] in HC. injection HC as <-.
      exists (fun x => Cmul (lp_value order fc2 x) (hp_value order fc1 x)). split; [|split].
      * intros x. rewrite lp_value_opp, hp_value_opp, conj_mul by exact HO. reflexivity.
      * unfold map2. clear. induction (zseq 0 (Z.to_nat L)) as [|i l IH]; [reflexivity|]. cbn. rewrite IH. reflexivity.
      * rewrite HP0. ring.
Qed.
Lemma zseq_nth0 n a k : (k < n)%nat -> nth k (zseq a n) 0 = a + Z.of_nat k.
Proof.
  revert a k. induction n as [|n IH]; intros a k Hk; [lia|]. destruct k as [|k]; cbn [zseq nth]; [lia|]. rewrite IH by lia. lia.
Qed.
(** A harmonic trace with [m] periods comes out as a harmonic with the same number of periods; its amplitude is
    multiplied by the gain of the filter at its frequency. *)
Theorem C141_harmonic : forall dt nt f typ order fc1 fc2 c m A phi, (0 < dt)%R -> 4 <= nt -> power_of_two nt -> filter_init dt nt = Ok f ->
  calcButterworthFilt f typ order fc1 fc2 = Ok c -> (0 < m)%nat -> 2 * Z.of_nat m < nt ->
  exists gain shift, filter_apply (with_coefs f c) (harmonic (Z.to_nat nt) m A phi) = Ok (harmonic (Z.to_nat nt) m (gain * A) (phi + shift)) /\
    (0 <= gain)%R /\ let x := (INR m / (IZR nt * dt))%R in
    ((is_word typ "lp" /\ (gain * gain)%R = lp_gain2 order fc1 x) \/ (is_word typ "hp" /\ (gain * gain)%R = hp_gain2 order fc1 x) \/
     (is_word typ "bp" /\ (gain * gain)%R = (lp_gain2 order fc2 x * hp_gain2 order fc1 x)%R)).
Proof.
  intros dt nt f typ order fc1 fc2 c m A phi HD HN HP HI HC HM HM2.
  destruct (full_filter dt nt f c HP HN HI) as (_ & _ & _ & _ & _ & FL & FZ). pose proof (full_length nt HP HN) as F.
  destruct (value_of dt nt f typ order fc1 fc2 c HD ltac:(lia) HI HC) as (v & VC & EC & _).
  destruct (C140_gain dt nt f typ order fc1 fc2 c HD ltac:(lia) HI HC) as (LC & G). rewrite F in *.
  destruct (polar (nth m c C0)) as (theta & PO). set (gn := sqrt (modulus2 (nth m c C0))) in *.
  exists gn, theta.
  assert (NTH : forall i, 0 <= i < nt -> nth (Z.to_nat i) c C0 = v (bin_frequency nt dt i)).
  { intros i Hi. rewrite EC. rewrite (nth_indep _ C0 (v (bin_frequency nt dt 0))) by (rewrite map_length, zseq_length; lia).
    rewrite (map_nth (fun j => v (bin_frequency nt dt j))). rewrite zseq_nth0 by lia. do 2 f_equal. lia. }
  assert (PN : (IZR nt * dt <> 0)%R) by (apply Rgt_not_eq, Rmult_lt_0_compat; [apply IZR_lt; lia|exact HD]).
  assert (CJ : nth (Z.to_nat nt - m) c C0 = conj (nth m c C0)).
  { pose proof (NTH (nt - Z.of_nat m) ltac:(lia)) as N1. pose proof (NTH (Z.of_nat m) ltac:(lia)) as N2. rewrite Nat2Z.id in N2.
    replace (Z.to_nat (nt - Z.of_nat m)) with (Z.to_nat nt - m)%nat in N1 by lia. rewrite N1, N2, <- VC. f_equal. unfold bin_frequency.
    destruct (Z.leb_spec (2 * (nt - Z.of_nat m)) nt); [lia|]. destruct (Z.leb_spec (2 * Z.of_nat m) nt); [|lia].
    replace (nt - Z.of_nat m - nt) with (- Z.of_nat m) by lia. rewrite opp_IZR. field. split; [lra|]. intros X; apply PN; rewrite X; ring. }
  split; [|split].
  - rewrite (full_apply f nt c) by (rewrite ?harmonic_length; assumption || lia). f_equal. unfold harmonic at 2. apply map_fst_nth.
    + apply processed_length; [rewrite map_length; apply harmonic_length|lia].
    + intros j Hj. rewrite processed_harmonic by (assumption || lia). cbn [fst Creal]. rewrite PO at 1.
      set (a := (2 * PI * INR m * INR j / INR (Z.to_nat nt) + phi)%R).
      transitivity (A * (gn * fst (Cmul (cis theta) (cis a))))%R; [unfold Cmul, Cscale; cbn; ring|]. rewrite <- cis_add. cbn [cis fst].
      replace (theta + a)%R with (2 * PI * INR m * INR j / INR (Z.to_nat nt) + (phi + theta))%R by (unfold a; ring). ring.
  - apply sqrt_pos.
  - specialize (G (Z.of_nat m) ltac:(lia)). cbn zeta in G. rewrite Nat2Z.id in G.
    assert (B : bin_frequency nt dt (Z.of_nat m) = (INR m / (IZR nt * dt))%R).
    { unfold bin_frequency. destruct (Z.leb_spec (2 * Z.of_nat m) nt); [|lia]. rewrite INR_IZR_INZ. reflexivity. }
    rewrite B in G. cbn zeta. unfold gn. rewrite sqrt_sqrt by apply modulus2_nonneg. exact G.
Qed.
(** A constant trace is unchanged by a low pass and removed by a high pass and by a band pass. *)
Theorem C141_constant : forall dt nt f typ order fc1 fc2 c A, (0 < dt)%R -> 4 <= nt -> power_of_two nt -> filter_init dt nt = Ok f ->
  calcButterworthFilt f typ order fc1 fc2 = Ok c ->
  (is_word typ "lp" -> filter_apply (with_coefs f c) (repeat A (Z.to_nat nt)) = Ok (repeat A (Z.to_nat nt))) /\
  (~ is_word typ "lp" -> filter_apply (with_coefs f c) (repeat A (Z.to_nat nt)) = Ok (repeat 0%R (Z.to_nat nt))).
Proof.
  intros dt nt f typ order fc1 fc2 c A HD HN HP HI HC.
  destruct (full_filter dt nt f c HP HN HI) as (_ & _ & _ & _ & _ & FL & FZ). pose proof (full_length nt HP HN) as F.
  destruct (value_of dt nt f typ order fc1 fc2 c HD ltac:(lia) HI HC) as (v & VC & EC & V0). rewrite F in *.
  assert (LC : length c = Z.to_nat nt) by (rewrite EC, map_length, zseq_length; reflexivity).
  assert (N0 : nth 0 c C0 = v 0%R).
  { rewrite EC. destruct (Z.to_nat nt) as [|n] eqn:En; [lia|]. cbn [zseq map nth]. f_equal. unfold bin_frequency.
    destruct (Z.leb_spec (2 * 0) nt); [|lia]. unfold Rdiv. ring. }
  assert (GEN : forall B, fst (Cmul (Creal A) (v 0%R)) = B -> filter_apply (with_coefs f c) (repeat A (Z.to_nat nt)) = Ok (repeat B (Z.to_nat nt))).
  { intros B HB. rewrite (full_apply f nt c) by (rewrite ?repeat_length; assumption || lia). f_equal.
    rewrite (map_fst_nth _ (fun _ => B) (Z.to_nat nt)).
    - clear. generalize 0%nat. induction (Z.to_nat nt) as [|n IH]; intros s; [reflexivity|]. cbn. rewrite IH. reflexivity.
    - apply processed_length; [rewrite map_length; apply repeat_length|exact LC].
    - intros j Hj. rewrite processed_constant by (assumption || lia). rewrite N0. exact HB. }
  unfold is_word. unfold str_eqb in V0. split.
  - intros E. rewrite E in V0. destruct (list_eq_dec _ _ _) as [_|X]; [|contradiction X; reflexivity]. apply GEN. rewrite V0. cbn. ring.
  - intros N. destruct (list_eq_dec _ _ _) as [X|_]; [contradiction|]. apply GEN. rewrite V0. cbn. ring.
Qed.

(** ** C142: one-frequency filters *)
(** The number of periods nearest above the wanted frequency. *)
Definition periods (nt : Z) (dt fc : R) : Z := ceilR (fc * (IZR nt * dt)).
Lemma periods_pos nt dt fc : 0 < nt -> (0 < dt)%R -> (0 < fc)%R -> 0 < periods nt dt fc.
Proof.
  intros H1 H2 H3. unfold periods, ceilR. assert (P : (0 < fc * (IZR nt * dt))%R) by (repeat apply Rmult_lt_0_compat; try lra; apply IZR_lt; exact H1).
  pose proof (base_Int_part (- (fc * (IZR nt * dt)))) as [B _]. assert (IZR (Int_part (- (fc * (IZR nt * dt)))) < 0)%R by lra. apply lt_IZR in H. lia.
Qed.
Lemma fc_ind nt dt fc : 0 < nt -> (0 < dt)%R -> ceilR (fc / (1 / (IZR nt * dt))) = periods nt dt fc.
Proof.
  intros H1 H2. unfold periods. f_equal. field. split; [lra|]. apply Rgt_not_eq, IZR_lt. exact H1.
Qed.
Lemma calc_ideal o fam typ order fc1 fc2 : is_word fam "ideal" -> is_word typ "bp" -> (0 < fc1)%R -> obj_calc o fam typ order fc1 fc2 = calcIdealBp o order fc1.
Proof.
  unfold is_word, obj_calc, str_eqb. intros -> T H. destruct (list_eq_dec _ _ _) as [X|_]; [discriminate|]. destruct (list_eq_dec _ _ _) as [_|X]; [|contradiction X; reflexivity].
  unfold calcIdealFilt, str_eqb. rewrite T. destruct (Rlt_dec 0 fc1); [|contradiction]. cbn [negb]. destruct (list_eq_dec _ _ _) as [_|X]; [reflexivity|contradiction X; reflexivity].
Qed.
Lemma vput_nth {A} (v : list A) i x : (i < length v)%nat -> exists w, vput v i x = Ok w /\ length w = length v /\
  forall j d, nth j w d = if (j =? i)%nat then x else nth j v d.
Proof.
  intros H. unfold vput. replace (i <? length v)%nat with true by (symmetry; apply Nat.ltb_lt; exact H).
  eexists. split; [reflexivity|]. split.
  - rewrite app_length, firstn_length. cbn [length]. rewrite skipn_length. lia.
  - intros j d. destruct (Nat.eqb_spec j i) as [->|N].
    + rewrite app_nth2; rewrite firstn_length, Nat.min_l by lia; [|lia]. rewrite Nat.sub_diag. reflexivity.
    + rewrite <- (firstn_skipn i v) at 3. destruct (Nat.lt_ge_cases j i) as [L|L].
      * rewrite !app_nth1 by (rewrite firstn_length; lia). reflexivity.
      * rewrite !app_nth2; rewrite firstn_length, Nat.min_l by lia; try lia. destruct (j - i)%nat as [|k] eqn:E; [lia|]. cbn [nth].
        clear - H. revert i H. induction v as [|y v IH]; intros [|i] H; cbn [length] in *; try lia; [reflexivity|]. cbn [skipn]. apply IH. lia.
Qed.
(** Order 0 on a freshly initialised object: entries [m] and [nt - m] are one, the others zero. *)
Lemma ideal0 dt nt f fc L0 : (0 < dt)%R -> 4 <= nt -> power_of_two nt -> filter_init dt nt = Ok f -> (0 < fc)%R ->
  let m := periods nt dt fc in 2 * m < nt -> forall c0, length c0 = Z.to_nat nt ->
  exists c, calcIdealBp (mkFobj (with_coefs f c0) L0) 0 fc = Ok (mkFobj (with_coefs f c) L0) /\ length c = Z.to_nat nt /\
    forall k, (k < Z.to_nat nt)%nat -> nth k c C0 = if (k =? Z.to_nat m)%nat || (k =? Z.to_nat nt - Z.to_nat m)%nat then C1 else Csub C1 (nth k c0 C0).
Proof.
  intros HD HN HP HI HF m HM c0 LC0. destruct (full_filter dt nt f [] HP HN HI) as (_ & _ & _ & FD & FC & FL & FZ).
  destruct (FD ltac:(lra)) as (D1 & D2 & D3). pose proof (periods_pos nt dt fc ltac:(lia) HD HF) as MP. fold m in MP.
  unfold calcIdealBp. cbn [base with_coefs df fNyquist coefs matL Nat.eqb]. rewrite D1, D2, fc_ind by (assumption || lia). fold m.
  replace (truncR (2 * (1 / (2 * dt)) / (1 / (IZR nt * dt)))) with nt.
  2:{ replace (2 * (1 / (2 * dt)) / (1 / (IZR nt * dt)))%R with (IZR nt) by (assert (IZR nt <> 0)%R by (apply Rgt_not_eq, IZR_lt; lia); field; repeat split; (assumption || lra)).
      rewrite truncR_nonneg by (apply IZR_le; lia). symmetry. apply int_part_IZR. }
  replace ((m <? 0) || (nt - m <? 0)) with false by lia.
  destruct (vput_nth c0 (Z.to_nat m) C0) as (c1 & E1 & L1 & N1); [lia|].
  destruct (vput_nth c1 (Z.to_nat (nt - m)) C0) as (c2 & E2 & L2 & N2); [lia|].
  rewrite E1. cbn [bind]. rewrite E2. cbn [bind]. eexists. split; [reflexivity|]. split; [rewrite map_length; lia|].
  intros k Hk. match goal with |- context [map ?F c2] => set (g := F) end.
  rewrite (nth_indep _ C0 (g C0)) by (rewrite map_length; lia). rewrite (map_nth g), N2, N1. unfold g.
  replace (Z.to_nat (nt - m)) with (Z.to_nat nt - Z.to_nat m)%nat by lia.
  destruct (k =? Z.to_nat m)%nat, (k =? Z.to_nat nt - Z.to_nat m)%nat; cbn [orb]; unfold Csub, Copp, Cadd, C1, C0; cbn; f_equal; ring.
Qed.
Lemma ones_nth n k : (k < n)%nat -> nth k (repeat C1 n) C0 = C1.
Proof. intros H. rewrite (nth_indep _ C0 C1) by (rewrite repeat_length; exact H). apply nth_repeat. Qed.
Lemma with_own f : with_coefs f (coefs f) = f.
Proof. destruct f. reflexivity. Qed.
(** Designed by FFT (order 0) the filter keeps the harmonic with the wanted number of periods and removes the others. *)
Theorem C142_by_fft : forall dt nt f fam typ fc1 fc2, (0 < dt)%R -> 4 <= nt -> power_of_two nt -> filter_init dt nt = Ok f ->
  is_word fam "ideal" -> is_word typ "bp" -> (0 < fc1)%R -> 2 * periods nt dt fc1 < nt ->
  exists o, obj_calc (mkFobj f None) fam typ 0 fc1 fc2 = Ok o /\
    forall m A phi, (0 < m)%nat -> 2 * Z.of_nat m < nt ->
      obj_apply o (harmonic (Z.to_nat nt) m A phi) =
      Ok (if Z.of_nat m =? periods nt dt fc1 then harmonic (Z.to_nat nt) m A phi else repeat 0%R (Z.to_nat nt)).
Proof.
  intros dt nt f fam typ fc1 fc2 HD HN HP HI HW HT HF HM. destruct (full_filter dt nt f [] HP HN HI) as (_ & _ & _ & _ & FC & FL & FZ).
  rewrite (calc_ideal _ fam typ 0 fc1 fc2) by assumption.
  destruct (ideal0 dt nt f fc1 None HD HN HP HI HF HM (coefs f)) as (c & E & LC & NC); [rewrite FC; apply repeat_length|].
  rewrite with_own in E. rewrite E. eexists. split; [reflexivity|]. intros m A phi M1 M2. unfold obj_apply. cbn [matL base].
  rewrite (full_apply f nt c) by (rewrite ?harmonic_length; assumption || lia). f_equal.
  pose proof (periods_pos nt dt fc1 ltac:(lia) HD HF) as MP. set (q := periods nt dt fc1) in *.
  assert (NV : forall k, (k < Z.to_nat nt)%nat -> nth k c C0 = if (k =? Z.to_nat q)%nat || (k =? Z.to_nat nt - Z.to_nat q)%nat then C1 else C0).
  { intros k Hk. rewrite NC by exact Hk. rewrite FC, ones_nth by exact Hk. destruct (_ || _); [reflexivity|ring]. }
  assert (CJ : nth (Z.to_nat nt - m) c C0 = conj (nth m c C0)).
  { rewrite !NV by lia. replace (Z.to_nat nt - m =? Z.to_nat q)%nat with false by lia.
    replace (Z.to_nat nt - m =? Z.to_nat nt - Z.to_nat q)%nat with (m =? Z.to_nat q)%nat by lia. replace (m =? Z.to_nat nt - Z.to_nat q)%nat with false by lia.
    cbn [orb]. rewrite orb_false_r. destruct (m =? Z.to_nat q)%nat; unfold conj, C1, C0; cbn; f_equal; ring. }
  assert (PL : length (processed (Z.to_nat nt) c (map Creal (harmonic (Z.to_nat nt) m A phi))) = Z.to_nat nt)
    by (apply processed_length; [rewrite map_length; apply harmonic_length|exact LC]).
  pose proof (NV m ltac:(lia)) as NM. replace (m =? Z.to_nat nt - Z.to_nat q)%nat with false in NM by lia. rewrite orb_false_r in NM.
  destruct (Z.eqb_spec (Z.of_nat m) q) as [EQ|NE].
  - unfold harmonic at 2. apply map_fst_nth; [exact PL|]. intros j Hj. rewrite processed_harmonic by (assumption || lia). rewrite NM.
    replace (m =? Z.to_nat q)%nat with true by lia. unfold Cmul, C1, cis, Creal. cbn [fst snd]. ring.
  - rewrite (map_fst_nth _ (fun _ => 0%R) (Z.to_nat nt) PL).
    + clear. generalize 0%nat. induction (Z.to_nat nt) as [|n IH]; intros s; [reflexivity|]. cbn. rewrite IH. reflexivity.
    + intros j Hj. rewrite processed_harmonic by (assumption || lia). rewrite NM. replace (m =? Z.to_nat q)%nat with false by lia.
      unfold Cmul, C0, Creal. cbn [fst snd]. ring.
Qed.
(** Designed by DFT (any other order) it keeps only half of the amplitude of that harmonic. *)
Lemma cdot_csum n a b : length a = n -> length b = n -> cdot a b = csum n (fun k => Cmul (nth k a C0) (nth k b C0)).
Proof.
  unfold cdot, map2. revert a b. induction n as [|n IH]; intros [|x a] [|y b] H1 H2; cbn [length] in *; try lia; [reflexivity|].
  cbn [combine map fold_right fst snd]. rewrite csum_shift. cbn [nth]. rewrite (IH a b) by lia. reflexivity.
Qed.
Lemma cdot_comm_csum n a b : length a = n -> length b = n -> cdot b a = csum n (fun k => Cmul (nth k a C0) (nth k b C0)).
Proof. intros. rewrite (cdot_csum n) by assumption. apply csum_ext. intros. ring. Qed.
Definition column (nt : Z) (q : nat) (s : R) : list C := map (fun j => cis (s * (2 * PI * INR q * INR j / IZR nt))) (seq 0 (Z.to_nat nt)).
Lemma ideal1 dt nt f L0 order fc : (0 < dt)%R -> 4 <= nt -> power_of_two nt -> filter_init dt nt = Ok f -> (0 < fc)%R -> (0 < order)%nat ->
  let q := Z.to_nat (periods nt dt fc) in
  calcIdealBp (mkFobj f L0) order fc = Ok (mkFobj f (Some (column nt q (-1), column nt q 1))).
Proof.
  intros HD HN HP HI HF HO q. destruct (full_filter dt nt f [] HP HN HI) as (_ & _ & _ & FD & FC & FL & FZ).
  destruct (FD ltac:(lra)) as (D1 & D2 & D3). pose proof (periods_pos nt dt fc ltac:(lia) HD HF) as MP.
  unfold calcIdealBp. cbn [base]. destruct (Nat.eqb_spec order 0); [lia|]. rewrite D1, D2, D3, fc_ind by (assumption || lia).
  assert (ZS : forall n a, zseq (Z.of_nat a) n = map Z.of_nat (seq a n)).
  { induction n0 as [|n0 IH]; intros a; [reflexivity|]. cbn [zseq seq map]. f_equal. rewrite <- IH. f_equal. lia. }
  rewrite (ZS _ 0%nat : zseq 0 (Z.to_nat nt) = _). rewrite !map_map. unfold column.
  assert (PN : (IZR nt <> 0)%R) by (apply Rgt_not_eq, IZR_lt; lia).
  assert (EQ : IZR (periods nt dt fc) = INR q) by (unfold q; rewrite INR_IZR_INZ, Z2Nat.id by lia; reflexivity).
  do 4 f_equal; apply map_ext; intros j; f_equal; rewrite EQ, <- INR_IZR_INZ; field; repeat split; (lra || exact PN).
Qed.
Lemma column_length nt q s : length (column nt q s) = Z.to_nat nt.
Proof. unfold column. rewrite map_length, seq_length. reflexivity. Qed.
Lemma column_dot nt q m A phi : 4 <= nt -> (0 < m)%nat -> 2 * Z.of_nat m < nt -> (0 < q)%nat -> 2 * Z.of_nat q < nt ->
  cdot (column nt q (-1)) (map Creal (harmonic (Z.to_nat nt) m A phi)) =
  if (m =? q)%nat then Cmul (Creal (A / 2 * IZR nt)) (cis phi) else C0.
Proof.
  intros HN M1 M2 Q1 Q2. set (L := Z.to_nat nt). assert (EL : IZR nt = INR L) by (unfold L; rewrite INR_IZR_INZ, Z2Nat.id by lia; reflexivity).
  assert (HL : 2 * Z.of_nat m < Z.of_nat L /\ 2 * Z.of_nat q < Z.of_nat L) by lia.
  rewrite (cdot_csum L) by (rewrite ?column_length, ?map_length, ?harmonic_length; reflexivity).
  assert (W : forall mm ph, (mm < L)%nat -> csum L (fun k => Cmul (nth k (column nt q (-1)) C0) (nth k (wave L mm ph) C0)) = if (q =? mm)%nat then Cmul (Creal (INR L)) (cis ph) else C0).
  { intros mm ph Hm. rewrite <- (fft_wave L mm ph q) by lia. unfold fft. rewrite dft_nth by (rewrite wave_length; lia). rewrite wave_length.
    apply csum_ext. intros k Hk. unfold column. fold L.
    rewrite (map_seq_nth (fun j => cis (-1 * (2 * PI * INR q * INR j / IZR nt)))) by exact Hk. rewrite EL.
    transitivity (Cmul (nth k (wave L mm ph) C0) (cis (-1 * (2 * PI * INR q * INR k / INR L)))); [ring|]. do 2 f_equal. unfold Rdiv. ring. }
  rewrite (csum_ext L _ (fun k => Cadd (Cmul (Creal (A / 2)) (Cmul (nth k (column nt q (-1)) C0) (nth k (wave L m phi) C0)))
     (Cmul (Creal (A / 2)) (Cmul (nth k (column nt q (-1)) C0) (nth k (wave L (L - m) (- phi)) C0))))).
  - rewrite csum_add, !csum_mul, !W by lia. replace (q =? L - m)%nat with false by lia. rewrite (Nat.eqb_sym q m). destruct (m =? q)%nat; [|ring].
    rewrite EL. unfold Cadd, Cmul, Creal, C0, cis. cbn. f_equal; ring.
  - intros k Hk. rewrite harmonic_split by lia. ring.
Qed.
Theorem C142_by_dft : forall dt nt f fam typ order fc1 fc2, (0 < dt)%R -> 4 <= nt -> power_of_two nt -> filter_init dt nt = Ok f ->
  is_word fam "ideal" -> is_word typ "bp" -> (0 < order)%nat -> (0 < fc1)%R -> 2 * periods nt dt fc1 < nt ->
  exists o, obj_calc (mkFobj f None) fam typ order fc1 fc2 = Ok o /\
    forall m A phi, (0 < m)%nat -> 2 * Z.of_nat m < nt ->
      obj_apply o (harmonic (Z.to_nat nt) m A phi) =
      Ok (if Z.of_nat m =? periods nt dt fc1 then harmonic (Z.to_nat nt) m (A / 2) phi else repeat 0%R (Z.to_nat nt)).
Proof.
  intros dt nt f fam typ order fc1 fc2 HD HN HP HI HW HT HO HF HM. destruct (full_filter dt nt f [] HP HN HI) as (_ & _ & _ & FD & FC & FL & FZ).
  destruct (FD ltac:(lra)) as (D1 & D2 & D3).
  rewrite (calc_ideal _ fam typ order fc1 fc2) by assumption. rewrite (ideal1 dt nt) by assumption. eexists. split; [reflexivity|].
  intros m A phi M1 M2. unfold obj_apply. cbn [matL base]. rewrite harmonic_length, column_length, FL, FZ, D3.
  pose proof (periods_pos nt dt fc1 ltac:(lia) HD HF) as MP. set (q := periods nt dt fc1) in *.
  replace (negb (Z.of_nat (Z.to_nat nt) + 0 =? nt)) with false by lia. rewrite Nat.eqb_refl. cbn [negb]. f_equal.
  rewrite column_dot by lia. unfold column. rewrite map_map.
  assert (PN : (IZR nt <> 0)%R) by (apply Rgt_not_eq, IZR_lt; lia).
  assert (EL : IZR nt = INR (Z.to_nat nt)) by (rewrite INR_IZR_INZ, Z2Nat.id by lia; reflexivity).
  destruct (Z.eqb_spec (Z.of_nat m) q) as [EQ|NE].
  - replace (m =? Z.to_nat q)%nat with true by lia. unfold harmonic. apply map_ext. intros j. replace (Z.to_nat q) with m by lia.
    rewrite <- EL. transitivity (A / 2 * fst (Cmul (cis (1 * (2 * PI * INR m * INR j / IZR nt))) (cis phi)))%R.
    + unfold Cscale, Cmul, Creal, cis. cbn. field. exact PN.
    + rewrite <- cis_add. cbn [cis fst]. do 2 f_equal. ring.
  - replace (m =? Z.to_nat q)%nat with false by lia. clear. generalize 0%nat. induction (Z.to_nat nt) as [|n IH]; intros s; [reflexivity|].
    cbn [seq map repeat]. rewrite IH. f_equal. unfold Cscale, Cmul, C0. cbn. ring.
Qed.
(** Applied to the rows of a matrix the result of the DFT filter has the largest magnitude 1, whatever the amplitudes were. *)
Theorem C142_matrix_scaled : forall o LL Linv signal out, matL o = Some (LL, Linv) -> obj_applyMat o signal = Ok (Some out) ->
  (forall r x, In r out -> In x r -> (Rabs x <= 1)%R) /\ exists r x, In r out /\ In x r /\ Rabs x = 1%R.
Proof.
  intros o LL Linv signal out HL E. unfold obj_applyMat in E. rewrite HL in E.
  destruct (negb _); [discriminate|]. destruct (negb _); [discriminate|]. cbn zeta in E.
  set (mm := map _ signal) in E. clearbody mm. destruct (Req_EM_T (maxNorm mm) 0) as [|NZ]; [discriminate|]. injection E as <-.
  assert (UP : forall l, (forall x, In x l -> (x <= fold_right Rmax 0 l)%R) /\ (0 <= fold_right Rmax 0 l)%R /\ (fold_right Rmax 0%R l <> 0%R -> In (fold_right Rmax 0%R l) l)).
  { induction l as [|y l (I1 & I2 & I3)]; cbn [fold_right]; [split; [contradiction|split; [lra|congruence]]|]. split; [|split].
    - intros x [->|Hx]; [apply Rmax_l|]. eapply Rle_trans; [apply I1; exact Hx|apply Rmax_r].
    - eapply Rle_trans; [exact I2|apply Rmax_r].
    - destruct (Rle_dec y (fold_right Rmax 0%R l)) as [Q|Q]; [rewrite Rmax_right by exact Q|rewrite Rmax_left by lra]; intros H; [right; apply I3; exact H|left; reflexivity]. }
  destruct (UP (map Rabs (concat mm))) as (U1 & U2 & U3). fold (maxNorm mm) in U1, U2, U3. set (mx := maxNorm mm) in *.
  assert (PX : (0 < mx)%R) by lra.
  assert (AB : forall y, Rabs (1 / mx * y) = (Rabs y / mx)%R).
  { intros y. rewrite Rabs_mult, (Rabs_right (1 / mx)) by (apply Rle_ge, Rlt_le, Rdiv_lt_0_compat; lra). field. lra. }
  split.
  - intros r x Hr Hx. apply in_map_iff in Hr. destruct Hr as (r0 & <- & Hr0). apply in_map_iff in Hx. destruct Hx as (y & <- & Hy). rewrite AB.
    apply (Rmult_le_reg_r mx); [exact PX|]. unfold Rdiv. rewrite Rmult_assoc, Rinv_l, Rmult_1_l, Rmult_1_r by lra. apply U1. apply in_map. apply in_concat. eauto.
  - specialize (U3 NZ). apply in_map_iff in U3. destruct U3 as (y & Ey & Hy). apply in_concat in Hy. destruct Hy as (r0 & Hr0 & Hy).
    exists (map (fun x => 1 / mx * x)%R r0), (1 / mx * y)%R. split; [apply (in_map (map (fun x => 1 / mx * x)%R)); exact Hr0|].
    split; [apply (in_map (fun x => 1 / mx * x)%R); exact Hy|]. rewrite AB, Ey. field. lra.
Qed.

(** ** C143: what a filter object remembers *)
(** Designing the one-frequency filter by FFT twice gives a filter that changes nothing. *)
Theorem C143_twice : forall dt nt f fam typ fc1 fc2, (0 < dt)%R -> 4 <= nt -> power_of_two nt -> filter_init dt nt = Ok f ->
  is_word fam "ideal" -> is_word typ "bp" -> (0 < fc1)%R -> 2 * periods nt dt fc1 < nt ->
  exists o o', obj_calc (mkFobj f None) fam typ 0 fc1 fc2 = Ok o /\ obj_calc o fam typ 0 fc1 fc2 = Ok o' /\
    forall signal, length signal = Z.to_nat nt -> obj_apply o' signal = Ok signal.
Proof.
  intros dt nt f fam typ fc1 fc2 HD HN HP HI HW HT HF HM. destruct (full_filter dt nt f [] HP HN HI) as (_ & _ & _ & _ & FC & FL & FZ).
  destruct (ideal0 dt nt f fc1 None HD HN HP HI HF HM (coefs f)) as (c & E & LC & NC); [rewrite FC; apply repeat_length|]. rewrite with_own in E.
  destruct (ideal0 dt nt f fc1 None HD HN HP HI HF HM c LC) as (c' & E' & LC' & NC').
  exists (mkFobj (with_coefs f c) None), (mkFobj (with_coefs f c') None). rewrite !(calc_ideal _ fam typ 0 fc1 fc2) by assumption.
  split; [exact E|]. split; [exact E'|]. intros signal HS. unfold obj_apply. cbn [matL base]. rewrite (full_apply f nt c') by (assumption || lia).
  f_equal. replace c' with (repeat C1 (Z.to_nat nt)).
  - rewrite allpass by (rewrite map_length; exact HS). apply map_fst_Creal.
  - apply (nth_ext _ _ C0 C0); [rewrite repeat_length; lia|]. rewrite repeat_length. intros k Hk. rewrite ones_nth by exact Hk. rewrite NC' by exact Hk.
    rewrite NC by exact Hk. rewrite FC, ones_nth by exact Hk. destruct (_ || _); [reflexivity|]. ring.
Qed.
(** Once the one-frequency filter has been designed by DFT, a later Butterworth design has no effect on the traces. *)
Theorem C143_sticky : forall o fam typ order fc1 fc2 o', matL o <> None -> is_word fam "butterworth" -> obj_calc o fam typ order fc1 fc2 = Ok o' ->
  forall signal, obj_apply o' signal = obj_apply o signal.
Proof.
  intros o fam typ order fc1 fc2 o' HL HW E signal. unfold obj_calc, is_word, str_eqb in *. rewrite HW in E.
  destruct (list_eq_dec _ _ _) as [_|X]; [|contradiction X; reflexivity]. destruct (calcButterworthFilt _ _ _ _ _) as [c| | |]; try discriminate.
  cbn [bind] in E. injection E as <-. unfold obj_apply. cbn [matL base]. destruct (matL o) as [[a b]|]; [reflexivity|contradiction].
Qed.
(** Initialising the object again does not remove the one-frequency filter either. *)
Theorem C143_init : forall o dt nt o', obj_init o dt nt = Ok o' -> matL o' = matL o /\
  forall LL Linv signal, matL o = Some (LL, Linv) -> nt <> Z.of_nat (length LL) -> Z.of_nat (length signal) = nt -> obj_apply o' signal = Throw.
Proof.
  intros o dt nt o' E. unfold obj_init in E. destruct (filter_init dt nt) as [b| | |]; try discriminate. cbn [bind] in E. injection E as <-.
  split; [reflexivity|]. intros LL Linv signal EL NT HS. unfold obj_apply. cbn [matL base]. rewrite EL. destruct (negb _); [reflexivity|].
  replace (length signal =? length LL)%nat with false by lia. reflexivity.
Qed.

(** ** Cases: 8 samples at distance 1, one period *)
Lemma pow8 : power_of_two 8.
Proof. exists 3. split; [lia|reflexivity]. Qed.
Example C141_case : exists f c gain shift, filter_init 1 8 = Ok f /\ calcButterworthFilt f (list_ascii_of_string "hp") 3 (1 / 8) 0 = Ok c /\
  filter_apply (with_coefs f c) (harmonic 8 1 5 0) = Ok (harmonic 8 1 (gain * 5) (0 + shift)) /\ (gain * gain = 1 / 2)%R.
Proof.
  destruct (filter_init_ok 1 8 ltac:(lra) ltac:(lia)) as (f & E). exists f.
  destruct (C140_values 1 8 f (list_ascii_of_string "hp") 3 (1 / 8) 0 ltac:(lra) ltac:(lia) E ltac:(lia) ltac:(lra)) as (_ & V & _).
  specialize (V eq_refl). eexists.
  destruct (C141_harmonic 1 8 f _ _ _ _ _ 1 5 0 ltac:(lra) ltac:(lia) pow8 E V ltac:(lia) ltac:(lia)) as (g & s & A & _ & G).
  exists g, s. split; [exact E|]. split; [exact V|]. split; [exact A|]. cbn zeta in G.
  replace (INR 1 / (8 * 1))%R with (1 / 8)%R in G by (cbn; field). destruct G as [[X _]|[[_ G]|[X _]]]; [discriminate X| |discriminate X]. rewrite G.
  pose proof (C140_shape 3 (1 / 8) 0 1 ltac:(lia) ltac:(lra) ltac:(lra)) as (_ & H & _). exact H.
Qed.
Lemma periods8 : periods 8 1 (1 / 8) = 1.
Proof. unfold periods. apply ceilR_unique. lra. Qed.
Example C142_case : exists f o, filter_init 1 8 = Ok f /\
  obj_calc (mkFobj f None) (list_ascii_of_string "Ideal") (list_ascii_of_string "bp") 1 (1 / 8) 0 = Ok o /\
  obj_apply o (harmonic 8 1 6 0) = Ok (harmonic 8 1 (6 / 2) 0) /\ obj_apply o (harmonic 8 2 6 0) = Ok (repeat 0%R 8).
Proof.
  destruct (filter_init_ok 1 8 ltac:(lra) ltac:(lia)) as (f & E). exists f.
  destruct (C142_by_dft 1 8 f (list_ascii_of_string "Ideal") (list_ascii_of_string "bp") 1 (1 / 8) 0) as (o & EO & H); try (lra || lia || reflexivity || exact pow8 || exact E).
  { rewrite periods8. lia. }
  exists o. split; [exact E|]. split; [exact EO|]. rewrite periods8 in H. split.
  - apply (H 1%nat 6%R 0%R); lia.
  - apply (H 2%nat 6%R 0%R); lia.
Qed.
Example C142_matrix_case : exists f o out, filter_init 1 8 = Ok f /\
  obj_calc (mkFobj f None) (list_ascii_of_string "ideal") (list_ascii_of_string "bp") 1 (1 / 8) 0 = Ok o /\ obj_applyMat o [harmonic 8 1 6 0] = Ok (Some out).
Proof.
  destruct (filter_init_ok 1 8 ltac:(lra) ltac:(lia)) as (f & E). exists f.
  destruct (full_filter 1 8 f [] pow8 ltac:(lia) E) as (_ & _ & _ & FD & FC & FL & FZ).
  exists (mkFobj f (Some (column 8 (Z.to_nat 1) (-1), column 8 (Z.to_nat 1) 1))). rewrite calc_ideal by (reflexivity || lra). rewrite (ideal1 1 8) by (lra || lia || exact pow8 || exact E). rewrite periods8.
  unfold obj_applyMat. cbn [matL base]. rewrite FL, FZ. cbn [forallb map]. rewrite harmonic_length, column_length. change (Z.to_nat 8) with 8%nat.
  change (negb ((Z.of_nat 8 + 0 =? 8) && true)) with false. change (negb ((8 =? 8)%nat && true)) with false. cbv iota.
  assert (CD : cdot (map Creal (harmonic 8 1 6 0)) (column 8 (Z.to_nat 1) (-1)) = Cmul (Creal (6 / 2 * 8)) (cis 0)).
  { rewrite (cdot_comm_csum 8 (column 8 (Z.to_nat 1) (-1))) by (rewrite ?column_length, ?map_length, ?harmonic_length; reflexivity).
    rewrite <- (cdot_csum 8) by (rewrite ?column_length, ?map_length, ?harmonic_length; reflexivity).
    change (harmonic 8 1 6 0) with (harmonic (Z.to_nat 8) 1 6 0). rewrite column_dot by lia. reflexivity. }
  cbn zeta. rewrite CD. match goal with |- context [maxNorm ?M] => set (mm := M) end.
  assert (MX : (1 <= maxNorm mm)%R).
  { unfold mm, column. change (seq 0 (Z.to_nat 8)) with (0%nat :: seq 1 7). cbn [map]. unfold maxNorm. cbn [concat map app fold_right].
    eapply Rle_trans; [|apply Rmax_l]. replace (1 * (2 * PI * INR (Z.to_nat 1) * INR 0 / 8))%R with 0%R by (cbn; unfold Rdiv; ring).
    rewrite cis_0. unfold Cmul, Cscale, Creal, C1. cbn [fst snd]. eapply Rle_trans; [|apply Rle_abs]. lra. }
  eexists. split; [exact E|]. split; [reflexivity|]. fold mm. destruct (Req_EM_T (maxNorm mm) 0) as [Z0|_]; [rewrite Z0 in MX; exfalso; apply (Rlt_not_le 1 0); [exact Rlt_0_1|exact MX]|].
  reflexivity.
Qed.

Print Assumptions C141_harmonic.
Print Assumptions C141_constant.
Print Assumptions C142_by_fft.
Print Assumptions C142_by_dft.
Print Assumptions C142_matrix_scaled.
Print Assumptions C143_twice.
Print Assumptions C143_sticky.
Print Assumptions C143_init.
