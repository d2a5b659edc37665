(** From the invariant of the parameter objects to the specification of the derived parameters. *)
From Coq Require Import Reals Lra.
From Verif Require Import Base M_Grid M_Average M_Common M_Model S_Model L_AcqFile L_Acq2 L_Acq L_Model.
Open Scope Z_scope.

Lemma modulus_spec v r m : calcModulusFromVelocity v r = Ok m -> elastic_modulus v r m.
Proof.
  intros H. pose proof (zipR_ok _ _ _ _ H) as (L&L'&_). split; [exact L|]. split; [lia|]. intros i Hi.
  rewrite (zipR_nth _ _ _ _ 0%R 0%R 0%R H) by lia. ring.
Qed.

Lemma relax_loop fc p n : forall a s0 s, (0 <= a) -> relaxLoop (zseq a n) p s0 = Ok s ->
  (cfreq p = Some fc \/ n = 0%nat) -> Forall (fun f => f <> 0%R) (firstn n (skipn (Z.to_nat a) (freqs p))) ->
  s = (s0 + relaxation fc (firstn n (skipn (Z.to_nat a) (freqs p))))%R.
Proof.
  induction n as [|n IH]; intros a s0 s Ha H HC HF.
  - cbn in H. injection H as <-. cbn. lra.
  - cbn [zseq relaxLoop] in H. apply bind_ok in H as (f&Ef&H). destruct HC as [HC|HC]; [|lia]. rewrite HC in H.
    cbn [bind] in H. apply IH in H; [|lia|auto|].
    + assert (K : skipn (Z.to_nat a) (freqs p) = f :: skipn (Z.to_nat (a + 1)) (freqs p)).
      { unfold vget in Ef. destruct (Z.ltb_spec a 0); [lia|]. destruct (nth_error (freqs p) (Z.to_nat a)) as [y|] eqn:Ey; [|discriminate]. injection Ef as ->. replace (Z.to_nat (a + 1)) with (S (Z.to_nat a)) by lia. revert Ey. clear. generalize (Z.to_nat a) (freqs p).
        intros j. induction j as [|j IHn]; intros [|z l] E; cbn in *; try discriminate; [congruence|]. apply (IHn l E). }
      rewrite K in HF |- *. cbn [firstn] in HF |- *. inversion HF as [|? ? Hf HF']; clear HF. rewrite H. unfold relaxation. cbn [map fold_right].
      assert (E : (2 * PI * fc * (2 * PI * fc) * (1 / (2 * PI * f)) * (1 / (2 * PI * f)) = (fc / f) ^ 2)%R).
      { field. split; [exact Hf|]. apply Rgt_not_eq, PI_RGT_0. }
      rewrite E. lra.
    + replace (Z.to_nat (a + 1)) with (S (Z.to_nat a)) by lia.
      assert (K : forall (A : Type) (j : nat) (l : list A), skipn (S j) l = tl (skipn j l)).
      { intros A j. induction j as [|j IHj]; intros [|y l]; try reflexivity. apply (IHj l). }
      rewrite K. destruct (skipn (Z.to_nat a) (freqs p)) as [|y l]; cbn in HF |- *; [destruct n; constructor|]. inversion HF; assumption.
Qed.

Lemma scaled_spec fc p tau v r m0 m : elastic_modulus v r m0 -> scaled p tau m0 = Ok m ->
  (cfreq p = Some fc \/ nrel p <= 0) -> Forall (fun f => f <> 0%R) (firstn (Z.to_nat (nrel p)) (freqs p)) ->
  relaxed_modulus fc (firstn (Z.to_nat (nrel p)) (freqs p)) tau v r m.
Proof.
  intros (L1&L2&E) H HC HF. unfold scaled in H. apply bind_ok in H as (s&Es&H).
  apply (relax_loop fc) in Es; [|lia|destruct HC; [auto|right; lia]|exact HF]. cbn [Z.to_nat skipn] in Es.
  pose proof (zipR_ok _ _ _ _ H) as (L3&L4&_). split; [lia|]. split; [lia|]. split; [lia|]. intros i Hi Hn.
  rewrite (zipR_nth _ _ _ _ 0%R 0%R 0%R H) by lia. rewrite <- E by exact Hi.
  replace (1 + s * nth i tau 0)%R with (1 + nth i tau 0 * relaxation fc (firstn (Z.to_nat (nrel p)) (freqs p)))%R by (rewrite Es; lra).
  field. exact Hn.
Qed.

Lemma relax_defined p s : relaxSum p = Ok s -> 0 < nrel p -> exists fc, cfreq p = Some fc.
Proof.
  unfold relaxSum. intros H Hn. destruct (Z.to_nat (nrel p)) as [|n] eqn:E; [lia|]. cbn [zseq relaxLoop] in H.
  apply bind_ok in H as (f&_&H). destruct (cfreq p); [eauto|]. discriminate.
Qed.
Lemma relax_exists fc p n : forall a s0, 0 <= a -> (Z.to_nat a + n <= length (freqs p))%nat -> cfreq p = Some fc ->
  exists s, relaxLoop (zseq a n) p s0 = Ok s.
Proof.
  induction n as [|n IH]; intros a s0 Ha Hl HC; cbn [zseq relaxLoop]; [eauto|].
  rewrite (vget_some _ _ 0%R) by lia. cbn [bind]. rewrite HC. cbn [bind]. apply IH; [lia|lia|exact HC].
Qed.
Lemma relaxSum_exists p : (nrel p <= 0 \/ (nrel p <= Z.of_nat (length (freqs p)) /\ cfreq p <> None)) -> exists s, relaxSum p = Ok s.
Proof.
  intros [H|(H&Hc)]; unfold relaxSum.
  - replace (Z.to_nat (nrel p)) with 0%nat by lia. cbn. eauto.
  - destruct (cfreq p) as [fc|] eqn:E; [|congruence]. apply (relax_exists fc); [lia|lia|exact E].
Qed.

(** Averages. *)
Lemma rowdot_mean r v : rowdot r v = mean r v.
Proof. unfold rowdot, mean. induction r as [|e r IH]; cbn; [reflexivity|]. rewrite <- IH. reflexivity. Qed.
Lemma matvec_rows M v w : matvec M v = Ok w -> w = map (fun r => mean r v) (mrows M).
Proof.
  unfold matvec. destruct (_ =? _); [|discriminate]. intros [= <-]. apply map_ext. intros r. apply rowdot_mean.
Qed.
Lemma rows_give_map rows f : rows_give rows (map f rows) f.
Proof.
  split; [apply map_length|]. intros i r H. apply nth_error_nth. rewrite nth_error_map, H. reflexivity.
Qed.
Lemma rows_give_ext rows a f f' : (forall r, f r = f' r) -> rows_give rows a f -> rows_give rows a f'.
Proof. intros E (L&H). split; [exact L|]. intros i r Hr. rewrite <- E. auto. Qed.

Lemma inverse_spec r M v : calcInverseAveragedParameter r M = Ok v -> inverse_average (mrows M) r v.
Proof.
  unfold calcInverseAveragedParameter. intros H. apply bind_ok in H as (w&E&H). injection H as <-.
  rewrite (matvec_rows _ _ _ E). unfold nums, replaceInvalid. rewrite !map_map. unfold inverse_average.
  eapply rows_give_ext; [|apply rows_give_map]. intros q. cbn. unfold fdiv. destruct (Req_EM_T (mean q r) 0); [|reflexivity].
  destruct (Req_EM_T 1 0); [reflexivity|]. destruct (Rlt_dec 0 1); reflexivity.
Qed.
Lemma shear_spec mu M m v : calcAveragedSWaveModulus mu M = Ok (m, v) -> shear_average (mrows M) mu v.
Proof.
  intros H. apply shear_inv in H as (_&t&E&->). rewrite (matvec_rows _ _ _ E). rewrite !map_map. unfold shear_average.
  eapply rows_give_ext; [|apply rows_give_map]. intros q. cbn.
  replace (map Rinv (clamp mu)) with (map (fun x => 1 / Rmax 1 x)%R mu).
  - unfold Rdiv. rewrite !Rmult_1_l. reflexivity.
  - rewrite clamp_max, map_map. apply map_ext. intros x. unfold Rdiv. apply Rmult_1_l.
Qed.
Lemma plain_spec t M v : calcAveragedParameter t M = Ok v -> plain_average (mrows M) t v.
Proof. intros H. apply matvec_rows in H as ->. apply rows_give_map. Qed.

(** With matching sizes everything can be computed. *)
Lemma searchReplace_len v a b : exists w, searchAndReplace v a b 1 = Ok w /\ length w = length v.
Proof. eexists. split; [reflexivity|]. apply map_length. Qed.
Lemma matvec_exists M v : mcols M = Z.of_nat (length v) -> exists w, matvec M v = Ok w /\ length w = length (mrows M).
Proof. intros H. unfold matvec. rewrite H, Z.eqb_refl. eexists. split; [reflexivity|]. apply map_length. Qed.
Lemma averageOne_exists m x a n : mcols (mats m a) = Z.of_nat n -> length (rho (par m)) = n ->
  (In x [MuXY; MuXZ; MuYZ] -> length (sMod m) = n) -> (In x [TauXY; TauXZ; TauYZ] -> length (tauS (par m)) = n) ->
  exists m', averageOne m (x, a) = Ok m' /\ length (sMod m') = length (sMod m) /\ length (avs m' x) = length (mrows (mats m a)).
Proof.
  intros C L1 L2 L3.
  assert (KP : forall f v, kput f x v x = v) by (intros f v; unfold kput; destruct (key_eqb_spec x x); congruence).
  destruct x; cbn [averageOne];
  match goal with
  | |- context [calcInverseAveragedParameter] =>
      unfold calcInverseAveragedParameter; destruct (matvec_exists (mats m a) (rho (par m)) ltac:(congruence)) as (w&->&L); cbn [bind];
      eexists; split; [reflexivity|]; split; [reflexivity|]; cbn [avs]; rewrite KP; unfold nums, replaceInvalid; rewrite !map_length; exact L
  | |- context [calcAveragedSWaveModulus] =>
      unfold calcAveragedSWaveModulus, searchAndReplace; cbn [Z.eqb Pos.eqb bind];
      match goal with |- context [matvec (mats m a) ?v] => destruct (matvec_exists (mats m a) v) as (w&->&L) end;
      [rewrite !map_length, L2 by (cbn; tauto); exact C|]; cbn [bind];
      eexists; split; [reflexivity|]; split; [cbn; apply map_length|]; cbn [avs]; rewrite KP, !map_length; exact L
  | |- context [calcAveragedParameter] =>
      unfold calcAveragedParameter; destruct (matvec_exists (mats m a) (tauS (par m)) ltac:(rewrite L3; [exact C|cbn; tauto])) as (w&->&L); cbn [bind];
      eexists; split; [reflexivity|]; split; [reflexivity|]; cbn [avs]; rewrite KP; exact L
  end.
Qed.

Lemma averageAll_exists n l : forall m, (forall x a, In (x, a) l -> mcols (mats m a) = Z.of_nat n /\ length (mrows (mats m a)) = n) ->
  length (rho (par m)) = n -> (forall x, In x [MuXY; MuXZ; MuYZ] -> In x (map fst l) -> length (sMod m) = n) ->
  (forall x, In x [TauXY; TauXZ; TauYZ] -> In x (map fst l) -> length (tauS (par m)) = n) ->
  exists m', averageAll m l = Ok m' /\ (forall x, In x (map fst l) -> length (avs m' x) = n) /\
    (forall x, ~ In x (map fst l) -> avs m' x = avs m x).
Proof.
  induction l as [|(x, a) l IH]; intros m HM L1 L2 L3; cbn [averageAll].
  - eexists. split; [reflexivity|]. split; [intros x []|auto].
  - destruct (HM x a ltac:(left; reflexivity)) as (C&R).
    destruct (averageOne_exists m x a n C L1) as (m1&E&Ls&La).
    { intros H. apply (L2 x H). left. reflexivity. }
    { intros H. apply (L3 x H). left. reflexivity. }
    rewrite E. cbn [bind].
    assert (Q : par m1 = par m /\ mats m1 = mats m /\ forall y, y <> x -> avs m1 y = avs m y).
    { assert (KN : forall f v y, y <> x -> kput f x v y = f y) by (intros f v y Hy; unfold kput; destruct (key_eqb_spec x y); congruence).
      clear - E KN. destruct x; cbn [averageOne] in E;
        (apply bind_ok in E as ((v1&v2)&_&E) || apply bind_ok in E as (v&_&E)); injection E as <-; cbn; auto. }
    destruct Q as (Q1&Q2&Q3).
    destruct (IH m1) as (m'&E'&A&B); rewrite ?Q1, ?Q2.
    { intros y b Hy. apply (HM y b). right. exact Hy. }
    { exact L1. }
    { intros y Hy Hi. rewrite Ls. apply (L2 y Hy). right. exact Hi. }
    { intros y Hy Hi. apply (L3 y Hy). right. exact Hi. }
    exists m'. split; [exact E'|]. split.
    + intros y [Hy|Hy]; [|auto]. cbn in Hy. subst y.
      destruct (in_dec (fun a b : key => ltac:(decide equality)) x (map fst l)) as [Hi|Hn]; [auto|].
      rewrite (B _ Hn), La. exact R.
    + intros y Hy. rewrite B by (intros Hi; apply Hy; right; exact Hi). apply Q3. intros ->. apply Hy. left. reflexivity.
Qed.

Lemma build_exists g n l : (forall a, In a l -> exists M, averageMatrix a g = Ok M /\ mcols M = Z.of_nat n /\ length (mrows M) = n) ->
  forall f, exists f', buildMatrices g l f = Ok f' /\ forall a, In a l -> mcols (f' a) = Z.of_nat n /\ length (mrows (f' a)) = n.
Proof.
  intros H f.
  assert (K : exists f', buildMatrices g l f = Ok f').
  { revert f. induction l as [|a l IH]; intros f; cbn [buildMatrices]; [eauto|].
    destruct (H a ltac:(left; reflexivity)) as (M&->&_). cbn [bind]. apply IH. intros b Hb. apply H. right. exact Hb. }
  destruct K as (f'&E). exists f'. split; [exact E|]. intros a Ha. destruct (H a Ha) as (M&EM&Q).
  rewrite (proj1 (buildMatrices_ok _ _ _ _ E) a Ha) in EM. injection EM as ->. exact Q.
Qed.

(** The sizes and relaxation mechanisms a class needs. *)
Definition complete (k : kind) (n : nat) (p : params) : Prop :=
  length (rho p) = n /\ (hasP k = true -> length (vP p) = n) /\ (hasS k = true -> length (vS p) = n) /\
  (k = Viscoelastic -> length (tauP p) = n) /\
  (visco k = true -> length (tauS p) = n /\ (nrel p <= 0 \/ (nrel p <= Z.of_nat (length (freqs p)) /\ cfreq p <> None))).

Lemma scaled_exists p tau m n : length tau = n -> length m = n -> (exists s, relaxSum p = Ok s) -> exists r, scaled p tau m = Ok r /\ length r = n.
Proof.
  intros L1 L2 (s&Es). unfold scaled. rewrite Es. cbn [bind]. destruct (zipR_exists (fun x t => x / (1 + s * t))%R m tau) as (r&E); [congruence|].
  exists r. split; [exact E|]. apply zipR_ok in E. lia.
Qed.
Lemma computeP_exists k p n : complete k n p -> hasP k = true -> exists r, computeP k p = Ok r /\ length r = n.
Proof.
  intros (L1&L2&L3&L4&L5) K. unfold computeP, calcModulusFromVelocity.
  destruct (zipR_exists (fun r c => r * c * c)%R (rho p) (vP p)) as (m&E); [rewrite L2; auto|]. rewrite E. cbn [bind].
  assert (length m = n) by (apply zipR_ok in E; lia). destruct (visco k) eqn:V; [|eauto].
  apply scaled_exists; [apply L4; destruct k; auto; discriminate|auto|]. apply relaxSum_exists. apply L5. reflexivity.
Qed.
Lemma computeS_exists k p n : complete k n p -> hasS k = true -> exists r, computeS k p = Ok r /\ length r = n.
Proof.
  intros (L1&L2&L3&L4&L5) K. unfold computeS, calcModulusFromVelocity.
  destruct (zipR_exists (fun r c => r * c * c)%R (rho p) (vS p)) as (m&E); [rewrite L3; auto|]. rewrite E. cbn [bind].
  assert (length m = n) by (apply zipR_ok in E; lia). destruct (visco k) eqn:V; [|eauto].
  destruct (L5 eq_refl). apply scaled_exists; [auto|auto|]. apply relaxSum_exists. auto.
Qed.
Lemma getP_exists k g m n : Inv k g m -> complete k n (par m) -> hasP k = true -> exists m' v, getPWaveModulus k m = Ok (m', v).
Proof.
  intros I C K. unfold getPWaveModulus. rewrite K. cbn [negb]. destruct (dP m); [|eauto].
  destruct (computeP_exists k (par m) n C K) as (r&->&_). cbn [bind]. eauto.
Qed.
Lemma getS_exists k g m n : Inv k g m -> complete k n (par m) -> hasS k = true -> exists m' v, getSWaveModulus k m = Ok (m', v).
Proof.
  intros I C K. unfold getSWaveModulus. rewrite K. cbn [negb]. destruct (dS m); [|eauto].
  destruct (computeS_exists k (par m) n C K) as (r&->&_). cbn [bind]. eauto.
Qed.
Lemma getI_exists k m : hasP k = false -> exists m' v, getInverseDensity k m = Ok (m', v).
Proof. intros K. unfold getInverseDensity. rewrite K. destruct (dI m); eauto. Qed.

Lemma plan_tau k x : In x [TauXY; TauXZ; TauYZ] -> In x (map fst (plan k)) -> visco k = true.
Proof. destruct k; cbn; intuition (try discriminate); subst; discriminate. Qed.
Lemma plan_mu k x : In x [MuXY; MuXZ; MuYZ] -> In x (map fst (plan k)) -> hasS k = true.
Proof. destruct k; cbn; intuition (try discriminate); subst; discriminate. Qed.

Lemma prepare_exists k g m n : Inv k g m -> complete k n (par m) -> dA m = true ->
  (forall a, exists M, averageMatrix a g = Ok M /\ mcols M = Z.of_nat n /\ length (mrows M) = n) ->
  exists m', prepareForModelling k g m = Ok m' /\ forall x, In x (map fst (plan k)) -> length (avs m' x) = n.
Proof.
  intros I C D HM. unfold prepareForModelling.
  assert (S1 : exists m1, (if hasP k then '(m, _) <- getPWaveModulus k m ;; Ok m else Ok m) = Ok m1 /\ Inv k g m1 /\ par m1 = par m /\ dA m1 = true).
  { destruct (hasP k) eqn:K; [|eauto 6]. destruct (getP_exists k g m n I C K) as (m1&v&E). rewrite E. cbn [bind].
    destruct (inv_getP _ _ _ _ _ I E) as (?&?&?&?&_). exists m1. repeat (split; [auto; congruence|]). congruence. }
  destruct S1 as (m1&->&I1&P1&D1). cbn [bind].
  assert (S2 : exists m2, (if hasS k then '(m, _) <- getSWaveModulus k m1 ;; Ok m else Ok m1) = Ok m2 /\ Inv k g m2 /\ par m2 = par m /\ dA m2 = true /\ (hasS k = true -> dS m2 = false)).
  { destruct (hasS k) eqn:K; [|exists m1; repeat (split; [auto|]); discriminate]. rewrite <- P1 in C. destruct (getS_exists k g m1 n I1 C K) as (m2&v&E). rewrite E. cbn [bind].
    destruct (inv_getS _ _ _ _ _ I1 E) as (?&?&?&?&?&_). exists m2. repeat (split; [auto; congruence|]). auto. }
  destruct S2 as (m2&->&I2&P2&D2&F2). cbn [bind].
  assert (S3 : exists m3, (if hasP k then Ok m2 else '(m, _) <- getInverseDensity k m2 ;; Ok m) = Ok m3 /\ Inv k g m3 /\ par m3 = par m /\ dA m3 = true /\ (hasS k = true -> dS m3 = false)).
  { destruct (hasP k) eqn:K; [exists m2; auto 6|]. destruct (getI_exists k m2 K) as (m3&v&E). rewrite E. cbn [bind].
    destruct (inv_getI _ _ _ _ _ I2 E) as (?&?&?&?&?&(_&Q&_)&_). exists m3. rewrite Q. repeat (split; [auto; congruence|]). auto. }
  destruct S3 as (m3&->&I3&P3&D3&F3). cbn [bind].
  unfold initializeMatrices. rewrite D3. destruct (build_exists g n (kinds k)) with (f := mats m3) as (f&E&Hf); [auto|]. rewrite E. cbn [bind].
  unfold calculateAveraging. cbn [dA]. cbn [par pMod sMod invRho dP dS dI dA mats avs].
  match goal with |- context [averageAll ?q (plan k)] => destruct (averageAll_exists n (plan k) q) as (m5&E5&L5&_) end; cbn [par mats sMod avs].
  - intros x a Hx. apply Hf. eapply plan_kinds; eauto.
  - rewrite P3. apply C.
  - intros x Hx Hi. pose proof (plan_mu k x Hx Hi) as K. destruct (i_s _ _ _ I3 (F3 K)) as (_&w&Ew&Hw).
    rewrite P3 in Ew. destruct (computeS_exists k (par m) n C K) as (w'&Ew'&L). rewrite Ew in Ew'. injection Ew' as ->.
    destruct Hw as [->| ->]; [exact L|]. unfold clamp. rewrite map_length. exact L.
  - intros x Hx Hi. rewrite P3. apply C. eapply plan_tau; eauto.
  - rewrite E5. cbn [bind]. eexists. split; [reflexivity|]. exact L5.
Qed.

(** Averaging the shear modulus leaves it raised to at least 1. *)
Lemma averageAll_clamped l : forall m m', averageAll m l = Ok m' ->
  (exists x, In x [MuXY; MuXZ; MuYZ] /\ In x (map fst l)) \/ sMod m = clamp (sMod m) -> sMod m' = clamp (sMod m).
Proof.
  induction l as [|(x, a) l IH]; intros m m' H K; cbn [averageAll] in H.
  - injection H as <-. destruct K as [(x&_&[])|K]; exact K.
  - apply bind_ok in H as (m1&E&H).
    assert (Q : (sMod m1 = sMod m /\ ~ In x [MuXY; MuXZ; MuYZ]) \/ sMod m1 = clamp (sMod m)).
    { destruct x; cbn [averageOne] in E;
        (apply bind_ok in E as ((v1&v2)&F&E) || apply bind_ok in E as (v&_&E)); injection E as <-; cbn;
        try (left; split; [reflexivity|intuition discriminate]); right; apply (shear_inv _ _ _ _ F). }
    destruct Q as [(Q&N)|Q].
    + rewrite <- Q. apply (IH m1 m' H). destruct K as [(y&Hy&Hi)|K]; [left|right; congruence]. exists y. split; [exact Hy|].
      destruct Hi as [Hi|Hi]; [|exact Hi]. cbn in Hi. subst y. contradiction.
    + rewrite (IH m1 m' H); [rewrite Q; apply clamp_clamp|]. right. rewrite Q. symmetry. apply clamp_clamp.
Qed.
Lemma plan_has_mu k : hasS k = true -> exists x, In x [MuXY; MuXZ; MuYZ] /\ In x (map fst (plan k)).
Proof. intros H. exists MuXZ. destruct k; cbn in *; try discriminate; intuition. Qed.

Lemma prepare_clamped k g m m' : Inv k g m -> dA m = true -> hasS k = true -> prepareForModelling k g m = Ok m' ->
  exists w, computeS k (par m) = Ok w /\ sMod m' = clamp w.
Proof.
  intros I D K H. unfold prepareForModelling in H. rewrite K in H.
  apply bind_ok in H as (m1&E1&H). apply bind_ok in H as (m2&E2&H). apply bind_ok in H as (m3&E3&H). apply bind_ok in H as (m4&E4&H).
  apply bind_ok in H as (m5&E5&H). injection H as <-.
  assert (J1 : Inv k g m1 /\ par m1 = par m /\ dA m1 = true).
  { destruct (hasP k) eqn:KP; [|injection E1 as <-; auto].
    apply bind_ok in E1 as ((q&v)&E1&E). injection E as <-. destruct (inv_getP _ _ _ _ _ I E1) as (?&?&?&?&_). repeat (split; [auto|]). congruence. }
  destruct J1 as (I1&P1&A1).
  assert (J2 : Inv k g m2 /\ par m2 = par m /\ dA m2 = true /\ exists w, computeS k (par m) = Ok w /\ (sMod m2 = w \/ sMod m2 = clamp w)).
  { apply bind_ok in E2 as ((q&v)&E2&E). injection E as <-. destruct (inv_getS _ _ _ _ _ I1 E2) as (?&?&?&?&?&_&_&Q&w&Ew&Hw).
    split; [auto|]. split; [congruence|]. split; [congruence|]. exists w. rewrite <- P1. split; [exact Ew|]. rewrite Q. exact Hw. }
  destruct J2 as (I2&P2&A2&w&Ew&Hw).
  assert (J3 : dA m3 = true /\ sMod m3 = sMod m2).
  { destruct (hasP k) eqn:KP; [injection E3 as <-; auto|]. unfold getInverseDensity in E3. rewrite KP in E3.
    destruct (dI m2); injection E3 as <-; auto. }
  destruct J3 as (A3&Q3). exists w. split; [exact Ew|].
  unfold initializeMatrices in E4. rewrite A3 in E4. apply bind_ok in E4 as (f&_&E4). injection E4 as <-.
  unfold calculateAveraging in E5. cbn [dA] in E5. apply bind_ok in E5 as (m6&E5&E6). injection E6 as <-. cbn.
  rewrite (averageAll_clamped _ _ _ E5); [|left; apply plan_has_mu; exact K]. cbn. rewrite Q3. destruct Hw as [->| ->]; [reflexivity|apply clamp_clamp].
Qed.
