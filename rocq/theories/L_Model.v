(** Lemmas about the parameter objects: the invariant behind the dirty flags. *)
From Coq Require Import Reals Lra.
From Verif Require Import Base M_Grid M_Average M_Common M_Model S_Model L_AcqFile L_Acq2 L_Acq.
Open Scope Z_scope.

Lemma zipR_ok {A B C} (f : A -> B -> C) a b r : zipR f a b = Ok r ->
  length a = length b /\ length r = length a /\
  forall i x y, nth_error a i = Some x -> nth_error b i = Some y -> nth_error r i = Some (f x y).
Proof.
  revert b r. induction a as [|x a IH]; intros [|y b] r H; cbn in H; try discriminate.
  - injection H as <-. split; [auto|]. split; [auto|]. intros [|i]; discriminate.
  - apply bind_ok in H as (q&E&H). injection H as <-. destruct (IH _ _ E) as (L&L'&N). cbn. split; [lia|]. split; [lia|].
    intros [|i] u v Hu Hv; cbn in *; [congruence|eauto].
Qed.
Lemma zipR_exists {A B C} (f : A -> B -> C) a b : length a = length b -> exists r, zipR f a b = Ok r.
Proof.
  revert b. induction a as [|x a IH]; intros [|y b] H; cbn in *; try lia; [eauto|].
  destruct (IH b ltac:(lia)) as (r&->). cbn. eauto.
Qed.
Lemma zipR_nth {A B C} (f : A -> B -> C) a b r da db dc : zipR f a b = Ok r ->
  forall i, (i < length a)%nat -> nth i r dc = f (nth i a da) (nth i b db).
Proof.
  intros H i Hi. destruct (zipR_ok _ _ _ _ H) as (L&L'&N).
  apply nth_error_nth. apply N; apply nth_error_nth'; lia.
Qed.

Definition clamp (v : list R) : list R := map (fun x => if Rlt_dec x 1 then 1%R else x) v.
Lemma clamp_clamp v : clamp (clamp v) = clamp v.
Proof.
  unfold clamp. rewrite map_map. apply map_ext. intros x. destruct (Rlt_dec x 1); [|destruct (Rlt_dec x 1); [lra|reflexivity]].
  destruct (Rlt_dec 1 1); [reflexivity|reflexivity].
Qed.
Lemma clamp_max v : clamp v = map (Rmax 1) v.
Proof. apply map_ext. intros x. unfold Rmax. destruct (Rlt_dec x 1), (Rle_dec 1 x); lra. Qed.

Lemma matvec_purged a v r : matvec (purged a) v = Ok r -> v = [] /\ r = [].
Proof. unfold matvec, purged. cbn. destruct v; cbn; [intros [= <-]; auto|discriminate]. Qed.

Lemma key_eqb_spec a b : reflect (a = b) (key_eqb a b).
Proof. destruct a, b; cbn; constructor; congruence. Qed.
Lemma avg_eqb_spec a b : reflect (a = b) (avg_eqb a b).
Proof. destruct a, b; cbn; constructor; congruence. Qed.

Lemma shear_inv mu a m v : calcAveragedSWaveModulus mu a = Ok (m, v) ->
  m = clamp mu /\ exists t, matvec a (map Rinv (clamp mu)) = Ok t /\
    v = map (fun x => if Rlt_dec x 4 then 0%R else x) (map Rinv t).
Proof.
  unfold calcAveragedSWaveModulus, searchAndReplace. cbn. fold (clamp mu). intros H.
  apply bind_ok in H as (t&E&H). injection H as <- <-. eauto.
Qed.
Lemma shear_clamp mu a : calcAveragedSWaveModulus (clamp mu) a = calcAveragedSWaveModulus mu a.
Proof. unfold calcAveragedSWaveModulus, searchAndReplace. cbn. fold (clamp mu). fold (clamp (clamp mu)). now rewrite clamp_clamp. Qed.

(** What an average must be. *)
Definition avg_ok (k : kind) (p : params) (x : key) (M : matrix) (v : list R) : Prop :=
  match x with
  | InvX | InvY | InvZ => calcInverseAveragedParameter (rho p) M = Ok v
  | MuXY | MuXZ | MuYZ => exists w m, computeS k p = Ok w /\ calcAveragedSWaveModulus w M = Ok (m, v)
  | TauXY | TauXZ | TauYZ => calcAveragedParameter (tauS p) M = Ok v
  end.
Definition good (k : kind) (g : grid) (p : params) (x : key) (v : list R) : Prop :=
  v = [] \/ exists a M, In (x, a) (plan k) /\ averageMatrix a g = Ok M /\ avg_ok k p x M v.
(** The shear modulus held is current. *)
Definition sGood (k : kind) (m : model) : Prop := exists w, computeS k (par m) = Ok w /\ (sMod m = w \/ sMod m = clamp w).

Record same (m m' : model) : Prop := {
  s_par : par m' = par m; s_p : pMod m' = pMod m; s_i : invRho m' = invRho m; s_dp : dP m' = dP m; s_ds : dS m' = dS m;
  s_di : dI m' = dI m; s_m : mats m' = mats m; s_s : sMod m' = sMod m \/ sMod m' = clamp (sMod m) }.
Lemma same_sgood k m m' : same m m' -> sGood k m -> sGood k m'.
Proof.
  intros S (w&E&H). exists w. rewrite (s_par _ _ S). split; [exact E|].
  destruct (s_s _ _ S) as [->| ->]; destruct H as [->| ->]; auto. right. apply clamp_clamp.
Qed.
Lemma same_trans a b c : same a b -> same b c -> same a c.
Proof.
  intros [] []. split; try congruence. destruct s_s0 as [E0|E0], s_s1 as [E1|E1]; rewrite E1, ?E0; auto. right. apply clamp_clamp.
Qed.
Lemma same_refl a : same a a. Proof. split; auto. Qed.

Lemma averageOne_good k g m x a m' : In (x, a) (plan k) -> averageOne m (x, a) = Ok m' ->
  (mats m a = purged a \/ (averageMatrix a g = Ok (mats m a) /\ (hasS k = true -> sGood k m))) ->
  (hasS k = false -> x <> MuXY /\ x <> MuXZ /\ x <> MuYZ) ->
  same m m' /\ dA m' = dA m /\ exists v, avs m' = kput (avs m) x v /\ good k g (par m) x v.
Proof.
  intros Hin H HM HS.
  assert (B : forall v, averageMatrix a g = Ok (mats m a) -> avg_ok k (par m) x (mats m a) v -> good k g (par m) x v).
  { intros v E A. right. exists a, (mats m a). auto. }
  destruct x; cbn [averageOne] in H;
  match goal with
  | H : context [calcInverseAveragedParameter] |- _ =>
      apply bind_ok in H as (v&E&H); injection H as <-; split; [split; cbn; auto|]; split; [reflexivity|]; exists v; split; [reflexivity|];
      destruct HM as [HM|(HM&_)]; [|apply B; [exact HM|exact E]];
      left; unfold calcInverseAveragedParameter in E; rewrite HM in E; apply bind_ok in E as (t&E&Et);
      apply matvec_purged in E as (_&->); injection Et as <-; reflexivity
  | H : context [calcAveragedSWaveModulus] |- _ =>
      apply bind_ok in H as ((mu&v)&E&H); injection H as <-; pose proof (shear_inv _ _ _ _ E) as (->&t&Et&Ev); split; [split; cbn; auto|];
      split; [reflexivity|]; exists v; split; [reflexivity|];
      destruct HM as [HM|(HM&HG)];
      [rewrite HM in Et; apply matvec_purged in Et as (_&->); left; rewrite Ev; reflexivity|];
      apply B; [exact HM|]; destruct (hasS k); [|exfalso; destruct (HS eq_refl) as (?&?&?); congruence];
      destruct (HG eq_refl) as (w&Ew&Hw); exists w; destruct Hw as [Hw|Hw]; rewrite Hw in E; [|rewrite shear_clamp in E]; eauto
  | H : context [calcAveragedParameter] |- _ =>
      apply bind_ok in H as (v&E&H); injection H as <-; split; [split; cbn; auto|]; split; [reflexivity|]; exists v; split; [reflexivity|];
      destruct HM as [HM|(HM&_)]; [|apply B; [exact HM|exact E]];
      left; unfold calcAveragedParameter in E; rewrite HM in E; apply matvec_purged in E as (_&->); reflexivity
  end.
Qed.

Lemma plan_S k x a : In (x, a) (plan k) -> hasS k = false -> x <> MuXY /\ x <> MuXZ /\ x <> MuYZ.
Proof. destruct k; cbn; intuition (try discriminate); congruence. Qed.

Lemma averageAll_good k g l : forall m m', incl l (plan k) -> averageAll m l = Ok m' ->
  ((forall a, mats m a = purged a) \/ ((forall x a, In (x, a) l -> averageMatrix a g = Ok (mats m a)) /\ (hasS k = true -> sGood k m))) ->
  same m m' /\ dA m' = dA m /\ forall x, (In x (map fst l) -> good k g (par m) x (avs m' x)) /\ (~ In x (map fst l) -> avs m' x = avs m x).
Proof.
  induction l as [|(x, a) l IH]; intros m m' I H HM.
  - injection H as <-. split; [apply same_refl|]. split; [reflexivity|]. intros x. cbn. tauto.
  - cbn [averageAll] in H. apply bind_ok in H as (m1&E&H).
    destruct (averageOne_good k g m x a m1) as (S&D&v&Ev&G); auto.
    { apply I. left. reflexivity. }
    { destruct HM as [HM|(HM&HG)]; [left; auto|right; split; [apply (HM x a); left; reflexivity|exact HG]]. }
    { apply (plan_S k x a). apply I. left. reflexivity. }
    destruct (IH m1 m') as (S'&D'&K); auto.
    { intros z Hz. apply I. right. exact Hz. }
    { destruct HM as [HM|(HM&HG)]; [left; intros b; rewrite (s_m _ _ S); auto|right; split].
      - intros y b Hy. rewrite (s_m _ _ S). apply (HM y b). right. exact Hy.
      - intros Hs. apply (same_sgood k m m1 S). auto. }
    split; [eapply same_trans; eauto|]. split; [congruence|]. intros y. destruct (K y) as (K1&K2). rewrite (s_par _ _ S) in K1. split.
    + intros Hy. destruct (in_dec (fun a b : key => ltac:(decide equality)) y (map fst l)) as [Hi|Hn]; [auto|].
      rewrite (K2 Hn), Ev. unfold kput. destruct Hy as [Hy|Hy]; [|contradiction]. cbn in Hy. subst y.
      destruct (key_eqb_spec x x); [exact G|congruence].
    + intros Hn. rewrite K2 by (intros Hi; apply Hn; right; exact Hi). rewrite Ev. unfold kput. destruct (key_eqb_spec x y); [|reflexivity].
      exfalso. apply Hn. left. cbn. exact e.
Qed.

Lemma buildMatrices_ok g l : forall f f', buildMatrices g l f = Ok f' ->
  (forall a, In a l -> averageMatrix a g = Ok (f' a)) /\ (forall a, ~ In a l -> f' a = f a).
Proof.
  induction l as [|b l IH]; intros f f' H; cbn [buildMatrices] in H.
  - injection H as <-. split; [intros a []|auto].
  - apply bind_ok in H as (M&E&H). destruct (IH _ _ H) as (I1&I2). split.
    + intros a [->|Ha]; [|auto].
      destruct (in_dec (fun a b : avgkind => ltac:(decide equality)) a l) as [Hi|Hn]; [auto|].
      rewrite (I2 _ Hn). destruct (avg_eqb_spec a a); congruence.
    + intros a Ha. rewrite I2 by (intros Hi; apply Ha; right; exact Hi). destruct (avg_eqb_spec b a); [exfalso; apply Ha; left; auto|reflexivity].
Qed.
Lemma plan_kinds k x a : In (x, a) (plan k) -> In a (kinds k).
Proof. destruct k; cbn; intuition congruence. Qed.

(** The invariant. *)
Record Inv (k : kind) (g : grid) (m : model) : Prop := {
  i_m : mats m = purged;
  i_p : dP m = false -> hasP k = true /\ computeP k (par m) = Ok (pMod m);
  i_s : dS m = false -> hasS k = true /\ sGood k m;
  i_i : dI m = false -> hasP k = false /\ invRho m = map (fdiv 1) (rho (par m));
  i_a : dA m = false -> forall x, good k g (par m) x (avs m x);
  i_n : forall x, ~ In x (map fst (plan k)) -> avs m x = [] }.

Lemma inv_fresh k g p : Inv k g (fresh p).
Proof. split; cbn; try discriminate; auto. Qed.

(** Parameters on which each derived vector depends. *)
Definition sameS (p q : params) : Prop := vS q = vS p /\ rho q = rho p /\ tauS q = tauS p /\ freqs q = freqs p /\ nrel q = nrel p /\ cfreq q = cfreq p.
Definition sameP (p q : params) : Prop := vP q = vP p /\ rho q = rho p /\ tauP q = tauP p /\ freqs q = freqs p /\ nrel q = nrel p /\ cfreq q = cfreq p.

Lemma relax_same p q : freqs q = freqs p -> nrel q = nrel p -> cfreq q = cfreq p -> relaxSum q = relaxSum p.
Proof.
  intros E1 E2 E3. unfold relaxSum. rewrite E2. generalize 0%R. induction (zseq 0 (Z.to_nat (nrel p))) as [|l ls IH]; intros s; cbn [relaxLoop]; [reflexivity|].
  rewrite E1, E3. destruct (vget (freqs p) l); cbn; try reflexivity. destruct (cfreq p); cbn; try reflexivity. apply IH.
Qed.
Lemma computeS_same k p q : sameS p q -> computeS k q = computeS k p.
Proof.
  intros (E1&E2&E3&E4&E5&E6). unfold computeS, scaled. rewrite E1, E2, E3, (relax_same p q E4 E5 E6). reflexivity.
Qed.
Lemma computeP_same k p q : sameP p q -> computeP k q = computeP k p.
Proof.
  intros (E1&E2&E3&E4&E5&E6). unfold computeP, scaled. rewrite E1, E2, E3, (relax_same p q E4 E5 E6). reflexivity.
Qed.
Lemma good_same k g p q x v : sameS p q -> good k g p x v -> good k g q x v.
Proof.
  intros Q [E|(a&M&I&E&A)]; [left; exact E|right]. exists a, M. split; [exact I|]. split; [exact E|].
  pose proof (computeS_same k _ _ Q) as C. destruct Q as (_&E2&E3&_). destruct x; cbn in *; rewrite ?C, ?E2, ?E3; exact A.
Qed.

Lemma inv_flag k g m q fP fS fI fA : Inv k g m ->
  (fP = false -> hasP k = true -> sameP (par m) q) -> (fS = false -> hasS k = true -> sameS (par m) q) ->
  (fI = false -> rho q = rho (par m)) -> (fA = false -> sameS (par m) q) -> Inv k g (flag m q fP fS fI fA).
Proof.
  intros [A B C D E F] HP HS HI HA. split; cbn; auto.
  - intros H. apply orb_false_iff in H as (H1&H2). destruct (B H2) as (B1&B2). split; [exact B1|]. rewrite (computeP_same k (par m) q); auto.
  - intros H. apply orb_false_iff in H as (H1&H2). destruct (C H2) as (C1&w&Ew&Hw). split; [exact C1|]. exists w. cbn. rewrite (computeS_same k (par m) q); auto.
  - intros H. apply orb_false_iff in H as (H1&H2). destruct (D H2) as (D1&D2). split; [exact D1|]. rewrite HI; auto.
  - intros H x. apply orb_false_iff in H as (H1&H2). apply good_same with (p := par m); auto.
Qed.

Lemma inv_getP k g m m' v : Inv k g m -> getPWaveModulus k m = Ok (m', v) -> Inv k g m' /\ par m' = par m /\ mats m' = mats m /\ dA m' = dA m /\
  dP m' = false /\ (dS m' = dS m /\ dI m' = dI m /\ avs m' = avs m) /\ hasP k = true /\ computeP k (par m) = Ok v /\ pMod m' = v.
Proof.
  intros I H. unfold getPWaveModulus in H. destruct (hasP k) eqn:K; [|discriminate]. cbn [negb] in H. destruct (dP m) eqn:D.
  - apply bind_ok in H as (w&E&H). injection H as <- <-. split; [|cbn; auto 12]. destruct I. split; cbn; auto.
  - injection H as <- <-. destruct (i_p _ _ _ I D). auto 12.
Qed.
Lemma inv_getS k g m m' v : Inv k g m -> getSWaveModulus k m = Ok (m', v) -> Inv k g m' /\ par m' = par m /\ mats m' = mats m /\ dA m' = dA m /\
  dS m' = false /\ (dP m' = dP m /\ dI m' = dI m /\ avs m' = avs m) /\ hasS k = true /\ sMod m' = v /\
  exists w, computeS k (par m) = Ok w /\ (v = w \/ v = clamp w).
Proof.
  intros I H. unfold getSWaveModulus in H. destruct (hasS k) eqn:K; [|discriminate]. cbn [negb] in H. destruct (dS m) eqn:D.
  - apply bind_ok in H as (w&E&H). injection H as <- <-. split; [|cbn; repeat (split; [auto|]); eauto]. destruct I. split; cbn; auto.
    intros _. split; [auto|]. exists w. cbn. auto.
  - injection H as <- <-. destruct (i_s _ _ _ I D) as (?&w&?&?). repeat (split; [auto|]); eauto.
Qed.
Lemma inv_getI k g m m' v : Inv k g m -> getInverseDensity k m = Ok (m', v) -> Inv k g m' /\ par m' = par m /\ mats m' = mats m /\ dA m' = dA m /\
  dI m' = false /\ (dP m' = dP m /\ dS m' = dS m /\ avs m' = avs m) /\ hasP k = false /\ invRho m' = v /\ v = map (fdiv 1) (rho (par m)).
Proof.
  intros I H. unfold getInverseDensity in H. destruct (hasP k) eqn:K; [discriminate|]. destruct (dI m) eqn:D.
  - injection H as <- <-. split; [|cbn; auto 12]. destruct I. split; cbn; auto.
  - injection H as <- <-. destruct (i_i _ _ _ I D). auto 12.
Qed.

Lemma plan_key k x : In x (map fst (plan k)) -> exists a, In (x, a) (plan k).
Proof. intros H. apply in_map_iff in H as ((y, a)&<-&H). eauto. Qed.

(** calculateAveraging without matrices leaves only empty or old results; with matrices and a current shear modulus, current ones. *)
Lemma inv_averaging k g m m' : calculateAveraging k m = Ok m' -> (dA m = false -> forall x, good k g (par m) x (avs m x)) ->
  (forall x, ~ In x (map fst (plan k)) -> avs m x = []) ->
  (dA m = true -> mats m = purged \/ ((forall x a, In (x, a) (plan k) -> averageMatrix a g = Ok (mats m a)) /\ (hasS k = true -> sGood k m))) ->
  same m m' /\ dA m' = false /\ (forall x, good k g (par m) x (avs m' x)) /\ forall x, ~ In x (map fst (plan k)) -> avs m' x = [].
Proof.
  intros H HA HN HM. unfold calculateAveraging in H. destruct (dA m) eqn:D.
  - apply bind_ok in H as (m1&E&H). injection H as <-. cbn.
    destruct (averageAll_good k g (plan k) m m1) as (S&D1&K); auto.
    { apply incl_refl. }
    { destruct (HM eq_refl) as [E1|E1]; [left; intros a; rewrite E1; reflexivity|right; exact E1]. }
    split; [destruct S; split; cbn; auto|]. split; [reflexivity|]. split.
    + intros x. destruct (in_dec (fun a b : key => ltac:(decide equality)) x (map fst (plan k))) as [Hi|Hn].
      * apply K. exact Hi.
      * left. rewrite (proj2 (K x) Hn). auto.
    + intros x Hn. rewrite (proj2 (K x) Hn). auto.
  - injection H as <-. split; [apply same_refl|]. auto.
Qed.

Lemma inv_same k g m m' : Inv k g m -> same m m' -> dA m' = false -> (forall x, good k g (par m) x (avs m' x)) ->
  (forall x, ~ In x (map fst (plan k)) -> avs m' x = []) -> Inv k g m'.
Proof.
  intros [] S D G N. split; rewrite ?(s_par _ _ S), ?(s_p _ _ S), ?(s_i _ _ S), ?(s_dp _ _ S), ?(s_ds _ _ S), ?(s_di _ _ S), ?(s_m _ _ S); auto.
  intros H. destruct (i_s0 H) as (?&HG). split; [auto|]. apply (same_sgood k m m' S HG).
Qed.

Lemma inv_getA k g m m' x v : Inv k g m -> getAverage k m x = Ok (m', v) -> Inv k g m' /\ par m' = par m /\ good k g (par m) x v.
Proof.
  intros I H. unfold getAverage in H. destruct (barred k x); [discriminate|]. apply bind_ok in H as (m1&E&H). injection H as <- <-.
  destruct (inv_averaging k g m m1 E (i_a _ _ _ I) (i_n _ _ _ I)) as (S&D&G&N).
  { intros _. left. apply I. }
  split; [eapply inv_same; eauto|]. split; [apply S|auto].
Qed.

Lemma inv_prepare k g m m' : Inv k g m -> prepareForModelling k g m = Ok m' -> Inv k g m' /\ par m' = par m /\ dA m' = false /\
  (hasP k = true -> dP m' = false) /\ (hasS k = true -> dS m' = false) /\ (hasP k = false -> dI m' = false) /\
  (dA m = true -> forall x, In x (map fst (plan k)) -> exists a M, In (x, a) (plan k) /\ averageMatrix a g = Ok M).
Proof.
  intros I H. unfold prepareForModelling in H.
  apply bind_ok in H as (m1&E1&H). apply bind_ok in H as (m2&E2&H). apply bind_ok in H as (m3&E3&H). apply bind_ok in H as (m4&E4&H).
  apply bind_ok in H as (m5&E5&H). injection H as <-.
  assert (J1 : Inv k g m1 /\ par m1 = par m /\ dA m1 = dA m /\ (hasP k = true -> dP m1 = false)).
  { destruct (hasP k) eqn:K.
    - apply bind_ok in E1 as ((q&v)&E1&E). cbn in E; injection E as <-. destruct (inv_getP _ _ _ _ _ I E1) as (?&?&?&?&?&?); auto.
    - injection E1 as <-. repeat (split; [auto|]). discriminate. }
  destruct J1 as (I1&P1&A1&F1).
  assert (J2 : Inv k g m2 /\ par m2 = par m /\ dA m2 = dA m /\ (hasP k = true -> dP m2 = false) /\ (hasS k = true -> dS m2 = false)).
  { destruct (hasS k) eqn:K.
    - apply bind_ok in E2 as ((q&v)&E2&E). cbn in E; injection E as <-. destruct (inv_getS _ _ _ _ _ I1 E2) as (?&?&?&?&?&(Q&_)&_).
      rewrite Q. repeat (split; [auto; congruence|]); auto.
    - injection E2 as <-. repeat (split; [auto|]). discriminate. }
  destruct J2 as (I2&P2&A2&F2&G2).
  assert (J3 : Inv k g m3 /\ par m3 = par m /\ dA m3 = dA m /\ (hasP k = true -> dP m3 = false) /\ (hasS k = true -> dS m3 = false) /\ (hasP k = false -> dI m3 = false)).
  { destruct (hasP k) eqn:K.
    - injection E3 as <-. repeat (split; [auto|]). discriminate.
    - apply bind_ok in E3 as ((q&v)&E3&E). cbn in E; injection E as <-. destruct (inv_getI _ _ _ _ _ I2 E3) as (?&?&?&?&?&(Q1&Q2&_)&_).
      rewrite Q1, Q2. repeat (split; [auto; congruence|]); auto. }
  destruct J3 as (I3&P3&A3&F3&G3&H3).
  assert (J4 : same m3 m4 /\ (dA m4 = dA m) /\ avs m4 = avs m3 /\ (dA m4 = true -> forall x a, In (x, a) (plan k) -> averageMatrix a g = Ok (mats m4 a)) \/
               (par m4 = par m3 /\ pMod m4 = pMod m3 /\ invRho m4 = invRho m3 /\ dP m4 = dP m3 /\ dS m4 = dS m3 /\ dI m4 = dI m3 /\ sMod m4 = sMod m3) /\
                dA m4 = dA m /\ avs m4 = avs m3 /\ (dA m4 = true -> forall x a, In (x, a) (plan k) -> averageMatrix a g = Ok (mats m4 a))).
  { unfold initializeMatrices in E4. destruct (dA m3) eqn:D.
    - apply bind_ok in E4 as (f&E4&E). injection E as <-. right. cbn. split; [repeat split|]. split; [congruence|]. split; [reflexivity|]. intros _ x a Hx.
      apply (proj1 (buildMatrices_ok _ _ _ _ E4)). eapply plan_kinds; eauto.
    - injection E4 as <-. left. split; [apply same_refl|]. split; [congruence|]. split; [reflexivity|]. congruence. }
  assert (J4' : par m4 = par m3 /\ pMod m4 = pMod m3 /\ invRho m4 = invRho m3 /\ dP m4 = dP m3 /\ dS m4 = dS m3 /\ dI m4 = dI m3 /\
     (sMod m4 = sMod m3 \/ sMod m4 = clamp (sMod m3)) /\ dA m4 = dA m /\ avs m4 = avs m3 /\ (dA m4 = true -> forall x a, In (x, a) (plan k) -> averageMatrix a g = Ok (mats m4 a))).
  { destruct J4 as [(S&J)|(S&J)]; [destruct S; repeat split; tauto|tauto]. }
  clear J4. destruct J4' as (p1&p2&p3&p4&p5&p6&p7&p8&p9&p10).
  assert (SG : hasS k = true -> sGood k m4).
  { intros Hs. destruct (i_s _ _ _ I3 (G3 Hs)) as (_&w&Ew&Hw). exists w. rewrite p1. split; [exact Ew|].
    destruct p7 as [->| ->], Hw as [->| ->]; auto. right. apply clamp_clamp. }
  destruct (inv_averaging k g m4 m5 E5) as (S&D&G&N).
  { rewrite p8, p9, p1. intros HA. apply (i_a _ _ _ I3). congruence. }
  { rewrite p9. apply (i_n _ _ _ I3). }
  { intros HA. right. split; [exact (p10 HA)|exact SG]. }
  split.
  { destruct S. destruct I3. split; cbn; auto.
    - rewrite s_dp0, p4, s_par0, p1, s_p0, p2. auto.
    - rewrite s_ds0, p5. intros Hs. destruct (i_s0 Hs) as (K&_). split; [exact K|]. destruct (SG K) as (w&Ew&Hw). exists w. cbn. rewrite s_par0.
      split; [exact Ew|]. destruct s_s0 as [->| ->], Hw as [->| ->]; auto. right. apply clamp_clamp.
    - rewrite s_di0, p6, s_i0, p3, s_par0, p1. auto.
    - rewrite s_par0. auto. }
  cbn. rewrite (s_par _ _ S), p1, (s_dp _ _ S), (s_ds _ _ S), (s_di _ _ S), p4, p5, p6.
  repeat (split; [auto; congruence|]). intros HA x Hx. destruct (plan_key k x Hx) as (a&Ha). exists a, (mats m4 a). split; [exact Ha|]. apply p10 with (x := x); auto; congruence.
Qed.

Lemma inv_copy k g m : Inv k g m -> Inv k g (copy k m).
Proof.
  intros [A B C D E F].
  split; cbn; auto; try discriminate.
  - destruct (hasP k) eqn:K; [|discriminate]. intros H. destruct (B H) as (_&B2). split; [reflexivity|].
    rewrite <- B2. destruct k; try discriminate; try reflexivity. apply computeP_same. repeat split; reflexivity.
  - destruct (hasS k) eqn:K; [|discriminate]. intros H. destruct (C H) as (_&w&Ew&Hw). split; [reflexivity|].
    exists w. cbn. rewrite K. split; [|exact Hw]. rewrite <- Ew.
    destruct k; try discriminate; try reflexivity; apply computeS_same; repeat split; reflexivity.
Qed.

Lemma inv_step k g m o m' r : Inv k g m -> step k g m o = Ok (m', r) -> Inv k g m'.
Proof.
  assert (FA : forall q, Inv k g m -> Inv k g (flagAll k m q)).
  { intros q I. unfold flagAll. apply inv_flag; auto; intros; try congruence. }
  intros I H. destruct o; cbn in H;
    try (injection H as <- <-; unfold setDensity, setVelocityP, setVelocityS, setTauP, setTauS, setRelaxationFrequency, setNumRelaxationMechanisms;
         apply inv_flag; auto; intros; try discriminate; repeat split; reflexivity);
    try (apply bind_ok in H as ((m1&v1)&E&H)); try (apply bind_ok in H as (v1&E&H)); try (injection H as <- <-); auto.
  - apply inv_copy. exact I.
  - apply (inv_prepare _ _ _ _ I E).
  - apply (inv_getP _ _ _ _ _ I E).
  - apply (inv_getS _ _ _ _ _ I E).
  - apply (inv_getI _ _ _ _ _ I E).
  - apply (inv_getA _ _ _ _ _ _ I E).
Qed.
Lemma inv_run k g os : forall m m' rs, Inv k g m -> run k g m os = Ok (m', rs) -> Inv k g m'.
Proof.
  induction os as [|o os IH]; intros m m' rs I H; cbn [run] in H; [injection H as <- <-; exact I|].
  apply bind_ok in H as ((m1&r)&E&H). apply bind_ok in H as ((m2&r2)&E2&H). injection H as <- <-.
  eapply IH; [|exact E2]. eapply inv_step; eauto.
Qed.
