(** Properties C54, C56, C87-C92: derived model parameters. *)
From Coq Require Import Reals Lra.
From Verif Require Import Base M_Grid S_Grid L_Grid M_Average M_Common M_Model S_Average S_Model L_AcqFile L_Acq2 L_Acq L_Average L_Average2 L_Average3 P_Average L_Model L_Model2.

(** ** C56: velocity and modulus conversions are inverse *)
Lemma velocity_of y d : (0 <= y)%R -> (0 < d)%R -> fsqrt (fdiv y d) = Num (sqrt (y / d)).
Proof.
  intros Hy Hd. unfold fdiv. destruct (Req_EM_T d 0); [lra|]. cbn.
  assert (0 <= y / d)%R by (apply Rmult_le_pos; [lra|left; apply Rinv_0_lt_compat; lra]).
  destruct (Rlt_dec (y / d) 0); [lra|reflexivity].
Qed.
Theorem C56_velocity : forall v r, length v = length r -> Forall (fun x => 0 <= x)%R v -> Forall (fun x => 0 < x)%R r ->
  exists m, calcModulusFromVelocity v r = Ok m /\ calcVelocityFromModulus m r = Ok v.
Proof.
  intros v r. revert v. induction r as [|d r IH]; intros [|x v] L Hv Hr; cbn in L; try lia.
  - exists []. split; reflexivity.
  - inversion Hv as [|? ? Hx Hv']; subst. inversion Hr as [|? ? Hd Hr']; subst. destruct (IH v ltac:(lia) Hv' Hr') as (m&E&F).
    unfold calcModulusFromVelocity in *. cbn [zipR]. rewrite E. cbn [bind]. eexists. split; [reflexivity|].
    unfold calcVelocityFromModulus in *. apply bind_ok in F as (q&Eq&F). injection F as F. cbn [zipR]. rewrite Eq. cbn [bind map].
    assert (0 <= d * x * x)%R by (rewrite Rmult_assoc; apply Rmult_le_pos; [lra|nra]).
    rewrite velocity_of by assumption. cbn. f_equal. f_equal; [|exact F].
    replace (d * x * x / d)%R with (x * x)%R by (field; lra). apply sqrt_square; lra.
Qed.
Print Assumptions C56_velocity.
Theorem C56_modulus : forall m r, length m = length r -> Forall (fun x => 0 <= x)%R m -> Forall (fun x => 0 < x)%R r ->
  exists v, calcVelocityFromModulus m r = Ok v /\ calcModulusFromVelocity v r = Ok m.
Proof.
  intros m r. revert m. induction r as [|d r IH]; intros [|x m] L Hv Hr; cbn in L; try lia.
  - exists []. split; reflexivity.
  - inversion Hv as [|? ? Hx Hv']; subst. inversion Hr as [|? ? Hd Hr']; subst. destruct (IH m ltac:(lia) Hv' Hr') as (v&E&F).
    unfold calcVelocityFromModulus in *. apply bind_ok in E as (q&Eq&E). injection E as E. cbn [zipR]. rewrite Eq. cbn [bind map].
    rewrite velocity_of by assumption. exists (sqrt (x / d) :: v). split; [cbn; f_equal; f_equal; exact E|].
    unfold calcModulusFromVelocity in *. cbn [zipR]. rewrite F. cbn [bind]. f_equal. f_equal.
    assert (0 <= x / d)%R by (apply Rmult_le_pos; [lra|left; apply Rinv_0_lt_compat; lra]).
    replace (d * sqrt (x / d) * sqrt (x / d))%R with (d * (sqrt (x / d) * sqrt (x / d)))%R by ring. rewrite sqrt_sqrt by lra. field. lra.
Qed.
(** All values: zero where the quotient or its root is not a number. *)
Theorem C56_values : forall m r, length m = length r -> exists v, calcVelocityFromModulus m r = Ok v /\ length v = length r /\
  forall i x d, nth_error m i = Some x -> nth_error r i = Some d -> exists y, nth_error v i = Some y /\
    (d <> 0 -> 0 <= x / d -> y = sqrt (x / d))%R /\ (d = 0 \/ x / d < 0 -> y = 0)%R.
Proof.
  intros m r. revert m. induction r as [|d r IH]; intros [|x m] L; cbn in L; try lia.
  - exists []. repeat split; try reflexivity. intros [|i]; discriminate.
  - destruct (IH m ltac:(lia)) as (v&E&Lv&N). unfold calcVelocityFromModulus in *. apply bind_ok in E as (q&Eq&E). injection E as E. cbn [zipR]. rewrite Eq. cbn [bind map].
    eexists. split; [reflexivity|]. cbn [replaceInvalid map nums length nth_error] in *. split; [f_equal; unfold nums, replaceInvalid in *; rewrite <- Lv, <- E; reflexivity|].
    intros [|i] x' d' Hx Hd; [injection Hx as <-; injection Hd as <-|].
    + eexists. split; [reflexivity|]. unfold fdiv, fsqrt. destruct (Req_EM_T d 0) as [Z|Z].
      * split; [intros; contradiction|intros _]. destruct (Req_EM_T x 0); [reflexivity|]. destruct (Rlt_dec 0 x); reflexivity.
      * destruct (Rlt_dec (x / d) 0); (split; [intros; lra|intros [?|?]; try contradiction; try lra; reflexivity]) || (split; [reflexivity|intros [?|?]; lra]).
    + destruct (N i x' d' Hx Hd) as (y&Hy&H). exists y. split; [|exact H]. cbn [nth_error]. unfold nums, replaceInvalid in *. rewrite <- Hy, <- E. reflexivity.
Qed.
Print Assumptions C56_values.
Print Assumptions C56_modulus.
Example C56_example : calcModulusFromVelocity [3; 0]%R [2; 1]%R = Ok [18; 0]%R /\ calcModulusFromVelocity [3]%R [2; 1]%R = Throw.
Proof. unfold calcModulusFromVelocity. cbn. split; [|reflexivity]. do 2 f_equal; [lra|]. f_equal. lra. Qed.

(** ** C54, C87: derived parameters and histories of operations *)

(** The modulus belonging to the parameters [p] of a class: with relaxation in the viscoelastic classes, for non-zero relaxation
    frequencies. *)
Definition modulus_of (k : kind) (p : params) (tau v m : list R) : Prop :=
  if visco k then
    forall fc, (cfreq p = Some fc \/ nrel p <= 0) -> let fs := firstn (Z.to_nat (nrel p)) (freqs p) in
      Forall (fun f => f <> 0%R) fs -> relaxed_modulus fc fs tau v (rho p) m
  else elastic_modulus v (rho p) m.
Definition is_P (k : kind) (p : params) (m : list R) : Prop := modulus_of k p (tauP p) (vP p) m.
Definition is_S (k : kind) (p : params) (m : list R) : Prop := modulus_of k p (tauS p) (vS p) m.
Definition is_inverse (p : params) (v : list fpv) : Prop :=
  length v = length (rho p) /\ forall i, (i < length (rho p))%nat ->
    (nth i (rho p) 0%R <> 0%R -> nth i v NaN = Num (1 / nth i (rho p) 0%R)) /\ (nth i (rho p) 0%R = 0%R -> nth i v NaN = PInf).
(** The averaged vector [x] of class [k] on grid [g]: which matrix is used is part of the claim (the shear moduli of the
    SH classes live at the places of the velocities vx and vy of the acoustic class). *)
Definition place (k : kind) (x : key) : avgkind :=
  match x with
  | InvX => AX | InvY => AY | InvZ => AZ
  | MuXY | TauXY => AXY
  | MuXZ | TauXZ => if hasP k then AXZ else AX
  | MuYZ | TauYZ => if hasP k then AYZ else AY
  end.
Definition is_averaged (k : kind) (g : grid) (p : params) (x : key) (v : list R) : Prop :=
  exists M, averageMatrix (place k x) g = Ok M /\
  match x with
  | InvX | InvY | InvZ => inverse_average (mrows M) (rho p) v
  | MuXY | MuXZ | MuYZ => exists mu, is_S k p mu /\ shear_average (mrows M) mu v
  | TauXY | TauXZ | TauYZ => plain_average (mrows M) (tauS p) v
  end.

Lemma modulus_of_P k p m : computeP k p = Ok m -> is_P k p m.
Proof.
  unfold computeP, is_P, modulus_of. intros H. apply bind_ok in H as (m0&E&H). apply modulus_spec in E. destruct (visco k).
  - intros fc HC HF. eapply scaled_spec; eauto.
  - injection H as <-. exact E.
Qed.
Lemma modulus_of_S k p m : computeS k p = Ok m -> is_S k p m.
Proof.
  unfold computeS, is_S, modulus_of. intros H. apply bind_ok in H as (m0&E&H). apply modulus_spec in E. destruct (visco k).
  - intros fc HC HF. eapply scaled_spec; eauto.
  - injection H as <-. exact E.
Qed.
Lemma plan_place k x a : In (x, a) (plan k) -> a = place k x.
Proof. destruct k; cbn; intros H; repeat (destruct H as [[= <- <-]|H]; [reflexivity|]); contradiction. Qed.
Lemma good_averaged k g p x v : good k g p x v -> v = [] \/ is_averaged k g p x v.
Proof.
  intros [E|(a&M&I&E&A)]; [auto|right]. apply plan_place in I. subst a. exists M. split; [exact E|].
  destruct x; cbn in A |- *; try (apply inverse_spec; exact A); try (apply plain_spec; exact A);
    destruct A as (w&m&A1&A2); exists w; (split; [apply modulus_of_S; exact A1|eapply shear_spec; exact A2]).
Qed.

(** In every state reached by any sequence of setting, combining, copying, thresholding, preparing and reading: *)
Theorem C87_P : forall k g p0 os m outs, run k g (fresh p0) os = Ok (m, outs) ->
  forall m' v, step k g m GetP = Ok (m', Values v) \/ step k g m ConstP = Ok (m', Values v) -> is_P k (par m) v.
Proof.
  intros k g p0 os m outs H m' v E. pose proof (inv_run _ _ _ _ _ _ (inv_fresh k g p0) H) as I. destruct E as [E|E]; cbn in E.
  - apply bind_ok in E as ((m1&v1)&E&F). injection F as <- <-. apply modulus_of_P. apply (inv_getP _ _ _ _ _ I E).
  - apply bind_ok in E as (v1&E&F). injection F as <- <-. unfold constP in E. destruct (negb _); [discriminate|].
    destruct (dP m) eqn:D; [discriminate|]. injection E as <-. apply modulus_of_P. apply (i_p _ _ _ I D).
Qed.
Print Assumptions C87_P.
Theorem C87_S : forall k g p0 os m outs, run k g (fresh p0) os = Ok (m, outs) ->
  forall m' v, step k g m GetS = Ok (m', Values v) \/ step k g m ConstS = Ok (m', Values v) ->
  exists mu, is_S k (par m) mu /\ (v = mu \/ v = map (Rmax 1) mu).
Proof.
  intros k g p0 os m outs H m' v E. pose proof (inv_run _ _ _ _ _ _ (inv_fresh k g p0) H) as I. destruct E as [E|E]; cbn in E.
  - apply bind_ok in E as ((m1&v1)&E&F). injection F as <- <-. destruct (inv_getS _ _ _ _ _ I E) as (_&_&_&_&_&_&_&_&w&Ew&Hw).
    exists w. split; [apply modulus_of_S; exact Ew|]. rewrite <- clamp_max. exact Hw.
  - apply bind_ok in E as (v1&E&F). injection F as <- <-. unfold constS in E. destruct (negb _); [discriminate|].
    destruct (dS m) eqn:D; [discriminate|]. injection E as <-. destruct (i_s _ _ _ I D) as (_&w&Ew&Hw).
    exists w. split; [apply modulus_of_S; exact Ew|]. rewrite <- clamp_max. exact Hw.
Qed.
Print Assumptions C87_S.
Theorem C87_inverse : forall k g p0 os m outs, run k g (fresh p0) os = Ok (m, outs) ->
  forall m' v, step k g m GetI = Ok (m', FValues v) \/ step k g m ConstI = Ok (m', FValues v) -> is_inverse (par m) v.
Proof.
  intros k g p0 os m outs H m' v E. pose proof (inv_run _ _ _ _ _ _ (inv_fresh k g p0) H) as I.
  assert (K : v = map (fdiv 1) (rho (par m))).
  { destruct E as [E|E]; cbn in E.
    - apply bind_ok in E as ((m1&v1)&E&F). injection F as <- <-. apply (inv_getI _ _ _ _ _ I E).
    - apply bind_ok in E as (v1&E&F). injection F as <- <-. unfold constI in E. destruct (dI m) eqn:D; [discriminate|]. injection E as <-. apply (i_i _ _ _ I D). }
  subst v. split; [apply map_length|]. intros i Hi.
  assert (N : nth i (map (fdiv 1) (rho (par m))) NaN = fdiv 1 (nth i (rho (par m)) 0%R)).
  { rewrite (nth_indep _ NaN (fdiv 1 0%R)) by (rewrite map_length; exact Hi). apply map_nth. }
  rewrite N. unfold fdiv. destruct (Req_EM_T (nth i (rho (par m)) 0%R) 0); split; intros; try congruence.
  destruct (Req_EM_T 1 0); [lra|]. destruct (Rlt_dec 0 1); [reflexivity|lra].
Qed.
Print Assumptions C87_inverse.
(** An average that was never computed is returned as an empty vector (see C88). *)
Theorem C87_averages : forall k g p0 os m outs, run k g (fresh p0) os = Ok (m, outs) ->
  forall m' x v, step k g m (GetA x) = Ok (m', Values v) \/ step k g m (ConstA x) = Ok (m', Values v) ->
  v = [] \/ is_averaged k g (par m) x v.
Proof.
  intros k g p0 os m outs H m' x v E. pose proof (inv_run _ _ _ _ _ _ (inv_fresh k g p0) H) as I. apply good_averaged. destruct E as [E|E]; cbn in E.
  - apply bind_ok in E as ((m1&v1)&E&F). injection F as <- <-. apply (inv_getA _ _ _ _ _ _ I E).
  - apply bind_ok in E as (v1&E&F). injection F as <- <-. unfold constA in E. destruct (barred k x); [discriminate|]. destruct (dA m) eqn:D; [discriminate|].
    injection E as <-. apply (i_a _ _ _ I D).
Qed.
Print Assumptions C87_averages.


(** Preparing a class with a shear modulus while its averages are out of date leaves the shear modulus raised to at least 1. *)
Theorem C54_S_after_prepare : forall k g p0 os m outs, run k g (fresh p0) os = Ok (m, outs) -> hasS k = true -> dA m = true ->
  forall m1, step k g m Prepare = Ok (m1, Nothing) -> forall m2 v, step k g m1 GetS = Ok (m2, Values v) ->
  exists mu, is_S k (par m) mu /\ v = map (Rmax 1) mu.
Proof.
  intros k g p0 os m outs H K D m1 E1 m2 v E2. pose proof (inv_run _ _ _ _ _ _ (inv_fresh k g p0) H) as I. cbn in E1, E2.
  apply bind_ok in E1 as (m1'&E1&F). injection F as <-. apply bind_ok in E2 as ((m2'&v')&E2&F). injection F as <- <-.
  destruct (prepare_clamped _ _ _ _ I D K E1) as (w&Ew&Hw). exists w. split; [apply modulus_of_S; exact Ew|].
  destruct (inv_prepare _ _ _ _ I E1) as (_&_&_&_&DS&_). unfold getSWaveModulus in E2. rewrite K in E2. cbn [negb] in E2. rewrite (DS K) in E2.
  injection E2 as <- <-. rewrite Hw. apply clamp_max.
Qed.
Print Assumptions C54_S_after_prepare.

(** ** C88: preparation makes every derived parameter available *)
Theorem C88_available : forall k nx ny nz g p0 os m outs, mk_regular nx ny nz = Ok g -> run k g (fresh p0) os = Ok (m, outs) ->
  dA m = true -> complete k (Z.to_nat (nx * ny * nz)) (par m) ->
  exists m1, step k g m Prepare = Ok (m1, Nothing) /\ par m1 = par m /\
    (hasP k = true -> exists v, step k g m1 ConstP = Ok (m1, Values v) /\ is_P k (par m) v) /\
    (hasS k = true -> exists v mu, step k g m1 ConstS = Ok (m1, Values v) /\ is_S k (par m) mu /\ v = map (Rmax 1) mu) /\
    (hasP k = false -> exists v, step k g m1 ConstI = Ok (m1, FValues v) /\ is_inverse (par m) v) /\
    (forall x, In x (map fst (plan k)) -> exists v, step k g m1 (ConstA x) = Ok (m1, Values v) /\ is_averaged k g (par m) x v).
Proof.
  intros k nx ny nz g p0 os m outs G H D C. pose proof (inv_run _ _ _ _ _ _ (inv_fresh k g p0) H) as I.
  pose proof (mk_regular_inv _ _ _ _ G) as (Px&Py&Pz).
  assert (N : 0 < nx * ny * nz) by (apply Z.mul_pos_pos; [apply Z.mul_pos_pos|]; lia).
  destruct (mk_regular_wf _ _ _ _ G) as (_&_&_&_&NG&_).
  destruct (prepare_exists k g m _ I C D) as (m1&E&L).
  { intros a. destruct (C55_regular a _ _ _ _ G) as (M&EM&CM&LM&_). exists M. split; [exact EM|]. rewrite NG in *. split; [rewrite CM; lia|lia]. }
  destruct (inv_prepare _ _ _ _ I E) as (I1&P1&DA&DP&DS&DI&_).
  assert (R : run k g (fresh p0) (os ++ [Prepare]) = Ok (m1, outs ++ [Nothing])).
  { clear - H E. revert H. generalize (fresh p0) outs. induction os as [|o os IH]; intros q outs0 H; cbn [run app] in *.
    - injection H as <- <-. cbn [step]. rewrite E. reflexivity.
    - apply bind_ok in H as ((q1&r)&E1&H). rewrite E1. cbn [bind]. apply bind_ok in H as ((q2&rs)&E2&H). injection H as <- <-.
      rewrite (IH _ _ E2). reflexivity. }
  exists m1. split; [cbn [step]; rewrite E; reflexivity|]. split; [exact P1|].
  split; [|split; [|split]].
  - intros K. exists (pMod m1). assert (E1 : step k g m1 ConstP = Ok (m1, Values (pMod m1))) by (cbn; unfold constP; rewrite K, (DP K); reflexivity).
    split; [exact E1|]. rewrite <- P1. eapply C87_P; [exact R|right; exact E1].
  - intros K. destruct (prepare_clamped _ _ _ _ I D K E) as (w&Ew&Hw). exists (sMod m1), w. split; [cbn; unfold constS; rewrite K, (DS K); reflexivity|].
    split; [apply modulus_of_S; exact Ew|]. rewrite Hw. apply clamp_max.
  - intros K. exists (invRho m1). assert (E1 : step k g m1 ConstI = Ok (m1, FValues (invRho m1))) by (cbn; unfold constI; rewrite (DI K); reflexivity).
    split; [exact E1|]. rewrite <- P1. eapply C87_inverse; [exact R|right; exact E1].
  - intros x Hx. exists (avs m1 x).
    assert (E1 : step k g m1 (ConstA x) = Ok (m1, Values (avs m1 x))).
    { cbn. unfold constA. rewrite DA. replace (barred k x) with false; [reflexivity|]. clear - Hx. destruct k; cbn in Hx; repeat (destruct Hx as [<-|Hx]; [reflexivity|]); contradiction. }
    split; [exact E1|]. rewrite <- P1. destruct (C87_averages _ _ _ _ _ _ R _ _ _ (or_intror E1)) as [K|K]; [|exact K].
    exfalso. specialize (L x Hx). rewrite K in L. cbn in L. lia.
Qed.
Print Assumptions C88_available.

(** In the class SH, reading an averaged shear modulus before preparation is not an error: it marks the averages as computed, and
    preparation then leaves them empty. *)
Theorem C88_refuted : exists g p m, mk_regular 2 2 1 = Ok g /\ complete SH 4 p /\
  run SH g (fresh p) [GetA MuXZ; Prepare; ConstA MuXZ] = Ok (m, [Values []; Nothing; Values []]) /\
  forall v, is_averaged SH g p MuXZ v -> v <> [].
Proof.
  eexists. exists (mkP [] [2; 2; 2; 2]%R [3; 3; 3; 3]%R [] [] [] 0 None). eexists. split; [reflexivity|]. split; [repeat split; discriminate|].
  split; [cbv -[Rmult R1 R0 IZR fdiv]; reflexivity|]. intros v (M&EM&mu&_&(L&_)) ->.
  destruct (C55_regular AX 2 2 1 _ eq_refl) as (M'&EM'&_&LM&_).
  assert (M' = M) as -> by (enough (Ok M' = Ok M) by congruence; rewrite <- EM, <- EM'; reflexivity).
  pose proof (eq_trans (f_equal Z.of_nat L) LM) as X. discriminate X.
Qed.
Print Assumptions C88_refuted.

(** A case in every class: two by two points, two relaxation mechanisms. *)
Definition c88_params : params := mkP [5; 5; 5; 5]%R [2; 2; 2; 2]%R [3; 3; 3; 3]%R [1; 1; 1; 1]%R [1; 1; 1; 1]%R [10; 20]%R 2 (Some 15%R).
Example C88_example : forall k, complete k (Z.to_nat (2 * 2 * 1)) c88_params /\ dA (fresh c88_params) = true /\
  exists g, mk_regular 2 2 1 = Ok g.
Proof. intros k. split; [|split; [reflexivity|eexists; reflexivity]]. repeat split; intros; try reflexivity. right. split; [cbn; lia|discriminate]. Qed.

Theorem C54_refuted : exists g p m1 m2 v, mk_regular 2 2 1 = Ok g /\
  run Elastic g (fresh p) [Prepare] = Ok (m1, [Nothing]) /\ step Elastic g m1 GetS = Ok (m2, Values v) /\
  par m1 = p /\ vS p = [0; 0; 0; 0]%R /\ v = [1; 1; 1; 1]%R /\ ~ is_S Elastic p v.
Proof.
  set (p := mkP [5; 5; 5; 5]%R [0; 0; 0; 0]%R [3; 3; 3; 3]%R [] [] [] 0 None).
  assert (G : exists g, mk_regular 2 2 1 = Ok g) by (eexists; reflexivity). destruct G as (g&G).
  assert (R : run Elastic g (fresh p) [] = Ok (fresh p, [])) by reflexivity.
  destruct (C88_available Elastic 2 2 1 g p [] _ _ G R eq_refl) as (m1&E&P&_&S&_).
  { repeat split; intros; try reflexivity; discriminate. }
  destruct (S eq_refl) as (v&mu&Ev&Hmu&Hv).
  exists g, p, m1, m1, v. split; [exact G|]. split; [cbn [run]; rewrite E; reflexivity|].
  split. { cbn in Ev |- *. unfold constS, getSWaveModulus in *. cbn [hasS negb] in *. destruct (dS m1); [discriminate|]. cbn in Ev |- *. injection Ev as ->. reflexivity. }
  split; [exact P|]. split; [reflexivity|].
  change (par (fresh p)) with p in Hmu. destruct Hmu as (_&L&N). cbn in L, N.
  assert (mu = [0; 0; 0; 0]%R) as ->.
  { destruct mu as [|a [|b [|c [|d [|]]]]]; cbn in L; try lia.
    pose proof (N 0%nat ltac:(lia)) as N0. pose proof (N 1%nat ltac:(lia)) as N1. pose proof (N 2%nat ltac:(lia)) as N2. pose proof (N 3%nat ltac:(lia)) as N3. cbn in N0, N1, N2, N3.
    f_equal; [lra|f_equal; [lra|f_equal; [lra|f_equal; lra]]]. }
  assert (M : Rmax 1 0 = 1%R) by (apply Rmax_left; lra). cbn in Hv. rewrite M in Hv. split; [exact Hv|].
  intros (_&_&K). specialize (K 0%nat ltac:(cbn; lia)). rewrite Hv in K. cbn in K. lra.
Qed.
Print Assumptions C54_refuted.
