(** Properties C87 (what the operations do to the parameters), C89 - C92: re-initialisation, thresholds, per-shot models. *)
From Coq Require Import Reals Lra.
From Verif Require Import Base M_Grid S_Grid L_Grid M_Average M_Common M_Model S_Average S_Model L_AcqFile L_Acq2 L_Acq L_Average L_Average2 L_Average3 P_Average L_Model L_Model2 P_Model.

(** ** What the operations do to the parameters *)
Definition pointwise (f : R -> R -> R) (a b r : list R) : Prop :=
  length b = length a /\ length r = length a /\ forall i, (i < length a)%nat -> nth i r 0%R = f (nth i a 0%R) (nth i b 0%R).
Definition times (c : R) (a r : list R) : Prop := length r = length a /\ forall i, (i < length a)%nat -> nth i r 0%R = (c * nth i a 0)%R.
(** [each k p rel]: the relation holds for every parameter vector class [k] has. *)
Definition each (k : kind) (rel : (params -> list R) -> Prop) : Prop :=
  rel rho /\ (hasP k = true -> rel vP) /\ (hasS k = true -> rel vS) /\ (k = Viscoelastic -> rel tauP) /\ (visco k = true -> rel tauS).
Definition relaxation_kept (p q : params) : Prop := freqs q = freqs p /\ nrel q = nrel p /\ cfreq q = cfreq p.

Lemma zip_pointwise f a b r : zipR f a b = Ok r -> pointwise f a b r.
Proof. intros H. pose proof (zipR_ok _ _ _ _ H) as (L1&L2&_). split; [lia|]. split; [lia|]. intros i Hi. apply (zipR_nth _ _ _ _ 0%R 0%R 0%R H). exact Hi. Qed.
Lemma times_map c a : times c a (map (fun x => x * c)%R a).
Proof.
  split; [apply map_length|]. intros i Hi. rewrite (nth_indep _ 0%R (0 * c)%R) by (rewrite map_length; exact Hi).
  rewrite (map_nth (fun x => x * c)%R a 0%R i). apply Rmult_comm.
Qed.

Lemma getP_par k m m' v : getPWaveModulus k m = Ok (m', v) -> par m' = par m.
Proof.
  unfold getPWaveModulus. destruct (negb _); [discriminate|]. destruct (dP m); [|intros [= <- <-]; reflexivity].
  intros H. apply bind_ok in H as (w&_&H). injection H as <- <-. reflexivity.
Qed.
Lemma getS_par k m m' v : getSWaveModulus k m = Ok (m', v) -> par m' = par m.
Proof.
  unfold getSWaveModulus. destruct (negb _); [discriminate|]. destruct (dS m); [|intros [= <- <-]; reflexivity].
  intros H. apply bind_ok in H as (w&_&H). injection H as <- <-. reflexivity.
Qed.
Lemma getI_par k m m' v : getInverseDensity k m = Ok (m', v) -> par m' = par m.
Proof. unfold getInverseDensity. destruct (hasP k); [discriminate|]. destruct (dI m); intros [= <- <-]; reflexivity. Qed.
Lemma average_par k m m' : calculateAveraging k m = Ok m' -> par m' = par m.
Proof.
  unfold calculateAveraging. destruct (dA m); [|intros [= <-]; reflexivity]. intros H. apply bind_ok in H as (m1&E&H). injection H as <-. cbn.
  revert m E. induction (plan k) as [|(x, a) l IH]; intros m E; cbn [averageAll] in E; [injection E as <-; reflexivity|].
  apply bind_ok in E as (m2&E2&E). rewrite (IH _ E). destruct x; cbn [averageOne] in E2;
    (apply bind_ok in E2 as ((v1&v2)&_&E2) || apply bind_ok in E2 as (v&_&E2)); injection E2 as <-; reflexivity.
Qed.
Lemma prepare_par k g m m' : prepareForModelling k g m = Ok m' -> par m' = par m.
Proof.
  intros E. unfold prepareForModelling in E.
  apply bind_ok in E as (m1&E1&E). apply bind_ok in E as (m2&E2&E). apply bind_ok in E as (m3&E3&E). apply bind_ok in E as (m4&E4&E). apply bind_ok in E as (m5&E5&E).
  injection E as <-. cbn. rewrite (average_par _ _ _ E5).
  assert (par m4 = par m3) as ->. { unfold initializeMatrices in E4. destruct (dA m3); [|injection E4 as <-; reflexivity]. apply bind_ok in E4 as (f&_&E4). injection E4 as <-. reflexivity. }
  assert (par m3 = par m2) as ->. { destruct (hasP k); [injection E3 as <-; reflexivity|]. apply bind_ok in E3 as ((q&v)&E3&F). injection F as <-. eapply getI_par; eauto. }
  assert (par m2 = par m1) as ->. { destruct (hasS k); [|injection E2 as <-; reflexivity]. apply bind_ok in E2 as ((q&v)&E2&F). injection F as <-. eapply getS_par; eauto. }
  destruct (hasP k); [|injection E1 as <-; reflexivity]. apply bind_ok in E1 as ((q&v)&E1&F). injection F as <-. eapply getP_par; eauto.
Qed.

Theorem C87_parameters : forall k g m o m' r, step k g m o = Ok (m', r) -> let p := par m in let q := par m' in
  match o with
  | SetRho v => rho q = v /\ (vP q, vS q, tauP q, tauS q) = (vP p, vS p, tauP p, tauS p) /\ relaxation_kept p q
  | SetVP v => vP q = v /\ (vS q, rho q, tauP q, tauS q) = (vS p, rho p, tauP p, tauS p) /\ relaxation_kept p q
  | SetVS v => vS q = v /\ (vP q, rho q, tauP q, tauS q) = (vP p, rho p, tauP p, tauS p) /\ relaxation_kept p q
  | SetTauP v => tauP q = v /\ (vP q, vS q, rho q, tauS q) = (vP p, vS p, rho p, tauS p) /\ relaxation_kept p q
  | SetTauS v => tauS q = v /\ (vP q, vS q, rho q, tauP q) = (vP p, vS p, rho p, tauP p) /\ relaxation_kept p q
  | SetFreq v => freqs q = v /\ (vP q, vS q, rho q, tauP q, tauS q, nrel q, cfreq q) = (vP p, vS p, rho p, tauP p, tauS p, nrel p, cfreq p)
  | SetNum n => nrel q = n /\ (vP q, vS q, rho q, tauP q, tauS q, freqs q, cfreq q) = (vP p, vS p, rho p, tauP p, tauS p, freqs p, cfreq p)
  | Scale c => each k (fun get => times c (get p) (get q)) /\ relaxation_kept p q
  | Plus s => each k (fun get => pointwise Rplus (get p) (get s) (get q)) /\ relaxation_kept p q
  | Minus s => each k (fun get => pointwise Rminus (get p) (get s) (get q)) /\ relaxation_kept p q
  | Assign s => each k (fun get => get q = get s) /\ (visco k = true -> relaxation_kept s q)
  | Copy => each k (fun get => get q = get p) /\ (visco k = true -> relaxation_kept p q)
  | Threshold t => relaxation_kept p q /\ tauP q = tauP p /\ tauS q = tauS p
  | _ => q = p
  end.
Proof.
  intros k g m o m' r H p q. subst p q.
  destruct o; cbn [step] in H.
  1-7: injection H as <- <-; repeat split; reflexivity.
  - injection H as <- <-. cbn. split; [|repeat split]. unfold each. cbn. split; [apply times_map|].
    split; [intros K; rewrite K; apply times_map|]. split; [intros K; rewrite K; apply times_map|].
    split; [intros ->; apply times_map|]. intros K; rewrite K; apply times_map.
  - apply bind_ok in H as (nq&E&H). injection H as <- <-. cbn. unfold combineParams in E.
    apply bind_ok in E as (a&Ea&E). apply bind_ok in E as (b&Eb&E). apply bind_ok in E as (c&Ec&E). apply bind_ok in E as (d&Ed&E). apply bind_ok in E as (e&Ee&E).
    injection E as <-. split; [|repeat split]. unfold each. cbn. split; [apply zip_pointwise; exact Ec|].
    split; [intros K; rewrite K in *; apply zip_pointwise; assumption|]. split; [intros K; rewrite K in *; apply zip_pointwise; assumption|].
    split; [intros ->; apply zip_pointwise; assumption|]. intros K; rewrite K in *; apply zip_pointwise; assumption.
  - apply bind_ok in H as (nq&E&H). injection H as <- <-. cbn. unfold combineParams in E.
    apply bind_ok in E as (a&Ea&E). apply bind_ok in E as (b&Eb&E). apply bind_ok in E as (c&Ec&E). apply bind_ok in E as (d&Ed&E). apply bind_ok in E as (e&Ee&E).
    injection E as <-. split; [|repeat split]. unfold each. cbn. split; [apply zip_pointwise; exact Ec|].
    split; [intros K; rewrite K in *; apply zip_pointwise; assumption|]. split; [intros K; rewrite K in *; apply zip_pointwise; assumption|].
    split; [intros ->; apply zip_pointwise; assumption|]. intros K; rewrite K in *; apply zip_pointwise; assumption.
  - injection H as <- <-. cbn. split; [|intros K; repeat split; cbn; rewrite K; reflexivity]. unfold each. cbn. split; [reflexivity|].
    split; [intros K; rewrite K; reflexivity|]. split; [intros K; rewrite K; reflexivity|]. split; [intros ->; reflexivity|]. intros K; rewrite K; reflexivity.
  - apply bind_ok in H as (nq&E&H). injection H as <- <-. cbn. unfold thresholdParams in E.
    apply bind_ok in E as (a1&_&E). apply bind_ok in E as (a2&_&E). apply bind_ok in E as (a3&_&E). apply bind_ok in E as (a4&_&E). apply bind_ok in E as (a5&_&E).
    apply bind_ok in E as (a6&_&E). apply bind_ok in E as (a7&_&E). apply bind_ok in E as (a8&_&E). injection E as <-. repeat split.
  - injection H as <- <-. cbn. split; [|intros K; repeat split; cbn; rewrite K; reflexivity]. unfold each. cbn. split; [reflexivity|].
    split; [intros K; rewrite K; reflexivity|]. split; [intros K; rewrite K; reflexivity|]. split; [intros ->; reflexivity|]. intros K; rewrite K; reflexivity.
  - apply bind_ok in H as (nq&E&H). injection H as <- <-. eapply prepare_par; eauto.
  - apply bind_ok in H as ((q&v)&E&H). injection H as <- <-. eapply getP_par; eauto.
  - apply bind_ok in H as ((q&v)&E&H). injection H as <- <-. eapply getS_par; eauto.
  - apply bind_ok in H as ((q&v)&E&H). injection H as <- <-. eapply getI_par; eauto.
  - apply bind_ok in H as ((q&v)&E&H). injection H as <- <-. unfold getAverage in E. destruct (barred k x); [discriminate|].
    apply bind_ok in E as (m1&E&H). injection H as <- <-. eapply average_par; eauto.
  - apply bind_ok in H as (v&_&H). injection H as <- <-. reflexivity.
  - apply bind_ok in H as (v&_&H). injection H as <- <-. reflexivity.
  - apply bind_ok in H as (v&_&H). injection H as <- <-. reflexivity.
  - apply bind_ok in H as (v&_&H). injection H as <- <-. reflexivity.
Qed.
Print Assumptions C87_parameters.
Example C87_example : exists m1 m2,
  run SH (mkG 1 1 1 0 1 [] []) (fresh (mkP [] [2%R] [3%R] [] [] [] 0 None)) [GetS; SetVS [4%R]] = Ok (m1, [Values [3 * 2 * 2]%R; Nothing]) /\
  step SH (mkG 1 1 1 0 1 [] []) m1 GetS = Ok (m2, Values [3 * 4 * 4]%R).
Proof. do 2 eexists. split; reflexivity. Qed.

(** ** C89: re-initialising an object does not refresh what was computed before *)
Theorem C89_stale : forall k g m n cvp cvs cr ctp cts fs nr fc,
  let m1 := init k n m cvp cvs cr ctp cts fs nr fc in
  (hasP k = true -> dP m = false -> step k g m1 GetP = Ok (m1, Values (pMod m))) /\
  (hasS k = true -> dS m = false -> step k g m1 GetS = Ok (m1, Values (sMod m))) /\
  (forall x, barred k x = false -> dA m = false -> step k g m1 (GetA x) = Ok (m1, Values (avs m x))).
Proof.
  intros k g m n cvp cvs cr ctp cts fs nr fc m1. split; [|split].
  - intros K D. cbn. unfold getPWaveModulus. rewrite K. cbn. rewrite D. reflexivity.
  - intros K D. cbn. unfold getSWaveModulus. rewrite K. cbn. rewrite D. reflexivity.
  - intros x K D. cbn. unfold getAverage. rewrite K. unfold calculateAveraging. cbn. rewrite D. reflexivity.
Qed.
Print Assumptions C89_stale.
(** The modulus of the first velocity is returned for the second. *)
Theorem C89_wrong : exists m1 m2, let g := mkG 1 1 1 0 1 [] [] in
  run Acoustic g (fresh (mkP [2%R] [] [3%R] [] [] [] 0 None)) [GetP] = Ok (m1, [Values [3 * 2 * 2]%R]) /\
  m2 = init Acoustic 1 m1 4 0 3 0 0 [] 0 0 /\ vP (par m2) = [4%R] /\
  exists m3 v, step Acoustic g m2 GetP = Ok (m3, Values v) /\ ~ is_P Acoustic (par m2) v.
Proof.
  do 2 eexists. split; [reflexivity|]. split; [reflexivity|]. split; [reflexivity|]. do 2 eexists. split; [reflexivity|].
  intros (_&_&H). specialize (H 0%nat ltac:(cbn; lia)). cbn in H. lra.
Qed.
Print Assumptions C89_wrong.

(** ** C90, C91: thresholds *)

(** Admissible thresholds. *)
Definition ordered (t : thresholds) : Prop := (lowVP t <= upVP t /\ lowVS t <= upVS t /\ lowRho t <= upRho t)%R.
Definition within (lo up x : R) : Prop := (lo <= x <= up)%R.

Lemma nth_map0 (f : R -> R) v i : (i < length v)%nat -> nth i (map f v) 0%R = f (nth i v 0%R).
Proof. intros H. rewrite <- (map_nth f v 0%R i). apply nth_indep. rewrite map_length. exact H. Qed.
(** [y] is [x] limited to the interval. *)
Definition clipped (lo up x y : R) : Prop := within lo up y /\ (within lo up x -> y = x) /\ (x < lo -> y = lo)%R /\ (up < x -> y = up)%R.
Lemma clip_ok v lo up : (lo <= up)%R -> exists w, clip v lo up = Ok w /\ length w = length v /\
  forall i, (i < length v)%nat -> clipped lo up (nth i v 0%R) (nth i w 0%R).
Proof.
  intros H. unfold clip, searchAndReplace. cbn [Z.eqb Pos.eqb bind]. eexists. split; [reflexivity|]. split; [rewrite !map_length; reflexivity|].
  intros i Hi. rewrite map_map, nth_map0 by exact Hi. generalize (nth i v 0%R). intros x. unfold clipped, within.
  destruct (Rlt_dec x lo); [destruct (Rlt_dec up lo); lra|destruct (Rlt_dec up x); lra].
Qed.
Lemma mask_nth v i : (i < length v)%nat -> (nth i v 0%R = 0%R -> nth i (mask v) 0%R = 0%R) /\ (nth i v 0%R <> 0%R -> nth i (mask v) 0%R = 1%R).
Proof.
  intros Hi. unfold mask. rewrite nth_map0 by exact Hi. destruct (Req_EM_T (nth i v 0%R) 0); split; congruence.
Qed.
Lemma limit_ok below ratio vp : forall vs, length vs = length vp -> exists w, limit_loop below ratio vp vs = Ok w /\ length w = length vp /\
  forall i, (i < length vp)%nat -> let b := (ratio * nth i vs 0)%R in let x := nth i vp 0%R in
    nth i w 0%R = if below then Rmax b x else Rmin b x.
Proof.
  induction vp as [|x vp IH]; intros [|s vs] L; cbn in L; try lia; cbn [limit_loop].
  - eexists. split; [reflexivity|]. split; [reflexivity|]. cbn. lia.
  - destruct (IH vs ltac:(lia)) as (w&->&Lw&H). cbn [bind]. eexists. split; [reflexivity|]. split; [cbn; lia|].
    intros [|i] Hi; cbn in Hi |- *; [|apply H; lia]. destruct below; unfold Rmax, Rmin.
    + destruct (Rlt_dec x (ratio * s)), (Rle_dec (ratio * s) x); lra.
    + destruct (Rlt_dec (ratio * s) x), (Rle_dec (ratio * s) x); lra.
Qed.

(** Sizes of the vectors a class uses. *)
Definition sized (k : kind) (n : nat) (p : params) : Prop :=
  length (rho p) = n /\ (hasP k = true -> length (vP p) = n) /\ (hasS k = true -> length (vS p) = n).
Definition both (k : kind) : bool := hasP k && hasS k.
(** The velocity whose zeros mark a vacuum. *)
Definition leading (k : kind) (p : params) : list R := if hasP k then vP p else vS p.

Lemma threshold_points k t p n : ordered t -> sized k n p -> exists q, thresholdParams k t p = Ok q /\ sized k n q /\
  forall i, (i < n)%nat ->
    let lim x := (if both k then Rmin (upRatio t * nth i (vS p) 0) (Rmax (lowRatio t * nth i (vS p) 0) x) else x)%R in
    (hasP k = true -> (nth i (vP p) 0%R = 0%R -> nth i (vP q) 0%R = 0%R) /\ (nth i (vP p) 0%R <> 0%R -> clipped (lowVP t) (upVP t) (lim (nth i (vP p) 0%R)) (nth i (vP q) 0%R))) /\
    (hasS k = true -> (nth i (vS p) 0%R = 0%R -> nth i (vS q) 0%R = 0%R) /\ (nth i (vS p) 0%R <> 0%R -> clipped (lowVS t) (upVS t) (nth i (vS p) 0%R) (nth i (vS q) 0%R))) /\
    (nth i (leading k p) 0%R = 0%R -> nth i (rho q) 0%R = 0%R) /\
    (nth i (leading k p) 0%R <> 0%R -> clipped (lowRho t) (upRho t) (nth i (rho p) 0%R) (nth i (rho q) 0%R)).
Proof.
  intros (O1&O2&O3) (L1&L2&L3). unfold thresholdParams.
  assert (B : match k with Elastic | Viscoelastic => true | _ => false end = both k) by (destruct k; reflexivity). rewrite B. clear B.
  assert (S1 : exists a b, (if both k then replaceVpwithVs (vP p) (vS p) (lowRatio t) 1 else Ok (vP p)) = Ok a /\
     (if both k then replaceVpwithVs a (vS p) (upRatio t) 2 else Ok a) = Ok b /\ length b = length (vP p) /\
     (hasP k = true -> forall i, (i < n)%nat -> nth i b 0%R = (if both k then Rmin (upRatio t * nth i (vS p) 0) (Rmax (lowRatio t * nth i (vS p) 0) (nth i (vP p) 0)) else nth i (vP p) 0)%R)).
  { unfold replaceVpwithVs. cbn [Z.eqb Pos.eqb]. destruct (both k) eqn:B; [|exists (vP p), (vP p); auto].
    apply andb_prop in B as (B1&B2).
    destruct (limit_ok true (lowRatio t) (vP p) (vS p)) as (a&Ea&La&Ha); [rewrite L3, L2; auto|].
    destruct (limit_ok false (upRatio t) a (vS p)) as (b&Eb&Lb&Hb); [rewrite L3, La, L2; auto|].
    exists a, b. split; [exact Ea|]. split; [exact Eb|]. split; [congruence|]. intros _ i Hi. rewrite L2 in Ha by auto. rewrite La, L2 in Hb by auto.
    rewrite Hb, Ha by exact Hi. reflexivity. }
  destruct S1 as (a&b&->&E&Lb&Hb). cbn [bind]. rewrite E. cbn [bind]. clear E.
  assert (S2 : exists c, (if hasP k then clip b (lowVP t) (upVP t) else Ok b) = Ok c /\ length c = length b /\
     (hasP k = true -> forall i, (i < n)%nat -> clipped (lowVP t) (upVP t) (nth i b 0%R) (nth i c 0%R))).
  { destruct (hasP k) eqn:K; [|exists b; repeat (split; [auto|]); discriminate]. destruct (clip_ok b _ _ O1) as (c&Ec&Lc&Hc). exists c. split; [exact Ec|]. split; [exact Lc|].
    intros _ i Hi. apply Hc. rewrite Lb, L2; auto. }
  destruct S2 as (c&->&Lc&Hc). cbn [bind].
  destruct (clip_ok (rho p) _ _ O3) as (d&->&Ld&Hd). cbn [bind].
  assert (S3 : exists e, (if hasS k then clip (vS p) (lowVS t) (upVS t) else Ok (vS p)) = Ok e /\ length e = length (vS p) /\
     (hasS k = true -> forall i, (i < n)%nat -> clipped (lowVS t) (upVS t) (nth i (vS p) 0%R) (nth i e 0%R))).
  { destruct (hasS k) eqn:K; [|exists (vS p); repeat (split; [auto|]); discriminate]. destruct (clip_ok (vS p) _ _ O2) as (e&Ee&Le&He). exists e. split; [exact Ee|]. split; [exact Le|].
    intros _ i Hi. rewrite L3 in He by auto. apply He; exact Hi. }
  destruct S3 as (e&->&Le&He). cbn [bind].
  assert (ML : forall v, length (mask v) = length v) by (intros v; apply map_length).
  assert (S4 : exists f, (if hasP k then zipR Rmult c (mask (vP p)) else Ok c) = Ok f /\ length f = length c /\
     (hasP k = true -> forall i, (i < n)%nat -> nth i f 0%R = (nth i c 0 * nth i (mask (vP p)) 0)%R)).
  { destruct (hasP k) eqn:K; [|exists c; repeat (split; [auto|]); discriminate].
    destruct (zipR_exists Rmult c (mask (vP p))) as (f&Ef); [rewrite ML; congruence|]. pose proof (zip_pointwise _ _ _ _ Ef) as (_&Lf&Hf).
    exists f. split; [exact Ef|]. split; [exact Lf|]. intros _ i Hi. apply Hf. rewrite Lc, Lb, L2; auto. }
  destruct S4 as (f&->&Lf&Hf). cbn [bind].
  assert (LL : length (leading k p) = n) by (unfold leading; destruct (hasP k) eqn:K; [apply L2; auto|apply L3; destruct k; try discriminate; reflexivity]).
  replace (if hasP k then mask (vP p) else mask (vS p)) with (mask (leading k p)) by (unfold leading; destruct (hasP k); reflexivity).
  destruct (zipR_exists Rmult d (mask (leading k p))) as (h&Eh); [rewrite ML; congruence|]. rewrite Eh. cbn [bind].
  pose proof (zip_pointwise _ _ _ _ Eh) as (_&Lh&Hh).
  assert (S5 : exists s, (if hasS k then zipR Rmult e (mask (vS p)) else Ok e) = Ok s /\ length s = length e /\
     (hasS k = true -> forall i, (i < n)%nat -> nth i s 0%R = (nth i e 0 * nth i (mask (vS p)) 0)%R)).
  { destruct (hasS k) eqn:K; [|exists e; repeat (split; [auto|]); discriminate].
    destruct (zipR_exists Rmult e (mask (vS p))) as (s&Es); [rewrite ML; congruence|]. pose proof (zip_pointwise _ _ _ _ Es) as (_&Ls&Hs).
    exists s. split; [exact Es|]. split; [exact Ls|]. intros _ i Hi. apply Hs. rewrite Le, L3; auto. }
  destruct S5 as (s&->&Ls&Hs). cbn [bind]. eexists. split; [reflexivity|]. unfold sized. cbn [rho vP vS].
  split. { split; [congruence|]. split; [intros K; rewrite Lf, Lc, Lb; auto|intros K; rewrite Ls, Le; auto]. }
  intros i Hi. split; [|split; [|split]].
  - intros K. rewrite (Hf K i Hi). destruct (mask_nth (vP p) i) as (M0&M1); [rewrite L2; auto|]. pose proof (Hc K i Hi) as C. rewrite (Hb K i Hi) in C.
    split; [intros Z0; rewrite (M0 Z0); lra|]. intros Z1. rewrite (M1 Z1), Rmult_1_r. auto.
  - intros K. rewrite (Hs K i Hi). destruct (mask_nth (vS p) i) as (M0&M1); [rewrite L3; auto|]. pose proof (He K i Hi) as C.
    split; [intros Z0; rewrite (M0 Z0); lra|]. intros Z1. rewrite (M1 Z1), Rmult_1_r. auto.
  - intros Z0. rewrite Hh by congruence. destruct (mask_nth (leading k p) i) as (M0&_); [congruence|]. rewrite (M0 Z0). lra.
  - intros Z1. rewrite Hh by congruence. destruct (mask_nth (leading k p) i) as (_&M1); [congruence|]. rewrite (M1 Z1), Rmult_1_r. apply Hd. congruence.
Qed.

(** After applying ordered thresholds every vector lies within its thresholds; zeros (vacuum, fluid) stay zero. *)
Theorem C90_within : forall k t p n, ordered t -> sized k n p -> exists q, thresholdParams k t p = Ok q /\ sized k n q /\
  forall i, (i < n)%nat ->
    (hasP k = true -> (nth i (vP p) 0%R = 0%R /\ nth i (vP q) 0%R = 0%R) \/ within (lowVP t) (upVP t) (nth i (vP q) 0%R)) /\
    (hasS k = true -> (nth i (vS p) 0%R = 0%R /\ nth i (vS q) 0%R = 0%R) \/ within (lowVS t) (upVS t) (nth i (vS q) 0%R)) /\
    ((nth i (leading k p) 0%R = 0%R /\ nth i (rho q) 0%R = 0%R) \/ within (lowRho t) (upRho t) (nth i (rho q) 0%R)).
Proof.
  intros k t p n O S. destruct (threshold_points k t p n O S) as (q&E&Sq&H). exists q. split; [exact E|]. split; [exact Sq|].
  intros i Hi. destruct (H i Hi) as (H1&H2&H3&H4). split; [|split].
  - intros K. destruct (H1 K) as (A&B). destruct (Req_EM_T (nth i (vP p) 0%R) 0) as [Z|Z]; [left; auto|right; apply B; exact Z].
  - intros K. destruct (H2 K) as (A&B). destruct (Req_EM_T (nth i (vS p) 0%R) 0) as [Z|Z]; [left; auto|right; apply B; exact Z].
  - destruct (Req_EM_T (nth i (leading k p) 0%R) 0) as [Z|Z]; [left; auto|right; apply H4; exact Z].
Qed.
Print Assumptions C90_within.
(** In every class every vector is limited point by point; the P velocity of the classes with both velocities is first limited to
    the ratios times the S velocity. *)
Theorem C90_values : forall k t p n, ordered t -> sized k n p -> exists q, thresholdParams k t p = Ok q /\
  forall i, (i < n)%nat -> let vp := nth i (vP p) 0%R in let vs := nth i (vS p) 0%R in
    (hasP k = true -> vp <> 0%R -> clipped (lowVP t) (upVP t) (if both k then Rmin (upRatio t * vs) (Rmax (lowRatio t * vs) vp) else vp) (nth i (vP q) 0%R)) /\
    (hasS k = true -> vs <> 0%R -> clipped (lowVS t) (upVS t) vs (nth i (vS q) 0%R)) /\
    (nth i (leading k p) 0%R <> 0%R -> clipped (lowRho t) (upRho t) (nth i (rho p) 0%R) (nth i (rho q) 0%R)).
Proof.
  intros k t p n O S. destruct (threshold_points k t p n O S) as (q&E&Sq&H). exists q. split; [exact E|]. intros i Hi. destruct (H i Hi) as (H1&H2&H3&H4).
  split; [|split]; [intros K; apply (H1 K)|intros K; apply (H2 K)|exact H4].
Qed.
Print Assumptions C90_values.

(** A point inside all thresholds keeps its values. *)
Theorem C91_unchanged : forall k t p n, ordered t -> sized k n p -> exists q, thresholdParams k t p = Ok q /\
  forall i, (i < n)%nat ->
    (hasP k = true -> within (lowVP t) (upVP t) (nth i (vP p) 0%R)) ->
    (hasS k = true -> within (lowVS t) (upVS t) (nth i (vS p) 0%R)) ->
    (hasP k = true -> hasS k = true -> (lowRatio t * nth i (vS p) 0 <= nth i (vP p) 0 <= upRatio t * nth i (vS p) 0)%R) ->
    within (lowRho t) (upRho t) (nth i (rho p) 0%R) -> nth i (leading k p) 0%R <> 0%R ->
    (hasP k = true -> nth i (vP q) 0%R = nth i (vP p) 0%R) /\ (hasS k = true -> nth i (vS q) 0%R = nth i (vS p) 0%R) /\ nth i (rho q) 0%R = nth i (rho p) 0%R.
Proof.
  intros k t p n O S. destruct (threshold_points k t p n O S) as (q&E&Sq&H). exists q. split; [exact E|].
  intros i Hi WP WS WQ WR NZ. destruct (H i Hi) as (H1&H2&H3&H4). split; [|split].
  - intros K. destruct (H1 K) as (A&B). destruct (Req_EM_T (nth i (vP p) 0%R) 0) as [Z|Z]; [rewrite (A Z); auto|]. destruct (B Z) as (_&B2&_).
    assert (L : ((if both k then Rmin (upRatio t * nth i (vS p) 0) (Rmax (lowRatio t * nth i (vS p) 0) (nth i (vP p) 0)) else nth i (vP p) 0)%R) = nth i (vP p) 0%R).
    { unfold both. rewrite K. cbn [andb]. destruct (hasS k); [|reflexivity]. specialize (WQ K eq_refl). rewrite Rmax_right by lra. apply Rmin_right. lra. }
    rewrite L in B2. apply B2. auto.
  - intros K. destruct (H2 K) as (A&B). destruct (Req_EM_T (nth i (vS p) 0%R) 0) as [Z|Z]; [rewrite (A Z); auto|]. apply B; auto.
  - apply H4; auto.
Qed.
Print Assumptions C91_unchanged.

(** A fluid point (zero shear velocity) of the classes with both velocities loses its P velocity: the upper limit of the ratio
    makes it zero and the lower threshold is put in its place, even if the P velocity was within its thresholds. *)
Theorem C91_fluid : forall k t p n, ordered t -> sized k n p -> both k = true -> (0 <= lowVP t)%R -> exists q, thresholdParams k t p = Ok q /\
  forall i, (i < n)%nat -> nth i (vS p) 0%R = 0%R -> (0 < nth i (vP p) 0)%R -> nth i (vP q) 0%R = lowVP t.
Proof.
  intros k t p n O S B Lo. destruct (threshold_points k t p n O S) as (q&E&Sq&H). exists q. split; [exact E|].
  intros i Hi Z V. destruct (H i Hi) as (H1&_). rewrite B in H1. apply andb_prop in B as (K&_). destruct (H1 K) as (_&C). destruct C as (_&C2&C3&_); [lra|].
  rewrite Z, !Rmult_0_r in C2, C3. rewrite Rmax_right, Rmin_left in C2, C3 by lra. destruct O as (O1&_).
  destruct (Req_EM_T (lowVP t) 0) as [E0|E0]; [rewrite C2 by (unfold within; lra); lra|apply C3; lra].
Qed.
Print Assumptions C91_fluid.
(** Water at 1500 m/s within the thresholds 1000 to 6000 m/s becomes 1000 m/s. *)
Example C91_water : exists q, thresholdParams Elastic (mkT 1000 6000 200 4000 1000 4000 1.5 6) (mkP [1500; 3000]%R [0; 1000]%R [1000; 2000]%R [] [] [] 0 None) = Ok q /\
  nth 0 (vP q) 0%R = 1000%R /\ nth 1 (vP q) 0%R = 3000%R.
Proof.
  set (t := mkT 1000 6000 200 4000 1000 4000 1.5 6). set (p := mkP [1500; 3000]%R [0; 1000]%R [1000; 2000]%R [] [] [] 0 None).
  assert (O : ordered t) by (unfold ordered; cbn; lra). assert (S : sized Elastic 2 p) by (repeat split).
  destruct (C91_fluid Elastic t p 2 O S eq_refl) as (q&E&H); [cbn; lra|]. exists q. split; [exact E|].
  split; [apply (H 0%nat); cbn; [lia|reflexivity|lra]|].
  destruct (C91_unchanged Elastic t p 2 O S) as (q'&E'&H'). rewrite E in E'. injection E' as <-.
  destruct (H' 1%nat) as (A&_); cbn; unfold within; try lia; try lra. apply A. reflexivity.
Qed.

(** ** C92: per-shot models *)
Definition inside_window (nx ny nz mx my mz : Z) (cut : coord) : Prop :=
  0 <= cx cut /\ 0 <= cy cut /\ 0 <= cz cut /\ cx cut + mx <= nx /\ cy cut + my <= ny /\ cz cut + mz <= nz.
Definition window_of (nx nz mx my mz : Z) (cut : coord) (big small : list R) : Prop :=
  Z.of_nat (length small) = mx * my * mz /\
  forall x y z, 0 <= x < mx -> 0 <= y < my -> 0 <= z < mz ->
    nth_error small (Z.to_nat (x + z * mx + y * mx * mz)) = nth_error big (Z.to_nat ((x + cx cut) + (z + cz cut) * nx + (y + cy cut) * nx * nz)).

(** The object handed over is the default-constructed one of the factory (Simulation.cpp 289, 396-400). *)
Theorem C92_window : forall k nx ny nz mx my mz sub big cut p,
  mk_regular mx my mz = Ok sub -> mk_regular nx ny nz = Ok big -> inside_window nx ny nz mx my mz cut -> complete k (Z.to_nat (nx * ny * nz)) p ->
  exists w ms, shrinkMatrix sub big cut = Ok w /\ getModelPerShot k w p (fresh noParams) = Ok ms /\
    each k (fun get => window_of nx nz mx my mz cut (get p) (get (par ms))) /\
    nrel (par ms) = 0 /\ freqs (par ms) = [] /\ cfreq (par ms) = None /\
    dP ms = true /\ dS ms = true /\ dI ms = true /\ dA ms = true.
Proof.
  intros k nx ny nz mx my mz sub big cut p Hs Hb (C1&C2&C3&C4&C5&C6) (L1&L2&L3&L4&L5).
  destruct (shrink_ok _ _ _ _ _ _ _ _ _ Hs Hb C1 C2 C3 C4 C5 C6) as (w&E&H).
  pose proof (mk_regular_inv _ _ _ _ Hb) as (Qx&Qy&Qz).
  assert (N : 0 < nx * ny * nz) by (apply Z.mul_pos_pos; [apply Z.mul_pos_pos|]; lia).
  assert (W : forall v, length v = Z.to_nat (nx * ny * nz) -> exists u, matvec w v = Ok u /\ window_of nx nz mx my mz cut v u).
  { intros v Hv. destruct (H v ltac:(lia)) as (u&Eu&Lu&Nu). exists u. split; [exact Eu|]. split; [exact Lu|]. exact Nu. }
  exists w. unfold getModelPerShot, each.
  assert (SP : exists m1, (if hasP k then v <- matvec w (vP p) ;; Ok (setVelocityP (fresh noParams) v) else Ok (fresh noParams)) = Ok m1 /\
     (hasP k = true -> window_of nx nz mx my mz cut (vP p) (vP (par m1))) /\ nrel (par m1) = 0 /\ freqs (par m1) = [] /\ cfreq (par m1) = None /\ dP m1 = true /\ dS m1 = true /\ dI m1 = true /\ dA m1 = true).
  { destruct (hasP k) eqn:K; [|eexists; split; [reflexivity|]; split; [discriminate|repeat split]]. destruct (W _ (L2 eq_refl)) as (u&->&Hu). cbn [bind]. eexists. split; [reflexivity|].
    split; [intros _; exact Hu|repeat split]. }
  destruct SP as (m1&->&W1&F1). cbn [bind].
  assert (SS : exists m2, (if hasS k then v <- matvec w (vS p) ;; Ok (setVelocityS m1 v) else Ok m1) = Ok m2 /\ vP (par m2) = vP (par m1) /\
     (hasS k = true -> window_of nx nz mx my mz cut (vS p) (vS (par m2))) /\ nrel (par m2) = 0 /\ freqs (par m2) = [] /\ cfreq (par m2) = None /\ dP m2 = true /\ dS m2 = true /\ dI m2 = true /\ dA m2 = true).
  { destruct F1 as (f1&f2&f3&f4&f5&f6&f7). destruct (hasS k) eqn:K; [|eexists; split; [reflexivity|]; split; [reflexivity|]; split; [discriminate|repeat split; assumption]].
    destruct (W _ (L3 eq_refl)) as (u&->&Hu). cbn [bind]. eexists. split; [reflexivity|]. split; [reflexivity|].
    split; [intros _; exact Hu|repeat split; cbn; assumption]. }
  destruct SS as (m2&->&Q2&W2&F2). cbn [bind]. destruct (W _ L1) as (u&->&Hu). cbn [bind].
  assert (ST : exists m3, (match k with Viscoelastic => v <- matvec w (tauP p) ;; Ok (setTauP (setDensity m2 u) v) | _ => Ok (setDensity m2 u) end) = Ok m3 /\
     vP (par m3) = vP (par m2) /\ vS (par m3) = vS (par m2) /\ rho (par m3) = u /\
     (k = Viscoelastic -> window_of nx nz mx my mz cut (tauP p) (tauP (par m3))) /\ nrel (par m3) = 0 /\ freqs (par m3) = [] /\ cfreq (par m3) = None /\ dP m3 = true /\ dS m3 = true /\ dI m3 = true /\ dA m3 = true).
  { destruct F2 as (f1&f2&f3&f4&f5&f6&f7). destruct k; try (eexists; split; [reflexivity|]; repeat (split; [reflexivity|]); split; [discriminate|repeat split; cbn; assumption]).
    destruct (W _ (L4 eq_refl)) as (u'&->&Hu'). cbn [bind]. eexists. split; [reflexivity|]. repeat (split; [reflexivity|]).
    split; [intros _; exact Hu'|repeat split; cbn; assumption]. }
  destruct ST as (m3&->&Q3&Q4&Q5&W3&F3). cbn [bind]. destruct F3 as (f1&f2&f3&f4&f5&f6&f7).
  destruct (visco k) eqn:V.
  - destruct (L5 eq_refl) as (L6&_). destruct (W _ L6) as (u'&->&Hu'). cbn [bind]. eexists. split; [exact E|]. split; [reflexivity|]. cbn.
    rewrite Q5, Q3, Q4, Q2. split; [|repeat (split; [auto|]); auto].
    split; [exact Hu|]. split; [exact W1|]. split; [exact W2|]. split; [exact W3|]. intros _. exact Hu'.
  - eexists. split; [exact E|]. split; [reflexivity|]. rewrite Q5, Q3, Q4, Q2. split; [|repeat (split; [auto|]); auto].
    split; [exact Hu|]. split; [exact W1|]. split; [exact W2|]. split; [exact W3|]. discriminate.
Qed.
Print Assumptions C92_window.

Lemma window_zip f nx ny nz mx my mz sub big cut A B a b V v :
  mk_regular mx my mz = Ok sub -> mk_regular nx ny nz = Ok big -> inside_window nx ny nz mx my mz cut ->
  Z.of_nat (length A) = nx * ny * nz -> window_of nx nz mx my mz cut A a -> window_of nx nz mx my mz cut B b ->
  zipR f A B = Ok V -> zipR f a b = Ok v -> window_of nx nz mx my mz cut V v.
Proof.
  intros Hs Hb (C1&C2&C3&C4&C5&C6) LA (La&Ha) (Lb&Hb') EV Ev. destruct (zipR_ok _ _ _ _ EV) as (L1&L2&N1). destruct (zipR_ok _ _ _ _ Ev) as (L3&L4&N2).
  split; [lia|]. intros x y z Hx Hy Hz. specialize (Ha x y z Hx Hy Hz). specialize (Hb' x y z Hx Hy Hz).
  pose proof (num_range mx my mz x y z Hx Hy Hz) as R1. pose proof (num_range nx ny nz (x + cx cut) (y + cy cut) (z + cz cut) ltac:(lia) ltac:(lia) ltac:(lia)) as R2.
  set (j := Z.to_nat (x + z * mx + y * mx * mz)) in *. set (J := Z.to_nat ((x + cx cut) + (z + cz cut) * nx + (y + cy cut) * nx * nz)) in *.
  destruct (nth_error a j) as [xa|] eqn:Ea; [|exfalso; apply nth_error_None in Ea; unfold j in Ea; lia].
  destruct (nth_error b j) as [xb|] eqn:Eb; [|exfalso; apply nth_error_None in Eb; unfold j in Eb; lia].
  rewrite (N2 _ _ _ Ea Eb). symmetry. apply N1; symmetry; assumption.
Qed.

(** In the classes without attenuation the moduli of the submodel are the window of the moduli of the big model. *)
Theorem C92_moduli : forall k nx ny nz mx my mz sub big cut p, visco k = false ->
  mk_regular mx my mz = Ok sub -> mk_regular nx ny nz = Ok big -> inside_window nx ny nz mx my mz cut -> complete k (Z.to_nat (nx * ny * nz)) p ->
  exists w ms, shrinkMatrix sub big cut = Ok w /\ getModelPerShot k w p (fresh noParams) = Ok ms /\
    (hasP k = true -> exists m1 m2 V v, getPWaveModulus k (fresh p) = Ok (m1, V) /\ getPWaveModulus k ms = Ok (m2, v) /\ window_of nx nz mx my mz cut V v) /\
    (hasS k = true -> exists m1 m2 V v, getSWaveModulus k (fresh p) = Ok (m1, V) /\ getSWaveModulus k ms = Ok (m2, v) /\ window_of nx nz mx my mz cut V v).
Proof.
  intros k nx ny nz mx my mz sub big cut p V Hs Hb I C. destruct (C92_window k _ _ _ _ _ _ _ _ _ p Hs Hb I C) as (w&ms&E&G&(W0&W1&W2&_)&_&_&_&D1&D2&_).
  exists w, ms. split; [exact E|]. split; [exact G|]. destruct C as (L1&L2&L3&_).
  pose proof (mk_regular_inv _ _ _ _ Hb) as (Qx&Qy&Qz).
  assert (N : 0 < nx * ny * nz) by (apply Z.mul_pos_pos; [apply Z.mul_pos_pos|]; lia). split; intros K.
  - unfold getPWaveModulus. rewrite K, D1. cbn [negb dP fresh]. unfold computeP, calcModulusFromVelocity. rewrite V. cbn [par fresh].
    destruct (zipR_exists (fun r c => r * c * c)%R (rho p) (vP p)) as (A&EA); [rewrite L2; auto|].
    destruct (zipR_exists (fun r c => r * c * c)%R (rho (par ms)) (vP (par ms))) as (a&Ea); [destruct W0 as (?&_), (W1 K) as (?&_); lia|].
    rewrite EA, Ea. cbn [bind]. do 4 eexists. split; [reflexivity|]. split; [reflexivity|]. eapply (window_zip _ nx ny nz mx my mz sub big cut (rho p) (vP p)); eauto. lia.
  - unfold getSWaveModulus. rewrite K, D2. cbn [negb dS fresh]. unfold computeS, calcModulusFromVelocity. rewrite V. cbn [par fresh].
    destruct (zipR_exists (fun r c => r * c * c)%R (rho p) (vS p)) as (A&EA); [rewrite L3; auto|].
    destruct (zipR_exists (fun r c => r * c * c)%R (rho (par ms)) (vS (par ms))) as (a&Ea); [destruct W0 as (?&_), (W2 K) as (?&_); lia|].
    rewrite EA, Ea. cbn [bind]. do 4 eexists. split; [reflexivity|]. split; [reflexivity|]. eapply (window_zip _ nx ny nz mx my mz sub big cut (rho p) (vS p)); eauto. lia.
Qed.
Print Assumptions C92_moduli.

(** The viscoelastic submodels lose the relaxation mechanisms: their moduli are the unrelaxed ones. *)
Theorem C92_unrelaxed : forall nx ny nz mx my mz sub big cut p,
  mk_regular mx my mz = Ok sub -> mk_regular nx ny nz = Ok big -> inside_window nx ny nz mx my mz cut -> complete Viscoelastic (Z.to_nat (nx * ny * nz)) p ->
  exists w ms m2 v, shrinkMatrix sub big cut = Ok w /\ getModelPerShot Viscoelastic w p (fresh noParams) = Ok ms /\
    getPWaveModulus Viscoelastic ms = Ok (m2, v) /\ elastic_modulus (vP (par ms)) (rho (par ms)) v.
Proof.
  intros nx ny nz mx my mz sub big cut p Hs Hb I C. destruct (C92_window Viscoelastic _ _ _ _ _ _ _ _ _ p Hs Hb I C) as (w&ms&E&G&(W0&W1&_&W3&_)&F1&F2&F3&D1&_).
  destruct W0 as (A0&_), (W1 eq_refl) as (A1&_), (W3 eq_refl) as (A3&_).
  destruct (zipR_exists (fun r c => r * c * c)%R (rho (par ms)) (vP (par ms))) as (a&Ea); [lia|]. pose proof (modulus_spec _ _ _ Ea) as S0.
  destruct (scaled_exists (par ms) (tauP (par ms)) a (length a)) as (v&Ev&Lv); [apply zipR_ok in Ea; lia|reflexivity|apply relaxSum_exists; left; lia|].
  exists w, ms. do 2 eexists. split; [exact E|]. split; [exact G|]. unfold getPWaveModulus. cbn [hasP negb]. rewrite D1. unfold computeP, calcModulusFromVelocity. rewrite Ea. cbn [bind visco].
  rewrite Ev. cbn [bind]. split; [reflexivity|].
  destruct (scaled_spec 0%R _ _ _ _ _ _ S0 Ev) as (B1&B2&B3&B4); [right; lia|rewrite F1; constructor|].
  split; [lia|]. split; [lia|]. intros i Hi. specialize (B4 i Hi). rewrite F1 in B4. cbn in B4. rewrite Rmult_0_r, Rplus_0_r in B4. specialize (B4 R1_neq_R0). cbn. lra.
Qed.
Print Assumptions C92_unrelaxed.
Theorem C92_refuted : exists g w p ms m1 m2 V v, mk_regular 1 1 1 = Ok g /\ shrinkMatrix g g (mkC 0 0 0) = Ok w /\
  complete Viscoelastic 1 p /\ getModelPerShot Viscoelastic w p (fresh noParams) = Ok ms /\
  getPWaveModulus Viscoelastic (fresh p) = Ok (m1, V) /\ getPWaveModulus Viscoelastic ms = Ok (m2, v) /\ ~ window_of 1 1 1 1 1 (mkC 0 0 0) V v.
Proof.
  set (p := mkP [1%R] [1%R] [1%R] [1%R] [1%R] [1%R] 1 (Some 1%R)).
  assert (G : exists g, mk_regular 1 1 1 = Ok g) by (eexists; reflexivity). destruct G as (g&G).
  assert (C : complete Viscoelastic (Z.to_nat (1 * 1 * 1)) p) by (repeat split; intros; try reflexivity; right; split; [cbn; lia|discriminate]).
  assert (I : inside_window 1 1 1 1 1 1 (mkC 0 0 0)) by (unfold inside_window; cbn; lia).
  destruct (C92_unrelaxed 1 1 1 1 1 1 g g (mkC 0 0 0) p G G I C) as (w&ms&m2&v&E&M&P&(_&Lv&U)).
  destruct (C92_window Viscoelastic _ _ _ _ _ _ _ _ _ p G G I C) as (w'&ms'&E'&M'&(W0&W1&_)&_). rewrite E in E'. injection E' as <-. rewrite M in M'. injection M' as <-.
  destruct (computeP_exists Viscoelastic p 1 C eq_refl) as (V&EV&LV).
  exists g, w, p, ms. do 2 eexists. exists V, v. split; [exact G|]. split; [exact E|]. split; [exact C|]. split; [exact M|].
  split; [unfold getPWaveModulus; cbn [hasP negb fresh dP par]; rewrite EV; reflexivity|]. split; [exact P|].
  intros (_&H). specialize (H 0 0 0 ltac:(lia) ltac:(lia) ltac:(lia)). cbn in H.
  apply modulus_of_P in EV. destruct (EV 1%R (or_introl eq_refl)) as (_&_&_&B); [repeat constructor; lra|]. specialize (B 0%nat ltac:(cbn; lia)). cbn in B.
  specialize (U 0%nat). destruct W0 as (A0&B0), (W1 eq_refl) as (A1&B1). specialize (B0 0 0 0 ltac:(lia) ltac:(lia) ltac:(lia)). specialize (B1 0 0 0 ltac:(lia) ltac:(lia) ltac:(lia)). cbn in B0, B1.
  destruct (rho (par ms)) as [|r rs]; [discriminate B0|]. destruct (vP (par ms)) as [|c cs]; [discriminate B1|]. injection B0 as ->. injection B1 as ->. cbn in U.
  destruct V as [|x V]; [discriminate LV|]. destruct v as [|y v]; [discriminate H|]. injection H as ->. cbn in B, U. specialize (U ltac:(lia)).
  assert (K : (1 / 1 * (1 / 1 * 1) / (1 + 1 / 1 * (1 / 1 * 1)) = / 2)%R) by field. change (Pos.to_nat 1) with 1%nat in B. cbn in B. rewrite K in B. lra.
Qed.
Print Assumptions C92_refuted.
