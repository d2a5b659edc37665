(** Properties C101-C104: electromagnetic parameter objects. *)
From Coq Require Import Reals Lra.
From Verif Require Import Base M_Grid S_Grid L_Grid M_Average M_Common M_Model M_ModelEM S_Model S_ModelEM L_AcqFile L_Acq2 L_Acq L_Average L_Average2 L_Average3 P_Average L_Model L_Model2 L_ModelEM L_ModelEM2.

(** ** C101: derived vectors are never stale *)
Lemma computeV_spec k p v : computeV k p = Ok v -> is_velocity k p v.
Proof.
  unfold computeV, is_velocity, effective. intros H. apply bind_ok in H as (e&E&H). exists e. split; [|apply velocity_spec; exact H].
  destruct (evisco k); [|injection E as <-; reflexivity]. split; [apply (epsRE_len _ _ E)|]. split.
  - intros fc fs R i ei si te ts. rewrite vacuum_eps. intros. eapply epsRE_at; eauto.
  - intros N. unfold epsRE in E. rewrite (relaxMeans_none _ N) in E. cbn [bind] in E.
    apply bind_ok in E as (a&E1&E). apply bind_ok in E as (b&E2&E). apply bind_ok in E as (c&E3&E). injection E as <-.
    apply zipR_at in E1 as (_&_&N1), E2 as (_&_&N2), E3 as (_&_&N3). apply Forall_forall. intros x Hx. apply In_nth_error in Hx as (i&Hi).
    rewrite raise_at, N3, N1, N2, !map_at in Hi. destruct (nth_error (eps p) i) as [y|]; cbn in Hi; [|discriminate].
    destruct (nth_error (tauEps p) i) as [t|]; cbn in Hi; [|discriminate]. destruct (nth_error (sigma p) i); [|discriminate]. destruct (nth_error (tauSig p) i); [|discriminate].
    assert (Q : forall z, fmul NaN z = NaN) by (intros []; reflexivity). assert (Q' : forall z, fmul z NaN = NaN) by (intros []; reflexivity).
    assert (Q2 : forall z, fadd NaN z = NaN) by (intros []; reflexivity). cbn in Hi. rewrite Q' in Hi. rewrite ?Q2 in Hi. cbn in Hi. congruence.
Qed.
Theorem C101_velocity : forall k g p0 os m outs, erun k g (efresh p0) os = Ok (m, outs) ->
  forall m' v, estep k g m EGetV = Ok (m', EValues v) \/ estep k g m EConstV = Ok (m', EValues v) -> is_velocity k (epar m) v.
Proof.
  intros k g p0 os m outs H m' v E. pose proof (einv_run _ _ _ _ _ _ (einv_fresh k g p0) H) as I. apply computeV_spec. destruct E as [E|E]; cbn in E.
  - apply bind_ok in E as ((m1&v1)&E&F). injection F as <- <-. apply (einv_getV _ _ _ _ _ I E).
  - apply bind_ok in E as (v1&E&F). injection F as <- <-. unfold constV in E. destruct (dV m) eqn:D; [discriminate|]. injection E as <-. apply (e_v _ _ _ I D).
Qed.
Print Assumptions C101_velocity.

Lemma source_get p q : source p q = get p (quantity_field q).
Proof. destruct q; reflexivity. Qed.
Lemma eplan_place k q x a : In (q, x, a) (eplan k) -> a = eplace k q x.
Proof. destruct k; cbn; intros H; repeat (destruct H as [[= <- <- <-]|H]; [reflexivity|]); contradiction. Qed.
Lemma offered_plan k q x : offered k q x -> exists a, In (q, x, a) (eplan k).
Proof.
  destruct q, k; cbn; intros H; try (destruct H as (E&H); try discriminate E); repeat (destruct H as [<-|H]; [eexists; try (left; reflexivity);
   repeat (try (left; reflexivity); right)|]); try destruct H.
Qed.
Lemma plan_offered k q x a : In (q, x, a) (eplan k) -> offered k q x.
Proof. destruct k; cbn; intros H; repeat (destruct H as [[= <- <- <-]|H]; [cbn; auto 10|]); contradiction. Qed.
Lemma cur_average k g p q x a v : In (q, x, a) (eplan k) -> cur g p q a v -> (get p (quantity_field q) = [] /\ v = []) \/ is_average k g p q x v.
Proof.
  intros I [(E&F)|(M&E&A)]; [left; rewrite <- source_get; auto|right]. rewrite (eplan_place _ _ _ _ I) in E. exists M. split; [exact E|].
  split; [eapply average_len; eauto|]. intros l Hl. eapply average_num; eauto. rewrite source_get. exact Hl.
Qed.
Theorem C101_averages : forall k g p0 os m outs, erun k g (efresh p0) os = Ok (m, outs) ->
  forall m' q x v, estep k g m (EGetA q x) = Ok (m', EValues v) \/ estep k g m (EConstA q x) = Ok (m', EValues v) ->
  (offered k q x -> (get (epar m) (quantity_field q) = [] /\ v = []) \/ is_average k g (epar m) q x v) /\ (~ offered k q x -> v = []).
Proof.
  intros k g p0 os m outs H m' q x v E. pose proof (einv_run _ _ _ _ _ _ (einv_fresh k g p0) H) as I.
  assert (K : exists m1, EInv k g m1 /\ epar m1 = epar m /\ dAv m1 = false /\ v = eavs m1 q x).
  { destruct E as [E|E]; cbn in E.
    - apply bind_ok in E as ((m1&v1)&E&F). injection F as <- <-. destruct (einv_getA _ _ _ _ _ _ _ I E) as (A1&A2&A3&A4). exists m1. auto.
    - apply bind_ok in E as (v1&E&F). injection F as <- <-. unfold constAv in E. destruct (dAv m) eqn:D; [discriminate|]. injection E as <-. exists m. auto. }
  destruct K as (m1&I1&P1&D1&->). rewrite <- P1. split.
  - intros O. destruct (offered_plan _ _ _ O) as (a&Ha). eapply cur_average; [exact Ha|]. apply (e_a _ _ _ I1 D1 _ _ _ Ha).
  - intros O. apply (e_n _ _ _ I1). intros Hi. apply in_map_iff in Hi as (((q', x'), a)&[= <- <-]&Hi). apply O. eapply plan_offered; eauto.
Qed.
Print Assumptions C101_averages.

(** What each operation does to the parameters. *)
Lemma zip_pointwise (f : fpv -> fpv -> fpv) (h : R -> R -> R) a b r : (forall x y, f (Num x) (Num y) = Num (h x y)) -> zipR f a b = Ok r -> pointwise h a b r.
Proof. intros Q E. apply zipR_at in E as (L1&L2&N). split; [exact L1|]. split; [exact L2|]. unfold at_. intros i x y Hx Hy. rewrite N, Hx, Hy, Q. reflexivity. Qed.
Lemma ecombine_spec (f : fpv -> fpv -> fpv) (h : R -> R -> R) k k' p r q : (forall x y, f (Num x) (Num y) = Num (h x y)) -> ecombine f k k' p r = Ok q ->
  (evisco k = true -> evisco k' = true) /\ mechanisms_kept p q /\ forall v, (held k v = true -> pointwise h (get p v) (get r v) (get q v)) /\ (held k v = false -> get q v = get p v).
Proof.
  intros Q H. unfold ecombine in H.
  apply bind_ok in H as (a&A&H). apply bind_ok in H as (b&B&H). apply bind_ok in H as (c&C&H). apply bind_ok in H as (x&X&H). apply bind_ok in H as (y&Y&H). apply bind_ok in H as (z&Z&H).
  apply (zip_pointwise f h _ _ _ Q) in A, B, C, X, Y, Z. destruct (evisco k) eqn:V.
  - destruct (evisco k'); [|discriminate]. apply bind_ok in H as (d&D&H). apply bind_ok in H as (e&E&H). apply (zip_pointwise f h _ _ _ Q) in D, E. injection H as <-.
    split; [auto|]. split; [repeat split|]. intros v. split; destruct v; cbn; rewrite ?V; intros W; try discriminate W; try assumption; reflexivity.
  - injection H as <-. split; [discriminate|]. split; [repeat split|]. intros v. split; destruct v; cbn; rewrite ?V; intros W; try discriminate W; try assumption; reflexivity.
Qed.
Ltac only_tac := let f := fresh in let n := fresh in intros f n; destruct f; cbn in n |- *; try reflexivity; exfalso; apply n; auto 10.
Lemma only_set p f v : only [f] p (setField p f v).
Proof. destruct p, f; only_tac. Qed.
Lemma get_set p f v : get (setField p f v) f = v.
Proof. destruct p, f; reflexivity. Qed.
Lemma kept_set p f v : mechanisms_kept p (setField p f v).
Proof. destruct p, f; repeat split. Qed.
Lemma only_trans a b p q r : only a p q -> only b q r -> only (b ++ a) p r.
Proof. intros H K f N. rewrite K, H; [reflexivity| |]; intros I; apply N; apply in_or_app; auto. Qed.

Theorem C101_parameters : forall k g m o m' r, estep k g m o = Ok (m', r) -> let p := epar m in let q := epar m' in
  match o with
  | ESet f v => get q f = v /\ only [f] p q /\ mechanisms_kept p q
  | ESetFreq fs => only [] p q /\ efreqs q = fs /\ enrel q = enrel p /\ ecf q = ecf p
  | ESetNum n => only [] p q /\ efreqs q = efreqs p /\ enrel q = n /\ ecf q = ecf p
  | EScale c => mechanisms_kept p q /\ forall f, (held k f = true -> times c (get p f) (get q f)) /\ (held k f = false -> get q f = get p f)
  | EPlus k' r => (evisco k = true -> evisco k' = true) /\ mechanisms_kept p q /\
      forall f, (held k f = true -> pointwise Rplus (get p f) (get r f) (get q f)) /\ (held k f = false -> get q f = get p f)
  | EMinus k' r => (evisco k = true -> evisco k' = true) /\ mechanisms_kept p q /\
      forall f, (held k f = true -> pointwise Rminus (get p f) (get r f) (get q f)) /\ (held k f = false -> get q f = get p f)
  | EAssign k' r => (evisco k = true -> evisco k' = true) /\
      (forall f, held k f = true \/ f = FSigW \/ f = FEpsRM -> get q f = get r f) /\ if evisco k then mechanisms_kept r q else only [FMu; FSigma; FEps; FPor; FSat; FRefl; FSigW; FEpsRM] p q /\ mechanisms_kept p q
  | EThreshold _ => only [FSigma; FEps; FTauSig; FTauEps; FPor; FSat; FRefl] p q /\ mechanisms_kept p q
  | ECopy => (forall f, held k f = true -> get q f = get p f) /\ (evisco k = true -> mechanisms_kept p q)
  | ERock _ => only [FSigW; FEpsRM] p q /\ mechanisms_kept p q
  | EFromPetro _ => only [FSigma; FEps] p q /\ mechanisms_kept p q
  | EToPetro => (only [FSat] p q \/ only [FPor] p q) /\ mechanisms_kept p q
  | ESetExchange _ | EPrepare | EGetV | EGetA _ _ | EConstV | EConstA _ _ => q = p
  end.
Proof.
  intros k g m o m' r H p q. subst p q. destruct o; cbn [estep] in H;
    try (apply bind_ok in H as ((m1&v1)&E&H)); try (apply bind_ok in H as (v1&E&H)); try (injection H as <- <-).
  - unfold setVec. destruct (marks f); cbn; (split; [apply get_set|]; split; [apply only_set|apply kept_set]).
  - cbn. split; [only_tac|auto].
  - cbn. split; [only_tac|auto].
  - reflexivity.
  - cbn. split; [repeat split|].
    assert (S : forall v, times c v (map (fun x => fmul x (Num c)) v)).
    { intros v. split; [apply map_length|]. unfold at_. intros i x Hx. rewrite map_at, Hx. reflexivity. }
    intros f. split; destruct f; cbn; try (intros W; discriminate W); try (intros _; apply S); try (intros _; reflexivity); destruct (evisco k); intros W; try discriminate W; try apply S; reflexivity.
  - apply ecombine_spec with (f := fadd); [reflexivity|exact E].
  - apply ecombine_spec with (f := fsub); [reflexivity|exact E].
  - cbn. unfold eassign in E. destruct (evisco k) eqn:V.
    + destruct (evisco k'); [|discriminate]. injection E as <-. split; [auto|]. split; [auto|repeat split].
    + injection E as <-. split; [discriminate|]. split; [intros f [W|[->| ->]]; try reflexivity; destruct f; cbn in W |- *; try rewrite V in W; try discriminate W; reflexivity|].
      split; [only_tac|repeat split].
  - cbn. unfold ethreshold in E. destruct (evisco k).
    + unfold viscoThresholds in E. repeat (apply bind_ok in E as (?&_&E); try match type of E with context [petroLimits ?a ?b ?c ?d] => destruct (petroLimits a b c d) as ((?, ?), ?) end).
      injection E as <-. cbn. destruct (epar m). split; [only_tac|repeat split].
    + unfold plainThresholds in E. destruct (petroLimits _ _ _ _) as ((?, ?), ?). repeat (apply bind_ok in E as (?&_&E)). injection E as <-. cbn. split; [only_tac|repeat split].
  - cbn. split.
    + intros f W. destruct f; cbn in W |- *; try discriminate W; try reflexivity; rewrite W; reflexivity.
    + intros V. unfold mechanisms_kept. cbn. rewrite V. auto.
  - unfold eprepare in E. apply bind_ok in E as ((a&b)&E1&E). apply bind_ok in E as (c&E2&E). apply bind_ok in E as (d&E3&E). injection E as <-. cbn.
    unfold getVelocityEM in E1. unfold einitializeMatrices in E2. unfold ecalculateAveraging in E3.
    destruct (dV m); [apply bind_ok in E1 as (?&_&E1)|]; injection E1 as <- <-; (destruct (dAv _) in E2; [apply bind_ok in E2 as (?&_&E2)|]); injection E2 as <-;
      (destruct (dAv _) in E3; [apply bind_ok in E3 as (?&_&E3)|]); injection E3 as <-; reflexivity.
  - cbn. unfold rockMatrix in E. repeat (apply bind_ok in E as (?&_&E)). injection E as <-. destruct (epar m). split; [only_tac|repeat split].
  - cbn. unfold fromPetro in E. repeat (apply bind_ok in E as (?&_&E)). destruct (evisco k).
    + repeat (apply bind_ok in E as (?&_&E)). injection E as <-. destruct (epar m). split; [only_tac|repeat split].
    + injection E as <-. destruct (epar m). split; [only_tac|repeat split].
  - unfold toPetro in E. apply bind_ok in E as (x&E&F). injection F as <-. cbn.
    destruct (_ || _); [apply bind_ok in E as (s&_&E); injection E as <-; split; [left; apply only_set|apply kept_set]|].
    destruct (_ =? _); [apply bind_ok in E as (s&_&E); injection E as <-; split; [right; apply only_set|apply kept_set]|].
    injection E as <-. split; [left; only_tac|repeat split].
  - unfold getVelocityEM in E. destruct (dV m); [apply bind_ok in E as (?&_&E)|]; injection E as <- <-; reflexivity.
  - unfold egetAverage, ecalculateAveraging in E. destruct (dAv m); [|injection E as <- <-; reflexivity]. apply bind_ok in E as (?&E&F). apply bind_ok in E as (?&_&E). injection E as <-. injection F as <- <-. reflexivity.
  - reflexivity.
  - reflexivity.
Qed.
Print Assumptions C101_parameters.

(** ** C102: preparation makes every derived vector available *)
Lemma erun_app k g os : forall m m1 outs o m2 r, erun k g m os = Ok (m1, outs) -> estep k g m1 o = Ok (m2, r) -> erun k g m (os ++ [o]) = Ok (m2, outs ++ [r]).
Proof.
  induction os as [|o' os IH]; intros m m1 outs o m2 r H E; cbn [erun app] in *.
  - injection H as <- <-. rewrite E. reflexivity.
  - apply bind_ok in H as ((q1&r1)&E1&H). rewrite E1. cbn [bind]. apply bind_ok in H as ((q2&rs)&E2&H). injection H as <- <-.
    rewrite (IH _ _ _ _ _ _ E2 E). reflexivity.
Qed.
Theorem C102_available : forall k nx ny nz g p0 os m outs, mk_regular nx ny nz = Ok g -> erun k g (efresh p0) os = Ok (m, outs) ->
  ecomplete k (Z.to_nat (nx * ny * nz)) (epar m) ->
  exists m1, estep k g m EPrepare = Ok (m1, ENothing) /\ epar m1 = epar m /\
    (exists v, estep k g m1 EConstV = Ok (m1, EValues v) /\ is_velocity k (epar m) v) /\
    (forall q x, offered k q x -> exists v, estep k g m1 (EConstA q x) = Ok (m1, EValues v) /\ is_average k g (epar m) q x v).
Proof.
  intros k nx ny nz g p0 os m outs G H C. pose proof (einv_run _ _ _ _ _ _ (einv_fresh k g p0) H) as I.
  pose proof (mk_regular_inv _ _ _ _ G) as (Px&Py&Pz).
  assert (N : 0 < nx * ny * nz) by (apply Z.mul_pos_pos; [apply Z.mul_pos_pos|]; lia).
  destruct (mk_regular_wf _ _ _ _ G) as (_&_&_&_&NG&_).
  destruct (eprepare_exists k g m _ I C) as (m1&E).
  { intros a. destruct (C55_regular a _ _ _ _ G) as (M&EM&CM&LM&_). exists M. split; [exact EM|]. rewrite NG in *. rewrite CM; lia. }
  destruct (einv_prepare _ _ _ _ I E) as (I1&P1&DA&DV).
  assert (S : estep k g m EPrepare = Ok (m1, ENothing)) by (cbn [estep]; rewrite E; reflexivity).
  pose proof (erun_app _ _ _ _ _ _ _ _ _ H S) as R.
  exists m1. split; [exact S|]. split; [exact P1|]. split.
  - exists (vel m1). assert (E1 : estep k g m1 EConstV = Ok (m1, EValues (vel m1))) by (cbn; unfold constV; rewrite DV; reflexivity).
    split; [exact E1|]. rewrite <- P1. eapply C101_velocity; [exact R|right; exact E1].
  - intros q x O. exists (eavs m1 q x). assert (E1 : estep k g m1 (EConstA q x) = Ok (m1, EValues (eavs m1 q x))) by (cbn; unfold constAv; rewrite DA; reflexivity).
    split; [exact E1|]. rewrite <- P1. destruct (proj1 (C101_averages _ _ _ _ _ _ R _ _ _ _ (or_intror E1)) O) as [(K&_)|K]; [|exact K].
    exfalso. destruct (offered_plan _ _ _ O) as (a&Ha). pose proof (source_len _ _ _ _ _ _ C Ha) as L. rewrite source_get, <- P1, K in L. cbn in L. lia.
Qed.
Print Assumptions C102_available.
Definition c102_params : eparams :=
  let c x := repeat (Num x) 4 in mkE (c 2%R) (c 3%R) (c 5%R) (c 1%R) (c 1%R) (c 0%R) (c 0%R) (c 0%R) [] [] [10; 20]%R 2 (Some 15%R).
Example C102_example : forall k, ecomplete k (Z.to_nat (2 * 2 * 1)) c102_params /\ (exists g, mk_regular 2 2 1 = Ok g) /\ offered k QInvMu AXZ /\
  relaxes c102_params 15 [10; 20]%R.
Proof.
  intros k. split; [repeat split; intros; try reflexivity; right; split; [cbn; lia|discriminate]|]. split; [eexists; reflexivity|]. split; [destruct k; cbn; auto|].
  repeat split; cbn; try lia. repeat constructor; lra.
Qed.

(** ** C103: re-initialising keeps what was computed before *)
Theorem C103_stale : forall k g m m', 
  (exists n mur s er tsr te nr fs c, einit k n m mur s er tsr te nr fs c = Ok m') \/ (exists f, einitFiles k m f = Ok m') ->
  (dV m = false -> estep k g m' EGetV = Ok (m', EValues (vel m)) /\ estep k g m' EConstV = Ok (m', EValues (vel m))) /\
  (dAv m = false -> forall q x, estep k g m' (EGetA q x) = Ok (m', EValues (eavs m q x)) /\ estep k g m' (EConstA q x) = Ok (m', EValues (eavs m q x))).
Proof.
  intros k g m m' H. assert (K : exists p, m' = keep m p).
  { destruct H as [(n&a&b&c&d&e&f&h&i&H)|(f&H)]; unfold einit, einitFiles in H; apply bind_ok in H as (p&_&H); injection H as <-; eauto. }
  destruct K as (p&->). split; intros D.
  - cbn. unfold getVelocityEM, constV. cbn. rewrite D. cbn. auto.
  - intros q x. cbn. unfold egetAverage, ecalculateAveraging, constAv. cbn. rewrite D. cbn. auto.
Qed.
Print Assumptions C103_stale.
Theorem C103_wrong : exists m1 m2, let g := mkG 1 1 1 0 1 [] [] in
  erun EMEM g (efresh (mkE [Num 1] [Num 0] [Num 1] [] [] [Num 0] [Num 0] [Num 0] [] [] [] 0 None)) [EGetV] = Ok (m1, [EValues [Num 1]]) /\
  einit EMEM 1 m1 (1 / mu0) 0 (4 / eps0) 0 0 0 [] 0 = Ok m2 /\
  estep EMEM g m2 EGetV = Ok (m2, EValues [Num 1]) /\ is_velocity EMEM (epar m2) [Num (1 / 2)] /\ ~ is_velocity EMEM (epar m2) [Num 1].
Proof.
  set (p := mkE [Num 1] [Num 0] [Num 1] [] [] [Num 0] [Num 0] [Num 0] [] [] [] 0 None).
  pose proof eps0_pos as P0. pose proof mu0_pos as P1.
  assert (V1 : computeV EMEM p = Ok [Num 1]).
  { unfold computeV, velocityFromModulus. cbn. destruct (Rlt_dec (1 * 1) 0); [lra|]. cbn. rewrite Rmult_1_l, sqrt_1, fdiv_num by lra. do 3 f_equal. field. }
  set (m1 := mkEM p [Num 1] false true purged (fun _ _ => []) 0 0).
  set (p2 := mkE [Num (1 / mu0 * mu0)] [Num 0] [Num (4 / eps0 * eps0)] [] [] [Num 0] [Num 0] [Num 0] [] [] [] 0 None).
  exists m1, (keep m1 p2). cbv zeta. split.
  { cbn [erun estep]. unfold getVelocityEM. change (dV (efresh p)) with true. change (epar (efresh p)) with p. rewrite V1. reflexivity. }
  split; [reflexivity|]. split; [reflexivity|].
  assert (K : forall v, is_velocity EMEM (epar (keep m1 p2)) [Num v] -> v = (1 / 2)%R).
  { intros v (e&He&_&_&N). cbn in He. subst e. specialize (N 0%nat _ _ eq_refl eq_refl). cbn in N. injection N as N.
    replace (4 / eps0 * eps0 * (1 / mu0 * mu0))%R with (2 * 2)%R in N by (field; lra). rewrite sqrt_square in N by lra. destruct (Rlt_dec 0 (2 * 2)); lra. }
  split.
  - exists [Num (4 / eps0 * eps0)]. split; [reflexivity|]. split; [reflexivity|]. split; [reflexivity|]. intros [|i] x y Hx Hy; cbn in *; [|destruct i; discriminate].
    injection Hx as <-. injection Hy as <-. cbn. do 2 f_equal. replace (4 / eps0 * eps0 * (1 / mu0 * mu0))%R with (2 * 2)%R by (field; lra). rewrite sqrt_square by lra. destruct (Rlt_dec 0 (2 * 2)); lra.
  - intros X. apply K in X. lra.
Qed.
Print Assumptions C103_wrong.

(** ** C104: velocity and permittivity are converted into each other *)
Theorem C104_values : forall e m, length e = length m -> exists v, velocityFromModulus e m = Ok v /\ em_velocity e m v.
Proof. intros e m L. destruct (velocity_exists e m L) as (v&E&_). exists v. split; [exact E|apply velocity_spec; exact E]. Qed.
Lemma modulus_at v m q i x y : modulusFromVelocity v m = Ok q -> at_ v i x -> at_ m i y -> y <> 0%R -> at_ q i (if Req_EM_T x 0 then 0 else 1 / y / x / x)%R.
Proof.
  unfold modulusFromVelocity, at_. intros H Hx Hy N. apply bind_ok in H as (a&E1&H). apply bind_ok in H as (b&E2&H). injection H as <-.
  apply zipR_at in E1 as (_&_&N1), E2 as (_&_&N2). rewrite replaceInvalid_at, N2, N1, map_at, Hx, Hy. cbn [option_map fquot].
  rewrite (fdiv_num 1 y N). cbn [fquot]. destruct (Req_EM_T x 0) as [->|X].
  - unfold fdiv. destruct (Req_EM_T 0 0); [|lra]. destruct (Req_EM_T (1 / y) 0); [reflexivity|]. destruct (Rlt_dec 0 (1 / y)); cbn; destruct (Rlt_dec 0 0); try lra; reflexivity.
  - rewrite fdiv_num by exact X. cbn [fquot]. rewrite fdiv_num by exact X. reflexivity.
Qed.
Lemma modulus_exists v m : length v = length m -> exists q, modulusFromVelocity v m = Ok q /\ length q = length v.
Proof.
  intros L. unfold modulusFromVelocity. destruct (zipR_exists fquot (map (fquot (Num 1)) m) v) as (a&Ea); [rewrite map_length; lia|]. rewrite Ea. cbn [bind].
  apply zipR_at in Ea as (_&La&_). rewrite map_length in La. destruct (zipR_exists fquot a v) as (b&Eb); [lia|]. rewrite Eb. cbn [bind]. eexists. split; [reflexivity|].
  unfold replaceInvalid. rewrite map_length. apply zipR_at in Eb. lia.
Qed.
Lemma at_ext a b : length a = length b -> numbers a -> (forall i x, at_ a i x -> at_ b i x) -> b = a.
Proof.
  revert b. induction a as [|x a IH]; intros [|y b] L N H; cbn in L; try lia; [reflexivity|]. inversion N as [|? ? (r&->) N']; subst.
  pose proof (H 0%nat r eq_refl) as H0. cbn in H0. injection H0 as ->. f_equal. apply IH; auto. intros i z Hz. apply (H (S i) z Hz).
Qed.
Theorem C104_velocity : forall v m, length v = length m -> Forall (fun x => exists r, x = Num r /\ 0 <= r)%R v -> Forall (fun x => exists r, x = Num r /\ 0 < r)%R m ->
  exists e, modulusFromVelocity v m = Ok e /\ velocityFromModulus e m = Ok v.
Proof.
  intros v m L Hv Hm. destruct (modulus_exists v m L) as (e&E&Le). exists e. split; [exact E|].
  destruct (velocity_exists e m) as (w&W&Lw); [lia|]. rewrite W. f_equal. apply at_ext; [lia| |].
  { eapply Forall_impl; [|exact Hv]. intros x (r&->&_). eauto. }
  intros i x Hx. assert (exists y, at_ m i y /\ (0 < y)%R) as (y&Hy&Py).
  { destruct (nth_error m i) as [z|] eqn:Ez; [|apply nth_error_None in Ez; assert (nth_error v i <> None) as Q by (unfold at_ in Hx; congruence); apply nth_error_Some in Q; lia].
    pose proof (proj1 (Forall_forall _ _) Hm z (nth_error_In _ _ Ez)) as (y&->&Py). eauto. }
  pose proof (proj1 (Forall_forall _ _) Hv _ (nth_error_In _ _ Hx)) as (x'&[= <-]&Px).
  pose proof (modulus_at _ _ _ _ _ _ E Hx Hy ltac:(lra)) as He. destruct (velocity_spec _ _ _ W) as (_&_&N).
  unfold at_. rewrite (N i _ _ He Hy). cbn. do 2 f_equal. destruct (Req_EM_T x 0) as [->|X].
  - destruct (Rlt_dec 0 (0 * y)); lra.
  - replace (1 / y / x / x * y)%R with (/ x * / x)%R by (field; lra). assert (Q : (0 < / x)%R) by (apply Rinv_0_lt_compat; lra). rewrite sqrt_square by lra.
    destruct (Rlt_dec 0 (/ x * / x)) as [l|l]; [|nra]. rewrite Rinv_inv. reflexivity.
Qed.
Print Assumptions C104_velocity.
Theorem C104_permittivity : forall e m, length e = length m -> Forall (fun x => exists r, x = Num r /\ 0 < r)%R e -> Forall (fun x => exists r, x = Num r /\ 0 < r)%R m ->
  exists v, velocityFromModulus e m = Ok v /\ modulusFromVelocity v m = Ok e.
Proof.
  intros e m L He Hm. destruct (velocity_exists e m L) as (v&V&Lv). exists v. split; [exact V|].
  destruct (modulus_exists v m) as (q&Q&Lq); [lia|]. rewrite Q. f_equal. apply at_ext; [lia| |].
  { eapply Forall_impl; [|exact He]. intros x (r&->&_). eauto. }
  intros i x Hx. assert (exists y, at_ m i y /\ (0 < y)%R) as (y&Hy&Py).
  { destruct (nth_error m i) as [z|] eqn:Ez; [|apply nth_error_None in Ez; assert (nth_error e i <> None) as W by (unfold at_ in Hx; congruence); apply nth_error_Some in W; lia].
    pose proof (proj1 (Forall_forall _ _) Hm z (nth_error_In _ _ Ez)) as (y&->&Py). eauto. }
  pose proof (proj1 (Forall_forall _ _) He _ (nth_error_In _ _ Hx)) as (x'&[= <-]&Px).
  destruct (velocity_spec _ _ _ V) as (_&_&N). pose proof (N i _ _ Hx Hy) as Hv. cbn in Hv.
  assert (P : (0 < x * y)%R) by (apply Rmult_lt_0_compat; lra). destruct (Rlt_dec 0 (x * y)) as [l|l]; [|lra].
  pose proof (sqrt_lt_R0 _ P) as S. pose proof (modulus_at _ _ _ _ _ _ Q Hv Hy ltac:(lra)) as R.
  destruct (Req_EM_T (/ sqrt (x * y)) 0) as [Z|Z]; [exfalso; revert Z; apply Rinv_neq_0_compat; lra|].
  unfold at_ in *. rewrite R. do 2 f_equal. replace (1 / y / / sqrt (x * y) / / sqrt (x * y))%R with (/ y * (sqrt (x * y) * sqrt (x * y)))%R by (field; lra).
  rewrite sqrt_sqrt by lra. field. lra.
Qed.
Print Assumptions C104_permittivity.
Example C104_example : exists e, modulusFromVelocity [Num 3; Num 0] [Num 2; Num 5] = Ok e /\ velocityFromModulus e [Num 2; Num 5] = Ok [Num 3; Num 0].
Proof. apply C104_velocity; [reflexivity| |]; repeat constructor; eexists; (split; [reflexivity|lra]). Qed.
