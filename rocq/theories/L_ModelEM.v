(** Lemmas about the electromagnetic parameter objects: the invariant behind the dirty flags, the values of the derived vectors. *)
From Coq Require Import Reals Lra.
From Verif Require Import Base M_Grid M_Average M_Common M_Model M_ModelEM S_Model S_ModelEM L_AcqFile L_Acq2 L_Acq L_Model L_Model2.
Open Scope Z_scope.

Lemma zipR_at {A B C} (f : A -> B -> C) a b r : zipR f a b = Ok r -> length a = length b /\ length r = length a /\
  forall i, nth_error r i = match nth_error a i, nth_error b i with Some x, Some y => Some (f x y) | _, _ => None end.
Proof.
  intros H. destruct (zipR_ok _ _ _ _ H) as (L1&L2&N). split; [exact L1|]. split; [exact L2|]. intros i.
  destruct (nth_error a i) as [x|] eqn:Ea; [|apply nth_error_None; apply nth_error_None in Ea; lia].
  destruct (nth_error b i) as [y|] eqn:Eb; [eauto|]. apply nth_error_None in Eb. apply nth_error_None. lia.
Qed.
Lemma map_at {A B} (f : A -> B) a i : nth_error (map f a) i = option_map f (nth_error a i).
Proof. apply nth_error_map. Qed.
Lemma replaceInvalid_at v r i : nth_error (replaceInvalid v r) i = option_map (fun x => match x with Num _ => x | _ => r end) (nth_error v i).
Proof. apply nth_error_map. Qed.

Lemma fmatvec_purged a v r : fmatvec (purged a) v = Ok r -> v = [] /\ r = [].
Proof. unfold fmatvec, purged. cbn. destruct v; cbn; [intros [= <-]; auto|discriminate]. Qed.
Lemma average_purged p q a v : average p q (purged a) = Ok v -> source p q = [] /\ v = [].
Proof.
  unfold average, inverseAverage. destruct q; intros H; try (apply fmatvec_purged in H; exact H).
  apply bind_ok in H as (w&E&H). apply fmatvec_purged in E as (E&->). injection H as <-. auto.
Qed.
Lemma q_eqb_spec a b : reflect (a = b) (q_eqb a b).
Proof. destruct a, b; cbn; constructor; congruence. Qed.

(** ** Averages *)
(** What a planned average must be. *)
Definition cur (g : grid) (p : eparams) (q : quantity) (a : avgkind) (v : vec) : Prop :=
  (source p q = [] /\ v = []) \/ exists M, averageMatrix a g = Ok M /\ average p q M = Ok v.
Lemma eaverageAll_cur g p mats l : forall f f', eaverageAll p mats l f = Ok f' -> NoDup (map fst l) ->
  (mats = purged \/ forall q x a, In (q, x, a) l -> averageMatrix a g = Ok (mats a)) ->
  (forall q x a, In (q, x, a) l -> cur g p q a (f' q x)) /\ (forall q x, ~ In (q, x) (map fst l) -> f' q x = f q x).
Proof.
  induction l as [|((q, x), a) l IH]; intros f f' H ND HM; cbn [eaverageAll] in H.
  - injection H as <-. split; [intros ? ? ? []|auto].
  - apply bind_ok in H as (v&E&H). cbn in ND. inversion ND as [|? ? Hn ND']; subst.
    destruct (IH _ _ H ND') as (K1&K2).
    { destruct HM as [HM|HM]; [left; exact HM|right; intros; apply (HM q0 x0 a0); right; assumption]. }
    assert (P : eput f q x v q x = v) by (unfold eput; destruct (q_eqb_spec q q), (avg_eqb_spec x x); cbn; congruence).
    split.
    + intros q' x' a' [[= <- <- <-]|Hi]; [|auto]. rewrite (K2 q x Hn), P.
      destruct HM as [->|HM]; [left; apply (average_purged _ _ _ _ E)|right]. exists (mats a). split; [apply (HM q x a); left; reflexivity|exact E].
    + intros q' x' Hi. rewrite K2 by (intros X; apply Hi; right; exact X). unfold eput. destruct (q_eqb_spec q q') as [->|]; [|reflexivity].
      destruct (avg_eqb_spec x x') as [->|]; [|reflexivity]. exfalso. apply Hi. left. reflexivity.
Qed.
Lemma eplan_nodup k : NoDup (map fst (eplan k)).
Proof. destruct k; cbn; repeat (constructor; [intros X; repeat (destruct X as [X|X]; [discriminate X|]); destruct X|]); constructor. Qed.
Lemma eplan_kinds k q x a : In (q, x, a) (eplan k) -> In a (ekinds k).
Proof. destruct k; cbn; intuition congruence. Qed.

(** ** The invariant *)
Record EInv (k : emkind) (g : grid) (m : emodel) : Prop := {
  e_m : emats m = purged;
  e_v : dV m = false -> computeV k (epar m) = Ok (vel m);
  e_a : dAv m = false -> forall q x a, In (q, x, a) (eplan k) -> cur g (epar m) q a (eavs m q x);
  e_n : forall q x, ~ In (q, x) (map fst (eplan k)) -> eavs m q x = [] }.

Definition sameE (p q : eparams) : Prop :=
  mu q = mu p /\ sigma q = sigma p /\ eps q = eps p /\ tauSig q = tauSig p /\ tauEps q = tauEps p /\
  efreqs q = efreqs p /\ enrel q = enrel p /\ ecf q = ecf p.
Lemma relaxSums_same p q ls : efreqs q = efreqs p -> ecf q = ecf p -> forall a b, relaxSums ls q a b = relaxSums ls p a b.
Proof. intros E1 E2. induction ls as [|l ls IH]; intros a b; cbn [relaxSums]; [reflexivity|]. rewrite E1, E2. destruct (vget (efreqs p) l); cbn; try reflexivity. destruct (ecf p); cbn; try reflexivity. apply IH. Qed.
Lemma relaxMeans_same p q : efreqs q = efreqs p -> enrel q = enrel p -> ecf q = ecf p -> relaxMeans q = relaxMeans p.
Proof. intros E1 E2 E3. unfold relaxMeans. now rewrite E2, (relaxSums_same p q _ E1 E3). Qed.
Lemma epsRE_same p q : sameE p q -> epsRE q = epsRE p.
Proof. intros (_&E2&E3&E4&E5&E6&E7&E8). unfold epsRE. now rewrite (relaxMeans_same p q), E2, E3, E4, E5. Qed.
Lemma computeV_same k p q : sameE p q -> computeV k q = computeV k p.
Proof. intros S. unfold computeV. rewrite (epsRE_same p q S). destruct S as (E1&_&E3&_). now rewrite E1, E3. Qed.
Lemma source_same p q x : sameE p q -> source q x = source p x.
Proof. intros (E1&E2&E3&E4&E5&_). destruct x; cbn; assumption. Qed.
Lemma cur_same g p q x a v : sameE p q -> cur g p x a v -> cur g q x a v.
Proof.
  intros S. pose proof (source_same _ _ x S) as E. unfold cur. rewrite E. intros [H|(M&A&B)]; [left; exact H|right]. exists M. split; [exact A|].
  unfold average in *. destruct x; rewrite E; exact B.
Qed.
Lemma einv_touch k g m q : EInv k g m -> EInv k g (touch m q).
Proof. intros [A B C D]. split; cbn; auto; discriminate. Qed.
Lemma einv_keep k g m q : EInv k g m -> sameE (epar m) q -> EInv k g (keep m q).
Proof.
  intros [A B C D] S. split; cbn; auto.
  - intros H. rewrite (computeV_same k _ _ S). auto.
  - intros H q' x a Hi. apply cur_same with (p := epar m); auto.
Qed.
Lemma setField_unmarked p f v : marks f = false -> sameE p (setField p f v).
Proof. destruct p, f; cbn; try discriminate; intros _; repeat split. Qed.
Lemma einv_set k g m f v : EInv k g m -> EInv k g (setVec m f v).
Proof.
  intros I. unfold setVec. destruct (marks f) eqn:M; [apply einv_touch; exact I|apply einv_keep; [exact I|apply setField_unmarked; exact M]].
Qed.
Lemma einv_fresh k g p : EInv k g (efresh p).
Proof. split; cbn; auto; discriminate. Qed.

Lemma einv_getV k g m m' v : EInv k g m -> getVelocityEM k m = Ok (m', v) -> EInv k g m' /\ epar m' = epar m /\ emats m' = emats m /\ dAv m' = dAv m /\ eavs m' = eavs m /\
  dV m' = false /\ vel m' = v /\ computeV k (epar m) = Ok v.
Proof.
  intros I H. unfold getVelocityEM in H. destruct (dV m) eqn:D.
  - apply bind_ok in H as (w&E&H). injection H as <- <-. cbn. split; [|auto 12]. destruct I. split; cbn; auto.
  - injection H as <- <-. pose proof (e_v _ _ _ I D). auto 12.
Qed.
Lemma einv_averaging k g m m' : ecalculateAveraging k m = Ok m' ->
  (dAv m = false -> forall q x a, In (q, x, a) (eplan k) -> cur g (epar m) q a (eavs m q x)) ->
  (forall q x, ~ In (q, x) (map fst (eplan k)) -> eavs m q x = []) ->
  (dAv m = true -> emats m = purged \/ forall q x a, In (q, x, a) (eplan k) -> averageMatrix a g = Ok (emats m a)) ->
  epar m' = epar m /\ vel m' = vel m /\ dV m' = dV m /\ dAv m' = false /\ emats m' = emats m /\
  (forall q x a, In (q, x, a) (eplan k) -> cur g (epar m) q a (eavs m' q x)) /\
  forall q x, ~ In (q, x) (map fst (eplan k)) -> eavs m' q x = [].
Proof.
  intros H HA HN HM. unfold ecalculateAveraging in H. destruct (dAv m) eqn:D.
  - apply bind_ok in H as (f&E&H). injection H as <-. cbn. destruct (eaverageAll_cur g _ _ _ _ _ E (eplan_nodup k) (HM eq_refl)) as (K1&K2).
    repeat (split; [reflexivity|]). split; [exact K1|]. intros q x Hn. rewrite K2 by exact Hn. auto.
  - injection H as <-. auto 10.
Qed.
Lemma einv_getA k g m m' q x v : EInv k g m -> egetAverage k m q x = Ok (m', v) -> EInv k g m' /\ epar m' = epar m /\ v = eavs m' q x /\ dAv m' = false.
Proof.
  intros I H. unfold egetAverage in H. apply bind_ok in H as (m1&E&H). injection H as <- <-.
  destruct (einv_averaging k g m m1 E (e_a _ _ _ I) (e_n _ _ _ I)) as (A1&A2&A3&A4&A5&A6&A7).
  { intros _. left. apply I. }
  split; [|auto]. destruct I. split; rewrite ?A1, ?A2, ?A3, ?A4, ?A5; auto.
Qed.
Lemma einv_prepare k g m m' : EInv k g m -> eprepare k g m = Ok m' -> EInv k g m' /\ epar m' = epar m /\ dAv m' = false /\ dV m' = false.
Proof.
  intros I H. unfold eprepare in H. apply bind_ok in H as ((m1&v)&E1&H). apply bind_ok in H as (m2&E2&H). apply bind_ok in H as (m3&E3&H). injection H as <-.
  destruct (einv_getV _ _ _ _ _ I E1) as (I1&P1&_&A1&S1&D1&V1&C1).
  assert (J : epar m2 = epar m1 /\ vel m2 = vel m1 /\ dV m2 = dV m1 /\ dAv m2 = dAv m1 /\ eavs m2 = eavs m1 /\
     (dAv m2 = true -> forall q x a, In (q, x, a) (eplan k) -> averageMatrix a g = Ok (emats m2 a))).
  { unfold einitializeMatrices in E2. destruct (dAv m1) eqn:D.
    - apply bind_ok in E2 as (f&E2&E). injection E as <-. cbn. repeat (split; [auto|]). intros _ q x a Hi.
      apply (proj1 (buildMatrices_ok _ _ _ _ E2)). eapply eplan_kinds; eauto.
    - injection E2 as <-. repeat (split; [auto|]). congruence. }
  destruct J as (p1&p2&p3&p4&p5&p6).
  destruct (einv_averaging k g m2 m3 E3) as (B1&B2&B3&B4&B5&B6&B7).
  { rewrite p1, p4, p5. apply I1. }
  { rewrite p5. apply I1. }
  { intros HA. right. exact (p6 HA). }
  split; [|cbn; rewrite B1, B3, B4, p1, p3, P1, D1; auto].
  split; cbn; auto.
  - intros _. rewrite B1, B2, p1, p2, P1, V1. exact C1.
  - intros _. rewrite B1. exact B6.
Qed.
Lemma einv_copy k g m : EInv k g m -> EInv k g (ecopy k m).
Proof.
  intros [A B C D]. split; cbn; auto; try discriminate. intros H. rewrite <- (B H). unfold computeV, epsRE. destruct (evisco k); [|reflexivity].
  rewrite <- (relaxMeans_same _ (epar m)) by reflexivity. reflexivity.
Qed.
Lemma rock_same k c p r : rockMatrix k c p = Ok r -> sameE p r.
Proof.
  unfold rockMatrix. intros H. repeat (apply bind_ok in H as (?&_&H)). injection H as <-. destruct p. cbn. repeat split.
Qed.
Lemma toPetro_inv k g m m' : EInv k g m -> toPetro k m = Ok m' -> EInv k g m'.
Proof.
  intros I H. unfold toPetro in H. apply bind_ok in H as (p&E&H). injection H as <-.
  assert (S : sameE (epar m) p).
  { destruct (_ || _); [apply bind_ok in E as (s&_&E); injection E as <-; apply (setField_unmarked _ FSat); reflexivity|].
    destruct (_ =? _); [apply bind_ok in E as (s&_&E); injection E as <-; apply (setField_unmarked _ FPor); reflexivity|].
    injection E as <-. repeat split. }
  destruct (einv_keep k g m p I S) as [A B C D]. split; cbn in *; auto.
Qed.
Lemma einv_step k g m o m' r : EInv k g m -> estep k g m o = Ok (m', r) -> EInv k g m'.
Proof.
  intros I H. destruct o; cbn in H;
    try (apply bind_ok in H as ((m1&v1)&E&H)); try (apply bind_ok in H as (v1&E&H)); try (injection H as <- <-); auto using einv_touch.
  - apply einv_set. exact I.
  - destruct I. split; cbn; auto.
  - apply einv_copy. exact I.
  - apply (einv_prepare _ _ _ _ I E).
  - apply einv_keep; [exact I|]. apply (rock_same _ _ _ _ E).
  - apply (toPetro_inv _ _ _ _ I E).
  - apply (einv_getV _ _ _ _ _ I E).
  - apply (einv_getA _ _ _ _ _ _ _ I E).
Qed.
Lemma einv_run k g os : forall m m' rs, EInv k g m -> erun k g m os = Ok (m', rs) -> EInv k g m'.
Proof.
  induction os as [|o os IH]; intros m m' rs I H; cbn [erun] in H; [injection H as <- <-; exact I|].
  apply bind_ok in H as ((m1&r)&E&H). apply bind_ok in H as ((m2&r2)&E2&H). injection H as <- <-.
  eapply IH; [|exact E2]. eapply einv_step; eauto.
Qed.

(** ** Values *)
Lemma velocity_spec e m v : velocityFromModulus e m = Ok v -> em_velocity e m v.
Proof.
  unfold velocityFromModulus. intros H. apply bind_ok in H as (q&E&H). injection H as <-. destruct (zipR_at _ _ _ _ E) as (L1&L2&N).
  split; [lia|]. split; [unfold replaceInvalid; rewrite !map_length; lia|]. intros i x y Hx Hy.
  rewrite replaceInvalid_at, map_at, N, Hx, Hy. cbn. f_equal. destruct x as [x| | |], y as [y| | |]; cbn; try reflexivity;
    try (unfold fscale; destruct (Req_EM_T _ 0); [reflexivity|]; destruct (Rlt_dec _ _); reflexivity).
  destruct (Rlt_dec (x * y) 0) as [n|n], (Rlt_dec 0 (x * y)) as [l|l]; cbn; try lra; try reflexivity.
  - unfold fdiv. pose proof (sqrt_lt_R0 _ l). destruct (Req_EM_T (sqrt (x * y)) 0); [lra|]. unfold Rdiv. now rewrite Rmult_1_l.
  - replace (x * y)%R with 0%R by lra. rewrite sqrt_0. unfold fdiv. destruct (Req_EM_T 0 0); [|lra]. destruct (Req_EM_T 1 0); [lra|]. destruct (Rlt_dec 0 1); reflexivity.
Qed.
Lemma velocity_exists e m : length e = length m -> exists v, velocityFromModulus e m = Ok v /\ length v = length e.
Proof.
  intros L. destruct (zipR_exists fmul e m L) as (q&E). unfold velocityFromModulus. rewrite E. eexists. split; [reflexivity|].
  unfold replaceInvalid. rewrite !map_length. apply (zipR_at _ _ _ _ E).
Qed.

Lemma fdiv_num a b : b <> 0%R -> fdiv a b = Num (a / b).
Proof. intros H. unfold fdiv. destruct (Req_EM_T b 0); [contradiction|reflexivity]. Qed.

Lemma vget_nth {A} (l : list A) i : 0 <= i -> vget l i = match nth_error l (Z.to_nat i) with Some x => Ok x | None => UB end.
Proof. intros H. unfold vget. destruct (Z.ltb_spec i 0); [lia|reflexivity]. Qed.
Lemma relaxSums_spec p fc n : forall s a b, ecf p = Some fc -> 0 <= s -> (Z.to_nat s + n <= length (efreqs p))%nat ->
  Forall (fun f => f <> 0%R) (firstn n (skipn (Z.to_nat s) (efreqs p))) ->
  relaxSums (zseq s n) p (Num a) (Num b) = Ok (Num (a + relaxation fc (firstn n (skipn (Z.to_nat s) (efreqs p))))%R,
    Num (b + 2 * PI * fc * fold_right Rplus 0 (map (fun f => (fc / f) / (1 + (fc / f) ^ 2)) (firstn n (skipn (Z.to_nat s) (efreqs p)))))%R).
Proof.
  induction n as [|n IH]; intros s a b C Hs Hn F; cbn [zseq relaxSums].
  - cbn. f_equal. f_equal; f_equal; ring.
  - destruct (nth_error (efreqs p) (Z.to_nat s)) as [f|] eqn:E; [|apply nth_error_None in E; lia].
    rewrite vget_nth, E by exact Hs. cbn [bind]. rewrite C. cbn [bind].
    assert (K : skipn (Z.to_nat s) (efreqs p) = f :: skipn (Z.to_nat (s + 1)) (efreqs p)).
    { replace (Z.to_nat (s + 1)) with (S (Z.to_nat s)) by lia. revert E. generalize (Z.to_nat s) (efreqs p). clear. intros i. induction i as [|i IH]; intros [|x l] E; try discriminate; cbn in *; [injection E as ->; reflexivity|auto]. }
    rewrite K in *. cbn [firstn] in *. inversion F as [|? ? Hf F']; subst.
    pose proof PI_RGT_0 as Pi. assert (Q : (2 * PI * f <> 0)%R) by (apply Rmult_integral_contrapositive_currified; [lra|exact Hf]).
    cbn [fquot]. rewrite (fdiv_num 1 _ Q). cbn [fmul fadd fquot].
    assert (W : (2 * PI * fc * (2 * PI * fc) * (1 / (2 * PI * f)) * (1 / (2 * PI * f)) = (fc / f) ^ 2)%R) by (field; split; [exact Hf|lra]).
    assert (W' : (2 * PI * fc * (2 * PI * fc) * (1 / (2 * PI * f)) = 2 * PI * fc * (fc / f))%R) by (field; split; [exact Hf|lra]).
    rewrite W, W'. assert (D : (1 + (fc / f) ^ 2 <> 0)%R) by (pose proof (pow2_ge_0 (fc / f)); lra).
    rewrite !(fdiv_num _ _ D). cbn [fadd]. rewrite IH; auto; try lia. unfold relaxation. cbn [map fold_right]. f_equal. f_equal; f_equal; [ring|].
    match goal with |- context [fold_right Rplus 0%R ?l] => generalize (fold_right Rplus 0%R l) end. intros S. set (u := (fc / f)%R) in *. clearbody u. field. nra.
Qed.
Lemma relaxMeans_spec p fc fs : relaxes p fc fs -> relaxMeans p = Ok (Num (relA fc fs), Num (relB fc fs)).
Proof.
  intros (C&N&->&F). unfold relaxMeans. rewrite (relaxSums_spec p fc) by (auto; try lia). cbn [Z.to_nat skipn bind fquot].
  assert (D : IZR (enrel p) <> 0%R) by (apply IZR_neq; lia). rewrite !fdiv_num by exact D. unfold relA, relB.
  rewrite firstn_length_le by lia. rewrite INR_IZR_INZ, Z2Nat.id by lia. f_equal. f_equal; f_equal; rewrite Rplus_0_l; reflexivity.
Qed.
Lemma relaxMeans_none p : enrel p = 0 -> relaxMeans p = Ok (NaN, NaN).
Proof. intros E. unfold relaxMeans. rewrite E. cbn. unfold fdiv. destruct (Req_EM_T 0 0); [reflexivity|lra]. Qed.
Lemma relaxSums_exists p c n : forall s a b, ecf p = Some c -> 0 <= s -> (Z.to_nat s + n <= length (efreqs p))%nat -> exists r, relaxSums (zseq s n) p a b = Ok r.
Proof.
  induction n as [|n IH]; intros s a b C Hs Hn; cbn [zseq relaxSums]; [eauto|].
  destruct (nth_error (efreqs p) (Z.to_nat s)) as [f|] eqn:E; [|apply nth_error_None in E; lia].
  rewrite vget_nth, E, C by exact Hs. cbn [bind]. apply IH; auto; lia.
Qed.
Lemma relaxMeans_exists p : enrel p <= 0 \/ (enrel p <= Z.of_nat (length (efreqs p)) /\ ecf p <> None) -> exists a b, relaxMeans p = Ok (a, b).
Proof.
  intros H. unfold relaxMeans. assert (E : exists r, relaxSums (zseq 0 (Z.to_nat (enrel p))) p (Num 0) (Num 0) = Ok r).
  { destruct H as [H|(H&C)]; [replace (Z.to_nat (enrel p)) with 0%nat by lia; cbn; eauto|]. destruct (ecf p) eqn:E; [|congruence].
    eapply relaxSums_exists; eauto; lia. }
  destruct E as ((a, b)&->). cbn. eauto.
Qed.

Lemma raise_at lo v i : nth_error (raise lo v) i = option_map (fun x => if flt x (Num lo) then Num lo else x) (nth_error v i).
Proof. apply nth_error_map. Qed.
Lemma raise_num lo r : (if flt (Num r) (Num lo) then Num lo else Num r) = Num (Rmax lo r).
Proof. cbn. unfold Rmax. destruct (Rlt_dec r lo), (Rle_dec lo r); try lra; reflexivity. Qed.
Lemma raise_length lo v : length (raise lo v) = length v.
Proof. apply map_length. Qed.
Lemma flt_irrefl x : flt x x = false.
Proof. destruct x; cbn; auto. destruct (Rlt_dec x x); [lra|reflexivity]. Qed.
Lemma raise_least lo v i x : nth_error (raise lo v) i = Some x -> flt x (Num lo) = false.
Proof.
  rewrite raise_at. destruct (nth_error v i) as [y|]; [|discriminate]. cbn. intros [= <-]. destruct (flt y (Num lo)) eqn:E; [|exact E]. apply flt_irrefl.
Qed.

(** Results of the relaxation formulas at a point where everything is a number. *)
Lemma epsRE_len p r : epsRE p = Ok r -> length (tauEps p) = length (eps p) /\ length (sigma p) = length (eps p) /\ length (tauSig p) = length (eps p) /\ length r = length (eps p).
Proof.
  unfold epsRE. intros H. apply bind_ok in H as ((a&b)&_&H). apply bind_ok in H as (e&E1&H). apply bind_ok in H as (s&E2&H). apply bind_ok in H as (t&E3&H). injection H as <-.
  apply zipR_at in E1 as (A1&A2&_), E2 as (B1&B2&_), E3 as (C1&C2&_). rewrite !map_length in A1. rewrite raise_length. lia.
Qed.
Lemma epsRE_at p fc fs r i e s te ts : relaxes p fc fs -> epsRE p = Ok r ->
  at_ (eps p) i e -> at_ (sigma p) i s -> at_ (tauEps p) i te -> at_ (tauSig p) i ts -> at_ r i (Rmax eps0 (eff_eps fc fs e s te ts)).
Proof.
  unfold epsRE, at_. intros R H He Hs Hte Hts. rewrite (relaxMeans_spec _ _ _ R) in H. cbn [bind] in H.
  apply bind_ok in H as (x&E1&H). apply bind_ok in H as (y&E2&H). apply bind_ok in H as (z&E3&H). injection H as <-.
  apply zipR_at in E1 as (_&_&N1), E2 as (_&_&N2), E3 as (_&_&N3). rewrite raise_at, N3, N1, N2, !map_at, He, Hs, Hte, Hts. cbn [option_map fmul fsub fneg fadd]. rewrite raise_num. unfold eff_eps.
  do 3 f_equal.
Qed.
Lemma sigmaRE_at p fc fs r i e s te : relaxes p fc fs -> sigmaRE p = Ok r ->
  at_ (eps p) i e -> at_ (sigma p) i s -> at_ (tauEps p) i te -> at_ r i (Rmax 0 (eff_sigma fc fs e s te)).
Proof.
  unfold sigmaRE, at_. intros R H He Hs Hte. rewrite (relaxMeans_spec _ _ _ R) in H. cbn [bind] in H.
  apply bind_ok in H as (x&E1&H). apply bind_ok in H as (y&E2&H). injection H as <-.
  apply zipR_at in E1 as (_&_&N1), E2 as (_&_&N2). rewrite raise_at, N2, N1, !map_at, He, Hs, Hte. cbn [option_map fmul fadd]. rewrite raise_num. unfold eff_sigma.
  do 3 f_equal. ring.
Qed.
Lemma epsStatic_at p fc fs e s r i e' s' te ts : relaxes p fc fs -> epsStatic p e s 2 = Ok r ->
  at_ e i e' -> at_ s i s' -> at_ (tauEps p) i te -> at_ (tauSig p) i ts -> eff_det fc fs te ts <> 0%R ->
  at_ r i (Rmax eps0 ((e' - s' * ts) / eff_det fc fs te ts)).
Proof.
  unfold epsStatic, at_. intros R H He Hs Hte Hts D. rewrite (relaxMeans_spec _ _ _ R) in H. cbn [bind] in H.
  apply bind_ok in H as (q&H&H'). injection H' as <-. change (2 =? 1) with false in H. change (2 =? 2) with true in H. cbv iota in H.
  apply bind_ok in H as (x&E1&H). apply bind_ok in H as (y&E2&H). apply bind_ok in H as (z&E3&H). apply bind_ok in H as (t&E4&H).
  apply zipR_at in E1 as (_&_&N1), E2 as (_&_&N2), E3 as (_&_&N3), E4 as (_&_&N4), H as (_&_&N5).
  rewrite raise_at, N5, N4, N3, N2, N1, !map_at, He, Hs, Hte, Hts. cbn [option_map fmul fsub fneg fadd fquot].
  unfold eff_det in *. replace (1 + - (relA fc fs * te) + - (relB fc fs * te * ts))%R with (1 - relA fc fs * te - relB fc fs * te * ts)%R by ring.
  rewrite fdiv_num by exact D. rewrite raise_num. do 3 f_equal.
Qed.
Lemma sigmaStatic_at p fc fs e s r i e' s' te ts : relaxes p fc fs -> sigmaStatic p e s 2 = Ok r ->
  at_ e i e' -> at_ s i s' -> at_ (tauEps p) i te -> at_ (tauSig p) i ts -> eff_det fc fs te ts <> 0%R ->
  at_ r i (Rmax 0 (s' - relB fc fs * te * Rmax eps0 ((e' - s' * ts) / eff_det fc fs te ts))).
Proof.
  intros R H He Hs Hte Hts D. unfold sigmaStatic in H. rewrite (relaxMeans_spec _ _ _ R) in H. cbn [bind] in H.
  change (2 =? 1) with false in H. change (2 =? 2) with true in H. cbv iota in H.
  apply bind_ok in H as (q&E&H). pose proof (epsStatic_at _ _ _ _ _ _ _ _ _ _ _ R E He Hs Hte Hts D) as Q.
  apply bind_ok in H as (x&E1&H). apply bind_ok in H as (y&E2&H). injection H as <-. unfold at_ in *.
  apply zipR_at in E1 as (_&_&N1), E2 as (_&_&N2). rewrite raise_at, N2, N1, !map_at, Hs, Hte, Q. cbn [option_map fmul fsub fneg fadd]. rewrite raise_num. do 3 f_equal.
Qed.
