(** C174: the verdict of the integration test on seismograms. *)
From Coq Require Import Ascii String Reals Lra.
From Verif Require Import Base M_Acq M_Conf M_Common M_Model M_ModelEM M_Wave M_Compare S_Compare L_Compare.
Open Scope R_scope.
Local Notation length := List.length.

Lemma largest_unique : forall l M M', largest l M -> extends l 0 M' -> M' = M.
Proof.
  intros l M M' [H0 [HA HB]] [E0 [EA EB]]. apply Rle_antisym.
  - destruct EB as [->|[x [Hx <-]]]; auto.
  - destruct HB as [->|[x [Hx <-]]]; auto.
Qed.
Lemma abs_zero : forall x, Rabs x <= 0 -> x = 0.
Proof. intros x H. destruct (Req_dec x 0) as [e|n]; [exact e|]. apply Rabs_pos_lt in n. lra. Qed.
Lemma product_nonneg : forall l M, 0 <= M -> 0 <= M * sum_samples l * sum_traces l.
Proof.
  intros l M H. apply Rmult_le_pos; [apply Rmult_le_pos; [exact H|]|]; apply rsum_nonneg; intros x _; apply pos_INR.
Qed.
Lemma nothing_to_compare : forall l M, (forall c, In c l -> shaped c) -> largest l M ->
  M * sum_samples l * sum_traces l = 0 -> total_distance l = 0.
Proof.
  intros l M Hs [H0 [HA _]] H. apply zero_total. intros c Hc x y Hxy. apply both_in in Hxy. destruct Hxy as [Hx Hy].
  assert (P : M = 0 \/ sum_samples l = 0 \/ sum_traces l = 0).
  { apply Rmult_integral in H. destruct H as [H|H]; [apply Rmult_integral in H|]; tauto. }
  destruct (Hs c Hc) as [L [LT LR]]. destruct P as [P|[P|P]].
  - assert (X : Rabs x <= 0) by (rewrite <- P; apply HA; exists c; auto).
    assert (Y : Rabs y <= 0) by (rewrite <- P; apply HA; exists c; auto).
    apply abs_zero in X. apply abs_zero in Y. congruence.
  - exfalso. assert (Q : INR (samples c) <= 0).
    { rewrite <- P. apply (rsum_in _ (fun c => INR (samples c)) l c); auto. intros; apply pos_INR. }
    assert (S0 : samples c = 0%nat) by (apply INR_eq; pose proof (pos_INR (samples c)); simpl; lra).
    rewrite (no_samples (samples c) (tested c) LT) in Hx; [destruct Hx|auto].
  - exfalso. assert (Q : INR (length (reference c)) <= 0).
    { rewrite <- P. apply (rsum_in _ (fun c => INR (length (reference c))) l c); auto. intros; apply pos_INR. }
    assert (S0 : length (reference c) = 0%nat) by (apply INR_eq; pose proof (pos_INR (length (reference c))); simpl; lra).
    destruct (reference c); [destruct Hy|discriminate].
Qed.

(** The test accepts the recorded numbers (returns 0) exactly when the sum of the l2 norms of the differences is at most 5e-7 times the
    largest amplitude times the sum of the numbers of samples times the sum of the numbers of traces, and returns 1 otherwise. *)
Theorem C174_verdict : forall l M, (forall c, In c l -> shaped c) -> largest l M ->
  let bound := 5 / 10000000 * (M * sum_samples l * sum_traces l) in
  (total_distance l <= bound -> verdict (map loaded l) = Ok 0%Z) /\ (bound < total_distance l -> verdict (map loaded l) = Ok 1%Z).
Proof.
  intros l M Hs HM bound. unfold verdict.
  destruct (passes_nums l 0 0 0 0 Hs (Rle_refl 0)) as [M' [s' [t' [E [X [Sa Ta]]]]]]. rewrite E. cbn [bind misfitSum maxAmp numSamples numTraces].
  rewrite (largest_unique l M M' HM X). rewrite Sa, Ta, !Rplus_0_l. cbn [fmul fquot].
  set (p := M * sum_samples l * sum_traces l) in *.
  assert (P : 0 <= p).
  { destruct HM as [M0 _]. now apply product_nonneg. }
  unfold fdiv. destruct (Req_EM_T p 0) as [Z0|Z0].
  - assert (D : total_distance l = 0) by exact (nothing_to_compare l M Hs HM Z0). rewrite D.
    destruct (Req_EM_T 0 0) as [_|n]; [|now destruct n]. cbn [flt]. split; [reflexivity|].
    unfold bound. rewrite Z0. lra.
  - assert (P1 : 0 < p) by lra. cbn [flt].
    destruct (Rlt_dec (5 / 10000000) (total_distance l / p)) as [H|H]; split; intro G; try reflexivity; exfalso.
    + apply (Rmult_lt_compat_r p) in H; auto. unfold Rdiv in H at 2. rewrite Rmult_assoc, Rinv_l, Rmult_1_r in H by lra. unfold bound in G. lra.
    + apply H. apply (Rmult_lt_reg_r p); auto. unfold Rdiv at 2. rewrite Rmult_assoc, Rinv_l, Rmult_1_r by lra. exact G.
Qed.

(** So a run with the reference seismograms is accepted, and in an accepted run no sample is further from the reference than the bound. *)
Theorem C174_same : forall l, (forall c, In c l -> shaped c /\ tested c = reference c) -> verdict (map loaded l) = Ok 0%Z.
Proof.
  intros l H. assert (Hs : forall c, In c l -> shaped c) by (intros; now apply H).
  destruct (passes_nums l 0 0 0 0 Hs (Rle_refl 0)) as [M [_ [_ [_ [[X1 [X2 X3]] _]]]]].
  assert (HM : largest l M) by (repeat split; auto).
  apply (proj1 (C174_verdict l M Hs HM)).
  rewrite zero_total.
  - assert (0 <= M * sum_samples l * sum_traces l) by (now apply product_nonneg). lra.
  - intros c Hc x y Hxy. destruct (H c Hc) as [_ E]. unfold both in Hxy. rewrite E in Hxy. clear - Hxy.
    induction (concat (reference c)) as [|z q IH]; [destruct Hxy|]. destruct Hxy as [Q|Q]; [congruence|auto].
Qed.
Theorem C174_sample : forall l M c x y, (forall c, In c l -> shaped c) -> largest l M -> verdict (map loaded l) = Ok 0%Z ->
  In c l -> In (x, y) (both c) -> Rabs (x - y) <= 5 / 10000000 * (M * sum_samples l * sum_traces l).
Proof.
  intros l M c x y Hs HM V Hc Hxy. destruct (C174_verdict l M Hs HM) as [_ B].
  destruct (Rle_lt_dec (total_distance l) (5 / 10000000 * (M * sum_samples l * sum_traces l))) as [G|G].
  - pose proof (distance_bound c x y Hxy). pose proof (total_bound l c Hc). lra.
  - rewrite (B G) in V. discriminate.
Qed.

(** Seismograms with different numbers of samples are not compared: the test throws. *)
Lemma onePass_cases : forall a t r, (exists a', onePass a t r = Ok a') \/ onePass a t r = Throw.
Proof.
  intros a t r. unfold onePass, minus, assert. destruct (ncols t =? ncols r)%Z; cbn [bind]; auto.
  assert (Q : forall x y, (exists d, minusRows x y = Ok d) \/ minusRows x y = Throw).
  { induction x as [|u x IH]; intros [|v y]; cbn; eauto.
    assert (Z : forall p q, (exists d, zipR fsub p q = Ok d) \/ zipR fsub p q = Throw).
    { induction p as [|i p IHp]; intros [|j q]; cbn; eauto. destruct (IHp q) as [[d ->]| ->]; cbn; eauto. }
    destruct (Z u v) as [[d ->]| ->]; cbn; auto. destruct (IH y) as [[e ->]| ->]; cbn; eauto. }
  destruct (Q (traces t) (traces r)) as [[d ->]| ->]; cbn; eauto.
Qed.
Theorem C174_shapes : forall l t r, In (t, r) l -> ncols t <> ncols r \/ nrows t <> nrows r -> verdict l = Throw.
Proof.
  intros l t r I H. unfold verdict. replace (passes _ l) with (@Throw totals); [reflexivity|]. symmetry.
  generalize (mkT 0 0 (Num 0) (Num 0)). induction l as [|[t0 r0] l IH]; intro a; [destruct I|]. cbn [passes].
  destruct (onePass_cases a t0 r0) as [[a' E]|E].
  - destruct I as [I|I]; [|rewrite E; cbn [bind]; auto]. injection I as -> ->. exfalso. unfold onePass, minus, assert in E.
    destruct (Z.eqb_spec (ncols t) (ncols r)) as [e|e]; [|discriminate]. cbn [bind] in E. destruct H as [H|H]; [contradiction|].
    assert (Q : forall x y d, minusRows x y = Ok d -> length x = length y).
    { induction x as [|u x IHx]; intros [|v y] d D; cbn in *; try discriminate; auto.
      destruct (zipR fsub u v); try discriminate. cbn in D. destruct (minusRows x y) eqn:F; try discriminate. f_equal. eapply IHx; eauto. }
    destruct (minusRows (traces t) (traces r)) eqn:D; try discriminate. apply Q in D. unfold nrows in H. lia.
  - rewrite E. reflexivity.
Qed.

(** The number does not measure the mean difference per sample: two seismograms of one sample each, both off by the millionth part, are
    accepted although the mean relative difference is twice the tolerance. *)
Theorem C174_average_refuted : exists l, (forall c, In c l -> shaped c) /\ largest l 1 /\ verdict (map loaded l) = Ok 0%Z /\
  forall c x y, In c l -> In (x, y) (both c) -> Rabs (x - y) = 2 * (5 / 10000000).
Proof.
  set (e := 1 / 1000000).
  set (c := mkPair 1 [[1 - e]] [[1]]). exists [c; c].
  assert (Sh : forall d, In d [c; c] -> shaped d).
  { intros d [<-|[<-|[]]]; unfold shaped, c; cbn; (split; [reflexivity|]); split; intros t [<-|[]]; reflexivity. }
  assert (HM : largest [c; c] 1).
  { split; [lra|]. split.
    - intros x [d [[<-|[<-|[]]] [[<-|[]]|[<-|[]]]]]; unfold e; rewrite Rabs_pos_eq by lra; lra.
    - right. exists 1. split; [|rewrite Rabs_pos_eq; lra]. exists c. cbn. auto. }
  split; [exact Sh|]. split; [exact HM|].
  assert (B : forall d x y, In d [c; c] -> In (x, y) (both d) -> Rabs (x - y) = 2 * (5 / 10000000)).
  { intros d x y [<-|[<-|[]]] [H|[]]; injection H as <- <-; unfold e; rewrite Rabs_left by lra; lra. }
  split; [|exact B].
  apply (proj1 (C174_verdict [c; c] 1 Sh HM)).
  assert (D : distance c = e).
  { unfold distance, both, c, rsum. cbn. replace ((1 - e - 1) * ((1 - e - 1) * 1) + 0) with (Rsqr e) by (unfold Rsqr; ring).
    rewrite sqrt_Rsqr; [reflexivity|unfold e; lra]. }
  unfold total_distance, sum_samples, sum_traces, rsum. cbn. rewrite D. unfold e. lra.
Qed.

(** And it accepts every run in which some sample is not a finite number, whatever the other samples are. *)
Theorem C174_nonfinite_accepted : forall l t r x, In (t, r) l -> (forall y, In y (concat (traces r)) -> finite y) ->
  In x (concat (traces t)) -> ~ finite x -> verdict l = Ok 0%Z \/ verdict l = Throw.
Proof.
  intros l t r x I F Hx N. unfold verdict.
  assert (Q : forall l a, (exists a', passes a l = Ok a') \/ passes a l = Throw).
  { clear. induction l as [|[t r] l IH]; intro a; cbn; eauto. destruct (onePass_cases a t r) as [[a' ->]| ->]; cbn; auto. }
  destruct (Q l (mkT 0 0 (Num 0) (Num 0))) as [[a' E]|E]; rewrite E; cbn [bind]; auto. left.
  rewrite lost_accepted; [reflexivity|]. eapply passes_hit; eauto; cbn; [right; eauto|lra].
Qed.
Lemma nan_accepted : verdict [(mkS 2 [[NaN; Num 7]], mkS 2 [[Num 1; Num 2]])] = Ok 0%Z.
Proof.
  assert (F : forall y, In y (concat (traces (mkS 2 [[Num 1; Num 2]]))) -> finite y)
    by (intros y [<-|[<-|[]]]; unfold finite; eauto).
  assert (N : ~ finite NaN) by (intros [r H]; discriminate).
  destruct (C174_nonfinite_accepted [(mkS 2 [[NaN; Num 7]], mkS 2 [[Num 1; Num 2]])] (mkS 2 [[NaN; Num 7]]) (mkS 2 [[Num 1; Num 2]]) NaN
    (or_introl eq_refl) F (or_introl eq_refl) N) as [H|H]; [exact H|].
  exfalso. unfold verdict in H. cbn [passes bind] in H. unfold onePass, minus in H. cbn in H. discriminate.
Qed.
Theorem C174_nan_refuted : exists t r, In NaN (concat (traces t)) /\ (forall y, In y (concat (traces r)) -> finite y) /\
  ncols t = ncols r /\ verdict [(t, r)] = Ok 0%Z.
Proof.
  exists (mkS 2 [[NaN; Num 7]]), (mkS 2 [[Num 1; Num 2]]). split; [now left|]. split; [|split; [reflexivity|exact nan_accepted]].
  intros y [<-|[<-|[]]]; unfold finite; eauto.
Qed.
(** A run that is off by a tenth of the amplitude is rejected. *)
Example C174_ex : verdict (map loaded [mkPair 2 [[1; 9 / 10]] [[1; 1]]]) = Ok 1%Z.
Proof.
  set (c := mkPair 2 [[1; 9 / 10]] [[1; 1]]).
  assert (Sh : forall d, In d [c] -> shaped d).
  { intros d [<-|[]]; unfold shaped, c; cbn; (split; [reflexivity|]); split; intros t [<-|[]]; reflexivity. }
  assert (HM : largest [c] 1).
  { split; [lra|]. split.
    - intros x [d [[<-|[]] [[<-|[<-|[]]]|[<-|[<-|[]]]]]]; rewrite Rabs_pos_eq by lra; lra.
    - right. exists 1. split; [|rewrite Rabs_pos_eq; lra]. exists c. cbn. auto. }
  apply (proj2 (C174_verdict [c] 1 Sh HM)).
  assert (D : distance c = 1 / 10).
  { unfold distance, both, c, rsum. cbn. replace (_ + _) with (Rsqr (1 / 10)) by (unfold Rsqr; field). rewrite sqrt_Rsqr; lra. }
  unfold total_distance, sum_samples, sum_traces, rsum. cbn. rewrite D. lra.
Qed.

(** ** The name of the reference *)
Lemma starts_iff : forall p s, starts p s = true <-> exists r, s = (p ++ r)%list.
Proof.
  induction p as [|a p IH]; intro s; cbn.
  - split; [eauto|reflexivity].
  - destruct s as [|b s]; [split; [discriminate|intros [r H]; discriminate]|].
    rewrite andb_true_iff, IH, Ascii.eqb_eq. split.
    + intros [-> [r ->]]. eauto.
    + intros [r H]. injection H as -> ->. eauto.
Qed.
Lemma find_first : forall p s a r, s = (a ++ p ++ r)%list ->
  (forall a' r', s = (a' ++ p ++ r')%list -> (length a <= length a')%nat) -> find_str p s = Some (length a).
Proof.
  intros p s. induction s as [|b s IH]; intros a r E H.
  - destruct a; [|discriminate]. cbn in E. assert (Q : starts p [] = true) by (apply starts_iff; eauto). cbn. now rewrite Q.
  - cbn [find_str]. destruct a as [|c a].
    + cbn in E. replace (starts p (b :: s)) with true; [reflexivity|]. symmetry. apply starts_iff. eauto.
    + destruct (starts p (b :: s)) eqn:Q.
      * apply starts_iff in Q. destruct Q as [r' Q]. specialize (H [] r' Q). cbn in H. lia.
      * cbn in E. injection E as -> E. rewrite (IH a r E); [reflexivity|]. intros a' r' E'.
        specialize (H (c :: a') r'). cbn in H. rewrite E' in H. specialize (H eq_refl). lia.
Qed.
Lemma find_none : forall p s, (forall a r, s <> (a ++ p ++ r)%list) -> find_str p s = None.
Proof.
  intros p s. induction s as [|b s IH]; intro H; cbn [find_str].
  - destruct (starts p []) eqn:Q; [|reflexivity]. apply starts_iff in Q. destruct Q as [r Q]. now destruct (H [] r).
  - destruct (starts p (b :: s)) eqn:Q.
    + apply starts_iff in Q. destruct Q as [r Q]. now destruct (H [] r).
    + rewrite IH; [reflexivity|]. intros a r E. apply (H (b :: a) r). now rewrite E.
Qed.
(** The reference is named after the part of the name before its first ".ci", or after the whole name if there is none. *)
Theorem C174_name : forall s,
  (forall a r, s = (a ++ txt ".ci" ++ r)%list -> (forall a' r', s = (a' ++ txt ".ci" ++ r')%list -> (length a <= length a')%nat) ->
     refName s = (a ++ txt ".ref")%list) /\
  ((forall a r, s <> (a ++ txt ".ci" ++ r)%list) -> refName s = (s ++ txt ".ref")%list).
Proof.
  intro s. split.
  - intros a r E H. unfold refName. rewrite (find_first _ s a r E H). rewrite E, firstn_app, Nat.sub_diag, firstn_all. cbn [firstn].
    now rewrite app_nil_r.
  - intro H. unfold refName. now rewrite find_none.
Qed.
(** So for a configured name with ".ci" all shots are compared with the same reference. *)
Theorem C174_same_reference : forall n s1 s2, (exists a r, n = (a ++ txt ".ci" ++ r)%list) ->
  refName (testName n s1) = refName (testName n s2).
Proof.
  intros n s1 s2 [a [r E]]. unfold refName, testName.
  assert (St : forall p s m, (length p <= length s)%nat -> starts p (s ++ m)%list = starts p s).
  { induction p as [|x p IH]; intros [|y s] m L; cbn in *; try lia; auto. rewrite IH by lia. reflexivity. }
  assert (Lg : forall p s k, find_str p s = Some k -> (k + length p <= length s)%nat).
  { intros p s. induction s as [|y s IH]; intros k F; cbn [find_str] in F.
    - destruct (starts p []) eqn:Q; [|discriminate]. injection F as <-. destruct p; [cbn; lia|discriminate].
    - destruct (starts p (y :: s)) eqn:Q.
      + injection F as <-. apply starts_iff in Q. destruct Q as [q Q]. rewrite Q, app_length. lia.
      + destruct (find_str p s) as [j|] eqn:G; [|discriminate]. injection F as <-. specialize (IH j eq_refl). cbn. lia. }
  assert (Ex : forall p s m k, find_str p s = Some k -> find_str p (s ++ m)%list = Some k).
  { intros p s m. induction s as [|y s IH]; intros k F; pose proof (Lg _ _ _ F) as L.
    - cbn in F. destruct (starts p []) eqn:Q; [|discriminate]. injection F as <-. destruct p; [|discriminate]. now destruct m.
    - change ((y :: s) ++ m)%list with (y :: (s ++ m))%list. cbn [find_str] in *.
      change (y :: (s ++ m))%list with ((y :: s) ++ m)%list. rewrite St by lia.
      destruct (starts p (y :: s)); [exact F|]. destruct (find_str p s) as [j|] eqn:G; [|discriminate]. now rewrite (IH j eq_refl). }
  assert (Fd : exists k, find_str (txt ".ci") n = Some k).
  { destruct (find_str (txt ".ci") n) as [k|] eqn:G; [eauto|]. exfalso. revert a E. induction n as [|y n IH]; intros a E.
    - destruct a; discriminate.
    - cbn [find_str] in G. destruct (starts (txt ".ci") (y :: n)) eqn:Q; [discriminate|].
      destruct (find_str (txt ".ci") n) eqn:G2; [discriminate|]. destruct a as [|z a].
      + assert (starts (txt ".ci") (y :: n) = true) by (apply starts_iff; exists r; exact E). congruence.
      + injection E as _ E. eapply IH; eauto. }
  destruct Fd as [k F]. rewrite !(Ex _ _ _ k F). pose proof (Lg _ _ _ F). f_equal. rewrite !firstn_app.
  replace (k - length n)%nat with 0%nat by lia. reflexivity.
Qed.
Example C174_name_ex : refName (testName (txt "seismograms/seismogram.2D.acoustic.ci") (txt "3")) = txt "seismograms/seismogram.2D.acoustic.ref".
Proof. reflexivity. Qed.

Print Assumptions C174_verdict.
Print Assumptions C174_same.
Print Assumptions C174_sample.
Print Assumptions C174_shapes.
Print Assumptions C174_average_refuted.
Print Assumptions C174_nonfinite_accepted.
Print Assumptions C174_nan_refuted.
Print Assumptions C174_name.
Print Assumptions C174_same_reference.
