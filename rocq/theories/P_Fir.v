(** C150: the Hilbert transform by a FIR filter. *)
From Coq Require Import Reals Lra.
From Verif Require Import Base M_Acq M_Fir S_Fir L_Acq2 L_Fir.
From Coq Require Import ZifyBool Lia.
Open Scope Z_scope.

(** Even kernelSize: the coefficients are those of the ideal transformer at the odd places -(K-1), -(K-3), ..., K-1
    times the Blackman window; they are antisymmetric and the outermost ones vanish. *)
Theorem C150_kernel : forall K, 1 < K -> Z.even K = true ->
  exists kernel, firKernel K = Ok kernel /\ length kernel = Z.to_nat K /\
  (forall n, 0 <= n < K -> nth (Z.to_nat n) kernel None =
     Some (2 / (PI * IZR (2 * n - (K - 1))) * blackman (IZR (2 * n - (K - 1)) / IZR (K - 1)))%R) /\
  (forall n a, 0 <= n < K -> nth (Z.to_nat n) kernel None = Some a -> nth (Z.to_nat (K - 1 - n)) kernel None = Some (- a)%R) /\
  nth 0 kernel None = Some 0%R.
Proof.
  intros K HK HE. destruct (firKernel_spec K ltac:(lia)) as [kernel [E [L N]]]. exists kernel. split; [exact E|]. split; [exact L|].
  assert (NZ : forall n, 1 - K + 2 * n <> 0) by (intros n; apply Z.even_spec in HE; destruct HE as [q Hq]; lia).
  assert (V : forall n, 0 <= n < K -> nth (Z.to_nat n) kernel None = Some (windowed K (1 - K + 2 * n)))
    by (intros n Hn; rewrite N by exact Hn; apply firTerm_val; [lia|exact Hn|apply NZ]).
  split; [|split].
  - intros n Hn. rewrite V by exact Hn. f_equal. replace (2 * n - (K - 1)) with (1 - K + 2 * n) by lia.
    unfold windowed. replace (_ <=? _) with true by lia. unfold ideal.
    replace (Z.odd (1 - K + 2 * n)) with true; [reflexivity|]. apply Z.even_spec in HE. destruct HE as [q ->].
    symmetry. apply Z.odd_spec. exists (n - q). ring.
  - intros n a Hn Ha. rewrite V in Ha by exact Hn. assert (Ea : a = windowed K (1 - K + 2 * n)) by congruence. subst a. rewrite V by lia. f_equal. rewrite <- windowed_opp. f_equal. lia.
  - change 0%nat with (Z.to_nat 0). rewrite V by lia. f_equal. replace (1 - K + 2 * 0) with (- (K - 1)) by lia. apply windowed_end. exact HK.
Qed.

(** Even kernelSize, any signal: nothing is read out of range and place j, except the last, holds the convolution of the signal with the windowed
    transformer, where
    - places with K - 1 samples before them and places of odd number hold the convolution at j, but
    - places of even number with fewer samples before them hold the convolution at j - 1;
    - the two last samples of the signal are left out at the places with fewer than K - 1 samples behind them.
    The last place keeps its input. *)
Theorem C150_filter : forall K data, 1 < K -> Z.even K = true ->
  exists kernel out, firKernel K = Ok kernel /\ firHilbert K kernel data = Ok out /\ length out = length data /\
  (forall j, 0 <= j < Z.of_nat (length data) - 1 -> nth (Z.to_nat j) out None =
     Some (convolution K (if j + (K - 1) <? Z.of_nat (length data) then length data else length data - 2) (sample data)
             (if (j <? K - 1) && Z.even j then j - 1 else j))) /\
  (forall d, (0 < length data)%nat -> nth (length data - 1) out None = Some (nth (length data - 1) data d)).
Proof.
  intros K data HK HE. destruct (firKernel_spec K ltac:(lia)) as [kernel [E [L N]]].
  assert (S : forall j, 0 <= j < Z.of_nat (length data) - 1 -> firSample K kernel data (j + K - 1) =
     Ok (Some (convolution K (Z.to_nat (firCut K (Z.of_nat (length data)) j)) (sample data) (firPlace K j))))
    by (intros; apply firSample_spec; assumption).
  destruct (firOuter_spec K kernel data (fun j => Some (convolution K (Z.to_nat (firCut K (Z.of_nat (length data)) j)) (sample data) (firPlace K j)))
     (length data - 1) 0 (map Some data) HK ltac:(lia)) as [out [E2 [L2 N2]]];
    [rewrite map_length; lia|intros j Hj; apply S; lia|].
  exists kernel, out. split; [exact E|]. rewrite map_length in L2.
  assert (Q : Z.quot (K * 2 - 1) 2 = K - 1) by (rewrite Z.quot_div_nonneg by lia; symmetry; apply (Z.div_unique _ _ _ 1); lia).
  split; [unfold firHilbert; rewrite Q; exact E2|]. split; [exact L2|]. split.
  - intros j Hj. rewrite N2 by lia. replace ((0 <=? j) && (j <? 0 + Z.of_nat (length data - 1))) with true by lia.
    do 2 f_equal. unfold firCut. replace (j + (K - 1) <? Z.of_nat (length data)) with (j + K <=? Z.of_nat (length data)) by lia.
    destruct (_ <=? _); lia.
  - intros d Hd. replace (length data - 1)%nat with (Z.to_nat (Z.of_nat (length data) - 1)) at 1 by lia. rewrite N2 by lia.
    replace ((0 <=? _) && _) with false by lia. replace (Z.to_nat (Z.of_nat (length data) - 1)) with (length data - 1)%nat by lia.
    rewrite (nth_indep _ None (Some d)) by (rewrite map_length; lia). rewrite map_nth. reflexivity.
Qed.

Lemma convolution_window K size x j : 0 < K -> K - 1 <= j -> j + (K - 1) < Z.of_nat size ->
  convolution K size x j = sumn (Z.to_nat (2 * K - 1)) (fun t => x (j - (K - 1 - t))%Z * windowed K (K - 1 - t))%R.
Proof.
  intros HK H1 H2. unfold convolution.
  rewrite (sumn_drop size (Z.to_nat (j + K))); [|lia|intros k Hk; rewrite windowed_far by lia; lra].
  replace (Z.to_nat (j + K)) with (Z.to_nat (j - (K - 1)) + Z.to_nat (2 * K - 1))%nat by lia. rewrite sumn_app.
  rewrite (sumn_0 (Z.to_nat (j - (K - 1)))) by (intros k Hk; rewrite windowed_far by lia; lra). rewrite Rplus_0_l.
  apply sumn_ext. intros t Ht. replace (Z.of_nat (Z.to_nat (j - (K - 1))) + t) with (j - (K - 1 - t)) by lia. do 2 f_equal. lia.
Qed.
Lemma cos_part K om : 0 < K -> sumn (Z.to_nat (2 * K - 1)) (fun t => windowed K (K - 1 - t) * cos (om * IZR (K - 1 - t)))%R = 0%R.
Proof.
  intros HK. set (f := fun t => (windowed K (K - 1 - t) * cos (om * IZR (K - 1 - t)))%R).
  enough (sumn (Z.to_nat (2 * K - 1)) f = - sumn (Z.to_nat (2 * K - 1)) f)%R by lra.
  rewrite sumn_rev at 1. replace (- sumn (Z.to_nat (2 * K - 1)) f)%R with (-1 * sumn (Z.to_nat (2 * K - 1)) f)%R by lra.
  rewrite <- sumn_scale. apply sumn_ext. intros t Ht. unfold f.
  replace (K - 1 - (Z.of_nat (Z.to_nat (2 * K - 1)) - 1 - t)) with (- (K - 1 - t)) by lia.
  rewrite windowed_opp, opp_IZR. replace (om * - IZR (K - 1 - t))%R with (- (om * IZR (K - 1 - t)))%R by lra. rewrite cos_neg. lra.
Qed.

(** Away from both ends the filter takes a harmonic to the same harmonic a quarter of a period later, times a factor that depends
    on the frequency alone, and it removes a constant. *)
Theorem C150_harmonic : forall K c A om ph size, 1 < K -> Z.even K = true ->
  let data := map (fun i => c + A * cos (om * INR i + ph))%R (seq 0 size) in
  exists kernel out, firKernel K = Ok kernel /\ firHilbert K kernel data = Ok out /\
  forall j, K - 1 <= j -> j + (K - 1) < Z.of_nat size -> 
    nth (Z.to_nat j) out None = Some (A * gain K om * sin (om * IZR j + ph))%R.
Proof.
  intros K c A om ph size HK HE data. destruct (C150_filter K data HK HE) as [kernel [out [E [E2 [L [N _]]]]]].
  assert (LD : length data = size) by (unfold data; rewrite map_length, seq_length; reflexivity).
  exists kernel, out. split; [exact E|]. split; [exact E2|]. intros j H1 H2. rewrite LD in N. rewrite N by lia.
  replace (j + (K - 1) <? Z.of_nat size) with true by lia. replace ((j <? K - 1) && Z.even j) with false by lia. f_equal.
  rewrite convolution_window by lia.
  rewrite (sumn_ext _ _ (fun t => (c + A * cos (om * IZR j + ph) * cos (om * IZR (K - 1 - t)) + A * sin (om * IZR j + ph) * sin (om * IZR (K - 1 - t))) * windowed K (K - 1 - t))%R).
  2:{ intros t Ht. f_equal. unfold sample, data. set (i := Z.to_nat (j - (K - 1 - t))).
      rewrite (nth_indep _ 0%R ((fun i => c + A * cos (om * INR i + ph))%R 0%nat)) by (rewrite map_length, seq_length; lia).
      rewrite (map_nth (fun i => c + A * cos (om * INR i + ph))%R), seq_nth by lia.
      rewrite Nat.add_0_l, INR_IZR_INZ. replace (Z.of_nat i) with (j - (K - 1 - t)) by lia. rewrite (minus_IZR j).
      replace (om * (IZR j - IZR (K - 1 - t)) + ph)%R with ((om * IZR j + ph) - om * IZR (K - 1 - t))%R by lra. rewrite cos_minus. lra. }
  rewrite (sumn_ext _ _ (fun t => c * (windowed K (K - 1 - t) * cos (0 * IZR (K - 1 - t))) +
     (A * cos (om * IZR j + ph) * (windowed K (K - 1 - t) * cos (om * IZR (K - 1 - t))) +
      A * sin (om * IZR j + ph) * (windowed K (K - 1 - t) * sin (om * IZR (K - 1 - t)))))%R)
    by (intros t Ht; rewrite Rmult_0_l, cos_0; lra).
  rewrite !sumn_add, !sumn_scale, !cos_part by lia. unfold gain. lra.
Qed.

(** The factor is not 0: kernelSize 4 passes 63 per cent of 4/pi of the harmonic of four samples per period. *)
Example C150_gain_ex : gain 4 (PI / 2) = (0.63 * (4 / PI))%R.
Proof.
  assert (C1 : cos (PI * (1 / 3)) = (1 / 2)%R) by (replace (PI * (1 / 3))%R with (PI / 3)%R by lra; apply cos_PI3).
  assert (C2 : cos (2 * PI * (1 / 3)) = (- 1 / 2)%R).
  { replace (2 * PI * (1 / 3))%R with (2 * (PI / 3))%R by lra. rewrite cos_2a_cos, cos_PI3. lra. }
  assert (B : blackman (1 / 3) = 0.63%R) by (unfold blackman; rewrite C1, C2; lra).
  assert (W1 : windowed 4 1 = (2 / PI * 0.63)%R).
  { unfold windowed, ideal. cbn. rewrite B, Rmult_1_r. reflexivity. }
  assert (W3 : windowed 4 3 = 0%R) by (apply (windowed_end 4); lia).
  unfold gain. replace (Z.to_nat (2 * 4 - 1)) with 7%nat by reflexivity. cbn [sumn].
  repeat match goal with |- context [4 - 1 - Z.of_nat ?k] => let v := eval cbv in (4 - 1 - Z.of_nat k) in change (4 - 1 - Z.of_nat k) with v end.
  rewrite W3, W1, (windowed_even 4 2), (windowed_even 4 0), (windowed_even 4 (-2)) by reflexivity.
  change (-1) with (- (1)). change (-3) with (- (3)). rewrite !windowed_opp, W3, W1, !opp_IZR.
  replace (PI / 2 * - (1))%R with (- (PI / 2))%R by lra. rewrite Rmult_1_r, sin_neg, sin_PI2. field. apply Rgt_not_eq, PI_RGT_0.
Qed.

(** Odd kernelSize above 1: the middle coefficient is 0/0, and at every place with K - 1 samples on both sides the result is not a number,
    whatever the signal. *)
Theorem C150_odd_refuted : forall K data, 1 < K -> Z.odd K = true ->
  exists kernel, firKernel K = Ok kernel /\ nth (Z.to_nat ((K - 1) / 2)) kernel None = None /\ (length kernel = Z.to_nat K) /\
  forall j, K - 1 <= j -> j + (K - 1) < Z.of_nat (length data) -> firSample K kernel data (j + (K - 1)) = Ok None.
Proof.
  intros K data HK HO. destruct (firKernel_spec K ltac:(lia)) as [kernel [E [L N]]]. exists kernel. split; [exact E|].
  apply Z.odd_spec in HO. destruct HO as [q Hq]. assert (D : (K - 1) / 2 = q) by (symmetry; apply (Z.div_unique _ _ _ 0); lia).
  assert (M : nth (Z.to_nat q) kernel None = None).
  { rewrite N by lia. unfold firTerm. replace (_ =? 0) with true by lia. reflexivity. }
  rewrite D. split; [exact M|]. split; [exact L|]. intros j H1 H2.
  assert (G : forall fuel n stop i h, 0 <= i -> stop <= Z.of_nat (length data) -> stop <= n + 1 -> n - i < 2 * K -> stop - i <= Z.of_nat fuel ->
     h = None \/ (exists s, 0 <= s /\ i + 2 * s < stop /\ n - (i + 2 * s) = 2 * q) -> firInner fuel data kernel n stop i h = Ok None).
  { induction fuel as [|fuel IH]; intros n stop i h Hi Hs Hn HF Hf HC.
    - cbn [firInner]. replace (i <? stop) with false by lia. destruct HC as [-> |[s [S1 [S2 S3]]]]; [reflexivity|lia].
    - cbn [firInner]. destruct (Z.ltb_spec i stop) as [C|C]; cbn [negb].
      2:{ destruct HC as [-> |[s [S1 [S2 S3]]]]; [reflexivity|lia]. }
      rewrite (vget_nth data i 0%R) by lia. cbn [bind]. rewrite Z.quot_div_nonneg by lia.
      assert (P : 0 <= (n - i) / 2 < K) by (split; [apply Z.div_pos; lia|apply Z.div_lt_upper_bound; lia]).
      rewrite (vget_nth kernel _ None) by lia. cbn [bind]. apply IH; try lia.
      destruct HC as [-> |[s [S1 [S2 S3]]]]; [left; reflexivity|].
      destruct (Z.eq_dec s 0) as [-> | Hs0].
      + left. replace ((n - i) / 2) with q by (apply (Z.div_unique _ _ _ 0); lia). rewrite M. destruct h; reflexivity.
      + right. exists (s - 1). lia. }
  unfold firSample.
  assert (Q : Z.quot (K * 2 - 1) 2 = K - 1) by (rewrite Z.quot_div_nonneg by lia; symmetry; apply (Z.div_unique _ _ _ 1); lia).
  rewrite Q. replace (K - 1 =? K) with false by lia. rewrite !Z.add_0_r. apply G; try lia. right. exists q. lia.
Qed.

(** The left end is wrong: with kernelSize 4 an impulse at place 2 answers at place 2, where the transform of an impulse is 0. *)
Theorem C150_left_end_refuted : exists K data kernel out,
  1 < K /\ Z.even K = true /\ firKernel K = Ok kernel /\ firHilbert K kernel data = Ok out /\
  convolution K (length data) (sample data) 2 = 0%R /\ exists y, nth 2 out None = Some y /\ (y < 0)%R.
Proof.
  set (data := [0; 0; 1; 0; 0; 0; 0; 0; 0]%R). destruct (C150_filter 4 data ltac:(lia) eq_refl) as [kernel [out [E [E2 [L [N _]]]]]].
  exists 4, data, kernel, out. split; [lia|]. split; [reflexivity|]. split; [exact E|]. split; [exact E2|].
  assert (C : forall j, convolution 4 (length data) (sample data) j = windowed 4 (j - 2)).
  { intros j. unfold convolution. change (length data) with 9%nat. cbn [sumn].
    repeat match goal with |- context [Z.of_nat ?k] => let v := eval cbv in (Z.of_nat k) in change (Z.of_nat k) with v end.
    change (sample data 0) with 0%R. change (sample data 1) with 0%R. change (sample data 2) with 1%R. change (sample data 3) with 0%R.
    change (sample data 4) with 0%R. change (sample data 5) with 0%R. change (sample data 6) with 0%R. change (sample data 7) with 0%R.
    change (sample data 8) with 0%R. lra. }
  split; [rewrite C; apply windowed_even; reflexivity|].
  specialize (N 2 ltac:(cbn; lia)). cbn [length data] in N. change (Z.to_nat 2) with 2%nat in N.
  replace (2 + (4 - 1) <? Z.of_nat 9) with true in N by reflexivity. replace ((2 <? 4 - 1) && Z.even 2) with true in N by reflexivity.
  fold data in N. change 9%nat with (length data) in N. rewrite C in N.
  exists (windowed 4 (2 - 1 - 2)). split; [exact N|]. change (2 - 1 - 2) with (- (1)). rewrite windowed_opp.
  unfold windowed, ideal. cbn. unfold blackman. pose proof PI_RGT_0.
  replace (PI * (1 / 3))%R with (PI / 3)%R by lra. replace (2 * PI * (1 / 3))%R with (2 * (PI / 3))%R by lra. rewrite cos_2a_cos, cos_PI3, Rmult_1_r.
  assert (0 < / PI)%R by (apply Rinv_0_lt_compat; assumption). unfold Rdiv. lra.
Qed.

(** The transform of a matrix agrees in every row with the transform of the row as a vector, except that the last sample of the row becomes 0
    and not the input. *)
Theorem C150_matrix : forall K rows columns, 1 < K -> Z.even K = true -> (0 < columns)%nat -> Forall (fun r => length r = columns) rows ->
  exists kernel outs, firKernel K = Ok kernel /\ firMatrix K kernel columns rows = Ok outs /\
  Forall2 (fun r o => exists v, firHilbert K kernel r = Ok v /\ length o = columns /\
      (forall j, (j < columns - 1)%nat -> nth j o None = nth j v None) /\ nth (columns - 1) o None = Some 0%R) rows outs.
Proof.
  intros K rows columns HK HE HC HR. destruct (firKernel_spec K ltac:(lia)) as [kernel [E [L N]]]. exists kernel.
  assert (G : forall trace, length trace = columns -> nth (columns - 1) trace None = Some 0%R ->
     exists outs, firRows K kernel rows trace = Ok outs /\
     Forall2 (fun r o => exists v, firHilbert K kernel r = Ok v /\ length o = columns /\
      (forall j, (j < columns - 1)%nat -> nth j o None = nth j v None) /\ nth (columns - 1) o None = Some 0%R) rows outs).
  { induction HR as [|r rows Hr HR IH]; intros trace LT TT.
    - exists []. split; [reflexivity|constructor].
    - assert (Q : Z.quot (K * 2 - 1) 2 = 0 + K - 1) by (rewrite Z.quot_div_nonneg by lia; symmetry; apply (Z.div_unique _ _ _ 1); lia).
      set (g := fun j => Some (convolution K (Z.to_nat (firCut K (Z.of_nat (length r)) j)) (sample r) (firPlace K j))).
      assert (S : forall j, 0 <= j < 0 + Z.of_nat (length r - 1) -> firSample K kernel r (j + K - 1) = Ok (g j))
        by (intros j Hj; apply firSample_spec; try assumption; lia).
      destruct (firOuter_spec K kernel r g (length r - 1) 0 trace HK ltac:(lia)) as [o [E1 [L1 N1]]]; [lia|exact S|].
      destruct (firOuter_spec K kernel r g (length r - 1) 0 (map Some r) HK ltac:(lia)) as [v [E2 [L2 N2]]]; [rewrite map_length; lia|exact S|].
      assert (O1 : nth (columns - 1) o None = Some 0%R).
      { rewrite <- (Nat2Z.id (columns - 1)), N1 by lia. replace ((0 <=? _) && _) with false by lia. rewrite Nat2Z.id. exact TT. }
      destruct (IH o ltac:(congruence) O1) as [outs [E3 F3]]. exists (o :: outs). split.
      + cbn [firRows]. rewrite Q, E1. cbn [bind]. rewrite E3. reflexivity.
      + constructor; [|exact F3]. exists v. split; [unfold firHilbert; rewrite Q; exact E2|]. split; [congruence|]. split; [|exact O1].
        intros j Hj. rewrite <- (Nat2Z.id j), N1, N2 by lia. replace ((0 <=? _) && _) with true by lia. reflexivity. }
  destruct (G (repeat (Some 0%R) columns)) as [outs [E1 F1]]; [apply repeat_length| |].
  - destruct (nth_in_or_default (columns - 1) (repeat (Some 0%R) columns) None) as [H|H]; [apply repeat_spec in H; exact H|].
    exfalso. assert (HH := nth_error_nth' (repeat (Some 0%R) columns) None (n := columns - 1)). rewrite repeat_length in HH.
    specialize (HH ltac:(lia)). rewrite H in HH. apply nth_error_In, repeat_spec in HH. discriminate.
  - exists outs. split; [exact E|]. split; [exact E1|exact F1].
Qed.

(** The hypotheses hold for the kernelSize 10 of the constructor (Hilbert.hpp 61). *)
Example C150_ex : exists kernel outs, firKernel 10 = Ok kernel /\ firMatrix 10 kernel 3 [[1; 2; 3]%R; [4; 5; 6]%R] = Ok outs /\ length outs = 2%nat.
Proof.
  destruct (C150_matrix 10 [[1; 2; 3]%R; [4; 5; 6]%R] 3 ltac:(lia) eq_refl ltac:(lia)) as [k [o [A [B C]]]]; [repeat constructor|].
  exists k, o. split; [exact A|]. split; [exact B|]. inversion C as [|? ? ? ? _ C2]; subst. inversion C2 as [|? ? ? ? _ C3]; subst. inversion C3. reflexivity.
Qed.

Print Assumptions C150_kernel.
Print Assumptions C150_filter.
Print Assumptions C150_harmonic.
Print Assumptions C150_odd_refuted.
Print Assumptions C150_left_end_refuted.
Print Assumptions C150_matrix.
