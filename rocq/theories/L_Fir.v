From Coq Require Import Reals Lra.
From Verif Require Import Base M_Acq M_Fir S_Fir L_Acq2.
From Coq Require Import ZifyBool Lia.
Open Scope Z_scope.

(** * Sums *)
Lemma sumn_ext n f g : (forall k, 0 <= k < Z.of_nat n -> f k = g k) -> sumn n f = sumn n g.
Proof. induction n as [|n IH]; intros H; cbn [sumn]; [reflexivity|]. rewrite IH by (intros; apply H; lia). rewrite H by lia. reflexivity. Qed.
Lemma sumn_add n f g : (sumn n (fun k => f k + g k) = sumn n f + sumn n g)%R.
Proof. induction n as [|n IH]; cbn [sumn]; [lra|]. rewrite IH. lra. Qed.
Lemma sumn_scale n a f : (sumn n (fun k => a * f k) = a * sumn n f)%R.
Proof. induction n as [|n IH]; cbn [sumn]; [lra|]. rewrite IH. lra. Qed.
Lemma sumn_0 n f : (forall k, 0 <= k < Z.of_nat n -> f k = 0%R) -> sumn n f = 0%R.
Proof. induction n as [|n IH]; intros H; cbn [sumn]; [reflexivity|]. rewrite IH by (intros; apply H; lia). rewrite H by lia. lra. Qed.
Lemma sumn_first n f : (sumn (S n) f = f 0%Z + sumn n (fun k => f (k + 1)%Z))%R.
Proof. induction n as [|n IH]; [cbn; lra|]. change (sumn (S (S n)) f) with (sumn (S n) f + f (Z.of_nat (S n)))%R. rewrite IH.
  cbn [sumn]. replace (Z.of_nat (S n)) with (Z.of_nat n + 1) by lia. lra. Qed.
Lemma sumn_app a b f : (sumn (a + b) f = sumn a f + sumn b (fun k => f (Z.of_nat a + k)%Z))%R.
Proof. induction b as [|b IH]; [rewrite Nat.add_0_r; cbn; lra|]. rewrite Nat.add_succ_r. cbn [sumn]. rewrite IH.
  replace (Z.of_nat (a + b)) with (Z.of_nat a + Z.of_nat b) by lia. lra. Qed.
Lemma sumn_rev n f : sumn n f = sumn n (fun k => f (Z.of_nat n - 1 - k)).
Proof.
  induction n as [|n IH]; [reflexivity|]. rewrite (sumn_first n (fun k => f (Z.of_nat (S n) - 1 - k))). cbn [sumn]. rewrite IH.
  replace (Z.of_nat (S n) - 1 - 0) with (Z.of_nat n) by lia. rewrite Rplus_comm. f_equal. apply sumn_ext. intros k Hk. f_equal. lia.
Qed.
(** Sum over every second place from [i] on, below [stop]. *)
Lemma sumn_drop n c f : (c <= n)%nat -> (forall k, Z.of_nat c <= k < Z.of_nat n -> f k = 0%R) -> sumn n f = sumn c f.
Proof.
  intros Hc H. replace n with (c + (n - c))%nat by lia. rewrite sumn_app.
  rewrite (sumn_0 (n - c)); [lra|]. intros k Hk. apply H. lia.
Qed.

(** * The kernel *)
Lemma cos_int_PI m : cos (IZR m * PI) = if Z.odd m then (-1)%R else 1%R.
Proof.
  assert (E : forall p, cos (IZR (2 * p) * PI) = 1%R).
  { intros p. rewrite mult_IZR. replace (2 * IZR p * PI)%R with (0 + 2 * IZR p * PI)%R by lra.
    destruct (Z_le_gt_dec 0 p) as [H|H].
    - rewrite <- (Z2Nat.id p H), <- INR_IZR_INZ, cos_period. apply cos_0.
    - rewrite <- cos_neg. replace (- (0 + 2 * IZR p * PI))%R with (0 + 2 * IZR (- p) * PI)%R by (rewrite opp_IZR; lra).
      rewrite <- (Z2Nat.id (- p)) by lia. rewrite <- INR_IZR_INZ, cos_period. apply cos_0. }
  destruct (Z.odd m) eqn:O.
  - apply Z.odd_spec in O. destruct O as [p ->]. rewrite plus_IZR. replace ((IZR (2 * p) + 1) * PI)%R with (IZR (2 * p) * PI + PI)%R by lra.
    rewrite neg_cos, E. reflexivity.
  - assert (V : Z.even m = true) by (rewrite <- Z.negb_odd, O; reflexivity). apply Z.even_spec in V. destruct V as [p ->]. apply E.
Qed.
Lemma blackman_end m : (IZR m <> 0)%R -> blackman (IZR m / IZR m) = 0%R /\ blackman (- IZR m / IZR m) = 0%R.
Proof.
  intros H. unfold blackman. replace (IZR m / IZR m)%R with 1%R by (field; exact H). replace (- IZR m / IZR m)%R with (-1)%R by (field; exact H).
  replace (PI * -1)%R with (- PI)%R by lra. replace (2 * PI * -1)%R with (- (2 * PI))%R by lra. rewrite !cos_neg, !Rmult_1_r, cos_PI, cos_2PI. lra.
Qed.
Lemma windowed_end K : 1 < K -> windowed K (K - 1) = 0%R /\ windowed K (- (K - 1)) = 0%R.
Proof.
  intros H. assert (N : (IZR (K - 1) <> 0)%R) by (apply not_0_IZR; lia). destruct (blackman_end (K - 1) N) as [A B].
  unfold windowed. rewrite Z.abs_opp, Z.abs_eq by lia. replace (K - 1 <=? K - 1) with true by lia. rewrite opp_IZR, A, B. lra.
Qed.
Lemma windowed_opp K m : windowed K (- m) = (- windowed K m)%R.
Proof.
  unfold windowed, ideal. rewrite Z.abs_opp. destruct (_ <=? _); [|lra]. rewrite Z.odd_opp. destruct (Z.odd m) eqn:O; [|lra].
  rewrite opp_IZR. unfold blackman. rewrite Ropp_div.
  replace (PI * - (IZR m / IZR (K - 1)))%R with (- (PI * (IZR m / IZR (K - 1))))%R by lra.
  replace (2 * PI * - (IZR m / IZR (K - 1)))%R with (- (2 * PI * (IZR m / IZR (K - 1))))%R by lra. rewrite !cos_neg.
  assert (M : (IZR m <> 0)%R) by (apply not_0_IZR; intros ->; discriminate O).
  pose proof PI_RGT_0. field. lra.
Qed.
Lemma windowed_even K m : Z.odd m = false -> windowed K m = 0%R.
Proof. intros H. unfold windowed, ideal. rewrite H. destruct (_ <=? _); lra. Qed.
Lemma windowed_far K m : K - 1 < Z.abs m -> windowed K m = 0%R.
Proof. intros H. unfold windowed. replace (_ <=? _) with false by lia. reflexivity. Qed.

Lemma firTerm_val K n : 1 < K -> 0 <= n < K -> 1 - K + 2 * n <> 0 -> firTerm K n = Some (windowed K (1 - K + 2 * n)).
Proof.
  intros HK Hn Hm. unfold firTerm. replace (- K + 1 + 2 * n) with (1 - K + 2 * n) by lia. set (m := 1 - K + 2 * n) in *.
  replace (m =? 0) with false by lia. f_equal. unfold windowed. replace (Z.abs m <=? K - 1) with true by lia.
  rewrite cos_int_PI. assert (M : (IZR m <> 0)%R) by (apply not_0_IZR; exact Hm). pose proof PI_RGT_0 as P.
  assert (N : (IZR (K - 1) <> 0)%R) by (apply not_0_IZR; lia).
  assert (A : (2 * (PI * IZR n / IZR (K - 1)) = PI * (IZR m / IZR (K - 1)) + PI)%R).
  { assert (Q : (2 * IZR n = IZR m + IZR (K - 1))%R) by (rewrite <- mult_IZR, <- plus_IZR; f_equal; unfold m; lia).
    replace (2 * (PI * IZR n / IZR (K - 1)))%R with (PI * (2 * IZR n) / IZR (K - 1))%R by (field; exact N). rewrite Q. field. exact N. }
  replace (4 * (PI * IZR n / IZR (K - 1)))%R with (2 * PI * (IZR m / IZR (K - 1)) + 2 * PI)%R
    by (replace (4 * (PI * IZR n / IZR (K - 1)))%R with (2 * (2 * (PI * IZR n / IZR (K - 1))))%R by lra; rewrite A; lra).
  rewrite A. rewrite neg_cos. rewrite cos_plus, cos_2PI, sin_2PI. unfold ideal, blackman.
  destruct (Z.odd m).
  - replace ((- (-1 - 1) / (IZR m * PI)))%R with (2 / (PI * IZR m))%R by (field; lra). f_equal. lra.
  - replace (- (1 - 1) / (IZR m * PI))%R with 0%R by (field; lra). lra.
Qed.

Definition firFinal (K j : Z) : elem := eopp (firTerm K (K - 1 - j)).
Lemma firTerm_anti K n : 0 < K -> 0 <= n < K -> eopp (firTerm K (K - 1 - n)) = firTerm K n.
Proof.
  intros HK Hn. destruct (Z.eq_dec (1 - K + 2 * n) 0) as [E|E].
  - assert (E' : 1 - K + 2 * (K - 1 - n) = 0) by lia. unfold firTerm.
    replace (- K + 1 + 2 * (K - 1 - n) =? 0) with true by lia. replace (- K + 1 + 2 * n =? 0) with true by lia. reflexivity.
  - rewrite (firTerm_val K n), (firTerm_val K (K - 1 - n)) by lia.
    replace (1 - K + 2 * (K - 1 - n)) with (- (1 - K + 2 * n)) by lia. rewrite windowed_opp. cbn. f_equal. lra.
Qed.
(** After the turns 0 .. n-1 the places written hold the terms. *)
Lemma firFill_spec K turns : forall n kernel, 0 < K -> 0 <= n -> n + Z.of_nat turns = K -> length kernel = Z.to_nat K ->
  (forall j, 0 <= j < n -> nth (Z.to_nat j) kernel None = firTerm K j) ->
  exists kernel', firFill K turns n kernel = Ok kernel' /\ length kernel' = Z.to_nat K /\
    (forall j, 0 <= j < K -> nth (Z.to_nat j) kernel' None = firTerm K j).
Proof.
  induction turns as [|turns IH]; intros n kernel HK Hn HT HL HP.
  - exists kernel. cbn. repeat split; [exact HL|]. intros j Hj. apply HP. lia.
  - cbn [firFill]. destruct (vset_some kernel n (firTerm K n)) as [k1 E1]; [lia|]. rewrite E1. cbn [bind].
    assert (L1 := vset_length _ _ _ _ E1).
    destruct (vset_some k1 (K - n - 1) (eopp (firTerm K n))) as [k2 E2]; [lia|]. rewrite E2. cbn [bind].
    assert (L2 := vset_length _ _ _ _ E2).
    apply IH; [lia|lia|lia|lia|]. intros j Hj. rewrite (vset_get _ _ _ _ _ _ E2), (vset_get _ _ _ _ _ _ E1).
    destruct (Nat.eqb_spec (Z.to_nat j) (Z.to_nat (K - n - 1))) as [Q|Q].
    + assert (n = K - 1 - j) by lia. subst n. apply firTerm_anti; lia.
    + destruct (Nat.eqb_spec (Z.to_nat j) (Z.to_nat n)) as [Q'|Q']; [f_equal; lia|]. apply HP. lia.
Qed.
Lemma firKernel_spec K : 0 < K -> exists kernel, firKernel K = Ok kernel /\ length kernel = Z.to_nat K /\
    (forall j, 0 <= j < K -> nth (Z.to_nat j) kernel None = firTerm K j).
Proof.
  intros HK. unfold firKernel. apply firFill_spec; [lia|lia|lia|apply repeat_length|]. intros j Hj. lia.
Qed.

(** * The filter *)
Lemma vget_nth {A} (v : list A) i d : 0 <= i < Z.of_nat (length v) -> vget v i = Ok (nth (Z.to_nat i) v d).
Proof.
  intros H. unfold vget. replace (i <? 0) with false by lia. destruct (nth_error v (Z.to_nat i)) eqn:E.
  - f_equal. symmetry. apply nth_error_nth. exact E.
  - apply nth_error_None in E. lia.
Qed.
Lemma firInner_spec fuel : forall data kernel K n stop i h (w : Z -> R),
  length kernel = Z.to_nat K -> (forall p, 0 <= p < K -> nth (Z.to_nat p) kernel None = Some (w p)) ->
  0 <= i -> stop <= Z.of_nat (length data) -> stop <= n + 1 -> n - i < 2 * K -> stop - i <= Z.of_nat fuel ->
  firInner fuel data kernel n stop i (Some h) =
  Ok (Some (h + sumn (Z.to_nat (stop - i)) (fun t => if Z.even t then sample data (i + t) * w ((n - (i + t)) / 2)%Z else 0))%R).
Proof.
  induction fuel as [|fuel IH]; intros data kernel K n stop i h w HL HW Hi HD HN HK HF.
  - cbn [firInner]. replace (i <? stop) with false by lia. replace (stop - i) with (Z.min 0 (stop - i)) by lia.
    replace (Z.to_nat _) with 0%nat by lia. cbn. do 2 f_equal. lra.
  - cbn [firInner]. destruct (Z.ltb_spec i stop) as [C|C]; cbn [negb].
    2:{ replace (Z.to_nat _) with 0%nat by lia. cbn. do 2 f_equal. lra. }
    rewrite (vget_nth data i 0%R) by lia. cbn [bind].
    rewrite Z.quot_div_nonneg by lia. assert (P : 0 <= (n - i) / 2 < K) by (split; [apply Z.div_pos; lia|apply Z.div_lt_upper_bound; lia]).
    rewrite (vget_nth kernel _ None) by lia. cbn [bind]. rewrite HW by exact P. cbn [emul eadd].
    rewrite (IH data kernel K n stop (i + 2) _ w) by (assumption || lia).
    replace (Z.to_nat (stop - i)) with (S (Z.to_nat (stop - i - 1))) by lia. rewrite sumn_first. cbn [Z.even]. rewrite Z.add_0_r.
    do 2 f_equal. fold (sample data i). rewrite Rplus_assoc. do 2 f_equal. 
    destruct (Z.eq_dec (stop - i - 1) 0) as [Q|Q].
    + replace (Z.to_nat (stop - (i + 2))) with 0%nat by lia. replace (Z.to_nat (stop - i - 1)) with 0%nat by lia. reflexivity.
    + replace (Z.to_nat (stop - i - 1)) with (S (Z.to_nat (stop - (i + 2)))) by lia. rewrite sumn_first.
      replace (Z.even (0 + 1)) with false by reflexivity. rewrite Rplus_0_l. apply sumn_ext. intros k Hk.
      replace (k + 1 + 1) with (k + 2) by lia. rewrite Z.even_add. replace (Z.even 2) with true by reflexivity.
      replace (Bool.eqb (Z.even k) true) with (Z.even k) by (destruct (Z.even k); reflexivity).
      replace (i + (k + 2)) with (i + 2 + k) by lia. reflexivity.
Qed.

(** The position whose convolution is written to place [j]: one place off on the left edge at even places. *)
Definition firPlace (K j : Z) : Z := if (j <? K - 1) && Z.even j then j - 1 else j.
(** The number of samples that take part. *)
Definition firCut (K size j : Z) : Z := if j + K <=? size then size else size - 2.

Lemma firSample_spec K kernel data j : 1 < K -> Z.even K = true -> length kernel = Z.to_nat K ->
  (forall p, 0 <= p < K -> nth (Z.to_nat p) kernel None = firTerm K p) -> 0 <= j < Z.of_nat (length data) - 1 ->
  firSample K kernel data (j + K - 1) =
  Ok (Some (convolution K (Z.to_nat (firCut K (Z.of_nat (length data)) j)) (sample data) (firPlace K j))).
Proof.
  intros HK HE HL HW Hj. unfold firSample.
  assert (Q : Z.quot (K * 2 - 1) 2 = K - 1) by (rewrite Z.quot_div_nonneg by lia; symmetry; apply (Z.div_unique _ _ _ 1); lia).
  rewrite Q. replace (K - 1 =? K) with false by lia. rewrite !Z.add_0_r.
  replace (j + K - 1 - (K * 2 - 1 - 1)) with (j - (K - 1)) by lia.
  set (size := Z.of_nat (length data)) in *. set (n := j + K - 1). set (stop := Z.min n (size - 1) - 1). set (i0 := Z.max (j - (K - 1)) 0).
  assert (HW' : forall p, 0 <= p < K -> nth (Z.to_nat p) kernel None = Some (windowed K (1 - K + 2 * p))).
  { intros p Hp. rewrite HW by exact Hp. apply firTerm_val; [lia|exact Hp|]. apply Z.even_spec in HE. destruct HE as [q ->]. lia. }
  rewrite (firInner_spec _ data kernel K n stop i0 0 _ HL HW') by (unfold stop, i0, n, size in *; lia).
  rewrite Rplus_0_l. do 2 f_equal. unfold convolution. clear HW HW' HL.
  set (cut := firCut K size j). set (jj := firPlace K j).
  assert (T : forall t, 0 <= t -> i0 + t <= n -> (if Z.even t then sample data (i0 + t) * windowed K (1 - K + 2 * ((n - (i0 + t)) / 2)) else 0)%R =
      (sample data (i0 + t) * windowed K (jj - (i0 + t)))%R).
  { intros t Ht Ht2. unfold jj, firPlace. apply Z.even_spec in HE. destruct HE as [q Hq].
    destruct (Z.even t) eqn:Et.
    - apply Z.even_spec in Et. destruct Et as [s Hs]. do 2 f_equal. unfold i0, n in *.
      destruct (Z.ltb_spec j (K - 1)) as [C|C]; cbn [andb].
      + replace (Z.max (j - (K - 1)) 0) with 0 in * by lia. destruct (Z.even j) eqn:Ej.
        * apply Z.even_spec in Ej. destruct Ej as [r Hr]. subst j K t.
          replace ((2 * r + 2 * q - 1 - (0 + 2 * s)) / 2) with (r + q - 1 - s) by (apply (Z.div_unique _ _ _ 1); lia). lia.
        * assert (Oj : Z.odd j = true) by (rewrite <- Z.negb_even, Ej; reflexivity). apply Z.odd_spec in Oj. destruct Oj as [r Hr]. subst j K t.
          replace ((2 * r + 1 + 2 * q - 1 - (0 + 2 * s)) / 2) with (r + q - s) by (apply (Z.div_unique _ _ _ 0); lia). lia.
      + replace (Z.max (j - (K - 1)) 0) with (j - (K - 1)) in * by lia. subst K t.
        replace ((j + 2 * q - 1 - (j - (2 * q - 1) + 2 * s)) / 2) with (2 * q - 1 - s) by (apply (Z.div_unique _ _ _ 0); lia). lia.
    - assert (Ot : Z.odd t = true) by (rewrite <- Z.negb_even, Et; reflexivity).
      rewrite windowed_even; [lra|]. apply Z.odd_spec in Ot. destruct Ot as [s Hs]. unfold i0.
      destruct (Z.ltb_spec j (K - 1)) as [C|C]; cbn [andb].
      + replace (Z.max (j - (K - 1)) 0) with 0 in * by lia. destruct (Z.even j) eqn:Ej.
        * apply Z.even_spec in Ej. destruct Ej as [r Hr]. replace (j - 1 - (0 + t)) with (2 * (r - s - 1)) by lia.
          rewrite Z.odd_mul. reflexivity.
        * assert (Oj : Z.odd j = true) by (rewrite <- Z.negb_even, Ej; reflexivity). apply Z.odd_spec in Oj. destruct Oj as [r Hr].
          replace (j - (0 + t)) with (2 * (r - s)) by lia. rewrite Z.odd_mul. reflexivity.
      + replace (Z.max (j - (K - 1)) 0) with (j - (K - 1)) in * by lia. replace (j - (j - (K - 1) + t)) with (2 * (q - s - 1)) by lia.
        rewrite Z.odd_mul. reflexivity. }
  (* the full sum, split into before i0, taking part, after *)
  set (F := fun i => (sample data i * windowed K (jj - i))%R).
  rewrite (sumn_ext _ _ (fun t => F (i0 + t))).
  2:{ intros t Ht. apply T; unfold stop, i0, n in *; lia. }
  assert (Z0 : forall i, 0 <= i < i0 -> F i = 0%R).
  { intros i Hi. unfold F. rewrite windowed_far; [lra|]. unfold jj, firPlace, i0 in *. destruct (Z.ltb_spec j (K - 1)); cbn [andb]; lia. }
  assert (Z1 : forall i, stop <= i -> i0 <= i < cut -> F i = 0%R).
  { intros i Hi Hi2. unfold F. destruct (Z_lt_ge_dec (K - 1) (Z.abs (jj - i))) as [C|C]; [rewrite windowed_far by exact C; lra|].
    destruct (windowed_end K HK) as [_ B].
    assert (D : jj - i = - (K - 1) \/ Z.odd (jj - i) = false).
    { unfold cut, firCut, stop, jj, firPlace, n, i0 in *. apply Z.even_spec in HE. destruct HE as [q Hq].
      destruct (Z.leb_spec (j + K) size) as [S1|S1]; [|lia].
      destruct (Z.ltb_spec j (K - 1)) as [C1|C1]; cbn [andb] in *.
      - destruct (Z.even j) eqn:Ej; [left; lia|]. 
        destruct (Z.eq_dec i (j + K - 1)) as [Y|Y]; [left; lia|right]. replace (j - i) with (2 * (1 - q)) by lia. rewrite Z.odd_mul. reflexivity.
      - destruct (Z.eq_dec i (j + K - 1)) as [Y|Y]; [left; lia|right]. replace (j - i) with (2 * (1 - q)) by lia. rewrite Z.odd_mul. reflexivity. }
    destruct D as [-> | D]; [rewrite B; lra|rewrite windowed_even by exact D; lra]. }
  destruct (Z_lt_ge_dec stop i0) as [W|W].
  - replace (Z.to_nat (stop - i0)) with 0%nat by lia. cbn [sumn]. symmetry. apply sumn_0. intros i Hi.
    destruct (Z_lt_ge_dec i i0); [apply Z0; lia|]. apply Z1; lia.
  - assert (CS : stop <= cut) by (unfold stop, cut, firCut, n in *; destruct (Z.leb_spec (j + K) size); lia).
    rewrite (sumn_drop (Z.to_nat cut) (Z.to_nat stop)); [|lia|intros i Hi; apply Z1; lia].
    replace (Z.to_nat stop) with (Z.to_nat i0 + Z.to_nat (stop - i0))%nat by (unfold i0 in *; lia). rewrite sumn_app.
    rewrite (sumn_0 (Z.to_nat i0)); [|intros i Hi; apply Z0; lia]. rewrite Rplus_0_l. apply sumn_ext. intros t Ht. f_equal. unfold i0. lia.
Qed.

Lemma firOuter_spec K kernel data (g : Z -> elem) turns : forall a out, 1 < K -> 0 <= a ->
  a + Z.of_nat turns <= Z.of_nat (length out) ->
  (forall j, a <= j < a + Z.of_nat turns -> firSample K kernel data (j + K - 1) = Ok (g j)) ->
  exists out', firOuter turns K kernel data (a + K - 1) out = Ok out' /\ length out' = length out /\
    (forall j, 0 <= j -> nth (Z.to_nat j) out' None = if (a <=? j) && (j <? a + Z.of_nat turns) then g j else nth (Z.to_nat j) out None).
Proof.
  induction turns as [|turns IH]; intros a out HK Ha HT HS.
  - exists out. cbn. repeat split. intros j Hj. replace ((a <=? j) && (j <? a + 0)) with false by lia. reflexivity.
  - cbn [firOuter]. rewrite HS by lia. cbn [bind].
    assert (Q : Z.quot (K * 2 - 1) 2 = K - 1) by (rewrite Z.quot_div_nonneg by lia; symmetry; apply (Z.div_unique _ _ _ 1); lia).
    rewrite Q. replace (a + K - 1 - (K - 1)) with a by lia.
    destruct (vset_some out a (g a)) as [o1 E1]; [lia|]. rewrite E1. cbn [bind]. assert (L1 := vset_length _ _ _ _ E1).
    replace (a + K - 1 + 1) with (a + 1 + K - 1) by lia.
    destruct (IH (a + 1) o1 HK ltac:(lia) ltac:(lia)) as [o2 [E2 [L2 N2]]]; [intros j Hj; apply HS; lia|].
    exists o2. rewrite E2. repeat split; [congruence|]. intros j Hj. rewrite N2 by exact Hj. rewrite (vset_get _ _ _ _ _ _ E1).
    destruct (Nat.eqb_spec (Z.to_nat j) (Z.to_nat a)) as [Y|Y].
    + assert (j = a) by lia. subst j. replace ((a + 1 <=? a) && _) with false by lia.
      replace ((a <=? a) && _) with true by lia. reflexivity.
    + replace ((a <=? j) && (j <? a + Z.of_nat (S turns))) with ((a + 1 <=? j) && (j <? a + 1 + Z.of_nat turns)) by lia. reflexivity.
Qed.
