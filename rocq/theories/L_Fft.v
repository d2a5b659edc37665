(** Lemmas about the discrete Fourier transform. *)
From Coq Require Import Reals Lra Lia Ring.
From Verif Require Import Base M_Seis M_Common L_Common M_Fft.
Open Scope Z_scope.

(** ** Complex numbers *)
Definition Copp (a : C) : C := (- fst a, - snd a)%R.
Definition Csub (a b : C) : C := Cadd a (Copp b).
Lemma C_ring : ring_theory C0 C1 Cadd Cmul Csub Copp eq.
Proof.
  constructor; intros; unfold Csub, Copp, Cadd, Cmul, C0, C1; try reflexivity;
    repeat match goal with x : C |- _ => destruct x end; cbn; f_equal; ring.
Qed.
Add Ring C_ring_inst : C_ring.
Lemma Cscale_mul s a : Cscale s a = Cmul (Creal s) a.
Proof. unfold Cscale, Cmul, Creal. cbn. f_equal; ring. Qed.
Lemma C_integral a b : Cmul a b = C0 -> a <> C0 -> b = C0.
Proof.
  destruct a as [a1 a2], b as [b1 b2]. unfold Cmul, C0. cbn. intros [= H1 H2] N.
  assert (P : (0 < a1 * a1 + a2 * a2)%R).
  { destruct (Req_dec a1 0) as [->|N1].
    - destruct (Req_dec a2 0) as [->|N2]; [exfalso; apply N; reflexivity|]. pose proof (Rsqr_pos_lt a2 N2). unfold Rsqr in *. lra.
    - pose proof (Rsqr_pos_lt a1 N1). pose proof (Rle_0_sqr a2). unfold Rsqr in *. lra. }
  assert (E1 : ((a1 * a1 + a2 * a2) * b1 = 0)%R).
  { replace ((a1 * a1 + a2 * a2) * b1)%R with (a1 * (a1 * b1 - a2 * b2) + a2 * (a1 * b2 + a2 * b1))%R by ring. rewrite H1, H2. ring. }
  assert (E2 : ((a1 * a1 + a2 * a2) * b2 = 0)%R).
  { replace ((a1 * a1 + a2 * a2) * b2)%R with (a1 * (a1 * b2 + a2 * b1) - a2 * (a1 * b1 - a2 * b2))%R by ring. rewrite H1, H2. ring. }
  apply Rmult_integral in E1, E2. destruct E1 as [E1|E1]; [lra|]. destruct E2 as [E2|E2]; [lra|]. subst. reflexivity.
Qed.
Lemma cis_add a b : cis (a + b) = Cmul (cis a) (cis b).
Proof. unfold cis, Cmul. cbn. rewrite cos_plus, sin_plus. f_equal; ring. Qed.
Lemma cis_0 : cis 0 = C1.
Proof. unfold cis, C1. rewrite cos_0, sin_0. reflexivity. Qed.
Lemma cis_nat n : cis (2 * PI * INR n) = C1.
Proof.
  unfold cis, C1. replace (2 * PI * INR n)%R with (0 + 2 * INR n * PI)%R by ring. rewrite cos_period, sin_period, cos_0, sin_0. reflexivity.
Qed.
Lemma cis_opp a : cis (- a) = (cos a, - sin a)%R.
Proof. unfold cis. rewrite cos_neg, sin_neg. reflexivity. Qed.
Lemma cis_int z : cis (2 * PI * IZR z) = C1.
Proof.
  destruct (Z_le_dec 0 z) as [H|H].
  - rewrite <- (Z2Nat.id z) by lia. rewrite <- INR_IZR_INZ. apply cis_nat.
  - replace (2 * PI * IZR z)%R with (- (2 * PI * INR (Z.to_nat (- z))))%R.
    + rewrite cis_opp. pose proof (cis_nat (Z.to_nat (- z))) as E. unfold cis, C1 in E. injection E as E1 E2. rewrite E1, E2. unfold C1. f_equal. lra.
    + rewrite INR_IZR_INZ, Z2Nat.id by lia. rewrite opp_IZR. ring.
Qed.
Lemma cis_one_not a : (- (2 * PI) < a < 2 * PI)%R -> a <> 0%R -> cis a <> C1.
Proof.
  intros [H1 H2] N E. unfold cis, C1 in E. injection E as E _.
  assert (S0 : (sin (a / 2) * sin (a / 2) = 0)%R).
  { replace a with (2 * (a / 2))%R in E by field. rewrite cos_2a_sin in E. lra. }
  apply Rmult_integral in S0. assert (S1 : sin (a / 2) = 0%R) by tauto. clear S0.
  destruct (Rlt_dec 0 a) as [P|P].
  - pose proof (sin_gt_0 (a / 2)). lra.
  - pose proof (sin_gt_0 (- (a / 2))). rewrite sin_neg in H. lra.
Qed.

(** ** Sums *)
Lemma csum_ext n f g : (forall k, (k < n)%nat -> f k = g k) -> csum n f = csum n g.
Proof. induction n as [|n IH]; intros H; [reflexivity|]. cbn. rewrite IH by (intros; apply H; lia). rewrite H by lia. reflexivity. Qed.
Lemma csum_add n f g : csum n (fun k => Cadd (f k) (g k)) = Cadd (csum n f) (csum n g).
Proof. induction n as [|n IH]; cbn; [unfold C0; cbn; unfold Cadd; cbn; f_equal; ring|]. rewrite IH. ring. Qed.
Lemma csum_mul n a f : csum n (fun k => Cmul a (f k)) = Cmul a (csum n f).
Proof. induction n as [|n IH]; cbn; [ring|]. rewrite IH. ring. Qed.
Lemma csum_zero n : csum n (fun _ => C0) = C0.
Proof. induction n as [|n IH]; cbn; [reflexivity|]. rewrite IH. ring. Qed.
Lemma csum_swap n m f : csum n (fun i => csum m (fun j => f i j)) = csum m (fun j => csum n (fun i => f i j)).
Proof.
  induction n as [|n IH]; cbn; [symmetry; apply csum_zero|]. rewrite IH. rewrite <- csum_add. reflexivity.
Qed.
Lemma csum_single n i f : (i < n)%nat -> (forall k, (k < n)%nat -> k <> i -> f k = C0) -> csum n f = f i.
Proof.
  induction n as [|n IH]; intros Hi H; [lia|]. cbn. destruct (Nat.eq_dec i n) as [->|N].
  - rewrite (csum_ext n f (fun _ => C0)), csum_zero; [ring|]. intros k Hk. apply H; lia.
  - rewrite IH by (intros; try apply H; lia). rewrite (H n) by lia. ring.
Qed.
Lemma fst_csum n f : fst (csum n f) = fold_right Rplus 0%R (map (fun k => fst (f k)) (seq 0 n)).
Proof.
  induction n as [|n IH]; [reflexivity|]. rewrite seq_S, map_app, fold_right_app. cbn [csum Cadd fst map fold_right]. rewrite IH.
  cbn [Nat.add]. generalize (map (fun k => fst (f k)) (seq 0 n)). intros l. induction l as [|x l IHl]; cbn; [ring|]. rewrite <- IHl. ring.
Qed.

(** ** Roots of unity *)
Lemma geometric t n : Cmul (Csub (cis t) C1) (csum n (fun k => cis (INR k * t))) = Csub (cis (INR n * t)) C1.
Proof.
  induction n as [|n IH].
  - cbn [csum INR]. replace (0 * t)%R with 0%R by ring. rewrite cis_0. ring.
  - cbn [csum]. rewrite S_INR. replace ((INR n + 1) * t)%R with (INR n * t + t)%R by ring. rewrite cis_add.
    transitivity (Cadd (Cmul (Csub (cis t) C1) (csum n (fun k => cis (INR k * t)))) (Cmul (Csub (cis t) C1) (cis (INR n * t)))); [ring|].
    rewrite IH. ring.
Qed.
Lemma orthogonal L z : (0 < L)%nat -> - Z.of_nat L < z < Z.of_nat L -> z <> 0 ->
  csum L (fun k => cis (INR k * (2 * PI * IZR z / INR L))) = C0.
Proof.
  intros HL HZ N. set (t := (2 * PI * IZR z / INR L)%R).
  assert (PL : (0 < INR L)%R) by (apply lt_0_INR; exact HL). pose proof PI_RGT_0 as HPI.
  apply (C_integral (Csub (cis t) C1)).
  - rewrite geometric. replace (INR L * t)%R with (2 * PI * IZR z)%R by (unfold t; field; lra). rewrite cis_int. ring.
  - intros E. assert (cis t = C1).
    { transitivity (Cadd (Csub (cis t) C1) C1); [ring|]. rewrite E. ring. }
    revert H. apply cis_one_not.
    + assert (B1 : (IZR z / INR L < 1)%R).
      { apply (Rmult_lt_reg_r (INR L)); [exact PL|]. unfold Rdiv. rewrite Rmult_assoc, Rinv_l by lra. rewrite INR_IZR_INZ. rewrite Rmult_1_r, Rmult_1_l. apply IZR_lt. lia. }
      assert (B2 : (-1 < IZR z / INR L)%R).
      { apply (Rmult_lt_reg_r (INR L)); [exact PL|]. unfold Rdiv. rewrite Rmult_assoc, Rinv_l by lra. rewrite INR_IZR_INZ. rewrite Rmult_1_r. rewrite <- mult_IZR. apply IZR_lt. lia. }
      assert (TE : t = (2 * PI * (IZR z / INR L))%R) by (unfold t, Rdiv; ring). rewrite TE.
      set (q := (IZR z / INR L)%R) in *. split.
      * apply (Rmult_lt_compat_l (2 * PI)) in B2; lra.
      * apply (Rmult_lt_compat_l (2 * PI)) in B1; lra.
    + intros T0. unfold t in T0. assert (IZR z <> 0%R) by (apply not_0_IZR; exact N).
      apply H. apply (Rmult_eq_reg_l (2 * PI / INR L)); [|apply Rgt_not_eq, Rdiv_lt_0_compat; lra].
      replace (2 * PI / INR L * IZR z)%R with (2 * PI * IZR z / INR L)%R by (field; lra). rewrite T0. ring.
Qed.
Lemma orthogonal_0 L : csum L (fun k => cis (INR k * (2 * PI * IZR 0 / INR L))) = Creal (INR L).
Proof.
  rewrite (csum_ext L _ (fun _ => C1)).
  - induction L as [|L IH]; [reflexivity|]. cbn [csum]. rewrite IH, S_INR. unfold Cadd, C1, Creal. cbn. f_equal. ring.
  - intros k _. replace (INR k * (2 * PI * 0 / INR L))%R with 0%R by (unfold Rdiv; ring). apply cis_0.
Qed.

(** ** Lists *)
Lemma dft_length s x : length (dft s x) = length x.
Proof. unfold dft. rewrite map_length, seq_length. reflexivity. Qed.
Lemma map_seq_nth {A} (f : nat -> A) n k d : (k < n)%nat -> nth k (map f (seq 0 n)) d = f k.
Proof.
  intros H. rewrite (nth_indep _ d (f 0%nat)) by (rewrite map_length, seq_length; exact H).
  rewrite map_nth. rewrite seq_nth by exact H. reflexivity.
Qed.
Lemma dft_nth s x k : (k < length x)%nat ->
  nth k (dft s x) C0 = csum (length x) (fun j => Cmul (nth j x C0) (cis (s * (2 * PI * INR j * INR k / INR (length x))))).
Proof.
  intros H. unfold dft.
  apply (map_seq_nth (fun k => csum (length x) (fun j => Cmul (nth j x C0) (cis (s * (2 * PI * INR j * INR k / INR (length x))))))). exact H.
Qed.
Lemma resize_length n x : length (resize n x) = n.
Proof. unfold resize. rewrite app_length, firstn_length, repeat_length. lia. Qed.
Lemma resize_nth n x j : nth j (resize n x) C0 = if (j <? n)%nat then nth j x C0 else C0.
Proof.
  unfold resize. destruct (Nat.ltb_spec j n) as [H|H].
  - destruct (Nat.lt_ge_cases j (length (firstn n x))) as [L|L].
    + rewrite app_nth1 by exact L. rewrite firstn_length in L. rewrite <- (firstn_skipn n x) at 2. rewrite app_nth1 by (rewrite firstn_length; lia). reflexivity.
    + rewrite app_nth2 by exact L. rewrite firstn_length in *. rewrite (nth_overflow x) by lia. apply nth_repeat.
  - rewrite nth_overflow; [reflexivity|]. fold (resize n x). rewrite resize_length. exact H.
Qed.
Lemma map2_length' {A B D} (f : A -> B -> D) a b : length (map2 f a b) = Nat.min (length a) (length b).
Proof. unfold map2. rewrite map_length, combine_length. reflexivity. Qed.
Lemma map2_nth {A B D} (f : A -> B -> D) a b k da db dd : (k < length a)%nat -> (k < length b)%nat ->
  nth k (map2 f a b) dd = f (nth k a da) (nth k b db).
Proof.
  revert b k. induction a as [|x a IH]; intros [|y b] k; cbn [length]; try lia. destruct k as [|k]; [reflexivity|]. intros H1 H2.
  apply (IH b k); lia.
Qed.

(** ** Filtering in the frequency domain is a sum over the samples *)
Definition response (L : nat) (K : list C) (z : Z) : C :=
  Cmul (Creal (1 / INR L)) (csum L (fun k => Cmul (nth k K C0) (cis (INR k * (2 * PI * IZR z / INR L))))).
Definition processed (L : nat) (K x : list C) : list C := ifft (map (Cscale (1 / INR L)) (map2 Cmul (fft x) K)).
Lemma processed_length L K x : length x = L -> length K = L -> length (processed L K x) = L.
Proof. intros. unfold processed, ifft, fft. rewrite dft_length, map_length, map2_length', dft_length. lia. Qed.
Lemma processed_nth L K x j : (0 < L)%nat -> length x = L -> length K = L -> (j < L)%nat ->
  nth j (processed L K x) C0 = csum L (fun m => Cmul (nth m x C0) (response L K (Z.of_nat j - Z.of_nat m))).
Proof.
  intros HL HX HK HJ. unfold processed, ifft.
  assert (LM : length (map (Cscale (1 / INR L)) (map2 Cmul (fft x) K)) = L).
  { rewrite map_length, map2_length'. unfold fft. rewrite dft_length. lia. }
  rewrite dft_nth by lia. rewrite LM. assert (PL : (INR L <> 0)%R) by (apply not_0_INR; lia).
  transitivity (csum L (fun k => csum L (fun m => Cmul (nth m x C0)
     (Cmul (Creal (1 / INR L)) (Cmul (nth k K C0) (cis (INR k * (2 * PI * IZR (Z.of_nat j - Z.of_nat m) / INR L)))))))).
  - apply csum_ext. intros k Hk.
    rewrite (nth_indep _ C0 (Cscale (1 / INR L) C0)) by lia.
    rewrite (map_nth (Cscale (1 / INR L))).
    rewrite (map2_nth Cmul _ _ k C0 C0) by (unfold fft; rewrite ?dft_length; lia).
    unfold fft. rewrite dft_nth by lia. rewrite HX, Cscale_mul.
    transitivity (Cmul (Cmul (Cmul (Creal (1 / INR L)) (nth k K C0)) (cis (1 * (2 * PI * INR k * INR j / INR L))))
       (csum L (fun j0 => Cmul (nth j0 x C0) (cis (-1 * (2 * PI * INR j0 * INR k / INR L)))))); [ring|].
    rewrite <- csum_mul. apply csum_ext. intros m Hm.
    replace (INR k * (2 * PI * IZR (Z.of_nat j - Z.of_nat m) / INR L))%R
      with (1 * (2 * PI * INR k * INR j / INR L) + -1 * (2 * PI * INR m * INR k / INR L))%R.
    + rewrite cis_add. ring.
    + rewrite minus_IZR, <- !INR_IZR_INZ. field. exact PL.
  - rewrite csum_swap. apply csum_ext. intros m Hm. rewrite csum_mul. f_equal. unfold response. rewrite csum_mul. reflexivity.
Qed.
Lemma response_ones L z : (0 < L)%nat -> - Z.of_nat L < z < Z.of_nat L -> response L (repeat C1 L) z = if z =? 0 then C1 else C0.
Proof.
  intros HL HZ. unfold response. rewrite (csum_ext L _ (fun k => cis (INR k * (2 * PI * IZR z / INR L)))).
  2:{ intros k Hk. rewrite (nth_indep _ C0 C1) by (rewrite repeat_length; exact Hk). rewrite nth_repeat. ring. }
  destruct (Z.eqb_spec z 0) as [->|N].
  - rewrite orthogonal_0. unfold Cmul, Creal, C1. cbn. assert (INR L <> 0%R) by (apply not_0_INR; lia). f_equal; field; assumption.
  - rewrite orthogonal by assumption. ring.
Qed.
Lemma allpass L x : length x = L -> processed L (repeat C1 L) x = x.
Proof.
  intros HX. destruct (Nat.eq_dec L 0) as [->|HL].
  - destruct x; [reflexivity|discriminate].
  - apply (nth_ext _ _ C0 C0).
    + rewrite processed_length; [symmetry; exact HX|exact HX|apply repeat_length].
    + intros j Hj. rewrite processed_length in Hj by (exact HX || apply repeat_length).
      rewrite processed_nth; [|lia|exact HX|apply repeat_length|exact Hj].
      rewrite (csum_single L j); [|exact Hj|].
      * rewrite response_ones by lia. replace (Z.of_nat j - Z.of_nat j =? 0) with true by lia. ring.
      * intros m Hm N. rewrite response_ones by lia. replace (Z.of_nat j - Z.of_nat m =? 0) with false by lia. ring.
Qed.

(** ** Powers of two *)
Lemma ceilR_unique x e : (IZR e - 1 < x <= IZR e)%R -> ceilR x = e.
Proof.
  intros H. unfold ceilR. rewrite (int_part_unique (- x) (- e)); [lia|]. rewrite opp_IZR. lra.
Qed.
Lemma Rpower_2_Z e : 0 <= e -> Rpower 2 (IZR e) = IZR (2 ^ e).
Proof.
  intros H. rewrite <- (Z2Nat.id e) at 1 by exact H. rewrite <- INR_IZR_INZ, Rpower_pow by lra.
  rewrite <- (Z2Nat.id e) at 2 by exact H. rewrite <- pow_IZR. reflexivity.
Qed.
Lemma ln_pow2 e : 0 <= e -> ln (IZR (2 ^ e)) = (IZR e * ln 2)%R.
Proof. intros H. rewrite <- Rpower_2_Z by exact H. unfold Rpower. apply ln_exp. Qed.
Lemma nextPow_log2 nt : 1 <= nt -> calcNextPowTwo nt = 2 ^ Z.log2_up nt.
Proof.
  intros H. unfold calcNextPowTwo. destruct (Z.eqb_spec nt 0) as [E|_]; [lia|].
  assert (L2 : (0 < ln 2)%R) by (rewrite <- ln_1; apply ln_increasing; lra).
  assert (C : ceilR (ln (IZR nt) / ln 2) = Z.log2_up nt).
  { apply ceilR_unique. pose proof (Z.log2_up_nonneg nt) as P.
    destruct (Z.eq_dec nt 1) as [->|N].
    - rewrite ln_1. change (Z.log2_up 1) with 0. unfold Rdiv. rewrite Rmult_0_l. lra.
    - destruct (Z.log2_up_spec nt ltac:(lia)) as [A B]. assert (P1 : 0 < Z.log2_up nt) by (apply Z.log2_up_pos; lia).
      split.
      + apply (Rmult_lt_reg_r (ln 2)); [exact L2|]. unfold Rdiv. rewrite Rmult_assoc, Rinv_l, Rmult_1_r by lra.
        replace (IZR (Z.log2_up nt) - 1)%R with (IZR (Z.pred (Z.log2_up nt))) by (unfold Z.pred; rewrite plus_IZR; lra).
        rewrite <- ln_pow2 by lia. apply ln_increasing; [apply IZR_lt; apply Z.pow_pos_nonneg; lia|apply IZR_lt; exact A].
      + apply (Rmult_le_reg_r (ln 2)); [exact L2|]. unfold Rdiv. rewrite Rmult_assoc, Rinv_l, Rmult_1_r by lra.
        rewrite <- ln_pow2 by lia. destruct (Z.eq_dec nt (2 ^ Z.log2_up nt)) as [E|E]; [rewrite <- E; lra|].
        apply Rlt_le, ln_increasing; apply IZR_lt; lia. }
  rewrite C. rewrite Rpower_2_Z by apply Z.log2_up_nonneg. apply int_part_IZR.
Qed.
Lemma nextPow_pos nt : 1 <= nt -> 0 < calcNextPowTwo nt.
Proof. intros H. rewrite nextPow_log2 by exact H. apply Z.pow_pos_nonneg; [lia|apply Z.log2_up_nonneg]. Qed.

(** ** The filter *)
Lemma filter_len_init dt nt f : 1 <= nt -> filter_init dt nt = Ok f ->
  filter_len f = calcNextPowTwo (nt - 1) /\ zeroPadding f = calcNextPowTwo (nt - 1) - nt /\ coefs f = repeat C1 (Z.to_nat (calcNextPowTwo (nt - 1))).
Proof.
  intros H E. unfold filter_init in E. destruct (Req_EM_T dt 0) as [|ND]; [discriminate|]. destruct (Z.eqb_spec nt 0); [lia|].
  injection E as <-. unfold filter_len. cbn. replace (calcNextPowTwo (nt - 1) - nt + nt) with (calcNextPowTwo (nt - 1)) by lia.
  split; [|split; reflexivity]. destruct (Z.eqb_spec (calcNextPowTwo (nt - 1)) 0) as [->|N]; [reflexivity|].
  assert (P : 1 <= nt - 1 \/ nt = 1) by lia. destruct P as [P| ->].
  - pose proof (nextPow_pos (nt - 1) P) as Q. set (L := calcNextPowTwo (nt - 1)) in *.
    assert (NL : IZR L <> 0%R) by (apply not_0_IZR; exact N).
    replace (2 * (1 / (2 * dt)) / (1 / (IZR L * dt)))%R with (IZR L) by (field; auto).
    rewrite truncR_nonneg by (apply IZR_le; lia). apply int_part_IZR.
  - exfalso. apply N. reflexivity.
Qed.
Lemma filter_init_ok dt nt : dt <> 0%R -> 1 <= nt -> exists f, filter_init dt nt = Ok f.
Proof.
  intros HD HN. unfold filter_init. destruct (Req_EM_T dt 0) as [|_]; [contradiction|]. destruct (Z.eqb_spec nt 0); [lia|]. eauto.
Qed.
Lemma apply_processed f signal : Z.of_nat (length signal) + zeroPadding f = filter_len f -> 0 <= filter_len f ->
  filter_apply f signal = Ok (map fst (resize (length signal) (processed (Z.to_nat (filter_len f)) (coefs f) (resize (Z.to_nat (filter_len f)) (map Creal signal))))).
Proof.
  intros H P. unfold filter_apply. rewrite H, Z.eqb_refl. cbn [negb]. unfold processed. rewrite INR_IZR_INZ, Z2Nat.id by exact P. reflexivity.
Qed.
