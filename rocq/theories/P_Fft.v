(** Filter, envelope and instantaneous phase: C51 and the precise versions C82-C84. *)
From Coq Require Import Reals Lra Lia.
From Verif Require Import Base M_Seis M_Common M_Fft S_Fft L_Common L_Fft L_Hilbert.
Open Scope Z_scope.

Lemma nextPow_smallest n : 1 <= n -> smallest_power_of_two n (calcNextPowTwo n).
Proof.
  intros H. rewrite nextPow_log2 by exact H. split; [exists (Z.log2_up n); split; [apply Z.log2_up_nonneg|reflexivity]|]. split.
  - destruct (Z.eq_dec n 1) as [->|N]; [cbn; lia|]. apply Z.log2_up_spec. lia.
  - intros M (e & He & ->) L. apply Z.pow_le_mono_r; [lia|]. apply Z.log2_up_le_pow2; lia.
Qed.

(** ** C82: the padded length is the smallest power of two not below the number of samples less one; the filter that
    lets everything pass returns the signal, except that it erases the last sample when that length is too short. *)
Theorem C82_length : forall dt nt f, 1 <= nt -> filter_init dt nt = Ok f ->
  length (coefs f) = Z.to_nat (filter_len f) /\ zeroPadding f + nt = filter_len f /\
  (nt = 1 -> filter_len f = 0) /\ (2 <= nt -> smallest_power_of_two (nt - 1) (filter_len f)) /\
  (filter_len f < nt <-> nt = 1 \/ power_of_two (nt - 1)).
Proof.
  intros dt nt f H E. destruct (filter_len_init dt nt f H E) as (L & Z & C). rewrite C, Z, L, repeat_length.
  split; [reflexivity|]. split; [lia|]. split; [intros ->; reflexivity|]. split; [intros G; apply nextPow_smallest; lia|].
  destruct (Z.eq_dec nt 1) as [->|N]; [cbn; unfold calcNextPowTwo; cbn; split; [left; reflexivity|lia]|].
  destruct (nextPow_smallest (nt - 1) ltac:(lia)) as (P & A & B). split.
  - intros Q. right. replace (nt - 1) with (calcNextPowTwo (nt - 1)) by lia. exact P.
  - intros [Q|Q]; [contradiction|]. specialize (B (nt - 1) Q ltac:(lia)). lia.
Qed.
Theorem C82_allpass : forall dt nt signal, dt <> 0%R -> 1 <= nt -> Z.of_nat (length signal) = nt ->
  exists f, filter_init dt nt = Ok f /\
    (~ (nt = 1 \/ power_of_two (nt - 1)) -> filter_apply f signal = Ok signal) /\
    (nt = 1 \/ power_of_two (nt - 1) -> filter_apply f signal = Ok (removelast signal ++ [0%R])).
Proof.
  intros dt nt signal HD HN HS. destruct (filter_init_ok dt nt HD HN) as (f & E). exists f. split; [exact E|].
  destruct (C82_length dt nt f HN E) as (_ & Z & _ & _ & S). destruct (filter_len_init dt nt f HN E) as (L & _ & C).
  assert (P : 0 <= filter_len f).
  { rewrite L. destruct (Z.eq_dec nt 1) as [->|N]; [cbn; unfold calcNextPowTwo; cbn; lia|]. pose proof (nextPow_pos (nt - 1)). lia. }
  rewrite apply_processed by lia. rewrite C, <- L. rewrite allpass by apply resize_length. split; intros Q.
  - f_equal. apply (nth_ext _ _ 0%R 0%R); [rewrite map_length; apply resize_length|]. intros j Hj. rewrite map_length, resize_length in Hj.
    change 0%R with (fst C0) at 1. rewrite map_nth. rewrite !resize_nth.
    assert (nt <= filter_len f) by (destruct (Z_lt_dec (filter_len f) nt); [tauto|lia]).
    replace (j <? length signal)%nat with true by (symmetry; apply Nat.ltb_lt; exact Hj).
    replace (j <? Z.to_nat (filter_len f))%nat with true by (symmetry; apply Nat.ltb_lt; lia). rewrite nth_Creal. reflexivity.
  - assert (G : filter_len f = nt - 1).
    { destruct Q as [->|Q]; [rewrite L; reflexivity|]. assert (1 <= nt - 1) by (destruct Q as (e & He & ->); pose proof (Z.pow_pos_nonneg 2 e); lia).
      rewrite L. destruct (nextPow_smallest (nt - 1) ltac:(lia)) as (_ & A & B). specialize (B (nt - 1) Q ltac:(lia)). lia. }
    f_equal. assert (NE : signal <> []) by (destruct signal; [cbn in HS; lia|discriminate]).
    rewrite (app_removelast_last 0%R NE) in HS |- *. set (h := removelast signal) in *. set (l := last signal 0%R).
    rewrite app_length in *. cbn [length] in *. rewrite G.
    apply (nth_ext _ _ 0%R 0%R); [rewrite map_length, resize_length, app_length; rewrite removelast_last; reflexivity|].
    intros j Hj. rewrite map_length, resize_length in Hj. change 0%R with (fst C0) at 1. rewrite map_nth. rewrite !resize_nth.
    replace (j <? length h + 1)%nat with true by (symmetry; apply Nat.ltb_lt; exact Hj).
    rewrite removelast_last. rewrite nth_Creal. destruct (Nat.ltb_spec j (Z.to_nat (nt - 1))) as [J|J].
    + cbn [Creal fst]. rewrite !app_nth1 by lia. reflexivity.
    + replace j with (length h) by lia. rewrite nth_middle. reflexivity.
Qed.
Print Assumptions C82_length.
Print Assumptions C82_allpass.
Example C82_example : ~ (4 = 1 \/ power_of_two (4 - 1)) /\ power_of_two (5 - 1).
Proof.
  split; [|exists 2; split; [lia|reflexivity]]. intros [?|(e & He & E)]; [lia|].
  assert (e = 0 \/ e = 1 \/ 2 <= e) as [-> |[-> |H]] by lia; [cbn in E; lia|cbn in E; lia|].
  pose proof (Z.pow_le_mono_r 2 2 e ltac:(lia) H). lia.
Qed.

(** ** C51: refuted, since a signal of three samples is padded to two. *)
Theorem C51_refuted : exists dt nt f signal out, 1 <= nt /\ Z.of_nat (length signal) = nt /\ filter_init dt nt = Ok f /\
  filter_len f < nt /\ filter_apply f signal = Ok out /\ out <> signal.
Proof.
  destruct (C82_allpass 1 3 [1; 2; 3]%R ltac:(lra) ltac:(lia) eq_refl) as (f & E & _ & A).
  exists 1%R, 3, f, [1; 2; 3]%R, [1; 2; 0]%R. split; [lia|]. split; [reflexivity|]. split; [exact E|].
  assert (P : 3 = 1 \/ power_of_two (3 - 1)) by (right; exists 1; split; [lia|reflexivity]).
  split; [apply (C82_length 1 3 f ltac:(lia) E); exact P|]. split; [exact (A P)|]. intros [= Q]. lra.
Qed.
Print Assumptions C51_refuted.

(** ** C83: the Hilbert transform and the envelope. *)
(** The real part of the analytic signal is the signal, when the kernel is not shorter than it. *)
Theorem C83_analytic : forall L K data, Z.of_nat (length data) <= L -> 0 < L -> hilbert_kernel L = Ok K ->
  map fst (analytic L K data) = data /\ map snd (analytic L K data) = hilbert L K data.
Proof. intros L K data HD HL HK. split; [apply analytic_real; assumption|reflexivity]. Qed.
(** The Hilbert transform of a cosine is the sine of the same frequency. *)
Theorem C83_cosine : forall L m K, (0 < m)%nat -> (2 * m < L)%nat -> hilbert_kernel (Z.of_nat L) = Ok K ->
  hilbert (Z.of_nat L) K (cosine L m) = sine L m.
Proof.
  intros L m K Hm HL HK. unfold hilbert, cosine. rewrite (analytic_cosine L K m Hm HL HK). rewrite map_map. reflexivity.
Qed.
(** The envelope is never below the magnitude of the data. *)
Theorem C83_envelope : forall data, (2 <= length data)%nat ->
  exists env, calcEnvelope data = Ok env /\ length env = length data /\
    forall i x e, nth_error data i = Some x -> nth_error env i = Some e -> (Rabs x <= e)%R.
Proof.
  intros data HD. unfold calcEnvelope. set (L := calcNextPowTwo _). assert (HL : 0 < L) by (apply nextPow_pos; lia).
  destruct (kernel_spec L HL) as (K & EK & LK & _). rewrite EK. cbn [bind]. eexists. split; [reflexivity|].
  assert (LH : length (hilbert L K data) = length data) by (unfold hilbert; rewrite map_length; apply analytic_length).
  split; [rewrite map2_length', LH; lia|]. intros i x e Hx He.
  assert (Hi : (i < length data)%nat) by (apply nth_error_Some; congruence).
  assert (Hx' : nth i data 0%R = x) by (apply (nth_error_nth _ _ _ Hx)).
  apply (nth_error_nth _ _ 0%R) in He. rewrite (map2_nth _ _ _ i 0%R 0%R) in He by (rewrite ?LH; lia). rewrite Hx' in He. subst e.
  rewrite <- sqrt_Rsqr_abs. apply sqrt_le_1_alt. unfold Rsqr. pose proof (Rle_0_sqr (nth i (hilbert L K data) 0%R)). unfold Rsqr in *. lra.
Qed.
(** The envelope of a cosine filling a power of two of samples is one. *)
Theorem C83_cosine_envelope : forall L m, (0 < m)%nat -> (2 * m < L)%nat -> power_of_two (Z.of_nat L) ->
  calcEnvelope (cosine L m) = Ok (repeat 1%R L).
Proof.
  intros L m Hm HL P. unfold calcEnvelope.
  assert (LC : length (cosine L m) = L) by (unfold cosine; rewrite map_length, seq_length; reflexivity). rewrite LC.
  assert (E : calcNextPowTwo (Z.of_nat L - 1) = Z.of_nat L).
  { destruct (nextPow_smallest (Z.of_nat L - 1) ltac:(lia)) as ((e & He & Q) & A & B). specialize (B (Z.of_nat L) P ltac:(lia)).
    destruct (Z.eq_dec (calcNextPowTwo (Z.of_nat L - 1)) (Z.of_nat L - 1)) as [F|F]; [|lia]. exfalso.
    (* two consecutive powers of two, both at least 2 *)
    destruct P as (e' & He' & P). rewrite F in Q. rewrite P in Q.
    assert (e <> 0) by (intros ->; cbn in Q; lia). assert (e' <> 0) by (intros ->; cbn in P; lia).
    replace e with (1 + (e - 1)) in Q by lia. replace e' with (1 + (e' - 1)) in Q by lia. rewrite !Z.pow_add_r in Q by lia. lia. }
  rewrite E. destruct (kernel_spec (Z.of_nat L) ltac:(lia)) as (K & EK & _ & _). rewrite EK. cbn [bind]. f_equal.
  rewrite (C83_cosine L m K Hm HL EK).
  assert (LS : length (sine L m) = L) by (unfold sine; rewrite map_length, seq_length; reflexivity).
  apply (nth_ext _ _ 0%R 1%R); [rewrite map2_length', LC, LS, repeat_length; lia|]. intros j Hj. rewrite map2_length', LC, LS in Hj.
  rewrite nth_repeat. rewrite (map2_nth _ _ _ j 0%R 0%R) by lia. unfold cosine, sine.
  rewrite (map_seq_nth (fun j => cos (2 * PI * INR m * INR j / INR L))) by lia.
  rewrite (map_seq_nth (fun j => sin (2 * PI * INR m * INR j / INR L))) by lia.
  set (t := (2 * PI * INR m * INR j / INR L)%R). pose proof (sin2_cos2 t) as S. unfold Rsqr in S.
  replace (cos t * cos t + sin t * sin t)%R with 1%R by lra. apply sqrt_1.
Qed.
(** A single sample has no envelope: the kernel has length zero and its first entry is written. *)
Theorem C83_single_sample : forall x, calcEnvelope [x] = UB.
Proof. intros x. unfold calcEnvelope. cbn [length]. change (Z.of_nat 1 - 1) with 0. unfold calcNextPowTwo. cbn. reflexivity. Qed.
Print Assumptions C83_analytic.
Print Assumptions C83_cosine.
Print Assumptions C83_envelope.
Print Assumptions C83_cosine_envelope.
Print Assumptions C83_single_sample.
Example C83_example : (0 < 1)%nat /\ (2 * 1 < 4)%nat /\ power_of_two (Z.of_nat 4) /\ exists K, hilbert_kernel (Z.of_nat 4) = Ok K.
Proof. repeat split; try lia; [exists 2; split; [lia|reflexivity]|]. eexists. reflexivity. Qed.

(** ** C84: the instantaneous phase only tells the sign of a sample, because the Hilbert transform is not applied. *)
Theorem C84_phase : forall data,
  Forall2 (fun x p => ((0 < x)%R -> p = (- (PI / 4))%R) /\ ((x < 0)%R -> p = (3 * PI / 4)%R) /\ (x = 0%R -> p = 0%R))
    data (instantaneousPhase 2 data).
Proof.
  intros data. unfold instantaneousPhase. cbn [Z.eqb Pos.eqb]. induction data as [|x data IH]; [constructor|].
  unfold map2 in *. cbn [map combine fst snd]. constructor; [|exact IH].
  assert (A : (x <> 0 -> atan (- x / x) = - (PI / 4))%R).
  { intros N. replace (- x / x)%R with (- (1))%R by (field; exact N). rewrite atan_opp, atan_1. reflexivity. }
  unfold atan2. split; [|split].
  - intros H. destruct (Rlt_dec 0 x); [|lra]. apply A. lra.
  - intros H. destruct (Rlt_dec 0 x); [lra|]. destruct (Rlt_dec x 0); [|lra]. destruct (Rle_dec 0 (- x)); [|lra]. rewrite A by lra. field.
  - intros ->. destruct (Rlt_dec 0 0); [lra|]. rewrite Ropp_0. destruct (Rlt_dec 0 0); [lra|]. reflexivity.
Qed.
(** So it is not the argument of the analytic signal: that of a cosine grows with time. *)
Theorem C84_not_the_argument : exists L m data, (0 < m)%nat /\ (2 * m < L)%nat /\ data = cosine L m /\
  ~ Forall2 (fun x p => exists j, (x = cos (2 * PI * INR m * INR j / INR L) /\ p = 2 * PI * INR m * INR j / INR L)%R)
      data (instantaneousPhase 2 data).
Proof.
  exists 4%nat, 1%nat, (cosine 4 1). split; [lia|]. split; [lia|]. split; [reflexivity|]. intros H.
  pose proof (C84_phase (cosine 4 1)) as P. unfold cosine in *. cbn [seq map] in *.
  set (d := instantaneousPhase 2 _) in *. clearbody d. inversion H as [|? p ? ? (j & _ & E) _]; subst. inversion P as [|? ? ? ? (A & _) _]; subst.
  clear H P. cbn [INR] in A. replace (2 * PI * 1 * 0 / (1 + 1 + 1 + 1))%R with 0%R in A by field. rewrite cos_0 in A.
  specialize (A ltac:(lra)). pose proof PI_RGT_0. pose proof (pos_INR j). cbn [INR] in *.
  assert (0 <= 2 * PI * 1 * INR j / (1 + 1 + 1 + 1))%R.
  { apply Rmult_le_pos; [|lra]. apply Rmult_le_pos; lra. }
  lra.
Qed.
Print Assumptions C84_phase.
Print Assumptions C84_not_the_argument.
