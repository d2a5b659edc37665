(** Filtering a harmonic trace. *)
From Coq Require Import Reals Lra Lia Ring.
From Verif Require Import Base M_Seis M_Common L_Common M_Fft L_Fft S_Fft P_Fft S_Butter M_Butter L_Butter L_Butter2 L_Butter3.
Open Scope Z_scope.
Local Notation length := List.length.

(** ** The transform of a complex wave *)
Definition wave (L m : nat) (phi : R) : list C := map (fun j => cis (2 * PI * INR m * INR j / INR L + phi)) (seq 0 L).
Lemma wave_length L m phi : length (wave L m phi) = L.
Proof. unfold wave. rewrite map_length, seq_length. reflexivity. Qed.
Lemma wave_nth L m phi j : (j < L)%nat -> nth j (wave L m phi) C0 = cis (2 * PI * INR m * INR j / INR L + phi).
Proof. intros H. unfold wave. apply (map_seq_nth (fun j => cis (2 * PI * INR m * INR j / INR L + phi))). exact H. Qed.
Lemma fft_wave L m phi k : (m < L)%nat -> (k < L)%nat ->
  nth k (fft (wave L m phi)) C0 = if (k =? m)%nat then Cmul (Creal (INR L)) (cis phi) else C0.
Proof.
  intros HM HK. unfold fft. rewrite dft_nth by (rewrite wave_length; exact HK). rewrite wave_length.
  assert (PL : (INR L <> 0)%R) by (apply not_0_INR; lia).
  rewrite (csum_ext L _ (fun j => Cmul (cis phi) (cis (INR j * (2 * PI * IZR (Z.of_nat m - Z.of_nat k) / INR L))))).
  - rewrite csum_mul. destruct (Nat.eqb_spec k m) as [->|N].
    + rewrite Z.sub_diag, orthogonal_0. ring.
    + rewrite orthogonal by lia. ring.
  - intros j Hj. rewrite wave_nth by exact Hj. rewrite <- !cis_add. f_equal. rewrite minus_IZR, <- !INR_IZR_INZ. field. exact PL.
Qed.
Lemma processed_wave L K m phi j : length K = L -> (m < L)%nat -> (j < L)%nat ->
  nth j (processed L K (wave L m phi)) C0 = Cmul (nth m K C0) (cis (2 * PI * INR m * INR j / INR L + phi)).
Proof.
  intros HK HM HJ. unfold processed, ifft. assert (PL : (INR L <> 0)%R) by (apply not_0_INR; lia).
  assert (LF : length (fft (wave L m phi)) = L) by (unfold fft; rewrite dft_length; apply wave_length).
  assert (LM : length (map (Cscale (1 / INR L)) (map2 Cmul (fft (wave L m phi)) K)) = L) by (rewrite map_length, map2_length'; lia).
  rewrite dft_nth by lia. rewrite LM.
  assert (V : forall k, (k < L)%nat -> nth k (map (Cscale (1 / INR L)) (map2 Cmul (fft (wave L m phi)) K)) C0 =
     if (k =? m)%nat then Cmul (nth m K C0) (cis phi) else C0).
  { intros k Hk. rewrite (nth_indep _ C0 (Cscale (1 / INR L) C0)) by lia. rewrite (map_nth (Cscale (1 / INR L))).
    rewrite (map2_nth Cmul _ _ k C0 C0) by lia. rewrite fft_wave by assumption. rewrite Cscale_mul. destruct (Nat.eqb_spec k m) as [->|N].
    - transitivity (Cmul (Cmul (Creal (1 / INR L)) (Creal (INR L))) (Cmul (nth m K C0) (cis phi))); [ring|].
      replace (Cmul (Creal (1 / INR L)) (Creal (INR L))) with C1; [ring|]. unfold Cmul, Creal, C1. cbn. f_equal; field; exact PL.
    - ring. }
  rewrite (csum_single L m); [|exact HM|].
  - rewrite V by exact HM. rewrite Nat.eqb_refl. transitivity (Cmul (nth m K C0) (Cmul (cis phi) (cis (1 * (2 * PI * INR m * INR j / INR L))))); [ring|].
    rewrite <- cis_add. do 2 f_equal. ring.
  - intros k Hk N. rewrite V by exact Hk. destruct (Nat.eqb_spec k m); [contradiction|]. ring.
Qed.
Lemma processed_lin L K a b x y : length K = L -> length x = L -> length y = L -> forall z, length z = L ->
  (forall i, (i < L)%nat -> nth i z C0 = Cadd (Cmul a (nth i x C0)) (Cmul b (nth i y C0))) ->
  forall j, (j < L)%nat -> nth j (processed L K z) C0 = Cadd (Cmul a (nth j (processed L K x) C0)) (Cmul b (nth j (processed L K y) C0)).
Proof.
  intros HK HX HY z HZ E j Hj. rewrite !processed_nth by (assumption || lia). rewrite <- !csum_mul, <- csum_add.
  apply csum_ext. intros i Hi. rewrite E by exact Hi. ring.
Qed.

(** ** A real harmonic *)
Lemma cis_conj t : cis (- t) = conj (cis t).
Proof. rewrite cis_opp. reflexivity. Qed.
Lemma wave_mirror L m phi j : (m < L)%nat -> (j < L)%nat -> nth j (wave L (L - m) (- phi)) C0 = conj (cis (2 * PI * INR m * INR j / INR L + phi)).
Proof.
  intros HM HJ. rewrite wave_nth by exact HJ. assert (PL : (INR L <> 0)%R) by (apply not_0_INR; lia).
  rewrite minus_INR by lia. replace (2 * PI * (INR L - INR m) * INR j / INR L + - phi)%R with (2 * PI * INR j + - (2 * PI * INR m * INR j / INR L + phi))%R by (field; exact PL).
  rewrite cis_add, cis_nat, <- cis_conj. ring.
Qed.
Lemma harmonic_length L m A phi : length (harmonic L m A phi) = L.
Proof. unfold harmonic. rewrite map_length, seq_length. reflexivity. Qed.
Lemma harmonic_nth L m A phi j d : (j < L)%nat -> nth j (harmonic L m A phi) d = (A * cos (2 * PI * INR m * INR j / INR L + phi))%R.
Proof. intros H. unfold harmonic. apply (map_seq_nth (fun j => A * cos (2 * PI * INR m * INR j / INR L + phi))%R). exact H. Qed.
Lemma harmonic_split L m A phi j : (0 < m < L)%nat -> (j < L)%nat ->
  nth j (map Creal (harmonic L m A phi)) C0 =
  Cadd (Cmul (Creal (A / 2)) (nth j (wave L m phi) C0)) (Cmul (Creal (A / 2)) (nth j (wave L (L - m) (- phi)) C0)).
Proof.
  intros HM HJ. change C0 with (Creal 0) at 1. rewrite map_nth, harmonic_nth by exact HJ. rewrite wave_nth by exact HJ. rewrite wave_mirror by lia.
  unfold Creal, Cadd, Cmul, conj, cis. cbn. f_equal; field.
Qed.
Lemma processed_harmonic L K m A phi j : length K = L -> (0 < m < L)%nat -> nth (L - m) K C0 = conj (nth m K C0) -> (j < L)%nat ->
  nth j (processed L K (map Creal (harmonic L m A phi))) C0 = Creal (A * fst (Cmul (nth m K C0) (cis (2 * PI * INR m * INR j / INR L + phi)))).
Proof.
  intros HK HM HC HJ. rewrite (processed_lin L K (Creal (A / 2)) (Creal (A / 2)) (wave L m phi) (wave L (L - m) (- phi))).
  - rewrite !processed_wave by (assumption || lia). rewrite HC.
    pose proof (wave_mirror L m phi j ltac:(lia) HJ) as E. rewrite wave_nth in E by exact HJ. rewrite E.
    destruct (nth m K C0) as [a b]. unfold conj, Cadd, Cmul, Creal, cis. cbn. f_equal; field.
  - exact HK.
  - apply wave_length.
  - apply wave_length.
  - rewrite map_length. apply harmonic_length.
  - intros i Hi. apply harmonic_split; [lia|exact Hi].
  - exact HJ.
Qed.
Lemma processed_constant L K A j : length K = L -> (0 < L)%nat -> (j < L)%nat ->
  nth j (processed L K (map Creal (repeat A L))) C0 = Cmul (Creal A) (nth 0 K C0).
Proof.
  intros HK HL HJ. rewrite (processed_lin L K (Creal A) C0 (wave L 0 0) (wave L 0 0)).
  - rewrite !processed_wave by (assumption || lia). replace (2 * PI * INR 0 * INR j / INR L + 0)%R with 0%R by (cbn; unfold Rdiv; ring). rewrite cis_0. ring.
  - exact HK.
  - apply wave_length.
  - apply wave_length.
  - rewrite map_length. apply repeat_length.
  - intros i Hi. change C0 with (Creal 0) at 1. rewrite map_nth. rewrite (nth_indep _ 0%R A) by (rewrite repeat_length; exact Hi). rewrite nth_repeat.
    rewrite wave_nth by exact Hi. replace (2 * PI * INR 0 * INR i / INR L + 0)%R with 0%R by (cbn; unfold Rdiv; ring). rewrite cis_0. ring.
  - exact HJ.
Qed.

(** ** Polar form *)
Lemma polar z : exists theta, z = Cscale (sqrt (modulus2 z)) (cis theta).
Proof.
  destruct z as [a b]. set (r := sqrt (modulus2 (a, b))). pose proof (modulus2_nonneg (a, b)) as N.
  destruct (Req_dec (modulus2 (a, b)) 0) as [Z|NZ].
  - exists 0%R. assert (R0 : r = 0%R) by (unfold r; rewrite Z; apply sqrt_0). rewrite R0. unfold modulus2 in Z. cbn in Z.
    assert (A0 : a = 0%R /\ b = 0%R).
    { pose proof (Rle_0_sqr a). pose proof (Rle_0_sqr b). unfold Rsqr in *. split; apply Rsqr_0_uniq; unfold Rsqr; lra. }
    destruct A0 as [-> ->]. unfold Cscale. cbn. f_equal; ring.
  - assert (RP : (0 < r)%R) by (apply sqrt_lt_R0; lra). assert (RR : (r * r = a * a + b * b)%R) by (apply sqrt_sqrt; exact N).
    set (u := (a / r)%R). set (v := (b / r)%R).
    assert (UV : (u * u + v * v = 1)%R).
    { unfold u, v. replace (a / r * (a / r) + b / r * (b / r))%R with ((a * a + b * b) / (r * r))%R by (field; lra). rewrite <- RR. field. lra. }
    assert (UB : (-1 <= u <= 1)%R).
    { pose proof (Rle_0_sqr v). unfold Rsqr in *. split; [destruct (Rlt_dec u (-1)); [|lra]|destruct (Rlt_dec 1 u); [|lra]]; exfalso.
      - assert (1 < u * u)%R; [|lra]. replace (u * u)%R with (- u * - u)%R by ring. rewrite <- (Rmult_1_l 1). apply Rmult_le_0_lt_compat; lra.
      - assert (1 < u * u)%R; [|lra]. rewrite <- (Rmult_1_l 1). apply Rmult_le_0_lt_compat; lra. }
    assert (EA : a = (r * u)%R) by (unfold u; field; lra). assert (EB : b = (r * v)%R) by (unfold v; field; lra).
    destruct (Rle_dec 0 v) as [VP|VN].
    + exists (acos u). unfold Cscale, cis. cbn [fst snd]. rewrite cos_acos, sin_acos by exact UB.
      replace (1 - u²)%R with (v * v)%R by (unfold Rsqr; lra). rewrite sqrt_square by exact VP. congruence.
    + exists (- acos u)%R. unfold Cscale, cis. cbn [fst snd]. rewrite cos_neg, sin_neg, cos_acos, sin_acos by exact UB.
      replace (1 - u²)%R with (- v * - v)%R by (unfold Rsqr; lra). rewrite sqrt_square by lra. rewrite EA, EB. f_equal. ring.
Qed.
(** ** Real coefficients *)
Lemma horner_conj p s : horner (map Creal p) (conj s) = conj (horner (map Creal p) s).
Proof.
  induction p as [|c p IH]; cbn [map horner]; [unfold conj, C0; cbn; f_equal; ring|]. rewrite IH, conj_add, conj_mul. f_equal.
  unfold conj, Creal. cbn. f_equal. ring.
Qed.
Lemma butterworth_conj n s : (2 <= n)%nat -> butterworth n (conj s) = conj (butterworth n s).
Proof.
  intros H. destruct (calcButterPoly_ok n H) as (p & _ & _ & V). rewrite <- !V, !pval_horner. apply horner_conj.
Qed.
Lemma lp_value_opp n fc f : (2 <= n)%nat -> lp_value n fc (- f) = conj (lp_value n fc f).
Proof.
  intros H. unfold lp_value. rewrite <- Cinv_conj, <- butterworth_conj by exact H. do 2 f_equal. unfold conj. cbn. f_equal. unfold Rdiv. ring.
Qed.
Lemma hp_value_opp n fc f : (2 <= n)%nat -> hp_value n fc (- f) = conj (hp_value n fc f).
Proof.
  intros H. unfold hp_value. destruct (Req_EM_T (- f) 0) as [E|E], (Req_EM_T f 0) as [E'|E']; try lra.
  - unfold conj, C0. cbn. f_equal. ring.
  - rewrite <- Cinv_conj, <- butterworth_conj by exact H. do 2 f_equal. unfold conj. cbn. f_equal. field. exact E'.
Qed.
