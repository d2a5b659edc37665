(** The Butterworth polynomial: magnitude, zeros, and the coefficients computed by the code. *)
From Coq Require Import Reals Lra Lia Ring.
From Verif Require Import Base M_Seis M_Common L_Common M_Fft L_Fft S_Butter M_Butter L_Butter.
Open Scope Z_scope.
Local Notation length := List.length.

(** ** Conjugates and magnitudes *)
Lemma conj_mul a b : conj (Cmul a b) = Cmul (conj a) (conj b).
Proof. destruct a, b. unfold conj, Cmul. cbn. f_equal; ring. Qed.
Lemma conj_add a b : conj (Cadd a b) = Cadd (conj a) (conj b).
Proof. destruct a, b. unfold conj, Cadd. cbn. f_equal; ring. Qed.
Lemma conj_cprod n f : conj (cprod n f) = cprod n (fun k => conj (f k)).
Proof. induction n as [|n IH]; cbn; [unfold conj, C1; cbn; f_equal; ring|]. rewrite conj_mul, IH. reflexivity. Qed.
Lemma modulus2_conj z : Creal (modulus2 z) = Cmul z (conj z).
Proof. destruct z. unfold modulus2, conj, Cmul, Creal. cbn. f_equal; ring. Qed.
Lemma Creal_inj a b : Creal a = Creal b -> a = b.
Proof. unfold Creal. congruence. Qed.
Lemma Creal_power x n : power (Creal x) n = Creal (x ^ n).
Proof.
  induction n as [|n IH]; [reflexivity|]. rewrite power_S, IH. unfold Creal, Cmul. cbn. f_equal; ring.
Qed.
Lemma modulus2_mul a b : modulus2 (Cmul a b) = (modulus2 a * modulus2 b)%R.
Proof. destruct a, b. unfold modulus2, Cmul. cbn. ring. Qed.
Lemma modulus2_nonneg z : (0 <= modulus2 z)%R.
Proof. unfold modulus2. pose proof (Rle_0_sqr (fst z)). pose proof (Rle_0_sqr (snd z)). unfold Rsqr in *. lra. Qed.
Lemma modulus2_inv z : modulus2 z <> 0%R -> modulus2 (Cinv z) = (/ modulus2 z)%R.
Proof. destruct z as [a b]. unfold modulus2, Cinv. cbn. intros H. field. exact H. Qed.
Lemma Cinv_conj z : Cinv (conj z) = conj (Cinv z).
Proof.
  destruct z as [a b]. unfold Cinv, conj. cbn. f_equal.
  - f_equal. ring.
  - replace (a * a + - b * - b)%R with (a * a + b * b)%R by ring. unfold Rdiv. ring.
Qed.

(** ** Poles *)
Lemma pole_cis n k : (0 < n)%nat -> pole n (S k) = cis (PI / 2 + angle n k).
Proof.
  intros H. assert (0 < INR n)%R by (apply lt_0_INR; lia). unfold pole, cis.
  replace (PI * (2 * INR (S k) + INR n - 1) / (2 * INR n))%R with (PI / 2 + angle n k)%R; [reflexivity|].
  unfold angle. rewrite plus_INR, mult_INR, (S_INR k). change (INR 2) with 2%R. change (INR 1) with 1%R. field. lra.
Qed.
Lemma pole_left n k : (1 <= k <= n)%nat -> (fst (pole n k) < 0)%R.
Proof.
  intros H. destruct k as [|k]; [lia|]. rewrite pole_cis by lia. unfold cis. cbn [fst].
  rewrite cos_plus, cos_PI2, sin_PI2. pose proof (angle_range n k ltac:(lia)) as [A B]. pose proof (sin_gt_0 _ A B). lra.
Qed.
Lemma Csub_pair s a b : Cadd s (- a, - b)%R = Csub s (a, b).
Proof. reflexivity. Qed.
Lemma butterworth_cis n s : (0 < n)%nat -> butterworth n s = cprod n (fun k => Csub s (cis (PI / 2 + angle n k))).
Proof.
  intros H. unfold butterworth. apply cprod_ext. intros k Hk. rewrite Csub_pair, <- surjective_pairing, pole_cis by lia. reflexivity.
Qed.
Lemma butterworth_gain n x : modulus2 (butterworth n (0, x)%R) = if (n =? 0)%nat then 1%R else (1 + x ^ (2 * n))%R.
Proof.
  destruct (Nat.eqb_spec n 0) as [->|N]; [unfold butterworth, modulus2; cbn; ring|].
  apply Creal_inj. rewrite modulus2_conj, butterworth_cis by lia. rewrite conj_cprod, <- cprod_mul.
  transitivity (Cadd C1 (power (Creal x) (2 * n))).
  - rewrite unit_factor by lia. apply cprod_ext. intros k Hk. rewrite cis_add, cis_opp.
    unfold cis. rewrite cos_PI2, sin_PI2. unfold Csub, Copp, Cadd, Cmul, conj, Creal. cbn. f_equal; ring.
  - rewrite Creal_power. unfold Cadd, C1, Creal. cbn [fst snd]. f_equal. ring.
Qed.
Lemma butterworth_stable n s : (0 <= fst s)%R -> butterworth n s <> C0.
Proof.
  intros H E. unfold butterworth in E. apply cprod_zero in E. destruct E as (k & Hk & E).
  pose proof (pole_left n (S k) ltac:(lia)) as P. apply (f_equal fst) in E.
  set (p := pole n (S k)) in *. clearbody p. cbn in E. lra.
Qed.

(** ** Real factors *)
Lemma angle_mirror n k : (k < n)%nat -> angle n (n - 1 - k) = (PI - angle n k)%R.
Proof.
  intros H. assert (0 < INR n)%R by (apply lt_0_INR; lia). unfold angle.
  replace (2 * (n - 1 - k) + 1)%nat with (2 * n - (2 * k + 1))%nat by lia. rewrite minus_INR by lia.
  rewrite (mult_INR 2 n). change (INR 2) with 2%R. field. lra.
Qed.
Definition quad (l : R) (s : C) : C := Cadd C1 (Cadd (Cmul (Creal l) s) (Cmul s s)).
Lemma pair_quad n k s : (k < n)%nat ->
  Cmul (Csub s (cis (PI / 2 + angle n k))) (Csub s (cis (PI / 2 + angle n (n - 1 - k)))) = quad (butterLinear n (S k)) s.
Proof.
  intros H. assert (0 < INR n)%R by (apply lt_0_INR; lia). rewrite angle_mirror by exact H.
  replace (cis (PI / 2 + (PI - angle n k))) with (conj (cis (PI / 2 + angle n k))).
  - assert (B : butterLinear n (S k) = (-2 * cos (PI / 2 + angle n k))%R).
    { unfold butterLinear. do 2 f_equal. unfold angle. rewrite (S_INR k), plus_INR, mult_INR. change (INR 2) with 2%R. change (INR 1) with 1%R. field. lra. }
    rewrite B. set (a := (PI / 2 + angle n k)%R). pose proof (sin2_cos2 a) as T. unfold Rsqr in T.
    unfold quad, cis, conj, Csub, Copp, Cadd, Cmul, Creal, C1. destruct s as [s1 s2]. cbn [fst snd]. f_equal; [|ring].
    transitivity (s1 * s1 - 2 * cos a * s1 + (sin a * sin a + cos a * cos a) - s2 * s2)%R; [ring|]. rewrite T. ring.
  - set (a := angle n k). replace (PI / 2 + (PI - a))%R with (- (PI / 2 + a) + 2 * PI)%R by lra.
    unfold conj, cis. cbn [fst snd]. 
    replace (- (PI / 2 + a) + 2 * PI)%R with (- (PI / 2 + a) + 2 * INR 1 * PI)%R by (cbn; ring).
    rewrite cos_period, sin_period, cos_neg, sin_neg. reflexivity.
Qed.
Lemma butterworth_factors n s : (0 < n)%nat ->
  butterworth n s = Cmul (cprod (n / 2) (fun k => quad (butterLinear n (S k)) s)) (if Nat.even n then C1 else Cadd C1 s).
Proof.
  intros H. rewrite butterworth_cis by exact H. pose proof (Nat.div_mod n 2 ltac:(lia)) as D. rewrite <- Nat.bit0_mod in D.
  set (m := (n / 2)%nat) in *. rewrite Nat.bit0_odd in D. rewrite <- Nat.negb_odd. destruct (Nat.odd n) eqn:O; cbn [negb Nat.b2n] in *.
  - replace n with (2 * m + 1)%nat at 1 by lia. rewrite cprod_pairs_odd. f_equal.
    + apply cprod_ext. intros k Hk. rewrite <- pair_quad by lia. do 4 f_equal. f_equal. lia.
    + replace (cis (PI / 2 + angle n m)) with (Copp C1); [ring|].
      assert (0 < INR n)%R by (apply lt_0_INR; lia).
      replace (PI / 2 + angle n m)%R with PI; [unfold cis; rewrite cos_PI, sin_PI; unfold Copp, C1; cbn; f_equal; ring|].
      unfold angle. rewrite <- D. field. lra.
  - replace n with (2 * m)%nat at 1 by lia. rewrite cprod_pairs.
    transitivity (cprod m (fun k => quad (butterLinear n (S k)) s)); [|ring].
    apply cprod_ext. intros k Hk. rewrite <- pair_quad by lia. do 4 f_equal. f_equal. lia.
Qed.
