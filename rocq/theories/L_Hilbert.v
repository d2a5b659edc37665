(** Lemmas about the Hilbert transform. *)
From Coq Require Import Reals Lra Lia Ring.
From Verif Require Import Base M_Seis M_Common L_Common M_Fft L_Fft.
Open Scope Z_scope.

Lemma zseq_length s n : length (zseq s n) = n.
Proof. revert s. induction n as [|n IH]; intros s; cbn; [reflexivity|]. rewrite IH. reflexivity. Qed.
Lemma zseq_nth s n k d : (k < n)%nat -> nth k (zseq s n) d = s + Z.of_nat k.
Proof.
  revert s k. induction n as [|n IH]; intros s k H; [lia|]. destruct k as [|k]; cbn [zseq nth]; [lia|]. rewrite IH by lia. lia.
Qed.

(** ** The kernel *)
Lemma kernel_spec L : 0 < L -> exists K, hilbert_kernel L = Ok K /\ length K = Z.to_nat L /\
  forall k, 0 <= k < L -> nth (Z.to_nat k) K 0%R =
    if k =? 0 then 1%R else if 2 * k =? L then 1%R else if 2 * k <? L then 2%R else 0%R.
Proof.
  intros HL. unfold hilbert_kernel. replace (L <=? 0) with false by lia. eexists. split; [reflexivity|]. split; [rewrite map_length; apply zseq_length|].
  intros k Hk. set (g := fun i => _). rewrite (nth_indep _ 0%R (g 0)) by (rewrite map_length, zseq_length; lia).
  rewrite (map_nth g). rewrite zseq_nth by lia. replace (0 + Z.of_nat (Z.to_nat k)) with k by lia. unfold g.
  pose proof (Z.div_mod L 2 ltac:(lia)) as D. pose proof (Z.mod_pos_bound L 2 ltac:(lia)) as M.
  pose proof (Z.div_mod (L + 1) 2 ltac:(lia)) as D1. pose proof (Z.mod_pos_bound (L + 1) 2 ltac:(lia)) as M1.
  destruct (Z.eqb_spec k 0) as [->|N0]; [destruct (2 * (L / 2) =? L); reflexivity|].
  destruct (Z.eqb_spec (2 * (L / 2)) L) as [E|E].
  - destruct (Z.eqb_spec k (L / 2)) as [E2|E2]; [replace (2 * k =? L) with true by lia; reflexivity|].
    replace (2 * k =? L) with false by lia. destruct (Z.ltb_spec k (L / 2)); [replace (2 * k <? L) with true by lia|replace (2 * k <? L) with false by lia]; reflexivity.
  - replace (2 * k =? L) with false by lia.
    destruct (Z.ltb_spec k ((L + 1) / 2)); [replace (2 * k <? L) with true by lia|replace (2 * k <? L) with false by lia]; reflexivity.
Qed.

(** ** Real sums *)
Fixpoint rsumn (n : nat) (f : nat -> R) : R := match n with O => 0%R | S n => (rsumn n f + f n)%R end.
Lemma rsumn_ext n f g : (forall k, (k < n)%nat -> f k = g k) -> rsumn n f = rsumn n g.
Proof. induction n as [|n IH]; intros H; [reflexivity|]. cbn. rewrite IH by (intros; apply H; lia). rewrite H by lia. reflexivity. Qed.
Lemma rsumn_add n f g : rsumn n (fun k => (f k + g k)%R) = (rsumn n f + rsumn n g)%R.
Proof. induction n as [|n IH]; cbn; [ring|]. rewrite IH. ring. Qed.
Lemma rsumn_scale n a f : rsumn n (fun k => (a * f k)%R) = (a * rsumn n f)%R.
Proof. induction n as [|n IH]; cbn; [ring|]. rewrite IH. ring. Qed.
Lemma rsumn_first n f : rsumn (S n) f = (f 0%nat + rsumn n (fun k => f (S k)))%R.
Proof. induction n as [|n IH]; [cbn; ring|]. change (rsumn (S (S n)) f) with (rsumn (S n) f + f (S n))%R. rewrite IH. cbn. ring. Qed.
Lemma rsumn_rev n f : rsumn n f = rsumn n (fun k => f (n - 1 - k)%nat).
Proof.
  induction n as [|n IH]; [reflexivity|]. rewrite (rsumn_first n (fun k => f (S n - 1 - k)%nat)). cbn [rsumn]. rewrite IH.
  replace (S n - 1 - 0)%nat with n by lia. rewrite Rplus_comm. f_equal. apply rsumn_ext. intros k Hk. f_equal. lia.
Qed.
Lemma fst_csum_r n f : fst (csum n f) = rsumn n (fun k => fst (f k)).
Proof. induction n as [|n IH]; [reflexivity|]. cbn. rewrite IH. reflexivity. Qed.
Lemma snd_csum_r n f : snd (csum n f) = rsumn n (fun k => snd (f k)).
Proof. induction n as [|n IH]; [reflexivity|]. cbn. rewrite IH. reflexivity. Qed.

(** symmetric weights: the cosine sum only depends on the average of the weights at opposite frequencies *)
Lemma cosine_sum L (K : nat -> R) z : (0 < L)%nat -> K 0%nat = 1%R -> (forall k, (0 < k < L)%nat -> (K k + K (L - k)%nat = 2)%R) ->
  rsumn L (fun k => (K k * cos (INR k * (2 * PI * IZR z / INR L)))%R) = rsumn L (fun k => cos (INR k * (2 * PI * IZR z / INR L))).
Proof.
  intros HL K0 KS. destruct L as [|n]; [lia|]. set (t := (2 * PI * IZR z / INR (S n))%R).
  rewrite !rsumn_first. f_equal; [rewrite K0; ring|].
  assert (PL : INR (S n) <> 0%R) by (apply not_0_INR; lia).
  assert (SYM : forall k, (0 < k < S n)%nat -> cos (INR (S n - k) * t) = cos (INR k * t)).
  { intros k Hk. rewrite minus_INR by lia. replace ((INR (S n) - INR k) * t)%R with (2 * PI * IZR z + - (INR k * t))%R by (unfold t; field; exact PL).
    pose proof (cis_int z) as E. unfold cis, C1 in E. injection E as E1 E2. rewrite cos_plus, E1, E2, cos_neg. ring. }
  assert (A : rsumn n (fun k => (K (S k) * cos (INR (S k) * t))%R) = rsumn n (fun k => (K (S n - S k)%nat * cos (INR (S k) * t))%R)).
  { rewrite rsumn_rev. apply rsumn_ext. intros k Hk. replace (S (n - 1 - k)) with (S n - S k)%nat by lia. f_equal. apply SYM. lia. }
  assert (B : (rsumn n (fun k => (K (S k) * cos (INR (S k) * t))%R) + rsumn n (fun k => (K (S k) * cos (INR (S k) * t))%R)
     = 2 * rsumn n (fun k => cos (INR (S k) * t)))%R).
  { rewrite A at 2. rewrite <- rsumn_add, <- rsumn_scale. apply rsumn_ext. intros k Hk. rewrite <- (KS (S k)) by lia. ring. }
  lra.
Qed.

Lemma response_real L K z : (0 < L)%nat -> - Z.of_nat L < z < Z.of_nat L -> length K = L ->
  nth 0 K 0%R = 1%R -> (forall k, (0 < k < L)%nat -> (nth k K 0 + nth (L - k) K 0 = 2)%R) ->
  fst (response L (map Creal K) z) = if z =? 0 then 1%R else 0%R.
Proof.
  intros HL HZ HK K0 KS. unfold response. unfold Cmul at 1. cbn [Creal fst]. rewrite fst_csum_r, snd_csum_r.
  rewrite (rsumn_ext L (fun k => fst _) (fun k => (nth k K 0 * cos (INR k * (2 * PI * IZR z / INR L)))%R)).
  2:{ intros k Hk. rewrite (nth_indep _ C0 (Creal 0)) by (rewrite map_length; lia). rewrite (map_nth Creal). unfold Cmul, Creal, cis. cbn. ring. }
  rewrite (cosine_sum L (fun k => nth k K 0%R) z HL K0 KS).
  assert (E : rsumn L (fun k => cos (INR k * (2 * PI * IZR z / INR L))) = fst (csum L (fun k => cis (INR k * (2 * PI * IZR z / INR L))))).
  { rewrite fst_csum_r. reflexivity. }
  rewrite E. assert (PL : INR L <> 0%R) by (apply not_0_INR; lia). cbn [snd]. destruct (Z.eqb_spec z 0) as [->|N].
  - rewrite orthogonal_0. unfold Creal. cbn [fst]. rewrite Rmult_0_l, Rminus_0_r. field. exact PL.
  - rewrite orthogonal by assumption. cbn. ring.
Qed.

Lemma nth_Creal m x : nth m (map Creal x) C0 = Creal (nth m x 0%R).
Proof. change C0 with (Creal 0). apply map_nth. Qed.
Lemma analytic_processed n K data : 0 <= n ->
  analytic n K data = resize (length data) (processed (Z.to_nat n) (map Creal K) (resize (Z.to_nat n) (map Creal data))).
Proof. intros H. unfold analytic, processed. rewrite INR_IZR_INZ, Z2Nat.id by exact H. reflexivity. Qed.
Lemma analytic_length n K data : length (analytic n K data) = length data.
Proof. unfold analytic. apply resize_length. Qed.

Lemma processed_real L K x j : (0 < L)%nat -> length K = L -> length x = L -> (j < L)%nat ->
  nth 0 K 0%R = 1%R -> (forall k, (0 < k < L)%nat -> (nth k K 0 + nth (L - k) K 0 = 2)%R) ->
  (forall m, (m < L)%nat -> snd (nth m x C0) = 0%R) ->
  fst (nth j (processed L (map Creal K) x) C0) = fst (nth j x C0).
Proof.
  intros HL HK HX HJ K0 KS RX. rewrite processed_nth; [|exact HL|exact HX|rewrite map_length; exact HK|exact HJ].
  rewrite fst_csum_r. rewrite (rsumn_ext L _ (fun m => if Nat.eq_dec m j then fst (nth m x C0) else 0%R)).
  - assert (G : forall n (f : nat -> R), (j < n)%nat -> rsumn n (fun m => if Nat.eq_dec m j then f m else 0%R) = f j).
    { assert (Z0 : forall n (f : nat -> R), (n <= j)%nat -> rsumn n (fun m => if Nat.eq_dec m j then f m else 0%R) = 0%R).
      { induction n as [|n IH]; intros f H; [reflexivity|]. cbn. rewrite IH by lia. destruct (Nat.eq_dec n j); [lia|ring]. }
      induction n as [|n IH]; intros f H; [lia|]. cbn. destruct (Nat.eq_dec n j) as [->|N].
      - rewrite Z0 by lia. ring.
      - rewrite IH by lia. ring. }
    apply G. exact HJ.
  - intros m Hm. unfold Cmul. cbn [fst]. rewrite (RX m Hm). rewrite response_real by (assumption || lia).
    destruct (Nat.eq_dec m j) as [->|N].
    + replace (Z.of_nat j - Z.of_nat j =? 0) with true by lia. ring.
    + replace (Z.of_nat j - Z.of_nat m =? 0) with false by lia. ring.
Qed.

Lemma resize_real L x m : snd (nth m (resize L (map Creal x)) C0) = 0%R.
Proof. rewrite resize_nth. destruct (Nat.ltb m L); [|reflexivity]. rewrite nth_Creal. reflexivity. Qed.

Lemma kernel_list L K : 0 < L -> hilbert_kernel L = Ok K -> length K = Z.to_nat L /\ nth 0 K 0%R = 1%R /\
  (forall k, (0 < k < Z.to_nat L)%nat -> (nth k K 0 + nth (Z.to_nat L - k) K 0 = 2)%R) /\
  (forall k, (0 < k)%nat -> 2 * Z.of_nat k < L -> nth k K 0%R = 2%R) /\
  (forall k, (k < Z.to_nat L)%nat -> L < 2 * Z.of_nat k -> nth k K 0%R = 0%R).
Proof.
  intros HL E. destruct (kernel_spec L HL) as (K' & E' & LK & V). rewrite E in E'. injection E' as <-.
  split; [exact LK|]. assert (V' : forall k, (k < Z.to_nat L)%nat -> nth k K 0%R = if Z.of_nat k =? 0 then 1%R else if 2 * Z.of_nat k =? L then 1%R else if 2 * Z.of_nat k <? L then 2%R else 0%R).
  { intros k Hk. rewrite <- V by lia. rewrite Nat2Z.id. reflexivity. }
  split; [rewrite V' by lia; reflexivity|]. split; [|split].
  - intros k Hk. rewrite (V' k), (V' (Z.to_nat L - k)%nat) by lia. replace (Z.of_nat k =? 0) with false by lia.
    replace (Z.of_nat (Z.to_nat L - k) =? 0) with false by lia.
    destruct (Z.eqb_spec (2 * Z.of_nat k) L); [replace (2 * Z.of_nat (Z.to_nat L - k) =? L) with true by lia; lra|].
    replace (2 * Z.of_nat (Z.to_nat L - k) =? L) with false by lia.
    destruct (Z.ltb_spec (2 * Z.of_nat k) L); [replace (2 * Z.of_nat (Z.to_nat L - k) <? L) with false by lia|replace (2 * Z.of_nat (Z.to_nat L - k) <? L) with true by lia]; lra.
  - intros k Hk H. rewrite V' by lia. replace (Z.of_nat k =? 0) with false by lia. replace (2 * Z.of_nat k =? L) with false by lia.
    replace (2 * Z.of_nat k <? L) with true by lia. reflexivity.
  - intros k Hk H. rewrite V' by lia. replace (Z.of_nat k =? 0) with false by lia. replace (2 * Z.of_nat k =? L) with false by lia.
    replace (2 * Z.of_nat k <? L) with false by lia. reflexivity.
Qed.

Lemma analytic_real L K data : 0 < L -> Z.of_nat (length data) <= L -> hilbert_kernel L = Ok K -> map fst (analytic L K data) = data.
Proof.
  intros HL HD HK. destruct (kernel_list L K HL HK) as (LK & K0 & KS & _ & _).
  apply (nth_ext _ _ 0%R 0%R); [rewrite map_length; apply analytic_length|].
  intros j Hj. rewrite map_length, analytic_length in Hj.
  change 0%R with (fst C0) at 1. rewrite map_nth. rewrite analytic_processed by lia. rewrite resize_nth.
  replace (j <? length data)%nat with true by (symmetry; apply Nat.ltb_lt; exact Hj).
  rewrite processed_real; [|lia|exact LK|apply resize_length|lia|exact K0|exact KS|intros m _; apply resize_real].
  rewrite resize_nth. replace (j <? Z.to_nat L)%nat with true by (symmetry; apply Nat.ltb_lt; lia). rewrite nth_Creal. reflexivity.
Qed.

(** ** A cosine *)
Lemma cos_cis t : Creal (cos t) = Cmul (Creal (1 / 2)) (Cadd (cis t) (cis (- t))).
Proof. unfold Creal, Cmul, Cadd, cis. cbn. rewrite cos_neg, sin_neg. f_equal; field. Qed.

Lemma fft_cosine L m k : (0 < m)%nat -> (2 * m < L)%nat -> (k < L)%nat ->
  nth k (fft (map (fun j => Creal (cos (2 * PI * INR m * INR j / INR L))) (seq 0 L))) C0 =
    if Nat.eq_dec k m then Creal (INR L / 2) else if Nat.eq_dec k (L - m) then Creal (INR L / 2) else C0.
Proof.
  intros Hm HL Hk. set (x := map _ _). assert (LX : length x = L) by (unfold x; rewrite map_length, seq_length; reflexivity).
  unfold fft. rewrite dft_nth by lia. rewrite LX. assert (PL : INR L <> 0%R) by (apply not_0_INR; lia).
  transitivity (Cmul (Creal (1 / 2)) (Cadd
     (csum L (fun j => cis (INR j * (2 * PI * IZR (Z.of_nat m - Z.of_nat k) / INR L))))
     (csum L (fun j => cis (INR j * (2 * PI * IZR (- Z.of_nat m - Z.of_nat k) / INR L)))))).
  - rewrite <- csum_add, <- csum_mul. apply csum_ext. intros j Hj. unfold x.
    rewrite (map_seq_nth (fun j => Creal (cos (2 * PI * INR m * INR j / INR L)))) by exact Hj. rewrite cos_cis.
    replace (INR j * (2 * PI * IZR (Z.of_nat m - Z.of_nat k) / INR L))%R with (2 * PI * INR m * INR j / INR L + -1 * (2 * PI * INR j * INR k / INR L))%R
      by (rewrite minus_IZR, <- !INR_IZR_INZ; field; exact PL).
    replace (INR j * (2 * PI * IZR (- Z.of_nat m - Z.of_nat k) / INR L))%R with (- (2 * PI * INR m * INR j / INR L) + -1 * (2 * PI * INR j * INR k / INR L))%R
      by (rewrite minus_IZR, opp_IZR, <- !INR_IZR_INZ; field; exact PL).
    rewrite !cis_add. ring.
  - destruct (Nat.eq_dec k m) as [->|N1].
    + replace (Z.of_nat m - Z.of_nat m) with 0 by lia. rewrite orthogonal_0. rewrite orthogonal by lia.
      unfold Cmul, Cadd, Creal, C0. cbn. f_equal; field.
    + rewrite (orthogonal L (Z.of_nat m - Z.of_nat k)) by lia. destruct (Nat.eq_dec k (L - m)) as [->|N2].
      * rewrite (csum_ext L _ (fun j => cis (INR j * (2 * PI * IZR 0 / INR L)))).
        -- rewrite orthogonal_0. unfold Cmul, Cadd, Creal, C0. cbn. f_equal; field.
        -- intros j Hj. replace (- Z.of_nat m - Z.of_nat (L - m)) with (- Z.of_nat L) by lia.
           replace (INR j * (2 * PI * IZR (- Z.of_nat L) / INR L))%R with (2 * PI * IZR (- Z.of_nat j) + INR j * (2 * PI * IZR 0 / INR L))%R
             by (rewrite !opp_IZR, <- !INR_IZR_INZ; field; exact PL).
           rewrite cis_add, cis_int. ring.
      * (* k + m is not a multiple of L *)
        assert (Z1 : csum L (fun j => cis (INR j * (2 * PI * IZR (- Z.of_nat m - Z.of_nat k) / INR L))) = C0).
        { destruct (lt_dec (k + m) L) as [G|G]; [apply orthogonal; lia|].
          rewrite (csum_ext L _ (fun j => cis (INR j * (2 * PI * IZR (Z.of_nat L - Z.of_nat m - Z.of_nat k) / INR L)))).
          - apply orthogonal; lia.
          - intros j Hj.
            replace (INR j * (2 * PI * IZR (Z.of_nat L - Z.of_nat m - Z.of_nat k) / INR L))%R
              with (2 * PI * IZR (Z.of_nat j) + INR j * (2 * PI * IZR (- Z.of_nat m - Z.of_nat k) / INR L))%R
              by (rewrite !minus_IZR, !opp_IZR, <- !INR_IZR_INZ; field; exact PL).
            rewrite cis_add, cis_int. ring. }
        rewrite Z1. ring.
Qed.

Lemma resize_same n x : length x = n -> resize n x = x.
Proof. intros H. unfold resize. rewrite firstn_all2 by lia. replace (n - length x)%nat with 0%nat by lia. apply app_nil_r. Qed.

Lemma analytic_cosine L K m : (0 < m)%nat -> (2 * m < L)%nat -> hilbert_kernel (Z.of_nat L) = Ok K ->
  analytic (Z.of_nat L) K (map (fun j => cos (2 * PI * INR m * INR j / INR L)) (seq 0 L))
  = map (fun j => cis (2 * PI * INR m * INR j / INR L)) (seq 0 L).
Proof.
  intros Hm HL HK. destruct (kernel_list (Z.of_nat L) K ltac:(lia) HK) as (LK & K0 & KS & K2 & KZ). rewrite Nat2Z.id in LK, KS, KZ.
  rewrite analytic_processed by lia. rewrite Nat2Z.id, map_length, seq_length, map_map. set (x := map _ (seq 0 L)).
  assert (LX : length x = L) by (unfold x; rewrite map_length, seq_length; reflexivity). rewrite (resize_same L x LX).
  rewrite resize_same by (apply processed_length; [exact LX|rewrite map_length; exact LK]).
  apply (nth_ext _ _ C0 C0); [rewrite processed_length, map_length, seq_length; [reflexivity|exact LX|rewrite map_length; exact LK]|].
  intros j Hj. rewrite processed_length in Hj by (exact LX || (rewrite map_length; exact LK)).
  rewrite (map_seq_nth (fun j => cis (2 * PI * INR m * INR j / INR L))) by exact Hj.
  assert (PL : INR L <> 0%R) by (apply not_0_INR; lia).
  unfold processed, ifft. assert (LM : length (map (Cscale (1 / INR L)) (map2 Cmul (fft x) (map Creal K))) = L).
  { rewrite map_length, map2_length'. unfold fft. rewrite dft_length, map_length. lia. }
  rewrite dft_nth by lia. rewrite LM.
  assert (T : forall k, (k < L)%nat -> nth k (map (Cscale (1 / INR L)) (map2 Cmul (fft x) (map Creal K))) C0 = if Nat.eq_dec k m then C1 else C0).
  { intros k Hk. rewrite (nth_indep _ C0 (Cscale (1 / INR L) C0)) by lia. rewrite (map_nth (Cscale (1 / INR L))).
    rewrite (map2_nth Cmul _ _ k C0 C0) by (unfold fft; rewrite ?dft_length, ?map_length; lia).
    pose proof (fft_cosine L m k Hm HL Hk) as F. fold x in F. rewrite F. clear F. rewrite nth_Creal. destruct (Nat.eq_dec k m) as [->|N].
    - rewrite K2 by lia. unfold Cscale, Cmul, Creal, C1. cbn. f_equal; field; exact PL.
    - destruct (Nat.eq_dec k (L - m)) as [->|N2].
      + rewrite KZ by lia. unfold Cscale, Cmul, Creal, C0. cbn. f_equal; ring.
      + unfold Cscale, Cmul, Creal, C0. cbn. f_equal; ring. }
  rewrite (csum_single L m); [|lia|].
  - rewrite T by lia. destruct (Nat.eq_dec m m); [|contradiction]. replace (1 * (2 * PI * INR m * INR j / INR L))%R with (2 * PI * INR m * INR j / INR L)%R by ring. ring.
  - intros k Hk N. rewrite T by exact Hk. destruct (Nat.eq_dec k m); [contradiction|]. ring.
Qed.
