(** Lemmas about the helper functions. *)
From Coq Require Import Reals Lra Lia.
From Verif Require Import Base M_Seis M_Common S_Common.
Open Scope Z_scope.

(** ** Integer part *)
Lemma int_part_unique x k : (IZR k <= x < IZR k + 1)%R -> Int_part x = k.
Proof.
  intros [H1 H2]. destruct (base_Int_part x) as [L U].
  assert (IZR (Int_part x) < IZR (k + 1))%R by (rewrite plus_IZR; lra).
  assert (IZR k < IZR (Int_part x + 1))%R by (rewrite plus_IZR; lra).
  apply lt_IZR in H, H0. lia.
Qed.
Lemma int_part_bounds x : (IZR (Int_part x) <= x < IZR (Int_part x) + 1)%R.
Proof. destruct (base_Int_part x). lra. Qed.
Lemma int_part_IZR k : Int_part (IZR k) = k.
Proof. apply int_part_unique. lra. Qed.
Lemma truncR_nonneg x : (0 <= x)%R -> truncR x = Int_part x.
Proof. intros H. unfold truncR. destruct (Rle_dec 0 x); [reflexivity|lra]. Qed.

Lemma time2index_nearest time DT : (0 < DT)%R -> (0 <= time)%R -> nearest_step time DT (time2index time DT).
Proof.
  intros HD HT. unfold time2index, nearest_step.
  assert (HQ : (0 <= time / DT)%R) by (apply Rmult_le_pos; [exact HT|apply Rlt_le, Rinv_0_lt_compat, HD]).
  rewrite truncR_nonneg by lra. destruct (int_part_bounds (time / DT + 1 / 2)) as [L U].
  set (k := Int_part (time / DT + 1 / 2)) in *.
  assert (E : (time = time / DT * DT)%R) by (field; lra). split.
  - apply (Rmult_lt_compat_r DT) in U; [|exact HD]. rewrite Rmult_plus_distr_r in U. rewrite <- E in U. lra.
  - apply (Rmult_le_compat_r DT) in L; [|lra]. rewrite (Rmult_plus_distr_r (time / DT)) in L. rewrite <- E in L. lra.
Qed.
Lemma nearest_unique time DT j k : (0 < DT)%R -> nearest_step time DT j -> nearest_step time DT k -> j = k.
Proof.
  intros HD [A B] [C D].
  assert (IZR j * DT < (IZR k + 1) * DT)%R by lra. apply Rmult_lt_reg_r in H; [|exact HD].
  assert (IZR k * DT < (IZR j + 1) * DT)%R by lra. apply Rmult_lt_reg_r in H0; [|exact HD].
  rewrite <- plus_IZR in H, H0. apply lt_IZR in H, H0. lia.
Qed.

(** ** Snapshots *)
Lemma snapshots_ok snapType f l inc steps : 0 < snapType -> inc <> 0 ->
  exists ts, snapshots snapType f l inc steps = Ok ts /\
    ts = filter (fun t => (f <=? t) && (t <=? l) && (Z.rem (t - f) inc =? 0)) steps.
Proof.
  intros HS HI. induction steps as [|t steps (ts & IH & E)]; cbn [snapshots filter]; [eexists; split; reflexivity|].
  replace (snapType >? 0) with true by lia. cbn [andb].
  destruct (Z.leb_spec f t) as [L1|L1].
  - replace (t >=? f) with true by lia. cbn [andb]. destruct (Z.leb_spec t l) as [L2|L2].
    + unfold crem. replace (inc =? 0) with false by lia. cbn [bind andb]. rewrite IH. cbn [bind]. eexists. split; [reflexivity|].
      rewrite E. destruct (Z.rem (t - f) inc =? 0); reflexivity.
    + cbn [andb bind]. rewrite IH. cbn [bind]. eexists. split; [reflexivity|exact E].
  - replace (t >=? f) with false by lia. cbn [andb bind]. rewrite IH. cbn [bind]. eexists. split; [reflexivity|exact E].
Qed.
Lemma zseq_In s n k : In k (zseq s n) <-> s <= k < s + Z.of_nat n.
Proof. revert s. induction n as [|n IH]; intros s; cbn [zseq In]; [lia|]. rewrite IH. lia. Qed.
Lemma rem_multiple d inc : 0 <= d -> 0 < inc -> (Z.rem d inc = 0 <-> exists j, 0 <= j /\ d = j * inc).
Proof.
  intros Hd Hi. rewrite Z.rem_mod_nonneg by lia. split.
  - intros E. exists (d / inc). split; [apply Z.div_pos; lia|]. pose proof (Z.div_mod d inc). lia.
  - intros (j & Hj & ->). apply Z.mod_mul. lia.
Qed.
Lemma sorted_filter (P : Z -> bool) s n : forall a b i, nth_error (filter P (zseq s n)) i = Some a ->
  nth_error (filter P (zseq s n)) (S i) = Some b -> a < b.
Proof.
  revert s. induction n as [|n IH]; intros s a b i; cbn [zseq filter]; [destruct i; discriminate|].
  destruct (P s); [|apply IH]. destruct i as [|i]; cbn [nth_error].
  - intros [= <-] H. assert (I : In b (filter P (zseq (s + 1) n))) by (apply (nth_error_In _ 0); exact H).
    apply filter_In in I. destruct I as [I _]. apply zseq_In in I. lia.
  - apply IH.
Qed.

(** ** Phase unwrapping *)
Lemma unwrap_from_spec ws : forall pw po, (- PI <= pw <= PI)%R -> wrapped ws -> (exists k, po = pw + IZR k * (2 * PI))%R ->
  length (unwrap_from pw po ws) = length ws /\
  (forall i w o, nth_error ws i = Some w -> nth_error (unwrap_from pw po ws) i = Some o -> exists k, (o = w + IZR k * (2 * PI))%R) /\
  (forall i a b, nth_error (po :: unwrap_from pw po ws) i = Some a -> nth_error (po :: unwrap_from pw po ws) (S i) = Some b -> (Rabs (b - a) <= PI)%R).
Proof.
  induction ws as [|w ws IH]; intros pw po HP HW (k & Hk).
  - split; [reflexivity|]. split; [intros [|i] ? ? H; discriminate|]. intros [|i] a b _ H; [discriminate|destruct i; discriminate].
  - cbn [unwrap_from]. apply Forall_cons_iff in HW. destruct HW as [Hw HW].
    set (d := (if Rlt_dec PI (w - pw) then w - pw - 2 * PI else if Rlt_dec (w - pw) (- PI) then w - pw + 2 * PI else w - pw)%R).
    pose proof PI_RGT_0 as HPI.
    assert (HD : (Rabs d <= PI)%R).
    { unfold d. apply Rabs_le. destruct (Rlt_dec PI (w - pw)); [lra|]. destruct (Rlt_dec (w - pw) (- PI)); lra. }
    assert (HO : exists j, (po + d = w + IZR j * (2 * PI))%R).
    { unfold d. rewrite Hk. destruct (Rlt_dec PI (w - pw)); [exists (k - 1); rewrite minus_IZR; lra|].
      destruct (Rlt_dec (w - pw) (- PI)); [exists (k + 1); rewrite plus_IZR; lra|exists k; lra]. }
    destruct (IH w (po + d)%R Hw HW HO) as (L & C & S). split; [cbn; f_equal; exact L|]. split.
    + intros [|i] w' o; cbn [nth_error].
      * intros [= <-] [= <-]. exact HO.
      * apply C.
    + intros [|i] a b; [|apply S]. cbn [nth_error]. intros [= <-] [= <-]. replace (po + d - po)%R with d by ring. exact HD.
Qed.

(** ** Residual of phases *)
Definition fsum (r : list R) : R := fold_right Rplus 0%R r.
Definition cost (r : list R) (k : Z) : R := sumsq (shifted r k).
Lemma cost_eq r k : cost r k = (sumsq r + 4 * PI * IZR k * fsum r + 4 * PI * PI * IZR k * IZR k * INR (length r))%R.
Proof.
  unfold cost. induction r as [|x r IH]; [cbn; ring|]. unfold shifted in *. cbn [map sumsq fold_right fsum].
  fold (sumsq (map (fun x0 => (x0 + IZR k * 2 * PI)%R) r)) (sumsq r) (fsum r). rewrite IH.
  change (length (x :: r)) with (S (length r)). rewrite S_INR. ring.
Qed.
Lemma sumsq_nonneg r : (0 <= sumsq r)%R.
Proof. induction r as [|x r IH]; cbn; [lra|]. fold (sumsq r). pose proof (Rle_0_sqr x). unfold Rsqr in *. lra. Qed.
Lemma norm_le a b : (l2Norm a <= l2Norm b <-> sumsq a <= sumsq b)%R.
Proof.
  unfold l2Norm. split.
  - intros H. apply sqrt_le_0 in H; [exact H| |]; apply sumsq_nonneg.
  - apply sqrt_le_1; apply sumsq_nonneg.
Qed.
Lemma shifted_0 r : shifted r 0 = r.
Proof. unfold shifted. rewrite <- (map_id r) at 2. apply map_ext. intros x. ring. Qed.

Lemma residual_terminates r s N : s * s = 1 -> (0 < INR (length r))%R -> forall k,
  (0 < cost r k - cost r (k - s) + 8 * PI * PI * INR (length r) * INR N)%R ->
  exists m, (forall fuel, (N < fuel)%nat -> residual_loop fuel s r (shifted r (k - s)) k = Ok (shifted r m)) /\
    (cost r m < cost r (m + s))%R /\ (m = k - s \/ (cost r m <= cost r (m - s))%R).
Proof.
  intros Hs Hn. induction N as [|N IH]; intros k HK.
  - exists (k - s). split; [|split; [|left; reflexivity]].
    + intros [|fuel] F; [lia|]. cbn [residual_loop]. destruct (Rle_dec (l2Norm (shifted r k)) (l2Norm (shifted r (k - s)))) as [L|L]; [|reflexivity].
      exfalso. apply norm_le in L. fold (cost r k) (cost r (k - s)) in L. cbn in HK. lra.
    + replace (k - s + s) with k by lia. cbn in HK. lra.
  - destruct (Rle_dec (cost r k) (cost r (k - s))) as [L|L].
    + destruct (IH (k + s)) as (m & M1 & M2 & M3).
      { replace (k + s - s) with k by lia. rewrite !cost_eq in *. rewrite S_INR in HK.
        rewrite plus_IZR. rewrite minus_IZR in HK. assert (E : (IZR s * IZR s = 1)%R) by (rewrite <- mult_IZR, Hs; reflexivity).
        replace (4 * PI * PI * (IZR k + IZR s) * (IZR k + IZR s) * INR (length r))%R
          with (4 * PI * PI * INR (length r) * (IZR k * IZR k + 2 * IZR k * IZR s + IZR s * IZR s))%R by ring.
        replace (4 * PI * PI * (IZR k - IZR s) * (IZR k - IZR s) * INR (length r))%R
          with (4 * PI * PI * INR (length r) * (IZR k * IZR k - 2 * IZR k * IZR s + IZR s * IZR s))%R in HK by ring.
        rewrite E in *. lra. }
      exists m. split; [|split; [exact M2|]].
      * intros [|fuel] F; [lia|]. cbn [residual_loop]. destruct (Rle_dec (l2Norm (shifted r k)) (l2Norm (shifted r (k - s)))) as [L'|L'].
        -- specialize (M1 fuel ltac:(lia)). replace (k + s - s) with k in M1 by lia. exact M1.
        -- exfalso. apply L', norm_le. exact L.
      * right. destruct M3 as [->|M3]; [|exact M3]. replace (k + s - s) with k by lia. exact L.
    + exists (k - s). split; [|split; [|left; reflexivity]].
      * intros [|fuel] F; [lia|]. cbn [residual_loop]. destruct (Rle_dec (l2Norm (shifted r k)) (l2Norm (shifted r (k - s)))) as [L'|L']; [|reflexivity].
        exfalso. apply norm_le in L'. fold (cost r k) (cost r (k - s)) in L'. lra.
      * replace (k - s + s) with k by lia. lra.
Qed.
(** a local minimum of the convex cost is a global one *)
Lemma cost_min r m : (0 < INR (length r))%R -> (cost r m <= cost r (m + 1))%R -> (cost r m <= cost r (m - 1))%R ->
  forall k, (cost r m <= cost r k)%R.
Proof.
  intros Hn H1 H2 k. rewrite !cost_eq in *. rewrite plus_IZR in H1. rewrite minus_IZR in H2.
  set (n := INR (length r)) in *. set (S := fsum r) in *. set (M := IZR m) in *.
  pose proof PI_RGT_0 as HPI. assert (HPP : (0 < PI * PI)%R) by (apply Rmult_lt_0_compat; lra).
  (* H1 : 0 <= 4 PI S + 4 PI PI n (2M+1); H2 : 0 <= -4 PI S + 4 PI PI n (1 - 2M) *)
  assert (A : (0 <= 4 * PI * S + 4 * PI * PI * n * (2 * M + 1))%R) by lra.
  assert (B : (0 <= - (4 * PI * S) + 4 * PI * PI * n * (1 - 2 * M))%R) by lra.
  clear H1 H2. destruct (Z.lt_trichotomy k m) as [L|[->|L]].
  - (* k = m - j, j >= 1 *)
    assert (E : IZR k = (M - IZR (m - k))%R) by (rewrite minus_IZR; unfold M; ring). set (j := IZR (m - k)) in *.
    assert (J : (1 <= j)%R) by (apply IZR_le; lia). rewrite E. clear E.
    assert (C : (0 <= j * (- (4 * PI * S) + 4 * PI * PI * n * (1 - 2 * M)))%R) by (apply Rmult_le_pos; lra).
    assert (D : (0 <= 4 * PI * PI * n * (j * (j - 1)))%R).
    { apply Rmult_le_pos; [|apply Rmult_le_pos; lra]. apply Rmult_le_pos; [|lra]. rewrite Rmult_assoc. lra. }
    generalize (Rplus_le_le_0_compat _ _ C D). intros X. apply Rminus_le. apply Ropp_le_cancel. rewrite Ropp_0. eapply Rle_trans; [exact X|]. right. ring.
  - fold M. apply Rle_refl.
  - assert (E : IZR k = (M + IZR (k - m))%R) by (rewrite minus_IZR; unfold M; ring). set (j := IZR (k - m)) in *.
    assert (J : (1 <= j)%R) by (apply IZR_le; lia). rewrite E. clear E.
    assert (C : (0 <= j * (4 * PI * S + 4 * PI * PI * n * (2 * M + 1)))%R) by (apply Rmult_le_pos; lra).
    assert (D : (0 <= 4 * PI * PI * n * (j * (j - 1)))%R).
    { apply Rmult_le_pos; [|apply Rmult_le_pos; lra]. apply Rmult_le_pos; [|lra]. rewrite Rmult_assoc. lra. }
    generalize (Rplus_le_le_0_compat _ _ C D). intros X. apply Rminus_le. apply Ropp_le_cancel. rewrite Ropp_0. eapply Rle_trans; [exact X|]. right. ring.
Qed.

Lemma nat_above x : exists N, (x < INR N)%R.
Proof.
  exists (Z.to_nat (up x)). rewrite INR_IZR_INZ. destruct (archimed x) as [H _].
  assert (IZR (up x) <= IZR (Z.of_nat (Z.to_nat (up x))))%R by (apply IZR_le; lia). lra.
Qed.
Lemma residual_spec r : r <> [] -> exists fuel m, (forall f, (fuel <= f)%nat -> phaseResidual f r = Ok (shifted r m)) /\
  forall k, (l2Norm (shifted r m) <= l2Norm (shifted r k))%R.
Proof.
  intros HR. assert (Hn : (0 < INR (length r))%R).
  { apply lt_0_INR. destruct r; [contradiction|cbn; lia]. }
  pose proof PI_RGT_0 as HPI.
  assert (HB : (0 < 8 * PI * PI * INR (length r))%R).
  { apply Rmult_lt_0_compat; [|exact Hn]. rewrite Rmult_assoc. apply Rmult_lt_0_compat; [lra|]. apply Rmult_lt_0_compat; lra. }
  assert (BIG : forall c, exists N, (0 < c + 8 * PI * PI * INR (length r) * INR N)%R).
  { intros c. destruct (nat_above (- c / (8 * PI * PI * INR (length r)))) as (N & HN). exists N.
    apply (Rmult_lt_compat_l _ _ _ HB) in HN. replace (8 * PI * PI * INR (length r) * (- c / (8 * PI * PI * INR (length r))))%R with (- c)%R in HN; [lra|].
    field. lra. }
  unfold phaseResidual.
  destruct (Rle_dec (l2Norm (shifted r 1)) (l2Norm r)) as [L1|L1].
  - destruct (BIG (cost r 1 - cost r (1 - 1))%R) as (N & HN).
    destruct (residual_terminates r 1 N eq_refl Hn 1 HN) as (m & M1 & M2 & M3).
    exists (S N), m. split.
    + intros f F. specialize (M1 f ltac:(lia)). cbn [Z.sub Z.opp Z.add Z.pos_sub] in M1. rewrite shifted_0 in M1. exact M1.
    + intros k. apply norm_le. apply (cost_min r m Hn); [lra|].
      destruct M3 as [E|M3]; [|exact M3]. exfalso. cbn in E. subst m. cbn in M2. unfold cost in M2 at 1. rewrite shifted_0 in M2.
      apply norm_le in L1. fold (cost r 1) in L1. lra.
  - destruct (Rle_dec (l2Norm (shifted r (-1))) (l2Norm r)) as [L2|L2].
    + destruct (BIG (cost r (-1) - cost r (-1 - -1))%R) as (N & HN).
      destruct (residual_terminates r (-1) N eq_refl Hn (-1) HN) as (m & M1 & M2 & M3).
      exists (S N), m. split.
      * intros f F. specialize (M1 f ltac:(lia)). cbn [Z.sub Z.opp Z.add Z.pos_sub] in M1. rewrite shifted_0 in M1. exact M1.
      * intros k. apply norm_le. apply (cost_min r m Hn).
        -- destruct M3 as [E|M3]; [|replace (m - -1) with (m + 1) in M3 by lia; exact M3].
           exfalso. cbn in E. subst m. cbn in M2. unfold cost in M2 at 1. rewrite shifted_0 in M2.
           apply norm_le in L2. fold (cost r (-1)) in L2. lra.
        -- replace (m + -1) with (m - 1) in M2 by lia. lra.
    + exists 0%nat, 0. rewrite shifted_0. split; [reflexivity|]. intros k. apply norm_le. rewrite <- (shifted_0 r) at 1.
      assert (K0 : cost r 0 = sumsq r) by (unfold cost; rewrite shifted_0; reflexivity).
      apply (cost_min r 0 Hn).
      * rewrite K0. change (0 + 1) with 1. destruct (Rle_dec (cost r 1) (sumsq r)) as [X|X]; [exfalso; apply L1, norm_le, X|lra].
      * rewrite K0. change (0 - 1) with (-1). destruct (Rle_dec (cost r (-1)) (sumsq r)) as [X|X]; [exfalso; apply L2, norm_le, X|lra].
Qed.
Lemma residual_empty f : phaseResidual f [] = Fuel.
Proof.
  unfold phaseResidual. cbn [shifted map]. destruct (Rle_dec (l2Norm []) (l2Norm [])) as [L|L]; [|exfalso; apply L; lra].
  assert (G : forall f k, residual_loop f 1 [] [] k = Fuel).
  { intros g. induction g as [|g IH]; intros k; [reflexivity|]. cbn [residual_loop shifted map].
    destruct (Rle_dec (l2Norm []) (l2Norm [])) as [_|N]; [apply IH|exfalso; apply N; lra]. }
  apply G.
Qed.

(** ** Unique types *)
Lemma differing_cons t u us : differing t (u :: us) = (if u =? t then 0 else 1) + differing t us.
Proof. reflexivity. Qed.
Lemma differing_nonneg t us : 0 <= differing t us.
Proof. induction us as [|u us IH]; [unfold differing; cbn; lia|]. rewrite differing_cons. destruct (u =? t); lia. Qed.
Lemma differing_zero t us : differing t us = 0 <-> Forall (fun u => u = t) us.
Proof.
  induction us as [|u us IH]; [split; [constructor|reflexivity]|].
  pose proof (differing_nonneg t us) as N. rewrite Forall_cons_iff, <- IH, differing_cons. destruct (Z.eqb_spec u t); lia.
Qed.
Lemma unique_tail us ts : (exists a b, In a us /\ In b us /\ a <> b) -> fold_left unique_step ts us = us ++ ts.
Proof.
  revert us. induction ts as [|t ts IH]; intros us H; [cbn; rewrite app_nil_r; reflexivity|]. cbn [fold_left]. unfold unique_step at 2.
  destruct (Z.eqb_spec (differing t us) 0) as [E|E].
  - exfalso. apply differing_zero in E. rewrite Forall_forall in E. destruct H as (a & b & A & B & N). apply N. rewrite (E a A), (E b B). reflexivity.
  - cbn [negb]. rewrite IH; [rewrite <- app_assoc; reflexivity|]. destruct H as (a & b & A & B & N). exists a, b. rewrite !in_app_iff. tauto.
Qed.
Lemma unique_exact t0 ts : fold_left unique_step ts [t0] = t0 :: from_first_change t0 ts.
Proof.
  induction ts as [|t ts IH]; [reflexivity|]. cbn [fold_left from_first_change]. unfold unique_step at 2. cbn [differing map zsum fold_right].
  destruct (Z.eqb_spec t t0) as [->|N].
  - unfold differing. cbn. rewrite Z.eqb_refl. cbn. exact IH.
  - unfold differing. cbn. replace (t0 =? t) with false by lia. cbn. rewrite unique_tail; [reflexivity|].
    exists t0, t. cbn. repeat split; auto.
Qed.
