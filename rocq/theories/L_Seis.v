(** Lemmas about traces in memory: integration, differentiation, normalisation, gain control,
    finiteness check. *)
From Coq Require Import Reals Lra QArith Qround.
From Verif Require Import Base M_Grid M_Acq S_Acq L_AcqFile L_Acq L_Acq2 L_Acq3 M_Seis S_Seis.
Open Scope R_scope.
Open Scope Z_scope.
Local Notation length := List.length.

(** ** In-place recurrences *)
Fixpoint inpl (f : R -> R -> R) (prev : R) (l : list R) : list R :=
  match l with [] => [] | x :: r => f x prev :: inpl f (f x prev) r end.

Lemma rset_app a p l v : rset (a ++ p :: l) (length a) v = a ++ v :: l.
Proof. induction a as [|y a IH]; cbn; [reflexivity|]. rewrite IH. reflexivity. Qed.
Lemma rget_app a p l : rget (a ++ p :: l) (length a) = p.
Proof. unfold rget. rewrite app_nth2, Nat.sub_diag by lia. reflexivity. Qed.

Lemma fold_inpl f l : forall a p,
  fold_left (fun t j => rset t (j + 1) (f (rget t (j + 1)) (rget t j))) (seq (length a) (length l)) (a ++ p :: l)
  = a ++ p :: inpl f p l.
Proof.
  induction l as [|x l IH]; intros a p; [reflexivity|].
  cbn [length seq fold_left inpl].
  assert (E : a ++ p :: x :: l = (a ++ [p]) ++ x :: l) by (rewrite <- app_assoc; reflexivity).
  replace (rget (a ++ p :: x :: l) (length a)) with p by (rewrite rget_app; reflexivity).
  rewrite E. replace (length a + 1)%nat with (length (a ++ [p])) by (rewrite app_length; reflexivity).
  rewrite rget_app, rset_app.
  replace (S (length a)) with (length (a ++ [p])) by (rewrite app_length; cbn; lia).
  rewrite IH, <- app_assoc. reflexivity.
Qed.
Lemma integrate_row_eq DT x l :
  integrate_row DT (x :: l) = x :: inpl (fun a p => a * DT + p)%R x l.
Proof.
  unfold integrate_row. cbn [length]. replace (S (length l) - 1)%nat with (length l) by lia.
  apply (fold_inpl (fun a p => a * DT + p)%R l [] x).
Qed.
Lemma differentiate_row_eq DT x l :
  differentiate_row DT (x :: l) = x :: inpl (fun a p => (a - p) / DT)%R x l.
Proof.
  unfold differentiate_row. cbn [length]. replace (S (length l) - 1)%nat with (length l) by lia.
  apply (fold_inpl (fun a p => (a - p) / DT)%R l [] x).
Qed.
Lemma inpl_length f l : forall p, length (inpl f p l) = length l.
Proof. induction l as [|x l IH]; intros p; cbn; [reflexivity|]. rewrite IH. reflexivity. Qed.
Lemma inpl_nth f l : forall p j, (j < length l)%nat ->
  nth (S j) (p :: inpl f p l) 0%R = f (nth j l 0%R) (nth j (p :: inpl f p l) 0%R).
Proof.
  induction l as [|x l IH]; intros p j H; [cbn in H; lia|].
  destruct j as [|j]; [reflexivity|].
  cbn [inpl]. cbn [length] in H.
  change (nth (S (S j)) (p :: f x p :: inpl f (f x p) l) 0%R) with (nth (S j) (f x p :: inpl f (f x p) l) 0%R).
  rewrite IH by lia. reflexivity.
Qed.

Lemma integrate_length DT row : length (integrate_row DT row) = length row.
Proof. destruct row as [|x l]; [reflexivity|]. rewrite integrate_row_eq. cbn. rewrite inpl_length. reflexivity. Qed.
Lemma differentiate_length DT row : length (differentiate_row DT row) = length row.
Proof. destruct row as [|x l]; [reflexivity|]. rewrite differentiate_row_eq. cbn. rewrite inpl_length. reflexivity. Qed.

Lemma integrate_first DT row : nth 0 (integrate_row DT row) 0%R = nth 0 row 0%R.
Proof. destruct row; [reflexivity|]. rewrite integrate_row_eq. reflexivity. Qed.
Lemma differentiate_first DT row : nth 0 (differentiate_row DT row) 0%R = nth 0 row 0%R.
Proof. destruct row; [reflexivity|]. rewrite differentiate_row_eq. reflexivity. Qed.
Lemma integrate_next DT row j : (S j < length row)%nat ->
  nth (S j) (integrate_row DT row) 0%R = (nth (S j) row 0 * DT + nth j (integrate_row DT row) 0)%R.
Proof.
  destruct row as [|x l]; cbn [length]; intros H; [lia|]. rewrite integrate_row_eq, inpl_nth by lia. reflexivity.
Qed.
Lemma differentiate_next DT row j : (S j < length row)%nat ->
  nth (S j) (differentiate_row DT row) 0%R = ((nth (S j) row 0 - nth j (differentiate_row DT row) 0) / DT)%R.
Proof.
  destruct row as [|x l]; cbn [length]; intros H; [lia|]. rewrite differentiate_row_eq, inpl_nth by lia. reflexivity.
Qed.

Lemma integrate_sum DT row j : (j < length row)%nat ->
  nth j (integrate_row DT row) 0%R = (nth 0 row 0 + DT * rsum (firstn j (tl row)))%R.
Proof.
  induction j as [|j IH]; intros H.
  - rewrite integrate_first. cbn. ring.
  - rewrite integrate_next, IH by lia. destruct row as [|x l]; [cbn in H; lia|]. cbn [tl nth length] in *.
    assert (E : forall (k : list R) i, (i < length k)%nat -> rsum (firstn (S i) k) = (rsum (firstn i k) + nth i k 0)%R).
    { induction k as [|y k IHk]; intros i Hi; [cbn in Hi; lia|]. destruct i as [|i]; [cbn; ring|].
      cbn [firstn rsum fold_right nth] in *. cbn [length] in Hi. specialize (IHk i ltac:(lia)).
      unfold rsum in IHk. cbn [firstn] in IHk. unfold rsum in *. rewrite IHk. ring. }
    rewrite E by lia. ring.
Qed.

Lemma diff_int_second DT row : DT <> 0%R -> (1 < length row)%nat ->
  nth 1 (differentiate_row DT (integrate_row DT row)) 0%R = nth 1 row 0%R.
Proof.
  intros HD H. rewrite differentiate_next by (rewrite integrate_length; lia).
  rewrite differentiate_first, integrate_next by lia. field. exact HD.
Qed.
Lemma diff_int_third DT row : DT <> 0%R -> (2 < length row)%nat ->
  nth 2 (differentiate_row DT (integrate_row DT row)) 0%R = nth 2 row 0%R <->
  (nth 0 row 0 + nth 1 row 0 * DT = nth 1 row 0)%R.
Proof.
  intros HD H. rewrite differentiate_next by (rewrite integrate_length; lia).
  rewrite diff_int_second by (assumption || lia).
  rewrite (integrate_next DT row 1), (integrate_next DT row 0), integrate_first by lia.
  set (a := nth 0 row 0%R). set (b := nth 1 row 0%R). set (c := nth 2 row 0%R).
  assert (Q : ((c * DT + (b * DT + a) - b) / DT * DT = c * DT + (b * DT + a) - b)%R) by (field; exact HD).
  split; intros E.
  - rewrite E in Q. lra.
  - apply (Rmult_eq_reg_r DT); [|exact HD]. rewrite Q. lra.
Qed.

(** ** Normalisation *)
Lemma maxNorm_nonneg row : (0 <= maxNorm row)%R.
Proof.
  induction row as [|x r IH]; cbn; [lra|]. pose proof (Rmax_r (Rabs x) (maxNorm r)). unfold maxNorm in *. lra.
Qed.
Lemma maxNorm_ge row x : In x row -> (Rabs x <= maxNorm row)%R.
Proof.
  induction row as [|y r IH]; cbn; [tauto|]. intros [->|H].
  - apply Rmax_l.
  - eapply Rle_trans; [apply IH, H|apply Rmax_r].
Qed.
Lemma maxNorm_attained row : row <> [] -> exists x, In x row /\ Rabs x = maxNorm row.
Proof.
  induction row as [|y r IH]; [congruence|]. intros _. destruct r as [|z r].
  - exists y. split; [left; reflexivity|]. cbn. rewrite Rmax_left; [reflexivity|apply Rabs_pos].
  - destruct (IH ltac:(congruence)) as (x & Hx & E). cbn [maxNorm fold_right] in *.
    unfold maxNorm in *. cbn [fold_right] in *.
    destruct (Rle_dec (Rmax (Rabs z) (fold_right (fun x m => Rmax (Rabs x) m) 0%R r)) (Rabs y)) as [L|L].
    + exists y. split; [left; reflexivity|]. rewrite Rmax_left; [reflexivity|exact L].
    + exists x. split; [right; exact Hx|]. rewrite Rmax_right; [exact E|lra].
Qed.
Lemma maxNorm_zero row : maxNorm row = 0%R <-> zero_trace row.
Proof.
  split.
  - intros E x Hx. pose proof (maxNorm_ge row x Hx). rewrite E in *. pose proof (Rabs_pos x).
    destruct (Req_dec x 0) as [|N]; [assumption|]. pose proof (Rabs_pos_lt x N). lra.
  - intros H. destruct row as [|y r]; [reflexivity|].
    destruct (maxNorm_attained (y :: r) ltac:(congruence)) as (x & Hx & <-). rewrite (H x Hx). apply Rabs_R0.
Qed.
Lemma maxNorm_divide c row : (0 < c)%R -> maxNorm (divide_row c row) = (maxNorm row / c)%R.
Proof.
  intros Hc. unfold divide_row. induction row as [|x r IH]; cbn; [field; lra|].
  unfold maxNorm in *. rewrite IH.
  unfold Rdiv. rewrite Rabs_mult, (Rabs_right (/ c)) by (apply Rle_ge, Rlt_le, Rinv_0_lt_compat, Hc).
  rewrite !(Rmult_comm _ (/ c)). rewrite RmaxRmult by (apply Rlt_le, Rinv_0_lt_compat, Hc). reflexivity.
Qed.
Lemma sumsq_nonneg row : (0 <= sumsq row)%R.
Proof. induction row as [|x r IH]; cbn; [lra|]. unfold sumsq in IH. nra. Qed.
Lemma sumsq_zero row : sumsq row = 0%R <-> zero_trace row.
Proof.
  induction row as [|y r IH]; cbn.
  - split; [intros _ x []|reflexivity].
  - pose proof (sumsq_nonneg r) as H. unfold sumsq in *. split.
    + intros E. assert (y = 0%R) by nra. subst. intros x [Hx|Hx]; [symmetry; exact Hx|].
      apply IH; [nra|exact Hx].
    + intros Z. rewrite (Z y) by (left; reflexivity). rewrite (proj2 IH); [ring|].
      intros x Hx. apply Z. right; exact Hx.
Qed.
Lemma sumsq_divide c row : c <> 0%R -> sumsq (divide_row c row) = (sumsq row / (c * c))%R.
Proof.
  intros Hc. unfold divide_row. induction row as [|x r IH]; cbn; [field; exact Hc|].
  unfold sumsq in *. rewrite IH. field. exact Hc.
Qed.
Lemma sumsq_rsum row : sumsq row = rsum (map (fun x => x * x)%R row).
Proof. induction row as [|x r IH]; cbn; [reflexivity|]. unfold sumsq, rsum in *. rewrite IH. reflexivity. Qed.
Lemma l2_zero row : l2Norm row = 0%R <-> zero_trace row.
Proof.
  rewrite <- sumsq_zero. unfold l2Norm. split; intros E; [|rewrite E; apply sqrt_0].
  apply sqrt_eq_0; [apply sumsq_nonneg|exact E].
Qed.
Lemma l2_sq row : (l2Norm row * l2Norm row)%R = sumsq row.
Proof. apply sqrt_sqrt, sumsq_nonneg. Qed.
Lemma l2_nonneg row : (0 <= l2Norm row)%R.
Proof. apply sqrt_pos. Qed.

Definition norm1 (row : list R) := divide_row (one_if_zero (maxNorm row)) row.
Definition norm2 (row : list R) := divide_row (one_if_zero (l2Norm row)) row.

Lemma divide_multiple c row : (0 < c)%R -> positive_multiple row (divide_row c row).
Proof.
  intros Hc. exists (/ c)%R. split; [apply Rinv_0_lt_compat, Hc|].
  apply map_ext. intros x. unfold Rdiv. ring.
Qed.
Lemma one_if_zero_pos c : (0 <= c)%R -> (0 < one_if_zero c)%R.
Proof. intros H. unfold one_if_zero. destruct (Req_EM_T c 0); lra. Qed.
Lemma divide_one row : divide_row 1 row = row.
Proof. unfold divide_row. rewrite <- (map_id row) at 2. apply map_ext. intros. field. Qed.
Lemma divide_zero c row : zero_trace row -> c <> 0%R -> divide_row c row = row.
Proof.
  intros H Hc. unfold divide_row. rewrite <- (map_id row) at 2. apply map_ext_in. intros x Hx.
  rewrite (H x Hx). field. exact Hc.
Qed.
Lemma norm1_unit row : ~ zero_trace row -> maxNorm (norm1 row) = 1%R.
Proof.
  intros N. unfold norm1, one_if_zero. destruct (Req_EM_T (maxNorm row) 0) as [E|E].
  - apply maxNorm_zero in E. contradiction.
  - pose proof (maxNorm_nonneg row). rewrite maxNorm_divide by lra. field. exact E.
Qed.
Lemma norm2_unit row : ~ zero_trace row -> l2Norm (norm2 row) = 1%R.
Proof.
  intros N. unfold norm2, one_if_zero. destruct (Req_EM_T (l2Norm row) 0) as [E|E].
  - apply l2_zero in E. contradiction.
  - unfold l2Norm at 1. rewrite sumsq_divide by exact E. rewrite l2_sq.
    unfold Rdiv. rewrite Rinv_r; [apply sqrt_1|]. intros Z. apply sumsq_zero in Z. contradiction.
Qed.
Lemma zero_dec row : {zero_trace row} + {~ zero_trace row}.
Proof.
  destruct (Req_EM_T (maxNorm row) 0) as [E|E]; [left|right]; rewrite <- maxNorm_zero; assumption.
Qed.
Lemma norm1_zero row : zero_trace row -> norm1 row = row.
Proof.
  intros H. unfold norm1. apply divide_zero; [exact H|].
  pose proof (one_if_zero_pos _ (maxNorm_nonneg row)). lra.
Qed.
Lemma norm2_zero row : zero_trace row -> norm2 row = row.
Proof.
  intros H. unfold norm2. apply divide_zero; [exact H|].
  pose proof (one_if_zero_pos _ (l2_nonneg row)). lra.
Qed.
Lemma norm1_idem row : norm1 (norm1 row) = norm1 row.
Proof.
  destruct (zero_dec row) as [Z|N]; [rewrite (norm1_zero row Z); apply norm1_zero, Z|].
  unfold norm1 at 1. rewrite norm1_unit by exact N. unfold one_if_zero.
  destruct (Req_EM_T 1 0) as [E|E]; [lra|apply divide_one].
Qed.
Lemma norm2_idem row : norm2 (norm2 row) = norm2 row.
Proof.
  destruct (zero_dec row) as [Z|N]; [rewrite (norm2_zero row Z); apply norm2_zero, Z|].
  unfold norm2 at 1. rewrite norm2_unit by exact N. unfold one_if_zero.
  destruct (Req_EM_T 1 0) as [E|E]; [lra|apply divide_one].
Qed.
Lemma nonzero_nonempty row : ~ zero_trace row -> row <> [].
Proof. intros N ->. apply N. intros x []. Qed.
Lemma norm1_max row : ~ zero_trace row -> is_max_abs (norm1 row) 1.
Proof.
  intros N. pose proof (norm1_unit row N) as E. split.
  - intros x Hx. rewrite <- E. apply maxNorm_ge, Hx.
  - destruct (maxNorm_attained (norm1 row)) as (x & Hx & Ex).
    + unfold norm1, divide_row. pose proof (nonzero_nonempty row N). destruct row; [congruence|]. cbn. congruence.
    + exists x. split; [exact Hx|]. rewrite Ex. exact E.
Qed.
Lemma norm2_l2 row : ~ zero_trace row -> has_l2_norm (norm2 row) 1.
Proof.
  intros N. pose proof (norm2_unit row N) as E. split; [lra|].
  rewrite <- sumsq_rsum, <- l2_sq, E. reflexivity.
Qed.

Lemma Forall2_map_r {A B} (P : A -> B -> Prop) (f : A -> B) l : (forall x, In x l -> P x (f x)) -> Forall2 P l (map f l).
Proof.
  induction l as [|x l IH]; intros H; cbn; constructor; [apply H; left; reflexivity|].
  apply IH. intros y Hy. apply H. right; exact Hy.
Qed.

(** ** Gain control *)
Section Agc.
  Variable f : R -> R.
  Variable row : list R.
  Let NT := Z.of_nat (length row).
  (** sum of the first [i] terms *)
  Definition psum (i : Z) : R := rsum (map f (firstn (Z.to_nat i) row)).
  Lemma psum_next i : 0 <= i < NT -> psum (i + 1) = (psum i + f (nth (Z.to_nat i) row 0%R))%R.
  Proof.
    intros H. unfold psum. replace (Z.to_nat (i + 1)) with (S (Z.to_nat i)) by lia.
    assert (L : (Z.to_nat i < length row)%nat) by (unfold NT in H; lia).
    generalize dependent (Z.to_nat i). clear. intros k. revert k.
    induction row as [|x r IH]; intros k L; cbn [length] in L; [lia|].
    destruct k as [|k]; [cbn; ring|]. cbn [firstn map nth rsum fold_right]. specialize (IH k ltac:(lia)).
    unfold rsum in *. cbn [firstn] in IH. cbn [firstn] in *. rewrite IH. ring.
  Qed.
  Variable N : Z.
  Hypothesis N_pos : 1 <= N.
  Hypothesis N_half : 2 * N <= NT.
  Definition lo (t : Z) := Z.max 0 (t - N).
  Definition hi (t : Z) := Z.min NT (t + N).
  Definition wsum (t : Z) := (psum (hi t) - psum (lo t))%R.

  (** One step of a running-sum loop, abstractly: [st] is the body of the loop. *)
  Lemma step_sum t : 0 <= t < NT ->
    (NT - N <= t -> wsum t = (wsum (t + 1) + f (nth (Z.to_nat (t - N)) row 0))%R /\
       hi t - lo t = hi (t + 1) - lo (t + 1) + 1 /\ 0 <= t - N < NT) /\
    (N <= t < NT - N -> wsum t = (wsum (t + 1) + f (nth (Z.to_nat (t - N)) row 0) - f (nth (Z.to_nat (t + N)) row 0))%R /\
       hi t - lo t = hi (t + 1) - lo (t + 1) /\ 0 <= t - N < NT /\ 0 <= t + N < NT) /\
    (t < N -> t < NT - N -> wsum t = (wsum (t + 1) - f (nth (Z.to_nat (t + N)) row 0))%R /\
       hi t - lo t = hi (t + 1) - lo (t + 1) - 1 /\ 0 <= t + N < NT).
  Proof.
    intros Ht. unfold wsum. repeat split; try (unfold hi, lo; lia).
    - replace (hi (t + 1)) with (hi t) by (unfold hi; lia).
      replace (lo (t + 1)) with (lo t + 1) by (unfold lo; lia).
      rewrite psum_next by (unfold lo; lia). replace (lo t) with (t - N) by (unfold lo; lia). ring.
    - replace (hi (t + 1)) with (hi t + 1) by (unfold hi; lia).
      replace (lo (t + 1)) with (lo t + 1) by (unfold lo; lia).
      rewrite !psum_next by (unfold lo, hi; lia). replace (lo t) with (t - N) by (unfold lo; lia).
      replace (hi t) with (t + N) by (unfold hi; lia). ring.
    - replace (hi (t + 1)) with (hi t + 1) by (unfold hi; lia).
      replace (lo (t + 1)) with (lo t) by (unfold lo; lia).
      rewrite !psum_next by (unfold lo, hi; lia).
      replace (hi t) with (t + N) by (unfold hi; lia). ring.
  Qed.
  Definition entry (t : Z) : Z * (R * Z) := (t, (wsum t, hi t - lo t)).

  Lemma init_sum : forall n s acc, 0 <= s -> s + Z.of_nat n <= NT ->
    agc_init f row acc (zseq s n) = Ok (acc + psum (s + Z.of_nat n) - psum s)%R.
  Proof.
    induction n as [|n IH]; intros s acc Hs Hn; cbn [zseq agc_init].
    - f_equal. replace (s + Z.of_nat 0) with s by lia. ring.
    - rewrite (vget_some row s 0%R) by (fold NT; lia). cbn [bind]. rewrite IH by lia. f_equal.
      replace (s + 1 + Z.of_nat n) with (s + Z.of_nat (S n)) by lia.
      rewrite psum_next by lia. ring.
  Qed.
  Lemma start_sum : agc_init f row 0%R (zseq (NT - N) (Z.to_nat N)) = Ok (wsum NT) /\ hi NT - lo NT = N.
  Proof.
    split; [|unfold hi, lo; lia]. rewrite init_sum by lia. f_equal. unfold wsum.
    replace (NT - N + Z.of_nat (Z.to_nat N)) with (hi NT) by (unfold hi; lia).
    replace (NT - N) with (lo NT) by (unfold lo; lia). ring.
  Qed.
End Agc.

Lemma rev_zseq_S k : rev (zseq 0 (S k)) = Z.of_nat k :: rev (zseq 0 k).
Proof. replace (S k) with (k + 1)%nat by lia. rewrite zseq_app, rev_app_distr. cbn [zseq rev app]. f_equal. Qed.

Lemma agc_loop_eq row N : 1 <= N -> 2 * N <= Z.of_nat (length row) ->
  forall k, (k <= length row)%nat ->
  agc_loop N (Z.of_nat (length row)) row (wsum (fun x => x) row N (Z.of_nat k))
           (hi row N (Z.of_nat k) - lo N (Z.of_nat k)) (rev (zseq 0 k))
  = Ok (map (entry (fun x => x) row N) (rev (zseq 0 k))).
Proof.
  intros H1 H2. induction k as [|k IH]; intros Hk; [reflexivity|].
  rewrite rev_zseq_S. cbn [agc_loop map]. set (t := Z.of_nat k) in *. set (NT := Z.of_nat (length row)) in *.
  destruct (step_sum (fun x => x) row N H1 H2 t ltac:(lia)) as (A & B & C). fold NT in A, B, C.
  replace (Z.of_nat (S k)) with (t + 1) by lia.
  assert (E : (if t >=? NT - N then
         var <- vget row (t - N) ;; Ok ((wsum (fun x => x) row N (t+1) + var)%R, hi row N (t+1) - lo N (t+1) + 1)
       else if (t >=? N) && (t <? NT - N) then
         var <- vget row (t - N) ;;
         var0 <- vget row (t + N) ;; Ok ((wsum (fun x => x) row N (t+1) + var - var0)%R, hi row N (t+1) - lo N (t+1))
       else if t <? N then
         var <- vget row (t + N) ;; Ok ((wsum (fun x => x) row N (t+1) - var)%R, hi row N (t+1) - lo N (t+1) - 1)
       else Ok (wsum (fun x => x) row N (t+1), hi row N (t+1) - lo N (t+1)))
     = Ok (wsum (fun x => x) row N t, hi row N t - lo N t)).
  { destruct (Z.geb_spec t (NT - N)) as [L|L].
    - destruct (A ltac:(lia)) as (-> & -> & R1). rewrite (vget_some row _ 0%R) by (fold NT; lia). reflexivity.
    - destruct (Z.geb_spec t N) as [L2|L2].
      + replace (t <? NT - N) with true by lia. cbn [andb].
        destruct (B ltac:(lia)) as (-> & -> & R1 & R2). rewrite !(vget_some row _ 0%R) by (fold NT; lia). reflexivity.
      + cbn [andb]. replace (t <? N) with true by lia.
        destruct (C ltac:(lia) ltac:(lia)) as (-> & -> & R1). rewrite (vget_some row _ 0%R) by (fold NT; lia). reflexivity. }
  rewrite E. cbn [bind]. rewrite IH by lia. reflexivity.
Qed.

Lemma inv_loop_eq w row N : 1 <= N -> 2 * N <= Z.of_nat (length row) ->
  let f := (fun x => x * x + w)%R in
  forall k, (k <= length row)%nat ->
  inv_loop w N (Z.of_nat (length row)) row (wsum f row N (Z.of_nat k))
           (hi row N (Z.of_nat k) - lo N (Z.of_nat k)) (rev (zseq 0 k))
  = Ok (map (entry f row N) (rev (zseq 0 k))).
Proof.
  intros H1 H2 f. induction k as [|k IH]; intros Hk; [reflexivity|].
  rewrite rev_zseq_S. cbn [inv_loop map]. set (t := Z.of_nat k) in *. set (NT := Z.of_nat (length row)) in *.
  destruct (step_sum f row N H1 H2 t ltac:(lia)) as (A & B & C). fold NT in A, B, C.
  replace (Z.of_nat (S k)) with (t + 1) by lia.
  assert (E : (if t >=? NT - N then
         var <- vget row (t - N) ;; Ok ((wsum f row N (t+1) + var * var + w)%R, hi row N (t+1) - lo N (t+1) + 1)
       else if (t >=? N) && (t <? NT - N) then
         var <- vget row (t - N) ;;
         var0 <- vget row (t + N) ;; Ok ((wsum f row N (t+1) + var * var - var0 * var0)%R, hi row N (t+1) - lo N (t+1))
       else if t <? N then
         var <- vget row (t + N) ;; Ok ((wsum f row N (t+1) - var * var - w)%R, hi row N (t+1) - lo N (t+1) - 1)
       else Ok (wsum f row N (t+1), hi row N (t+1) - lo N (t+1)))
     = Ok (wsum f row N t, hi row N t - lo N t)).
  { destruct (Z.geb_spec t (NT - N)) as [L|L].
    - destruct (A ltac:(lia)) as (-> & -> & R1). rewrite (vget_some row _ 0%R) by (fold NT; lia). cbn [bind].
      unfold f. do 2 f_equal. ring.
    - destruct (Z.geb_spec t N) as [L2|L2].
      + replace (t <? NT - N) with true by lia. cbn [andb].
        destruct (B ltac:(lia)) as (-> & -> & R1 & R2). rewrite !(vget_some row _ 0%R) by (fold NT; lia). cbn [bind].
        unfold f. do 2 f_equal. ring.
      + cbn [andb]. replace (t <? N) with true by lia.
        destruct (C ltac:(lia) ltac:(lia)) as (-> & -> & R1). rewrite (vget_some row _ 0%R) by (fold NT; lia). cbn [bind].
        unfold f. do 2 f_equal. ring. }
  rewrite E. cbn [bind]. rewrite IH by lia. reflexivity.
Qed.

Lemma mapres_ok {A B} (f : A -> res B) (g : A -> B) l : (forall x, In x l -> f x = Ok (g x)) -> mapres f l = Ok (map g l).
Proof.
  induction l as [|x l IH]; intros H; cbn; [reflexivity|]. rewrite H by (left; reflexivity). cbn.
  rewrite IH by (intros y Hy; apply H; right; exact Hy). reflexivity.
Qed.

Lemma clip_bounds NAGC NT : 1 <= NAGC -> 2 <= NT -> 1 <= clip_nagc NAGC NT /\ 2 * clip_nagc NAGC NT <= NT.
Proof.
  intros H1 H2. unfold clip_nagc. rewrite Z.quot_div_nonneg by lia.
  pose proof (Z.mul_div_le NT 2 ltac:(lia)). pose proof (Z.div_le_lower_bound NT 2 1 ltac:(lia) ltac:(lia)).
  destruct (Z.gtb_spec NAGC (NT / 2)); lia.
Qed.

Lemma rsum_app a b : rsum (a ++ b) = (rsum a + rsum b)%R.
Proof. unfold rsum. induction a as [|x a IH]; cbn [app fold_right]; [ring|]. rewrite IH. ring. Qed.
Lemma window_sum f row N t : (t < length row)%nat ->
  rsum (map f (window row N t)) = wsum f row (Z.of_nat N) (Z.of_nat t).
Proof.
  intros H. unfold wsum, psum, window, hi, lo.
  replace (Z.to_nat (Z.min (Z.of_nat (length row)) (Z.of_nat t + Z.of_nat N))) with (Nat.min (length row) (t + N)) by lia.
  replace (Z.to_nat (Z.max 0 (Z.of_nat t - Z.of_nat N))) with (t - N)%nat by lia.
  set (a := (t - N)%nat). set (b := Nat.min (length row) (t + N)).
  assert (E : firstn b row = firstn a row ++ firstn (b - a) (skipn a row)).
  { assert (a <= b)%nat by lia. rewrite <- (firstn_skipn a row) at 1. rewrite firstn_app, firstn_firstn, firstn_length.
    replace (Nat.min b a) with a by lia. replace (b - Nat.min a (length row))%nat with (b - a)%nat by lia. reflexivity. }
  rewrite E, map_app, rsum_app. ring.
Qed.
Lemma window_length row N t : (t < length row)%nat ->
  Z.of_nat (length (window row N t)) = hi row (Z.of_nat N) (Z.of_nat t) - lo (Z.of_nat N) (Z.of_nat t).
Proof. intros H. unfold window, hi, lo. rewrite firstn_length, skipn_length. lia. Qed.

(** the gain function of one row *)
Lemma map_zseq_nth {A} (g : Z -> A) n d : forall t, (t < n)%nat -> nth t (map g (zseq 0 n)) d = g (Z.of_nat t).
Proof.
  intros t H. apply nth_error_nth. rewrite nth_error_map, zseq_nth_error by exact H. reflexivity.
Qed.

Lemma agc_row_mean NAGC row : 1 <= NAGC -> (2 <= length row)%nat ->
  let N := Z.to_nat (Z.min NAGC (Z.of_nat (length row) / 2)) in
  exists out, getAGCSum_row NAGC row = Ok out /\ length out = length row /\
    forall t, (t < length row)%nat -> nth t out 0%R = mean (window row N t) /\ (1 <= length (window row N t))%nat.
Proof.
  intros H1 H2 N. set (NT := Z.of_nat (length row)).
  destruct (clip_bounds NAGC NT H1 ltac:(lia)) as [C1 C2].
  assert (EN : clip_nagc NAGC NT = Z.of_nat N).
  { unfold clip_nagc, N in *. fold NT. rewrite Z.quot_div_nonneg in * by lia. destruct (Z.gtb_spec NAGC (NT / 2)); lia. }
  unfold getAGCSum_row, agc_row. fold NT.
  set (M := clip_nagc NAGC NT) in *.
  destruct (start_sum (fun x => x) row M C1 C2) as [S1 S2]. fold NT in S1, S2. rewrite S1. cbn [bind].
  assert (L : agc_loop M NT row (wsum (fun x => x) row M NT) M (rev (zseq 0 (Z.to_nat NT)))
              = Ok (map (entry (fun x => x) row M) (rev (zseq 0 (length row))))).
  { pose proof (agc_loop_eq row M C1 C2 (length row) ltac:(lia)) as E. fold NT in E.
    rewrite S2 in E. replace (Z.to_nat NT) with (length row) by lia. exact E. }
  rewrite L. cbn [bind].
  assert (pos : forall t, 0 <= t < NT -> 1 <= hi row M t - lo M t).
  { intros t Ht. unfold hi, lo. fold NT. lia. }
  rewrite (mapres_ok agc_mean (fun p => fst (snd p) / IZR (snd (snd p)))%R).
  2:{ intros p Hp. apply in_map_iff in Hp. destruct Hp as (t & <- & Ht). apply in_rev in Ht. apply zseq_in in Ht.
      unfold agc_mean, entry. cbn [fst snd]. specialize (pos t ltac:(lia)).
      replace (hi row M t - lo M t =? 0) with false by lia. reflexivity. }
  cbn [bind]. eexists. split; [reflexivity|]. split.
  { rewrite rev_length, !map_length, rev_length, zseq_length. reflexivity. }
  intros t Ht. rewrite map_map, <- map_rev, rev_involutive, map_zseq_nth by exact Ht. cbn [entry fst snd].
  unfold mean. rewrite <- (map_id (window row N t)) at 1. rewrite (window_sum (fun x => x)) by exact Ht.
  rewrite INR_IZR_INZ, (window_length row N t Ht), <- EN. split; [reflexivity|].
  pose proof (window_length row N t Ht) as WL. rewrite <- EN in WL. specialize (pos (Z.of_nat t) ltac:(lia)). lia.
Qed.

Lemma inverse_row_rms rest NAGC row : 1 <= NAGC -> (2 <= length row)%nat ->
  let N := Z.to_nat (Z.min NAGC (Z.of_nat (length row) / 2)) in
  let w := water_level rest row in
  exists out, inverseAGC_row rest NAGC row = Ok out /\ length out = length row /\
    forall t, (t < length row)%nat ->
      let m := mean (map (fun x => x * x + w)%R (window row N t)) in
      nth t out 0%R = if Rlt_dec 0 m then (1 / sqrt m)%R else 0%R.
Proof.
  intros H1 H2 N w. set (NT := Z.of_nat (length row)).
  destruct (clip_bounds NAGC NT H1 ltac:(lia)) as [C1 C2].
  assert (EN : clip_nagc NAGC NT = Z.of_nat N).
  { unfold clip_nagc, N in *. fold NT. rewrite Z.quot_div_nonneg in * by lia. destruct (Z.gtb_spec NAGC (NT / 2)); lia. }
  unfold inverseAGC_row. fold NT. fold w.
  set (M := clip_nagc NAGC NT) in *. set (f := (fun x => x * x + w)%R).
  destruct (start_sum f row M C1 C2) as [S1 S2]. fold NT in S1, S2. rewrite S1. cbn [bind].
  assert (L : inv_loop w M NT row (wsum f row M NT) M (rev (zseq 0 (Z.to_nat NT)))
              = Ok (map (entry f row M) (rev (zseq 0 (length row))))).
  { pose proof (inv_loop_eq w row M C1 C2 (length row) ltac:(lia)) as E. fold NT in E. fold f in E.
    rewrite S2 in E. replace (Z.to_nat NT) with (length row) by lia. exact E. }
  rewrite L. cbn [bind].
  assert (pos : forall t, 0 <= t < NT -> 1 <= hi row M t - lo M t).
  { intros t Ht. unfold hi, lo. fold NT. lia. }
  set (g := fun p : Z * (R * Z) => let m := (fst (snd p) / IZR (snd (snd p)))%R in
     if Rlt_dec 0 m then (1 / sqrt m)%R else 0%R).
  rewrite (mapres_ok inv_value g).
  2:{ intros p Hp. apply in_map_iff in Hp. destruct Hp as (t & <- & Ht). apply in_rev in Ht. apply zseq_in in Ht.
      unfold inv_value, agc_mean, entry, g. cbn [fst snd]. specialize (pos t ltac:(lia)).
      replace (hi row M t - lo M t =? 0) with false by lia. reflexivity. }
  cbn [bind]. eexists. split; [reflexivity|]. split.
  { rewrite rev_length, !map_length, rev_length, zseq_length. reflexivity. }
  intros t Ht. rewrite map_map, <- map_rev, rev_involutive, map_zseq_nth by exact Ht. unfold g. cbn [entry fst snd].
  unfold mean. rewrite (window_sum f) by exact Ht. rewrite map_length.
  rewrite INR_IZR_INZ, (window_length row N t Ht), <- EN. reflexivity.
Qed.

(** ** isFinite *)
Section Finite.
  Context {A : Type}.
  Variable fin : A -> bool.
  (** last samples of consecutive traces of a row-major storage *)
  Lemma concat_length (NS : nat) (rows : list (list A)) : Forall (fun r => length r = NS) rows ->
    length (concat rows) = (length rows * NS)%nat.
  Proof.
    induction 1 as [|r rows H _ IH]; cbn; [reflexivity|]. rewrite app_length, H, IH. reflexivity.
  Qed.
  Lemma concat_last (NS : nat) (rows : list (list A)) k d : (1 <= NS)%nat -> Forall (fun r => length r = NS) rows ->
    (k < length rows)%nat -> nth (k * NS + (NS - 1)) (concat rows) d = nth (NS - 1) (nth k rows []) d.
  Proof.
    intros HN H. revert k. induction H as [|r rows H Hr IH]; intros k Hk; cbn [length] in Hk; [lia|].
    cbn [concat]. destruct k as [|k].
    - cbn [Nat.mul Nat.add nth]. rewrite app_nth1 by lia. reflexivity.
    - rewrite app_nth2 by nia. cbn [nth]. rewrite <- IH by lia. f_equal. nia.
  Qed.
  Lemma finite_loop (NS : nat) (rows : list (list A)) d : (1 <= NS)%nat -> Forall (fun r => length r = NS) rows ->
    forall m k fuel, (k + m = length rows)%nat -> (m < fuel)%nat ->
    isFinite_loop fin fuel (Z.of_nat NS) (concat rows) (Z.of_nat k * Z.of_nat NS + (Z.of_nat NS - 1))
    = Ok (forallb (fun r => fin (nth (NS - 1) r d)) (skipn k (removelast rows))).
  Proof.
    intros HN H. pose proof (concat_length NS rows H) as CL.
    induction m as [|m IH]; intros k fuel Hk Hf; (destruct fuel as [|fuel]; [lia|]); cbn [isFinite_loop].
    - rewrite CL. destruct (Z.ltb_spec (Z.of_nat k * Z.of_nat NS + (Z.of_nat NS - 1)) (Z.of_nat (length rows * NS) - 1)); [nia|].
      rewrite skipn_all2; [reflexivity|]. destruct rows as [|r rows] using rev_ind; [cbn; lia|].
      rewrite removelast_last. rewrite app_length in Hk. cbn in Hk. lia.
    - assert (Hne : rows <> []) by (intros ->; cbn in Hk; lia).
      rewrite (app_removelast_last [] Hne) in Hk at 1. rewrite app_length in Hk. cbn [length] in Hk.
      assert (LR : length rows = (length (removelast rows) + 1)%nat).
      { rewrite (app_removelast_last [] Hne) at 1. rewrite app_length. reflexivity. }
      rewrite CL. destruct (Z.ltb_spec (Z.of_nat k * Z.of_nat NS + (Z.of_nat NS - 1)) (Z.of_nat (length rows * NS) - 1)) as [L|L].
      + assert (Hkr : (k < length (removelast rows))%nat) by nia.
        replace (Z.of_nat k * Z.of_nat NS + (Z.of_nat NS - 1)) with (Z.of_nat (k * NS + (NS - 1))) by nia.
        rewrite (vget_ok (concat rows) _ (nth (k * NS + (NS - 1)) (concat rows) d)).
        2:{ apply nth_error_nth'. rewrite CL. nia. }
        cbn [bind]. rewrite (concat_last NS rows k d HN H) by lia.
        assert (SK : skipn k (removelast rows) = nth k rows [] :: skipn (S k) (removelast rows)).
        { assert (E : nth k rows [] = nth k (removelast rows) []).
          { rewrite (app_removelast_last [] Hne) at 1. apply app_nth1. exact Hkr. }
          rewrite E. clear - Hkr. revert k Hkr. induction (removelast rows) as [|r l IHl]; intros k Hk; cbn [length] in Hk; [lia|].
          destruct k as [|k]; [reflexivity|]. cbn [skipn nth]. apply IHl. lia. }
        rewrite SK. cbn [forallb]. destruct (fin (nth (NS - 1) (nth k rows []) d)); cbn [negb andb]; [|reflexivity].
        rewrite <- (IH (S k) fuel) by lia. f_equal. nia.
      + assert (k >= length (removelast rows))%nat by nia.
        rewrite skipn_all2 by lia. reflexivity.
  Qed.
  Lemma isFinite_eq (NS : nat) (rows : list (list A)) d : (1 <= NS)%nat -> Forall (fun r => length r = NS) rows ->
    isFinite fin (S (length rows)) (Z.of_nat NS) (concat rows)
    = Ok (forallb (fun r => fin (nth (NS - 1) r d)) (removelast rows)).
  Proof.
    intros HN H. unfold isFinite. pose proof (finite_loop NS rows d HN H (length rows) 0 (S (length rows)) eq_refl ltac:(lia)) as E.
    cbn [skipn] in E. rewrite <- E. f_equal.
  Qed.
End Finite.
