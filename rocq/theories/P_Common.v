(** Helper functions: C52, C53, C58, C60 and the precise versions C79-C81. *)
From Coq Require Import Reals Lra Lia.
From Verif Require Import Base M_Seis M_Common S_Common L_Common.
Open Scope Z_scope.

(** ** C52: phase unwrapping. *)
Theorem C52_unwrapped : forall ws, wrapped ws ->
  length (unwrap ws) = length ws /\
  hd_error (unwrap ws) = hd_error ws /\
  (forall i w o, nth_error ws i = Some w -> nth_error (unwrap ws) i = Some o -> exists k, (o = w + IZR k * (2 * PI))%R) /\
  (forall i a b, nth_error (unwrap ws) i = Some a -> nth_error (unwrap ws) (S i) = Some b -> (Rabs (b - a) <= PI)%R).
Proof.
  intros [|w ws] HW; cbn [unwrap].
  - repeat split; intros [|i] ? ? H; discriminate.
  - apply Forall_cons_iff in HW. destruct HW as [Hw HW].
    destruct (unwrap_from_spec ws w w Hw HW) as (L & C & S); [exists 0; lra|].
    split; [cbn; f_equal; exact L|]. split; [reflexivity|]. split; [|exact S].
    intros [|i] w' o; cbn [nth_error]; [|apply C]. intros [= <-] [= <-]. exists 0. lra.
Qed.
Print Assumptions C52_unwrapped.
(** a jump across the cut is removed: the second value is moved by one turn *)
Example C52_example : wrapped [3; -3; -3]%R /\ unwrap [3; -3; -3]%R = [3; -3 + 2 * PI; -3 + 2 * PI]%R.
Proof.
  pose proof PI_RGT_0. assert (P3 : (3 < PI)%R) by (pose proof PI2_3_2; lra). pose proof PI_4. split; [repeat constructor; lra|].
  cbn [unwrap unwrap_from].
  destruct (Rlt_dec PI (-3 - 3)); [lra|]. destruct (Rlt_dec (-3 - 3) (- PI)); [|lra].
  destruct (Rlt_dec PI (-3 - -3)); [lra|]. destruct (Rlt_dec (-3 - -3) (- PI)); [lra|].
  f_equal. f_equal; [lra|]. f_equal. lra.
Qed.

(** ** C53: threshold replacement. *)
Theorem C53_replaced : forall v threshold replaceValue code,
  (1 <= code <= 5 -> exists out, searchAndReplace v threshold replaceValue code = Ok out /\
     Forall2 (fun x y => (relates code x threshold -> y = replaceValue) /\ (~ relates code x threshold -> y = x)) v out) /\
  (~ 1 <= code <= 5 -> searchAndReplace v threshold replaceValue code = Throw).
Proof.
  intros v t r code. split.
  - intros H. assert (A : forall g, (forall x, (relates code x t -> g x = r) /\ (~ relates code x t -> g x = x)) ->
      Forall2 (fun x y => (relates code x t -> y = r) /\ (~ relates code x t -> y = x)) v (map g v)).
    { intros g G. induction v as [|x v IH]; constructor; [apply G|exact IH]. }
    unfold searchAndReplace. assert (D : code = 1 \/ code = 2 \/ code = 3 \/ code = 4 \/ code = 5) by lia.
    destruct D as [->|[->|[->|[->| ->]]]]; cbn [Z.eqb Pos.eqb]; eexists; (split; [reflexivity|]); apply A; intros x;
      match goal with |- context [if ?d then _ else _] => destruct d as [L|L] end;
      (split; intros Q; [try reflexivity|try reflexivity]); exfalso.
    all: first
      [ destruct Q as [ [Q1 Q] | [ [Q1 Q] | [ [Q1 Q] | [ [Q1 Q] | [Q1 Q] ] ] ] ]; (discriminate Q1 || (subst; lra))
      | apply Q; unfold relates; first [left; split; [reflexivity|lra] | right; left; split; [reflexivity|lra]
      | do 2 right; left; split; [reflexivity|lra] | do 3 right; left; split; [reflexivity|lra] | do 4 right; split; [reflexivity|lra]] ].
  - intros H. unfold searchAndReplace.
    repeat match goal with |- context [code =? ?k] => destruct (Z.eqb_spec code k); [exfalso; lia|] end. reflexivity.
Qed.
Theorem C53_ratio : forall vp vs ratio, length vp = length vs ->
  (exists out, replaceVpwithVs vp vs ratio 1 = Ok out /\ length out = length vp /\
     forall i p s q, nth_error vp i = Some p -> nth_error vs i = Some s -> nth_error out i = Some q ->
       (q >= ratio * s)%R /\ ((p >= ratio * s)%R -> q = p) /\ ((p < ratio * s)%R -> q = (ratio * s)%R)) /\
  (exists out, replaceVpwithVs vp vs ratio 2 = Ok out /\ length out = length vp /\
     forall i p s q, nth_error vp i = Some p -> nth_error vs i = Some s -> nth_error out i = Some q ->
       (q <= ratio * s)%R /\ ((p <= ratio * s)%R -> q = p) /\ ((p > ratio * s)%R -> q = (ratio * s)%R)) /\
  (forall code, code <> 1 -> code <> 2 -> replaceVpwithVs vp vs ratio code = Throw).
Proof.
  intros vp vs ratio HL. unfold replaceVpwithVs. cbn [Z.eqb Pos.eqb].
  split; [|split].
  - revert vs HL. induction vp as [|p vp IH]; intros [|s vs] HL; try discriminate; cbn [limit_loop].
    + exists []. split; [reflexivity|]. split; [reflexivity|]. intros [|i]; discriminate.
    + injection HL as HL. destruct (IH vs HL) as (o & O1 & O2 & O3). rewrite O1. cbn [bind]. eexists. split; [reflexivity|]. split; [cbn; f_equal; exact O2|].
      intros [|i] p' s' q; cbn [nth_error]; [|apply O3]. intros [= <-] [= <-] [= <-]. destruct (Rlt_dec p (ratio * s)); repeat split; intros; lra.
  - revert vs HL. induction vp as [|p vp IH]; intros [|s vs] HL; try discriminate; cbn [limit_loop].
    + exists []. split; [reflexivity|]. split; [reflexivity|]. intros [|i]; discriminate.
    + injection HL as HL. destruct (IH vs HL) as (o & O1 & O2 & O3). rewrite O1. cbn [bind]. eexists. split; [reflexivity|]. split; [cbn; f_equal; exact O2|].
      intros [|i] p' s' q; cbn [nth_error]; [|apply O3]. intros [= <-] [= <-] [= <-]. destruct (Rlt_dec (ratio * s) p); repeat split; intros; lra.
  - intros code A B. destruct (Z.eqb_spec code 1); [contradiction|]. destruct (Z.eqb_spec code 2); [contradiction|]. reflexivity.
Qed.
Print Assumptions C53_replaced.
Print Assumptions C53_ratio.
Example C53_example : searchAndReplace [1; 2; 3]%R 2 7 4 = Ok [1; 7; 7]%R /\ replaceVpwithVs [3; 5]%R [2; 2]%R 2 1 = Ok [2 * 2; 5]%R.
Proof.
  split; cbn.
  - destruct (Rle_dec 2 1); [lra|]. destruct (Rle_dec 2 2); [|lra]. destruct (Rle_dec 2 3); [|lra]. reflexivity.
  - destruct (Rlt_dec 3 (2 * 2)); [|lra]. destruct (Rlt_dec 5 (2 * 2)); [lra|]. reflexivity.
Qed.

(** ** C58: the time index of any time: the nearest step for times from zero on; for negative times the quotient plus one
    half is rounded up, so the index may be the next step instead of the nearest one, but never more than that. *)
Theorem C58_time_index : forall time DT, (0 < DT)%R ->
  ((0 <= time)%R -> nearest_step time DT (time2index time DT)) /\
  ((time <= - (DT / 2))%R -> (time + DT / 2 <= IZR (time2index time DT) * DT < time + DT / 2 + DT)%R) /\
  ((- (DT / 2) < time < 0)%R -> time2index time DT = 0).
Proof.
  intros time DT HD. split; [intros H; exact (time2index_nearest time DT HD H)|].
  assert (E : (time = time / DT * DT)%R) by (field; lra). split.
  - intros H. assert (HQ : (time / DT + 1 / 2 <= 0)%R).
    { apply (Rmult_le_reg_r DT); [exact HD|]. rewrite Rmult_plus_distr_r, <- E. lra. }
    unfold time2index, truncR. destruct (Rle_dec 0 (time / DT + 1 / 2)) as [G|G].
    + assert (Z0 : (time / DT + 1 / 2 = 0)%R) by lra. rewrite Z0. replace (Int_part 0) with 0.
      * assert (E2 : (time = - (DT / 2))%R) by (rewrite E; replace (time / DT)%R with (- (1 / 2))%R by lra; lra). rewrite E2. lra.
      * symmetry. destruct (base_Int_part 0) as [A B]. assert (C : (IZR (Int_part 0) < 1)%R) by lra. assert (D : (-1 < IZR (Int_part 0))%R) by lra.
        apply lt_IZR in C. apply lt_IZR in D. lia.
    + destruct (base_Int_part (- (time / DT + 1 / 2))) as [A B]. rewrite opp_IZR.
      set (k := Int_part (- (time / DT + 1 / 2))) in *. split.
      * apply (Rmult_le_compat_r DT) in A; [|lra].
        replace (- (time / DT + 1 / 2) * DT)%R with (- (time / DT * DT) - DT / 2)%R in A by (field; lra). rewrite <- E in A. lra.
      * assert (U : (- (time / DT + 1 / 2) < IZR k + 1)%R) by lra. apply (Rmult_lt_compat_r DT) in U; [|exact HD].
        replace (- (time / DT + 1 / 2) * DT)%R with (- (time / DT * DT) - DT / 2)%R in U by (field; lra). rewrite <- E in U. lra.
  - intros [H1 H2]. assert (HQ : (0 < time / DT + 1 / 2)%R).
    { apply (Rmult_lt_reg_r DT); [exact HD|]. rewrite Rmult_plus_distr_r, <- E. lra. }
    assert (HU : (time / DT + 1 / 2 < 1)%R).
    { apply (Rmult_lt_reg_r DT); [exact HD|]. rewrite Rmult_plus_distr_r, <- E. lra. }
    unfold time2index. rewrite truncR_nonneg by lra.
    destruct (base_Int_part (time / DT + 1 / 2)) as [A B]. assert (C : (IZR (Int_part (time / DT + 1 / 2)) < 1)%R) by lra.
    assert (D : (-1 < IZR (Int_part (time / DT + 1 / 2)))%R) by lra. apply lt_IZR in C. apply lt_IZR in D. lia.
Qed.
Print Assumptions C58_time_index.
Example C58_time_index_ex : (time2index (-17 / 10) 1 = -1)%Z.
Proof.
  destruct (C58_time_index (-17 / 10) 1 ltac:(lra)) as (_ & H & _). specialize (H ltac:(lra)).
  assert (A : (IZR (time2index (-17 / 10) 1) < 0)%R) by lra. assert (B : (-2 < IZR (time2index (-17 / 10) 1))%R) by lra.
  apply lt_IZR in A. apply lt_IZR in B. lia.
Qed.

(** ** C58: the snapshots of a run.  The indices of the first and last time and of the increment are the nearest
    steps; the increment must round to at least one step. *)
Theorem C58_snapshots : forall snapType tFirst tLast tInc DT tStepEnd,
  0 < snapType -> (0 < DT)%R -> (0 <= tFirst)%R -> (0 <= tLast)%R -> (DT / 2 <= tInc)%R ->
  exists first last inc ts,
    nearest_step tFirst DT first /\ nearest_step tLast DT last /\ nearest_step tInc DT inc /\ 1 <= inc /\
    run_snapshots snapType tFirst tLast tInc DT tStepEnd = Ok ts /\
    (forall t, In t ts <-> (exists j, 0 <= j /\ t = first + j * inc) /\ t <= last /\ t < tStepEnd) /\
    (forall i a b, nth_error ts i = Some a -> nth_error ts (S i) = Some b -> a < b).
Proof.
  intros snapType tFirst tLast tInc DT tEnd HS HD HF HL HI.
  pose proof (time2index_nearest tFirst DT HD HF) as NF. pose proof (time2index_nearest tLast DT HD HL) as NL.
  pose proof (time2index_nearest tInc DT HD ltac:(lra)) as NI.
  exists (time2index tFirst DT), (time2index tLast DT), (time2index tInc DT).
  assert (I1 : 1 <= time2index tInc DT).
  { destruct NI as [A _]. assert (P : (0 < IZR (time2index tInc DT) * DT)%R) by lra.
    assert (0 < IZR (time2index tInc DT))%R by (apply (Rmult_lt_reg_r DT); [exact HD|lra]). apply lt_IZR in H. lia. }
  assert (F0 : 0 <= time2index tFirst DT).
  { destruct NF as [A _]. assert (P : (- 1 * DT < IZR (time2index tFirst DT) * DT)%R) by lra.
    apply Rmult_lt_reg_r in P; [|exact HD]. apply lt_IZR in P. lia. }
  unfold run_snapshots.
  destruct (snapshots_ok snapType (time2index tFirst DT) (time2index tLast DT) (time2index tInc DT) (zseq 0 (Z.to_nat tEnd)) HS ltac:(lia)) as (ts & E & T).
  exists ts. split; [exact NF|]. split; [exact NL|]. split; [exact NI|]. split; [exact I1|]. split; [exact E|]. rewrite T. split.
  - intros t. rewrite filter_In, zseq_In, !andb_true_iff, !Z.leb_le, Z.eqb_eq. split.
    + intros (A & (B & C) & D). apply rem_multiple in D; [|lia|lia]. destruct D as (j & J1 & J2). split; [exists j; lia|lia].
    + intros ((j & J1 & J2) & A & B). assert (0 <= j * time2index tInc DT) by (apply Z.mul_nonneg_nonneg; lia).
      split; [lia|]. split; [lia|]. apply rem_multiple; [lia|lia|]. exists j. lia.
  - intros i a b; apply sorted_filter.
Qed.
(** An increment below half a time step rounds to zero, and the first snapshot then takes a remainder by zero. *)
Theorem C58_zero_increment : forall snapType tFirst tLast tInc DT tStepEnd,
  0 < snapType -> (0 < DT)%R -> (0 <= tFirst <= tLast)%R -> (0 <= tInc < DT / 2)%R ->
  time2index tFirst DT < tStepEnd -> run_snapshots snapType tFirst tLast tInc DT tStepEnd = UB.
Proof.
  intros snapType tFirst tLast tInc DT tEnd HS HD HF HI HE. unfold run_snapshots.
  pose proof (time2index_nearest tFirst DT HD ltac:(lra)) as NF. pose proof (time2index_nearest tLast DT HD ltac:(lra)) as NL.
  assert (I0 : time2index tInc DT = 0).
  { apply (nearest_unique tInc DT); [exact HD|apply time2index_nearest; lra|]. unfold nearest_step. lra. }
  assert (F0 : 0 <= time2index tFirst DT).
  { destruct NF as [A _]. assert (P : (- 1 * DT < IZR (time2index tFirst DT) * DT)%R) by lra.
    apply Rmult_lt_reg_r in P; [|exact HD]. apply lt_IZR in P. lia. }
  assert (FL : time2index tFirst DT <= time2index tLast DT).
  { destruct NF as [_ A]. destruct NL as [B _]. assert (P : (IZR (time2index tFirst DT) * DT < (IZR (time2index tLast DT) + 1) * DT)%R) by lra.
    apply Rmult_lt_reg_r in P; [|exact HD]. rewrite <- plus_IZR in P. apply lt_IZR in P. lia. }
  rewrite I0. set (f := time2index tFirst DT) in *. set (l := time2index tLast DT) in *. clearbody f l. clear NF NL.
  assert (G : forall n s, s <= f < s + Z.of_nat n -> snapshots snapType f l 0 (zseq s n) = UB).
  { induction n as [|n IH]; intros s A; [lia|]. cbn [zseq snapshots]. replace (snapType >? 0) with true by lia. cbn [andb].
    destruct (Z_le_dec f s) as [B|B].
    - replace (s >=? f) with true by lia. replace (s <=? l) with true by lia. reflexivity.
    - replace (s >=? f) with false by lia. cbn [andb bind]. rewrite IH by lia. reflexivity. }
  apply G. lia.
Qed.
Print Assumptions C58_snapshots.
Print Assumptions C58_zero_increment.
Example C58_example : snapshots 1 2 9 3 (zseq 0 12) = Ok [2; 5; 8].
Proof. reflexivity. Qed.

(** ** C60: the list of receiver types.  It is refuted: a type is listed again when it comes back after another one. *)
Theorem C60_refuted : exists ts us, uniqueReceiverTypes ts = Ok us /\ ~ lists_once ts us.
Proof. exists [1; 2; 1], [1; 2; 1]. split; [reflexivity|]. intros [H _]. inversion H as [|? ? N]. apply N. cbn. auto. Qed.
Print Assumptions C60_refuted.

(** *** C79: what the list is, and when it is correct. *)
Theorem C79_listed : forall t0 ts,
  uniqueReceiverTypes (t0 :: ts) = Ok (t0 :: from_first_change t0 ts) /\
  (forall t, In t (t0 :: from_first_change t0 ts) <-> In t (t0 :: ts)).
Proof.
  intros t0 ts. split.
  - unfold uniqueReceiverTypes. rewrite <- unique_exact. f_equal. cbn [fold_left]. unfold unique_step at 2, differing. cbn. rewrite Z.eqb_refl. reflexivity.
  - intros t. induction ts as [|u ts IH]; [tauto|]. cbn [from_first_change]. destruct (Z.eqb_spec u t0) as [->|N]; [|tauto].
    rewrite IH. cbn. tauto.
Qed.
Theorem C79_correct_iff : forall t0 ts us, uniqueReceiverTypes (t0 :: ts) = Ok us ->
  (lists_once (t0 :: ts) us <-> ~ In t0 (from_first_change t0 ts) /\ NoDup (from_first_change t0 ts)).
Proof.
  intros t0 ts us H. destruct (C79_listed t0 ts) as [E I]. rewrite E in H. injection H as <-. unfold lists_once. split.
  - intros [N _]. inversion N. auto.
  - intros [A B]. split; [constructor; assumption|exact I].
Qed.
(** With at most one type besides the first one, in one block, or all receivers of one type, the list is right. *)
Theorem C79_single_type : forall t0 ts, Forall (fun t => t = t0) ts -> uniqueReceiverTypes (t0 :: ts) = Ok [t0].
Proof.
  intros t0 ts H. rewrite (proj1 (C79_listed t0 ts)). do 2 f_equal. induction H as [|t ts -> H IH]; [reflexivity|]. cbn. rewrite Z.eqb_refl. exact IH.
Qed.
Print Assumptions C79_listed.
Print Assumptions C79_correct_iff.
Print Assumptions C79_single_type.
Example C79_example : uniqueReceiverTypes [3; 3; 1; 2; 2] = Ok [3; 1; 2; 2] /\ uniqueReceiverTypes [3; 3; 1; 2] = Ok [3; 1; 2]
  /\ uniqueReceiverTypes [3; 3; 3] = Ok [3].
Proof. repeat split. Qed.

(** ** C80: the residual of two phases is the shift of the difference by whole turns that is smallest in the norm. *)
Theorem C80_residual : forall r, r <> [] ->
  exists fuel m, (forall f, (fuel <= f)%nat -> phaseResidual f r = Ok (map (fun x => (x + IZR m * 2 * PI)%R) r)) /\
    forall k, (l2Norm (map (fun x => (x + IZR m * 2 * PI)%R) r) <= l2Norm (map (fun x => (x + IZR k * 2 * PI)%R) r))%R.
Proof. exact residual_spec. Qed.
(** For a trace without samples the search for the smallest shift never ends. *)
Theorem C80_empty : forall fuel, phaseResidual fuel [] = Fuel.
Proof. exact residual_empty. Qed.
Print Assumptions C80_residual.
Print Assumptions C80_empty.
Example C80_example : exists fuel, phaseResidual fuel [7]%R = Ok [7 + IZR (-1) * 2 * PI]%R.
Proof.
  assert (P3 : (3 < PI)%R) by (pose proof PI2_3_2; lra). pose proof PI_4 as P4.
  assert (N : forall a b, (l2Norm [a] <= l2Norm [b] <-> a * a <= b * b)%R).
  { intros a b. rewrite norm_le. cbn. lra. }
  exists 2%nat. unfold phaseResidual. cbn [shifted map].
  destruct (Rle_dec (l2Norm [7 + 1 * 2 * PI]%R) (l2Norm [7]%R)) as [L|_]; [exfalso; apply N in L; nra|].
  destruct (Rle_dec (l2Norm [7 + -1 * 2 * PI]%R) (l2Norm [7]%R)) as [_|L]; [|exfalso; apply L, N; nra].
  cbn [residual_loop shifted map].
  destruct (Rle_dec (l2Norm [7 + -1 * 2 * PI]%R) (l2Norm [7]%R)) as [_|L]; [|exfalso; apply L, N; nra].
  change (-1 + -1) with (-2).
  destruct (Rle_dec (l2Norm [7 + -2 * 2 * PI]%R) (l2Norm [7 + -1 * 2 * PI]%R)) as [L|_]; [exfalso; apply N in L; nra|]. reflexivity.
Qed.

(** ** C81: replacement of values that are not numbers. *)
Theorem C81_invalid : forall v r,
  Forall2 (fun x y => ((exists a, x = Num a) -> y = x) /\ ((forall a, x <> Num a) -> y = Num r)) v (replaceInvalid v (Num r)) /\
  Forall (fun y => exists a, y = Num a) (replaceInvalid v (Num r)).
Proof.
  intros v r. unfold replaceInvalid. split; induction v as [|x v IH]; constructor; try exact IH.
  - destruct x; (split; [intros (a & E)|intros E]); try reflexivity; try discriminate. exfalso. exact (E x eq_refl).
  - destruct x; eauto.
Qed.
Print Assumptions C81_invalid.
Example C81_example : replaceInvalid [Num 1; NaN; PInf] (Num 0) = [Num 1; Num 0; Num 0].
Proof. reflexivity. Qed.
