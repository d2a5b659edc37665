(** Properties C39-C45 (seismograms, resampling, SU files) and C69-C73. *)
From Coq Require Import Reals Lra QArith Qround.
From Verif Require Import Base M_Grid M_Acq S_Acq L_Acq L_Acq2 L_Acq3 M_Seis S_Seis L_Seis L_Seis2.
Open Scope R_scope.
Open Scope Z_scope.
Local Notation length := List.length.

Lemma nth_map_nil (f : list R -> list R) data i : f [] = [] -> nth i (map f data) [] = f (nth i data []).
Proof. intros H. rewrite <- H at 1. apply map_nth. Qed.

(** * C39: differentiating an integrated trace gives the trace back *)
(** False: differentiateTraces overwrites a sample before it is used as the predecessor of the next one. *)
Theorem C39_differentiate_integrate_refuted :
  exists DT data i j, (0 < DT)%R /\ (i < length data)%nat /\ (1 <= j < length (nth i data []))%nat /\
    nth j (nth i (differentiateTraces DT (integrateTraces DT data)) []) 0%R <> nth j (nth i data []) 0%R.
Proof.
  exists 1%R, [[1; 0; 0]]%R, 0%nat, 2%nat. split; [lra|]. split; [cbn; lia|]. split; [cbn; lia|]. cbn. lra.
Qed.
Theorem C39_backward_difference_refuted :
  exists DT data i j, (0 < DT)%R /\ (i < length data)%nat /\ (1 <= j < length (nth i data []))%nat /\
    nth j (nth i (differentiateTraces DT data) []) 0%R <> backward_difference DT (nth i data []) j.
Proof.
  exists 1%R, [[1; 0; 0]]%R, 0%nat, 2%nat. split; [lra|]. split; [cbn; lia|]. split; [cbn; lia|].
  unfold backward_difference. cbn. lra.
Qed.
(** What is missing for the full claim: the samples after the second. *)
Theorem C39_differentiate_integrate_partial DT data i j : DT <> 0%R -> (i < length data)%nat ->
  (1 <= j < length (nth i data []))%nat -> (j < 2)%nat ->
  nth j (nth i (differentiateTraces DT (integrateTraces DT data)) []) 0%R = nth j (nth i data []) 0%R.
Proof.
  intros HD Hi Hj H2. unfold differentiateTraces, integrateTraces. rewrite map_map.
  rewrite (nth_map_nil (fun row => differentiate_row DT (integrate_row DT row)) data i eq_refl).
  replace j with 1%nat by lia. apply diff_int_second; [exact HD|lia].
Qed.
Theorem C39_backward_difference_partial DT data i j : (i < length data)%nat ->
  (1 <= j < length (nth i data []))%nat -> (j < 2)%nat ->
  nth j (nth i (differentiateTraces DT data) []) 0%R = backward_difference DT (nth i data []) j.
Proof.
  intros Hi Hj H2. unfold differentiateTraces. rewrite (nth_map_nil (differentiate_row DT) data i eq_refl).
  replace j with 1%nat by lia. rewrite differentiate_next by lia. rewrite differentiate_first. reflexivity.
Qed.

(** * C69: what integrateTraces and differentiateTraces compute *)
Theorem C69_integrate DT data i j : (i < length data)%nat -> (j < length (nth i data []))%nat ->
  length (nth i (integrateTraces DT data) []) = length (nth i data []) /\
  nth j (nth i (integrateTraces DT data) []) 0%R
  = (nth 0 (nth i data []) 0 + DT * rsum (firstn j (tl (nth i data []))))%R.
Proof.
  intros Hi Hj. unfold integrateTraces. rewrite (nth_map_nil (integrate_row DT) data i eq_refl).
  split; [apply integrate_length|apply integrate_sum, Hj].
Qed.
Theorem C69_differentiate DT data i j : DT <> 0%R -> (i < length data)%nat -> (S j < length (nth i data []))%nat ->
  let y := nth i data [] in let d := nth i (differentiateTraces DT data) [] in
  nth 0 d 0%R = nth 0 y 0%R /\ (nth (S j) d 0 * DT + nth j d 0)%R = nth (S j) y 0%R.
Proof.
  intros HD Hi Hj y d. unfold d, differentiateTraces. rewrite (nth_map_nil (differentiate_row DT) data i eq_refl). fold y.
  split; [apply differentiate_first|]. rewrite differentiate_next by exact Hj. field. exact HD.
Qed.
(** The third sample of a trace survives integration and differentiation only in a special case. *)
Theorem C69_third_sample DT data i : DT <> 0%R -> (i < length data)%nat -> (2 < length (nth i data []))%nat ->
  let y := nth i data [] in
  nth 2 (nth i (differentiateTraces DT (integrateTraces DT data)) []) 0%R = nth 2 y 0%R <->
  (nth 0 y 0 + nth 1 y 0 * DT = nth 1 y 0)%R.
Proof.
  intros HD Hi Hj y. unfold differentiateTraces, integrateTraces. rewrite map_map.
  rewrite (nth_map_nil (fun row => differentiate_row DT (integrate_row DT row)) data i eq_refl).
  apply diff_int_third; assumption.
Qed.
Example C69_case : integrateTraces 2 [[1; 2; 3]]%R = [[1; 5; 11]]%R /\ differentiateTraces 2 [[1; 5; 11]]%R = [[1; 2; 9/2]]%R.
Proof. unfold integrateTraces, differentiateTraces, integrate_row, differentiate_row. cbn. split; repeat f_equal; lra. Qed.

(** * C40: normalised traces have unit norm or are zero *)
Theorem C40_max_norm calcEnvelope s :
  let s' := normalizeTrace calcEnvelope 1 s in
  Forall2 (fun row out => positive_multiple row out /\ (zero_trace row -> out = row) /\
             (~ zero_trace row -> is_max_abs out 1)) (sdata s) (sdata s') /\
  normalizeTrace calcEnvelope 1 s' = s'.
Proof.
  cbv zeta. change (normalizeTrace calcEnvelope 1 s) with
    {| sdata := map norm1 (sdata s); sinverseAGC := sinverseAGC s; suseAGC := suseAGC s |}. split.
  - cbn [sdata]. apply Forall2_map_r. intros row _. split; [|split].
    + apply divide_multiple, one_if_zero_pos, maxNorm_nonneg.
    + apply norm1_zero.
    + apply norm1_max.
  - change (normalizeTrace calcEnvelope 1 ?t) with
      {| sdata := map norm1 (sdata t); sinverseAGC := sinverseAGC t; suseAGC := suseAGC t |}.
    cbn [sdata sinverseAGC suseAGC]. f_equal. rewrite map_map. apply map_ext. apply norm1_idem.
Qed.
Theorem C40_l2_norm calcEnvelope s :
  let s' := normalizeTrace calcEnvelope 2 s in
  Forall2 (fun row out => positive_multiple row out /\ (zero_trace row -> out = row) /\
             (~ zero_trace row -> has_l2_norm out 1)) (sdata s) (sdata s') /\
  normalizeTrace calcEnvelope 2 s' = s'.
Proof.
  cbv zeta. change (normalizeTrace calcEnvelope 2 s) with
    {| sdata := map norm2 (sdata s); sinverseAGC := sinverseAGC s; suseAGC := suseAGC s |}. split.
  - cbn [sdata]. apply Forall2_map_r. intros row _. split; [|split].
    + apply divide_multiple, one_if_zero_pos, l2_nonneg.
    + apply norm2_zero.
    + apply norm2_l2.
  - change (normalizeTrace calcEnvelope 2 ?t) with
      {| sdata := map norm2 (sdata t); sinverseAGC := sinverseAGC t; suseAGC := suseAGC t |}.
    cbn [sdata sinverseAGC suseAGC]. f_equal. rewrite map_map. apply map_ext. apply norm2_idem.
Qed.
(** A trace that is not zero: the hypothesis of the unit-norm part is satisfiable. *)
Example C40_case : ~ zero_trace [0; -3; 1]%R.
Proof. intros H. specialize (H (-3)%R ltac:(cbn; auto)). lra. Qed.

(** * C41: gain control is a sliding-window mean *)
(** False for traces of a single sample: the window is clipped to length 0 and 0/0 is computed. *)
Theorem C41_agc_mean_refuted : exists NAGC data, 1 <= NAGC /\ (exists row, In row data) /\ getAGCSum NAGC data = UB.
Proof.
  exists 1, [[5%R]]. split; [lia|]. split; [exists [5%R]; left; reflexivity|]. reflexivity.
Qed.
(** * C70 (the rest of C41): traces of at least two samples *)
Theorem C70_agc_mean calcEnvelope NAGC NT s : 1 <= NAGC -> (2 <= NT)%nat ->
  Forall (fun row => length row = NT) (sdata s) ->
  let N := Z.to_nat (Z.min NAGC (Z.of_nat NT / 2)) in
  exists out, getAGCSum NAGC (sdata s) = Ok out /\
    Forall2 (fun row o => length o = NT /\ forall t, (t < NT)%nat ->
               nth t o 0%R = mean (window row N t) /\ (1 <= length (window row N t))%nat)
            (sdata (normalizeTrace calcEnvelope 2 s)) out.
Proof.
  intros H1 H2 H N. unfold getAGCSum.
  change (sdata (normalizeTrace calcEnvelope 2 s)) with (map norm2 (sdata s)).
  change (map (fun row => divide_row (one_if_zero (l2Norm row)) row) (sdata s)) with (map norm2 (sdata s)).
  assert (H' : Forall (fun row => length row = NT) (map norm2 (sdata s))).
  { apply Forall_forall. intros r Hr. apply in_map_iff in Hr. destruct Hr as (q & <- & Hq).
    unfold norm2, divide_row. rewrite map_length. rewrite Forall_forall in H. apply H, Hq. }
  clear H. induction H' as [|row rows L _ IH].
  - exists []. split; [reflexivity|constructor].
  - destruct IH as (out & E & F). destruct (agc_row_mean NAGC row H1 ltac:(lia)) as (o & Eo & Lo & Ho).
    exists (o :: out). split; [cbn [mapres]; rewrite Eo; cbn [bind]; rewrite E; reflexivity|].
    constructor; [|exact F]. rewrite L in *. split; [exact Lo|]. exact Ho.
Qed.
Lemma water_level_spec rest row : (1 <= length row)%nat ->
  water_level rest row = let q := mean (map (fun x => x * x)%R row) in if Req_EM_T q 0 then rest else (q / 1000)%R.
Proof.
  intros _. assert (S : forall l, sumsq l = rsum (map (fun x => x * x)%R l)).
  { unfold sumsq, rsum. induction l as [|x l IH]; cbn [map fold_right]; [reflexivity|]. rewrite IH. reflexivity. }
  assert (P : (0 <= sumsq row)%R).
  { unfold sumsq. induction row as [|x l IH]; cbn [fold_right]; [lra|]. pose proof (Rle_0_sqr x) as Q. unfold Rsqr in Q. lra. }
  unfold water_level, l2Norm. rewrite sqrt_sqrt by exact P. unfold mean. rewrite map_length, <- S, <- INR_IZR_INZ. cbv zeta.
  destruct (Req_EM_T _ _); [reflexivity|]. unfold Rdiv. ring.
Qed.
Theorem C70_inverse_agc rest NAGC row : 1 <= NAGC -> (2 <= length row)%nat ->
  let N := Z.to_nat (Z.min NAGC (Z.of_nat (length row) / 2)) in
  let q := mean (map (fun x => x * x)%R row) in
  let w := if Req_EM_T q 0 then rest else (q / 1000)%R in
  exists out, inverseAGC_row rest NAGC row = Ok out /\ length out = length row /\
    forall t, (t < length row)%nat ->
      let m := mean (map (fun x => x * x + w)%R (window row N t)) in
      nth t out 0%R = if Rlt_dec 0 m then (1 / sqrt m)%R else 0%R.
Proof.
  intros H1 H2 N q w. pose proof (inverse_row_rms rest NAGC row H1 H2) as H. rewrite water_level_spec in H by lia. exact H.
Qed.
Example C70_case : window [1; 2; 3; 4; 5]%R 2 3 = [2; 3; 4; 5]%R /\ window [1; 2; 3; 4; 5]%R 2 0 = [1; 2]%R.
Proof. split; reflexivity. Qed.

(** * C42: isFinite detects every invalid trace *)
(** False: the last trace is never looked at. *)
Theorem C42_isFinite_refuted :
  exists (fin : Z -> bool) NS rows i, (1 <= NS)%nat /\ Forall (fun r => length r = NS) rows /\
    (i < length rows)%nat /\ fin (nth (NS - 1) (nth i rows []) 0) = false /\
    isFinite fin (S (length rows)) (Z.of_nat NS) (concat rows) = Ok true.
Proof.
  exists (fun x => x =? 0), 2%nat, [[0; 0]; [0; 1]], 1%nat. repeat (split; [repeat constructor|]). reflexivity.
Qed.
(** * C71: what isFinite detects *)
Theorem C71_isFinite {A} (fin : A -> bool) NS rows d : (1 <= NS)%nat -> Forall (fun r => length r = NS) rows ->
  exists b, isFinite fin (S (length rows)) (Z.of_nat NS) (concat rows) = Ok b /\
    (b = false <-> exists i, (i + 1 < length rows)%nat /\ fin (nth (NS - 1) (nth i rows []) d) = false).
Proof.
  intros HN H. eexists. split; [apply (isFinite_eq fin NS rows d HN H)|].
  destruct rows as [|r0 rows0 _] using rev_ind.
  - cbn. split; [discriminate|]. intros (i & Hi & _). lia.
  - rewrite removelast_last. rewrite app_length. cbn [length]. split.
    + intros F. rewrite <- not_true_iff_false, forallb_forall in F.
      assert (N : ~ forall i, (i < length rows0)%nat -> fin (nth (NS - 1) (nth i rows0 []) d) = true).
      { intros N. apply F. intros x Hx. apply (In_nth _ _ []) in Hx. destruct Hx as (i & Hi & <-). apply N, Hi. }
      assert (D : forall n, (n <= length rows0)%nat ->
        (exists i, (i < n)%nat /\ fin (nth (NS - 1) (nth i rows0 []) d) = false) \/
        (forall i, (i < n)%nat -> fin (nth (NS - 1) (nth i rows0 []) d) = true)).
      { induction n as [|n IHn]; intros Hn; [right; intros; lia|].
        destruct (IHn ltac:(lia)) as [(i & Hi & E)|A1]; [left; exists i; split; [lia|exact E]|].
        destruct (fin (nth (NS - 1) (nth n rows0 []) d)) eqn:E.
        - right. intros i Hi. destruct (Nat.eq_dec i n) as [->|]; [exact E|apply A1; lia].
        - left. exists n. split; [lia|exact E]. }
      destruct (D (length rows0) ltac:(lia)) as [(i & Hi & E)|A1]; [|contradiction].
      exists i. split; [lia|]. rewrite app_nth1 by lia. exact E.
    + intros (i & Hi & E). rewrite app_nth1 in E by lia. rewrite <- not_true_iff_false, forallb_forall.
      intros F. rewrite F in E; [discriminate|]. apply nth_In. lia.
Qed.
(** The check of a whole handler: the conjunction of the checks of its seismograms. *)
Theorem C71_handler (bs : list bool) : isFinite_all (map (@Ok bool) bs) = Ok (forallb (fun b => b) bs).
Proof. induction bs as [|[|] bs IH]; cbn [map isFinite_all bind forallb andb]; [reflexivity|exact IH|reflexivity]. Qed.
Example C71_case : isFinite (fun x => x =? 0) 4 2 (concat [[5; 0]; [0; 1]; [0; 0]]) = Ok false /\
  isFinite (fun x => x =? 0) 4 2 (concat [[5; 0]; [0; 0]; [0; 7]]) = Ok true.
Proof. split; reflexivity. Qed.

(** * C43: resampling is linear interpolation *)
Theorem C43_interpolation tr c : tr <> [] -> (0 < c)%Q ->
  (forall r, (r < length (resample c tr))%nat <-> (inject_Z (Z.of_nat r) * c <= inject_Z (Z.of_nat (length tr) - 1))%Q) /\
  (forall r, (r < length (resample c tr))%nat ->
     interpolates tr (inject_Z (Z.of_nat r) * c) (nth r (resample c tr) 0%Q)).
Proof.
  intros Hne Hc. assert (Hn : 1 <= Z.of_nat (length tr)) by (destruct tr; [congruence|cbn; lia]).
  pose proof (cols_pos (Z.of_nat (length tr)) c Hn Hc) as CP. split; intros r.
  - rewrite <- (cols_spec (Z.of_nat (length tr)) c Hc), resample_length. lia.
  - intros Hr. rewrite resample_nth by exact Hr. rewrite resample_length in Hr.
    apply sample_eq; [exact Hc|lia|reflexivity].
Qed.
Theorem C43_weights n c r : 1 <= n -> (0 < c)%Q -> 0 <= r < resample_cols n c ->
  let column := filter (fun e => snd (fst e) =? r) (resample_entries n c) in
  (forall e, In e column -> (0 <= snd e)%Q /\ 0 <= fst (fst e) < n) /\ (qsum (map snd column) == 1)%Q.
Proof. intros Hn Hc Hr. apply weights; assumption. Qed.
Theorem C43_identity tr : length (resample 1 tr) = length tr /\
  forall r, (r < length tr)%nat -> (nth r (resample 1 tr) 0 == nth r tr 0)%Q.
Proof.
  assert (L : length (resample 1 tr) = length tr).
  { rewrite resample_length. unfold resample_cols.
    rewrite (Qfloor_comp _ (inject_Z (Z.of_nat (length tr) - 1))) by field. rewrite Qfloor_Z. lia. }
  split; [exact L|]. intros r Hr.
  assert (Hne : tr <> []) by (intros ->; cbn in Hr; lia).
  destruct (C43_interpolation tr 1 Hne ltac:(reflexivity)) as [_ I]. rewrite <- L in Hr. specialize (I r Hr).
  apply (interpolates_comp _ _ (inject_Z (Z.of_nat r))) in I; [|ring].
  apply interpolates_int in I. rewrite Nat2Z.id in I. exact I.
Qed.
Example C43_case : map Qred (resample (1 # 2) [0; 4; 6]%Q) = [0; 2; 4; 5; 6]%Q.
Proof. reflexivity. Qed.

(** * C44: SU files round-trip trace data *)
(** The traces handed to writeSU; see [good]: same number of samples, samples are 32-bit patterns, the
    header field ns is set from the number of samples. *)
Theorem C44_data junk ns p q traces : (30 <= length junk)%nat -> Forall (good ns) traces -> 1 <= p -> 1 <= q ->
  flat_map (readDataSU (writeSU junk p traces) (Z.of_nat ns) (Z.of_nat (length traces)) q) (zseq 0 (Z.to_nat q))
  = map snd traces.
Proof. intros J. exact (readDataSU_all junk J ns p q traces). Qed.
(** False for traces of 65536 and more samples: the header stores the number of samples in 16 bits. *)
Theorem C44_single_trace_refuted junk old p : (30 <= length junk)%nat -> 1 <= p -> forall ns, 65536 <= Z.of_nat ns ->
  forall traces k d, Forall (good ns) traces -> (k < length traces)%nat ->
  readSingleDataSU old (writeSU junk p traces) (Z.of_nat k) <> snd (nth k traces d).
Proof.
  intros J Hp ns Hns traces k d H Hk E.
  pose proof (readSingle_wrap junk J ns p old traces (Z.of_nat k) H Hp Hns ltac:(intros ->; cbn in Hk; lia)) as L.
  rewrite E in L. rewrite Forall_forall in H. destruct (H (nth k traces d) (nth_In _ _ Hk)) as (L2 & _). lia.
Qed.
Definition h0 (ns : Z) : segy :=
  {| tracl := 1; tracr := 1; ep := 1; cdp := 1; trid := 1; soffset := 0; gelev := 0; sdepth := 0; gdel := 0; swdep := 0;
     gwdep := 0; scalel := -3; scalco := -3; sx := 0; sy := 0; gx := 0; gy := 0; hns := ns; hdt := 2000; d1 := 0; ntr := 1 |}.
Theorem C44_refuted : exists junk old p ns traces k d, (30 <= length junk)%nat /\ 1 <= p /\ Forall (good ns) traces /\
  (k < length traces)%nat /\ readSingleDataSU old (writeSU junk p traces) (Z.of_nat k) <> snd (nth k traces d).
Proof.
  set (n := Z.to_nat 65536). set (t := (h0 (Z.of_nat n), repeat 0 n)).
  assert (G : Forall (good n) [t]).
  { constructor; [|constructor]. unfold t. split; [apply repeat_length|]. split; [|reflexivity].
    apply Forall_forall. cbn [snd]. intros x Hx. apply repeat_spec in Hx. subst. lia. }
  exists (repeat 0 30), [], 1, n, [t], 0%nat, t.
  assert (J : (30 <= length (repeat 0%Z 30))%nat) by (rewrite repeat_length; lia).
  split; [exact J|]. split; [lia|]. split; [exact G|]. split; [cbn; lia|].
  apply (C44_single_trace_refuted _ [] 1 J ltac:(lia) n); [unfold n; rewrite Z2Nat.id; lia|exact G|cbn; lia].
Qed.
(** * C72 (the rest of C44): up to 65535 samples *)
Theorem C72_single_trace junk ns p old traces k d : (30 <= length junk)%nat -> Forall (good ns) traces -> 1 <= p ->
  Z.of_nat ns <= 65535 -> (k < length traces)%nat ->
  readSingleDataSU old (writeSU junk p traces) (Z.of_nat k) = snd (nth k traces d).
Proof. intros J. exact (readSingle_eq junk J ns p old traces k d). Qed.
Theorem C72_headers junk ns p old traces fuel : (30 <= length junk)%nat -> Forall (good ns) traces -> 1 <= p ->
  Z.of_nat ns <= 65535 -> length old = 240%nat -> (length traces < fuel)%nat ->
  readHeaderSU fuel old (writeSU junk p traces) = Ok (map (fun t => header_bytes junk (fst t)) traces).
Proof. intros J H Hp Hns Ho Hf. rewrite write_eq by exact Hp. apply (readHeader_eq junk J ns); assumption. Qed.
Example C72_case : readSingleDataSU [] (writeSU (repeat 7 30) 2 [(h0 2, [5; 6]); (h0 2, [7; 8]); (h0 2, [9; 4294967295])]) 2
  = [9; 4294967295] /\ Forall (good 2) [(h0 2, [5; 6]); (h0 2, [7; 8]); (h0 2, [9; 4294967295])].
Proof. split; [reflexivity|]. repeat constructor; cbn; lia. Qed.

(** * C45: SU headers round-trip coordinates *)
Definition int32 (v : Z) : Prop := - 2 ^ 31 <= v < 2 ^ 31.
Definition nonneg_coord (c : gcoord) : Prop := 0 <= gcx c /\ 0 <= gcy c /\ 0 <= gcz c.
Definition fits (DH : Q) (c : gcoord) : Prop :=
  int32 (millimetres DH (gcx c)) /\ int32 (millimetres DH (gcy c)) /\ int32 (millimetres DH (gcz c)).
Lemma sle4 v : int32 v -> sle (le 4 v) = v.
Proof. intros H. apply sle_le; [lia|]. unfold int32 in H. change (256 ^ Z.of_nat 4) with (2 ^ 32). lia. Qed.

(** Source coordinates are recovered. *)
Theorem C45_source_partial DH junk src rec h : (1 # 1000 < DH)%Q -> nonneg_coord src -> fits DH src ->
  source_coord DH (header_bytes junk (set_coords DH src rec h)) = src.
Proof.
  intros HD (H1 & H2 & H3) (F1 & F2 & F3). unfold source_coord, h_sx, h_sy, h_sdepth, h_scalco, h_scalel.
  rewrite f_sx, f_sy, f_sdepth, f_scalco, f_scalel. cbn [set_coords sx sy sdepth scalco scalel].
  rewrite !sle4 by assumption. change (sle (le 2 (-3))) with (-3).
  rewrite !src_exact by assumption. destruct src; reflexivity.
Qed.
(** Receiver coordinates are not: the reader truncates.  Grid spacing 1/3 m, receiver at x = 1. *)
Theorem C45_receiver_refuted : exists DH src rec h junk, (1 # 1000 < DH)%Q /\ nonneg_coord rec /\ fits DH rec /\
  receiver_coord DH (header_bytes junk (set_coords DH src rec h)) <> rec.
Proof.
  exists (1 # 3)%Q, {| gcx := 0; gcy := 0; gcz := 0 |}, {| gcx := 1; gcy := 0; gcz := 0 |}, (h0 2), [].
  split; [reflexivity|]. split; [repeat split; cbn; lia|].
  split; [repeat split; vm_compute; congruence|]. vm_compute. congruence.
Qed.
(** * C73 (the rest of C45): the receivers that are recovered *)
Definition not_rounded_down (DH : Q) (x : Z) : Prop := (inject_Z x * DH * 1000 <= inject_Z (millimetres DH x))%Q.
Theorem C73_receiver DH junk src rec h : (1 # 1000 < DH)%Q -> nonneg_coord rec -> fits DH rec ->
  (receiver_coord DH (header_bytes junk (set_coords DH src rec h)) = rec <->
   not_rounded_down DH (gcx rec) /\ not_rounded_down DH (gcy rec) /\ not_rounded_down DH (gcz rec)).
Proof.
  intros HD (H1 & H2 & H3) (F1 & F2 & F3). unfold receiver_coord, h_gx, h_gy, h_gelev, h_scalco, h_scalel.
  rewrite f_gx, f_gy, f_gelev, f_scalco, f_scalel. cbn [set_coords gx gy gelev scalco scalel].
  rewrite !sle4 by assumption. change (sle (le 2 (-3))) with (-3).
  unfold not_rounded_down. rewrite <- !(rec_exact DH HD) by assumption.
  destruct rec as [x y z]. cbn [gcx gcy gcz]. split.
  - intros E. injection E as E1 E2 E3. auto.
  - intros (E1 & E2 & E3). rewrite E1, E2, E3. reflexivity.
Qed.
(** In particular when the grid spacing is a whole number of millimetres; end to end through the file. *)
Theorem C73_whole_millimetres mm junk ns p old fuel traces : 2 <= mm -> (30 <= length junk)%nat -> 1 <= p ->
  Z.of_nat ns <= 65535 -> length old = 240%nat -> (length traces < fuel)%nat ->
  let DH := (inject_Z mm / 1000)%Q in
  Forall (fun t => exists src h, nonneg_coord (fst t) /\ fits DH (fst t) /\ nonneg_coord src /\ fits DH src /\
            fst (snd t) = set_coords DH src (fst t) h /\ good ns (snd t)) traces ->
  exists hs, readHeaderSU fuel old (writeSU junk p (map snd traces)) = Ok hs /\
    map (receiver_coord DH) hs = map fst traces.
Proof.
  intros Hm J Hp Hns Ho Hf DH H.
  exists (map (fun t => header_bytes junk (fst t)) (map snd traces)). split.
  - apply (C72_headers junk ns); try assumption; [|rewrite map_length; exact Hf].
    apply Forall_map. eapply Forall_impl; [|exact H]. intros t (src & h & _ & _ & _ & _ & _ & G). exact G.
  - rewrite !map_map. apply map_ext_in. intros t Ht. rewrite Forall_forall in H.
    destruct (H t Ht) as (src & h & N1 & F1 & _ & _ & E & _). rewrite E.
    assert (HD : (1 # 1000 < DH)%Q).
    { unfold DH. apply Qlt_shift_div_l; [reflexivity|]. change ((1 # 1000) * 1000)%Q with (1000 # 1000)%Q.
      apply Qlt_le_trans with (inject_Z 2); [reflexivity|]. rewrite <- Zle_Qle. lia. }
    apply C73_receiver; [exact HD|exact N1|exact F1|].
    assert (W : forall x, 0 <= x -> not_rounded_down DH x).
    { intros x Hx. unfold not_rounded_down, millimetres.
      assert (Ex : (inject_Z x * DH * 1000 == inject_Z (x * mm))%Q) by (rewrite inject_Z_mult; unfold DH; field).
      rewrite (round_comp _ _ Ex), round_int by nia. rewrite Ex. apply Qle_refl. }
    destruct N1 as (A & B & C). auto.
Qed.
Example C73_case : fits (1 # 2) {| gcx := 40; gcy := 3; gcz := 7 |} /\ not_rounded_down (1 # 2) 3 /\ ~ not_rounded_down (1 # 3) 1.
Proof. repeat split; vm_compute; congruence. Qed.

Print Assumptions C39_differentiate_integrate_refuted.
Print Assumptions C39_differentiate_integrate_partial.
Print Assumptions C69_integrate.
Print Assumptions C69_differentiate.
Print Assumptions C40_max_norm.
Print Assumptions C40_l2_norm.
Print Assumptions C41_agc_mean_refuted.
Print Assumptions C70_agc_mean.
Print Assumptions C70_inverse_agc.
Print Assumptions C42_isFinite_refuted.
Print Assumptions C71_isFinite.
Print Assumptions C71_handler.
Print Assumptions C43_interpolation.
Print Assumptions C43_weights.
Print Assumptions C43_identity.
Print Assumptions C44_data.
Print Assumptions C44_refuted.
Print Assumptions C72_single_trace.
Print Assumptions C72_headers.
Print Assumptions C45_source_partial.
Print Assumptions C45_receiver_refuted.
Print Assumptions C73_receiver.
Print Assumptions C73_whole_millimetres.
