(** Properties C96-C100: synthetic source signals. *)
From Coq Require Import Reals Lra Lia.
From Verif Require Import Base M_Signal S_Signal L_Signal.
Open Scope R_scope.

(** ** C96: the signals that extend over the whole time axis *)
Theorem C96_formula : forall NT DT FC AMP Tshift, (0 < NT)%Z -> 0 < DT -> 0 < FC ->
  (exists v, ricker NT DT FC AMP Tshift = Ok v /\ sampled NT DT (fun t => AMP * ricker_at FC (t - (3 / 2 / FC + Tshift))) v) /\
  (exists v, fgaussian NT DT FC AMP Tshift = Ok v /\ sampled NT DT (fun t => AMP * fgauss_at FC (t - (12 / 10 / FC + Tshift))) v) /\
  (exists v, ricker_gprmax NT DT FC AMP Tshift = Ok v /\ sampled NT DT (fun t => AMP * gprmax_at FC (t - (1 / FC + Tshift))) v) /\
  (exists v, sin_signal NT DT FC AMP Tshift = Ok v /\ sampled NT DT (fun t => AMP * sine_at FC (t - Tshift)) v).
Proof.
  intros NT DT FC AMP Tshift HN HD HF. unfold ricker, fgaussian, ricker_gprmax, sin_signal. rewrite !checked_ok by assumption.
  pose proof PI_RGT_0.
  repeat split; eexists; (split; [reflexivity|apply vec_sampled; [lia|eapply vec_ext; [vecs|]]]); intros i _; cbv beta.
  - unfold ricker_at. set (s := IZR i * DT - (3 / 2 / FC + Tshift)). replace (-1 * (s * (PI * FC) * (s * (PI * FC)))) with (- (PI * FC * s) ^ 2) by ring. ring.
  - unfold fgauss_at. set (s := IZR i * DT - (12 / 10 / FC + Tshift)). replace (-1 * (s * (PI * FC)) * (s * (PI * FC))) with (- (PI * FC * s) ^ 2) by ring. ring.
  - unfold gprmax_at. set (s := IZR i * DT - (1 / FC + Tshift)).
    replace (-1 * (2 * PI * PI * FC * FC * (s * s))) with (- 2 * (PI * FC * s) ^ 2) by ring.
    replace (1 / (2 * PI * PI * FC * FC) / 4) with (1 / (8 * (PI * FC) ^ 2)) by (field; lra). ring.
  - unfold sine_at. f_equal. f_equal. ring.
Qed.
Print Assumptions C96_formula.

(** The largest magnitude of the samples 0 .. NT-1. *)
Definition is_max_abs (NT : Z) (g : Z -> R) (m : R) : Prop :=
  (forall i, (0 <= i < NT)%Z -> Rabs (g i) <= m) /\ exists i, (0 <= i < NT)%Z /\ Rabs (g i) = m.
Lemma maxNorm_ub v x : In x v -> Rabs x <= maxNorm v.
Proof.
  induction v as [|a v IH]; intros []; cbn.
  - subst. apply Rmax_l.
  - eapply Rle_trans; [apply IH; assumption|apply Rmax_r].
Qed.
Lemma maxNorm_in v : v <> [] -> exists x, In x v /\ Rabs x = maxNorm v.
Proof.
  induction v as [|a v IH]; intros H; [congruence|]. change (maxNorm (a :: v)) with (Rmax (Rabs a) (maxNorm v)). destruct v as [|b v].
  - exists a. split; [now left|]. cbn. rewrite Rmax_left; [reflexivity|apply Rabs_pos].
  - destruct IH as (x & Hx & E); [congruence|]. destruct (Rle_dec (Rabs a) (maxNorm (b :: v))).
    + exists x. split; [right; exact Hx|]. rewrite Rmax_right by assumption. exact E.
    + exists a. split; [now left|]. rewrite Rmax_left by lra. reflexivity.
Qed.
Lemma vec_max NT v g : (0 < NT)%Z -> vec NT v g -> is_max_abs NT g (maxNorm v).
Proof.
  intros HN (L & H). split.
  - intros i Hi. apply maxNorm_ub. eapply nth_error_In. apply H. exact Hi.
  - destruct (maxNorm_in v) as (x & Hx & E); [intros ->; cbn in L; lia|]. apply In_nth_error in Hx as (n & Hn).
    assert (n < length v)%nat by (apply nth_error_Some; congruence). exists (Z.of_nat n). split; [lia|].
    rewrite <- E. f_equal. specialize (H (Z.of_nat n) ltac:(lia)). rewrite Nat2Z.id in H. congruence.
Qed.
(** Berlage: scaled to the amplitude; if all samples vanish (the wavelet starts after the last time step) the samples are not
    numbers. *)
Theorem C96_berlage : forall NT DT FC AMP Tshift, (0 < NT)%Z -> 0 < DT -> 0 < FC ->
  let s i := berlage_at FC (IZR i * DT - (1 / FC + Tshift)) in
  exists m, is_max_abs NT s m /\
    (m = 0 -> berlage NT DT FC AMP Tshift = Ok None) /\
    (m <> 0 -> exists v, berlage NT DT FC AMP Tshift = Ok (Some v) /\
       sampled NT DT (fun t => AMP / m * berlage_at FC (t - (1 / FC + Tshift))) v).
Proof.
  intros NT DT FC AMP Tshift HN HD HF s. unfold berlage. rewrite checked_ok by assumption. cbv zeta.
  match goal with |- context [maxNorm ?v] => set (sg := v) end.
  assert (V : vec NT sg s).
  { eapply vec_ext; [subst sg; vecs|]. intros i _. unfold s, berlage_at. cbv beta. set (x := IZR i * DT - (1 / FC + Tshift)).
    replace (x * - (2 * FC)) with (- (2 * FC * x)) by ring. unfold sgn at 2.
    destruct (Rlt_dec x 0).
    - unfold sgn. destruct (Rlt_dec (-1 + 1) 0); [lra|]. destruct (Rlt_dec 0 (-1 + 1)); [lra|]. ring.
    - assert (forall y, 0 < y -> sgn y = 1) as S1 by (intros y Hy; unfold sgn; destruct (Rlt_dec y 0); [lra|]; destruct (Rlt_dec 0 y); lra).
      destruct (Rlt_dec 0 x); rewrite S1 by lra; ring. }
  exists (maxNorm sg). split; [apply vec_max; assumption|]. destruct (Req_EM_T (maxNorm sg) 0) as [E|E]; split; intros H; try contradiction; [reflexivity|].
  eexists. split; [reflexivity|]. apply vec_sampled; [lia|]. eapply vec_ext; [apply vec_map1; exact V|]. intros i _. unfold s. ring.
Qed.
Print Assumptions C96_berlage.

(** Invalid arguments are rejected. *)
Theorem C96_rejected : forall NT DT FC AMP Tshift shape, (1 <= shape <= 9)%Z -> shape <> 5%Z ->
  ~ ((0 < NT)%Z /\ 0 < DT /\ 0 < FC) -> synthetic shape NT DT FC AMP Tshift = Throw.
Proof.
  intros NT DT FC AMP Tshift shape H1 H5 H.
  assert (shape = 1 \/ shape = 2 \/ shape = 3 \/ shape = 4 \/ shape = 6 \/ shape = 7 \/ shape = 8 \/ shape = 9)%Z as C by lia.
  destruct C as [->|[->|[->|[->|[->|[->|[->| ->]]]]]]]; cbn [synthetic]; unfold ricker, sinw, sinthree, fgaussian, intgsinthree, ricker_gprmax, berlage, sin_signal;
  rewrite checked_throw by exact H; reflexivity.
Qed.
Print Assumptions C96_rejected.

(** ** C97: the signals of one period
    a = floor (Tshift / DT) is the first sample and m = floor (1 / (FC DT)) the number of steps in one period. *)
Definition in_window (NT a m : Z) (i : Z) : bool := ((a <=? i) && (i <=? a + m))%Z.
Theorem C97_window : forall NT DT FC AMP Tshift a m, (0 < NT)%Z -> 0 < DT -> 0 < FC ->
  is_floor (Tshift / DT) a -> is_floor (1 / FC / DT) m ->
  let one_period (calc : Z -> R -> R -> R -> R -> res (list R)) (wave : R -> R) (outside : R) :=
    ((NT <= a)%Z -> calc NT DT FC AMP Tshift = Throw) /\
    ((a < 0)%Z \/ (a + m = NT)%Z -> (a < NT)%Z -> calc NT DT FC AMP Tshift = UB) /\
    ((0 <= a < NT)%Z -> (a + m <> NT)%Z -> exists v, calc NT DT FC AMP Tshift = Ok v /\ Z.of_nat (length v) = NT /\
       forall i, (0 <= i < NT)%Z -> nth_error v (Z.to_nat i) = Some (AMP * if in_window NT a m i then wave (IZR (i - a) * DT) else outside)) in
  one_period sinthree (sin3_at FC) 0 /\ one_period sinw (sinw_at FC) 0 /\ one_period intgsinthree (intg_at FC) (2 / (3 * PI * FC)).
Proof.
  intros NT DT FC AMP Tshift a m HN HD HF Ha Hm one_period. pose proof PI_RGT_0.
  assert (Hm0 : (0 <= m)%Z). { eapply floor_nonneg; [|exact Hm]. apply Rlt_le. unfold Rdiv. rewrite Rmult_1_l. apply Rmult_lt_0_compat; apply Rinv_0_lt_compat; assumption. }
  assert (W : forall A (k : Z -> Z -> res A), window NT DT FC Tshift k = if (a <? NT)%Z then k a (if (NT <? a + m)%Z then NT - 1 else a + m)%Z else Throw)
    by (intros; apply window_cases; assumption).
  subst one_period. cbv beta.
  assert (I : forall i, IZR (Z.of_nat (Z.to_nat (i - a))) = if (a <=? i)%Z then IZR (i - a) else 0).
  { intros i. destruct (Z.leb_spec a i); [rewrite Z2Nat.id by lia; reflexivity|]. replace (Z.to_nat (i - a)) with 0%nat by lia. reflexivity. }
  assert (Wi : forall i, (0 <= i < NT)%Z -> (a <= NT - 1)%Z -> (a + m <> NT)%Z -> ((a <=? i) && (i <=? (if (NT <? a + m)%Z then NT - 1 else a + m)))%Z = in_window NT a m i).
  { intros i Hi H1 H2. unfold in_window. destruct (Z.ltb_spec NT (a + m)); [|reflexivity]. destruct (Z.leb_spec i (NT - 1)), (Z.leb_spec i (a + m)); try lia; reflexivity. }
  unfold sinthree, sinw, intgsinthree. rewrite !checked_ok by assumption.
  assert (B : (0 <= a < NT)%Z -> (a + m <> NT)%Z -> (a <= (if (NT <? a + m)%Z then NT - 1 else a + m) < NT)%Z) by (intros; destruct (Z.ltb_spec NT (a + m)); lia).
  assert (U : (a < 0)%Z \/ (a + m = NT)%Z -> (a < NT)%Z -> forall f, write_window (fillv NT 0) a (if (NT <? a + m)%Z then NT - 1 else a + m) f = UB).
  { intros H1 H2 f. apply window_ub; destruct (Z.ltb_spec NT (a + m)); lia. }
  set (b := (if (NT <? a + m)%Z then NT - 1 else a + m)%Z) in *. clearbody b.
  repeat split; rewrite ?W; try (destruct (Z.ltb_spec a NT); try lia; reflexivity).
  - intros H1 H2. destruct (Z.ltb_spec a NT); [|lia]. rewrite (U H1 H2). reflexivity.
  - intros H1 H2. destruct (Z.ltb_spec a NT); [|lia]. specialize (B H1 H2).
    destruct (window_fill NT a b (fun c => (sin (INR c * DT * PI * FC)) ^ 3) ltac:(lia) ltac:(lia) ltac:(lia)) as (v & E & L & N). rewrite E. cbn [bind].
    assert (V : vec NT v _) by (split; [exact L|exact N]).
    eexists. split; [reflexivity|]. split; [rewrite vmap1_len; lia|]. intros i Hi. rewrite (vmap1_nth _ _ _ _ (N i Hi)). f_equal. f_equal.
    rewrite Wi by lia. destruct (in_window NT a m i) eqn:Ei; [|reflexivity]. unfold sin3_at. rewrite INR_IZR_INZ, I. unfold in_window in Ei.
    destruct (Z.leb_spec a i); [|discriminate]. do 2 f_equal. ring.
  - intros H1 H2. destruct (Z.ltb_spec a NT); [|lia]. rewrite (U H1 H2). reflexivity.
  - intros H1 H2. destruct (Z.ltb_spec a NT); [|lia]. specialize (B H1 H2).
    destruct (window_fill NT a b (fun c => sin (2 * INR c * DT * PI * FC)) ltac:(lia) ltac:(lia) ltac:(lia)) as (v & E & L & N). rewrite E. cbn [bind].
    destruct (window_fill NT a b (fun c => sin (2 * (2 * INR c * DT * PI * FC))) ltac:(lia) ltac:(lia) ltac:(lia)) as (v' & E' & L' & N'). rewrite E'. cbn [bind].
    eexists. split; [reflexivity|].
    assert (V : vec NT v _) by (split; [exact L|exact N]). assert (V' : vec NT v' _) by (split; [exact L'|exact N']).
    match goal with |- (Z.of_nat (length ?w) = _)%Z /\ _ => assert (VV : vec NT w (fun i => AMP * if in_window NT a m i then sinw_at FC (IZR (i - a) * DT) else 0)) end.
    { eapply vec_ext; [vecs|]. intros i Hi. cbv beta. rewrite Wi by lia. destruct (in_window NT a m i) eqn:Ei; [|field]. unfold sinw_at. rewrite INR_IZR_INZ, I.
      unfold in_window in Ei. destruct (Z.leb_spec a i); [|discriminate].
      replace (2 * IZR (i - a) * DT * PI * FC) with (2 * PI * FC * (IZR (i - a) * DT)) by ring.
      replace (2 * (2 * PI * FC * (IZR (i - a) * DT))) with (4 * PI * FC * (IZR (i - a) * DT)) by ring. field. }
    destruct VV as (VL & VN). split; [rewrite VL; lia|exact VN].
  - intros H1 H2. destruct (Z.ltb_spec a NT); [|lia]. rewrite (U H1 H2). reflexivity.
  - intros H1 H2. destruct (Z.ltb_spec a NT); [|lia]. specialize (B H1 H2).
    destruct (window_fill NT a b (fun c => cos (INR c * DT * PI * FC)) ltac:(lia) ltac:(lia) ltac:(lia)) as (v & E & L & N). rewrite E. cbn [bind].
    destruct (window_fill NT a b (fun c => cos (INR c * DT * PI * FC) ^ 3) ltac:(lia) ltac:(lia) ltac:(lia)) as (v' & E' & L' & N'). rewrite E'. cbn [bind].
    eexists. split; [reflexivity|].
    assert (V : vec NT v _) by (split; [exact L|exact N]). assert (V' : vec NT v' _) by (split; [exact L'|exact N']).
    match goal with |- (Z.of_nat (length ?w) = _)%Z /\ _ => assert (VV : vec NT w (fun i => AMP * if in_window NT a m i then intg_at FC (IZR (i - a) * DT) else 2 / (3 * PI * FC))) end.
    { eapply vec_ext; [vecs|]. intros i Hi. cbv beta. rewrite Wi by lia. destruct (in_window NT a m i) eqn:Ei; [|field; lra]. unfold intg_at. rewrite INR_IZR_INZ, I.
      unfold in_window in Ei. destruct (Z.leb_spec a i); [|discriminate].
      replace (IZR (i - a) * DT * PI * FC) with (PI * FC * (IZR (i - a) * DT)) by ring. field. lra. }
    destruct VV as (VL & VN). split; [rewrite VL; lia|exact VN].
Qed.
Print Assumptions C97_window.

Theorem C97_spike : forall NT DT FC AMP Tshift a, (0 < NT)%Z -> 0 < DT -> is_floor (Tshift / DT) a ->
  ((NT <= a)%Z -> spike NT DT FC AMP Tshift = Throw) /\ ((a < 0)%Z -> spike NT DT FC AMP Tshift = UB) /\
  ((0 <= a < NT)%Z -> exists v, spike NT DT FC AMP Tshift = Ok v /\ Z.of_nat (length v) = NT /\
     forall i, (0 <= i < NT)%Z -> nth_error v (Z.to_nat i) = Some (if (i =? a)%Z then AMP else 0)).
Proof.
  intros NT DT FC AMP Tshift a HN HD Ha. unfold spike. rewrite checked_ok by (assumption || lra). rewrite <- (is_floor_unique _ _ Ha).
  repeat split; intros H; destruct (Z.ltb_spec a NT); try lia; try reflexivity.
  - rewrite setValue_ub by lia. reflexivity.
  - destruct (setValue_ok (fillv NT 0) a 1) as (v & E & L & N); [rewrite fillv_len; lia|]. rewrite E. cbn [bind]. rewrite fillv_len in L.
    eexists. split; [reflexivity|]. split; [rewrite vmap1_len; lia|]. intros i Hi. specialize (N (Z.to_nat i)). rewrite fillv_nth in N by exact Hi.
    assert (N' : nth_error v (Z.to_nat i) = Some (if (i =? a)%Z then 1 else 0)).
    { rewrite N. destruct (Nat.eqb_spec (Z.to_nat i) (Z.to_nat a)), (Z.eqb_spec i a); try lia; reflexivity. }
    rewrite (vmap1_nth _ _ _ _ N'). f_equal. destruct (i =? a)%Z; ring.
Qed.
Print Assumptions C97_spike.

(** Not all of them vanish before their start. *)
Lemma floor_3 : is_floor (3 / 1) 3. Proof. split; lra. Qed.
Lemma floor_2 : is_floor (1 / (1 / 2) / 1) 2. Proof. split; lra. Qed.
Theorem C97_zero_refuted : exists NT DT FC AMP Tshift v x, (0 < NT)%Z /\ 0 < DT /\ 0 < FC /\ 0 <= Tshift /\ Tshift + 1 / FC < IZR NT * DT /\
  intgsinthree NT DT FC AMP Tshift = Ok v /\ nth_error v 0 = Some x /\ 0 * DT < Tshift /\ x <> 0.
Proof.
  destruct (C97_window 10 1 (1 / 2) 1 3 3 2 ltac:(lia) ltac:(lra) ltac:(lra) floor_3 floor_2) as (_ & _ & _ & _ & H).
  destruct (H ltac:(lia) ltac:(lia)) as (v & E & _ & N). pose proof (N 0%Z ltac:(lia)) as N0.
  exists 10%Z, 1, (1 / 2), 1, 3, v. eexists. split; [lia|]. repeat (split; [first [lra|exact E|exact N0]|]).
  cbn. assert (0 < 2 / (3 * PI * (1 / 2))) by (pose proof PI_RGT_0; apply Rdiv_lt_0_compat; lra). lra.
Qed.
Print Assumptions C97_zero_refuted.
(** A period that ends exactly with the simulated time is written beyond the end. *)
Theorem C97_end_refuted : exists NT DT FC AMP Tshift, (0 < NT)%Z /\ 0 < DT /\ 0 < FC /\ 0 <= Tshift /\ Tshift + 1 / FC = IZR NT * DT /\
  sinthree NT DT FC AMP Tshift = UB /\ sinw NT DT FC AMP Tshift = UB /\ intgsinthree NT DT FC AMP Tshift = UB.
Proof.
  destruct (C97_window 5 1 (1 / 2) 1 3 3 2 ltac:(lia) ltac:(lra) ltac:(lra) floor_3 floor_2) as ((_ & H1 & _) & (_ & H2 & _) & (_ & H3 & _)).
  exists 5%Z, 1, (1 / 2), 1, 3. split; [lia|]. repeat (split; [lra|]). repeat split; auto with zarith.
Qed.
Print Assumptions C97_end_refuted.
Example C97_case : exists v, sinthree 10 1 (1 / 2) 7 3 = Ok v /\ nth_error v 0 = Some (7 * 0) /\ nth_error v 4 = Some (7 * sin3_at (1 / 2) (1 * 1)).
Proof.
  destruct (C97_window 10 1 (1 / 2) 7 3 3 2 ltac:(lia) ltac:(lra) ltac:(lra) floor_3 floor_2) as ((_ & _ & H) & _).
  destruct (H ltac:(lia) ltac:(lia)) as (v & E & _ & N). exists v. split; [exact E|]. split; [exact (N 0%Z ltac:(lia))|exact (N 4%Z ltac:(lia))].
Qed.

(** ** C98: amplitudes *)
Lemma exp_ge x : 1 + x <= exp x.
Proof. destruct (Req_dec x 0) as [->|H]; [rewrite exp_0; lra|]. left. apply exp_ineq1. exact H. Qed.
Lemma ricker_bound f s : Rabs (ricker_at f s) <= 1.
Proof.
  unfold ricker_at. set (y := (PI * f * s) ^ 2). assert (0 <= y) by (unfold y; apply pow2_ge_0).
  rewrite Rabs_mult, (Rabs_right (exp _)) by (left; apply exp_pos). rewrite exp_Ropp.
  apply (Rmult_le_reg_r (exp y)); [apply exp_pos|]. rewrite Rmult_assoc, Rinv_l, Rmult_1_r, Rmult_1_l by (apply Rgt_not_eq, exp_pos).
  assert (E : (1 + y / 2) ^ 2 <= exp y).
  { replace y with (y / 2 + y / 2) at 2 by field. rewrite exp_plus. pose proof (exp_ge (y / 2)). cbn [pow]. rewrite Rmult_1_r. apply Rmult_le_compat; lra. }
  apply Rabs_le. split; nra.
Qed.
Lemma fgauss_bound f s : Rabs (fgauss_at f s) <= 1.
Proof.
  unfold fgauss_at. set (y := PI * f * s). rewrite Rabs_mult, (Rabs_right (exp _)) by (left; apply exp_pos). rewrite exp_Ropp.
  apply (Rmult_le_reg_r (exp (y ^ 2))); [apply exp_pos|]. rewrite Rmult_assoc, Rinv_l, Rmult_1_r, Rmult_1_l by (apply Rgt_not_eq, exp_pos).
  pose proof (exp_ge (y ^ 2)). pose proof (pow2_ge_0 (y - 1)). pose proof (pow2_ge_0 (y + 1)). apply Rabs_le. split; lra.
Qed.
Lemma sin3_bound f s : Rabs (sin3_at f s) <= 1.
Proof.
  unfold sin3_at. rewrite <- RPow_abs. assert (Rabs (sin (PI * f * s)) <= 1) by (apply Rabs_le; apply SIN_bound).
  pose proof (Rabs_pos (sin (PI * f * s))). rewrite <- (pow1 3). apply pow_incr. lra.
Qed.
Lemma sine_bound f s : Rabs (sine_at f s) <= 1.
Proof. apply Rabs_le, SIN_bound. Qed.
Lemma intg_bound f s : 0 < f -> 0 <= intg_at f s <= 4 / (3 * PI * f).
Proof.
  intros Hf. unfold intg_at. pose proof PI_RGT_0. pose proof (COS_bound (PI * f * s)) as (H1 & H2). set (c := cos (PI * f * s)) in *.
  assert (0 < 3 / 4 * PI * f) by (apply Rmult_lt_0_compat; lra).
  replace (4 / (3 * PI * f)) with (1 / (3 / 4 * PI * f)) by (field; lra). split.
  - apply Rle_mult_inv_pos; [|assumption]. replace (1 / 2 - 3 / 4 * c + 1 / 4 * c ^ 3) with (1 / 4 * ((1 - c) ^ 2 * (2 + c))) by field. pose proof (pow2_ge_0 (1 - c)). nra.
  - apply Rmult_le_compat_r; [left; apply Rinv_0_lt_compat; assumption|]. assert (0 <= (1 + c) ^ 2 * (2 - c)) by (pose proof (pow2_ge_0 (1 + c)); nra). nra.
Qed.
Lemma sinw_form f s : sinw_at f s = sin (2 * PI * f * s) * (1 - cos (2 * PI * f * s)).
Proof. unfold sinw_at. replace (4 * PI * f * s) with (2 * (2 * PI * f * s)) by ring. rewrite sin_2a. field. Qed.
Lemma sinw_bound f s : Rabs (sinw_at f s) <= 3 * sqrt 3 / 4.
Proof.
  rewrite sinw_form. set (x := 2 * PI * f * s). pose proof (COS_bound x) as (H1 & H2). pose proof (sin2_cos2 x) as E. unfold Rsqr in E.
  rewrite <- (Rabs_right (3 * sqrt 3 / 4)) by (pose proof (sqrt_pos 3); lra). apply Rsqr_le_abs_0.
  replace (Rsqr (3 * sqrt 3 / 4)) with (27 / 16) by (unfold Rsqr; replace (3 * sqrt 3 / 4 * (3 * sqrt 3 / 4)) with (9 / 16 * (sqrt 3 * sqrt 3)) by field; rewrite sqrt_sqrt; lra).
  unfold Rsqr. set (c := cos x) in *. set (n := sin x) in *.
  replace (n * (1 - c) * (n * (1 - c))) with (n * n * (1 - c) ^ 2) by ring. replace (n * n) with (1 - c * c) by lra.
  assert (0 <= (c + 1 / 2) ^ 2 * (c ^ 2 - 3 * c + 11 / 4)) by (apply Rmult_le_pos; [apply pow2_ge_0|nra]). nra.
Qed.
Lemma gprmax_sq f s : 0 < f -> Rabs (gprmax_at f s) <= 2 * PI * f * exp (1 / (8 * (PI * f) ^ 2) - 1 / 2).
Proof.
  intros Hf. pose proof PI_RGT_0. assert (0 < PI * f) by (apply Rmult_lt_0_compat; assumption). unfold gprmax_at. set (w := PI * f) in *. replace (PI * f * s) with (w * s) by (unfold w; ring).
  unfold Rminus. rewrite exp_plus. set (K := exp (1 / (8 * w ^ 2))). assert (0 < K) by apply exp_pos.
  replace (- 4 * w ^ 2 * K * (s * exp (- 2 * (w * s) ^ 2))) with (2 * w * K * (- (2 * (w * s)) * exp (- 2 * (w * s) ^ 2))) by ring.
  replace (2 * PI * f * (K * exp (- (1 / 2)))) with (2 * w * K * exp (- (1 / 2))) by (unfold w; ring).
  rewrite Rabs_mult, (Rabs_right (2 * w * K)) by (apply Rle_ge, Rmult_le_pos; lra). apply Rmult_le_compat_l; [apply Rmult_le_pos; lra|].
  set (y := 2 * (w * s)). replace (- 2 * (w * s) ^ 2) with (- (1 / 2) + - ((y ^ 2 - 1) / 2)) by (unfold y; field). rewrite exp_plus.
  rewrite Rabs_mult, Rabs_Ropp, (Rabs_right (_ * _)) by (left; apply Rmult_lt_0_compat; apply exp_pos).
  rewrite (exp_Ropp ((y ^ 2 - 1) / 2)). set (E := exp ((y ^ 2 - 1) / 2)). assert (0 < E) by apply exp_pos.
  apply (Rmult_le_reg_r E); [assumption|]. rewrite !Rmult_assoc, Rinv_l, Rmult_1_r by lra. rewrite Rmult_comm.
  apply Rmult_le_compat_l; [left; apply exp_pos|]. pose proof (exp_ge ((y ^ 2 - 1) / 2)) as HE. fold E in HE.
  pose proof (pow2_ge_0 (y - 1)). pose proof (pow2_ge_0 (y + 1)). apply Rabs_le. split; lra.
Qed.

(** What the samples are bounded by, and that no smaller bound holds: [g] takes the value [m] or [-m] somewhere. *)
Definition peak (g : R -> R) (m : R) : Prop := (forall s, Rabs (g s) <= m) /\ exists s, Rabs (g s) = m.
Theorem C98_peak : forall f, 0 < f ->
  peak (ricker_at f) 1 /\ peak (sine_at f) 1 /\ peak (sin3_at f) 1 /\
  peak (fgauss_at f) (sqrt 2 * exp (- (1 / 2))) /\
  peak (sinw_at f) (3 * sqrt 3 / 4) /\ peak (intg_at f) (4 / (3 * PI * f)) /\
  peak (gprmax_at f) (2 * PI * f * exp (1 / (8 * (PI * f) ^ 2) - 1 / 2)).
Proof.
  intros f Hf. pose proof PI_RGT_0 as HP. assert (0 < PI * f) by (apply Rmult_lt_0_compat; assumption).
  assert (E2 : PI * f * (1 / (2 * f)) = PI / 2) by (field; lra).
  repeat split.
  - apply ricker_bound.
  - exists 0. unfold ricker_at. rewrite Rmult_0_r. replace (- 0 ^ 2) with 0 by ring. rewrite exp_0. rewrite Rabs_right; lra.
  - apply sine_bound.
  - exists (1 / (4 * f)). unfold sine_at. replace (2 * PI * f * (1 / (4 * f))) with (PI / 2) by (field; lra). rewrite sin_PI2. apply Rabs_R1.
  - apply sin3_bound.
  - exists (1 / (2 * f)). unfold sin3_at. rewrite E2, sin_PI2. rewrite pow1. apply Rabs_R1.
  - intros s. unfold fgauss_at. set (x := PI * f * s). set (q := sqrt 2). assert (Hq : q * q = 2) by (apply sqrt_sqrt; lra). assert (0 < q) by (apply sqrt_lt_R0; lra).
    replace (- x ^ 2) with (- (1 / 2) + - (x ^ 2 - 1 / 2)) by field. rewrite exp_plus, (exp_Ropp (x ^ 2 - 1 / 2)). set (E := exp (x ^ 2 - 1 / 2)). assert (0 < E) by apply exp_pos.
    replace (-2 * x * (exp (- (1 / 2)) * / E)) with (-2 * x * / E * exp (- (1 / 2))) by ring. rewrite Rabs_mult, (Rabs_right (exp _)) by (left; apply exp_pos).
    apply Rmult_le_compat_r; [left; apply exp_pos|]. rewrite Rabs_mult, (Rabs_right (/ E)) by (left; apply Rinv_0_lt_compat; assumption).
    apply (Rmult_le_reg_r E); [assumption|]. rewrite Rmult_assoc, Rinv_l, Rmult_1_r by lra. pose proof (exp_ge (x ^ 2 - 1 / 2)) as HE. fold E in HE.
    pose proof (pow2_ge_0 (q * x - 1)). pose proof (pow2_ge_0 (q * x + 1)). assert (Q2 : q * q * (x * x) = 2 * (x * x)) by (rewrite Hq; ring).
    apply Rabs_le. split.
    + apply (Rmult_le_reg_l q); [assumption|]. nra.
    + apply (Rmult_le_reg_l q); [assumption|]. nra.
  - exists (1 / (sqrt 2 * (PI * f))). unfold fgauss_at. set (q := sqrt 2). assert (Hq : q * q = 2) by (apply sqrt_sqrt; lra). assert (0 < q) by (apply sqrt_lt_R0; lra).
    replace (PI * f * (1 / (q * (PI * f)))) with (/ q) by (field; lra). replace (- (/ q) ^ 2) with (- (1 / 2)) by (cbn [pow]; rewrite Rmult_1_r, <- Rinv_mult, Hq; field).
    rewrite Rabs_mult, (Rabs_right (exp _)) by (left; apply exp_pos). f_equal. replace (-2 * / q) with (- q) by (apply (Rmult_eq_reg_r q); [|lra]; rewrite Rmult_assoc, Rinv_l by lra; lra).
    rewrite Rabs_Ropp. apply Rabs_right. lra.
  - apply sinw_bound.
  - exists (1 / (3 * f)). rewrite sinw_form. replace (2 * PI * f * (1 / (3 * f))) with (2 * (PI / 3)) by (field; lra). rewrite sin_2PI3, cos_2PI3. pose proof (sqrt_pos 3).
    rewrite Rabs_right; [field|]. apply Rle_ge, Rmult_le_pos; lra.
  - intros s. pose proof (intg_bound f s Hf). rewrite Rabs_right; lra.
  - exists (1 / f). unfold intg_at. replace (PI * f * (1 / f)) with PI by (field; lra). rewrite cos_PI. rewrite Rabs_right; [field; lra|].
    apply Rle_ge, Rle_mult_inv_pos; [lra|]. apply Rmult_lt_0_compat; lra.
  - intros s. apply gprmax_sq. exact Hf.
  - exists (- (1 / (2 * (PI * f)))). unfold gprmax_at. replace (- 2 * (PI * f * - (1 / (2 * (PI * f)))) ^ 2) with (- (1 / 2)) by (field; lra). unfold Rminus. rewrite exp_plus.
    rewrite Rabs_right; [field; lra|]. set (K := exp (1 / (8 * (PI * f) ^ 2))). set (K' := exp (- (1 / 2))).
    replace (-4 * (PI * f) ^ 2 * K * (- (1 / (2 * (PI * f))) * K')) with (2 * (PI * f) * (K * K')) by (field; lra).
    apply Rle_ge. left. apply Rmult_lt_0_compat; [lra|]. apply Rmult_lt_0_compat; apply exp_pos.
Qed.
Print Assumptions C98_peak.

(** Hence bounds on the samples of the signals.  The signal of class [shape] stays below |AMP| times the peak of its wavelet. *)
Definition peak_of (shape : Z) (f : R) : R :=
  match shape with
  | 2%Z => 3 * sqrt 3 / 4
  | 4%Z => sqrt 2 * exp (- (1 / 2))
  | 6%Z => 4 / (3 * PI * f)
  | 7%Z => 2 * PI * f * exp (1 / (8 * (PI * f) ^ 2) - 1 / 2)
  | _ => 1
  end.
Lemma sampled_bound NT DT AMP (g : R -> R) m (h : R -> R) v : (forall s, Rabs (g s) <= m) -> sampled NT DT (fun t => AMP * g (h t)) v -> forall x, In x v -> Rabs x <= Rabs AMP * m.
Proof.
  intros P (L & S) x Hx. apply In_nth_error in Hx as (n & Hn). assert (n < length v)%nat by (apply nth_error_Some; congruence).
  specialize (S (Z.of_nat n) ltac:(lia)). rewrite Nat2Z.id, Hn in S. injection S as ->. rewrite Rabs_mult. apply Rmult_le_compat_l; [apply Rabs_pos|apply P].
Qed.
Lemma window_bound NT AMP (v : list R) m (g : Z -> R) : Z.of_nat (length v) = NT -> (forall i, (0 <= i < NT)%Z -> nth_error v (Z.to_nat i) = Some (AMP * g i)) ->
  (forall i, (0 <= i < NT)%Z -> Rabs (g i) <= m) -> forall x, In x v -> Rabs x <= Rabs AMP * m.
Proof.
  intros L S P x Hx. apply In_nth_error in Hx as (n & Hn). assert (n < length v)%nat by (apply nth_error_Some; congruence).
  specialize (S (Z.of_nat n) ltac:(lia)). rewrite Nat2Z.id, Hn in S. injection S as ->. rewrite Rabs_mult. apply Rmult_le_compat_l; [apply Rabs_pos|apply P; lia].
Qed.
Lemma floor_ex x : exists k, is_floor x k.
Proof. exists (floorR x). apply floorR_spec. Qed.
Theorem C98_samples : forall NT DT FC AMP Tshift shape v, 0 < FC -> (1 <= shape <= 9)%Z ->
  synthetic shape NT DT FC AMP Tshift = Ok (Some v) -> forall x, In x v -> Rabs x <= Rabs AMP * peak_of shape FC.
Proof.
  intros NT DT FC AMP Tshift shape v HF Hs E x Hx. pose proof PI_RGT_0 as HP.
  assert (D : (0 < NT)%Z /\ 0 < DT).
  { assert (C : shape = 5%Z \/ shape <> 5%Z) by lia. destruct C as [->|H5].
    - cbn [synthetic] in E. unfold spike, checked in E. destruct (Z.ltb_spec 0 NT); [|discriminate]. destruct (Rlt_dec 0 DT); [auto|discriminate].
    - destruct (Z.ltb_spec 0 NT) as [H1|H1]; [destruct (Rlt_dec 0 DT) as [H2|H2]; [auto|]|]; rewrite C96_rejected in E by (lia || (assumption || (intros (? & ? & ?); (lia || contradiction)))); discriminate. }
  destruct D as (HN & HD). pose proof (C98_peak FC HF) as ((P1 & _) & (P8 & _) & (P3 & _) & (P4 & _) & (P2 & _) & (P6 & _) & (P7 & _)).
  destruct (C96_formula NT DT FC AMP Tshift HN HD HF) as ((v1 & E1 & S1) & (v4 & E4 & S4) & (v7 & E7 & S7) & (v8 & E8 & S8)).
  destruct (floor_ex (Tshift / DT)) as (a & Ha). destruct (floor_ex (1 / FC / DT)) as (m & Hm).
  destruct (C97_window NT DT FC AMP Tshift a m HN HD HF Ha Hm) as ((T3 & U3 & W3) & (T2 & U2 & W2) & (T6 & U6 & W6)).
  destruct (C97_spike NT DT FC AMP Tshift a HN HD Ha) as (T5 & U5 & W5).
  destruct (C96_berlage NT DT FC AMP Tshift HN HD HF) as (b & (B1 & B2) & B3 & B4).
  assert (C : (shape = 1 \/ shape = 2 \/ shape = 3 \/ shape = 4 \/ shape = 5 \/ shape = 6 \/ shape = 7 \/ shape = 8 \/ shape = 9)%Z) by lia.
  assert (Z0 : forall m, 0 <= m -> Rabs 0 <= m) by (intros; rewrite Rabs_R0; assumption).
  assert (WC : (NT <= a)%Z \/ ((a < 0)%Z \/ (a + m)%Z = NT) /\ (a < NT)%Z \/ (0 <= a < NT)%Z /\ (a + m)%Z <> NT) by lia.
  destruct C as [->|[->|[->|[->|[->|[->|[->|[->| ->]]]]]]]]; cbn [synthetic] in E; cbn [peak_of].
  - rewrite E1 in E. injection E as <-. exact (sampled_bound _ _ _ _ _ _ _ P1 S1 x Hx).
  - destruct WC as [H|[(H1 & H2)|(H1 & H2)]]; [rewrite (T2 H) in E; discriminate|rewrite (U2 H1 H2) in E; discriminate|].
    destruct (W2 H1 H2) as (w & Ew & Lw & Nw). rewrite Ew in E. injection E as <-. eapply window_bound; [exact Lw|exact Nw| |exact Hx].
    intros i _. cbv beta. destruct (in_window NT a m i); [apply P2|apply Z0]. pose proof (sqrt_pos 3). lra.
  - destruct WC as [H|[(H1 & H2)|(H1 & H2)]]; [rewrite (T3 H) in E; discriminate|rewrite (U3 H1 H2) in E; discriminate|].
    destruct (W3 H1 H2) as (w & Ew & Lw & Nw). rewrite Ew in E. injection E as <-. eapply window_bound; [exact Lw|exact Nw| |exact Hx].
    intros i _. cbv beta. destruct (in_window NT a m i); [apply P3|apply Z0; lra].
  - rewrite E4 in E. injection E as <-. exact (sampled_bound _ _ _ _ _ _ _ P4 S4 x Hx).
  - assert (HC : (NT <= a)%Z \/ (a < 0)%Z \/ (0 <= a < NT)%Z) by lia. destruct HC as [H|[H|H]]; [rewrite (T5 H) in E; discriminate|rewrite (U5 H) in E; discriminate|].
    destruct (W5 H) as (w & Ew & Lw & Nw). rewrite Ew in E. injection E as <-. eapply (window_bound NT AMP w 1 (fun i => if (i =? a)%Z then 1 else 0)); [exact Lw| | |exact Hx].
    + intros i Hi. rewrite (Nw i Hi). f_equal. destruct (i =? a)%Z; ring.
    + intros i _. destruct (i =? a)%Z; rewrite ?Rabs_R1, ?Rabs_R0; lra.
  - destruct WC as [H|[(H1 & H2)|(H1 & H2)]]; [rewrite (T6 H) in E; discriminate|rewrite (U6 H1 H2) in E; discriminate|].
    destruct (W6 H1 H2) as (w & Ew & Lw & Nw). rewrite Ew in E. injection E as <-. eapply window_bound; [exact Lw|exact Nw| |exact Hx].
    intros i _. cbv beta. destruct (in_window NT a m i); [apply P6|]. assert (0 < 3 * PI * FC) by (apply Rmult_lt_0_compat; lra).
    assert (0 < / (3 * PI * FC)) by (apply Rinv_0_lt_compat; assumption). unfold Rdiv. rewrite Rabs_right; nra.
  - rewrite E7 in E. injection E as <-. exact (sampled_bound _ _ _ _ _ _ _ P7 S7 x Hx).
  - destruct (Req_EM_T b 0) as [Hb|Hb]; [rewrite (B3 Hb) in E; discriminate|]. destruct (B4 Hb) as (w & Ew & Lw & Nw). rewrite Ew in E. injection E as <-.
    assert (0 < b). { destruct B2 as (i & _ & Bi). pose proof (Rabs_pos (berlage_at FC (IZR i * DT - (1 / FC + Tshift)))). lra. }
    eapply (window_bound NT AMP w 1 (fun i => berlage_at FC (IZR i * DT - (1 / FC + Tshift)) / b)); [exact Lw| | |exact Hx].
    + intros i Hi. rewrite (Nw i Hi). f_equal. field. lra.
    + intros i Hi. unfold Rdiv. rewrite Rabs_mult, (Rabs_right (/ b)) by (left; apply Rinv_0_lt_compat; assumption).
      apply (Rmult_le_reg_r b); [assumption|]. rewrite Rmult_assoc, Rinv_l, Rmult_1_r by lra. rewrite (Rmult_1_l b). apply B1. exact Hi.
  - rewrite E8 in E. injection E as <-. exact (sampled_bound _ _ _ _ _ _ _ P8 S8 x Hx).
Qed.
Print Assumptions C98_samples.
(** The amplitude is not the largest magnitude for every class. *)
Theorem C98_amplitude_refuted : exists NT DT FC AMP Tshift v x, synthetic 2 NT DT FC AMP Tshift = Ok (Some v) /\ In x v /\ 0 < AMP /\ AMP < Rabs x.
Proof.
  assert (F0 : is_floor (0 / 1) 0) by (split; lra). assert (F3 : is_floor (1 / (1 / 3) / 1) 3) by (split; lra).
  destruct (C97_window 10 1 (1 / 3) 1 0 0 3 ltac:(lia) ltac:(lra) ltac:(lra) F0 F3) as (_ & (_ & _ & H) & _).
  destruct (H ltac:(lia) ltac:(lia)) as (v & E & _ & N). pose proof (N 1%Z ltac:(lia)) as N1.
  exists 10%Z, 1, (1 / 3), 1, 0, v. eexists. split; [cbn [synthetic]; rewrite E; reflexivity|]. split; [eapply nth_error_In; exact N1|]. split; [lra|].
  replace (IZR (1 - 0) * 1) with 1 by (replace (1 - 0)%Z with 1%Z by lia; lra).
  change (in_window 10 0 3 1) with true. cbv iota. rewrite sinw_form. replace (2 * PI * (1 / 3) * 1) with (2 * (PI / 3)) by field. rewrite sin_2PI3, cos_2PI3.
  assert (1.6 < sqrt 3). { apply Rsqr_incrst_0; [|lra|apply sqrt_pos]. rewrite Rsqr_sqrt by lra. unfold Rsqr. lra. }
  rewrite Rabs_right; lra.
Qed.
Print Assumptions C98_amplitude_refuted.
(** Berlage is scaled to the amplitude: it is reached. *)
Theorem C98_berlage : forall NT DT FC AMP Tshift v, 0 < FC -> synthetic 8 NT DT FC AMP Tshift = Ok (Some v) ->
  (forall x, In x v -> Rabs x <= Rabs AMP) /\ exists x, In x v /\ Rabs x = Rabs AMP.
Proof.
  intros NT DT FC AMP Tshift v HF E. split.
  - intros x Hx. pose proof (C98_samples NT DT FC AMP Tshift 8 v HF ltac:(lia) E x Hx) as H. cbn [peak_of] in H. lra.
  - assert (D : (0 < NT)%Z /\ 0 < DT).
    { destruct (Z.ltb_spec 0 NT) as [H1|H1]; [destruct (Rlt_dec 0 DT) as [H2|H2]; [auto|]|]; rewrite C96_rejected in E by (lia || (assumption || (intros (? & ? & ?); (lia || contradiction)))); discriminate. }
    destruct D as (HN & HD). destruct (C96_berlage NT DT FC AMP Tshift HN HD HF) as (b & (B1 & (i & Hi & Bi)) & B3 & B4). cbn [synthetic] in E.
    destruct (Req_EM_T b 0) as [Hb|Hb]; [rewrite (B3 Hb) in E; discriminate|]. destruct (B4 Hb) as (w & Ew & Lw & Nw). rewrite Ew in E. injection E as <-.
    assert (0 < b) by (pose proof (Rabs_pos (berlage_at FC (IZR i * DT - (1 / FC + Tshift)))); lra).
    eexists. split; [eapply nth_error_In; exact (Nw i Hi)|]. cbv beta in *. rewrite Rabs_mult, Bi. unfold Rdiv. rewrite Rabs_mult, (Rabs_right (/ b)) by (left; apply Rinv_0_lt_compat; assumption).
    field. lra.
Qed.
Print Assumptions C98_berlage.
Example C98_case : peak_of 1 2 = 1 /\ peak_of 2 2 = 3 * sqrt 3 / 4 /\ exists v, synthetic 1 3 (1 / 2) 3 5 (-(1 / 2)) = Ok (Some v) /\ nth_error v 0 = Some (5 * ricker_at 3 0).
Proof.
  split; [reflexivity|]. split; [reflexivity|]. destruct (C96_formula 3 (1 / 2) 3 5 (-(1 / 2)) ltac:(lia) ltac:(lra) ltac:(lra)) as ((v & E & _ & N) & _).
  exists v. split; [cbn [synthetic]; rewrite E; reflexivity|]. change 0%nat with (Z.to_nat 0); rewrite (N 0%Z ltac:(lia)). do 3 f_equal. lra.
Qed.

(** ** C99: the wavelets as derivatives, their symmetries and their ends *)
Lemma D_lin a x : derivable_pt_lim (fun s => a * s) x a.
Proof. pose proof (derivable_pt_lim_scal id a x 1 (derivable_pt_lim_id x)) as H. rewrite Rmult_1_r in H. exact H. Qed.
Lemma D_exp_sq a x : derivable_pt_lim (fun s => exp (a * s ^ 2)) x (2 * a * x * exp (a * x ^ 2)).
Proof.
  replace (2 * a * x * exp (a * x ^ 2)) with (exp (a * x ^ 2) * (a * (INR 2 * x ^ 1))) by (cbn; ring).
  apply (derivable_pt_lim_comp (fun s => a * s ^ 2) exp); [|apply derivable_pt_lim_exp].
  apply (derivable_pt_lim_scal (fun s => s ^ 2)). apply derivable_pt_lim_pow.
Qed.
Lemma D_ext f g x l : (forall y, f y = g y) -> derivable_pt_lim f x l -> derivable_pt_lim g x l.
Proof. intros H D e He. destruct (D e He) as (d & Hd). exists d. intros h H0 H1. rewrite <- !H. apply Hd; assumption. Qed.
Theorem C99_derivative : forall f s, 0 < f ->
  derivable_pt_lim (fun s => s * gauss_at f s) s (ricker_at f s) /\
  derivable_pt_lim (gauss_at f) s (PI * f * fgauss_at f s) /\
  derivable_pt_lim (fun s => exp (1 / (8 * (PI * f) ^ 2)) * exp (- 2 * (PI * f * s) ^ 2)) s (gprmax_at f s) /\
  derivable_pt_lim (intg_at f) s (sin3_at f s).
Proof.
  intros f s Hf. pose proof PI_RGT_0.
  assert (G : derivable_pt_lim (gauss_at f) s (PI * f * fgauss_at f s)).
  { apply (D_ext (fun s => exp (- (PI * f) ^ 2 * s ^ 2))). { intros y. unfold gauss_at. f_equal. ring. }
    replace (PI * f * fgauss_at f s) with (2 * - (PI * f) ^ 2 * s * exp (- (PI * f) ^ 2 * s ^ 2)); [apply D_exp_sq|].
    unfold fgauss_at. replace (- (PI * f) ^ 2 * s ^ 2) with (- (PI * f * s) ^ 2) by ring. ring. }
  repeat split.
  - replace (ricker_at f s) with (1 * gauss_at f s + s * (PI * f * fgauss_at f s)) by (unfold ricker_at, gauss_at, fgauss_at; ring).
    apply (derivable_pt_lim_mult (fun s => s) (gauss_at f)); [apply derivable_pt_lim_id|exact G].
  - exact G.
  - replace (gprmax_at f s) with (exp (1 / (8 * (PI * f) ^ 2)) * (2 * (- 2 * (PI * f) ^ 2) * s * exp (- 2 * (PI * f) ^ 2 * s ^ 2))).
    2: { unfold gprmax_at. replace (- 2 * (PI * f) ^ 2 * s ^ 2) with (- 2 * (PI * f * s) ^ 2) by ring. ring. }
    apply (derivable_pt_lim_scal (fun s => exp (- 2 * (PI * f * s) ^ 2))). apply (D_ext (fun s => exp (- 2 * (PI * f) ^ 2 * s ^ 2))). { intros y. f_equal. ring. } apply D_exp_sq.
  - set (w := PI * f). assert (0 < w) by (apply Rmult_lt_0_compat; assumption).
    assert (C : derivable_pt_lim (fun s => cos (w * s)) s (- sin (w * s) * w)).
    { apply (derivable_pt_lim_comp (fun s => w * s) cos); [apply D_lin|apply derivable_pt_lim_cos]. }
    assert (C3 : derivable_pt_lim (fun s => (cos (w * s)) ^ 3) s (INR 3 * (cos (w * s)) ^ 2 * (- sin (w * s) * w))).
    { apply (derivable_pt_lim_comp (fun s => cos (w * s)) (fun y => y ^ 3)); [exact C|apply (derivable_pt_lim_pow _ 3)]. }
    replace (sin3_at f s) with (/ (3 / 4 * w) * (0 + (- (3 / 4)) * (- sin (w * s) * w) + 1 / 4 * (INR 3 * (cos (w * s)) ^ 2 * (- sin (w * s) * w)))).
    2: { unfold sin3_at. fold w. pose proof (sin2_cos2 (w * s)) as E. unfold Rsqr in E. change (INR 3) with (1 + 1 + 1). set (c := cos (w * s)) in *. set (n := sin (w * s)) in *.
         replace (c ^ 2) with (1 - n * n) by (cbn; lra). field. lra. }
    apply (D_ext (fun s => / (3 / 4 * w) * (1 / 2 + - (3 / 4) * cos (w * s) + 1 / 4 * (cos (w * s)) ^ 3))).
    { intros y. unfold intg_at. unfold w in *. field. lra. }
    apply (derivable_pt_lim_scal (fun s => 1 / 2 + - (3 / 4) * cos (w * s) + 1 / 4 * (cos (w * s)) ^ 3)).
    apply (derivable_pt_lim_plus (fun s => 1 / 2 + - (3 / 4) * cos (w * s)) (fun s => 1 / 4 * (cos (w * s)) ^ 3)).
    + apply (derivable_pt_lim_plus (fun _ => 1 / 2) (fun s => - (3 / 4) * cos (w * s))); [apply derivable_pt_lim_const|]. apply (derivable_pt_lim_scal (fun s => cos (w * s))). exact C.
    + apply (derivable_pt_lim_scal (fun s => (cos (w * s)) ^ 3)). exact C3.
Qed.
Print Assumptions C99_derivative.

Theorem C99_symmetry : forall f s, 0 < f ->
  ricker_at f (- s) = ricker_at f s /\ fgauss_at f (- s) = - fgauss_at f s /\ gprmax_at f (- s) = - gprmax_at f s /\
  sin3_at f (1 / f - s) = sin3_at f s /\ sinw_at f (1 / f - s) = - sinw_at f s /\ sine_at f (s + 1 / f) = sine_at f s.
Proof.
  intros f s Hf. repeat split.
  - unfold ricker_at. replace ((PI * f * - s) ^ 2) with ((PI * f * s) ^ 2) by ring. reflexivity.
  - unfold fgauss_at. replace ((PI * f * - s) ^ 2) with ((PI * f * s) ^ 2) by ring. ring.
  - unfold gprmax_at. replace ((PI * f * - s) ^ 2) with ((PI * f * s) ^ 2) by ring. ring.
  - unfold sin3_at. replace (PI * f * (1 / f - s)) with (PI - PI * f * s) by (field; lra). rewrite sin_PI_x. reflexivity.
  - unfold sinw_at. replace (2 * PI * f * (1 / f - s)) with (- (2 * PI * f * s) + 2 * INR 1 * PI) by (cbn; field; lra).
    replace (4 * PI * f * (1 / f - s)) with (- (4 * PI * f * s) + 2 * INR 2 * PI) by (cbn; field; lra). rewrite !sin_period, !sin_neg. ring.
  - unfold sine_at. replace (2 * PI * f * (s + 1 / f)) with (2 * PI * f * s + 2 * INR 1 * PI) by (cbn; field; lra). apply sin_period.
Qed.
Print Assumptions C99_symmetry.

Theorem C99_ends : forall f, 0 < f ->
  sin3_at f 0 = 0 /\ sin3_at f (1 / f) = 0 /\ sinw_at f 0 = 0 /\ sinw_at f (1 / f) = 0 /\ intg_at f 0 = 0 /\ intg_at f (1 / f) = 4 / (3 * PI * f) /\
  intg_at f (1 / (2 * f)) = 2 / (3 * PI * f).
Proof.
  intros f Hf. pose proof PI_RGT_0. assert (P : PI * f * (1 / f) = PI) by (field; lra).
  unfold sin3_at, sinw_at, intg_at. rewrite !Rmult_0_r, sin_0, cos_0, P, sin_PI, cos_PI.
  replace (2 * PI * f * (1 / f)) with (2 * PI) by (field; lra). replace (4 * PI * f * (1 / f)) with (0 + 2 * INR 2 * PI) by (cbn; field; lra). rewrite sin_2PI, sin_period, sin_0.
  replace (PI * f * (1 / (2 * f))) with (PI / 2) by (field; lra). rewrite cos_PI2.
  repeat split; try ring; try (field; split; lra); try (field; lra).
Qed.
Print Assumptions C99_ends.

(** ** C100: which signal a source gets *)
(** The signal a source asks for. *)
Definition asked (file : Z -> res (list R)) (NT : Z) (DT : R) (w : wavelet) (s : option (list R)) : Prop :=
  (w_type w = 1%Z /\ synthetic (w_shape w) NT DT (w_fc w) (w_amp w) (w_tshift w) = Ok s) \/
  (w_type w = 2%Z /\ exists v, file 0%Z = Ok v /\ s = Some v) \/
  (w_type w = 3%Z /\ exists v, file (w_row w) = Ok v /\ s = Some v).
Definition has_type (t : Z) (ws : list wavelet) : Prop := exists w, In w ws /\ w_type w = t.

Lemma generate_ok file NT DT : forall ws fl fl' rs, generate file NT DT fl ws = Ok (fl', rs) ->
  Forall2 (asked file NT DT) ws rs /\ (flag2 fl' = true <-> flag2 fl = true \/ has_type 2 ws) /\ (flag3 fl' = true <-> flag3 fl = true \/ has_type 3 ws) /\
  ((flag2 fl && flag3 fl)%bool = false -> (flag2 fl' && flag3 fl')%bool = false).
Proof.
  induction ws as [|w ws IH]; intros fl fl' rs H; cbn [generate] in H.
  - injection H as <- <-. split; [constructor|]. split; [|split; [|auto]]; (split; [auto|intros [E|(w & [] & _)]; exact E]).
  - assert (NH : forall t, has_type t (w :: ws) <-> w_type w = t \/ has_type t ws).
    { intros t. split.
      - intros (u & [<-|Hu] & Et); [left; exact Et|right; exists u; auto].
      - intros [E|(u & Hu & Et)]; [exists w; split; [now left|exact E]|exists u; split; [now right|exact Et]]. }
    rewrite !NH.
    assert (H' : exists f1 s, asked file NT DT w s /\ (w_type w = 1%Z /\ f1 = fl \/ w_type w = 2%Z /\ flag3 fl = false /\ f1 = Flags true (flag3 fl) \/ w_type w = 3%Z /\ flag2 fl = false /\ f1 = Flags (flag2 fl) true) /\
      ' (fl, r) <- generate file NT DT f1 ws ;; Ok (fl, s :: r) = Ok (fl', rs)).
    { destruct (w_type w) as [|[[p|p|]|[p|p|]|]|] eqn:T; try discriminate H.
      - destruct (flag2 fl) eqn:F2; [discriminate|]. destruct (file (w_row w)) as [v| | |] eqn:Ev; try discriminate H. cbn [bind] in H. exists (Flags false true), (Some v). rewrite <- T.
        split; [right; right; split; [exact T|exists v; auto]|]. split; [right; right; auto|exact H].
      - destruct (flag3 fl) eqn:F3; [discriminate|]. destruct (file 0%Z) as [v| | |] eqn:Ev; try discriminate H. cbn [bind] in H. exists (Flags true false), (Some v).
        split; [right; left; split; [exact T|exists v; auto]|]. split; [right; left; auto|exact H].
      - destruct (synthetic (w_shape w) NT DT (w_fc w) (w_amp w) (w_tshift w)) as [s| | |] eqn:Es; try discriminate H. cbn [bind] in H. exists fl, s.
        split; [left; split; [exact T|exact Es]|]. split; [left; auto|exact H]. }
    destruct H' as (f1 & s & A & C & E). destruct (generate file NT DT f1 ws) as [(f2 & r)| | |] eqn:G; try discriminate E. cbn [bind] in E. injection E as -> <-.
    destruct (IH _ _ _ G) as (I1 & I2 & I3 & I4). split; [constructor; assumption|]. rewrite I2, I3.
    destruct C as [(T & ->)|[(T & F & ->)|(T & F & ->)]]; cbn [flag2 flag3] in *.
    + split; [|split; [|exact I4]]; (split; [intros [?|?]; auto|intros [?|[?|?]]; auto; lia]).
    + split; [|split]; [split; [intros [?|?]; auto|auto]|split; [intros [?|?]; auto|intros [?|[?|?]]; auto; lia]|]. intros _. apply I4. rewrite F. reflexivity.
    + split; [|split]; [split; [intros [?|?]; auto|intros [?|[?|?]]; auto; lia]|split; [intros [?|?]; auto|auto]|]. intros _. apply I4. rewrite F. reflexivity.
Qed.

(** Whenever all shots get their signals, every source has the signal it asked for, and the two ways to read signals from a
    file do not both occur - in no shot, nor in two different shots. *)
Theorem C100_signals : forall file NT DT shots rss, generate_shots file NT DT flags0 shots = Ok rss ->
  Forall2 (Forall2 (asked file NT DT)) shots rss /\ ~ (has_type 2 (concat shots) /\ has_type 3 (concat shots)).
Proof.
  intros file NT DT shots rss H.
  assert (G : forall shots fl rss, (flag2 fl && flag3 fl)%bool = false -> generate_shots file NT DT fl shots = Ok rss -> Forall2 (Forall2 (asked file NT DT)) shots rss /\
    ~ ((flag2 fl = true \/ has_type 2 (concat shots)) /\ (flag3 fl = true \/ has_type 3 (concat shots)))).
  { clear. induction shots as [|ws shots IH]; intros fl rss F H; cbn [generate_shots] in H.
    - injection H as <-. split; [constructor|]. cbn [concat]. intros ([A|(w & [] & _)] & [B|(w' & [] & _)]). rewrite A, B in F. discriminate.
    - destruct (generate file NT DT fl ws) as [(f1 & r)| | |] eqn:E1; try discriminate H. cbn [bind] in H. destruct (generate_shots file NT DT f1 shots) as [rs| | |] eqn:E2; try discriminate H. cbn [bind] in H. injection H as <-.
      destruct (generate_ok _ _ _ _ _ _ _ E1) as (A & B2 & B3 & B4). destruct (IH _ _ (B4 F) E2) as (I1 & I2). split; [constructor; assumption|]. cbn [concat].
      assert (NA : forall t, has_type t (ws ++ concat shots) -> has_type t ws \/ has_type t (concat shots)).
      { intros t (w & Hw & Et). apply in_app_iff in Hw as [Hw|Hw]; [left|right]; exists w; auto. }
      intros (H2 & H3). apply I2. rewrite B2, B3. split; [destruct H2 as [?|H2]; [auto|apply NA in H2 as [?|?]; auto]|destruct H3 as [?|H3]; [auto|apply NA in H3 as [?|?]; auto]]. }
  destruct (G shots flags0 rss eq_refl H) as (A & B). split; [exact A|]. intros (H2 & H3). apply B. auto.
Qed.
Print Assumptions C100_signals.

(** Conversely sources that can be served, without mixing the two, are served. *)
Theorem C100_served : forall file NT DT shots rss, Forall2 (Forall2 (asked file NT DT)) shots rss -> ~ (has_type 2 (concat shots) /\ has_type 3 (concat shots)) ->
  generate_shots file NT DT flags0 shots = Ok rss.
Proof.
  intros file NT DT shots rss A NB.
  assert (G1 : forall ws rs fl, Forall2 (asked file NT DT) ws rs -> ~ ((flag2 fl = true \/ has_type 2 ws) /\ (flag3 fl = true \/ has_type 3 ws)) -> exists fl', generate file NT DT fl ws = Ok (fl', rs)).
  { clear. induction ws as [|w ws IH]; intros rs fl A N; inversion A as [|w0 s ws0 rs' A1 A2]; subst; cbn [generate]; [eexists; reflexivity|].
    destruct A1 as [(T & E)|[(T & v & E & ->)|(T & v & E & ->)]]; rewrite T; rewrite ?E; cbn [bind].
    - destruct (IH rs' fl A2) as (fl' & ->); [|eexists; reflexivity]. intros (H2 & H3). apply N. split; [destruct H2 as [?|(u & ? & ?)]|destruct H3 as [?|(u & ? & ?)]]; auto; right; exists u; split; auto; now right.
    - assert (F : flag3 fl = false). { destruct (flag3 fl) eqn:F; [|reflexivity]. exfalso. apply N. split; [right; exists w; split; [now left|exact T]|auto]. }
      rewrite F. cbn [bind]. destruct (IH rs' (Flags true false) A2) as (fl' & ->); [|eexists; reflexivity].
      intros (_ & [?|(u & ? & ?)]); [discriminate|]. apply N. split; [right; exists w; split; [now left|exact T]|right; exists u; split; [now right|assumption]].
    - assert (F : flag2 fl = false). { destruct (flag2 fl) eqn:F; [|reflexivity]. exfalso. apply N. split; [auto|right; exists w; split; [now left|exact T]]. }
      rewrite F. cbn [bind]. destruct (IH rs' (Flags false true) A2) as (fl' & ->); [|eexists; reflexivity].
      intros ([?|(u & ? & ?)] & _); [discriminate|]. apply N. split; [right; exists u; split; [now right|assumption]|right; exists w; split; [now left|exact T]]. }
  assert (G : forall shots rss fl, Forall2 (Forall2 (asked file NT DT)) shots rss -> ~ ((flag2 fl = true \/ has_type 2 (concat shots)) /\ (flag3 fl = true \/ has_type 3 (concat shots))) ->
    generate_shots file NT DT fl shots = Ok rss).
  { clear A NB. induction shots0 as [|ws l IH]; intros rs fl A N; inversion A as [|w0 r ws0 rs' A1 A2]; subst; cbn [generate_shots concat]; [reflexivity|].
    cbn [concat] in N. assert (NA : forall t, has_type t ws \/ has_type t (concat l) -> has_type t (ws ++ concat l)).
    { intros t [(w & Hw & Et)|(w & Hw & Et)]; exists w; (split; [apply in_app_iff; auto|exact Et]). }
    destruct (G1 ws r fl A1) as (fl' & E). { intros (H2 & H3). apply N. split; [destruct H2; auto|destruct H3; auto]. }
    rewrite E. cbn [bind]. destruct (generate_ok _ _ _ _ _ _ _ E) as (_ & B2 & B3 & _). rewrite (IH rs' fl' A2); [reflexivity|].
    rewrite B2, B3. intros (H2 & H3). apply N. split; [destruct H2 as [[?|?]|?]; auto|destruct H3 as [[?|?]|?]; auto]. }
  apply G; [exact A|]. cbn [flag2 flag3 flags0]. intros ([?|?] & [?|?]); try discriminate. apply NB. auto.
Qed.
Print Assumptions C100_served.

(** So a shot that is accepted on its own can be rejected after another one. *)
Definition read_source (t row : Z) : wavelet := Wavelet t 0 1 1 0 row.
Theorem C100_each_shot_refuted : exists file NT DT s1 s2 r1 r2, generate_shots file NT DT flags0 [s1] = Ok [r1] /\ generate_shots file NT DT flags0 [s2] = Ok [r2] /\
  generate_shots file NT DT flags0 [s1; s2] = Throw.
Proof.
  exists (fun r => Ok [IZR r]), 1%Z, 1, [read_source 2 0], [read_source 3 4]. do 2 eexists. repeat split; reflexivity.
Qed.
Print Assumptions C100_each_shot_refuted.
Example C100_case : generate_shots (fun r => Ok [IZR r; 7]) 2 1 flags0 [[read_source 3 4; read_source 3 9]; []; [read_source 3 2]] =
  Ok [[Some [4; 7]; Some [9; 7]]; []; [Some [2; 7]]].
Proof. reflexivity. Qed.
