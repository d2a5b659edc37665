(** Derivative rows on layered grids: interfaces and the vertical direction. *)
From Verif Require Import Base M_Grid S_Grid L_Grid L_Grid2 L_Grid3 L_GridP M_Deriv S_Deriv S_DerivVar L_Deriv L_Deriv2 L_DerivVar L_DerivVar2.
Open Scope Z_scope.

Lemma row_yb_off g layer dh h col y k : locatedOnInterface g y = Ok false -> 0 <= y + dh * - k -> y + dh * (k - 1) < gNY g ->
  forall fuel j acc, row_yb fuel g layer dh h col y (2 * k) j acc = row_bwd fuel dh 0 (gNY g) h col y (2 * k) j acc.
Proof.
  intros Hi H1 H2. induction fuel as [|f IH]; intros j acc; [reflexivity|].
  cbn [row_yb row_bwd]. destruct (negb (j <? 2 * k)); [reflexivity|]. rewrite Hi. cbn [bind andb]. rewrite !Z.add_0_r, quot2n, quot2.
  replace (y + dh * - k <? 0) with false by lia. replace (y + dh * (k - 1) >=? gNY g) with false by lia.
  destruct (col (y + dh * (j - k))); [cbn [bind]|reflexivity..]. destruct (fdcoef (2 * k) j); [cbn [bind]|reflexivity..]. apply IH.
Qed.

Section Layered.
Variables (g : grid) (itf : list Z).
Hypothesis L : layered g itf.

(** ** Interfaces *)
Lemma iface_layer k y la lb : nth_error itf k = Some y -> (forall k', nth_error itf k' = Some y -> k' = k) ->
  nth_error (layers g) k = Some la -> nth_error (layers g) (S k) = Some lb ->
  getLayer g y = Ok (Z.of_nat (if ldh la <? ldh lb then S k else k)).
Proof.
  intros Hk Hu Ha Hb. unfold getLayer. rewrite (lay_if g itf L).
  rewrite (getLayer_from_at k itf (layers g) (-1) _ 0 y la Hk); [| |exact Ha|].
  - rewrite (lay_trans g itf L k la Ha), Hb. destruct (Z.ltb_spec (ldh la) (ldh lb)) as [H|H].
    + rewrite (proj2 (Z.sgn_pos_iff (ldh lb - ldh la))) by lia. change (1 >? 0) with true. cbv iota. f_equal. lia.
    + replace (Z.sgn (ldh lb - ldh la) >? 0) with false; [f_equal; lia|]. pose proof (Z.sgn_nonpos (ldh lb - ldh la)). lia.
  - intros k' i Hlt Hi. assert (i <= y) by (eapply (lay_sorted g itf L k' k); eauto; lia).
    assert (i <> y); [|lia]. intros ->. specialize (Hu k' Hi). lia.
  - rewrite (lay_num g itf L). apply nth_error_Some. congruence.
Qed.

Lemma interior k y lb : nth_error itf k = Some y -> nth_error (layers g) (S k) = Some lb -> In y (removelast itf).
Proof.
  intros Hk Hb. apply (removelast_nth itf k); [exact Hk|]. rewrite (lay_len g itf L). apply nth_error_Some. congruence.
Qed.

Lemma iface_nonneg k y la lb : nth_error itf k = Some y -> nth_error (layers g) k = Some la -> nth_error (layers g) (S k) = Some lb -> 0 <= y.
Proof.
  intros Hk Ha Hb. destruct (lay_pair g itf L k la lb Ha Hb) as (i&E&R). assert (i = y) by congruence. subst i.
  destruct (lay_rows g itf L la (nth_error_In _ _ Ha)) as (R1&_). destruct (lay_rows g itf L lb (nth_error_In _ _ Hb)) as (R2&_).
  destruct (ldh la <? ldh lb); lia.
Qed.

Lemma iface_trans k y la lb : nth_error itf k = Some y -> (forall k', nth_error itf k' = Some y -> k' = k) ->
  nth_error (layers g) k = Some la -> nth_error (layers g) (S k) = Some lb ->
  locatedOnInterface g y = Ok true /\ getTransition g y = Ok (Z.sgn (ldh lb - ldh la)) /\ distToInterface g y <= 0.
Proof.
  intros Hk Hu Ha Hb. pose proof (interior _ _ _ Hk Hb) as Hin. pose proof (iface_nonneg _ _ _ _ Hk Ha Hb) as H0.
  split; [|split].
  - destruct (lay_onif g itf L y H0) as (b&E&Hbb). rewrite E. f_equal. now apply Hbb.
  - destruct (lay_gt g itf L y H0 Hin) as (k'&l&l'&E&Hk'&Hl&Hl'). specialize (Hu k' Hk'). subst k'. rewrite E.
    assert (l = la) by congruence. subst l. destruct Hl' as [Hl'|(Hl'&_)]; congruence.
  - destruct (lay_dist g itf L y) as (_&D&_). specialize (D y Hin). lia.
Qed.

(** The row of an interface is stored in the finer layer. *)
Lemma iface_store k y la lb : nth_error itf k = Some y -> nth_error (layers g) k = Some la -> nth_error (layers g) (S k) = Some lb ->
  exists j l, nth_error (layers g) j = Some l /\ lstart l <= y <= lend l /\ ldh l = Z.min (ldh la) (ldh lb).
Proof.
  intros Hk Ha Hb. destruct (lay_pair g itf L k la lb Ha Hb) as (i&E&R). assert (i = y) by congruence. subst i.
  destruct (lay_rows g itf L la (nth_error_In _ _ Ha)) as (R1&_). destruct (lay_rows g itf L lb (nth_error_In _ _ Hb)) as (R2&_).
  destruct (Z.ltb_spec (ldh la) (ldh lb)); [exists k, la|exists (S k), lb]; repeat split; auto; lia.
Qed.

(** ** Rows away from the interfaces *)
Section Off.
Variables (j : nat) (l : layer) (y : Z).
Hypothesis Hj : nth_error (layers g) j = Some l.
Hypothesis Hy : lstart l <= y <= lend l.
Hypothesis Hoff : ~ In y (removelast itf).
Hypothesis Hdy : (ldh l | y - lstart l).

Let d := ldh l.
Lemma d1 : 1 <= d. Proof. apply (layer_pos g itf L). eapply nth_error_In; eauto. Qed.

Lemma above : (j = 0%nat /\ lstart l = 0) \/ exists j' la i0, j = S j' /\ nth_error (layers g) j' = Some la /\ nth_error itf j' = Some i0 /\
  In i0 (removelast itf) /\ (d | y - i0) /\ i0 + d <= y /\
  (lstart l = i0 \/ (lstart l = i0 + d /\ lend la = i0 /\ (ldh la | d))).
Proof.
  pose proof d1. destruct j as [|j']; [left; split; [reflexivity|apply (lay_first g itf L); exact Hj]|right].
  destruct (nth_error (layers g) j') as [la|] eqn:Ha.
  2:{ apply nth_error_None in Ha. assert (S j' < length (layers g))%nat by (apply nth_error_Some; congruence). lia. }
  destruct (lay_pair g itf L j' la l Ha Hj) as (i0&Ei&R). pose proof (interior _ _ _ Ei Hj) as Hin.
  assert (Hne : y <> i0) by (intros ->; tauto). fold d in Hdy, R.
  exists j', la, i0. split; [reflexivity|]. split; [exact Ha|]. split; [exact Ei|]. split; [exact Hin|].
  destruct (Z.ltb_spec (ldh la) d) as [Hlt|Hge]; destruct R as (R1&R2).
  - assert ((d | y - i0)). { replace (y - i0) with (y - lstart l + d) by lia. apply Z.divide_add_r; [assumption|exists 1; ring]. }
    split; [assumption|]. split; [lia|]. right. split; [lia|]. split; [lia|].
    apply pow3_divide; [apply (lay_pow g itf L); eapply nth_error_In; eauto..|unfold d in *; lia].
  - rewrite R2 in Hdy. split; [assumption|]. split; [|now left]. destruct Hdy as (q&Hq). assert (0 < q) by nia. nia.
Qed.

Lemma below : (nth_error (layers g) (S j) = None /\ lend l = gNY g - 1) \/ exists lb i1, nth_error (layers g) (S j) = Some lb /\ nth_error itf j = Some i1 /\
  In i1 (removelast itf) /\ (d | i1 - y) /\ y + d <= i1 /\
  (lend l = i1 \/ (lend l = i1 - d /\ lstart lb = i1 /\ (ldh lb | d))).
Proof.
  pose proof d1. destruct (nth_error (layers g) (S j)) as [lb|] eqn:Hb; [right|left; split; [reflexivity|apply (lay_last g itf L j); assumption]].
  destruct (lay_pair g itf L j l lb Hj Hb) as (i1&Ei&R). pose proof (interior _ _ _ Ei Hb) as Hin.
  assert (Hne : y <> i1) by (intros ->; tauto). fold d in Hdy, R.
  destruct (lay_rows g itf L l (nth_error_In _ _ Hj)) as (_&_&Hdl). fold d in Hdl.
  assert (Hde : (d | lend l - y)). { replace (lend l - y) with (lend l - lstart l - (y - lstart l)) by ring. now apply Z.divide_sub_r. }
  exists lb, i1. split; [reflexivity|]. split; [exact Ei|]. split; [exact Hin|].
  destruct (Z.ltb_spec d (ldh lb)) as [Hlt|Hge]; destruct R as (R1&R2).
  - rewrite R1 in Hde. split; [assumption|]. split; [|now left]. destruct Hde as (q&Hq). assert (0 < q) by nia. nia.
  - split; [replace (i1 - y) with (lend l - y + d) by lia; apply Z.divide_add_r; [assumption|exists 1; ring]|]. split; [lia|].
    right. split; [lia|]. split; [lia|]. apply pow3_divide; [apply (lay_pow g itf L); eapply nth_error_In; eauto..|unfold d in *; lia].
Qed.

Lemma dist_lower : d <= distToInterface g y \/ distToInterface g y = gNY g.
Proof.
  destruct (lay_dist g itf L y) as (_&_&[E|(i&Hin&E)]); [now right|left]. rewrite E. pose proof d1.
  destruct (nth_removelast itf i Hin) as (k&Hk&Hlen). rewrite (lay_len g itf L) in Hlen.
  destruct (le_lt_dec j k) as [Hle|Hlt].
  - destruct below as [(Hn&_)|(lb&i1&_&Hi1&_&_&B&_)].
    + apply nth_error_None in Hn. lia.
    + pose proof (lay_sorted g itf L j k i1 i Hi1 Hk Hle). lia.
  - destruct above as [(H0&_)|(j'&la&i0&Ej&_&Hi0&_&_&B&_)]; [lia|].
    pose proof (lay_sorted g itf L k j' i i0 Hk Hi0 ltac:(lia)). lia.
Qed.

Lemma Ycol x z t Y : 0 <= x < gNX g -> 0 <= z < gNZ g -> (d | x) -> (d | z) -> t <= distToInterface g y ->
  (d | Y - y) -> y - t <= Y <= y + t -> 0 <= Y < gNY g ->
  exists k, coordinate2index g (mkC x Y z) = Ok k /\ index2coordinate g k = Ok (mkC x Y z).
Proof.
  intros Hx Hz Dx Dz Ht DY HY HN. pose proof d1.
  destruct (lay_dist g itf L y) as (_&D&_).
  destruct (lay_rows g itf L l (nth_error_In _ _ Hj)) as (_&_&Hdl). fold d in Hdl, Hdy.
  assert (Hin : lstart l <= Y <= lend l -> exists k, coordinate2index g (mkC x Y z) = Ok k /\ index2coordinate g k = Ok (mkC x Y z)).
  { intros HYl. apply (grid_col g itf L x Y z l); auto; [eapply nth_error_In; eauto|].
    fold d. replace (Y - lstart l) with (Y - y + (y - lstart l)) by ring. now apply Z.divide_add_r. }
  destruct (Z_lt_le_dec Y (lstart l)) as [Hlo|Hlo].
  - destruct above as [(_&H0)|(j'&la&i0&Ej&Ha&Hi0&Hint&Di&Bi&R)]; [lia|].
    specialize (D i0 Hint). destruct R as [R|(R1&R2&R3)]; [lia|].
    assert (Y = i0). { symmetry. enough (i0 - y = Y - y) by lia. destruct Di as (q&Hq). destruct DY as (q'&Hq'). assert (q' = - q) by nia. subst q'. lia. }
    subst Y. destruct (lay_rows g itf L la (nth_error_In _ _ Ha)) as (A1&A2&A3).
    apply (grid_col g itf L x i0 z la); auto; [eapply nth_error_In; eauto|lia|now apply (Z.divide_trans _ d)|now rewrite <- R2|now apply (Z.divide_trans _ d)].
  - destruct (Z_lt_le_dec (lend l) Y) as [Hhi|Hhi]; [|apply Hin; lia].
    destruct below as [(_&H0)|(lb&i1&Hb&Hi1&Hint&Di&Bi&R)]; [lia|].
    specialize (D i1 Hint). destruct R as [R|(R1&R2&R3)]; [lia|].
    assert (Y = i1). { destruct Di as (q&Hq). destruct DY as (q'&Hq'). assert (q' = q) by nia. subst q'. lia. }
    subst Y. destruct (lay_rows g itf L lb (nth_error_In _ _ Hb)) as (A1&A2&A3).
    apply (grid_col g itf L x i1 z lb); auto; [eapply nth_error_In; eauto|lia|now apply (Z.divide_trans _ d)|rewrite R2, Z.sub_diag; apply Z.divide_0_r|now apply (Z.divide_trans _ d)].
Qed.

Definition capped (p D d : Z) : Z := Z.max 2 (Z.min p (2 * (D / d))).
Lemma reduce_ok p : In p [2; 4; 6; 8; 10; 12] -> reduce_order true g y (Z.of_nat j) p = Ok (capped p (distToInterface g y) d) /\
  In (capped p (distToInterface g y) d) [2; 4; 6; 8; 10; 12].
Proof.
  intros Hp. pose proof d1. assert (D0 : 0 <= distToInterface g y).
  { pose proof (lay_rows g itf L l (nth_error_In _ _ Hj)). destruct dist_lower; lia. }
  unfold reduce_order. rewrite (vget_nat _ _ _ Hj). cbn [bind]. rewrite cdiv_nonneg by (fold d; lia). cbn [bind]. fold d.
  set (q := distToInterface g y / d). assert (0 <= q) by (apply Z.div_pos; lia). unfold capped. fold q.
  destruct (supported_even p Hp) as (k&->&Hk). split.
  - f_equal. destruct (Z.eqb_spec q 0); [lia|]. destruct (Z.gtb_spec (2 * k) (q * 2)); lia.
  - replace (Z.max 2 (Z.min (2 * k) (2 * q))) with (2 * Z.max 1 (Z.min k q)) by lia. apply even_supported. lia.
Qed.

(** half the reduced stencil does not reach beyond the next interface, unless the model is lower than one cell *)
Lemma capped_reach p : In p [2; 4; 6; 8; 10; 12] -> d <= distToInterface g y -> d * (capped p (distToInterface g y) d / 2) <= distToInterface g y.
Proof.
  intros Hp HD. pose proof d1. set (D := distToInterface g y) in *. unfold capped.
  assert (1 <= D / d) by (apply Z.div_le_lower_bound; lia). pose proof (Z.mul_div_le D d ltac:(lia)).
  destruct (supported_even p Hp) as (k&->&Hk).
  replace (Z.max 2 (Z.min (2 * k) (2 * (D / d)))) with (Z.min k (D / d) * 2) by lia. rewrite Z.div_mul by lia. nia.
Qed.
End Off.
End Layered.
