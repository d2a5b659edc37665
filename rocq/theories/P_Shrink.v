(** C175: the weights of the model of one shot (Modelparameter::getShrinkVector). *)
From Coq Require Import Reals Lra.
From Verif Require Import Base M_Grid L_Grid M_Average L_Average3 L_Acq M_Shrink S_Shrink L_Shrink.
Open Scope Z_scope.
Local Notation length := List.length.

(** The window of the big model that the submodel covers. *)
Definition windowOf (cut : coord) (mx my mz : Z) : window := mkW (cx cut) (cy cut) (cz cut) mx my mz.

Theorem C175_weights : forall nx ny nz mx my mz sub big cut left right,
  mk_regular mx my mz = Ok sub -> mk_regular nx ny nz = Ok big ->
  0 <= cx cut -> 0 <= cy cut -> 0 <= cz cut -> cx cut + mx <= nx -> cy cut + my <= ny -> cz cut + mz <= nz ->
  (left <= 0 \/ cx cut + left <= nx) -> (right <= 0 \/ right <= cx cut + mx) ->
  exists v, getShrinkVector sub big cut left right = Ok v /\ Z.of_nat (length v) = nx * ny * nz /\
    forall x y z, 0 <= x < nx -> 0 <= y < ny -> 0 <= z < nz ->
      0 <= x + z * nx + y * nx * nz < Z.of_nat (length v) /\
      let a := nth (Z.to_nat (x + z * nx + y * nx * nz)) v 0%R in
      (0 <= a <= 1)%R /\ taperedAtZ0 (windowOf cut mx my mz) left right x y z a.
Proof.
  intros nx ny nz mx my mz sub big cut l r Hs Hb C1 C2 C3 C4 C5 C6 Hl Hr.
  destruct (moved_all _ _ _ _ cut Hs) as (ins&E&O1&In1).
  destruct (mk_regular_wf _ _ _ _ Hs) as (_&Gx&_&_&_&_). destruct (mk_regular_wf _ _ _ _ Hb) as (_&_&Gy&_&Nb&_).
  pose proof (mk_regular_inv _ _ _ _ Hs) as (Px&Py&Pz). pose proof (mk_regular_inv _ _ _ _ Hb) as (Qx&Qy&Qz).
  assert (N0 : 0 <= nx * ny * nz) by (clear - Qx Qy Qz; nia).
  unfold getShrinkVector. rewrite E. cbn [bind]. rewrite Nb, Gx, Gy.
  destruct (assigns_ok nx ny nz big Hb ins (repeat 0%R (Z.to_nat (nx * ny * nz)))) as (v1&E1&L1&V1).
  { rewrite repeat_length. lia. }
  { intros a Ha. assert (X : existsb (fun b => ceqb (fst b) (fst a)) ins = true).
    { apply existsb_exists. exists a. split; [exact Ha|]. unfold ceqb. rewrite !Z.eqb_refl. reflexivity. }
    apply In1 in X. unfold inr. lia. }
  rewrite E1. cbn [bind].
  destruct (assigns_ok nx ny nz big Hb (flat_map (border cut mx l r) (zseq 0 (Z.to_nat ny))) v1 L1) as (v2&E2&L2&V2).
  { intros a Ha. apply in_flat_map in Ha as (y&Hy&Ha). apply zseq_in in Hy. unfold border in Ha. apply in_app_or in Ha as [Ha|Ha];
      apply in_map_iff in Ha as (i&<-&Hi); apply zseq_in in Hi; unfold inr; cbn [fst cx cy cz]; lia. }
  exists v2. split; [exact E2|]. split; [exact L2|]. intros x y z Hx Hy Hz. rewrite L2. split; [now apply num_range|].
  assert (Hp : inr nx ny nz (mkC x y z)) by (repeat split; cbn; lia).
  specialize (V2 _ Hp). specialize (V1 _ Hp). unfold num in V1, V2. cbn [cx cy cz] in V1, V2. cbv zeta. rewrite V2, V1. clear V1 V2.
  rewrite last_borders. cbn [cx cy cz]. replace ((0 <=? y) && (y <? 0 + Z.of_nat (Z.to_nat ny))) with true by lia. cbn [andb]. cbv zeta.
  rewrite nth_repeat, last_ones by exact O1.
  specialize (In1 (mkC x y z)). cbn [cx cy cz] in In1. set (b := existsb _ ins) in *. clearbody b.
  set (dr := cx cut + mx - 1 - x). set (dl := x - cx cut).
  assert (D : forall w d, 0 < w -> (0 <= damp w d <= 1)%R).
  { intros w d Hw. rewrite damp_taper by exact Hw. unfold taper. split; [apply Rle_0_sqr|].
    pose proof (sin2_cos2 (PI / 2 * (IZR d / IZR w))). pose proof (Rle_0_sqr (cos (PI / 2 * (IZR d / IZR w)))). lra. }
  assert (Bb : (0 <= (if b then 1 else 0) <= 1)%R) by (destruct b; lra).
  assert (Wi : inside (windowOf cut mx my mz) x y z <-> b = true) by (rewrite In1; unfold inside; cbn; lia).
  change (rightEdge (windowOf cut mx my mz) x) with dr in *. change (leftEdge (windowOf cut mx my mz) x) with dl in *.
  split.
  - destruct (z =? 0); [|exact Bb]. destruct ((0 <=? dr) && (dr <? r)) eqn:Q1; [apply D; lia|].
    destruct ((0 <=? dl) && (dl <? l)) eqn:Q2; [apply D; lia|exact Bb].
  - unfold taperedAtZ0. change (rightEdge (windowOf cut mx my mz) x) with dr. change (leftEdge (windowOf cut mx my mz) x) with dl.
    unfold inBorder. repeat split.
    + intros -> H. cbn [Z.eqb]. replace ((0 <=? dr) && (dr <? r)) with true by lia. apply damp_taper. lia.
    + intros -> H H'. cbn [Z.eqb]. replace ((0 <=? dr) && (dr <? r)) with false by lia. replace ((0 <=? dl) && (dl <? l)) with true by lia.
      apply damp_taper. lia.
    + intros H I. apply Wi in I. subst b. destruct (Z.eqb_spec z 0) as [Q|Q]; [|reflexivity].
      replace ((0 <=? dr) && (dr <? r)) with false by lia. replace ((0 <=? dl) && (dl <? l)) with false by lia. reflexivity.
    + intros H I. assert (b = false) by (destruct b; [exfalso; apply I; apply Wi; reflexivity|reflexivity]). subst b.
      destruct (Z.eqb_spec z 0) as [Q|Q]; [|reflexivity].
      replace ((0 <=? dr) && (dr <? r)) with false by lia. replace ((0 <=? dl) && (dl <? l)) with false by lia. reflexivity.
Qed.
Print Assumptions C175_weights.

(** A window or a border that leaves the big model is rejected. *)
Theorem C175_outside : forall nx ny nz mx my mz sub big cut left right,
  mk_regular mx my mz = Ok sub -> mk_regular nx ny nz = Ok big ->
  ~ (0 <= cx cut /\ 0 <= cy cut /\ 0 <= cz cut /\ cx cut + mx <= nx /\ cy cut + my <= ny /\ cz cut + mz <= nz /\
     (left <= 0 \/ cx cut + left <= nx) /\ (right <= 0 \/ right <= cx cut + mx)) ->
  getShrinkVector sub big cut left right = Throw.
Proof.
  intros nx ny nz mx my mz sub big cut l r Hs Hb N.
  destruct (moved_all _ _ _ _ cut Hs) as (ins&E&O1&In1).
  destruct (mk_regular_wf _ _ _ _ Hs) as (_&Gx&_&_&_&_). destruct (mk_regular_wf _ _ _ _ Hb) as (_&_&Gy&_&Nb&_).
  pose proof (mk_regular_inv _ _ _ _ Hs) as (Px&Py&Pz). pose proof (mk_regular_inv _ _ _ _ Hb) as (Qx&Qy&Qz).
  unfold getShrinkVector. rewrite E. cbn [bind].
  assert (D : (0 <= cx cut /\ 0 <= cy cut /\ 0 <= cz cut /\ cx cut + mx <= nx /\ cy cut + my <= ny /\ cz cut + mz <= nz) \/
    ~ (0 <= cx cut /\ 0 <= cy cut /\ 0 <= cz cut /\ cx cut + mx <= nx /\ cy cut + my <= ny /\ cz cut + mz <= nz)) by lia.
  destruct D as [D|D].
  - destruct (assigns big (repeat 0%R (Z.to_nat (nGridpoints big))) ins) as [v| | |] eqn:E1; cbn [bind].
    2:{ reflexivity. }
    1: rewrite Gx, Gy; apply (assigns_throw nx ny nz big Hb).
    + set (q := if (0 <? l) && (nx <? cx cut + l) then (mkC (cx cut + (l - 1)) 0 0, damp l (l - 1)) else (mkC (cx cut + mx - 1 - (r - 1)) 0 0, damp r (r - 1))).
      exists q. split.
      * apply in_flat_map. exists 0. split; [apply zseq_in; lia|]. unfold border, q. apply in_or_app.
        destruct ((0 <? l) && (nx <? cx cut + l)) eqn:Q; [left|right]; apply in_map_iff; eexists; (split; [reflexivity|]); apply zseq_in; lia.
      * unfold inr, q. destruct ((0 <? l) && (nx <? cx cut + l)) eqn:Q; cbn [fst cx cy cz]; lia.
    + exfalso. destruct (assigns_ok nx ny nz big Hb ins (repeat 0%R (Z.to_nat (nGridpoints big)))) as (v1&X&_); [| |congruence].
      * rewrite repeat_length, Nb. assert (0 <= nx * ny * nz) by (clear - Qx Qy Qz; nia). lia.
      * intros a Ha. assert (X : existsb (fun b => ceqb (fst b) (fst a)) ins = true).
        { apply existsb_exists. exists a. split; [exact Ha|]. unfold ceqb. rewrite !Z.eqb_refl. reflexivity. }
        apply In1 in X. unfold inr. lia.
    + exfalso. destruct (assigns_ok nx ny nz big Hb ins (repeat 0%R (Z.to_nat (nGridpoints big)))) as (v1&X&_); [| |congruence].
      * rewrite repeat_length, Nb. assert (0 <= nx * ny * nz) by (clear - Qx Qy Qz; nia). lia.
      * intros a Ha. assert (X : existsb (fun b => ceqb (fst b) (fst a)) ins = true).
        { apply existsb_exists. exists a. split; [exact Ha|]. unfold ceqb. rewrite !Z.eqb_refl. reflexivity. }
        apply In1 in X. unfold inr. lia.
  - rewrite (assigns_throw nx ny nz big Hb); [reflexivity|].
    set (x := if cx cut <? 0 then 0 else mx - 1). set (y := if cy cut <? 0 then 0 else my - 1). set (z := if cz cut <? 0 then 0 else mz - 1).
    assert (Hx : 0 <= x < mx) by (unfold x; destruct (cx cut <? 0); lia).
    assert (Hy : 0 <= y < my) by (unfold y; destruct (cy cut <? 0); lia).
    assert (Hz : 0 <= z < mz) by (unfold z; destruct (cz cut <? 0); lia).
    assert (X : existsb (fun b => ceqb (fst b) (mkC (cx cut + x) (cy cut + y) (cz cut + z))) ins = true) by (apply In1; cbn [cx cy cz]; lia).
    apply existsb_exists in X as (a&Ha&Q). exists a. split; [exact Ha|]. unfold ceqb in Q. cbn [cx cy cz] in Q. unfold inr.
    unfold x, y, z in Q. destruct (Z.ltb_spec (cx cut) 0), (Z.ltb_spec (cy cut) 0), (Z.ltb_spec (cz cut) 0); lia.
Qed.
Print Assumptions C175_outside.

(** The taper rises from 0 at the edge to 1 at its full width. *)
Theorem C175_taper : forall w, 0 < w -> taper w 0 = 0%R /\ taper w w = 1%R /\
  forall d e, 0 <= d < e -> e <= w -> (taper w d < taper w e)%R.
Proof.
  intros w Hw. pose proof (IZR_lt _ _ Hw) as Hw'. unfold taper. repeat split.
  - replace (PI / 2 * (IZR 0 / IZR w))%R with 0%R by (field; lra). rewrite sin_0. unfold Rsqr. lra.
  - replace (PI / 2 * (IZR w / IZR w))%R with (PI / 2)%R by (field; lra). rewrite sin_PI2. unfold Rsqr. lra.
  - intros d e Hd He. assert (P : (0 < PI / 2)%R) by (pose proof PI_RGT_0; lra).
    assert (D0 : (0 <= IZR d / IZR w)%R). { apply Rmult_le_pos; [apply IZR_le; lia|left; apply Rinv_0_lt_compat; lra]. }
    assert (DE : (IZR d / IZR w < IZR e / IZR w)%R). { apply Rmult_lt_compat_r; [apply Rinv_0_lt_compat; lra|apply IZR_lt; lia]. }
    assert (E1 : (IZR e / IZR w <= 1)%R). { apply Rmult_le_reg_r with (IZR w); [lra|]. unfold Rdiv. rewrite Rmult_assoc, Rinv_l by lra. rewrite Rmult_1_r, Rmult_1_l. apply IZR_le. lia. }
    assert (A0 : (0 <= PI / 2 * (IZR d / IZR w))%R) by (apply Rmult_le_pos; lra).
    assert (AB : (PI / 2 * (IZR d / IZR w) < PI / 2 * (IZR e / IZR w))%R) by (apply Rmult_lt_compat_l; lra).
    assert (B1 : (PI / 2 * (IZR e / IZR w) <= PI / 2)%R).
    { rewrite <- (Rmult_1_r (PI / 2)) at 2. apply Rmult_le_compat_l; lra. }
    apply Rsqr_incrst_1.
    + apply sin_increasing_1; lra.
    + apply sin_ge_0; lra.
    + apply sin_ge_0; lra.
Qed.
Print Assumptions C175_taper.

(** In two dimensions, with a window of the full height and borders not wider than it, the weights are the tapered window. *)
Theorem C175_flat : forall nx ny mx sub big cut left right,
  mk_regular mx ny 1 = Ok sub -> mk_regular nx ny 1 = Ok big -> cy cut = 0 -> cz cut = 0 -> 0 <= cx cut -> cx cut + mx <= nx ->
  left <= mx -> right <= mx ->
  exists v, getShrinkVector sub big cut left right = Ok v /\
    forall x y, 0 <= x < nx -> 0 <= y < ny -> tapered (windowOf cut mx ny 1) left right x y 0 (nth (Z.to_nat (x + y * nx)) v 0%R).
Proof.
  intros nx ny mx sub big cut l r Hs Hb Cy Cz Cx C Hl Hr.
  destruct (C175_weights nx ny 1 mx ny 1 sub big cut l r) as (v&E&_&H); try assumption; try lia.
  exists v. split; [exact E|]. intros x y Hx Hy. specialize (H x y 0 Hx Hy ltac:(lia)). cbv zeta in H.
  replace (x + 0 * nx + y * nx * 1) with (x + y * nx) in H by lia. destruct H as (_&_&H1&H2&H3&H4). unfold tapered.
  set (w := windowOf cut mx ny 1) in *.
  assert (I : inside w x y 0 <-> (cx cut <= x < cx cut + mx)) by (unfold inside, w; cbn; lia).
  assert (Ed : rightEdge w x = cx cut + mx - 1 - x) by reflexivity. assert (El : leftEdge w x = x - cx cut) by reflexivity.
  unfold inBorder in *. repeat split; intros.
  - apply H4; [right|assumption]. rewrite I in *. lia.
  - apply H1; auto.
  - apply H2; auto.
  - apply H3; auto.
Qed.
Print Assumptions C175_flat.

(** With a window of less than the full height, weights outside the window are not 0: the borders are set on every row of the
    big model. *)
Theorem C175_outside_refuted : exists nx ny mx my sub big cut left v x y,
  mk_regular mx my 1 = Ok sub /\ mk_regular nx ny 1 = Ok big /\
  0 <= cx cut /\ cx cut + mx <= nx /\ 0 <= cy cut /\ cy cut + my <= ny /\ cz cut = 0 /\ left <= mx /\
  getShrinkVector sub big cut left left = Ok v /\ 0 <= x < nx /\ 0 <= y < ny /\
  ~ inside (windowOf cut mx my 1) x y 0 /\ (0 < nth (Z.to_nat (x + y * nx)) v 0)%R.
Proof.
  destruct (mk_regular 6 4 1) as [big| | |] eqn:Hb; try discriminate. destruct (mk_regular 4 2 1) as [sub| | |] eqn:Hs; try discriminate.
  destruct (C175_weights 6 4 1 4 2 1 sub big (mkC 1 1 0) 2 2 Hs Hb) as (v&E&_&H); cbn [cx cy cz]; try lia.
  exists 6, 4, 4, 2, sub, big, (mkC 1 1 0), 2, v, 2, 0. repeat split; cbn [cx cy cz]; try lia; try assumption.
  - unfold inside, windowOf; cbn. lia.
  - destruct (H 2 0 0) as (_&_&_&H2&_); try lia. change (2 + 0 * 6) with (2 + 0 * 6 + 0 * 6 * 1).
    rewrite H2; unfold inBorder, rightEdge, leftEdge, windowOf; cbn; try lia.
    destruct (C175_taper 2 ltac:(lia)) as (T0&_&T). specialize (T 0 1 ltac:(lia) ltac:(lia)). lra.
Qed.
Print Assumptions C175_outside_refuted.

(** In three dimensions the borders are not tapered away from z = 0: a point of the left edge of the window keeps weight 1. *)
Theorem C175_depth_refuted : exists nx ny nz mx sub big cut left v x y z,
  mk_regular mx ny nz = Ok sub /\ mk_regular nx ny nz = Ok big /\
  0 <= cx cut /\ cx cut + mx <= nx /\ cy cut = 0 /\ cz cut = 0 /\ left <= mx /\
  getShrinkVector sub big cut left left = Ok v /\ 0 <= y < ny /\ 0 <= z < nz /\
  inside (windowOf cut mx ny nz) x y z /\ leftEdge (windowOf cut mx ny nz) x = 0 /\ 0 < left /\
  nth (Z.to_nat (x + z * nx + y * nx * nz)) v 0%R = 1%R /\ taper left 0 = 0%R.
Proof.
  destruct (mk_regular 6 2 3) as [big| | |] eqn:Hb; try discriminate. destruct (mk_regular 4 2 3) as [sub| | |] eqn:Hs; try discriminate.
  destruct (C175_weights 6 2 3 4 2 3 sub big (mkC 1 0 0) 2 2 Hs Hb) as (v&E&_&H); cbn [cx cy cz]; try lia.
  exists 6, 2, 3, 4, sub, big, (mkC 1 0 0), 2, v, 1, 1, 2. repeat split; try assumption; try (cbn; lia).
  - destruct (H 1 1 2) as (_&_&_&_&H3&_); try lia. apply H3; [left; lia|]. unfold inside, windowOf; cbn. lia.
  - apply C175_taper. lia.
Qed.
Print Assumptions C175_depth_refuted.

(** A window of 5 columns in a model of 9 columns and 2 rows, borders of 2 points: the weights of the first row. *)
Example C175_ex : exists sub big v, mk_regular 5 2 1 = Ok sub /\ mk_regular 9 2 1 = Ok big /\
  getShrinkVector sub big (mkC 2 0 0) 2 2 = Ok v /\
  map (fun i => nth i v 0%R) [0; 1; 2; 3; 4; 5; 6; 7; 8]%nat = [0; 0; 0; 1/2; 1; 1/2; 0; 0; 0]%R.
Proof.
  destruct (mk_regular 9 2 1) as [big| | |] eqn:Hb; try discriminate. destruct (mk_regular 5 2 1) as [sub| | |] eqn:Hs; try discriminate.
  destruct (C175_flat 9 2 5 sub big (mkC 2 0 0) 2 2 Hs Hb) as (v&E&H); cbn [cx cy cz]; try lia; try reflexivity.
  exists sub, big, v. split; [reflexivity|]. split; [reflexivity|]. split; [exact E|].
  assert (T : taper 2 1 = (1 / 2)%R).
  { unfold taper. replace (PI / 2 * (IZR 1 / IZR 2))%R with (PI / 4)%R by field. rewrite sin_PI4. unfold Rsqr.
    pose proof (sqrt_lt_R0 2 ltac:(lra)) as P. pose proof (sqrt_sqrt 2 ltac:(lra)) as S.
    replace (1 / sqrt 2 * (1 / sqrt 2))%R with (/ (sqrt 2 * sqrt 2))%R by (field; lra). rewrite S. lra. }
  assert (T0 : taper 2 0 = 0%R) by (apply C175_taper; lia).
  assert (A : forall x, 0 <= x < 9 -> tapered (windowOf (mkC 2 0 0) 5 2 1) 2 2 x 0 0 (nth (Z.to_nat x) v 0%R)).
  { intros x Hx. specialize (H x 0 Hx ltac:(lia)). replace (x + 0 * 9) with x in H by lia. exact H. }
  assert (S0 : forall a b : R, a = b -> forall c, b = c -> a = c) by (intros; congruence).
  assert (K0 : nth 0 v 0%R = (0)%R).
  { destruct (A 0 ltac:(lia)) as (h&_). apply h; unfold inside, inBorder, rightEdge, leftEdge, windowOf; cbn; lia. }
  assert (K1 : nth 1 v 0%R = (0)%R).
  { destruct (A 1 ltac:(lia)) as (h&_). apply h; unfold inside, inBorder, rightEdge, leftEdge, windowOf; cbn; lia. }
  assert (K2 : nth 2 v 0%R = (0)%R).
  { destruct (A 2 ltac:(lia)) as (_&_&h&_). refine (S0 _ _ _ _ T0). apply h; unfold inside, inBorder, rightEdge, leftEdge, windowOf; cbn; lia. }
  assert (K3 : nth 3 v 0%R = (1 / 2)%R).
  { destruct (A 3 ltac:(lia)) as (_&_&h&_). refine (S0 _ _ _ _ T). apply h; unfold inside, inBorder, rightEdge, leftEdge, windowOf; cbn; lia. }
  assert (K4 : nth 4 v 0%R = (1)%R).
  { destruct (A 4 ltac:(lia)) as (_&_&_&h). apply h; unfold inside, inBorder, rightEdge, leftEdge, windowOf; cbn; lia. }
  assert (K5 : nth 5 v 0%R = (1 / 2)%R).
  { destruct (A 5 ltac:(lia)) as (_&h&_). refine (S0 _ _ _ _ T). apply h; unfold inside, inBorder, rightEdge, leftEdge, windowOf; cbn; lia. }
  assert (K6 : nth 6 v 0%R = (0)%R).
  { destruct (A 6 ltac:(lia)) as (_&h&_). refine (S0 _ _ _ _ T0). apply h; unfold inside, inBorder, rightEdge, leftEdge, windowOf; cbn; lia. }
  assert (K7 : nth 7 v 0%R = (0)%R).
  { destruct (A 7 ltac:(lia)) as (h&_). apply h; unfold inside, inBorder, rightEdge, leftEdge, windowOf; cbn; lia. }
  assert (K8 : nth 8 v 0%R = (0)%R).
  { destruct (A 8 ltac:(lia)) as (h&_). apply h; unfold inside, inBorder, rightEdge, leftEdge, windowOf; cbn; lia. }
  cbn [map]. rewrite K0, K1, K2, K3, K4, K5, K6, K7, K8. reflexivity.
Qed.
