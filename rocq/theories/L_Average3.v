(** Applying averaging rows; exact rows on regular grids; windows. *)
From Coq Require Import Reals Lra Permutation.
From Verif Require Import Base M_Grid L_Grid L_Grid2 L_Grid3 L_GridP M_Average S_Average S_Grid L_Average L_Average2 L_Acq.

Lemma mapres_all {A B} (f : A -> res B) (P : A -> B -> Prop) l : (forall a, In a l -> exists b, f a = Ok b /\ P a b) ->
  exists r, mapres f l = Ok r /\ Forall2 P l r.
Proof.
  induction l as [|a l IH]; intros H; [exists []; split; [reflexivity|constructor]|].
  destruct (H a (or_introl eq_refl)) as (b&E&Hb). destruct IH as (r&Er&Hr); [intros; apply H; now right|].
  exists (b :: r). cbn [mapres]. rewrite E; cbn [bind]. rewrite Er. split; [reflexivity|now constructor].
Qed.
Lemma mapres_throw {A B} (f : A -> res B) l : (forall a, In a l -> (exists b, f a = Ok b) \/ f a = Throw) ->
  (exists a, In a l /\ f a = Throw) -> mapres f l = Throw.
Proof.
  induction l as [|a l IH]; intros H (x&I&E); [destruct I|]. cbn [mapres].
  destruct (H a (or_introl eq_refl)) as [(b&Eb)|Eb]; rewrite Eb; cbn [bind]; [|reflexivity].
  destruct I as [->|I]; [congruence|]. rewrite IH; [reflexivity|intros; apply H; now right|eauto].
Qed.

Lemma Forall2_zseq {B} (P : Z -> B -> Prop) n : forall s r, Forall2 P (zseq s n) r -> length r = n /\
  forall k, (k < n)%nat -> exists b, nth_error r k = Some b /\ P (s + Z.of_nat k) b.
Proof.
  induction n as [|n IH]; intros s r H; inversion H as [|? b ? r' H1 H2]; subst; [split; [reflexivity|lia]|].
  destruct (IH _ _ H2) as (E&N). split; [simpl; lia|]. intros [|k] Hk.
  - exists b. rewrite Z.add_0_r. split; [reflexivity|exact H1].
  - destruct (N k ltac:(lia)) as (b'&E1&E2). exists b'. split; [exact E1|]. replace (s + Z.of_nat (S k)) with (s + 1 + Z.of_nat k) by lia. exact E2.
Qed.

Lemma averageMatrix_ok a g : wf g -> steps g -> 0 <= nGridpoints g -> exists m, averageMatrix a g = Ok m /\
  mcols m = nGridpoints g /\ Z.of_nat (length (mrows m)) = nGridpoints g /\
  forall i, 0 <= i < nGridpoints g -> exists r, nth_error (mrows m) (Z.to_nat i) = Some r /\
    is_average (nGridpoints g) r /\ avgRow a g i = Ok r.
Proof.
  intros W S N. unfold averageMatrix, fill.
  destruct (mapres_all (fun i => r <- avgRow a g i;; Ok (assemble r)) (fun i r => avgRow a g i = Ok r /\ is_average (nGridpoints g) r)
    (zseq 0 (Z.to_nat (nGridpoints g)))) as (rs&E&F).
  { intros i Hi. apply zseq_in in Hi. destruct (rows_average g a i W S ltac:(lia)) as (r&Er&Hr). exists r. rewrite Er. cbn [bind].
    rewrite assemble_id by apply Hr. auto. }
  rewrite E. cbn [bind]. eexists. split; [reflexivity|]. cbn [mcols mrows]. split; [reflexivity|].
  destruct (Forall2_zseq _ _ _ _ F) as (L&K). split; [lia|]. intros i Hi. destruct (K (Z.to_nat i) ltac:(lia)) as (r&E1&E2&E3).
  exists r. replace (0 + Z.of_nat (Z.to_nat i)) with i in E2 by lia. auto.
Qed.

Lemma rowdot_bounds lo hi v r : Forall (fun e => (0 <= snd e)%R /\ (lo <= nth (Z.to_nat (fst e)) v 0 <= hi)%R) r ->
  (lo * fold_right Rplus 0 (map snd r) <= rowdot r v <= hi * fold_right Rplus 0 (map snd r))%R.
Proof.
  unfold rowdot. induction 1 as [|[k w] r (H1&H2&H3) _ (IH1&IH2)]; simpl in *; [lra|].
  pose proof (Rmult_le_compat_l w _ _ H1 H2). pose proof (Rmult_le_compat_l w _ _ H1 H3). lra.
Qed.
Lemma average_between n r v lo hi : is_average n r -> (forall k, In k (map fst r) -> (lo <= nth (Z.to_nat k) v 0 <= hi)%R) ->
  (lo <= rowdot r v <= hi)%R.
Proof.
  intros (F&_&S) H. pose proof (rowdot_bounds lo hi v r) as B. rewrite S in B. rewrite !Rmult_1_r in B. apply B.
  rewrite Forall_forall in *. intros e He. split; [apply F, He|]. apply H. now apply in_map.
Qed.
Lemma average_const n r c : is_average n r -> rowdot r (repeat c (Z.to_nat n)) = c.
Proof.
  intros A. apply Rle_antisym; eapply (average_between n r _ c c A); intros k Hk;
    (apply in_map_iff in Hk as (e&<-&He); destruct A as (F&_); rewrite Forall_forall in F; destruct (F e He) as (B&_);
     assert (E : nth (Z.to_nat (fst e)) (repeat c (Z.to_nat n)) 0%R = c);
     [apply (repeat_spec (Z.to_nat n)); apply nth_In; rewrite repeat_length; lia|rewrite E; lra]).
Qed.

(** ** Regular grids: the exact rows *)
Definition dirs (a : avgkind) : list dir :=
  match a with AX => [DX] | AY => [DY] | AZ => [DZ] | AXY => [DX; DY] | AXZ => [DX; DZ] | AYZ => [DY; DZ] end.

Lemma regular_i2c nx ny nz g x y z : mk_regular nx ny nz = Ok g -> 0 <= x < nx -> 0 <= y < ny -> 0 <= z < nz ->
  index2coordinate g (x + z * nx + y * nx * nz) = Ok (mkC x y z).
Proof.
  intros H Hx Hy Hz. destruct (regular_bijection _ _ _ _ H) as (_&B&_).
  destruct (B (mkC x y z) (conj Hx (conj Hy Hz))) as (i&E&_&R). rewrite (regular_formula _ _ _ _ _ _ _ H Hx Hy Hz) in E.
  injection E as <-. exact R.
Qed.

Lemma num_range nx ny nz x y z : 0 <= x < nx -> 0 <= y < ny -> 0 <= z < nz -> 0 <= x + z * nx + y * nx * nz < nx * ny * nz.
Proof.
  intros Hx Hy Hz. assert (A : 0 <= x + z * nx < nx * nz) by nia.
  assert (B : y * (nx * nz) <= (ny - 1) * (nx * nz)) by (apply Z.mul_le_mono_nonneg_r; nia). 
  assert (C : 0 <= y * (nx * nz)) by (apply Z.mul_nonneg_nonneg; nia). nia.
Qed.

Lemma regular_factor nx ny nz g y : mk_regular nx ny nz = Ok g -> 0 <= y < ny -> getDHFactor g y = Ok 1 /\ stepY g y = Ok 1.
Proof.
  intros H Hy. pose proof (regular_steps _ _ _ _ H (mkL 1 0 (ny - 1) 0 nx ny nz (nx * ny * nz)) 0 y) as S.
  destruct (mk_regular_wf _ _ _ _ H) as (_&_&_&_&_&EL).
  pose proof (mk_regular_inv _ _ _ _ H) as (Px&Py&Pz).
  rewrite (mk_regular_ok _ _ _ Px Py Pz) in H. injection H as <-. clear S.
  assert (G : getLayer (mkG nx ny nz 1 (nx * ny * nz) [mkL 1 0 (ny - 1) 0 nx ny nz (nx * ny * nz)] [-1; ny - 1]) y = Ok 0).
  { unfold getLayer. cbn [interface numLayers getLayer_from layers].
    destruct ((y <? ny - 1) && (y >? -1)) eqn:E1; [reflexivity|]. destruct (Z.eqb_spec y (ny - 1)) as [->|N]; [reflexivity|lia]. }
  unfold getDHFactor, stepY. rewrite G. cbn [bind vget layers]. split; [reflexivity|].
  unfold locatedOnInterface. cbn [numLayers interface on_iface]. destruct (Z.eqb_spec y (-1)); [lia|]. reflexivity.
Qed.

Lemma perm3 {A} (a b c d : A) : Permutation [a; b; c; d] [a; c; b; d].
Proof. constructor. constructor. Qed.

Lemma regular_rows a nx ny nz g x y z : mk_regular nx ny nz = Ok g -> 0 <= x < nx -> 0 <= y < ny -> 0 <= z < nz ->
  let num p := let '(x, y, z) := p in x + z * nx + y * nx * nz in
  exists r, avgRow a g (num (x, y, z)) = Ok r /\ Permutation r (cell_average num (nx, ny, nz) (dirs a) (x, y, z)).
Proof.
  intros H Hx Hy Hz num. destruct (regular_factor _ _ _ _ y H Hy) as (D1&D2).
  pose proof (regular_i2c _ _ _ _ _ _ _ H Hx Hy Hz) as I.
  destruct (mk_regular_wf _ _ _ _ H) as (_&G1&G2&G3&_&_).
  pose proof (fun x y z => regular_formula nx ny nz g x y z H) as F.
  assert (Ih : (/ INR 2 = 1 / 2)%R) by (simpl; field). assert (Iq : (/ INR 4 = 1 / 4)%R) by (simpl; field).
  assert (I1 : (/ INR 1 = 1)%R) by (simpl; field).
  change (num (x, y, z)) with (x + z * nx + y * nx * nz). unfold num.
  destruct a; cbn [avgRow dirs]; unfold cell_average, open_dirs; cbn [filter extent move].
  - unfold avgX. rewrite I. cbn [bind cx cy cz]. rewrite D1. cbn [bind]. rewrite G1.
    destruct (Z.ltb_spec (x + 1) nx); cbn [corners map app length move].
    + rewrite F by lia. cbn [bind]. rewrite Ih. eexists; split; reflexivity.
    + rewrite I1. eexists; split; reflexivity.
  - unfold avgY. rewrite I. cbn [bind cx cy cz]. unfold stepY in D2.
    destruct (getLayer g y) as [k| | |]; try discriminate. cbn [bind] in *.
    destruct (locatedOnInterface g y) as [b| | |]; try discriminate. cbn [bind] in *.
    destruct (if b then t <- getTransition g y;; Ok (t =? 0) else Ok false) as [t| | |]; try discriminate. cbn [bind] in *.
    rewrite D2. cbn [bind]. rewrite G2.
    destruct (Z.ltb_spec (y + 1) ny); cbn [corners map app length move].
    + rewrite F by lia. cbn [bind]. rewrite Ih. eexists; split; reflexivity.
    + rewrite I1. eexists; split; reflexivity.
  - unfold avgZ. rewrite I. cbn [bind cx cy cz]. rewrite D1. cbn [bind]. rewrite G3.
    destruct (Z.ltb_spec (z + 1) nz); cbn [corners map app length move].
    + rewrite F by lia. cbn [bind]. rewrite Ih. eexists; split; reflexivity.
    + rewrite I1. eexists; split; reflexivity.
  - unfold avgXY. rewrite I. cbn [bind cx cy cz]. rewrite D1. cbn [bind]. unfold row4. cbn [cx cy cz].
    replace (fold_left Z.max [x; x + 1; x; x + 1] 0) with (x + 1) by (cbn [fold_left]; lia).
    replace (fold_left Z.max [y; y; y + 1; y + 1] 0) with (y + 1) by (cbn [fold_left]; lia).
    replace (fold_left Z.max [z; z; z; z] 0) with z by (cbn [fold_left]; lia).
    cbv zeta. rewrite G1, G2, G3. replace (z <? nz) with true by lia.
    destruct (Z.ltb_spec (x + 1) nx), (Z.ltb_spec (y + 1) ny); cbn [andb negb corners map app length move];
      rewrite ?F by lia; cbn [bind app]; rewrite ?Ih, ?Iq, ?I1; eexists; (split; [reflexivity|]).
    + apply perm3. + apply perm_swap. + apply perm_swap. + reflexivity.
  - unfold avgXZ. rewrite I. cbn [bind cx cy cz]. rewrite D1. cbn [bind]. unfold row4. cbn [cx cy cz].
    replace (fold_left Z.max [x; x + 1; x; x + 1] 0) with (x + 1) by (cbn [fold_left]; lia).
    replace (fold_left Z.max [z; z; z + 1; z + 1] 0) with (z + 1) by (cbn [fold_left]; lia).
    replace (fold_left Z.max [y; y; y; y] 0) with y by (cbn [fold_left]; lia).
    cbv zeta. rewrite G1, G2, G3. replace (y <? ny) with true by lia.
    destruct (Z.ltb_spec (x + 1) nx), (Z.ltb_spec (z + 1) nz); cbn [andb negb corners map app length move];
      rewrite ?F by lia; cbn [bind app]; rewrite ?Ih, ?Iq, ?I1; eexists; (split; [reflexivity|]).
    + apply perm3. + apply perm_swap. + apply perm_swap. + reflexivity.
  - unfold avgYZ. rewrite I. cbn [bind cx cy cz]. rewrite D1. cbn [bind]. unfold row4. cbn [cx cy cz].
    replace (fold_left Z.max [y; y + 1; y; y + 1] 0) with (y + 1) by (cbn [fold_left]; lia).
    replace (fold_left Z.max [z; z; z + 1; z + 1] 0) with (z + 1) by (cbn [fold_left]; lia).
    replace (fold_left Z.max [x; x; x; x] 0) with x by (cbn [fold_left]; lia).
    cbv zeta. rewrite G1, G2, G3. replace (x <? nx) with true by lia.
    destruct (Z.ltb_spec (y + 1) ny), (Z.ltb_spec (z + 1) nz); cbn [andb negb corners map app length move];
      rewrite ?F by lia; cbn [bind app]; rewrite ?Ih, ?Iq, ?I1; eexists; (split; [reflexivity|]).
    + apply perm3. + apply perm_swap. + apply perm_swap. + reflexivity.
Qed.

(** ** Windows *)
Lemma shrink_ok nx ny nz mx my mz sub big cut : mk_regular mx my mz = Ok sub -> mk_regular nx ny nz = Ok big ->
  0 <= cx cut -> 0 <= cy cut -> 0 <= cz cut -> cx cut + mx <= nx -> cy cut + my <= ny -> cz cut + mz <= nz ->
  exists m, shrinkMatrix sub big cut = Ok m /\ forall v, Z.of_nat (length v) = nx * ny * nz ->
    exists w, matvec m v = Ok w /\ Z.of_nat (length w) = mx * my * mz /\
      forall x y z, 0 <= x < mx -> 0 <= y < my -> 0 <= z < mz ->
        nth_error w (Z.to_nat (x + z * mx + y * mx * mz)) =
        nth_error v (Z.to_nat ((x + cx cut) + (z + cz cut) * nx + (y + cy cut) * nx * nz)).
Proof.
  intros Hs Hb C1 C2 C3 C4 C5 C6. destruct (mk_regular_wf _ _ _ _ Hs) as (_&_&_&_&Ns&_). destruct (mk_regular_wf _ _ _ _ Hb) as (_&_&_&_&Nb&_).
  pose proof (mk_regular_inv _ _ _ _ Hs) as (Px&Py&Pz). pose proof (mk_regular_inv _ _ _ _ Hb) as (Qx&Qy&Qz).
  destruct (regular_bijection _ _ _ _ Hs) as (Bs&_&_).
  destruct (regular_bijection _ _ _ _ Hb) as (_&Bb&_).
  unfold shrinkMatrix, fill. rewrite Ns, Nb.
  destruct (mapres_all (fun i => r <- shrinkRow sub big cut i;; Ok (assemble r))
    (fun i r => exists c k, index2coordinate sub i = Ok c /\ coordinate2index big (mkC (cx c + cx cut) (cy c + cy cut) (cz c + cz cut)) = Ok k /\
       0 <= k < nx * ny * nz /\ r = [(k, 1%R)]) (zseq 0 (Z.to_nat (mx * my * mz)))) as (rs&E&F).
  { intros i Hi. apply zseq_in in Hi. assert (0 <= mx * my * mz) by (clear - Px Py Pz; nia). destruct (Bs i ltac:(clear - Hi H; lia)) as (c&Ec&Hc&_).
    destruct (Bb (mkC (cx c + cx cut) (cy c + cy cut) (cz c + cz cut))) as (k&Ek&Hk&_); [cbn; lia|].
    exists [(k, 1%R)]. unfold shrinkRow. rewrite Ec; cbn [bind]. rewrite Ek; cbn [bind]. split; [reflexivity|]. exists c, k. auto. }
  rewrite E. cbn [bind]. eexists. split; [reflexivity|]. intros v Hv. unfold matvec. cbn [mcols mrows].
  rewrite Hv, Z.eqb_refl. eexists. split; [reflexivity|]. assert (0 <= mx * my * mz) by (clear - Px Py Pz; nia).
  destruct (Forall2_zseq _ _ _ _ F) as (L&K). rewrite map_length. split; [lia|]. intros x y z Hx Hy Hz.
  assert (B : 0 <= x + z * mx + y * mx * mz < mx * my * mz) by now apply num_range.
  destruct (K (Z.to_nat (x + z * mx + y * mx * mz)) ltac:(lia)) as (r&Er&c&k&Ec&Ek&Hk&->).
  rewrite Z2Nat.id in Ec by lia. rewrite Z.add_0_l in Ec. rewrite (regular_i2c _ _ _ _ _ _ _ Hs Hx Hy Hz) in Ec. injection Ec as <-.
  cbn [cx cy cz] in Ek. rewrite (regular_formula _ _ _ _ _ _ _ Hb) in Ek by lia. injection Ek as Ek. rewrite Ek.
  rewrite (map_nth_error _ _ _ Er). unfold rowdot. cbn [fold_right fst snd].
  rewrite (nth_error_nth' v 0%R) by lia. f_equal. lra.
Qed.

Lemma shrink_throw nx ny nz mx my mz sub big cut : mk_regular mx my mz = Ok sub -> mk_regular nx ny nz = Ok big ->
  ~ (0 <= cx cut /\ cx cut + mx <= nx /\ 0 <= cy cut /\ cy cut + my <= ny /\ 0 <= cz cut /\ cz cut + mz <= nz) ->
  shrinkMatrix sub big cut = Throw.
Proof.
  intros Hs Hb N. destruct (mk_regular_wf _ _ _ _ Hs) as (_&_&_&_&Ns&_). destruct (mk_regular_wf _ _ _ _ Hb) as (_&_&_&_&Nb&_).
  pose proof (mk_regular_inv _ _ _ _ Hs) as (Px&Py&Pz).
  destruct (regular_bijection _ _ _ _ Hs) as (Bs&_&_).
  destruct (regular_bijection _ _ _ _ Hb) as (_&Bb&Tb).
  unfold shrinkMatrix, fill. rewrite mapres_throw; [reflexivity| |].
  - intros i Hi. apply zseq_in in Hi. rewrite Ns in Hi. assert (0 <= mx * my * mz) by (clear - Px Py Pz; nia). destruct (Bs i ltac:(clear - Hi H; lia)) as (c&Ec&Hc&_).
    unfold shrinkRow. rewrite Ec; cbn [bind]. set (q := mkC (cx c + cx cut) (cy c + cy cut) (cz c + cz cut)).
    assert (D : (0 <= cx q < nx /\ 0 <= cy q < ny /\ 0 <= cz q < nz) \/ ~ (0 <= cx q < nx /\ 0 <= cy q < ny /\ 0 <= cz q < nz)) by lia.
    destruct D as [D|D]; [destruct (Bb q D) as (k&->&_); left; eexists; reflexivity|rewrite (Tb q D); now right].
  - set (x := if cx cut <? 0 then 0 else mx - 1). set (y := if cy cut <? 0 then 0 else my - 1). set (z := if cz cut <? 0 then 0 else mz - 1).
    assert (Hx : 0 <= x < mx) by (unfold x; destruct (cx cut <? 0); lia).
    assert (Hy : 0 <= y < my) by (unfold y; destruct (cy cut <? 0); lia).
    assert (Hz : 0 <= z < mz) by (unfold z; destruct (cz cut <? 0); lia).
    exists (x + z * mx + y * mx * mz).
    assert (B : 0 <= x + z * mx + y * mx * mz < mx * my * mz) by now apply num_range.
    split; [apply zseq_in; rewrite Ns; lia|]. unfold shrinkRow. rewrite (regular_i2c _ _ _ _ _ _ _ Hs Hx Hy Hz). cbn [bind cx cy cz].
    rewrite Tb; [reflexivity|]. cbn [cx cy cz]. unfold x, y, z.
    destruct (Z.ltb_spec (cx cut) 0), (Z.ltb_spec (cy cut) 0), (Z.ltb_spec (cz cut) 0); lia.
Qed.
