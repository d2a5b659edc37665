(** Lemmas about limits, units and vacuum in the electromagnetic parameter vectors. *)
From Coq Require Import Reals Lra.
From Verif Require Import Base M_Grid M_Average M_Common M_Model M_ModelEM S_Model S_ModelEM L_AcqFile L_Acq2 L_Acq L_Model L_Model2 L_ModelEM L_ModelEM2.
Open Scope Z_scope.

Lemma at_lt v i x : at_ v i x -> (i < length v)%nat.
Proof. unfold at_. intros H. apply nth_error_Some. congruence. Qed.
Lemma at_fun v i x y : at_ v i x -> at_ v i y -> x = y.
Proof. unfold at_. congruence. Qed.
Lemma number_at v i : numbers v -> (i < length v)%nat -> exists x, at_ v i x.
Proof.
  intros N H. destruct (nth_error v i) as [y|] eqn:E; [|apply nth_error_None in E; lia].
  pose proof (proj1 (Forall_forall _ _) N y (nth_error_In _ _ E)) as (x&->). exists x. exact E.
Qed.
Lemma units_div c v : (0 < c)%R -> timesBy c (divBy c v) = v.
Proof.
  intros P. unfold timesBy, divBy. rewrite map_map. rewrite <- (map_id v) at 2. apply map_ext. intros [x| | |]; cbn; auto.
  - rewrite fdiv_num by lra. cbn. f_equal. field. lra.
  - destruct (Rlt_dec c 0); [lra|]. cbn. unfold fscale. destruct (Req_EM_T c 0); [lra|]. destruct (Rlt_dec 0 c); [reflexivity|lra].
  - destruct (Rlt_dec c 0); [lra|]. cbn. unfold fscale. destruct (Req_EM_T c 0); [lra|]. destruct (Rlt_dec 0 c); [reflexivity|lra].
Qed.
Lemma units_mul c v : (0 < c)%R -> divBy c (timesBy c v) = v.
Proof.
  intros P. unfold timesBy, divBy. rewrite map_map. rewrite <- (map_id v) at 2. apply map_ext. intros [x| | |]; cbn; auto.
  - rewrite fdiv_num by lra. f_equal. field. lra.
  - unfold fscale. destruct (Req_EM_T c 0); [lra|]. destruct (Rlt_dec 0 c); [|lra]. cbn. destruct (Rlt_dec c 0); [lra|reflexivity].
  - unfold fscale. destruct (Req_EM_T c 0); [lra|]. destruct (Rlt_dec 0 c); [|lra]. cbn. destruct (Rlt_dec c 0); [lra|reflexivity].
Qed.
Lemma timesBy_at c v i x : at_ v i x -> at_ (timesBy c v) i (x * c).
Proof. unfold at_, timesBy. intros H. rewrite map_at, H. reflexivity. Qed.
Lemma divBy_at c v i x : (c <> 0)%R -> at_ v i x -> at_ (divBy c v) i (x / c).
Proof. unfold at_, divBy. intros C H. rewrite map_at, H. cbn. rewrite fdiv_num by exact C. reflexivity. Qed.
Lemma timesBy_len c v : length (timesBy c v) = length v. Proof. apply map_length. Qed.
Lemma divBy_len c v : length (divBy c v) = length v. Proof. apply map_length. Qed.
Lemma limit_at lo up v i x : at_ v i x -> (lo <= up)%R -> at_ (limit lo up v) i (Rmin up (Rmax lo x)).
Proof.
  unfold at_, limit, lower. intros H L. rewrite map_at, raise_at, H. cbn [option_map]. rewrite raise_num. cbn. f_equal.
  unfold Rmin. destruct (Rlt_dec up (Rmax lo x)), (Rle_dec up (Rmax lo x)); try lra; f_equal; lra.
Qed.
Lemma limit_len lo up v : length (limit lo up v) = length v.
Proof. unfold limit, lower. rewrite map_length. apply raise_length. Qed.
Lemma zip_num (f : fpv -> fpv -> fpv) (h : R -> R -> R) a b r i x y : (forall x y, f (Num x) (Num y) = Num (h x y)) -> zipR f a b = Ok r -> at_ a i x -> at_ b i y -> at_ r i (h x y).
Proof. intros Q E Hx Hy. apply zipR_at in E as (_&_&N). unfold at_ in *. rewrite N, Hx, Hy, Q. reflexivity. Qed.
Lemma mask_at v i x : at_ v i x -> at_ (vacuumMask v) i (if Req_EM_T x 1 then 0 else 1)%R.
Proof.
  unfold at_, vacuumMask. intros H. rewrite map_at, H. cbn. f_equal. destruct (Req_EM_T (x + - (1)) 0), (Req_EM_T x 1); try reflexivity; exfalso; lra.
Qed.
Lemma mask_len v : length (vacuumMask v) = length v. Proof. apply map_length. Qed.
Lemma restore_at v m r i x y : restore v m = Ok r -> at_ v i x -> at_ m i y -> at_ r i ((((x - 1) * y) + 1) * eps0).
Proof.
  unfold restore. intros H Hx Hy. apply bind_ok in H as (q&E&H). injection H as <-. apply timesBy_at. unfold at_ in *.
  apply zipR_at in E as (_&_&N). rewrite map_at, N, map_at, Hx, Hy. cbn. do 3 f_equal.
Qed.
Lemma restore_exists v m : length v = length m -> exists r, restore v m = Ok r /\ length r = length v.
Proof.
  intros L. unfold restore. destruct (zipR_exists fmul (map (fun x => fsub x (Num 1)) v) m) as (q&E); [rewrite map_length; exact L|]. rewrite E. cbn [bind].
  eexists. split; [reflexivity|]. rewrite timesBy_len, map_length. apply zipR_at in E as (_&E&_). rewrite map_length in E. exact E.
Qed.
Lemma zip_exists {A B C} (f : A -> B -> C) a b n : length a = n -> length b = n -> exists r, zipR f a b = Ok r /\ length r = n.
Proof. intros L1 L2. destruct (zipR_exists f a b) as (r&E); [lia|]. exists r. split; [exact E|]. apply zipR_at in E. lia. Qed.
Lemma epsStatic_exists p e s n a b : relaxMeans p = Ok (a, b) -> length e = n -> length s = n -> length (tauSig p) = n -> length (tauEps p) = n ->
  exists r, epsStatic p e s 2 = Ok r /\ length r = n.
Proof.
  intros R L1 L2 L3 L4. unfold epsStatic. rewrite R. cbn [bind]. change (2 =? 1) with false. change (2 =? 2) with true. cbv iota.
  destruct (zip_exists fmul (map (fmul b) (tauEps p)) (tauSig p) n) as (x&->&Lx); [rewrite map_length; auto|auto|]. cbn [bind].
  destruct (zip_exists fsub (map (fsub (Num 1)) (map (fmul a) (tauEps p))) x n) as (y&->&Ly); [rewrite !map_length; auto|auto|]. cbn [bind].
  destruct (zip_exists fmul s (tauSig p) n) as (z&->&Lz); auto. cbn [bind]. destruct (zip_exists fsub e z n) as (t&->&Lt); auto. cbn [bind].
  destruct (zip_exists fquot t y n) as (u&->&Lu); auto. cbn [bind]. eexists. split; [reflexivity|]. rewrite raise_length. exact Lu.
Qed.
Lemma sigmaStatic_exists p e s n a b : relaxMeans p = Ok (a, b) -> length e = n -> length s = n -> length (tauSig p) = n -> length (tauEps p) = n ->
  exists r, sigmaStatic p e s 2 = Ok r /\ length r = n.
Proof.
  intros R L1 L2 L3 L4. unfold sigmaStatic. rewrite R. cbn [bind]. change (2 =? 1) with false. change (2 =? 2) with true. cbv iota.
  destruct (epsStatic_exists p e s n a b R) as (q&->&Lq); auto. cbn [bind].
  destruct (zip_exists fmul (map (fmul b) (tauEps p)) q n) as (x&->&Lx); [rewrite map_length; auto|auto|]. cbn [bind].
  destruct (zip_exists fsub s x n) as (y&->&Ly); auto. cbn [bind]. eexists. split; [reflexivity|]. rewrite raise_length. exact Ly.
Qed.
Lemma relaxes_same p q fc fs : efreqs q = efreqs p -> enrel q = enrel p -> ecf q = ecf p -> relaxes p fc fs -> relaxes q fc fs.
Proof. unfold relaxes. intros -> -> ->. auto. Qed.
Lemma relB_nonneg fc fs : (0 < fc)%R -> Forall (fun f => 0 < f)%R fs -> (0 <= relB fc fs)%R.
Proof.
  intros C F. unfold relB. assert (S : (0 <= fold_right Rplus 0 (map (fun f => (fc / f) / (1 + (fc / f) ^ 2)) fs))%R).
  { induction F as [|f fs P F IH]; cbn [map fold_right]; [lra|]. assert (0 <= fc / f / (1 + (fc / f) ^ 2))%R; [|lra].
    assert (0 < fc / f)%R by (apply Rdiv_lt_0_compat; lra). apply Rlt_le, Rdiv_lt_0_compat; [lra|]. pose proof (pow2_ge_0 (fc / f)). lra. }
  pose proof PI_RGT_0. assert (0 <= 2 * PI * fc * fold_right Rplus 0 (map (fun f => (fc / f) / (1 + (fc / f) ^ 2)) fs))%R by (apply Rmult_le_pos; [apply Rmult_le_pos; lra|exact S]).
  destruct fs as [|f fs]; [cbn; unfold Rdiv; rewrite Rinv_0; lra|]. apply Rmult_le_pos; [assumption|]. apply Rlt_le, Rinv_0_lt_compat. apply lt_0_INR. cbn [length]. lia.
Qed.
Lemma relA_range fc fs : fs <> [] -> (0 <= relA fc fs < 1)%R.
Proof.
  intros NE. unfold relA. assert (S : (0 <= relaxation fc fs /\ (fs <> [] -> relaxation fc fs < INR (length fs)))%R).
  { clear NE. unfold relaxation. induction fs as [|f fs (IH1&IH2)]; [cbn; split; [lra|congruence]|]. cbn [map fold_right].
    pose proof (pow2_ge_0 (fc / f)) as Q. assert (0 <= (fc / f) ^ 2 / (1 + (fc / f) ^ 2) < 1)%R.
    { split; [apply Rmult_le_pos; [lra|apply Rlt_le, Rinv_0_lt_compat; lra]|]. apply Rmult_lt_reg_r with (1 + (fc / f) ^ 2)%R; [lra|]. unfold Rdiv. rewrite Rmult_assoc, Rinv_l by lra. lra. }
    split; [lra|]. intros _. change (length (f :: fs)) with (S (length fs)). rewrite S_INR. destruct fs as [|f' fs]; [cbn [map fold_right length INR]; lra|]. specialize (IH2 ltac:(discriminate)). lra. }
  destruct S as (S1&S2). specialize (S2 NE). assert (0 < INR (length fs))%R by lra. split; [apply Rmult_le_pos; [lra|apply Rlt_le, Rinv_0_lt_compat; lra]|].
  apply Rmult_lt_reg_r with (INR (length fs)); [lra|]. unfold Rdiv. rewrite Rmult_assoc, Rinv_l by lra. lra.
Qed.
