(** Lemmas about the conversions between porosity and velocities: existence and pointwise values, then the scalar algebra. *)
From Coq Require Import Reals Lra Psatz.
From Verif Require Import Base M_Grid M_Average M_Common M_Model M_ModelEM M_Petro S_Model S_ModelEM S_Petro L_AcqFile L_Acq2 L_Acq L_Model L_Model2 L_ModelEM L_ModelEM3.
Open Scope Z_scope.

Definition num0 (x : fpv) : R := match x with Num r => r | _ => 0%R end.
Definition pos0 (x : R) : R := if Rlt_dec x 0 then 0%R else x.
Definition gd (k : kind) (x : R) : R := match k with Elastic => pos0 x | _ => x end.
Definition cut1 (x : R) : R := if Rlt_dec 1 x then 1%R else x.

Lemma zip_ex {A B C} (f : A -> B -> C) a b n : length a = n -> length b = n -> exists r, zipR f a b = Ok r /\ length r = n /\
  forall i x y, nth_error a i = Some x -> nth_error b i = Some y -> nth_error r i = Some (f x y).
Proof.
  intros L1 L2. destruct (zip_exists f a b n L1 L2) as (r&E&L). exists r. split; [exact E|]. split; [exact L|]. intros i x y Hx Hy.
  apply zipR_at in E as (_&_&N). rewrite N, Hx, Hy. reflexivity.
Qed.
Lemma mp {A B} (f : A -> B) a i x : nth_error a i = Some x -> nth_error (map f a) i = Some (f x).
Proof. intros H. rewrite map_at, H. reflexivity. Qed.
Lemma cleaned_pt v i x : nth_error v i = Some x -> nth_error (cleaned v) i = Some (num0 x).
Proof. unfold cleaned, nums, replaceInvalid. intros H. rewrite !map_at, H. cbn. destruct x; reflexivity. Qed.
Lemma cleaned_len v : length (cleaned v) = length v.
Proof. unfold cleaned, nums, replaceInvalid. rewrite !map_length. reflexivity. Qed.
Lemma nonneg_pt v i x : nth_error v i = Some x -> nth_error (nonneg v) i = Some (pos0 x).
Proof. apply mp. Qed.
Lemma nonneg_len v : length (nonneg v) = length v. Proof. apply map_length. Qed.
Lemma guarded_pt k v i x : nth_error v i = Some x -> nth_error (guarded k v) i = Some (gd k x).
Proof. intros H. destruct k; try exact H. apply nonneg_pt, H. Qed.
Lemma guarded_len k v : length (guarded k v) = length v.
Proof. destruct k; try reflexivity. apply nonneg_len. Qed.
Definition biotS (x : R) : R := cut1 (pos0 (x / criticalPorosity)).
Lemma biot_pt v i x : nth_error v i = Some x -> nth_error (biot v) i = Some (biotS x).
Proof. intros H. apply (mp cut1), nonneg_pt, (mp (fun x => x / criticalPorosity)%R), H. Qed.
Lemma biot_len v : length (biot v) = length v.
Proof. unfold biot. rewrite map_length, nonneg_len, map_length. reflexivity. Qed.
Definition kfS (x : R) : R := pos0 (num0 (fdiv 1 (x / bulkModulusWater + (1 - x) / bulkModulusAir))).
Lemma kf_pt v i x : nth_error v i = Some x -> nth_error (bulkModulusKf v) i = Some (kfS x).
Proof. intros H. apply nonneg_pt, cleaned_pt, (mp (fun x => fdiv 1 (x / bulkModulusWater + (1 - x) / bulkModulusAir))), H. Qed.
Lemma kf_len v : length (bulkModulusKf v) = length v.
Proof. unfold bulkModulusKf. rewrite nonneg_len, cleaned_len, map_length. reflexivity. Qed.
Lemma fp_pt v i x : nth_error v i = Some x -> nth_error (fp v) i = Some (Num x).
Proof. apply mp. Qed.
Lemma fp_len v : length (fp v) = length v. Proof. apply map_length. Qed.

#[global] Hint Rewrite @map_length cleaned_len nonneg_len guarded_len biot_len kf_len fp_len raise_length : lens.
Ltac zipstep r E L P :=
  match goal with |- context [bind (zipR ?f ?a ?b) _] =>
    match goal with H : _ = ?n |- _ => match type of H with length _ = n => idtac end;
      destruct (zip_ex f a b n ltac:(autorewrite with lens; assumption) ltac:(autorewrite with lens; assumption)) as (r&E&L&P) end;
    rewrite E; cbn [bind] end.

Definition mS (phi s kma : R) : R :=
  pos0 (num0 (fquot (Num 1) (fadd (fdiv phi (kfS s)) (fdiv (biotS phi - phi) kma)))).
Lemma M_ex phi s kma n : length phi = n -> length s = n -> length kma = n ->
  exists r, bulkModulusM phi s kma = Ok r /\ length r = n /\
    forall i x y z, pt phi i x -> pt s i y -> pt kma i z -> pt r i (mS x y z).
Proof.
  intros L1 L2 L3. unfold bulkModulusM. zipstep q E4 L4 P4. zipstep d E5 L5 P5. zipstep t E6 L6 P6. zipstep u E7 L7 P7.
  eexists. split; [reflexivity|]. split; [autorewrite with lens; exact L7|]. unfold pt. intros i x y z Hx Hy Hz.
  apply nonneg_pt, cleaned_pt, (mp (fquot (Num 1))), P7; [apply P4; [exact Hx|apply kf_pt, Hy]|]. apply P6; [|exact Hz]. apply P5; [apply biot_pt, Hx|exact Hx].
Qed.
Definition poreS (x s : R) : R := ((s * densityWater + (1 - s) * densityAir) * x)%R.
Lemma pore_ex phi s n : length phi = n -> length s = n -> exists r, poreMass phi s = Ok r /\ length r = n /\
  forall i x y, pt phi i x -> pt s i y -> pt r i (poreS x y).
Proof.
  intros L1 L2. unfold poreMass. destruct (zip_ex Rmult (map (fun x => x * densityWater + (1 - x) * densityAir)%R s) phi n) as (r&E&L&P).
  - rewrite map_length. exact L2.
  - exact L1.
  - exists r. split; [exact E|]. split; [exact L|]. intros i x y Hx Hy. apply P; [|exact Hx]. apply (mp (fun x => x * densityWater + (1 - x) * densityAir)%R), Hy.
Qed.
Definition densS (k : kind) (d x s : R) : R := gd k (num0 (fmul (Num (d - poreS x s)) (fdiv 1 (1 - x)))).
Lemma dens_ex k dens phi s n : length dens = n -> length phi = n -> length s = n -> exists r, matrixDensity k dens phi s = Ok r /\ length r = n /\
  forall i d x y, pt dens i d -> pt phi i x -> pt s i y -> pt r i (densS k d x y).
Proof.
  intros L1 L2 L3. unfold matrixDensity. destruct (pore_ex phi s n L2 L3) as (w&->&Lw&Pw). cbn [bind]. zipstep d E4 L4 P4. zipstep r E5 L5 P5.
  eexists. split; [reflexivity|]. split; [autorewrite with lens; exact L5|]. unfold pt in *. intros i a x y Ha Hx Hy.
  apply guarded_pt, cleaned_pt, P5; [apply fp_pt, P4; [exact Ha|apply Pw; assumption]|apply (mp (fun x => fdiv 1 (1 - x))), Hx].
Qed.
Definition shearS (k : kind) (mu b : R) : R := gd k (num0 (fmul (Num mu) (fdiv 1 (1 - b)))).
Lemma shear_ex k mu b n : length mu = n -> length b = n -> exists r, matrixShear k mu b = Ok r /\ length r = n /\
  forall i d x, pt mu i d -> pt b i x -> pt r i (shearS k d x).
Proof.
  intros L1 L2. unfold matrixShear. zipstep r E5 L5 P5. eexists. split; [reflexivity|]. split; [autorewrite with lens; exact L5|]. unfold pt.
  intros i d x Hd Hx. apply guarded_pt, cleaned_pt, P5; [apply fp_pt, Hd|apply (mp (fun b => fdiv 1 (1 - b))), Hx].
Qed.
Definition upZero (k : kind) (x : fpv) : fpv := match k with Elastic => if flt x (Num 0) then Num 0 else x | _ => x end.
Definition bulkS (k : kind) (ks b kf : R) : R :=
  let t := (1 / criticalPorosity - 1)%R in
  let a := fdiv (1 - b) kf in
  let c := Num (- t * ks) in
  let e := fsub (fadd (Num ((1 - b) * t)) (Num (b / criticalPorosity))) (fdiv ks kf) in
  let d := fsub (fmul e e) (fmul (fmul (Num 4) a) c) in
  gd k (num0 (fquot (fquot (fsub (fsqrt (upZero k d)) e) a) (Num 2))).
Lemma bulk_ex k ks b kf n : length ks = n -> length b = n -> length kf = n -> exists r, matrixBulk k ks b kf = Ok r /\ length r = n /\
  forall i x y z, pt ks i x -> pt b i y -> pt kf i z -> pt r i (bulkS k x y z).
Proof.
  intros L1 L2 L3. unfold matrixBulk. cbv zeta. zipstep a Ea La Pa. zipstep bb Eb Lb Pb. zipstep q E9 Lq Pq. zipstep b2 E2 L4 P2.
  zipstep t2 E3 L5 P3. zipstep d Ed Ld Pd.
  assert (Lr : length (match k with Elastic => raise 0 d | _ => d end) = n) by (destruct k; autorewrite with lens; assumption).
  assert (Pr : forall i x, nth_error d i = Some x -> nth_error (match k with Elastic => raise 0 d | _ => d end) i = Some (upZero k x)).
  { intros i x H. destruct k; try exact H. unfold raise. rewrite map_at, H. reflexivity. }
  remember (match k with Elastic => raise 0 d | _ => d end) as dd. zipstep r E6 L6 P6. zipstep r2 E7 L7 P7.
  eexists. split; [reflexivity|]. split; [autorewrite with lens; exact L7|]. unfold pt. intros i x y z Hx Hy Hz.
  assert (Ha : nth_error a i = Some (fdiv (1 - y) z)) by (apply Pa; [apply (mp (fun b => 1 - b)%R), Hy|exact Hz]).
  assert (Hb : nth_error b2 i = Some (fsub (fadd (Num ((1 - y) * (1 / criticalPorosity - 1))) (Num (y / criticalPorosity))) (fdiv x z))).
  { apply P2; [apply Pb; apply fp_pt|apply Pq; assumption].
    - apply (mp (fun x => x * (1 / criticalPorosity - 1))%R), (mp (fun b => 1 - b)%R), Hy.
    - apply (mp (fun x => x / criticalPorosity)%R), Hy. }
  apply guarded_pt, cleaned_pt, (mp (fun x => fquot x (Num 2))), P7; [|exact Ha]. apply P6; [|exact Hb]. apply (mp fsqrt), Pr.
  apply Pd; [apply (mp (fun x => fmul x x)), Hb|]. apply P3; [apply (mp (fmul (Num 4))), Ha|]. apply fp_pt, (mp (fun x => - (1 / criticalPorosity - 1) * x)%R), Hx.
Qed.
Definition velS (m d : R) : R := num0 (fsqrt (fdiv m d)).
Lemma vel_ex m d n : length m = n -> length d = n -> exists r, velocityOf m d = Ok r /\ length r = n /\
  forall i x y, pt m i x -> pt d i y -> pt r i (velS x y).
Proof.
  intros L1 L2. unfold velocityOf. zipstep r E L P. eexists. split; [reflexivity|]. split; [autorewrite with lens; exact L|]. unfold pt.
  intros i x y Hx Hy. apply cleaned_pt, (mp fsqrt), P; assumption.
Qed.
