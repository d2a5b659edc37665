(** Energy balance and energy norm of the acoustic and (visco)elastic schemes. *)
From Coq Require Import QArith Qreals Reals Lra.
From Verif Require Import M_Grid M_Deriv S_Deriv L_Deriv L_Deriv2 M_Prog M_Solvers M_Env S_Solver S_Step S_Check S_Energy L_Prog L_Lin L_Src L_Surface L_Leap L_Leap2 L_Diff.
Open Scope R_scope.
Open Scope list_scope.

(** ** a leapfrog scheme with kinetic norm of the mean Kb, of the increment Kd, and potential energy S *)
Lemma leap_bound E S Kb Kd K' th : E = S + Kb - Kd / 4 -> 0 <= Kb -> Kd <= 4 * th * S -> 0 <= S -> 0 <= th < 1 -> K' <= 2 * Kb + Kd / 2 ->
  (1 - th) * S <= E /\ (1 - th) * K' <= 2 * E.
Proof.
  intros HE HK Hd HS Ht H'. assert (A : (1 - th) * S <= E) by nra. split; [exact A|].
  assert (E0 : 0 <= E) by nra. assert (B : K' <= 2 * E + (4 * th - 2) * S) by nra.
  apply Rle_trans with ((1 - th) * (2 * E + (4 * th - 2) * S)); [apply Rmult_le_compat_l; lra|].
  destruct (Rle_dec (4 * th - 2) 0) as [L|L].
  - assert ((4 * th - 2) * S <= 0) by nra. nra.
  - assert ((4 * th - 2) * ((1 - th) * S) <= (4 * th - 2) * E) by (apply Rmult_le_compat_l; lra). nra.
Qed.

Lemma plain e c (Hu : undamped c) (Hfs : c_fs c <> 1%Z) d hb psi f i : deriv e c (surf c d) d hb psi f i = Dmv e "" d hb f i.
Proof.
  destruct Hu as (H1 & _). unfold deriv, surf. rewrite H1. replace (c_fs c =? 1)%Z with false by lia. rewrite Bool.andb_false_r. reflexivity.
Qed.
Lemma plain0 e c (Hu : undamped c) d hb psi f i : deriv e c "" d hb psi f i = Dmv e "" d hb f i.
Proof. destruct Hu as (H1 & _). unfold deriv. rewrite H1. reflexivity. Qed.
Lemma undamp e c (Hu : undamped c) x i : damped e c x i = x.
Proof. destruct Hu as (_ & H & _). unfold damped. rewrite H. reflexivity. Qed.
Lemma D_eq e dm d hb f h i : (forall j, f j = h j) -> Dmv e dm d hb f i = Dmv e dm d hb h i.
Proof. intros H. apply mv_ext. intros kc _. apply H. Qed.

Section grid.
Variables (e : env R_arith) (c : cfg) (useVar hybrid : bool) (nx ny nz p : Z) (rest : list Z) (DH : Q) (fuel : nat)
  (k : R) (cv : Q -> R) (g : grid).
Hypothesis HM : @fd_matrices R_arith e c true useVar hybrid nx ny nz p rest DH fuel (fun q => Q2R q * k) cv g.
Hypothesis Hu : undamped c.
Hypothesis Hfs : c_fs c <> 1%Z.
Notation gs := (grid_sum nx ny nz).
Notation ri := (reg_index nx nz).
Notation D := (Dmv e "").
Notation ins := (inside nx ny nz).
Notation rst := (state R_arith).

Lemma gext f h : (forall x y z, ins x y z -> f (ri x y z) = h (ri x y z)) -> gs f = gs h.
Proof. intros H. apply gs_ext. intros. apply H. unfold inside. auto. Qed.
Lemma gle f h : (forall x y z, ins x y z -> f (ri x y z) <= h (ri x y z)) -> gs f <= gs h.
Proof. intros H. apply gs_le. intros. apply H. unfold inside. auto. Qed.
Lemma gpos f : (forall x y z, ins x y z -> 0 <= f (ri x y z)) -> 0 <= gs f.
Proof. intros H. apply gs_pos. intros. apply H. unfold inside. auto. Qed.

Lemma Rsum_point {T} (l : list T) f q : (forall k, In k l -> 0 <= f k) -> In q l -> f q <= Rsum (map f l).
Proof.
  induction l as [|a l IH]; intros H Hq; [destruct Hq|]. cbn [map]. change (Rsum (?x :: ?y)) with (x + Rsum y).
  assert (0 <= Rsum (map f l)) by (apply Rsum_map_pos; intros; apply H; right; assumption).
  pose proof (H a (or_introl eq_refl)). destruct Hq as [->|Hq]; [lra|]. pose proof (IH (fun k Hk => H k (or_intror Hk)) Hq). lra.
Qed.
Lemma gpoint f x y z : (forall x y z, ins x y z -> 0 <= f (ri x y z)) -> ins x y z -> f (ri x y z) <= gs f.
Proof.
  intros H (Hx & Hy & Hz). assert (I : forall n k, (0 <= k < n)%Z -> In k (zseq 0 (Z.to_nat n))) by (intros; apply zseq_In; lia).
  unfold grid_sum, line_sum.
  apply Rle_trans with (Rsum (map (fun x => f (ri x y z)) (zseq 0 (Z.to_nat nx)))).
  { apply (Rsum_point _ (fun x => f (ri x y z))); [|auto]. intros k0 Hk. apply in_line in Hk. apply H. unfold inside; auto. }
  apply Rle_trans with (Rsum (map (fun z => Rsum (map (fun x => f (ri x y z)) (zseq 0 (Z.to_nat nx)))) (zseq 0 (Z.to_nat nz)))).
  { apply (Rsum_point _ (fun z => Rsum (map (fun x => f (ri x y z)) (zseq 0 (Z.to_nat nx))))); [|auto]. intros k0 Hk. apply in_line in Hk.
    apply Rsum_map_pos. intros k1 Hk1. apply in_line in Hk1. apply H. unfold inside; auto. }
  apply (Rsum_point _ (fun y => Rsum (map (fun z => Rsum (map (fun x => f (ri x y z)) (zseq 0 (Z.to_nat nx)))) (zseq 0 (Z.to_nat nz))))); [|auto]. intros k0 Hk. apply in_line in Hk.
  apply Rsum_map_pos. intros k1 Hk1. apply in_line in Hk1. apply Rsum_map_pos. intros k2 Hk2. apply in_line in Hk2. apply H. unfold inside; auto.
Qed.
Lemma sq_le_div q w m : 0 < w -> w <= m -> q * q <= m * (q * q / w).
Proof.
  intros Hw Hm. replace (m * (q * q / w)) with (q * q * (m * / w)) by (unfold Rdiv; ring).
  rewrite <- (Rmult_1_r (q * q)) at 1. apply Rmult_le_compat_l; [nra|]. apply (Rmult_le_reg_r w); [exact Hw|]. rewrite Rmult_assoc, Rinv_l by lra. lra.
Qed.

(** ** kinetic energy *)
Section kin.
Variables (axes comps : list axis).
Notation b a := (e_coef e (buoyancy axes a)).
Notation kin := (kinetic nx ny nz e axes comps).
Hypothesis Hb : forall a x y z, has comps a = true -> ins x y z -> 0 < b a (ri x y z).
Lemma in_has (l : list axis) a : In a l -> has l a = true.
Proof. intros H. unfold has. apply existsb_exists. exists a. split; [exact H|destruct a; reflexivity]. Qed.
Definition kin_mean (st st' : rst) : R := sum_axes comps (fun a => gs (fun i => ((st (vel a) i + st' (vel a) i) / 2) * ((st (vel a) i + st' (vel a) i) / 2) / b a i)).
Definition kin_inc (st st' : rst) : R := sum_axes comps (fun a => gs (fun i => (st' (vel a) i - st (vel a) i) * (st' (vel a) i - st (vel a) i) / b a i)).
Lemma sq_div x w : 0 < w -> 0 <= x * x / w.
Proof. intros H. unfold Rdiv. apply Rmult_le_pos; [nra|]. left. apply Rinv_0_lt_compat, H. Qed.
Lemma kin_mean_pos st st' : 0 <= kin_mean st st'.
Proof. unfold kin_mean, sum_axes. apply Rsum_map_pos. intros a Ha. apply gpos. intros x y z Hi. apply sq_div, Hb; [apply in_has, Ha|exact Hi]. Qed.
Lemma kin_inc_pos st st' : 0 <= kin_inc st st'.
Proof. unfold kin_inc, sum_axes. apply Rsum_map_pos. intros a Ha. apply gpos. intros x y z Hi. apply sq_div, Hb; [apply in_has, Ha|exact Hi]. Qed.
Lemma kin_split st st' : kin st st' = kin_mean st st' - kin_inc st st' / 4.
Proof.
  unfold kinetic, kin_mean, kin_inc, sum_axes.
  transitivity (Rsum (map (fun a => gs (fun i => ((st (vel a) i + st' (vel a) i) / 2) * ((st (vel a) i + st' (vel a) i) / 2) / b a i)) comps) +
    Rsum (map (fun a => -(1/4) * gs (fun i => (st' (vel a) i - st (vel a) i) * (st' (vel a) i - st (vel a) i) / b a i)) comps)).
  2:{ rewrite Rsum_map_mul. lra. }
  rewrite <- Rsum_map_add. apply Rsum_map_ext. intros a Ha. rewrite <- gs_mul, <- gs_add. apply gext. intros x y z Hi.
  pose proof (Hb a x y z (in_has _ _ Ha) Hi). field. lra.
Qed.
Lemma kin_next st st' : kin st' st' <= 2 * kin_mean st st' + kin_inc st st' / 2.
Proof.
  unfold kinetic, kin_mean, kin_inc, sum_axes.
  apply Rle_trans with (Rsum (map (fun a => 2 * gs (fun i => ((st (vel a) i + st' (vel a) i) / 2) * ((st (vel a) i + st' (vel a) i) / 2) / b a i)) comps) +
    Rsum (map (fun a => 1/2 * gs (fun i => (st' (vel a) i - st (vel a) i) * (st' (vel a) i - st (vel a) i) / b a i)) comps)).
  2:{ rewrite !Rsum_map_mul. lra. }
  rewrite <- Rsum_map_add. apply Rsum_map_le. intros a Ha. rewrite <- !gs_mul, <- gs_add. apply gle. intros x y z Hi.
  pose proof (Hb a x y z (in_has _ _ Ha) Hi) as Hp. unfold Rdiv. pose proof (Rinv_0_lt_compat _ Hp).
  set (w := / _) in *. clearbody w. set (u := st _ _). set (v := st' _ _). clearbody u v.
  replace (2 * ((u + v) * / 2 * ((u + v) * / 2) * w) + 1 * / 2 * ((v - u) * (v - u) * w)) with ((u * u + v * v) * w) by field.
  apply Rmult_le_compat_r; nra.
Qed.
Lemma kin_point bmax st a x y z : (forall a x y z, has comps a = true -> ins x y z -> b a (ri x y z) <= bmax) -> In a comps -> ins x y z ->
  st (vel a) (ri x y z) * st (vel a) (ri x y z) <= bmax * kin st st.
Proof.
  intros Hm Ha Hi. pose proof (Hb a x y z (in_has _ _ Ha) Hi) as B0. pose proof (Hm a x y z (in_has _ _ Ha) Hi) as B1.
  eapply Rle_trans; [apply (sq_le_div _ _ bmax B0 B1)|]. apply Rmult_le_compat_l; [lra|]. unfold kinetic, sum_axes.
  assert (P : forall a x y z, In a comps -> ins x y z -> 0 <= st (vel a) (ri x y z) * st (vel a) (ri x y z) / b a (ri x y z)) by (intros; apply sq_div, Hb; [apply in_has|]; assumption).
  eapply Rle_trans; [apply (gpoint (fun i => st (vel a) i * st (vel a) i / b a i) x y z); [intros; apply P; assumption|exact Hi]|].
  apply (Rsum_point comps (fun a => gs (fun i => st (vel a) i * st (vel a) i / b a i))); [|exact Ha]. intros a' Ha'. apply gpos. intros. apply P; assumption.
Qed.
End kin.

(** ** acoustic waves *)
Section ac.
Variable axes : list axis.
Hypothesis Hax : forall a, In a axes -> ax_ok nz a.
Notation b a := (e_coef e (buoyancy axes a)).
Notation K := (pmod e).
Hypothesis Hb : forall a x y z, has axes a = true -> ins x y z -> 0 < b a (ri x y z).
Hypothesis HK : forall x y z, ins x y z -> 0 < K (ri x y z).
Notation nosurf := (fun _ : Z => false).
Lemma buoy_ax a : has axes a = true -> buoyancy axes a = nm_s ("inverseDensityAverage" ++ up a).
Proof. intros H. unfold buoyancy. rewrite H. destruct a; reflexivity. Qed.
Lemma ac_v st st' : acoustic_step e c st axes nosurf st' -> forall a i, has axes a = true -> st' (vel a) i = st (vel a) i + b a i * D a false (st pressure) i.
Proof. intros (H & _) a i Ha. rewrite (H a i Ha), undamp by exact Hu. unfold new_vel_ac. rewrite plain, buoy_ax by assumption. reflexivity. Qed.
Lemma ac_pr st st' : acoustic_step e c st axes nosurf st' -> forall i, st' pressure i = st pressure i + K i * sum_axes axes (fun a => D a true (st' (vel a)) i).
Proof.
  intros (Hv & H & _) i. rewrite H, undamp by exact Hu. f_equal. f_equal. unfold sum_axes. apply Rsum_map_ext. intros a Ha. rewrite plain0 by exact Hu.
  apply D_eq. intros j. rewrite (Hv a j (in_has _ _ Ha)), undamp by exact Hu. reflexivity.
Qed.
Definition ac_energy (st st' : rst) : R := kinetic nx ny nz e axes axes st st' + compression nx ny nz e st.
Lemma ac_conserved st st1 st2 : acoustic_step e c st axes nosurf st1 -> acoustic_step e c st1 axes nosurf st2 -> ac_energy st1 st2 = ac_energy st st1.
Proof.
  intros S1 S2. unfold ac_energy, kinetic, compression, sum_axes.
  assert (KV : Rsum (map (fun a => gs (fun i => st1 (vel a) i * st2 (vel a) i / b a i)) axes) =
     Rsum (map (fun a => gs (fun i => st (vel a) i * st1 (vel a) i / b a i)) axes) +
     Rsum (map (fun a => - gs (fun i => (st pressure i + st1 pressure i) * D a true (st1 (vel a)) i)) axes)).
  { rewrite <- Rsum_map_add. apply Rsum_map_ext. intros a Ha. pose proof (in_has _ _ Ha) as Ha'.
    rewrite <- (adj e c useVar hybrid nx ny nz p rest DH fuel k cv g HM a (fun i => st pressure i + st1 pressure i) (st1 (vel a)) (Hax a Ha)).
    rewrite <- gs_add. apply gext. intros x y z Hi. pose proof (Hb a x y z Ha' Hi). rewrite (ac_v st1 st2 S2 a _ Ha'), D_add.
    rewrite (ac_v st st1 S1 a _ Ha') at 2. field_simplify; [|lra|lra]. rewrite (ac_v st st1 S1 a _ Ha'). field. lra. }
  rewrite KV. 
  assert (KP : gs (fun i => st1 pressure i * st1 pressure i / K i) = gs (fun i => st pressure i * st pressure i / K i) +
     Rsum (map (fun a => gs (fun i => (st pressure i + st1 pressure i) * D a true (st1 (vel a)) i)) axes)).
  { rewrite <- gs_Rsum, <- gs_add. apply gext. intros x y z Hi. pose proof (HK x y z Hi). rewrite Rsum_map_mul.
    rewrite (ac_pr st st1 S1). unfold sum_axes. field. lra. }
  rewrite KP. rewrite (Rsum_map_ext axes (fun a => - _) (fun a => -1 * gs (fun i => (st pressure i + st1 pressure i) * D a true (st1 (vel a)) i))) by (intros; lra).
  rewrite Rsum_map_mul. lra.
Qed.

Variables (bmax Kmax : R).
Hypothesis Hbm : forall a x y z, has axes a = true -> ins x y z -> b a (ri x y z) <= bmax.
Hypothesis HKm : forall x y z, ins x y z -> K (ri x y z) <= Kmax.
Hypothesis Hp : supported p.
Hypothesis Hbm0 : 0 <= bmax.
Hypothesis HKm0 : 0 <= Kmax.
Definition ac_th : R := INR (length axes) * ((fd_h p * k) * (fd_h p * k)) * (bmax * Kmax).
Lemma comp_pos st : 0 <= compression nx ny nz e st.
Proof. apply gpos. intros x y z Hi. apply sq_div, HK, Hi. Qed.
Lemma Rsum_const {T} (l : list T) w : Rsum (map (fun _ => w) l) = INR (length l) * w.
Proof. induction l as [|a l IH]; cbn [map length]; [change (Rsum []) with 0; cbn; lra|]. change (Rsum (?x :: ?y)) with (x + Rsum y). rewrite IH, S_INR. lra. Qed.
Lemma ac_inc st st' : acoustic_step e c st axes nosurf st' -> kin_inc axes axes st st' <= 4 * ac_th * compression nx ny nz e st.
Proof.
  intros S1. unfold kin_inc, sum_axes.
  assert (HC : gs (fun i => st pressure i * st pressure i) <= Kmax * compression nx ny nz e st).
  { unfold compression. rewrite <- gs_mul. apply gle. intros x y z Hi. pose proof (HK x y z Hi) as HK0. pose proof (HKm x y z Hi).
    set (q := st pressure _). replace (Kmax * (q * q / K (ri x y z))) with (q * q * (Kmax * / K (ri x y z))) by (unfold Rdiv; ring).
    rewrite <- (Rmult_1_r (q * q)) at 1. apply Rmult_le_compat_l; [nra|]. apply (Rmult_le_reg_r (K (ri x y z))); [exact HK0|]. rewrite Rmult_assoc, Rinv_l by lra. lra. }
  apply Rle_trans with (Rsum (map (fun _ => bmax * ((2 * fd_h p * k) * (2 * fd_h p * k) * (Kmax * compression nx ny nz e st))) axes)).
  - apply Rsum_map_le. intros a Ha. pose proof (in_has _ _ Ha) as Ha'.
    apply Rle_trans with (bmax * gs (fun i => D a false (st pressure) i * D a false (st pressure) i)).
    + rewrite <- gs_mul. apply gle. intros x y z Hi. pose proof (Hb a x y z Ha' Hi). pose proof (Hbm a x y z Ha' Hi). rewrite (ac_v st st' S1 a _ Ha').
      set (q := D a false _ _). replace ((st (vel a) (ri x y z) + b a (ri x y z) * q - st (vel a) (ri x y z)) * (st (vel a) (ri x y z) + b a (ri x y z) * q - st (vel a) (ri x y z)) / b a (ri x y z)) with (b a (ri x y z) * (q * q)) by (field; lra).
      apply Rmult_le_compat_r; nra.
    + apply Rmult_le_compat_l; [exact Hbm0|]. eapply Rle_trans; [apply (bound e c useVar hybrid nx ny nz p rest DH fuel k cv g HM a false (st pressure) Hp (Hax a Ha))|].
      apply Rmult_le_compat_l; [nra|exact HC].
  - rewrite Rsum_const. apply Req_le. unfold ac_th. ring.
Qed.
Lemma ac_th_pos : 0 <= ac_th.
Proof. unfold ac_th. apply Rmult_le_pos; [apply Rmult_le_pos; [apply pos_INR|nra]|apply Rmult_le_pos; assumption]. Qed.
Lemma ac_bound st st' : acoustic_step e c st axes nosurf st' -> ac_th < 1 ->
  (1 - ac_th) * compression nx ny nz e st <= ac_energy st st' /\ (1 - ac_th) * kinetic nx ny nz e axes axes st' st' <= 2 * ac_energy st st'.
Proof.
  intros S1 Ht. pose proof ac_th_pos. apply (leap_bound _ _ (kin_mean axes axes st st') (kin_inc axes axes st st')).
  - unfold ac_energy. rewrite kin_split by exact Hb. lra.
  - apply kin_mean_pos, Hb.
  - apply ac_inc, S1.
  - apply comp_pos.
  - lra.
  - apply kin_next, Hb.
Qed.
Lemma ac_point st x y z : ins x y z -> st pressure (ri x y z) * st pressure (ri x y z) <= Kmax * compression nx ny nz e st.
Proof.
  intros Hi. eapply Rle_trans; [apply (sq_le_div _ _ Kmax (HK x y z Hi) (HKm x y z Hi))|]. apply Rmult_le_compat_l; [exact HKm0|].
  apply (gpoint (fun i => st pressure i * st pressure i / K i)); [|exact Hi]. intros. apply sq_div, HK. assumption.
Qed.
End ac.
End grid.
