(** Properties C105-C108: relaxation, files and thresholds of the electromagnetic classes. *)
From Coq Require Import Reals Lra.
From Verif Require Import Base M_Grid M_Average M_Common M_Model M_ModelEM S_Model S_ModelEM L_AcqFile L_Acq2 L_Acq L_Model L_Model2 L_ModelEM L_ModelEM2 L_ModelEM3 P_ModelEM.

(** ** C105: static and real effective values are converted into each other *)
(** A medium with relaxation, [n] points. *)
Definition medium (p : eparams) (n : nat) (fc : R) (fs : list R) : Prop :=
  relaxes p fc fs /\ length (sigma p) = n /\ length (eps p) = n /\ length (tauSig p) = n /\ length (tauEps p) = n.
Lemma medium_means p n fc fs : medium p n fc fs -> relaxMeans p = Ok (Num (relA fc fs), Num (relB fc fs)).
Proof. intros (R&_). apply relaxMeans_spec. exact R. Qed.
Lemma RE_exists p n fc fs : medium p n fc fs -> exists e s, epsRE p = Ok e /\ sigmaRE p = Ok s /\ length e = n /\ length s = n.
Proof.
  intros M. pose proof (medium_means _ _ _ _ M) as R. destruct M as (_&L1&L2&L3&L4). unfold epsRE, sigmaRE. rewrite R. cbn [bind].
  destruct (zip_exists fmul (eps p) (map (fsub (Num 1)) (map (fmul (Num (relA fc fs))) (tauEps p))) n) as (a&->&La); [auto|rewrite !map_length; auto|]. cbn [bind].
  destruct (zip_exists fmul (sigma p) (tauSig p) n) as (b&->&Lb); auto. cbn [bind]. destruct (zip_exists fadd a b n) as (c&->&Lc); auto. cbn [bind].
  destruct (zip_exists fmul (eps p) (map (fmul (Num (relB fc fs))) (tauEps p)) n) as (d&->&Ld); [auto|rewrite !map_length; auto|]. cbn [bind].
  destruct (zip_exists fadd d (sigma p) n) as (h&->&Lh); auto. cbn [bind]. do 2 eexists. repeat (split; [reflexivity|]). rewrite !raise_length. auto.
Qed.
Theorem C105_effective : forall p n fc fs, medium p n fc fs -> exists e s, epsRE p = Ok e /\ sigmaRE p = Ok s /\ length e = n /\ length s = n /\
  forall i ei si te ts, at_ (eps p) i ei -> at_ (sigma p) i si -> at_ (tauEps p) i te -> at_ (tauSig p) i ts ->
    at_ e i (Rmax vacuum_permittivity (eff_eps fc fs ei si te ts)) /\ at_ s i (Rmax 0 (eff_sigma fc fs ei si te)).
Proof.
  intros p n fc fs M. destruct (RE_exists _ _ _ _ M) as (e&s&E&S&L1&L2). exists e, s. repeat (split; [assumption|]). intros i ei si te ts H1 H2 H3 H4. destruct M as (R&_).
  rewrite vacuum_eps. split; [eapply epsRE_at; eauto|eapply sigmaRE_at; eauto].
Qed.
Print Assumptions C105_effective.
Lemma Rmax_r x y : (x <= y)%R -> Rmax x y = y. Proof. apply Rmax_right. Qed.
(** From static to effective and back. *)
Theorem C105_static : forall p n fc fs, medium p n fc fs -> exists e s e' s', epsRE p = Ok e /\ sigmaRE p = Ok s /\ epsStatic p e s 2 = Ok e' /\ sigmaStatic p e s 2 = Ok s' /\
  forall i ei si te ts, at_ (eps p) i ei -> at_ (sigma p) i si -> at_ (tauEps p) i te -> at_ (tauSig p) i ts -> eff_det fc fs te ts <> 0%R ->
    (vacuum_permittivity <= ei -> 0 <= si -> vacuum_permittivity <= eff_eps fc fs ei si te ts -> 0 <= eff_sigma fc fs ei si te -> at_ e' i ei /\ at_ s' i si)%R.
Proof.
  intros p n fc fs M. destruct (RE_exists _ _ _ _ M) as (e&s&E&S&L1&L2). pose proof (medium_means _ _ _ _ M) as RM.
  destruct (epsStatic_exists p e s n _ _ RM) as (e'&E'&_); try apply M; auto. destruct (sigmaStatic_exists p e s n _ _ RM) as (s'&S'&_); try apply M; auto.
  exists e, s, e', s'. repeat (split; [assumption|]). rewrite vacuum_eps. intros i ei si te ts H1 H2 H3 H4 D P1 P2 P3 P4. destruct M as (R&_).
  pose proof (epsRE_at _ _ _ _ _ _ _ _ _ R E H1 H2 H3 H4) as A. pose proof (sigmaRE_at _ _ _ _ _ _ _ _ R S H1 H2 H3) as B. rewrite Rmax_r in A, B by assumption.
  pose proof (epsStatic_at _ _ _ _ _ _ _ _ _ _ _ R E' A B H3 H4 D) as A'. pose proof (sigmaStatic_at _ _ _ _ _ _ _ _ _ _ _ R S' A B H3 H4 D) as B'.
  assert (Q : ((eff_eps fc fs ei si te ts - eff_sigma fc fs ei si te * ts) / eff_det fc fs te ts = ei)%R) by (unfold eff_eps, eff_sigma, eff_det in *; field; exact D).
  rewrite Q in A', B'. rewrite (Rmax_r eps0 ei) in A', B' by assumption. split; [exact A'|].
  replace (eff_sigma fc fs ei si te - relB fc fs * te * ei)%R with si in B' by (unfold eff_sigma; ring). rewrite Rmax_r in B' by assumption. exact B'.
Qed.
Print Assumptions C105_static.
(** From effective to static and back; [p] supplies the relaxation strengths and mechanisms. *)
Theorem C105_back : forall p n fc fs e s, medium p n fc fs -> length e = n -> length s = n -> exists e1 s1 e' s',
  epsStatic p e s 2 = Ok e1 /\ sigmaStatic p e s 2 = Ok s1 /\
  epsRE (setField (setField p FEps e1) FSigma s1) = Ok e' /\ sigmaRE (setField (setField p FEps e1) FSigma s1) = Ok s' /\
  forall i ei si te ts, at_ e i ei -> at_ s i si -> at_ (tauEps p) i te -> at_ (tauSig p) i ts -> eff_det fc fs te ts <> 0%R ->
    let st := ((ei - si * ts) / eff_det fc fs te ts)%R in
    (vacuum_permittivity <= ei -> 0 <= si -> vacuum_permittivity <= st -> 0 <= si - relB fc fs * te * st ->
     at_ e1 i st /\ at_ s1 i (si - relB fc fs * te * st) /\ at_ e' i ei /\ at_ s' i si)%R.
Proof.
  intros p n fc fs e s M Le Ls. pose proof (medium_means _ _ _ _ M) as RM.
  destruct (epsStatic_exists p e s n _ _ RM) as (e1&E1&L1); try apply M; auto. destruct (sigmaStatic_exists p e s n _ _ RM) as (s1&S1&L2); try apply M; auto.
  set (q := setField (setField p FEps e1) FSigma s1).
  assert (F : sigma q = s1 /\ eps q = e1 /\ tauSig q = tauSig p /\ tauEps q = tauEps p /\ efreqs q = efreqs p /\ enrel q = enrel p /\ ecf q = ecf p) by (subst q; destruct p; repeat split).
  destruct F as (F1&F2&F3&F4&F5&F6&F7).
  assert (MQ : medium q n fc fs) by (destruct M as (R&_&_&M3&M4); split; [eapply relaxes_same; eauto|rewrite F1, F2, F3, F4; auto]).
  destruct (RE_exists _ _ _ _ MQ) as (e'&s'&E'&S'&_). exists e1, s1, e', s'. repeat (split; [assumption|]). rewrite vacuum_eps. intros i ei si te ts H1 H2 H3 H4 D st P1 P2 P3 P4.
  destruct M as (R&_), MQ as (RQ&_).
  pose proof (epsStatic_at _ _ _ _ _ _ _ _ _ _ _ R E1 H1 H2 H3 H4 D) as A. pose proof (sigmaStatic_at _ _ _ _ _ _ _ _ _ _ _ R S1 H1 H2 H3 H4 D) as B. fold st in A, B.
  rewrite (Rmax_r eps0 st) in A, B by assumption. rewrite Rmax_r in B by assumption. split; [exact A|]. split; [exact B|].
  rewrite <- F2 in A. rewrite <- F1 in B. rewrite <- F4 in H3. rewrite <- F3 in H4.
  pose proof (epsRE_at _ _ _ _ _ _ _ _ _ RQ E' A B H3 H4) as A'. pose proof (sigmaRE_at _ _ _ _ _ _ _ _ RQ S' A B H3) as B'.
  assert (Q1 : eff_eps fc fs st (si - relB fc fs * te * st) te ts = ei) by (subst st; unfold eff_eps, eff_det in *; field; exact D).
  assert (Q2 : eff_sigma fc fs st (si - relB fc fs * te * st) te = si) by (unfold eff_sigma; ring).
  rewrite Q1 in A'. rewrite Q2 in B'. rewrite Rmax_r in A', B' by assumption. split; assumption.
Qed.
Print Assumptions C105_back.
(** Whatever the parameters, infinities included, no value returned is below that of vacuum, no conductivity below zero. *)
Theorem C105_bounds : forall p e s t v, 
  (epsRE p = Ok v \/ epsStatic p e s t = Ok v -> forall i x, nth_error v i = Some x -> flt x (Num vacuum_permittivity) = false) /\
  (sigmaRE p = Ok v \/ sigmaStatic p e s t = Ok v -> forall i x, nth_error v i = Some x -> flt x (Num 0) = false).
Proof.
  intros p e s t v. rewrite vacuum_eps. split; intros [H|H] i x Hx.
  - unfold epsRE in H. apply bind_ok in H as ((a&b)&_&H). repeat (apply bind_ok in H as (?&_&H)). injection H as <-. eapply raise_least; eauto.
  - unfold epsStatic in H. apply bind_ok in H as ((a&b)&_&H). apply bind_ok in H as (?&_&H). injection H as <-. eapply raise_least; eauto.
  - unfold sigmaRE in H. apply bind_ok in H as ((a&b)&_&H). repeat (apply bind_ok in H as (?&_&H)). injection H as <-. eapply raise_least; eauto.
  - unfold sigmaStatic in H. apply bind_ok in H as ((a&b)&_&H). repeat (apply bind_ok in H as (?&_&H)). injection H as <-. eapply raise_least; eauto.
Qed.
Print Assumptions C105_bounds.
(** One mechanism at the centre frequency: A = 1/2, B = pi fc. *)
Lemma relA_one f : f <> 0%R -> relA f [f] = (1 / 2)%R.
Proof. intros H. unfold relA, relaxation. cbn. field. exact H. Qed.
Lemma relB_one f : f <> 0%R -> relB f [f] = (PI * f)%R.
Proof. intros H. unfold relB. cbn. field. exact H. Qed.
Definition one_point (m s e ts te : R) : eparams := mkE [Num m] [Num s] [Num e] [Num ts] [Num te] [Num 0] [Num 0] [Num 0] [] [] [1%R] 1 (Some 1%R).
Lemma one_relaxes m s e ts te : relaxes (one_point m s e ts te) 1 [1%R].
Proof. repeat split; cbn; try lia. repeat constructor; lra. Qed.
Example C105_example : let p := one_point 1 1 (4 * eps0) 0 (1 / 2) in medium p 1 1 [1%R] /\ eff_det 1 [1%R] (1 / 2) 0 = (3 / 4)%R /\
  (vacuum_permittivity <= eff_eps 1 [1%R] (4 * eps0) 1 (1 / 2) 0 /\ 0 <= eff_sigma 1 [1%R] (4 * eps0) 1 (1 / 2))%R.
Proof.
  cbv zeta. split; [split; [apply one_relaxes|repeat split]|]. unfold eff_det, eff_eps, eff_sigma. rewrite relA_one, relB_one, vacuum_eps by lra. pose proof eps0_pos. pose proof PI_RGT_0.
  split; [field|]. split; [replace (4 * eps0 * (1 - 1 / 2 * (1 / 2)) + 1 * 0)%R with (3 * eps0)%R by field; lra|]. assert (0 <= PI * eps0)%R by (apply Rmult_le_pos; lra). lra.
Qed.

(** ** C106: a model written to files is read back *)
(** Without relaxation: exactly, whatever the values (infinities and not-a-number included). *)
Theorem C106_plain : forall k p p0 petro rf, evisco k = false -> exists f q, ewrite k p petro rf = Ok f /\ efromFiles k p0 f = Ok q /\
  mu q = mu p /\ sigma q = sigma p /\ eps q = eps p /\ (petro = true -> por q = por p /\ sat q = sat p) /\ (rf = true -> refl q = refl p) /\
  (petro = false -> por q = repeat (Num 0) (length (mu p)) /\ sat q = repeat (Num 0) (length (mu p))) /\ (rf = false -> refl q = repeat (Num 0) (length (mu p))).
Proof.
  intros k p p0 petro rf V. unfold ewrite, efromFiles. rewrite V.
  assert (Z : map (fun _ => Num 0) (divBy mu0 (mu p)) = repeat (Num 0) (length (mu p))).
  { rewrite <- (divBy_len mu0 (mu p)). generalize (divBy mu0 (mu p)). intros l. induction l; cbn; congruence. }
  destruct petro, rf; do 2 eexists; (split; [reflexivity|]); cbn [f_petro f_mur f_refl f_sigma f_epsr]; (split; [reflexivity|]); cbn [mu sigma eps por sat refl];
    rewrite ?Z, (units_div mu0 _ mu0_pos), (units_div eps0 _ eps0_pos); repeat (split; [try reflexivity; try discriminate; auto|]); try discriminate; auto.
Qed.
Print Assumptions C106_plain.
(** With relaxation: at the points where nothing is limited. *)
Theorem C106_visco : forall k p p0 n fc fs petro rf, evisco k = true -> medium p n fc fs -> length (mu p) = n -> fc <> 0%R ->
  mechanisms_kept p p0 -> exists f q, ewrite k p petro rf = Ok f /\ efromFiles k p0 f = Ok q /\ mechanisms_kept p q /\ mu q = mu p /\ tauEps q = tauEps p /\
  (petro = true -> por q = por p /\ sat q = sat p) /\ (rf = true -> refl q = refl p) /\
  forall i ei si te ts, at_ (eps p) i ei -> at_ (sigma p) i si -> at_ (tauEps p) i te -> at_ (tauSig p) i ts ->
    at_ (tauSig q) i ts /\
    (eff_det fc fs te ts <> 0 -> vacuum_permittivity <= ei -> 0 <= si -> vacuum_permittivity <= eff_eps fc fs ei si te ts -> 0 <= eff_sigma fc fs ei si te ->
     at_ (eps q) i ei /\ at_ (sigma q) i si)%R.
Proof.
  intros k p p0 n fc fs petro rf V M Lm Hfc (K1&K2&K3). destruct (RE_exists _ _ _ _ M) as (e&s&E&S&Le&Ls). pose proof M as (R&M1&M2&M3&M4). pose proof R as (C&_).
  unfold ewrite, efromFiles. rewrite V, E, S, C, K3, C. cbn [bind].
  assert (T : fquot (Num 1) (Num (2 * PI * fc)) = Num (1 / (2 * PI * fc))).
  { cbn. apply fdiv_num. pose proof PI_RGT_0. apply Rmult_integral_contrapositive_currified; lra. }
  rewrite T. assert (TR : (1 / (2 * PI * fc) <> 0)%R).
  { pose proof PI_RGT_0. unfold Rdiv. rewrite Rmult_1_l. apply Rinv_neq_0_compat. apply Rmult_integral_contrapositive_currified; lra. }
  set (f := mkF (divBy mu0 (mu p)) s (divBy eps0 e) (map (fun u => fquot u (Num (1 / (2 * PI * fc)))) (tauSig p)) (tauEps p) (if petro then Some (por p, sat p) else None) (if rf then Some (refl p) else None)).
  set (tq := map (fun u => fmul u (Num (1 / (2 * PI * fc)))) (f_tsr f)).
  assert (TQ : forall i ts, at_ (tauSig p) i ts -> at_ tq i ts).
  { unfold at_, tq. cbn. intros i ts H. rewrite !map_at, H. cbn. rewrite fdiv_num by exact TR. cbn. do 2 f_equal. field. pose proof PI_RGT_0. repeat split; lra. }
  set (zero := map (fun _ => Num 0) (f_mur f)).
  assert (X : exists x y, (match f_petro f with Some q => q | None => (zero, zero) end) = (x, y) /\ (petro = true -> x = por p /\ y = sat p)).
  { subst f. cbn. destruct petro; do 2 eexists; (split; [reflexivity|]); [auto|discriminate]. }
  destruct X as (x&y&X&XP).
  set (z := match f_refl f with Some r => r | None => zero end).
  set (p1 := mkE (timesBy mu0 (f_mur f)) (sigma p0) (eps p0) tq (f_te f) x y z (sigW p0) (epsRM p0) (efreqs p0) (enrel p0) (Some fc)).
  assert (RE1 : timesBy eps0 (f_epsr f) = e) by (cbn; apply units_div, eps0_pos).
  assert (RP1 : relaxes p1 fc fs) by (apply (relaxes_same p); cbn; auto).
  pose proof (relaxMeans_spec _ _ _ RP1) as RM1.
  destruct (epsStatic_exists p1 e s n _ _ RM1) as (e1&E1&_); auto. { cbn. unfold tq. cbn. rewrite !map_length. exact M3. }
  set (p2 := setField p1 FEps e1). assert (RP2 : relaxes p2 fc fs) by (apply (relaxes_same p1); auto).
  destruct (sigmaStatic_exists p2 e s n _ _ (relaxMeans_spec _ _ _ RP2)) as (s1&S1&_); auto. { cbn. unfold tq. cbn. rewrite !map_length. exact M3. }
  exists f, (setField p2 FSigma s1). split; [reflexivity|]. split.
  { cbv zeta. fold zero. rewrite X. cbv beta iota. change (f_sigma f) with s. rewrite RE1. fold tq. fold z. fold p1. rewrite E1. cbn [bind]. fold p2. rewrite S1. reflexivity. }
  split; [repeat split; cbn; congruence|]. split; [cbn; apply units_div, mu0_pos|]. split; [reflexivity|]. split; [exact XP|].
  split; [intros ->; reflexivity|]. intros i ei si te ts H1 H2 H3 H4. split; [apply TQ; exact H4|]. rewrite vacuum_eps. intros D P1 P2 P3 P4.
  pose proof (epsRE_at _ _ _ _ _ _ _ _ _ R E H1 H2 H3 H4) as A. pose proof (sigmaRE_at _ _ _ _ _ _ _ _ R S H1 H2 H3) as B. rewrite Rmax_r in A, B by assumption.
  assert (H3' : at_ (tauEps p1) i te) by exact H3. assert (H4' : at_ (tauSig p1) i ts) by (apply TQ; exact H4).
  pose proof (epsStatic_at p1 _ _ _ _ _ _ _ _ _ _ RP1 E1 A B H3' H4' D) as A'. pose proof (sigmaStatic_at p2 _ _ _ _ _ _ _ _ _ _ RP2 S1 A B H3' H4' D) as B'.
  assert (Q : ((eff_eps fc fs ei si te ts - eff_sigma fc fs ei si te * ts) / eff_det fc fs te ts = ei)%R) by (unfold eff_eps, eff_sigma, eff_det in *; field; exact D).
  rewrite Q in A', B'. rewrite (Rmax_r eps0 ei) in A', B' by assumption. split; [exact A'|].
  replace (eff_sigma fc fs ei si te - relB fc fs * te * ei)%R with si in B' by (unfold eff_sigma; ring). rewrite Rmax_r in B' by assumption. exact B'.
Qed.
Print Assumptions C106_visco.
(** Vacuum with a relaxation strength is not read back. *)
Theorem C106_refuted : exists p f q, ecomplete ViscoTMEM 1 p /\ eps p = [Num eps0] /\ ewrite ViscoTMEM p false false = Ok f /\
  efromFiles ViscoTMEM p f = Ok q /\ eps q = [Num (4 / 3 * eps0)].
Proof.
  set (p := one_point mu0 0 eps0 0 (1 / 2)). pose proof (one_relaxes mu0 0 eps0 0 (1 / 2)) as R. fold p in R. pose proof eps0_pos as P0.
  assert (M : medium p 1 1 [1%R]) by (split; [exact R|repeat split]).
  destruct (C106_visco ViscoTMEM p p 1 1 [1%R] false false eq_refl M eq_refl ltac:(lra)) as (f&q&W&F&_&_&TE&_&_&N); [repeat split|].
  destruct (N 0%nat eps0 0%R (1 / 2)%R 0%R eq_refl eq_refl eq_refl eq_refl) as (TS&_).
  exists p, f, q. split; [repeat split; intros; right; split; [cbn; lia|discriminate]|]. split; [reflexivity|]. split; [exact W|]. split; [exact F|].
  clear N. destruct (RE_exists _ _ _ _ M) as (e&s&E&S&Le&Ls).
  pose proof (epsRE_at _ _ _ _ 0%nat eps0 0%R (1 / 2)%R 0%R R E eq_refl eq_refl eq_refl eq_refl) as A.
  pose proof (sigmaRE_at _ _ _ _ 0%nat eps0 0%R (1 / 2)%R R S eq_refl eq_refl eq_refl) as B.
  unfold eff_eps in A. rewrite relA_one in A by lra. rewrite Rmax_left in A by lra.
  unfold ewrite in W. cbn [evisco] in W. rewrite E, S in W. cbn [bind ecf p one_point] in W. injection W as <-.
  unfold efromFiles in F. cbn [evisco ecf p one_point bind f_petro f_refl f_mur f_epsr f_sigma] in F. rewrite units_div in F by exact P0.
  apply bind_ok in F as (e1&E1&F). apply bind_ok in F as (s1&S1&F). injection F as <-. cbn [eps setField].
  match type of E1 with epsStatic ?x _ _ _ = _ => set (p1 := x) in * end.
  assert (R1 : relaxes p1 1 [1%R]) by (apply (relaxes_same p); auto).
  assert (D : eff_det 1 [1%R] (1 / 2) 0 = (3 / 4)%R) by (unfold eff_det; rewrite relA_one by lra; field).
  pose proof (epsStatic_at p1 _ _ _ _ _ _ _ _ _ _ R1 E1 A B eq_refl TS ltac:(rewrite D; lra)) as A'. rewrite D in A'.
  replace ((eps0 - Rmax 0 (eff_sigma 1 [1%R] eps0 0 (1 / 2)) * 0) / (3 / 4))%R with (4 / 3 * eps0)%R in A' by field. rewrite Rmax_r in A' by lra.
  assert (L : length e1 = 1%nat). { destruct (epsStatic_exists p1 e s 1 _ _ (relaxMeans_spec _ _ _ R1)) as (u&Eu&Lu); auto. congruence. }
  destruct e1 as [|a [|]]; cbn in L; try lia. unfold at_ in A'. cbn in A'. injection A' as ->. reflexivity.
Qed.
Print Assumptions C106_refuted.

(** ** C107: thresholds *)
(** [y] is [x] limited to the interval. *)
Definition limited (lo up x y : R) : Prop := ((lo <= x <= up -> y = x) /\ (x < lo -> y = lo) /\ (up < x -> y = up))%R.
Lemma limited_ok lo up x : (lo <= up)%R -> limited lo up x (Rmin up (Rmax lo x)).
Proof. intros L. unfold limited, Rmin, Rmax. destruct (Rle_dec lo x); [destruct (Rle_dec up x)|destruct (Rle_dec up lo)]; repeat split; intros; lra. Qed.
Definition ordered (t : ethresholds) : Prop :=
  (lowSigma t <= upSigma t /\ lowEps t <= upEps t /\ lowTS t <= upTS t /\ lowTE t <= upTE t)%R /\
  (forall a b c d, thPetro t = Some (a, b, c, d) -> a <= b /\ c <= d)%R /\ (forall a b, thRefl t = Some (a, b) -> a <= b)%R.
Definition sized (p : eparams) (n : nat) : Prop :=
  length (sigma p) = n /\ length (eps p) = n /\ length (por p) = n /\ length (sat p) = n /\ length (refl p) = n.
(** What happens to porosity, saturation and reflectivity, [vac] saying whether the point is vacuum. *)
Definition petro_limited (t : ethresholds) (vac : Prop) (p q : eparams) (i : nat) : Prop :=
  (forall x, at_ (por p) i x -> exists y, at_ (por q) i y /\ (vac -> y = 0%R) /\
     (~ vac -> match thPetro t with Some (lo, up, _, _) => limited lo up x y | None => y = x end)) /\
  (forall x, at_ (sat p) i x -> exists y, at_ (sat q) i y /\ (vac -> y = 0%R) /\
     (~ vac -> match thPetro t with Some (_, _, lo, up) => limited lo up x y | None => y = x end)) /\
  (forall x, at_ (refl p) i x -> exists y, at_ (refl q) i y /\ (vac -> y = 0%R) /\
     (~ vac -> match thRefl t with Some (lo, up) => limited lo up x y | None => y = x end)).
Lemma petro_len t a b c x y z : petroLimits t a b c = (x, y, z) -> length x = length a /\ length y = length b /\ length z = length c.
Proof.
  unfold petroLimits. intros [= <- <- <-]. destruct (thPetro t) as [(((l, u), l'), u')|], (thRefl t) as [(l2, u2)|]; rewrite ?limit_len; auto.
Qed.
Lemma petro_ok t a b c x y z mask x' y' z' i er : ordered t -> petroLimits t a b c = (x, y, z) -> at_ mask i (if Req_EM_T er 1 then 0 else 1)%R ->
  zipR fmul x mask = Ok x' -> zipR fmul y mask = Ok y' -> zipR fmul z mask = Ok z' ->
  forall p q, por p = a -> sat p = b -> refl p = c -> por q = x' -> sat q = y' -> refl q = z' -> petro_limited t (er = 1%R) p q i.
Proof.
  intros (_&O1&O2) P M Ex Ey Ez p q <- <- <- <- <- <-. unfold petroLimits in P.
  assert (G : forall u v r lo up, (lo <= up)%R -> zipR fmul (limit lo up u) mask = Ok r -> at_ u i v -> exists y0, at_ r i y0 /\ (er = 1 -> y0 = 0)%R /\ (er <> 1%R -> limited lo up v y0)).
  { intros u v r lo up L E H. eexists. split; [eapply (zip_num fmul Rmult); [reflexivity|exact E|apply limit_at; eauto|exact M]|].
    destruct (Req_EM_T er 1); split; intros; try contradiction; [ring|]. rewrite Rmult_1_r. apply limited_ok. exact L. }
  assert (G0 : forall u v r, zipR fmul u mask = Ok r -> at_ u i v -> exists y0, at_ r i y0 /\ (er = 1 -> y0 = 0)%R /\ (er <> 1%R -> y0 = v)).
  { intros u v r E H. eexists. split; [eapply (zip_num fmul Rmult); [reflexivity|exact E|exact H|exact M]|].
    destruct (Req_EM_T er 1); split; intros; try contradiction; ring. }
  unfold petro_limited. destruct (thPetro t) as [(((l, u), l'), u')|] eqn:TP, (thRefl t) as [(l2, u2)|] eqn:TR; injection P as <- <- <-;
    repeat split; intros v Hv; try (eapply G; eauto; apply (O1 _ _ _ _ eq_refl) || apply (O2 _ _ eq_refl)); eapply G0; eauto.
Qed.
Theorem C107_plain : forall k t p n, evisco k = false -> ordered t -> sized p n -> exists q, ethreshold k t p = Ok q /\ sized q n /\
  forall i e s, at_ (eps p) i e -> at_ (sigma p) i s ->
    petro_limited t (e = vacuum_permittivity) p q i /\
    (e = vacuum_permittivity -> at_ (eps q) i vacuum_permittivity /\ at_ (sigma q) i 0) /\
    (e <> vacuum_permittivity -> exists e' s', at_ (eps q) i (e' * vacuum_permittivity) /\ at_ (sigma q) i s' /\
       limited (lowEps t) (upEps t) (e / vacuum_permittivity) e' /\ limited (lowSigma t) (upSigma t) s s').
Proof.
  intros k t p n V O (L1&L2&L3&L4&L5). unfold ethreshold. rewrite V. unfold plainThresholds. destruct (petroLimits t (por p) (sat p) (refl p)) as ((x, y), z) eqn:P.
  destruct (petro_len _ _ _ _ _ _ _ P) as (Lx&Ly&Lz). set (er := divBy eps0 (eps p)). assert (Ler : length er = n) by (unfold er; rewrite divBy_len; exact L2).
  destruct (zip_exists fmul (limit (lowSigma t) (upSigma t) (sigma p)) (vacuumMask er) n) as (s1&S1&LS); [rewrite limit_len; auto|rewrite mask_len; auto|]. rewrite S1. cbn [bind].
  destruct (zip_exists fmul x (vacuumMask er) n) as (x1&X1&LX); [lia|rewrite mask_len; auto|]. rewrite X1. cbn [bind].
  destruct (zip_exists fmul y (vacuumMask er) n) as (y1&Y1&LY); [lia|rewrite mask_len; auto|]. rewrite Y1. cbn [bind].
  destruct (zip_exists fmul z (vacuumMask er) n) as (z1&Z1&LZ); [lia|rewrite mask_len; auto|]. rewrite Z1. cbn [bind].
  destruct (restore_exists (limit (lowEps t) (upEps t) er) (vacuumMask er)) as (e1&E1&LE); [rewrite limit_len, mask_len; reflexivity|]. rewrite limit_len in LE. rewrite E1. cbn [bind].
  eexists. split; [reflexivity|]. split; [repeat split; cbn; lia|]. intros i e s He Hs. rewrite vacuum_eps. pose proof eps0_pos as P0.
  assert (Her : at_ er i (e / eps0)) by (apply divBy_at; [lra|exact He]). pose proof (mask_at _ _ _ Her) as Hm.
  assert (VE : (e / eps0 = 1 <-> e = eps0)%R).
  { split; intros H; [replace e with (e / eps0 * eps0)%R by (field; lra); rewrite H; ring|rewrite H; field; lra]. }
  pose proof O as ((OS&OE&_)&_).
  pose proof (restore_at _ _ _ _ _ _ E1 (limit_at _ _ _ _ _ Her OE) Hm) as He1.
  pose proof (zip_num fmul Rmult _ _ _ _ _ _ (fun _ _ => eq_refl) S1 (limit_at _ _ _ _ _ Hs OS) Hm) as Hs1.
  split.
  { pose proof (petro_ok t _ _ _ _ _ _ _ _ _ _ i (e / eps0) O P Hm X1 Y1 Z1 p (mkE (mu p) s1 e1 (tauSig p) (tauEps p) x1 y1 z1 (sigW p) (epsRM p) (efreqs p) (enrel p) (ecf p)) eq_refl eq_refl eq_refl eq_refl eq_refl eq_refl) as Q.
    unfold petro_limited in *. destruct Q as (Q1&Q2&Q3). split; [|split]; intros v Hv; [destruct (Q1 v Hv) as (w&W&W1&W2)|destruct (Q2 v Hv) as (w&W&W1&W2)|destruct (Q3 v Hv) as (w&W&W1&W2)];
      exists w; (split; [exact W|split; [intros; apply W1, VE; assumption|intros N; apply W2; intros X; apply N, VE; exact X]]). }
  cbn [eps sigma]. destruct (Req_EM_T (e / eps0) 1) as [Q|Q].
  - split; [intros _|intros N; exfalso; apply N, VE; exact Q]. split; [replace eps0 with ((((Rmin (upEps t) (Rmax (lowEps t) (e / eps0))) - 1) * 0 + 1) * eps0)%R by ring; exact He1|].
    rewrite Rmult_0_r in Hs1. exact Hs1.
  - split; [intros N; exfalso; apply Q, VE; exact N|intros _]. do 2 eexists. split; [|split; [rewrite Rmult_1_r in Hs1; exact Hs1|split; apply limited_ok; assumption]].
    replace (Rmin (upEps t) (Rmax (lowEps t) (e / eps0)) * eps0)%R with (((Rmin (upEps t) (Rmax (lowEps t) (e / eps0)) - 1) * 1 + 1) * eps0)%R by ring. exact He1.
Qed.
Print Assumptions C107_plain.
Example C107_example : let t := mkET 0 1 2 10 0 1 0 1 (Some (0, 1, 0, 1)%R) None in ordered t /\ sized (one_point 1 3 (2 * eps0) 0 0) 1.
Proof. cbv zeta. split; [|repeat split]. split; [cbn; lra|]. split; cbn; intros; try discriminate. injection H as <- <- <- <-. lra. Qed.
(** Porosity of another size (see C113) makes it fail. *)
Theorem C107_sizes : forall k t p, evisco k = false -> length (por p) <> length (eps p) -> length (sigma p) = length (eps p) -> ethreshold k t p = Throw.
Proof.
  intros k t p V N L. unfold ethreshold. rewrite V. unfold plainThresholds. destruct (petroLimits t (por p) (sat p) (refl p)) as ((x, y), z) eqn:P.
  destruct (petro_len _ _ _ _ _ _ _ P) as (Lx&_).
  destruct (zip_exists fmul (limit (lowSigma t) (upSigma t) (sigma p)) (vacuumMask (divBy eps0 (eps p))) (length (eps p))) as (s1&S1&LS); [rewrite limit_len; auto|rewrite mask_len, divBy_len; auto|].
  rewrite S1. cbn [bind]. assert (Q : zipR fmul x (vacuumMask (divBy eps0 (eps p))) = Throw).
  { assert (LM : length (vacuumMask (divBy eps0 (eps p))) = length (eps p)) by (rewrite mask_len; apply divBy_len). revert LM. generalize (vacuumMask (divBy eps0 (eps p))). intros m LM.
    assert (X : length x <> length m) by lia. clear - X. revert m X. induction x as [|u x IH]; intros [|w m] X; cbn in *; try congruence; try reflexivity. rewrite IH by lia. reflexivity. }
  rewrite Q. reflexivity.
Qed.
Print Assumptions C107_sizes.

(** With relaxation the limits hold for the effective values that are handed to the conversion into static values. *)
Theorem C108_visco : forall k t p n fc fs, evisco k = true -> ordered t -> sized p n -> medium p n fc fs -> fc <> 0%R -> exists q, ethreshold k t p = Ok q /\ sized q n /\ mechanisms_kept p q /\
  forall i e s te ts, at_ (eps p) i e -> at_ (sigma p) i s -> at_ (tauEps p) i te -> at_ (tauSig p) i ts ->
    let ee := Rmax vacuum_permittivity (eff_eps fc fs e s te ts) in let ss := Rmax 0 (eff_sigma fc fs e s te) in
    petro_limited t (ee = vacuum_permittivity) p q i /\
    (ee = vacuum_permittivity -> at_ (eps q) i vacuum_permittivity /\ at_ (sigma q) i 0 /\ at_ (tauEps q) i 0 /\ at_ (tauSig q) i 0) /\
    (ee <> vacuum_permittivity -> exists e' s' te' ts',
       limited (lowEps t) (upEps t) (ee / vacuum_permittivity) e' /\ limited (lowSigma t) (upSigma t) ss s' /\
       limited (lowTE t) (upTE t) te te' /\ limited (lowTS t) (upTS t) (ts * (2 * PI * fc)) (ts' * (2 * PI * fc)) /\
       at_ (tauEps q) i te' /\ at_ (tauSig q) i ts' /\
       (eff_det fc fs te' ts' <> 0 -> let st := Rmax vacuum_permittivity ((e' * vacuum_permittivity - s' * ts') / eff_det fc fs te' ts') in
          at_ (eps q) i st /\ at_ (sigma q) i (Rmax 0 (s' - relB fc fs * te' * st))))%R.
Proof.
  intros k t p n fc fs V O (L1&L2&L3&L4&L5) M Hfc. unfold ethreshold. rewrite V. unfold viscoThresholds. destruct (RE_exists _ _ _ _ M) as (e0&s0&E0&S0&Le0&Ls0).
  pose proof M as (R&_&_&M3&M4). pose proof R as (C&_). rewrite E0, S0, C. cbn [bind]. set (er := divBy eps0 e0). assert (Ler : length er = n) by (unfold er; rewrite divBy_len; exact Le0).
  assert (T : fquot (Num 1) (Num (2 * PI * fc)) = Num (1 / (2 * PI * fc))).
  { cbn. apply fdiv_num. pose proof PI_RGT_0. apply Rmult_integral_contrapositive_currified; lra. }
  rewrite T. set (tr := (1 / (2 * PI * fc))%R). assert (TR : (tr <> 0 /\ tr * (2 * PI * fc) = 1)%R).
  { pose proof PI_RGT_0. assert (2 * PI * fc <> 0)%R by (apply Rmult_integral_contrapositive_currified; lra). split; unfold tr; [unfold Rdiv; rewrite Rmult_1_l; apply Rinv_neq_0_compat; assumption|field; split; lra]. }
  clearbody tr. clear T. destruct TR as (TR0&TR1).
  destruct (petroLimits t (por p) (sat p) (refl p)) as ((x, y), z) eqn:P. destruct (petro_len _ _ _ _ _ _ _ P) as (Lx&Ly&Lz).
  destruct (zip_exists fmul (limit (lowSigma t) (upSigma t) s0) (vacuumMask er) n) as (s1&S1&LS); [rewrite limit_len; auto|rewrite mask_len; auto|]. rewrite S1. cbn [bind].
  destruct (zip_exists fmul (limit (lowTS t) (upTS t) (map (fun x => fquot x (Num tr)) (tauSig p))) (vacuumMask er) n) as (ts1&TS1&LTS); [rewrite limit_len, map_length; auto|rewrite mask_len; auto|]. rewrite TS1. cbn [bind].
  destruct (zip_exists fmul (limit (lowTE t) (upTE t) (tauEps p)) (vacuumMask er) n) as (te1&TE1&LTE); [rewrite limit_len; auto|rewrite mask_len; auto|]. rewrite TE1. cbn [bind].
  destruct (zip_exists fmul x (vacuumMask er) n) as (x1&X1&LX); [lia|rewrite mask_len; auto|]. rewrite X1. cbn [bind].
  destruct (zip_exists fmul y (vacuumMask er) n) as (y1&Y1&LY); [lia|rewrite mask_len; auto|]. rewrite Y1. cbn [bind].
  destruct (zip_exists fmul z (vacuumMask er) n) as (z1&Z1&LZ); [lia|rewrite mask_len; auto|]. rewrite Z1. cbn [bind].
  destruct (restore_exists (limit (lowEps t) (upEps t) er) (vacuumMask er)) as (e1&E1&LE); [rewrite limit_len, mask_len; reflexivity|]. rewrite limit_len in LE. rewrite E1. cbn [bind].
  set (ts2 := map (fun x => fmul x (Num tr)) ts1). assert (LT2 : length ts2 = n) by (unfold ts2; rewrite map_length; exact LTS).
  set (p1 := mkE (mu p) (sigma p) (eps p) ts2 te1 x1 y1 z1 (sigW p) (epsRM p) (efreqs p) (enrel p) (Some fc)).
  assert (R1 : relaxes p1 fc fs) by (apply (relaxes_same p); auto).
  destruct (epsStatic_exists p1 e1 s1 n _ _ (relaxMeans_spec _ _ _ R1)) as (e2&E2&LE2); auto; try (cbn; lia). rewrite E2. cbn [bind].
  set (p2 := setField p1 FEps e2). assert (R2 : relaxes p2 fc fs) by (apply (relaxes_same p1); auto).
  destruct (sigmaStatic_exists p2 e1 s1 n _ _ (relaxMeans_spec _ _ _ R2)) as (s2&S2&LS2); auto; try (cbn; lia). rewrite S2. cbn [bind].
  exists (setField p2 FSigma s2). split; [reflexivity|]. split; [repeat split; cbn; lia|]. split; [repeat split; cbn; congruence|].
  intros i e s te ts He Hs Hte Hts. cbv zeta. set (ee := Rmax vacuum_permittivity (eff_eps fc fs e s te ts)). set (ss := Rmax 0 (eff_sigma fc fs e s te)). pose proof eps0_pos as P0.
  pose proof (epsRE_at _ _ _ _ _ _ _ _ _ R E0 He Hs Hte Hts) as Hee. rewrite <- vacuum_eps in Hee. fold ee in Hee.
  pose proof (sigmaRE_at _ _ _ _ _ _ _ _ R S0 He Hs Hte) as Hss. fold ss in Hss. rewrite !vacuum_eps in *. clearbody ee ss.
  assert (Her : at_ er i (ee / eps0)) by (apply divBy_at; [lra|exact Hee]). pose proof (mask_at _ _ _ Her) as Hm.
  assert (VE : (ee / eps0 = 1 <-> ee = eps0)%R).
  { split; intros H; [replace ee with (ee / eps0 * eps0)%R by (field; lra); rewrite H; ring|rewrite H; field; lra]. }
  pose proof O as ((OS&OE&OTS&OTE)&_).
  pose proof (restore_at _ _ _ _ _ _ E1 (limit_at _ _ _ _ _ Her OE) Hm) as He1.
  pose proof (zip_num fmul Rmult _ _ _ _ _ _ (fun _ _ => eq_refl) S1 (limit_at _ _ _ _ _ Hss OS) Hm) as Hs1.
  pose proof (zip_num fmul Rmult _ _ _ _ _ _ (fun _ _ => eq_refl) TE1 (limit_at _ _ _ _ _ Hte OTE) Hm) as Hte1.
  assert (Hq : at_ (map (fun x => fquot x (Num tr)) (tauSig p)) i (ts * (2 * PI * fc))).
  { unfold at_ in *. rewrite map_at, Hts. cbn. rewrite fdiv_num by exact TR0. do 2 f_equal. apply Rmult_eq_reg_r with tr; [|exact TR0]. replace (ts * (2 * PI * fc) * tr)%R with (ts * (tr * (2 * PI * fc)))%R by ring. rewrite TR1. field. exact TR0. }
  pose proof (zip_num fmul Rmult _ _ _ _ _ _ (fun _ _ => eq_refl) TS1 (limit_at _ _ _ _ _ Hq OTS) Hm) as Hts1.
  assert (Hts2 : forall u, at_ ts1 i u -> at_ ts2 i (u * tr)) by (unfold at_, ts2; intros u Hu; rewrite map_at, Hu; reflexivity).
  apply Hts2 in Hts1. clear Hts2.
  split.
  { pose proof (petro_ok t _ _ _ _ _ _ _ _ _ _ i (ee / eps0) O P Hm X1 Y1 Z1 p (setField p2 FSigma s2) eq_refl eq_refl eq_refl eq_refl eq_refl eq_refl) as Q.
    unfold petro_limited in *. destruct Q as (Q1&Q2&Q3). split; [|split]; intros v Hv; [destruct (Q1 v Hv) as (w&W&W1&W2)|destruct (Q2 v Hv) as (w&W&W1&W2)|destruct (Q3 v Hv) as (w&W&W1&W2)];
      exists w; (split; [exact W|split; [intros; apply W1, VE; assumption|intros N; apply W2; intros X; apply N, VE; exact X]]). }
  assert (F1 : tauEps (setField p2 FSigma s2) = te1) by reflexivity. assert (F2 : tauSig (setField p2 FSigma s2) = ts2) by reflexivity.
  assert (F3 : eps (setField p2 FSigma s2) = e2) by reflexivity. assert (F4 : sigma (setField p2 FSigma s2) = s2) by reflexivity. rewrite F1, F2, F3, F4.
  destruct (Req_EM_T (ee / eps0) 1) as [Q|Q].
  - split; [intros _|intros N; exfalso; apply N, VE; exact Q]. rewrite Rmult_0_r in Hs1, Hte1, Hts1. rewrite Rmult_0_l in Hts1.
    replace (((Rmin (upEps t) (Rmax (lowEps t) (ee / eps0)) - 1) * 0 + 1) * eps0)%R with eps0 in He1 by ring.
    assert (D : eff_det fc fs 0 0 = 1%R) by (unfold eff_det; ring).
    pose proof (epsStatic_at p1 _ _ _ _ _ _ _ _ _ _ R1 E2 He1 Hs1 Hte1 Hts1 ltac:(rewrite D; lra)) as A. pose proof (sigmaStatic_at p2 _ _ _ _ _ _ _ _ _ _ R2 S2 He1 Hs1 Hte1 Hts1 ltac:(rewrite D; lra)) as B.
    rewrite D in A, B. replace ((eps0 - 0 * 0) / 1)%R with eps0 in A, B by field. rewrite (Rmax_left eps0 eps0) in A, B by lra.
    replace (0 - relB fc fs * 0 * eps0)%R with 0%R in B by ring. rewrite Rmax_left in B by lra. auto.
  - split; [intros N; exfalso; apply Q, VE; exact N|intros _]. rewrite Rmult_1_r in Hs1, Hte1, Hts1.
    replace (((Rmin (upEps t) (Rmax (lowEps t) (ee / eps0)) - 1) * 1 + 1) * eps0)%R with (Rmin (upEps t) (Rmax (lowEps t) (ee / eps0)) * eps0)%R in He1 by ring.
    do 4 eexists. split; [apply limited_ok; exact OE|]. split; [apply limited_ok; exact OS|]. split; [apply limited_ok; exact OTE|]. split; [|split; [exact Hte1|]; split; [exact Hts1|]].
    + match goal with |- limited _ _ _ (?u * tr * _) => replace (u * tr * (2 * PI * fc))%R with (u * (tr * (2 * PI * fc)))%R by ring end. rewrite TR1, Rmult_1_r. apply limited_ok. exact OTS.
    + intros D. cbv zeta. split; [apply (epsStatic_at p1 _ _ _ _ _ _ _ _ _ _ R1 E2 He1 Hs1 Hte1 Hts1 D)|apply (sigmaStatic_at p2 _ _ _ _ _ _ _ _ _ _ R2 S2 He1 Hs1 Hte1 Hts1 D)].
Qed.
Print Assumptions C108_visco.
(** The static values after the limits: with non-negative relaxation strengths the conductivity stays within the upper limit and
    the permittivity at or above that of vacuum, *)
Theorem C108_static : forall k t p q n fc fs, evisco k = true -> ordered t -> sized p n -> medium p n fc fs -> (0 < fc)%R -> Forall (fun f => 0 < f)%R fs -> (0 <= upSigma t)%R -> (0 <= lowTE t)%R ->
  ethreshold k t p = Ok q -> forall i e s te ts, at_ (eps p) i e -> at_ (sigma p) i s -> at_ (tauEps p) i te -> at_ (tauSig p) i ts ->
  (forall te' ts', at_ (tauEps q) i te' -> at_ (tauSig q) i ts' -> eff_det fc fs te' ts' <> 0%R) ->
  exists e' s' te' ts', at_ (eps q) i e' /\ at_ (sigma q) i s' /\ at_ (tauEps q) i te' /\ at_ (tauSig q) i ts' /\
    (vacuum_permittivity <= e' /\ 0 <= s' <= upSigma t /\ 0 <= te' <= Rmax 0 (upTE t))%R.
Proof.
  intros k t p q n fc fs V O Z M C F U LT H i e s te ts He Hs Hte Hts D. destruct (C108_visco k t p n fc fs V O Z M ltac:(lra)) as (q'&H'&_&_&N).
  assert (q' = q) by congruence. subst q'. destruct (N i e s te ts He Hs Hte Hts) as (_&N1&N2). destruct (Req_EM_T (Rmax vacuum_permittivity (eff_eps fc fs e s te ts)) vacuum_permittivity) as [Q|Q].
  - destruct (N1 Q) as (A1&A2&A3&A4). do 4 eexists. repeat (split; [eassumption|]). pose proof (Rmax_l 0 (upTE t)). lra.
  - destruct (N2 Q) as (e'&s'&te'&ts'&_&B2&B3&_&A3&A4&W). destruct (W (D _ _ A3 A4)) as (A1&A2). do 4 eexists. repeat (split; [eassumption|]).
    pose proof O as ((OS&_&_&OTE)&_). assert (T0 : (0 <= te' <= upTE t)%R).
    { destruct B3 as (X1&X2&X3). destruct (Rlt_dec te (lowTE t)) as [q1|q1]; [rewrite (X2 q1); lra|]. destruct (Rlt_dec (upTE t) te) as [q2|q2]; [rewrite (X3 q2); lra|]. rewrite X1 by lra. lra. }
    assert (S0 : (s' <= upSigma t)%R).
    { set (ss := Rmax 0 (eff_sigma fc fs e s te)) in *. destruct B2 as (X1&X2&X3). destruct (Rlt_dec ss (lowSigma t)) as [q1|q1]; [rewrite (X2 q1); lra|]. destruct (Rlt_dec (upSigma t) ss) as [q2|q2]; [rewrite (X3 q2); lra|]. rewrite X1 by lra. lra. }
    split; [apply Rmax_l|]. split; [|pose proof (Rmax_r 0 (upTE t)); lra]. split; [apply Rmax_l|]. apply Rmax_lub; [exact U|].
    set (st := Rmax _ _). assert (0 < st)%R by (pose proof eps0_pos; unfold st; rewrite vacuum_eps; eapply Rlt_le_trans; [eassumption|apply Rmax_l]).
    pose proof (relB_nonneg fc fs C F). assert (0 <= relB fc fs * te' * st)%R by (apply Rmult_le_pos; [apply Rmult_le_pos; lra|lra]). lra.
Qed.
Print Assumptions C108_static.
(** but the effective conductivity can exceed it, the more the larger the relaxation: nothing is limited here, the conductivity
    was 0 and so was its upper limit. *)
Theorem C108_refuted : exists t p q, ordered t /\ sized p 1 /\ medium p 1 1 [1%R] /\ upSigma t = 0%R /\ ethreshold ViscoTMEM t p = Ok q /\
  exists e s, at_ (eps q) 0 e /\ at_ (sigma q) 0 s /\ exists te, at_ (tauEps q) 0 te /\ (eff_sigma 1 [1%R] e s te > upSigma t)%R.
Proof.
  set (t := mkET 0 0 1 81 0 1 0 1 None None). set (p := one_point mu0 0 (4 * eps0) 0 (1 / 2)).
  assert (O : ordered t) by (split; [cbn; lra|split; cbn; intros; discriminate]). assert (Z : sized p 1) by (repeat split).
  assert (M : medium p 1 1 [1%R]) by (split; [apply one_relaxes|repeat split]).
  destruct (C108_visco ViscoTMEM t p 1 1 [1%R] eq_refl O Z M ltac:(lra)) as (q&H&_&_&N). exists t, p, q. repeat (split; [assumption || reflexivity|]).
  pose proof eps0_pos as P0. pose proof PI_RGT_0 as PP.
  destruct (N 0%nat (4 * eps0)%R 0%R (1 / 2)%R 0%R eq_refl eq_refl eq_refl eq_refl) as (_&_&N2). clear N. cbv zeta in N2.
  assert (EE : Rmax vacuum_permittivity (eff_eps 1 [1%R] (4 * eps0) 0 (1 / 2) 0) = (3 * eps0)%R).
  { unfold eff_eps. rewrite relA_one, vacuum_eps by lra. replace (4 * eps0 * (1 - 1 / 2 * (1 / 2)) + 0 * 0)%R with (3 * eps0)%R by field. apply Rmax_right. lra. }
  rewrite EE, vacuum_eps in N2. destruct N2 as (e'&s'&te'&ts'&B1&B2&B3&B4&A3&A4&W); [lra|].
  assert (e' = 3%R). { destruct B1 as (B1&_). replace (3 * eps0 / eps0)%R with 3%R in B1 by (field; lra). apply B1. cbn. lra. } subst e'.
  assert (s' = 0%R). { destruct B2 as (B1'&_&B2). cbn [lowSigma upSigma t] in B1', B2. destruct (Req_EM_T (Rmax 0 (eff_sigma 1 [1%R] (4 * eps0) 0 (1 / 2))) 0) as [Q|Q]; [rewrite B1' by lra; exact Q|apply B2]. pose proof (Rmax_l 0 (eff_sigma 1 [1%R] (4 * eps0) 0 (1 / 2))). lra. } subst s'.
  assert (te' = (1 / 2)%R) by (destruct B3 as (B3&_); apply B3; cbn; lra). subst te'.
  assert (ts' = 0%R). { destruct B4 as (B4&_). rewrite Rmult_0_l in B4. specialize (B4 ltac:(cbn; lra)). apply Rmult_integral in B4 as [B4|B4]; [exact B4|lra]. } subst ts'.
  assert (D : eff_det 1 [1%R] (1 / 2) 0 = (3 / 4)%R) by (unfold eff_det; rewrite relA_one by lra; field). rewrite D in W. destruct (W ltac:(lra)) as (A1&A2).
  replace ((3 * eps0 - 0 * 0) / (3 / 4))%R with (4 * eps0)%R in * by field. rewrite (Rmax_right eps0 (4 * eps0)) in A1, A2 by lra.
  do 2 eexists. split; [exact A1|]. split; [exact A2|]. eexists. split; [exact A3|]. unfold eff_sigma. rewrite relB_one by lra. cbn [upSigma t].
  assert (0 < PI * eps0)%R by (apply Rmult_lt_0_compat; lra). pose proof (Rmax_l 0 (0 - PI * 1 * (1 / 2) * (4 * eps0))). lra.
Qed.
Print Assumptions C108_refuted.
