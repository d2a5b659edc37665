(** Properties C111, C112: petrophysics of the electromagnetic classes. *)
From Coq Require Import Reals Lra.
From Verif Require Import Base M_Grid M_Average M_Common M_Model M_ModelEM S_Model S_ModelEM L_AcqFile L_Acq2 L_Acq L_Model L_Model2 L_ModelEM L_ModelEM2 L_ModelEM3 P_ModelEM P_ModelEM2 P_ModelEM3.

(** ** C111: rock matrix and back *)
(** The permittivity and conductivity that belong to point [i]: the vectors themselves, or with relaxation the effective ones. *)
Definition apparent (k : emkind) (fc : R) (fs : list R) (p : eparams) (i : nat) (e s : R) : Prop :=
  if evisco k then exists e0 s0 te ts, at_ (eps p) i e0 /\ at_ (sigma p) i s0 /\ at_ (tauEps p) i te /\ at_ (tauSig p) i ts /\
    e = Rmax vacuum_permittivity (eff_eps fc fs e0 s0 te ts) /\ s = Rmax 0 (eff_sigma fc fs e0 s0 te)
  else at_ (eps p) i e /\ at_ (sigma p) i s.
(** Static values for [e] and [s] exist. *)
Definition representable (k : emkind) (fc : R) (fs : list R) (p : eparams) (i : nat) (e s : R) : Prop :=
  evisco k = true -> exists te ts, at_ (tauEps p) i te /\ at_ (tauSig p) i ts /\ eff_det fc fs te ts <> 0%R /\
    let st := ((e - s * ts) / eff_det fc fs te ts)%R in (vacuum_permittivity <= st /\ 0 <= s - relB fc fs * te * st)%R.
(** Refractive index of the pores with saturation S (water 9, air 1), and of the whole rock with porosity phi and matrix r. *)
Definition pore (S : R) : R := (9 * S + 1 * (1 - S))%R.
Definition crim (phi S r : R) : R := (r * (1 - phi) + pore S * phi)%R.
Definition prepared (k : emkind) (p : eparams) (n : nat) (fc : R) (fs : list R) : Prop := if evisco k then medium p n fc fs else length (eps p) = n /\ length (sigma p) = n.

Lemma seen_exists k p n fc fs : prepared k p n fc fs -> exists e s, seenEps k p = Ok e /\ seenSigma k p = Ok s /\ length e = n /\ length s = n /\
  forall i x y, apparent k fc fs p i x y -> at_ e i x /\ at_ s i y.
Proof.
  unfold prepared, seenEps, seenSigma, apparent. destruct (evisco k).
  - intros M. destruct (RE_exists _ _ _ _ M) as (e&s&E&S&Le&Ls). exists e, s. repeat (split; [assumption|]). intros i x y (e0&s0&te&ts&H1&H2&H3&H4&->&->). destruct M as (R&_).
    rewrite vacuum_eps. split; [eapply epsRE_at; eauto|eapply sigmaRE_at; eauto].
  - intros (L1&L2). exists (eps p), (sigma p). auto 12.
Qed.
Lemma pow2 x : fpow (Num x) 2 = Num (x * x).
Proof.
  unfold fpow. destruct (Req_EM_T 2 0); [lra|]. destruct (Rlt_dec 0 x).
  - f_equal. replace 2%R with (1 + 1)%R by lra. rewrite Rpower_plus, Rpower_1 by assumption. reflexivity.
  - destruct (Req_EM_T x 0) as [->|]; [destruct (Rlt_dec 0 2); [f_equal; ring|lra]|].
    assert (I : Int_part 2 = 2). { replace 2%R with (INR 2) by (cbn; lra). apply (Int_part_INR 2). }
    unfold isInt. rewrite I. destruct (Req_EM_T 2 2); [|lra]. f_equal. cbn [powerRZ]. change (Pos.to_nat 2) with 2%nat. cbn [pow]. ring.
Qed.
Lemma sqrt81 : sqrt epsWater = 9%R. Proof. unfold epsWater. replace 81%R with (9 * 9)%R by lra. apply sqrt_square. lra. Qed.
Lemma sqrt1 : sqrt epsVacuum = 1%R. Proof. unfold epsVacuum. apply sqrt_1. Qed.
Lemma pore_exists phi s n : length phi = n -> length s = n -> exists t, poreIndex phi s = Ok t /\ length t = n /\ forall i x y, at_ phi i x -> at_ s i y -> at_ t i (pore y * x).
Proof.
  intros L1 L2. unfold poreIndex. destruct (zip_exists fadd (timesBy (sqrt epsWater) s) (timesBy (sqrt epsVacuum) (map (fsub (Num 1)) s)) n) as (t&E&L); [rewrite timesBy_len; auto|rewrite timesBy_len, map_length; auto|].
  rewrite E. cbn [bind]. destruct (zip_exists fmul t phi n) as (u&Eu&Lu); auto. exists u. split; [exact Eu|]. split; [exact Lu|]. intros i x y Hx Hy.
  assert (H1 : at_ (map (fsub (Num 1)) s) i (1 + - y)) by (unfold at_ in *; rewrite map_at, Hy; reflexivity).
  pose proof (zip_num fadd Rplus _ _ _ _ _ _ (fun _ _ => eq_refl) E (timesBy_at (sqrt epsWater) _ _ _ Hy) (timesBy_at (sqrt epsVacuum) _ _ _ H1)) as H2.
  pose proof (zip_num fmul Rmult _ _ _ _ _ _ (fun _ _ => eq_refl) Eu H2 Hx) as H3. rewrite sqrt81, sqrt1 in H3. unfold pore. replace ((9 * y + 1 * (1 - y)) * x)%R with ((y * 9 + (1 + - y) * 1) * x)%R by ring. exact H3.
Qed.
Lemma map_num (f : fpv -> fpv) (g : R -> R) v i x : f (Num x) = Num (g x) -> at_ v i x -> at_ (map f v) i (g x).
Proof. unfold at_. intros Q H. rewrite map_at, H. cbn. rewrite Q. reflexivity. Qed.
Lemma pow_pos x y : (0 < x)%R -> fpow (Num x) y = Num (Rpower x y).
Proof.
  intros P. unfold fpow. destruct (Req_EM_T y 0) as [->|]; [rewrite Rpower_O by exact P; reflexivity|]. destruct (Rlt_dec 0 x); [reflexivity|lra].
Qed.
Lemma invalid_num v w i x : at_ v i x -> at_ (replaceInvalid v w) i x.
Proof. unfold at_. intros H. rewrite replaceInvalid_at, H. reflexivity. Qed.
Lemma raise_num_at lo v i x : at_ v i x -> at_ (raise lo v) i (Rmax lo x).
Proof. unfold at_. intros H. rewrite raise_at, H. cbn [option_map]. rewrite raise_num. reflexivity. Qed.

Theorem C111_rock : forall k c p n fc fs, prepared k p n fc fs -> length (por p) = n -> length (sat p) = n -> exists r,
  rockMatrix k c p = Ok r /\ only [FSigW; FEpsRM] p r /\ mechanisms_kept p r /\ length (sigW r) = n /\ length (epsRM r) = n /\
  forall i e s phi S, apparent k fc fs p i e s -> at_ (por p) i phi -> at_ (sat p) i S -> (0 < phi < 1 -> 0 < S -> 0 <= e ->
    let x := (sqrt (e / vacuum_permittivity) - pore S * phi) / (1 - phi) in
    at_ (sigW r) i (Rmax 0 (aA c * s / (Rpower phi (mA c) * Rpower S (nA c)))) /\ at_ (epsRM r) i (Rmin 81 (Rmax 1 (x * x))))%R.
Proof.
  intros k c p n fc fs M L1 L2. destruct (seen_exists _ _ _ _ _ M) as (se&ss&E&S&Le&Ls&A). unfold rockMatrix. rewrite S, E. cbn [bind].
  destruct (zip_exists fmul (timesBy (aA c) ss) (map (fun x => fpow x (- mA c)) (por p)) n) as (s1&S1&LS1); [rewrite timesBy_len; auto|rewrite map_length; auto|]. rewrite S1. cbn [bind].
  destruct (zip_exists fmul s1 (map (fun x => fpow x (- nA c)) (sat p)) n) as (s2&S2&LS2); [auto|rewrite map_length; auto|]. rewrite S2. cbn [bind].
  destruct (pore_exists (por p) (sat p) n L1 L2) as (t&T&LT&HT). rewrite T. cbn [bind].
  destruct (zip_exists fsub (map fsqrt (divBy eps0 se)) t n) as (e1&E1&LE1); [rewrite map_length, divBy_len; auto|auto|]. rewrite E1. cbn [bind].
  destruct (zip_exists fmul e1 (map (fun x => fquot (Num 1) (fsub (Num 1) x)) (por p)) n) as (e2&E2&LE2); [auto|rewrite map_length; auto|]. rewrite E2. cbn [bind].
  eexists. split; [reflexivity|]. split; [destruct p; intros f Hf; destruct f; try reflexivity; exfalso; apply Hf; cbn; auto|]. split; [destruct p; repeat split|].
  assert (RL : forall v x, length (replaceInvalid v x) = length v) by (intros; apply map_length).
  assert (F1 : forall u v, sigW (setField (setField p FSigW u) FEpsRM v) = u) by (intros; destruct p; reflexivity).
  assert (F2 : forall u v, epsRM (setField (setField p FSigW u) FEpsRM v) = v) by (intros; destruct p; reflexivity). rewrite F1, F2.
  split; [rewrite raise_length, RL; exact LS2|]. split; [rewrite limit_len, RL, map_length; exact LE2|].
  intros i e s phi Sa Ha Hphi HSa P1 P2 P3. destruct (A _ _ _ Ha) as (He&Hs). pose proof eps0_pos as P0. rewrite vacuum_eps. cbv zeta.
  pose proof (timesBy_at (aA c) _ _ _ Hs) as B1.
  pose proof (map_num (fun x => fpow x (- mA c)) (fun x => Rpower x (- mA c)) _ _ _ (pow_pos phi (- mA c) ltac:(lra)) Hphi) as B2.
  pose proof (map_num (fun x => fpow x (- nA c)) (fun x => Rpower x (- nA c)) _ _ _ (pow_pos Sa (- nA c) ltac:(lra)) HSa) as B3.
  pose proof (zip_num fmul Rmult _ _ _ _ _ _ (fun _ _ => eq_refl) S1 B1 B2) as B4. pose proof (zip_num fmul Rmult _ _ _ _ _ _ (fun _ _ => eq_refl) S2 B4 B3) as B5.
  split.
  - replace (aA c * s / (Rpower phi (mA c) * Rpower Sa (nA c)))%R with (s * aA c * Rpower phi (- mA c) * Rpower Sa (- nA c))%R.
    + apply raise_num_at, invalid_num, B5.
    + rewrite !Rpower_Ropp. field. split; apply Rgt_not_eq, exp_pos.
  - assert (Q0 : (0 <= e / eps0)%R) by (apply Rmult_le_pos; [lra|left; apply Rinv_0_lt_compat; exact P0]).
    assert (C1 : at_ (map fsqrt (divBy eps0 se)) i (sqrt (e / eps0))).
    { apply (map_num fsqrt sqrt); [|apply divBy_at; [lra|exact He]]. cbn. destruct (Rlt_dec (e / eps0) 0); [lra|reflexivity]. }
    pose proof (HT _ _ _ Hphi HSa) as C2.
    pose proof (zip_num fsub Rminus _ _ _ _ _ _ (fun _ _ => eq_refl) E1 C1 C2) as C3.
    assert (C4 : at_ (map (fun x => fquot (Num 1) (fsub (Num 1) x)) (por p)) i (1 / (1 + - phi))).
    { apply (map_num (fun x => fquot (Num 1) (fsub (Num 1) x)) (fun x => (1 / (1 + - x)))%R); [|exact Hphi]. cbn. apply fdiv_num. lra. }
    pose proof (zip_num fmul Rmult _ _ _ _ _ _ (fun _ _ => eq_refl) E2 C3 C4) as C5. set (x := ((sqrt (e / eps0) - pore Sa * phi) * (1 / (1 + - phi)))%R) in *.
    replace ((sqrt (e / eps0) - pore Sa * phi) / (1 - phi))%R with x by (unfold x; field; lra).
    apply (limit_at epsVacuum epsWater); [|unfold epsVacuum, epsWater; lra]. apply invalid_num.
    apply (map_num (fun x => fpow x 2) (fun x => x * x)%R); [apply pow2|exact C5].
Qed.
Print Assumptions C111_rock.

(** Permittivity and conductivity from porosity, saturation and rock matrix. *)
Theorem C111_medium : forall k c p n fc fs, prepared k p n fc fs -> aA c <> 0%R -> length (por p) = n -> length (sat p) = n -> length (sigW p) = n -> length (epsRM p) = n -> exists q,
  fromPetro k c p = Ok q /\ only [FSigma; FEps] p q /\ mechanisms_kept p q /\ prepared k q n fc fs /\
  forall i w m phi S, at_ (sigW p) i w -> at_ (epsRM p) i m -> at_ (por p) i phi -> at_ (sat p) i S -> (0 < phi -> 0 < S -> 0 <= m ->
    let e := Rmin 81 (Rmax 1 (crim phi S (sqrt m) * crim phi S (sqrt m))) * vacuum_permittivity in
    let s := Rmax 0 (w / aA c * Rpower phi (mA c) * Rpower S (nA c)) in
    representable k fc fs p i e s -> apparent k fc fs q i e s)%R.
Proof.
  intros k c p n fc fs M A0 L1 L2 L3 L4. unfold fromPetro.
  destruct (zip_exists fmul (divBy (aA c) (sigW p)) (map (fun x => fpow x (mA c)) (por p)) n) as (s1&S1&LS1); [rewrite divBy_len; auto|rewrite map_length; auto|]. rewrite S1. cbn [bind].
  destruct (zip_exists fmul s1 (map (fun x => fpow x (nA c)) (sat p)) n) as (s2&S2&LS2); [auto|rewrite map_length; auto|]. rewrite S2. cbn [bind].
  destruct (pore_exists (por p) (sat p) n L1 L2) as (t&T&LT&HT). rewrite T. cbn [bind].
  destruct (zip_exists fmul (map fsqrt (epsRM p)) (map (fsub (Num 1)) (por p)) n) as (e1&E1&LE1); try (rewrite map_length; auto). rewrite E1. cbn [bind].
  destruct (zip_exists fadd e1 t n) as (e2&E2&LE2); auto. rewrite E2. cbn [bind]. cbv zeta.
  set (ev := timesBy eps0 (limit epsVacuum epsWater (map (fun x => fpow x 2) e2))). set (sv := raise 0 s2).
  assert (Lev : length ev = n) by (unfold ev; rewrite timesBy_len, limit_len, map_length; exact LE2). assert (Lsv : length sv = n) by (unfold sv; rewrite raise_length; exact LS2).
  assert (H : forall i w m phi S, at_ (sigW p) i w -> at_ (epsRM p) i m -> at_ (por p) i phi -> at_ (sat p) i S -> (0 < phi -> 0 < S -> 0 <= m ->
    at_ ev i (Rmin 81 (Rmax 1 (crim phi S (sqrt m) * crim phi S (sqrt m))) * vacuum_permittivity) /\ at_ sv i (Rmax 0 (w / aA c * Rpower phi (mA c) * Rpower S (nA c))))%R).
  { intros i w m phi Sa Hw Hm Hphi HSa P1 P2 P3. rewrite vacuum_eps. split.
    - unfold ev. apply timesBy_at. apply (limit_at epsVacuum epsWater); [|unfold epsVacuum, epsWater; lra].
      apply (map_num (fun x => fpow x 2) (fun x => x * x)%R); [apply pow2|].
      assert (C1 : at_ (map fsqrt (epsRM p)) i (sqrt m)) by (apply (map_num fsqrt sqrt); [cbn; destruct (Rlt_dec m 0); [lra|reflexivity]|exact Hm]).
      assert (C2 : at_ (map (fsub (Num 1)) (por p)) i (1 - phi)) by (apply (map_num (fsub (Num 1)) (fun x => 1 - x)%R); [reflexivity|exact Hphi]).
      pose proof (zip_num fmul Rmult _ _ _ _ _ _ (fun _ _ => eq_refl) E1 C1 C2) as C3. apply (zip_num fadd Rplus _ _ _ _ _ _ (fun _ _ => eq_refl) E2 C3 (HT _ _ _ Hphi HSa)).
    - unfold sv. apply raise_num_at.
      pose proof (map_num (fun x => fpow x (mA c)) (fun x => Rpower x (mA c)) _ _ _ (pow_pos phi (mA c) ltac:(lra)) Hphi) as B2.
      pose proof (map_num (fun x => fpow x (nA c)) (fun x => Rpower x (nA c)) _ _ _ (pow_pos Sa (nA c) ltac:(lra)) HSa) as B3.
      pose proof (zip_num fmul Rmult _ _ _ _ _ _ (fun _ _ => eq_refl) S1 (divBy_at (aA c) _ _ _ A0 Hw) B2) as B4. apply (zip_num fmul Rmult _ _ _ _ _ _ (fun _ _ => eq_refl) S2 B4 B3). }
  clearbody ev sv. unfold prepared, apparent, representable in *. destruct (evisco k) eqn:V.
  - destruct (C105_back p n fc fs ev sv M Lev Lsv) as (e3&s3&e4&s4&E3&S3&E4&S4&B). rewrite E3, S3. cbn [bind]. eexists. split; [reflexivity|].
    split; [destruct p; intros f Hf; destruct f; try reflexivity; exfalso; apply Hf; cbn; auto|]. split; [destruct p; repeat split|].
    assert (L34 : length e3 = n /\ length s3 = n).
    { destruct (epsStatic_exists p ev sv n _ _ (medium_means _ _ _ _ M)) as (u&Eu&Lu); try apply M; auto. destruct (sigmaStatic_exists p ev sv n _ _ (medium_means _ _ _ _ M)) as (u'&Eu'&Lu'); try apply M; auto.
      rewrite E3 in Eu. rewrite S3 in Eu'. injection Eu as <-. injection Eu' as <-. auto. }
    split. { destruct M as (R&_&_&M3&M4). split; [eapply relaxes_same; [..|exact R]; destruct p; reflexivity|]. destruct L34. destruct p. cbn in *. auto. }
    intros i w m phi Sa Hw Hm Hphi HSa P1 P2 P3. cbv zeta. intros Rep. destruct (H _ _ _ _ _ Hw Hm Hphi HSa P1 P2 P3) as (He&Hs). destruct (Rep eq_refl) as (te&ts&H1&H2&D&U1&U2).
    set (e := (Rmin 81 _ * _)%R) in *. set (s := Rmax 0 _) in *. set (st := ((e - s * ts) / eff_det fc fs te ts)%R) in *.
    assert (G1 : (vacuum_permittivity <= e)%R).
    { unfold e. rewrite vacuum_eps. pose proof eps0_pos. assert (1 <= Rmin 81 (Rmax 1 (crim phi Sa (sqrt m) * crim phi Sa (sqrt m))))%R by (apply Rmin_glb; [lra|apply Rmax_l]). nra. }
    assert (G2 : (0 <= s)%R) by apply Rmax_l. destruct (B i e s te ts He Hs H1 H2 D G1 G2 U1 U2) as (B1&B2&_).
    exists st, (s - relB fc fs * te * st)%R, te, ts. assert (F1 : eps (setField (setField p FSigma s3) FEps e3) = e3) by (destruct p; reflexivity). assert (F2 : sigma (setField (setField p FSigma s3) FEps e3) = s3) by (destruct p; reflexivity).
    assert (F3 : tauEps (setField (setField p FSigma s3) FEps e3) = tauEps p) by (destruct p; reflexivity). assert (F4 : tauSig (setField (setField p FSigma s3) FEps e3) = tauSig p) by (destruct p; reflexivity).
    rewrite F1, F2, F3, F4. repeat (split; [assumption|]). unfold eff_eps, eff_sigma.
    assert (Q1 : (st * (1 - relA fc fs * te) + (s - relB fc fs * te * st) * ts = e)%R).
    { replace (st * (1 - relA fc fs * te) + (s - relB fc fs * te * st) * ts)%R with (st * eff_det fc fs te ts + s * ts)%R by (unfold eff_det; ring). unfold st. field. exact D. }
    rewrite Q1. split; [symmetry; apply Rmax_right; exact G1|]. replace (s - relB fc fs * te * st + relB fc fs * te * st)%R with s by ring. symmetry. apply Rmax_right. exact G2.
  - eexists. split; [reflexivity|]. split; [destruct p; intros f Hf; destruct f; try reflexivity; exfalso; apply Hf; cbn; auto|]. split; [destruct p; repeat split|].
    split; [destruct p; cbn; auto|]. intros i w m phi Sa Hw Hm Hphi HSa P1 P2 P3. cbv zeta. intros _. destruct p. cbn. eapply H; eauto.
Qed.
Print Assumptions C111_medium.

(** Determining the rock matrix and computing the medium from it gives the medium back, where the refractive index of the matrix is
    between those of vacuum and water. *)
Theorem C111_back : forall k c p n fc fs, prepared k p n fc fs -> (0 < aA c)%R -> length (por p) = n -> length (sat p) = n -> exists r q,
  rockMatrix k c p = Ok r /\ fromPetro k c r = Ok q /\ only [FSigma; FEps; FSigW; FEpsRM] p q /\
  forall i e s phi S, apparent k fc fs p i e s -> at_ (por p) i phi -> at_ (sat p) i S -> representable k fc fs p i e s ->
    (0 < phi < 1 -> 0 < S -> 0 <= s -> e <= 81 * vacuum_permittivity -> 1 <= (sqrt (e / vacuum_permittivity) - pore S * phi) / (1 - phi) <= 9 ->
     apparent k fc fs q i e s)%R.
Proof.
  intros k c p n fc fs M A0 L1 L2. destruct (C111_rock k c p n fc fs M L1 L2) as (r&E&O&K&L3&L4&H). pose proof O as O'.
  assert (G : forall f, f <> FSigW -> f <> FEpsRM -> get r f = get p f) by (intros f N1 N2; apply O; intros [X|[X|[]]]; congruence).
  pose proof (G FPor ltac:(discriminate) ltac:(discriminate)) as G1. pose proof (G FSat ltac:(discriminate) ltac:(discriminate)) as G2. pose proof (G FSigma ltac:(discriminate) ltac:(discriminate)) as G3.
  pose proof (G FEps ltac:(discriminate) ltac:(discriminate)) as G4. pose proof (G FTauSig ltac:(discriminate) ltac:(discriminate)) as G5. pose proof (G FTauEps ltac:(discriminate) ltac:(discriminate)) as G6. cbn [get] in *.
  assert (M' : prepared k r n fc fs).
  { unfold prepared in *. destruct (evisco k); [|rewrite G3, G4; exact M]. destruct K as (K1&K2&K3), M as (R&M). split; [eapply relaxes_same; eauto|rewrite G3, G4, G5, G6; exact M]. }
  destruct (C111_medium k c r n fc fs M' ltac:(lra)) as (q&Q&OQ&_&_&HQ); [congruence|congruence|exact L3|exact L4|].
  exists r, q. split; [exact E|]. split; [exact Q|]. split. { intros f Hf. rewrite OQ, O; [reflexivity|..]; intros X; apply Hf; cbn in *; tauto. }
  intros i e s phi S Ha Hphi HS Rep P1 P2 P3 P4 P5. pose proof eps0_pos as P0. rewrite vacuum_eps in *.
  set (x := ((sqrt (e / eps0) - pore S * phi) / (1 - phi))%R) in *.
  assert (X : (crim phi S x = sqrt (e / eps0))%R) by (unfold crim, x; field; lra).
  assert (P : (1 <= pore S)%R) by (unfold pore; lra). assert (C1 : (1 <= crim phi S x)%R) by (unfold crim; nra).
  assert (E0 : (0 <= e / eps0)%R). { destruct (Rle_dec 0 (e / eps0)); [assumption|]. rewrite sqrt_neg_0 in X by lra. lra. }
  assert (E1 : (e = e / eps0 * eps0)%R) by (field; lra). assert (E2 : (0 <= e)%R) by (rewrite E1; apply Rmult_le_pos; lra).
  destruct (H i e s phi S Ha Hphi HS P1 P2 E2) as (H1&H2). fold x in H2. cbv zeta in H2.
  assert (XX : (1 <= x * x <= 81)%R) by nra. rewrite (Rmax_right 1 (x * x)), Rmin_right in H2 by lra.
  set (D := (Rpower phi (mA c) * Rpower S (nA c))%R) in *. assert (PD : (0 < D)%R) by (apply Rmult_lt_0_compat; apply exp_pos).
  assert (W : (0 <= aA c * s / D)%R) by (apply Rmult_le_pos; [apply Rmult_le_pos; lra|left; apply Rinv_0_lt_compat; exact PD]). rewrite Rmax_right in H1 by exact W.
  specialize (HQ i _ _ phi S H1 H2 ltac:(rewrite G1; exact Hphi) ltac:(rewrite G2; exact HS) ltac:(lra) P2 ltac:(lra)). cbv zeta in HQ.
  rewrite sqrt_square in HQ by lra. rewrite X, sqrt_sqrt in HQ by exact E0.
  assert (EE : (1 <= e / eps0 <= 81)%R). { assert (S1 : (1 <= sqrt (e / eps0))%R) by lra. pose proof (sqrt_sqrt (e / eps0) E0). split; [nra|]. apply Rmult_le_reg_r with eps0; [exact P0|]. rewrite <- E1. lra. }
  rewrite (Rmax_right 1 (e / eps0)), Rmin_right in HQ by lra. rewrite <- E1 in HQ.
  replace (aA c * s / D / aA c * Rpower phi (mA c) * Rpower S (nA c))%R with s in HQ.
  - rewrite Rmax_right in HQ by exact P3. apply HQ. unfold representable in *. rewrite G5, G6. exact Rep.
  - unfold D. field. split; [|split]; try lra; apply Rgt_not_eq, exp_pos.
Qed.
Print Assumptions C111_back.
(** Half rock, half water-filled pores with the permittivity of vacuum (impossible by the mixing law): the negative index is squared,
    and the medium that comes back has 64 times the permittivity. *)
Theorem C111_refuted : exists p r q, let c := mkA 1 1 1 in
  prepared TMEM p 1 0 [] /\ at_ (eps p) 0 vacuum_permittivity /\ at_ (por p) 0 (1 / 2) /\ at_ (sat p) 0 1 /\
  rockMatrix TMEM c p = Ok r /\ fromPetro TMEM c r = Ok q /\ at_ (eps q) 0 (64 * vacuum_permittivity).
Proof.
  set (p := mkE [Num 1] [Num 0] [Num vacuum_permittivity] [] [] [Num (1 / 2)] [Num 1] [Num 0] [] [] [] 0 None). set (c := mkA 1 1 1).
  assert (M : prepared TMEM p 1 0 []) by (split; reflexivity). pose proof eps0_pos as P0.
  destruct (C111_rock TMEM c p 1 0 [] M eq_refl eq_refl) as (r&E&O&K&L3&L4&H).
  assert (G : forall f, f <> FSigW -> f <> FEpsRM -> get r f = get p f) by (intros f N1 N2; apply O; intros [X|[X|[]]]; congruence).
  pose proof (G FPor ltac:(discriminate) ltac:(discriminate)) as G1. pose proof (G FSat ltac:(discriminate) ltac:(discriminate)) as G2. pose proof (G FSigma ltac:(discriminate) ltac:(discriminate)) as G3.
  pose proof (G FEps ltac:(discriminate) ltac:(discriminate)) as G4. cbn [get] in *.
  assert (M' : prepared TMEM r 1 0 []) by (unfold prepared; cbn [evisco]; rewrite G3, G4; auto).
  destruct (C111_medium TMEM c r 1 0 [] M') as (q&Q&OQ&_&_&HQ); [cbn; lra|rewrite G1; reflexivity|rewrite G2; reflexivity|exact L3|exact L4|].
  exists p, r, q. cbv zeta. split; [exact M|]. repeat (split; [reflexivity|]). split; [exact E|]. split; [exact Q|].
  destruct (H 0%nat vacuum_permittivity 0%R (1 / 2)%R 1%R) as (H1&H2); try reflexivity; [split; reflexivity|lra|lra|rewrite vacuum_eps; lra|].
  specialize (HQ 0%nat _ _ (1 / 2)%R 1%R H1 H2 ltac:(rewrite G1; reflexivity) ltac:(rewrite G2; reflexivity) ltac:(lra) ltac:(lra)).
  assert (X : ((sqrt (vacuum_permittivity / vacuum_permittivity) - pore 1 * (1 / 2)) / (1 - 1 / 2) = - 7)%R).
  { rewrite vacuum_eps. replace (eps0 / eps0)%R with 1%R by (field; lra). rewrite sqrt_1. unfold pore. field. }
  rewrite X in HQ. rewrite (Rmax_right 1 (-7 * -7)), (Rmin_right 81 (-7 * -7)) in HQ by lra. specialize (HQ ltac:(lra)). cbv zeta in HQ.
  replace (-7 * -7)%R with (7 * 7)%R in HQ by ring. rewrite sqrt_square in HQ by lra.
  assert (Y : (crim (1 / 2) 1 7 * crim (1 / 2) 1 7 = 64)%R) by (unfold crim, pore; field). rewrite Y in HQ. rewrite Rmax_right, Rmin_right in HQ by lra.
  apply HQ. discriminate.
Qed.
Print Assumptions C111_refuted.
(** A quarter of pores, half filled, in a matrix of relative permittivity 4: sqrt of the whole is 2 * 3/4 + 5 * 1/4. *)
Example C111_example : let e := ((11 / 4) * (11 / 4) * vacuum_permittivity)%R in
  (0 < 1 / 4 < 1 /\ 0 < 1 / 2 /\ e <= 81 * vacuum_permittivity /\ 1 <= (sqrt (e / vacuum_permittivity) - pore (1 / 2) * (1 / 4)) / (1 - 1 / 4) <= 9)%R.
Proof.
  cbv zeta. rewrite vacuum_eps. pose proof eps0_pos as P0. replace (11 / 4 * (11 / 4) * eps0 / eps0)%R with (11 / 4 * (11 / 4))%R by (field; lra). rewrite sqrt_square by lra. unfold pore. repeat split; lra.
Qed.

(** ** C112: saturation and porosity from the medium *)
Lemma prepared_seen k p n fc fs : prepared k p n fc fs -> exists e, seenEps k p = Ok e /\ length e = n /\ forall i x y, apparent k fc fs p i x y -> at_ e i x.
Proof. intros M. destruct (seen_exists _ _ _ _ _ M) as (e&s&E&_&L&_&H). exists e. split; [exact E|]. split; [exact L|]. intros i x y A. apply (H i x y A). Qed.
Definition petro_sized (p : eparams) (n : nat) : Prop := length (por p) = n /\ length (sat p) = n /\ length (epsRM p) = n.
(** In all modes but the exchange of porosity and saturation, and in its even calls, the saturation is computed. *)
Theorem C112_saturation : forall k m n fc fs, prepared k (epar m) n fc fs -> petro_sized (epar m) n -> exch m <> 2 \/ Z.rem (count m) 2 = 0 ->
  exists m', toPetro k m = Ok m' /\ only [FSat] (epar m) (epar m') /\ mechanisms_kept (epar m) (epar m') /\ count m' = count m + 1 /\ exch m' = exch m /\ length (sat (epar m')) = n /\
  forall i s phi S r, at_ (por (epar m)) i phi -> at_ (epsRM (epar m)) i (r * r) -> (0 <= r)%R ->
    (phi <> 0 -> 0 <= crim phi S r -> apparent k fc fs (epar m) i (crim phi S r * crim phi S r * vacuum_permittivity) s -> at_ (sat (epar m')) i S)%R /\
    (phi = 0 -> forall e, 0 <= e -> apparent k fc fs (epar m) i e s -> at_ (sat (epar m')) i 0)%R.
Proof.
  intros k m n fc fs M (L1&L2&L3) X. destruct (prepared_seen _ _ _ _ _ M) as (e&E&Le&A). unfold toPetro.
  assert (B : negb (exch m =? 2) || (Z.rem (count m) 2 =? 0) = true).
  { destruct X as [X|X]; [apply Z.eqb_neq in X; rewrite X; reflexivity|rewrite X; cbn; apply orb_true_r]. }
  rewrite B. unfold saturationFrom. rewrite E. cbn [bind]. set (p := epar m) in *.
  destruct (zip_exists fmul (map fsqrt (epsRM p)) (map (fsub (Num 1)) (por p)) n) as (t2&T2&LT2); try (rewrite map_length; auto). rewrite T2. cbn [bind].
  destruct (zip_exists fsub (map fsqrt (divBy eps0 e)) t2 n) as (t1&T1&LT1); [rewrite map_length, divBy_len; auto|auto|]. rewrite T1. cbn [bind].
  destruct (zip_exists fquot t1 (por p) n) as (t0&T0&LT0); auto. rewrite T0. cbn [bind].
  eexists. split; [reflexivity|]. cbn [epar count exch]. split; [destruct p; intros f Hf; destruct f; try reflexivity; exfalso; apply Hf; cbn; auto|]. split; [destruct p; repeat split|].
  split; [reflexivity|]. split; [reflexivity|]. assert (F : forall u, sat (setField p FSat u) = u) by (intros; destruct p; reflexivity). rewrite F.
  split; [unfold replaceInvalid; rewrite map_length, divBy_len, map_length; exact LT0|].
  intros i s phi S r Hphi Hr Pr. pose proof eps0_pos as P0. rewrite vacuum_eps, sqrt81, sqrt1.
  assert (C1 : at_ (map fsqrt (epsRM p)) i r) by (rewrite <- (sqrt_square r Pr) at 1; apply (map_num fsqrt sqrt); [cbn; destruct (Rlt_dec (r * r) 0); [nra|reflexivity]|exact Hr]).
  assert (C2 : at_ (map (fsub (Num 1)) (por p)) i (1 - phi)) by (apply (map_num (fsub (Num 1)) (fun x => 1 - x)%R); [reflexivity|exact Hphi]).
  pose proof (zip_num fmul Rmult _ _ _ _ _ _ (fun _ _ => eq_refl) T2 C1 C2) as C3.
  assert (C4 : forall x y, apparent k fc fs p i x y -> (0 <= x)%R -> at_ t1 i (sqrt (x / eps0) - r * (1 - phi))%R).
  { intros x y Hx Px. apply (zip_num fsub Rminus _ _ _ _ _ _ (fun _ _ => eq_refl) T1); [|exact C3]. apply (map_num fsqrt sqrt); [|apply divBy_at; [lra|eapply A; exact Hx]].
    cbn. destruct (Rlt_dec (x / eps0) 0) as [Q|]; [|reflexivity]. exfalso. assert (0 <= x / eps0)%R by (apply Rmult_le_pos; [exact Px|left; apply Rinv_0_lt_compat; exact P0]). lra. }
  split.
  - intros Np Pc Ap. set (q := crim phi S r) in *. assert (H : at_ t1 i (q - r * (1 - phi))).
    { replace q with (sqrt (q * q * eps0 / eps0))%R at 1 by (replace (q * q * eps0 / eps0)%R with (q * q)%R by (field; lra); apply sqrt_square; exact Pc). eapply C4; [exact Ap|]. apply Rmult_le_pos; [nra|lra]. }
    replace (q - r * (1 - phi))%R with (pore S * phi)%R in H by (unfold q, crim; ring).
    assert (H0 : at_ t0 i (pore S)).
    { apply zipR_at in T0 as (_&_&Q). unfold at_ in *. rewrite Q, H, Hphi. cbn. rewrite fdiv_num by exact Np. do 2 f_equal. field. exact Np. }
    apply invalid_num. replace S with ((pore S - 1) / (9 - 1))%R by (unfold pore; field). apply divBy_at; [lra|].
    apply (map_num (fun x => fsub x (Num 1)) (fun x => x - 1)%R); [reflexivity|exact H0].
  - intros -> e' Pe Ap. pose proof (C4 _ _ Ap Pe) as H. set (u := (sqrt (e' / eps0) - r * (1 - 0))%R) in *.
    assert (H0 : nth_error t0 i = Some (fdiv u 0)). { apply zipR_at in T0 as (_&_&Q). unfold at_ in *. rewrite Q, H, Hphi. reflexivity. }
    unfold at_. rewrite replaceInvalid_at. unfold divBy. rewrite map_at, map_at, H0. cbn [option_map]. f_equal. unfold fdiv at 1. destruct (Req_EM_T 0 0); [|lra].
    destruct (Req_EM_T u 0); [reflexivity|]. destruct (Rlt_dec 0 u); cbn; destruct (Rlt_dec (9 - 1) 0); reflexivity.
Qed.
Print Assumptions C112_saturation.
(** In the odd calls of the exchange the porosity is computed. *)
Theorem C112_porosity : forall k m n fc fs, prepared k (epar m) n fc fs -> petro_sized (epar m) n -> exch m = 2 -> Z.rem (count m) 2 = 1 ->
  exists m', toPetro k m = Ok m' /\ only [FPor] (epar m) (epar m') /\ mechanisms_kept (epar m) (epar m') /\ count m' = count m + 1 /\ exch m' = exch m /\ length (por (epar m')) = n /\
  forall i s phi S r, at_ (sat (epar m)) i S -> at_ (epsRM (epar m)) i (r * r) -> (0 <= r)%R ->
    (pore S <> r -> 0 <= crim phi S r -> apparent k fc fs (epar m) i (crim phi S r * crim phi S r * vacuum_permittivity) s -> at_ (por (epar m')) i phi)%R /\
    (pore S = r -> forall e, 0 <= e -> apparent k fc fs (epar m) i e s -> at_ (por (epar m')) i 0)%R.
Proof.
  intros k m n fc fs M (L1&L2&L3) X1 X2. destruct (prepared_seen _ _ _ _ _ M) as (e&E&Le&A). unfold toPetro. rewrite X1, X2. cbn [Z.eqb Pos.eqb negb orb].
  unfold porosityFrom. rewrite E. cbn [bind]. set (p := epar m) in *.
  destruct (zip_exists fadd (timesBy (sqrt epsWater) (sat p)) (timesBy (sqrt epsVacuum) (map (fsub (Num 1)) (sat p))) n) as (t2&T2&LT2); [rewrite timesBy_len; auto|rewrite timesBy_len, map_length; auto|]. rewrite T2. cbn [bind].
  destruct (zip_exists fsub t2 (map fsqrt (epsRM p)) n) as (t3&T3&LT3); [auto|rewrite map_length; auto|]. rewrite T3. cbn [bind].
  destruct (zip_exists fsub (map fsqrt (divBy eps0 e)) (map fsqrt (epsRM p)) n) as (t1&T1&LT1); [rewrite map_length, divBy_len; auto|rewrite map_length; auto|]. rewrite T1. cbn [bind].
  destruct (zip_exists fquot t1 t3 n) as (t0&T0&LT0); auto. rewrite T0. cbn [bind].
  eexists. split; [reflexivity|]. cbn [epar count exch]. split; [destruct p; intros f Hf; destruct f; try reflexivity; exfalso; apply Hf; cbn; auto|]. split; [destruct p; repeat split|].
  split; [reflexivity|]. split; [auto|]. assert (F : forall u, por (setField p FPor u) = u) by (intros; destruct p; reflexivity). rewrite F.
  split; [unfold replaceInvalid; rewrite map_length; exact LT0|].
  intros i s phi S r HS Hr Pr. pose proof eps0_pos as P0. rewrite vacuum_eps.
  assert (C1 : at_ (map fsqrt (epsRM p)) i r) by (rewrite <- (sqrt_square r Pr) at 1; apply (map_num fsqrt sqrt); [cbn; destruct (Rlt_dec (r * r) 0); [nra|reflexivity]|exact Hr]).
  assert (C2 : at_ t3 i (pore S - r)).
  { apply (zip_num fsub Rminus _ _ _ _ _ _ (fun _ _ => eq_refl) T3); [|exact C1].
    assert (H1 : at_ (map (fsub (Num 1)) (sat p)) i (1 - S)) by (apply (map_num (fsub (Num 1)) (fun x => 1 - x)%R); [reflexivity|exact HS]).
    pose proof (zip_num fadd Rplus _ _ _ _ _ _ (fun _ _ => eq_refl) T2 (timesBy_at (sqrt epsWater) _ _ _ HS) (timesBy_at (sqrt epsVacuum) _ _ _ H1)) as H2. rewrite sqrt81, sqrt1 in H2.
    replace (pore S) with (S * 9 + (1 - S) * 1)%R by (unfold pore; ring). exact H2. }
  assert (C4 : forall x y, apparent k fc fs p i x y -> (0 <= x)%R -> at_ t1 i (sqrt (x / eps0) - r)%R).
  { intros x y Hx Px. apply (zip_num fsub Rminus _ _ _ _ _ _ (fun _ _ => eq_refl) T1); [|exact C1]. apply (map_num fsqrt sqrt); [|apply divBy_at; [lra|eapply A; exact Hx]].
    cbn. destruct (Rlt_dec (x / eps0) 0) as [Q|]; [|reflexivity]. exfalso. assert (0 <= x / eps0)%R by (apply Rmult_le_pos; [exact Px|left; apply Rinv_0_lt_compat; exact P0]). lra. }
  split.
  - intros Np Pc Ap. set (q := crim phi S r) in *. assert (H : at_ t1 i (q - r)).
    { replace q with (sqrt (q * q * eps0 / eps0))%R at 1 by (replace (q * q * eps0 / eps0)%R with (q * q)%R by (field; lra); apply sqrt_square; exact Pc). eapply C4; [exact Ap|]. apply Rmult_le_pos; [nra|lra]. }
    replace (q - r)%R with ((pore S - r) * phi)%R in H by (unfold q, crim; ring). apply invalid_num.
    apply zipR_at in T0 as (_&_&Q). unfold at_ in *. rewrite Q, H, C2. cbn. rewrite fdiv_num by lra. do 2 f_equal. field. lra.
  - intros Np e' Pe Ap. pose proof (C4 _ _ Ap Pe) as H. set (u := (sqrt (e' / eps0) - r)%R) in *. replace (pore S - r)%R with 0%R in C2 by lra.
    assert (H0 : nth_error t0 i = Some (fdiv u 0)). { apply zipR_at in T0 as (_&_&Q). unfold at_ in *. rewrite Q, H, C2. reflexivity. }
    unfold at_. rewrite replaceInvalid_at, H0. cbn [option_map]. f_equal. unfold fdiv. destruct (Req_EM_T 0 0); [|lra]. destruct (Req_EM_T u 0); [reflexivity|]. destruct (Rlt_dec 0 u); reflexivity.
Qed.
Print Assumptions C112_porosity.
(** Together: computing the medium from porosity and saturation and then the saturation (or the porosity) from the medium gives it
    back; inside the physical ranges the limits on the permittivity are not met. *)
Lemma crim_range phi S m : (0 <= phi <= 1 -> 0 <= S <= 1 -> 1 <= m <= 81 -> 1 <= crim phi S (sqrt m) <= 9)%R.
Proof.
  intros P1 P2 P3. assert (S1 : (1 <= sqrt m <= 9)%R).
  { split; [rewrite <- sqrt_1; apply sqrt_le_1; lra|]. replace 9%R with (sqrt 81) by (replace 81%R with (9 * 9)%R by lra; apply sqrt_square; lra). apply sqrt_le_1; lra. }
  assert (S2 : (1 <= pore S <= 9)%R) by (unfold pore; lra). unfold crim. nra.
Qed.
Theorem C112_back : forall k c m n fc fs, prepared k (epar m) n fc fs -> petro_sized (epar m) n -> length (sigW (epar m)) = n -> aA c <> 0%R ->
  exists q m', fromPetro k c (epar m) = Ok q /\ toPetro k (touch m q) = Ok m' /\ 
  forall i w mm phi S, at_ (sigW (epar m)) i w -> at_ (epsRM (epar m)) i mm -> at_ (por (epar m)) i phi -> at_ (sat (epar m)) i S ->
    let e := (crim phi S (sqrt mm) * crim phi S (sqrt mm) * vacuum_permittivity)%R in
    let s := Rmax 0 (w / aA c * Rpower phi (mA c) * Rpower S (nA c)) in
    representable k fc fs (epar m) i e s ->
    (0 < phi <= 1 -> 0 < S <= 1 -> 1 <= mm <= 81 -> (exch m = 2%Z -> Z.rem (count m) 2 = 1%Z -> pore S <> sqrt mm) -> Z.le 0 (count m) ->
     at_ (por (epar m')) i phi /\ at_ (sat (epar m')) i S)%R.
Proof.
  intros k c m n fc fs M (L1&L2&L3) L4 A0. destruct (C111_medium k c (epar m) n fc fs M A0 L1 L2 L4 L3) as (q&Q&O&K&Mq&H).
  assert (G : forall f, f <> FSigma -> f <> FEps -> get q f = get (epar m) f) by (intros f N1 N2; apply O; intros [X|[X|[]]]; congruence).
  pose proof (G FPor ltac:(discriminate) ltac:(discriminate)) as G1. pose proof (G FSat ltac:(discriminate) ltac:(discriminate)) as G2. pose proof (G FEpsRM ltac:(discriminate) ltac:(discriminate)) as G3. cbn [get] in *.
  assert (PS : petro_sized (epar (touch m q)) n) by (unfold petro_sized; cbn; rewrite G1, G2, G3; auto).
  assert (AP : forall i w mm phi S, at_ (sigW (epar m)) i w -> at_ (epsRM (epar m)) i mm -> at_ (por (epar m)) i phi -> at_ (sat (epar m)) i S ->
    let e := (crim phi S (sqrt mm) * crim phi S (sqrt mm) * vacuum_permittivity)%R in let s := Rmax 0 (w / aA c * Rpower phi (mA c) * Rpower S (nA c)) in
    representable k fc fs (epar m) i e s -> (0 < phi <= 1 -> 0 < S <= 1 -> 1 <= mm <= 81 -> apparent k fc fs q i e s)%R).
  { intros i w mm phi S H1 H2 H3 H4 e s Rep P1 P2 P3. pose proof (crim_range phi S mm ltac:(lra) ltac:(lra) P3) as CR. specialize (H i w mm phi S H1 H2 H3 H4 ltac:(lra) ltac:(lra) ltac:(lra)). cbv zeta in H.
    assert (1 <= crim phi S (sqrt mm) * crim phi S (sqrt mm) <= 81)%R by nra. rewrite Rmax_right, Rmin_right in H by lra. apply H. exact Rep. }
  destruct (Z.eqb_spec (exch m) 2) as [X1|X1], (Z.eqb_spec (Z.rem (count m) 2) 1) as [X2|X2].
  - destruct (C112_porosity k (touch m q) n fc fs Mq PS X1 X2) as (m'&E&O'&_&_&_&_&B). exists q, m'. split; [exact Q|]. split; [exact E|].
    intros i w mm phi S H1 H2 H3 H4. cbv zeta. intros Rep P1 P2 P3 P4 P5. cbn [epar touch] in *. pose proof (crim_range phi S mm ltac:(lra) ltac:(lra) P3) as CR.
    split; [|pose proof (O' FSat) as Q'; cbn in Q'; rewrite Q', G2; [exact H4|intros [Q''|[]]; discriminate]].
    destruct (B i (Rmax 0 (w / aA c * Rpower phi (mA c) * Rpower S (nA c))) phi S (sqrt mm)) as (B1&_); [rewrite G2; exact H4|rewrite G3, sqrt_sqrt by lra; exact H2|apply sqrt_pos|].
    apply B1; [auto|lra|]. apply (AP i w mm phi S H1 H2 H3 H4 Rep P1 P2 P3).
  - destruct (Z.eqb_spec (Z.rem (count m) 2) 0) as [X3|X3].
    + destruct (C112_saturation k (touch m q) n fc fs Mq PS (or_intror X3)) as (m'&E&O'&_&_&_&_&B). exists q, m'. split; [exact Q|]. split; [exact E|].
      intros i w mm phi S H1 H2 H3 H4. cbv zeta. intros Rep P1 P2 P3 P4 P5. cbn [epar touch] in *. pose proof (crim_range phi S mm ltac:(lra) ltac:(lra) P3) as CR.
      split; [pose proof (O' FPor) as Q'; cbn in Q'; rewrite Q', G1; [exact H3|intros [Q''|[]]; discriminate]|].
      destruct (B i (Rmax 0 (w / aA c * Rpower phi (mA c) * Rpower S (nA c))) phi S (sqrt mm)) as (B1&_); [rewrite G1; exact H3|rewrite G3, sqrt_sqrt by lra; exact H2|apply sqrt_pos|].
      apply B1; [lra|lra|]. apply (AP i w mm phi S H1 H2 H3 H4 Rep P1 P2 P3).
    + exists q. eexists. split; [exact Q|]. split.
      * unfold toPetro. cbn [exch count touch epar]. apply Z.eqb_eq in X1. apply Z.eqb_neq in X2, X3. rewrite X1, X2, X3. cbn [negb orb bind]. reflexivity.
      * intros i w mm phi S H1 H2 H3 H4. cbv zeta. intros Rep P1 P2 P3 P4 P5. exfalso. pose proof (Z.rem_bound_pos (count m) 2 P5 ltac:(lia)). lia.
  - destruct (C112_saturation k (touch m q) n fc fs Mq PS (or_introl X1)) as (m'&E&O'&_&_&_&_&B). exists q, m'. split; [exact Q|]. split; [exact E|].
    intros i w mm phi S H1 H2 H3 H4. cbv zeta. intros Rep P1 P2 P3 P4 P5. cbn [epar touch] in *. pose proof (crim_range phi S mm ltac:(lra) ltac:(lra) P3) as CR.
    split; [pose proof (O' FPor) as Q'; cbn in Q'; rewrite Q', G1; [exact H3|intros [Q''|[]]; discriminate]|].
    destruct (B i (Rmax 0 (w / aA c * Rpower phi (mA c) * Rpower S (nA c))) phi S (sqrt mm)) as (B1&_); [rewrite G1; exact H3|rewrite G3, sqrt_sqrt by lra; exact H2|apply sqrt_pos|].
    apply B1; [lra|lra|]. apply (AP i w mm phi S H1 H2 H3 H4 Rep P1 P2 P3).
  - destruct (C112_saturation k (touch m q) n fc fs Mq PS (or_introl X1)) as (m'&E&O'&_&_&_&_&B). exists q, m'. split; [exact Q|]. split; [exact E|].
    intros i w mm phi S H1 H2 H3 H4. cbv zeta. intros Rep P1 P2 P3 P4 P5. cbn [epar touch] in *. pose proof (crim_range phi S mm ltac:(lra) ltac:(lra) P3) as CR.
    split; [pose proof (O' FPor) as Q'; cbn in Q'; rewrite Q', G1; [exact H3|intros [Q''|[]]; discriminate]|].
    destruct (B i (Rmax 0 (w / aA c * Rpower phi (mA c) * Rpower S (nA c))) phi S (sqrt mm)) as (B1&_); [rewrite G1; exact H3|rewrite G3, sqrt_sqrt by lra; exact H2|apply sqrt_pos|].
    apply B1; [lra|lra|]. apply (AP i w mm phi S H1 H2 H3 H4 Rep P1 P2 P3).
Qed.
Print Assumptions C112_back.
Example C112_example : petro_sized (mkE [Num 1] [Num 0] [Num 1] [] [] [Num (1 / 4)] [Num (1 / 2)] [Num 0] [Num 1] [Num 4] [] 0 None) 1 /\
  prepared EMEM (mkE [Num 1] [Num 0] [Num 1] [] [] [Num (1 / 4)] [Num (1 / 2)] [Num 0] [Num 1] [Num 4] [] 0 None) 1 0 [].
Proof. repeat split. Qed.
